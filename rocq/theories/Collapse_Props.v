(** C100: coarsening a triangulation by collapsing its short edges. *)
From Coq Require Import ZArith List Bool QArith Lia Lqa Sorted.
From Verif Require Import Prelude Vec ZMap Mesh_Model HashGrid_Model HashGrid_Proofs Face_Model Merge_Model Merge_Spec Merge_Proofs Mesh_Spec Mesh_Proofs Mesh_Check Face_Spec Face_Proofs
  Front_Model Front_Spec Front_Proofs Front_Finish Tune_Model Tune_Spec Tune_Proofs Tune_Relax Tune_Faces Tune_Props Collapse_Model Collapse_Spec Collapse_Proofs.
Import ListNotations.
Open Scope Z_scope.

(** ** Areas *)
Lemma areas_sides place T ids : (areas2 place T ids == sum (map (fun d => shoe (place (fst d)) (place (snd d))) (flat_map (element_sides T) ids)))%Q.
Proof.
  unfold areas2. induction ids as [|id ids IH]; [reflexivity|]. cbn [map sum fold_right flat_map]. rewrite map_app, sum_app.
  fold (sum (map (fun id => match t_get T id with Ok (Element _ [p; q; r] _) => area2 (place p) (place q) (place r) | _ => 0%Q end) ids)). rewrite IH.
  apply Qplus_comp; [|reflexivity]. unfold element_sides. destruct (t_get T id) as [[ty nds fs]| |]; [|reflexivity|reflexivity].
  cbn [e_nodes]. destruct nds as [|p [|q [|r [|]]]]; try reflexivity. cbn [sides_of map sum fold_right fst snd]. unfold area2, shoe. ring.
Qed.

Lemma areas_placed (T : table element) (f g : Z -> coord) (keep : Z -> bool) : (forall n, keep n = true -> g n = f n) ->
  (forall a b, a <> b -> keep a && keep b = false -> running (all_sides T) a b = running (all_sides T) b a) ->
  (areas2 g T (t_ids T) == areas2 f T (t_ids T))%Q.
Proof.
  intros Hk H. rewrite !areas_sides. fold (all_sides T).
  set (v := fun a b => (shoe (g a) (g b) - shoe (f a) (f b))%Q).
  set (h := fun d : Z * Z => negb (keep (fst d) && keep (snd d))%bool).
  assert (C : (sum (map (fun d => v (fst d) (snd d)) (filter h (all_sides T))) == 0)%Q).
  { apply (cancel v) with (n := length (filter h (all_sides T))); [intros; unfold v, shoe; ring|lia|].
    intros a b Hab. rewrite !running_filter. unfold h. cbn [fst snd]. rewrite (andb_comm (keep b)).
    destruct (keep a && keep b)%bool eqn:E; cbn [negb]; [reflexivity|]. now apply H. }
  assert (G : forall l, (sum (map (fun d => shoe (g (fst d)) (g (snd d))) l) ==
    sum (map (fun d => shoe (f (fst d)) (f (snd d))) l) + sum (map (fun d => v (fst d) (snd d)) (filter h l)))%Q).
  { clear C. induction l as [|d l IH]; [reflexivity|]. cbn [filter map sum fold_right].
    fold (sum (map (fun d => shoe (g (fst d)) (g (snd d))) l)). fold (sum (map (fun d => shoe (f (fst d)) (f (snd d))) l)).
    destruct (h d) eqn:E; cbn [map sum fold_right]; fold (sum (map (fun d => v (fst d) (snd d)) (filter h l))).
    - unfold v at 1. lra.
    - unfold h in E. apply negb_false_iff, andb_true_iff in E. destruct E as [K1 K2]. rewrite (Hk _ K1), (Hk _ K2). lra. }
  rewrite G. lra.
Qed.

Lemma sum_positions (F : Z -> Q) (G : Z -> Q) l : (forall k x, nth_error l k = Some x -> (F (Z.of_nat k) == G x)%Q) ->
  (sum (map F (zrange (length l))) == sum (map G l))%Q.
Proof.
  intros H. assert (A : forall l k, (forall i x, nth_error l i = Some x -> (F (Z.of_nat (k + i)) == G x)%Q) -> (sum (map F (map Z.of_nat (seq k (length l)))) == sum (map G l))%Q).
  { clear. induction l as [|x l IH]; intros k H; [reflexivity|]. cbn [length seq map sum fold_right].
    fold (sum (map F (map Z.of_nat (seq (S k) (length l))))). fold (sum (map G l)). rewrite IH.
    - specialize (H 0%nat x eq_refl). rewrite Nat.add_0_r in H. rewrite H. reflexivity.
    - intros i y Hy. rewrite Nat.add_succ_comm. now apply (H (S i)). }
  apply (A l 0%nat). exact H.
Qed.

Lemma sum_parted (G : Z -> Q) (h : Z -> bool) l : (sum (map G l) == sum (map G (filter h l)) + sum (map G (filter (fun x => negb (h x)) l)))%Q.
Proof.
  induction l as [|x l IH]; [reflexivity|]. cbn [filter map sum fold_right]. fold (sum (map G l)). rewrite IH.
  destruct (h x); cbn [negb map sum fold_right]; fold (sum (map G (filter h l))); fold (sum (map G (filter (fun x => negb (h x)) l))); ring.
Qed.

Lemma filter_agree (f g : Z -> bool) l : (forall x, In x l -> f x = g x) -> filter f l = filter g l.
Proof. induction l as [|x l IH]; intros H; [reflexivity|]. cbn. rewrite (H x) by now left. rewrite IH by (intros; apply H; now right). reflexivity. Qed.

Lemma area2_same a b c a' b' c' : a =v= a' -> b =v= b' -> c =v= c' -> (area2 a b c == area2 a' b' c')%Q.
Proof. intros (A & B & _) (C & D & _) (E & F & _). unfold area2. rewrite A, B, C, D, E, F. reflexivity. Qed.

Lemma norm_le_0 a b tol : (tol == 0)%Q -> norm_le (vsub a b) tol = true -> a =v= b.
Proof.
  intros Ht H. apply norm_le_axes in H. destruct H as (A & B & C). rewrite Ht in A, B, C. unfold vsub in *. cbn in *.
  split; [|split]; lra.
Qed.

Lemma collapsed_area size tol m m1 place name left : (tol == 0)%Q -> wf_mesh m -> refs_ok m -> only_triangles m -> proper m -> fitted m ->
  collapsed size tol m m1 place name left ->
  (total_area2 m1 + areas2 place (m_elems m) (filter (fun id => negb (existsb (Z.eqb id) left)) (t_ids (m_elems m))) == total_area2 m)%Q.
Proof.
  intros Ht Wm Rm Tm Pm Hfit C.
  assert (Whole : (areas2 place (m_elems m) (t_ids (m_elems m)) == total_area2 m)%Q).
  { destruct (border_ok m Wm) as (fixed & Eb & Hb). set (keep := fun n => match zat fixed n with Ok true => true | _ => false end).
    assert (Hin : forall n, on_border m n -> In n (t_ids (m_nodes m))).
    { intros n (fid & f & Hf & _ & Hi). pose proof (proj2 Rm _ _ Hf) as Fa. rewrite Forall_forall in Fa. auto. }
    set (g := fun n => if keep n then where_ (m_nodes m) n else place n).
    assert (Eg : (areas2 place (m_elems m) (t_ids (m_elems m)) == areas2 g (m_elems m) (t_ids (m_elems m)))%Q).
    { assert (Pg : forall n, In n (t_ids (m_nodes m)) -> g n = place n).
      { intros n Hn. unfold g, keep. destruct (Hb n Hn) as [[A B]|[A B]]; rewrite A; [|reflexivity].
        destruct (wf_get _ _ (proj1 Wm) Hn) as [c Hc]. rewrite (where_of _ _ _ Hc). symmetry. exact (co_border _ _ _ _ _ _ _ C n c B Hc). }
      unfold areas2. induction (t_ids (m_elems m)) as [|id ids IH]; [reflexivity|]. cbn [map sum fold_right]. apply Qplus_comp; [|exact IH].
      destruct (t_get (m_elems m) id) as [[ty nds fs]| |] eqn:E; [|reflexivity|reflexivity]. pose proof (proj1 Rm _ _ E) as Fa. cbn [e_nodes] in Fa. rewrite Forall_forall in Fa.
      destruct nds as [|p [|q [|r [|]]]]; try reflexivity. rewrite !Pg by (apply Fa; cbn; auto). reflexivity. }
    rewrite Eg. change (total_area2 m) with (areas2 (where_ (m_nodes m)) (m_elems m) (t_ids (m_elems m))). apply (areas_placed (m_elems m) (where_ (m_nodes m)) g keep).
    - intros n Hk. unfold g. now rewrite Hk.
    - intros a b Hab Hk. destruct (Z.eq_dec (net m a b) 0) as [E|E]; [unfold net in E; lia|]. exfalso. destruct (Hfit a b E) as [Ha Hb'].
      assert (K : forall n, on_border m n -> keep n = true).
      { intros n Hn. unfold keep. destruct (Hb n (Hin n Hn)) as [[A _]|[_ A]]; [now rewrite A|contradiction]. }
      rewrite (K a Ha), (K b Hb') in Hk. discriminate. }
  rewrite <- Whole. destruct (co_left _ _ _ _ _ _ _ C) as (keep & El).
  assert (El' : left = filter (fun id => existsb (Z.eqb id) left) (t_ids (m_elems m))).
  { rewrite El at 1. apply filter_agree. intros x Hx. destruct (keep x) eqn:E; symmetry.
    - apply existsb_exists. exists x. split; [rewrite El; apply filter_In; auto|apply Z.eqb_refl].
    - destruct (existsb (Z.eqb x) left) eqn:E'; [|reflexivity]. apply existsb_exists in E'. destruct E' as (y & Hy & Hxy). apply Z.eqb_eq in Hxy. subst y. rewrite El in Hy. apply filter_In in Hy. destruct Hy. congruence. }
  unfold areas2 at 2. rewrite (sum_parted _ (fun id => existsb (Z.eqb id) left)). rewrite <- El'.
  apply Qplus_comp; [|reflexivity]. unfold total_area2. rewrite (co_elem_ids _ _ _ _ _ _ _ C). apply sum_positions.
  intros k id Hk. assert (Hi : In id (t_ids (m_elems m))) by (apply nth_error_In in Hk; rewrite El in Hk; now apply filter_In in Hk).
  destruct (wf_get _ _ (proj2 (proj2 Wm)) Hi) as [e He]. destruct (Pm _ _ He (Tm _ _ He)) as (p & q & r & En & _).
  assert (Tr : triangle m id p q r) by (exists (e_faces e); rewrite He; pose proof (Tm _ _ He); destruct e; cbn in *; congruence).
  destruct (co_elems _ _ _ _ _ _ _ C k id p q r Hk Tr) as (fs & E1). rewrite E1. destruct Tr as (fs0 & E0). rewrite E0.
  pose proof (proj1 Rm _ _ E0) as Fa. cbn [e_nodes] in Fa. rewrite Forall_forall in Fa.
  assert (S : forall a, In a [p; q; r] -> where_ (m_nodes m1) (name a) =v= place a).
  { intros a Ha. destruct (co_name _ _ _ _ _ _ _ C a (Fa a Ha)) as (c & Hc & Hn). rewrite (where_of _ _ _ Hc). apply (norm_le_0 _ _ tol Ht) in Hn.
    destruct Hn as (X & Y & Z0). split; [now symmetry|split; now symmetry]. }
  apply area2_same; apply S; cbn; auto.
Qed.

(** ** Faces *)
Lemma spread_apart m id p q r cp cq cr : triangle m id p q r -> t_get (m_nodes m) p = Ok cp -> t_get (m_nodes m) q = Ok cq -> t_get (m_nodes m) r = Ok cr ->
  ~ cp =v= cr -> spread m.
Proof.
  intros [fs Ht] Gp Gq Gr Ar. set (e := Element ET_TRIANGLE [p; q; r] fs) in *.
  destruct (flat_cells_ok e (or_introl eq_refl) eq_refl) as (l & El & Em).
  assert (Hex : forall a b, In (a, b) [(p, q); (q, r); (r, p)] -> exists f, In f l /\ f_nodes f = [a; b]).
  { intros a b Hab. assert (Hin : In (FT_LINE, [a; b]) (map (fun f => (f_type f, f_nodes f)) l)).
    { rewrite Em. apply in_map_iff. exists (a, b). split; [reflexivity|exact Hab]. }
    apply in_map_iff in Hin. destruct Hin as (f & [= _ E] & Hf). eauto. }
  destruct (Hex p q) as (f1 & F1 & N1); [cbn; auto|]. destruct (Hex q r) as (f2 & F2 & N2); [cbn; auto|].
  assert (C1 : centre_of m (f_nodes f1) (mean [cp; cq])) by (exists [cp; cq]; rewrite N1; unfold coords; cbn [map]; rewrite Gp, Gq; auto).
  assert (C2 : centre_of m (f_nodes f2) (mean [cq; cr])) by (exists [cq; cr]; rewrite N2; unfold coords; cbn [map]; rewrite Gq, Gr; auto).
  exists id, e, l, f1, (mean [cp; cq]), id, e, l, f2, (mean [cq; cr]).
  split; [auto|]. split; [auto|]. intros (X & Y & Z0). unfold mean in X, Y, Z0. cbn in X, Y, Z0. apply Ar. split; [|split]; lra.
Qed.

Lemma no_faces n tol m : 1 <= n -> t_ids (m_elems m) = [] -> exists m', generateFaces n tol m = Ok (m', 0) /\ m_nodes m' = m_nodes m /\ m_elems m' = m_elems m /\ m_faces m' = t_empty.
Proof.
  intros Hn E. unfold generateFaces. rewrite E. cbn [foldM bind fst snd t_ids t_empty with_ids mapM]. unfold grid_of, grid_build.
  cbn [fold_left map mapM bind g_objs grid_new g_list g_ptr g_box].
  rewrite (two_pass_ok (n * n * n) [] []) by (auto; nia). cbn [bind foldM]. eexists. split; [reflexivity|]. cbn. auto.
Qed.

Lemma collapsed_same size tol m m1 m' place name left : collapsed size tol m m1 place name left -> m_nodes m' = m_nodes m1 -> t_ids (m_elems m') = t_ids (m_elems m1) ->
  (forall id p q r, triangle m1 id p q r -> triangle m' id p q r) ->
  (forall id e', t_get (m_elems m') id = Ok e' -> exists e, t_get (m_elems m1) id = Ok e /\ e_type e' = e_type e /\ e_nodes e' = e_nodes e) ->
  collapsed size tol m m' place name left.
Proof.
  intros C En Ei Ht Hb. destruct C. constructor; rewrite ?En, ?Ei; auto.
  - intros k id p q r H1 H2. apply Ht. eauto.
  - intros id e' He. destruct (Hb id e' He) as (e & A & -> & ->). eauto.
Qed.

Lemma flat_map_ext_in' {A B} (f g : A -> list B) l : (forall x, In x l -> f x = g x) -> flat_map f l = flat_map g l.
Proof. induction l as [|x l IH]; intros H; [reflexivity|]. cbn. rewrite (H x) by now left. rewrite IH by (intros; apply H; now right). reflexivity. Qed.

(** ** The claim *)
(** On a triangulation with different places on its border collapsing succeeds. Its nodes move in short hops and those of the border not at all; nodes within the tolerance
    are made one; the triangles that remain keep their corners; a triangle goes only if corners of it fall together or a side of it was short. The first triangle with a
    short side that ends inside does go. Without tolerance the area changes by that of the triangles which go (measured where their corners end up). *)
Theorem C100_collapse : forall n n' size tol m, 1 <= n <= int_max -> 1 <= n' <= int_max -> (0 <= tol)%Q -> wf_mesh m -> refs_ok m -> face_refs_ok m ->
  (forall id e, t_get (m_elems m) id = Ok e -> e_type e = ET_TRIANGLE) -> proper m -> StronglySorted Z.lt (t_ids (m_nodes m)) ->
  (exists a b ca cb, on_border m a /\ on_border m b /\ t_get (m_nodes m) a = Ok ca /\ t_get (m_nodes m) b = Ok cb /\ ~ (ca =v= cb)) ->
  exists m' place name left, collapseEdges n n' size tol m = Ok m' /\ wf_mesh m' /\ refs_ok m' /\ collapsed size tol m m' place name left /\
    (forall pre id post, t_ids (m_elems m) = pre ++ id :: post -> shrinking size m id -> (forall k, In k pre -> ~ shrinking size m k) -> ~ In id left) /\
    ((forall id, ~ shrinking size m id) -> (forall a c, t_get (m_nodes m) a = Ok c -> place a = c) /\
       (forall id p q r, triangle m id p q r -> NoDup [name p; name q; name r] -> In id left)) /\
    (fitted m -> (tol == 0)%Q ->
       (total_area2 m' + areas2 place (m_elems m) (filter (fun id => negb (existsb (Z.eqb id) left)) (t_ids (m_elems m))) == total_area2 m)%Q) /\
    (once m' -> linked m' /\ owned m' /\ fitted m').
Proof.
  intros n n' size tol m Hn Hn' Ht Wm Rm Fm Tm Pm Hs Hb.
  destruct (collapse_ok n size tol m Hn Ht Wm Rm Fm Tm Pm Hs Hb) as (m1 & place & name & left & E & W1 & R1 & C & Hno & Hfirst).
  assert (T1 : only_triangles m1) by (intros id e He; apply (co_proper _ _ _ _ _ _ _ C id e He)).
  assert (P1 : proper m1) by (intros id e He _; apply (co_proper _ _ _ _ _ _ _ C id e He)).
  assert (F : exists m' nb, generateFaces n' tol m1 = Ok (m', nb) /\ m_nodes m' = m_nodes m1 /\ wf_mesh m' /\ refs_ok m' /\ t_ids (m_elems m') = t_ids (m_elems m1) /\
     (forall id e', t_get (m_elems m') id = Ok e' -> exists e, t_get (m_elems m1) id = Ok e /\ e_type e' = e_type e /\ e_nodes e' = e_nodes e) /\
     (forall id p q r, triangle m' id p q r <-> triangle m1 id p q r) /\ (once m' -> linked m' /\ owned m' /\ fitted m')).
  { destruct (t_ids (m_elems m1)) as [|id l] eqn:El.
    - destruct (no_faces n' tol m1) as (m' & E' & A & B & D); [lia|exact El|]. exists m', 0. split; [exact E'|]. split; [exact A|].
      assert (Nf : forall fid f, t_get (m_faces m') fid = Ok f -> False) by (rewrite D; intros fid f Hf; discriminate).
      assert (Ns : forall a b, net m' a b = 0) by (intros a b; unfold net, all_sides; rewrite B, El; reflexivity).
      split; [split; [rewrite A; apply W1|split; [rewrite D; now apply wf_tableb_ok|rewrite B; apply W1]]|]. split; [split; [rewrite A, B; apply R1|intros fid f Hf; destruct (Nf fid f Hf)]|].
      split; [now rewrite B|]. split; [rewrite B; eauto|]. split; [intros; unfold triangle; rewrite B; reflexivity|].
      intros _. split; [intros fid f e Hf; destruct (Nf fid f Hf)|]. split; [intros fid f Hf; destruct (Nf fid f Hf)|]. intros a b H. now rewrite Ns in H.
    - rewrite <- El. destruct (wf_get (m_elems m1) id (proj2 (proj2 W1))) as [e He]; [rewrite El; now left|].
      destruct (co_proper _ _ _ _ _ _ _ C id e He) as (Et & p & q & r & En & _ & Hrp & _).
      assert (Tr : triangle m1 id p q r) by (exists (e_faces e); rewrite He; destruct e; cbn in *; congruence).
      pose proof (proj1 R1 _ _ He) as Fa. rewrite En, Forall_forall in Fa.
      destruct (wf_get _ p (proj1 W1)) as [cp Hp]; [apply Fa; cbn; auto|]. destruct (wf_get _ q (proj1 W1)) as [cq Hq]; [apply Fa; cbn; auto|]. destruct (wf_get _ r (proj1 W1)) as [cr Hr]; [apply Fa; cbn; auto|].
      assert (Sp : spread m1).
      { apply (spread_apart m1 id p q r cp cq cr Tr Hp Hq Hr). intros X. pose proof (co_apart _ _ _ _ _ _ _ C r p cr cp Hrp Hr Hp) as Y.
        rewrite norm_le_zero in Y; [discriminate| |exact Ht]. destruct X as (X1 & X2 & X3). unfold vsub, vzero. split; [|split]; cbn; lra. }
      assert (Hen : enough m1) by (apply proper_enough; [exact P1|]; intros i x Hi N; now destruct (N (T1 i x Hi))).
      destruct (pairing_ok n' tol m1 Hn' Ht W1 R1 Hen Sp) as (m' & nb & E' & A & W' & R' & Ei & Hel & _).
      exists m', nb. split; [exact E'|]. split; [exact A|]. split; [exact W'|]. split; [exact R'|]. split; [exact Ei|].
      assert (Back : forall id e', t_get (m_elems m') id = Ok e' -> exists e, t_get (m_elems m1) id = Ok e /\ e_type e' = e_type e /\ e_nodes e' = e_nodes e).
      { intros i e' Hi. pose proof (wf_get_in _ _ _ (proj2 (proj2 W')) Hi) as Hin. rewrite Ei in Hin. destruct (wf_get _ _ (proj2 (proj2 W1)) Hin) as [e1 He1].
        destruct (Hel i e1 He1) as (e2 & _ & X & Y & Z0 & _). exists e1. split; [exact He1|]. assert (e2 = e') by congruence. subst. auto. }
      assert (Iff : forall id p q r, triangle m' id p q r <-> triangle m1 id p q r).
      { intros i a b c. split.
        - intros [fs Hf]. destruct (Back _ _ Hf) as (e1 & He1 & X & Y). cbn in X, Y. exists (e_faces e1). rewrite He1. destruct e1; cbn in *; congruence.
        - intros [fs Hf]. destruct (Hel _ _ Hf) as (e2 & _ & He2 & X & Y & _). cbn in X, Y. exists (e_faces e2). rewrite He2. destruct e2; cbn in *; congruence. }
      split; [exact Back|]. split; [exact Iff|]. intros On.
      assert (On1 : once m1).
      { intros a b. specialize (On a b). unfold all_sides in *. rewrite Ei in On. replace (flat_map (element_sides (m_elems m1)) (t_ids (m_elems m1))) with (flat_map (element_sides (m_elems m')) (t_ids (m_elems m1))); [exact On|].
        apply flat_map_ext_in'. intros i Hi. rewrite <- Ei in Hi. destruct (wf_get _ _ (proj2 (proj2 W')) Hi) as [e' He']. destruct (Back _ _ He') as (e1 & He1 & _ & Y). unfold element_sides. now rewrite He', He1, Y. }
      destruct (faces_ok n' tol m1 Hn' Ht W1 R1 P1 T1 On1 Sp) as (m2 & nb2 & E2 & _ & _ & _ & _ & _ & _ & _ & L & O & Fi & _). rewrite E' in E2. injection E2 as <- <-. auto. }
  destruct F as (m' & nb & E' & A & W' & R' & Ei & Back & Iff & On).
  assert (C' : collapsed size tol m m' place name left) by (apply (collapsed_same size tol m m1 m'); auto; intros; now apply Iff).
  exists m', place, name, left. split; [unfold collapseEdges; rewrite E; cbn [bind]; rewrite E'; reflexivity|]. split; [exact W'|]. split; [exact R'|]. split; [exact C'|].
  split; [exact Hfirst|]. split; [exact Hno|]. split; [|exact On]. intros Hfit H0. now apply (collapsed_area size tol m m' place name left).
Qed.
Print Assumptions C100_collapse.

(** Where no side that ends inside is short and no two nodes are within the tolerance nothing changes but the numbers of nodes and triangles. *)
Theorem C100_nothing_short : forall n n' size tol m, 1 <= n <= int_max -> 1 <= n' <= int_max -> (0 <= tol)%Q -> wf_mesh m -> refs_ok m -> face_refs_ok m ->
  (forall id e, t_get (m_elems m) id = Ok e -> e_type e = ET_TRIANGLE) -> proper m -> StronglySorted Z.lt (t_ids (m_nodes m)) ->
  (exists a b ca cb, on_border m a /\ on_border m b /\ t_get (m_nodes m) a = Ok ca /\ t_get (m_nodes m) b = Ok cb /\ ~ (ca =v= cb)) ->
  (forall id, ~ shrinking size m id) ->
  (forall a b c d, a <> b -> t_get (m_nodes m) a = Ok c -> t_get (m_nodes m) b = Ok d -> norm_le (vsub c d) tol = false) ->
  exists m' name, collapseEdges n n' size tol m = Ok m' /\
    (forall a b, In a (t_ids (m_nodes m)) -> In b (t_ids (m_nodes m)) -> name a = name b -> a = b) /\
    (forall a c, t_get (m_nodes m) a = Ok c -> t_get (m_nodes m') (name a) = Ok c) /\
    (forall k, In k (t_ids (m_nodes m')) -> exists a, In a (t_ids (m_nodes m)) /\ name a = k) /\
    length (t_ids (m_elems m')) = length (t_ids (m_elems m)) /\
    (forall k id p q r, nth_error (t_ids (m_elems m)) k = Some id -> triangle m id p q r -> triangle m' (Z.of_nat k) (name p) (name q) (name r)).
Proof.
  intros n n' size tol m Hn Hn' Ht Wm Rm Fm Tm Pm Hs Hb Hno Hap.
  destruct (C100_collapse n n' size tol m Hn Hn' Ht Wm Rm Fm Tm Pm Hs Hb) as (m' & place & name & left & E & W' & R' & C & _ & Hstay & _).
  destruct (Hstay Hno) as [Hpl Hin]. exists m', name. split; [exact E|].
  assert (Own : forall a k c, In a (t_ids (m_nodes m)) -> In k (t_ids (m_nodes m)) -> name k = name a -> t_get (m_nodes m') (name a) = Ok c -> place k = c -> k = a).
  { intros a k c Ha Hk En Hc Pk. destruct (wf_get _ _ (proj1 Wm) Ha) as [ca Hca]. destruct (wf_get _ _ (proj1 Wm) Hk) as [ck Hck].
    destruct (co_name _ _ _ _ _ _ _ C a Ha) as (c' & Hc' & Hn1). assert (c' = c) by congruence. subst c'. rewrite (Hpl a ca Hca) in Hn1. rewrite (Hpl k ck Hck) in Pk. subst ck.
    destruct (Z.eq_dec k a) as [e|e]; [exact e|]. rewrite (Hap a k ca c) in Hn1; auto; discriminate. }
  assert (Self : forall a ca, t_get (m_nodes m) a = Ok ca -> t_get (m_nodes m') (name a) = Ok ca).
  { intros a ca Ha. pose proof (wf_get_in _ _ _ (proj1 Wm) Ha) as Hi. destruct (co_name _ _ _ _ _ _ _ C a Hi) as (c & Hc & _). destruct (co_nodes _ _ _ _ _ _ _ C _ _ Hc) as (k & Hk & Nk & Pk).
    pose proof (Own a k c Hi Hk Nk Hc Pk). subst k. rewrite (Hpl a ca Ha) in Pk. congruence. }
  assert (Inj : forall a b, In a (t_ids (m_nodes m)) -> In b (t_ids (m_nodes m)) -> name a = name b -> a = b).
  { intros a b Ha Hb' En. destruct (wf_get _ _ (proj1 Wm) Hb') as [cb Hcb]. destruct (wf_get _ _ (proj1 Wm) Ha) as [ca Hca]. pose proof (Self a ca Hca) as Sa. pose proof (Self b cb Hcb) as Sb.
    apply (Own b a cb Hb' Ha En Sb). rewrite (Hpl a ca Hca). congruence. }
  split; [exact Inj|]. split; [exact Self|]. split.
  { intros k Hk. destruct (wf_get _ _ (proj1 W') Hk) as [c Hc]. destruct (co_nodes _ _ _ _ _ _ _ C _ _ Hc) as (a & Ha & Na & _). eauto. }
  assert (Lft : left = t_ids (m_elems m)).
  { destruct (co_left _ _ _ _ _ _ _ C) as (keep & El). rewrite El. rewrite <- (filter_agree (fun _ => true)).
    - clear. induction (t_ids (m_elems m)) as [|x l IH]; [reflexivity|]. cbn. now rewrite IH.
    - intros id Hi. destruct (wf_get _ _ (proj2 (proj2 Wm)) Hi) as [e He]. destruct (Pm _ _ He (Tm _ _ He)) as (p & q & r & En & Npq & Nrp & Nrq).
      assert (Tr : triangle m id p q r) by (exists (e_faces e); rewrite He; pose proof (Tm _ _ He); destruct e; cbn in *; congruence).
      pose proof (proj1 Rm _ _ He) as Fa. rewrite En, Forall_forall in Fa. pose proof (Fa p (or_introl eq_refl)) as Hp. pose proof (Fa q (or_intror (or_introl eq_refl))) as Hq. pose proof (Fa r (or_intror (or_intror (or_introl eq_refl)))) as Hr.
      assert (Hl : In id left).
      { apply (Hin id p q r Tr). apply NoDup3. split; [|split]; intros X; apply Inj in X; auto; congruence. }
      rewrite El in Hl. apply filter_In in Hl. symmetry. apply Hl. }
  split.
  - rewrite (co_elem_ids _ _ _ _ _ _ _ C), Lft. unfold zrange. now rewrite map_length, seq_length.
  - intros k id p q r Hk. rewrite <- Lft in Hk. now apply (co_elems _ _ _ _ _ _ _ C).
Qed.
Print Assumptions C100_nothing_short.

(** ** Concrete cases *)
(** What C100_collapse asks for. *)
Definition coarsenable (m : mesh) : Prop := wf_mesh m /\ refs_ok m /\ face_refs_ok m /\ (forall id e, t_get (m_elems m) id = Ok e -> e_type e = ET_TRIANGLE) /\ proper m /\
  StronglySorted Z.lt (t_ids (m_nodes m)) /\ fitted m /\
  (exists a b ca cb, on_border m a /\ on_border m b /\ t_get (m_nodes m) a = Ok ca /\ t_get (m_nodes m) b = Ok cb /\ ~ (ca =v= cb)).
Lemma with_faces_ok m : ready m -> wf_mesh (with_faces m) /\ refs_ok (with_faces m) /\ (forall id e, t_get (m_elems (with_faces m)) id = Ok e -> e_type e = ET_TRIANGLE) /\ proper (with_faces m) /\
  fitted (with_faces m) /\ m_nodes (with_faces m) = m_nodes m.
Proof.
  intros (Wm & Rm & Tm & Pm & Up & On & Ne). destruct (t_ids (m_elems m)) as [|id l] eqn:El; [contradiction|]. destruct (wf_get (m_elems m) id (proj2 (proj2 Wm))) as [e He]; [rewrite El; now left|].
  destruct (Pm _ _ He (Tm _ _ He)) as (p & q & r & En & _).
  assert (Htr : triangle m id p q r) by (exists (e_faces e); rewrite He; pose proof (Tm _ _ He); destruct e; cbn in *; congruence).
  destruct (faces_ok 1 (1 # 1000) m ltac:(unfold int_max; lia) ltac:(discriminate) Wm Rm Pm Tm On (spread_ok _ m _ _ _ _ Up Htr)) as (m' & nb & E & A & B & C & _ & _ & D & F & _ & _ & I & _).
  unfold with_faces. rewrite E. cbn [fst]. auto 8.
Qed.

(** A dart around a node from which all of it can be seen, next to a corner from which not all of it can. *)
Definition dart : mesh := Mesh (table_of [(0, Coord 0 0 0); (1, Coord 3 0 0); (2, Coord 2 3 0); (3, Coord 1 8 0); (4, Coord (12 # 5) (1 # 10) 0)]) t_empty
  (table_of [(5, tri 0 1 4); (6, tri 1 2 4); (7, tri 2 3 4); (8, tri 3 0 4)]).

(** Both with their faces. *)
Definition faced_quarters : mesh := Eval vm_compute in with_faces quarters.
Definition faced_dart : mesh := Eval vm_compute in with_faces dart.
Lemma faced_quarters_eq : with_faces quarters = faced_quarters. Proof. vm_compute. reflexivity. Qed.
Lemma faced_dart_eq : with_faces dart = faced_dart. Proof. vm_compute. reflexivity. Qed.
Ltac border_node k := exists k; eexists; split; [reflexivity|split; [reflexivity|cbn; auto]].
Ltac coarse_tac R E := destruct (with_faces_ok _ R) as (? & ? & ? & ? & ? & _); rewrite E in *; split; [assumption|split; [assumption|split; [apply face_refs_okb_ok; vm_compute; reflexivity|split; [assumption|split; [assumption|split;
  [repeat constructor|split; [assumption|]]]]]]];
  exists 0, 1; do 2 eexists; split; [border_node 0|split; [border_node 0|split; [reflexivity|split; [reflexivity|intros (X & _); vm_compute in X; discriminate]]]].
Lemma quarters_coarsenable : coarsenable faced_quarters.
Proof. assert (R : ready quarters) by ready_tac. coarse_tac R faced_quarters_eq. Qed.
Lemma dart_coarsenable : coarsenable faced_dart.
Proof. assert (R : ready dart) by ready_tac. coarse_tac R faced_dart_eq. Qed.

(** A node near a corner goes to that corner; of the four triangles around it two remain, which cover the same area. With a smaller size nothing happens. *)
Example C100_case : coarsenable faced_quarters /\
  elements_of (collapseEdges 1 1 2 0 faced_quarters) = Some [[1; 2; 0]; [2; 3; 0]] /\
  elements_of (collapseEdges 1 1 1 0 faced_quarters) = Some [[0; 1; 4]; [1; 2; 4]; [2; 3; 4]; [3; 0; 4]] /\
  Qred (total_area2 faced_quarters) = 32 # 1 /\
  match collapseEdges 1 1 2 0 faced_quarters with Ok m' => Qred (total_area2 m') = 32 # 1 | _ => False end.
Proof. split; [exact quarters_coarsenable|]. split; [vm_compute; reflexivity|]. split; [vm_compute; reflexivity|]. split; vm_compute; reflexivity. Qed.

(** ** Where it fails *)
(** With a size above the extent of the square the node goes from corner to corner and half of the square is lost: triangles that do not become flat are deleted too. *)
Theorem C100_area_refuted : exists m m', coarsenable m /\ collapseEdges 1 1 8 0 m = Ok m' /\ (total_area2 m == 32)%Q /\ (total_area2 m' == 16)%Q.
Proof.
  exists faced_quarters. destruct (collapseEdges 1 1 8 0 faced_quarters) as [m'| |] eqn:E; [|vm_compute in E; discriminate|vm_compute in E; discriminate].
  exists m'. split; [exact quarters_coarsenable|]. split; [reflexivity|].
  split; [rewrite <- (Qred_correct (total_area2 faced_quarters)); vm_compute; reflexivity|].
  assert (A : match collapseEdges 1 1 8 0 faced_quarters with Ok m => Qred (total_area2 m) | _ => 0%Q end = 16 # 1) by (vm_compute; reflexivity).
  rewrite E in A. rewrite <- (Qred_correct (total_area2 m')), A. reflexivity.
Qed.
Print Assumptions C100_area_refuted.

(** In the dart the node goes to the corner next to it, and one of the triangles is turned over. *)
Theorem C100_overturn_refuted : exists m m', coarsenable m /\ all_upright 0 m /\ collapseEdges 1 1 1 0 m = Ok m' /\
  exists id p q r, triangle m' id p q r /\ (area2 (where_ (m_nodes m') p) (where_ (m_nodes m') q) (where_ (m_nodes m') r) < 0)%Q.
Proof.
  exists faced_dart. destruct (collapseEdges 1 1 1 0 faced_dart) as [m'| |] eqn:E; [|vm_compute in E; discriminate|vm_compute in E; discriminate].
  exists m'. split; [exact dart_coarsenable|]. split.
  { intros id p q r [fs H]. apply zat_Ok, zlookup_in in H. vm_compute in H. repeat (destruct H as [[= <- <- <- <- <-]|H]; [upright_case|]); destruct H. }
  split; [reflexivity|]. exists 0, 2, 3, 1. split; [eexists|]; revert E; vm_compute; intros [= <-]; reflexivity.
Qed.
Print Assumptions C100_overturn_refuted.
