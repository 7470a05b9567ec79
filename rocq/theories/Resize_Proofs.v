(** Proofs about remesh of triangles. *)
From Coq Require Import ZArith List Bool QArith Lia Lqa.
From Verif Require Import Prelude Vec ZMap Mesh_Model HashGrid_Model Face_Model Query_Model Merge_Model Mesh_Spec Mesh_Proofs Face_Spec Face_Proofs
  Front_Model Front_Spec Front_Proofs Front_Finish Tune_Model Tune_Spec Tune_Proofs Tune_Relax Tune_Faces Resize_Model Resize_Spec Adt_Proofs.
Import ListNotations.
Open Scope Z_scope.

(** ** Triangles seen from above *)
Definition up (tol : Q) (p q r : coord) : Prop :=
  (0 < area2 p q r)%Q /\ (tol * tol * norm2 (cross (vsub q p) (vsub r p)) < area2 p q r * area2 p q r)%Q.

Ltac flat := unfold area2, norm2, dot, cross, vsub, vadd, vscale; cbn [cx cy cz]; ring.

Lemma up_turn tol p q r : up tol p q r -> up tol q r p.
Proof.
  intros [A B]. assert (E : (area2 q r p == area2 p q r)%Q) by flat.
  assert (F : (norm2 (cross (vsub r q) (vsub p q)) == norm2 (cross (vsub q p) (vsub r p)))%Q) by flat.
  split; [now rewrite E|now rewrite E, F].
Qed.

Lemma up_half tol p q r p' q' r' : (area2 p' q' r' == (1 # 2) * area2 p q r)%Q ->
  (norm2 (cross (vsub q' p') (vsub r' p')) == (1 # 4) * norm2 (cross (vsub q p) (vsub r p)))%Q -> up tol p q r -> up tol p' q' r'.
Proof.
  intros E F [A B]. split; rewrite E; [lra|]. rewrite F.
  apply Qle_lt_trans with ((1 # 4) * (tol * tol * norm2 (cross (vsub q p) (vsub r p))))%Q; [apply Qle_lteq; right; ring|].
  apply Qlt_le_trans with ((1 # 4) * (area2 p q r * area2 p q r))%Q; [|apply Qle_lteq; right; ring].
  apply Qmult_lt_l; [reflexivity|exact B].
Qed.

Definition mid (p q : coord) : coord := vscale (1 # 2) (vadd p q).
Lemma up_halves tol p q r : up tol p q r -> up tol r p (mid p q) /\ up tol q r (mid p q).
Proof. intros H. split; apply (up_half tol p q r); try assumption; unfold mid; flat. Qed.
Lemma up_halves' tol p q r : up tol q p r -> up tol p r (mid p q) /\ up tol r q (mid p q).
Proof. intros H. split; apply (up_half tol q p r); try assumption; unfold mid; flat. Qed.

Lemma up_apart tol p q r : up tol p q r -> ~ up tol q p r.
Proof. intros [A _] [B _]. assert (E : (area2 q p r == - area2 p q r)%Q) by flat. rewrite E in B. lra. Qed.

Lemma third_exists e a b p q r : e_nodes e = [p; q; r] -> p <> q -> r <> p -> r <> q -> third e a b <> None.
Proof.
  intros E H1 H2 H3. unfold third. rewrite E. cbn [find].
  repeat match goal with |- context [?u =? ?v] => destruct (Z.eqb_spec u v); subst; cbn [negb andb] end; congruence.
Qed.

(** More nodes do not change the area. *)
Lemma area_more m nodes : wf_mesh m -> (forall id e, t_get (m_elems m) id = Ok e -> Forall (fun n => In n (t_ids (m_nodes m))) (e_nodes e)) ->
  (forall k c, t_get (m_nodes m) k = Ok c -> t_get nodes k = Ok c) -> (total_area2 (Mesh nodes (m_faces m) (m_elems m)) == total_area2 m)%Q.
Proof.
  intros Wm Rm Hk. unfold total_area2. cbn [m_nodes m_elems].
  assert (E : forall id, match t_get (m_elems m) id with Ok (Element _ [p; q; r] _) => area2 (where_ nodes p) (where_ nodes q) (where_ nodes r) | _ => 0%Q end =
    match t_get (m_elems m) id with Ok (Element _ [p; q; r] _) => area2 (where_ (m_nodes m) p) (where_ (m_nodes m) q) (where_ (m_nodes m) r) | _ => 0%Q end).
  { intros id. destruct (t_get (m_elems m) id) as [[ty nd fc]| |] eqn:He; try reflexivity. destruct nd as [|p [|q [|r [|]]]]; try reflexivity.
    pose proof (Rm _ _ He) as Fa. rewrite Forall_forall in Fa. cbn [e_nodes] in Fa.
    assert (X : forall k, In k [p; q; r] -> where_ nodes k = where_ (m_nodes m) k).
    { intros k Hin. destruct (wf_get _ _ (proj1 Wm) (Fa k Hin)) as [c Hc]. now rewrite (where_get _ _ _ Hc), (where_get _ _ _ (Hk _ _ Hc)). }
    rewrite (X p), (X q), (X r) by (cbn; auto). reflexivity. }
  rewrite (map_ext _ _ E). reflexivity.
Qed.

(** ** The faces made by generateFaces *)
Lemma line_data e fs : e_type e = ET_TRIANGLE -> elem_faces e = Ok fs -> Forall (fun f => f_type f = FT_LINE) fs.
Proof.
  intros E H. unfold elem_faces in H. rewrite E in H. cbn [face_table mapM fst snd] in H.
  repeat (match type of H with context [vec_get ?l ?i] => destruct (vec_get l i) end; cbn [bind mapM fst snd] in H; try discriminate).
  injection H as <-. repeat (apply Forall_cons; [reflexivity|]). apply Forall_nil.
Qed.

Lemma made_faces n tol m m' nb : 1 <= n <= int_max -> (0 <= tol)%Q -> wf_mesh m -> refs_ok m -> proper m -> all_triangles m -> spread m ->
  generateFaces n tol m = Ok (m', nb) -> listed m' /\ (forall fid f, t_get (m_faces m') fid = Ok f -> f_type f = FT_LINE).
Proof.
  intros Hn Ht Wm Rm Pm Hall Hsp Eg.
  assert (Hen : enough m) by (apply proper_enough; [exact Pm|]; intros id e He C; now destruct (C (Hall id e He))).
  destruct (pairing_ok n tol m Hn Ht Wm Rm Hen Hsp) as (m2 & nb2 & E & _ & W' & _ & Ei & Hel & Hli & _). rewrite Eg in E. injection E as <- <-. clear Eg.
  assert (Hd : forall id e' fid, t_get (m_elems m') id = Ok e' -> In fid (e_faces e') -> exists f, t_get (m_faces m') fid = Ok f /\ f_elem f = id /\ f_type f = FT_LINE).
  { intros id e' fid He' Hfid. pose proof (wf_get_in _ _ _ (proj2 (proj2 W')) He') as Hin. rewrite Ei in Hin. destruct (wf_get _ _ (proj2 (proj2 Wm)) Hin) as [e He].
    destruct (Hel id e He) as (e2 & fs & He2 & _ & _ & Ef & Hm). assert (e2 = e') by congruence. subst e2.
    apply (in_map (face_data (m_faces m'))) in Hfid. rewrite Hm in Hfid. apply in_map_iff in Hfid. destruct Hfid as (f0 & E0 & H0).
    pose proof (line_data _ _ (Hall _ _ He) Ef) as Fa. rewrite Forall_forall in Fa. specialize (Fa _ H0). unfold face_data in E0.
    destruct (t_get (m_faces m') fid) as [f| |]; cbn [bind] in E0; try discriminate. injection E0 as X Y Z0. exists f. split; [reflexivity|]. split; congruence. }
  split; [exact Hd|]. intros fid f Hf. pose proof (wf_get_in _ _ _ (proj1 (proj2 W')) Hf) as Hin. rewrite <- Hli in Hin. apply in_flat_map in Hin.
  destruct Hin as (id & Hid & Hx). unfold faces_listed in Hx. destruct (t_get (m_elems m') id) as [e'| |] eqn:He'; try destruct Hx.
  destruct (Hd id e' fid He' Hx) as (f2 & Hf2 & _ & T). congruence.
Qed.

Section Cut.
Variable size tol : Q.
Hypothesis Hsize : (0 < size)%Q.
Variable m : mesh.
Hypothesis Wm : wf_mesh m.
Hypothesis Rm : refs_ok m.
Hypothesis Lm : linked m.
Hypothesis Om : owned m.
Hypothesis Pm : proper m.
Hypothesis Am : all_triangles m.
Hypothesis Um : all_upright tol m.
Hypothesis Im : listed m.
Hypothesis Fm : forall fid f, t_get (m_faces m) fid = Ok f -> f_type f = FT_LINE.
Hypothesis Nm : numbered_from_zero m.
Hypothesis Onm : once m.

Record cutting (st : mesh * list Z) : Prop := Cutting {
  ct_wf : wf_mesh (fst st);
  ct_ids : exists l, t_ids (m_elems (fst st)) = t_ids (m_elems m) ++ l;
  ct_fids : t_ids (m_faces (fst st)) = t_ids (m_faces m);
  ct_nodes : forall k c, t_get (m_nodes m) k = Ok c -> t_get (m_nodes (fst st)) k = Ok c;
  ct_mid : forall k c, t_get (m_nodes (fst st)) k = Ok c -> t_get (m_nodes m) k = Ok c \/
    exists a b, In (a, b) (all_sides (m_elems m)) /\ long size m a b /\ middle m a b c;
  ct_new : forall id e, t_get (m_elems (fst st)) id = Ok e -> ~ In id (t_ids (m_elems m)) -> e_faces e = [];
  ct_old : forall id e, t_get (m_elems m) id = Ok e -> exists e', t_get (m_elems (fst st)) id = Ok e' /\ e_faces e' = e_faces e /\
    (~ In id (snd st) -> e' = e) /\ (In id (snd st) -> exists n, In n (e_nodes e') /\ ~ In n (t_ids (m_nodes m)));
  ct_tri : all_triangles (fst st);
  ct_proper : proper (fst st);
  ct_upright : all_upright tol (fst st);
  ct_refs : forall id e, t_get (m_elems (fst st)) id = Ok e -> Forall (fun n => In n (t_ids (m_nodes (fst st)))) (e_nodes e);
  ct_faces : forall fid f, t_get (m_faces m) fid = Ok f -> exists f' a b, t_get (m_faces (fst st)) fid = Ok f' /\
    f_haspair f' = f_haspair f /\ f_pair f' = f_pair f /\ f_elem f' = f_elem f /\ f_nodes f' = [a; b] /\
    In a (t_ids (m_nodes (fst st))) /\ In b (t_ids (m_nodes (fst st))) /\ (~ In (f_elem f) (snd st) -> f' = f);
  ct_net : forall a b, net (fst st) a b = net m a b;
  ct_once : once (fst st);
  ct_range : numbered_from_zero (fst st);
  ct_done : NoDup (snd st) /\ incl (snd st) (t_ids (m_elems m)) /\ t_size (m_elems (fst st)) = t_size (m_elems m) + zlen (snd st)
}.

Lemma line_face fid f : t_get (m_faces m) fid = Ok f -> exists a b e, f_nodes f = [a; b] /\ In (f_elem f) (t_ids (m_elems m)) /\
  t_get (m_elems m) (f_elem f) = Ok e /\ In (a, b) (sides_of (e_nodes e)) /\
  (f_haspair f = true -> exists g e', t_get (m_faces m) (f_pair f) = Ok g /\ t_get (m_elems m) (f_elem g) = Ok e' /\ In (b, a) (sides_of (e_nodes e'))).
Proof.
  intros Hf. pose proof (Om _ _ Hf) as Hin. destruct (wf_get (m_elems m) _ (proj2 (proj2 Wm)) Hin) as [e He].
  destruct (Lm _ _ _ Hf (Fm _ _ Hf) He (Am _ _ He)) as (a & b & En & Hs & Hp). exists a, b, e. repeat (split; [assumption|]).
  intros H. destruct (Hp H) as (g & e' & Hg & He' & Hr). exists g, e'. repeat (split; [assumption|]). apply Hr. now apply (Am _ _ He').
Qed.

Lemma side_corners e a b : In (a, b) (sides_of (e_nodes e)) -> In a (e_nodes e) /\ In b (e_nodes e).
Proof.
  destruct (e_nodes e) as [|p [|q [|r [|]]]]; cbn; try tauto. intros [[= <- <-]|[[= <- <-]|[[= <- <-]|[]]]]; auto.
Qed.

Lemma cutting_start : cutting (m, []).
Proof.
  constructor; cbn [fst snd]; auto.
  - exists []. now rewrite app_nil_r.
  - intros id e He Hni. exfalso. apply Hni. exact (wf_get_in _ _ _ (proj2 (proj2 Wm)) He).
  - intros id e He. exists e. split; [assumption|]. split; [reflexivity|]. split; [reflexivity|intros []].
  - exact (proj1 Rm).
  - intros fid f Hf. destruct (line_face _ _ Hf) as (a & b & e & En & _ & He & Hs & _). exists f, a, b. repeat (split; [assumption||reflexivity|]).
    pose proof (proj1 Rm _ _ He) as Fa. rewrite Forall_forall in Fa. destruct (side_corners _ _ _ Hs). repeat split; auto.
  - split; [constructor|]. split; [intros x []|]. change (zlen (@nil Z)) with 0. lia.
Qed.

Lemma too_long_iff a b pa pb : t_get (m_nodes m) a = Ok pa -> t_get (m_nodes m) b = Ok pb -> (too_long size (vsub pb pa) = true <-> long size m a b).
Proof.
  intros Ha Hb. unfold too_long. assert (Qlt_bool size 0 = false) as ->.
  { apply not_true_is_false. intros C. apply Qlt_bool_iff in C. lra. }
  cbn [orb]. rewrite Qlt_bool_iff. split.
  - intros H. exists pa, pb. repeat (split; [assumption|]). lra.
  - intros (pa' & pb' & Ha' & Hb' & H). replace pa' with pa in H by congruence. replace pb' with pb in H by congruence. lra.
Qed.

(** Long shared sides of [f] are dealt with. *)
Definition settled (done : list Z) (fid : Z) : Prop := forall f a b g, t_get (m_faces m) fid = Ok f -> f_haspair f = true -> f_nodes f = [a; b] ->
  t_get (m_faces m) (f_pair f) = Ok g -> long size m a b -> In (f_elem f) done \/ In (f_elem g) done.

Lemma remeshed_ok done id : In id (t_ids (m_elems m)) -> exists b, remeshed (t_size (m_elems m)) done id = Ok b /\ (b = true <-> In id done).
Proof.
  intros Hin. unfold remeshed. destruct (Nm id Hin) as [A B].
  replace (0 <=? id) with true by (symmetry; now apply Z.leb_le). replace (id <? t_size (m_elems m)) with true by (symmetry; now apply Z.ltb_lt).
  cbn [andb]. eexists. split; [reflexivity|]. rewrite existsb_exists. split.
  - intros (x & Hx & E). apply Z.eqb_eq in E. now subst.
  - intros H. exists id. split; [assumption|apply Z.eqb_refl].
Qed.

Lemma turned_up l a b c p q r (pos : Z -> coord) : l = [p; q; r] -> turned l a b c -> up tol (pos p) (pos q) (pos r) -> up tol (pos a) (pos b) (pos c).
Proof.
  intros E [H|[H|H]]; rewrite E in H; injection H as -> -> ->; intros U; [exact U|now apply up_turn|]. now apply up_turn, up_turn.
Qed.

Lemma next_le {A} (t : table A) : wf_table t -> (forall id, In id (t_ids t) -> 0 <= id < t_size t) -> 0 <= t_next t <= t_size t.
Proof.
  intros (Hnd & Hs & Hk) Hr. unfold t_next. destruct (zlast_key (t_map t)) as [k|] eqn:E.
  - assert (In k (t_ids t)). { apply Hk. exact (zlast_key_in _ _ E). } specialize (Hr k H). lia.
  - unfold t_size, zlen. lia.
Qed.

Lemma size_add {A} (t : table A) k v : t_size (t_add t k v) = t_size t + 1.
Proof. unfold t_size, zlen. cbn [t_add t_ids]. rewrite app_length. cbn [length]. lia. Qed.

Lemma mid_middle a b pa pb : t_get (m_nodes m) a = Ok pa -> t_get (m_nodes m) b = Ok pb -> middle m a b (mid pa pb).
Proof.
  intros Ha Hb. exists pa, pb. split; [assumption|]. split; [assumption|]. unfold mid, vscale, vadd. cbn [cx cy cz]. split; [ring|]. split; ring.
Qed.

Lemma cut_side_ok st id e fid : cutting st -> t_get (m_elems m) id = Ok e -> In fid (e_faces e) ->
  exists st', cut_side size (t_size (m_elems m)) id st fid = Ok st' /\ cutting st' /\ incl (snd st) (snd st') /\ settled (snd st') fid.
Proof.
  intros C He Hfid. destruct st as [m1 done]. unfold cut_side. cbn [fst snd].
  destruct (Im _ _ _ He Hfid) as (f & Hf & Ef & _). pose proof (wf_get_in _ _ _ (proj2 (proj2 Wm)) He) as Hin.
  destruct (line_face _ _ Hf) as (n1 & n2 & e0 & En & _ & He0 & Hside & Hpair). assert (e0 = e) by congruence. subst e0.
  destruct (ct_faces _ C _ _ Hf) as (f' & a & b & Hf' & Hp' & Hq' & Hr' & Hn' & Ia & Ib & Hsame). cbn [fst snd] in *.
  rewrite Hf'. cbn [bind]. rewrite Hp'. destruct (f_haspair f) eqn:Ehp; cbn [negb].
  2:{ exists (m1, done). split; [reflexivity|]. split; [exact C|]. split; [apply incl_refl|]. intros f2 x y g2 Hf2 Hh. congruence. }
  destruct (Hpair eq_refl) as (g & e' & Hg & He' & Hrev).
  assert (Stay : forall dn, (In id dn \/ In (f_elem g) dn \/ ~ long size m n1 n2) -> settled dn fid).
  { intros dn H f2 x y g2 Hf2 _ Hn2 Hg2 Hl. assert (f2 = f) by congruence. subst f2. assert (g2 = g) by congruence. subst g2.
    rewrite En in Hn2. injection Hn2 as <- <-. rewrite Ef. destruct H as [H|[H|H]]; auto. contradiction. }
  destruct (line_face _ _ Hg) as (x1 & x2 & e0 & Eng & Hin' & He0x & _). assert (e0 = e') by congruence. subst e0.
  destruct (ct_faces _ C _ _ Hg) as (g' & a' & b' & Hg' & _ & _ & Hgr & Hgn & _ & _ & Hgsame). cbn [fst snd] in *.
  rewrite Hq', Hg'. cbn [bind]. rewrite Hgr.
  destruct (ct_old _ C _ _ He') as (ec' & Hec' & Fec' & Sec' & _). cbn [fst snd] in *. rewrite Hec'. cbn [bind].
  rewrite Hn'. change (vec_at [a; b] 0) with (Ok a). change (vec_at [a; b] 1) with (Ok b). cbn [bind].
  destruct (wf_get (m_nodes m1) a (proj1 (ct_wf _ C)) Ia) as [pa Pa]. destruct (wf_get (m_nodes m1) b (proj1 (ct_wf _ C)) Ib) as [pb Pb].
  rewrite Pa, Pb. cbn [bind].
  assert (Hk : forall x, In x (e_nodes e) \/ In x (e_nodes e') -> exists c, t_get (m_nodes m) x = Ok c /\ t_get (m_nodes m1) x = Ok c).
  { intros x Hx. destruct (wf_get (m_nodes m) x (proj1 Wm)) as [c Hc].
    - destruct Rm as [Re _]. pose proof (Re _ _ He) as A. pose proof (Re _ _ He') as B. rewrite Forall_forall in A, B. destruct Hx; auto.
    - exists c. split; [assumption|]. exact (ct_nodes _ C _ _ Hc). }
  destruct (side_corners _ _ _ Hside) as [I1 I2]. destruct (Hk n1 (or_introl I1)) as (p1 & P1 & P1'). destruct (Hk n2 (or_introl I2)) as (p2 & P2 & P2').
  destruct (remeshed_ok done id Hin) as (d & Ed & Hd). destruct (remeshed_ok done (f_elem g) Hin') as (d' & Ed' & Hd').
  assert (Quit : In id done \/ In (f_elem g) done \/ ~ long size m n1 n2 ->
    exists st', Ok (m1, done) = Ok st' /\ cutting st' /\ incl done (snd st') /\ settled (snd st') fid).
  { intros H. exists (m1, done). split; [reflexivity|]. split; [exact C|]. split; [apply incl_refl|]. now apply Stay. }
  destruct (in_dec Z.eq_dec id done) as [Hdone|Hdone].
  { destruct (negb (too_long size (vsub pb pa))); [auto|].
    destruct (ct_old _ C _ _ He) as (ec & Hec & _). cbn [fst] in Hec. rewrite Hec. cbn [bind].
    destruct (third ec a b); [|auto]. destruct (third ec' a b); [|auto]. rewrite Ed. cbn [bind]. rewrite (proj2 Hd Hdone). auto. }
  rewrite <- Ef in Hdone. rewrite (Hsame Hdone) in *. rewrite Ef in Hdone. rewrite En in Hn'. injection Hn' as <- <-.
  assert (pa = p1) by congruence. assert (pb = p2) by congruence. subst pa pb.
  destruct (too_long size (vsub p2 p1)) eqn:Elong; cbn [negb].
  2:{ apply Quit. right. right. intros H. apply (too_long_iff _ _ _ _ P1 P2) in H. congruence. }
  apply (too_long_iff _ _ _ _ P1 P2) in Elong.
  destruct (ct_old _ C _ _ He) as (ec & Hec & _ & Sec & _). cbn [fst snd] in Hec, Sec. specialize (Sec Hdone). subst ec. rewrite Hec. cbn [bind].
  destruct (Pm _ _ He (Am _ _ He)) as (u & v & w & Euvw & Hd1 & Hd2 & Hd3). destruct (Pm _ _ He' (Am _ _ He')) as (u' & v' & w' & Euvw' & Hd1' & Hd2' & Hd3').
  destruct (third e n1 n2) as [n3|] eqn:E3; [|now destruct (third_exists _ n1 n2 _ _ _ Euvw Hd1 Hd2 Hd3)].
  destruct (in_dec Z.eq_dec (f_elem g) done) as [Hdone'|Hdone'].
  { destruct (third ec' n1 n2); [|auto]. rewrite Ed. cbn [bind]. destruct d; [auto|]. rewrite Ed'. cbn [bind]. rewrite (proj2 Hd' Hdone'). auto. }
  specialize (Sec' Hdone'). subst ec'. rewrite (Hgsame Hdone') in *.
  destruct (third e' n1 n2) as [n4|] eqn:E4; [|now destruct (third_exists _ n1 n2 _ _ _ Euvw' Hd1' Hd2' Hd3')].
  rewrite Ed. cbn [bind]. assert (d = false) by (apply not_true_is_false; tauto). subst d.
  rewrite Ed'. cbn [bind]. assert (d' = false) by (apply not_true_is_false; tauto). subst d'.
  destruct (third_corner _ _ _ _ _ _ _ Euvw Hd1 Hd2 Hd3 Hside E3) as (Tu & N12 & N31 & N32).
  destruct (third_reverse _ _ _ _ _ _ _ Euvw' Hd1' Hd2' Hd3' Hrev E4) as (Tu' & N41 & N42).
  assert (Hne : id <> f_elem g).
  { intros E. assert (e = e') by congruence. subst e'. now apply (not_both _ _ _ _ _ _ Euvw Hd1 Hd2 Hd3 Hside). }
  assert (Hnf : f_pair f <> fid) by (intros E; rewrite E in Hg; congruence).
  assert (I34 : In n3 (e_nodes e) /\ In n4 (e_nodes e')) by (destruct Tu as [-> |[-> | ->]], Tu' as [-> |[-> | ->]]; cbn; auto 10).
  destruct I34 as (I3 & I4). destruct (Hk n3 (or_introl I3)) as (p3 & P3 & P3'). destruct (Hk n4 (or_intror I4)) as (p4 & P4 & P4').
  assert (Up1 : up tol p1 p2 p3).
  { assert (Tr : triangle m id u v w) by (exists (e_faces e); rewrite He; pose proof (Am _ _ He); destruct e; cbn in *; congruence).
    destruct (Um _ _ _ _ Tr) as (cu & cv & cw & Gu & Gv & Gw & A & B).
    pose proof (turned_up (e_nodes e) n1 n2 n3 u v w (where_ (m_nodes m)) Euvw Tu) as X.
    rewrite (where_get _ _ _ Gu), (where_get _ _ _ Gv), (where_get _ _ _ Gw), (where_get _ _ _ P1), (where_get _ _ _ P2), (where_get _ _ _ P3) in X.
    apply X. split; assumption. }
  assert (Up2 : up tol p2 p1 p4).
  { assert (Tr : triangle m (f_elem g) u' v' w') by (exists (e_faces e'); rewrite He'; pose proof (Am _ _ He'); destruct e'; cbn in *; congruence).
    destruct (Um _ _ _ _ Tr) as (cu & cv & cw & Gu & Gv & Gw & A & B).
    pose proof (turned_up (e_nodes e') n2 n1 n4 u' v' w' (where_ (m_nodes m)) Euvw' Tu') as X.
    rewrite (where_get _ _ _ Gu), (where_get _ _ _ Gv), (where_get _ _ _ Gw), (where_get _ _ _ P1), (where_get _ _ _ P2), (where_get _ _ _ P4) in X.
    apply X. split; assumption. }
  assert (N34 : n3 <> n4). { intros ->. assert (p4 = p3) by congruence. subst p4. now apply (up_apart tol p1 p2 p3). }
  pose proof (ct_wf _ C) as W1. cbn [fst] in W1. destruct W1 as (Wn & Wf & We).
  (* the cut *)
  unfold halve. set (nw := t_next (m_nodes m1)). change (vscale (1 # 2) (vadd p1 p2)) with (mid p1 p2).
  destruct (next_absent (m_nodes m1) Wn) as [Ab Ani]. fold nw in Ab, Ani.
  rewrite Hec. cbn [bind]. rewrite (set_corners_ok e _ _ _ _ _ _ Euvw). cbn [bind]. set (e1 := set_e_nodes e [n3; n1; nw]).
  assert (Hi1 : In id (t_ids (m_elems m1))) by exact (wf_get_in _ _ _ We Hec).
  destruct (t_set_wf (m_elems m1) id e1 We Hi1) as [Wt1 G1]. set (t1 := t_set (m_elems m1) id e1) in *.
  assert (Hge' : t_get t1 (f_elem g) = Ok e') by (rewrite G1; destruct (Z.eqb_spec (f_elem g) id); [congruence|exact Hec']).
  rewrite Hge'. cbn [bind]. rewrite (set_corners_ok e' _ _ _ _ _ _ Euvw'). cbn [bind]. set (e2 := set_e_nodes e' [n1; n4; nw]).
  assert (Hi2 : In (f_elem g) (t_ids t1)) by exact (wf_get_in _ _ _ Wt1 Hge').
  destruct (t_set_wf t1 (f_elem g) e2 Wt1 Hi2) as [Wt2 G2]. set (t2 := t_set t1 (f_elem g) e2) in *.
  unfold set_line at 1. rewrite En. cbn [bind]. set (f1 := set_f_nodes f [n1; nw]).
  assert (Hif : In fid (t_ids (m_faces m1))) by exact (wf_get_in _ _ _ Wf Hf').
  destruct (t_set_wf (m_faces m1) fid f1 Wf Hif) as [Wu1 H1]. set (u1 := t_set (m_faces m1) fid f1) in *.
  assert (Hug : t_get u1 (f_pair f) = Ok g) by (rewrite H1; destruct (Z.eqb_spec (f_pair f) fid); [congruence|exact Hg']).
  rewrite Hug. cbn [bind]. unfold set_line at 1. rewrite Eng. cbn [bind]. set (g1 := set_f_nodes g [nw; n1]).
  assert (Hig : In (f_pair f) (t_ids u1)) by exact (wf_get_in _ _ _ Wu1 Hug).
  destruct (t_set_wf u1 (f_pair f) g1 Wu1 Hig) as [Wu2 H2]. set (u2 := t_set u1 (f_pair f) g1) in *.
  set (e3 := Element ET_TRIANGLE [n2; n3; nw] []). set (e4 := Element ET_TRIANGLE [n4; n2; nw] []).
  pose proof (t_add_next_wf t2 e3 Wt2) as Wt3. pose proof (next_absent t2 Wt2) as [Ab3 An3]. set (k3 := t_next t2) in *. set (t3 := t_add t2 k3 e3) in *.
  pose proof (t_add_next_wf t3 e4 Wt3) as Wt4. pose proof (next_absent t3 Wt3) as [Ab4 An4]. set (k4 := t_next t3) in *. set (t4 := t_add t3 k4 e4) in *.
  pose proof (t_add_next_wf (m_nodes m1) (mid p1 p2) Wn) as Wn'. fold nw in Wn'. set (nodes := t_add (m_nodes m1) nw (mid p1 p2)) in *.
  eexists. split; [reflexivity|].
  assert (Gn : forall k, t_get nodes k = if k =? nw then Ok (mid p1 p2) else t_get (m_nodes m1) k) by (intros k; apply t_get_add).
  assert (Ge : forall k, t_get t4 k = if k =? k4 then Ok e4 else if k =? k3 then Ok e3 else if k =? f_elem g then Ok e2 else if k =? id then Ok e1 else t_get (m_elems m1) k).
  { intros k. unfold t4, t3. rewrite !t_get_add, G2, G1. reflexivity. }
  assert (Gf : forall k, t_get u2 k = if k =? f_pair f then Ok g1 else if k =? fid then Ok f1 else t_get (m_faces m1) k) by (intros k; rewrite H2, H1; reflexivity).
  assert (Ids2 : t_ids t2 = t_ids (m_elems m1)) by reflexivity.
  assert (Ids4 : t_ids t4 = t_ids (m_elems m1) ++ [k3; k4]).
  { change (t_ids t4) with ((t_ids (m_elems m1) ++ [k3]) ++ [k4]). now rewrite <- app_assoc. }
  destruct (ct_ids _ C) as [l0 Hl0]. cbn [fst] in Hl0.
  assert (Hold : forall k, In k (t_ids (m_elems m)) -> k <> k3 /\ k <> k4).
  { intros k Hkin. assert (X : In k (t_ids (m_elems m1))) by (rewrite Hl0; apply in_app_iff; now left). split; intros ->.
    - apply An3. now rewrite Ids2.
    - apply An4. change (t_ids t3) with (t_ids (m_elems m1) ++ [k3]). apply in_app_iff. now left. }
  assert (Inn : forall k, In k (t_ids nodes) <-> In k (t_ids (m_nodes m1)) \/ k = nw).
  { intros k. change (t_ids nodes) with (t_ids (m_nodes m1) ++ [nw]). rewrite in_app_iff. cbn. intuition congruence. }
  assert (Iold : forall k c, t_get (m_nodes m1) k = Ok c -> In k (t_ids nodes) /\ k <> nw /\ t_get nodes k = Ok c).
  { intros k c Hc. split; [apply Inn; left; exact (wf_get_in _ _ _ Wn Hc)|]. assert (k <> nw) by (intros ->; congruence). split; [assumption|].
    rewrite Gn. destruct (Z.eqb_spec k nw); [contradiction|assumption]. }
  destruct (Iold _ _ P1') as (J1 & M1 & Q1). destruct (Iold _ _ P2') as (J2 & M2 & Q2). destruct (Iold _ _ P3') as (J3 & M3 & Q3). destruct (Iold _ _ P4') as (J4 & M4 & Q4).
  assert (Jn : In nw (t_ids nodes)) by (apply Inn; now right).
  assert (Qn : t_get nodes nw = Ok (mid p1 p2)) by (rewrite Gn, Z.eqb_refl; reflexivity).
  assert (Nnew : ~ In nw (t_ids (m_nodes m))).
  { intros Hn. destruct (wf_get _ _ (proj1 Wm) Hn) as [c Hc]. apply (ct_nodes _ C) in Hc. cbn [fst] in Hc. congruence. }
  assert (Run : forall x y, Z.of_nat (running (all_sides t4) x y) = Z.of_nat (running (all_sides (m_elems m1)) x y) - ind n1 n2 x y - ind n2 n1 x y
    + ind n1 nw x y + ind nw n3 x y + ind n4 nw x y + ind nw n1 x y + ind n3 nw x y + ind nw n2 x y + ind n2 nw x y + ind nw n4 x y).
  { intros x y. change (all_sides t4) with (all_sides (t_add t3 (t_next t3) e4)). rewrite (all_sides_add t3 e4 Wt3), running_app.
    change (all_sides t3) with (all_sides (t_add t2 (t_next t2) e3)). rewrite (all_sides_add t2 e3 Wt2), running_app.
    pose proof (running_set t1 _ _ e2 x y (proj1 Wt1) Hi2 Hge') as R1. pose proof (running_set (m_elems m1) _ _ e1 x y (proj1 We) Hi1 Hec) as R2.
    fold t1 in R2. fold t2 in R1. pose proof (turned_running _ _ _ _ x y Tu) as S1. pose proof (turned_running _ _ _ _ x y Tu') as S2.
    change (e_nodes e1) with [n3; n1; nw] in *. change (e_nodes e2) with [n1; n4; nw] in *. change (e_nodes e3) with [n2; n3; nw]. change (e_nodes e4) with [n4; n2; nw].
    pose proof (running_sides n3 n1 nw x y) as S3. pose proof (running_sides n1 n4 nw x y) as S4. pose proof (running_sides n2 n3 nw x y) as S5.
    pose proof (running_sides n4 n2 nw x y) as S6. clearbody t2 t1 nw. clear - R1 R2 S1 S2 S3 S4 S5 S6. lia. }
  split; [|split; [intros x Hx; cbn [snd]; right; right; exact Hx|apply Stay; cbn [snd]; right; left; now left]].
  constructor; cbn [fst snd m_nodes m_faces m_elems].
  - split; [exact Wn'|]. split; [exact Wu2|exact Wt4].
  - exists (l0 ++ [k3; k4]). rewrite Ids4, Hl0. now rewrite app_assoc.
  - exact (ct_fids _ C).
  - intros k c Hc. apply (ct_nodes _ C) in Hc. cbn [fst] in Hc. now apply Iold.
  - intros k c Hc. rewrite Gn in Hc. destruct (Z.eqb_spec k nw) as [->|]; [|now apply (ct_mid _ C)]. injection Hc as <-. right. exists n1, n2.
    split; [|split; [exact Elong|now apply mid_middle]].
    unfold all_sides. apply in_flat_map. exists id. split; [exact Hin|]. unfold element_sides. now rewrite He.
  - intros k x Hx Hni. rewrite Ge in Hx. destruct (k =? k4); [now injection Hx as <-|]. destruct (k =? k3); [now injection Hx as <-|].
    destruct (Z.eqb_spec k (f_elem g)) as [->|]; [contradiction|]. destruct (Z.eqb_spec k id) as [->|]; [contradiction|]. now apply (ct_new _ C k x).
  - intros k x Hx. pose proof (wf_get_in _ _ _ (proj2 (proj2 Wm)) Hx) as Hkin. destruct (Hold k Hkin) as [K3 K4]. rewrite Ge.
    destruct (Z.eqb_spec k k4); [contradiction|]. destruct (Z.eqb_spec k k3); [contradiction|].
    destruct (Z.eqb_spec k (f_elem g)) as [->|Kg].
    { exists e2. assert (x = e') by congruence. subst x. split; [reflexivity|]. split; [reflexivity|]. split; [intros H; exfalso; apply H; now left|].
      intros _. exists nw. split; [cbn; auto|exact Nnew]. }
    destruct (Z.eqb_spec k id) as [->|Ki].
    { exists e1. assert (x = e) by congruence. subst x. split; [reflexivity|]. split; [reflexivity|]. split; [intros H; exfalso; apply H; right; now left|].
      intros _. exists nw. split; [cbn; auto|exact Nnew]. }
    destruct (ct_old _ C _ _ Hx) as (y & Hy & Fy & Sy & Ny). cbn [fst snd] in *. exists y. split; [exact Hy|]. split; [exact Fy|]. split.
    + intros H. apply Sy. intros H'. apply H. right. now right.
    + intros [H|[H|H]]; [congruence|congruence|now apply Ny].
  - intros k x Hx. cbn [m_elems] in Hx. rewrite Ge in Hx. destruct (k =? k4); [now injection Hx as <-|]. destruct (k =? k3); [now injection Hx as <-|].
    destruct (k =? f_elem g); [injection Hx as <-; exact (Am _ _ He')|]. destruct (k =? id); [injection Hx as <-; exact (Am _ _ He)|]. now apply (ct_tri _ C k x).
  - intros k x Hx Hty. cbn [m_elems] in Hx. rewrite Ge in Hx.
    destruct (k =? k4). { injection Hx as <-. exists n4, n2, nw. repeat split; auto. }
    destruct (k =? k3). { injection Hx as <-. exists n2, n3, nw. repeat split; auto. }
    destruct (k =? f_elem g). { injection Hx as <-. exists n1, n4, nw. repeat split; auto. }
    destruct (k =? id). { injection Hx as <-. exists n3, n1, nw. repeat split; auto. }
    now apply (ct_proper _ C k x).
  - destruct (up_halves tol _ _ _ Up1) as [[A1 B1] [A2 B2]]. destruct (up_halves' tol _ _ _ Up2) as [[A3 B3] [A4 B4]].
    intros k p q r [fs Hx]. cbn [m_elems m_nodes] in *. rewrite Ge in Hx.
    destruct (k =? k4). { injection Hx as <- <- <- _. exists p4, p2, (mid p1 p2). repeat (split; [assumption|]). exact B4. }
    destruct (k =? k3). { injection Hx as <- <- <- _. exists p2, p3, (mid p1 p2). repeat (split; [assumption|]). exact B2. }
    destruct (k =? f_elem g). { injection Hx as _ <- <- <- _. exists p1, p4, (mid p1 p2). repeat (split; [assumption|]). exact B3. }
    destruct (k =? id). { injection Hx as _ <- <- <- _. exists p3, p1, (mid p1 p2). repeat (split; [assumption|]). exact B1. }
    destruct (ct_upright _ C k p q r) as (cp & cq & cr & Gp & Gq & Gr & A & B); [now exists fs|]. cbn [fst] in *. exists cp, cq, cr.
    apply Iold in Gp, Gq, Gr. split; [apply Gp|]. split; [apply Gq|]. split; [apply Gr|]. split; assumption.
  - intros k x Hx. rewrite Ge in Hx.
    destruct (k =? k4). { injection Hx as <-. cbn. repeat (apply Forall_cons; [assumption|]). apply Forall_nil. }
    destruct (k =? k3). { injection Hx as <-. cbn. repeat (apply Forall_cons; [assumption|]). apply Forall_nil. }
    destruct (k =? f_elem g). { injection Hx as <-. cbn. repeat (apply Forall_cons; [assumption|]). apply Forall_nil. }
    destruct (k =? id). { injection Hx as <-. cbn. repeat (apply Forall_cons; [assumption|]). apply Forall_nil. }
    apply (ct_refs _ C) in Hx. cbn [fst] in Hx. eapply Forall_impl; [|exact Hx]. intros y Hy. apply Inn. now left.
  - intros k x Hx. rewrite Gf. destruct (Z.eqb_spec k (f_pair f)) as [->|].
    { assert (x = g) by congruence. subst x. exists g1, nw, n1. repeat (split; [reflexivity|]). split; [exact Jn|]. split; [exact J1|]. intros H. exfalso. apply H. now left. }
    destruct (Z.eqb_spec k fid) as [->|].
    { assert (x = f) by congruence. subst x. exists f1, n1, nw. repeat (split; [reflexivity|]). split; [exact J1|]. split; [exact Jn|]. intros H. exfalso. apply H. right. left. now symmetry. }
    destruct (ct_faces _ C _ _ Hx) as (x' & a0 & b0 & Hx' & X1 & X2 & X3 & X4 & X5 & X6 & X7). cbn [fst snd] in *. exists x', a0, b0.
    repeat (split; [assumption|]). split; [apply Inn; now left|]. split; [apply Inn; now left|]. intros H. apply X7. intros H'. apply H. right. now right.
  - intros a0 b0. rewrite <- (ct_net _ C a0 b0). unfold net. cbn [m_elems fst]. rewrite !Run. rewrite !(ind_swap _ _ a0 b0). lia.
  - intros a0 b0. cbn [m_elems]. pose proof (ct_once _ C a0 b0) as Ho. cbn [fst] in Ho. specialize (Run a0 b0).
    assert (Z0 : forall a b, a = nw \/ b = nw -> running (all_sides (m_elems m1)) a b = 0%nat).
    { intros a b Hab. unfold running. destruct (filter _ _) as [|[x y] l] eqn:E; [reflexivity|exfalso].
      assert (Hi : In (x, y) (filter (fun d => (fst d =? a) && (snd d =? b)) (all_sides (m_elems m1)))) by (rewrite E; now left).
      apply filter_In in Hi. destruct Hi as [Hi Hc]. cbn in Hc. apply andb_true_iff in Hc. destruct Hc as [Ca Cb]. apply Z.eqb_eq in Ca, Cb. subst x y.
      unfold all_sides in Hi. apply in_flat_map in Hi. destruct Hi as (k & _ & Hi). unfold element_sides in Hi.
      destruct (t_get (m_elems m1) k) as [x| |] eqn:Ex; try destruct Hi. pose proof (ct_refs _ C _ _ Ex) as Fa. rewrite Forall_forall in Fa. cbn [fst] in Fa.
      destruct (side_corners _ _ _ Hi) as [X Y]. apply Ani. destruct Hab as [<-|<-]; auto. }
    assert (Goal4 : Z.of_nat (running (all_sides t4) a0 b0) <= 1); [|clearbody t4; clear - Goal4; lia]. rewrite Run.
    destruct (Z.eq_dec a0 nw) as [->|Ea]; [|destruct (Z.eq_dec b0 nw) as [->|Eb]].
    + rewrite (Z0 nw b0 (or_introl eq_refl)). unfold ind.
      repeat match goal with |- context [nw =? nw] => rewrite Z.eqb_refl | |- context [?u =? ?v] => destruct (Z.eqb_spec u v); [try congruence|]; cbn [andb] end; cbn [andb]; try (clear; lia).
    + rewrite (Z0 a0 nw (or_intror eq_refl)). unfold ind.
      repeat match goal with |- context [nw =? nw] => rewrite Z.eqb_refl | |- context [?u =? ?v] => destruct (Z.eqb_spec u v); [try congruence|]; cbn [andb] end; cbn [andb]; try (clear; lia).
    + assert (I0 : forall u, ind u nw a0 b0 = 0 /\ ind nw u a0 b0 = 0).
      { intros u0. unfold ind. destruct (Z.eqb_spec nw a0); [congruence|]. destruct (Z.eqb_spec nw b0); [congruence|]. rewrite andb_false_r. auto. }
      destruct (I0 n1) as [-> ->]. destruct (I0 n2) as [-> ->]. destruct (I0 n3) as [-> ->]. destruct (I0 n4) as [-> ->].
      assert (Z1 : forall u v, 0 <= ind u v a0 b0) by (intros u0 v0; unfold ind; destruct (_ && _); clear; lia).
      pose proof (Z1 n1 n2) as Z2. pose proof (Z1 n2 n1) as Z3. clear - Ho Z2 Z3. lia.
  - pose proof (ct_range _ C) as Hr. unfold numbered_from_zero in *. cbn [fst m_elems] in *. clear - Hr Ids4 Wt2 Wt3.
    assert (S3 : t_size t3 = t_size (m_elems m1) + 1) by exact (size_add t2 k3 e3).
    assert (S4 : t_size t4 = t_size t3 + 1) by exact (size_add t3 k4 e4).
    assert (B3 : 0 <= k3 <= t_size (m_elems m1)) by (apply (next_le t2); [exact Wt2|exact Hr]).
    assert (R3 : forall k, In k (t_ids t3) -> 0 <= k < t_size t3).
    { intros k Hkk. change (t_ids t3) with (t_ids (m_elems m1) ++ [k3]) in Hkk. rewrite S3.
      apply in_app_iff in Hkk. destruct Hkk as [Hkk|[<-|[]]]; [specialize (Hr k Hkk); clear - Hr; lia|]. clearbody k3. clear - B3. lia. }
    assert (B4 : 0 <= k4 <= t_size t3) by (apply next_le; [exact Wt3|exact R3]).
    intros k Hkk. rewrite Ids4 in Hkk. clear R3 Wt2 Wt3. clearbody t4 k4 t3 k3. clear Ids4.
    apply in_app_iff in Hkk. destruct Hkk as [Hkk|[<-|[<-|[]]]]; [specialize (Hr k Hkk)| |]; lia.
  - destruct (ct_done _ C) as (Dn & Di & Ds). cbn [fst snd] in *. split; [|split].
    + constructor; [intros [H|H]; [congruence|contradiction]|]. constructor; assumption.
    + intros x [<-|[<-|Hx]]; [exact Hin'|exact Hin|exact (Di x Hx)].
    + unfold t_size, zlen in *. rewrite Ids4, app_length. cbn [length]. clearbody k3 k4. clear - Ds. lia.
Qed.

Lemma settled_more d d' fid : incl d d' -> settled d fid -> settled d' fid.
Proof. intros Hi H f a b g A B C D E. destruct (H f a b g A B C D E); auto. Qed.

Definition settled_all (done : list Z) (id : Z) : Prop := forall e fid, t_get (m_elems m) id = Ok e -> In fid (e_faces e) -> settled done fid.

Lemma cut_sides_ok id e l : t_get (m_elems m) id = Ok e -> (forall x, In x l -> In x (e_faces e)) -> forall st, cutting st ->
  exists st', foldM (cut_side size (t_size (m_elems m)) id) l st = Ok st' /\ cutting st' /\ incl (snd st) (snd st') /\ (forall x, In x l -> settled (snd st') x).
Proof.
  intros He. induction l as [|x l IH]; intros Hl st C; cbn [foldM].
  - exists st. split; [reflexivity|]. split; [exact C|]. split; [apply incl_refl|intros x []].
  - destruct (cut_side_ok st id e x C He (Hl x (or_introl eq_refl))) as (s1 & E1 & C1 & I1 & S1). rewrite E1. cbn [bind].
    destruct (IH (fun y Hy => Hl y (or_intror Hy)) s1 C1) as (s2 & E2 & C2 & I2 & S2). exists s2. split; [exact E2|]. split; [exact C2|].
    split; [exact (incl_tran I1 I2)|]. intros y [<-|Hy]; [exact (settled_more _ _ _ I2 S1)|auto].
Qed.

Lemma resize_step_ok st id : cutting st -> In id (t_ids (m_elems (fst st))) ->
  exists st', resize_step size (t_size (m_elems m)) st id = Ok st' /\ cutting st' /\ incl (snd st) (snd st') /\ settled_all (snd st') id.
Proof.
  intros C Hin. unfold resize_step. destruct (wf_get _ _ (proj2 (proj2 (ct_wf _ C))) Hin) as [x Hx]. rewrite Hx. cbn [bind].
  rewrite (ct_tri _ C _ _ Hx). destruct (in_dec Z.eq_dec id (t_ids (m_elems m))) as [Ho|Hn].
  - destruct (wf_get _ _ (proj2 (proj2 Wm)) Ho) as [e He]. destruct (ct_old _ C _ _ He) as (e' & He' & Fe & _). assert (e' = x) by congruence. subst e'. rewrite Fe.
    destruct (cut_sides_ok id e (e_faces e) He (fun y Hy => Hy) st C) as (s2 & E2 & C2 & I2 & S2). exists s2. split; [exact E2|]. split; [exact C2|]. split; [exact I2|].
    intros e0 fid He0 Hf. assert (e0 = e) by congruence. subst e0. auto.
  - rewrite (ct_new _ C _ _ Hx Hn). cbn [foldM]. exists st. split; [reflexivity|]. split; [exact C|]. split; [apply incl_refl|].
    intros e fid He. exfalso. apply Hn. exact (wf_get_in _ _ _ (proj2 (proj2 Wm)) He).
Qed.

Lemma done_few st : cutting st -> t_size (m_elems (fst st)) <= 2 * t_size (m_elems m).
Proof.
  intros C. destruct (ct_done _ C) as (Dn & Di & Ds). rewrite Ds. pose proof (NoDup_incl_length Dn Di) as H. unfold t_size, zlen. lia.
Qed.

Lemma resize_loop_ok turns : forall i st, cutting st -> 0 <= i -> 2 * t_size (m_elems m) - i <= Z.of_nat turns ->
  (forall k id, (Z.of_nat k < i) -> nth_error (t_ids (m_elems m)) k = Some id -> settled_all (snd st) id) ->
  exists st', resize_loop turns size (t_size (m_elems m)) i st = Ok (Some st') /\ cutting st' /\ (forall id, In id (t_ids (m_elems m)) -> settled_all (snd st') id).
Proof.
  assert (Fin : forall i st, cutting st -> i >= t_size (m_elems (fst st)) ->
    (forall k id, (Z.of_nat k < i) -> nth_error (t_ids (m_elems m)) k = Some id -> settled_all (snd st) id) ->
    exists st', Ok (Some st) = Ok (Some st') /\ cutting st' /\ (forall id, In id (t_ids (m_elems m)) -> settled_all (snd st') id)).
  { intros i st C Hi Hs. exists st. split; [reflexivity|]. split; [exact C|]. intros id Hid. apply In_nth_error in Hid. destruct Hid as [k Hk].
    apply (Hs k id); [|exact Hk]. assert ((k < length (t_ids (m_elems m)))%nat) by (apply nth_error_Some; congruence).
    destruct (ct_done _ C) as (_ & _ & Ds). unfold t_size, zlen in *. lia. }
  induction turns as [|turns IH]; intros i st C Hi Ht Hs; cbn [resize_loop]; pose proof (done_few st C) as Hf;
    destruct (Z.ltb_spec i (t_size (m_elems (fst st)))) as [Hlt|Hge]; try (apply (Fin i); [exact C|lia|exact Hs]); [lia|].
  unfold t_id. destruct (nth_error (t_ids (m_elems (fst st))) (Z.to_nat i)) as [id|] eqn:En.
  2:{ apply nth_error_None in En. unfold t_size, zlen in Hlt. lia. }
  assert (Ev : vec_at (t_ids (m_elems (fst st))) i = Ok id). { unfold vec_at. destruct (Z.ltb_spec i 0); [lia|]. now rewrite En. }
  rewrite Ev. cbn [bind]. destruct (resize_step_ok st id C (nth_error_In _ _ En)) as (s1 & E1 & C1 & I1 & S1). rewrite E1. cbn [bind].
  apply IH; [exact C1|lia|lia|]. intros k id' Hk Hid'. destruct (Z.eq_dec (Z.of_nat k) i) as [E|E].
  - assert (id' = id); [|subst id'; exact S1]. destruct (ct_ids _ C) as [l Hl]. rewrite Hl, nth_error_app1 in En.
    + subst i. rewrite Nat2Z.id in En. congruence.
    + subst i. rewrite Nat2Z.id. apply nth_error_Some. congruence.
  - intros e fid He Hfid. apply (settled_more (snd st) _ _ I1). assert (A : Z.of_nat k < i) by lia. exact (Hs k id' A Hid' e fid He Hfid).
Qed.

(** The whole of it. *)
Lemma remesh_ok turns n : 1 <= n <= int_max -> (0 <= tol)%Q -> t_ids (m_elems m) <> [] -> 2 * t_size (m_elems m) <= Z.of_nat turns ->
  exists m' done, remesh turns n size tol m = Ok (Some m') /\ wf_mesh m' /\ refs_ok m' /\ all_triangles m' /\ proper m' /\ all_upright tol m' /\
    linked m' /\ owned m' /\ fitted m' /\ once m' /\ numbered_from_zero m' /\ listed m' /\ (forall fid f, t_get (m_faces m') fid = Ok f -> f_type f = FT_LINE) /\
    (forall a b, net m' a b = net m a b) /\ (total_area2 m' == total_area2 m)%Q /\
    (forall k c, t_get (m_nodes m) k = Ok c -> t_get (m_nodes m') k = Ok c) /\
    (forall k c, t_get (m_nodes m') k = Ok c -> t_get (m_nodes m) k = Ok c \/ exists a b, In (a, b) (all_sides (m_elems m)) /\ long size m a b /\ middle m a b c) /\
    (forall id, In id (t_ids (m_elems m)) -> In id (t_ids (m_elems m')) /\ (~ In id done -> same_corners m m' id) /\ (In id done -> cut_open m m' id)) /\
    (NoDup done /\ incl done (t_ids (m_elems m)) /\ t_size (m_elems m') = t_size (m_elems m) + zlen done) /\
    (forall id, In id (t_ids (m_elems m)) -> settled_all done id).
Proof.
  intros Hn Ht Hne Hturns. destruct (resize_loop_ok turns 0 (m, []) cutting_start (Z.le_refl 0)) as ([m1 done] & El & C & S1); [lia| |].
  { intros k id Hk. lia. }
  unfold remesh. rewrite El. cbn [bind fst].
  pose proof (ct_wf _ C) as W1. pose proof (ct_refs _ C) as Rf1. pose proof (ct_tri _ C) as T1. pose proof (ct_proper _ C) as P1. pose proof (ct_upright _ C) as U1.
  pose proof (ct_once _ C) as O1. pose proof (ct_range _ C) as N1. pose proof (ct_net _ C) as E1. pose proof (ct_nodes _ C) as K1. pose proof (ct_mid _ C) as M1.
  pose proof (ct_done _ C) as D1. pose proof (ct_old _ C) as L1. pose proof (ct_fids _ C) as Fi1. destruct (ct_ids _ C) as [l0 Hl0]. cbn [fst snd] in *.
  assert (R1 : refs_ok m1).
  { split; [exact Rf1|]. intros fid f Hf. pose proof (wf_get_in _ _ _ (proj1 (proj2 W1)) Hf) as Hin. rewrite Fi1 in Hin.
    destruct (wf_get _ _ (proj1 (proj2 Wm)) Hin) as [f0 Hf0]. destruct (ct_faces _ C _ _ Hf0) as (f' & a & b & Hf' & _ & _ & _ & En & Ia & Ib & _). cbn [fst] in *.
    assert (f' = f) by congruence. subst f'. rewrite En. apply Forall_cons; [exact Ia|]. apply Forall_cons; [exact Ib|apply Forall_nil]. }
  destruct (t_ids (m_elems m)) as [|id0 l] eqn:Eids; [contradiction|].
  assert (Sp : spread m1).
  { destruct (wf_get (m_elems m1) id0 (proj2 (proj2 W1))) as [e He]; [rewrite Hl0; now left|]. destruct (P1 _ _ He (T1 _ _ He)) as (p & q & r & En & _).
    apply (spread_ok tol m1 id0 p q r U1). exists (e_faces e). rewrite He. pose proof (T1 _ _ He). destruct e; cbn in *; congruence. }
  rewrite <- Eids in *.
  destruct (faces_ok n tol m1 Hn Ht W1 R1 P1 T1 O1 Sp) as (m' & nb & E & En & W' & R' & Ei & Htr & Hall & Pp & Hl & Ho & Hft & Hon).
  destruct (made_faces n tol m1 m' nb Hn Ht W1 R1 P1 T1 Sp E) as [Hli Hln].
  rewrite E. cbn [bind fst]. exists m', done. split; [reflexivity|].
  assert (Hnd : forall id e1, t_get (m_elems m1) id = Ok e1 -> exists e2, t_get (m_elems m') id = Ok e2 /\ e_nodes e2 = e_nodes e1).
  { intros id e1 He1. destruct (P1 _ _ He1 (T1 _ _ He1)) as (p & q & r & Enn & _).
    assert (Tr : triangle m1 id p q r) by (exists (e_faces e1); rewrite He1; pose proof (T1 _ _ He1); destruct e1; cbn in *; congruence).
    apply Htr in Tr. destruct Tr as [fs Tr]. eexists. split; [exact Tr|]. now rewrite Enn. }
  assert (Hsides : all_sides (m_elems m') = all_sides (m_elems m1)) by (apply same_sides; [exact Ei|exact Hnd|apply W1]).
  assert (Hnet : forall a b, net m' a b = net m a b) by (intros a b; rewrite <- E1; unfold net; now rewrite Hsides).
  split; [exact W'|]. split; [exact R'|]. split; [exact Hall|]. split; [exact Pp|].
  split. { intros id p q r Tr. rewrite En. apply Htr in Tr. exact (U1 id p q r Tr). }
  split; [exact Hl|]. split; [exact Ho|]. split; [exact Hft|]. split; [exact Hon|].
  split. { intros id Hid. unfold t_size in *. rewrite Ei in *. exact (N1 id Hid). }
  split; [exact Hli|]. split; [exact Hln|]. split; [exact Hnet|].
  split.
  { rewrite <- (area_more m (m_nodes m1)); [|exact Wm|exact (proj1 Rm)|exact K1].
    destruct m' as [nd fc el]. cbn [m_nodes m_elems] in *. subst nd. apply area_net. exact Hnet. }
  split; [intros k c Hc; rewrite En; auto|]. split; [intros k c Hc; rewrite En in Hc; auto|].
  split.
  { intros id Hid. split; [rewrite Ei, Hl0; apply in_app_iff; now left|]. destruct (wf_get _ _ (proj2 (proj2 Wm)) Hid) as [e He].
    destruct (L1 _ _ He) as (e1 & He1 & _ & A & B). destruct (Hnd _ _ He1) as (e2 & He2 & Enn). split.
    - intros H. exists e, e2. split; [exact He|]. split; [exact He2|]. now rewrite Enn, (A H).
    - intros H. destruct (B H) as (x & Hx & Hni). exists e2, x. split; [exact He2|]. split; [now rewrite Enn|exact Hni]. }
  split; [|exact S1]. unfold t_size in *. rewrite Ei. exact D1.
Qed.
End Cut.
