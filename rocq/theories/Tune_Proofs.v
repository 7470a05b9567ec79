(** Proofs about flipEdges and relaxNodes. *)
From Coq Require Import ZArith List Bool QArith Lia Lqa.
From Verif Require Import Prelude Vec ZMap Mesh_Model HashGrid_Model Face_Model Query_Model Merge_Model Mesh_Spec Mesh_Proofs Face_Spec Face_Proofs
  Front_Model Front_Spec Front_Proofs Front_Finish Tune_Model Tune_Spec.
Import ListNotations.
Open Scope Z_scope.

(** ** Replacing one element *)
Lemma running_set (T : table element) id e0 e a b : NoDup (t_ids T) -> In id (t_ids T) -> t_get T id = Ok e0 ->
  (running (all_sides (t_set T id e)) a b + running (sides_of (e_nodes e0)) a b =
   running (all_sides T) a b + running (sides_of (e_nodes e)) a b)%nat.
Proof.
  intros Hnd Hin He0. unfold all_sides. cbn [t_set t_ids].
  assert (Hg : forall k, element_sides (t_set T id e) k = if k =? id then sides_of (e_nodes e) else element_sides T k).
  { intros k. unfold element_sides, t_get, zat, t_set. cbn. rewrite zlookup_insert. now destruct (k =? id). }
  assert (Hno : forall l, ~ In id l -> flat_map (element_sides (t_set T id e)) l = flat_map (element_sides T) l).
  { intros l Hl. apply flat_map_same. intros k Hk. rewrite Hg. destruct (Z.eqb_spec k id); [congruence|reflexivity]. }
  induction (t_ids T) as [|k l IH]; [destruct Hin|]. cbn [flat_map]. rewrite !running_app. apply NoDup_cons_iff in Hnd. destruct Hnd as [Hk Hnd].
  destruct (Z.eq_dec k id) as [->|Hne].
  - rewrite (Hno l Hk). rewrite Hg, Z.eqb_refl. assert (E : element_sides T id = sides_of (e_nodes e0)) by (unfold element_sides; now rewrite He0).
    rewrite E. lia.
  - destruct Hin as [->|Hin]; [contradiction|]. rewrite Hg. destruct (Z.eqb_spec k id); [contradiction|]. specialize (IH Hnd Hin). lia.
Qed.

Definition ind (u v x y : Z) : Z := if (u =? x) && (v =? y) then 1 else 0.
Lemma ind_swap u v x y : ind u v y x = ind v u x y.
Proof. unfold ind. now rewrite andb_comm. Qed.

Lemma running_sides p q r x y : Z.of_nat (running (sides_of [p; q; r]) x y) = ind p q x y + ind q r x y + ind r p x y.
Proof.
  cbn [sides_of]. rewrite !running_cons. unfold ind, running. cbn [filter length].
  destruct ((p =? x) && (q =? y)), ((q =? x) && (r =? y)), ((r =? x) && (p =? y)); reflexivity.
Qed.

(** ** The third corner *)
Definition turned (l : list Z) (a b c : Z) : Prop := l = [a; b; c] \/ l = [c; a; b] \/ l = [b; c; a].

Lemma third_corner e a b p q r n : e_nodes e = [p; q; r] -> p <> q -> r <> p -> r <> q -> In (a, b) (sides_of (e_nodes e)) ->
  third e a b = Some n -> turned (e_nodes e) a b n /\ a <> b /\ n <> a /\ n <> b.
Proof.
  intros E H1 H2 H3 Hin Ht. unfold third in Ht. rewrite E in *. cbn [sides_of In] in Hin.
  unfold turned.
  destruct Hin as [[= <- <-]|[[= <- <-]|[[= <- <-]|[]]]]; cbn [find] in Ht; revert Ht;
    repeat match goal with |- context [?u =? ?v] => destruct (Z.eqb_spec u v); try congruence; cbn [negb andb] end;
    intros [= <-]; repeat split; auto.
Qed.

Lemma third_reverse e a b p q r n : e_nodes e = [p; q; r] -> p <> q -> r <> p -> r <> q -> In (b, a) (sides_of (e_nodes e)) ->
  third e a b = Some n -> turned (e_nodes e) b a n /\ n <> a /\ n <> b.
Proof.
  intros E H1 H2 H3 Hin Ht. assert (Ht' : third e b a = Some n).
  { unfold third in *. rewrite <- Ht. clear. induction (e_nodes e) as [|x l IH]; [reflexivity|]. cbn [find]. rewrite IH.
    now rewrite (andb_comm (negb (x =? b))). }
  destruct (third_corner _ _ _ _ _ _ _ E H1 H2 H3 Hin Ht') as (A & _ & B & C). auto.
Qed.

Lemma turned_running l a b c x y : turned l a b c -> Z.of_nat (running (sides_of l) x y) = ind a b x y + ind b c x y + ind c a x y.
Proof. intros [->|[->| ->]]; rewrite running_sides; lia. Qed.

Lemma turned_length l a b c : turned l a b c -> exists x y z, l = [x; y; z].
Proof. intros [->|[->| ->]]; eauto. Qed.

Lemma not_both (e : element) a b p q r : e_nodes e = [p; q; r] -> p <> q -> r <> p -> r <> q -> In (a, b) (sides_of (e_nodes e)) ->
  ~ In (b, a) (sides_of (e_nodes e)).
Proof.
  intros E H1 H2 H3. rewrite E. cbn. intros [[= <- <-]|[[= <- <-]|[[= <- <-]|[]]]] [[=]|[[=]|[[=]|[]]]]; congruence.
Qed.

(** ** flipEdges *)
Section Flip.
Variable quality : coord -> coord -> coord -> Q.
Variable tol : Q.
Hypothesis Htol : (0 <= tol)%Q.
Variable m : mesh.
Hypothesis Wm : wf_mesh m.
Hypothesis Rm : refs_ok m.
Hypothesis Lm : linked m.
Hypothesis Om : owned m.
Hypothesis Pm : proper m.

Definition with_elems (T : table element) : mesh := Mesh (m_nodes m) (m_faces m) T.
Definition turnable : Prop := forall p q r, (quality p q r == quality q r p)%Q.

Record flipping (st : table element * zmap bool) : Prop := Flipping {
  fl_wf : wf_table (fst st);
  fl_ids : t_ids (fst st) = t_ids (m_elems m);
  fl_map : forall id, In id (t_ids (m_elems m)) -> exists b, zat (snd st) id = Ok b;
  fl_same : forall id, zat (snd st) id = Ok false -> t_get (fst st) id = t_get (m_elems m) id;
  fl_type : forall id e, t_get (m_elems m) id = Ok e -> exists e', t_get (fst st) id = Ok e' /\ e_type e' = e_type e /\
      (e_type e <> ET_TRIANGLE -> e_nodes e' = e_nodes e);
  fl_proper : proper (with_elems (fst st));
  fl_refs : forall id e, t_get (fst st) id = Ok e -> Forall (fun n => In n (t_ids (m_nodes m))) (e_nodes e);
  fl_net : forall a b, net (with_elems (fst st)) a b = net m a b;
  fl_upright : all_upright tol m -> all_upright tol (with_elems (fst st));
  fl_quality : turnable -> forall b, at_least quality b m -> at_least quality b (with_elems (fst st))
}.

Lemma none_flipped_get ids : forall s id, (In id ids -> zat (fold_left (fun s id => zinsert id false s) ids s) id = Ok false) /\
  (~ In id ids -> zat (fold_left (fun s id => zinsert id false s) ids s) id = zat s id).
Proof.
  induction ids as [|k l IH]; intros s id; [split; [intros []|reflexivity]|]. cbn [fold_left]. destruct (IH (zinsert k false s) id) as [A B]. split.
  - intros Hin. destruct (in_dec Z.eq_dec id l) as [H|H]; [now apply A|]. rewrite (B H). destruct Hin as [->|Hin]; [|contradiction].
    unfold zat. now rewrite zlookup_insert, Z.eqb_refl.
  - intros Hni. rewrite B by (intros H; apply Hni; now right). unfold zat. rewrite zlookup_insert.
    destruct (Z.eqb_spec id k) as [->|]; [exfalso; apply Hni; now left|reflexivity].
Qed.

Lemma same_mesh : with_elems (m_elems m) = m. Proof. unfold with_elems. now destruct m. Qed.

Lemma flipping_start : flipping (m_elems m, none_flipped (t_ids (m_elems m))).
Proof.
  assert (Wn : wf_table (m_elems m)) by apply Wm.
  constructor; cbn [fst snd]; rewrite ?same_mesh; auto.
  - intros id Hid. exists false. now apply none_flipped_get.
  - intros id e He. eauto.
  - intros id e He. now apply (proj1 Rm) in He.
Qed.

Lemma set_corners_ok e x y z a b c : e_nodes e = [x; y; z] -> set_corners e a b c = Ok (set_e_nodes e [a; b; c]).
Proof. intros H. unfold set_corners. now rewrite H. Qed.

Lemma where_get t n c : t_get t n = Ok c -> where_ t n = c. Proof. unfold where_. now intros ->. Qed.

Lemma turned_quality l a b c p q r (pos : Z -> coord) : turnable -> l = [p; q; r] -> turned l a b c ->
  (quality (pos p) (pos q) (pos r) == quality (pos a) (pos b) (pos c))%Q.
Proof.
  intros Ht E [H|[H|H]]; rewrite E in H; injection H as -> -> ->; [reflexivity|apply Ht|]. symmetry. apply Ht.
Qed.

Lemma flip_step_ok st fid f : flipping st -> t_get (m_faces m) fid = Ok f ->
  exists st', flip_step quality tol m st fid = Ok st' /\ flipping st'.
Proof.
  intros F Hf. destruct st as [T S0]. unfold flip_step. rewrite Hf. cbn [bind fst snd].
  destruct (f_type f) eqn:Ef; eauto.
  pose proof (Om _ _ Hf) as Hin. destruct (fl_map _ F _ Hin) as [b Hb]. cbn [fst snd] in *. rewrite Hb. cbn [bind]. destruct b; [eauto|].
  pose proof (fl_same _ F _ Hb) as Hs. cbn [fst] in Hs. destruct (wf_get (m_elems m) _ (proj2 (proj2 Wm)) Hin) as [e He].
  rewrite Hs, He. cbn [bind]. unfold is_triangle at 1. destruct (e_type e) eqn:Ee; cbn [negb]; eauto.
  destruct (Lm _ _ _ Hf Ef He Ee) as (n1 & n2 & En & Hside & Hpair). rewrite En. cbn [vec_at].
  change (vec_at [n1; n2] 0) with (Ok n1). change (vec_at [n1; n2] 1) with (Ok n2). cbn [bind].
  destruct (third e n1 n2) as [n3|] eqn:E3; [|eauto].
  destruct (f_haspair f) eqn:Ep; cbn [negb]; [|eauto]. destruct (Hpair eq_refl) as (g & e' & Hg & He' & Hrev). rewrite Hg. cbn [bind].
  pose proof (Om _ _ Hg) as Hin'. destruct (fl_map _ F _ Hin') as [b' Hb']. cbn [fst snd] in *. rewrite Hb'. cbn [bind]. destruct b'; [eauto|].
  pose proof (fl_same _ F _ Hb') as Hs'. cbn [fst] in Hs'. rewrite Hs', He'. cbn [bind]. unfold is_triangle at 1.
  destruct (e_type e') eqn:Ee'; cbn [negb]; eauto. specialize (Hrev eq_refl).
  destruct (third e' n1 n2) as [n4|] eqn:E4; [|eauto].
  destruct (Pm _ _ He Ee) as (u & v & w & Euvw & Hd1 & Hd2 & Hd3). destruct (Pm _ _ He' Ee') as (u' & v' & w' & Euvw' & Hd1' & Hd2' & Hd3').
  destruct (third_corner _ _ _ _ _ _ _ Euvw Hd1 Hd2 Hd3 Hside E3) as (Tu & N12 & N31 & N32).
  destruct (third_reverse _ _ _ _ _ _ _ Euvw' Hd1' Hd2' Hd3' Hrev E4) as (Tu' & N41 & N42).
  assert (Hne : f_elem f <> f_elem g).
  { intros E. assert (e = e') by congruence. subst e'. now apply (not_both _ _ _ _ _ _ Euvw Hd1 Hd2 Hd3 Hside). }
  assert (Hk : forall x, In x (e_nodes e) \/ In x (e_nodes e') -> exists c, t_get (m_nodes m) x = Ok c).
  { intros x Hx. apply wf_get; [apply Wm|]. destruct Rm as [Re _]. pose proof (Re _ _ He) as A. pose proof (Re _ _ He') as B.
    rewrite Forall_forall in A, B. destruct Hx; auto. }
  assert (I1 : In n1 (e_nodes e) /\ In n2 (e_nodes e) /\ In n3 (e_nodes e) /\ In n4 (e_nodes e')).
  { destruct Tu as [-> |[-> | ->]], Tu' as [-> |[-> | ->]]; cbn; auto 10. }
  destruct I1 as (I1 & I2 & I3 & I4).
  destruct (Hk n1 (or_introl I1)) as [p1 P1]. destruct (Hk n2 (or_introl I2)) as [p2 P2].
  destruct (Hk n3 (or_introl I3)) as [p3 P3]. destruct (Hk n4 (or_intror I4)) as [p4 P4].
  rewrite P1, P2, P3, P4. cbn [bind].
  destruct (Qlt_bool (qmin (quality p1 p2 p3) (quality p2 p1 p4)) (qmin (quality p3 p4 p2) (quality p4 p3 p1))
           && upright tol p3 p4 p2 && upright tol p4 p3 p1)%bool eqn:Hgo; [|eauto].
  apply andb_true_iff in Hgo. destruct Hgo as [Hgo U4]. apply andb_true_iff in Hgo. destruct Hgo as [Hq U3].
  assert (N34 : n3 <> n4) by (destruct (upright_distinct tol Htol _ _ _ _ _ _ _ P3 P4 P2 U3) as (D & _); exact D).
  rewrite (set_corners_ok e _ _ _ _ _ _ Euvw). cbn [bind].
  set (e1 := set_e_nodes e [n3; n4; n2]).
  assert (WT : wf_table T) by (apply (fl_wf _ F)). assert (IdT : t_ids T = t_ids (m_elems m)) by (apply (fl_ids _ F)).
  destruct (t_set_wf T (f_elem f) e1 WT) as [W1 G1]; [now rewrite IdT|].
  assert (Hge' : t_get (t_set T (f_elem f) e1) (f_elem g) = Ok e').
  { rewrite G1. destruct (Z.eqb_spec (f_elem g) (f_elem f)); [congruence|]. now rewrite Hs', He'. }
  rewrite Hge'. cbn [bind].
  rewrite (set_corners_ok e' _ _ _ _ _ _ Euvw'). cbn [bind]. set (e3 := set_e_nodes e' [n4; n3; n1]).
  set (T1 := t_set T (f_elem f) e1) in *.
  destruct (t_set_wf T1 (f_elem g) e3 W1) as [W2 G2]; [cbn; now rewrite IdT|].
  eexists. split; [reflexivity|].
  assert (GT : forall k, t_get (t_set T1 (f_elem g) e3) k = if k =? f_elem g then Ok e3 else if k =? f_elem f then Ok e1 else t_get T k).
  { intros k. rewrite G2, G1. reflexivity. }
  assert (GSet : forall k, zat (zinsert (f_elem g) true (zinsert (f_elem f) true S0)) k = if k =? f_elem g then Ok true else if k =? f_elem f then Ok true else zat S0 k).
  { intros k. unfold zat. rewrite !zlookup_insert. destruct (k =? f_elem g); [reflexivity|]. now destruct (k =? f_elem f). }
  assert (Htri : forall id p q r, triangle (with_elems (t_set T1 (f_elem g) e3)) id p q r ->
    (id = f_elem g /\ [p; q; r] = [n4; n3; n1]) \/ (id = f_elem f /\ [p; q; r] = [n3; n4; n2]) \/ triangle (with_elems T) id p q r).
  { intros id p q r (fs & Ht). cbn [with_elems m_elems] in Ht. rewrite GT in Ht.
    destruct (Z.eqb_spec id (f_elem g)); [left; split; [assumption|]; unfold e3, set_e_nodes in Ht; congruence|].
    destruct (Z.eqb_spec id (f_elem f)); [right; left; split; [assumption|]; unfold e1, set_e_nodes in Ht; congruence|].
    right. right. now exists fs. }
  assert (Tre : triangle (with_elems T) (f_elem f) u v w).
  { exists (e_faces e). cbn [with_elems m_elems]. rewrite Hs, He. destruct e as [ty nd fc]. cbn in *. congruence. }
  assert (Tre' : triangle (with_elems T) (f_elem g) u' v' w').
  { exists (e_faces e'). cbn [with_elems m_elems]. rewrite Hs', He'. destruct e' as [ty nd fc]. cbn in *. congruence. }
  constructor; cbn [fst snd].
  - exact W2.
  - exact IdT.
  - intros id Hid. rewrite GSet. destruct (id =? f_elem g); [eauto|]. destruct (id =? f_elem f); [eauto|]. now apply (fl_map _ F).
  - intros id. rewrite GSet, GT. destruct (id =? f_elem g); [discriminate|]. destruct (id =? f_elem f); [discriminate|]. apply (fl_same _ F).
  - intros id x Hx. rewrite GT. destruct (Z.eqb_spec id (f_elem g)) as [->|].
    { exists e3. split; [reflexivity|]. assert (x = e') by congruence. subst x. split; [reflexivity|]. intros C. now destruct C. }
    destruct (Z.eqb_spec id (f_elem f)) as [->|]; [|now apply (fl_type _ F)].
    exists e1. split; [reflexivity|]. assert (x = e) by congruence. subst x. split; [reflexivity|]. intros C. now destruct C.
  - intros id x Hx Ht. cbn [with_elems m_elems] in Hx. rewrite GT in Hx.
    destruct (id =? f_elem g). { injection Hx as <-. exists n4, n3, n1. repeat split; auto. }
    destruct (id =? f_elem f). { injection Hx as <-. exists n3, n4, n2. repeat split; auto. }
    now apply (fl_proper _ F id x).
  - intros id x Hx. rewrite GT in Hx. assert (A := proj1 Rm _ _ He). assert (B := proj1 Rm _ _ He'). rewrite Forall_forall in A, B.
    destruct (id =? f_elem g). { injection Hx as <-. cbn. repeat constructor; auto. }
    destruct (id =? f_elem f). { injection Hx as <-. cbn. repeat constructor; auto. }
    now apply (fl_refs _ F id x).
  - intros a b. rewrite <- (fl_net _ F a b). unfold net, with_elems. cbn [m_elems fst].
    assert (Hnd : NoDup (t_ids T)) by apply WT. assert (Hnd1 : NoDup (t_ids T1)) by apply W1.
    assert (InT : In (f_elem f) (t_ids T)) by now rewrite IdT. assert (InT1 : In (f_elem g) (t_ids T1)) by (cbn; now rewrite IdT).
    rewrite He in Hs.
    pose proof (running_set T1 _ _ e3 a b Hnd1 InT1 Hge') as R1. pose proof (running_set T1 _ _ e3 b a Hnd1 InT1 Hge') as R2.
    pose proof (running_set T _ _ e1 a b Hnd InT Hs) as R3. pose proof (running_set T _ _ e1 b a Hnd InT Hs) as R4. fold T1 in R3, R4.
    pose proof (turned_running _ _ _ _ a b Tu) as Q1. pose proof (turned_running _ _ _ _ b a Tu) as Q2.
    pose proof (turned_running _ _ _ _ a b Tu') as Q3. pose proof (turned_running _ _ _ _ b a Tu') as Q4.
    pose proof (running_sides n3 n4 n2 a b) as Q5. pose proof (running_sides n3 n4 n2 b a) as Q6.
    pose proof (running_sides n4 n3 n1 a b) as Q7. pose proof (running_sides n4 n3 n1 b a) as Q8.
    change (e_nodes e1) with [n3; n4; n2] in *. change (e_nodes e3) with [n4; n3; n1] in *.
    rewrite !(ind_swap _ _ a b) in *. lia.
  - intros Hu id p q r Ht. destruct (Htri _ _ _ _ Ht) as [(_ & E)|[(_ & E)|H]].
    + injection E as -> -> ->. exists p4, p3, p1. cbn [with_elems m_nodes]. destruct (upright_cross tol Htol _ _ _ U4). auto.
    + injection E as -> -> ->. exists p3, p4, p2. cbn [with_elems m_nodes]. destruct (upright_cross tol Htol _ _ _ U3). auto.
    + exact (fl_upright _ F Hu id p q r H).
  - intros Hr b Hb0. pose proof (fl_quality _ F Hr b Hb0) as Hb1. cbn [fst] in Hb1.
    pose proof (Hb1 _ _ _ _ Tre) as B1. pose proof (Hb1 _ _ _ _ Tre') as B2. cbn [with_elems m_nodes] in B1, B2.
    rewrite (turned_quality (e_nodes e) n1 n2 n3 u v w (where_ (m_nodes m)) Hr Euvw Tu) in B1.
    rewrite (turned_quality (e_nodes e') n2 n1 n4 u' v' w' (where_ (m_nodes m)) Hr Euvw' Tu') in B2.
    rewrite (where_get _ _ _ P1), (where_get _ _ _ P2) in B1, B2. rewrite (where_get _ _ _ P3) in B1. rewrite (where_get _ _ _ P4) in B2.
    apply Qlt_bool_iff in Hq.
    assert (Hmin : (b <= quality p3 p4 p2 /\ b <= quality p4 p3 p1)%Q).
    { unfold qmin in Hq. destruct (Qlt_bool (quality p2 p1 p4) (quality p1 p2 p3)), (Qlt_bool (quality p4 p3 p1) (quality p3 p4 p2)) eqn:E;
        [apply Qlt_bool_iff in E| |apply Qlt_bool_iff in E|]; try (split; lra);
        (assert (~ (quality p4 p3 p1 < quality p3 p4 p2)%Q) by (intros C; apply Qlt_bool_iff in C; congruence)); split; lra. }
    intros id p q r Ht. cbn [with_elems m_nodes]. destruct (Htri _ _ _ _ Ht) as [(_ & E)|[(_ & E)|H]].
    + injection E as -> -> ->. rewrite (where_get _ _ _ P4), (where_get _ _ _ P3), (where_get _ _ _ P1). apply Hmin.
    + injection E as -> -> ->. rewrite (where_get _ _ _ P4), (where_get _ _ _ P3), (where_get _ _ _ P2). apply Hmin.
    + exact (Hb1 id p q r H).
Qed.

Lemma flip_all_ok : exists st, flip_all quality tol m = Ok st /\ flipping st.
Proof.
  unfold flip_all. destruct (foldM_invariant (flip_step quality tol m) (fun _ st => flipping st) (t_ids (m_faces m))
    (m_elems m, none_flipped (t_ids (m_elems m)))) as (st & E & H); eauto using flipping_start.
  intros done id rest st El F. destruct (wf_get (m_faces m) id) as [f Hf]; [apply Wm|rewrite El; apply in_elt|]. now apply (flip_step_ok st id f).
Qed.
End Flip.
