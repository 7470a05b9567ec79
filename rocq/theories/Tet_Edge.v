(** Proofs about flipEdges32: three tetrahedra around an edge become two. *)
From Coq Require Import ZArith List Bool QArith Lia Lqa Permutation Sorted.
From Verif Require Merge_Proofs.
From Verif Require Import Prelude Vec ZMap Mesh_Model HashGrid_Model Face_Model Query_Model Merge_Model Merge_Spec Mesh_Spec Mesh_Proofs Face_Spec Face_Proofs
  Query_Props Front_Model Front_Spec Front_Proofs Front_Finish Tune_Model Tune_Spec Tune_Proofs Tune_Relax Tet_Model Tet_Spec Tet_Walls Tet_Proofs Tet_Faces Tet_Ring.
Import ListNotations.
Open Scope Z_scope.

Lemma even4_double l a b c d : even4 l a b c d -> even4 l b a d c.
Proof. unfold even4. intros H. even_cases H; subst l; cbn [In]; tauto. Qed.

Lemma perm_sum (f : Z -> Z) l l' : Permutation l l' -> fold_right (fun i s => f i + s) 0 l = fold_right (fun i s => f i + s) 0 l'.
Proof. induction 1; cbn [fold_right]; lia. Qed.

(** Only the edge of the third and fourth corner passes the tests of volume. *)
Lemma which_edge (pos : Z -> coord) n1 n2 n3 n4 a b x y z v : (0 < v)%Q -> even4 [n1; n2; n3; n4] a b x y ->
  (v <= volume6 (pos a) (pos b) (pos y) (pos z))%Q -> (v <= volume6 (pos a) (pos b) (pos z) (pos x))%Q ->
  (v < volume6 (pos n1) (pos n2) (pos z) (pos n4))%Q -> (v < volume6 (pos n1) (pos n2) (pos n3) (pos z))%Q ->
  (a = n3 /\ b = n4 /\ x = n1 /\ y = n2) \/ (a = n4 /\ b = n3 /\ x = n2 /\ y = n1).
Proof.
  intros Hv H V1 V2 V3 V4. unfold even4 in H.
  assert (S1 : forall p q r s, (volume6 p q s r == - volume6 p q r s)%Q) by (intros; unfold volume6, dot, cross, vsub; cbn; ring).
  assert (S2 : forall p q r s, (volume6 q p r s == - volume6 p q r s)%Q) by (intros; unfold volume6, dot, cross, vsub; cbn; ring).
  assert (S3 : forall p q r s, (volume6 p r q s == - volume6 p q r s)%Q) by (intros; unfold volume6, dot, cross, vsub; cbn; ring).
  even_cases H; injection H as <- <- <- <-; try (left; tauto); try (right; tauto); exfalso; unfold volume6, dot, cross, vsub in *; cbn [cx cy cz] in *; lra.
Qed.

Lemma fifth_ok T n1 n2 n3 n4 z els : ~ In z [n1; n2; n3; n4] ->
  (forall el, In el els -> exists e, t_get T el = Ok e /\ e_type e = ET_TETRAHEDRON /\ forall n, In n (e_nodes e) -> In n [n1; n2; n3; n4] \/ n = z) ->
  (exists el e, In el els /\ t_get T el = Ok e /\ In z (e_nodes e)) -> fifth T els n1 n2 n3 n4 = Ok (Some z).
Proof.
  intros Hz. set (p := fun n => negb (n =? n1) && negb (n =? n2) && negb (n =? n3) && negb (n =? n4)).
  assert (Hp : forall n, p n = true <-> ~ In n [n1; n2; n3; n4]).
  { intros n. unfold p. rewrite !andb_true_iff, !negb_true_iff, !Z.eqb_neq. cbn. intuition congruence. }
  induction els as [|el els IH]; intros Hall (el0 & e0 & Hin & He0 & Hz0); [destruct Hin|]. cbn [fifth].
  destruct (Hall el (or_introl eq_refl)) as (e & He & Ht & Hn). rewrite He. cbn [bind]. rewrite (proj2 (is_tet_spec e) Ht). cbn [negb]. fold p.
  destruct (find p (e_nodes e)) as [n|] eqn:Ef.
  - apply find_some in Ef. destruct Ef as [Ei Ep]. apply Hp in Ep. destruct (Hn n Ei) as [C| ->]; [contradiction|reflexivity].
  - apply IH; [intros k Hk; apply Hall; now right|]. exists el0, e0. split; [|auto]. destruct Hin as [<-|Hin]; [|exact Hin]. exfalso.
    assert (e0 = e) by congruence. subst e0. pose proof (find_none _ _ Ef z Hz0) as C. apply Hp in Hz. congruence.
Qed.

Section Flip32.
Variable quality : coord -> coord -> coord -> coord -> Q.
Variable tol : Q.
Hypothesis Htol : (0 < tol)%Q.
Variable m : mesh.
Hypothesis Wm : wf_mesh m.
Hypothesis Rm : refs_ok m.
Hypothesis Lm : linked4 m.
Hypothesis Im : listed4 m.
Hypothesis Pm : proper4 m.
Hypothesis Am : only_tets m.
Hypothesis Fm : fitted4 m.
Hypothesis Tm : all_thick tol m.
Hypothesis Sm : StronglySorted Z.lt (t_ids (m_elems m)).
Hypothesis Dm : apart m.

Notation with_elems T := (Mesh (m_nodes m) (m_faces m) T).
Definition dead (st : state32) (id : Z) : bool := Merge_Proofs.flagged (s_delete st) id.

Record flipping32 (st : state32) : Prop := Flipping32 {
  f2_wf : wf_table (s_elems st);
  f2_ids : t_ids (s_elems st) = t_ids (m_elems m);
  f2_flags : forall id, In id (t_ids (m_elems m)) -> exists b, zat (s_flipped st) id = Ok b;
  f2_same : forall id, zat (s_flipped st) id = Ok false -> t_get (s_elems st) id = t_get (m_elems m) id;
  f2_ring : forall id, zat (s_flipped st) id = Ok true -> exists a b, a <> b /\ three_at m a b /\ having m a b id /\
    (forall k, having m a b k -> zat (s_flipped st) k = Ok true) /\ exists k, having m a b k /\ dead st k = false;
  f2_sorted : zsorted (s_delete st);
  f2_dead : forall id, dead st id = true -> zat (s_flipped st) id = Ok true /\ exists e n, t_get (s_elems st) id = Ok e /\ e_nodes e = [n; n; n; n];
  f2_type : forall id e, t_get (s_elems st) id = Ok e -> e_type e = ET_TETRAHEDRON;
  f2_proper : forall id e, t_get (s_elems st) id = Ok e -> dead st id = false -> exists p q r s, e_nodes e = [p; q; r; s] /\ NoDup [p; q; r; s];
  f2_refs : forall id e, t_get (s_elems st) id = Ok e -> Forall (fun n => In n (t_ids (m_nodes m))) (e_nodes e);
  f2_net : forall d, net4 (with_elems (s_elems st)) d = net4 m d;
  f2_thick : forall id p q r s, tetrahedron (with_elems (s_elems st)) id p q r s -> dead st id = false ->
    (6 * (tol * tol * tol) <= volume6 (corner m p) (corner m q) (corner m r) (corner m s))%Q;
  f2_quality : even_quality quality -> forall b, at_least4 quality b m -> forall id p q r s, tetrahedron (with_elems (s_elems st)) id p q r s -> dead st id = false ->
    (b <= quality (corner m p) (corner m q) (corner m r) (corner m s))%Q
}.

Lemma dead_none ids id : Merge_Proofs.flagged (none_flipped ids) id = false.
Proof.
  unfold Merge_Proofs.flagged, none_flipped. destruct (in_dec Z.eq_dec id ids) as [H|H].
  - pose proof (proj1 (none_flipped_get ids zempty id) H) as E. unfold zat in E. destruct (zlookup id _) as [[|]|]; congruence.
  - pose proof (proj2 (none_flipped_get ids zempty id) H) as E. unfold zat in E. destruct (zlookup id (fold_left _ _ _)) as [[|]|]; [discriminate|reflexivity..].
Qed.
Lemma none_sorted ids : forall s, zsorted s -> zsorted (fold_left (fun (s : zmap bool) id => zinsert id false s) ids s).
Proof. induction ids as [|k l IH]; intros s H; [exact H|]. cbn [fold_left]. apply IH. now apply zsorted_insert. Qed.

Lemma flipping32_start : flipping32 (State32 (m_elems m) (none_flipped (t_ids (m_elems m))) (none_flipped (t_ids (m_elems m)))).
Proof.
  assert (Hm : with_elems (m_elems m) = m) by now destruct m.
  constructor; cbn [s_elems s_flipped s_delete]; rewrite ?Hm; auto.
  - apply Wm.
  - intros id Hid. exists false. now apply none_flipped_get.
  - intros id C. exfalso. destruct (in_dec Z.eq_dec id (t_ids (m_elems m))) as [H|H].
    + unfold none_flipped in C. rewrite (proj1 (none_flipped_get _ zempty id) H) in C. discriminate.
    + unfold none_flipped in C. rewrite (proj2 (none_flipped_get _ zempty id) H) in C. discriminate.
  - apply none_sorted, zsorted_empty.
  - intros id C. unfold dead in C. cbn [s_delete] in C. rewrite dead_none in C. discriminate.
  - intros id e He _. exact (Pm id e He (Am id e He)).
  - intros id e He. now apply (proj1 Rm) in He.
  - intros id p q r s H _. exact (Tm id p q r s H).
  - intros _ b Hb id p q r s H _. exact (Hb id p q r s H).
Qed.

Lemma zat_insert (s : zmap bool) k b k' : zat (zinsert k b s) k' = if k' =? k then Ok b else zat s k'.
Proof. unfold zat. rewrite zlookup_insert. now destruct (k' =? k). Qed.

Lemma flip32_edge_ok st q id e n1 n2 n3 n4 a b c : flipping32 st ->
  (forall a b, NoDup (sharing2 q a b) /\ forall el, In el (sharing2 q a b) <-> having m a b el) ->
  t_get (m_elems m) id = Ok e -> e_nodes e = [n1; n2; n3; n4] -> zat (s_flipped st) id = Ok false ->
  (1 <= facing (walls_of e) (a, b, c))%nat -> ~ (on_border m a /\ on_border m b) ->
  exists st', flip32_edge quality tol (m_nodes m) n1 n2 n3 n4 (sharing2 q a b) st = Ok st' /\ flipping32 st'.
Proof.
  intros F Hq He En Hun Hw Hb. destruct (Hq a b) as [Nd Hin]. unfold flip32_edge.
  destruct (sharing2 q a b) as [|i1 [|i2 [|i3 [|i4 l]]]]; try (exists st; split; [reflexivity|exact F]).
  destruct (at_wall m Pm Am id e a b c He Hw) as [d H1].
  destruct (ring3 tol Htol m Wm Pm Am Fm Tm id a b c d [i1; i2; i3] Hb eq_refl Nd Hin H1) as (j & k & z & H2 & H3 & P & Hz & Nd3).
  assert (Hab : a <> b) by (destruct H1 as (_ & _ & _ & N); rewrite nodup4 in N; tauto).
  assert (Three : three_at m a b) by (split; [exact Hb|]; exists i1, i2, i3; split; [exact Nd|]; intros x; now rewrite Hin).
  (* none of the three has been changed *)
  assert (Hold : forall x, In x [i1; i2; i3] -> zat (s_flipped st) x = Ok false).
  { intros x Hx. apply Hin in Hx. pose proof Hx as (ex & Hex & _). destruct (f2_flags _ F x (wf_get_in _ _ _ (proj2 (proj2 Wm)) Hex)) as [[|] Hbx]; [|exact Hbx]. exfalso.
    destruct (f2_ring _ F x Hbx) as (a' & b' & Hab' & T' & Hx' & Hall & _).
    assert (Hid : having m a b id) by (eapply at_having; eauto).
    assert (Hid' : having m a' b' id).
    { destruct (Dm x a b a' b' Hab Hab' Three T' Hx Hx') as [[-> ->]|[-> ->]]; [exact Hid|]. destruct Hid as (e0 & He0 & A & B). exists e0. auto. }
    rewrite (Hall id Hid') in Hun. discriminate. }
  assert (Hget : forall x, In x [i1; i2; i3] -> exists ex, t_get (s_elems st) x = Ok ex /\ t_get (m_elems m) x = Ok ex /\ e_type ex = ET_TETRAHEDRON).
  { intros x Hx. pose proof (f2_same _ F x (Hold x Hx)) as E. apply Hin in Hx. destruct Hx as (ex & Hex & _). exists ex. split; [congruence|]. split; [exact Hex|exact (Am _ _ Hex)]. }
  pose proof H1 as (e' & He' & T1 & N1). assert (e' = e) by congruence. subst e'. rewrite En in T1.
  pose proof H2 as (ej & Hej & T2 & N2). pose proof H3 as (ek & Hek & T3 & N3).
  assert (Hz4 : ~ In z [n1; n2; n3; n4]) by (rewrite <- (even4_in _ _ _ _ _ T1 z); exact Hz).
  assert (Inn : forall n, In n [a; b; c; d] -> In n [n1; n2; n3; n4]) by (intros n; apply (even4_in _ _ _ _ _ T1 n)).
  rewrite (fifth_ok (s_elems st) n1 n2 n3 n4 z [i1; i2; i3] Hz4).
  2:{ intros x Hx. destruct (Hget x Hx) as (ex & A & B & C). exists ex. split; [exact A|]. split; [exact C|]. intros n Hn.
      apply (Permutation_in _ P) in Hx. destruct Hx as [<-|[<-|[<-|[]]]].
      - left. assert (ex = e) by congruence. subst. now rewrite En in Hn.
      - assert (ex = ej) by congruence. subst. apply (even4_in _ _ _ _ _ T2) in Hn. cbn [In] in Hn. destruct Hn as [<-|[<-|[<-|[<-|[]]]]]; auto; left; apply Inn; cbn; auto.
      - assert (ex = ek) by congruence. subst. apply (even4_in _ _ _ _ _ T3) in Hn. cbn [In] in Hn. destruct Hn as [<-|[<-|[<-|[<-|[]]]]]; auto; left; apply Inn; cbn; auto. }
  2:{ exists j, ej. assert (Hj : In j [i1; i2; i3]) by (apply (Permutation_in _ (Permutation_sym P)); cbn; auto). split; [exact Hj|].
      destruct (Hget j Hj) as (ex & A & B & _). split; [congruence|]. apply (even4_in _ _ _ _ _ T2). cbn. auto. }
  cbn [bind].
  assert (Hk : forall n, In n [n1; n2; n3; n4] \/ n = z -> In n (t_ids (m_nodes m)) /\ exists p, t_get (m_nodes m) n = Ok p).
  { intros n Hn. assert (Hi : In n (t_ids (m_nodes m))).
    { destruct Hn as [Hn| ->].
      - pose proof (proj1 Rm _ _ He) as A. rewrite Forall_forall in A. apply A. now rewrite En.
      - pose proof (proj1 Rm _ _ Hej) as A. rewrite Forall_forall in A. apply A. apply (even4_in _ _ _ _ _ T2). cbn. auto. }
    split; [exact Hi|]. apply wf_get; [apply Wm|exact Hi]. }
  destruct (Hk n1) as [M1 [p1 P1]]; [cbn; auto|]. destruct (Hk n2) as [M2 [p2 P2]]; [cbn; auto|]. destruct (Hk n3) as [M3 [p3 P3]]; [cbn; auto|].
  destruct (Hk n4) as [M4 [p4 P4]]; [cbn; auto 6|]. destruct (Hk z) as [M5 [p5 P5]]; [now right|].
  rewrite P1, P2, P3, P4, P5. cbn [bind].
  destruct (Qlt_bool (qmin (quality p1 p2 p3 p4) (qmin (quality p1 p5 p4 p3) (quality p5 p2 p4 p3))) (qmin (quality p1 p2 p5 p4) (quality p1 p2 p3 p5))
         && Qlt_bool (cube tol) (volume p1 p2 p5 p4) && Qlt_bool (cube tol) (volume p1 p2 p3 p5))%bool eqn:Hgo; [|exists st; split; [reflexivity|exact F]].
  apply andb_true_iff in Hgo. destruct Hgo as [Hgo V5]. apply andb_true_iff in Hgo. destruct Hgo as [Hqq V4]. apply Qlt_bool_iff in Hqq.
  apply (new_thick tol) in V4, V5.
  assert (Cn : forall n p, t_get (m_nodes m) n = Ok p -> corner m n = p) by (intros n p Hp; unfold corner; now rewrite (where_get _ _ _ Hp)).
  pose proof (Cn _ _ P1) as C1. pose proof (Cn _ _ P2) as C2. pose proof (Cn _ _ P3) as C3. pose proof (Cn _ _ P4) as C4. pose proof (Cn _ _ P5) as C5.
  (* the edge is that of the third and fourth corner *)
  assert (Hedge : exists j k, at_ m id n3 n4 n1 n2 /\ at_ m j n3 n4 n2 z /\ at_ m k n3 n4 z n1 /\ Permutation [i1; i2; i3] [id; j; k] /\
    three_at m n3 n4 /\ forall x, having m n3 n4 x <-> In x [i1; i2; i3]).
  { destruct (which_edge (corner m) n1 n2 n3 n4 a b c d z (6 * (tol * tol * tol))%Q (cube_strict tol Htol) T1) as [(-> & -> & -> & ->)|(-> & -> & -> & ->)].
    - exact (at_volume tol m Pm Am Tm _ _ _ _ _ H2).
    - exact (at_volume tol m Pm Am Tm _ _ _ _ _ H3).
    - rewrite C1, C2, C4, C5. exact V4.
    - rewrite C1, C2, C3, C5. exact V5.
    - exists j, k. repeat (split; [assumption|]). intros x. now rewrite Hin.
    - assert (Sw : forall i x y u v, at_ m i x y u v -> at_ m i y x v u).
      { intros i x y u v (e0 & A & B & C). exists e0. split; [exact A|]. split; [now apply even4_double|]. rewrite nodup4 in *. intuition congruence. }
      assert (Hh : forall x, having m n3 n4 x <-> In x [i1; i2; i3]).
      { intros x. rewrite Hin. split; intros (e0 & A & B & C); exists e0; auto. }
      exists k, j. split; [now apply Sw|]. split; [now apply Sw|]. split; [now apply Sw|]. split; [rewrite P; apply perm_skip, perm_swap|]. split; [|exact Hh].
      split; [tauto|]. exists i1, i2, i3. auto. }
  clear j k H2 H3 P Nd3 ej Hej T2 N2 ek Hek T3 N3. destruct Hedge as (j & k & H1' & H2 & H3 & P & Thr & Hring).
  destruct H1' as (e' & He1 & T1' & N1'). assert (e' = e) by congruence. subst e'. destruct H2 as (ej & Hej & T2 & N2). destruct H3 as (ek & Hek & T3 & N3).
  apply nodup4 in N1', N2, N3. destruct N1' as (N34 & N31 & N32 & N41 & N42 & N12). destruct N2 as (_ & _ & N3z & _ & N4z & N2z). destruct N3 as (_ & _ & _ & _ & _ & Nz1).
  destruct (Hget i1) as (o1 & O1 & Om1 & Y1); [cbn; auto|]. destruct (Hget i2) as (o2 & O2 & Om2 & Y2); [cbn; auto|]. destruct (Hget i3) as (o3 & O3 & Om3 & Y3); [cbn; auto|].
  assert (Hsh : forall x ox, t_get (m_elems m) x = Ok ox -> exists p q r s, e_nodes ox = [p; q; r; s]).
  { intros x ox Hx. destruct (Pm _ _ Hx (Am _ _ Hx)) as (p & q0 & r & s & E & _). eauto. }
  destruct (Hsh _ _ Om1) as (u1 & v1 & w1 & x1 & U1). destruct (Hsh _ _ Om2) as (u2 & v2 & w2 & x2 & U2). destruct (Hsh _ _ Om3) as (u3 & v3 & w3 & x3 & U3).
  assert (D12 : i1 <> i2 /\ i1 <> i3 /\ i2 <> i3).
  { apply NoDup_cons_iff in Nd. destruct Nd as [A Nd]. apply NoDup_cons_iff in Nd. destruct Nd as [B _]. cbn in A, B. intuition congruence. }
  destruct D12 as (D12 & D13 & D23). set (T := s_elems st) in *.
  pose proof (f2_wf _ F) as WT. fold T in WT. pose proof (f2_ids _ F) as IT. fold T in IT.
  assert (In1 : In i1 (t_ids T)) by exact (wf_get_in _ _ _ WT O1). assert (In2 : In i2 (t_ids T)) by exact (wf_get_in _ _ _ WT O2). assert (In3 : In i3 (t_ids T)) by exact (wf_get_in _ _ _ WT O3).
  rewrite (rewrite_four_ok T _ _ _ _ _ _ _ _ _ _ O1 U1). cbn [bind]. set (e1 := set_e_nodes o1 [n1; n2; z; n4]).
  destruct (t_set_wf T i1 e1 WT In1) as [W1 G1]. set (T1t := t_set T i1 e1) in *.
  assert (O2' : t_get T1t i2 = Ok o2) by (rewrite G1; destruct (Z.eqb_spec i2 i1); congruence).
  rewrite (rewrite_four_ok T1t _ _ _ _ _ _ _ _ _ _ O2' U2). cbn [bind]. set (e2 := set_e_nodes o2 [n1; n2; n3; z]).
  destruct (t_set_wf T1t i2 e2 W1 In2) as [W2 G2]. set (T2t := t_set T1t i2 e2) in *.
  assert (O3' : t_get T2t i3 = Ok o3) by (rewrite G2, G1; destruct (Z.eqb_spec i3 i2), (Z.eqb_spec i3 i1); congruence).
  rewrite (rewrite_four_ok T2t _ _ _ _ _ _ _ _ _ _ O3' U3). cbn [bind]. set (e3 := set_e_nodes o3 [n1; n1; n1; n1]).
  destruct (t_set_wf T2t i3 e3 W2 In3) as [W3 G3]. set (T3t := t_set T2t i3 e3) in *.
  eexists. split; [reflexivity|].
  assert (GT : forall x, t_get T3t x = if x =? i3 then Ok e3 else if x =? i2 then Ok e2 else if x =? i1 then Ok e1 else t_get T x).
  { intros x. rewrite G3, G2, G1. reflexivity. }
  set (st' := State32 T3t (zinsert i3 true (zinsert i2 true (zinsert i1 true (s_flipped st)))) (zinsert i3 true (s_delete st))).
  assert (Hdead : forall x, dead st' x = if x =? i3 then true else dead st x).
  { intros x. unfold dead, st', Merge_Proofs.flagged. cbn [s_delete]. rewrite zlookup_insert. now destruct (x =? i3). }
  assert (Hflip : forall x, zat (s_flipped st') x = if x =? i3 then Ok true else if x =? i2 then Ok true else if x =? i1 then Ok true else zat (s_flipped st) x).
  { intros x. unfold st'. cbn [s_flipped]. now rewrite !zat_insert. }
  assert (Hlive : forall x, zat (s_flipped st) x = Ok false -> dead st x = false).
  { intros x Hx. destruct (dead st x) eqn:E; [|reflexivity]. destruct (f2_dead _ F x E) as [A _]. congruence. }
  assert (Htet : forall x p q0 r s, tetrahedron (with_elems T3t) x p q0 r s -> dead st' x = false ->
    [p; q0; r; s] = [n1; n2; z; n4] \/ [p; q0; r; s] = [n1; n2; n3; z] \/ (tetrahedron (with_elems T) x p q0 r s /\ dead st x = false)).
  { intros x p q0 r s (fs & Ht). rewrite Hdead. cbn [m_elems] in Ht. rewrite GT in Ht.
    destruct (x =? i3); [discriminate|]. intros Hd.
    destruct (x =? i2); [right; left; unfold e2, set_e_nodes in Ht; congruence|].
    destruct (x =? i1); [left; unfold e1, set_e_nodes in Ht; congruence|].
    right. right. split; [now exists fs|exact Hd]. }
  assert (Hu : forall x, In x [i1; i2; i3] -> zat (s_flipped st) x = Ok true -> False) by (intros x Hx C; rewrite (Hold x Hx) in C; discriminate).
  constructor; unfold st' at 1; cbn [s_elems]; fold st'.
  - exact W3.
  - exact IT.
  - intros x Hx. rewrite Hflip. destruct (x =? i3); [eauto|]. destruct (x =? i2); [eauto|]. destruct (x =? i1); [eauto|]. exact (f2_flags _ F x Hx).
  - intros x. rewrite Hflip. unfold st'. cbn [s_elems]. rewrite GT. destruct (x =? i3); [discriminate|]. destruct (x =? i2); [discriminate|]. destruct (x =? i1); [discriminate|]. exact (f2_same _ F x).
  - intros x Hx.
    assert (Hcase : In x [i1; i2; i3] \/ zat (s_flipped st) x = Ok true).
    { rewrite Hflip in Hx. destruct (Z.eqb_spec x i3) as [E|E]; [left; rewrite E; cbn; auto|]. destruct (Z.eqb_spec x i2) as [E2|E2]; [left; rewrite E2; cbn; auto|].
      destruct (Z.eqb_spec x i1) as [E1|E1]; [left; rewrite E1; cbn; auto|]. now right. }
    assert (Hup : forall y, zat (s_flipped st) y = Ok true -> zat (s_flipped st') y = Ok true).
    { intros y Hy. rewrite Hflip. destruct (y =? i3); [reflexivity|]. destruct (y =? i2); [reflexivity|]. destruct (y =? i1); [reflexivity|exact Hy]. }
    destruct Hcase as [Hc|Hc].
    + exists n3, n4. split; [exact N34|]. split; [exact Thr|]. split; [now apply Hring|]. split.
      * intros y Hy. apply Hring in Hy. rewrite Hflip. destruct Hy as [<-|[<-|[<-|[]]]]; rewrite ?Z.eqb_refl; [destruct (i1 =? i3), (i1 =? i2)|destruct (i2 =? i3)|]; reflexivity.
      * exists i1. split; [apply Hring; cbn; auto|]. rewrite Hdead. destruct (Z.eqb_spec i1 i3); [contradiction|]. apply Hlive, Hold. cbn. auto.
    + destruct (f2_ring _ F x Hc) as (a' & b' & A1 & A2 & A3 & A4 & y & B1 & B2). exists a', b'. split; [exact A1|]. split; [exact A2|]. split; [exact A3|]. split; [auto|].
      exists y. split; [exact B1|]. rewrite Hdead. destruct (Z.eqb_spec y i3) as [->|]; [|exact B2]. exfalso. apply (Hu i3); [cbn; auto|auto].
  - apply zsorted_insert. exact (f2_sorted _ F).
  - intros x. rewrite Hdead, Hflip. unfold st'. cbn [s_elems]. rewrite GT. destruct (Z.eqb_spec x i3) as [->|Hx3]; [intros _; split; [reflexivity|]; exists e3, n1; split; reflexivity|].
    intros Hd. destruct (f2_dead _ F x Hd) as [A B].
    destruct (Z.eqb_spec x i2) as [->|]; [exfalso; apply (Hu i2); [cbn; auto|exact A]|]. destruct (Z.eqb_spec x i1) as [->|]; [exfalso; apply (Hu i1); [cbn; auto|exact A]|].
    split; [exact A|exact B].
  - intros x y. unfold st'. cbn [s_elems]. rewrite GT. destruct (x =? i3); [intros [= <-]; exact Y3|]. destruct (x =? i2); [intros [= <-]; exact Y2|]. destruct (x =? i1); [intros [= <-]; exact Y1|].
    exact (f2_type _ F x y).
  - intros x y. rewrite Hdead. unfold st'. cbn [s_elems]. rewrite GT. destruct (x =? i3); [discriminate|].
    destruct (x =? i2). { intros [= <-] _. exists n1, n2, n3, z. split; [reflexivity|]. apply nodup4. repeat split; auto. }
    destruct (x =? i1). { intros [= <-] _. exists n1, n2, z, n4. split; [reflexivity|]. apply nodup4. repeat split; auto. }
    exact (f2_proper _ F x y).
  - intros x y. unfold st'. cbn [s_elems]. rewrite GT. destruct (x =? i3); [intros [= <-]; cbn; repeat constructor; assumption|].
    destruct (x =? i2); [intros [= <-]; cbn; repeat constructor; assumption|]. destruct (x =? i1); [intros [= <-]; cbn; repeat constructor; assumption|].
    exact (f2_refs _ F x y).
  - intros dd. rewrite <- (f2_net _ F dd). unfold net4, st'. cbn [m_elems s_elems]. fold T.
    assert (Hall : forall dd, Z.of_nat (facing (all_walls T3t) dd) = Z.of_nat (facing (all_walls T) dd) -
      (ind4 (n3, n4, n1) dd + ind4 (n4, n2, n1) dd + ind4 (n3, n2, n4) dd + ind4 (n3, n1, n2) dd) -
      (ind4 (n3, n4, n2) dd + ind4 (n4, z, n2) dd + ind4 (n3, z, n4) dd + ind4 (n3, n2, z) dd) -
      (ind4 (n3, n4, z) dd + ind4 (n4, n1, z) dd + ind4 (n3, n1, n4) dd + ind4 (n3, z, n1) dd) +
      (ind4 (n1, n2, z) dd + ind4 (n2, n4, z) dd + ind4 (n1, n4, n2) dd + ind4 (n1, z, n4) dd) +
      (ind4 (n1, n2, n3) dd + ind4 (n2, z, n3) dd + ind4 (n1, z, n2) dd + ind4 (n1, n3, z) dd) + 4 * ind4 (n1, n1, n1) dd).
    { clear dd. intros dd.
      pose proof (facing_set T2t _ _ e3 dd (proj1 W2) In3 O3') as R3. pose proof (facing_set T1t _ _ e2 dd (proj1 W1) In2 O2') as R2.
      pose proof (facing_set T _ _ e1 dd (proj1 WT) In1 O1) as R1. fold T1t in R1. fold T2t in R2. fold T3t in R3.
      pose proof (perm_sum (fun i => Z.of_nat (facing (element_walls (m_elems m) i) dd)) _ _ P) as R4. cbn [fold_right] in R4. unfold element_walls in R4.
      rewrite Om1, Om2, Om3, He, Hej, Hek in R4.
      pose proof (even4_facing _ _ _ _ _ dd (Am _ _ He) T1') as Q1. pose proof (even4_facing _ _ _ _ _ dd (Am _ _ Hej) T2) as Q2. pose proof (even4_facing _ _ _ _ _ dd (Am _ _ Hek) T3) as Q3.
      pose proof (facing_walls (e_type o1) n1 n2 z n4 (e_faces o1) dd Y1) as Q4. pose proof (facing_walls (e_type o2) n1 n2 n3 z (e_faces o2) dd Y2) as Q5.
      pose proof (facing_walls (e_type o3) n1 n1 n1 n1 (e_faces o3) dd Y3) as Q6.
      change (Element (e_type o1) [n1; n2; z; n4] (e_faces o1)) with e1 in Q4. change (Element (e_type o2) [n1; n2; n3; z] (e_faces o2)) with e2 in Q5.
      change (Element (e_type o3) [n1; n1; n1; n1] (e_faces o3)) with e3 in Q6. lia. }
    rewrite !Hall, !ind4_over. cbn [turned_over].
    pose proof (ind4_rot n1 n2 z dd). pose proof (ind4_rot n2 z n1 dd). pose proof (ind4_rot z n2 n1 dd). pose proof (ind4_rot n2 n1 z dd).
    pose proof (ind4_rot n3 n4 n1 dd). pose proof (ind4_rot n4 n1 n3 dd). pose proof (ind4_rot n1 n4 n3 dd). pose proof (ind4_rot n4 n3 n1 dd).
    pose proof (ind4_rot n3 n4 n2 dd). pose proof (ind4_rot n4 n2 n3 dd). pose proof (ind4_rot n2 n4 n3 dd). pose proof (ind4_rot n4 n3 n2 dd).
    pose proof (ind4_rot n3 n4 z dd). pose proof (ind4_rot n4 z n3 dd). pose proof (ind4_rot z n4 n3 dd). pose proof (ind4_rot n4 n3 z dd).
    pose proof (ind4_rot n4 n2 n1 dd). pose proof (ind4_rot n2 n1 n4 dd). pose proof (ind4_rot n1 n2 n4 dd). pose proof (ind4_rot n2 n4 n1 dd).
    pose proof (ind4_rot n3 n1 n2 dd). pose proof (ind4_rot n1 n2 n3 dd). pose proof (ind4_rot n2 n1 n3 dd). pose proof (ind4_rot n1 n3 n2 dd).
    pose proof (ind4_rot n4 z n2 dd). pose proof (ind4_rot z n2 n4 dd). pose proof (ind4_rot n2 z n4 dd). pose proof (ind4_rot z n4 n2 dd).
    pose proof (ind4_rot n3 n2 z dd). pose proof (ind4_rot n2 z n3 dd). pose proof (ind4_rot z n2 n3 dd). pose proof (ind4_rot n2 n3 z dd).
    pose proof (ind4_rot n4 n1 z dd). pose proof (ind4_rot n1 z n4 dd). pose proof (ind4_rot z n1 n4 dd). pose proof (ind4_rot n1 n4 z dd).
    pose proof (ind4_rot n3 z n1 dd). pose proof (ind4_rot z n1 n3 dd). pose proof (ind4_rot n1 z n3 dd). pose proof (ind4_rot z n3 n1 dd).
    lia.
  - intros x p q0 r s Ht Hd. destruct (Htet _ _ _ _ _ Ht Hd) as [E|[E|[H Hd']]]; [| |exact (f2_thick _ F x p q0 r s H Hd')];
      injection E as -> -> -> ->; rewrite ?C1, ?C2, ?C3, ?C4, ?C5; lra.
  - intros Hr w Hww x p q0 r s Ht Hd. destruct (Htet _ _ _ _ _ Ht Hd) as [E|E]; [|destruct E as [E|[H Hd']]; [|exact (f2_quality _ F Hr w Hww x p q0 r s H Hd')]].
    all: assert (Hq1 : forall i a1 b1 c1 d1, at_ m i a1 b1 c1 d1 -> (w <= quality (corner m a1) (corner m b1) (corner m c1) (corner m d1))%Q)
      by (intros i a1 b1 c1 d1 (e0 & A & B & C); destruct (Pm _ _ A (Am _ _ A)) as (p0 & q1 & r0 & s0 & En0 & _);
          rewrite <- (even4_quality quality (e_nodes e0) a1 b1 c1 d1 p0 q1 r0 s0 (corner m) Hr En0 B); apply (Hww i); exists (e_faces e0); pose proof (Am _ _ A); rewrite A; destruct e0; cbn in *; congruence).
    all: assert (B1 : (w <= quality p1 p2 p3 p4)%Q) by (rewrite <- C1, <- C2, <- C3, <- C4; apply (Hww id); exists (e_faces e); pose proof (Am _ _ He); rewrite He; destruct e; cbn in *; congruence).
    all: assert (B2 : (w <= quality p1 p5 p4 p3)%Q) by (rewrite <- C1, <- C3, <- C4, <- C5; apply (Hq1 k); exists ek; split; [exact Hek|]; split;
      [unfold even4 in T3 |- *; even_cases T3; rewrite <- T3; cbn [In]; tauto|apply nodup4; repeat split; auto]).
    all: assert (B3 : (w <= quality p5 p2 p4 p3)%Q) by (rewrite <- C2, <- C3, <- C4, <- C5; apply (Hq1 j); exists ej; split; [exact Hej|]; split;
      [unfold even4 in T2 |- *; even_cases T2; rewrite <- T2; cbn [In]; tauto|apply nodup4; repeat split; auto]).
    all: pose proof (qmin_glb w _ _ B1 (qmin_glb w _ _ B2 B3)) as B4.
    all: pose proof (qmin_le_l (quality p1 p2 p5 p4) (quality p1 p2 p3 p5)) as L1; pose proof (qmin_le_r (quality p1 p2 p5 p4) (quality p1 p2 p3 p5)) as L2.
    all: injection E as -> -> -> ->; rewrite ?C1, ?C2, ?C3, ?C4, ?C5; lra.
Qed.

Lemma flip32_all_ok : exists st, flip32_all quality tol m = Ok st /\ flipping32 st.
Proof.
  destruct (border_ok m Wm) as (fixed & Eb & Hb). destruct (C83_sharing_two (m_elems m) (proj2 (proj2 Wm)) Sm) as (q & Eq & Hq).
  unfold flip32_all. rewrite Eb, Eq. cbn [bind].
  destruct (foldM_invariant (flip32_step quality tol m fixed q) (fun _ st => flipping32 st) (t_ids (m_elems m))
    (State32 (m_elems m) (none_flipped (t_ids (m_elems m))) (none_flipped (t_ids (m_elems m))))) as (st & E & H); [exact flipping32_start| |eauto].
  intros done id rest st Ed F. assert (Hid : In id (t_ids (m_elems m))) by (rewrite Ed; apply in_elt). clear done rest Ed.
  unfold flip32_step. destruct (f2_flags _ F id Hid) as [b0 Hb0].
  destruct (wf_get (s_elems st) id (f2_wf _ F)) as [es Hes]; [now rewrite (f2_ids _ F)|]. rewrite Hes. cbn [bind].
  rewrite (proj2 (is_tet_spec es) (f2_type _ F _ _ Hes)). cbn [negb]. rewrite Hb0. cbn [bind]. destruct b0; [exists st; split; [reflexivity|exact F]|].
  assert (He : t_get (m_elems m) id = Ok es) by (rewrite <- Hes; symmetry; exact (f2_same _ F id Hb0)).
  destruct (Pm _ _ He (Am _ _ He)) as (n1 & n2 & n3 & n4 & En & Nd). rewrite En.
  change (vec_at [n1; n2; n3; n4] 0) with (Ok n1). change (vec_at [n1; n2; n3; n4] 1) with (Ok n2). change (vec_at [n1; n2; n3; n4] 2) with (Ok n3). change (vec_at [n1; n2; n3; n4] 3) with (Ok n4).
  cbn [bind]. clear Hb0 Hes.
  destruct (foldM_invariant (flip32_face quality tol m fixed q id n1 n2 n3 n4) (fun _ st => flipping32 st) (e_faces es) st) as (st' & E & H); [exact F| |eauto].
  clear st F. intros done fid rest st Ed F. destruct (Im id es fid He) as (f & Hf & Hfe); [rewrite Ed; apply in_elt|]. clear done rest Ed.
  unfold flip32_face. destruct (f2_flags _ F id Hid) as [b0 Hb0]. rewrite Hb0. cbn [bind]. destruct b0; [exists st; split; [reflexivity|exact F]|]. rewrite Hf. cbn [bind].
  destruct (f_type f) eqn:Ef; try (exists st; split; [reflexivity|exact F]).
  rewrite <- Hfe in He. destruct (Lm _ _ _ Hf Ef He (Am _ _ He)) as (a & b & c & Enf & Hw & _). rewrite Hfe in He. rewrite Enf. clear Hb0.
  assert (Hn : forall x, In x [a; b; c] -> In x (t_ids (m_nodes m))).
  { intros x Hx. pose proof (proj2 Rm _ _ Hf) as A. rewrite Forall_forall in A. apply A. now rewrite Enf. }
  destruct (foldM_invariant (flip32_corner quality tol m fixed q id n1 n2 n3 n4 f) (fun _ st => flipping32 st) (zrange (length [a; b; c])) st) as (st' & E & H); [exact F| |eauto].
  clear st F. intros done k rest st Ed F. assert (Hk : k = 0 \/ k = 1 \/ k = 2).
  { change (zrange (length [a; b; c])) with [0; 1; 2] in Ed. assert (In k [0; 1; 2]) as I by (rewrite Ed; apply in_elt). cbn in I. intuition congruence. }
  unfold flip32_corner. destruct (f2_flags _ F id Hid) as [b0 Hb0]. rewrite Hb0. cbn [bind]. destruct b0; [exists st; split; [reflexivity|exact F]|]. rewrite Enf.
  assert (Hedge : exists u v w, vec_at [a; b; c] (k mod 3) = Ok u /\ vec_at [a; b; c] ((k + 1) mod 3) = Ok v /\ (1 <= facing (walls_of es) (u, v, w))%nat /\
    In u [a; b; c] /\ In v [a; b; c]).
  { destruct Hk as [->|[->| ->]]; [exists a, b, c|exists b, c, a|exists c, a, b]; (split; [reflexivity|]); (split; [reflexivity|]); (split; [|cbn; auto]).
    - exact Hw.
    - rewrite (facing_same _ (b, c, a) (a, b, c)); [exact Hw|]. apply same_side_iff. auto.
    - rewrite (facing_same _ (c, a, b) (a, b, c)); [exact Hw|]. apply same_side_iff. auto. }
  destruct Hedge as (u & v & w & -> & -> & Hw' & Iu & Iv). cbn [bind]. unfold both_at.
  destruct (Hb u (Hn u Iu)) as [[Zu Bu]|[Zu Bu]]; rewrite Zu; cbn [bind].
  - destruct (Hb v (Hn v Iv)) as [[Zv Bv]|[Zv Bv]]; rewrite Zv; cbn [bind]; [exists st; split; [reflexivity|exact F]|].
    apply (flip32_edge_ok st q id es n1 n2 n3 n4 u v w F Hq He En Hb0 Hw'). tauto.
  - apply (flip32_edge_ok st q id es n1 n2 n3 n4 u v w F Hq He En Hb0 Hw'). tauto.
Qed.

(** Removing the collapsed tetrahedra does not change which sides cancel. *)
Lemma dead_walls e n d : e_type e = ET_TETRAHEDRON -> e_nodes e = [n; n; n; n] -> facing (walls_of e) d = facing (walls_of e) (turned_over d).
Proof.
  intros Ht En. destruct e as [ty nd fs]. cbn in Ht, En. subst nd. apply Nat2Z.inj. rewrite !(facing_walls _ _ _ _ _ fs _ Ht), !ind4_over. reflexivity.
Qed.

Lemma removed_net (T T' : table element) (gone : Z -> bool) l d : (forall id, t_get T' id = if gone id then Throw else t_get T id) ->
  (forall id, gone id = true -> exists e n, t_get T id = Ok e /\ e_type e = ET_TETRAHEDRON /\ e_nodes e = [n; n; n; n]) ->
  Z.of_nat (facing (flat_map (element_walls T') (filter (fun id => negb (gone id)) l)) d) - Z.of_nat (facing (flat_map (element_walls T') (filter (fun id => negb (gone id)) l)) (turned_over d)) =
  Z.of_nat (facing (flat_map (element_walls T) l) d) - Z.of_nat (facing (flat_map (element_walls T) l) (turned_over d)).
Proof.
  intros HG Hd. induction l as [|id l IH]; [reflexivity|]. cbn [filter flat_map]. destruct (gone id) eqn:Eg; cbn [negb].
  - destruct (Hd id Eg) as (e & n & He & Ht & En). rewrite IH, !facing_app. unfold element_walls at 3 5. rewrite He.
    pose proof (dead_walls e n d Ht En). lia.
  - cbn [flat_map]. rewrite !facing_app. assert (E : element_walls T' id = element_walls T id) by (unfold element_walls; now rewrite HG, Eg). rewrite E. lia.
Qed.

Lemma flip32_ok n : 1 <= n <= int_max -> t_ids (m_elems m) <> [] ->
  exists m', flipEdges32 n quality tol m = Ok m' /\ m_nodes m' = m_nodes m /\ wf_mesh m' /\ refs_ok m' /\
    (exists keep, t_ids (m_elems m') = filter keep (t_ids (m_elems m))) /\
    (forall id e, t_get (m_elems m) id = Ok e -> (forall a b, a <> b -> three_at m a b -> ~ having m a b id) ->
       exists e', t_get (m_elems m') id = Ok e' /\ e_nodes e' = e_nodes e) /\
    only_tets m' /\ proper4 m' /\ all_thick tol m' /\ (forall d, net4 m' d = net4 m d) /\ (total_volume6 m' == total_volume6 m)%Q /\
    (even_quality quality -> forall b, at_least4 quality b m -> at_least4 quality b m') /\
    (once4 m' -> linked4 m' /\ owned m' /\ fitted4 m' /\ listed4 m').
Proof.
  intros Hn Hne. destruct flip32_all_ok as (st & Ef & F). unfold flipEdges32. rewrite Ef. cbn [bind].
  destruct (Merge_Proofs.remove_flagged_ok (s_delete st) (s_elems st) (f2_wf _ F) (f2_sorted _ F)) as (T & E & WT & IT & GT & _).
  { intros k Hk. destruct (f2_dead _ F k Hk) as [_ (e & n0 & He & _)]. exact (wf_get_in _ _ _ (f2_wf _ F) He). }
  change (remove_marked (s_delete st) (s_elems st)) with (remove_flagged (s_delete st) (s_elems st)). rewrite E. cbn [bind].
  assert (HT : forall id e, t_get T id = Ok e -> dead st id = false /\ t_get (s_elems st) id = Ok e).
  { intros id e He. rewrite GT in He. unfold dead. destruct (Merge_Proofs.flagged (s_delete st) id); [discriminate|auto]. }
  assert (Hall : only_tets (with_elems T)) by (intros id e He; destruct (HT id e He) as [_ A]; exact (f2_type _ F id e A)).
  assert (P1 : proper4 (with_elems T)) by (intros id e He _; destruct (HT id e He) as [A B]; exact (f2_proper _ F id e B A)).
  assert (En1 : enough (with_elems T)) by (apply proper4_enough; [exact P1|]; intros id e He C; destruct C; exact (Hall id e He)).
  assert (Htr : forall id p q r s, tetrahedron (with_elems T) id p q r s -> tetrahedron (with_elems (s_elems st)) id p q r s /\ dead st id = false).
  { intros id p q r s [fs H]. destruct (HT _ _ H) as [A B]. split; [now exists fs|exact A]. }
  assert (Hone : exists id p q r s, tetrahedron (with_elems T) id p q r s).
  { assert (Hlive : exists id, In id (t_ids (m_elems m)) /\ dead st id = false).
    { destruct (t_ids (m_elems m)) as [|id l] eqn:El; [contradiction|]. destruct (dead st id) eqn:Ed; [|exists id; split; [now left|exact Ed]].
      destruct (f2_dead _ F id Ed) as [A _]. destruct (f2_ring _ F id A) as (a & b & _ & _ & _ & _ & k & (e & He & _) & Hk).
      exists k. split; [rewrite <- El; exact (wf_get_in _ _ _ (proj2 (proj2 Wm)) He)|exact Hk]. }
    destruct Hlive as (id & Hid & Hd). rewrite <- (f2_ids _ F) in Hid. destruct (wf_get _ _ (f2_wf _ F) Hid) as [e He].
    destruct (f2_proper _ F id e He Hd) as (p & q & r & s & En & _). exists id, p, q, r, s, (e_faces e). cbn [m_elems]. rewrite GT. unfold dead in Hd. rewrite Hd, He.
    pose proof (f2_type _ F id e He). destruct e. cbn in *. congruence. }
  assert (NT : forall d, net4 (with_elems T) d = net4 m d).
  { intros d. rewrite <- (f2_net _ F d). unfold net4, all_walls. cbn [m_elems]. rewrite IT. apply removed_net; [exact GT|].
    intros id Hid. destruct (f2_dead _ F id Hid) as [_ (e & n0 & He & En)]. exists e, n0. split; [exact He|]. split; [exact (f2_type _ F id e He)|exact En]. }
  destruct Hone as (id1 & p1 & q1 & r1 & s1 & Tr1).
  destruct (refresh_ok n quality tol m T id1 p1 q1 r1 s1 Hn Htol Wm Rm WT P1) as (m' & nb & Eg & Enn & W' & R' & Ei & Hel & P' & Th' & Nt & Vol & Ql & Hlast); auto.
  { intros id e He. destruct (HT id e He) as [_ A]. exact (f2_refs _ F id e A). }
  { intros id p q r s H. destruct (Htr _ _ _ _ _ H) as [A B]. exact (f2_thick _ F id p q r s A B). }
  { intros Hr b Hb id p q r s H. destruct (Htr _ _ _ _ _ H) as [A B]. exact (f2_quality _ F Hr b Hb id p q r s A B). }
  rewrite Eg. cbn [bind fst]. exists m'. split; [reflexivity|]. split; [exact Enn|]. split; [exact W'|]. split; [exact R'|].
  split. { eexists. rewrite Ei, IT, (f2_ids _ F). reflexivity. }
  split.
  { intros id e He Hfree. pose proof (wf_get_in _ _ _ (proj2 (proj2 Wm)) He) as Hid. destruct (f2_flags _ F id Hid) as [[|] Hb].
    - exfalso. destruct (f2_ring _ F id Hb) as (a & b & A & B & C & _). exact (Hfree a b A B C).
    - pose proof (f2_same _ F id Hb) as Hs. rewrite He in Hs. assert (Hd : dead st id = false).
      { destruct (dead st id) eqn:Ed; [|reflexivity]. destruct (f2_dead _ F id Ed) as [C _]. congruence. }
      destruct (Hel id e) as (e' & A & _ & B); [rewrite GT; unfold dead in Hd; now rewrite Hd|]. exists e'. auto. }
  split. { intros id e He. pose proof (wf_get_in _ _ _ (proj2 (proj2 W')) He) as Hin. rewrite Ei in Hin. destruct (wf_get _ _ WT Hin) as [e0 He0].
    destruct (Hel id e0 He0) as (e2 & A & B & _). assert (e2 = e) by congruence. subst. rewrite B. exact (Hall id e0 He0). }
  split; [exact P'|]. split; [exact Th'|]. split; [exact Nt|]. split; [exact Vol|]. split; [exact Ql|]. intros Hon. apply Hlast; assumption.
Qed.
End Flip32.
