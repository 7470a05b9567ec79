(** The three tetrahedra around an inner edge that belongs to exactly three. *)
From Coq Require Import ZArith List Bool QArith Lia Lqa Permutation.
From Verif Require Import Prelude Vec ZMap Mesh_Model HashGrid_Model Face_Model Query_Model Merge_Model Mesh_Spec Mesh_Proofs Face_Spec Face_Proofs
  Front_Model Front_Spec Front_Proofs Front_Finish Tune_Model Tune_Spec Tune_Proofs Tune_Relax Tet_Model Tet_Spec Tet_Walls Tet_Proofs Tet_Faces.
Import ListNotations.
Open Scope Z_scope.

Lemma fourth_exists e p q r s a b c : e_nodes e = [p; q; r; s] -> NoDup [p; q; r; s] -> exists n, fourth e a b c = Some n.
Proof.
  intros En Hnd. unfold fourth. destruct (find _ (e_nodes e)) as [n|] eqn:E; [eauto|]. exfalso. rewrite En in E. pose proof (find_none _ _ E) as H. cbv beta in H.
  assert (I : incl [p; q; r; s] [a; b; c]).
  { intros x Hx. specialize (H x Hx). rewrite !andb_false_iff, !negb_false_iff, !Z.eqb_eq in H. cbn. intuition congruence. }
  pose proof (NoDup_incl_length Hnd I) as L. cbn in L. lia.
Qed.

Lemma even4_wall e a b c d : e_type e = ET_TETRAHEDRON -> even4 (e_nodes e) a b c d -> (1 <= facing (walls_of e) (a, b, c))%nat /\ (1 <= facing (walls_of e) (a, d, b))%nat.
Proof.
  intros Ht H. pose proof (even4_facing e a b c d (a, b, c) Ht H) as A. pose proof (even4_facing e a b c d (a, d, b) Ht H) as B.
  assert (C : forall x, ind4 x x = 1) by (intros x; unfold ind4; now rewrite same_side_refl). rewrite C in A, B.
  pose proof (ind4_pos (b, d, c) (a, b, c)). pose proof (ind4_pos (a, d, b) (a, b, c)). pose proof (ind4_pos (a, c, d) (a, b, c)).
  pose proof (ind4_pos (a, b, c) (a, d, b)). pose proof (ind4_pos (b, d, c) (a, d, b)). pose proof (ind4_pos (a, c, d) (a, d, b)). lia.
Qed.

Lemma even4_nodup l a b c d p q r s : l = [p; q; r; s] -> NoDup [p; q; r; s] -> even4 l a b c d -> NoDup [a; b; c; d].
Proof. intros -> Hn H. rewrite nodup4 in *. unfold even4 in H. even_cases H; injection H as -> -> -> ->; intuition congruence. Qed.

Lemma even4_unique e a b x y x' y' : e_type e = ET_TETRAHEDRON -> NoDup [a; b; x; y] -> NoDup [a; b; x'; y'] ->
  even4 (e_nodes e) a b x y -> even4 (e_nodes e) a b x' y' -> x' = x /\ y' = y.
Proof.
  intros Ht N N' H H'. pose proof (proj1 (even4_in _ _ _ _ _ H' x') (ltac:(cbn; auto))) as I1. pose proof (proj1 (even4_in _ _ _ _ _ H' y') (ltac:(cbn; auto))) as I2.
  rewrite <- (even4_in _ _ _ _ _ H) in I1, I2. pose proof N as N0. rewrite nodup4 in N, N'. cbn [In] in I1, I2.
  destruct (Z.eq_dec x' x) as [->|Hne]; [split; [reflexivity|intuition congruence]|]. exfalso.
  assert (x' = y) by intuition congruence. assert (y' = x) by intuition congruence. subst.
  pose proof (one_sided _ _ _ _ _ Ht H N0) as O. destruct (even4_wall _ _ _ _ _ Ht H') as [_ Q].
  rewrite (facing_same _ (a, x, b) (x, b, a)) in Q by (apply same_side_iff; auto). lia.
Qed.

Section Ring.
Variable tol : Q.
Hypothesis Htol : (0 < tol)%Q.
Variable m : mesh.
Hypothesis Wm : wf_mesh m.
Hypothesis Pm : proper4 m.
Hypothesis Am : only_tets m.
Hypothesis Om : once4 m.
Hypothesis Fm : fitted4 m.
Hypothesis Tm : all_thick tol m.

Definition at_ (id a b c d : Z) : Prop := exists e, t_get (m_elems m) id = Ok e /\ even4 (e_nodes e) a b c d /\ NoDup [a; b; c; d].

Lemma cube_strict : (0 < 6 * (tol * tol * tol))%Q.
Proof. assert (0 < tol * tol * tol)%Q by (apply Qmult_lt_0_compat; [apply Qmult_lt_0_compat|]; exact Htol). lra. Qed.

Lemma at_volume id a b c d : at_ id a b c d -> (6 * (tol * tol * tol) <= volume6 (corner m a) (corner m b) (corner m c) (corner m d))%Q.
Proof.
  intros (e & He & H & _). destruct (Pm _ _ He (Am _ _ He)) as (p & q & r & s & En & _).
  rewrite <- (even4_quality volume6 (e_nodes e) a b c d p q r s (corner m) volume_even En H). apply (Tm id). exists (e_faces e).
  pose proof (Am _ _ He). rewrite He. destruct e. cbn in *. congruence.
Qed.

Lemma at_wall id e a b c : t_get (m_elems m) id = Ok e -> (1 <= facing (walls_of e) (a, b, c))%nat -> exists d, at_ id a b c d.
Proof.
  intros He Hf. destruct (Pm _ _ He (Am _ _ He)) as (p & q & r & s & En & Nd). destruct (fourth_exists e p q r s a b c En Nd) as [d Hd].
  exists d, e. split; [exact He|]. exact (fourth_corner e p q r s a b c d (Am _ _ He) En Nd Hf Hd).
Qed.

Lemma at_having id a b c d : at_ id a b c d -> having m a b id.
Proof. intros (e & He & H & _). exists e. split; [exact He|]. split; apply (even4_in _ _ _ _ _ H); cbn; auto. Qed.

(** The next tetrahedron around the edge. *)
Lemma next_at id a b x y : ~ (on_border m a /\ on_border m b) -> at_ id a b x y -> exists j z, at_ j a b y z /\ j <> id /\ z <> x.
Proof.
  intros Hb Hat. pose proof Hat as (e & He & H & Nd). destruct (even4_wall _ _ _ _ _ (Am _ _ He) H) as [_ Q].
  pose proof (walls_le (m_elems m) id e (a, y, b) (proj1 (proj2 (proj2 Wm))) He (wf_get_in _ _ _ (proj2 (proj2 Wm)) He)) as Q1.
  assert (N0 : net4 m (a, y, b) = 0) by (destruct (Z.eq_dec (net4 m (a, y, b)) 0) as [E|E]; [exact E|]; exfalso; apply Hb; destruct (Fm _ _ _ E) as (A & _ & B); auto).
  unfold net4 in N0. cbn [turned_over] in N0. assert (Q2 : (1 <= facing (all_walls (m_elems m)) (b, y, a))%nat) by lia.
  apply facing_in in Q2. destruct Q2 as (d & Hd & Sd). unfold all_walls in Hd. apply in_flat_map in Hd. destruct Hd as (j & Hj & Hd). unfold element_walls in Hd.
  destruct (t_get (m_elems m) j) as [e2| |] eqn:Ej; try destruct Hd.
  assert (Q3 : (1 <= facing (walls_of e2) (b, y, a))%nat) by (apply facing_in; eauto).
  rewrite (facing_same _ (b, y, a) (a, b, y)) in Q3 by (apply same_side_iff; auto).
  destruct (at_wall j e2 a b y Ej Q3) as [z Hz]. exists j, z. split; [exact Hz|].
  assert (Hzx : z <> x).
  { intros ->. pose proof (at_volume _ _ _ _ _ Hz) as V1. pose proof (at_volume _ _ _ _ _ Hat) as V2. pose proof cube_strict as C.
    assert (E : (volume6 (corner m a) (corner m b) (corner m y) (corner m x) == - volume6 (corner m a) (corner m b) (corner m x) (corner m y))%Q)
      by (unfold volume6, dot, cross, vsub; cbn; ring). lra. }
  split; [|exact Hzx]. intros ->. destruct Hz as (e3 & He3 & H3 & N3). assert (e3 = e) by congruence. subst e3.
  destruct (even4_unique e a b x y y z (Am _ _ He) Nd N3 H H3) as [E _]. rewrite nodup4 in Nd. intuition congruence.
Qed.

Lemma ring3 id a b x y l : ~ (on_border m a /\ on_border m b) -> length l = 3%nat -> NoDup l -> (forall k, In k l <-> having m a b k) -> at_ id a b x y ->
  exists j k z, at_ j a b y z /\ at_ k a b z x /\ Permutation l [id; j; k] /\ ~ In z [a; b; x; y] /\ NoDup [id; j; k].
Proof.
  intros Hb Hl Hnd Hin H1. destruct (next_at _ _ _ _ _ Hb H1) as (j & z & H2 & Hj & Hzx). destruct (next_at _ _ _ _ _ Hb H2) as (k & w & H3 & Hk & Hwy).
  assert (U : forall i x1 y1 x2 y2, at_ i a b x1 y1 -> at_ i a b x2 y2 -> x2 = x1 /\ y2 = y1).
  { intros i x1 y1 x2 y2 (e1 & E1 & A1 & N1) (e2 & E2 & A2 & N2). assert (e2 = e1) by congruence. subst. exact (even4_unique e1 _ _ _ _ _ _ (Am _ _ E1) N1 N2 A1 A2). }
  assert (Hki : k <> id) by (intros ->; destruct (U _ _ _ _ _ H1 H3); congruence).
  assert (Nd3 : NoDup [id; j; k]) by (repeat constructor; cbn; intuition congruence).
  assert (P : Permutation l [id; j; k]).
  { symmetry. apply NoDup_Permutation_bis; [exact Nd3|cbn; lia|]. intros i [<-|[<-|[<-|[]]]]; apply Hin; eapply at_having; eauto. }
  destruct (next_at _ _ _ _ _ Hb H3) as (i & v & H4 & Hi & Hvz).
  assert (Hil : In i [id; j; k]) by (apply (Permutation_in _ P), Hin; eapply at_having; eauto).
  assert (w = x).
  { destruct Hil as [<-|[<-|[<-|[]]]]; [destruct (U _ _ _ _ _ H1 H4); congruence|destruct (U _ _ _ _ _ H2 H4); congruence|congruence]. }
  subst w. exists j, k, z. split; [exact H2|]. split; [exact H3|]. split; [exact P|]. split; [|exact Nd3].
  destruct H2 as (_ & _ & _ & N2). rewrite nodup4 in N2. cbn. intuition congruence.
Qed.
End Ring.
