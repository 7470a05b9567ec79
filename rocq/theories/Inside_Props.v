(** C114: which points a triangle contains, and how far a point is from it. *)
From Coq Require Import Reals List Lra Lia Bool.
From Verif Require Import Fem_Model Inside_Model Inside_Spec Inside_Proofs.
Import ListNotations.
Open Scope R_scope.

(** Every point of a triangle, its sides included, is contained in it. *)
Theorem C114_complete (a b c p : pt) (tol : R) : proper a b c -> 0 < tol -> in_triangle a b c p -> contains a b c p tol <> None.
Proof.
  intros H T (x & y & z & X & Y & Z & E & ->) N.
  pose proof (contains_cases a b c (mix x y z a b c) tol) as C. cbn zeta in C. rewrite N in C.
  rewrite boxed_mix in C by (assumption || lra).
  destruct (side_mix a b c x y z H E) as (S0 & S1 & S2). rewrite S0, S1, S2 in C.
  pose proof (area2_pos a b c H) as Ap.
  pose proof (Rmult_le_pos x _ X (Rlt_le _ _ Ap)). pose proof (Rmult_le_pos y _ Y (Rlt_le _ _ Ap)). pose proof (Rmult_le_pos z _ Z (Rlt_le _ _ Ap)).
  destruct C as [C|[C|[C|C]]]; [discriminate|lra|lra|lra].
Qed.
Print Assumptions C114_complete.

(** A point of the plane that is contained is within the tolerance of a vertex, or it has weights adding up to 1 none of which is below
    minus the tolerance over twice the area. *)
Theorem C114_sound (a b c p : pt) (tol : R) : proper a b c -> coplanar a b c p -> contains a b c p tol <> None ->
  (dist p a <= tol \/ dist p b <= tol \/ dist p c <= tol) \/
  exists x y z, x + y + z = 1 /\ p = mix x y z a b c /\ - tol / area2 a b c < x /\ - tol / area2 a b c < y /\ - tol / area2 a b c < z.
Proof.
  intros H C N. pose proof (contains_cases a b c p tol) as K. cbn zeta in K.
  pose proof (area2_pos a b c H) as Ap. pose proof (Rinv_0_lt_compat _ Ap) as Ip.
  assert (G : - tol < side (unit_normal a b c) a b p /\ - tol < side (unit_normal a b c) b c p /\ - tol < side (unit_normal a b c) c a p ->
    exists x y z, x + y + z = 1 /\ p = mix x y z a b c /\ - tol / area2 a b c < x /\ - tol / area2 a b c < y /\ - tol / area2 a b c < z).
  { intros (G0 & G1 & G2). exists (side (unit_normal a b c) b c p / area2 a b c), (side (unit_normal a b c) c a p / area2 a b c), (side (unit_normal a b c) a b p / area2 a b c).
    pose proof (side_sum a b c p H) as Q. cbn zeta in Q. pose proof (mix_exists a b c p H C) as M. cbn zeta in M.
    split; [rewrite <- !Rdiv_plus_distr; replace (_ + _ + _) with (area2 a b c) by lra; field; lra|].
    split; [exact M|]. unfold Rdiv. split; [|split]; apply Rmult_lt_compat_r; assumption. }
  destruct (contains a b c p tol) as [[]|]; [left; tauto|right; apply G; tauto|right; apply G; tauto|congruence].
Qed.
Print Assumptions C114_sound.

(** A point that is said to be at a vertex is within the tolerance of one. *)
Theorem C114_vertex (a b c p : pt) (tol : R) : contains a b c p tol = Some AtVertex -> dist p a <= tol \/ dist p b <= tol \/ dist p c <= tol.
Proof. intros E. pose proof (contains_cases a b c p tol) as K. cbn zeta in K. rewrite E in K. tauto. Qed.
Print Assumptions C114_vertex.

(** The answer "on an edge" is never given, for any point, once twice the area is three tolerances or more. *)
Theorem C114_never_edge (a b c p : pt) (tol : R) : proper a b c -> 3 * tol <= area2 a b c -> contains a b c p tol <> Some OnEdge.
Proof.
  intros H A E. pose proof (contains_cases a b c p tol) as K. cbn zeta in K. rewrite E in K. destruct K as (_ & K0 & K1 & K2 & K).
  pose proof (side_sum a b c p H) as Q. cbn zeta in Q. unfold rate in K.
  set (s0 := side (unit_normal a b c) a b p) in *. set (s1 := side (unit_normal a b c) b c p) in *. set (s2 := side (unit_normal a b c) c a p) in *.
  pose proof (least_first_ok s0 s1 s2) as L. destruct (least_first s0 s1 s2) as [[w0 w1] w2]. destruct L as (L & L1 & L2).
  destruct (Rlt_dec _ _) as [D|D]; [|discriminate]. clear K. apply Rabs_def2 in D. lra.
Qed.
Print Assumptions C114_never_edge.

(** The distance is the one to the point that is handed back, which is a vertex or the foot of the perpendicular, contained in the
    triangle; it is never more than the distance to a vertex, and with a contained foot never more than that to any point of the plane. *)
Theorem C114_distance (a b c p : pt) (tol : R) : proper a b c ->
  let '(d, q) := distance a b c p tol in
  d = dist p q /\ d <= dist p a /\ d <= dist p b /\ d <= dist p c /\
  ((q = a \/ q = b \/ q = c) \/
   (coplanar a b c q /\ contains a b c q tol <> None /\ forall x, coplanar a b c x -> d <= dist p x)).
Proof.
  intros H. unfold distance. cbn zeta. set (n := unit_normal a b c). set (s := pdot n p - pdot n a). set (q := psub p (pscale s n)).
  assert (U : pdot n n = 1) by now apply unit_one.
  destruct (contains a b c q tol) as [k|] eqn:E.
  - assert (D : Rabs s = dist p q) by (symmetry; exact (foot_dist n p (pdot n a) U)).
    assert (M : forall x, coplanar a b c x -> Rabs s <= dist p x).
    { intros x Hx. rewrite D. apply (foot_least n p (pdot n a) U). now apply (coplanar_unit a b c x H). }
    assert (Va : coplanar a b c a) by (unfold coplanar, pdot, psub; cbn; ring).
    assert (Vb : coplanar a b c b) by (unfold coplanar, tri_normal, pdot, pcross, psub; cbn; ring).
    assert (Vc : coplanar a b c c) by (unfold coplanar, tri_normal, pdot, pcross, psub; cbn; ring).
    split; [exact D|]. split; [now apply M|]. split; [now apply M|]. split; [now apply M|]. right.
    split; [apply (coplanar_unit a b c q H); exact (foot_in n p (pdot n a) U)|]. split; [congruence|exact M].
  - pose proof (nearest_ok p a b c) as K. cbn zeta in K. destruct (nearer p _ c) as [d v]. cbn [fst snd] in K. tauto.
Qed.
Print Assumptions C114_distance.

(** The distance to a point of the triangle is zero. *)
Theorem C114_zero (a b c p : pt) (tol : R) : proper a b c -> 0 < tol -> in_triangle a b c p -> distance a b c p tol = (0, p).
Proof.
  intros H T I. assert (C : coplanar a b c p) by (destruct I as (x & y & z & _ & _ & _ & E & ->); now apply mix_coplanar).
  apply (coplanar_unit a b c p H) in C. unfold distance. cbn zeta. rewrite C, Rminus_diag_eq by reflexivity.
  replace (psub p (pscale 0 (unit_normal a b c))) with p by (apply pt_eq; unfold psub, pscale; cbn; ring).
  pose proof (C114_complete a b c p tol H T I). destruct (contains a b c p tol); [|congruence]. now rewrite Rabs_R0.
Qed.
Print Assumptions C114_zero.

(** ** A case *)
Definition A0 := P 0 0 0.
Definition B0 := P 1 0 0.
Definition C0 := P 0 1 0.

Lemma proper0 : proper A0 B0 C0.
Proof. unfold proper, tri_normal, pdot, pcross, psub; cbn. lra. Qed.

Lemma area0 : area2 A0 B0 C0 = 1.
Proof. unfold area2, pnorm, tri_normal, pdot, pcross, psub; cbn. replace (_ + _) with 1 by ring. apply sqrt_1. Qed.

Lemma normal0 : unit_normal A0 B0 C0 = P 0 0 1.
Proof. rewrite unit_is by exact proper0. rewrite area0. apply pt_eq; unfold tri_normal, pscale, pcross, psub; cbn; field. Qed.

(** The middle of the triangle is contained and at distance 0; a point above it is at its height. *)
Example C114_case : in_triangle A0 B0 C0 (P (1/4) (1/4) 0) /\ contains A0 B0 C0 (P (1/4) (1/4) 0) (1/1000) = Some Internal /\
  distance A0 B0 C0 (P (1/4) (1/4) 0) (1/1000) = (0, P (1/4) (1/4) 0).
Proof.
  assert (I : in_triangle A0 B0 C0 (P (1/4) (1/4) 0)).
  { exists (1/2), (1/4), (1/4). split; [lra|]. split; [lra|]. split; [lra|]. split; [lra|]. unfold mix, A0, B0, C0; cbn; f_equal; field. }
  split; [exact I|]. split; [|apply C114_zero; [exact proper0|lra|exact I]].
  pose proof (C114_complete A0 B0 C0 _ (1/1000) proper0 ltac:(lra) I) as N.
  destruct (contains _ _ _ _ _) as [[]|] eqn:E; [exfalso|exfalso|reflexivity|congruence].
  - assert (F : forall v, 1/1000 * (1/1000) < pdot (psub (P (1/4) (1/4) 0) v) (psub (P (1/4) (1/4) 0) v) -> ~ dist (P (1/4) (1/4) 0) v <= 1/1000).
    { intros v L D. unfold dist, pnorm in D. apply Rle_not_lt in D. apply D. rewrite <- (sqrt_square (1/1000)) by lra. apply sqrt_lt_1_alt. lra. }
    apply C114_vertex in E. destruct E as [E|[E|E]]; revert E; apply F; unfold A0, B0, C0, pdot, psub; cbn; lra.
  - revert E. apply C114_never_edge; [exact proper0|rewrite area0; lra].
Qed.

(** Finding: the middle of a side is answered with "internal". The sum compared is the one with the smallest part, not the largest. *)
Theorem C114_edge_refuted : ~ (forall a b c tol, proper a b c -> 0 < tol -> 6 * tol <= area2 a b c ->
  contains a b c (mix (1/2) (1/2) 0 a b c) tol = Some OnEdge).
Proof. intros K. apply (C114_never_edge A0 B0 C0 (mix (1/2) (1/2) 0 A0 B0 C0) (1/1000) proper0); [rewrite area0; lra|]. apply K; [exact proper0|lra|rewrite area0; lra]. Qed.
Print Assumptions C114_edge_refuted.

(** Finding: the height over the plane is not asked. In the box of a triangle that is not parallel to the axes, a point 1/2 away from the
    plane (times the square root of 1/2) is contained. *)
Theorem C114_plane_refuted : ~ (forall a b c p tol, proper a b c -> 0 < tol -> contains a b c p tol <> None ->
  Rabs (pdot (unit_normal a b c) (psub p a)) <= tol \/ dist p a <= tol \/ dist p b <= tol \/ dist p c <= tol).
Proof.
  intros K. set (b := P 2 0 0). set (c := P 0 2 2). set (p := P (1/2) 1 (1/2)).
  assert (H : proper A0 b c) by (unfold proper, b, c, A0, tri_normal, pdot, pcross, psub; cbn; lra).
  pose proof (area2_pos A0 b c H) as Ap. pose proof (area2_sq A0 b c) as As.
  assert (Q : pdot (tri_normal A0 b c) (tri_normal A0 b c) = 32) by (unfold b, c, A0, tri_normal, pdot, pcross, psub; cbn; lra). rewrite Q in As.
  assert (A6 : 5 < area2 A0 b c < 6) by nra.
  assert (I1 : area2 A0 b c * / area2 A0 b c = 1) by (field; lra).
  assert (Ip : 0 < / area2 A0 b c) by now apply Rinv_0_lt_compat.
  assert (F : forall v, 1/1000 * (1/1000) < pdot (psub p v) (psub p v) -> ~ dist p v <= 1/1000).
  { intros v L D. unfold dist, pnorm in D. apply Rle_not_lt in D. apply D. rewrite <- (sqrt_square (1/1000)) by lra. apply sqrt_lt_1_alt. lra. }
  assert (N : contains A0 b c p (1/1000) <> None).
  { intros N. pose proof (contains_cases A0 b c p (1/1000)) as C. cbn zeta in C. rewrite N in C.
    destruct C as [C|C].
    - assert (B : boxed A0 b c p (1/1000) = true); [|congruence]. unfold boxed, A0, b, c, p; cbn [px py pz].
      assert (W : forall x y z v, (x <= v \/ y <= v \/ z <= v) -> (v <= x \/ v <= y \/ v <= z) -> within x y z v (1/1000) = true).
      { intros x y z v L U. apply within_ok. unfold Rmin, Rmax. repeat destruct (Rle_dec _ _); lra. }
      rewrite !W by lra. reflexivity.
    - rewrite unit_is in C by exact H. unfold side in C. rewrite !pdot_scale in C.
      unfold b, c, p, A0, tri_normal, pdot, pcross, psub in C; cbn in C. fold A0 b c in C.
      set (i := / area2 A0 b c) in *. clearbody i. destruct C as [C|[C|C]]; nra. }
  destruct (K A0 b c p (1/1000) H ltac:(lra) N) as [D|[D|[D|D]]]; [|revert D; apply F; unfold A0, b, c, p, pdot, psub; cbn; lra ..].
  rewrite unit_is in D by exact H.
  assert (E : pdot (pscale (/ area2 A0 b c) (tri_normal A0 b c)) (psub p A0) = - (2 * / area2 A0 b c)).
  { unfold b, c, p, A0, tri_normal, pdot, pcross, psub, pscale; cbn. fold A0 b c. field. lra. }
  rewrite E, Rabs_Ropp, Rabs_right in D by lra. nra.
Qed.
Print Assumptions C114_plane_refuted.

(** Finding: beside a side the distance is the one to the nearest vertex and not to the side: from (1/2,-1,0) it is more than the distance 1
    to the middle of the side below. *)
Theorem C114_side_refuted : ~ (forall a b c p x tol, proper a b c -> 0 < tol -> in_triangle a b c x -> fst (distance a b c p tol) <= dist p x).
Proof.
  intros K. set (p := P (1/2) (-1) 0). set (x := P (1/2) 0 0).
  assert (I : in_triangle A0 B0 C0 x).
  { exists (1/2), (1/2), 0. split; [lra|]. split; [lra|]. split; [lra|]. split; [lra|]. unfold mix, x, A0, B0, C0; cbn; f_equal; field. }
  assert (E1 : dist p x = 1) by (unfold dist, pnorm, p, x, pdot, psub; cbn; replace (_ + _) with 1 by field; apply sqrt_1).
  pose proof (K A0 B0 C0 p x (1/1000) proper0 ltac:(lra) I) as L. rewrite E1 in L. clear K.
  unfold distance in L. cbn zeta in L. rewrite normal0 in L.
  replace (pdot (P 0 0 1) p - pdot (P 0 0 1) A0) with 0 in L by (unfold p, A0, pdot; cbn; ring).
  replace (psub p (pscale 0 (P 0 0 1))) with p in L by (apply pt_eq; unfold psub, pscale; cbn; ring).
  assert (F : forall v, 1 < pdot (psub p v) (psub p v) -> 1 < dist p v).
  { intros v G. unfold dist, pnorm. rewrite <- sqrt_1 at 1. apply sqrt_lt_1_alt. lra. }
  assert (Fa : 1 < dist p A0) by (apply F; unfold p, A0, pdot, psub; cbn; lra).
  assert (Fb : 1 < dist p B0) by (apply F; unfold p, B0, pdot, psub; cbn; lra).
  assert (Fc : 1 < dist p C0) by (apply F; unfold p, C0, pdot, psub; cbn; lra).
  assert (N : contains A0 B0 C0 p (1/1000) = None).
  { assert (B : boxed A0 B0 C0 p (1/1000) = false).
    { unfold boxed, A0, B0, C0, p; cbn [px py pz]. destruct (within 0 0 1 (-1) (1/1000)) eqn:W; [exfalso|now rewrite andb_false_r].
      apply within_ok in W. destruct W as [W _]. revert W. unfold Rmin. repeat destruct (Rle_dec _ _); lra. }
    unfold contains. now rewrite B. }
  rewrite N in L. pose proof (nearest_ok p A0 B0 C0) as (S & D & _). rewrite D in L. destruct S as [S|[S|S]]; rewrite S in L; lra.
Qed.
Print Assumptions C114_side_refuted.
