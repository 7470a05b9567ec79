(** C117: points on lines and lines that meet. *)
From Coq Require Import Reals List Lra Lia Bool.
From Verif Require Import Fem_Model Inside_Spec Inside_Proofs Cross_Model Cross_Spec Meet_Model.
Import ListNotations.
Open Scope R_scope.

Lemma leb_ok x y : leb x y = true <-> x <= y.
Proof. unfold leb. destruct (Rle_dec x y); split; intros; congruence || lra || auto. Qed.
Lemma leb_no x y : leb x y = false <-> y < x.
Proof. unfold leb. destruct (Rle_dec x y); split; intros; congruence || lra || auto. Qed.
Lemma ltb_ok x y : ltb x y = true <-> x < y.
Proof. unfold ltb. destruct (Rlt_dec x y); split; intros; congruence || lra || auto. Qed.
Lemma ltb_no x y : ltb x y = false <-> y <= x.
Proof. unfold ltb. destruct (Rlt_dec x y); split; intros; congruence || lra || auto. Qed.

Definition degree : R := 314 / 100 / 180.

Lemma degree_small : 0 < degree < PI / 2.
Proof. unfold degree. pose proof PI2_1. lra. Qed.

(** The part of a line at which the foot of a point is. *)
Definition part (p q x : pt) : R := pdot (psub q p) (psub x p) / pdot (psub q p) (psub q p).

Lemma part_code p q x : 0 < pdot (psub q p) (psub q p) -> pdot (pnormalize (psub q p)) (psub x p) / pnorm (psub q p) = part p q x.
Proof.
  intros H. set (w := psub q p) in *. unfold part. fold w.
  assert (N : 0 < pnorm w) by (now apply sqrt_lt_R0).
  assert (S : pnorm w * pnorm w = pdot w w) by (apply sqrt_sqrt; lra).
  unfold pnormalize. destruct (Rlt_dec _ _) as [_|K]; [|contradiction].
  replace (pdot (pscale (/ pnorm w) w) (psub x p)) with (/ pnorm w * pdot w (psub x p)) by (unfold pdot, pscale; cbn; ring).
  rewrite <- S. field. lra.
Qed.

Lemma sub_part p q s x : at_part p q s x -> psub x p = pscale s (psub q p).
Proof. intros ->. apply pt_eq; unfold mix, psub, pscale; cbn; ring. Qed.

Lemma angle_zero eps w s : 0 <= eps -> 0 < s -> eps < pdot w w -> eps < s * s * pdot w w -> angle eps w (pscale s w) = 0.
Proof.
  intros E S W V. unfold angle. replace (pdot (pscale s w) (pscale s w)) with (s * s * pdot w w) by (unfold pdot, pscale; cbn; ring).
  rewrite (proj2 (ltb_ok _ _) W), (proj2 (ltb_ok _ _) V). cbn [andb].
  replace (pdot w (pscale s w)) with (s * pdot w w) by (unfold pdot, pscale; cbn; ring).
  replace (pdot w w * (s * s * pdot w w)) with ((s * pdot w w) * (s * pdot w w)) by ring.
  rewrite sqrt_square by nra. replace (s * pdot w w / (s * pdot w w)) with 1 by (field; split; lra).
  cbn zeta. rewrite (proj2 (ltb_no 1 (-1))) by lra. rewrite (proj2 (ltb_no 1 1)) by lra. apply acos_1.
Qed.

(** A point of a line other than its start, at a distance from the start that is not negligible, is contained; it counts as an end exactly within
    the tolerance (a part of the length) of one. *)
Theorem C117_contains (eps : R) (p q x : pt) (s tol : R) : 0 <= eps -> 0 <= tol -> 0 < s <= 1 -> at_part p q s x ->
  eps < dist q p * dist q p -> eps < dist x p * dist x p ->
  exists k, line_contains eps p q x tol = Some k /\ (k = AtEnd <-> s <= tol \/ 1 - tol <= s) /\ (k = Inside <-> tol < s < 1 - tol).
Proof.
  intros E T S X W V.
  assert (Sq : forall a b, dist a b * dist a b = pdot (psub a b) (psub a b)) by (intros; apply sqrt_sqrt, pdot_self).
  rewrite Sq in W, V. rewrite (sub_part p q s x X) in V.
  replace (pdot (pscale s (psub q p)) (pscale s (psub q p))) with (s * s * pdot (psub q p) (psub q p)) in V by (unfold pdot, pscale; cbn; ring).
  unfold line_contains. cbn zeta. rewrite part_code by lra.
  assert (Pt : part p q x = s).
  { unfold part. rewrite (sub_part p q s x X). replace (pdot (psub q p) (pscale s (psub q p))) with (s * pdot (psub q p) (psub q p)) by (unfold pdot, pscale; cbn; ring). field. lra. }
  rewrite Pt. rewrite (sub_part p q s x X), angle_zero by (assumption || lra).
  rewrite (proj2 (ltb_no (314 / 100 / 180) 0)) by lra.
  rewrite (proj2 (leb_ok (- tol) s)), (proj2 (leb_ok s (1 + tol))) by lra. cbn [andb].
  eexists. split; [reflexivity|].
  destruct (leb s tol) eqn:L1; [apply leb_ok in L1|apply leb_no in L1]; (destruct (leb (1 - tol) s) eqn:L2; [apply leb_ok in L2|apply leb_no in L2]); cbn [orb];
    split; split; intros; try congruence; try lra; auto.
Qed.
Print Assumptions C117_contains.

(** A point that is contained has its foot on the line, up to the tolerance (a part of the length) beyond the ends, and is seen from the
    start within one degree (3.14/180) of its direction. *)
Theorem C117_sound (eps : R) (p q x : pt) (k : meeting) (tol : R) : 0 <= eps -> line_contains eps p q x tol = Some k ->
  - tol <= part p q x <= 1 + tol /\ cos degree * (dist q p * dist x p) <= pdot (psub q p) (psub x p) /\ x <> p.
Proof.
  intros E H. unfold line_contains in H. cbn zeta in H.
  set (w := psub q p) in *. set (v := psub x p) in *.
  destruct (ltb _ (angle eps w v)) eqn:A; [discriminate|]. apply ltb_no in A. fold degree in A.
  pose proof degree_small as D.
  unfold angle in A. destruct (ltb eps (pdot w w) && ltb eps (pdot v v)) eqn:B.
  2:{ exfalso. cbn zeta in A. rewrite (proj2 (ltb_no 0 (-1))) in A by lra. rewrite (proj2 (ltb_no 1 0)) in A by lra. rewrite acos_0 in A. lra. }
  apply andb_true_iff in B as [B1 B2]. apply ltb_ok in B1, B2.
  assert (Nw : 0 < pnorm w) by (apply sqrt_lt_R0; lra). assert (Nv : 0 < pnorm v) by (apply sqrt_lt_R0; lra).
  unfold w at 1 in H. unfold v in H. fold v in H. unfold v, w in H. rewrite part_code in H by (fold w; lra). fold w v in H.
  destruct (leb (- tol) (part p q x) && leb (part p q x) (1 + tol)) eqn:C; [|discriminate].
  apply andb_true_iff in C as [C1 C2]. apply leb_ok in C1, C2. split; [lra|]. split.
  2:{ intros ->. unfold v in B2. replace (pdot (psub p p) (psub p p)) with 0 in B2 by (unfold pdot, psub; cbn; ring). lra. }
  unfold dist. fold w v. rewrite sqrt_mult in A by lra. change (sqrt (pdot w w)) with (pnorm w) in A. change (sqrt (pdot v v)) with (pnorm v) in A.
  set (r := pdot w v / (pnorm w * pnorm v)) in *. cbn zeta in A.
  assert (G : cos degree <= r).
  { destruct (ltb r (-1)) eqn:L.
    - exfalso. rewrite (proj2 (ltb_no 1 (-1))) in A by lra. replace (-1) with (- (1)) in A by ring. rewrite acos_opp, acos_1 in A. pose proof PI2_1. lra.
    - apply ltb_no in L. destruct (ltb 1 r) eqn:L'.
      + apply ltb_ok in L'. pose proof (COS_bound degree). lra.
      + apply ltb_no in L'. rewrite <- (cos_acos r) by lra. pose proof (acos_bound r). apply cos_decr_1; lra. }
  assert (Er : pdot w v = r * (pnorm w * pnorm v)) by (unfold r; field; lra).
  rewrite Er. apply Rmult_le_compat_r; [|exact G]. apply Rmult_le_pos; lra.
Qed.
Print Assumptions C117_sound.

Lemma start_not eps p q tol : 0 <= eps -> line_contains eps p q p tol = None.
Proof.
  intros E. destruct (line_contains eps p q p tol) as [k|] eqn:H; [|reflexivity]. apply C117_sound in H; [|exact E]. now destruct H as (_ & _ & H).
Qed.

Lemma axis_common x y x' y' s r tol : 0 <= tol -> 0 <= s <= 1 -> 0 <= r <= 1 -> (1 - s) * x + s * y = (1 - r) * x' + r * y' -> axis x y x' y' tol = true.
Proof.
  intros T S R' E.
  assert (M : forall a b u, 0 <= u <= 1 -> Rmin a b <= (1 - u) * a + u * b <= Rmax a b).
  { intros a b u U. unfold Rmin, Rmax. destruct (Rle_dec a b); split; nra. }
  pose proof (M x y s S). pose proof (M x' y' r R'). unfold axis. apply andb_true_iff. rewrite !leb_ok. lra.
Qed.

(** Two lines that are not nearly parallel, with a point in common that is not the start of the second (nor within a negligible distance of it),
    meet; if no ends are within the tolerance of each other the point handed back is the common one. *)
Theorem C117_meet (eps : R) (p q p' q' x : pt) (s r tol : R) : 0 <= eps -> 0 <= tol -> 0 <= s <= 1 -> 0 < r <= 1 ->
  at_part p q s x -> at_part p' q' r x -> eps < dist q' p' * dist q' p' -> eps < dist x p' * dist x p' ->
  tol < pnorm (pcross (psub q p) (psub q' p')) ->
  exists y k, meet eps p q p' q' tol = Some (y, k) /\
    (tol < dist p p' -> tol < dist q q' -> tol < dist p q' -> tol < dist q p' -> y = x).
Proof.
  intros E T S R' X X' W V N. unfold meet. cbn zeta.
  set (da := psub q p) in *. set (db := psub q' p') in *. set (dc := psub p' p) in *. set (dd := pcross da db) in *.
  assert (Hx : forall f, (f = px \/ f = py \/ f = pz) -> (1 - s) * f p + s * f q = (1 - r) * f p' + r * f q').
  { intros f Hf. unfold at_part in X, X'. rewrite X in X'. unfold mix in X'. injection X' as H1 H2 H3. destruct Hf as [-> | [-> | ->]]; lra. }
  assert (Bx : line_boxes p q p' q' tol = true).
  { unfold line_boxes. rewrite !(axis_common _ _ _ _ s r) by (first [lra|apply Hx; auto]). reflexivity. }
  rewrite Bx. cbn [negb].
  pose proof (Hx px (or_introl eq_refl)) as Hpx. pose proof (Hx py (or_intror (or_introl eq_refl))) as Hpy. pose proof (Hx pz (or_intror (or_intror eq_refl))) as Hpz.
  assert (Dc : dc = psub (pscale s da) (pscale r db)) by (apply pt_eq; unfold dc, da, db, psub, pscale; cbn; lra).
  assert (Z : pdot dc dd = 0) by (rewrite Dc; unfold dd, pdot, pcross, psub, pscale; cbn; ring).
  rewrite Z, Rabs_R0, (proj2 (ltb_no tol 0)) by exact T.
  assert (F : forall a b, leb (pnorm (psub a b)) tol = true -> ~ tol < dist a b) by (intros a b K; apply leb_ok in K; unfold dist; lra).
  destruct (leb (pnorm (psub p p')) tol) eqn:N1; [|destruct (leb (pnorm (psub q q')) tol) eqn:N2]; cbn [andb].
  - pose proof (F _ _ N1). destruct (leb (pnorm (psub q q')) tol) eqn:N2; [eexists; eexists; split; [reflexivity|tauto]|].
    destruct (_ && _); [eexists; eexists; split; [reflexivity|tauto]|].
    rewrite (proj2 (leb_no (pdot dd dd) (tol * tol))) by (change (pdot dd dd) with (pdot dd dd); assert (pnorm dd * pnorm dd = pdot dd dd) by apply sqrt_sqrt, pdot_self; nra).
    unfold meet_crossing. cbn zeta. rewrite N1. cbn [orb]. eexists; eexists; split; [reflexivity|tauto].
  - pose proof (F _ _ N2). destruct (_ && _); [eexists; eexists; split; [reflexivity|tauto]|].
    rewrite (proj2 (leb_no (pdot dd dd) (tol * tol))) by (assert (pnorm dd * pnorm dd = pdot dd dd) by apply sqrt_sqrt, pdot_self; nra).
    unfold meet_crossing. cbn zeta. rewrite N1, N2. cbn [orb]. eexists; eexists; split; [reflexivity|tauto].
  - assert (D2 : tol * tol < pdot dd dd) by (assert (pnorm dd * pnorm dd = pdot dd dd) by apply sqrt_sqrt, pdot_self; nra).
    destruct (leb (pnorm (psub p q')) tol) eqn:N3; [|destruct (leb (pnorm (psub q p')) tol) eqn:N4]; cbn [andb].
    + pose proof (F _ _ N3). destruct (leb (pnorm (psub q p')) tol) eqn:N4; [eexists; eexists; split; [reflexivity|tauto]|].
      rewrite (proj2 (leb_no _ _) D2). unfold meet_crossing. cbn zeta. rewrite N1, N2, N3. cbn [orb]. eexists; eexists; split; [reflexivity|tauto].
    + pose proof (F _ _ N4). rewrite (proj2 (leb_no _ _) D2). unfold meet_crossing. cbn zeta. rewrite N1, N2, N3, N4. cbn [orb]. eexists; eexists; split; [reflexivity|tauto].
    + rewrite (proj2 (leb_no _ _) D2). unfold meet_crossing. cbn zeta. rewrite N1, N2, N3, N4. cbn [orb]. fold da db dc. fold dd.
      assert (Es : pdot (pcross dc db) dd / pdot dd dd = s).
      { assert (pcross dc db = pscale s dd) as -> by (rewrite Dc; apply pt_eq; unfold dd, pcross, psub, pscale; cbn; ring).
        replace (pdot (pscale s dd) dd) with (s * pdot dd dd) by (unfold pdot, pscale; cbn; ring). field. nra. }
      rewrite Es. rewrite (proj2 (leb_ok (- tol) s)), (proj2 (leb_ok s (1 + tol))) by lra. cbn [andb].
      replace (P (px p + s * px da) (py p + s * py da) (pz p + s * pz da)) with x by (rewrite X; apply pt_eq; unfold da, mix, psub; cbn; ring).
      destruct (C117_contains eps p' q' x r tol E T R' X' W V) as (k & Hk & _). rewrite Hk. eexists; eexists; split; [reflexivity|reflexivity].
Qed.
Print Assumptions C117_meet.

(** ** A case: a line that ends on the middle of another. *)
Definition west := P (-1) 0 0.
Definition east := P 1 0 0.
Definition north := P 0 1 0.
Definition middle := P 0 0 0.

Lemma unit_dist a b : pdot (psub a b) (psub a b) = 1 -> dist a b = 1.
Proof. intros H. unfold dist, pnorm. rewrite H. apply sqrt_1. Qed.

Example C117_case : exists k, meet 0 west east north middle (1/1000) = Some (middle, k).
Proof.
  assert (Far : forall a b, 1 <= pdot (psub a b) (psub a b) -> 1/1000 < dist a b).
  { intros a b G. apply Rlt_le_trans with 1; [lra|]. unfold dist, pnorm. rewrite <- sqrt_1. now apply sqrt_le_1_alt. }
  destruct (C117_meet 0 west east north middle middle (1/2) 1 (1/1000)) as (y & k & M & Y); try lra.
  - unfold at_part, mix, west, east, middle; cbn. f_equal; field.
  - unfold at_part, mix, north, middle; cbn. f_equal; field.
  - rewrite unit_dist by (unfold middle, north, pdot, psub; cbn; ring). lra.
  - rewrite unit_dist by (unfold middle, north, pdot, psub; cbn; ring). lra.
  - unfold pnorm. replace (pdot _ _) with (2 * 2) by (unfold west, east, north, middle, pdot, pcross, psub; cbn; ring). rewrite sqrt_square; lra.
  - exists k. rewrite M. rewrite Y; [reflexivity| | | |]; apply Far; unfold west, east, north, middle, pdot, psub; cbn; lra.
Qed.

(** Finding: a line does not contain its own start (the angle to the zero vector counts as a right angle). *)
Theorem C117_start_refuted : ~ (forall eps p q tol, 0 <= eps -> 0 < tol -> eps < dist q p * dist q p -> line_contains eps p q p tol <> None).
Proof.
  intros K. apply (K 0 middle north (1/1000)); [lra|lra| |now apply start_not, Rle_refl].
  rewrite unit_dist by (unfold middle, north, pdot, psub; cbn; ring). lra.
Qed.
Print Assumptions C117_start_refuted.

(** Finding: so the line of the case turned round, which begins on the middle of the other, does not meet it. *)
Theorem C117_turned_refuted : meet 0 west east middle north (1/1000) = None.
Proof.
  unfold meet. cbn zeta.
  assert (Far : forall a b, 1 <= pdot (psub a b) (psub a b) -> leb (pnorm (psub a b)) (1/1000) = false).
  { intros a b G. apply leb_no. apply Rlt_le_trans with 1; [lra|]. unfold pnorm. rewrite <- sqrt_1. now apply sqrt_le_1_alt. }
  assert (N1 : leb (pnorm (psub west middle)) (1/1000) = false) by (apply Far; unfold west, middle, pdot, psub; cbn; lra).
  assert (N2 : leb (pnorm (psub east north)) (1/1000) = false) by (apply Far; unfold east, north, pdot, psub; cbn; lra).
  assert (N3 : leb (pnorm (psub west north)) (1/1000) = false) by (apply Far; unfold west, north, pdot, psub; cbn; lra).
  assert (N4 : leb (pnorm (psub east middle)) (1/1000) = false) by (apply Far; unfold east, middle, pdot, psub; cbn; lra).
  destruct (line_boxes _ _ _ _ _); [cbn [negb]|reflexivity]. destruct (ltb _ _); [reflexivity|].
  rewrite N1, N3. cbn [andb].
  rewrite (proj2 (leb_no _ _)) by (unfold west, east, north, middle, pdot, pcross, psub; cbn; lra).
  unfold meet_crossing. cbn zeta. rewrite N1, N2, N3, N4. cbn [orb].
  set (s := pdot _ _ / pdot _ _).
  assert (Es : s = 1/2) by (unfold s, west, east, north, middle, pdot, pcross, psub; cbn; field).
  rewrite Es. clear s Es. destruct (_ && _); [|reflexivity].
  replace (P _ _ _) with middle by (unfold west, east, middle; apply pt_eq; cbn; field).
  rewrite start_not by lra. reflexivity.
Qed.
Print Assumptions C117_turned_refuted.

(** ** Lines along one straight line. *)
Lemma dist_part p q s x : 0 <= s -> at_part p q s x -> dist x p = s * dist q p.
Proof.
  intros S X. unfold dist. rewrite (sub_part p q s x X). unfold pnorm.
  replace (pdot (pscale s (psub q p)) (pscale s (psub q p))) with ((s * s) * pdot (psub q p) (psub q p)) by (unfold pdot, pscale; cbn; ring).
  rewrite sqrt_mult by (try nra; apply pdot_self). now rewrite sqrt_square.
Qed.

Lemma far_no a b tol : tol < dist a b -> leb (pnorm (psub a b)) tol = false.
Proof. intros H. apply leb_no. exact H. Qed.

Lemma dist_swap a b : dist a b = dist b a.
Proof. unfold dist, pnorm. f_equal. unfold pdot, psub; cbn; ring. Qed.

Lemma near_self a tol : 0 <= tol -> leb (pnorm (psub a a)) tol = true.
Proof.
  intros T. apply leb_ok. unfold pnorm. replace (pdot (psub a a) (psub a a)) with 0 by (unfold pdot, psub; cbn; ring). now rewrite sqrt_0.
Qed.

(** A line that goes straight on from the end of another meets it there, as IT_VERTEX. *)
Theorem C117_chain (eps : R) (p q r : pt) (s tol : R) : 0 <= tol -> 1 < s -> at_part p q s r -> tol < dist q p -> tol < dist r q ->
  meet eps p q q r tol = Some (q, AtEnd).
Proof.
  intros T S X D1 D2.
  assert (D3 : tol < dist r p) by (rewrite (dist_part p q s r) by (lra || exact X); nra).
  assert (Rq : psub r q = pscale (s - 1) (psub q p)) by (rewrite X; apply pt_eq; unfold mix, psub, pscale; cbn; ring).
  unfold meet. cbn zeta. rewrite Rq.
  replace (pcross (psub q p) (pscale (s - 1) (psub q p))) with (P 0 0 0) by (apply pt_eq; unfold pcross, pscale; cbn; ring).
  assert (Bx : line_boxes p q q r tol = true) by (unfold line_boxes; rewrite !(axis_common _ _ _ _ 1 0) by lra; reflexivity).
  rewrite Bx. cbn [negb].
  replace (pdot (psub q p) (P 0 0 0)) with 0 by (unfold pdot; cbn; ring). rewrite Rabs_R0, (proj2 (ltb_no tol 0)) by exact T.
  rewrite (far_no p q), (far_no p r), (near_self q) by (try exact T; rewrite dist_swap; assumption). cbn [andb].
  replace (pdot (P 0 0 0) (P 0 0 0)) with 0 by (unfold pdot; cbn; ring). rewrite (proj2 (leb_ok 0 (tol * tol))) by nra.
  unfold meet_parallel. cbn zeta. rewrite (far_no p q), (far_no p r), (far_no q r), (near_self q) by (try exact T; rewrite dist_swap; assumption). cbn [orb].
  rewrite Rq. pose proof (pdot_self (psub q p)) as N.
  assert (0 < pdot (psub q p) (psub q p)).
  { destruct N as [N|N]; [exact N|]. exfalso. unfold dist, pnorm in D1. rewrite <- N, sqrt_0 in D1. lra. }
  replace (pdot (pscale (s - 1) (psub q p)) (psub q p)) with ((s - 1) * pdot (psub q p) (psub q p)) by (unfold pdot, pscale; cbn; ring).
  rewrite (proj2 (leb_no (tol * tol) _)) by nra. reflexivity.
Qed.
Print Assumptions C117_chain.

(** Two lines from one start in one direction lie upon each other: they meet at the start, as IT_INTERNAL. *)
Theorem C117_overlap (eps : R) (p q r : pt) (s tol : R) : 0 <= tol -> 0 < s -> at_part p q s r -> tol < dist q p -> tol < dist r p -> tol < dist q r ->
  meet eps p q p r tol = Some (p, Inside).
Proof.
  intros T S X D1 D2 D3.
  assert (Rp : psub r p = pscale s (psub q p)) by now apply sub_part.
  assert (Ds : dist r p = s * dist q p) by (apply dist_part; lra || exact X).
  unfold meet. cbn zeta. rewrite Rp.
  replace (pcross (psub q p) (pscale s (psub q p))) with (P 0 0 0) by (apply pt_eq; unfold pcross, pscale; cbn; ring).
  assert (Bx : line_boxes p q p r tol = true) by (unfold line_boxes; rewrite !(axis_common _ _ _ _ 0 0) by lra; reflexivity).
  rewrite Bx. cbn [negb].
  replace (pdot (psub p p) (P 0 0 0)) with 0 by (unfold pdot; cbn; ring). rewrite Rabs_R0, (proj2 (ltb_no tol 0)) by exact T.
  rewrite (far_no q r), (far_no p r), (near_self p) by (try exact T; try assumption; rewrite dist_swap; assumption). cbn [andb].
  replace (pdot (P 0 0 0) (P 0 0 0)) with 0 by (unfold pdot; cbn; ring). rewrite (proj2 (leb_ok 0 (tol * tol))) by nra.
  unfold meet_parallel. cbn zeta. rewrite (near_self p) by exact T. cbn [orb]. rewrite Rp.
  replace (pdot (pscale s (psub q p)) (psub q p)) with (s * pdot (psub q p) (psub q p)) by (unfold pdot, pscale; cbn; ring).
  assert (Sq : dist q p * dist q p = pdot (psub q p) (psub q p)) by apply sqrt_sqrt, pdot_self.
  rewrite (proj2 (leb_ok (tol * tol) _)); [reflexivity|]. rewrite <- Sq. replace (s * (dist q p * dist q p)) with (dist r p * dist q p) by (rewrite Ds; ring).
  apply Rmult_le_compat; lra.
Qed.
Print Assumptions C117_overlap.

Example C117_chain_case : meet 0 west middle middle east (1/1000) = Some (middle, AtEnd).
Proof.
  apply C117_chain with 2; try lra.
  - unfold at_part, mix, west, middle, east; cbn. f_equal; ring.
  - rewrite unit_dist by (unfold west, middle, pdot, psub; cbn; ring). lra.
  - rewrite unit_dist by (unfold east, middle, pdot, psub; cbn; ring). lra.
Qed.

Example C117_overlap_case : meet 0 west middle west east (1/1000) = Some (west, Inside).
Proof.
  apply C117_overlap with 2; try lra.
  - unfold at_part, mix, west, middle, east; cbn. f_equal; ring.
  - rewrite unit_dist by (unfold west, middle, pdot, psub; cbn; ring). lra.
  - unfold dist, pnorm. replace (pdot _ _) with (2 * 2) by (unfold east, west, pdot, psub; cbn; ring). rewrite sqrt_square; lra.
  - rewrite unit_dist by (unfold east, middle, pdot, psub; cbn; ring). lra.
Qed.

(** Finding: for two lines upon each other with a common end the point handed back is the start of the first, which need not be on the second. *)
Theorem C117_point_refuted : exists p q p' q' y k, meet 0 p q p' q' (1/1000) = Some (y, k) /\ ~ between p' q' y /\ 1 <= dist y p' /\ 1 <= dist y q'.
Proof.
  exists west, east, middle, east, west, Inside. split; [|split].
  - unfold meet. cbn zeta.
    assert (Bx : line_boxes west east middle east (1/1000) = true) by (unfold line_boxes; rewrite !(axis_common _ _ _ _ 1 1) by lra; reflexivity).
    rewrite Bx. cbn [negb].
    assert (Z : pcross (psub east west) (psub east middle) = P 0 0 0) by (apply pt_eq; unfold pcross, psub, east, west, middle; cbn; ring).
    rewrite Z. replace (pdot (psub middle west) (P 0 0 0)) with 0 by (unfold pdot; cbn; ring). rewrite Rabs_R0, (proj2 (ltb_no (1/1000) 0)) by lra.
    assert (N1 : leb (pnorm (psub west middle)) (1/1000) = false).
    { apply far_no. rewrite unit_dist by (unfold west, middle, pdot, psub; cbn; ring). lra. }
    assert (N3 : leb (pnorm (psub west east)) (1/1000) = false).
    { apply far_no. unfold dist, pnorm. replace (pdot _ _) with (2 * 2) by (unfold east, west, pdot, psub; cbn; ring). rewrite sqrt_square; lra. }
    rewrite N1, N3. cbn [andb]. replace (pdot (P 0 0 0) (P 0 0 0)) with 0 by (unfold pdot; cbn; ring).
    rewrite (proj2 (leb_ok 0 _)) by lra. unfold meet_parallel. cbn zeta. rewrite N1, (near_self east) by lra. cbn [orb].
    rewrite (proj2 (leb_ok _ _)) by (unfold pdot, psub, east, west, middle; cbn; lra). reflexivity.
  - intros (s & S & X). unfold at_part, mix, west, middle, east in X. cbn in X. injection X as X _ _. lra.
  - split.
    + rewrite unit_dist by (unfold west, middle, pdot, psub; cbn; ring). lra.
    + unfold dist, pnorm. replace (pdot _ _) with (2 * 2) by (unfold east, west, pdot, psub; cbn; ring). rewrite sqrt_square; lra.
Qed.
Print Assumptions C117_point_refuted.

(** Two lines along one straight line that have a point in common, no two of their four ends being within the tolerance of each other (nor
    negligibly near), meet as IT_INTERNAL at one of the ends, which lies on the other line up to the tolerance beyond its ends. *)
Theorem C117_straight (eps : R) (p q p' q' x : pt) (s u tol : R) : 0 <= eps -> 0 <= tol -> at_part p q s p' -> at_part p q u q' ->
  between p q x -> between p' q' x ->
  (forall a b, In (a, b) [(p, q); (p', q'); (p, p'); (p, q'); (q, p'); (q, q')] -> tol < dist a b /\ eps < dist a b * dist a b) ->
  exists y, meet eps p q p' q' tol = Some (y, Inside) /\
    ((y = p' \/ y = q') /\ - tol <= part p q y <= 1 + tol \/ (y = p \/ y = q) /\ - tol <= part p' q' y <= 1 + tol).
Proof.
  intros E T Xp Xq (t & Ht & Xt) (w & Hw & Xw) Far.
  pose proof (Far p q ltac:(cbn; auto)) as [F1 G1]. pose proof (Far p' q' ltac:(cbn; auto)) as [F2 G2]. pose proof (Far p p' ltac:(cbn; auto)) as [F3 G3].
  pose proof (Far p q' ltac:(cbn; auto)) as [F4 G4]. pose proof (Far q p' ltac:(cbn; tauto)) as [F5 G5]. pose proof (Far q q' ltac:(cbn; tauto)) as [F6 G6].
  clear Far.
  pose proof (sub_part p q s p' Xp) as Sp. pose proof (sub_part p q u q' Xq) as Sq.
  assert (Sv : psub q' p' = pscale (u - s) (psub q p)) by (rewrite Xp, Xq; apply pt_eq; unfold mix, psub, pscale; cbn; ring).
  assert (Dp : 0 < pdot (psub q p) (psub q p)).
  { pose proof (pdot_self (psub q p)) as [N|N]; [exact N|]. exfalso. rewrite dist_swap in F1. unfold dist, pnorm in F1. rewrite <- N, sqrt_0 in F1. lra. }
  assert (Wt : t = (1 - w) * s + w * u).
  { assert (K : pdot (psub q p) (psub x p) = pdot (psub q p) (psub x p)) by reflexivity.
    assert (Xs : psub x p = pscale ((1 - w) * s + w * u) (psub q p)) by (rewrite Xw, Xp, Xq; apply pt_eq; unfold mix, psub, pscale; cbn; ring).
    rewrite Xs in K at 2. rewrite (sub_part p q t x Xt) in K. replace (pdot (psub q p) (pscale t (psub q p))) with (t * pdot (psub q p) (psub q p)) in K by (unfold pdot, pscale; cbn; ring).
    replace (pdot (psub q p) (pscale ((1 - w) * s + w * u) (psub q p))) with (((1 - w) * s + w * u) * pdot (psub q p) (psub q p)) in K by (unfold pdot, pscale; cbn; ring).
    apply Rmult_eq_reg_r in K; lra. }
  assert (Ns : s <> 0).
  { intros ->. assert (p' = p) by (rewrite Xp; apply pt_eq; unfold mix; cbn; ring). subst p'. pose proof (near_self p tol T) as K. rewrite far_no in K by exact F3. discriminate. }
  assert (Nu : u <> 0).
  { intros ->. assert (q' = p) by (rewrite Xq; apply pt_eq; unfold mix; cbn; ring). subst q'. pose proof (near_self p tol T) as K. rewrite far_no in K by exact F4. discriminate. }
  unfold meet. cbn zeta. rewrite Sp, Sv.
  replace (pcross (psub q p) (pscale (u - s) (psub q p))) with (P 0 0 0) by (apply pt_eq; unfold pcross, pscale; cbn; ring).
  assert (Bx : line_boxes p q p' q' tol = true).
  { unfold at_part in Xt, Xw. rewrite Xt in Xw. unfold mix in Xw. injection Xw as H1 H2 H3. unfold line_boxes. rewrite !(axis_common _ _ _ _ t w) by lra. reflexivity. }
  rewrite Bx. cbn [negb].
  replace (pdot (pscale s (psub q p)) (P 0 0 0)) with 0 by (unfold pdot; cbn; ring). rewrite Rabs_R0, (proj2 (ltb_no tol 0)) by exact T.
  rewrite (far_no p p'), (far_no p q') by assumption. cbn [andb].
  replace (pdot (P 0 0 0) (P 0 0 0)) with 0 by (unfold pdot; cbn; ring). rewrite (proj2 (leb_ok 0 (tol * tol))) by nra.
  unfold meet_parallel. cbn zeta. rewrite (far_no p p'), (far_no p q'), (far_no q p'), (far_no q q') by assumption. cbn [orb].
  destruct (line_contains eps p q p' tol) eqn:L1.
  { exists p'. split; [reflexivity|]. left. split; [auto|]. apply C117_sound in L1; tauto. }
  destruct (line_contains eps p q q' tol) eqn:L2.
  { exists q'. split; [reflexivity|]. left. split; [auto|]. apply C117_sound in L2; tauto. }
  destruct (line_contains eps p' q' p tol) eqn:L3.
  { exists p. split; [reflexivity|]. right. split; [auto|]. apply C117_sound in L3; tauto. }
  exfalso.
  assert (Os : ~ 0 < s <= 1).
  { intros O. destruct (C117_contains eps p q p' s tol E T O Xp) as (k & K & _); [now rewrite dist_swap|now rewrite dist_swap|congruence]. }
  assert (Ou : ~ 0 < u <= 1).
  { intros O. destruct (C117_contains eps p q q' u tol E T O Xq) as (k & K & _); [now rewrite dist_swap|now rewrite dist_swap|congruence]. }
  assert (C : s < 0 /\ 1 < u \/ u < 0 /\ 1 < s).
  { destruct (Rlt_dec s 0); destruct (Rlt_dec u 0).
    - exfalso. nra.
    - left. lra.
    - right. lra.
    - exfalso. assert (1 < s) by lra. assert (1 < u) by lra.
      assert (0 <= (1 - w) * (s - 1)) by (apply Rmult_le_pos; lra). assert (0 <= w * (u - 1)) by (apply Rmult_le_pos; lra).
      destruct (Rlt_dec w 1) as [W|W].
      + assert (0 < (1 - w) * (s - 1)) by (apply Rmult_lt_0_compat; lra). lra.
      + assert (0 < w * (u - 1)) by (apply Rmult_lt_0_compat; lra). lra. }
  assert (B : 0 < (- s) / (u - s) <= 1).
  { destruct C as [[C1 C2]|[C1 C2]].
    - split; [apply Rdiv_lt_0_compat; lra|]. apply Rmult_le_reg_r with (u - s); [lra|]. unfold Rdiv. rewrite Rmult_assoc, Rinv_l by lra. lra.
    - replace (- s / (u - s)) with (s / (s - u)) by (field; lra). split; [apply Rdiv_lt_0_compat; lra|].
      apply Rmult_le_reg_r with (s - u); [lra|]. unfold Rdiv. rewrite Rmult_assoc, Rinv_l by lra. lra. }
  assert (Xb : at_part p' q' (- s / (u - s)) p).
  { unfold at_part. rewrite Xp, Xq. apply pt_eq; unfold mix; cbn; field; lra. }
  destruct (C117_contains eps p' q' p _ tol E T B Xb) as (k & K & _); [now rewrite dist_swap|assumption|congruence].
Qed.
Print Assumptions C117_straight.

Definition on_axis (x : R) : pt := P x 0 0.

Lemma axis_dist a b : dist (on_axis a) (on_axis b) = Rabs (a - b).
Proof.
  unfold dist, pnorm, on_axis, pdot, psub; cbn. replace ((a - b) * (a - b) + (0 - 0) * (0 - 0) + (0 - 0) * (0 - 0)) with (Rsqr (a - b)) by (unfold Rsqr; ring).
  apply sqrt_Rsqr_abs.
Qed.

(** A case: the second line is all within the first. *)
Example C117_straight_case : exists y, meet 0 (on_axis 0) (on_axis 4) (on_axis 1) (on_axis 3) (1/1000) = Some (y, Inside).
Proof.
  destruct (C117_straight 0 (on_axis 0) (on_axis 4) (on_axis 1) (on_axis 3) (on_axis 2) (1/4) (3/4) (1/1000)) as (y & H & _).
  - lra.
  - lra.
  - unfold at_part, mix, on_axis; cbn; f_equal; field.
  - unfold at_part, mix, on_axis; cbn; f_equal; field.
  - exists (1/2). split; [lra|]. unfold at_part, mix, on_axis; cbn; f_equal; field.
  - exists (1/2). split; [lra|]. unfold at_part, mix, on_axis; cbn; f_equal; field.
  - intros a b H. assert (G : 1 <= dist a b).
    { cbn in H. repeat destruct H as [H|H]; try contradiction; injection H as <- <-; rewrite axis_dist; unfold Rabs; destruct (Rcase_abs _); lra. }
    split; nra.
  - eauto.
Qed.

(** ** Lines next to each other. *)
Lemma cos_degree : cos degree <= 9999 / 10000.
Proof.
  assert (D : degree = 2 * (157 / 18000)) by (unfold degree; field).
  rewrite D, cos_2a_sin.
  pose proof (pre_sin_bound (157 / 18000) 0 ltac:(lra) ltac:(lra)) as [L _].
  unfold sin_approx, sum_f_R0, sin_term in L. cbn in L.
  assert (8 / 1000 <= sin (157 / 18000)) by lra. nra.
Qed.

Definition diag (x y : R) : pt := P x y 0.

(** Finding: two parallel lines that stay more than half a unit apart everywhere are said to meet as IT_INTERNAL with a tolerance of 1/1000,
    because points are looked for within one degree instead of within the tolerance. *)
Theorem C117_apart_refuted : exists p q p' q' y, meet 0 p q p' q' (1/1000) = Some (y, Inside) /\
  (forall a b, between p q a -> between p' q' b -> 1/2 < dist a b).
Proof.
  exists (diag 0 0), (diag 1000 1000), (diag 501 500), (diag 701 700), (diag 501 500). split.
  - assert (Far : forall a b, 1 <= pdot (psub a b) (psub a b) -> leb (pnorm (psub a b)) (1/1000) = false).
    { intros a b G. apply leb_no. apply Rlt_le_trans with 1; [lra|]. unfold pnorm. rewrite <- sqrt_1. now apply sqrt_le_1_alt. }
    assert (N1 : leb (pnorm (psub (diag 0 0) (diag 501 500))) (1/1000) = false) by (apply Far; unfold diag, pdot, psub; cbn; lra).
    assert (N2 : leb (pnorm (psub (diag 1000 1000) (diag 701 700))) (1/1000) = false) by (apply Far; unfold diag, pdot, psub; cbn; lra).
    assert (N3 : leb (pnorm (psub (diag 0 0) (diag 701 700))) (1/1000) = false) by (apply Far; unfold diag, pdot, psub; cbn; lra).
    assert (N4 : leb (pnorm (psub (diag 1000 1000) (diag 501 500))) (1/1000) = false) by (apply Far; unfold diag, pdot, psub; cbn; lra).
    unfold meet. cbn zeta.
    assert (Bx : line_boxes (diag 0 0) (diag 1000 1000) (diag 501 500) (diag 701 700) (1/1000) = true).
    { unfold line_boxes, diag; cbn [px py pz].
      rewrite (axis_common 0 1000 501 701 (501/1000) 0), (axis_common 0 1000 500 700 (500/1000) 0), (axis_common 0 0 0 0 0 0) by lra. reflexivity. }
    rewrite Bx. cbn [negb].
    assert (Z : pcross (psub (diag 1000 1000) (diag 0 0)) (psub (diag 701 700) (diag 501 500)) = P 0 0 0) by (apply pt_eq; unfold pcross, psub, diag; cbn; ring).
    rewrite Z. replace (pdot (psub (diag 501 500) (diag 0 0)) (P 0 0 0)) with 0 by (unfold pdot; cbn; ring). rewrite Rabs_R0, (proj2 (ltb_no (1/1000) 0)) by lra.
    rewrite N1, N3. cbn [andb]. replace (pdot (P 0 0 0) (P 0 0 0)) with 0 by (unfold pdot; cbn; ring).
    rewrite (proj2 (leb_ok 0 _)) by lra. unfold meet_parallel. cbn zeta. rewrite N1, N2, N3, N4. cbn [orb].
    assert (Ww : pdot (psub (diag 1000 1000) (diag 0 0)) (psub (diag 1000 1000) (diag 0 0)) = 2000000) by (unfold pdot, psub, diag; cbn; ring).
    assert (Vv : pdot (psub (diag 501 500) (diag 0 0)) (psub (diag 501 500) (diag 0 0)) = 501001) by (unfold pdot, psub, diag; cbn; ring).
    assert (Wv : pdot (psub (diag 1000 1000) (diag 0 0)) (psub (diag 501 500) (diag 0 0)) = 1001000) by (unfold pdot, psub, diag; cbn; ring).
    assert (L : exists k, line_contains 0 (diag 0 0) (diag 1000 1000) (diag 501 500) (1/1000) = Some k).
    { unfold line_contains. cbn zeta. rewrite part_code by (rewrite Ww; lra). unfold part. rewrite Ww, Wv.
      assert (A : angle 0 (psub (diag 1000 1000) (diag 0 0)) (psub (diag 501 500) (diag 0 0)) <= degree).
      { unfold angle. rewrite Ww, Vv, Wv. rewrite (proj2 (ltb_ok 0 2000000)), (proj2 (ltb_ok 0 501001)) by lra. cbn [andb]. cbn zeta.
        set (d := sqrt (2000000 * 501001)). assert (Dp : 0 < d) by (apply sqrt_lt_R0; lra). assert (Dd : d * d = 2000000 * 501001) by (apply sqrt_sqrt; lra).
        assert (Lo : 1001000 <= d) by (apply Rnot_lt_le; intros K; assert (d * d < 1001000 * 1001000) by (apply Rmult_le_0_lt_compat; lra); lra).
        assert (Hi : d <= 1001100) by (apply Rnot_lt_le; intros K; assert (1001100 * 1001100 < d * d) by (apply Rmult_le_0_lt_compat; lra); lra).
        assert (R1 : 1001000 / d <= 1). { apply Rmult_le_reg_r with d; [exact Dp|]. unfold Rdiv. rewrite Rmult_assoc, Rinv_l by lra. lra. }
        assert (R2 : 9999 / 10000 <= 1001000 / d). { apply Rmult_le_reg_r with d; [exact Dp|]. unfold Rdiv at 2. rewrite Rmult_assoc, Rinv_l by lra. lra. }
        set (r := 1001000 / d) in *. clearbody r. rewrite (proj2 (ltb_no r (-1))) by lra. rewrite (proj2 (ltb_no 1 r)) by lra.
        pose proof cos_degree. pose proof degree_small. pose proof (acos_bound r).
        apply cos_decr_0; try lra. rewrite cos_acos by lra. lra. }
      fold degree. rewrite (proj2 (ltb_no degree _)) by exact A.
      rewrite (proj2 (leb_ok (- (1/1000)) _)), (proj2 (leb_ok _ (1 + 1/1000))) by lra. cbn [andb]. eauto. }
    destruct L as (k & ->). reflexivity.
  - intros a b (s & S & ->) (t & T & ->). unfold dist, pnorm. replace (1/2) with (sqrt (1/4)) by (replace (1/4) with (1/2 * (1/2)) by field; apply sqrt_square; lra).
    apply sqrt_lt_1_alt. split; [lra|]. unfold diag, mix, pdot, psub; cbn.
    set (u := 1000 * s - 200 * t - 500).
    match goal with |- _ < ?e => replace e with ((u - 1) * (u - 1) + u * u) by (unfold u; ring) end.
    clearbody u. pose proof (Rle_0_sqr (u - 1/2)) as K. unfold Rsqr in K. lra.
Qed.
Print Assumptions C117_apart_refuted.
