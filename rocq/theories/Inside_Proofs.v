(** Proofs about points and triangles. *)
From Coq Require Import Reals List Lra Lia Bool.
From Verif Require Import Fem_Model Inside_Model Inside_Spec.
Import ListNotations.
Open Scope R_scope.

Lemma area2_pos a b c : proper a b c -> 0 < area2 a b c.
Proof. intros H. unfold area2, pnorm. now apply sqrt_lt_R0. Qed.

Lemma area2_sq a b c : area2 a b c * area2 a b c = pdot (tri_normal a b c) (tri_normal a b c).
Proof.
  unfold area2, pnorm. apply sqrt_sqrt. unfold pdot. set (n := tri_normal a b c). clearbody n.
  pose proof (Rle_0_sqr (px n)). pose proof (Rle_0_sqr (py n)). pose proof (Rle_0_sqr (pz n)). unfold Rsqr in *. lra.
Qed.

Lemma unit_is a b c : proper a b c -> unit_normal a b c = pscale (/ area2 a b c) (tri_normal a b c).
Proof. intros H. unfold unit_normal, pnormalize. destruct (Rlt_dec _ _); [reflexivity|contradiction]. Qed.

Lemma pdot_scale v k n : pdot v (pscale k n) = k * pdot v n.
Proof. unfold pdot, pscale; cbn. ring. Qed.

(** Weights are sides divided by twice the area. *)
Lemma side_mix a b c x y z : proper a b c -> x + y + z = 1 ->
  let p := mix x y z a b c in let n := unit_normal a b c in
  side n a b p = z * area2 a b c /\ side n b c p = x * area2 a b c /\ side n c a p = y * area2 a b c.
Proof.
  intros H E. assert (Ex : x = 1 - y - z) by lra. subst x. clear E. intros p n.
  pose proof (area2_pos a b c H) as Ap. pose proof (area2_sq a b c) as As.
  unfold n. rewrite unit_is by exact H. unfold side. rewrite !pdot_scale.
  assert (K : forall s w, s = w * (area2 a b c * area2 a b c) -> / area2 a b c * s = w * area2 a b c) by (intros s w ->; field; lra).
  split; [|split]; apply K; rewrite As; unfold p, mix, tri_normal, pdot, pcross, psub; cbn; ring.
Qed.

Lemma side_sum a b c p : proper a b c -> let n := unit_normal a b c in
  side n a b p + side n b c p + side n c a p = area2 a b c.
Proof.
  intros H n. pose proof (area2_pos a b c H) as Ap. pose proof (area2_sq a b c) as As.
  unfold n. rewrite unit_is by exact H. unfold side. rewrite !pdot_scale.
  replace (area2 a b c) with (/ area2 a b c * (area2 a b c * area2 a b c)) at 4 by (field; lra). rewrite As.
  rewrite <- !Rmult_plus_distr_l. f_equal. unfold tri_normal, pdot, pcross, psub; cbn. ring.
Qed.

Lemma pt_eq p q : px p = px q -> py p = py q -> pz p = pz q -> p = q.
Proof. destruct p, q; cbn; congruence. Qed.

Lemma mix_exists a b c p : proper a b c -> coplanar a b c p ->
  let n := unit_normal a b c in
  p = mix (side n b c p / area2 a b c) (side n c a p / area2 a b c) (side n a b p / area2 a b c) a b c.
Proof.
  intros H C n. pose proof (area2_pos a b c H) as Ap. pose proof (area2_sq a b c) as As.
  unfold proper in H. unfold coplanar in C.
  assert (K : forall s, (/ area2 a b c * s) / area2 a b c = s / pdot (tri_normal a b c) (tri_normal a b c)).
  { intros s. rewrite <- As. field. lra. }
  unfold n. rewrite unit_is by exact H. unfold side. rewrite !pdot_scale, !K.
  set (N := tri_normal a b c) in *.
  assert (Id : forall f : pt -> R, (forall u v, f (psub u v) = f u - f v) -> (f = px \/ f = py \/ f = pz) ->
    pdot N N * f p = pdot (pcross (psub c b) (psub p b)) N * f a + pdot (pcross (psub a c) (psub p c)) N * f b + pdot (pcross (psub b a) (psub p a)) N * f c + pdot (psub p a) N * f N).
  { intros f _ [-> | [-> | ->]]; unfold N, tri_normal, pdot, pcross, psub; cbn; ring. }
  assert (F : forall f : pt -> R, (f = px \/ f = py \/ f = pz) ->
    f p = pdot (pcross (psub c b) (psub p b)) N / pdot N N * f a + pdot (pcross (psub a c) (psub p c)) N / pdot N N * f b + pdot (pcross (psub b a) (psub p a)) N / pdot N N * f c).
  { intros f Hf. apply (Rmult_eq_reg_l (pdot N N)); [|lra]. rewrite (Id f), C; [field; lra| |exact Hf].
    intros u v. destruct Hf as [-> | [-> | ->]]; reflexivity. }
  apply pt_eq; unfold mix; cbn; apply F; auto.
Qed.

Lemma mix_coplanar a b c x y z : x + y + z = 1 -> coplanar a b c (mix x y z a b c).
Proof. intros E. replace x with (1 - y - z) by lra. unfold coplanar, mix, tri_normal, pdot, pcross, psub; cbn. ring. Qed.

(** ** The box *)
Lemma within_ok x y z v tol : within x y z v tol = true <-> Rmin x (Rmin y z) - tol <= v <= Rmax x (Rmax y z) + tol.
Proof. unfold within. destruct (Rle_dec _ v); [destruct (Rle_dec v _)|]; split; intros; try congruence; try lra; auto. Qed.

Lemma within_mix u v w x y z tol : 0 <= tol -> 0 <= x -> 0 <= y -> 0 <= z -> x + y + z = 1 -> within u v w (x * u + y * v + z * w) tol = true.
Proof.
  intros T X Y Z E. apply within_ok.
  pose proof (Rmin_l u (Rmin v w)). pose proof (Rmin_r u (Rmin v w)). pose proof (Rmin_l v w). pose proof (Rmin_r v w).
  pose proof (Rmax_l u (Rmax v w)). pose proof (Rmax_r u (Rmax v w)). pose proof (Rmax_l v w). pose proof (Rmax_r v w).
  set (lo := Rmin u (Rmin v w)) in *. set (hi := Rmax u (Rmax v w)) in *. clearbody lo hi.
  replace x with (1 - y - z) in * by lra. split; nra.
Qed.

Lemma boxed_mix a b c x y z tol : 0 <= tol -> 0 <= x -> 0 <= y -> 0 <= z -> x + y + z = 1 -> boxed a b c (mix x y z a b c) tol = true.
Proof. intros. unfold boxed, mix. cbn [px py pz]. now rewrite !within_mix by assumption. Qed.

Lemma near_ok v p tol : near v p tol = true <-> dist p v <= tol.
Proof. unfold near, dist. destruct (Rle_dec _ _); split; congruence || lra || tauto. Qed.

Lemma outside_ok s tol : outside s tol = true <-> s <= - tol.
Proof. unfold outside. destruct (Rle_dec _ _); split; congruence || lra || tauto. Qed.

Lemma outside_no s tol : outside s tol = false <-> - tol < s.
Proof. unfold outside. destruct (Rle_dec _ _); split; congruence || lra || tauto. Qed.

(** What contains() answers. *)
Lemma contains_cases a b c p tol : let n := unit_normal a b c in
  match contains a b c p tol with
  | None => boxed a b c p tol = false \/ side n a b p <= - tol \/ side n b c p <= - tol \/ side n c a p <= - tol
  | Some AtVertex => boxed a b c p tol = true /\ (dist p a <= tol \/ dist p b <= tol \/ dist p c <= tol)
  | Some k => boxed a b c p tol = true /\ - tol < side n a b p /\ - tol < side n b c p /\ - tol < side n c a p /\
      k = rate (side n a b p) (side n b c p) (side n c a p) tol
  end.
Proof.
  intros n. unfold contains. fold n.
  destruct (boxed a b c p tol); cbn [negb]; [|now left].
  destruct (near a p tol) eqn:Na; [split; [reflexivity|]; left; now apply near_ok|].
  destruct (outside (side n a b p) tol) eqn:Oa; [apply outside_ok in Oa; auto|].
  destruct (near b p tol) eqn:Nb; [split; [reflexivity|]; right; left; now apply near_ok|].
  destruct (outside (side n b c p) tol) eqn:Ob; [apply outside_ok in Ob; auto|].
  destruct (near c p tol) eqn:Nc; [split; [reflexivity|]; right; right; now apply near_ok|].
  destruct (outside (side n c a p) tol) eqn:Oc; [apply outside_ok in Oc; auto|].
  apply outside_no in Oa, Ob, Oc.
  destruct (rate _ _ _ tol) eqn:Er; [exfalso|auto|auto].
  unfold rate in Er. destruct (least_first _ _ _) as [[? ?] ?]. destruct (Rlt_dec _ _); discriminate.
Qed.

Lemma least_first_ok s0 s1 s2 : let '(w0, w1, w2) := least_first s0 s1 s2 in
  w0 + w1 + w2 = s0 + s1 + s2 /\ w0 <= w1 /\ w0 <= w2.
Proof. unfold least_first. repeat destruct (Rlt_dec _ _); lra. Qed.

(** ** Distances *)
Lemma pdot_self v : 0 <= pdot v v.
Proof. unfold pdot. pose proof (Rle_0_sqr (px v)). pose proof (Rle_0_sqr (py v)). pose proof (Rle_0_sqr (pz v)). unfold Rsqr in *. lra. Qed.

Lemma unit_one a b c : proper a b c -> pdot (unit_normal a b c) (unit_normal a b c) = 1.
Proof.
  intros H. rewrite unit_is by exact H. pose proof (area2_pos a b c H). pose proof (area2_sq a b c) as As.
  replace (pdot (pscale (/ area2 a b c) (tri_normal a b c)) (pscale (/ area2 a b c) (tri_normal a b c)))
    with (/ area2 a b c * / area2 a b c * pdot (tri_normal a b c) (tri_normal a b c)) by (unfold pdot, pscale; cbn; ring).
  rewrite <- As. field. lra.
Qed.

Lemma coplanar_unit a b c p : proper a b c -> (coplanar a b c p <-> pdot (unit_normal a b c) p = pdot (unit_normal a b c) a).
Proof.
  intros H. rewrite unit_is by exact H. pose proof (area2_pos a b c H) as Ap. unfold coplanar.
  assert (E : forall q, pdot (pscale (/ area2 a b c) (tri_normal a b c)) q = / area2 a b c * pdot q (tri_normal a b c)) by (intros q; unfold pdot, pscale; cbn; ring).
  rewrite !E. assert (E2 : pdot (psub p a) (tri_normal a b c) = pdot p (tri_normal a b c) - pdot a (tri_normal a b c)) by (unfold pdot, psub; cbn; ring).
  rewrite E2. assert (0 < / area2 a b c) by now apply Rinv_0_lt_compat. split; intros K.
  - f_equal. lra.
  - apply Rmult_eq_reg_l in K; lra.
Qed.

Section Foot.
  Variables (n p : pt) (d : R).
  Hypothesis U : pdot n n = 1.
  Let s := pdot n p - d.
  Let q := psub p (pscale s n).

  Lemma foot_in : pdot n q = d.
  Proof.
    unfold q. replace (pdot n (psub p (pscale s n))) with (pdot n p - s * pdot n n) by (unfold pdot, psub, pscale; cbn; ring).
    rewrite U. unfold s. ring.
  Qed.

  Lemma foot_dist : pnorm (psub p q) = Rabs s.
  Proof.
    unfold pnorm. replace (pdot (psub p q) (psub p q)) with (s * s * pdot n n) by (unfold q, pdot, psub, pscale; cbn; ring).
    rewrite U, Rmult_1_r. exact (sqrt_Rsqr_abs s).
  Qed.

  Lemma foot_least x : pdot n x = d -> pnorm (psub p q) <= pnorm (psub p x).
  Proof.
    intros E. unfold pnorm. apply sqrt_le_1_alt.
    replace (pdot (psub p x) (psub p x)) with (pdot (psub p q) (psub p q) + pdot (psub q x) (psub q x) + 2 * s * (pdot n q - pdot n x))
      by (unfold q, pdot, psub, pscale; cbn; ring).
    rewrite E, foot_in. pose proof (pdot_self (psub q x)). lra.
  Qed.
End Foot.

Lemma nearest_ok p a b c : let r := nearer p (nearer p (pnorm (psub p a), a) b) c in
  (snd r = a \/ snd r = b \/ snd r = c) /\ fst r = dist p (snd r) /\ fst r <= dist p a /\ fst r <= dist p b /\ fst r <= dist p c.
Proof.
  unfold nearer, dist. cbn zeta.
  destruct (Rlt_dec (pnorm (psub p b)) (fst (pnorm (psub p a), a))) as [H|H]; cbn [fst snd] in *;
  destruct (Rlt_dec (pnorm (psub p c)) _) as [H'|H']; cbn [fst snd] in *; (split; [auto|]); split; auto; lra.
Qed.
