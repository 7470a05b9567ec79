(** Properties C50, C51 and C73: smoothed particles. *)
From Coq Require Import Reals ZArith List Lia Lra Psatz.
Set Warnings "-ambiguous-paths".
From Coquelicot Require Import Coquelicot.
From Verif Require Import Prelude Sph_Model.
Import ListNotations.
Open Scope R_scope.

(** ** C50: moving the particles *)
Lemma wrap_range lo hi x : lo <= hi -> lo <= wrap lo hi x <= hi.
Proof. intros H. unfold wrap. destruct (Rle_dec hi x); [lra|]. destruct (Rle_dec x lo); lra. Qed.
Definition in_box (lo hi x : vec) : Prop := vx lo <= vx x <= vx hi /\ vy lo <= vy x <= vy hi /\ vz lo <= vz x <= vz hi.
(** In a cyclic domain every particle is in the domain afterwards, however fast it is. *)
Theorem C50_in_domain : forall p s i, s_cyclic p = true -> in_box (s_min p) (s_max p) (s_min p) -> (i < length s)%nat ->
  in_box (s_min p) (s_max p) (p_pos (part (advect_particles p s) i)).
Proof.
  intros p s i Hc (Hx & Hy & Hz) Hi. unfold part, advect_particles. rewrite (nth_indep _ _ (advect p origin_particle)) by (rewrite map_length; exact Hi). rewrite map_nth.
  unfold advect. rewrite Hc. cbn. unfold in_box. cbn. repeat split; apply wrap_range; lra.
Qed.
Print Assumptions C50_in_domain.
(** A particle that stays strictly inside moves by velocity times time step, with the y and z components of the velocity exchanged;
    mass, density, conductivity, velocity and value are kept. *)
Theorem C50_motion : forall p x, let d := Vec (vx (p_vel x) * s_dt p) (vz (p_vel x) * s_dt p) (vy (p_vel x) * s_dt p) in
  let y := advect p x in
  (s_cyclic p = false \/ (vx (s_min p) < vx (p_pos x) + vx d < vx (s_max p) /\ vy (s_min p) < vy (p_pos x) + vy d < vy (s_max p) /\ vz (s_min p) < vz (p_pos x) + vz d < vz (s_max p))) ->
  vsub (p_pos y) (p_pos x) = d /\ p_vel y = p_vel x /\ p_mass y = p_mass x /\ p_density y = p_density x /\ p_cond y = p_cond x /\ p_u y = p_u x.
Proof.
  intros p x d y H. split; [|repeat split]. unfold y, advect, vsub, d in *. cbn [vx vy vz p_pos] in *. destruct (s_cyclic p); cbn [vx vy vz p_pos].
  - destruct H as [H|(Hx & Hy & Hz)]; [discriminate|]. unfold wrap.
    repeat match goal with |- context [Rle_dec ?a ?b] => destruct (Rle_dec a b); [exfalso; lra|] end. f_equal; ring.
  - f_equal; ring.
Qed.
Print Assumptions C50_motion.
(** So a particle with a velocity along y moves along z. *)
Theorem C50_direction_refuted : exists p x, s_cyclic p = false /\ p_vel x = Vec 0 1 0 /\ s_dt p = 1 /\ p_pos x = Vec 0 0 0 /\ p_pos (advect p x) = Vec 0 0 1.
Proof.
  exists (Params 1 1 false (Vec 0 0 0) (Vec 1 1 1) cubic 1 1 (fun _ => None)), (Particle 1 1 1 (Vec 0 1 0) (Vec 0 0 0) 0). repeat split. unfold advect. cbn. f_equal; ring.
Qed.
Print Assumptions C50_direction_refuted.
(** A particle at rest on the lower side jumps to the upper side. *)
Theorem C50_rest_refuted : exists p x, s_cyclic p = true /\ in_box (s_min p) (s_max p) (p_pos x) /\ p_vel x = Vec 0 0 0 /\ vx (p_pos x) = 0 /\ vx (p_pos (advect p x)) = 1.
Proof.
  exists (Params 1 1 true (Vec 0 0 0) (Vec 1 1 1) cubic 1 1 (fun _ => None)), (Particle 1 1 1 (Vec 0 0 0) (Vec 0 (1 / 2) (1 / 2)) 0). split; [reflexivity|]. split; [unfold in_box; cbn; lra|]. repeat split. unfold advect, wrap. cbn.
  destruct (Rle_dec 1 (0 + 0 * 1)); [exfalso; lra|]. destruct (Rle_dec (0 + 0 * 1) 0); [reflexivity|exfalso; lra].
Qed.
Print Assumptions C50_rest_refuted.
(** The part of the displacement beyond the side is lost: a particle that should reappear inside is put on the side. *)
Theorem C50_period_refuted : exists p x, s_cyclic p = true /\ s_dt p = 1 /\ vx (s_min p) = 0 /\ vx (s_max p) = 1 /\ vx (p_pos x) = 3 / 4 /\ vx (p_vel x) = 1 / 2 /\
  vx (p_pos (advect p x)) = 0.
Proof.
  exists (Params 1 1 true (Vec 0 0 0) (Vec 1 1 1) cubic 1 1 (fun _ => None)), (Particle 1 1 1 (Vec (1 / 2) 0 0) (Vec (3 / 4) (1 / 2) (1 / 2)) 0). repeat split. unfold advect, wrap. cbn. destruct (Rle_dec 1 (3 / 4 + 1 / 2 * 1)); [reflexivity|exfalso; lra].
Qed.
Print Assumptions C50_period_refuted.
Example C50_case : let p := Params 1 (1 / 4) true (Vec 0 0 0) (Vec 1 1 1) cubic 1 1 (fun _ => None) in
  p_pos (advect p (Particle 1 1 1 (Vec 1 0 (-1)) (Vec (1 / 2) (1 / 2) (1 / 2)) 0)) = Vec (3 / 4) (1 / 4) (1 / 2).
Proof.
  intros p. unfold advect, wrap, p. cbn. repeat match goal with |- context [Rle_dec ?a ?b] => destruct (Rle_dec a b); [exfalso; lra|] end. f_equal; lra.
Qed.

(** ** C51: the kernels *)
(** Radius of support in units of h. *)
Definition supports : list (kernel * R) := [(cubic, 2); (quintic, 2); (gaussian, 3); (convex, 2); (spiky, 1)].

Lemma norm_pos r : 0 <= norm r. Proof. apply sqrt_pos. Qed.
Lemma q_pos r h : 0 < h -> 0 <= norm r / h.
Proof. intros H. apply Rmult_le_pos; [apply norm_pos|]. left. now apply Rinv_0_lt_compat. Qed.
Lemma dims (P : Z -> Prop) dim : (1 <= dim <= 3)%Z -> P 1%Z -> P 2%Z -> P 3%Z -> P dim.
Proof. intros H H1 H2 H3. assert (dim = 1 \/ dim = 2 \/ dim = 3)%Z as [->|[->| ->]] by lia; assumption. Qed.
Lemma by_dim_pos dim old c1 c2 c3 : (1 <= dim <= 3)%Z -> 0 < c1 -> 0 < c2 -> 0 < c3 -> 0 < by_dim dim old c1 c2 c3.
Proof. intros H. intros. apply (dims (fun dim => 0 < by_dim dim old c1 c2 c3) dim H); assumption. Qed.
Ltac pos := repeat first [exact PI_RGT_0|apply Rdiv_lt_0_compat|apply Rmult_lt_0_compat|apply PI_RGT_0|apply sqrt_lt_R0|assumption|lra].
Lemma C_pos dim old h : (1 <= dim <= 3)%Z -> 0 < h -> 0 < cubic_C dim old h /\ 0 < quintic_C dim old h /\ 0 < gaussian_C dim old h /\ 0 < convex_C dim old h /\ 0 < spiky_C dim old h.
Proof. intros H Hh. unfold cubic_C, quintic_C, gaussian_C, convex_C, spiky_C. repeat split; apply by_dim_pos; try assumption; pos. Qed.

(** The profile of a kernel: its value at distance q*h divided by m_C. *)
Definition cubic_p q := if Rlt_dec 2 q then 0 else if Rlt_dec q 1 then (2 - q) * (2 - q) * (2 - q) - 4 * (1 - q) * (1 - q) * (1 - q) else (2 - q) * (2 - q) * (2 - q).
Definition quintic_p q := if Rlt_dec 2 q then 0 else (1 - 1 / 2 * q) ^ 4 * (2 * q + 1).
Definition gaussian_p q := if Rlt_dec 3 q then 0 else exp (- q * q).
Definition convex_p q := if Rlt_dec 2 q then 0 else (2 - q) ^ 3 * (1 / 2 * q + 1).
Definition spiky_p q := if Rlt_dec 1 q then 0 else (1 - q) ^ 3.
Lemma profiles dim old r h : 0 < h ->
  cubic_W dim old r h = cubic_C dim old h * cubic_p (norm r / h) /\ quintic_W dim old r h = quintic_C dim old h * quintic_p (norm r / h) /\
  gaussian_W dim old r h = gaussian_C dim old h * gaussian_p (norm r / h) /\ convex_W dim old r h = convex_C dim old h * convex_p (norm r / h) /\
  spiky_W dim old r h = spiky_C dim old h * spiky_p (norm r / h).
Proof.
  intros Hh. assert (Q := q_pos r h Hh). unfold cubic_W, cubic_p, quintic_W, quintic_p, gaussian_W, gaussian_p, convex_W, convex_p, spiky_W, spiky_p.
  set (q := norm r / h) in *. clearbody q. cbv zeta. destruct (Rle_dec 0 q); [|contradiction].
  repeat match goal with |- _ /\ _ => split end; repeat match goal with |- context [Rlt_dec ?a ?b] => destruct (Rlt_dec a b) end; ring.
Qed.
Lemma cubic_in a b : 0 <= a <= b -> b <= 1 -> 4 - 6 * b * b + 3 * b * b * b <= 4 - 6 * a * a + 3 * a * a * a.
Proof.
  intros H H1. assert (E : 4 - 6 * a * a + 3 * a * a * a - (4 - 6 * b * b + 3 * b * b * b) = 3 * (b - a) * (2 * (a + b) - (a * a + a * b + b * b))) by ring.
  assert (0 <= (b - a) * (2 * (a + b) - (a * a + a * b + b * b))) by (apply Rmult_le_pos; nra). lra.
Qed.
Lemma cube_incr u v : 0 <= u <= v -> u * u * u <= v * v * v.
Proof. intros H. assert (u * u <= v * v) by nra. nra. Qed.
Lemma quintic_incr u v : 0 <= u <= v -> v <= 1 -> 5 * u ^ 4 - 4 * u ^ 5 <= 5 * v ^ 4 - 4 * v ^ 5.
Proof.
  intros H H1. assert (E : 5 * v ^ 4 - 4 * v ^ 5 - (5 * u ^ 4 - 4 * u ^ 5) = (v - u) * (5 * (v * v * v + v * v * u + v * u * u + u * u * u) - 4 * (v * v * v * v + v * v * v * u + v * v * u * u + v * u * u * u + u * u * u * u))) by ring.
  assert (Hvv : 0 <= v * v) by nra. assert (Huu : 0 <= u * u) by nra. assert (Huv : 0 <= u * v) by nra.
  assert (Shr : forall x y, 0 <= x -> y <= 1 -> x * y <= x) by (intros; nra).
  assert (V3 : 0 <= v * v * v) by (repeat apply Rmult_le_pos; lra). assert (V2 : 0 <= v * v * u) by (repeat apply Rmult_le_pos; lra). assert (V1 : 0 <= v * u * u) by (repeat apply Rmult_le_pos; lra). assert (V0 : 0 <= u * u * u) by (repeat apply Rmult_le_pos; lra).
  pose proof (Shr _ v V3 ltac:(lra)). pose proof (Shr _ v V2 ltac:(lra)). pose proof (Shr _ v V1 ltac:(lra)). pose proof (Shr _ v V0 ltac:(lra)). pose proof (Shr _ u V0 ltac:(lra)).
  assert (A6 : u * u * u <= v * u * u) by nra. assert (A7 : v * u * u <= v * v * u) by nra. assert (A8 : v * v * u <= v * v * v) by nra.
  assert (0 <= (v - u) * (5 * (v * v * v + v * v * u + v * u * u + u * u * u) - 4 * (v * v * v * v + v * v * v * u + v * v * u * u + v * u * u * u + u * u * u * u))) by (apply Rmult_le_pos; lra). lra.
Qed.
Lemma convex_incr u v : 0 <= u <= v -> v <= 2 -> 4 * u ^ 3 - u ^ 4 <= 4 * v ^ 3 - v ^ 4.
Proof.
  intros H H1. assert (E : 4 * v ^ 3 - v ^ 4 - (4 * u ^ 3 - u ^ 4) = (v - u) * (4 * (v * v + u * v + u * u) - (v * v * v + v * v * u + v * u * u + u * u * u))) by ring.
  assert (Hvv : 0 <= v * v) by nra. assert (Huu : 0 <= u * u) by nra. assert (Huv : 0 <= u * v) by nra.
  assert (Shr : forall x y, 0 <= x -> y <= 2 -> x * y <= 2 * x) by (intros; nra).
  pose proof (Shr _ v Hvv ltac:(lra)). pose proof (Shr _ v Huv ltac:(lra)). pose proof (Shr _ v Huu ltac:(lra)). pose proof (Shr _ u Huu ltac:(lra)).
  assert (0 <= (v - u) * (4 * (v * v + u * v + u * u) - (v * v * v + v * v * u + v * u * u + u * u * u))) by (apply Rmult_le_pos; nra). lra.
Qed.
Lemma profiles_pos q : 0 <= q -> 0 <= cubic_p q /\ 0 <= quintic_p q /\ 0 <= gaussian_p q /\ 0 <= convex_p q /\ 0 <= spiky_p q.
Proof.
  intros Hq. unfold cubic_p, quintic_p, gaussian_p, convex_p, spiky_p. repeat match goal with |- _ /\ _ => split end.
  - destruct (Rlt_dec 2 q); [lra|]. destruct (Rlt_dec q 1); [|repeat apply Rmult_le_pos; lra]. pose proof (cubic_in q 1 ltac:(lra) ltac:(lra)). nra.
  - destruct (Rlt_dec 2 q); [lra|]. apply Rmult_le_pos; [apply pow_le|]; lra.
  - destruct (Rlt_dec 3 q); [lra|]. left. apply exp_pos.
  - destruct (Rlt_dec 2 q); [lra|]. apply Rmult_le_pos; [apply pow_le|]; lra.
  - destruct (Rlt_dec 1 q); [lra|]. apply pow_le. lra.
Qed.
Lemma profiles_mono a b : 0 <= a <= b -> cubic_p b <= cubic_p a /\ quintic_p b <= quintic_p a /\ gaussian_p b <= gaussian_p a /\ convex_p b <= convex_p a /\ spiky_p b <= spiky_p a.
Proof.
  intros H. destruct (profiles_pos a ltac:(lra)) as (P1 & P2 & P3 & P4 & P5). repeat match goal with |- _ /\ _ => split end.
  - unfold cubic_p in *. destruct (Rlt_dec 2 b); [exact P1|]. destruct (Rlt_dec 2 a); [exfalso; lra|]. destruct (Rlt_dec b 1); destruct (Rlt_dec a 1); try (exfalso; lra).
    + pose proof (cubic_in a b H ltac:(lra)). lra.
    + pose proof (cubic_in a 1 ltac:(lra) ltac:(lra)). pose proof (cube_incr (2 - b) 1 ltac:(lra)). lra.
    + apply cube_incr. lra.
  - unfold quintic_p in *. destruct (Rlt_dec 2 b); [exact P2|]. destruct (Rlt_dec 2 a); [exfalso; lra|]. pose proof (quintic_incr (1 - 1 / 2 * b) (1 - 1 / 2 * a) ltac:(lra) ltac:(lra)). nra.
  - unfold gaussian_p in *. destruct (Rlt_dec 3 b); [exact P3|]. destruct (Rlt_dec 3 a); [exfalso; lra|]. destruct (Rle_lt_or_eq_dec a b ltac:(lra)) as [L|E]; [left; apply exp_increasing; nra|subst; lra].
  - unfold convex_p in *. destruct (Rlt_dec 2 b); [exact P4|]. destruct (Rlt_dec 2 a); [exfalso; lra|]. pose proof (convex_incr (2 - b) (2 - a) ltac:(lra) ltac:(lra)). nra.
  - unfold spiky_p in *. destruct (Rlt_dec 1 b); [exact P5|]. destruct (Rlt_dec 1 a); [exfalso; lra|]. apply pow_incr. lra.
Qed.

(** Every kernel is non-negative, vanishes beyond its support, depends on the distance only and does not grow with it. *)
Theorem C51_kernels : forall k s dim old h, In (k, s) supports -> (1 <= dim <= 3)%Z -> 0 < h ->
  forall r, 0 <= k_W k dim old r h /\ (s * h < norm r -> k_W k dim old r h = 0) /\
    (forall r', norm r <= norm r' -> k_W k dim old r' h <= k_W k dim old r h) /\ 0 < k_W k dim old (Vec 0 0 0) h.
Proof.
  intros k s dim old h I Hd Hh r. destruct (C_pos dim old h Hd Hh) as (C1 & C2 & C3 & C4 & C5).
  assert (Q := q_pos r h Hh). destruct (profiles_pos _ Q) as (P1 & P2 & P3 & P4 & P5). destruct (profiles dim old r h Hh) as (E1 & E2 & E3 & E4 & E5).
  assert (Far : forall s, s * h < norm r -> s < norm r / h).
  { intros s0 L. apply Rmult_lt_reg_r with h; [exact Hh|]. unfold Rdiv. rewrite Rmult_assoc, Rinv_l by lra. lra. }
  assert (Mono : forall r', norm r <= norm r' -> 0 <= norm r / h <= norm r' / h).
  { intros r' L. split; [exact Q|]. apply Rmult_le_compat_r; [left; now apply Rinv_0_lt_compat|exact L]. }
  assert (Z0 : norm (Vec 0 0 0) / h = 0). { unfold norm. cbn [vx vy vz]. replace (0 * 0 + 0 * 0 + 0 * 0) with 0 by ring. rewrite sqrt_0. unfold Rdiv. ring. }
  destruct (profiles dim old (Vec 0 0 0) h Hh) as (O1 & O2 & O3 & O4 & O5). rewrite Z0 in *.
  cbn [supports In] in I. destruct I as [I|[I|[I|[I|[I|[]]]]]]; injection I as <- <-; cbn [k_W cubic quintic gaussian convex spiky];
    [rewrite E1, O1|rewrite E2, O2|rewrite E3, O3|rewrite E4, O4|rewrite E5, O5];
    (split; [apply Rmult_le_pos; lra|split; [intros L; apply Far in L|split; [intros r' L; apply Mono in L; destruct (profiles dim old r' h Hh) as (F1 & F2 & F3 & F4 & F5); destruct (profiles_mono _ _ L) as (M1 & M2 & M3 & M4 & M5)|apply Rmult_lt_0_compat; [assumption|]]]]).
  all: try (unfold cubic_p, quintic_p, gaussian_p, convex_p, spiky_p; destruct Rlt_dec; [ring|exfalso; lra]).
  all: try (rewrite ?F1, ?F2, ?F3, ?F4, ?F5; apply Rmult_le_compat_l; lra).
  all: unfold cubic_p, quintic_p, gaussian_p, convex_p, spiky_p; repeat match goal with |- context [Rlt_dec ?a ?b] => destruct (Rlt_dec a b); try (exfalso; lra) end; try lra. apply exp_pos.
Qed.
Print Assumptions C51_kernels.

(** ** Integrals of the kernels *)
(** Measure of the sphere of radius x in dimension 1, 2, 3. *)
Definition sphere (dim : Z) (x : R) : R := if (dim =? 1)%Z then 2 else if (dim =? 2)%Z then 2 * PI * x else 4 * PI * x * x.

Fixpoint pw (k : nat) (cs : list R) (x : R) : R := match cs with [] => 0 | c :: r => c * x ^ k + pw (S k) r x end.
Fixpoint prim (k : nat) (cs : list R) (x : R) : R := match cs with [] => 0 | c :: r => c / INR (S k) * x ^ (S k) + prim (S k) r x end.
Lemma prim_derive k cs x : is_derive (prim k cs) x (pw k cs x).
Proof.
  revert k. induction cs as [|c cs IH]; intros k; cbn [prim pw]; [apply (is_derive_const 0)|].
  apply (is_derive_plus (fun x => c / INR (S k) * x ^ S k) (prim (S k) cs)); [|apply IH]. auto_derive; [exact I|]. cbn [Nat.pred]. change (match k with O => 1 | S _ => INR k + 1 end) with (INR (S k)). field. apply not_0_INR. discriminate.
Qed.
Lemma pw_continuous k cs x : continuous (pw k cs) x.
Proof.
  revert k. induction cs as [|c cs IH]; intros k; cbn [pw]; [apply continuous_const|]. apply (continuous_plus (fun x => c * x ^ k) (pw (S k) cs)); [|apply IH].
  apply (ex_derive_continuous (fun x => c * x ^ k)). auto_derive. exact I.
Qed.
Lemma pw_int cs a b v : prim 0 cs b - prim 0 cs a = v -> is_RInt (pw 0 cs) a b v.
Proof. intros <-. apply (is_RInt_derive (prim 0 cs) (pw 0 cs)); intros; [apply prim_derive|apply pw_continuous]. Qed.
Lemma norm_axis x : 0 <= x -> norm (Vec x 0 0) = x.
Proof. intros H. unfold norm. cbn [vx vy vz]. replace (x * x + 0 * 0 + 0 * 0) with (x * x) by ring. now apply sqrt_square. Qed.
(** From the profile as a polynomial on [a,b] to the kernel on [a h, b h]. *)
Lemma kernel_int (W : vec -> R) (p : R -> R) C dim h cs a b A B v : A = a * h -> B = b * h -> 0 < h -> 0 <= a <= b -> (forall r, W r = C * p (norm r / h)) ->
  (forall q, a < q < b -> h * sphere dim (h * q) * C * p q = pw 0 cs q) -> prim 0 cs b - prim 0 cs a = v ->
  is_RInt (fun x => sphere dim x * W (Vec x 0 0)) A B v.
Proof.
  intros -> -> Hh Hab Hw Hp Hv. assert (B := pw_int cs a b v Hv).
  assert (E : forall t, / h * (t * h) + 0 = t) by (intros; field; lra). rewrite <- (E a), <- (E b) in B. apply (is_RInt_comp_lin (pw 0 cs) (/ h) 0) in B. revert B. apply is_RInt_ext. intros x Hx.
  rewrite Rmin_left, Rmax_right in Hx by nra. rewrite Rplus_0_r. assert (Q : a < / h * x < b). { split; apply Rmult_lt_reg_l with h; try exact Hh; rewrite <- Rmult_assoc, Rinv_r by lra; lra. }
  rewrite <- Hp by exact Q. rewrite Hw, norm_axis by nra. unfold scal. cbn. unfold mult. cbn. replace (h * (/ h * x)) with x by (field; lra). replace (x / h) with (/ h * x) by (unfold Rdiv; ring). field. lra.
Qed.

(** In two and three dimensions the quintic, convex and spiky kernels have integral one (integrated over spheres). *)
Theorem C51_normalised : forall k s dim old h, In (k, s) [(quintic, 2); (convex, 2); (spiky, 1)] -> (2 <= dim <= 3)%Z -> 0 < h ->
  is_RInt (fun x => sphere dim x * k_W k dim old (Vec x 0 0) h) 0 (s * h) 1.
Proof.
  intros k s dim old h I Hd Hh. assert (P := PI_RGT_0).
  assert (dim = 2 \/ dim = 3)%Z as [-> | ->] by lia; cbn [In] in I; destruct I as [I|[I|[I|[]]]]; injection I as <- <-; cbn [k_W quintic convex spiky].
  - apply (kernel_int (fun r => quintic_W 2 old r h) quintic_p (quintic_C 2 old h) 2 h [0; 7 / 2; 0; - 35 / 4; 35 / 4; - 105 / 32; 7 / 16] 0 2); [ring|ring|exact Hh|lra|intros r; apply (profiles 2 old r h Hh)| |cbn [prim INR]; field].
    intros q Hq. unfold quintic_p. destruct (Rlt_dec 2 q); [exfalso; lra|]. cbn [pw sphere quintic_C by_dim Z.eqb Pos.eqb]. unfold quintic_C, by_dim, sphere. cbn [Z.eqb Pos.eqb]. field. lra.
  - apply (kernel_int (fun r => convex_W 2 old r h) convex_p (convex_C 2 old h) 2 h [0; 15 / 4; - 15 / 4; 0; 15 / 16; - 15 / 64] 0 2); [ring|ring|exact Hh|lra|intros r; apply (profiles 2 old r h Hh)| |cbn [prim INR]; field].
    intros q Hq. unfold convex_p. destruct (Rlt_dec 2 q); [exfalso; lra|]. unfold convex_C, by_dim, sphere. cbn [pw Z.eqb Pos.eqb]. field. lra.
  - apply (kernel_int (fun r => spiky_W 2 old r h) spiky_p (spiky_C 2 old h) 2 h [0; 20; - 60; 60; - 20] 0 1); [ring|ring|exact Hh|lra|intros r; apply (profiles 2 old r h Hh)| |cbn [prim INR]; field].
    intros q Hq. unfold spiky_p. destruct (Rlt_dec 1 q); [exfalso; lra|]. unfold spiky_C, by_dim, sphere. cbn [pw Z.eqb Pos.eqb]. field. lra.
  - apply (kernel_int (fun r => quintic_W 3 old r h) quintic_p (quintic_C 3 old h) 3 h [0; 0; 21 / 4; 0; - 105 / 8; 105 / 8; - 315 / 64; 21 / 32] 0 2); [ring|ring|exact Hh|lra|intros r; apply (profiles 3 old r h Hh)| |cbn [prim INR]; field].
    intros q Hq. unfold quintic_p. destruct (Rlt_dec 2 q); [exfalso; lra|]. unfold quintic_C, by_dim, sphere. cbn [pw Z.eqb Pos.eqb]. field. lra.
  - apply (kernel_int (fun r => convex_W 3 old r h) convex_p (convex_C 3 old h) 3 h [0; 0; 21 / 4; - 21 / 4; 0; 21 / 16; - 21 / 64] 0 2); [ring|ring|exact Hh|lra|intros r; apply (profiles 3 old r h Hh)| |cbn [prim INR]; field].
    intros q Hq. unfold convex_p. destruct (Rlt_dec 2 q); [exfalso; lra|]. unfold convex_C, by_dim, sphere. cbn [pw Z.eqb Pos.eqb]. field. lra.
  - apply (kernel_int (fun r => spiky_W 3 old r h) spiky_p (spiky_C 3 old h) 3 h [0; 0; 60; - 180; 180; - 60] 0 1); [ring|ring|exact Hh|lra|intros r; apply (profiles 3 old r h Hh)| |cbn [prim INR]; field].
    intros q Hq. unfold spiky_p. destruct (Rlt_dec 1 q); [exfalso; lra|]. unfold spiky_C, by_dim, sphere. cbn [pw Z.eqb Pos.eqb]. field. lra.
Qed.
Print Assumptions C51_normalised.
(** In one dimension they have integral two. *)
Theorem C51_one_dimension_refuted : forall k s old h, In (k, s) [(quintic, 2); (convex, 2); (spiky, 1)] -> 0 < h ->
  is_RInt (fun x => sphere 1 x * k_W k 1 old (Vec x 0 0) h) 0 (s * h) 2.
Proof.
  intros k s old h I Hh.
  cbn [In] in I; destruct I as [I|[I|[I|[]]]]; injection I as <- <-; cbn [k_W quintic convex spiky].
  - apply (kernel_int (fun r => quintic_W 1 old r h) quintic_p (quintic_C 1 old h) 1 h [3; 0; - 15 / 2; 15 / 2; - 45 / 16; 3 / 8] 0 2); [ring|ring|exact Hh|lra|intros r; apply (profiles 1 old r h Hh)| |cbn [prim INR]; field].
    intros q Hq. unfold quintic_p. destruct (Rlt_dec 2 q); [exfalso; lra|]. unfold quintic_C, by_dim, sphere. cbn [pw Z.eqb Pos.eqb]. field. lra.
  - apply (kernel_int (fun r => convex_W 1 old r h) convex_p (convex_C 1 old h) 1 h [10 / 3; - 10 / 3; 0; 5 / 6; - 5 / 24] 0 2); [ring|ring|exact Hh|lra|intros r; apply (profiles 1 old r h Hh)| |cbn [prim INR]; field].
    intros q Hq. unfold convex_p. destruct (Rlt_dec 2 q); [exfalso; lra|]. unfold convex_C, by_dim, sphere. cbn [pw Z.eqb Pos.eqb]. field. lra.
  - apply (kernel_int (fun r => spiky_W 1 old r h) spiky_p (spiky_C 1 old h) 1 h [8; - 24; 24; - 8] 0 1); [ring|ring|exact Hh|lra|intros r; apply (profiles 1 old r h Hh)| |cbn [prim INR]; field].
    intros q Hq. unfold spiky_p. destruct (Rlt_dec 1 q); [exfalso; lra|]. unfold spiky_C, by_dim, sphere. cbn [pw Z.eqb Pos.eqb]. field. lra.
Qed.
Print Assumptions C51_one_dimension_refuted.
(** The cubic spline has integral four in every dimension. *)
Theorem C51_cubic_spline_refuted : forall dim old h, (1 <= dim <= 3)%Z -> 0 < h ->
  is_RInt (fun x => sphere dim x * k_W cubic dim old (Vec x 0 0) h) 0 (2 * h) 4.
Proof.
  intros dim old h Hd Hh. assert (P := PI_RGT_0). cbn [k_W cubic].
  assert (G : forall i o vi vo, (forall q, 0 < q < 1 -> h * sphere dim (h * q) * cubic_C dim old h * cubic_p q = pw 0 i q) -> (forall q, 1 < q < 2 -> h * sphere dim (h * q) * cubic_C dim old h * cubic_p q = pw 0 o q) ->
     prim 0 i 1 - prim 0 i 0 = vi -> prim 0 o 2 - prim 0 o 1 = vo -> vi + vo = 4 -> is_RInt (fun x => sphere dim x * cubic_W dim old (Vec x 0 0) h) 0 (2 * h) 4).
  { intros i o vi vo Hi Ho Vi Vo <-. apply (is_RInt_Chasles (fun x => sphere dim x * cubic_W dim old (Vec x 0 0) h) 0 (1 * h) (2 * h) vi vo).
    - apply (kernel_int (fun r => cubic_W dim old r h) cubic_p (cubic_C dim old h) dim h i 0 1); try assumption; [ring|ring|lra|]. intros r. apply (profiles dim old r h Hh).
    - apply (kernel_int (fun r => cubic_W dim old r h) cubic_p (cubic_C dim old h) dim h o 1 2); try assumption; [ring|ring|lra|]. intros r. apply (profiles dim old r h Hh). }
  assert (dim = 1 \/ dim = 2 \/ dim = 3)%Z as [-> |[-> | ->]] by lia.
  - apply (G [16 / 3; 0; - 8; 4] [32 / 3; - 16; 8; - 4 / 3] (11 / 3) (1 / 3)); try (intros q Hq; unfold cubic_p; destruct (Rlt_dec 2 q); [exfalso; lra|]; destruct (Rlt_dec q 1); try (exfalso; lra); unfold cubic_C, by_dim, sphere; cbn [pw Z.eqb Pos.eqb]; field; lra); cbn [prim INR]; field.
  - apply (G [0; 80 / 7; 0; - 120 / 7; 60 / 7] [0; 160 / 7; - 240 / 7; 120 / 7; - 20 / 7] (22 / 7) (6 / 7)); try (intros q Hq; unfold cubic_p; destruct (Rlt_dec 2 q); [exfalso; lra|]; destruct (Rlt_dec q 1); try (exfalso; lra); unfold cubic_C, by_dim, sphere; cbn [pw Z.eqb Pos.eqb]; field; lra); cbn [prim INR]; field.
  - apply (G [0; 0; 16; 0; - 24; 12] [0; 0; 32; - 48; 24; - 4] (38 / 15) (22 / 15)); try (intros q Hq; unfold cubic_p; destruct (Rlt_dec 2 q); [exfalso; lra|]; destruct (Rlt_dec q 1); try (exfalso; lra); unfold cubic_C, by_dim, sphere; cbn [pw Z.eqb Pos.eqb]; field; lra); cbn [prim INR]; field.
Qed.
Print Assumptions C51_cubic_spline_refuted.

(** ** Derivatives of the kernels *)
Lemma norm_scale t r : 0 <= t -> norm (vscale t r) = t * norm r.
Proof.
  intros H. unfold norm, vscale. cbn [vx vy vz]. replace (t * vx r * (t * vx r) + t * vy r * (t * vy r) + t * vz r * (t * vz r)) with ((t * t) * (vx r * vx r + vy r * vy r + vz r * vz r)) by ring.
  rewrite sqrt_mult; [|nra|nra]. rewrite sqrt_square by exact H. reflexivity.
Qed.
(** Along the ray through r: if the profile is a polynomial [f] near q = |r| / h, the radial derivative is C * f'(q) * q. *)
Lemma radial (W : vec -> R) (p f : R -> R) C h r d lo hi : 0 < h -> (forall x, W x = C * p (norm x / h)) -> lo < norm r / h < hi -> 0 <= lo -> (forall q, lo < q < hi -> p q = f q) ->
  is_derive f (norm r / h) d -> is_derive (fun t => W (vscale t r)) 1 (C * d * (norm r / h)).
Proof.
  intros Hh Hw Hq Hlo Hp Hd. set (q := norm r / h) in *.
  assert (D : is_derive (fun t => C * f (t * q)) 1 (C * d * q)).
  { rewrite Rmult_assoc. apply (is_derive_scal (fun t => f (t * q))). rewrite Rmult_comm. apply (is_derive_comp f (fun t => t * q)); [rewrite Rmult_1_l; exact Hd|]. auto_derive; [exact I|ring]. }
  revert D. apply is_derive_ext_loc. assert (Qp : 0 < q) by lra.
  exists (mkposreal (Rmin 1 (Rmin ((q - lo) / q) ((hi - q) / q))) ltac:(apply Rmin_pos; [lra|apply Rmin_pos; apply Rdiv_lt_0_compat; lra])).
  intros t Ht. unfold ball in Ht. cbn in Ht. unfold AbsRing_ball in Ht. unfold abs, minus, plus, opp in Ht. cbn in Ht. apply Rabs_def2 in Ht. destruct Ht as [T1 T2].
  assert (B1 := Rmin_l 1 (Rmin ((q - lo) / q) ((hi - q) / q))). assert (B2 := Rmin_r 1 (Rmin ((q - lo) / q) ((hi - q) / q))). assert (B3 := Rmin_l ((q - lo) / q) ((hi - q) / q)). assert (B4 := Rmin_r ((q - lo) / q) ((hi - q) / q)).
  assert (M1 : (q - lo) / q * q = q - lo) by (field; lra). assert (M2 : (hi - q) / q * q = hi - q) by (field; lra).
  rewrite Hw, norm_scale by lra. replace (t * norm r / h) with (t * q) by (unfold q, Rdiv; ring). symmetry. f_equal. apply Hp. split; nra.
Qed.
Definition dir (c : R) (r : vec) : vec := vscale (c / (norm r * norm r)) r.

(** The gradient is [dir l r] where l is the derivative along the ray through r; gradientW of the quintic, gaussian and spiky kernels is
    -h^2 times it, that of the cubic spline -h^2/4 times, away from the centre, the edge and (cubic spline) the knot. *)
Theorem C51_gradient : forall k s c dim old h tol r, In (k, s, c) [(cubic, 2, 1 / 4); (quintic, 2, 1); (gaussian, 3, 1); (spiky, 1, 1)] -> 0 < h ->
  0 < norm r < s * h -> tol * h <= norm r -> (k = cubic -> norm r <> h) ->
  exists l, is_derive (fun t => k_W k dim old (vscale t r) h) 1 l /\ k_grad k dim old r h tol = dir (- (c * h * h * l)) r.
Proof.
  intros k s c dim old h tol r I Hh Hr Ht Hk. set (q := norm r / h).
  assert (Nq : norm r = q * h) by (unfold q; field; lra). assert (Q0 : 0 < q) by (unfold q; apply Rdiv_lt_0_compat; lra).
  assert (Qs : q < s) by (rewrite Nq in Hr; nra). assert (Qt : at_least tol (norm r / h) = q).
  { fold q. unfold at_least. destruct (Rlt_dec q tol); [|reflexivity]. exfalso. rewrite Nq in Ht. nra. }
  assert (Tq : tol <= q) by (rewrite Nq in Ht; nra).
  assert (V : forall a b, a = b / (norm r * norm r) -> vscale a r = dir b r) by (intros a b ->; reflexivity).
  cbn [In] in I. destruct I as [I|[I|[I|[I|[]]]]]; injection I as <- <- <-; cbn [k_W k_grad cubic quintic gaussian spiky].
  - assert (N1 : q <> 1) by (intros E; apply (Hk eq_refl); rewrite Nq, E; ring). clear Hk. assert (H1 : q < 1 \/ 1 < q) by lra. destruct H1 as [L|L].
    + eexists. split; [apply (radial (fun x => cubic_W dim old x h) cubic_p (fun q => 4 - 6 * q * q + 3 * q * q * q) (cubic_C dim old h) h r (- 12 * q + 9 * q * q) 0 1); [exact Hh|intros x; apply (profiles dim old x h Hh)|fold q; lra|lra| |]|].
      * intros z Hz. unfold cubic_p. destruct (Rlt_dec 2 z); [exfalso; lra|]. destruct (Rlt_dec z 1); [ring|exfalso; lra].
      * fold q. auto_derive; [exact Logic.I|ring].
      * unfold cubic_grad. rewrite Qt. cbv zeta. destruct (Rlt_dec 2 q); [exfalso; lra|]. destruct (Rle_dec tol q); [|exfalso; lra]. destruct (Rlt_dec q 1); [|exfalso; lra]. apply V. fold q. rewrite Nq. field. lra.
    + eexists. split; [apply (radial (fun x => cubic_W dim old x h) cubic_p (fun q => (2 - q) * (2 - q) * (2 - q)) (cubic_C dim old h) h r (- 3 * (2 - q) * (2 - q)) 1 2); [exact Hh|intros x; apply (profiles dim old x h Hh)|fold q; lra|lra| |]|].
      * intros z Hz. unfold cubic_p. destruct (Rlt_dec 2 z); [exfalso; lra|]. destruct (Rlt_dec z 1); [exfalso; lra|ring].
      * fold q. auto_derive; [exact Logic.I|ring].
      * unfold cubic_grad. rewrite Qt. cbv zeta. destruct (Rlt_dec 2 q); [exfalso; lra|]. destruct (Rle_dec tol q); [|exfalso; lra]. destruct (Rlt_dec q 1); [exfalso; lra|]. apply V. fold q. rewrite Nq. field. lra.
  - eexists. split; [apply (radial (fun x => quintic_W dim old x h) quintic_p (fun q => (1 - 1 / 2 * q) ^ 4 * (2 * q + 1)) (quintic_C dim old h) h r (2 * (1 - 1 / 2 * q) ^ 4 - 2 * (1 - 1 / 2 * q) ^ 3 * (2 * q + 1)) 0 2); [exact Hh|intros x; apply (profiles dim old x h Hh)|fold q; lra|lra| |]|].
    * intros z Hz. unfold quintic_p. destruct (Rlt_dec 2 z); [exfalso; lra|reflexivity].
    * fold q. auto_derive; [exact Logic.I|]. cbn. field.
    * unfold quintic_grad. rewrite Qt. cbv zeta. destruct (Rlt_dec 2 q); [exfalso; lra|]. apply V. fold q. rewrite Nq. field. lra.
  - eexists. split; [apply (radial (fun x => gaussian_W dim old x h) gaussian_p (fun q => exp (- q * q)) (gaussian_C dim old h) h r (- 2 * q * exp (- q * q)) 0 3); [exact Hh|intros x; apply (profiles dim old x h Hh)|fold q; lra|lra| |]|].
    * intros z Hz. unfold gaussian_p. destruct (Rlt_dec 3 z); [exfalso; lra|reflexivity].
    * fold q. auto_derive; [exact Logic.I|ring].
    * unfold gaussian_grad. rewrite Qt. cbv zeta. destruct (Rlt_dec 3 q); [exfalso; lra|]. apply V. fold q. rewrite Nq. field. lra.
  - eexists. split; [apply (radial (fun x => spiky_W dim old x h) spiky_p (fun q => (1 - q) ^ 3) (spiky_C dim old h) h r (- 3 * (1 - q) ^ 2) 0 1); [exact Hh|intros x; apply (profiles dim old x h Hh)|fold q; lra|lra| |]|].
    * intros z Hz. unfold spiky_p. destruct (Rlt_dec 1 z); [exfalso; lra|reflexivity].
    * fold q. auto_derive; [exact Logic.I|]. cbn. ring.
    * unfold spiky_grad. rewrite Qt. cbv zeta. destruct (Rlt_dec 1 q); [exfalso; lra|]. apply V. fold q. rewrite Nq. field. lra.
Qed.
Print Assumptions C51_gradient.
(** gradientW of the convex kernel is no multiple of the gradient: at distance h the factor is 7/8 ... *)
Theorem C51_convex_gradient_refuted : forall dim old, exists l, is_derive (fun t => k_W convex dim old (vscale t (Vec 1 0 0)) 1) 1 l /\
  k_grad convex dim old (Vec 1 0 0) 1 0 = dir (- (7 / 8 * l)) (Vec 1 0 0).
Proof.
  intros dim old. assert (N : norm (Vec 1 0 0) / 1 = 1) by (rewrite norm_axis by lra; field). eexists. split.
  - apply (radial (fun x => convex_W dim old x 1) convex_p (fun q => (2 - q) ^ 3 * (1 / 2 * q + 1)) (convex_C dim old 1) 1 (Vec 1 0 0) (- 4) 0 2); [lra|intros x; apply (profiles dim old x 1 ltac:(lra))|rewrite N; lra|lra| |].
    + intros z Hz. unfold convex_p. destruct (Rlt_dec 2 z); [exfalso; lra|reflexivity].
    + rewrite N. auto_derive; [exact I|]. cbn. field.
  - cbn [k_grad convex]. unfold convex_grad. rewrite N. unfold at_least. destruct (Rlt_dec 1 0); [exfalso; lra|]. cbv zeta. destruct (Rlt_dec 2 1); [exfalso; lra|]. unfold dir, pow15. rewrite norm_axis by lra. replace (2 - 1) with 1 by ring. rewrite sqrt_1. f_equal. field.
Qed.
Print Assumptions C51_convex_gradient_refuted.

(** laplacianW is never negative for the cubic spline, quintic, gaussian and spiky kernels, and zero beyond the support. *)
Theorem C51_laplacian_sign : forall k s dim old h r, In (k, s) [(cubic, 2); (quintic, 2); (gaussian, 3); (spiky, 1)] -> (1 <= dim <= 3)%Z -> 0 < h ->
  0 <= k_lap k dim old r h /\ (s * h < norm r -> k_lap k dim old r h = 0).
Proof.
  intros k s dim old h r I Hd Hh. destruct (C_pos dim old h Hd Hh) as (C1 & C2 & C3 & C4 & C5). assert (Q := q_pos r h Hh).
  assert (Far : s * h < norm r -> s < norm r / h) by (intros L; apply Rmult_lt_reg_r with h; [exact Hh|]; unfold Rdiv; rewrite Rmult_assoc, Rinv_l by lra; lra).
  assert (D : 1 <= IZR dim) by (apply IZR_le; lia). cbn [In] in I.
  assert (G : forall C a b q w, 0 < C -> a <= 0 -> 0 <= q -> 0 <= w -> 0 <= C * h * (- a * q + w * b) \/ b < 0).
  { intros C a b q w HC Ha Hq Hw. destruct (Rle_lt_dec 0 b); [left|now right]. repeat apply Rmult_le_pos; try lra. nra. }
  assert (G' : forall C a q w, 0 < C -> a <= 0 -> 0 <= q -> 0 <= w -> 0 <= C * h * (- a * q + w * IZR dim)) by (intros C a q w HC Ha Hq Hw; destruct (G C a (IZR dim) q w HC Ha Hq Hw); lra).
  destruct I as [I|[I|[I|[I|[]]]]]; injection I as <- <-; cbn [k_lap cubic quintic gaussian spiky]; (split; [|intros L; apply Far in L]); unfold cubic_lap, quintic_lap, gaussian_lap, spiky_lap; set (q := norm r / h) in *; clearbody q; cbv zeta;
    repeat match goal with |- context [Rlt_dec ?a q] => destruct (Rlt_dec a q); try lra end; try (exfalso; lra).
  - destruct (Rle_dec 0 q); [|contradiction]. destruct (Rlt_dec q 1); apply G'; try lra; try nra. assert (T := cube_incr 0 (2 - q) ltac:(lra)). lra.
  - assert (U3 : 0 <= (1 - 1 / 2 * q) ^ 3) by (apply pow_le; lra). assert (U4 : (1 - 1 / 2 * q) ^ 4 = (1 - 1 / 2 * q) ^ 3 * (1 - 1 / 2 * q)) by ring. apply G'; try lra; rewrite U4; set (u := (1 - 1 / 2 * q) ^ 3) in *; clearbody u; [nra|].
    apply Rmult_le_pos; [apply Rmult_le_pos; lra|lra].
  - assert (E := exp_pos (- q * q)). apply G'; try lra. nra.
  - assert (0 <= (1 - q) ^ 2) by (apply pow_le; lra). assert (0 <= (1 - q) ^ 3) by (apply pow_le; lra). apply G'; lra.
Qed.
Print Assumptions C51_laplacian_sign.
(** That of the convex kernel is negative near the edge of its support. *)
Theorem C51_convex_laplacian_refuted : forall dim old, (1 <= dim <= 3)%Z -> k_lap convex dim old (Vec (199 / 100) 0 0) 1 < 0.
Proof.
  intros dim old Hd. destruct (C_pos dim old 1 Hd ltac:(lra)) as (_ & _ & _ & C4 & _). cbn [k_lap convex]. unfold convex_lap. rewrite norm_axis by lra. cbv zeta. replace (199 / 100 / 1) with (199 / 100) by field. destruct (Rlt_dec 2 (199 / 100)); [exfalso; lra|].
  unfold pow15. replace (2 - 199 / 100) with (1 / 10 * (1 / 10)) by field. rewrite sqrt_square by lra. assert (D : IZR dim <= 3) by (apply IZR_le; lia). set (C := convex_C dim old 1) in *. clearbody C. set (d := IZR dim) in *. clearbody d.
  match goal with |- C * 1 * ?x < 0 => assert (x < 0) by lra; nra end.
Qed.
Print Assumptions C51_convex_laplacian_refuted.

Example C51_case : norm (Vec 3 0 4) = 5 /\ k_W quintic 3 0 (Vec 3 0 4) 2 = 0 /\ k_W cubic 1 0 (Vec 1 0 0) 1 = 2 / 3.
Proof.
  assert (N : norm (Vec 3 0 4) = 5) by (unfold norm; cbn [vx vy vz]; replace (3 * 3 + 0 * 0 + 4 * 4) with (5 * 5) by ring; apply sqrt_square; lra). split; [exact N|]. split.
  - cbn [k_W quintic]. unfold quintic_W. rewrite N. cbv zeta. destruct (Rlt_dec 2 (5 / 2)); [reflexivity|exfalso; lra].
  - cbn [k_W cubic]. unfold cubic_W. rewrite norm_axis by lra. cbv zeta. replace (1 / 1) with 1 by field. destruct (Rlt_dec 2 1); [exfalso; lra|]. destruct (Rle_dec 0 1); [|exfalso; lra]. destruct (Rlt_dec 1 1); [exfalso; lra|]. unfold cubic_C, by_dim. cbn [Z.eqb Pos.eqb]. field.
Qed.

(** ** C73: a step of the solver *)
Definition rsum (f : nat -> R) (l : list nat) : R := fold_right (fun j a => f j + a) 0 l.
Lemma fold_rsum f l a : fold_left (fun a j => a + f j) l a = a + rsum f l.
Proof. revert a. induction l as [|j l IH]; intros a; cbn; [ring|]. rewrite IH. unfold rsum. ring. Qed.
Lemma rsum_nonneg f l : (forall j, In j l -> 0 <= f j) -> 0 <= rsum f l.
Proof. induction l as [|j l IH]; intros H; cbn; [lra|]. pose proof (H j (or_introl eq_refl)). specialize (IH (fun j I => H j (or_intror I))). unfold rsum in IH. lra. Qed.
Lemma rsum_le f g l : (forall j, In j l -> f j <= g j) -> rsum f l <= rsum g l.
Proof. induction l as [|j l IH]; intros H; cbn; [lra|]. pose proof (H j (or_introl eq_refl)). specialize (IH (fun j I => H j (or_intror I))). unfold rsum in IH. lra. Qed.
Lemma rsum_ext f g l : (forall j, In j l -> f j = g j) -> rsum f l = rsum g l.
Proof. intros H. apply Rle_antisym; apply rsum_le; intros j I; rewrite (H j I); lra. Qed.
Lemma rsum_scal c f l : rsum (fun j => c * f j) l = c * rsum f l.
Proof. induction l as [|j l IH]; cbn; [ring|]. unfold rsum in IH. rewrite IH. ring. Qed.
Lemma rsum_pos f l i : (forall j, In j l -> 0 <= f j) -> In i l -> 0 < f i -> 0 < rsum f l.
Proof.
  induction l as [|j l IH]; intros H I P; [destruct I|]. cbn. destruct I as [->|I].
  - pose proof (rsum_nonneg f l (fun j I => H j (or_intror I))). unfold rsum in H0. lra.
  - specialize (IH (fun j I => H j (or_intror I)) I P). pose proof (H j (or_introl eq_refl)). unfold rsum in IH. lra.
Qed.

Lemma part_map (f : particle -> particle) s i : (i < length s)%nat -> part (map f s) i = f (part s i).
Proof. intros H. unfold part. rewrite (nth_indep _ _ (f origin_particle)) by (rewrite map_length; exact H). apply map_nth. Qed.
Lemma part_density p near s i : (i < length s)%nat -> part (calculate_density p near s) i = set_density (density p near s i) (part s i).
Proof.
  intros H. unfold part at 1, calculate_density. rewrite (nth_indep _ _ (set_density (density p near s 0) (part s 0))) by (rewrite map_length, seq_length; exact H).
  rewrite (map_nth (fun i => set_density (density p near s i) (part s i)) _ 0%nat), seq_nth by exact H. reflexivity.
Qed.
Lemma length_density p near s : length (calculate_density p near s) = length s.
Proof. unfold calculate_density. now rewrite map_length, seq_length. Qed.
Lemma length_upd s i x : (i < length s)%nat -> length (upd s i x) = length s.
Proof. intros H. unfold upd. rewrite app_length. cbn [length]. rewrite firstn_length, skipn_length. lia. Qed.
Lemma part_upd s i x j : (i < length s)%nat -> part (upd s i x) j = if (j =? i)%nat then x else part s j.
Proof.
  intros H. unfold part, upd. destruct (Nat.eqb_spec j i) as [->|N].
  - rewrite app_nth2; rewrite firstn_length; [|lia]. replace (i - Nat.min i (length s))%nat with 0%nat by lia. reflexivity.
  - destruct (Nat.lt_ge_cases j i) as [L|L].
    + rewrite app_nth1 by (rewrite firstn_length; lia). rewrite <- (firstn_skipn i s) at 2. rewrite app_nth1 by (rewrite firstn_length; lia). reflexivity.
    + rewrite app_nth2; rewrite firstn_length; [|lia]. replace (j - Nat.min i (length s))%nat with (S (j - S i)) by lia. cbn [nth]. rewrite <- (firstn_skipn (S i) s) at 2. rewrite app_nth2; rewrite firstn_length; [|lia]. f_equal. lia.
Qed.

(** The particles found around a particle exist and include itself. *)
Definition finds (near : nat -> list nat) (n : nat) : Prop := forall i, (i < n)%nat -> In i (near i) /\ List.Forall (fun j => (j < n)%nat) (near i).
(** Kernels with a non-negative laplacianW. *)
Definition diffusive : list kernel := [cubic; quintic; gaussian; spiky].

(** Particles of positive mass have positive density. *)
Theorem C73_density : forall p near s i, In (s_kernel p) diffusive \/ s_kernel p = convex -> (1 <= s_dim p <= 3)%Z -> 0 < s_h p ->
  finds near (length s) -> (forall j, (j < length s)%nat -> 0 < p_mass (part s j)) -> (i < length s)%nat ->
  0 < p_density (part (calculate_density p near s) i) /\ p_mass (part (calculate_density p near s) i) = p_mass (part s i) /\ p_u (part (calculate_density p near s) i) = p_u (part s i).
Proof.
  intros p near s i K Hd Hh F M Hi. rewrite part_density by exact Hi. cbn [set_density p_density p_mass p_u]. split; [|split; reflexivity]. destruct (F i Hi) as [Fi Fn]. rewrite List.Forall_forall in Fn.
  unfold density. rewrite (fold_rsum (fun j => p_mass (part s j) * k_W (s_kernel p) (s_dim p) (s_C p) (vsub (p_pos (part s j)) (p_pos (part s i))) (s_h p))), Rplus_0_l.
  assert (Sp : exists sp, In (s_kernel p, sp) supports).
  { destruct K as [K|K]; [cbn [diffusive In] in K; destruct K as [K|[K|[K|[K|[]]]]]; rewrite <- K|rewrite K]; eexists; cbn [supports In]; eauto 10. }
  destruct Sp as [sp Sp]. assert (Kp := C51_kernels _ _ (s_dim p) (s_C p) (s_h p) Sp Hd Hh).
  apply (rsum_pos _ _ i); [|exact Fi|].
  - intros j I. apply Rmult_le_pos; [left; apply M; now apply Fn|]. apply Kp.
  - apply Rmult_lt_0_compat; [now apply M|]. unfold vsub. rewrite !Rminus_diag_eq by reflexivity. apply (Kp (Vec 0 0 0)).
Qed.
Print Assumptions C73_density.

(** Total exchange of a particle with its neighbours in one step. *)
Definition exchange (p : params) (near : nat -> list nat) (s : state) (i : nat) : R :=
  p_cond (part s i) * s_dt p * rsum (fun j => k_lap (s_kernel p) (s_dim p) (s_C p) (vsub (p_pos (part s j)) (p_pos (part s i))) (s_h p) / p_density (part s j)) (near i).

Lemma diffuse_bounds p near s i lo hi : In (s_kernel p) diffusive -> (1 <= s_dim p <= 3)%Z -> 0 < s_h p -> 0 <= s_dt p ->
  (i < length s)%nat -> List.Forall (fun j => (j < length s)%nat) (near i) -> (forall j, (j < length s)%nat -> 0 < p_density (part s j) /\ 0 <= p_cond (part s j) /\ lo <= p_u (part s j) <= hi) ->
  (forall v, s_fixed p i = Some v -> lo <= v <= hi) -> (s_fixed p i = None -> exchange p near s i <= 1) ->
  lo <= diffuse_value p near s i <= hi.
Proof.
  intros K Hd Hh Ht Hi Fn S0 Fx Cfl. unfold diffuse_value. destruct (s_fixed p i) as [v|]; [now apply Fx|]. specialize (Cfl eq_refl). rewrite List.Forall_forall in Fn.
  set (a := fun j => k_lap (s_kernel p) (s_dim p) (s_C p) (vsub (p_pos (part s j)) (p_pos (part s i))) (s_h p) / p_density (part s j)).
  assert (A : forall j, In j (near i) -> 0 <= a j).
  { intros j I. apply Rmult_le_pos; [|left; apply Rinv_0_lt_compat, S0, Fn, I].
    assert (Sp : exists sp, In (s_kernel p, sp) [(cubic, 2); (quintic, 2); (gaussian, 3); (spiky, 1)]) by (cbn [diffusive In] in K; destruct K as [K|[K|[K|[K|[]]]]]; rewrite <- K; eexists; cbn [In]; eauto 10).
    destruct Sp as [sp Sp]. apply (C51_laplacian_sign _ _ _ _ _ _ Sp Hd Hh). }
  cbv zeta. rewrite (fold_rsum (fun j => (p_u (part s j) - p_u (part s i)) / p_density (part s j) * k_lap (s_kernel p) (s_dim p) (s_C p) (vsub (p_pos (part s j)) (p_pos (part s i))) (s_h p))), Rplus_0_l.
  rewrite (rsum_ext _ (fun j => (p_u (part s j) - p_u (part s i)) * a j)) by (intros j I; unfold a, Rdiv; ring).
  unfold exchange in Cfl. fold a in Cfl. destruct (S0 i Hi) as (_ & Ci & Ui). set (c := p_cond (part s i)) in *. set (u := p_u (part s i)) in *. set (A0 := rsum a (near i)) in *.
  assert (Ap : 0 <= A0) by (apply rsum_nonneg; exact A).
  assert (U1 : rsum (fun j => (p_u (part s j) - u) * a j) (near i) <= (hi - u) * A0).
  { unfold A0. rewrite <- rsum_scal. apply rsum_le. intros j I. apply Rmult_le_compat_r; [now apply A|]. destruct (S0 j (Fn j I)) as (_ & _ & ?). lra. }
  assert (L1 : (lo - u) * A0 <= rsum (fun j => (p_u (part s j) - u) * a j) (near i)).
  { unfold A0. rewrite <- rsum_scal. apply rsum_le. intros j I. apply Rmult_le_compat_r; [now apply A|]. destruct (S0 j (Fn j I)) as (_ & _ & ?). lra. }
  set (X := rsum (fun j : nat => (p_u (part s j) - u) * a j) (near i)) in *. clearbody X. clearbody A0. assert (Kp : 0 <= c * s_dt p) by (apply Rmult_le_pos; assumption). set (k := c * s_dt p) in *.
  replace (c * X * s_dt p) with (k * X) by (unfold k; ring). clearbody k. split.
  - assert (k * ((lo - u) * A0) <= k * X) by (apply Rmult_le_compat_l; assumption). assert (0 <= (u - lo) * (1 - k * A0)) by (apply Rmult_le_pos; lra). lra.
  - assert (k * X <= k * ((hi - u) * A0)) by (apply Rmult_le_compat_l; assumption). assert (0 <= (hi - u) * (1 - k * A0)) by (apply Rmult_le_pos; lra). lra.
Qed.

(** What the loop of addDiffusion keeps. *)
Definition same_but_u (s t : state) : Prop := length t = length s /\ forall j, p_mass (part t j) = p_mass (part s j) /\ p_density (part t j) = p_density (part s j) /\ p_cond (part t j) = p_cond (part s j) /\ p_vel (part t j) = p_vel (part s j) /\ p_pos (part t j) = p_pos (part s j).
Lemma same_refl s : same_but_u s s. Proof. split; [reflexivity|]. intros; repeat split. Qed.
Lemma same_upd s t i : same_but_u s t -> (i < length s)%nat -> forall u, same_but_u s (upd t i (set_u u (part t i))).
Proof.
  intros [L H] Hi u. split; [rewrite length_upd; lia|]. intros j. rewrite part_upd by lia. destruct (Nat.eqb_spec j i) as [->|]; [|apply H]. cbn. apply H.
Qed.
Lemma exchange_same p near s t i : same_but_u s t -> exchange p near t i = exchange p near s i.
Proof.
  intros [_ H]. unfold exchange. destruct (H i) as (_ & _ & -> & _ & Pi). f_equal. apply rsum_ext. intros j _. destruct (H j) as (_ & Dj & _ & _ & Pj). now rewrite Pi, Dj, Pj.
Qed.
Lemma loop_bounds p near lo hi l : In (s_kernel p) diffusive -> (1 <= s_dim p <= 3)%Z -> 0 < s_h p -> 0 <= s_dt p ->
  (forall i v, s_fixed p i = Some v -> lo <= v <= hi) ->
  forall s0 s, same_but_u s0 s -> (forall i, In i l -> (i < length s0)%nat /\ List.Forall (fun j => (j < length s0)%nat) (near i) /\ (s_fixed p i = None -> exchange p near s0 i <= 1)) ->
  (forall j, (j < length s0)%nat -> 0 < p_density (part s0 j) /\ 0 <= p_cond (part s0 j)) -> (forall j, (j < length s0)%nat -> lo <= p_u (part s j) <= hi) ->
  let t := fold_left (fun s i => upd s i (set_u (diffuse_value p near s i) (part s i))) l s in same_but_u s0 t /\ forall j, (j < length s0)%nat -> lo <= p_u (part t j) <= hi.
Proof.
  intros K Hd Hh Ht Fx s0. induction l as [|i l IH]; intros s Sm H Dc U; [split; assumption|]. cbn [fold_left].
  destruct (H i (or_introl eq_refl)) as (Hi & Fn & Cfl). destruct Sm as [L Sm]. assert (Sm' : same_but_u s0 s) by (split; assumption).
  apply IH; [now apply same_upd|intros; now apply H; right|exact Dc|]. intros j Hj. rewrite part_upd by lia. destruct (Nat.eqb_spec j i) as [->|]; [|now apply U]. cbn [set_u p_u].
  apply diffuse_bounds; try assumption; rewrite ?L; try assumption.
  - intros j Hj'. destruct (Sm j) as (_ & Dj & Cj & _). rewrite Dj, Cj. destruct (Dc j Hj'). auto.
  - apply Fx.
  - intros N. rewrite (exchange_same p near s0 s i Sm'). now apply Cfl.
Qed.

(** A step keeps the values between bounds that hold before and for the prescribed values, if no free particle exchanges more than its
    share in one step (the time step is small enough); masses, conductivities and velocities are kept. *)
Theorem C73_maximum_principle : forall p near near' s lo hi, In (s_kernel p) diffusive -> (1 <= s_dim p <= 3)%Z -> 0 < s_h p -> 0 <= s_dt p ->
  finds near (length s) -> finds near' (length s) -> (forall j, (j < length s)%nat -> 0 < p_mass (part s j) /\ 0 <= p_cond (part s j)) ->
  (forall i v, s_fixed p i = Some v -> lo <= v <= hi) -> (forall j, (j < length s)%nat -> lo <= p_u (part s j) <= hi) ->
  (forall i, (i < length s)%nat -> s_fixed p i = None -> exchange p near' (advect_particles p (calculate_density p near s)) i <= 1) ->
  let t := solve p near near' s in
  length t = length s /\ forall j, (j < length s)%nat -> lo <= p_u (part t j) <= hi /\ p_mass (part t j) = p_mass (part s j) /\ p_cond (part t j) = p_cond (part s j) /\ p_vel (part t j) = p_vel (part s j).
Proof.
  intros p near near' s lo hi K Hd Hh Ht F F' M Fx U Cfl. cbv zeta. unfold solve, add_diffusion. set (s1 := advect_particles p (calculate_density p near s)) in *.
  assert (L1 : length s1 = length s) by (unfold s1, advect_particles; rewrite map_length; apply length_density).
  assert (P1 : forall j, (j < length s)%nat -> 0 < p_density (part s1 j) /\ p_mass (part s1 j) = p_mass (part s j) /\ p_cond (part s1 j) = p_cond (part s j) /\ p_u (part s1 j) = p_u (part s j) /\ p_vel (part s1 j) = p_vel (part s j)).
  { intros j Hj. unfold s1, advect_particles. rewrite part_map by (rewrite length_density; exact Hj). destruct (C73_density p near s j (or_introl K) Hd Hh F (fun j H => proj1 (M j H)) Hj) as (D & Ms & Us).
    unfold advect. cbn [p_density p_mass p_cond p_u p_vel]. rewrite part_density in * by exact Hj. cbn [set_density p_density p_mass p_cond p_u p_vel] in *. auto. }
  destruct (loop_bounds p near' lo hi (seq 0 (length s1)) K Hd Hh Ht Fx s1 s1 (same_refl s1)) as [[L Sm] B].
  - intros i I. apply in_seq in I. split; [lia|]. split; [rewrite L1; apply F'; lia|]. apply Cfl. lia.
  - intros j Hj. rewrite L1 in Hj. destruct (P1 j Hj) as (D & _ & -> & _). split; [exact D|apply M, Hj].
  - intros j Hj. rewrite L1 in Hj. destruct (P1 j Hj) as (_ & _ & _ & -> & _). now apply U.
  - split; [rewrite L; exact L1|]. intros j Hj. destruct (Sm j) as (E1 & _ & E3 & E4 & _). destruct (P1 j Hj) as (_ & Q1 & Q2 & _ & Q3). split; [apply B; lia|]. rewrite E1, E3, E4. auto.
Qed.
Print Assumptions C73_maximum_principle.

(** Prescribed values are taken. *)
Theorem C73_prescribed : forall p near near' s i v, (i < length s)%nat -> s_fixed p i = Some v -> p_u (part (solve p near near' s) i) = v.
Proof.
  intros p near near' s i v Hi Fx. unfold solve, add_diffusion. set (s1 := advect_particles p (calculate_density p near s)).
  assert (L1 : length s1 = length s) by (unfold s1, advect_particles; rewrite map_length; apply length_density). rewrite L1. clearbody s1.
  assert (G : forall l t, length t = length s -> (forall k, In k l -> (k < length s)%nat) -> (In i l \/ p_u (part t i) = v) -> p_u (part (fold_left (fun s i => upd s i (set_u (diffuse_value p near' s i) (part s i))) l t) i) = v).
  { induction l as [|k l IH]; intros t Lt H D; cbn [fold_left]; [destruct D as [[]|D]; exact D|]. assert (Hk := H k (or_introl eq_refl)). apply IH; [rewrite length_upd; lia|intros; apply H; now right|].
    rewrite part_upd by lia. destruct (Nat.eqb_spec i k) as [->|N].
    - right. cbn [set_u p_u]. unfold diffuse_value. now rewrite Fx.
    - destruct D as [[D|D]|D]; [congruence|now left|now right]. }
  apply G; [exact L1|intros k I; apply in_seq in I; lia|]. left. apply in_seq. lia.
Qed.
Print Assumptions C73_prescribed.

(** A uniform field stays uniform for every time step. *)
Theorem C73_uniform : forall p near near' s c, (forall i v, s_fixed p i = Some v -> v = c) -> (forall j, (j < length s)%nat -> p_u (part s j) = c) ->
  finds near' (length s) -> forall j, (j < length s)%nat -> p_u (part (solve p near near' s) j) = c.
Proof.
  intros p near near' s c Fx U F. unfold solve, add_diffusion. set (s1 := advect_particles p (calculate_density p near s)).
  assert (L1 : length s1 = length s) by (unfold s1, advect_particles; rewrite map_length; apply length_density). rewrite L1.
  assert (U1 : forall j, (j < length s)%nat -> p_u (part s1 j) = c). { intros j Hj. unfold s1, advect_particles. rewrite part_map by (rewrite length_density; exact Hj). cbn [advect p_u]. rewrite part_density by exact Hj. cbn. now apply U. }
  clearbody s1.
  assert (G : forall l t, length t = length s -> (forall k, In k l -> (k < length s)%nat) -> (forall j, (j < length s)%nat -> p_u (part t j) = c) -> forall j, (j < length s)%nat -> p_u (part (fold_left (fun s i => upd s i (set_u (diffuse_value p near' s i) (part s i))) l t) j) = c).
  { induction l as [|k l IH]; intros t Lt H D; cbn [fold_left]; [exact D|]. assert (Hk := H k (or_introl eq_refl)). apply IH; [rewrite length_upd; lia|intros; apply H; now right|].
    intros j Hj. rewrite part_upd by lia. destruct (Nat.eqb_spec j k) as [->|N]; [|now apply D]. cbn [set_u p_u]. unfold diffuse_value. destruct (s_fixed p k) as [v|] eqn:E; [now apply (Fx k)|]. cbv zeta.
    rewrite (fold_rsum (fun j => (p_u (part t j) - p_u (part t k)) / p_density (part t j) * k_lap (s_kernel p) (s_dim p) (s_C p) (vsub (p_pos (part t j)) (p_pos (part t k))) (s_h p))).
    rewrite (rsum_ext _ (fun _ => 0 * 0)); [rewrite rsum_scal, (D k Hk); ring|]. intros m I. destruct (F k Hk) as [_ Fn]. rewrite List.Forall_forall in Fn. rewrite (D m (Fn m I)), (D k Hk). unfold Rdiv. ring. }
  apply G; [exact L1|intros k I; apply in_seq in I; lia|exact U1].
Qed.
Print Assumptions C73_uniform.

(** Two particles at distance h with the cubic spline, and a long time step: the value leaves the range. *)
Definition pair : state := [Particle 1 0 1 (Vec 0 0 0) (Vec 0 0 0) 0; Particle 1 0 1 (Vec 0 0 0) (Vec 1 0 0) 1].
Definition pair_params (dt : R) : params := Params 1 dt false (Vec 0 0 0) (Vec 1 1 1) cubic 1 0 (fun _ => None).
Definition both (_ : nat) : list nat := [0; 1]%nat.
Lemma cubic_values : cubic_W 1 0 (Vec 0 0 0) 1 = 8 / 3 /\ cubic_W 1 0 (Vec 1 0 0) 1 = 2 / 3 /\ cubic_W 1 0 (Vec (-1) 0 0) 1 = 2 / 3 /\ cubic_lap 1 0 (Vec 0 0 0) 1 = 2 / 3 /\ cubic_lap 1 0 (Vec 1 0 0) 1 = 2 / 3.
Proof.
  assert (N0 : norm (Vec 0 0 0) = 0) by (apply norm_axis; lra). assert (N1 : norm (Vec 1 0 0) = 1) by (apply norm_axis; lra).
  assert (N2 : norm (Vec (-1) 0 0) = 1) by (rewrite <- N1; unfold norm; cbn [vx vy vz]; f_equal; ring).
  unfold cubic_W, cubic_lap, cubic_C, by_dim. cbn [Z.eqb Pos.eqb]. rewrite N0, N1, N2. replace (0 / 1) with 0 by field. replace (1 / 1) with 1 by field.
  destruct (Rlt_dec 2 0); [exfalso; lra|]. destruct (Rlt_dec 2 1); [exfalso; lra|]. destruct (Rle_dec 0 0); [|exfalso; lra]. destruct (Rle_dec 0 1); [|exfalso; lra]. destruct (Rlt_dec 0 1); [|exfalso; lra]. destruct (Rlt_dec 1 1); [exfalso; lra|]. repeat split; field.
Qed.
Lemma pair_value dt : p_u (part (solve (pair_params dt) both both pair) 0) = dt / 5.
Proof.
  destruct cubic_values as (W0 & W1 & W2 & L0 & L1).
  unfold solve, add_diffusion, advect_particles, calculate_density, density, pair, both, pair_params, part.
  cbn [length seq map fold_left nth set_density p_pos p_mass vsub vx vy vz s_kernel s_dim s_C s_h k_W cubic p_cond p_vel p_u].
  unfold diffuse_value, advect, upd, part, vsub. cbn [s_cyclic s_fixed s_dt s_kernel s_dim s_C s_h k_lap cubic p_pos p_vel vx vy vz map length seq fold_left firstn skipn app nth set_u p_u p_cond p_density p_mass].
  replace (Vec (0 - 0) (0 - 0) (0 - 0)) with (Vec 0 0 0) by (f_equal; ring). replace (Vec (1 - 0) (0 - 0) (0 - 0)) with (Vec 1 0 0) by (f_equal; ring). replace (Vec (0 - 1) (0 - 0) (0 - 0)) with (Vec (-1) 0 0) by (f_equal; ring).
  replace (Vec (1 - 1) (0 - 0) (0 - 0)) with (Vec 0 0 0) by (f_equal; ring).
  cbn [set_density p_pos p_vel vx vy vz p_u p_cond p_density p_mass].
  replace (Vec (0 + 0 * dt - (0 + 0 * dt)) (0 + 0 * dt - (0 + 0 * dt)) (0 + 0 * dt - (0 + 0 * dt))) with (Vec 0 0 0) by (f_equal; ring).
  replace (Vec (1 + 0 * dt - (0 + 0 * dt)) (0 + 0 * dt - (0 + 0 * dt)) (0 + 0 * dt - (0 + 0 * dt))) with (Vec 1 0 0) by (f_equal; ring).
  rewrite L0, L1.
  rewrite ?W0, ?W1, ?W2. field.
Qed.
Theorem C73_time_step_refuted : exists p near s, In (s_kernel p) diffusive /\ 0 < s_dt p /\ finds near (length s) /\ (forall j, (j < length s)%nat -> 0 < p_mass (part s j) /\ 0 <= p_u (part s j) <= 1) /\
  (forall i, s_fixed p i = None) /\ p_u (part (solve p near near s) 0) = 2.
Proof.
  exists (pair_params 10), both, pair. split; [cbn; tauto|]. split; [cbn; lra|]. split; [|split; [|split; [reflexivity|rewrite pair_value; field]]].
  - intros i Hi. cbn in Hi. split; [cbn; lia|]. repeat apply List.Forall_cons; try apply List.Forall_nil; cbn; lia.
  - intros j Hj. cbn in Hj. destruct j as [|[|j]]; [cbn; lra|cbn; lra|lia].
Qed.
Print Assumptions C73_time_step_refuted.
Example C73_case : p_u (part (solve (pair_params (1 / 2)) both both pair) 0) = 1 / 10.
Proof. rewrite pair_value. field. Qed.
