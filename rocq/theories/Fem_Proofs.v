(** Lemmas about finite-element matrices. *)
From Coq Require Import Reals ZArith QArith Qreals List Lia Lra.
From Verif Require Import Int_Model Fem_Model Fem_Spec.
Import ListNotations.
Open Scope R_scope.

(** ** Sums *)
Lemma rsum_ext n f g : (forall i, (i < n)%nat -> f i = g i) -> rsum n f = rsum n g.
Proof. induction n as [|n IH]; intros H; cbn; [reflexivity|]. rewrite IH, H by (try intros; auto with arith). reflexivity. Qed.
Lemma rsum_add n f g : rsum n (fun i => f i + g i) = rsum n f + rsum n g.
Proof. induction n as [|n IH]; cbn; [ring|]. rewrite IH. ring. Qed.
Lemma rsum_scale n c f : rsum n (fun i => c * f i) = c * rsum n f.
Proof. induction n as [|n IH]; cbn; [ring|]. rewrite IH. ring. Qed.
Lemma rsum_zero n f : (forall i, (i < n)%nat -> f i = 0) -> rsum n f = 0.
Proof. intros H. rewrite (rsum_ext n f (fun i => 0 * 0)) by (intros; rewrite H by auto; ring). rewrite rsum_scale. ring. Qed.
Lemma rsum_swap n m f : rsum n (fun i => rsum m (fun j => f i j)) = rsum m (fun j => rsum n (fun i => f i j)).
Proof. induction n as [|n IH]; cbn; [symmetry; apply rsum_zero; reflexivity|]. rewrite IH. rewrite <- rsum_add. reflexivity. Qed.
Lemma rsum_nonneg n f : (forall i, (i < n)%nat -> 0 <= f i) -> 0 <= rsum n f.
Proof. induction n as [|n IH]; intros H; cbn; [lra|]. assert (0 <= rsum n f) by (apply IH; auto with arith). assert (0 <= f n) by auto with arith. lra. Qed.
Lemma rsum_zero_each n f : (forall i, (i < n)%nat -> 0 <= f i) -> rsum n f = 0 -> forall i, (i < n)%nat -> f i = 0.
Proof.
  induction n as [|n IH]; intros H E i Hi; [lia|]. cbn in E. assert (0 <= rsum n f) by (apply rsum_nonneg; auto with arith). assert (0 <= f n) by auto with arith.
  destruct (Nat.eq_dec i n) as [->|]; [lra|]. apply IH; [auto with arith|lra|lia].
Qed.

(** ** Bilinear forms *)
Lemma form_ext n K K' v u : (forall i j, (i < n)%nat -> (j < n)%nat -> K i j = K' i j) -> form n K v u = form n K' v u.
Proof. intros H. apply rsum_ext. intros i Hi. f_equal. apply rsum_ext. intros j Hj. now rewrite H. Qed.
Lemma form_scale n c K v u : form n (mscale c K) v u = c * form n K v u.
Proof.
  unfold form, mscale. rewrite <- rsum_scale. apply rsum_ext. intros i _. rewrite (rsum_ext n (fun j => K i j * c * u j) (fun j => c * (K i j * u j))) by (intros; ring).
  rewrite rsum_scale. ring.
Qed.
Lemma rsum_opp n f : rsum n (fun i => - f i) = - rsum n f.
Proof. induction n as [|n IH]; cbn; [ring|]. rewrite IH. ring. Qed.
Lemma rsum_scale_r n c f : rsum n (fun i => f i * c) = rsum n f * c.
Proof. rewrite Rmult_comm, <- rsum_scale. apply rsum_ext. intros; ring. Qed.
Lemma form_minus_BtB n d B v u : form n (minus_BtB d B) v u = - rsum d (fun k => rsum n (fun i => B k i * v i) * rsum n (fun j => B k j * u j)).
Proof.
  unfold form, minus_BtB.
  rewrite (rsum_ext n _ (fun i => - rsum d (fun k => (B k i * v i) * rsum n (fun j => B k j * u j)))).
  - rewrite rsum_opp, rsum_swap. f_equal. apply rsum_ext. intros k _. apply rsum_scale_r.
  - intros i _.
    rewrite (rsum_ext n (fun j => - rsum d (fun k => B k i * B k j) * u j) (fun j => - rsum d (fun k => B k i * (B k j * u j)))).
    2:{ intros j _. rewrite <- Ropp_mult_distr_l, <- rsum_scale_r. f_equal. apply rsum_ext. intros; ring. }
    rewrite rsum_opp, rsum_swap, <- Ropp_mult_distr_r, <- rsum_scale. f_equal. apply rsum_ext. intros k _. rewrite rsum_scale. ring.
Qed.
Lemma minus_BtB_dissipative n d B : dissipative n (minus_BtB d B).
Proof. intros u. rewrite form_minus_BtB. assert (0 <= rsum d (fun k => rsum n (fun i => B k i * u i) * rsum n (fun j => B k j * u j))); [|lra]. apply rsum_nonneg. intros. apply Rle_0_sqr. Qed.
Lemma minus_BtB_symmetric n d B : symmetric n (minus_BtB d B).
Proof. intros i j _ _. unfold minus_BtB. f_equal. apply rsum_ext. intros; ring. Qed.
Lemma minus_BtB_constants n d B : (forall k, (k < d)%nat -> rsum n (B k) = 0) -> kills_constants n (minus_BtB d B).
Proof.
  intros H c i _. unfold minus_BtB. rewrite (rsum_ext n _ (fun j => rsum d (fun k => (- c * B k i) * B k j))).
  2:{ intros j _. rewrite <- Ropp_mult_distr_l, Rmult_comm, <- rsum_scale. rewrite <- (Rmult_1_l (rsum d _)), Ropp_mult_distr_l, <- rsum_scale. apply rsum_ext. intros; ring. }
  rewrite rsum_swap. apply rsum_zero. intros k Hk. rewrite rsum_scale, H by exact Hk. ring.
Qed.
Lemma scale_dissipative n c K : 0 <= c -> dissipative n K -> dissipative n (mscale c K).
Proof. intros Hc H u. rewrite form_scale. specialize (H u). nra. Qed.
Lemma scale_symmetric n c K : symmetric n K -> symmetric n (mscale c K).
Proof. intros H i j Hi Hj. unfold mscale. now rewrite H. Qed.
Lemma scale_constants n c K : kills_constants n K -> kills_constants n (mscale c K).
Proof. intros H x i Hi. unfold mscale. rewrite (rsum_ext n _ (fun j => K i j * (c * x))) by (intros; ring). now apply H. Qed.
Lemma scale_total n c K : total n (mscale c K) = c * total n K.
Proof. unfold total, mscale. rewrite <- rsum_scale. apply rsum_ext. intros i _. rewrite <- rsum_scale. apply rsum_ext. intros; ring. Qed.
Lemma per_dt_pos dt K : 0 < dt -> per_dt dt K = mscale (/ dt) K.
Proof. intros H. unfold per_dt. destruct (Rlt_dec 0 dt); [reflexivity|contradiction]. Qed.

(** ** Loops over integration points *)
Definition psum (ps : list rpoint) (f : rpoint -> R) : R := fold_right (fun p a => f p + a) 0 ps.
Lemma psum_ext ps f g : (forall p, In p ps -> f p = g p) -> psum ps f = psum ps g.
Proof. induction ps as [|p ps IH]; intros H; cbn; [reflexivity|]. rewrite (H p) by now left. unfold psum in IH. rewrite IH by (intros; apply H; now right). reflexivity. Qed.
Lemma psum_scale ps c f : psum ps (fun p => c * f p) = c * psum ps f.
Proof. induction ps as [|p ps IH]; cbn; [ring|]. unfold psum in IH. rewrite IH. ring. Qed.
Lemma psum_nonneg ps f : (forall p, In p ps -> 0 <= f p) -> 0 <= psum ps f.
Proof. induction ps as [|p ps IH]; intros H; cbn; [lra|]. assert (0 <= f p) by (apply H; now left). assert (0 <= psum ps f) by (apply IH; intros; apply H; now right). unfold psum in *. lra. Qed.
Lemma over_points_entry ps det K i j : over_points ps det K i j = psum ps (fun p => K p i j * (r_w p * Rabs (det p))).
Proof.
  unfold over_points. assert (G : forall S, fold_left (fun S p => fun i j => S i j + K p i j * (r_w p * Rabs (det p))) ps S i j = S i j + psum ps (fun p => K p i j * (r_w p * Rabs (det p)))); [|rewrite G; ring].
  induction ps as [|p ps IH]; intros S; cbn; [ring|]. rewrite IH. unfold psum. ring.
Qed.
Lemma form_over_points n ps det K v u : form n (over_points ps det K) v u = psum ps (fun p => r_w p * Rabs (det p) * form n (K p) v u).
Proof.
  unfold form. rewrite (rsum_ext n _ (fun i => v i * rsum n (fun j => psum ps (fun p => K p i j * (r_w p * Rabs (det p))) * u j))) by (intros; f_equal; apply rsum_ext; intros; now rewrite over_points_entry).
  induction ps as [|p ps IH]; cbn [psum fold_right].
  - apply rsum_zero. intros. rewrite rsum_zero; [ring|]. intros; ring.
  - fold (psum ps). unfold psum in IH at 2. rewrite <- IH. rewrite <- rsum_scale, <- rsum_add. apply rsum_ext. intros i _.
    rewrite (rsum_ext n (fun j => (K p i j * (r_w p * Rabs (det p)) + fold_right (fun (p : rpoint) (a : R) => K p i j * (r_w p * Rabs (det p)) + a) 0 ps) * u j) (fun j => (r_w p * Rabs (det p)) * (K p i j * u j) + psum ps (fun p => K p i j * (r_w p * Rabs (det p))) * u j)) by (intros; unfold psum; ring).
    rewrite rsum_add, rsum_scale. ring.
Qed.
Lemma over_symmetric n ps det K : (forall p, In p ps -> symmetric n (K p)) -> symmetric n (over_points ps det K).
Proof. intros H i j Hi Hj. rewrite !over_points_entry. apply psum_ext. intros p Hp. now rewrite (H p Hp i j). Qed.
Lemma over_constants n ps det K : (forall p, In p ps -> kills_constants n (K p)) -> kills_constants n (over_points ps det K).
Proof.
  intros H c i Hi. rewrite (rsum_ext n _ (fun j => psum ps (fun p => K p i j * (r_w p * Rabs (det p))) * c)) by (intros; now rewrite over_points_entry).
  revert H. induction ps as [|p ps IH]; intros H; cbn [psum fold_right]; [apply rsum_zero; intros; ring|].
  rewrite (rsum_ext n _ (fun j => K p i j * (r_w p * Rabs (det p) * c) + psum ps (fun p => K p i j * (r_w p * Rabs (det p))) * c)) by (intros; unfold psum; ring).
  rewrite rsum_add, IH by (intros; apply H; now right). rewrite (H p (or_introl eq_refl)) by exact Hi. ring.
Qed.
Lemma over_dissipative n ps det K : (forall p, In p ps -> 0 <= r_w p /\ dissipative n (K p)) -> dissipative n (over_points ps det K).
Proof.
  intros H u. rewrite form_over_points. assert (0 <= psum ps (fun p => r_w p * Rabs (det p) * - form n (K p) u u)).
  { apply psum_nonneg. intros p Hp. destruct (H p Hp) as [W D]. specialize (D u). assert (0 <= Rabs (det p)) by apply Rabs_pos. apply Rmult_le_pos; [now apply Rmult_le_pos|lra]. }
  rewrite (psum_ext ps (fun p => r_w p * Rabs (det p) * form n (K p) u u) (fun p => -1 * (r_w p * Rabs (det p) * - form n (K p) u u))) by (intros; ring). rewrite psum_scale. lra.
Qed.
Lemma form_outer n N v u : form n (outer N) v u = rsum n (fun i => nth i N 0 * v i) * rsum n (fun j => nth j N 0 * u j).
Proof.
  unfold form, outer. rewrite (Rmult_comm (rsum n (fun i => nth i N 0 * v i))), <- rsum_scale. apply rsum_ext. intros i _.
  rewrite (rsum_ext n (fun j => nth i N 0 * nth j N 0 * u j) (fun j => nth i N 0 * (nth j N 0 * u j))) by (intros; ring). rewrite rsum_scale. ring.
Qed.
Lemma form_ones n K : form n K (fun _ => 1) (fun _ => 1) = total n K.
Proof. unfold form, total. apply rsum_ext. intros. rewrite Rmult_1_l. apply rsum_ext. intros; ring. Qed.

(** ** Vectors *)
Lemma pt_eq a b : px a = px b -> py a = py b -> pz a = pz b -> a = b.
Proof. destruct a, b; cbn; intros; subst; reflexivity. Qed.
Lemma pdot_pos v : 0 <= pdot v v. Proof. unfold pdot. nra. Qed.
Lemma pdot_zero v : pdot v v = 0 -> v = P 0 0 0.
Proof. intros H. unfold pdot in H. apply pt_eq; cbn; nra. Qed.
Lemma pnorm_sqr v : pnorm v * pnorm v = pdot v v.
Proof. apply sqrt_sqrt, pdot_pos. Qed.
Lemma pnorm_nonneg v : 0 <= pnorm v. Proof. apply sqrt_pos. Qed.
Lemma pnorm_pos v : 0 < pdot v v -> 0 < pnorm v. Proof. apply sqrt_lt_R0. Qed.
Lemma pnorm_unique v x : 0 <= x -> x * x = pdot v v -> pnorm v = x.
Proof. intros H E. unfold pnorm. rewrite <- E. now apply sqrt_square. Qed.
Lemma normalize_spec v : 0 < pdot v v -> pdot (pnormalize v) (pnormalize v) = 1 /\ v = pscale (pnorm v) (pnormalize v).
Proof.
  intros H. assert (N := pnorm_pos v H). assert (N2 := pnorm_sqr v). unfold pnormalize. destruct (Rlt_dec 0 (pdot v v)); [|contradiction]. split.
  - unfold pscale, pdot in *. cbn. apply (Rmult_eq_reg_l (pnorm v * pnorm v)); [|nra]. rewrite N2 at 2. field. lra.
  - unfold pscale. apply pt_eq; cbn; field; lra.
Qed.
Lemma gram e1 e2 g h : pdot e1 e1 = 1 -> pdot e2 e2 = 1 -> pdot e1 e2 = 0 ->
  pdot g h = pdot g e1 * pdot h e1 + pdot g e2 * pdot h e2 + pdot g (pcross e1 e2) * pdot h (pcross e1 e2).
Proof.
  intros H1 H2 H3. assert (G : pdot g (pcross e1 e2) * pdot h (pcross e1 e2) =
    pdot g h * (pdot e1 e1 * pdot e2 e2 - pdot e1 e2 * pdot e1 e2) - pdot g e1 * (pdot h e1 * pdot e2 e2 - pdot e1 e2 * pdot h e2) + pdot g e2 * (pdot h e1 * pdot e1 e2 - pdot e1 e1 * pdot h e2)) by (unfold pdot, pcross; cbn; ring).
  rewrite H1, H2, H3 in G. rewrite G. ring.
Qed.

(** The frame used for a triangle (or a quadrilateral) with normal N <> 0: orthonormal in its plane. *)
Lemma frame_spec a b c : 0 < pdot (tri_normal a b c) (tri_normal a b c) -> exists e1 e2 s,
  pdot e1 e1 = 1 /\ pdot e2 e2 = 1 /\ pdot e1 e2 = 0 /\ (s = 1 \/ s = -1) /\ tri_normal a b c = pscale (s * (2 * tri_area a b c)) (pcross e1 e2) /\
  forall p q, px (local a b c p) - px (local a b c q) = pdot e1 (psub p q) /\ py (local a b c p) - py (local a b c q) = pdot e2 (psub p q).
Proof.
  intros HN. assert (NA : 2 * tri_area a b c = pnorm (tri_normal a b c)) by (unfold tri_area; field).
  destruct (Req_EM_T (pz a) 0) as [Za|Za]; [destruct (Req_EM_T (pz b) 0) as [Zb|Zb]; [destruct (Req_EM_T (pz c) 0) as [Zc|Zc]|]|].
  { exists (P 1 0 0), (P 0 1 0). set (N := tri_normal a b c) in *.
    assert (Nx : px N = 0) by (unfold N, tri_normal, pcross, psub; cbn; rewrite Za, Zb, Zc; ring). assert (Ny : py N = 0) by (unfold N, tri_normal, pcross, psub; cbn; rewrite Za, Zb, Zc; ring).
    assert (S0 : exists s, (s = 1 \/ s = -1) /\ pz N = s * pnorm N).
    { destruct (Rle_dec 0 (pz N)).
      - exists 1. split; [now left|]. rewrite Rmult_1_l. symmetry. apply pnorm_unique; [assumption|]. unfold pdot. rewrite Nx, Ny. ring.
      - exists (-1). split; [now right|]. rewrite (pnorm_unique N (- pz N)); [ring|lra|]. unfold pdot. rewrite Nx, Ny. ring. }
    clearbody N. destruct S0 as (s & Hs & Es). exists s. rewrite NA. repeat match goal with |- _ /\ _ => split end; try (unfold pdot; cbn; ring); [exact Hs| |].
    - apply pt_eq; cbn; [rewrite Nx; ring|rewrite Ny; ring|rewrite Es; ring].
    - intros p q. unfold local. rewrite Za, Zb, Zc. destruct (Req_EM_T 0 0); [|contradiction]. unfold pdot, psub. cbn. split; ring. }
  all: assert (F : local a b c = in_frame (frame a b c)) by (unfold local; repeat match goal with |- context [Req_EM_T ?x 0] => destruct (Req_EM_T x 0); try contradiction end; reflexivity).
  all: rewrite F; clear F.
  all: set (v1 := psub b a) in *; set (v2 := psub c a) in *.
  all: change (tri_normal a b c) with (pcross v1 v2) in *.
  all: assert (H1 : 0 < pdot v1 v1) by (destruct (pdot_pos v1) as [|E]; [assumption|]; exfalso; symmetry in E; apply pdot_zero in E; rewrite E in HN; unfold pdot, pcross in HN; cbn in HN; lra).
  all: destruct (normalize_spec v1 H1) as [U1 E1]; set (e1 := pnormalize v1) in *; assert (L1 := pnorm_pos v1 H1); set (L := pnorm v1) in *.
  all: assert (EN : pcross v1 v2 = pscale L (pcross e1 v2)) by (rewrite E1 at 1; unfold pcross, pscale; apply pt_eq; cbn; ring).
  all: set (W := pcross e1 v2) in *.
  all: assert (HW : 0 < pdot W W) by (rewrite EN in HN; replace (pdot (pscale L W) (pscale L W)) with (L * L * pdot W W) in HN by (unfold pdot, pscale; cbn; ring); apply (Rmult_lt_reg_l (L * L)); [nra|lra]).
  all: destruct (normalize_spec W HW) as [U3 E3]; set (e3 := pnormalize W) in *; assert (L3 := pnorm_pos W HW).
  all: assert (O13 : pdot e1 e3 = 0) by (apply (Rmult_eq_reg_l (pnorm W)); [|lra]; rewrite Rmult_0_r; replace (pnorm W * pdot e1 e3) with (pdot e1 (pscale (pnorm W) e3)) by (unfold pdot, pscale; cbn; ring); rewrite <- E3; unfold W, pdot, pcross; cbn; ring).
  all: set (e2 := pcross e3 e1).
  all: assert (U2 : pdot e2 e2 = 1) by (assert (I : pdot e2 e2 = pdot e3 e3 * pdot e1 e1 - pdot e1 e3 * pdot e1 e3) by (unfold e2, pdot, pcross; cbn; ring); rewrite I, U3, U1, O13; ring).
  all: assert (E2 : pnormalize e2 = e2) by (unfold pnormalize; rewrite U2; destruct (Rlt_dec 0 1); [|reflexivity]; unfold pnorm; rewrite U2, sqrt_1; unfold pscale; apply pt_eq; cbn; field).
  all: assert (O12 : pdot e1 e2 = 0) by (unfold e2, pdot, pcross; cbn; ring).
  all: assert (X : pcross e1 e2 = e3) by (assert (I : pcross e1 e2 = psub (pscale (pdot e1 e1) e3) (pscale (pdot e1 e3) e1)) by (unfold e2, pdot, pcross, psub, pscale; apply pt_eq; cbn; ring); rewrite I, U1, O13; unfold psub, pscale; apply pt_eq; cbn; ring).
  all: exists e1, e2, 1; repeat match goal with |- _ /\ _ => split end; [exact U1|exact U2|exact O12|now left| |].
  all: try (intros p q; unfold in_frame, frame; fold v1 v2; fold e1; fold W; fold e3; fold e2; rewrite E2; unfold pdot, psub; cbn; split; ring).
  all: assert (EP : pnorm (pcross v1 v2) = L * pnorm W) by (rewrite EN; apply pnorm_unique; [nra|]; replace (pdot (pscale L W) (pscale L W)) with (L * L * pdot W W) by (unfold pdot, pscale; cbn; ring); rewrite <- pnorm_sqr; ring).
  all: rewrite NA, X, EP, EN, E3 at 1; clearbody L e3; generalize (pnorm W); intros w; unfold pscale; apply pt_eq; cbn; ring.
Qed.

(** ** Triangles in their plane *)
Record plane_frame (a b c e1 e2 : pt) (s : R) : Prop := {
  pf_11 : pdot e1 e1 = 1; pf_22 : pdot e2 e2 = 1; pf_12 : pdot e1 e2 = 0; pf_s : s = 1 \/ s = -1;
  pf_N : tri_normal a b c = pscale (s * (2 * tri_area a b c)) (pcross e1 e2);
  pf_x : forall p q, px (local a b c p) - px (local a b c q) = pdot e1 (psub p q);
  pf_y : forall p q, py (local a b c p) - py (local a b c q) = pdot e2 (psub p q) }.
Lemma get_frame a b c : 0 < tri_area a b c -> exists e1 e2 s, plane_frame a b c e1 e2 s.
Proof.
  intros H. destruct (frame_spec a b c) as (e1 & e2 & s & H1 & H2 & H3 & H4 & H5 & H6).
  - unfold tri_area in H. rewrite <- pnorm_sqr. assert (0 < pnorm (tri_normal a b c)) by lra. nra.
  - exists e1, e2, s. split; auto; intros; apply H6.
Qed.
Lemma frame_normal a b c e1 e2 s w : plane_frame a b c e1 e2 s -> 0 < tri_area a b c -> pdot w (tri_normal a b c) = 0 -> pdot w (pcross e1 e2) = 0.
Proof.
  intros F A H. rewrite (pf_N _ _ _ _ _ _ F) in H. replace (pdot w (pscale (s * (2 * tri_area a b c)) (pcross e1 e2))) with (s * (2 * tri_area a b c) * pdot w (pcross e1 e2)) in H by (unfold pdot, pscale; cbn; ring).
  apply Rmult_integral in H. destruct H as [H|H]; [|exact H]. exfalso. destruct (pf_s _ _ _ _ _ _ F) as [E|E]; rewrite E in H; lra.
Qed.
Lemma frame_dot a b c e1 e2 s g w : plane_frame a b c e1 e2 s -> 0 < tri_area a b c -> pdot w (tri_normal a b c) = 0 -> pdot g w = pdot g e1 * pdot e1 w + pdot g e2 * pdot e2 w.
Proof.
  intros F A H. rewrite (gram e1 e2 g w (pf_11 _ _ _ _ _ _ F) (pf_22 _ _ _ _ _ _ F) (pf_12 _ _ _ _ _ _ F)). rewrite (frame_normal a b c e1 e2 s w F A H).
  replace (pdot w e1) with (pdot e1 w) by (unfold pdot; ring). replace (pdot w e2) with (pdot e2 w) by (unfold pdot; ring). ring.
Qed.
Lemma frame_det a b c e1 e2 s v w : plane_frame a b c e1 e2 s -> pdot e1 v * pdot e2 w - pdot e1 w * pdot e2 v = pdot (pcross e1 e2) (pcross v w).
Proof. intros _. unfold pdot, pcross. cbn. ring. Qed.
Lemma frame_D a b c e1 e2 s : plane_frame a b c e1 e2 s -> pdot e1 (psub b a) * pdot e2 (psub c a) - pdot e1 (psub c a) * pdot e2 (psub b a) = s * (2 * tri_area a b c).
Proof.
  intros F. rewrite (frame_det a b c e1 e2 s) by exact F. fold (tri_normal a b c). rewrite (pf_N _ _ _ _ _ _ F).
  assert (I : pdot (pcross e1 e2) (pcross e1 e2) = pdot e1 e1 * pdot e2 e2 - pdot e1 e2 * pdot e1 e2) by (unfold pdot, pcross; cbn; ring).
  rewrite (pf_11 _ _ _ _ _ _ F), (pf_22 _ _ _ _ _ _ F), (pf_12 _ _ _ _ _ _ F) in I.
  replace (pdot (pcross e1 e2) (pscale (s * (2 * tri_area a b c)) (pcross e1 e2))) with (s * (2 * tri_area a b c) * pdot (pcross e1 e2) (pcross e1 e2)) by (unfold pdot, pscale; cbn; ring). rewrite I. ring.
Qed.
(** The rows of B in terms of the frame. *)
Lemma tri_rows a b c e1 e2 s u : plane_frame a b c e1 e2 s ->
  rsum 3 (fun j => tri_B a b c 0%nat j * u j) = pdot e2 (psub c a) * (u 1%nat - u 0%nat) - pdot e2 (psub b a) * (u 2%nat - u 0%nat) /\
  rsum 3 (fun j => tri_B a b c 1%nat j * u j) = - pdot e1 (psub c a) * (u 1%nat - u 0%nat) + pdot e1 (psub b a) * (u 2%nat - u 0%nat).
Proof.
  intros F. unfold tri_B. cbv zeta. rewrite !(pf_x _ _ _ _ _ _ F), !(pf_y _ _ _ _ _ _ F). unfold of_rows. cbn [rsum nth]. unfold pdot, psub. cbn. split; ring.
Qed.
Lemma tri_gradient a b c e1 e2 s g k : plane_frame a b c e1 e2 s -> 0 < tri_area a b c ->
  rsum 3 (fun j => tri_B a b c 0%nat j * linear g k [a; b; c] j) = pdot g e1 * (s * (2 * tri_area a b c)) /\
  rsum 3 (fun j => tri_B a b c 1%nat j * linear g k [a; b; c] j) = pdot g e2 * (s * (2 * tri_area a b c)).
Proof.
  intros F A. destruct (tri_rows a b c e1 e2 s (linear g k [a; b; c]) F) as [-> ->].
  assert (U1 : linear g k [a; b; c] 1%nat - linear g k [a; b; c] 0%nat = pdot g (psub b a)) by (unfold linear, pdot, psub; cbn; ring).
  assert (U2 : linear g k [a; b; c] 2%nat - linear g k [a; b; c] 0%nat = pdot g (psub c a)) by (unfold linear, pdot, psub; cbn; ring).
  rewrite U1, U2, (frame_dot a b c e1 e2 s g (psub b a) F A), (frame_dot a b c e1 e2 s g (psub c a) F A) by (unfold tri_normal, pdot, pcross, psub; cbn; ring).
  rewrite <- (frame_D a b c e1 e2 s F). split; ring.
Qed.
Lemma tri_B_constants a b c k : (k < 2)%nat -> rsum 3 (tri_B a b c k) = 0.
Proof. intros H. destruct k as [|[|]]; [| |lia]; unfold tri_B, of_rows; cbn [rsum nth]; ring. Qed.
Lemma rows_scale n c B k u : rsum n (fun j => mscale c B k j * u j) = c * rsum n (fun j => B k j * u j).
Proof. unfold mscale. rewrite <- rsum_scale. apply rsum_ext. intros; ring. Qed.
Lemma rows_scale1 n c B k : rsum n (mscale c B k) = c * rsum n (B k).
Proof. unfold mscale. rewrite <- rsum_scale. apply rsum_ext. intros; ring. Qed.
Lemma tri_laplacian_eq t a b c : 0 < tri_area a b c -> tri_laplacian t a b c = mscale (tri_area a b c * t) (minus_BtB 2 (mscale (1 / (2 * tri_area a b c)) (tri_B a b c))).
Proof. intros H. unfold tri_laplacian. destruct (Rlt_dec 0 (tri_area a b c)); [reflexivity|contradiction]. Qed.
Lemma tet_laplacian_eq a b c d : 0 < tet_volume a b c d -> tet_laplacian a b c d = mscale (tet_volume a b c d) (minus_BtB 3 (mscale (1 / (6 * tet_volume a b c d)) (tet_B a b c d))).
Proof. intros H. unfold tet_laplacian. destruct (Rlt_dec 0 (tet_volume a b c d)); [reflexivity|contradiction]. Qed.

(** ** Tetrahedra *)
Lemma tet_B_constants a b c d k : (k < 3)%nat -> rsum 4 (tet_B a b c d k) = 0.
Proof. intros H. destruct k as [|[|[|]]]; [| | |lia]; unfold tet_B, of_rows; cbn [rsum nth]; ring. Qed.
Lemma tet_gradient a b c d g k :
  rsum 3 (fun m => 0) = 0 /\
  rsum 4 (fun j => tet_B a b c d 0%nat j * linear g k [a; b; c; d] j) = 6 * tet_volume a b c d * px g /\
  rsum 4 (fun j => tet_B a b c d 1%nat j * linear g k [a; b; c; d] j) = 6 * tet_volume a b c d * py g /\
  rsum 4 (fun j => tet_B a b c d 2%nat j * linear g k [a; b; c; d] j) = 6 * tet_volume a b c d * pz g.
Proof. repeat split; [cbn; ring|..]; unfold tet_B, of_rows, linear, tet_volume, pdot, pcross, psub; cbn [rsum nth px py pz]; field. Qed.

(** ** Elements with integration points *)
Lemma solve3_constants n J G k : (forall m, (m < 3)%nat -> rsum n (G m) = 0) -> rsum n (solve3 J G k) = 0.
Proof.
  intros H. unfold solve3, Rdiv. rewrite rsum_scale_r. rewrite rsum_swap. rewrite rsum_zero; [ring|]. intros m Hm. rewrite rsum_scale, H by exact Hm. ring.
Qed.
Lemma solve3_linear n G v g c k : (forall m, (m < 3)%nat -> rsum n (G m) = 0) -> det3 (J_of n G v) <> 0 -> (k < 3)%nat ->
  rsum n (fun j => solve3 (J_of n G v) G k j * linear g c v j) = coordinate k g.
Proof.
  intros HG HD Hk. set (J := J_of n G v) in *.
  assert (R : forall m, (m < 3)%nat -> rsum n (fun j => G m j * linear g c v j) = rsum 3 (fun q => J m q * coordinate q g)).
  { intros m Hm. unfold linear, pdot. rewrite (rsum_ext n _ (fun j => (G m j * px (nth j v origin) * px g + G m j * py (nth j v origin) * py g + G m j * pz (nth j v origin) * pz g) + G m j * c)) by (intros; ring).
    rewrite !rsum_add, !rsum_scale_r, HG by exact Hm. cbn [rsum]. unfold J, J_of. cbn [coordinate]. ring. }
  unfold solve3. rewrite (rsum_ext n _ (fun j => / det3 J * rsum 3 (fun m => adj3 J k m * (G m j * linear g c v j)))).
  2:{ intros j _. rewrite (rsum_ext 3 (fun m => adj3 J k m * (G m j * linear g c v j)) (fun m => adj3 J k m * G m j * linear g c v j)) by (intros; ring). rewrite rsum_scale_r. unfold Rdiv. ring. }
  rewrite rsum_scale, rsum_swap. rewrite (rsum_ext 3 _ (fun m => adj3 J k m * rsum 3 (fun q => J m q * coordinate q g))).
  2:{ intros m Hm. rewrite rsum_scale, R by exact Hm. reflexivity. }
  apply (Rmult_eq_reg_l (det3 J)); [|exact HD]. rewrite <- Rmult_assoc, Rinv_r, Rmult_1_l by exact HD. clearbody J.
  destruct k as [|[|[|]]]; [| | |lia]; cbn [rsum coordinate]; unfold adj3, det3, of_rows; cbn [nth]; ring.
Qed.
Definition measure (ps : list rpoint) (det : rpoint -> R) : R := psum ps (fun p => r_w p * Rabs (det p)).
Lemma over_linear n ps G v g h c c' : (forall p m, In p ps -> (m < 3)%nat -> rsum n (G p m) = 0) -> (forall p, In p ps -> det3 (J_of n (G p) v) <> 0) ->
  form n (over_points ps (fun p => det3 (J_of n (G p) v)) (fun p => minus_BtB 3 (solve3 (J_of n (G p) v) (G p)))) (linear g c v) (linear h c' v) = - pdot g h * measure ps (fun p => det3 (J_of n (G p) v)).
Proof.
  intros HG HD. rewrite form_over_points. unfold measure. rewrite <- psum_scale. apply psum_ext. intros p Hp. rewrite form_minus_BtB.
  rewrite (rsum_ext 3 _ (fun k => coordinate k g * coordinate k h)).
  2:{ intros k Hk. rewrite !solve3_linear by (auto; intros; now apply HG). reflexivity. }
  cbn [rsum coordinate]. unfold pdot. ring.
Qed.
Lemma over_total n ps det N : (forall p, In p ps -> rsum n (fun i => nth i (N p) 0) = 1) -> total n (over_points ps det (fun p => outer (N p))) = measure ps det.
Proof.
  intros H. rewrite <- form_ones, form_over_points. apply psum_ext. intros p Hp. rewrite form_outer.
  rewrite (rsum_ext n (fun i => nth i (N p) 0 * 1) (fun i => nth i (N p) 0)) by (intros; ring). rewrite H by exact Hp. ring.
Qed.
Lemma over_mass_nonneg n ps det N u : (forall p, In p ps -> 0 <= r_w p) -> 0 <= form n (over_points ps det (fun p => outer (N p))) u u.
Proof. intros H. rewrite form_over_points. apply psum_nonneg. intros p Hp. rewrite form_outer. apply Rmult_le_pos; [apply Rmult_le_pos; [auto|apply Rabs_pos]|apply Rle_0_sqr]. Qed.
Lemma outer_symmetric n N : symmetric n (outer N). Proof. intros i j _ _. unfold outer. ring. Qed.
