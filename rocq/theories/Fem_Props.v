(** C46: the element matrices are those of the method. *)
From Coq Require Import Reals ZArith QArith Qreals List Lia Lra.
From Coquelicot Require Import Coquelicot.
From Verif Require Import Int_Model Fem_Model Fem_Spec Fem_Proofs.
Import ListNotations.
Open Scope R_scope.

(** ** Integrals of polynomials *)
Lemma poly_RInt c0 c1 c2 c3 c4 c5 x :
  is_RInt (fun t => c0 + c1 * t + c2 * t ^ 2 + c3 * t ^ 3 + c4 * t ^ 4 + c5 * t ^ 5) 0 x (c0 * x + c1 * x ^ 2 / 2 + c2 * x ^ 3 / 3 + c3 * x ^ 4 / 4 + c4 * x ^ 5 / 5 + c5 * x ^ 6 / 6).
Proof.
  set (F := fun t => c0 * t + c1 * t ^ 2 / 2 + c2 * t ^ 3 / 3 + c3 * t ^ 4 / 4 + c4 * t ^ 5 / 5 + c5 * t ^ 6 / 6).
  replace (c0 * x + c1 * x ^ 2 / 2 + c2 * x ^ 3 / 3 + c3 * x ^ 4 / 4 + c4 * x ^ 5 / 5 + c5 * x ^ 6 / 6) with (minus (F x) (F 0)) by (unfold F, minus, plus, opp; cbn; field).
  apply (is_RInt_derive F); intros t _.
  - unfold F. auto_derive; [exact I|]. field.
  - apply (ex_derive_continuous (V := R_NormedModule)). auto_derive. exact I.
Qed.
Lemma poly_is f c0 c1 c2 c3 c4 c5 x l : (forall t, c0 + c1 * t + c2 * t ^ 2 + c3 * t ^ 3 + c4 * t ^ 4 + c5 * t ^ 5 = f t) ->
  c0 * x + c1 * x ^ 2 / 2 + c2 * x ^ 3 / 3 + c3 * x ^ 4 / 4 + c4 * x ^ 5 / 5 + c5 * x ^ 6 / 6 = l -> is_RInt f 0 x l.
Proof. intros E <-. apply (is_RInt_ext (fun t => c0 + c1 * t + c2 * t ^ 2 + c3 * t ^ 3 + c4 * t ^ 4 + c5 * t ^ 5)); [intros; apply E|apply poly_RInt]. Qed.

Lemma two_squares x y : x * x + y * y = 0 -> x = 0 /\ y = 0.
Proof. intros H. split; nra. Qed.

(** ** Beam *)
(** Diffusion over a beam: symmetric, nothing for constants, never increases, nothing only for constants, and exact for linear fields: minus
    conductance times the product of the derivatives along the beam times its length. *)
Theorem C46_beam_laplacian : forall k section a b, 0 < beam_length a b -> 0 < k -> 0 < section ->
  let K := beam_laplacian k section a b in
  symmetric 2 K /\ kills_constants 2 K /\ dissipative 2 K /\ (forall u, form 2 K u u = 0 -> u 0%nat = u 1%nat) /\
  (forall g h c c', let t := pscale (/ beam_length a b) (psub b a) in
     form 2 K (linear g c [a; b]) (linear h c' [a; b]) = - (k * pdot g t * pdot h t) * (beam_length a b * section)).
Proof.
  intros k s a b HL Hk Hs K. assert (E : K = mscale (k * s / beam_length a b) (of_rows [[-1; 1]; [1; -1]])) by (unfold K, beam_laplacian; destruct (Rlt_dec 0 (beam_length a b)); [reflexivity|contradiction]).
  clearbody K. subst K. set (L := beam_length a b) in *. set (q := k * s / L). assert (Hq : 0 < q) by (unfold q; apply Rdiv_lt_0_compat; nra).
  assert (FF : forall u, form 2 (mscale q (of_rows [[-1; 1]; [1; -1]])) u u = - (q * ((u 0%nat - u 1%nat) * (u 0%nat - u 1%nat)))) by (intros u; rewrite form_scale; unfold form, of_rows; cbn [rsum nth]; ring).
  repeat match goal with |- _ /\ _ => split end.
  - apply scale_symmetric. intros i j Hi Hj. destruct i as [|[|]], j as [|[|]]; try lia; reflexivity.
  - apply scale_constants. intros c i Hi. destruct i as [|[|]]; try lia; unfold of_rows; cbn [rsum nth]; ring.
  - intros u. rewrite FF. assert (0 <= (u 0%nat - u 1%nat) * (u 0%nat - u 1%nat)) by apply Rle_0_sqr. nra.
  - intros u. rewrite FF. intros H. assert (Z : (u 0%nat - u 1%nat) * (u 0%nat - u 1%nat) = 0) by nra. nra.
  - intros g h c c' t. rewrite form_scale. unfold t. replace (pdot g (pscale (/ L) (psub b a))) with (pdot g (psub b a) / L) by (unfold pdot, pscale; cbn; field; lra).
    replace (pdot h (pscale (/ L) (psub b a))) with (pdot h (psub b a) / L) by (unfold pdot, pscale; cbn; field; lra).
    unfold form, of_rows, linear, q. cbn [rsum nth]. unfold pdot, psub. cbn. field. lra.
Qed.
Print Assumptions C46_beam_laplacian.
(** Storage: the integral over the beam of the product of the two interpolated fields. *)
Definition beam_field (u : nat -> R) (s : R) : R := u 0%nat * (1 - s) + u 1%nat * s.
Theorem C46_beam_mass : forall section dt a b v u, 0 < dt ->
  let M := beam_ddt section dt a b in
  symmetric 2 M /\ is_RInt (fun s => beam_field v s * beam_field u s * (beam_length a b * section)) 0 1 (dt * form 2 M v u).
Proof.
  intros s dt a b v u H M. unfold M, beam_ddt. rewrite per_dt_pos by exact H. split.
  - apply scale_symmetric, scale_symmetric. intros i j Hi Hj. destruct i as [|[|]], j as [|[|]]; try lia; reflexivity.
  - rewrite !form_scale. set (A := beam_length a b * s). unfold beam_field.
    apply (poly_is _ (A * (v 0%nat * u 0%nat)) (A * (v 0%nat * (u 1%nat - u 0%nat) + (v 1%nat - v 0%nat) * u 0%nat)) (A * ((v 1%nat - v 0%nat) * (u 1%nat - u 0%nat))) 0 0 0); [intros; ring|].
    unfold form, of_rows. cbn [rsum nth]. field. lra.
Qed.
Print Assumptions C46_beam_mass.
Example C46_beam_case : beam_length (P 0 0 0) (P 3 4 0) = 5.
Proof. apply pnorm_unique; [lra|]. unfold pdot. cbn. ring. Qed.

(** ** Triangle (anywhere in space) *)
Theorem C46_triangle_laplacian : forall thickness a b c, 0 < tri_area a b c -> 0 < thickness ->
  let K := tri_laplacian thickness a b c in
  symmetric 3 K /\ kills_constants 3 K /\ dissipative 3 K /\
  (forall u, form 3 K u u = 0 -> u 0%nat = u 1%nat /\ u 1%nat = u 2%nat) /\
  (forall g h k k', pdot g (tri_normal a b c) = 0 ->
     form 3 K (linear g k [a; b; c]) (linear h k' [a; b; c]) = - pdot g h * (tri_area a b c * thickness)).
Proof.
  intros t a b c HA Ht K. unfold K. rewrite tri_laplacian_eq by exact HA. set (A := tri_area a b c) in *. assert (HAt : 0 < A * t) by nra.
  destruct (get_frame a b c HA) as (e1 & e2 & s & F). assert (SS : s * s = 1) by (destruct (pf_s _ _ _ _ _ _ F) as [->| ->]; ring).
  repeat match goal with |- _ /\ _ => split end.
  - apply scale_symmetric, minus_BtB_symmetric.
  - apply scale_constants, minus_BtB_constants. intros k Hk. rewrite rows_scale1, tri_B_constants by exact Hk. ring.
  - apply scale_dissipative; [lra|]. apply minus_BtB_dissipative.
  - intros u. rewrite form_scale, form_minus_BtB. cbn [rsum]. change (fun j => mscale (1 / (2 * A)) (tri_B a b c) 0%nat j * u j) with (fun j => mscale (1 / (2 * A)) (tri_B a b c) 0%nat j * u j).
    intros E. pose proof (rows_scale 3 (1 / (2 * A)) (tri_B a b c) 0 u) as R0. pose proof (rows_scale 3 (1 / (2 * A)) (tri_B a b c) 1 u) as R1. cbn [rsum] in R0, R1. rewrite R0, R1 in E. clear R0 R1.
    destruct (tri_rows a b c e1 e2 s u F) as [T0 T1]. cbn [rsum] in T0, T1. rewrite T0, T1 in E. clear T0 T1.
    pose proof (frame_D a b c e1 e2 s F) as D. fold A in D.
    set (p := pdot e2 (psub c a)) in *. set (q := pdot e2 (psub b a)) in *. set (m := pdot e1 (psub c a)) in *. set (n := pdot e1 (psub b a)) in *.
    set (U := u 1%nat - u 0%nat) in *. set (W := u 2%nat - u 0%nat) in *. set (i := 1 / (2 * A)) in *.
    assert (Hi : 0 < i) by (unfold i; apply Rdiv_lt_0_compat; lra).
    assert (E0 : (p * U - q * W) * (p * U - q * W) + (- m * U + n * W) * (- m * U + n * W) = 0).
    { clearbody i p q m n U W. apply Rmult_integral in E. destruct E as [E|E]; [lra|].
      assert (E' : i * i * ((p * U - q * W) * (p * U - q * W) + (- m * U + n * W) * (- m * U + n * W)) = 0) by lra. apply Rmult_integral in E'. destruct E' as [E'|E']; [nra|exact E']. }
    destruct (two_squares _ _ E0) as [X Y].
    assert (D0 : s * (2 * A) <> 0) by (intros Z; apply Rmult_integral in Z; destruct Z as [Z|Z]; [rewrite Z in SS; lra|lra]).
    assert (U0 : U = 0) by (apply (Rmult_eq_reg_l (s * (2 * A))); [|exact D0]; rewrite <- D; replace ((n * p - m * q) * U) with (n * (p * U - q * W) + q * (- m * U + n * W)) by ring; rewrite X, Y; ring).
    assert (W0 : W = 0) by (apply (Rmult_eq_reg_l (s * (2 * A))); [|exact D0]; rewrite <- D; replace ((n * p - m * q) * W) with (m * (p * U - q * W) + p * (- m * U + n * W)) by ring; rewrite X, Y; ring).
    unfold U in U0. unfold W in W0. split; lra.
  - intros g h k k' Hg. rewrite form_scale, form_minus_BtB.
    rewrite (rsum_ext 2 _ (fun m => match m with O => pdot g e1 * pdot h e1 | _ => pdot g e2 * pdot h e2 end)).
    + cbn [rsum]. rewrite (gram e1 e2 g h (pf_11 _ _ _ _ _ _ F) (pf_22 _ _ _ _ _ _ F) (pf_12 _ _ _ _ _ _ F)), (frame_normal a b c e1 e2 s g F HA Hg). ring.
    + intros m Hm. rewrite !rows_scale. destruct (tri_gradient a b c e1 e2 s g k F HA) as [G0 G1]. destruct (tri_gradient a b c e1 e2 s h k' F HA) as [H0 H1]. fold A in G0, G1, H0, H1.
      destruct m as [|[|]]; [| |lia].
      * rewrite G0, H0. replace (1 / (2 * A) * (pdot g e1 * (s * (2 * A))) * (1 / (2 * A) * (pdot h e1 * (s * (2 * A))))) with (pdot g e1 * pdot h e1 * (s * s)) by (field; lra). rewrite SS. ring.
      * rewrite G1, H1. replace (1 / (2 * A) * (pdot g e2 * (s * (2 * A))) * (1 / (2 * A) * (pdot h e2 * (s * (2 * A))))) with (pdot g e2 * pdot h e2 * (s * s)) by (field; lra). rewrite SS. ring.
Qed.
Print Assumptions C46_triangle_laplacian.
(** Storage: the integral over the triangle (twice its area times the reference triangle) of the product of the interpolated fields. *)
Definition tri_field (u : nat -> R) (s t : R) : R := u 0%nat * (1 - s - t) + u 1%nat * s + u 2%nat * t.
Theorem C46_triangle_mass : forall dt a b c v u, 0 < dt ->
  let M := tri_ddt dt a b c in
  symmetric 3 M /\
  exists inner, (forall s, is_RInt (fun t => tri_field v s t * tri_field u s t) 0 (1 - s) (inner s)) /\
    is_RInt (fun s => 2 * tri_area a b c * inner s) 0 1 (dt * form 3 M v u).
Proof.
  intros dt a b c v u H M. unfold M, tri_ddt. rewrite per_dt_pos by exact H. split.
  - apply scale_symmetric, scale_symmetric. intros i j Hi Hj. destruct i as [|[|[|]]], j as [|[|[|]]]; try lia; reflexivity.
  - set (A := tri_area a b c).
    set (v0 := v 0%nat). set (v1 := v 1%nat). set (v2 := v 2%nat). set (u0 := u 0%nat). set (u1 := u 1%nat). set (u2 := u 2%nat).
    (* in t: (p + q t)(m + n t) with p = v0 (1 - s) + v1 s, q = v2 - v0 *)
    set (p := fun s => v0 * (1 - s) + v1 * s). set (q := v2 - v0). set (m := fun s => u0 * (1 - s) + u1 * s). set (n := u2 - u0).
    exists (fun s => p s * m s * (1 - s) + (p s * n + q * m s) * (1 - s) ^ 2 / 2 + q * n * (1 - s) ^ 3 / 3). split.
    + intros s. apply (poly_is _ (p s * m s) (p s * n + q * m s) (q * n) 0 0 0); [|field]. intros t. unfold tri_field, p, q, m, n. fold v0 v1 v2 u0 u1 u2. ring.
    + rewrite !form_scale. 
      (* in r = 1 - s the inner integral is a cubic; coefficients in s *)
      set (d := v1 - v0). set (e := u1 - u0).
      apply (poly_is _ (2 * A * (v0 * u0 + (v0 * n + q * u0) / 2 + q * n / 3))
               (2 * A * ((d * u0 + v0 * e) - v0 * u0 + ((d * n + q * e) - 2 * (v0 * n + q * u0)) / 2 - q * n))
               (2 * A * (d * e - (d * u0 + v0 * e) + ((v0 * n + q * u0) - 2 * (d * n + q * e)) / 2 + q * n))
               (2 * A * (- d * e + (d * n + q * e) / 2 - q * n / 3)) 0 0).
      * intros s. unfold p, m, d, e. field.
      * unfold form, of_rows. cbn [rsum nth]. fold v0 v1 v2 u0 u1 u2. unfold d, e, q, n. field. lra.
Qed.
Print Assumptions C46_triangle_mass.
(** A triangle in space and a field with a gradient in its plane. *)
Example C46_triangle_case : let a := P 0 0 1 in let b := P 3 0 1 in let c := P 0 4 4 in
  tri_area a b c = 15 / 2 /\ pdot (P 5 4 3) (tri_normal a b c) = 0.
Proof.
  cbn zeta. split; [|unfold pdot, tri_normal, pcross, psub; cbn; ring]. unfold tri_area. rewrite (pnorm_unique _ 15); [field|lra|]. unfold pdot, tri_normal, pcross, psub. cbn. ring.
Qed.
(** The thickness enters diffusion but not storage: doubling it doubles the one and leaves the other. *)
Theorem C46_thickness_refuted : let a := P 0 0 0 in let b := P 1 0 0 in let c := P 0 1 0 in
  (forall t, tri_laplacian t a b c 0%nat 0%nat = - t) /\ (forall t : R, total 3 (tri_ddt 1 a b c) = 1 / 2).
Proof.
  cbn zeta. assert (A : tri_area (P 0 0 0) (P 1 0 0) (P 0 1 0) = 1 / 2) by (unfold tri_area; rewrite (pnorm_unique _ 1); [ring|lra|]; unfold pdot, tri_normal, pcross, psub; cbn; ring).
  split.
  - intros t. rewrite tri_laplacian_eq by (rewrite A; lra). rewrite A. unfold tri_B, local. cbn [px py pz]. destruct (Req_EM_T 0 0); [|contradiction].
    unfold mscale, minus_BtB, of_rows. cbn [rsum nth px py]. field.
  - intros _. unfold tri_ddt. rewrite per_dt_pos by lra. rewrite !scale_total, A. unfold total, of_rows. cbn [rsum nth]. field.
Qed.
Print Assumptions C46_thickness_refuted.

(** ** Tetrahedron (positively oriented in the code's sense) *)
Theorem C46_tetrahedron_laplacian : forall a b c d, 0 < tet_volume a b c d ->
  let K := tet_laplacian a b c d in
  symmetric 4 K /\ kills_constants 4 K /\ dissipative 4 K /\
  (forall u, form 4 K u u = 0 -> u 0%nat = u 3%nat /\ u 1%nat = u 3%nat /\ u 2%nat = u 3%nat) /\
  (forall g h k k', form 4 K (linear g k [a; b; c; d]) (linear h k' [a; b; c; d]) = - pdot g h * tet_volume a b c d).
Proof.
  intros a b c d HV K. unfold K. rewrite tet_laplacian_eq by exact HV. set (V := tet_volume a b c d) in *.
  repeat match goal with |- _ /\ _ => split end.
  - apply scale_symmetric, minus_BtB_symmetric.
  - apply scale_constants, minus_BtB_constants. intros k Hk. rewrite rows_scale1, tet_B_constants by exact Hk. ring.
  - apply scale_dissipative; [lra|]. apply minus_BtB_dissipative.
  - intros u. rewrite form_scale, form_minus_BtB. intros E. apply Rmult_integral in E. destruct E as [E|E]; [lra|].
    assert (Z : forall k, (k < 3)%nat -> rsum 4 (fun j => tet_B a b c d k j * u j) = 0).
    { intros k Hk. assert (E' : rsum 3 (fun k => rsum 4 (fun i => mscale (1 / (6 * V)) (tet_B a b c d) k i * u i) * rsum 4 (fun j => mscale (1 / (6 * V)) (tet_B a b c d) k j * u j)) = 0) by lra.
      pose proof (rsum_zero_each 3 _ (fun i _ => Rle_0_sqr _) E' k Hk) as S. apply Rsqr_0_uniq in S. rewrite rows_scale in S. apply Rmult_integral in S. destruct S as [S|S]; [|exact S].
      exfalso. assert (0 < 1 / (6 * V)) by (apply Rdiv_lt_0_compat; lra). lra. }
    pose proof (Z 0%nat ltac:(lia)) as Z0. pose proof (Z 1%nat ltac:(lia)) as Z1. pose proof (Z 2%nat ltac:(lia)) as Z2.
    assert (key : forall w : pt, px w * rsum 4 (fun j => tet_B a b c d 0%nat j * u j) + py w * rsum 4 (fun j => tet_B a b c d 1%nat j * u j) + pz w * rsum 4 (fun j => tet_B a b c d 2%nat j * u j) = 0) by (intros; rewrite Z0, Z1, Z2; ring).
    pose proof (key (psub a d)) as Ka. pose proof (key (psub b d)) as Kb. pose proof (key (psub c d)) as Kc.
    assert (Ea : 6 * V * (u 0%nat - u 3%nat) = 0) by (rewrite <- Ka; unfold V, tet_volume, tet_B, of_rows, pdot, pcross, psub; cbn [rsum nth px py pz]; field).
    assert (Eb : 6 * V * (u 1%nat - u 3%nat) = 0) by (rewrite <- Kb; unfold V, tet_volume, tet_B, of_rows, pdot, pcross, psub; cbn [rsum nth px py pz]; field).
    assert (Ec : 6 * V * (u 2%nat - u 3%nat) = 0) by (rewrite <- Kc; unfold V, tet_volume, tet_B, of_rows, pdot, pcross, psub; cbn [rsum nth px py pz]; field).
    clearbody V. repeat split; nra.
  - intros g h k k'. rewrite form_scale, form_minus_BtB. destruct (tet_gradient a b c d g k) as (_ & G0 & G1 & G2). destruct (tet_gradient a b c d h k') as (_ & H0 & H1 & H2). fold V in G0, G1, G2, H0, H1, H2.
    rewrite (rsum_ext 3 _ (fun m => coordinate m g * coordinate m h)).
    + cbn [rsum coordinate]. unfold pdot. ring.
    + intros m Hm. rewrite !rows_scale. destruct m as [|[|[|]]]; [| | |lia]; [rewrite G0, H0|rewrite G1, H1|rewrite G2, H2]; cbn [coordinate]; field; lra.
Qed.
Print Assumptions C46_tetrahedron_laplacian.
(** Storage: six times the volume times the integral over the reference tetrahedron. *)
Definition tet_field (u : nat -> R) (r s t : R) : R := u 0%nat * (1 - r - s - t) + u 1%nat * r + u 2%nat * s + u 3%nat * t.
Theorem C46_tetrahedron_mass : forall dt a b c d v u, 0 < dt ->
  let M := tet_ddt dt a b c d in
  symmetric 4 M /\
  exists inner middle, (forall r s, is_RInt (fun t => tet_field v r s t * tet_field u r s t) 0 (1 - r - s) (inner r s)) /\
    (forall r, is_RInt (fun s => inner r s) 0 (1 - r) (middle r)) /\
    is_RInt (fun r => 6 * tet_volume a b c d * middle r) 0 1 (dt * form 4 M v u).
Proof.
  intros dt a b c d v u H M. unfold M, tet_ddt. rewrite per_dt_pos by exact H. split.
  - apply scale_symmetric, scale_symmetric. intros i j Hi Hj. destruct i as [|[|[|[|]]]], j as [|[|[|[|]]]]; try lia; reflexivity.
  - set (V := tet_volume a b c d). rewrite !form_scale.
    set (v0 := v 0%nat). set (v1 := v 1%nat - v0). set (v2 := v 2%nat - v0). set (v3 := v 3%nat - v0). set (u0 := u 0%nat). set (u1 := u 1%nat - u0). set (u2 := u 2%nat - u0). set (u3 := u 3%nat - u0).
    (* p, m: values at t = 0; then at s = t = 0 with L = 1 - r *)
    set (p := fun r s => v0 + v1 * r + v2 * s). set (m := fun r s => u0 + u1 * r + u2 * s).
    exists (fun r s => p r s * m r s * (1 - r - s) + (p r s * u3 + v3 * m r s) * (1 - r - s) ^ 2 / 2 + v3 * u3 * (1 - r - s) ^ 3 / 3).
    set (P0 := fun r => v0 + v1 * r). set (M0 := fun r => u0 + u1 * r).
    exists (fun r => let L := 1 - r in (P0 r * M0 r) * L ^ 2 / 2 + (P0 r * (u2 + u3) + (v2 + v3) * M0 r) * L ^ 3 / 6 + (v2 * u2 + v3 * u3) * L ^ 4 / 12 + (v2 * u3 + v3 * u2) * L ^ 4 / 24).
    split; [|split].
    + intros r s. apply (poly_is _ (p r s * m r s) (p r s * u3 + v3 * m r s) (v3 * u3) 0 0 0); [|field]. intros t. unfold tet_field, p, m, v1, v2, v3, u1, u2, u3. fold v0 u0. ring.
    + intros r. set (L := 1 - r).
      apply (poly_is _ (P0 r * M0 r * L + (P0 r * u3 + v3 * M0 r) * L ^ 2 / 2 + v3 * u3 * L ^ 3 / 3)
               ((P0 r * u2 + v2 * M0 r) * L - P0 r * M0 r + ((v2 * u3 + v3 * u2) * L ^ 2 - 2 * L * (P0 r * u3 + v3 * M0 r)) / 2 - v3 * u3 * L ^ 2)
               (v2 * u2 * L - (P0 r * u2 + v2 * M0 r) + ((P0 r * u3 + v3 * M0 r) - 2 * L * (v2 * u3 + v3 * u2)) / 2 + v3 * u3 * L)
               (- v2 * u2 + (v2 * u3 + v3 * u2) / 2 - v3 * u3 / 3) 0 0).
      * intros s. unfold p, m, P0, M0, L. field.
      * unfold P0, M0, L. field.
    + set (k0 := v0 * u0). set (k1 := v0 * u1 + v1 * u0). set (k2 := v1 * u1). set (l0 := v0 * (u2 + u3) + (v2 + v3) * u0). set (l1 := v1 * (u2 + u3) + (v2 + v3) * u1).
      set (w := (v2 * u2 + v3 * u3) / 12 + (v2 * u3 + v3 * u2) / 24).
      apply (poly_is _ (6 * V * (k0 / 2 + l0 / 6 + w)) (6 * V * ((k1 - 2 * k0) / 2 + (l1 - 3 * l0) / 6 - 4 * w)) (6 * V * ((k2 - 2 * k1 + k0) / 2 + (3 * l0 - 3 * l1) / 6 + 6 * w))
               (6 * V * ((k1 - 2 * k2) / 2 + (3 * l1 - l0) / 6 - 4 * w)) (6 * V * (k2 / 2 - l1 / 6 + w)) 0).
      * intros r. unfold k0, k1, k2, l0, l1, w, P0, M0. field.
      * unfold k0, k1, k2, l0, l1, w, form, of_rows. cbn [rsum nth]. unfold v1, v2, v3, u1, u2, u3. fold v0 u0. field. lra.
Qed.
Print Assumptions C46_tetrahedron_mass.
Example C46_tetrahedron_case : tet_volume (P 1 0 0) (P 0 1 0) (P 0 0 1) (P 0 0 0) = 1 / 6.
Proof. unfold tet_volume, pdot, pcross, psub. cbn. field. Qed.
(** With two vertices exchanged (negative volume) the same tetrahedron diffuses backwards: v^T K v > 0. *)
Theorem C46_inverted_tetrahedron_refuted : exists a b c d u, tet_volume a b c d = - (1 / 6) /\ 0 < form 4 (tet_laplacian a b c d) u u.
Proof.
  exists (P 0 1 0), (P 1 0 0), (P 0 0 1), (P 0 0 0), (fun i => if Nat.eqb i 0 then 1 else 0).
  assert (V : tet_volume (P 0 1 0) (P 1 0 0) (P 0 0 1) (P 0 0 0) = - (1 / 6)) by (unfold tet_volume, pdot, pcross, psub; cbn; field). split; [exact V|].
  unfold tet_laplacian. rewrite V. destruct (Rlt_dec 0 (- (1 / 6))); [lra|]. rewrite form_scale, form_minus_BtB. unfold tet_B, of_rows. cbn [rsum nth Nat.eqb px py pz]. lra.
Qed.
Print Assumptions C46_inverted_tetrahedron_refuted.
