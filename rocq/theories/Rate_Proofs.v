(** Bounds for the qualities of elements (C108). *)
From Coq Require Import ZArith List Bool QArith Reals Qreals Lia Lra Psatz.
From Verif Require Import Prelude Vec ZMap Mesh_Model Mesh_Proofs HashGrid_Model Grid_Model Surf_Model Surf_Spec Surf_Proofs Split_Proofs Split_Props Cell_Model Rate_Model Rate_Spec.
Import ListNotations.
Open Scope R_scope.

(** ** Triangles *)
Lemma schur_ordered x y z : 0 < z -> z <= y -> y <= x -> (y + z - x) * (z + x - y) * (x + y - z) <= x * y * z /\ ((y + z - x) * (z + x - y) * (x + y - z) = x * y * z -> x = y /\ y = z).
Proof.
  intros Hz Hy Hx. assert (E : x * y * z - (y + z - x) * (z + x - y) * (x + y - z) = (x - y) * (x - y) * (x + y - z) + z * ((x - z) * (y - z))) by ring.
  assert (P1 : 0 <= (x - y) * (x - y) * (x + y - z)) by (apply Rmult_le_pos; [apply Rle_0_sqr|lra]). assert (P2 : 0 <= (x - z) * (y - z)) by (apply Rmult_le_pos; lra). assert (P3 : 0 <= z * ((x - z) * (y - z))) by (apply Rmult_le_pos; lra).
  split; [lra|]. intros Eq. assert (Z1 : (x - y) * (x - y) * (x + y - z) = 0) by lra. assert (Z2 : z * ((x - z) * (y - z)) = 0) by lra.
  apply Rmult_integral in Z1. destruct Z1 as [Z1|Z1]; [|lra]. apply Rmult_integral in Z1. assert (x = y) by (destruct Z1; lra). split; [assumption|].
  apply Rmult_integral in Z2. destruct Z2 as [Z2|Z2]; [lra|]. apply Rmult_integral in Z2. destruct Z2; lra.
Qed.
Lemma schur x y z : 0 < x -> 0 < y -> 0 < z -> (y + z - x) * (z + x - y) * (x + y - z) <= x * y * z /\ ((y + z - x) * (z + x - y) * (x + y - z) = x * y * z -> x = y /\ y = z).
Proof.
  intros Hx Hy Hz. destruct (Rle_dec x y), (Rle_dec y z), (Rle_dec x z); try lra.
  all: match goal with
    | A : ?a <= ?b, B : ?b <= ?c |- _ => pose proof (schur_ordered c b a ltac:(lra) ltac:(lra) ltac:(lra)) as H
    | A : ?a <= ?b, B : ~ ?c <= ?a, C : ~ ?c <= ?b |- _ => pose proof (schur_ordered c b a ltac:(lra) ltac:(lra) ltac:(lra)) as H
    | _ => idtac end.
  all: try (match goal with H : _ /\ _ |- _ => destruct H as [H1 H2] end; split; [lra|intros E; destruct H2; [lra|split; lra]]).
  all: first [pose proof (schur_ordered x y z ltac:(lra) ltac:(lra) ltac:(lra)) as [H1 H2]|pose proof (schur_ordered x z y ltac:(lra) ltac:(lra) ltac:(lra)) as [H1 H2]|pose proof (schur_ordered y x z ltac:(lra) ltac:(lra) ltac:(lra)) as [H1 H2]
    |pose proof (schur_ordered y z x ltac:(lra) ltac:(lra) ltac:(lra)) as [H1 H2]|pose proof (schur_ordered z x y ltac:(lra) ltac:(lra) ltac:(lra)) as [H1 H2]|pose proof (schur_ordered z y x ltac:(lra) ltac:(lra) ltac:(lra)) as [H1 H2]]; (split; [lra|intros E; destruct H2; [lra|split; lra]]).
Qed.
Definition as_facet (p q r : coord) : sfacet := SFacet (p, q, r) (-1, -1, -1)%Z (-1, -1, -1)%Z.
Lemma ratio_facet k p q r : sine_ratio k p q r = k / 4 * quality (as_facet p q r).
Proof.
  unfold sine_ratio, quality, as_facet, side. change (tget (sf_v (SFacet (p, q, r) (-1, -1, -1)%Z (-1, -1, -1)%Z))) with (tget (p, q, r)).
  change (tget (p, q, r) 0) with p. change (tget (p, q, r) (0 + 1)) with q. change (tget (p, q, r) 1) with q. change (tget (p, q, r) (1 + 1)) with r. change (tget (p, q, r) 2) with r. change (tget (p, q, r) (2 + 1)) with p.
  cbv zeta. match goal with |- context [Rlt_dec ?a ?b] => destruct (Rlt_dec a b) as [H|H] end; [|lra]. assert (E := eps_R). field. lra.
Qed.
Lemma dist_sq a b : distance a b * distance a b = Q2R (norm2 (vsub b a)).
Proof. apply sqrt_sqrt, Q2R_pos, norm2_nonneg. Qed.
Lemma dist_pos a b : 0 <= distance a b.
Proof. apply sqrt_pos. Qed.
Lemma dist_sym a b : distance a b = distance b a.
Proof. unfold distance. f_equal. apply Qeq_eqR. unfold norm2, dot, vsub. cbn [cx cy cz]. ring. Qed.
Lemma heron p q r : let x := distance p q in let y := distance q r in let z := distance r p in
  16 * (tri_area p q r * tri_area p q r) = (x + y + z) * ((y + z - x) * (z + x - y) * (x + y - z)).
Proof.
  intros x y z. replace ((x + y + z) * ((y + z - x) * (z + x - y) * (x + y - z))) with (4 * (x * x) * (z * z) - (x * x + z * z - y * y) * (x * x + z * z - y * y)) by ring.
  unfold x, y, z. rewrite !dist_sq. unfold tri_area. set (n := norm2 (cross (vsub q p) (vsub r p))). replace (16 * (sqrt (Q2R n) / 2 * (sqrt (Q2R n) / 2))) with (4 * (sqrt (Q2R n) * sqrt (Q2R n))) by field.
  rewrite sqrt_sqrt by (apply Q2R_pos, norm2_nonneg). unfold n. replace 4 with (Q2R 4) by (unfold Q2R; cbn; lra). rewrite <- !Q2R_mult, <- !Q2R_plus, <- !Q2R_minus, <- !Q2R_mult, <- Q2R_minus. apply Qeq_eqR. unfold norm2, dot, cross, vsub. cbn [cx cy cz]. ring.
Qed.
Lemma triangle_rate p q r : let x := distance p q in let y := distance q r in let z := distance r p in
  Q2R real_eps < x * x -> Q2R real_eps < y * y -> Q2R real_eps < z * z ->
  let Q := quality (as_facet p q r) in 0 <= Q <= 1 /\ (Q = 1 <-> x = y /\ y = z) /\ (tri_area p q r = 0 -> Q = 0).
Proof.
  intros x y z Hx Hy Hz. set (f := as_facet p q r). set (A := tri_area p q r). cbv zeta.
  assert (E := eps_R). assert (P0 : 0 <= x) by apply dist_pos. assert (P1 : 0 <= y) by apply dist_pos. assert (P2 : 0 <= z) by apply dist_pos.
  assert (x > 0) by nra. assert (y > 0) by nra. assert (z > 0) by nra. clear P0 P1 P2.
  assert (He : forall k, (real_eps < norm2 (side f k))%Q).
  { intros k. apply Rlt_Qlt. destruct (tget_cases k) as [M|[M|M]]; [rewrite (side_mod f k 0) by exact M; change (side f 0) with (vsub q p)|rewrite (side_mod f k 1) by exact M; change (side f 1) with (vsub r q)|rewrite (side_mod f k 2) by exact M; change (side f 2) with (vsub p r)]; rewrite <- dist_sq; assumption. }
  assert (S0 : x * z * sine f 0 = 2 * A) by exact (sine_area f 0 (He 0%Z) (He 2%Z)).
  assert (S1 : y * x * sine f 1 = 2 * A) by exact (sine_area f 1 (He 1%Z) (He 3%Z)).
  assert (S2 : z * y * sine f 2 = 2 * A) by exact (sine_area f 2 (He 2%Z) (He 4%Z)).
  assert (HA : 0 <= A). { unfold A, tri_area. apply Rmult_le_pos; [apply sqrt_pos|lra]. }
  assert (Hh := heron p q r). cbv zeta in Hh. fold x y z A in Hh.
  destruct (schur x y z) as [Sc1 Sc2]; [assumption..|]. set (P := (y + z - x) * (z + x - y) * (x + y - z)) in *.
  assert (V : 0 < x * y * z) by (apply Rmult_lt_0_compat; [apply Rmult_lt_0_compat|]; assumption).
  assert (Ea : sine f 0 = 2 * A / (x * z)) by (rewrite <- S0; field; split; lra). assert (Eb : sine f 1 = 2 * A / (y * x)) by (rewrite <- S1; field; split; lra). assert (Ec : sine f 2 = 2 * A / (z * y)) by (rewrite <- S2; field; split; lra).
  assert (HP : 0 <= P). { destruct (Rle_dec 0 P) as [|C]; [assumption|exfalso]. assert (P < 0) by lra. assert (0 < (x + y + z) * - P) by (apply Rmult_lt_0_compat; lra). assert (0 <= A * A) by (apply Rmult_le_pos; assumption). lra. }
  assert (Val : Q2R real_eps < sine f 0 + sine f 1 + sine f 2 -> quality f * (x * y * z) = P).
  { intros D. rewrite quality_sines. destruct (Rlt_dec (Q2R real_eps) (sine f 0 + sine f 1 + sine f 2)) as [_|C]; [|contradiction].
    assert (A <> 0) by (intros E0; rewrite Ea, Eb, Ec, E0 in D; unfold Rdiv in D; rewrite Rmult_0_r, !Rmult_0_l in D; lra).
    apply Rmult_eq_reg_l with (x + y + z); [|lra]. rewrite <- Hh. rewrite Ea, Eb, Ec. field. repeat split; try lra. intros C. assert (0 < A) by lra.
    assert (0 < A * x + A * y + A * z) by (repeat apply Rplus_lt_0_compat; apply Rmult_lt_0_compat; lra). nra. }
  assert (Small : ~ Q2R real_eps < sine f 0 + sine f 1 + sine f 2 -> quality f = 0).
  { intros D. rewrite quality_sines. destruct (Rlt_dec _ _); [contradiction|reflexivity]. }
  split; [|split].
  - destruct (Rlt_dec (Q2R real_eps) (sine f 0 + sine f 1 + sine f 2)) as [D|D]; [|rewrite (Small D); lra]. specialize (Val D).
    split; [apply Rmult_le_reg_r with (x * y * z)|apply Rmult_le_reg_r with (x * y * z)]; lra.
  - split.
    + intros Q1. destruct (Rlt_dec (Q2R real_eps) (sine f 0 + sine f 1 + sine f 2)) as [D|D]; [|rewrite (Small D) in Q1; lra]. specialize (Val D). apply Sc2. rewrite Q1 in Val. lra.
    + intros [Exy Eyz]. assert (D : Q2R real_eps < sine f 0 + sine f 1 + sine f 2).
      { assert (B1 : 0 <= sine f 1) by apply sin_angle_bounds. assert (B2 : 0 <= sine f 2) by apply sin_angle_bounds. assert (B0 : 0 <= sine f 0) by apply sin_angle_bounds.
        assert (Sq : sine f 0 * sine f 0 = 3 / 4). { rewrite Ea. replace (2 * A / (x * z) * (2 * A / (x * z))) with (16 * (A * A) / (4 * (x * x) * (z * z))) by (field; split; lra). rewrite Hh. unfold P. rewrite <- Eyz, <- Exy. field. lra. }
        assert (1 / 2 < sine f 0) by nra. assert (Q2R real_eps < 1 / 2) by (unfold Q2R; cbn; lra). lra. }
      specialize (Val D). apply Rmult_eq_reg_r with (x * y * z); [|lra]. rewrite Val, Rmult_1_l. unfold P. rewrite <- Eyz, <- Exy. ring.
  - intros A0. apply Small. rewrite Ea, Eb, Ec, A0. unfold Rdiv. rewrite Rmult_0_r, !Rmult_0_l. lra.
Qed.

(** ** Quadrilaterals *)
Lemma len_sqr v : len v * len v = Q2R (norm2 v).
Proof. apply sqrt_sqrt, Q2R_pos, norm2_nonneg. Qed.
Lemma len_nonneg v : 0 <= len v.
Proof. apply sqrt_pos. Qed.
Lemma qsq (x : Q) : (0 <= x * x)%Q.
Proof. Lqa.nra. Qed.
Lemma norm2_zero v : (norm2 v == 0)%Q -> v =v= vzero.
Proof.
  unfold norm2, dot. intros H. assert (forall a b c : Q, (a * a + b * b + c * c == 0)%Q -> (a == 0)%Q) as K.
  { intros a b c E. assert (0 <= a * a /\ 0 <= b * b /\ 0 <= c * c)%Q as (A1 & A2 & A3) by (repeat split; apply qsq). assert (a * a == 0)%Q by Lqa.lra. destruct (Qmult_integral _ _ H0); assumption. }
  split; [|split]; cbn [vzero cx cy cz]; [eapply K; exact H|apply (K _ (cx v) (cz v)); rewrite <- H; ring|apply (K _ (cx v) (cy v)); rewrite <- H; ring].
Qed.
Definition corners_sum (p q r s : coord) : Q := (norm2 (vsub q p) + norm2 (vsub r q) + norm2 (vsub s r) + norm2 (vsub p s))%Q.
Definition gap (p q r s : coord) : coord := vsub (vadd p r) (vadd q s).
Lemma diagonals p q r s : (corners_sum p q r s == norm2 (vsub r p) + norm2 (vsub s q) + norm2 (gap p q r s))%Q.
Proof. unfold corners_sum, gap, norm2, dot, vsub, vadd. cbn [cx cy cz]. ring. Qed.
Lemma cross_gram u w : Q2R (norm2 (cross u w)) = Q2R (norm2 u) * Q2R (norm2 w) - Q2R (dot u w) * Q2R (dot u w).
Proof. rewrite <- !Q2R_mult, <- Q2R_minus. apply Qeq_eqR. unfold norm2, dot, cross. cbn [cx cy cz]. ring. Qed.
Lemma Q2R_zero q : Q2R q = 0 -> (q == 0)%Q.
Proof. intros H. apply eqR_Qeq. rewrite H. unfold Q2R. cbn. lra. Qed.
Lemma square_diagonals p q r s : square p q r s <-> (norm2 (gap p q r s) == 0)%Q /\ (dot (vsub r p) (vsub s q) == 0)%Q /\ (norm2 (vsub r p) == norm2 (vsub s q))%Q.
Proof.
  assert (I : forall g, g = gap p q r s -> (dot (vsub r p) (vsub s q) == dot g (vsub s q) + (norm2 (vsub s p) - norm2 (vsub q p)))%Q /\
    (norm2 (vsub r p) - norm2 (vsub s q) == norm2 g + 2 * dot g (vsub (vadd q s) (vadd p p)) + 4 * dot (vsub q p) (vsub s p))%Q).
  { intros g ->. unfold gap, norm2, dot, vsub, vadd. cbn [cx cy cz]. split; ring. }
  destruct (I _ eq_refl) as [I1 I2]. split.
  - intros (S1 & S2 & S3). assert (Z : gap p q r s =v= vzero). { unfold gap. destruct S1 as (A & B & C). split; [|split]; cbn [vsub vzero cx cy cz]; [rewrite A|rewrite B|rewrite C]; ring. }
    assert (Z1 : (norm2 (gap p q r s) == 0)%Q) by (rewrite Z; reflexivity). assert (Z2 : forall v, (dot (gap p q r s) v == 0)%Q) by (intros v; rewrite Z; unfold dot; cbn [vzero cx cy cz]; ring). rewrite Z2 in I1. rewrite Z1, Z2 in I2. split; [exact Z1|split; Lqa.lra].
  - intros (Z1 & S2 & S3). assert (Z := norm2_zero _ Z1). assert (Z2 : forall v, (dot (gap p q r s) v == 0)%Q) by (intros v; rewrite Z; unfold dot; cbn [vzero cx cy cz]; ring). rewrite Z2 in I1. rewrite Z1, Z2 in I2.
    split; [|split; Lqa.lra]. unfold gap in Z. destruct Z as (A & B & C). cbn [vsub vzero cx cy cz] in A, B, C. split; [|split]; Lqa.lra.
Qed.
Lemma quad_rate p q r s : 0 < Q2R (corners_sum p q r s) ->
  let x := 4 * quad_area p q r s / Q2R (corners_sum p q r s) in 0 <= x <= 1 /\ (x = 1 <-> square p q r s).
Proof.
  intros HD x. assert (E : Q2R (corners_sum p q r s) = Q2R (norm2 (vsub r p)) + Q2R (norm2 (vsub s q)) + Q2R (norm2 (gap p q r s))) by (rewrite <- !Q2R_plus; apply Qeq_eqR, diagonals).
  assert (G := cross_gram (vsub r p) (vsub s q)). rewrite <- len_sqr in G. assert (HC := len_nonneg (cross (vsub r p) (vsub s q))). unfold quad_area in x. rewrite square_diagonals.
  assert (PA : 0 <= Q2R (norm2 (vsub r p))) by apply Q2R_pos, norm2_nonneg. assert (PB : 0 <= Q2R (norm2 (vsub s q))) by apply Q2R_pos, norm2_nonneg. assert (PM : 0 <= Q2R (norm2 (gap p q r s))) by apply Q2R_pos, norm2_nonneg.
  set (C := len (cross (vsub r p) (vsub s q))) in *. set (D := Q2R (corners_sum p q r s)) in *. set (A := Q2R (norm2 (vsub r p))) in *. set (B := Q2R (norm2 (vsub s q))) in *. set (M := Q2R (norm2 (gap p q r s))) in *. set (T := Q2R (dot (vsub r p) (vsub s q))) in *.
  assert (Ex : x * D = 2 * C) by (unfold x; field; lra). assert (S1 : 4 * (C * C) + (A - B) * (A - B) + 4 * (T * T) = (A + B) * (A + B)) by (rewrite G; ring).
  assert (T2 : 0 <= T * T) by apply Rle_0_sqr. assert (AB2 : 0 <= (A - B) * (A - B)) by apply Rle_0_sqr.
  assert (Up : 2 * C <= A + B) by (apply Rsqr_incr_0_var; [unfold Rsqr; lra|lra]). split.
  - split; apply Rmult_le_reg_r with D; lra.
  - split.
    + intros X1. rewrite X1 in Ex. assert (M0 : M = 0) by lra. assert (C2 : 2 * C = A + B) by lra. rewrite <- C2 in S1. assert (TT : T * T = 0) by lra. assert (AB : (A - B) * (A - B) = 0) by lra.
      split; [apply Q2R_zero, M0|]. split; [apply Q2R_zero; apply Rmult_integral in TT; fold T; destruct TT; assumption|]. apply eqR_Qeq. fold A B. apply Rmult_integral in AB. destruct AB; lra.
    + intros (M0 & T0 & AB). apply Qeq_eqR in M0, T0, AB. rewrite Q2R_0 in M0, T0. fold M in M0. fold T in T0. fold A B in AB. rewrite T0, AB in S1.
      assert (2 * C = 2 * B) by (apply Rsqr_inj; [lra|lra|unfold Rsqr; lra]). apply Rmult_eq_reg_r with D; lra.
Qed.
Lemma corners_zero p q r s : (corners_sum p q r s == 0)%Q <-> p =v= q /\ q =v= r /\ r =v= s.
Proof.
  unfold corners_sum. assert (N1 := norm2_nonneg (vsub q p)). assert (N2 := norm2_nonneg (vsub r q)). assert (N3 := norm2_nonneg (vsub s r)). assert (N4 := norm2_nonneg (vsub p s)).
  assert (Z : forall a b, (norm2 (vsub b a) == 0)%Q -> a =v= b). { intros a b H. apply norm2_zero in H. destruct H as (A & B & C). cbn [vsub vzero cx cy cz] in A, B, C. split; [|split]; Lqa.lra. }
  split.
  - intros H. split; [|split]; apply Z; Lqa.lra.
  - intros (H1 & H2 & H3). assert (Y : forall a b, a =v= b -> (norm2 (vsub b a) == 0)%Q). { intros a b H. rewrite H. unfold norm2, dot, vsub. cbn [cx cy cz]. ring. }
    rewrite (Y p q H1), (Y q r H2), (Y r s H3), (Y s p); [reflexivity|]. symmetry. transitivity q; [exact H1|]. transitivity r; assumption.
Qed.
(** The two halves of a quadrilateral whose normals agree. *)
Lemma halves p q r s (k : Q) : (0 <= k)%Q -> cross (vsub r p) (vsub s p) =v= vscale k (cross (vsub q p) (vsub r p)) \/ cross (vsub q p) (vsub r p) =v= vscale k (cross (vsub r p) (vsub s p)) ->
  quad_area p q r s = tri_area p q r + tri_area p r s.
Proof.
  intros Hk H. unfold quad_area, tri_area. fold (len (cross (vsub q p) (vsub r p))). fold (len (cross (vsub r p) (vsub s p))).
  set (n1 := cross (vsub q p) (vsub r p)) in *. set (n2 := cross (vsub r p) (vsub s p)) in *.
  assert (E : cross (vsub r p) (vsub s q) =v= vadd n1 n2) by (unfold n1, n2; split; [|split]; cbn [cross vsub vadd cx cy cz]; ring).
  assert (LV : forall a b, a =v= b -> len a = len b) by (intros a b Ea; unfold len; f_equal; apply Qeq_eqR; now rewrite Ea).
  assert (LS : forall j v, (0 <= j)%Q -> len (vscale j v) = Q2R j * len v).
  { intros j v Hj. unfold len. assert (0 <= Q2R j) by (rewrite <- Q2R_0; now apply Qle_Rle). rewrite <- (sqrt_square (Q2R j)) at 1 by assumption. rewrite <- sqrt_mult_alt by now apply Rmult_le_pos. f_equal. rewrite <- !Q2R_mult. apply Qeq_eqR. unfold norm2, dot, vscale. cbn [cx cy cz]. ring. }
  rewrite (LV _ _ E). destruct H as [H|H].
  - assert (E2 : vadd n1 n2 =v= vscale (1 + k) n1) by (rewrite H; split; [|split]; cbn [vscale vadd cx cy cz]; ring). rewrite (LV _ _ E2), (LV _ _ H), !LS by Lqa.lra. rewrite Q2R_plus. replace (Q2R 1) with 1 by (unfold Q2R; cbn; lra). field.
  - assert (E2 : vadd n1 n2 =v= vscale (1 + k) n2) by (rewrite H; split; [|split]; cbn [vscale vadd cx cy cz]; ring). rewrite (LV _ _ E2), (LV _ _ H), !LS by Lqa.lra. rewrite Q2R_plus. replace (Q2R 1) with 1 by (unfold Q2R; cbn; lra). field.
Qed.

(** ** Tetrahedra *)
Lemma cauchy a b : (dot a b * dot a b <= norm2 a * norm2 b)%Q.
Proof. assert (H := norm2_nonneg (cross a b)). assert (E : (norm2 (cross a b) == norm2 a * norm2 b - dot a b * dot a b)%Q) by (unfold norm2, dot, cross; cbn [cx cy cz]; ring). Lqa.lra. Qed.
(** From the middle of a side to the opposite corner. *)
Definition median (a b c d : coord) : coord := vsub d (vscale (1 # 3) (vadd a (vadd b c))).
Lemma height a b c d p q r s : (dot (cross (vsub b a) (vsub c a)) (median a b c d) == det_points p q r s \/ dot (cross (vsub b a) (vsub c a)) (median a b c d) == - det_points p q r s)%Q ->
  Rabs (Q2R (det_points p q r s)) <= len (cross (vsub b a) (vsub c a)) * len (median a b c d).
Proof.
  intros H. assert (C := cauchy (cross (vsub b a) (vsub c a)) (median a b c d)). apply Rsqr_incr_0_var; [|apply Rmult_le_pos; apply len_nonneg]. rewrite <- Rsqr_abs. unfold Rsqr.
  replace (len (cross (vsub b a) (vsub c a)) * len (median a b c d) * (len (cross (vsub b a) (vsub c a)) * len (median a b c d))) with (len (cross (vsub b a) (vsub c a)) * len (cross (vsub b a) (vsub c a)) * (len (median a b c d) * len (median a b c d))) by ring. rewrite !len_sqr, <- !Q2R_mult. apply Qle_Rle. eapply Qle_trans; [|exact C].
  apply Qeq_le_incl || idtac. destruct H as [H|H]; rewrite H; Lqa.nra.
Qed.
Lemma tangent N M D c : 0 <= N -> 0 <= M -> 0 <= D -> 0 < c -> D <= N * M -> D * (3 * (c * c) - M * M) <= N * (2 * (c * c * c)).
Proof.
  intros HN HM HD Hc H. destruct (Req_dec M 0) as [->|HM0].
  - assert (D = 0) by lra. subst D. rewrite Rmult_0_l. apply Rmult_le_pos; [exact HN|]. apply Rmult_le_pos; [lra|]. apply Rmult_le_pos; [apply Rmult_le_pos|]; lra.
  - assert (0 < M) by lra. apply Rmult_le_reg_r with M; [assumption|]. assert (0 <= (c - M) * (c - M) * (2 * c + M)) by (apply Rmult_le_pos; [apply Rle_0_sqr|lra]).
    assert (c3 : 0 <= 2 * (c * c * c)) by (apply Rmult_le_pos; [lra|]; apply Rmult_le_pos; [apply Rmult_le_pos|]; lra).
    apply Rle_trans with (D * (2 * (c * c * c))).
    + replace (D * (3 * (c * c) - M * M) * M) with (D * (3 * (c * c) * M - M * M * M)) by ring. apply Rmult_le_compat_l; [exact HD|]. nra.
    + replace (N * (2 * (c * c * c)) * M) with (N * M * (2 * (c * c * c))) by ring. apply Rmult_le_compat_r; assumption.
Qed.
(** The six squared edges. *)
Definition edges_sum (p q r s : coord) : Q := (norm2 (vsub q p) + norm2 (vsub r q) + norm2 (vsub p r) + norm2 (vsub s p) + norm2 (vsub s q) + norm2 (vsub s r))%Q.
Lemma medians p q r s : (norm2 (median p q r s) + norm2 (median p q s r) + norm2 (median q r s p) + norm2 (median r p s q) == (4 # 9) * edges_sum p q r s)%Q.
Proof. unfold edges_sum, median, norm2, dot, vsub, vadd, vscale. cbn [cx cy cz]. field. Qed.
Lemma heights p q r s : let D := Rabs (Q2R (det_points p q r s)) in
  D <= len (cross (vsub q p) (vsub r p)) * len (median p q r s) /\ D <= len (cross (vsub q p) (vsub s p)) * len (median p q s r) /\
  D <= len (cross (vsub r q) (vsub s q)) * len (median q r s p) /\ D <= len (cross (vsub p r) (vsub s r)) * len (median r p s q).
Proof.
  intros D. unfold D. split; [|split; [|split]]; apply height; unfold det_points, det3, median, dot, cross, vsub, vadd, vscale; cbn [cx cy cz]; first [left; field|right; field].
Qed.
Lemma longest_max p q r s : let L := longest p q r s in distance p q <= L /\ distance q r <= L /\ distance r p <= L /\ distance p s <= L /\ distance q s <= L /\ distance r s <= L.
Proof.
  unfold longest, distance. fold (len (vsub q p)) (len (vsub r q)) (len (vsub p r)) (len (vsub s p)) (len (vsub s q)) (len (vsub s r)).
  set (a := len (vsub q p)). set (b := len (vsub r q)). set (c := len (vsub p r)). set (d := len (vsub s p)). set (e := len (vsub s q)). set (f := len (vsub s r)). cbv zeta.
  assert (H1 := Rmax_l a (Rmax b (Rmax c (Rmax d (Rmax e f))))). assert (H2 := Rmax_r a (Rmax b (Rmax c (Rmax d (Rmax e f))))). assert (H3 := Rmax_l b (Rmax c (Rmax d (Rmax e f)))). assert (H4 := Rmax_r b (Rmax c (Rmax d (Rmax e f)))).
  assert (H5 := Rmax_l c (Rmax d (Rmax e f))). assert (H6 := Rmax_r c (Rmax d (Rmax e f))). assert (H7 := Rmax_l d (Rmax e f)). assert (H8 := Rmax_r d (Rmax e f)). assert (H9 := Rmax_l e f). assert (H10 := Rmax_r e f). lra.
Qed.
Lemma longest_among p q r s (P : R -> Prop) : P (distance p q) -> P (distance q r) -> P (distance r p) -> P (distance p s) -> P (distance q s) -> P (distance r s) -> P (longest p q r s).
Proof. intros. unfold longest. repeat (apply Rmax_case; [assumption|]); assumption. Qed.
Lemma surface_half p q r s : tetra_surface p q r s = (len (cross (vsub q p) (vsub r p)) + len (cross (vsub q p) (vsub s p)) + len (cross (vsub r q) (vsub s q)) + len (cross (vsub p r) (vsub s r))) / 2.
Proof. unfold tetra_surface, triangle_area. field. Qed.
(** The radius of the inscribed ball is at most the longest edge over 2 sqrt 6, with equality for the regular tetrahedron only. *)
Lemma inscribed p q r s : let L := longest p q r s in let S := tetra_surface p q r s in let D := Rabs (Q2R (det_points p q r s)) in
  0 < L -> sqrt 6 * D <= S * L /\ (0 < D -> sqrt 6 * D = S * L -> all_edges p q r s L).
Proof.
  intros L S D HL. assert (H6 := sqrt_sqrt 6 ltac:(lra)). assert (P6 : 0 < sqrt 6) by (apply sqrt_lt_R0; lra). set (w := sqrt 6) in *. set (c := L * w / 3). assert (Hc : 0 < c) by (unfold c; apply Rmult_lt_0_compat; [now apply Rmult_lt_0_compat|lra]).
  assert (Hcc : c * c = 2 / 3 * (L * L)) by (unfold c; replace (L * w / 3 * (L * w / 3)) with (L * L * (w * w) / 9) by field; rewrite H6; field).
  assert (HD : 0 <= D) by apply Rabs_pos. destruct (heights p q r s) as (T1 & T2 & T3 & T4). fold D in T1, T2, T3, T4.
  apply (tangent _ _ _ c) in T1, T2, T3, T4; try apply len_nonneg; try assumption. rewrite len_sqr in T1, T2, T3, T4.
  assert (Sm := surface_half p q r s). fold S in Sm.
  set (n1 := len (cross (vsub q p) (vsub r p))) in *. set (n2 := len (cross (vsub q p) (vsub s p))) in *. set (n3 := len (cross (vsub r q) (vsub s q))) in *. set (n4 := len (cross (vsub p r) (vsub s r))) in *.
  assert (Md : Q2R (norm2 (median p q r s)) + Q2R (norm2 (median p q s r)) + Q2R (norm2 (median q r s p)) + Q2R (norm2 (median r p s q)) = 4 / 9 * Q2R (edges_sum p q r s)).
  { rewrite <- !Q2R_plus. rewrite (Qeq_eqR _ _ (medians p q r s)), Q2R_mult. replace (4 / 9) with (Q2R (4 # 9)) by (unfold Q2R; cbn; lra). reflexivity. }
  set (m1 := Q2R (norm2 (median p q r s))) in *. set (m2 := Q2R (norm2 (median p q s r))) in *. set (m3 := Q2R (norm2 (median q r s p))) in *. set (m4 := Q2R (norm2 (median r p s q))) in *.
  assert (Ed : Q2R (edges_sum p q r s) = distance p q * distance p q + distance q r * distance q r + distance r p * distance r p + distance p s * distance p s + distance q s * distance q s + distance r s * distance r s).
  { unfold edges_sum. rewrite !Q2R_plus, !dist_sq. reflexivity. }
  destruct (longest_max p q r s) as (L1 & L2 & L3 & L4 & L5 & L6). fold L in L1, L2, L3, L4, L5, L6.
  assert (Sq : forall x, 0 <= x -> x <= L -> x * x <= L * L) by (intros x X0 X1; apply Rmult_le_compat; assumption).
  assert (Q1 := Sq _ (dist_pos p q) L1). assert (Q2 := Sq _ (dist_pos q r) L2). assert (Q3 := Sq _ (dist_pos r p) L3). assert (Q4 := Sq _ (dist_pos p s) L4). assert (Q5 := Sq _ (dist_pos q s) L5). assert (Q6 := Sq _ (dist_pos r s) L6).
  assert (Sum : D * (12 * (c * c) - (m1 + m2 + m3 + m4)) <= 2 * S * (2 * (c * c * c))) by (rewrite Sm; lra).
  assert (SL : S * L * w = 3 * (S * c)) by (unfold c; field).
  assert (Back : forall d, 0 <= d -> D * d <= c * (c * (4 * (S * c) - 8 * D)) -> True) by auto. clear Back.
  assert (Main : D * (4 * (c * c) - (m1 + m2 + m3 + m4)) <= c * c * (4 * (S * c) - 8 * D)).
  { apply Rle_trans with (2 * S * (2 * (c * c * c)) - 8 * (D * (c * c))); [lra|]. right. ring. }
  assert (Low : 0 <= 4 * (c * c) - (m1 + m2 + m3 + m4)) by (rewrite Md, Ed, Hcc; lra).
  assert (Cc : 0 < c * c) by now apply Rmult_lt_0_compat. split.
  - assert (0 <= c * c * (4 * (S * c) - 8 * D)) by (eapply Rle_trans; [|exact Main]; now apply Rmult_le_pos). assert (0 <= 4 * (S * c) - 8 * D) by (apply Rmult_le_reg_l with (c * c); [exact Cc|lra]).
    apply Rmult_le_reg_r with w; [exact P6|]. rewrite SL. replace (w * D * w) with (w * w * D) by ring. rewrite H6. lra.
  - intros D0 E. assert (E2 : 4 * (S * c) - 8 * D = 0). { assert (w * w * D = 3 * (S * c)) by (rewrite <- SL, <- E; ring). rewrite H6 in H. lra. }
    rewrite E2, Rmult_0_r in Main. assert (Z : 4 * (c * c) - (m1 + m2 + m3 + m4) = 0) by (apply Rle_antisym; [|exact Low]; apply Rmult_le_reg_l with D; [exact D0|lra]).
    rewrite Md, Ed, Hcc in Z. assert (Eq : forall x, 0 <= x -> x * x = L * L -> x = L) by (intros x X0 X1; apply Rsqr_inj; [exact X0|lra|exact X1]).
    unfold all_edges. repeat split; (apply Eq; [apply dist_pos|lra]).
Qed.
(** The determinant from the edges at the corner p and the edges opposite to it. *)
Lemma gram u v w : let uv := ((norm2 u + norm2 v - norm2 (vsub v u)) / 2)%Q in let uw := ((norm2 u + norm2 w - norm2 (vsub w u)) / 2)%Q in let vw := ((norm2 v + norm2 w - norm2 (vsub w v)) / 2)%Q in
  (dot u (cross v w) * dot u (cross v w) == norm2 u * norm2 v * norm2 w + 2 * uv * vw * uw - norm2 u * (vw * vw) - norm2 v * (uw * uw) - norm2 w * (uv * uv))%Q.
Proof. cbv zeta. unfold norm2, dot, cross, vsub. cbn [cx cy cz]. field. Qed.
Lemma regular p q r s L : 0 < L -> all_edges p q r s L -> sqrt 6 * Rabs (Q2R (det_points p q r s)) = tetra_surface p q r s * L /\ longest p q r s = L /\ 0 < tetra_surface p q r s.
Proof.
  intros HL (E1 & E2 & E3 & E4 & E5 & E6).
  assert (X : forall a b, distance a b = L -> Q2R (norm2 (vsub b a)) = L * L) by (intros a b E; rewrite <- dist_sq, E; reflexivity).
  assert (Y : forall a b, distance a b = L -> Q2R (norm2 (vsub a b)) = L * L) by (intros a b E; apply X; rewrite dist_sym; exact E).
  set (h := sqrt 3 / 2 * (L * L)). assert (P3 : 0 < sqrt 3) by (apply sqrt_lt_R0; lra). assert (H3 := sqrt_sqrt 3 ltac:(lra)). assert (LL : 0 < L * L) by now apply Rmult_lt_0_compat.
  assert (Ar : forall a b c, distance a b = L -> distance b c = L -> distance c a = L -> len (cross (vsub b a) (vsub c a)) = h).
  { intros a b c A1 A2 A3. apply Rsqr_inj; [apply len_nonneg|unfold h; apply Rmult_le_pos; lra|]. unfold Rsqr. rewrite len_sqr, cross_gram.
    assert (T : Q2R (dot (vsub b a) (vsub c a)) = (Q2R (norm2 (vsub b a)) + Q2R (norm2 (vsub c a)) - Q2R (norm2 (vsub c b))) / 2). { replace 2 with (Q2R 2) by (unfold Q2R; cbn; lra). rewrite <- Q2R_plus, <- Q2R_minus, <- Q2R_div by discriminate. apply Qeq_eqR. unfold norm2, dot, vsub. cbn [cx cy cz]. field. }
    rewrite T, (X _ _ A1), (X _ _ A2), (Y _ _ A3). unfold h. replace (sqrt 3 / 2 * (L * L) * (sqrt 3 / 2 * (L * L))) with (sqrt 3 * sqrt 3 / 4 * (L * L) * (L * L)) by field. rewrite H3. field. }
  assert (Sm : tetra_surface p q r s = sqrt 3 * (L * L)). { rewrite surface_half. rewrite (Ar p q r), (Ar p q s), (Ar q r s), (Ar r p s); try assumption; try (rewrite dist_sym; assumption). unfold h. field. }
  assert (Dt : Q2R (det_points p q r s) * Q2R (det_points p q r s) = L * L * (L * L) * (L * L) / 2).
  { assert (Dp : (det_points p q r s * det_points p q r s == dot (vsub q p) (cross (vsub r p) (vsub s p)) * dot (vsub q p) (cross (vsub r p) (vsub s p)))%Q).
    { assert (Dq : (det_points p q r s == - dot (vsub q p) (cross (vsub r p) (vsub s p)))%Q) by (unfold det_points, det3, dot, cross, vsub; cbn [cx cy cz]; ring). rewrite Dq. ring. }
    assert (G := gram (vsub q p) (vsub r p) (vsub s p)). cbv zeta in G.
    assert (V : forall a b, (norm2 (vsub (vsub b p) (vsub a p)) == norm2 (vsub b a))%Q) by (intros a b; unfold norm2, dot, vsub; cbn [cx cy cz]; ring). rewrite !V in G. rewrite <- Dp in G. apply Qeq_eqR in G. rewrite Q2R_mult in G. rewrite G.
    repeat (rewrite ?Q2R_minus, ?Q2R_plus, ?Q2R_mult; try (rewrite Q2R_div by discriminate)). rewrite (X p q E1), (Y r p E3), (X p s E4), (X q r E2), (X q s E5), (X r s E6). replace (Q2R 2) with 2 by (unfold Q2R; cbn; lra). field. }
  split; [|split].
  - rewrite Sm. apply Rsqr_inj; [apply Rmult_le_pos; [apply sqrt_pos|apply Rabs_pos]|apply Rmult_le_pos; [apply Rmult_le_pos|]; lra|]. unfold Rsqr.
    replace (sqrt 6 * Rabs (Q2R (det_points p q r s)) * (sqrt 6 * Rabs (Q2R (det_points p q r s)))) with (sqrt 6 * sqrt 6 * (Rabs (Q2R (det_points p q r s)) * Rabs (Q2R (det_points p q r s)))) by ring. rewrite sqrt_sqrt by lra.
    assert (Ab : forall x, Rabs x * Rabs x = x * x) by (intros x; symmetry; exact (Rsqr_abs x)). rewrite Ab, Dt. replace (sqrt 3 * (L * L) * L * (sqrt 3 * (L * L) * L)) with (sqrt 3 * sqrt 3 * (L * L * (L * L) * (L * L))) by ring. rewrite H3. field.
  - apply (longest_among p q r s (fun x => x = L)); assumption.
  - rewrite Sm. now apply Rmult_lt_0_compat.
Qed.
