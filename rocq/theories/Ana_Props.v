(** C79 to C82: the analytical solutions solve the problems they are given for. *)
From Coq Require Import QArith Reals ZArith List Lia Lra Psatz.
From Coquelicot Require Import Coquelicot.
From Verif Require Import Prelude Root_Model Ana_Model.
Import ListNotations.
Open Scope R_scope.

(** ** Derivatives *)
(** [f2] is the second derivative of [f], everywhere. *)
Definition twice (f f2 : R -> R) : Prop := exists f1, (forall x, is_derive f x (f1 x)) /\ (forall x, is_derive f1 x (f2 x)).

Lemma twice_ext (f f2 g g2 : R -> R) : twice f f2 -> (forall x, f x = g x) -> (forall x, f2 x = g2 x) -> twice g g2.
Proof.
  intros (f1 & H1 & H2) E E2. exists f1. split; intros x.
  - apply (is_derive_ext f); [exact E|apply H1].
  - rewrite <- E2. apply H2.
Qed.
Lemma twice_plus (f f2 g g2 : R -> R) : twice f f2 -> twice g g2 -> twice (fun x => f x + g x) (fun x => f2 x + g2 x).
Proof.
  intros (f1 & H1 & H2) (g1 & K1 & K2). exists (fun x => f1 x + g1 x). split; intros x.
  - apply (is_derive_plus f g x (f1 x) (g1 x) (H1 x) (K1 x)).
  - apply (is_derive_plus f1 g1 x (f2 x) (g2 x) (H2 x) (K2 x)).
Qed.
Lemma twice_const (c : R) : twice (fun _ => c) (fun _ => 0).
Proof. exists (fun _ => 0). split; intros x; auto_derive; trivial. Qed.
Lemma twice_scal (c : R) (f f2 : R -> R) : twice f f2 -> twice (fun x => c * f x) (fun x => c * f2 x).
Proof.
  intros (f1 & H1 & H2). exists (fun x => c * f1 x). split; intros x.
  - apply (is_derive_scal f x c (f1 x) (H1 x)).
  - apply (is_derive_scal f1 x c (f2 x) (H2 x)).
Qed.
Lemma twice_series n (f f2 : nat -> R -> R) : (forall p, (p < n)%nat -> twice (f p) (f2 p)) ->
  twice (fun x => series n (fun p => f p x)) (fun x => series n (fun p => f2 p x)).
Proof.
  induction n as [|n IH]; intros H; cbn [series]; [apply twice_const|].
  apply (twice_plus (fun x => series n (fun p => f p x)) (fun x => series n (fun p => f2 p x)) (f n) (f2 n)); [apply IH; intros p L; apply H; lia|apply H; lia].
Qed.
Lemma derive_series n (f f1 : nat -> R -> R) x : (forall p, (p < n)%nat -> is_derive (f p) x (f1 p x)) ->
  is_derive (fun x => series n (fun p => f p x)) x (series n (fun p => f1 p x)).
Proof.
  induction n as [|n IH]; intros H; cbn [series]; [auto_derive; trivial|].
  apply (is_derive_plus (fun x => series n (fun p => f p x)) (f n) x); [apply IH; intros p L; apply H; lia|apply H; lia].
Qed.
Lemma twice_sin a : twice (fun x => sin (a * x)) (fun x => - (a * a) * sin (a * x)).
Proof. exists (fun x => a * cos (a * x)). split; intros x; auto_derive; trivial; ring. Qed.
Lemma twice_cos a : twice (fun x => cos (a * x)) (fun x => - (a * a) * cos (a * x)).
Proof. exists (fun x => - a * sin (a * x)). split; intros x; auto_derive; trivial; ring. Qed.
Lemma twice_sinh a b : twice (fun x => sinh (a * x + b)) (fun x => a * a * sinh (a * x + b)).
Proof.
  exists (fun x => a * cosh (a * x + b)). unfold sinh, cosh. split; intros x; auto_derive; trivial; field.
Qed.
Lemma series_ext n f g : (forall p, (p < n)%nat -> f p = g p) -> series n f = series n g.
Proof. induction n as [|n IH]; intros H; cbn [series]; [reflexivity|]. rewrite IH; [f_equal; apply H; lia|intros; apply H; lia]. Qed.
Lemma series_plus n f g : series n (fun p => f p + g p) = series n f + series n g.
Proof. induction n as [|n IH]; cbn [series]; [ring|rewrite IH; ring]. Qed.
Lemma series_scal n c f : series n (fun p => c * f p) = c * series n f.
Proof. induction n as [|n IH]; cbn [series]; [ring|rewrite IH; ring]. Qed.
Lemma series_zero n f : (forall p, (p < n)%nat -> f p = 0) -> series n f = 0.
Proof. induction n as [|n IH]; intros H; cbn [series]; [reflexivity|]. rewrite IH, H by (intros; try apply H; lia). ring. Qed.

Lemma odd_pos p : 1 <= odd p.
Proof. unfold odd. pose proof (pos_INR p). lra. Qed.
Lemma sinh_pos x : 0 < x -> 0 < sinh x.
Proof. intros H. unfold sinh. assert (exp (- x) < exp x) by (apply exp_increasing; lra). lra. Qed.
Lemma sin_odd_PI p : sin (odd p * PI) = 0.
Proof. apply sin_eq_0_1. exists (2 * Z.of_nat p + 1)%Z. unfold odd. rewrite plus_IZR, mult_IZR, <- INR_IZR_INZ. ring. Qed.
Lemma cos_odd_half p : cos (odd p * PI * (1 / 2)) = 0.
Proof. apply cos_eq_0_1. exists (Z.of_nat p). unfold odd. rewrite <- INR_IZR_INZ. field. Qed.

(** ** C79 *)
Theorem C79_steady1 : twice steady1 (fun _ => 0) /\ steady1 0 = 0 /\ steady1 1 = 1.
Proof. split; [|split; reflexivity]. exists (fun _ => 1). unfold steady1. split; intros x; auto_derive; trivial. Qed.
Print Assumptions C79_steady1.

Theorem C79_steady2 :
  (exists Txx Tyy : R -> R -> R,
     (forall y, twice (fun x => steady2 x y) (fun x => Txx x y)) /\ (forall x, twice (fun y => steady2 x y) (fun y => Tyy x y)) /\
     (forall x y, Txx x y + Tyy x y = 0)) /\
  (forall y, steady2 0 y = 0 /\ steady2 1 y = 0) /\
  (forall x, steady2 x 0 = 0 /\ steady2 x 1 = series 25 (fun p => 4 / (odd p * PI) * sin (odd p * PI * x))).
Proof.
  split; [|split].
  - set (term := fun p x y => 4 / PI * sin (odd p * PI * x) * sinh (odd p * PI * y) / (odd p * sinh (odd p * PI))).
    exists (fun x y => series 25 (fun p => - (odd p * PI * (odd p * PI)) * term p x y)), (fun x y => series 25 (fun p => odd p * PI * (odd p * PI) * term p x y)).
    split; [|split].
    + intros y. unfold steady2. apply (twice_series 25 (fun p x => term p x y) (fun p x => - (odd p * PI * (odd p * PI)) * term p x y)). intros p _.
      eapply twice_ext; [apply (twice_scal (4 / PI * sinh (odd p * PI * y) / (odd p * sinh (odd p * PI)))); apply (twice_sin (odd p * PI))| |];
        intros x; unfold term, Rdiv; ring.
    + intros x. unfold steady2. apply (twice_series 25 (fun p y => term p x y) (fun p y => odd p * PI * (odd p * PI) * term p x y)). intros p _.
      eapply twice_ext; [apply (twice_scal (4 / PI * sin (odd p * PI * x) / (odd p * sinh (odd p * PI)))); apply (twice_sinh (odd p * PI) 0)| |];
        intros y; unfold term, Rdiv; rewrite Rplus_0_r; ring.
    + intros x y. rewrite <- series_plus. apply series_zero. intros p _. ring.
  - intros y. unfold steady2. split; apply series_zero; intros p _.
    + rewrite Rmult_0_r, sin_0. unfold Rdiv. ring.
    + rewrite Rmult_1_r, sin_odd_PI. unfold Rdiv. ring.
  - intros x. unfold steady2. split.
    + apply series_zero. intros p _. rewrite Rmult_0_r, sinh_0. unfold Rdiv. ring.
    + apply series_ext. intros p _. rewrite Rmult_1_r. pose proof (odd_pos p). pose proof PI_RGT_0. assert (0 < sinh (odd p * PI)) by (apply sinh_pos; nra).
      field. repeat split; lra.
Qed.
Print Assumptions C79_steady2.

Theorem C79_steady3 :
  (exists Txx Tyy Tzz : R -> R -> R -> R,
     (forall y z, twice (fun x => steady3 x y z) (fun x => Txx x y z)) /\ (forall x z, twice (fun y => steady3 x y z) (fun y => Tyy x y z)) /\
     (forall x y, twice (fun z => steady3 x y z) (fun z => Tzz x y z)) /\ (forall x y z, Txx x y z + Tyy x y z + Tzz x y z = 0)) /\
  (forall x y z, steady3 x 0 z = 0 /\ steady3 x 1 z = 0 /\ steady3 x y 0 = 0 /\ steady3 x y 1 = 0) /\
  (forall y z, steady3 0 y z = 1 / 2 * steady3 1 y z).
Proof.
  split; [|split].
  - set (term := fun p q x y z => 16 / (PI * PI) * ((1 / 2 * sinh (lambda3 p q * (1 - x)) + sinh (lambda3 p q * x)) * sin (odd p * PI * y) * sin (odd q * PI * z)) / (odd p * odd q * sinh (lambda3 p q))).
    exists (fun x y z => series 10 (fun p => series 10 (fun q => lambda3 p q * lambda3 p q * term p q x y z))),
           (fun x y z => series 10 (fun p => series 10 (fun q => - (odd p * PI * (odd p * PI)) * term p q x y z))),
           (fun x y z => series 10 (fun p => series 10 (fun q => - (odd q * PI * (odd q * PI)) * term p q x y z))).
    split; [|split; [|split]].
    + intros y z. unfold steady3. apply (twice_series 10 (fun p x => series 10 (fun q => term p q x y z)) (fun p x => series 10 (fun q => lambda3 p q * lambda3 p q * term p q x y z))). intros p _.
      apply (twice_series 10 (fun q x => term p q x y z) (fun q x => lambda3 p q * lambda3 p q * term p q x y z)). intros q _.
      set (l := lambda3 p q).
      eapply twice_ext; [apply (twice_scal (16 / (PI * PI) * (sin (odd p * PI * y) * sin (odd q * PI * z)) / (odd p * odd q * sinh l)));
                         apply (twice_plus _ _ _ _ (twice_scal (1 / 2) _ _ (twice_sinh (- l) l)) (twice_sinh l 0))| |];
        intros x; unfold term; fold l; replace (- l * x + l) with (l * (1 - x)) by ring; rewrite Rplus_0_r; unfold Rdiv; ring.
    + intros x z. unfold steady3. apply (twice_series 10 (fun p y => series 10 (fun q => term p q x y z)) (fun p y => series 10 (fun q => - (odd p * PI * (odd p * PI)) * term p q x y z))). intros p _.
      apply (twice_series 10 (fun q y => term p q x y z) (fun q y => - (odd p * PI * (odd p * PI)) * term p q x y z)). intros q _.
      set (l := lambda3 p q).
      eapply twice_ext; [apply (twice_scal (16 / (PI * PI) * ((1 / 2 * sinh (l * (1 - x)) + sinh (l * x)) * sin (odd q * PI * z)) / (odd p * odd q * sinh l))); apply (twice_sin (odd p * PI))| |];
        intros y; unfold term; fold l; unfold Rdiv; ring.
    + intros x y. unfold steady3. apply (twice_series 10 (fun p z => series 10 (fun q => term p q x y z)) (fun p z => series 10 (fun q => - (odd q * PI * (odd q * PI)) * term p q x y z))). intros p _.
      apply (twice_series 10 (fun q z => term p q x y z) (fun q z => - (odd q * PI * (odd q * PI)) * term p q x y z)). intros q _.
      set (l := lambda3 p q).
      eapply twice_ext; [apply (twice_scal (16 / (PI * PI) * ((1 / 2 * sinh (l * (1 - x)) + sinh (l * x)) * sin (odd p * PI * y)) / (odd p * odd q * sinh l))); apply (twice_sin (odd q * PI))| |];
        intros z; unfold term; fold l; unfold Rdiv; ring.
    + intros x y z. rewrite <- !series_plus. apply series_zero. intros p _. rewrite <- !series_plus. apply series_zero. intros q _.
      assert (E : lambda3 p q * lambda3 p q = odd p * odd p * PI * PI + odd q * odd q * PI * PI).
      { unfold lambda3. apply sqrt_sqrt. replace (odd p * odd p * PI * PI + odd q * odd q * PI * PI) with ((odd p * PI) ^ 2 + (odd q * PI) ^ 2) by ring.
        pose proof (pow2_ge_0 (odd p * PI)). pose proof (pow2_ge_0 (odd q * PI)). lra. }
      rewrite E. ring.
  - intros x y z. unfold steady3. split; [|split; [|split]]; apply series_zero; intros p _; apply series_zero; intros q _; cbv zeta;
      rewrite ?Rmult_0_r, ?Rmult_1_r, ?sin_0, ?sin_odd_PI; unfold Rdiv; ring.
  - intros y z. unfold steady3. rewrite <- series_scal. apply series_ext. intros p _. rewrite <- series_scal. apply series_ext. intros q _. cbv zeta.
    replace (lambda3 p q * (1 - 0)) with (lambda3 p q) by ring. replace (lambda3 p q * (1 - 1)) with 0 by ring. rewrite Rmult_0_r, Rmult_1_r, sinh_0. unfold Rdiv. ring.
Qed.
Print Assumptions C79_steady3.

(** *** The series of Leibniz *)
Lemma odd_S p : odd (S p) = odd p + 2.
Proof. unfold odd. rewrite S_INR. ring. Qed.
Lemma sin_odd_half p : sin (odd p * PI * (1 / 2)) = (-1) ^ p.
Proof.
  induction p as [|p IH]; [unfold odd; cbn [INR pow]; replace ((2 * 0 + 1) * PI * (1 / 2)) with (PI / 2) by field; apply sin_PI2|].
  rewrite odd_S. replace ((odd p + 2) * PI * (1 / 2)) with (odd p * PI * (1 / 2) + PI) by field. rewrite neg_sin, IH. cbn [pow]. ring.
Qed.
Definition leibniz (n : nat) : R := series n (fun p => (-1) ^ p / odd p).
Lemma leibniz_sum n : leibniz (S n) = sum_f_R0 (tg_alt PI_tg) n.
Proof.
  assert (T : forall p, (-1) ^ p / odd p = tg_alt PI_tg p).
  { intros p. unfold tg_alt, PI_tg, odd, Rdiv. f_equal. f_equal. rewrite plus_INR, mult_INR. cbn [INR]. ring. }
  induction n as [|n IH]; unfold leibniz in *; [cbn [series sum_f_R0]; rewrite T; ring|].
  cbn [sum_f_R0]. rewrite <- IH, <- T. reflexivity.
Qed.
Lemma leibniz_bounds n : leibniz (S (S (2 * n))) <= PI / 4 <= leibniz (S (2 * n)).
Proof. rewrite !leibniz_sum. apply PI_ineq. Qed.
Lemma leibniz_25 : PI / 4 < leibniz 25.
Proof.
  pose proof (proj2 (leibniz_bounds 13)) as H. change (S (2 * 13)) with 27%nat in H.
  assert (E : leibniz 27 = leibniz 25 - 1 / 51 + 1 / 53) by (unfold leibniz; cbn [series]; unfold odd; cbn [INR pow]; field). lra.
Qed.
Lemma PI_3 : 3 < PI.
Proof. pose proof PI2_3_2. lra. Qed.

(** A sum of Leibniz within a small distance above a quarter of pi, or below it. *)
Lemma over_PI s : (PI / 4 <= s -> 1 <= 4 / PI * s) /\ (forall d, s <= PI / 4 + d -> 4 / PI * s <= 1 + 4 / 3 * Rmax d 0).
Proof.
  pose proof PI_3 as P. assert (K : 0 < 4 / PI) by (apply Rdiv_lt_0_compat; lra). assert (K1 : 4 / PI * (PI / 4) = 1) by (field; lra).
  split; [intros; nra|]. intros d H. assert (K2 : 4 / PI <= 4 / 3) by (apply Rmult_le_compat_l; [lra|]; apply Rinv_le_contravar; lra).
  pose proof (Rmax_l d 0). pose proof (Rmax_r d 0). apply Rle_trans with (4 / PI * (PI / 4 + Rmax d 0)); [apply Rmult_le_compat_l; lra|]. nra.
Qed.
Lemma under_PI s : (s <= PI / 4 -> 4 / PI * s <= 1) /\ (forall d, 0 <= d -> PI / 4 - d <= s -> 1 - 4 / 3 * d <= 4 / PI * s).
Proof.
  pose proof PI_3 as P. assert (K : 0 < 4 / PI) by (apply Rdiv_lt_0_compat; lra). assert (K1 : 4 / PI * (PI / 4) = 1) by (field; lra).
  split; [intros; nra|]. intros d Hd H. assert (K2 : 4 / PI <= 4 / 3) by (apply Rmult_le_compat_l; [lra|]; apply Rinv_le_contravar; lra). nra.
Qed.
Lemma series_product n m f g : series n (fun p => series m (fun q => f p * g q)) = series n f * series m g.
Proof.
  induction n as [|n IH]; cbn [series]; [ring|]. rewrite IH, (series_scal m (f n) g). ring.
Qed.
(** The prescribed temperature 1 is met in the middle of the hot side: up to 3 percent in the square, 13 percent in the cube. *)
Theorem C79_hot_side : (1 < steady2 (1 / 2) 1 <= 1 + 3 / 100) /\ (1 - 13 / 100 <= steady3 1 (1 / 2) (1 / 2) <= 1).
Proof.
  pose proof PI_3. split.
  - destruct C79_steady2 as (_ & _ & B0). rewrite (proj2 (B0 (1 / 2))). pose proof leibniz_25 as L2.
    assert (E : series 25 (fun p => 4 / (odd p * PI) * sin (odd p * PI * (1 / 2))) = 4 / PI * leibniz 25).
    { unfold leibniz. rewrite <- series_scal. apply series_ext. intros p _. rewrite sin_odd_half. pose proof (odd_pos p). field. split; lra. }
    rewrite E. pose proof (proj1 (leibniz_bounds 11)) as L1. change (S (S (2 * 11))) with 24%nat in L1.
    assert (L3 : leibniz 25 = leibniz 24 + 1 / 49) by (unfold leibniz; cbn [series]; unfold odd; cbn [INR pow]; field).
    assert (0 < 4 / PI) by (apply Rdiv_lt_0_compat; lra). assert (4 / PI * (PI / 4) = 1) by (field; lra).
    destruct (over_PI (leibniz 25)) as (_ & B). specialize (B (1 / 49)). rewrite (Rmax_left (1 / 49) 0) in B by lra. split; [nra|]. lra.
  - assert (E : steady3 1 (1 / 2) (1 / 2) = (4 / PI * leibniz 10) * (4 / PI * leibniz 10)).
    { unfold leibniz. rewrite <- series_scal, <- series_product. unfold steady3. apply series_ext. intros p _. apply series_ext. intros q _. cbv zeta.
      rewrite !sin_odd_half, Rmult_1_r. replace (lambda3 p q * (1 - 1)) with 0 by ring. rewrite sinh_0. pose proof (odd_pos p). pose proof (odd_pos q).
      assert (0 < sinh (lambda3 p q)). { apply sinh_pos. unfold lambda3. apply sqrt_lt_R0. 
        assert (K : forall a, 1 <= a -> 0 < a * a * PI * PI) by (intros a Ha; replace (a * a * PI * PI) with ((a * PI) ^ 2) by ring; apply pow_lt; nra).
        pose proof (K _ H0). pose proof (K _ H1). lra. }
      field. repeat split; lra. }
    rewrite E. pose proof (proj1 (leibniz_bounds 4)) as L1. pose proof (proj2 (leibniz_bounds 5)) as L2. change (S (S (2 * 4))) with 10%nat in L1. change (S (2 * 5)) with 11%nat in L2.
    assert (L3 : leibniz 11 = leibniz 10 + 1 / 21) by (unfold leibniz; cbn [series]; unfold odd; cbn [INR pow]; field).
    destruct (under_PI (leibniz 10)) as (A & B). specialize (A L1). specialize (B (1 / 21) ltac:(lra) ltac:(lra)). split; nra.
Qed.
Print Assumptions C79_hot_side.

(** The documented range of the temperature is [0, 1]; in the middle of the hot side it is exceeded. *)
Theorem C79_range_refuted : ~ (forall x y, 0 <= x <= 1 -> 0 <= y <= 1 -> 0 <= steady2 x y <= 1).
Proof.
  intros H. specialize (H (1 / 2) 1 ltac:(lra) ltac:(lra)).
  destruct C79_steady2 as (_ & _ & S). rewrite (proj2 (S (1 / 2))) in H. pose proof PI_3. pose proof leibniz_25.
  assert (E : series 25 (fun p => 4 / (odd p * PI) * sin (odd p * PI * (1 / 2))) = 4 / PI * leibniz 25).
  { unfold leibniz. rewrite <- series_scal. apply series_ext. intros p _. rewrite sin_odd_half. pose proof (odd_pos p). field. split; lra. }
  rewrite E in H. assert (4 / PI * (PI / 4) = 1) by (field; lra). assert (0 < 4 / PI) by (apply Rdiv_lt_0_compat; lra). nra.
Qed.
Print Assumptions C79_range_refuted.

(** ** C80 *)
Lemma sinh_superadditive a b : 0 <= a -> 0 <= b -> sinh a + sinh b <= sinh (a + b).
Proof.
  intros Ha Hb. unfold sinh. replace (- (a + b)) with (- a + - b) by ring. rewrite !exp_plus, (exp_Ropp a), (exp_Ropp b).
  pose proof (exp_ineq1_le a). pose proof (exp_ineq1_le b). set (u := exp a) in *. set (v := exp b) in *.
  assert (1 <= u) by lra. assert (1 <= v) by lra.
  assert (E : (u * v - / u * / v) / 2 - ((u - / u) / 2 + (v - / v) / 2) = (u - 1) * (v - 1) * (u * v - 1) / (2 * u * v)) by (field; split; lra).
  assert (0 <= (u - 1) * (v - 1) * (u * v - 1) / (2 * u * v)).
  { apply Rmult_le_pos; [repeat apply Rmult_le_pos; nra|]. left. apply Rinv_0_lt_compat. nra. }
  lra.
Qed.
Lemma sinh_nonneg x : 0 <= x -> 0 <= sinh x.
Proof. intros [H| <-]; [left; apply sinh_pos, H|rewrite sinh_0; lra]. Qed.

Theorem C80_fin Ta Tb h Tinf k perimeter section length : 0 < h * perimeter -> 0 < k * section -> 0 < length ->
  exists T T2 : R -> R,
    (forall x, fin x Ta Tb h Tinf k perimeter section length = Ok (T x)) /\
    twice T T2 /\ (forall x, k * section * T2 x = h * perimeter * (T x - Tinf)) /\
    T 0 = Ta /\ T length = Tb /\
    (forall x, 0 <= x <= length -> Rmin Tinf (Rmin Ta Tb) <= T x <= Rmax Tinf (Rmax Ta Tb)).
Proof.
  intros Hh Hk HL. set (r := h * perimeter / (k * section)). assert (Hr : 0 < r) by (apply Rdiv_lt_0_compat; assumption).
  set (m := sqrt r). assert (Hm : 0 < m) by (apply sqrt_lt_R0, Hr). assert (Em : m * m = r) by (apply sqrt_sqrt; lra).
  set (E := exp (m * length)). assert (HE : 1 < E) by (unfold E; rewrite <- exp_0; apply exp_increasing; nra).
  assert (E2 : exp (2 * m * length) = E * E) by (unfold E; rewrite <- exp_plus; f_equal; ring).
  set (c1 := - (E * Tb - E * E * Ta + Tinf * (E * E) - Tinf * E) / (E * E - 1)). set (c2 := (Ta - Tinf) - c1).
  assert (HEE : 0 < E * E - 1) by nra.
  set (T := fun x => Tinf + c1 * exp (- m * x) + c2 * exp (m * x)).
  assert (F : forall x, T x = Tinf + ((Ta - Tinf) * sinh (m * (length - x)) + (Tb - Tinf) * sinh (m * x)) / sinh (m * length)).
  { intros x. unfold T, c2, c1, sinh. replace (m * (length - x)) with (m * length + - (m * x)) by ring. replace (- (m * length + - (m * x))) with (- (m * length) + m * x) by ring.
    rewrite !exp_plus, !exp_Ropp. replace (- m * x) with (- (m * x)) by ring. rewrite exp_Ropp. fold E. set (X := exp (m * x)). assert (0 < X) by apply exp_pos.
    field. repeat split; try nra. }
  exists T, (fun x => m * m * (T x - Tinf)). repeat match goal with |- _ /\ _ => split end.
  - intros x. unfold fin, fdiv, fsqrt. destruct (Req_EM_T (k * section) 0) as [Z|_]; [lra|]. cbn [bind]. fold r.
    destruct (Rlt_dec r 0) as [Z|_]; [lra|]. cbn [bind]. fold m. rewrite E2. fold E.
    destruct (Req_EM_T (E * E - 1) 0) as [Z|_]; [lra|]. cbn [bind]. reflexivity.
  - exists (fun x => - m * c1 * exp (- m * x) + m * c2 * exp (m * x)). unfold T. split; intros x; auto_derive; trivial; ring.
  - intros x. rewrite Em. unfold r. field. split; intros Z; rewrite Z in Hk; lra.
  - unfold T, c2. rewrite !Rmult_0_r, exp_0. ring.
  - rewrite F. replace (m * (length - length)) with 0 by ring. rewrite sinh_0. field. pose proof (sinh_pos (m * length)). nra.
  - intros x Hx. rewrite F. assert (S : 0 < sinh (m * length)) by (apply sinh_pos; nra).
    set (a := sinh (m * (length - x)) / sinh (m * length)). set (b := sinh (m * x) / sinh (m * length)).
    assert (Ha : 0 <= a) by (apply Rmult_le_pos; [apply sinh_nonneg; nra|left; apply Rinv_0_lt_compat, S]).
    assert (Hb : 0 <= b) by (apply Rmult_le_pos; [apply sinh_nonneg; nra|left; apply Rinv_0_lt_compat, S]).
    assert (Hab : a + b <= 1).
    { unfold a, b. apply (Rmult_le_reg_r (sinh (m * length))); [exact S|]. rewrite Rmult_plus_distr_r. unfold Rdiv. rewrite !Rmult_assoc, !Rinv_l, !Rmult_1_r, Rmult_1_l by lra.
      replace (m * length) with (m * (length - x) + m * x) by ring. apply sinh_superadditive; nra. }
    replace (Tinf + ((Ta - Tinf) * sinh (m * (length - x)) + (Tb - Tinf) * sinh (m * x)) / sinh (m * length)) with ((1 - a - b) * Tinf + a * Ta + b * Tb) by (unfold a, b; field; lra).
    set (lo := Rmin Tinf (Rmin Ta Tb)). set (hi := Rmax Tinf (Rmax Ta Tb)).
    assert (lo <= Tinf /\ lo <= Ta /\ lo <= Tb) as (L1 & L2 & L3).
    { unfold lo. pose proof (Rmin_l Tinf (Rmin Ta Tb)). pose proof (Rmin_r Tinf (Rmin Ta Tb)). pose proof (Rmin_l Ta Tb). pose proof (Rmin_r Ta Tb). lra. }
    assert (Tinf <= hi /\ Ta <= hi /\ Tb <= hi) as (H1 & H2 & H3).
    { unfold hi. pose proof (Rmax_l Tinf (Rmax Ta Tb)). pose proof (Rmax_r Tinf (Rmax Ta Tb)). pose proof (Rmax_l Ta Tb). pose proof (Rmax_r Ta Tb). lra. }
    assert (0 <= (1 - a - b) * (Tinf - lo) /\ 0 <= (1 - a - b) * (hi - Tinf)) by (split; apply Rmult_le_pos; lra).
    assert (0 <= a * (Ta - lo) /\ 0 <= a * (hi - Ta)) by (split; apply Rmult_le_pos; lra).
    assert (0 <= b * (Tb - lo) /\ 0 <= b * (hi - Tb)) by (split; apply Rmult_le_pos; lra).
    split; lra.
Qed.
Print Assumptions C80_fin.

(** A beam of length 1 between 100 and 50 degrees in air of 20 degrees is nowhere colder than 20 nor hotter than 100. *)
Example C80_case : exists T : R -> R, (forall x, fin x 100 50 1 20 1 1 1 1 = Ok (T x)) /\ T 0 = 100 /\ T 1 = 50 /\ forall x, 0 <= x <= 1 -> 20 <= T x <= 100.
Proof.
  destruct (C80_fin 100 50 1 20 1 1 1 1) as (T & T2 & H & _ & _ & A & B & C); try lra. exists T. repeat split; auto; specialize (C x H0);
    unfold Rmin, Rmax in C; repeat destruct Rle_dec; lra.
Qed.

(** Without convection the formula divides zero by zero instead of giving the linear profile. *)
Theorem C80_no_convection_refuted : ~ (forall Ta Tb h Tinf k perimeter section length, 0 <= h * perimeter -> 0 < k * section -> 0 < length ->
  exists T, fin 0 Ta Tb h Tinf k perimeter section length = Ok T).
Proof.
  intros H. destruct (H 1 1 0 1 1 1 1 1) as (T & E); try lra. unfold fin, fdiv, fsqrt in E.
  destruct (Req_EM_T (1 * 1) 0) as [Z|_]; [lra|]. cbn [bind] in E. replace (0 * 1 / (1 * 1)) with 0 in E by field.
  destruct (Rlt_dec 0 0) as [Z|_]; [lra|]. cbn [bind] in E. rewrite sqrt_0 in E. replace (2 * 0 * 1) with 0 in E by ring. rewrite exp_0 in E.
  destruct (Req_EM_T (1 - 1) 0) as [_|Z]; [discriminate|lra].
Qed.
Print Assumptions C80_no_convection_refuted.

Lemma bis_loop_ext (f g : Q -> Q) tol n : (forall v, f v = g v) -> forall a b i, bis_loop f tol n a b i = bis_loop g tol n a b i.
Proof.
  intros H. induction n as [|n IH]; intros a b i; cbn [bis_loop]; rewrite !H; [reflexivity|].
  destruct (gtb (Qabs.Qabs (b - a)) tol); [|reflexivity]. destruct (if gtb _ 0 then _ else _) as (a', b'). apply IH.
Qed.
(** The text of the equation names Tb and x, the names that are defined are Tb1 and x1, and the search clears the table anyway: whatever the data, the search ends at
    the lower end of its interval. At x = 0 the temperature should be Tb. *)
Theorem C80_radiation_refuted : forall (E : Type) (sem : E -> list (Z * Q) -> option Q) (equation : E) (T nameTb : Z) (f : func E),
  (forall names, ~ In nameTb (map fst names) -> sem equation names = None) -> T <> nameTb ->
  forall x h e k perimeter section, (radiation sem equation T f x 100 h e k perimeter section < 1 # 1000000)%Q.
Proof.
  intros E sem equation T nameTb f Hsem HT x h e k perimeter section. unfold radiation, root, bisection. cbv zeta.
  rewrite (bis_loop_ext _ (fun _ => 0%Q)); [vm_compute; reflexivity|].
  intros v. unfold fn_evaluate1. cbn [fst]. rewrite Hsem; [reflexivity|].
  unfold fn_define, fn_clear. cbn. intros [|[]]. congruence.
Qed.
Print Assumptions C80_radiation_refuted.

(** ** C81 *)
Lemma series_product3 n f g h : series n (fun p => series n (fun q => series n (fun r => f p * g q * h r))) = series n f * series n g * series n h.
Proof.
  rewrite <- (series_product n n f g). rewrite (Rmult_comm _ (series n h)), <- (series_scal n (series n h)).
  apply series_ext. intros p _. cbv beta. rewrite <- (series_scal n (series n h)). apply series_ext. intros q _. cbv beta.
  rewrite (series_scal n (f p * g q) h). apply Rmult_comm.
Qed.
(** One-dimensional factor of the solutions in the square and in the cube, with the alternating sign. *)
Definition slab (x t alpha : R) : R := series 50 (fun p => 4 / PI * (-1) ^ p / odd p * cos (odd p * PI * x) * exp (- (alpha * PI * PI * (odd p * odd p)) * t)).
(** The same without the sign. *)
Definition slab_unsigned (x t alpha : R) : R := series 50 (fun p => 4 / PI / odd p * cos (odd p * PI * x) * exp (- (alpha * PI * PI * (odd p * odd p)) * t)).
Lemma transient2_product x y t alpha : transient2 x y t alpha = slab x t alpha * slab y t alpha.
Proof.
  unfold transient2, slab. rewrite <- series_product. apply series_ext. intros p _. apply series_ext. intros q _. cbv zeta.
  pose proof (odd_pos p). pose proof (odd_pos q). pose proof PI_RGT_0. rewrite pow_add.
  replace (- (alpha * PI * PI * (odd p * odd p + odd q * odd q)) * t) with (- (alpha * PI * PI * (odd p * odd p)) * t + - (alpha * PI * PI * (odd q * odd q)) * t) by ring.
  rewrite exp_plus. field. repeat split; lra.
Qed.
Lemma transient3_product x y z t alpha : transient3 x y z t alpha = slab x t alpha * slab y t alpha * slab_unsigned z t alpha.
Proof.
  transitivity (series 50 (fun p => series 50 (fun q => series 50 (fun r =>
    4 / PI * (-1) ^ p / odd p * cos (odd p * PI * x) * exp (- (alpha * PI * PI * (odd p * odd p)) * t) *
    (4 / PI * (-1) ^ q / odd q * cos (odd q * PI * y) * exp (- (alpha * PI * PI * (odd q * odd q)) * t)) *
    (4 / PI / odd r * cos (odd r * PI * z) * exp (- (alpha * PI * PI * (odd r * odd r)) * t)))))).
  2: { exact (series_product3 50 (fun p => 4 / PI * (-1) ^ p / odd p * cos (odd p * PI * x) * exp (- (alpha * PI * PI * (odd p * odd p)) * t))
         (fun q => 4 / PI * (-1) ^ q / odd q * cos (odd q * PI * y) * exp (- (alpha * PI * PI * (odd q * odd q)) * t))
         (fun r => 4 / PI / odd r * cos (odd r * PI * z) * exp (- (alpha * PI * PI * (odd r * odd r)) * t))). }
  unfold transient3. apply series_ext. intros p _. apply series_ext. intros q _. apply series_ext. intros r _. cbv zeta.
  pose proof (odd_pos p). pose proof (odd_pos q). pose proof (odd_pos r). pose proof PI_RGT_0. rewrite pow_add.
  replace (- (alpha * PI * PI * (odd p * odd p + odd q * odd q + odd r * odd r)) * t) with
    (- (alpha * PI * PI * (odd p * odd p)) * t + (- (alpha * PI * PI * (odd q * odd q)) * t + - (alpha * PI * PI * (odd r * odd r)) * t)) by ring.
  rewrite !exp_plus. field. repeat split; lra.
Qed.

(** Any sum of modes solves the one-dimensional heat equation. *)
Lemma modes_heat n (c l : nat -> R) (alpha : R) :
  let T := fun x t => series n (fun p => c p * exp (- (alpha * (l p * l p)) * t) * cos (l p * x)) in
  exists Tt Txx : R -> R -> R, (forall x t, is_derive (fun t => T x t) t (Tt x t)) /\ (forall t, twice (fun x => T x t) (fun x => Txx x t)) /\ (forall x t, Tt x t = alpha * Txx x t).
Proof.
  intros T. exists (fun x t => series n (fun p => - (alpha * (l p * l p)) * (c p * exp (- (alpha * (l p * l p)) * t) * cos (l p * x)))),
    (fun x t => series n (fun p => - (l p * l p) * (c p * exp (- (alpha * (l p * l p)) * t) * cos (l p * x)))).
  split; [|split].
  - intros x t. unfold T. apply (derive_series n (fun p t => c p * exp (- (alpha * (l p * l p)) * t) * cos (l p * x)) (fun p t => - (alpha * (l p * l p)) * (c p * exp (- (alpha * (l p * l p)) * t) * cos (l p * x)))).
    intros p _. auto_derive; trivial. ring.
  - intros t. unfold T. apply (twice_series n (fun p x => c p * exp (- (alpha * (l p * l p)) * t) * cos (l p * x)) (fun p x => - (l p * l p) * (c p * exp (- (alpha * (l p * l p)) * t) * cos (l p * x)))).
    intros p _. apply (twice_ext _ _ _ _ (twice_scal (c p * exp (- (alpha * (l p * l p)) * t)) _ _ (twice_cos (l p)))); intros x; cbv beta; ring.
  - intros x t. rewrite <- series_scal. apply series_ext. intros p _. ring.
Qed.
(** The temperature and its partial derivatives. *)
Definition solves_heat1 (alpha : R) (T : R -> R -> R) : Prop :=
  exists Tt Txx : R -> R -> R, (forall x t, is_derive (fun t => T x t) t (Tt x t)) /\ (forall t, twice (fun x => T x t) (fun x => Txx x t)) /\ (forall x t, Tt x t = alpha * Txx x t).
Lemma solves_ext alpha T U : (forall x t, T x t = U x t) -> solves_heat1 alpha T -> solves_heat1 alpha U.
Proof.
  intros E (Tt & Txx & A & B & C). exists Tt, Txx. split; [|split; [|exact C]].
  - intros x t. apply (is_derive_ext (fun t => T x t)); [intros; apply E|apply A].
  - intros t. eapply twice_ext; [apply B| |]; intros x; [apply E|reflexivity].
Qed.
Lemma slab_heat alpha : solves_heat1 alpha (fun x t => slab x t alpha).
Proof.
  apply (solves_ext alpha (fun x t => series 50 (fun p => 4 / PI * (-1) ^ p / odd p * exp (- (alpha * (odd p * PI * (odd p * PI))) * t) * cos (odd p * PI * x)))).
  - intros x t. unfold slab. apply series_ext. intros p _.
    replace (- (alpha * PI * PI * (odd p * odd p)) * t) with (- (alpha * (odd p * PI * (odd p * PI))) * t) by ring. ring.
  - exact (modes_heat 50 (fun p => 4 / PI * (-1) ^ p / odd p) (fun p => odd p * PI) alpha).
Qed.
Lemma slab_unsigned_heat alpha : solves_heat1 alpha (fun x t => slab_unsigned x t alpha).
Proof.
  apply (solves_ext alpha (fun x t => series 50 (fun p => 4 / PI / odd p * exp (- (alpha * (odd p * PI * (odd p * PI))) * t) * cos (odd p * PI * x)))).
  - intros x t. unfold slab_unsigned. apply series_ext. intros p _.
    replace (- (alpha * PI * PI * (odd p * odd p)) * t) with (- (alpha * (odd p * PI * (odd p * PI))) * t) by ring. ring.
  - exact (modes_heat 50 (fun p => 4 / PI / odd p) (fun p => odd p * PI) alpha).
Qed.
Lemma slab_ends t alpha : slab (1 / 2) t alpha = 0 /\ slab (- (1 / 2)) t alpha = 0 /\ slab_unsigned (1 / 2) t alpha = 0 /\ slab_unsigned (- (1 / 2)) t alpha = 0.
Proof.
  unfold slab, slab_unsigned. split; [|split; [|split]]; apply series_zero; intros p _;
    try (replace (odd p * PI * - (1 / 2)) with (- (odd p * PI * (1 / 2))) by ring; rewrite cos_neg); rewrite cos_odd_half; ring.
Qed.

(** A bar of length 1: no flux at x = 0, temperature 0 at x = 1. *)
Theorem C81_transient1 alpha :
  solves_heat1 alpha (fun x t => transient1 x t alpha) /\
  (forall t, is_derive (fun x => transient1 x t alpha) 0 0) /\ (forall t, transient1 1 t alpha = 0) /\
  1 <= transient1 0 0 alpha <= 1 + 1 / 100.
Proof.
  assert (E : forall i, 2 * INR (S i) - 1 = odd i) by (intros i; unfold odd; rewrite S_INR; ring).
  split; [|split; [|split]].
  - apply (solves_ext alpha (fun x t => series 99 (fun i => 4 / PI * (-1) ^ (S i + 1) / odd i * exp (- (alpha * (odd i * PI * (1 / 2) * (odd i * PI * (1 / 2)))) * t) * cos (odd i * PI * (1 / 2) * x)))).
    + intros x t. unfold transient1. apply series_ext. intros i _. cbv zeta. rewrite E.
      replace (- alpha * (odd i * PI * (1 / 2)) * (odd i * PI * (1 / 2)) * t) with (- (alpha * (odd i * PI * (1 / 2) * (odd i * PI * (1 / 2)))) * t) by ring. reflexivity.
    + exact (modes_heat 99 (fun i => 4 / PI * (-1) ^ (S i + 1) / odd i) (fun i => odd i * PI * (1 / 2)) alpha).
  - intros t. unfold transient1.
    replace 0 with (series 99 (fun i => 0)) at 2 by (apply series_zero; reflexivity).
    apply (derive_series 99 (fun i x => let p := S i in let l := (2 * INR p - 1) * PI * (1 / 2) in 4 / PI * (-1) ^ (p + 1) / (2 * INR p - 1) * exp (- alpha * l * l * t) * cos (l * x)) (fun i x => 0)).
    intros i _. cbv zeta. rewrite E. auto_derive; trivial. rewrite Rmult_0_r, sin_0. ring.
  - intros t. unfold transient1. apply series_zero. intros i _. cbv zeta. rewrite E, Rmult_1_r, cos_odd_half. ring.
  - assert (E1 : transient1 0 0 alpha = 4 / PI * leibniz 99).
    { unfold transient1, leibniz. rewrite <- series_scal. apply series_ext. intros i _. cbv zeta. rewrite E, !Rmult_0_r, cos_0, exp_0.
      pose proof (odd_pos i). pose proof PI_3. replace (S i + 1)%nat with (2 + i)%nat by lia. rewrite pow_add. field. split; lra. }
    rewrite E1. assert (L3 : leibniz 99 = leibniz 98 + 1 / 197).
    { unfold leibniz. change 99%nat with (S 98) at 1. cbn [series]. f_equal. replace ((-1) ^ 98) with 1 by (cbn [pow]; ring). unfold odd. replace (INR 98) with 98 by (rewrite INR_IZR_INZ; reflexivity). field. }
    pose proof (proj1 (leibniz_bounds 48)) as L1. pose proof (proj2 (leibniz_bounds 49)) as L2. change (S (S (2 * 48))) with 98%nat in L1. change (S (2 * 49)) with 99%nat in L2.
    pose proof PI_3. destruct (over_PI (leibniz 99)) as (A & B). specialize (B (1 / 197)). rewrite (Rmax_left (1 / 197) 0) in B by lra. split; lra.
Qed.
Print Assumptions C81_transient1.

(** The square with centre 0 and side 1, temperature 0 on its sides. The initial temperature 1 is met in the centre up to 1/25. *)
Theorem C81_transient2 alpha :
  (exists Tt Txx Tyy : R -> R -> R -> R,
     (forall x y t, is_derive (fun t => transient2 x y t alpha) t (Tt x y t)) /\
     (forall y t, twice (fun x => transient2 x y t alpha) (fun x => Txx x y t)) /\ (forall x t, twice (fun y => transient2 x y t alpha) (fun y => Tyy x y t)) /\
     (forall x y t, Tt x y t = alpha * (Txx x y t + Tyy x y t))) /\
  (forall s t, transient2 (1 / 2) s t alpha = 0 /\ transient2 (- (1 / 2)) s t alpha = 0 /\ transient2 s (1 / 2) t alpha = 0 /\ transient2 s (- (1 / 2)) t alpha = 0) /\
  (forall x y t, transient2 x y t alpha = transient2 y x t alpha) /\
  (1 - 1 / 25 <= transient2 0 0 0 alpha <= 1).
Proof.
  destruct (slab_heat alpha) as (St & Sxx & A & B & C). split; [|split; [|split]].
  - exists (fun x y t => St x t * slab y t alpha + slab x t alpha * St y t), (fun x y t => slab y t alpha * Sxx x t), (fun x y t => slab x t alpha * Sxx y t).
    split; [|split; [|split]].
    + intros x y t. apply (is_derive_ext (fun t => slab x t alpha * slab y t alpha)); [intros s; symmetry; apply transient2_product|].
      apply (is_derive_mult (fun t => slab x t alpha) (fun t => slab y t alpha) t (St x t) (St y t) (A x t) (A y t)). intros; apply Rmult_comm.
    + intros y t. eapply twice_ext; [apply (twice_scal (slab y t alpha)); apply (B t)| |]; intros x; [rewrite transient2_product; apply Rmult_comm|reflexivity].
    + intros x t. eapply twice_ext; [apply (twice_scal (slab x t alpha)); apply (B t)| |]; intros y; [rewrite transient2_product; reflexivity|reflexivity].
    + intros x y t. rewrite !C. ring.
  - intros s t. rewrite !transient2_product. destruct (slab_ends t alpha) as (-> & -> & _). repeat split; ring.
  - intros x y t. rewrite !transient2_product. ring.
  - rewrite transient2_product. pose proof PI_3.
    assert (E : slab 0 0 alpha = 4 / PI * leibniz 50).
    { unfold slab, leibniz. rewrite <- series_scal. apply series_ext. intros p _. rewrite !Rmult_0_r, cos_0, exp_0. pose proof (odd_pos p). field. split; lra. }
    rewrite E. pose proof (proj1 (leibniz_bounds 24)) as L1. pose proof (proj2 (leibniz_bounds 25)) as L2. change (S (S (2 * 24))) with 50%nat in L1. change (S (2 * 25)) with 51%nat in L2.
    assert (L3 : leibniz 51 = leibniz 50 + 1 / 101) by (unfold leibniz; cbn [series]; unfold odd; cbn [INR pow]; field).
    set (s := 4 / PI * leibniz 50). assert (K : 0 < 4 / PI) by (apply Rdiv_lt_0_compat; lra).
    assert (K1 : 4 / PI * (PI / 4) = 1) by (field; lra). assert (K2 : 4 / PI * (1 / 101) <= 4 / 3 * (1 / 101)).
    { apply Rmult_le_compat_r; [lra|]. apply Rmult_le_compat_l; [lra|]. apply Rinv_le_contravar; lra. }
    assert (s <= 1) by (unfold s; nra). assert (1 - 4 / 3 * (1 / 101) <= s) by (unfold s; nra). split; nra.
Qed.
Print Assumptions C81_transient2.

(** The cube: heat equation and boundary values hold. *)
Theorem C81_transient3 alpha :
  (exists Tt Txx Tyy Tzz : R -> R -> R -> R -> R,
     (forall x y z t, is_derive (fun t => transient3 x y z t alpha) t (Tt x y z t)) /\
     (forall y z t, twice (fun x => transient3 x y z t alpha) (fun x => Txx x y z t)) /\ (forall x z t, twice (fun y => transient3 x y z t alpha) (fun y => Tyy x y z t)) /\
     (forall x y t, twice (fun z => transient3 x y z t alpha) (fun z => Tzz x y z t)) /\
     (forall x y z t, Tt x y z t = alpha * (Txx x y z t + Tyy x y z t + Tzz x y z t))) /\
  (forall r s t e, e = 1 / 2 \/ e = - (1 / 2) -> transient3 e r s t alpha = 0 /\ transient3 r e s t alpha = 0 /\ transient3 r s e t alpha = 0).
Proof.
  destruct (slab_heat alpha) as (St & Sxx & A & B & C). destruct (slab_unsigned_heat alpha) as (Ut & Uxx & A' & B' & C'). split.
  - exists (fun x y z t => (St x t * slab y t alpha + slab x t alpha * St y t) * slab_unsigned z t alpha + slab x t alpha * slab y t alpha * Ut z t),
      (fun x y z t => slab y t alpha * slab_unsigned z t alpha * Sxx x t), (fun x y z t => slab x t alpha * slab_unsigned z t alpha * Sxx y t), (fun x y z t => slab x t alpha * slab y t alpha * Uxx z t).
    split; [|split; [|split; [|split]]].
    + intros x y z t. apply (is_derive_ext (fun t => slab x t alpha * slab y t alpha * slab_unsigned z t alpha)); [intros s; symmetry; apply transient3_product|].
      apply (is_derive_mult (fun t => slab x t alpha * slab y t alpha) (fun t => slab_unsigned z t alpha) t); [|apply A'|intros; apply Rmult_comm].
      apply (is_derive_mult (fun t => slab x t alpha) (fun t => slab y t alpha) t (St x t) (St y t) (A x t) (A y t)). intros; apply Rmult_comm.
    + intros y z t. eapply twice_ext; [apply (twice_scal (slab y t alpha * slab_unsigned z t alpha)); apply (B t)| |]; intros x; [rewrite transient3_product; cbv beta; ring|reflexivity].
    + intros x z t. eapply twice_ext; [apply (twice_scal (slab x t alpha * slab_unsigned z t alpha)); apply (B t)| |]; intros y; [rewrite transient3_product; cbv beta; ring|reflexivity].
    + intros x y t. eapply twice_ext; [apply (twice_scal (slab x t alpha * slab y t alpha)); apply (B' t)| |]; intros z; [rewrite transient3_product; cbv beta; ring|reflexivity].
    + intros x y z t. rewrite !C, C'. ring.
  - intros r s t e He. rewrite !transient3_product. destruct (slab_ends t alpha) as (E1 & E2 & E3 & E4).
    destruct He as [-> | ->]; rewrite ?E1, ?E2, ?E3, ?E4; repeat split; ring.
Qed.
Print Assumptions C81_transient3.

Lemma series_le n m f : (forall p, 0 <= f p) -> (n <= m)%nat -> series n f <= series m f.
Proof. intros H L. induction L as [|m L IH]; [lra|]. cbn [series]. pose proof (H m). lra. Qed.
(** The initial temperature of the cube is not 1: the sign of the third index is missing. In the centre it starts above 3/2. *)
Theorem C81_initial3_refuted alpha : 3 / 2 < transient3 0 0 0 0 alpha.
Proof.
  rewrite transient3_product. destruct (C81_transient2 alpha) as (_ & _ & _ & H & _). rewrite transient2_product in H. pose proof PI_3. pose proof PI_4.
  assert (E : slab_unsigned 0 0 alpha = 4 / PI * series 50 (fun p => / odd p)).
  { unfold slab_unsigned. rewrite <- series_scal. apply series_ext. intros p _. rewrite !Rmult_0_r, cos_0, exp_0. pose proof (odd_pos p). field. split; lra. }
  assert (K : 1 <= 4 / PI) by (apply (Rmult_le_reg_r PI); [lra|]; replace (4 / PI * PI) with 4 by (field; lra); lra).
  assert (L : 2 <= series 50 (fun p => / odd p)).
  { apply Rle_trans with (series 8 (fun p => / odd p)).
    - cbn [series]. unfold odd. cbn [INR]. lra.
    - apply series_le; [|lia]. intros p. pose proof (odd_pos p). left. apply Rinv_0_lt_compat. lra. }
  rewrite E. set (s := slab 0 0 alpha * slab 0 0 alpha) in *. assert (2 <= 4 / PI * series 50 (fun p => / odd p)) by nra. nra.
Qed.
Print Assumptions C81_initial3_refuted.

(** ** C82 *)
(** The fraction of the second exponential, as a function of its exponent. *)
Definition logistic (s : R) : R := / (1 + exp s).
Lemma logistic_derive s : is_derive logistic s (- (logistic s * (1 - logistic s))).
Proof. unfold logistic. pose proof (exp_pos s). auto_derive; [lra|]. field. lra. Qed.
Definition theta (x t L mu : R) : R := (L * L - 2 * L * (x - 4 * t)) / (4 * mu * (t + 1)).
(** The velocity for vanishing spacing. *)
Definition velocity (x t L mu : R) : R := 4 + (x - 4 * t) / (t + 1) - L / (t + 1) * logistic (theta x t L mu).

Lemma phi_pos x t L mu : 0 < phi x t L mu.
Proof. unfold phi. pose proof (exp_pos (- (x - 4 * t) * (x - 4 * t) / (4 * mu * (t + 1)))). pose proof (exp_pos (- (x - 4 * t - L) * (x - 4 * t - L) / (4 * mu * (t + 1)))). lra. Qed.

Lemma burgers_lim L mu x t : 0 < mu -> -1 < t -> is_lim (fun dx => burgers x dx t L mu) 0 (velocity x t L mu).
Proof.
  intros Hmu Ht.
    assert (D : is_derive (fun y => phi y t L mu) x ((4 - velocity x t L mu) / (2 * mu) * phi x t L mu)).
    { unfold phi. auto_derive; [repeat split; nra|]. unfold velocity, logistic.
      set (a := exp (- (x - 4 * t) * (x - 4 * t) / (4 * mu * (t + 1)))). set (b := exp (- (x - 4 * t - L) * (x - 4 * t - L) / (4 * mu * (t + 1)))).
      assert (Ha : 0 < a) by apply exp_pos. assert (Hb : 0 < b) by apply exp_pos.
      assert (Et : exp (theta x t L mu) = a / b).
      { unfold a, b, Rdiv. rewrite <- exp_Ropp, <- exp_plus. f_equal. unfold theta. field. lra. }
      rewrite Et.
      repeat match goal with |- context [exp ?e] => first [replace (exp e) with a by (unfold a; f_equal; unfold Rminus; field; lra) | replace (exp e) with b by (unfold b; f_equal; unfold Rminus; field; lra)] end.
      field. repeat split; nra. }
    apply is_lim_spec. intros eps. apply is_derive_Reals in D. specialize (D (eps * phi x t L mu / (2 * mu))).
    pose proof (phi_pos x t L mu) as P0. destruct D as (del & D).
    { apply Rdiv_lt_0_compat; [apply Rmult_lt_0_compat; [apply eps|exact P0]|lra]. }
    exists del. intros dx Hdx Hne. specialize (D dx Hne). unfold ball in Hdx. cbn in Hdx. unfold AbsRing_ball, abs, minus, plus, opp in Hdx. cbn in Hdx.
    rewrite Ropp_0, Rplus_0_r in Hdx. specialize (D Hdx). unfold burgers. cbv zeta.
    replace (- 2 * mu / phi x t L mu * (phi (x + dx) t L mu - phi x t L mu) / dx + 4 - velocity x t L mu) with
      (- (2 * mu / phi x t L mu) * ((phi (x + dx) t L mu - phi x t L mu) / dx - (4 - velocity x t L mu) / (2 * mu) * phi x t L mu)) by (field; repeat split; lra).
    rewrite Rabs_mult, Rabs_Ropp, (Rabs_pos_eq (2 * mu / phi x t L mu)) by (left; apply Rdiv_lt_0_compat; lra).
    apply (Rmult_lt_compat_l (2 * mu / phi x t L mu)) in D; [|apply Rdiv_lt_0_compat; lra].
    replace (2 * mu / phi x t L mu * (eps * phi x t L mu / (2 * mu))) with (pos eps) in D by (field; split; lra). exact D.
Qed.

(** As the spacing goes to zero the values tend to a function that satisfies u_t + u u_x = mu u_xx. *)
Theorem C82_burgers L mu : 0 < mu ->
  exists u ut ux uxx : R -> R -> R, forall x t, -1 < t ->
    is_lim (fun dx => burgers x dx t L mu) 0 (u x t) /\
    is_derive (fun t => u x t) t (ut x t) /\ is_derive (fun x => u x t) x (ux x t) /\ is_derive (fun x => ux x t) x (uxx x t) /\
    ut x t + u x t * ux x t = mu * uxx x t.
Proof.
  intros Hmu.
  set (w := fun x t => logistic (theta x t L mu)).
  exists (fun x t => velocity x t L mu),
    (fun x t => - 4 / (t + 1) - (x - 4 * t) / (t + 1) ^ 2 + L / (t + 1) ^ 2 * w x t + L / (t + 1) * (w x t * (1 - w x t)) * (8 * L / (4 * mu * (t + 1)) - (L * L - 2 * L * (x - 4 * t)) / (4 * mu * (t + 1) ^ 2))),
    (fun x t => / (t + 1) - L * L / (2 * mu * (t + 1) ^ 2) * (w x t * (1 - w x t))),
    (fun x t => - (L * L * L) / (4 * mu * mu * (t + 1) ^ 3) * (1 - 2 * w x t) * (w x t * (1 - w x t))).
  intros x t Ht.
  assert (Dx : is_derive (fun x => w x t) x (L / (2 * mu * (t + 1)) * (w x t * (1 - w x t)))).
  { unfold w. replace (L / (2 * mu * (t + 1)) * (logistic (theta x t L mu) * (1 - logistic (theta x t L mu)))) with
      (scal (- (2 * L) / (4 * mu * (t + 1))) (- (logistic (theta x t L mu) * (1 - logistic (theta x t L mu))))) by (unfold scal; cbn; unfold mult; cbn; field; lra).
    apply (is_derive_comp logistic (fun x => theta x t L mu)); [apply logistic_derive|]. unfold theta. auto_derive; [|field]; lra. }
  assert (Dt : is_derive (fun t => w x t) t (- (w x t * (1 - w x t)) * (8 * L / (4 * mu * (t + 1)) - (L * L - 2 * L * (x - 4 * t)) / (4 * mu * (t + 1) ^ 2)))).
  { unfold w. replace (- (logistic (theta x t L mu) * (1 - logistic (theta x t L mu))) * (8 * L / (4 * mu * (t + 1)) - (L * L - 2 * L * (x - 4 * t)) / (4 * mu * (t + 1) ^ 2))) with
      (scal (8 * L / (4 * mu * (t + 1)) - (L * L - 2 * L * (x - 4 * t)) / (4 * mu * (t + 1) ^ 2)) (- (logistic (theta x t L mu) * (1 - logistic (theta x t L mu))))) by (unfold scal; cbn; unfold mult; cbn; ring).
    apply (is_derive_comp logistic (fun t => theta x t L mu)); [apply logistic_derive|]. unfold theta. auto_derive; [nra|]. field. lra. }
  repeat match goal with |- _ /\ _ => split end.
  - apply burgers_lim; assumption.
  - unfold velocity. change (logistic (theta x t L mu)) with (w x t). 
    apply (is_derive_ext (fun t => (4 + (x - 4 * t) / (t + 1)) - L / (t + 1) * w x t)); [reflexivity|].
    evar_last. { apply (is_derive_minus (fun t => 4 + (x - 4 * t) / (t + 1)) (fun t => L / (t + 1) * w x t)); [auto_derive; [lra|reflexivity]|].
      apply (is_derive_mult (fun t => L / (t + 1)) (fun t => w x t)); [auto_derive; [lra|reflexivity]|exact Dt|intros; apply Rmult_comm]. }
    unfold minus, plus, opp, mult. cbn. unfold mult. cbn. field. lra.
  - apply (is_derive_ext (fun x => (4 + (x - 4 * t) / (t + 1)) - L / (t + 1) * w x t)); [reflexivity|].
    evar_last. { apply (is_derive_minus (fun x => 4 + (x - 4 * t) / (t + 1)) (fun x => L / (t + 1) * w x t)); [auto_derive; [trivial|reflexivity]|].
      apply (is_derive_scal (fun x => w x t) x (L / (t + 1))), Dx. }
    unfold minus, plus, opp, scal. cbn. unfold mult. cbn. field. lra.
  - evar_last. { apply (is_derive_minus (fun x => / (t + 1)) (fun x => L * L / (2 * mu * (t + 1) ^ 2) * (w x t * (1 - w x t)))); [auto_derive; [trivial|reflexivity]|].
      apply (is_derive_scal (fun x => w x t * (1 - w x t)) x (L * L / (2 * mu * (t + 1) ^ 2))).
      apply (is_derive_mult (fun x => w x t) (fun x => 1 - w x t)); [exact Dx| |intros; apply Rmult_comm].
      apply (is_derive_minus (fun x => 1) (fun x => w x t)); [auto_derive; [trivial|reflexivity]|exact Dx]. }
    unfold minus, plus, opp, scal, mult. cbn. unfold mult. cbn. field. lra.
  - unfold velocity. fold (w x t). field. lra.
Qed.
Print Assumptions C82_burgers.
(** With equal bumps (L = 0) and mu = 1 the velocity at time 0 rises from 4 in x = 0 to 5 in x = 1. *)
Example C82_case : is_lim (fun dx => burgers 0 dx 0 0 1) 0 4 /\ is_lim (fun dx => burgers 1 dx 0 0 1) 0 5.
Proof.
  split; [replace (Finite 4) with (Finite (velocity 0 0 0 1))|replace (Finite 5) with (Finite (velocity 1 0 0 1))]; try (apply burgers_lim; lra); f_equal; unfold velocity; field.
Qed.
