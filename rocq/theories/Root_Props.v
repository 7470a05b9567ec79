(** Properties C52, C53 and C72: root finding and function objects. *)
From Coq Require Import QArith Qabs Qpower ZArith List Lia Lqa Bool Setoid.
From Verif Require Import Prelude Root_Model Root_Proofs.
Import ListNotations.
Open Scope Q_scope.

Lemma half_power n : half n == / 2 ^ Z.of_nat n.
Proof.
  induction n as [|n IH]; [reflexivity|]. cbn [half]. rewrite IH, Nat2Z.inj_succ. unfold Z.succ. rewrite Qpower_plus by discriminate. rewrite Qinv_mult_distr. reflexivity.
Qed.

(** ** C52 *)
(** The value returned is the midpoint of an interval inside the given one over which the function still changes sign; the interval has
    been halved n times, n at most nmax + 1, and as often as needed unless the limit was reached. *)
Theorem C52_bisection : forall f lower upper nmax tol x n, (0 <= nmax)%Z -> f lower * f upper <= 0 ->
  bisection f lower upper nmax tol = (x, n) ->
  (0 <= n <= nmax + 1)%Z /\
  exists a b, between lower upper a /\ between lower upper b /\ f a * f b <= 0 /\ x == (a + b) / 2 /\
    b - a == (upper - lower) / 2 ^ n /\
    (n = (nmax + 1)%Z \/ Qabs (b - a) <= tol) /\
    (forall k, (0 <= k < n)%Z -> tol < Qabs (upper - lower) / 2 ^ k).
Proof.
  intros f lower upper nmax tol x n Hm Hs E. unfold bisection in E. destruct (bis_loop f tol (Z.to_nat nmax) lower upper 0) as [[a b] i] eqn:L. injection E as <- <-.
  destruct (bis_loop_spec f tol _ _ _ _ _ _ _ Hs L) as (m & Hi & Hle & A & B & W & Sg & T & K). rewrite Z.add_0_l in Hi. subst i. split; [lia|]. exists a, b.
  repeat (split; [first [assumption|reflexivity]|]). split; [rewrite W, half_power; reflexivity|]. split; [destruct T as [T|T]; [left; lia|now right]|].
  intros k Hk. specialize (K (Z.to_nat k) ltac:(lia)). rewrite half_power, Z2Nat.id in K by lia. exact K.
Qed.
Print Assumptions C52_bisection.

(** If the function changes sign at r only, the returned value is within |upper - lower| / 2^(n+1) of r. *)
Theorem C52_error : forall f lower upper nmax tol x n r, (0 <= nmax)%Z -> between lower upper r ->
  (forall y z, y < r -> r < z -> f y * f z < 0) -> (forall y z, y < r -> z < r -> 0 < f y * f z) -> (forall y z, r < y -> r < z -> 0 < f y * f z) ->
  f lower * f upper <= 0 -> bisection f lower upper nmax tol = (x, n) ->
  Qabs (x - r) <= Qabs (upper - lower) / 2 ^ (n + 1).
Proof.
  intros f lower upper nmax tol x n r Hm Hr D L R Hs E. destruct (C52_bisection f lower upper nmax tol x n Hm Hs E) as (Hn & a & b & A & B & Sg & X & W & _).
  assert (Br : between a b r).
  { unfold between. destruct (Qlt_le_dec r a); destruct (Qlt_le_dec r b); destruct (Qlt_le_dec a r); destruct (Qlt_le_dec b r); try (left; lra); try (right; lra); exfalso.
    - specialize (R a b ltac:(lra) ltac:(lra)). lra.
    - specialize (L a b ltac:(lra) ltac:(lra)). lra. }
  assert (P : 2 ^ (n + 1) == 2 ^ n * 2) by (apply Qpower_plus; discriminate). rewrite P. assert (Pn : 0 < 2 ^ n) by (apply Qpower_0_lt; reflexivity).
  assert (G : Qabs (upper - lower) / (2 ^ n * 2) == Qabs (b - a) * (1 # 2)).
  { rewrite W. unfold Qdiv. rewrite Qinv_mult_distr, Qabs_Qmult. rewrite (Qabs_pos (/ 2 ^ n)) by (apply Qlt_le_weak, Qinv_lt_0_compat, Pn). change (/ 2) with (1 # 2). ring. }
  rewrite G, X. unfold Qdiv. change (/ 2) with (1 # 2). apply Qabs_case; intros; apply Qabs_case; intros; unfold between in Br; lra.
Qed.
Print Assumptions C52_error.

(** Without a sign change bisection reports nothing: for a function that is positive everywhere it closes in on the upper bound. *)
Theorem C52_no_sign_change : forall f lower upper nmax tol x n, (0 <= nmax)%Z -> (forall y, 0 < f y) ->
  bisection f lower upper nmax tol = (x, n) -> (0 <= n <= nmax + 1)%Z /\ x == upper - (upper - lower) / 2 ^ (n + 1).
Proof.
  intros f lower upper nmax tol x n Hm Hp E. unfold bisection in E. destruct (bis_loop f tol (Z.to_nat nmax) lower upper 0) as [[a b] i] eqn:L. injection E as <- <-.
  assert (G : forall rem a b i a' b' i', bis_loop f tol rem a b i = (a', b', i') -> exists m, i' = (i + Z.of_nat m)%Z /\ (m <= S rem)%nat /\ b' = b /\ b' - a' == (b - a) * half m).
  { assert (Pr : forall a s, gtb (f a * f s) 0 = true) by (intros a0 s; destruct (gtb_spec (f a0 * f s) 0) as [|N]; [reflexivity|]; exfalso; pose proof (Hp a0); pose proof (Hp s); nra).
    clear - Pr. induction rem as [|rem IH]; intros a b i a' b' i' E; cbn [bis_loop] in E; destruct (gtb (Qabs (b - a)) tol); rewrite ?Pr in E.
    - injection E as <- <- <-. exists 1%nat. cbn [half]. repeat split; lia || lra.
    - injection E as <- <- <-. exists 0%nat. cbn [half]. repeat split; lia || lra.
    - destruct (IH _ _ _ _ _ _ E) as (m & H1 & H2 & H3 & H4). exists (S m). cbn [half]. split; [lia|]. split; [lia|]. split; [exact H3|]. rewrite H4. ring.
    - injection E as <- <- <-. exists 0%nat. cbn [half]. repeat split; lia || lra. }
  destruct (G _ _ _ _ _ _ _ L) as (m & Hi & Hle & -> & W). rewrite Z.add_0_l in Hi. subst i. split; [lia|].
  assert (P : 2 ^ (Z.of_nat m + 1) == 2 ^ Z.of_nat m * 2) by (apply Qpower_plus; discriminate). rewrite P. unfold Qdiv. rewrite Qinv_mult_distr, <- half_power. change (/ 2) with (1 # 2).
  assert (W' : a == upper - (upper - lower) * half m) by lra. rewrite W'. ring.
Qed.
Print Assumptions C52_no_sign_change.

Example C52_case : let '(x, n) := bisection (fun x => x * x - 2) 1 2 20 (1 # 100) in x == 363 # 256 /\ n = 7%Z.
Proof. vm_compute. split; reflexivity. Qed.

(** ** C53 *)
(** With a strict sign change, brent returns a point x of the interval together with (unseen) another point a of it such that the function
    changes sign between them or vanishes at x, and is at x no larger in size than at a; it makes at most nmax + 1 passes and stops earlier
    only at a root or when the two points are within the tolerance. *)
Theorem C53_brent : forall f big lower upper nmax tol x n, (0 <= nmax)%Z -> f lower * f upper < 0 ->
  brent f big lower upper nmax tol = (x, n) ->
  between lower upper x /\
  exists k a, n = Some k /\ (0 <= k <= nmax + 1)%Z /\ between lower upper a /\
    (f a * f x < 0 \/ f x == 0) /\ Qabs (f x) <= Qabs (f a) /\
    (k = (nmax + 1)%Z \/ f x == 0 \/ Qabs (a - x) <= tol).
Proof.
  intros f big lower upper nmax tol x n Hm Hs E. unfold brent in E. destruct (ltb_spec (f lower * f upper) 0) as [_|C]; [|contradiction]. cbn [negb] in E.
  set (s := brent_swap _) in E.
  assert (Iv : binv f lower upper s).
  { unfold s. apply swap_inv; cbn [b_a b_b b_fa b_fb]; try reflexivity; try lra; try (unfold between; destruct (Qlt_le_dec lower upper); [left|right]; lra). }
  set (s1 := Brent (b_a s) (b_b s) (b_a s) (b_d s) (b_fa s) (b_fb s) (b_fa s) true) in E.
  assert (Iv1 : binv f lower upper s1) by exact Iv. clearbody s1. destruct (brent_loop f tol (Z.to_nat nmax) s1 0) as [r i] eqn:L. injection E as <- <-.
  destruct (brent_loop_spec f lower upper tol _ _ _ _ _ Iv1 L) as (m & Hi & Hle & (A & B & FA & FB & Sg & Le) & T). split; [exact B|]. exists i, (b_a r). rewrite <- FA, <- FB. split; [reflexivity|]. split; [lia|]. split; [exact A|]. split; [exact Sg|]. split; [exact Le|].
  destruct T as [T|T]; [left; lia|now right].
Qed.
Print Assumptions C53_brent.

(** Otherwise it returns the end with the smaller (signed) value and leaves nIterations unset. *)
Theorem C53_no_sign_change : forall f big lower upper nmax tol, 0 <= f lower * f upper ->
  exists x, brent f big lower upper nmax tol = (x, None) /\ (x = lower \/ x = upper) /\ f x <= f lower /\ f x <= f upper.
Proof.
  intros f big lower upper nmax tol Hs. unfold brent. destruct (ltb_spec (f lower * f upper) 0) as [C|_]; [lra|]. cbn [negb]. eexists. split; [reflexivity|]. destruct (ltb_spec (f lower) (f upper)); repeat split; auto; lra.
Qed.
Print Assumptions C53_no_sign_change.

(** So a root at the end of the interval can be missed, and the worse end returned. *)
Theorem C53_end_root_refuted : exists f big lower upper nmax tol x, lower < upper /\ f lower == 0 /\ brent f big lower upper nmax tol = (x, None) /\ ~ f x == 0.
Proof. exists (fun x => - x), 1000, 0, 1, 100%Z, (1 # 1000), 1. split; [reflexivity|]. split; [reflexivity|]. split; [reflexivity|]. discriminate. Qed.
Print Assumptions C53_end_root_refuted.

Example C53_case : let '(x, n) := brent (fun x => x * x - 2) 1000 1 2 3 (1 # 1000) in x == 364744 # 257913 /\ n = Some 4%Z.
Proof. vm_compute. split; reflexivity. Qed.

(** ** C72 *)
(** A constant function has its value whatever the variables... *)
Theorem C72_constant : forall E (sem : E -> list (Z * Q) -> option Q) f c, fn_evaluate sem (fn_set_constant f c) = Some c.
Proof. reflexivity. Qed.
Print Assumptions C72_constant.

(** Evaluating an expression with one variable gives its value with exactly that variable defined: all others are forgotten, now and for later. *)
Theorem C72_evaluate : forall E (sem : E -> list (Z * Q) -> option Q) f e x v r f', fn_evaluate1 sem (fn_set_expr f e) x v = (r, f') ->
  r = sem e [(x, v)] /\ fn_evaluate sem f' = sem e [(x, v)].
Proof. intros E sem f e x v r f' H. unfold fn_evaluate1 in H. cbn in H. injection H as <- <-. split; reflexivity. Qed.
Print Assumptions C72_evaluate.

(** Names as indices; an expression is a variable or a number: enough for counterexamples. *)
Definition tiny (e : Z + Q) (vars : list (Z * Q)) : option Q :=
  match e with inr c => Some c | inl x => match find (fun p => Z.eqb (fst p) x) vars with Some p => Some (snd p) | None => None end end.
(** ... but not when evaluated with a variable: then the expression set before counts, and root finding works on that. *)
Theorem C72_constant_refuted : exists (f : func (Z + Q)) x v, fst (fn_evaluate1 tiny (fn_set_constant f 3) x v) = Some v /\ ~ v == 3.
Proof. exists (fn_set_expr (Func 0 false (inr 0) []) (inl 1%Z)), 1%Z, 7. split; [reflexivity|discriminate]. Qed.
Print Assumptions C72_constant_refuted.
(** A second variable that was defined before is lost: the expression no longer compiles. *)
Theorem C72_variables_refuted : exists (f : func (Z + Q)) x y v w, x <> y /\ fn_evaluate tiny (fn_define f y w) = Some w /\ fst (fn_evaluate1 tiny (fn_define f y w) x v) = None.
Proof. exists (Func 0 false (inl 2%Z) []), 1%Z, 2%Z, 5, 6. split; [discriminate|]. split; reflexivity. Qed.
Print Assumptions C72_variables_refuted.

Example C72_case : fn_evaluate1 tiny (fn_set_expr (Func 0 true (inr 0) []) (inl 4%Z)) 4 (1 # 3) = (Some (1 # 3), Func 0 false (inl 4%Z) [(4%Z, 1 # 3)]).
Proof. reflexivity. Qed.
