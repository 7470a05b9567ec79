(** Lemmas on root finding. *)
From Coq Require Import QArith Qabs ZArith List Lia Lqa Bool Setoid.
From Verif Require Import Prelude Root_Model.
Open Scope Q_scope.

Lemma gtb_spec x y : reflect (y < x) (gtb x y).
Proof. unfold gtb. destruct (Qle_bool x y) eqn:E; cbn; constructor; [apply Qle_bool_iff in E; lra|]. apply Qnot_le_lt. intros H. apply Qle_bool_iff in H. congruence. Qed.
Lemma ltb_spec x y : reflect (x < y) (ltb x y).
Proof. unfold ltb. destruct (Qle_bool y x) eqn:E; cbn; constructor; [apply Qle_bool_iff in E; lra|]. apply Qnot_le_lt. intros H. apply Qle_bool_iff in H. congruence. Qed.

(** x lies between p and q, in either order. *)
Definition between (p q x : Q) : Prop := p <= x <= q \/ q <= x <= p.

Lemma Qabs_half x : Qabs (x * (1 # 2)) == Qabs x * (1 # 2).
Proof. rewrite Qabs_Qmult. reflexivity. Qed.

Fixpoint half (n : nat) : Q := match n with O => 1 | S k => half k * (1 # 2) end.
Lemma half_pos n : 0 < half n. Proof. induction n; cbn [half]; lra. Qed.

Lemma bis_loop_spec f tol : forall rem a b i a' b' i', f a * f b <= 0 -> bis_loop f tol rem a b i = (a', b', i') ->
  exists n, i' = (i + Z.of_nat n)%Z /\ (n <= S rem)%nat /\ between a b a' /\ between a b b' /\ b' - a' == (b - a) * half n /\ f a' * f b' <= 0 /\
    (n = S rem \/ Qabs (b' - a') <= tol) /\ (forall k, (k < n)%nat -> tol < Qabs (b - a) * half k).
Proof.
  induction rem as [|rem IH]; intros a b i a' b' i' Hs E; cbn [bis_loop] in E; destruct (gtb_spec (Qabs (b - a)) tol) as [L|L].
  - set (s := (a + b) * (1 # 2)) in *. assert (Bs : between a b s) by (unfold between, s; destruct (Qlt_le_dec a b); [left|right]; lra).
    destruct (gtb_spec (f a * f s) 0) as [G|G]; injection E as <- <- <-; exists 1%nat; (split; [lia|]); (split; [lia|]); cbn [half].
    + repeat split; [exact Bs|unfold between; destruct (Qlt_le_dec a b); [left|right]; lra|unfold s; lra|nra|now left|]. intros k Hk. assert (k = 0)%nat by lia. subst k. cbn [half]. lra.
    + repeat split; [unfold between; destruct (Qlt_le_dec a b); [left|right]; lra|exact Bs|unfold s; lra|lra|now left|]. intros k Hk. assert (k = 0)%nat by lia. subst k. cbn [half]. lra.
  - injection E as <- <- <-. exists 0%nat. split; [lia|]. split; [lia|]. cbn [half]. repeat split; try (unfold between; destruct (Qlt_le_dec a b); [left|right]; lra); [lra|exact Hs|right; lra|intros; lia].
  - set (s := (a + b) * (1 # 2)) in *. assert (Bs : between a b s) by (unfold between, s; destruct (Qlt_le_dec a b); [left|right]; lra).
    assert (Go : forall p q, between a b p -> between a b q -> q - p == (b - a) * (1 # 2) -> f p * f q <= 0 -> bis_loop f tol rem p q (i + 1) = (a', b', i') ->
      exists n, i' = (i + Z.of_nat n)%Z /\ (n <= S (S rem))%nat /\ between a b a' /\ between a b b' /\ b' - a' == (b - a) * half n /\ f a' * f b' <= 0 /\ (n = S (S rem) \/ Qabs (b' - a') <= tol) /\ (forall k, (k < n)%nat -> tol < Qabs (b - a) * half k)).
    { intros p q Bp Bq W Hpq E'. destruct (IH _ _ _ _ _ _ Hpq E') as (n & Hi & Hn & A & B & Wd & Sg & T & Lo). exists (S n). split; [lia|]. split; [lia|].
      assert (Wp : between a b a' /\ between a b b') by (unfold between in *; split; destruct (Qlt_le_dec a b); [left|right|left|right]; lra).
      split; [apply Wp|]. split; [apply Wp|]. cbn [half]. split; [rewrite Wd, W; ring|]. split; [exact Sg|]. split; [destruct T; [left; lia|now right]|].
      intros [|k] Hk; [cbn [half]; lra|]. specialize (Lo k ltac:(lia)). cbn [half]. rewrite W, Qabs_half in Lo. lra. }
    destruct (gtb_spec (f a * f s) 0) as [G|G].
    + apply (Go s b); [exact Bs|unfold between; destruct (Qlt_le_dec a b); [left|right]; lra|unfold s; lra|nra|exact E].
    + apply (Go a s); [unfold between; destruct (Qlt_le_dec a b); [left|right]; lra|exact Bs|unfold s; lra|lra|exact E].
  - injection E as <- <- <-. exists 0%nat. split; [lia|]. split; [lia|]. cbn [half]. repeat split; try (unfold between; destruct (Qlt_le_dec a b); [left|right]; lra); [lra|exact Hs|right; lra|intros; lia].
Qed.

(** Invariant of brent. *)
Definition binv (f : Q -> Q) (lo hi : Q) (s : brent_state) : Prop :=
  between lo hi (b_a s) /\ between lo hi (b_b s) /\ b_fa s = f (b_a s) /\ b_fb s = f (b_b s) /\
  (b_fa s * b_fb s < 0 \/ b_fb s == 0) /\ Qabs (b_fb s) <= Qabs (b_fa s).

Lemma swap_inv f lo hi s : between lo hi (b_a s) -> between lo hi (b_b s) -> b_fa s = f (b_a s) -> b_fb s = f (b_b s) -> b_fa s * b_fb s <= 0 -> (b_fa s * b_fb s == 0 -> b_fa s == 0 \/ b_fb s == 0) ->
  binv f lo hi (brent_swap s).
Proof.
  intros A B FA FB Sg Z. assert (Sg2 : b_fa s * b_fb s < 0 \/ b_fa s * b_fb s == 0) by (destruct (Qlt_le_dec (b_fa s * b_fb s) 0); [now left|right; lra]).
  unfold brent_swap. destruct (ltb_spec (Qabs (b_fa s)) (Qabs (b_fb s))) as [L|L]; unfold binv; cbn.
  - repeat split; try assumption; [|lra]. destruct Sg2 as [N|E]; [left; lra|]. right. destruct (Z E) as [E1|E1]; [exact E1|]. exfalso. rewrite E1 in L. pose proof (Qabs_nonneg (b_fa s)). cbn in L. change (Qabs 0) with 0 in L. lra.
  - repeat split; try assumption; [|lra]. destruct Sg2 as [N|E]; [now left|]. right. destruct (Z E) as [E1|E1]; [|exact E1]. rewrite E1 in L. change (Qabs 0) with 0 in L.
    pose proof (Qabs_nonneg (b_fb s)) as P. assert (E2 : Qabs (b_fb s) == 0) by lra. revert E2. apply Qabs_case; intros; lra.
Qed.

Lemma zero_product x y : x * y == 0 -> x == 0 \/ y == 0.
Proof. intros H. apply Qmult_integral in H. exact H. Qed.

Lemma next_between tol s : between (b_a s) (b_b s) (fst (brent_next tol s)).
Proof.
  destruct s as [a b c d fa fb fc fl]. unfold brent_next. cbn [b_a b_b]. set (g := brent_guess _). clearbody g.
  assert (Mid1 : between a b ((a + b) * (1 # 2))) by (unfold between; destruct (Qlt_le_dec a b); [left|right]; lra).
  assert (Mid2 : between a b ((a + b) / 2)) by (unfold between, Qdiv; change (/ 2) with (1 # 2); destruct (Qlt_le_dec a b); [left|right]; lra).
  assert (T : (3 * a + b) / 4 == (3 # 4) * a + (1 # 4) * b) by field.
  destruct (gtb_spec g ((3 * a + b) / 4)) as [G1|G1]; destruct (ltb_spec g b) as [G2|G2]; destruct (ltb_spec g ((3 * a + b) / 4)) as [G3|G3]; destruct (gtb_spec g b) as [G4|G4]; cbn [andb orb negb]; try exact Mid1;
  destruct (_ || _)%bool; try exact Mid1; try (destruct (_ || _)%bool); cbn [fst]; try exact Mid1; try exact Mid2; rewrite ?T in *; unfold between; try (left; lra); try (right; lra).
Qed.

Lemma step_inv f lo hi tol s : binv f lo hi s -> ~ b_fb s == 0 -> binv f lo hi (brent_step f tol s).
Proof.
  intros (A & B & FA & FB & Sg & Le) Nz. pose proof (next_between tol s) as Nx. unfold brent_step. destruct (brent_next tol s) as [x fl] eqn:E. cbn [fst] in Nx. destruct s as [a b c d fa fb fc fl0]. cbn [b_a b_b b_fa b_fb] in *.
  assert (Bx : between lo hi x) by (unfold between in *; destruct (Qlt_le_dec lo hi); [left|right]; lra). destruct Sg as [Sg|Sg]; [|contradiction].
  destruct (ltb_spec (fa * f x) 0) as [L|L]; apply swap_inv; cbn [b_a b_b b_fa b_fb]; try assumption; try reflexivity; try lra; try (intros; now apply zero_product). nra.
Qed.

Lemma brent_loop_spec f lo hi tol : forall rem s i r i', binv f lo hi s -> brent_loop f tol rem s i = (r, i') ->
  exists n, i' = (i + Z.of_nat n)%Z /\ (n <= S rem)%nat /\ binv f lo hi r /\ (n = S rem \/ b_fb r == 0 \/ Qabs (b_a r - b_b r) <= tol).
Proof.
  induction rem as [|rem IH]; intros s i r i' Iv E; cbn [brent_loop] in E; destruct (Qeq_bool (b_fb s) 0) eqn:Z; cbn [negb andb] in E;
    try (injection E as <- <-; exists 0%nat; split; [lia|]; split; [lia|]; split; [exact Iv|]; right; left; now apply Qeq_bool_iff);
    destruct (gtb_spec (Qabs (b_a s - b_b s)) tol) as [L|L];
    try (injection E as <- <-; exists 0%nat; split; [lia|]; split; [lia|]; split; [exact Iv|]; right; right; lra);
    apply Qeq_bool_neq in Z; assert (Iv' := step_inv f lo hi tol s Iv Z).
  - injection E as <- <-. exists 1%nat. split; [lia|]. split; [lia|]. split; [exact Iv'|]. now left.
  - destruct (IH _ _ _ _ Iv' E) as (n & Hi & Hn & R & T). exists (S n). split; [lia|]. split; [lia|]. split; [exact R|]. destruct T as [T|T]; [left; lia|now right].
Qed.
