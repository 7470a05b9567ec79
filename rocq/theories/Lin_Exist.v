(** A square system with trivial kernel has a solution for every right-hand side (Gauss elimination). *)
From Coq Require Import QArith ZArith List Lia Lqa Bool Setoid.
From Verif Require Import Prelude Lin_Sum.
Import ListNotations.
Open Scope Q_scope.

Lemma find_nonzero n (f : nat -> Q) : (exists p, (p < n)%nat /\ ~ f p == 0) \/ (forall p, (p < n)%nat -> f p == 0).
Proof.
  induction n as [|n IH]; [right; intros p Hp; lia|]. destruct IH as [(p & Hp & N)|Z]; [left; exists p; split; [lia|exact N]|].
  destruct (Qeq_dec (f n) 0) as [E|N].
  - right. intros p Hp. destruct (Nat.eq_dec p n) as [->|]; [exact E|apply Z; lia].
  - left. exists n. split; [lia|exact N].
Qed.

Definition swap (p n i : nat) : nat := if Nat.eqb i p then n else if Nat.eqb i n then p else i.

Lemma square_solvable n : forall A : nat -> nat -> Q,
  (forall x, (forall i, (i < n)%nat -> sum n (fun j => A i j * x j) == 0) -> forall i, (i < n)%nat -> x i == 0) ->
  forall b, exists x, forall i, (i < n)%nat -> sum n (fun j => A i j * x j) == b i.
Proof.
  induction n as [|n IH]; intros A K b; [exists (fun _ => 0); intros i Hi; lia|].
  destruct (find_nonzero (S n) (fun i => A i n)) as [(p & Hp & Np)|Z].
  - set (B := fun i j => A (swap p n i) j). set (c := fun i => b (swap p n i)).
    assert (Sw : forall i, (i < S n)%nat -> (swap p n i < S n)%nat) by (intros i Hi; unfold swap; destruct (Nat.eqb_spec i p), (Nat.eqb_spec i n); lia).
    assert (Ss : forall i, swap p n (swap p n i) = i).
    { intros i. unfold swap. destruct (Nat.eqb_spec i p) as [->|N1].
      - destruct (Nat.eqb_spec n p) as [->|]; [reflexivity|]. now rewrite Nat.eqb_refl.
      - destruct (Nat.eqb_spec i n) as [->|N2]; [now rewrite Nat.eqb_refl|]. destruct (Nat.eqb_spec i p), (Nat.eqb_spec i n); congruence. }
    assert (Nn : ~ B n n == 0). { unfold B, swap. destruct (Nat.eqb_spec n p) as [->|]; [exact Np|]. rewrite Nat.eqb_refl. exact Np. }
    set (q := B n n) in *.
    assert (Ext : forall x y i, (i < n)%nat -> y == - (sum n (fun j => B n j * x j)) / q ->
              sum n (fun j => B i j * x j) + B i n * y == sum n (fun j => (B i j - B i n / q * B n j) * x j)).
    { intros x y i Hi E. rewrite (sum_ext n (fun j => (B i j - B i n / q * B n j) * x j) (fun j => B i j * x j - B i n / q * (B n j * x j))) by (intros; ring).
      rewrite sum_sub, sum_scale, E. field. exact Nn. }
    destruct (IH (fun i j => B i j - B i n / q * B n j)) with (b := fun i => c i - B i n / q * c n) as (x & X).
    { intros x X. set (y := - (sum n (fun j => B n j * x j)) / q).
      assert (Kz : forall i, (i < S n)%nat -> (fun k => if Nat.ltb k n then x k else y) i == 0).
      { apply K. intros i Hi. cbn [sum].
        rewrite <- (Ss i). set (k := swap p n i). assert (Hk : (k < S n)%nat) by (now apply Sw).
        rewrite (sum_ext n _ (fun j => B k j * x j)) by (intros j Hj; apply Nat.ltb_lt in Hj; rewrite Hj; reflexivity). rewrite Nat.ltb_irrefl. fold (B k n).
        destruct (Nat.eq_dec k n) as [->|Nk]; [unfold y; fold q; field; exact Nn|]. rewrite (Ext x y k) by (lia || reflexivity). apply X. lia. }
      intros i Hi. specialize (Kz i ltac:(lia)). cbv beta in Kz. apply Nat.ltb_lt in Hi. now rewrite Hi in Kz. }
    exists (fun k => if Nat.ltb k n then x k else (c n - sum n (fun j => B n j * x j)) / q).
    intros i Hi. cbn [sum]. rewrite <- (Ss i). set (k := swap p n i). assert (Hk : (k < S n)%nat) by (now apply Sw).
    rewrite (sum_ext n _ (fun j => B k j * x j)) by (intros j Hj; apply Nat.ltb_lt in Hj; rewrite Hj; reflexivity). rewrite Nat.ltb_irrefl. fold (B k n). fold (c k).
    destruct (Nat.eq_dec k n) as [->|Nk]; [fold q; field; exact Nn|].
    pose proof (Ext x _ k ltac:(lia) (Qeq_refl _)) as E1. rewrite (X k ltac:(lia)) in E1.
    assert (E2 : (c n - sum n (fun j => B n j * x j)) / q == c n / q + - sum n (fun j => B n j * x j) / q) by (field; exact Nn). rewrite E2.
    assert (E3 : sum n (fun j => B k j * x j) + B k n * (c n / q + - sum n (fun j => B n j * x j) / q) == (sum n (fun j => B k j * x j) + B k n * (- sum n (fun j => B n j * x j) / q)) + B k n / q * c n) by (field; exact Nn).
    rewrite E3, E1. ring.
  - exfalso. assert (E : (fun k => if Nat.eqb k n then 1 else 0) n == 0).
    { apply (K (fun k => if Nat.eqb k n then 1 else 0)); [|lia]. intros i Hi. cbn [sum]. rewrite Nat.eqb_refl. rewrite (Z i Hi).
      rewrite sum_zero; [lra|]. intros j Hj. destruct (Nat.eqb_spec j n); [lia|lra]. }
    cbv beta in E. rewrite Nat.eqb_refl in E. discriminate E.
Qed.
