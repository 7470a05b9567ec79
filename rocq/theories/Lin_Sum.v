(** Finite sums over the indices 0 .. n-1. *)
From Coq Require Import QArith List Lia Lqa Bool Setoid.
Import ListNotations.
Open Scope Q_scope.

Fixpoint sum (n : nat) (f : nat -> Q) : Q :=
  match n with O => 0 | S k => sum k f + f k end.

Lemma sum_ext n f g : (forall i, (i < n)%nat -> f i == g i) -> sum n f == sum n g.
Proof. induction n; cbn; intros H; [reflexivity|]. rewrite IHn by (intros; apply H; lia). rewrite H by lia. reflexivity. Qed.

Lemma sum_add n f g : sum n (fun i => f i + g i) == sum n f + sum n g.
Proof. induction n; cbn; [lra|]. rewrite IHn. lra. Qed.
Lemma sum_sub n f g : sum n (fun i => f i - g i) == sum n f - sum n g.
Proof. induction n; cbn; [lra|]. rewrite IHn. lra. Qed.
Lemma sum_scale n c f : sum n (fun i => c * f i) == c * sum n f.
Proof. induction n; cbn; [lra|]. rewrite IHn. lra. Qed.
Lemma sum_zero n f : (forall i, (i < n)%nat -> f i == 0) -> sum n f == 0.
Proof. induction n; cbn; intros H; [reflexivity|]. rewrite IHn by (intros; apply H; lia). rewrite H by lia. lra. Qed.
Lemma sum_const n c : sum n (fun _ => c) == inject_Z (Z.of_nat n) * c.
Proof. induction n; [cbn [sum]; change (inject_Z (Z.of_nat 0)) with 0; lra|]. rewrite Nat2Z.inj_succ. unfold Z.succ. rewrite inject_Z_plus. cbn [sum]. rewrite IHn. change (inject_Z 1) with 1. lra. Qed.

Lemma sum_single n f k : (k < n)%nat -> (forall i, (i < n)%nat -> i <> k -> f i == 0) -> sum n f == f k.
Proof.
  induction n; intros L H; [lia|]. cbn. destruct (Nat.eq_dec k n) as [->|N].
  - rewrite sum_zero; [lra|]. intros i Hi. apply H; lia.
  - rewrite IHn; [|lia|intros; apply H; lia]. rewrite (H n) by lia. lra.
Qed.

Lemma sum_swap n m f : sum n (fun i => sum m (f i)) == sum m (fun j => sum n (fun i => f i j)).
Proof.
  induction n; cbn.
  - symmetry. apply sum_zero. reflexivity.
  - rewrite IHn. rewrite <- sum_add. reflexivity.
Qed.

Lemma sum_nonneg n f : (forall i, (i < n)%nat -> 0 <= f i) -> 0 <= sum n f.
Proof. induction n; cbn; intros H; [lra|]. assert (0 <= sum n f) by (apply IHn; intros; apply H; lia). specialize (H n). assert (0 <= f n) by (apply H; lia). lra. Qed.
Lemma sum_le n f g : (forall i, (i < n)%nat -> f i <= g i) -> sum n f <= sum n g.
Proof. induction n; cbn; intros H; [lra|]. assert (sum n f <= sum n g) by (apply IHn; intros; apply H; lia). assert (f n <= g n) by (apply H; lia). lra. Qed.

Lemma sum_S_first n f : sum (S n) f == f 0%nat + sum n (fun i => f (S i)).
Proof. induction n; [cbn; lra|]. cbn [sum] in *. rewrite IHn. lra. Qed.

Lemma sum_app n m f : sum (n + m) f == sum n f + sum m (fun i => f (n + i)%nat).
Proof.
  induction m; cbn [sum].
  - rewrite Nat.add_0_r. lra.
  - rewrite Nat.add_succ_r. cbn [sum]. rewrite IHm. lra.
Qed.

(** Sum of the values of [f] at the indices of a list. *)
Definition sum_at (l : list nat) (f : nat -> Q) : Q := fold_right (fun i s => f i + s) 0 l.

Lemma sum_at_seq n : forall s f, sum_at (seq s n) f == sum n (fun i => f (s + i)%nat).
Proof.
  induction n; intros s f; [reflexivity|]. rewrite sum_S_first. cbn [seq sum_at fold_right]. fold (sum_at (seq (S s) n) f). rewrite IHn.
  rewrite Nat.add_0_r. apply Qplus_comp; [reflexivity|]. apply sum_ext. intros i _. rewrite Nat.add_succ_r. reflexivity.
Qed.

Lemma sum_at_filter (p : nat -> bool) l f :
  sum_at l f == sum_at (filter p l) f + sum_at (filter (fun i => negb (p i)) l) f.
Proof.
  induction l as [|a l IH]; cbn [filter sum_at fold_right]; [lra|]. fold (sum_at l f). rewrite IH. destruct (p a); cbn [negb sum_at fold_right]; unfold sum_at; lra.
Qed.

Lemma sum_at_nth l f : sum_at l f == sum (length l) (fun k => f (nth k l 0%nat)).
Proof.
  induction l as [|a l IH]; [reflexivity|]. cbn [length]. rewrite sum_S_first. cbn [sum_at fold_right nth]. fold (sum_at l f). rewrite IH. reflexivity.
Qed.

Lemma sum_at_ext l f g : (forall i, In i l -> f i == g i) -> sum_at l f == sum_at l g.
Proof.
  induction l as [|a l IH]; intros H; [reflexivity|]. cbn [sum_at fold_right]. fold (sum_at l f). fold (sum_at l g).
  rewrite IH by (intros; apply H; now right). rewrite (H a) by now left. reflexivity.
Qed.

Lemma sum_at_in l f k : NoDup l -> In k l -> (forall i, In i l -> i <> k -> f i == 0) -> sum_at l f == f k.
Proof.
  induction l as [|a l IH]; intros N I H; [destruct I|]. cbn [sum_at fold_right]. fold (sum_at l f). inversion N as [|? ? Na Nl]; subst.
  destruct I as [->|I].
  - assert (E : sum_at l f == 0). { clear IH Nl N. induction l as [|b l IH]; [reflexivity|]. cbn [sum_at fold_right]. fold (sum_at l f).
      rewrite IH; [|intros F; apply Na; now right|intros i [->|Hi] Ni; apply H; auto; right; now right].
      rewrite (H b); [lra|right; now left|]. intros ->. apply Na. now left. }
    rewrite E. lra.
  - rewrite IH; [|exact Nl|exact I|intros i Hi Ni; apply H; [now right|exact Ni]]. rewrite (H a); [lra|now left|]. intros ->. contradiction.
Qed.
