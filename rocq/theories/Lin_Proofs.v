From Coq Require Import QArith ZArith List Lia Lqa Bool Setoid Permutation.
From Verif Require Import Prelude Lin_Sum Lin_Model Lin_Spec.
Import ListNotations.
Open Scope Q_scope.

(** ** Loops *)
Lemma upd1_same v i x : upd1 v i x i = x. Proof. unfold upd1. now rewrite Nat.eqb_refl. Qed.
Lemma upd1_other v i x k : k <> i -> upd1 v i x k = v k. Proof. unfold upd1. destruct (Nat.eqb_spec k i); congruence. Qed.
Lemma upd2_same A i j x : upd2 A i j x i j = x. Proof. unfold upd2. now rewrite !Nat.eqb_refl. Qed.
Lemma upd2_other A i j x k l : (k, l) <> (i, j) -> upd2 A i j x k l = A k l.
Proof. unfold upd2. destruct (Nat.eqb_spec k i), (Nat.eqb_spec l j); cbn; congruence. Qed.

(** A loop over distinct indices that changes, for each index, only its own entry. *)
Lemma vec_fold (f : nat -> Q -> Q) : forall l b, NoDup l -> forall k,
  (In k l -> fold_left (fun b k => upd1 b k (f k (b k))) l b k = f k (b k)) /\
  (~ In k l -> fold_left (fun b k => upd1 b k (f k (b k))) l b k = b k).
Proof.
  induction l as [|a l IH]; intros b N k; [split; [intros []|reflexivity]|].
  inversion N as [|? ? Na Nl]; subst. cbn [fold_left]. destruct (IH (upd1 b a (f a (b a))) Nl k) as [I1 I2]. split.
  - intros [->|H].
    + rewrite I2 by exact Na. apply upd1_same.
    + rewrite I1 by exact H. rewrite upd1_other; [reflexivity|]. intros ->. contradiction.
  - intros H. rewrite I2; [|intros F; apply H; now right]. apply upd1_other. intros ->. apply H. now left.
Qed.
Lemma vec_loop_at n f b k : (k < n)%nat -> vec_loop n f b k = f k (b k).
Proof. intros H. apply (vec_fold f (seq 0 n) b (seq_NoDup _ _) k). apply in_seq. lia. Qed.

Lemma diag_fold (g : nat -> Q -> Q) : forall l A, NoDup l -> forall i j,
  fold_left (fun A k => upd2 A k k (g k (A k k))) l A i j = if Nat.eqb i j && existsb (Nat.eqb i) l then g i (A i i) else A i j.
Proof.
  induction l as [|a l IH]; intros A N i j; [cbn; now rewrite andb_false_r|].
  inversion N as [|? ? Na Nl]; subst. cbn [fold_left existsb]. rewrite IH by exact Nl.
  destruct (Nat.eqb_spec i j) as [->|Nij]; cbn [andb].
  - destruct (Nat.eqb_spec j a) as [->|Nja]; cbn [orb].
    + destruct (existsb (Nat.eqb a) l) eqn:E; [|apply upd2_same]. apply existsb_exists in E. destruct E as (x & Hx & E). apply Nat.eqb_eq in E. subst x. contradiction.
    + destruct (existsb (Nat.eqb j) l); rewrite upd2_other; congruence.
  - apply upd2_other. congruence.
Qed.
Lemma existsb_seq i n : (i < n)%nat -> existsb (Nat.eqb i) (seq 0 n) = true.
Proof. intros H. apply existsb_exists. exists i. split; [apply in_seq; lia|apply Nat.eqb_refl]. Qed.
Lemma diag_loop_at n c A i j : (i < n)%nat -> diag_loop n c A i j = if Nat.eqb i j then A i i + c else A i j.
Proof.
  intros H. unfold diag_loop. rewrite (diag_fold (fun _ x => x + c)) by apply seq_NoDup. rewrite existsb_seq by exact H. now rewrite andb_true_r.
Qed.
Lemma field_scale_at c n i j : (i < n)%nat -> s_A (field_scale c n) i j = if Nat.eqb i j then c else 0.
Proof.
  intros H. cbn [field_scale s_A]. rewrite (diag_fold (fun _ _ => c)) by apply seq_NoDup. rewrite existsb_seq by exact H. now rewrite andb_true_r.
Qed.

(** Columns scaled one after the other. *)
Lemma rows_inner v k : forall l A, NoDup l -> forall i j,
  fold_left (fun A i => upd2 A i k (A i k * v i)) l A i j = if Nat.eqb j k && existsb (Nat.eqb i) l then A i j * v i else A i j.
Proof.
  induction l as [|a l IH]; intros A N i j; [cbn; now rewrite andb_false_r|].
  inversion N as [|? ? Na Nl]; subst. cbn [fold_left existsb]. rewrite IH by exact Nl.
  destruct (Nat.eqb_spec j k) as [->|Njk]; cbn [andb].
  - destruct (Nat.eqb_spec i a) as [->|Nia]; cbn [orb].
    + destruct (existsb (Nat.eqb a) l) eqn:E; [|now rewrite upd2_same]. apply existsb_exists in E. destruct E as (x & Hx & E). apply Nat.eqb_eq in E. subst x. contradiction.
    + destruct (existsb (Nat.eqb i) l); rewrite ?upd2_other; congruence.
  - apply upd2_other. congruence.
Qed.
Lemma rows_outer v n : forall l A, NoDup l -> forall i j, (i < n)%nat ->
  fold_left (fun A k => fold_left (fun A i => upd2 A i k (A i k * v i)) (seq 0 n) A) l A i j = if existsb (Nat.eqb j) l then A i j * v i else A i j.
Proof.
  induction l as [|a l IH]; intros A N i j Hi; [reflexivity|].
  inversion N as [|? ? Na Nl]; subst. cbn [fold_left existsb]. rewrite IH by assumption. rewrite rows_inner by apply seq_NoDup.
  rewrite existsb_seq by exact Hi. rewrite andb_true_r. destruct (Nat.eqb_spec j a) as [->|Nja]; cbn [orb]; [|reflexivity].
  destruct (existsb (Nat.eqb a) l) eqn:E; [|reflexivity]. apply existsb_exists in E. destruct E as (x & Hx & E). apply Nat.eqb_eq in E. subst x. contradiction.
Qed.
Lemma rows_loop_at n v A i j : (i < n)%nat -> (j < n)%nat -> rows_loop n v A i j = A i j * v i.
Proof. intros Hi Hj. unfold rows_loop. rewrite rows_outer by (try apply seq_NoDup; exact Hi). now rewrite existsb_seq. Qed.

(** ** Fixed values *)
Lemma is_fixed_true f i : is_fixed f i = true <-> In i (keys f).
Proof.
  unfold is_fixed. rewrite existsb_exists. split; [intros (x & Hx & E); apply Nat.eqb_eq in E; now subst|intros H; exists i; split; [exact H|apply Nat.eqb_refl]].
Qed.
Lemma is_fixed_false f i : is_fixed f i = false <-> ~ In i (keys f).
Proof. rewrite <- is_fixed_true. destruct (is_fixed f i); split; congruence. Qed.
Lemma in_keys f i v : In (i, v) f -> In i (keys f). Proof. intros H. apply in_map_iff. now exists (i, v). Qed.

(** ** Setting u *)
Lemma set_u_spec n : forall l u, NoDup (keys l) -> Forall (fun i => (i < n)%nat) (keys l) ->
  exists u', foldM (set_u n) l u = Ok u' /\ (forall i v, In (i, v) l -> u' i = v) /\ (forall i, ~ In i (keys l) -> u' i = u i).
Proof.
  induction l as [|[a v] l IH]; intros u N F; [exists u; split; [reflexivity|split; [intros i v []|reflexivity]]|].
  cbn [keys map fst] in N, F. inversion N as [|? ? Na Nl]; subst. inversion F as [|? ? Fa Fl]; subst.
  cbn [foldM bind set_u]. apply Nat.ltb_lt in Fa. rewrite Fa. cbn [bind]. destruct (IH (upd1 u a v) Nl Fl) as (u' & E & H1 & H2).
  exists u'. split; [exact E|]. split.
  - intros i w [H|H]; [injection H as -> ->; rewrite H2 by exact Na; apply upd1_same|now apply H1].
  - intros i H. cbn [keys map fst] in H. rewrite H2; [|intros G; apply H; now right]. apply upd1_other. intros ->. apply H. now left.
Qed.

(** ** Penalty *)
Lemma penalty_spec pen : forall l s, NoDup (keys l) -> Forall (fun i => (i < s_dim s)%nat) (keys l) ->
  exists s', foldM (penalty_step pen) l s = Ok s' /\ s_type s' = s_type s /\ s_dim s' = s_dim s /\
    (forall i v, In (i, v) l -> s_A s' i i = pen /\ s_b s' i = pen * v) /\
    (forall i j, (i <> j \/ ~ In i (keys l)) -> s_A s' i j = s_A s i j) /\
    (forall i, ~ In i (keys l) -> s_b s' i = s_b s i).
Proof.
  induction l as [|[a v] l IH]; intros s N F; [exists s; split; [reflexivity|repeat split; intros; contradiction]|].
  cbn [keys map fst] in N, F. inversion N as [|? ? Na Nl]; subst. inversion F as [|? ? Fa Fl]; subst.
  cbn [foldM bind penalty_step]. apply Nat.ltb_lt in Fa. rewrite Fa. cbn [bind].
  destruct (IH (Sys (s_type s) (s_dim s) (upd2 (s_A s) a a pen) (upd1 (s_b s) a (pen * v))) Nl Fl) as (s' & E & T & D & H1 & H2 & H3).
  cbn [s_type s_dim s_A s_b] in *. exists s'. split; [exact E|]. split; [exact T|]. split; [exact D|]. split; [|split].
  - intros i w [H|H]; [|now apply H1]. injection H as -> ->. split; [rewrite H2 by (right; exact Na); apply upd2_same|rewrite H3 by exact Na; apply upd1_same].
  - intros i j H. cbn [keys map fst] in H. rewrite H2; [apply upd2_other|]; destruct H as [H|H].
    + congruence.
    + intros G. injection G as -> ->. apply H. now left.
    + now left.
    + right. intros G. apply H. now right.
  - intros i H. cbn [keys map fst] in H. rewrite H3; [|intros G; apply H; now right]. apply upd1_other. intros ->. apply H. now left.
Qed.

(** ** Elimination *)
Lemma set_true_length i l : length (set_true i l) = length l.
Proof. revert i. induction l as [|b l IH]; intros [|i]; cbn; auto. Qed.
Lemma set_true_nth i l k : (i < length l)%nat -> nth k (set_true i l) false = (Nat.eqb k i || nth k l false).
Proof.
  revert i k. induction l as [|b l IH]; intros i k H; [cbn in H; lia|]. destruct i as [|i], k as [|k]; cbn [set_true nth Nat.eqb orb]; try reflexivity.
  apply IH. cbn in H. lia.
Qed.

Lemma elim_spec A n : forall l b del, NoDup (keys l) -> Forall (fun i => (i < n)%nat) (keys l) -> length del = n ->
  exists b' del', foldM (elim_step A n) l (b, del) = Ok (b', del') /\ length del' = n /\
    (forall k, nth k del' false = (is_fixed l k || nth k del false)) /\
    (forall r, b' r == b r - fold_right (fun iv s => A r (fst iv) * snd iv + s) 0 l).
Proof.
  induction l as [|[a v] l IH]; intros b del N F L.
  - exists b, del. split; [reflexivity|]. split; [exact L|]. split; [reflexivity|]. intros r. cbn. lra.
  - cbn [keys map fst] in N, F. inversion N as [|? ? Na Nl]; subst. inversion F as [|? ? Fa Fl]; subst.
    cbn [foldM bind elim_step]. assert (Fa' := Fa). apply Nat.ltb_lt in Fa. rewrite Fa. cbn [bind].
    destruct (IH (fun r => b r - A r a * v) (set_true a del) Nl Fl (set_true_length _ _)) as (b' & del' & E & L' & Hd & Hb).
    exists b', del'. split; [exact E|]. split; [exact L'|]. split.
    + intros k. rewrite Hd, set_true_nth by exact Fa'. unfold is_fixed. cbn [keys map fst existsb]. fold (keys l).
      destruct (existsb (Nat.eqb k) (keys l)), (Nat.eqb k a); reflexivity.
    + intros r. rewrite Hb. cbn [fold_right fst snd]. lra.
Qed.

Lemma new_to_old_filter : forall del i, new_to_old del i = filter (fun k => negb (nth (k - i) del false)) (seq i (length del)).
Proof.
  induction del as [|d del IH]; intros i; [reflexivity|]. cbn [new_to_old length seq].
  assert (E : filter (fun k => negb (nth (k - i) (d :: del) false)) (seq (S i) (length del)) = filter (fun k => negb (nth (k - S i) del false)) (seq (S i) (length del))).
  { apply filter_ext_in. intros k Hk. apply in_seq in Hk. replace (k - i)%nat with (S (k - S i)) by lia. reflexivity. }
  assert (Fc : forall P (a : nat) l, filter P (a :: l) = if P a then a :: filter P l else filter P l) by reflexivity.
  rewrite Fc, E, <- IH, Nat.sub_diag. destruct d; reflexivity.
Qed.

Lemma old_to_new_spec : forall del i0 c,
  length (fst (old_to_new del c)) = length del /\
  snd (old_to_new del c) = (c + length (new_to_old del i0))%nat /\
  (forall i, (i < length del)%nat -> nth i del false = false ->
     (c <= nth i (fst (old_to_new del c)) 0 < c + length (new_to_old del i0))%nat /\
     nth (nth i (fst (old_to_new del c)) 0 - c)%nat (new_to_old del i0) 0%nat = (i0 + i)%nat).
Proof.
  induction del as [|d del IH]; intros i0 c.
  - cbn. repeat split; try lia. 
  - cbn [old_to_new new_to_old]. destruct (IH (S i0) (if d then c else S c)) as (L & S1 & H).
    destruct (old_to_new del (if d then c else S c)) as [l n] eqn:E. cbn [fst snd] in *. split; [cbn; lia|]. split.
    + rewrite S1. destruct d; cbn [length]; lia.
    + intros [|i] Hi Hd; cbn [nth] in *.
      * subst d. rewrite Nat.sub_diag. cbn [nth length]. lia.
      * cbn [length] in Hi. destruct (H i ltac:(lia) Hd) as [B G]. destruct d; cbn [length nth].
        -- split; [lia|]. rewrite G. lia.
        -- split; [lia|]. replace (nth i l 0 - c)%nat with (S (nth i l 0%nat - S c)) by lia. cbn [nth]. rewrite G. lia.
Qed.

(** Loops that copy to new positions. *)
Lemma copy_fold (P : nat -> bool) (g : nat -> nat) (f : nat -> Q) : forall l nb i, NoDup l ->
  (forall x y, In x l -> In y l -> P x = false -> P y = false -> g x = g y -> x = y) -> In i l -> P i = false ->
  fold_left (fun nb i => if P i then nb else upd1 nb (g i) (f i)) l nb (g i) = f i.
Proof.
  intros l. 
  assert (K : forall l nb k, (forall x, In x l -> P x = false -> g x <> k) -> fold_left (fun nb i => if P i then nb else upd1 nb (g i) (f i)) l nb k = nb k).
  { induction l0 as [|a l0 IH]; intros nb k H; [reflexivity|]. cbn [fold_left]. rewrite IH by (intros; apply H; auto; now right).
    destruct (P a) eqn:Pa; [reflexivity|]. apply upd1_other. intros E. apply (H a); auto. now left. }
  induction l as [|a l IH]; intros nb i N Inj I Pi; [destruct I|]. inversion N as [|? ? Na Nl]; subst. cbn [fold_left]. destruct I as [->|I].
  - rewrite Pi. rewrite K; [apply upd1_same|]. intros x Hx Px E. assert (x = i) by (apply Inj; auto; [now right|now left]). subst x. contradiction.
  - apply IH; auto. intros x y Hx Hy. apply Inj; now right.
Qed.

Lemma copy2_inner (P : nat -> bool) (g : nat -> nat) (A : mat) k : forall l nA r c,
  (c <> g k -> fold_left (fun nA i => if negb (P i) && negb (P k) then upd2 nA (g i) (g k) (A i k) else nA) l nA r c = nA r c) /\
  (P k = true -> fold_left (fun nA i => if negb (P i) && negb (P k) then upd2 nA (g i) (g k) (A i k) else nA) l nA r c = nA r c) /\
  (forall i, NoDup l -> (forall x y, In x l -> In y l -> P x = false -> P y = false -> g x = g y -> x = y) -> In i l -> P i = false -> P k = false ->
     fold_left (fun nA i => if negb (P i) && negb (P k) then upd2 nA (g i) (g k) (A i k) else nA) l nA (g i) (g k) = A i k).
Proof.
  intros l nA r c. split; [|split].
  - revert nA. induction l as [|a l IH]; intros nA H; [reflexivity|]. cbn [fold_left]. rewrite IH by exact H. destruct (negb (P a) && negb (P k)); [|reflexivity]. apply upd2_other. congruence.
  - revert nA. induction l as [|a l IH]; intros nA H; [reflexivity|]. cbn [fold_left]. rewrite IH by exact H. rewrite H, andb_false_r. reflexivity.
  - assert (K : forall l nA i, (forall x, In x l -> P x = false -> g x <> i) -> fold_left (fun nA i => if negb (P i) && negb (P k) then upd2 nA (g i) (g k) (A i k) else nA) l nA i (g k) = nA i (g k)).
    { induction l0 as [|a l0 IH]; intros mA i H; [reflexivity|]. cbn [fold_left]. rewrite IH by (intros; apply H; auto; now right).
      destruct (P a) eqn:Pa; cbn [negb andb]; [reflexivity|]. destruct (P k); [reflexivity|]. apply upd2_other. intros E. injection E as E. apply (H a); auto. now left. }
    revert nA. induction l as [|a l IH]; intros nA i N Inj I Pi Pk; [destruct I|]. inversion N as [|? ? Na Nl]; subst. cbn [fold_left]. destruct I as [->|I].
    + rewrite K; [rewrite Pi, Pk; apply upd2_same|]. intros x Hx Px E. assert (x = i) by (apply Inj; auto; [now right|now left]). subst x. contradiction.
    + apply IH; auto. intros x y Hx Hy. apply Inj; now right.
Qed.

Lemma copy2_outer (P : nat -> bool) (g : nat -> nat) (A : mat) rows : NoDup rows -> forall l nA i k, NoDup l ->
  (forall x y, In x rows -> In y rows -> P x = false -> P y = false -> g x = g y -> x = y) ->
  (forall x y, In x l -> In y l -> P x = false -> P y = false -> g x = g y -> x = y) ->
  In i rows -> P i = false -> In k l -> P k = false ->
  fold_left (fun nA k => fold_left (fun nA i => if negb (P i) && negb (P k) then upd2 nA (g i) (g k) (A i k) else nA) rows nA) l nA (g i) (g k) = A i k.
Proof.
  intros Nr l nA i k Nl Ir Il Hi Pi Hk Pk.
  assert (K : forall l nA, (forall x, In x l -> P x = false -> g x <> g k) ->
    fold_left (fun nA k => fold_left (fun nA i => if negb (P i) && negb (P k) then upd2 nA (g i) (g k) (A i k) else nA) rows nA) l nA (g i) (g k) = nA (g i) (g k)).
  { induction l0 as [|a l0 IH]; intros mA H; [reflexivity|]. cbn [fold_left]. rewrite IH by (intros; apply H; auto; now right).
    destruct (bool_dec (P a) true) as [Pa|Pa]; [exact (proj1 (proj2 (copy2_inner P g A a rows mA (g i) (g k))) Pa)|]. refine (proj1 (copy2_inner P g A a rows mA (g i) (g k)) _). intros E. symmetry in E. apply not_true_is_false in Pa. apply (H a); auto. now left. }
  revert nA. induction l as [|a l IH]; intros nA; [destruct Hk|]. inversion Nl as [|? ? Na Nl']; subst. cbn [fold_left]. destruct Hk as [->|Hk].
  - rewrite K; [exact (proj2 (proj2 (copy2_inner P g A k rows nA 0%nat 0%nat)) i Nr Ir Hi Pi Pk)|]. intros x Hx Px E. assert (x = k) by (apply Il; auto; [now right|now left]). subst x. contradiction.
  - apply IH; auto. intros x y Hx Hy. apply Il; now right.
Qed.

Lemma resize_nil n : resize n [] = repeat false n.
Proof. unfold resize. rewrite firstn_nil. cbn. now rewrite Nat.sub_0_r. Qed.

Lemma old_inj del x y : (x < length del)%nat -> (y < length del)%nat -> nth x del false = false -> nth y del false = false ->
  nth x (fst (old_to_new del 0)) 0%nat = nth y (fst (old_to_new del 0)) 0%nat -> x = y.
Proof.
  intros Hx Hy Px Py E. destruct (old_to_new_spec del 0 0) as (_ & _ & H). destruct (H x Hx Px) as [_ A]. destruct (H y Hy Py) as [_ B].
  rewrite E in A. lia.
Qed.

(** The k-th free unknown. *)
Lemma free_nth del k : (k < length (new_to_old del 0))%nat -> let i := nth k (new_to_old del 0) 0%nat in
  (i < length del)%nat /\ nth i del false = false /\ nth i (fst (old_to_new del 0)) 0%nat = k.
Proof.
  intros H i. assert (Hin : In i (new_to_old del 0)) by (apply nth_In; exact H). rewrite new_to_old_filter in Hin. apply filter_In in Hin. destruct Hin as [Hs Hd].
  apply in_seq in Hs. rewrite Nat.sub_0_r in Hd. apply negb_true_iff in Hd. split; [lia|]. split; [exact Hd|].
  destruct (old_to_new_spec del 0 0) as (_ & _ & G). destruct (G i ltac:(lia) Hd) as [B E]. rewrite Nat.sub_0_r in E. cbn [plus] in *.
  assert (ND : NoDup (new_to_old del 0)) by (rewrite new_to_old_filter; apply NoDup_filter, seq_NoDup).
  exact (proj1 (NoDup_nth _ 0%nat) ND _ _ (proj2 B) H E).
Qed.

(** What setElimination computes. *)
Lemma elimination_spec junk fixed s : proper (s_dim s) fixed ->
  exists b del n', set_elimination junk DM_FEM fixed (eqn_of s) = Ok (Eqn (Sys (s_type s) n' (new_A (s_dim s) del (fst (old_to_new del 0)) (s_A s)) (new_b (s_dim s) del (fst (old_to_new del 0)) b junk)) del true) /\
    length del = s_dim s /\ (forall k, (k < s_dim s)%nat -> nth k del false = is_fixed fixed k) /\
    new_to_old del 0 = free (s_dim s) fixed /\ n' = length (free (s_dim s) fixed) /\
    (forall r, b r == s_b s r - fold_right (fun iv a => s_A s r (fst iv) * snd iv + a) 0 fixed).
Proof.
  intros [N F]. unfold set_elimination, eqn_of. cbn [e_sys e_del]. rewrite resize_nil.
  destruct (elim_spec (s_A s) (s_dim s) fixed (s_b s) (repeat false (s_dim s)) N F (repeat_length _ _)) as (b & del & E & L & D & B).
  rewrite E. cbn [bind].
  assert (FE : new_to_old del 0 = free (s_dim s) fixed).
  { rewrite new_to_old_filter, L. apply filter_ext. intros k. rewrite Nat.sub_0_r, D. f_equal. rewrite nth_repeat. apply orb_false_r. }
  destruct (old_to_new_spec del 0 0) as (_ & S1 & _). destruct (old_to_new del 0) as [o n'] eqn:EO. cbn [fst snd] in *.
  exists b, del, n'. split; [rewrite EO; reflexivity|]. split; [exact L|]. split; [intros k Hk; rewrite D, nth_repeat; apply orb_false_r|]. split; [exact FE|]. split; [now rewrite <- FE|exact B].
Qed.

Lemma sum_at_perm l l' f : Permutation l l' -> sum_at l f == sum_at l' f.
Proof. induction 1; cbn [sum_at fold_right]; unfold sum_at in *; lra. Qed.

Lemma split_sum n fixed f : proper n fixed -> sum n f == sum_at (free n fixed) f + sum_at (keys fixed) f.
Proof.
  intros [N F]. assert (E : sum n f == sum_at (seq 0 n) f) by (rewrite sum_at_seq; reflexivity). rewrite E.
  rewrite (sum_at_filter (fun i => negb (is_fixed fixed i))). apply Qplus_comp; [reflexivity|]. apply sum_at_perm.
  apply NoDup_Permutation; [apply NoDup_filter, seq_NoDup|exact N|]. intros x. rewrite filter_In, in_seq, negb_involutive, is_fixed_true.
  rewrite Forall_forall in F. split; [tauto|]. intros H. specialize (F x H). split; [lia|exact H].
Qed.

Lemma fixed_sum (g : nat -> Q) fixed u : meets fixed u ->
  sum_at (keys fixed) (fun j => g j * u j) == fold_right (fun iv a => g (fst iv) * snd iv + a) 0 fixed.
Proof.
  unfold meets. induction fixed as [|[i v] l IH]; intros H; [reflexivity|]. cbn [keys map fst snd sum_at fold_right]. fold (keys l). fold (sum_at (keys l) (fun j => g j * u j)).
  rewrite IH by (intros; apply H; now right). rewrite (H i v) by now left. reflexivity.
Qed.

(** The reduced system at the k-th free unknown. *)
Lemma reduced_row n' s fixed del b junk u k : proper (s_dim s) fixed -> length del = s_dim s -> (forall k, (k < s_dim s)%nat -> nth k del false = is_fixed fixed k) ->
  new_to_old del 0 = free (s_dim s) fixed -> n' = length (free (s_dim s) fixed) ->
  (forall r, b r == s_b s r - fold_right (fun iv a => s_A s r (fst iv) * snd iv + a) 0 fixed) -> meets fixed u -> (k < n')%nat ->
  let s' := Sys (s_type s) n' (new_A (s_dim s) del (fst (old_to_new del 0)) (s_A s)) (new_b (s_dim s) del (fst (old_to_new del 0)) b junk) in
  let i := nth k (free (s_dim s) fixed) 0%nat in
  row s' (fun l => u (nth l (free (s_dim s) fixed) 0%nat)) k - s_b s' k == row s u i - s_b s i.
Proof.
  intros P L D FE N' B M Hk s' i. subst n'. rewrite <- FE in Hk. destruct (free_nth del k Hk) as (Hi & Di & Oi). rewrite FE in Hi, Di, Oi. fold i in Hi, Di, Oi.
  unfold row. cbn [s_dim s_A s_b s']. rewrite (split_sum (s_dim s) fixed) by exact P. rewrite (fixed_sum _ _ _ M). rewrite sum_at_nth.
  assert (EB : new_b (s_dim s) del (fst (old_to_new del 0)) b junk k = b i).
  { unfold new_b. rewrite <- Oi at 1. apply (copy_fold (fun i => nth i del false) (fun i => nth i (fst (old_to_new del 0)) 0%nat) b); [apply seq_NoDup| |apply in_seq; lia|exact Di].
    intros x y Hx Hy. apply in_seq in Hx. apply in_seq in Hy. apply old_inj; lia. }
  rewrite EB, B.
  assert (EA : sum (length (free (s_dim s) fixed)) (fun j => new_A (s_dim s) del (fst (old_to_new del 0)) (s_A s) k j * u (nth j (free (s_dim s) fixed) 0%nat)) ==
               sum (length (free (s_dim s) fixed)) (fun j => s_A s i (nth j (free (s_dim s) fixed) 0%nat) * u (nth j (free (s_dim s) fixed) 0%nat))).
  { apply sum_ext. intros j Hj. rewrite <- FE in Hj. destruct (free_nth del j Hj) as (Hi2 & Di2 & Oi2). rewrite FE in Hi2, Di2, Oi2. set (i2 := nth j (free (s_dim s) fixed) 0%nat) in *.
    apply Qmult_comp; [|reflexivity]. unfold new_A. rewrite <- Oi at 1. rewrite <- Oi2 at 1.
    rewrite (copy2_outer (fun i => nth i del false) (fun i => nth i (fst (old_to_new del 0)) 0%nat) (s_A s) (seq 0 (s_dim s)) (seq_NoDup _ _)); try reflexivity;
      try apply seq_NoDup; try (apply in_seq; lia); try assumption.
    - intros x y Hx Hy. apply in_seq in Hx. apply in_seq in Hy. apply old_inj; lia.
    - intros x y Hx Hy. apply in_seq in Hx. apply in_seq in Hy. apply old_inj; lia. }
  rewrite EA. lra.
Qed.

Lemma free_in n fixed i : In i (free n fixed) <-> (i < n)%nat /\ ~ In i (keys fixed).
Proof. unfold free. rewrite filter_In, in_seq, negb_true_iff, is_fixed_false. split; intros [A B]; (split; [lia|exact B]). Qed.

(** Reduced solutions and full solutions. *)
Lemma elimination_iff junk fixed s : proper (s_dim s) fixed -> exists e, set_elimination junk DM_FEM fixed (eqn_of s) = Ok e /\ e_elim e = true /\ s_type (e_sys e) = s_type s /\
  s_dim (e_sys e) = length (free (s_dim s) fixed) /\ length (e_del e) = s_dim s /\ new_to_old (e_del e) 0 = free (s_dim s) fixed /\
  forall u, meets fixed u ->
    (solves (e_sys e) (fun k => u (nth k (free (s_dim s) fixed) 0%nat)) <-> (forall i, (i < s_dim s)%nat -> ~ In i (keys fixed) -> row s u i == s_b s i)).
Proof.
  intros P. destruct (elimination_spec junk fixed s P) as (b & del & n' & E & L & D & FE & N' & B). eexists. split; [exact E|]. cbn [e_elim e_sys e_del s_type s_dim].
  split; [reflexivity|]. split; [reflexivity|]. split; [exact N'|]. split; [exact L|]. split; [exact FE|]. intros u M.
  unfold solves. cbn [s_dim]. split.
  - intros H i Hi Fi. assert (I : In i (free (s_dim s) fixed)) by (now apply free_in). destruct (In_nth _ _ 0%nat I) as (k & Hk & Ek).
    pose proof (reduced_row n' s fixed del b junk u k P L D FE N' B M ltac:(lia)) as R. cbn zeta in R. rewrite Ek in R.
    specialize (H k ltac:(lia)). rewrite H in R. lra.
  - intros H k Hk. pose proof (reduced_row n' s fixed del b junk u k P L D FE N' B M Hk) as R. cbn zeta in R.
    assert (I : In (nth k (free (s_dim s) fixed) 0%nat) (free (s_dim s) fixed)) by (apply nth_In; lia). apply free_in in I. rewrite (H _ (proj1 I) (proj2 I)) in R. lra.
Qed.

(** Scattering the reduced solution. *)
Lemma solve_elim junk lin fixed e n : e_elim e = true -> s_type (e_sys e) <> MT_UNKNOWN -> length (e_del e) = n -> proper n fixed ->
  new_to_old (e_del e) 0 = free n fixed -> s_dim (e_sys e) = length (free n fixed) ->
  exists u, eq_solve junk lin fixed e = Ok (n, u) /\ meets fixed u /\ forall k, (k < length (free n fixed))%nat -> u (nth k (free n fixed) 0%nat) = lin (e_sys e) k.
Proof.
  intros El T L [N F] FE D.
  assert (X : sle_solve lin (e_sys e) = (length (free n fixed), lin (e_sys e))) by (unfold sle_solve; rewrite <- D; destruct (s_type (e_sys e)); congruence).
  unfold eq_solve. rewrite X, El, L, FE. set (l := map (fun i => (nth i (free n fixed) 0%nat, lin (e_sys e) i)) (seq 0 (length (free n fixed)))).
  assert (Kl : keys l = free n fixed).
  { unfold keys, l. rewrite map_map. cbn [fst]. clear. generalize (free n fixed). intros g. 
    assert (G : forall g m, (forall i, (i < length g)%nat -> nth i g 0%nat = nth (m + i) g 0%nat \/ True) -> map (fun x => nth x g 0%nat) (seq 0 (length g)) = g).
    { clear. induction g as [|a g IH]; intros m _; [reflexivity|]. cbn [length seq map nth]. f_equal. rewrite <- seq_shift, map_map. cbn [nth]. apply (IH 0%nat). auto. }
    apply (G g 0%nat). auto. }
  assert (ND : NoDup (free n fixed)) by (apply NoDup_filter, seq_NoDup).
  destruct (set_u_spec n l junk) as (u & E & U1 & U2).
  { now rewrite Kl. } { rewrite Kl. apply Forall_forall. intros x Hx. apply free_in in Hx. tauto. }
  rewrite E. cbn [bind]. destruct (set_u_spec n fixed u N F) as (u' & E' & V1 & V2). rewrite E'. cbn [bind]. exists u'. split; [reflexivity|]. split.
  - intros i v H. rewrite (V1 i v H). reflexivity.
  - intros k Hk. rewrite V2.
    + apply U1. unfold l. apply in_map_iff. exists k. split; [reflexivity|apply in_seq; lia].
    + assert (I : In (nth k (free n fixed) 0%nat) (free n fixed)) by (apply nth_In; exact Hk). now apply free_in in I.
Qed.

Lemma solves_ext s x y : (forall i, (i < s_dim s)%nat -> x i == y i) -> solves s x -> solves s y.
Proof.
  intros E H i Hi. rewrite <- (H i Hi). unfold row. apply sum_ext. intros j Hj. rewrite (E j Hj). reflexivity.
Qed.
