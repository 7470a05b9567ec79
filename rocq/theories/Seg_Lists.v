(** Lemmas about vertex lists and line lists. *)
From Coq Require Import QArith ZArith List Lia Lqa Bool Permutation Setoid.
From Verif Require Import Prelude Vec Seg_Model Seg_Spec Seg_Proofs.
Import ListNotations.
Open Scope nat_scope.

(** * Arrays *)

Lemma put_length {A} (l : list A) i a : length (put l i a) = length l.
Proof. revert i. induction l as [|b l IH]; intros [|i]; cbn; auto. Qed.
Lemma nth_put {A} (l : list A) i a k d : i < length l ->
  nth k (put l i a) d = if Nat.eqb k i then a else nth k l d.
Proof.
  revert i k. induction l as [|b l IH]; intros i k Hi; cbn in Hi; [lia|].
  destruct i as [|i], k as [|k]; cbn; auto. apply IH. lia.
Qed.
Lemma put_eq {A} (l : list A) i a : i < length l -> put l i a = firstn i l ++ a :: skipn (S i) l.
Proof.
  revert i. induction l as [|b l IH]; intros i Hi; cbn in Hi; [lia|].
  destruct i as [|i]; cbn [put firstn skipn app]; [reflexivity|]. f_equal. apply IH. lia.
Qed.
Lemma swap_length {A} (d : A) l i j : length (swap_at d l i j) = length l.
Proof. unfold swap_at. now rewrite !put_length. Qed.
Lemma nth_swap {A} (d : A) l i j k : i < length l -> j < length l ->
  nth k (swap_at d l i j) d = if Nat.eqb k j then nth i l d else if Nat.eqb k i then nth j l d else nth k l d.
Proof.
  intros Hi Hj. unfold swap_at. rewrite nth_put by (rewrite put_length; lia).
  destruct (Nat.eqb k j); [reflexivity|]. now rewrite nth_put.
Qed.

Lemma nth_ext_list {A} (l l' : list A) d : length l = length l' ->
  (forall k, k < length l -> nth k l d = nth k l' d) -> l = l'.
Proof.
  intros H1 H2. apply (nth_ext l l' d d); auto.
Qed.

Lemma put_perm {A} (l : list A) i d a : i < length l -> Permutation (nth i l d :: put l i a) (a :: l).
Proof.
  revert i. induction l as [|b l IH]; intros i Hi; cbn in Hi; [lia|].
  destruct i as [|i]; cbn [put nth]; [apply perm_swap|].
  eapply perm_trans; [apply perm_swap|]. eapply perm_trans; [|apply perm_swap]. apply perm_skip. apply IH. lia.
Qed.
Lemma swap_perm {A} (d : A) l i j : i < length l -> j < length l -> i <> j -> Permutation l (swap_at d l i j).
Proof.
  intros Hi Hj Hij. unfold swap_at.
  pose proof (put_perm (put l i (nth j l d)) j d (nth i l d)) as H1. rewrite put_length in H1. specialize (H1 Hj).
  rewrite nth_put in H1 by exact Hi.
  destruct (Nat.eqb_spec j i); [congruence|].
  pose proof (put_perm l i d (nth j l d) Hi) as H2.
  apply Permutation_cons_inv with (a := nth j l d). rewrite H1. symmetry. exact H2.
Qed.

(** * removeDuplicates *)

Lemma coord_eqb_iff a b : coord_eqb a b = true <-> a =v= b.
Proof.
  unfold coord_eqb, veq. rewrite !andb_true_iff, !Qeq_bool_iff. tauto.
Qed.

Lemma unique_from_sub last l : sublist l (unique_from last l).
Proof.
  revert last. induction l as [|v l IH]; intros last; cbn; [constructor|].
  destruct (coord_eqb last v); [apply sub_drop|apply sub_keep]; apply IH.
Qed.
Lemma remove_duplicates_sub l : sublist l (vl_remove_duplicates l).
Proof. destruct l as [|v l]; cbn; [constructor|]. apply sub_keep, unique_from_sub. Qed.

Lemma unique_from_distinct last l k a b :
  nth_error (last :: unique_from last l) k = Some a -> nth_error (last :: unique_from last l) (S k) = Some b -> ~ a =v= b.
Proof.
  revert last k. induction l as [|v l IH]; intros last k; cbn [unique_from].
  - destruct k as [|[|k]]; cbn; discriminate.
  - destruct (coord_eqb last v) eqn:E; [apply IH|].
    destruct k as [|k].
    + cbn. intros [= <-] [= <-] H. apply coord_eqb_iff in H. congruence.
    + intros H1 H2. cbn [nth_error] in H1, H2. apply (IH v k); assumption.
Qed.
Lemma remove_duplicates_distinct l k a b :
  nth_error (vl_remove_duplicates l) k = Some a -> nth_error (vl_remove_duplicates l) (S k) = Some b -> ~ a =v= b.
Proof.
  destruct l as [|v l]; cbn [vl_remove_duplicates].
  - destruct k; discriminate.
  - apply unique_from_distinct.
Qed.

(** Every vertex that is gone equals a kept one, and the first vertex stays. *)
Lemma unique_from_keeps last l v : In v l -> exists u, In u (last :: unique_from last l) /\ u =v= v.
Proof.
  revert last. induction l as [|x l IH]; intros last; [easy|]. intros [->|Hv]; cbn [unique_from].
  - destruct (coord_eqb last v) eqn:E.
    + exists last. split; [now left|]. now apply coord_eqb_iff.
    + exists v. split; [right; now left|reflexivity].
  - destruct (coord_eqb last x) eqn:E; [now apply IH|].
    destruct (IH x Hv) as (u & H1 & H2). exists u. split; [now right|exact H2].
Qed.
Lemma remove_duplicates_keeps l v : In v l -> exists u, In u (vl_remove_duplicates l) /\ u =v= v.
Proof.
  destruct l as [|x l]; [easy|]. intros [->|H]; cbn [vl_remove_duplicates].
  - exists v. split; [now left|reflexivity].
  - apply unique_from_keeps, H.
Qed.
(** A list without equal neighbours is left alone. *)
Lemma unique_from_fix last l :
  (forall k a b, nth_error (last :: l) k = Some a -> nth_error (last :: l) (S k) = Some b -> ~ a =v= b) ->
  unique_from last l = l.
Proof.
  revert last. induction l as [|v l IH]; intros last H; cbn; [reflexivity|].
  destruct (coord_eqb last v) eqn:E.
  - apply coord_eqb_iff in E. exfalso. now apply (H 0 last v).
  - f_equal. apply IH. intros k a b Ha Hb. now apply (H (S k)).
Qed.
Lemma remove_duplicates_fix l :
  (forall k a b, nth_error l k = Some a -> nth_error l (S k) = Some b -> ~ a =v= b) -> vl_remove_duplicates l = l.
Proof. destruct l as [|v l]; intros H; cbn; [reflexivity|]. f_equal. now apply unique_from_fix. Qed.

(** * insert / remove / set / vertex *)

Lemma insert_remove l i v l' : vl_insert l i v = Ok l' -> vl_remove l' i = Ok l.
Proof.
  unfold vl_insert, vl_remove.
  destruct ((i <? 0)%Z) eqn:E1; cbn [orb]; [discriminate|].
  destruct ((zlen l <? i)%Z) eqn:E2; [discriminate|]. intros [= <-].
  apply Z.ltb_ge in E1, E2. unfold zlen in *.
  assert (Hn : Z.to_nat i <= length l) by lia.
  rewrite app_length. cbn [length]. rewrite firstn_length, skipn_length, Nat.min_l by lia.
  destruct (Z.leb_spec (Z.of_nat (Z.to_nat i + S (length l - Z.to_nat i))) i); [lia|].
  f_equal. rewrite firstn_app, firstn_firstn, Nat.min_id, firstn_length, Nat.min_l, Nat.sub_diag by lia.
  cbn [firstn]. rewrite app_nil_r, skipn_app, firstn_length, Nat.min_l by lia.
  rewrite skipn_all2 by (rewrite firstn_length; lia).
  replace (S (Z.to_nat i) - Z.to_nat i) with 1 by lia. cbn [skipn app]. apply firstn_skipn.
Qed.

Lemma insert_vertex l i v l' : (zlen l < 2 ^ 62)%Z -> vl_insert l i v = Ok l' -> vl_vertex l' i = Ok v.
Proof.
  intros Hbig. unfold vl_insert.
  destruct ((i <? 0)%Z) eqn:E1; cbn [orb]; [discriminate|].
  destruct ((zlen l <? i)%Z) eqn:E2; [discriminate|]. intros [= <-].
  apply Z.ltb_ge in E1, E2. unfold zlen in *.
  set (l' := firstn (Z.to_nat i) l ++ v :: skipn (Z.to_nat i) l).
  assert (Hl : length l' = S (length l)).
  { unfold l'. rewrite app_length. cbn [length]. rewrite firstn_length, skipn_length. lia. }
  assert (Hw : wrap_index l' i = Z.to_nat i).
  { unfold wrap_index, zlen. rewrite Hl. rewrite (Z.mod_small i) by lia. now rewrite Z.mod_small by lia. }
  assert (Hv : nth_error l' (Z.to_nat i) = Some v).
  { unfold l'. rewrite nth_error_app2; rewrite firstn_length, Nat.min_l by lia; [|lia]. now rewrite Nat.sub_diag. }
  unfold vl_vertex. rewrite Hw, Hv. destruct l'; [cbn in Hl; lia|reflexivity].
Qed.

Lemma set_vertex l i v l' : vl_set l i v = Ok l' -> vl_vertex l' i = Ok v /\ length l' = length l /\
  (forall k, wrap_index l k <> wrap_index l i -> vl_vertex l' k = vl_vertex l k).
Proof.
  unfold vl_set. destruct l as [|x l]; [discriminate|]. set (m := x :: l). intros [= <-].
  assert (Hlen : length (put m (wrap_index m i) v) = length m) by apply put_length.
  assert (Hr : forall k, wrap_index m k < length m).
  { intros k. unfold wrap_index. assert (0 < zlen m)%Z by (unfold zlen, m; cbn [length]; lia).
    pose proof (Z.mod_pos_bound (k mod 2 ^ 64) (zlen m) H). unfold zlen in *. lia. }
  assert (Hw : forall k, wrap_index (put m (wrap_index m i) v) k = wrap_index m k).
  { intros k. unfold wrap_index at 1 3, zlen. now rewrite Hlen. }
  assert (Hv : forall k, vl_vertex (put m (wrap_index m i) v) k = Ok (nth (wrap_index m k) (put m (wrap_index m i) v) vzero)).
  { intros k. unfold vl_vertex. rewrite Hw.
    rewrite (nth_error_nth' _ vzero) by (rewrite Hlen; apply Hr).
    destruct (put m (wrap_index m i) v) eqn:E; [cbn in Hlen; discriminate|reflexivity]. }
  split; [|split; [exact Hlen|]].
  - rewrite Hv, nth_put by apply Hr. now rewrite Nat.eqb_refl.
  - intros k Hk. rewrite Hv, nth_put by apply Hr. destruct (Nat.eqb_spec (wrap_index m k) (wrap_index m i)); [contradiction|].
    unfold vl_vertex. rewrite (nth_error_nth' m vzero) by apply Hr. reflexivity.
Qed.

(** * removeCollinear: the in-place scan is a filter on the original neighbours *)

(** Interior vertex i of l is kept. *)
Definition kept (turns : coord -> coord -> bool) (l : list coord) (i : nat) : bool :=
  turns (vsub (nth (i + 1) l vzero) (nth i l vzero)) (vsub (nth i l vzero) (nth (i - 1) l vzero)).

Definition interior (turns : coord -> coord -> bool) (l : list coord) (m : nat) : list coord :=
  map (fun i => nth i l vzero) (filter (kept turns l) (seq 1 m)).

Lemma firstn_put {A} (l : list A) j a : j < length l -> firstn (S j) (put l j a) = firstn j l ++ [a].
Proof.
  revert j. induction l as [|b l IH]; intros j Hj; cbn in Hj; [lia|].
  destruct j as [|j]; cbn [put firstn]; [reflexivity|].
  cbn [app]. f_equal. apply IH. lia.
Qed.

Lemma collinear_scan turns l m : m + 1 < length l ->
  exists a j, fold_left (collinear_step turns) (seq 1 m) (l, 1) = (a, j) /\
    length a = length l /\ 1 <= j <= m + 1 /\
    (forall k, m <= k -> nth k a vzero = nth k l vzero) /\
    firstn j a = firstn 1 l ++ interior turns l m.
Proof.
  induction m as [|m IH]; intros Hm.
  - exists l, 1. cbn [seq fold_left]. repeat split; auto. unfold interior. cbn. now rewrite app_nil_r.
  - destruct IH as (a & j & E & Hla & Hj & Hk & Hf); [lia|].
    rewrite seq_S, fold_left_app, E. cbn [fold_left]. unfold collinear_step.
    replace (1 + m) with (S m) by lia. rewrite Hla.
    rewrite !Nat.mod_small by lia. rewrite !Hk by lia.
    assert (Hi : interior turns l (S m) = interior turns l m ++ (if kept turns l (S m) then [nth (S m) l vzero] else [])).
    { unfold interior. rewrite seq_S, filter_app, map_app. replace (1 + m) with (S m) by lia. cbn [filter].
      now destruct (kept turns l (S m)). }
    unfold kept in Hi at 1. destruct (turns _ _) eqn:Et.
    + eexists _, _. split; [reflexivity|]. split; [now rewrite put_length|]. split; [lia|]. split.
      * intros k Hk'. rewrite nth_put by lia. destruct (Nat.eqb_spec k j); [|apply Hk; lia].
        assert (k = S m) by lia. now subst.
      * rewrite firstn_put by lia. rewrite Hf, Hi. now rewrite app_assoc.
    + eexists _, _. split; [reflexivity|]. split; [exact Hla|]. split; [lia|]. split.
      * intros k Hk'. apply Hk. lia.
      * rewrite Hf, Hi. now rewrite app_nil_r.
Qed.

Lemma remove_collinear_spec turns l : 2 <= length l ->
  vl_remove_collinear turns l =
  Ok (firstn 1 l ++ interior turns l (length l - 2) ++ [last l vzero]).
Proof.
  intros Hl. unfold vl_remove_collinear. destruct l as [|x l0]; [cbn in Hl; lia|]. set (l := x :: l0) in *.
  destruct (collinear_scan turns l (length l - 2)) as (a & j & E & Hla & Hj & Hk & Hf); [lia|].
  rewrite E, Hla. destruct (Nat.ltb_spec j (length l)); [|lia].
  f_equal. rewrite firstn_put by lia. rewrite Hf, <- app_assoc. do 2 f_equal.
  rewrite Hk by lia. replace (length l - 1) with (pred (length l)) by lia.
  f_equal. clear. induction l as [|b l IH]; [reflexivity|]. destruct l; [reflexivity|].
  change (pred (length (b :: c :: l))) with (S (pred (length (c :: l)))). exact IH.
Qed.
Lemma remove_collinear_single turns v : vl_remove_collinear turns [v] = UB.
Proof. reflexivity. Qed.

(** * sort *)

Global Instance same_line_Equivalence : Equivalence same_line.
Proof.
  split.
  - intros a. left. split; reflexivity.
  - intros a b [[H1 H2]|[H1 H2]]; [left|right]; split; symmetry; assumption.
  - intros a b c [[H1 H2]|[H1 H2]] [[H3 H4]|[H3 H4]]; [left|right|right|left]; rewrite H1, H2; auto.
Qed.

Lemma Forall2_perm {A B} (R : A -> B -> Prop) l m m' : Forall2 R l m -> Permutation m m' ->
  exists l', Permutation l l' /\ Forall2 R l' m'.
Proof.
  intros H P. revert l H. induction P; intros l0 H.
  - inversion H; subst. exists []. split; constructor.
  - inversion H as [|a0 b0 l1 l2 Hab Hl]; subst. destruct (IHP _ Hl) as (l1' & H1 & H2).
    exists (a0 :: l1'). split; constructor; auto.
  - inversion H as [|a0 b0 l1 l2 Hab Hl]; subst. inversion Hl as [|a1 b1 l3 l4 Hab' Hl']; subst.
    exists (a1 :: a0 :: l3). split; [apply perm_swap|]. repeat constructor; auto.
  - destruct (IHP1 _ H) as (l1 & H1 & H2). destruct (IHP2 _ H2) as (l2 & H3 & H4).
    exists l2. split; [now transitivity l1|exact H4].
Qed.
Lemma Forall2_rel_trans {A} (R : A -> A -> Prop) l m n : (forall a b c, R a b -> R b c -> R a c) ->
  Forall2 R l m -> Forall2 R m n -> Forall2 R l n.
Proof.
  intros HR H. revert n. induction H; intros n Hn; inversion Hn; subst; constructor; eauto.
Qed.
Lemma Forall2_rel_refl {A} (R : A -> A -> Prop) l : (forall a, R a a) -> Forall2 R l l.
Proof. intros H. induction l; constructor; auto. Qed.

Lemma same_lines_refl l : same_lines l l.
Proof. exists l. split; [reflexivity|]. apply Forall2_rel_refl. reflexivity. Qed.
Lemma same_lines_trans l m n : same_lines l m -> same_lines m n -> same_lines l n.
Proof.
  intros (a & P1 & F1) (b & P2 & F2). destruct (Forall2_perm _ _ _ _ F1 P2) as (c & P3 & F3).
  exists c. split; [now transitivity a|]. eapply Forall2_rel_trans; [|exact F3|exact F2].
  intros x y z H1 H2. now transitivity y.
Qed.
Lemma same_lines_perm l m : Permutation l m -> same_lines l m.
Proof. intros H. exists m. split; [exact H|]. apply Forall2_rel_refl. reflexivity. Qed.

Lemma invert_same s : consistent s -> same_line s (line_invert s).
Proof. intros H. right. destruct (invert_swaps s H). split; symmetry; assumption. Qed.

Lemma put_same l j s : j < length l -> same_line (line_at l j) s -> same_lines l (put l j s).
Proof.
  intros Hj H. exists l. split; [reflexivity|]. unfold line_at in H. revert j Hj H.
  induction l as [|a l IH]; intros j Hj H; cbn in Hj; [lia|].
  destruct j as [|j]; cbn [put nth] in *; constructor.
  - exact H.
  - apply Forall2_rel_refl. reflexivity.
  - reflexivity.
  - apply IH; [lia|exact H].
Qed.

Lemma Forall_at l k : Forall consistent l -> k < length l -> consistent (line_at l k).
Proof. intros H Hk. unfold line_at. rewrite Forall_forall in H. apply H, nth_In, Hk. Qed.
Lemma Forall_put {A} (P : A -> Prop) l j a : Forall P l -> P a -> Forall P (put l j a).
Proof.
  intros H Ha. revert j. induction H; intros j; cbn; [constructor|]. destruct j; constructor; auto.
Qed.
Lemma Forall_swap (P : segment -> Prop) l i j : Forall P l -> i < length l -> j < length l ->
  Forall P (swap_at line_default l i j).
Proof.
  intros H Hi Hj. unfold swap_at. apply Forall_put; [apply Forall_put; [exact H|]|]; rewrite Forall_forall in H; apply H, nth_In; assumption.
Qed.

(** touches and follows, by position *)
Definition hits (tol : Q) (l : list segment) (i k : nat) : Prop :=
  near tol (s_start (line_at l k)) (s_end (line_at l i)) \/ near tol (s_end (line_at l k)) (s_end (line_at l i)).
Definition leads (tol : Q) (l : list segment) (i : nat) : Prop :=
  near tol (s_start (line_at l (i + 1))) (s_end (line_at l i)).

(** One pass of the inner loop: either nothing changes and line j does not hit, or line i leads. *)
Lemma sort_step_spec tol i l j : Forall consistent l -> i < j -> j < length l ->
  let l' := sort_step tol i l j in
  length l' = length l /\ Forall consistent l' /\ same_lines l l' /\
  (forall k, k <= i -> line_at l' k = line_at l k) /\
  (forall k, j < k -> line_at l' k = line_at l k) /\
  (forall k, i < k -> k <= j -> exists k', i < k' /\ k' <= j /\ same_line (line_at l' k) (line_at l k')) /\
  ((l' = l /\ ~ hits tol l i j) \/ leads tol l' i).
Proof.
  intros Hc Hij Hj. unfold sort_step.
  destruct (norm_le (vsub (s_start (line_at l j)) (s_end (line_at l i))) tol) eqn:E1.
  - (* the start of line j is near *)
    apply near_norm_le in E1.
    destruct (Nat.eqb_spec (i + 1) j) as [Hn|Hn].
    + subst j. destruct (norm_le (vsub (s_end (line_at l (i + 1))) (s_end (line_at l i))) tol) eqn:E2.
      * apply near_norm_le in E2. set (l' := put l (i + 1) (line_invert (line_at l (i + 1)))).
        assert (Hci : consistent (line_at l (i + 1))) by (apply Forall_at; assumption).
        assert (Hn : forall k, line_at l' k = if Nat.eqb k (i + 1) then line_invert (line_at l (i + 1)) else line_at l k).
        { intros k. unfold l', line_at. now rewrite nth_put by lia. }
        cbv zeta. split; [apply put_length|]. split; [apply Forall_put; [exact Hc|apply invert_consistent, Hci]|].
        split; [apply put_same; [lia|apply invert_same, Hci]|].
        split; [intros k Hk; rewrite Hn; destruct (Nat.eqb_spec k (i + 1)); [lia|reflexivity]|].
        split; [intros k Hk; rewrite Hn; destruct (Nat.eqb_spec k (i + 1)); [lia|reflexivity]|].
        split.
        { intros k Hk1 Hk2. exists k. split; [lia|split; [lia|]]. rewrite Hn. destruct (Nat.eqb_spec k (i + 1)); [|reflexivity].
          subst. symmetry. apply invert_same, Hci. }
        right. unfold leads. rewrite !Hn, Nat.eqb_refl. destruct (Nat.eqb_spec i (i + 1)); [lia|].
        destruct (invert_swaps _ Hci) as [H1 _]. rewrite H1. exact E2.
      * cbv zeta. split; [reflexivity|]. split; [exact Hc|]. split; [apply same_lines_refl|].
        split; [reflexivity|]. split; [reflexivity|]. split; [intros k ? ?; exists k; split; [lia|split; [lia|reflexivity]]|].
        right. exact E1.
    + set (l1 := swap_at line_default l (i + 1) j).
      assert (Hl1 : length l1 = length l) by apply swap_length.
      assert (Hc1 : Forall consistent l1) by (apply Forall_swap; [exact Hc|lia|lia]).
      assert (Hn1 : forall k, line_at l1 k = if Nat.eqb k j then line_at l (i + 1) else if Nat.eqb k (i + 1) then line_at l j else line_at l k).
      { intros k. unfold l1, line_at. now rewrite nth_swap by lia. }
      assert (Hp1 : same_lines l l1) by (apply same_lines_perm, swap_perm; lia).
      destruct (norm_le (vsub (s_end (line_at l1 j)) (s_end (line_at l1 i))) tol) eqn:E2.
      * apply near_norm_le in E2.
        set (l2 := put l1 j (line_invert (line_at l1 j))).
        assert (Hci : consistent (line_at l1 j)) by (apply Forall_at; [exact Hc1|lia]).
        assert (Hl2 : length l2 = length l) by (unfold l2; rewrite put_length; exact Hl1).
        assert (Hn2 : forall k, line_at l2 k = if Nat.eqb k j then line_invert (line_at l1 j) else line_at l1 k).
        { intros k. unfold l2, line_at. now rewrite nth_put by lia. }
        set (l3 := swap_at line_default l2 (i + 1) j).
        assert (Hn3 : forall k, line_at l3 k = if Nat.eqb k j then line_at l2 (i + 1) else if Nat.eqb k (i + 1) then line_at l2 j else line_at l2 k).
        { intros k. unfold l3, line_at. now rewrite nth_swap by lia. }
        assert (Hc2 : Forall consistent l2) by (apply Forall_put; [exact Hc1|apply invert_consistent, Hci]).
        cbv zeta. split; [unfold l3; rewrite swap_length; exact Hl2|].
        split; [apply Forall_swap; [exact Hc2|lia|lia]|].
        split.
        { apply (same_lines_trans l l1); [exact Hp1|]. apply (same_lines_trans l1 l2).
          - apply put_same; [lia|]. apply invert_same, Hci.
          - apply same_lines_perm, swap_perm; lia. }
        assert (Hi3 : forall k, k <= i -> line_at l3 k = line_at l k).
        { intros k Hk. rewrite Hn3. destruct (Nat.eqb_spec k j); [lia|]. destruct (Nat.eqb_spec k (i + 1)); [lia|].
          rewrite Hn2. destruct (Nat.eqb_spec k j); [lia|]. rewrite Hn1. destruct (Nat.eqb_spec k j); [lia|].
          destruct (Nat.eqb_spec k (i + 1)); [lia|reflexivity]. }
        split; [exact Hi3|]. split.
        { intros k Hk. rewrite Hn3. destruct (Nat.eqb_spec k j); [lia|]. destruct (Nat.eqb_spec k (i + 1)); [lia|].
          rewrite Hn2. destruct (Nat.eqb_spec k j); [lia|]. rewrite Hn1. destruct (Nat.eqb_spec k j); [lia|].
          destruct (Nat.eqb_spec k (i + 1)); [lia|reflexivity]. }
        split.
        { intros k Hk1 Hk2. rewrite Hn3. destruct (Nat.eqb_spec k j).
          - exists j. split; [lia|split; [lia|]]. rewrite Hn2. destruct (Nat.eqb_spec (i + 1) j); [lia|].
            rewrite Hn1. destruct (Nat.eqb_spec (i + 1) j); [lia|]. rewrite Nat.eqb_refl. reflexivity.
          - destruct (Nat.eqb_spec k (i + 1)).
            + exists (i + 1). split; [lia|split; [lia|]]. rewrite Hn2, Nat.eqb_refl.
              transitivity (line_at l1 j); [symmetry; apply invert_same, Hci|]. rewrite Hn1, Nat.eqb_refl. reflexivity.
            + exists k. split; [lia|split; [lia|]]. rewrite Hn2. destruct (Nat.eqb_spec k j); [lia|].
              rewrite Hn1. destruct (Nat.eqb_spec k j); [lia|]. destruct (Nat.eqb_spec k (i + 1)); [lia|reflexivity]. }
        right. unfold leads. rewrite (Hi3 i) by lia. rewrite Hn3. destruct (Nat.eqb_spec (i + 1) j); [lia|].
        rewrite Nat.eqb_refl, Hn2, Nat.eqb_refl. destruct (invert_swaps _ Hci) as [H1 _]. rewrite H1.
        rewrite (Hn1 i) in E2. destruct (Nat.eqb_spec i j); [lia|]. destruct (Nat.eqb_spec i (i + 1)); [lia|]. exact E2.
      * cbv zeta. split; [exact Hl1|]. split; [exact Hc1|]. split; [exact Hp1|].
        split; [intros k Hk; rewrite Hn1; destruct (Nat.eqb_spec k j); [lia|]; destruct (Nat.eqb_spec k (i + 1)); [lia|reflexivity]|].
        split; [intros k Hk; rewrite Hn1; destruct (Nat.eqb_spec k j); [lia|]; destruct (Nat.eqb_spec k (i + 1)); [lia|reflexivity]|].
        split.
        { intros k Hk1 Hk2. rewrite Hn1. destruct (Nat.eqb_spec k j).
          - exists (i + 1). split; [lia|split; [lia|reflexivity]].
          - destruct (Nat.eqb_spec k (i + 1)).
            + exists j. split; [lia|split; [lia|reflexivity]].
            + exists k. split; [lia|split; [lia|reflexivity]]. }
        right. unfold leads. rewrite !Hn1. destruct (Nat.eqb_spec (i + 1) j); [lia|]. rewrite Nat.eqb_refl.
        destruct (Nat.eqb_spec i j); [lia|]. destruct (Nat.eqb_spec i (i + 1)); [lia|]. exact E1.
  - (* the start of line j is not near *)
    assert (Hns : ~ near tol (s_start (line_at l j)) (s_end (line_at l i))).
    { intros H. apply near_norm_le in H. congruence. }
    destruct (norm_le (vsub (s_end (line_at l j)) (s_end (line_at l i))) tol) eqn:E2.
    + apply near_norm_le in E2.
      set (l2 := put l j (line_invert (line_at l j))).
      assert (Hci : consistent (line_at l j)) by (apply Forall_at; assumption).
      assert (Hl2 : length l2 = length l) by apply put_length.
      assert (Hn2 : forall k, line_at l2 k = if Nat.eqb k j then line_invert (line_at l j) else line_at l k).
      { intros k. unfold l2, line_at. now rewrite nth_put by lia. }
      assert (Hc2 : Forall consistent l2) by (apply Forall_put; [exact Hc|apply invert_consistent, Hci]).
      assert (Hs2 : same_lines l l2) by (apply put_same; [lia|apply invert_same, Hci]).
      destruct (Nat.eqb_spec (i + 1) j) as [Hn|Hn].
      * cbv zeta. split; [exact Hl2|]. split; [exact Hc2|]. split; [exact Hs2|].
        split; [intros k Hk; rewrite Hn2; destruct (Nat.eqb_spec k j); [lia|reflexivity]|].
        split; [intros k Hk; rewrite Hn2; destruct (Nat.eqb_spec k j); [lia|reflexivity]|].
        split.
        { intros k Hk1 Hk2. exists k. split; [lia|split; [lia|]]. rewrite Hn2. destruct (Nat.eqb_spec k j); [|reflexivity].
          subst k. symmetry. apply invert_same, Hci. }
        right. unfold leads. rewrite !Hn2, Hn, Nat.eqb_refl. destruct (Nat.eqb_spec i j); [lia|].
        destruct (invert_swaps _ Hci) as [H1 _]. rewrite H1. exact E2.
      * set (l3 := swap_at line_default l2 (i + 1) j).
        assert (Hn3 : forall k, line_at l3 k = if Nat.eqb k j then line_at l2 (i + 1) else if Nat.eqb k (i + 1) then line_at l2 j else line_at l2 k).
        { intros k. unfold l3, line_at. now rewrite nth_swap by lia. }
        cbv zeta. split; [unfold l3; rewrite swap_length; exact Hl2|].
        split; [apply Forall_swap; [exact Hc2|lia|lia]|].
        split; [apply (same_lines_trans l l2); [exact Hs2|]; apply same_lines_perm, swap_perm; lia|].
        assert (Hi3 : forall k, k <= i -> line_at l3 k = line_at l k).
        { intros k Hk. rewrite Hn3. destruct (Nat.eqb_spec k j); [lia|]. destruct (Nat.eqb_spec k (i + 1)); [lia|].
          rewrite Hn2. destruct (Nat.eqb_spec k j); [lia|reflexivity]. }
        split; [exact Hi3|]. split.
        { intros k Hk. rewrite Hn3. destruct (Nat.eqb_spec k j); [lia|]. destruct (Nat.eqb_spec k (i + 1)); [lia|].
          rewrite Hn2. destruct (Nat.eqb_spec k j); [lia|reflexivity]. }
        split.
        { intros k Hk1 Hk2. rewrite Hn3. destruct (Nat.eqb_spec k j).
          - exists (i + 1). split; [lia|split; [lia|]]. rewrite Hn2. destruct (Nat.eqb_spec (i + 1) j); [lia|reflexivity].
          - destruct (Nat.eqb_spec k (i + 1)).
            + exists j. split; [lia|split; [lia|]]. rewrite Hn2, Nat.eqb_refl. symmetry. apply invert_same, Hci.
            + exists k. split; [lia|split; [lia|]]. rewrite Hn2. destruct (Nat.eqb_spec k j); [lia|reflexivity]. }
        right. unfold leads. rewrite (Hi3 i) by lia. rewrite Hn3. destruct (Nat.eqb_spec (i + 1) j); [lia|].
        rewrite Nat.eqb_refl, Hn2, Nat.eqb_refl. destruct (invert_swaps _ Hci) as [H1 _]. rewrite H1. exact E2.
    + assert (Hne : ~ near tol (s_end (line_at l j)) (s_end (line_at l i))).
      { intros H. apply near_norm_le in H. congruence. }
      cbv zeta. split; [reflexivity|]. split; [exact Hc|]. split; [apply same_lines_refl|].
      split; [reflexivity|]. split; [reflexivity|]. split; [intros k ? ?; exists k; split; [lia|split; [lia|reflexivity]]|].
      left. split; [reflexivity|]. intros [H|H]; contradiction.
Qed.

Lemma hits_same tol l l' i k k' : line_at l' i = line_at l i -> same_line (line_at l' k') (line_at l k) ->
  hits tol l' i k' -> hits tol l i k.
Proof.
  unfold hits. intros -> [[H1 H2]|[H1 H2]]; rewrite H1, H2; tauto.
Qed.

(** The inner loop. *)
Lemma sort_inner_spec tol l i : Forall consistent l -> i < length l ->
  let l' := sort_inner tol l i in
  length l' = length l /\ Forall consistent l' /\ same_lines l l' /\
  (forall k, k <= i -> line_at l' k = line_at l k) /\
  (forall k, i < k -> k < length l -> exists k', i < k' /\ k' < length l /\ same_line (line_at l' k) (line_at l k')) /\
  ((exists k, i < k /\ k < length l /\ hits tol l' i k) -> leads tol l' i).
Proof.
  intros Hc Hi. unfold sort_inner.
  assert (Hgen : forall m, i + 1 + m <= length l ->
    let l' := fold_left (sort_step tol i) (seq (i + 1) m) l in
    length l' = length l /\ Forall consistent l' /\ same_lines l l' /\
    (forall k, k <= i -> line_at l' k = line_at l k) /\
    (forall k, i + m < k -> line_at l' k = line_at l k) /\
    (forall k, i < k -> k <= i + m -> exists k', i < k' /\ k' <= i + m /\ same_line (line_at l' k) (line_at l k')) /\
    ((exists k, i < k /\ k <= i + m /\ hits tol l' i k) -> leads tol l' i)).
  { induction m as [|m IH]; intros Hm.
    - cbn [seq fold_left]. split; [reflexivity|]. split; [exact Hc|]. split; [apply same_lines_refl|].
      split; [reflexivity|]. split; [reflexivity|]. split; [intros; lia|]. intros (k & ? & ? & _). lia.
    - rewrite seq_S, fold_left_app. destruct IH as (H1 & H2 & H3 & H4 & H5 & H6 & H7); [lia|].
      set (l1 := fold_left (sort_step tol i) (seq (i + 1) m) l) in *. cbn [fold_left].
      destruct (sort_step_spec tol i l1 (i + 1 + m) H2) as (G1 & G2 & G3 & G4 & G5 & G6 & G7); [lia|lia|].
      cbv zeta. set (l2 := sort_step tol i l1 (i + 1 + m)) in *.
      split; [lia|]. split; [exact G2|]. split; [eapply same_lines_trans; eassumption|].
      split; [intros k Hk; rewrite G4 by exact Hk; apply H4, Hk|].
      split; [intros k Hk; rewrite G5 by lia; apply H5; lia|].
      split.
      + intros k Hk1 Hk2. destruct (G6 k) as (k1 & Ha & Hb & Hs); [lia|lia|].
        destruct (Nat.le_gt_cases k1 (i + m)).
        * destruct (H6 k1) as (k2 & Hc1 & Hc2 & Hs2); [lia|lia|]. exists k2. split; [lia|split; [lia|]]. now transitivity (line_at l1 k1).
        * exists k1. split; [lia|split; [lia|]]. rewrite Hs, H5 by lia. reflexivity.
      + intros (k & Hk1 & Hk2 & Hk3). destruct G7 as [[G7 Gn]|G7]; [|exact G7].
        rewrite G7 in *. apply H7. exists k. destruct (Nat.eq_dec k (i + 1 + m)); [subst; contradiction|].
        split; [lia|split; [lia|exact Hk3]]. }
  destruct (Hgen (length l - (i + 1))) as (H1 & H2 & H3 & H4 & H5 & H6 & H7); [lia|].
  cbv zeta in *. split; [exact H1|]. split; [exact H2|]. split; [exact H3|]. split; [exact H4|]. split.
  - intros k Hk1 Hk2. destruct (H6 k) as (k' & ? & ? & ?); [lia|lia|]. exists k'. split; [lia|split; [lia|assumption]].
  - intros (k & Hk1 & Hk2 & Hk3). apply H7. exists k. split; [lia|split; [lia|exact Hk3]].
Qed.

Lemma line_sort_pos tol l : Forall consistent l ->
  let l' := line_sort tol l in
  length l' = length l /\ Forall consistent l' /\ same_lines l l' /\
  (forall i k, i < k -> k < length l -> hits tol l' i k -> leads tol l' i) /\
  (0 < length l -> line_at l' 0 = line_at l 0).
Proof.
  intros Hc. unfold line_sort.
  assert (Hgen : forall m, m <= length l ->
    let l' := fold_left (sort_inner tol) (seq 0 m) l in
    length l' = length l /\ Forall consistent l' /\ same_lines l l' /\
    (forall i k, i < m -> i < k -> k < length l -> hits tol l' i k -> leads tol l' i) /\
    line_at l' 0 = line_at l 0).
  { induction m as [|m IH]; intros Hm.
    - cbn [seq fold_left]. split; [reflexivity|]. split; [exact Hc|]. split; [apply same_lines_refl|]. split; [intros; lia|reflexivity].
    - rewrite seq_S, fold_left_app. destruct IH as (H1 & H2 & H3 & H4 & H5); [lia|]. cbv zeta.
      set (l1 := fold_left (sort_inner tol) (seq 0 m) l) in *. cbn [fold_left]. replace (0 + m) with m by lia.
      destruct (sort_inner_spec tol l1 m H2) as (G1 & G2 & G3 & G4 & G5 & G6); [lia|].
      set (l2 := sort_inner tol l1 m) in *. rewrite H1 in *.
      split; [lia|]. split; [exact G2|]. split; [eapply same_lines_trans; eassumption|]. split.
      + intros i k Hi Hk1 Hk2 Hh. destruct (Nat.eq_dec i m) as [->|Hne].
        * apply G6. exists k. auto.
        * assert (Hl : leads tol l1 i).
          { destruct (Nat.le_gt_cases k m).
            - apply (H4 i k); [lia|lia|lia|]. revert Hh. unfold hits. rewrite !G4 by lia. auto.
            - destruct (G5 k) as (k' & Ha & Hb & Hs); [lia|lia|].
              apply (H4 i k'); [lia|lia|lia|]. apply (hits_same tol l1 l2 i k' k); [apply G4; lia|exact Hs|exact Hh]. }
          revert Hl. unfold leads. rewrite !G4 by lia. auto.
      + rewrite G4 by lia. exact H5. }
  destruct (Hgen (length l)) as (H1 & H2 & H3 & H4 & H5); [lia|]. cbv zeta in *.
  split; [exact H1|]. split; [exact H2|]. split; [exact H3|]. split; [|intros _; exact H5].
  intros i k Hk1 Hk2. apply H4; lia.
Qed.

Lemma nth_error_line l k a : nth_error l k = Some a -> k < length l /\ line_at l k = a.
Proof.
  intros H. split; [apply nth_error_Some; congruence|]. unfold line_at. now apply nth_error_nth.
Qed.
Lemma line_nth_error l k : k < length l -> nth_error l k = Some (line_at l k).
Proof. intros H. unfold line_at. now apply nth_error_nth'. Qed.

Lemma line_sort_spec tol l : Forall consistent l ->
  same_lines l (line_sort tol l) /\
  nth_error (line_sort tol l) 0 = nth_error l 0 /\
  (forall i k, i < k -> touches tol (line_sort tol l) i k -> follows tol (line_sort tol l) i).
Proof.
  intros Hc. destruct (line_sort_pos tol l Hc) as (H1 & H2 & H3 & H4 & H5). cbv zeta in *.
  split; [exact H3|]. split.
  - destruct l as [|a l]; [reflexivity|]. rewrite !line_nth_error by (cbn in *; lia). f_equal. apply H5. cbn. lia.
  - intros i k Hik (a & b & Ha & Hb & Hh). apply nth_error_line in Ha as [Hi Ha]. apply nth_error_line in Hb as [Hk Hb].
    rewrite H1 in Hi, Hk. exists (line_at (line_sort tol l) i), (line_at (line_sort tol l) (i + 1)).
    rewrite !line_nth_error by lia. split; [reflexivity|split; [reflexivity|]].
    apply (H4 i k Hik Hk). unfold hits. rewrite Ha, Hb. exact Hh.
Qed.

(** * A path that starts with the first line is put in order. *)

Lemma same_lines_sym l m : same_lines l m -> same_lines m l.
Proof.
  intros (p & P & F). assert (F' : Forall2 same_line m p).
  { clear P. induction F; constructor; [symmetry|]; assumption. }
  symmetry in P. destruct (Forall2_perm _ _ _ _ F' P) as (q & P' & F''). exists q. auto.
Qed.

Lemma same_lines_cancel a b l m : same_line a b -> same_lines (a :: l) (b :: m) -> same_lines l m.
Proof.
  intros Hab (p & P & F). inversion F as [|c b' p' m' Hcb Hp]; subst.
  assert (Hin : In a (c :: p')) by (eapply Permutation_in; [exact P|now left]).
  destruct Hin as [->|Hin].
  - exists p'. split; [now apply Permutation_cons_inv in P|exact Hp].
  - apply in_split in Hin as (p1 & p2 & ->).
    assert (P' : Permutation l (c :: p1 ++ p2)).
    { apply Permutation_cons_inv with (a := a). rewrite P. rewrite perm_swap. apply perm_skip. symmetry. apply Permutation_middle. }
    exists (p1 ++ c :: p2). split; [rewrite P'; apply Permutation_middle|].
    apply Forall2_app_inv_l in Hp as (m1 & m2 & H1 & H2 & ->). apply Forall2_app; [exact H1|].
    inversion H2 as [|a' y p2' m2' Hay Hp2]; subst. constructor; [|exact Hp2].
    rewrite Hcb, <- Hab. exact Hay.
Qed.

Lemma same_lines_length l m : same_lines l m -> length l = length m.
Proof.
  intros (p & P & F). apply Permutation_length in P. rewrite P. clear P. induction F; cbn; congruence.
Qed.

Lemma same_lines_in l m b : same_lines l m -> In b m -> exists a, In a l /\ same_line a b.
Proof.
  intros (p & P & F) Hb. assert (H : exists a, In a p /\ same_line a b).
  { clear P. induction F as [|x y p' m' Hxy F IH]; [easy|]. destruct Hb as [->|Hb].
    - exists x. split; [now left|exact Hxy].
    - destruct (IH Hb) as (a & H1 & H2). exists a. split; [now right|exact H2]. }
  destruct H as (a & H1 & H2). exists a. split; [|exact H2]. eapply Permutation_in; [symmetry; exact P|exact H1].
Qed.

Lemma skipn_nth_error {A} (l : list A) i a : nth_error l i = Some a -> skipn i l = a :: skipn (S i) l.
Proof.
  revert i. induction l as [|b l IH]; intros [|i] H; cbn in H; try discriminate.
  - now injection H as ->.
  - apply IH in H. exact H.
Qed.
Lemma in_skipn {A} (l : list A) i a : In a (skipn i l) -> exists k, i <= k /\ nth_error l k = Some a.
Proof.
  revert i. induction l as [|b l IH]; intros i H.
  - rewrite skipn_nil in H. easy.
  - destruct i as [|i].
    + apply In_nth_error in H as (k & Hk). exists k. split; [lia|exact Hk].
    + cbn [skipn] in H. destruct (IH i H) as (k & H1 & H2). exists (S k). split; [lia|exact H2].
Qed.
Lemma nth_error_skipn {A} (l : list A) i k a : nth_error l k = Some a -> i <= k -> In a (skipn i l).
Proof.
  revert i k. induction l as [|b l IH]; intros i k H Hik; [destruct k; discriminate|].
  destruct i as [|i]; [now apply nth_error_In in H|]. destruct k as [|k]; [lia|]. cbn [skipn]. apply (IH i k); [exact H|lia].
Qed.

Lemma same_directed_line s r : same_directed s r -> same_line s r.
Proof. intros [H1 H2]. left. auto. Qed.

Lemma path_sorted tol l m a b : Forall consistent l -> same_lines l m ->
  nth_error l 0 = Some a -> nth_error m 0 = Some b -> same_directed a b -> simple_path tol m ->
  Forall2 same_directed (line_sort tol l) m.
Proof.
  intros Hc Hlm Ha Hb Hab [Hch Hu]. destruct (line_sort_spec tol l Hc) as (Hs & H0 & Hf).
  set (r := line_sort tol l) in *.
  assert (Hrm : same_lines r m) by (eapply same_lines_trans; [apply same_lines_sym, Hs|exact Hlm]).
  assert (Hlen : length r = length m) by now apply same_lines_length.
  assert (Hmain : forall i, i < length m ->
    (exists x y, nth_error r i = Some x /\ nth_error m i = Some y /\ same_directed x y) /\
    same_lines (skipn (S i) r) (skipn (S i) m)).
  { induction i as [|i IH]; intros Hi.
    - rewrite Ha in H0. split; [exists a, b; auto|].
      apply (same_lines_cancel a b); [apply same_directed_line, Hab|].
      rewrite <- (skipn_nth_error r 0 a H0), <- (skipn_nth_error m 0 b Hb). exact Hrm.
    - destruct IH as ((x & y & Hx & Hy & Hxy) & Ht); [lia|].
      destruct (nth_error r (S i)) as [x'|] eqn:Hx'; [|apply nth_error_None in Hx'; lia].
      destruct (nth_error m (S i)) as [y'|] eqn:Hy'; [|apply nth_error_None in Hy'; lia].
      assert (Hn : near tol (s_start y') (s_end y)).
      { destruct (Hch i) as (y1 & y2 & H1 & H2 & H3); [lia|]. replace (i + 1) with (S i) in H2 by lia.
        assert (y1 = y) by congruence. assert (y2 = y') by congruence. now subst. }
      assert (Hfol : near tol (s_start x') (s_end x)).
      { assert (Hty : In y' (skipn (S i) m)) by (apply (nth_error_skipn m (S i) (S i)); [exact Hy'|lia]).
        destruct (same_lines_in _ _ _ Ht Hty) as (z & Hz & Hzy). apply in_skipn in Hz as (k & Hk & Hz).
        destruct (Hf i k) as (x1 & x2 & H1 & H2 & H3); [lia| |].
        - exists x, z. split; [exact Hx|split; [exact Hz|]]. destruct Hxy as [_ Hxy]. rewrite Hxy.
          destruct Hzy as [[Hz1 Hz2]|[Hz1 Hz2]]; [left; rewrite Hz1|right; rewrite Hz2]; exact Hn.
        - replace (i + 1) with (S i) in H2 by lia. assert (x1 = x) by congruence. assert (x2 = x') by congruence. now subst. }
      assert (Hd : same_directed x' y').
      { assert (Htx : In x' (skipn (S i) r)) by (apply (nth_error_skipn r (S i) (S i)); [exact Hx'|lia]).
        apply same_lines_sym in Ht. destruct (same_lines_in _ _ _ Ht Htx) as (z & Hz & Hzx). apply in_skipn in Hz as (k & Hk & Hz).
        destruct Hxy as [_ Hxy]. rewrite Hxy in Hfol.
        destruct (Hu i k y z Hy Hz) as [Hki Hnot]; [lia| |].
        - destruct Hzx as [[Hz1 Hz2]|[Hz1 Hz2]]; [left; rewrite Hz1|right; rewrite Hz2]; exact Hfol.
        - replace k with (S i) in Hz by lia. assert (z = y') by congruence. subst z.
          destruct Hzx as [[Hz1 Hz2]|[Hz1 Hz2]]; [split; symmetry; assumption|].
          exfalso. apply Hnot. rewrite Hz2. exact Hfol. }
      split; [exists x', y'; auto|].
      apply (same_lines_cancel x' y'); [apply same_directed_line, Hd|].
      rewrite <- (skipn_nth_error r (S i) x' Hx'), <- (skipn_nth_error m (S i) y' Hy'). exact Ht. }
  assert (Hall : forall i, i < length m -> exists x y, nth_error r i = Some x /\ nth_error m i = Some y /\ same_directed x y)
    by (intros i Hi; apply Hmain, Hi).
  clearbody r. clear - Hlen Hall. revert r Hlen Hall. induction m as [|y m IH]; intros [|x r] Hlen Hall; try discriminate; constructor.
  - destruct (Hall 0) as (x' & y' & H1 & H2 & H3); [cbn; lia|]. cbn in H1, H2. congruence.
  - apply IH; [cbn in Hlen; lia|]. intros i Hi. destruct (Hall (S i)) as (x' & y' & H1 & H2 & H3); [cbn; lia|]. exists x', y'. auto.
Qed.

(** * Inverting a line list *)

Lemma lines_invert_spec l : Forall consistent l ->
  length (lines_invert l) = length l /\
  (forall i s r, nth_error l i = Some s -> nth_error (lines_invert l) (length l - 1 - i) = Some r ->
     s_start r =v= s_end s /\ s_end r =v= s_start s) /\
  Forall2 same_directed (lines_invert (lines_invert l)) l.
Proof.
  intros Hc. unfold lines_invert. rewrite map_length, rev_length. split; [reflexivity|]. split.
  - intros i s r Hs Hr. assert (Hi : i < length l) by (apply nth_error_Some; congruence).
    rewrite nth_error_map in Hr.
    assert (Hrev : nth_error (rev l) (length l - 1 - i) = Some s).
    { rewrite (nth_error_nth' (rev l) line_default) by (rewrite rev_length; lia).
      rewrite rev_nth by lia. f_equal. replace (length l - S (length l - 1 - i)) with i by lia. now apply nth_error_nth. }
    rewrite Hrev in Hr. cbn in Hr. injection Hr as <-. apply invert_swaps.
    rewrite Forall_forall in Hc. apply Hc. eapply nth_error_In, Hs.
  - rewrite <- map_rev, rev_involutive, map_map. induction Hc as [|s l Hs Hc IH]; cbn [map]; constructor; [|exact IH].
    destruct (invert_swaps s Hs) as [H1 H2]. destruct (invert_swaps _ (invert_consistent s Hs)) as [H3 H4].
    split; [rewrite H3; exact H2|rewrite H4; exact H1].
Qed.
