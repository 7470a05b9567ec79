(** Proofs about the search tree. *)
From Coq Require Import ZArith List Bool QArith Qreduction Lia Lqa Permutation.
From Verif Require Import Prelude Vec Box_Model Box_Spec Adt_Model Adt_Spec.
Import ListNotations.
Open Scope Z_scope.

(** ** Entries of a tree *)
Definition entry : Type := (Z * vec6)%type.

Fixpoint contents (t : tree) : list entry :=
  match t with
  | Nil => []
  | Node i d _ l r => (if i =? -1 then [] else [(i, d)]) ++ contents l ++ contents r
  end.

Fixpoint lookup (t : tree) (w : path) : option entry :=
  match t, w with
  | Nil, _ => None
  | Node i d _ _ _, [] => Some (i, d)
  | Node _ _ _ l _, false :: w' => lookup l w'
  | Node _ _ _ _ r, true :: w' => lookup r w'
  end.

(** Separation: [lo], [hi] are the limits of the separators. *)
Fixpoint inv (lo hi : vec6) (t : tree) (dir : nat) : Prop :=
  match t with
  | Nil => True
  | Node i d sep l r =>
    (forall e, In e (contents l) -> (at6 (snd e) dir < sep)%Q) /\
    (forall e, In e (contents r) -> (sep <= at6 (snd e) dir)%Q) /\
    (at6 lo dir <= sep <= at6 hi dir)%Q /\
    inv lo hi l (next_dir dir) /\ inv lo hi r (next_dir dir)
  end.

Definition between (lo hi b : vec6) : Prop := forall d, (at6 lo d <= at6 b d <= at6 hi d)%Q.

Lemma at6_upd6 p d v d' : (d < 6)%nat -> at6 (upd6 p d v) d' = if Nat.eqb d (Nat.min d' 5) then v else at6 p d'.
Proof.
  intros Hd. destruct p as [a b].
  do 6 (destruct d as [|d]; [destruct d' as [|[|[|[|[|[|d']]]]]]; reflexivity|]). lia.
Qed.

Lemma at6_big p d : (5 <= d)%nat -> at6 p d = at6 p 5.
Proof. intros H. do 5 (destruct d as [|d]; [lia|]). reflexivity. Qed.

Lemma between_upd lo hi b d v : (d < 6)%nat -> between lo hi b -> (at6 lo d <= v <= at6 hi d)%Q -> between lo hi (upd6 b d v).
Proof.
  intros Hd Hb Hv d'. rewrite at6_upd6 by exact Hd. destruct (Nat.eqb_spec d (Nat.min d' 5)) as [->|N]; [|apply Hb].
  destruct (Nat.le_gt_cases 5 d') as [H|H].
  - rewrite (at6_big lo d'), (at6_big hi d') by exact H. rewrite Nat.min_r in Hv by exact H. exact Hv.
  - rewrite Nat.min_l in Hv by lia. exact Hv.
Qed.

Lemma next_lt d : (d < 6)%nat -> (next_dir d < 6)%nat.
Proof. intros H. do 6 (destruct d as [|d]; [cbn; lia|]). lia. Qed.

Lemma middle_within l h a b : (l <= a <= h)%Q -> (l <= b <= h)%Q -> (l <= middle a b <= h)%Q.
Proof.
  intros Ha Hb. assert (E : (middle a b == (a + b) / 2)%Q) by apply Qred_correct.
  assert (E2 : (2 * middle a b == a + b)%Q) by (rewrite E; field). lra.
Qed.

Definition keep (e : entry) : list entry := if fst e =? -1 then [] else [e].

Lemma Qlt_bool_iff x y : Qlt_bool x y = true <-> (x < y)%Q.
Proof.
  unfold Qlt_bool. split; intros H.
  - apply negb_true_iff in H. apply Qnot_le_lt. intros C. apply Qle_bool_iff in C. congruence.
  - apply negb_true_iff. apply not_true_is_false. intros C. apply Qle_bool_iff in C. lra.
Qed.

Definition is_node (t : tree) : bool := match t with Nil => false | _ => true end.

(** ** Insertion *)
Lemma insert_contents t : forall dir bmin bmax p id,
  Permutation (contents (fst (tree_insert t dir bmin bmax p id))) (keep (id, p) ++ contents t).
Proof.
  induction t as [|i d sep l IHl r IHr]; intros dir bmin bmax p id; cbn -[Z.eqb].
  - unfold keep. cbn -[Z.eqb]. destruct (id =? -1); reflexivity.
  - destruct (i =? -1) eqn:E.
    + cbn -[Z.eqb]. unfold keep. cbn -[Z.eqb]. reflexivity.
    + destruct (Qlt_bool (at6 p dir) sep).
      * specialize (IHl (next_dir dir) bmin (upd6 bmax dir sep) p id).
        destruct (tree_insert l _ _ _ p id) as [l' w]. cbn -[Z.eqb] in *. rewrite E. rewrite IHl.
        rewrite <- app_assoc. cbn. rewrite Permutation_middle. reflexivity.
      * specialize (IHr (next_dir dir) (upd6 bmin dir sep) bmax p id).
        destruct (tree_insert r _ _ _ p id) as [r' w]. cbn -[Z.eqb] in *. rewrite E. rewrite IHr.
        cbn. rewrite (Permutation_app_swap_app (contents l) (keep (id, p))).
        rewrite Permutation_middle. reflexivity.
Qed.

Lemma keep_in e x : In e (keep x) -> e = x.
Proof. unfold keep. destruct (_ =? _); cbn; [tauto|]. intros [H|[]]; congruence. Qed.

Lemma insert_inv lo hi t : forall dir bmin bmax p id, (dir < 6)%nat ->
  inv lo hi t dir -> between lo hi bmin -> between lo hi bmax ->
  inv lo hi (fst (tree_insert t dir bmin bmax p id)) dir.
Proof.
  induction t as [|i d sep l IHl r IHr]; intros dir bmin bmax p id Hd Hi Hn Hx; cbn -[Z.eqb].
  - split; [intros e []|]. split; [intros e []|]. split; [|split; exact I].
    apply middle_within; [apply Hn|apply Hx].
  - cbn in Hi. destruct Hi as (Hl & Hr & Hs & Il & Ir). destruct (i =? -1) eqn:E.
    + cbn. auto.
    + destruct (Qlt_bool (at6 p dir) sep) eqn:C.
      * pose proof (insert_contents l (next_dir dir) bmin (upd6 bmax dir sep) p id) as P.
        specialize (IHl (next_dir dir) bmin (upd6 bmax dir sep) p id (next_lt _ Hd) Il Hn (between_upd _ _ _ _ _ Hd Hx Hs)).
        destruct (tree_insert l _ _ _ p id) as [l' w]. cbn -[Z.eqb] in *.
        split; [|auto]. intros e He. apply (Permutation_in _ P) in He. apply in_app_or in He.
        destruct He as [He|He]; [|auto]. apply keep_in in He. subst e. cbn. now apply Qlt_bool_iff.
      * pose proof (insert_contents r (next_dir dir) (upd6 bmin dir sep) bmax p id) as P.
        specialize (IHr (next_dir dir) (upd6 bmin dir sep) bmax p id (next_lt _ Hd) Ir (between_upd _ _ _ _ _ Hd Hn Hs) Hx).
        destruct (tree_insert r _ _ _ p id) as [r' w]. cbn -[Z.eqb] in *.
        split; [auto|]. split; [|auto]. intros e He. apply (Permutation_in _ P) in He. apply in_app_or in He.
        destruct He as [He|He]; [|auto]. apply keep_in in He. subst e. cbn.
        apply Qnot_lt_le. intros C'. apply Qlt_bool_iff in C'. congruence.
Qed.

Lemma insert_lookup t : forall dir bmin bmax p id t' w,
  tree_insert t dir bmin bmax p id = (t', w) ->
  (lookup t w = None \/ exists d, lookup t w = Some (-1, d)) /\
  lookup t' w = Some (id, p) /\
  (forall w', w' <> w -> lookup t' w' = lookup t w').
Proof.
  induction t as [|i d sep l IHl r IHr]; intros dir bmin bmax p id t' w H; cbn -[Z.eqb] in H.
  - injection H as <- <-. split; [now left|]. split; [reflexivity|].
    intros [|[|] w'] N; [congruence| |]; reflexivity.
  - destruct (Z.eqb_spec i (-1)) as [->|E].
    + injection H as <- <-. split; [right; eexists; reflexivity|]. split; [reflexivity|].
      intros [|[|] w'] N; [congruence| |]; reflexivity.
    + destruct (Qlt_bool (at6 p dir) sep).
      * destruct (tree_insert l _ _ _ p id) as [l' w1] eqn:El. injection H as <- <-.
        apply IHl in El. destruct El as (A & B & C). cbn. split; [exact A|]. split; [exact B|].
        intros [|[|] w'] N; cbn; try reflexivity. apply C. congruence.
      * destruct (tree_insert r _ _ _ p id) as [r' w1] eqn:El. injection H as <- <-.
        apply IHr in El. destruct El as (A & B & C). cbn. split; [exact A|]. split; [exact B|].
        intros [|[|] w'] N; cbn; try reflexivity. apply C. congruence.
Qed.

Lemma insert_node t dir bmin bmax p id : is_node (fst (tree_insert t dir bmin bmax p id)) = true.
Proof.
  destruct t as [|i d sep l r]; cbn -[Z.eqb]; [reflexivity|]. destruct (i =? -1); [reflexivity|].
  destruct (Qlt_bool _ _); destruct (tree_insert _ _ _ _ _ _); reflexivity.
Qed.

Lemma insert_size t : forall dir bmin bmax p id,
  (size (fst (tree_insert t dir bmin bmax p id)) <= S (size t))%nat.
Proof.
  induction t as [|i d sep l IHl r IHr]; intros dir bmin bmax p id; cbn -[Z.eqb]; [lia|].
  destruct (i =? -1); [cbn; lia|]. destruct (Qlt_bool _ _).
  - specialize (IHl (next_dir dir) bmin (upd6 bmax dir sep) p id). destruct (tree_insert l _ _ _ p id). cbn in *. lia.
  - specialize (IHr (next_dir dir) (upd6 bmin dir sep) bmax p id). destruct (tree_insert r _ _ _ p id). cbn in *. lia.
Qed.

(** ** Removal *)
Lemma clear_contents t : forall w e, lookup t w = Some e ->
  Permutation (contents t) (keep e ++ contents (clear_at t w)).
Proof.
  induction t as [|i d sep l IHl r IHr]; intros w e H; [discriminate H|].
  destruct w as [|[|] w]; cbn -[Z.eqb] in *.
  - injection H as <-. unfold keep. cbn -[Z.eqb]. reflexivity.
  - rewrite (IHr _ _ H) at 1. rewrite (Permutation_app_swap_app (contents l) (keep e)).
    rewrite (Permutation_app_swap_app _ (keep e)). reflexivity.
  - rewrite (IHl _ _ H) at 1. rewrite <- app_assoc.
    rewrite (Permutation_app_swap_app _ (keep e)). reflexivity.
Qed.

Lemma clear_sub t : forall w e, In e (contents (clear_at t w)) -> In e (contents t).
Proof.
  induction t as [|i d sep l IHl r IHr]; intros w e H; [exact H|].
  destruct w as [|[|] w]; cbn -[Z.eqb] in *.
  - apply in_or_app. now right.
  - rewrite !in_app_iff in *. destruct H as [H|[H|H]]; eauto.
  - rewrite !in_app_iff in *. destruct H as [H|[H|H]]; eauto.
Qed.

Lemma clear_inv lo hi t : forall dir w, inv lo hi t dir -> inv lo hi (clear_at t w) dir.
Proof.
  induction t as [|i d sep l IHl r IHr]; intros dir w H; [exact I|]. cbn in H.
  destruct H as (Hl & Hr & Hs & Il & Ir).
  destruct w as [|[|] w]; cbn; (split; [|split; [|split; [exact Hs|split]]]); auto;
    intros e He; apply clear_sub in He; auto.
Qed.

Lemma clear_node t w : is_node (clear_at t w) = is_node t.
Proof. destruct t, w as [|[|] w]; reflexivity. Qed.

Lemma clear_size t : forall w, size (clear_at t w) = size t.
Proof.
  induction t as [|i d sep l IHl r IHr]; intros w; [reflexivity|].
  destruct w as [|[|] w]; cbn; rewrite ?IHl, ?IHr; reflexivity.
Qed.

Lemma clear_lookup t : forall w e, lookup t w = Some e ->
  lookup (clear_at t w) w = Some (-1, snd e) /\ forall w', w' <> w -> lookup (clear_at t w) w' = lookup t w'.
Proof.
  induction t as [|i d sep l IHl r IHr]; intros w e H; [discriminate H|].
  destruct w as [|[|] w]; cbn in *.
  - injection H as <-. split; [reflexivity|]. intros [|[|] w'] N; [congruence| |]; reflexivity.
  - destruct (IHr _ _ H) as [A B]. split; [exact A|]. intros [|[|] w'] N; try reflexivity. apply B. congruence.
  - destruct (IHl _ _ H) as [A B]. split; [exact A|]. intros [|[|] w'] N; try reflexivity. apply B. congruence.
Qed.

(** ** Search *)

Definition hits (bmin bmax : vec6) (es : list entry) : list Z := map fst (filter (fun e => hit bmin bmax (snd e)) es).

Lemma hits_app bmin bmax a b : hits bmin bmax (a ++ b) = hits bmin bmax a ++ hits bmin bmax b.
Proof. unfold hits. now rewrite filter_app, map_app. Qed.

Lemma hits_perm bmin bmax a b : Permutation a b -> Permutation (hits bmin bmax a) (hits bmin bmax b).
Proof.
  unfold hits. induction 1; cbn -[hit]; repeat (destruct (hit _ _ _)); cbn; eauto using Permutation, perm_swap.
Qed.

Lemma hits_none bmin bmax es : (forall e, In e es -> hit bmin bmax (snd e) = false) -> hits bmin bmax es = [].
Proof.
  unfold hits. induction es as [|e es IH]; intros H; [reflexivity|]. cbn. rewrite (H e) by now left.
  apply IH. intros e' H'. apply H. now right.
Qed.

Definition st_contents (st : list (tree * nat)) : list entry := flat_map (fun s => contents (fst s)) st.
Definition st_size (st : list (tree * nat)) : nat := fold_right (fun s n => (size (fst s) + n)%nat) 0%nat st.

Lemma st_size_cons t d st : st_size ((t, d) :: st) = (size t + st_size st)%nat.
Proof. reflexivity. Qed.
Lemma st_size_nil : st_size [] = 0%nat.
Proof. reflexivity. Qed.

Definition st_ok (lo hi : vec6) (st : list (tree * nat)) : Prop :=
  Forall (fun s => is_node (fst s) = true /\ (snd s < 6)%nat /\ inv lo hi (fst s) (snd s)) st.

Section Search.
  Variables lo hi : coord.       (* limits of the tree *)
  Variables qlo qhi : coord.     (* query *)
  Let bmin : vec6 := (lo, qlo).
  Let bmax : vec6 := (qhi, hi).
  Let L : vec6 := (lo, lo).
  Let H : vec6 := (hi, hi).

  Lemma left_pruned d sep es : (d < 6)%nat -> (at6 L d <= sep)%Q ->
    (forall e, In e es -> (at6 (snd e) d < sep)%Q) -> Qle_bool (at6 bmin d) sep = false -> hits bmin bmax es = [].
  Proof.
    intros Hd Hs He C. apply hits_none. intros e Hin. specialize (He e Hin).
    assert (C' : (sep < at6 bmin d)%Q) by (apply Qnot_le_lt; intros X; apply Qle_bool_iff in X; congruence).
    destruct e as [i [a b]]. cbn [snd] in *. unfold hit.
    apply not_true_is_false. intros T. rewrite !andb_true_iff, !Qle_bool_iff in T.
    do 6 (destruct d as [|d]; [cbn in *; lra|]). lia.
  Qed.

  Lemma right_pruned d sep es : (d < 6)%nat -> (sep <= at6 H d)%Q ->
    (forall e, In e es -> (sep <= at6 (snd e) d)%Q) -> Qle_bool sep (at6 bmax d) = false -> hits bmin bmax es = [].
  Proof.
    intros Hd Hs He C. apply hits_none. intros e Hin. specialize (He e Hin).
    assert (C' : (at6 bmax d < sep)%Q) by (apply Qnot_le_lt; intros X; apply Qle_bool_iff in X; congruence).
    destruct e as [i [a b]]. cbn [snd] in *. unfold hit.
    apply not_true_is_false. intros T. rewrite !andb_true_iff, !Qle_bool_iff in T.
    do 6 (destruct d as [|d]; [cbn in *; lra|]). lia.
  Qed.

  Lemma push_cases st c d go : 
    match push_child st c d go with
    | None => (max_depth <= length st)%nat /\ is_node c = true
    | Some st' => (st' = st /\ (c = Nil \/ go = false)) \/ (st' = (c, d) :: st /\ is_node c = true /\ (length st < max_depth)%nat)
    end.
  Proof.
    unfold push_child. destruct c as [|i dd s l r]; [left; auto|]. destruct go; [|left; auto].
    destruct (Nat.leb_spec max_depth (length st)); [split; auto|right; auto].
  Qed.

  (** The result, given enough fuel: exact without overflow, sound in any case; overflow only with a
      large tree. [v] counts the nodes visited before. *)
  Lemma search_ok : forall fuel st out v, st_ok L H st -> (st_size st <= fuel)%nat -> (length st <= v + 1)%nat ->
    exists res flag, search fuel bmin bmax st out = Some (res, flag) /\
      (flag = false -> Permutation res (out ++ hits bmin bmax (st_contents st))) /\
      (exists more, Permutation (out ++ hits bmin bmax (st_contents st)) (res ++ more)) /\
      (flag = true -> (2 * max_depth < v + st_size st)%nat).
  Proof.
    induction fuel as [|fuel IH]; intros st out v Hok Hsz Hv.
    - destruct st as [|[t d] st].
      + exists out, false. split; [reflexivity|]. cbn. split; [intros _; now rewrite app_nil_r|].
        split; [exists []; reflexivity|discriminate].
      + inversion Hok as [|? ? (Hn & _) Hok']; subst. destruct t; [discriminate Hn|]. rewrite st_size_cons in Hsz. cbn in Hsz. lia.
    - destruct st as [|[t dir] rest].
      { exists out, false. split; [reflexivity|]. cbn. split; [intros _; now rewrite app_nil_r|].
        split; [exists []; reflexivity|discriminate]. }
      inversion Hok as [|? ? (Hn & Hd & Hi) Hrest]; subst. cbn [fst snd] in *.
      destruct t as [|i d sep l r]; [discriminate Hn|]. cbn in Hi. destruct Hi as (Hl & Hr & [Hs1 Hs2] & Il & Ir).
      cbn [search]. set (out' := if _ && _ then _ else _).
      assert (Hall : Permutation (out ++ hits bmin bmax (st_contents ((Node i d sep l r, dir) :: rest)))
        (out' ++ hits bmin bmax (contents l) ++ hits bmin bmax (contents r) ++ hits bmin bmax (st_contents rest))).
      { change (st_contents ((Node i d sep l r, dir) :: rest)) with (((if i =? -1 then [] else [(i, d)]) ++ contents l ++ contents r) ++ st_contents rest).
        rewrite !hits_app. rewrite <- !app_assoc. unfold out'.
        destruct (i =? -1); cbn -[hit]; [reflexivity|].
        unfold hits at 1. cbn -[hit]. destruct (hit bmin bmax d); cbn -[hit]; [|reflexivity].
        rewrite <- app_assoc. cbn. reflexivity. }
      set (gl := Qle_bool (at6 bmin dir) sep). set (gr := Qle_bool sep (at6 bmax dir)).
      assert (Sz : (size l + size r + st_size rest <= fuel)%nat) by (rewrite st_size_cons in Hsz; cbn in Hsz; lia).
      assert (SzN : st_size ((Node i d sep l r, dir) :: rest) = S (size l + size r + st_size rest)) by (rewrite st_size_cons; cbn; lia).
      assert (Lr : (length rest <= st_size rest)%nat).
      { clear - Hrest. induction rest as [|[t d] st IHs]; [cbn; lia|]. inversion Hrest as [|? ? (N & _) R]; subst.
        specialize (IHs R). rewrite st_size_cons. cbn in *. destruct t; [discriminate N|]. cbn. lia. }
      assert (Pl : gl = false -> hits bmin bmax (contents l) = []) by (intros G; eapply left_pruned; eauto).
      assert (Pr : gr = false -> hits bmin bmax (contents r) = []) by (intros G; eapply right_pruned; eauto).
      cbn [length] in Hv.
      assert (Over : forall flag : bool, exists more, Permutation (out ++ hits bmin bmax (st_contents ((Node i d sep l r, dir) :: rest))) (out' ++ more))
        by (intros _; eexists; exact Hall).
      pose proof (push_cases rest l (next_dir dir) gl) as Cl. destruct (push_child rest l (next_dir dir) gl) as [st1|].
      2:{ destruct Cl as [Cl Nl]. exists out', true. split; [reflexivity|]. split; [discriminate|]. split; [apply (Over true)|].
          intros _. rewrite SzN. destruct l; [discriminate Nl|]. cbn [size]. lia. }
      assert (H1 : st_ok L H st1 /\ (st_size st1 <= size l + st_size rest)%nat /\ (length st1 <= S (length rest))%nat /\
                   (length st1 <= st_size st1)%nat /\
                   Permutation (hits bmin bmax (contents l) ++ hits bmin bmax (st_contents rest)) (hits bmin bmax (st_contents st1))).
      { destruct Cl as [[-> Cl]|(-> & Nl & Cl)].
        - split; [exact Hrest|]. split; [lia|]. split; [lia|]. split; [exact Lr|].
          destruct Cl as [-> |G]; [reflexivity|]. rewrite (Pl G). reflexivity.
        - split; [constructor; [split; [exact Nl|split; [now apply next_lt|exact Il]]|exact Hrest]|].
          split; [rewrite st_size_cons; lia|]. split; [cbn; lia|]. split; [rewrite st_size_cons; destruct l; [discriminate Nl|]; cbn; lia|]. change (st_contents ((l, next_dir dir) :: rest)) with (contents l ++ st_contents rest). rewrite hits_app. reflexivity. }
      destruct H1 as (Ok1 & Sz1 & Len1 & LS1 & Per1).
      pose proof (push_cases st1 r (next_dir dir) gr) as Cr. destruct (push_child st1 r (next_dir dir) gr) as [st2|].
      2:{ destruct Cr as [Cr Nr]. exists out', true. split; [reflexivity|]. split; [discriminate|]. split; [apply (Over true)|].
          intros _. rewrite SzN. destruct r; [discriminate Nr|]. cbn [size]. lia. }
      assert (H2 : st_ok L H st2 /\ (st_size st2 <= size r + st_size st1)%nat /\ (length st2 <= S (length st1))%nat /\
                   Permutation (hits bmin bmax (contents r) ++ hits bmin bmax (st_contents st1)) (hits bmin bmax (st_contents st2))).
      { destruct Cr as [[-> Cr]|(-> & Nr & Cr)].
        - split; [exact Ok1|]. split; [lia|]. split; [lia|].
          destruct Cr as [-> |G]; [reflexivity|]. rewrite (Pr G). reflexivity.
        - split; [constructor; [split; [exact Nr|split; [now apply next_lt|exact Ir]]|exact Ok1]|].
          split; [rewrite st_size_cons; lia|]. split; [cbn; lia|]. change (st_contents ((r, next_dir dir) :: st1)) with (contents r ++ st_contents st1). rewrite hits_app. reflexivity. }
      destruct H2 as (Ok2 & Sz2 & Len2 & Per2).
      destruct (IH st2 out' (S v) Ok2) as (res & flag & E & A & B & C); [lia|lia|].
      exists res, flag. split; [exact E|].
      assert (Hall2 : Permutation (out ++ hits bmin bmax (st_contents ((Node i d sep l r, dir) :: rest))) (out' ++ hits bmin bmax (st_contents st2))).
      { rewrite Hall. apply Permutation_app_head. rewrite <- Per2, <- Per1. apply Permutation_app_swap_app. }
      split; [intros F; rewrite (A F); symmetry; exact Hall2|].
      split; [destruct B as [more B]; exists more; rewrite Hall2; exact B|].
      intros F. specialize (C F). lia.
  Qed.
End Search.

(** ** Histories *)
Definition to_entry (o : Z * box) : entry := (fst o, (b_min (snd o), b_max (snd o))).

(** The slot of a node. *)
Definition slot_is (e : entry) (s : option (Z * box)) : Prop :=
  match s with None => fst e = -1 | Some o => fst e <> -1 /\ e = to_entry o end.

Record matches (M : box) (t : adt) (slots : list (option (Z * box))) (owner : list nat) : Prop := Matches {
  mt_box : a_box t = M;
  mt_inv : inv (cmin M) (cmax M) (a_root t) 0;
  mt_paths : exists ps, length ps = length slots /\ NoDup ps /\
     (forall i w s, nth_error ps i = Some w -> nth_error slots i = Some s -> exists e, lookup (a_root t) w = Some e /\ slot_is e s) /\
     (forall w, lookup (a_root t) w <> None -> In w ps) /\
     Forall2 (fun w s => nth_error ps s = Some w) (a_nodes t) owner;
  mt_node : is_node (a_root t) = true;
  mt_contents : Permutation (contents (a_root t)) (map to_entry (live slots))
}.

Lemma Forall2_weaken {A B} (P Q : A -> B -> Prop) l l' : (forall a b, P a b -> Q a b) -> Forall2 P l l' -> Forall2 Q l l'.
Proof. intros H. induction 1; constructor; auto. Qed.

Lemma put_length {A} (l : list A) i a : (i < length l)%nat -> length (put l i a) = length l.
Proof. intros H. unfold put. rewrite app_length, firstn_length. cbn [length]. rewrite skipn_length. lia. Qed.

Lemma nth_put {A} (l : list A) i a j : (i < length l)%nat ->
  nth_error (put l i a) j = if Nat.eqb i j then Some a else nth_error l j.
Proof.
  intros H. unfold put. destruct (Nat.eqb_spec i j) as [<-|N].
  - rewrite nth_error_app2; rewrite firstn_length, Nat.min_l by lia; [|lia]. now rewrite Nat.sub_diag.
  - destruct (Nat.lt_ge_cases j i) as [J|J].
    + rewrite nth_error_app1 by (rewrite firstn_length; lia).
      rewrite <- (firstn_skipn i l) at 2. rewrite nth_error_app1 by (rewrite firstn_length; lia). reflexivity.
    + rewrite nth_error_app2; rewrite firstn_length, Nat.min_l by lia; [|lia].
      destruct (j - i)%nat as [|k] eqn:E; [lia|]. cbn [nth_error].
      rewrite <- (firstn_skipn (S i) l) at 2. rewrite nth_error_app2; rewrite firstn_length, Nat.min_l by lia; [|lia].
      f_equal. lia.
Qed.

Definition opt_list (s : option (Z * box)) : list (Z * box) := match s with Some e => [e] | None => [] end.

Lemma live_put slots i s s' : nth_error slots i = Some s ->
  Permutation (opt_list s ++ live (put slots i s')) (opt_list s' ++ live slots).
Proof.
  intros H. assert (E : slots = firstn i slots ++ s :: skipn (S i) slots).
  { clear s'. revert i H. induction slots as [|x l IH]; intros [|i] H; cbn in *; try discriminate; [congruence|].
    f_equal. apply IH, H. }
  unfold put. rewrite E at 3. unfold live. rewrite !flat_map_app. cbn.
  fold (opt_list s') (opt_list s). rewrite (Permutation_app_swap_app _ (opt_list s')). rewrite (Permutation_app_swap_app _ (opt_list s')).
  apply Permutation_app_head. apply Permutation_app_swap_app.
Qed.

Lemma keep_slot id b : keep (to_entry (id, b)) = map to_entry (opt_list (slot_for id b)).
Proof. unfold keep, slot_for, to_entry. cbn -[Z.eqb]. now destruct (id =? -1). Qed.

Lemma slot_is_for id b : slot_is (to_entry (id, b)) (slot_for id b).
Proof. unfold slot_for. destruct (Z.eqb_spec id (-1)) as [->|N]; cbn; [reflexivity|auto]. Qed.

Lemma slot_keep e s : slot_is e s -> keep e = map to_entry (opt_list s).
Proof.
  destruct s as [o|]; cbn; intros H.
  - destruct H as [N ->]. unfold keep. destruct (Z.eqb_spec (fst (to_entry o)) (-1)); [contradiction|reflexivity].
  - unfold keep. now rewrite H.
Qed.

Lemma bounds_between M : ordered M -> between (cmin M) (cmax M) (cmin M) /\ between (cmin M) (cmax M) (cmax M).
Proof.
  intros (X & Y & Z0). split; intros d; do 6 (destruct d as [|d]; [cbn; lra|]); cbn; lra.
Qed.

Lemma set_matches M : ordered M -> matches M (adt_set M) [None] [].
Proof.
  intros HM. constructor; cbn -[middle].
  - reflexivity.
  - destruct (bounds_between M HM) as [B1 B2]. specialize (B1 0%nat). specialize (B2 0%nat).
    split; [intros e []|]. split; [intros e []|]. split; [|split; exact I]. apply middle_within; assumption.
  - exists [[]]. split; [reflexivity|]. split; [repeat constructor; intros []|]. split.
    + intros [|[|i]] w s E1 E2; cbn in E1, E2; try discriminate. injection E1 as <-. injection E2 as <-.
      eexists. split; reflexivity.
    + split; [|constructor]. intros [|[|] w] Hw; cbn in Hw; [now left| |]; destruct w; contradiction.
  - reflexivity.
  - reflexivity.
Qed.

Lemma insert_matches M t cs slots owner id b : ordered M -> stored cs slots owner -> matches M t slots owner ->
  exists slots' owner', stored (cs ++ [Insert id b]) slots' owner' /\ matches M (adt_insert t id b) slots' owner'.
Proof.
  intros HM Hst [Hb Hinv (ps & Hlen & Hnd & Hlook & Hcov & Hown) Hnode Hcon].
  unfold adt_insert. rewrite Hb.
  pose proof (insert_contents (a_root t) 0 (cmin M) (cmax M) (b_min b, b_max b) id) as Pc.
  destruct (bounds_between M HM) as [B1 B2].
  pose proof (insert_node (a_root t) 0 (cmin M) (cmax M) (b_min b, b_max b) id) as Pn.
  pose proof (insert_inv (cmin M) (cmax M) (a_root t) 0 (cmin M) (cmax M) (b_min b, b_max b) id ltac:(lia) Hinv B1 B2) as Pi.
  destruct (tree_insert (a_root t) 0 (cmin M) (cmax M) (b_min b, b_max b) id) as [r w] eqn:E. cbn [fst] in *.
  apply insert_lookup in E. destruct E as (Old & New & Other).
  change (id, (b_min b, b_max b)) with (to_entry (id, b)) in Pc, New.
  rewrite keep_slot in Pc.
  destruct Old as [Old|[d Old]].
  - (* new node *)
    assert (Nw : ~ In w ps).
    { intros C. apply In_nth_error in C. destruct C as [i Hi].
      destruct (nth_error slots i) as [s|] eqn:Es.
      - destruct (Hlook _ _ _ Hi Es) as (e & L & _). congruence.
      - apply nth_error_None in Es. assert (nth_error ps i <> None) by congruence. apply nth_error_Some in H. lia. }
    exists (slots ++ [slot_for id b]), (owner ++ [length slots]). split; [now apply stored_new|].
    constructor; cbn.
    + reflexivity.
    + exact Pi.
    + exists (ps ++ [w]). split; [rewrite !app_length; cbn; lia|]. split.
      { rewrite Permutation_app_comm. cbn. constructor; assumption. }
      split; [|split].
      * intros i w' s E1 E2. destruct (Nat.lt_ge_cases i (length ps)) as [I|I].
        -- rewrite nth_error_app1 in E1 by exact I. rewrite nth_error_app1 in E2 by lia.
           destruct (Hlook _ _ _ E1 E2) as (e & L & S). exists e. split; [|exact S]. rewrite Other; [exact L|].
           intros ->. apply Nw. now apply nth_error_In in E1.
        -- rewrite nth_error_app2 in E1 by exact I. rewrite nth_error_app2 in E2 by lia. rewrite Hlen in E1.
           destruct (i - length slots)%nat as [|k]; [|destruct k; discriminate E1]. cbn in E1, E2.
           injection E1 as <-. injection E2 as <-. eexists. split; [exact New|]. apply slot_is_for.
      * intros w' Hw. apply in_or_app. destruct (list_eq_dec Bool.bool_dec w' w) as [->|N]; [right; now left|left].
        apply Hcov. rewrite <- Other by exact N. exact Hw.
      * apply Forall2_app.
        -- eapply Forall2_weaken; [|exact Hown]. cbn. intros a s Hs. rewrite nth_error_app1; [exact Hs|].
           apply nth_error_Some. congruence.
        -- repeat constructor. rewrite nth_error_app2 by lia. rewrite Hlen, Nat.sub_diag. reflexivity.
    + exact Pn.
    + rewrite Pc, Hcon. unfold live. rewrite flat_map_app, map_app. cbn. rewrite app_nil_r. fold (opt_list (slot_for id b)).
      apply Permutation_app_comm.
  - (* reuse *)
    assert (Hin : In w ps) by (apply Hcov; congruence).
    apply In_nth_error in Hin. destruct Hin as [s Hs].
    assert (Ls : (s < length slots)%nat) by (rewrite <- Hlen; apply nth_error_Some; congruence).
    assert (Es : nth_error slots s = Some None).
    { destruct (nth_error slots s) as [o|] eqn:Eo; [|apply nth_error_None in Eo; lia].
      destruct (Hlook _ _ _ Hs Eo) as (e & L & S). rewrite Old in L. injection L as <-.
      destruct o; [|reflexivity]. cbn in S. destruct S; congruence. }
    exists (put slots s (slot_for id b)), (owner ++ [s]). split; [now apply stored_reuse|].
    constructor; cbn.
    + reflexivity.
    + exact Pi.
    + exists ps. split; [now rewrite put_length|]. split; [exact Hnd|]. split; [|split].
      * intros i w' o E1 E2. rewrite nth_put in E2 by exact Ls. destruct (Nat.eqb_spec s i) as [<-|N].
        -- injection E2 as <-. rewrite Hs in E1. injection E1 as <-. eexists. split; [exact New|]. apply slot_is_for.
        -- destruct (Hlook _ _ _ E1 E2) as (e & L & S). exists e. split; [|exact S]. rewrite Other; [exact L|].
           intros ->. apply N. eapply (proj1 (NoDup_nth_error ps) Hnd); [apply nth_error_Some; congruence|congruence].
      * intros w' Hw. destruct (list_eq_dec Bool.bool_dec w' w) as [->|N]; [now apply nth_error_In in Hs|].
        apply Hcov. rewrite <- Other by exact N. exact Hw.
      * apply Forall2_app; [exact Hown|]. repeat constructor. exact Hs.
    + exact Pn.
    + rewrite Pc, Hcon, <- map_app. apply Permutation_map.
      pose proof (live_put slots s None (slot_for id b) Es) as P. cbn in P. symmetry. exact P.
Qed.

Lemma remove_matches M t cs slots owner k t' : stored cs slots owner -> matches M t slots owner ->
  adt_remove t k = Ok t' ->
  exists slots' owner', stored (cs ++ [Remove k]) slots' owner' /\ matches M t' slots' owner'.
Proof.
  intros Hst [Hb Hinv (ps & Hlen & Hnd & Hlook & Hcov & Hown) Hnode Hcon] H.
  unfold adt_remove, vec_get in H. destruct (Z.ltb_spec k 0); [discriminate H|].
  destruct (nth_error (a_nodes t) (Z.to_nat k)) as [w|] eqn:Ew; [|discriminate H]. cbn in H. injection H as <-.
  assert (X : exists s, nth_error owner (Z.to_nat k) = Some s /\ nth_error ps s = Some w).
  { clear - Hown Ew. revert Ew. generalize (Z.to_nat k) as n. induction Hown as [|a s l l' Hs _ IH]; intros [|n] E; cbn in *; try discriminate.
    - injection E as <-. exists s. auto.
    - apply IH, E. }
  destruct X as (s & Eo & Hs).
  assert (Ls : (s < length slots)%nat) by (rewrite <- Hlen; apply nth_error_Some; congruence).
  destruct (nth_error slots s) as [o|] eqn:Es; [|apply nth_error_None in Es; lia].
  destruct (Hlook _ _ _ Hs Es) as (e & L & S).
  pose proof (clear_lookup _ _ _ L) as [C1 C2]. pose proof (clear_contents _ _ _ L) as Pc.
  exists (put slots s None), owner. split; [now apply stored_remove|].
  constructor; cbn.
  - exact Hb.
  - now apply clear_inv.
  - exists ps. split; [now rewrite put_length|]. split; [exact Hnd|]. split; [|split; [|exact Hown]].
    + intros i w' o' E1 E2. rewrite nth_put in E2 by exact Ls. destruct (Nat.eqb_spec s i) as [<-|N].
      * injection E2 as <-. rewrite Hs in E1. injection E1 as <-. eexists. split; [exact C1|reflexivity].
      * destruct (Hlook _ _ _ E1 E2) as (e' & L' & S'). exists e'. split; [|exact S']. rewrite C2; [exact L'|].
        intros ->. apply N. eapply (proj1 (NoDup_nth_error ps) Hnd); [apply nth_error_Some; congruence|congruence].
    + intros w' Hw. destruct (list_eq_dec Bool.bool_dec w' w) as [->|N]; [now apply nth_error_In in Hs|].
      apply Hcov. rewrite <- C2 by exact N. exact Hw.
  - rewrite clear_node. exact Hnode.
  - rewrite (slot_keep _ _ S) in Pc. rewrite Hcon in Pc.
    pose proof (Permutation_map to_entry (live_put slots s o None Es)) as P. cbn in P. rewrite map_app in P.
    rewrite Pc in P. apply Permutation_app_inv_l in P. symmetry. exact P.
Qed.

Lemma run_app t a b : run t (a ++ b) = (t' <- run t a ;; run t' b).
Proof.
  unfold run. revert t. induction a as [|c a IH]; intros t; [reflexivity|]. cbn.
  destruct (run1 t c); cbn; [apply IH|reflexivity|reflexivity].
Qed.

Lemma run_matches M cs : ordered M -> forall t, run (adt_set M) cs = Ok t ->
  exists slots owner, stored cs slots owner /\ matches M t slots owner.
Proof.
  intros HM. induction cs as [|c cs IH] using rev_ind; intros t H.
  - injection H as <-. exists [None], []. split; [constructor|now apply set_matches].
  - rewrite run_app in H. destruct (run (adt_set M) cs) as [t0| |]; try discriminate.
    destruct (IH t0 eq_refl) as (slots & owner & Hst & Hm). cbn in H.
    destruct c as [id b|k]; cbn in H.
    + injection H as <-. eapply insert_matches; eauto.
    + destruct (adt_remove t0 k) as [t1| |] eqn:E; try discriminate. cbn in H. injection H as <-.
      eapply remove_matches; eauto.
Qed.

Lemma run_size M cs : forall t, run (adt_set M) cs = Ok t -> (Z.of_nat (size (a_root t)) <= 1 + nb_inserts cs) /\
  (nb_inserts cs > 0 -> Z.of_nat (size (a_root t)) <= nb_inserts cs).
Proof.
  assert (G : forall cs t t', run t cs = Ok t' -> Z.of_nat (size (a_root t')) <= Z.of_nat (size (a_root t)) + nb_inserts cs).
  { clear. induction cs as [|c cs IH]; intros t t' H; cbn in H; [injection H as <-; cbn; lia|].
    destruct c as [id b|k]; cbn in H.
    - apply IH in H. unfold adt_insert in H.
      pose proof (insert_size (a_root t) 0 (cmin (a_box t)) (cmax (a_box t)) (b_min b, b_max b) id) as S.
      destruct (tree_insert _ _ _ _ _ _) as [r w]. cbn [a_root fst nb_inserts] in *. lia.
    - destruct (adt_remove t k) as [t1| |] eqn:E; try discriminate. cbn in H. apply IH in H.
      unfold adt_remove in E. destruct (vec_get (a_nodes t) k); try discriminate. cbn in E. injection E as <-.
      cbn [a_root nb_inserts] in *. rewrite clear_size in H. exact H. }
  intros t H. split; [apply G in H; cbn [adt_set a_root empty_root size] in H; lia|].
  (* the first insertion reuses the root *)
  destruct cs as [|c cs]; [cbn; lia|]. intros Hp. destruct c as [id b|k].
  - cbn in H. unfold adt_insert, adt_set, empty_root in H. cbn in H. apply G in H. cbn [a_root size nb_inserts] in *. lia.
  - cbn in H. unfold adt_remove, vec_get in H. cbn in H. destruct (k <? 0); [discriminate H|].
    destruct (Z.to_nat k); discriminate H.
Qed.

Lemma hit_intersects M q o : hit (b_min (a_box M), b_min q) (b_max q, b_max (a_box M)) (snd (to_entry o)) = box_intersects (snd o) q 0.
Proof.
  destruct o as [i b]. unfold hit, box_intersects, to_entry. cbn [snd fst].
  apply eq_true_iff_eq. rewrite !andb_true_iff, !Qle_bool_iff. cbn. split; intros; repeat split; lra.
Qed.

Lemma find_matches M t slots owner q tol out : matches M t slots owner ->
  exists res flag, adt_find t out q tol = Some (res, flag) /\
    (flag = false -> Permutation res (meeting (live slots) q)) /\
    (exists more, Permutation (meeting (live slots) q) (res ++ more)) /\
    (flag = true -> (2 * max_depth < size (a_root t))%nat).
Proof.
  intros [Hb Hinv Hp Hnode Hcon]. unfold adt_find. rewrite Hb.
  destruct (search_ok (b_min M) (b_max M) (b_min q) (b_max q) (size (a_root t)) [(a_root t, 0%nat)] [] 0) as (res & flag & E & A & B & C).
  - constructor; [|constructor]. cbn. split; [exact Hnode|split; [lia|exact Hinv]].
  - cbn. lia.
  - cbn. lia.
  - assert (X : hits (b_min M, b_min q) (b_max q, b_max M) (st_contents [(a_root t, 0%nat)]) = hits (b_min M, b_min q) (b_max q, b_max M) (contents (a_root t)))
      by (cbn; now rewrite app_nil_r).
    rewrite X in A, B. cbn [app] in A, B.
    assert (Y : Permutation (hits (b_min M, b_min q) (b_max q, b_max M) (contents (a_root t))) (meeting (live slots) q)).
    { etransitivity; [apply hits_perm, Hcon|]. unfold hits, meeting. clear - M. induction (live slots) as [|o l IH]; [reflexivity|].
      cbn -[hit box_intersects to_entry]. pose proof (hit_intersects (Adt M Nil []) q o) as HI. cbn [a_box] in HI. rewrite HI.
      destruct (box_intersects (snd o) q 0); cbn -[hit box_intersects to_entry]; [now constructor|exact IH]. }
    exists res, flag. split; [exact E|]. split; [intros F; rewrite (A F); exact Y|].
    split; [destruct B as [more B]; exists more; rewrite <- Y; exact B|].
    intros F. specialize (C F). cbn in C. lia.
Qed.

Lemma max_depth_Z : Z.of_nat max_depth = 1024.
Proof. reflexivity. Qed.

(** ** Any history *)
Lemma adt_history M cs t : ordered M -> run (adt_set M) cs = Ok t ->
  exists slots owner, stored cs slots owner /\
    forall q tol out, exists res flag, adt_find t out q tol = Some (res, flag) /\ answers (live slots) q res flag /\
      (nb_inserts cs <= 2048 -> flag = false).
Proof.
  intros HM H. destruct (run_matches M cs HM t H) as (slots & owner & Hst & Hm). exists slots, owner. split; [exact Hst|].
  intros q tol out. destruct (find_matches M t slots owner q tol out Hm) as (res & flag & E & A & B & C).
  exists res, flag. split; [exact E|]. split; [split; assumption|]. intros Hn.
  destruct flag; [|reflexivity]. specialize (C eq_refl). destruct (run_size M cs t H) as [S1 S2].
  pose proof max_depth_Z. lia.
Qed.

Lemma run_nodes M cs : forall t, run (adt_set M) cs = Ok t -> zlen (a_nodes t) = nb_inserts cs.
Proof.
  assert (G : forall cs t t', run t cs = Ok t' -> zlen (a_nodes t') = zlen (a_nodes t) + nb_inserts cs).
  { clear. induction cs as [|c cs IH]; intros t t' H; cbn in H; [injection H as <-; cbn; lia|].
    destruct c as [id b|k]; cbn in H.
    - apply IH in H. unfold adt_insert in H. destruct (tree_insert _ _ _ _ _ _) as [r w]. cbn [a_nodes nb_inserts] in *.
      rewrite H. unfold zlen, path in *. rewrite app_length. cbn [length]. lia.
    - destruct (adt_remove t k) as [t1| |] eqn:E; try discriminate. cbn in H. apply IH in H.
      unfold adt_remove in E. destruct (vec_get (a_nodes t) k); try discriminate. cbn in E. injection E as <-.
      cbn [a_nodes nb_inserts] in *. exact H. }
  intros t H. apply G in H. exact H.
Qed.

Lemma remove_defined M cs t k : run (adt_set M) cs = Ok t ->
  (0 <= k < nb_inserts cs -> exists t', run (adt_set M) (cs ++ [Remove k]) = Ok t') /\
  (~ 0 <= k < nb_inserts cs -> run (adt_set M) (cs ++ [Remove k]) = UB).
Proof.
  intros H. pose proof (run_nodes M cs t H) as L. rewrite run_app, H. cbn. unfold adt_remove, vec_get, zlen in *.
  split; intros K.
  - destruct (Z.ltb_spec k 0); [lia|]. destruct (nth_error (a_nodes t) (Z.to_nat k)) eqn:E; [eexists; reflexivity|].
    apply nth_error_None in E. lia.
  - destruct (Z.ltb_spec k 0); [reflexivity|]. destruct (nth_error (a_nodes t) (Z.to_nat k)) eqn:E; [|reflexivity].
    assert (nth_error (a_nodes t) (Z.to_nat k) <> None) by congruence. apply nth_error_Some in H1. lia.
Qed.

Lemma insert_defined M cs t id b : run (adt_set M) cs = Ok t -> exists t', run (adt_set M) (cs ++ [Insert id b]) = Ok t'.
Proof. intros H. rewrite run_app, H. eexists. reflexivity. Qed.

(** ** Insertions, then removals *)
Lemma stored_app_inv cs c slots owner : stored (cs ++ [c]) slots owner ->
  exists slots0 owner0, stored cs slots0 owner0 /\
    match c with
    | Insert id b => (slots = slots0 ++ [slot_for id b] /\ owner = owner0 ++ [length slots0]) \/
        exists s, nth_error slots0 s = Some None /\ slots = put slots0 s (slot_for id b) /\ owner = owner0 ++ [s]
    | Remove k => exists s, 0 <= k /\ nth_error owner0 (Z.to_nat k) = Some s /\ slots = put slots0 s None /\ owner = owner0
    end.
Proof.
  intros H. inversion H as [E|cs' s o id b H' E|cs' s o id b i H' N E|cs' s o k i H' K N E].
  - destruct cs; discriminate E.
  - apply app_inj_tail in E. destruct E as [-> <-]. exists s, o. split; [exact H'|]. left. auto.
  - apply app_inj_tail in E. destruct E as [-> <-]. exists s, o. split; [exact H'|]. right. exists i. auto.
  - apply app_inj_tail in E. destruct E as [-> <-]. subst. exists s, owner. split; [assumption|]. exists i. auto.
Qed.

Definition good_ids (objs : list (Z * box)) : Prop := Forall (fun o => fst o <> -1) objs.

Lemma slot_for_good id b : id <> -1 -> slot_for id b = Some (id, b).
Proof. intros H. unfold slot_for. destruct (Z.eqb_spec id (-1)); [contradiction|reflexivity]. Qed.

(** With ids other than -1: either the empty root is still among the slots, or object i sits in the
    slot [f i], and every slot is full. *)
Lemma stored_inserts objs : good_ids objs -> forall slots owner, stored (inserts objs) slots owner ->
  length owner = length objs /\ NoDup owner /\
  (forall i, (i < length objs)%nat -> exists s, nth_error owner i = Some s /\
      nth_error slots s = Some (nth_error objs i)) /\
  (forall s o, nth_error slots s = Some (Some o) -> In s owner) /\ (forall s, In s owner -> (s < length slots)%nat).
Proof.
  induction objs as [|o objs IH] using rev_ind; intros Hg slots owner H.
  - inversion H as [E E1 E2|? ? ? ? ? ? E|? ? ? ? ? ? ? ? E|? ? ? ? ? ? ? ? E]; try (destruct cs; discriminate E).
    split; [reflexivity|]. split; [constructor|]. split; [cbn; intros; lia|]. split; [|intros s []].
    intros [|[|s]] o Ho; discriminate Ho.
  - apply Forall_app in Hg. destruct Hg as [Hg Ho]. inversion Ho as [|? ? Ho1 _]; subst.
    unfold inserts in H. rewrite map_app in H. cbn in H. apply stored_app_inv in H.
    destruct H as (slots0 & owner0 & H0 & H). destruct (IH Hg _ _ H0) as (L & ND & A & B & R).
    rewrite (slot_for_good _ _ Ho1), <- surjective_pairing in H.
    destruct H as [[-> ->]|(s & N & -> & ->)].
    + split; [rewrite !app_length; cbn; lia|]. split.
      { rewrite Permutation_app_comm. cbn. constructor; [|exact ND]. intros C. apply R in C. lia. }
      split; [|split].
      * intros i Hi. rewrite app_length in Hi. cbn in Hi. destruct (Nat.lt_ge_cases i (length objs)) as [I|I].
        -- destruct (A i I) as (s & E1 & E2). exists s. rewrite !nth_error_app1; [auto|lia| |lia].
           apply nth_error_Some. congruence.
        -- assert (i = length objs) by lia. subst i. exists (length slots0).
           rewrite !nth_error_app2 by lia. rewrite L, !Nat.sub_diag. auto.
      * intros s o' Hs. apply in_or_app. destruct (Nat.lt_ge_cases s (length slots0)) as [I|I].
        -- left. rewrite nth_error_app1 in Hs by exact I. eauto.
        -- right. left. assert (nth_error (slots0 ++ [Some o]) s <> None) by congruence. apply nth_error_Some in H.
           rewrite app_length in H. cbn in H. lia.
      * intros s Hs. rewrite app_length. cbn. apply in_app_or in Hs. destruct Hs as [Hs|[<-|[]]]; [apply R in Hs; lia|lia].
    + assert (Ls : (s < length slots0)%nat) by (apply nth_error_Some; congruence).
      assert (Ns : ~ In s owner0).
      { intros C. apply In_nth_error in C. destruct C as [i Hi].
        assert (Li : (i < length objs)%nat) by (rewrite <- L; apply nth_error_Some; congruence).
        destruct (A i Li) as (s' & E1 & E2). rewrite Hi in E1. injection E1 as <-. rewrite N in E2. injection E2 as E2.
        symmetry in E2. apply nth_error_None in E2. lia. }
      split; [rewrite !app_length; cbn; lia|]. split.
      { rewrite Permutation_app_comm. cbn. constructor; assumption. }
      split; [|split].
      * intros i Hi. rewrite app_length in Hi. cbn in Hi. destruct (Nat.lt_ge_cases i (length objs)) as [I|I].
        -- destruct (A i I) as (s' & E1 & E2). exists s'. rewrite nth_put by exact Ls.
           rewrite !nth_error_app1 by lia. split; [exact E1|]. destruct (Nat.eqb_spec s s') as [->|_]; [|exact E2].
           exfalso. apply Ns. now apply nth_error_In in E1.
        -- assert (i = length objs) by lia. subst i. exists s. rewrite nth_put by exact Ls. rewrite Nat.eqb_refl.
           rewrite !nth_error_app2 by lia. rewrite L, !Nat.sub_diag. auto.
      * intros s' o' Hs. apply in_or_app. rewrite nth_put in Hs by exact Ls.
        destruct (Nat.eqb_spec s s') as [->|_]; [right; now left|left; eauto].
      * intros s' Hs. rewrite put_length by exact Ls. apply in_app_or in Hs. destruct Hs as [Hs|[<-|[]]]; auto.
Qed.

(** The occupied slots are exactly those of the objects still there. *)
Lemma live_by_owner objs present : forall (slots : list (option (Z * box))) owner, length owner = length objs -> NoDup owner ->
  (forall i o, nth_error objs i = Some o -> exists s, nth_error owner i = Some s /\
      nth_error slots s = Some (if present (Z.of_nat i) : bool then Some o else None)) ->
  (forall s o, nth_error slots s = Some (Some o) -> In s owner) ->
  Permutation (live slots) (map snd (filter (fun p => present (fst p)) (combine (zrange (length objs)) objs))).
Proof.
  intros slots owner L ND A B.
  assert (P : Permutation (live slots) (flat_map (fun s => match nth_error slots s with Some (Some o) => [o] | _ => [] end) (seq 0 (length slots)))).
  { clear. unfold live. rewrite <- (map_id slots) at 1. 
    assert (G : forall pre l, flat_map (fun s => match s with Some e => [e] | None => [] end) l =
        flat_map (fun s => match nth_error (pre ++ l) s with Some (Some o) => [o : Z * box] | _ => [] end) (seq (length pre) (length l))).
    { intros pre l. revert pre. induction l as [|a l IH]; intros pre; [reflexivity|]. cbn [flat_map length seq].
      rewrite nth_error_app2 by lia. rewrite Nat.sub_diag. cbn [nth_error]. specialize (IH (pre ++ [a])).
      rewrite <- app_assoc in IH. cbn in IH. rewrite app_length in IH. cbn in IH. rewrite Nat.add_1_r in IH.
      f_equal; exact IH. }
    rewrite map_id. rewrite (G [] slots). reflexivity. }
  rewrite P. clear P.
  (* only the owner slots contribute *)
  assert (Q : Permutation (flat_map (fun s => match nth_error slots s with Some (Some o) => [o] | _ => [] end) (seq 0 (length slots)))
     (flat_map (fun s => match nth_error slots s with Some (Some o) => [o] | _ => [] end) owner)).
  { set (f := fun s => match nth_error slots s with Some (Some o) => [o] | _ => [] end).
    assert (F : forall l, flat_map f l = flat_map f (filter (fun s => match f s with [] => false | _ => true end) l)).
    { induction l as [|a l IH]; [reflexivity|]. cbn. destruct (f a) eqn:Ea; cbn; [exact IH|]. rewrite Ea. cbn. now rewrite IH. }
    rewrite (F (seq _ _)), (F owner). apply Permutation_flat_map. apply NoDup_Permutation; [apply NoDup_filter, seq_NoDup|apply NoDup_filter, ND|].
    intros s. rewrite !filter_In, in_seq. unfold f. destruct (nth_error slots s) as [[o|]|] eqn:E; [|split; intros [_ C]; discriminate C|].
    - split; intros [_ _]; (split; [|reflexivity]); [eauto|]. split; [lia|]. cbn. apply nth_error_Some. congruence.
    - split; intros [_ C]; discriminate C. }
  rewrite Q. clear Q B ND. apply Permutation_refl'.
  assert (G : forall k objs owner, length owner = length objs ->
     (forall i o, nth_error objs i = Some o -> exists s, nth_error owner i = Some s /\
        nth_error slots s = Some (if present (Z.of_nat (k + i)) : bool then Some o else None)) ->
     flat_map (fun s => match nth_error slots s with Some (Some o) => [o] | _ => [] end) owner =
     map snd (filter (fun p => present (fst p)) (combine (map Z.of_nat (seq k (length objs))) objs))).
  { clear. intros k objs. revert k. induction objs as [|o objs IH]; intros k [|s owner] L A; try discriminate L; [reflexivity|].
    cbn [length seq map combine filter flat_map fst]. destruct (A 0%nat o eq_refl) as (s' & E1 & E2). injection E1 as <-.
    rewrite E2. rewrite Nat.add_0_r. rewrite (IH (S k) owner).
    - destruct (present (Z.of_nat k)); reflexivity.
    - cbn in L. lia.
    - intros i o' Ho. destruct (A (S i) o' Ho) as (s' & E3 & E4). exists s'. rewrite Nat.add_succ_r in E4. auto. }
  apply G; assumption.
Qed.

Lemma stored_removals objs ks : good_ids objs -> Forall (fun k => 0 <= k < zlen objs) ks ->
  forall slots owner, stored (inserts objs ++ map Remove ks) slots owner ->
  length owner = length objs /\ NoDup owner /\
  (forall i o, nth_error objs i = Some o -> exists s, nth_error owner i = Some s /\
      nth_error slots s = Some (if negb (existsb (Z.eqb (Z.of_nat i)) ks) then Some o else None)) /\
  (forall s o, nth_error slots s = Some (Some o) -> In s owner).
Proof.
  intros Hg. induction ks as [|k ks IH] using rev_ind; intros Hk slots owner H.
  - rewrite app_nil_r in H. destruct (stored_inserts objs Hg _ _ H) as (L & ND & A & B & _).
    split; [exact L|]. split; [exact ND|]. split; [|exact B]. intros i o Ho. cbn.
    destruct (A i) as (s & E1 & E2); [apply nth_error_Some; congruence|]. exists s. split; [exact E1|]. congruence.
  - apply Forall_app in Hk. destruct Hk as [Hk Hk1]. inversion Hk1 as [|? ? Hk2 _]; subst.
    rewrite map_app, app_assoc in H. cbn in H. apply stored_app_inv in H.
    destruct H as (slots0 & owner0 & H0 & s & _ & Es & -> & ->). destruct (IH Hk _ _ H0) as (L & ND & A & B).
    destruct (nth_error objs (Z.to_nat k)) as [ok|] eqn:Ek; [|apply nth_error_None in Ek; unfold zlen in Hk2; lia].
    destruct (A _ _ Ek) as (s' & E1 & E2). rewrite Es in E1. injection E1 as <-.
    assert (Ls : (s < length slots0)%nat) by (apply nth_error_Some; congruence).
    split; [exact L|]. split; [exact ND|]. split.
    + intros i o Ho. destruct (A i o Ho) as (si & E3 & E4). exists si. split; [exact E3|].
      rewrite nth_put by exact Ls. rewrite existsb_app. cbn. rewrite orb_false_r.
      destruct (Nat.eqb_spec s si) as [->|N].
      * assert (i = Z.to_nat k).
        { eapply (proj1 (NoDup_nth_error owner0) ND); [apply nth_error_Some; congruence|congruence]. }
        subst i. rewrite Z2Nat.id by lia. rewrite Z.eqb_refl, orb_true_r. reflexivity.
      * destruct (Z.eqb_spec (Z.of_nat i) k) as [E|_]; [|rewrite orb_false_r; exact E4].
        subst k. rewrite Nat2Z.id in Es. congruence.
    + intros s' o Hs. rewrite nth_put in Hs by exact Ls. destruct (Nat.eqb_spec s s'); [discriminate Hs|eauto].
Qed.

Lemma meeting_perm a b q : Permutation a b -> Permutation (meeting a q) (meeting b q).
Proof.
  unfold meeting. induction 1; cbn -[box_intersects]; repeat (destruct (box_intersects _ _ _)); cbn; eauto using Permutation, perm_swap.
Qed.

Lemma answers_perm a b q res flag : Permutation a b -> answers a q res flag -> answers b q res flag.
Proof.
  intros P [A (more & B)]. apply (meeting_perm _ _ q) in P. split; [intros F; rewrite (A F); exact P|].
  exists more. rewrite <- P. exact B.
Qed.

Lemma nb_inserts_app a b : nb_inserts (a ++ b) = nb_inserts a + nb_inserts b.
Proof. induction a as [|[id bb|k] a IH]; cbn [app nb_inserts]; lia. Qed.
Lemma nb_inserts_inserts objs : nb_inserts (inserts objs) = zlen objs.
Proof. unfold zlen. induction objs as [|o objs IH]; [reflexivity|]. cbn [inserts map nb_inserts length]. fold (inserts objs). lia. Qed.
Lemma nb_inserts_removes ks : nb_inserts (map Remove ks) = 0.
Proof. induction ks as [|k ks IH]; [reflexivity|exact IH]. Qed.

Lemma run_inserts M objs : exists t, run (adt_set M) (inserts objs) = Ok t.
Proof.
  induction objs as [|o objs [t IH]] using rev_ind; [eexists; reflexivity|].
  unfold inserts. rewrite map_app. eapply insert_defined. exact IH.
Qed.

Lemma run_removes M objs ks : Forall (fun k => 0 <= k < zlen objs) ks ->
  exists t, run (adt_set M) (inserts objs ++ map Remove ks) = Ok t.
Proof.
  induction ks as [|k ks IH] using rev_ind; intros Hk.
  - rewrite app_nil_r. apply run_inserts.
  - apply Forall_app in Hk. destruct Hk as [Hk Hk1]. inversion Hk1 as [|? ? Hk2 _]; subst.
    destruct (IH Hk) as [t Ht]. rewrite map_app, app_assoc. cbn.
    apply (remove_defined M _ t k Ht). rewrite nb_inserts_app, nb_inserts_inserts, nb_inserts_removes. lia.
Qed.

Lemma adt_removed M objs ks : ordered M -> good_ids objs -> Forall (fun k => 0 <= k < zlen objs) ks ->
  exists t, run (adt_set M) (inserts objs ++ map Remove ks) = Ok t /\
    forall q tol out, exists res flag, adt_find t out q tol = Some (res, flag) /\ answers (without objs ks) q res flag /\
      (zlen objs <= 2048 -> flag = false).
Proof.
  intros HM Hg Hk. destruct (run_removes M objs ks Hk) as [t Ht]. exists t. split; [exact Ht|].
  destruct (adt_history M _ t HM Ht) as (slots & owner & Hst & Hf).
  destruct (stored_removals objs ks Hg Hk _ _ Hst) as (L & ND & A & B).
  pose proof (live_by_owner objs (fun i => negb (existsb (Z.eqb i) ks)) slots owner L ND A B) as P.
  intros q tol out. destruct (Hf q tol out) as (res & flag & E & An & F). exists res, flag. split; [exact E|].
  split; [eapply answers_perm; [exact P|exact An]|]. intros Hl. apply F.
  rewrite nb_inserts_app, nb_inserts_inserts, nb_inserts_removes. lia.
Qed.

Lemma without_none objs : without objs [] = objs.
Proof.
  unfold without. cbn. unfold zrange. generalize 0%nat as k. induction objs as [|o objs IH]; intros k; [reflexivity|].
  cbn. f_equal. apply IH.
Qed.

Lemma adt_inserted M objs : ordered M -> good_ids objs ->
  exists t, run (adt_set M) (inserts objs) = Ok t /\
    forall q tol out, exists res flag, adt_find t out q tol = Some (res, flag) /\ answers objs q res flag /\
      (zlen objs <= 2048 -> flag = false).
Proof.
  intros HM Hg. destruct (adt_removed M objs [] HM Hg (Forall_nil _)) as (t & Ht & H).
  rewrite app_nil_r in Ht. rewrite without_none in H. exists t. auto.
Qed.

(** Starting again: reset gives the tree of a new object. *)
Lemma reset_new M cs t : run (adt_set M) cs = Ok t -> ordered M -> adt_reset t = adt_set M.
Proof.
  intros H HM. destruct (run_matches M cs HM t H) as (s & o & _ & [Hb _ _ _ _]). unfold adt_reset, adt_set. now rewrite Hb.
Qed.

(** ** A tree on which the search overflows *)
Definition half (k : nat) : Q := match k with O => (-1)%Q | _ => Qmake (-1) (2 ^ Pos.of_nat k) end.
Definition unit_box : box := box_of (Coord (-1) (-1) (-1)) vzero.

(** [comb n m]: n points at the upper corner make a long branch; m boxes hang one leaf each on it. *)
Definition comb_leaf (i : nat) : Z * box :=
  (Z.of_nat i, box_of (match Nat.modulo i 3 with
    | 0%nat => Coord (half (i / 3)) 0 0 | 1%nat => Coord 0 (half (i / 3)) 0 | _ => Coord 0 0 (half (i / 3)) end) vzero).
Definition comb (n m : nat) : list (Z * box) :=
  map (fun i => (Z.of_nat i, box_of vzero vzero)) (seq 0 n) ++ map comb_leaf (seq 0 m).

Lemma comb_overflow : exists objs t res, run (adt_set unit_box) (inserts objs) = Ok t /\ good_ids objs /\
  adt_find t [] unit_box 0 = Some (res, true) /\ zlen objs = 3077 /\ zlen (meeting objs unit_box) = 3077 /\ zlen res = 2047.
Proof.
  set (objs := comb (Pos.to_nat 2050) (Pos.to_nat 1027)).
  assert (C : match run (adt_set unit_box) (inserts objs) with
              | Ok t => match adt_find t [] unit_box 0 with Some (res, true) => zlen res =? 2047 | _ => false end
              | _ => false end = true) by (vm_compute; reflexivity).
  destruct (run (adt_set unit_box) (inserts objs)) as [t| |] eqn:E; try discriminate C.
  destruct (adt_find t [] unit_box 0) as [[res [|]]|] eqn:F; try discriminate C.
  exists objs, t, res. split; [exact E|]. split.
  { apply Forall_app. split; apply Forall_forall; intros o Ho; apply in_map_iff in Ho; destruct Ho as (i & <- & _); cbn [fst comb_leaf]; lia. }
  split; [exact F|]. split; [vm_compute; reflexivity|]. split; [vm_compute; reflexivity|]. lia.
Qed.
