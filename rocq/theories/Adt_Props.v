(** Properties C21 and C22: the alternating digital tree. *)
From Coq Require Import ZArith List Bool QArith Permutation Lia.
From Verif Require Import Prelude Vec Box_Model Box_Spec Adt_Model Adt_Spec Adt_Proofs.
Import ListNotations.
Open Scope Z_scope.

(** ** C21: find returns exactly the boxes that meet the query, for every sequence of insertions into
    a tree set up for the box [M]; the inserted boxes may even stick out of [M]. The second component of
    the result tells whether the stack overflowed, which cannot happen with up to 2048 boxes. *)
Theorem C21_search_exact : forall M objs, ordered M -> Forall (fun o => fst o <> -1) objs ->
  exists t, run (adt_set M) (inserts objs) = Ok t /\
    forall q tol out, exists res overflow, adt_find t out q tol = Some (res, overflow) /\
      answers objs q res overflow /\ (zlen objs <= 2048 -> overflow = false).
Proof. exact adt_inserted. Qed.
Print Assumptions C21_search_exact.

(** The same after reset(). *)
Theorem C21_reset : forall M cs t, ordered M -> run (adt_set M) cs = Ok t -> adt_reset t = adt_set M.
Proof. exact (fun M cs t HM H => reset_new M cs t H HM). Qed.
Print Assumptions C21_reset.

Definition three_boxes : list (Z * box) :=
  [(5, box_of (Coord 0 0 0) (Coord 1 1 1)); (5, box_of (Coord 2 2 2) (Coord 3 3 3)); (8, box_of (Coord 1 0 0) (Coord 4 1 1))].
Definition ten_box : box := box_of (Coord 0 0 0) (Coord 10 10 10).

Example C21_case : ordered ten_box /\ Forall (fun o => fst o <> -1) three_boxes /\
  meeting three_boxes (box_of (Coord 1 1 1) (Coord 2 2 2)) = [5; 5; 8] /\
  meeting three_boxes (box_of (Coord 2 0 0) (Coord 9 1 1)) = [8] /\
  (t <- run (adt_set ten_box) (inserts three_boxes) ;;
   Ok (adt_find t [77] (box_of (Coord 2 0 0) (Coord 9 1 1)) 0)) = Ok (Some ([8], false)).
Proof.
  split; [vm_compute; repeat split; discriminate|]. split; [repeat constructor; cbn; lia|].
  repeat split; vm_compute; reflexivity.
Qed.

(** Beyond the bound the search can really stop early: 3077 boxes all meet the query, 2047 are found. *)
Theorem C21_overflow_refuted : exists objs t res, run (adt_set unit_box) (inserts objs) = Ok t /\
  Forall (fun o => fst o <> -1) objs /\
  adt_find t [] unit_box 0 = Some (res, true) /\ zlen objs = 3077 /\ zlen (meeting objs unit_box) = 3077 /\ zlen res = 2047.
Proof. exact comb_overflow. Qed.
Print Assumptions C21_overflow_refuted.

(** The id -1 marks an empty node: such a box is never found. *)
Theorem C21_minus_one_refuted :
  (t <- run (adt_set ten_box) [Insert (-1) ten_box] ;; Ok (adt_find t [] ten_box 0)) = Ok (Some ([], false)).
Proof. vm_compute. reflexivity. Qed.
Print Assumptions C21_minus_one_refuted.

(** The tolerance is ignored: a box at distance 1 is not found with tolerance 5. *)
Theorem C21_tolerance_refuted : let b := box_of (Coord 0 0 0) (Coord 1 1 1) in let q := box_of (Coord 2 0 0) (Coord 3 1 1) in
  (t <- run (adt_set ten_box) [Insert 3 b] ;; Ok (adt_find t [] q 5)) = Ok (Some ([], false)) /\ box_intersects b q 5 = true.
Proof. split; vm_compute; reflexivity. Qed.
Print Assumptions C21_tolerance_refuted.

(** ** C22: removal *)

(** Insertions followed by removals: Remove k takes out the k-th inserted box, whatever its id. *)
Theorem C22_remove_by_ordinal : forall M objs ks, ordered M -> Forall (fun o => fst o <> -1) objs ->
  Forall (fun k => 0 <= k < zlen objs) ks ->
  exists t, run (adt_set M) (inserts objs ++ map Remove ks) = Ok t /\
    forall q tol out, exists res overflow, adt_find t out q tol = Some (res, overflow) /\
      answers (without objs ks) q res overflow /\ (zlen objs <= 2048 -> overflow = false).
Proof. exact adt_removed. Qed.
Print Assumptions C22_remove_by_ordinal.

(** Any history, including insertions after removals: the search answers exactly for the boxes that are
    stored in the sense of [stored]. *)
Theorem C22_history : forall M cs t, ordered M -> run (adt_set M) cs = Ok t ->
  exists slots owner, stored cs slots owner /\
    forall q tol out, exists res overflow, adt_find t out q tol = Some (res, overflow) /\
      answers (live slots) q res overflow /\ (nb_inserts cs <= 2048 -> overflow = false).
Proof. exact adt_history. Qed.
Print Assumptions C22_history.

(** Removal is defined exactly for the ordinals of the insertions made so far. *)
Theorem C22_defined : forall M cs t k, run (adt_set M) cs = Ok t ->
  (0 <= k < nb_inserts cs -> exists t', run (adt_set M) (cs ++ [Remove k]) = Ok t') /\
  (~ 0 <= k < nb_inserts cs -> run (adt_set M) (cs ++ [Remove k]) = UB).
Proof. exact remove_defined. Qed.
Print Assumptions C22_defined.

Example C22_case : without three_boxes [1] = [nth 0 three_boxes (0, ten_box); nth 2 three_boxes (0, ten_box)] /\
  (t <- run (adt_set ten_box) (inserts three_boxes ++ [Remove 1; Insert 9 ten_box]) ;;
   Ok (adt_find t [] ten_box 0)) = Ok (Some ([5; 9; 8], false)).
Proof. split; vm_compute; reflexivity. Qed.

(** Removing by id fails: removing the only box, whose id is 7, is undefined ... *)
Theorem C22_remove_by_id_refuted : run (adt_set ten_box) [Insert 7 ten_box; Remove 7] = UB.
Proof. vm_compute. reflexivity. Qed.
Print Assumptions C22_remove_by_id_refuted.

(** ... and even with ids 0, 1, 2, ... a slot that was reused is cleared under its old ordinal: the
    second Remove 0 takes out box 1. *)
Theorem C22_reuse_refuted :
  (t <- run (adt_set ten_box) [Insert 0 ten_box; Remove 0; Insert 1 ten_box; Remove 0] ;;
   Ok (adt_find t [] ten_box 0)) = Ok (Some ([], false)).
Proof. vm_compute. reflexivity. Qed.
Print Assumptions C22_reuse_refuted.
