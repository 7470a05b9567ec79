(** Property C23: the octree. *)
From Coq Require Import ZArith List Bool QArith Permutation Lia.
From Verif Require Import Prelude Vec Box_Model HashGrid_Model HashGrid_Spec Oct_Model Oct_Proofs.
Import ListNotations.
Open Scope Z_scope.

(** Soundness for every point set: whatever is returned is in range, and no stored point is returned
    more often than it is stored. *)
Theorem C23_sound : forall fuel objs t q tol out r, oct_build fuel (oct_fill oct_new objs) = Ok (Some t) ->
  oct_find t out q tol = Ok r ->
  exists new more, r = out ++ new /\ Permutation (in_range objs q tol) (new ++ more).
Proof. exact oct_sound. Qed.
Print Assumptions C23_sound.

(** Up to 1000 points, building ends at the first level, searching is always defined, and with a
    tolerance of at most one machine epsilon it is exact. *)
Theorem C23_small_sets : forall fuel objs, zlen objs <= 1000 ->
  exists t, oct_build (S fuel) (oct_fill oct_new objs) = Ok (Some t) /\
    (forall q tol out, exists new more, oct_find t out q tol = Ok (out ++ new) /\ Permutation (in_range objs q tol) (new ++ more)) /\
    (forall q tol out, (tol <= real_eps)%Q -> oct_find t out q tol = Ok (out ++ in_range objs q tol)).
Proof. exact oct_small. Qed.
Print Assumptions C23_small_sets.

Definition few : list (Z * coord) := [(4, Coord 0 0 0); (7, Coord 1 0 0); (4, Coord 1 2 0); (9, Coord 1 0 0)].
Example C23_case : zlen few <= 1000 /\ in_range few (Coord 1 0 0) 0 = [7; 9] /\
  oct_find (built few 1) [1] (Coord 1 0 0) 0 = Ok [1; 7; 9].
Proof. split; [vm_compute; discriminate|]. split; vm_compute; reflexivity. Qed.

(** A neighbour across a middle plane is missed. *)
Theorem C23_neighbour_refuted :
  (forall fuel, exists t, oct_build (S fuel) (oct_fill oct_new few) = Ok (Some t) /\
     oct_find t [] (Coord 0 0 0) 1 = Ok [4]) /\ in_range few (Coord 0 0 0) 1 = [4; 7; 9].
Proof.
  split; [|vm_compute; reflexivity]. intros fuel. exists (built few 1).
  split; [reflexivity|vm_compute; reflexivity].
Qed.
Print Assumptions C23_neighbour_refuted.

(** A query at a stored point with 1001 points in range finds none of them once an octant has been
    subdivided twice, and is undefined in a sparse octant (an element of an empty vector). *)
Theorem C23_stored_point_refuted : exists t, oct_build 10 (oct_fill oct_new crowd) = Ok (Some t) /\
  In (0, Coord (0 # 10000) 0 0) crowd /\ oct_find t [] (Coord 0 0 0) 1 = Ok [] /\ zlen (in_range crowd (Coord 0 0 0) 1) = 1001.
Proof. destruct crowd_facts as (t & A & B & C & _). exists t. split; [exact A|]. split; [left; vm_compute; reflexivity|exact (conj B C)]. Qed.
Print Assumptions C23_stored_point_refuted.

Theorem C23_sparse_octant_refuted : exists t, oct_build 10 (oct_fill oct_new crowd) = Ok (Some t) /\ oct_find t [] (Coord 4 4 4) 1 = UB.
Proof. destruct crowd_facts as (t & A & _ & _ & D). exact (ex_intro _ t (conj A D)). Qed.
Print Assumptions C23_sparse_octant_refuted.

(** Building need not end: no depth of recursion suffices for these 1003 points. *)
Theorem C23_build_ends_refuted : forall fuel, oct_build fuel (oct_fill oct_new stuck_points) = Ok None.
Proof. exact oct_stuck. Qed.
Print Assumptions C23_build_ends_refuted.

(** reset() keeps the old tree: using the object again is undefined, even with a single new point. *)
Theorem C23_reset_refuted : exists t, oct_build 3 (oct_fill oct_new few) = Ok (Some t) /\
  oct_build 3 (oct_fill (oct_reset t) [(1, Coord 0 0 0)]) = UB.
Proof. exists (built few 3). split; [reflexivity|vm_compute; reflexivity]. Qed.
Print Assumptions C23_reset_refuted.

(** Building twice: points are reported twice. *)
Theorem C23_rebuild_refuted : exists t t', oct_build 3 (oct_fill oct_new few) = Ok (Some t) /\ oct_build 3 t = Ok (Some t') /\
  oct_find t' [] (Coord 1 2 0) 0 = Ok [4; 4; 4].
Proof.
  exists (built few 3). destruct (oct_build 3 (built few 3)) as [[t'|]| |] eqn:E; try (exfalso; revert E; vm_compute; discriminate).
  exists t'. split; [reflexivity|]. split; [reflexivity|].
  assert (F : match oct_build 3 (built few 3) with Ok (Some t') => oct_find t' [] (Coord 1 2 0) 0 | _ => UB end = Ok [4; 4; 4])
    by (vm_compute; reflexivity).
  rewrite E in F. exact F.
Qed.
Print Assumptions C23_rebuild_refuted.
