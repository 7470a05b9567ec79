(** Properties C19 and C20: the hash grid. *)
From Coq Require Import ZArith List Bool QArith Permutation Lia.
From Verif Require Import Prelude Vec Box_Model Box_Spec HashGrid_Model HashGrid_Spec HashGrid_Proofs.
Import ListNotations.
Open Scope Z_scope.

(** ** C20: storage is a stable counting sort.
    [n] cells, any assignment [cells] of points to cells, any previous content of the list. *)
Theorem C20_counting_sort : forall n cells list0,
  0 <= n -> Forall (fun c => 0 <= c < n) cells ->
  two_pass n cells list0 (resize [] (n + 1)) =
    Ok (flat_map (members cells) (zrange (Z.to_nat n)),
        map (below cells) (zrange (Z.to_nat (n + 1)))) /\
  Permutation (flat_map (members cells) (zrange (Z.to_nat n))) (zrange (length cells)).
Proof. exact (fun n cells list0 Hn Hc => conj (two_pass_ok n cells list0 Hn Hc) (members_perm n cells Hn Hc)). Qed.
Print Assumptions C20_counting_sort.

Example C20_case : Forall (fun c => 0 <= c < 4) [2; 0; 2; 3; 0] /\
  flat_map (members [2; 0; 2; 3; 0]) (zrange 4) = [1; 4; 0; 2; 3].
Proof. split; [repeat constructor; lia|reflexivity]. Qed.

(** ** C19: search is exact.
    [n] is the number of cells per axis the code derives from the number of points; the theorem
    holds for every value.  The grid may be new or an old one that was reset.  The search never
    returns anything but the points in range (third line); it is defined whenever the search cube
    meets the bounding box of the points, in particular whenever there is something to find. *)
Theorem C19_search_exact : forall n g0 objs,
  1 <= n <= int_max ->
  (exists a b, In a objs /\ In b objs /\ ~ (snd a =v= snd b)) ->
  exists g, grid_build n (grid_fill (grid_reset g0) objs) = Ok g /\
    (forall q tol out r, grid_find g out q tol = Ok r ->
       exists r', r = out ++ r' /\ Permutation r' (in_range objs q tol)) /\
    (forall q tol out,
       (exists o p, In o objs /\ veq p (snd o) /\ in_box (vsub q (Coord tol tol tol)) (vadd q (Coord tol tol tol)) p) ->
       exists r, grid_find g out q tol = Ok r) /\
    (forall q tol out p,
       (exists a b c d e f, In a objs /\ In b objs /\ In c objs /\ In d objs /\ In e objs /\ In f objs /\
          (cx (snd a) <= cx p <= cx (snd b) /\ cy (snd c) <= cy p <= cy (snd d) /\ cz (snd e) <= cz p <= cz (snd f))%Q) ->
       in_box (vsub q (Coord tol tol tol)) (vadd q (Coord tol tol tol)) p ->
       exists r, grid_find g out q tol = Ok r).
Proof. exact hash_grid_ok. Qed.
Print Assumptions C19_search_exact.

Example C19_case : grid_reset grid_new = grid_new /\
  (exists a b, In a three_points /\ In b three_points /\ ~ (snd a =v= snd b)) /\
  (g <- grid_build 2 (grid_fill grid_new three_points) ;; grid_find g [100] (Coord 0 0 1) 1) = Ok [100; 4; 9].
Proof.
  split; [reflexivity|]. split; [|vm_compute; reflexivity].
  exists (4, Coord 0 0 0), (7, Coord 1 1 1). split; [now left|]. split; [right; now left|].
  intros (H & _). discriminate H.
Qed.

(** The three limits of the hypotheses, each with a witness. *)

(** All points in one place: the cell size is zero and build divides by it. *)
Theorem C19_single_point_refuted :
  grid_build 2 (grid_fill grid_new [(4, Coord 0 0 0); (5, Coord 0 0 0)]) = UB.
Proof. vm_compute; reflexivity. Qed.
Print Assumptions C19_single_point_refuted.

(** A query far outside the box: the cell index overflows int. *)
Theorem C19_far_query_refuted :
  (g <- grid_build 2 (grid_fill grid_new three_points) ;; grid_find g [] (Coord 10000000000 0 0) 0) = UB /\
  (g <- grid_build 2 (grid_fill grid_new three_points) ;; grid_find g [] (Coord 0 0 0) 0) = Ok [4].
Proof. split; vm_compute; reflexivity. Qed.
Print Assumptions C19_far_query_refuted.

(** build() a second time without reset(): a point is reported more than once. *)
Theorem C19_rebuild_refuted : exists g g' r,
  grid_build 2 (grid_fill grid_new three_points) = Ok g /\ grid_build 2 g = Ok g' /\
  grid_find g' [] (Coord 0 0 0) 2 = Ok r /\ in_range three_points (Coord 0 0 0) 2 = [4; 7; 9] /\ ~ NoDup r.
Proof. exact rebuild_witness. Qed.
Print Assumptions C19_rebuild_refuted.
