(** Model of CGeoHashGrid (geometry/GeoHashGrid_Imp.hpp, geometry/GeoContainer_Imp.hpp).
    [Real] is Q.  The number of cells per axis, static_cast<Integer>(pow(N, 0.333)) + 1
    (GeoHashGrid_Imp.hpp:53-55), is a parameter [n]: nothing but [1 <= n] is used.  Assigning
    CGeoVector members, resizing and allocation are taken to succeed. *)
From Coq Require Import ZArith List Bool QArith Qround.
From Verif Require Import Prelude Vec Box_Model.
Import ListNotations.
Open Scope Z_scope.

(** std::vector element assignment through operator[]: unchecked. *)
Definition vec_set {A : Type} (l : list A) (i : Z) (v : A) : outcome (list A) :=
  if (i <? 0)%Z then UB
  else if (i <? zlen l)%Z
       then Ok (firstn (Z.to_nat i) l ++ v :: skipn (S (Z.to_nat i)) l)
       else UB.

(** std::vector<Integer>::resize(k): keeps a prefix, fills with zeros. *)
Definition resize (l : list Z) (k : Z) : list Z :=
  firstn (Z.to_nat k) l ++ repeat 0%Z (Z.to_nat k - length l).

(** GeoHashGrid.hpp:26-36, GeoContainer.hpp: the object. [g_objs] holds m_geometricObjects together
    with m_geometricObjectIds[position] (GeoContainer_Imp.hpp:34-38). *)
Record grid : Type := Grid {
  g_objs : list (Z * coord);
  g_nx : Z; g_ny : Z; g_nz : Z; g_nxy : Z; g_n : Z;
  g_list : list Z;
  g_ptr : list Z;
  g_box : box;
  g_orig : coord;
  g_delta : coord
}.

(** GeoHashGrid_Imp.hpp:17-26. *)
Definition grid_new : grid := Grid [] 0 0 0 0 0 [] [] box_reset vzero vzero.

(** GeoContainer_Imp.hpp:34-38. *)
Definition grid_add (g : grid) (id : Z) (c : coord) : grid :=
  Grid (g_objs g ++ [(id, c)]) (g_nx g) (g_ny g) (g_nz g) (g_nxy g) (g_n g)
       (g_list g) (g_ptr g) (g_box g) (g_orig g) (g_delta g).

(** GeoHashGrid_Imp.hpp:34-40: the bounding box is not reset. *)
Definition grid_reset (g : grid) : grid :=
  Grid [] (g_nx g) (g_ny g) (g_nz g) (g_nxy g) (g_n g) [] [] (g_box g) (g_orig g) (g_delta g).

(** GeoHashGrid_Imp.hpp:103-105, 178-180, 192-194: std::min(std::max(0, i), n - 1). *)
Definition clamp (n i : Z) : Z := Z.min (Z.max 0 i) (n - 1).

(** [1.0 / d] followed by a product: with d = 0 the C++ value is infinite or NaN and the cast that
    follows is undefined, so division by zero is [UB] here. *)
Definition quot (a d : Q) : outcome Q := if Qeq_bool d 0 then UB else Ok (a / d)%Q.

(** GeoHashGrid_Imp.hpp:83-108: the cell of one point during build. *)
Definition cell_of (b : box) (delta : coord) (nx ny nz nxy : Z) (c : coord) : outcome Z :=
  x <- quot (cx c - cx (b_min b))%Q (cx delta) ;;
  y <- quot (cy c - cy (b_min b))%Q (cy delta) ;;
  z <- quot (cz c - cz (b_min b))%Q (cz delta) ;;
  i <- to_int x ;; j <- to_int y ;; k <- to_int z ;;
  Ok (clamp nx i + clamp ny j * nx + clamp nz k * nxy)%Z.

(** GeoHashGrid_Imp.hpp:110-114: one step of pass 0. *)
Definition count_step (ptr : list Z) (c : Z) : outcome (list Z) :=
  v <- vec_get ptr (c + 1) ;; vec_set ptr (c + 1) (v + 1).

(** GeoHashGrid_Imp.hpp:134-137: accumulate. *)
Definition accumulate (n : Z) (ptr : list Z) : outcome (list Z) :=
  foldM (fun p ie => a <- vec_get p (ie + 1) ;; b <- vec_get p ie ;; vec_set p (ie + 1) (a + b))
        (zrange (Z.to_nat n)) ptr.

(** GeoHashGrid_Imp.hpp:115-125: one step of pass 1; the state is (list, ptr), the item (i, cell). *)
Definition store_step (s : list Z * list Z) (ic : Z * Z) : outcome (list Z * list Z) :=
  at_ <- vec_get (snd s) (snd ic) ;;
  l <- vec_set (fst s) at_ (fst ic) ;;
  p <- vec_set (snd s) (snd ic) (at_ + 1) ;;
  Ok (l, p).

(** GeoHashGrid_Imp.hpp:149-155: shift the pointers back by one cell. *)
Definition shift_back (n : Z) (ptr : list Z) : outcome (list Z) :=
  p <- foldM (fun p ie => a <- vec_get p (ie - 1) ;; vec_set p ie a)
             (rev (map (Z.add 1) (zrange (Z.to_nat n)))) ptr ;;
  vec_set p 0 0.

(** GeoHashGrid_Imp.hpp:87-157: both passes, for a given assignment of points to cells. *)
Definition two_pass (n : Z) (cells : list Z) (list0 ptr0 : list Z) : outcome (list Z * list Z) :=
  p1 <- foldM count_step cells ptr0 ;;
  p2 <- accumulate n p1 ;;
  nstor <- vec_get p2 n ;;
  s <- foldM store_step (combine (zrange (length cells)) cells) (resize list0 nstor, p2) ;;
  p3 <- shift_back n (snd s) ;;
  Ok (fst s, p3).

(** m_adDelta.maxCoeff(). *)
Definition max_coeff (v : coord) : Q := qmax (qmax (cx v) (cy v)) (cz v).

(** GeoHashGrid_Imp.hpp:42-158 with [n = static_cast<Integer>(dCubicRoot) + 1]. *)
Definition grid_build (n : Z) (g : grid) : outcome grid :=
  let b0 := fold_left box_add (map snd (g_objs g)) (g_box g) in
  let d0 := vsub (b_max b0) (b_min b0) in
  let nx := if Qle_bool (cx d0) real_eps then 1%Z else n in
  let ny := if Qle_bool (cy d0) real_eps then 1%Z else n in
  let nz := if Qle_bool (cz d0) real_eps then 1%Z else n in
  let b := box_grow b0 (real_eps * max_coeff d0)%Q in
  let delta := vscale (/ inject_Z nx)%Q (vsub (b_max b) (b_min b)) in
  cells <- mapM (cell_of b delta nx ny nz (n * n)) (map snd (g_objs g)) ;;
  s <- two_pass (n * n * n) cells (g_list g) (resize (g_ptr g) (n * n * n + 1)) ;;
  Ok (Grid (g_objs g) nx ny nz (n * n) (n * n * n) (fst s) (snd s) b (b_min b) delta).

(** GeoHashGrid_Imp.hpp:173-175: lower cell index of the search cube, guarded from below only. *)
Definition lower_cell (n : Z) (v o d : Q) : outcome Z :=
  q <- quot (v - o)%Q d ;;
  i <- (if Qlt_bool (inject_Z int_min) q then to_int q else Ok int_min) ;;
  Ok (clamp n i).

(** GeoHashGrid_Imp.hpp:187-189: upper cell index, guarded from above only. *)
Definition upper_cell (n : Z) (v o d : Q) : outcome Z :=
  q <- quot (v - o)%Q d ;;
  i <- (if Qlt_bool q (inject_Z int_max) then to_int q else Ok int_max) ;;
  Ok (clamp n i).

(** for (i = a; i <= b; ++i). *)
Definition zseq (a b : Z) : list Z := map (fun k => a + k)%Z (zrange (Z.to_nat (b - a + 1))).

(** GeoHashGrid_Imp.hpp:205-220: the points of one cell that are close enough. *)
Definition scan_cell (g : grid) (q : coord) (tol : Q) (out : list Z) (ie : Z) : outcome (list Z) :=
  s <- vec_get (g_ptr g) ie ;; e <- vec_get (g_ptr g) (ie + 1) ;;
  foldM (fun out p =>
           ix <- vec_get (g_list g) p ;;
           o <- vec_get (g_objs g) ix ;;
           Ok (if norm_le (vsub (snd o) q) tol then out ++ [fst o] else out))
        (zseq s (e - 1)) out.

(** The cells visited, in the order of the three nested loops GeoHashGrid_Imp.hpp:197-205. *)
Definition visited (nx nxy : Z) (i0 i1 j0 j1 k0 k1 : Z) : list Z :=
  flat_map (fun i => flat_map (fun j => map (fun k => i + j * nx + k * nxy)%Z (zseq k0 k1))
                              (zseq j0 j1)) (zseq i0 i1).

(** GeoHashGrid_Imp.hpp:161-224. On a grid built from no points every comparison with NaN is false,
    so the cell ranges are clamped to cell 0, which is empty: nothing is appended. *)
Definition grid_find (g : grid) (out : list Z) (q : coord) (tol : Q) : outcome (list Z) :=
  match g_objs g with
  | [] => Ok out
  | _ =>
    i0 <- lower_cell (g_nx g) (cx q - tol)%Q (cx (g_orig g)) (cx (g_delta g)) ;;
    j0 <- lower_cell (g_ny g) (cy q - tol)%Q (cy (g_orig g)) (cy (g_delta g)) ;;
    k0 <- lower_cell (g_nz g) (cz q - tol)%Q (cz (g_orig g)) (cz (g_delta g)) ;;
    i1 <- upper_cell (g_nx g) (cx q + tol)%Q (cx (g_orig g)) (cx (g_delta g)) ;;
    j1 <- upper_cell (g_ny g) (cy q + tol)%Q (cy (g_orig g)) (cy (g_delta g)) ;;
    k1 <- upper_cell (g_nz g) (cz q + tol)%Q (cz (g_orig g)) (cz (g_delta g)) ;;
    foldM (scan_cell g q tol) (visited (g_nx g) (g_nxy g) i0 i1 j0 j1 k0 k1) out
  end.
