(** Cleaning of STL surfaces: removal of facets, of invalid facets and of duplicates, and the check of edges (stl/StlFile_Imp.hpp, stl/StlUtils_Imp.hpp). Paths are relative to /repo/trunk/src.
    Continues Surf_Model. *)
From Coq Require Import ZArith List Bool QArith Reals Qreals.
From Verif Require Import Prelude Vec ZMap Mesh_Model HashGrid_Model Merge_Model Surf_Model.
Import ListNotations.
Open Scope Z_scope.

(** StlFile_Imp.hpp 120-125; erasing the end of the list of ids is undefined. *)
Definition u_remove (s : surf) (id : Z) : outcome surf :=
  match erase_first id (u_ids s) with Some l => Ok (Surf l (zdelete id (u_map s))) | None => UB end.
(** The naked flags of the edges of facets, false where never set (StlFile_Imp.hpp 16-23). *)
Definition flags : Type := zmap (bool * bool * bool).
Definition naked (fl : flags) (id k : Z) : bool := match zlookup id fl with Some t => tget t k | None => false end.
(** StlUtils_Imp.hpp 1064-1101, checkEdges: the facet across every edge is looked up. Outlines, which depend on angles, and the end points kept in the edges are not represented. *)
Definition check_edge (s : surf) (f : sfacet) (k : Z) : outcome bool :=
  let nb := tget (sf_nb f) k in if nb =? -1 then Ok true else _ <- u_get s nb ;; Ok false.
Definition check_edges (s : surf) (fl : flags) : outcome flags :=
  foldM (fun fl id => f <- u_get s id ;; a <- check_edge s f 0 ;; b <- check_edge s f 1 ;; c <- check_edge s f 2 ;; Ok (zinsert id (a, b, c) fl)) (u_ids s) fl.

(** 538. *)
Definition invalid (tol : Q) (fl : flags) (id : Z) (f : sfacet) : bool :=
  let short k := if Rlt_dec (len (side f k)) (Q2R tol) then true else false in
  short 0 || short 1 || short 2 || (naked fl id 0 && naked fl id 1 && naked fl id 2).
(** 522-546, removeInvalidFacets. [n]: rounds; every round removes a facet or increases the index, so the number of facets is enough. *)
Fixpoint invalid_loop (tol : Q) (fl : flags) (n : nat) (i : Z) (s : surf) : outcome surf :=
  if i <? u_size s then
    match n with
    | O => Throw
    | Datatypes.S n =>
      id <- u_id s i ;; f <- u_get s id ;;
      if invalid tol fl id f then s' <- u_remove s id ;; invalid_loop tol fl n i s' else invalid_loop tol fl n (i + 1) s
    end
  else Ok s.
Definition remove_invalid (tol : Q) (fl : flags) (s : surf) : outcome surf := invalid_loop tol fl (length (u_ids s)) 0 s.

(** geometry/GeoTriangle_Imp.hpp 45-81 on the present vertices (that results are remembered: Memo_Model): centroid, and four times the square of the area. *)
Definition facet_centre (f : sfacet) : coord := vscale (1 # 3) (vadd (vadd (tget (sf_v f) 0) (tget (sf_v f) 1)) (tget (sf_v f) 2)).
Definition area_square (f : sfacet) : Q := norm2 (cross (vsub (tget (sf_v f) 1) (tget (sf_v f) 0)) (vsub (tget (sf_v f) 2) (tget (sf_v f) 0))).
(** Whether sqrt a < sqrt b + t, for t > 0, without roots. *)
Definition root_below (a b t : Q) : bool := let d := (a - b - t * t)%Q in Qlt_bool d 0 || Qlt_bool (d * d) (4 * (t * t) * b)%Q.
(** 508-510: the areas differ by less than the square of the tolerance. *)
Definition same_area (tol : Q) (f g : sfacet) : bool :=
  let t := (2 * (tol * tol))%Q in Qlt_bool 0 t && root_below (area_square f) (area_square g) t && root_below (area_square g) (area_square f) t.
(** 478-488. *)
Definition centre_objs (s : surf) : outcome (list (Z * coord)) := mapM (fun id => f <- u_get s id ;; Ok (id, facet_centre f)) (u_ids s).
(** 502-516. *)
Definition dup_step (tol : Q) (a : Z) (st : surf * Z) (w : Z) : outcome (surf * Z) :=
  let '(s, i) := st in fw <- u_get s w ;; fa <- u_get s a ;;
  if same_area tol fa fw then s' <- u_remove s w ;; Ok (s', i - 1) else Ok (s, i).
(** 490-517. [n]: rounds; the number of facets less the index falls by one in every round. *)
Fixpoint dup_loop (g : grid) (tol : Q) (n : nat) (i : Z) (s : surf) : outcome surf :=
  if i <? u_size s then
    match n with
    | O => Throw
    | Datatypes.S n =>
      a <- u_id s i ;; f <- u_get s a ;; found <- grid_find g [] (facet_centre f) tol ;;
      r <- foldM (dup_step tol a) (tl found) (s, i) ;; dup_loop g tol n (snd r + 1) (fst r)
    end
  else Ok s.
(** 473-520, removeDuplicateFacets; [cells]: cells per axis of the hash grid. *)
Definition remove_duplicates (cells : Z) (tol : Q) (s : surf) : outcome surf :=
  objs <- centre_objs s ;; g <- grid_of cells objs ;; dup_loop g tol (length (u_ids s)) 0 s.
