(** Search of boundary faces of a finite-volume mesh: fvm/FvmMeshSearch_Imp.hpp, on the hash grid (HashGrid_Model). Real is Q. The number of cells per
    axis is a parameter [n] as there. A face is its closed polyline and whether it has a pair (fvm/FvmFace_Imp.hpp, mesh/MshFace_Imp.hpp); the mesh is
    the list of its faces with their ids in the order of faceId(0), faceId(1), ... (fvm/FvmMesh_Imp.hpp 147-157, 177-184). The centroid kept by a face is
    that of its vertices (what happens if vertices change afterwards: Memo_Model). *)
From Coq Require Import ZArith List Bool QArith.
From Verif Require Import Prelude Vec Box_Model HashGrid_Model HashGrid_Spec.
Import ListNotations.
Open Scope Z_scope.

Record fface := FFace { ff_vs : list coord; ff_pair : bool }.
(** geometry/GeoPolygon_Imp.hpp 45-62, calculateCentroid: the mean of all vertices but the first, which is the last again. *)
Definition ff_centroid (f : fface) : coord :=
  match tl (ff_vs f) with
  | [] => vzero
  | l => vscale (/ inject_Z (zlen l))%Q (fold_left vadd l vzero)
  end.
(** FvmMesh_Imp.hpp 216-220, face(id): m_faces.at(id). *)
Definition face_of (faces : list (Z * fface)) (id : Z) : outcome fface :=
  match find (fun p => Z.eqb (fst p) id) faces with Some p => Ok (snd p) | None => Throw end.
(** FvmMeshSearch_Imp.hpp 38-43, set: the grid is reset. *)
Definition search_set (g : grid) : grid := grid_reset g.
(** 45-58, build: faces without a pair go into the grid, which is then built. *)
Definition search_build (n : Z) (faces : list (Z * fface)) (g : grid) : outcome grid :=
  g' <- foldM (fun g p => f <- face_of faces (fst p) ;; Ok (if ff_pair f then g else grid_add g (fst p) (ff_centroid f))) faces g ;;
  grid_build n g'.
(** v.norm() < d *)
Definition norm_lt (v : coord) (d : Q) : bool := Qlt_bool 0 d && Qlt_bool (norm2 v) (d * d).
(** 60-87, findClosestBoundaryFaces: everything within twice the distance, then what is nearer than the distance. *)
Definition search_find (faces : list (Z * fface)) (g : grid) (q : coord) (d : Q) : outcome (list Z) :=
  r <- grid_find g [] q (d * 2)%Q ;;
  foldM (fun out id => f <- face_of faces id ;; Ok (if norm_lt (vsub (ff_centroid f) q) d then out ++ [id] else out)) r [].
