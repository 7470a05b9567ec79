(** Model of applyFixedBoundary of CMshTriangleMesher (mesh/MshTriangleMesher_Imp.hpp 1154-1216), which takes the pair away from the
    faces of a surface mesh that lie on given edges. Reals are rationals; the number of cells [n] per axis of the hash grid is a parameter. *)
From Coq Require Import ZArith List Bool QArith.
From Verif Require Import Prelude Vec ZMap Mesh_Model HashGrid_Model Merge_Model Face_Model.
Import ListNotations.
Open Scope Z_scope.

(** mesh/MshFace_Imp.hpp 92-96: setHasPair(false); the pair's id stays stored. *)
Definition unset_pair (f : face) : face := Face (f_type f) (f_nodes f) false (f_pair f) (f_elem f).

(** 1209-1213: the faces found. *)
Definition unset_found (t : table face) (id : Z) : outcome (table face) :=
  f <- t_get t id ;; Ok (t_set t id (unset_pair f)).

(** 1186-1214: one edge. *)
Definition fix_edge (g : grid) (edges : mesh) (tol : Q) (t : table face) (id : Z) : outcome (table face) :=
  c <- elem_centroid edges id ;;
  found <- grid_find g [] c tol ;;
  foldM unset_found found t.

(** 1154-1216: applyFixedBoundary(aSurfaceMesh, anEdgeMesh, aTolerance). The vector sCenterCoordinates (1160, 1181) is never read. *)
Definition applyFixedBoundary (n : Z) (m edges : mesh) (tol : Q) : outcome mesh :=
  objs <- with_ids (fun id => f <- t_get (m_faces m) id ;; face_centre (m_nodes m) f) (t_ids (m_faces m)) ;;
  g <- grid_of n objs ;;
  t <- foldM (fix_edge g edges tol) (t_ids (m_elems edges)) (m_faces m) ;;
  Ok (Mesh (m_nodes m) t (m_elems m)).
