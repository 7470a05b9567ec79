(** Model of calculateFaceCentroid, calculateElementCentroid, faceCentroid and elementCentroid of CMshMesh (mesh/MshMesh_Imp.hpp 413-474).
    Reals are rationals. The vectors m_faceCentroid and m_elementCentroid are separate from the mesh: no other function changes them,
    not even reset; the copy constructor (36-63) does not copy them (not modelled here). *)
From Coq Require Import ZArith List Bool QArith.
From Verif Require Import Prelude Vec ZMap Mesh_Model Merge_Model Face_Model.
Import ListNotations.
Open Scope Z_scope.

(** 414-438: calculateFaceCentroid: one centre for each position. *)
Definition face_centroids (m : mesh) : outcome (list coord) :=
  mapM (fun id => f <- t_get (m_faces m) id ;; face_centre (m_nodes m) f) (t_ids (m_faces m)).

(** 441-465: calculateElementCentroid. *)
Definition element_centroids (m : mesh) : outcome (list coord) := mapM (elem_centroid m) (t_ids (m_elems m)).

(** 468: faceCentroid(aFaceId), from what was calculated last. *)
Definition face_centroid (m : mesh) (cs : list coord) (id : Z) : outcome coord := i <- t_index (m_faces m) id ;; vec_at cs i.

(** 471-474: elementCentroid(anElementId). *)
Definition element_centroid (m : mesh) (cs : list coord) (id : Z) : outcome coord := i <- t_index (m_elems m) id ;; vec_at cs i.

(** 150-156: removeElement for each of the ids. *)
Definition remove_elements (m : mesh) (ids : list Z) : outcome mesh :=
  t <- foldM t_remove ids (m_elems m) ;; Ok (Mesh (m_nodes m) (m_faces m) t).
