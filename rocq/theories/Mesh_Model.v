(** Model of the mesh container CMshMesh (mesh/MshMesh.hpp, mesh/MshMesh_Imp.hpp).

    The class holds three structurally identical tables (nodes, faces, elements); each consists of
    an id vector, a map id -> value, a map id -> index and a running index counter
    (MshMesh.hpp:36-50).  The table operations are modelled once and used three times.
    Simplifications: m_dx/m_dy/m_dz, thickness and the centroid caches are not represented. *)
From Coq Require Import ZArith List Lia Bool QArith.
From Verif Require Import Prelude Vec ZMap.
Import ListNotations.
Open Scope Z_scope.

(** ** One table *)

(** MshMesh.hpp:36-50: m_xIds, m_xs, m_xIndices, m_xIndex. *)
Record table (A : Type) : Type := Table {
  t_ids : list Z;
  t_map : zmap A;
  t_idx : zmap Z;
  t_ctr : Z
}.
Arguments Table {A}.
Arguments t_ids {A}.
Arguments t_map {A}.
Arguments t_idx {A}.
Arguments t_ctr {A}.

(** MshMesh_Imp.hpp:69-93 (reset), :23-33 (constructor). *)
Definition t_empty {A : Type} : table A := Table [] zempty zempty 0.

(** MshMesh_Imp.hpp:104-132 (addNode, addFace, addElement). *)
Definition t_add {A : Type} (t : table A) (id : Z) (v : A) : table A :=
  Table (t_ids t ++ [id]) (zinsert id v (t_map t)) (zinsert id (t_ctr t) (t_idx t)) (t_ctr t + 1).

(** [ids.erase(std::find(ids.begin(), ids.end(), id))]: removes the first occurrence;
    [None] when the id is absent, in which case the C++ code evaluates erase(end()). *)
Fixpoint erase_first (id : Z) (l : list Z) : option (list Z) :=
  match l with
  | [] => None
  | x :: l' => if id =? x then Some l'
               else match erase_first id l' with Some l'' => Some (x :: l'') | None => None end
  end.

(** MshMesh_Imp.hpp:134-156 (removeNode, removeFace, removeElement): the index map loses the entry
    but the remaining indices and the counter are left as they are. *)
Definition t_remove {A : Type} (t : table A) (id : Z) : outcome (table A) :=
  match erase_first id (t_ids t) with
  | Some ids' => Ok (Table ids' (zdelete id (t_map t)) (zdelete id (t_idx t)) (t_ctr t))
  | None => UB
  end.

(** MshMesh_Imp.hpp:95-102 (nbNodes, ...). *)
Definition t_size {A : Type} (t : table A) : Z := zlen (t_ids t).

(** MshMesh_Imp.hpp:224-231 (nodeId(index), ...). *)
Definition t_id {A : Type} (t : table A) (i : Z) : outcome Z := vec_at (t_ids t) i.

(** MshMesh_Imp.hpp:233-240 (nodeIndex(id), ...). *)
Definition t_index {A : Type} (t : table A) (id : Z) : outcome Z := zat (t_idx t) id.

(** MshMesh_Imp.hpp:206-222 (node(id), face(id), element(id)). *)
Definition t_get {A : Type} (t : table A) (id : Z) : outcome A := zat (t_map t) id.

(** MshMesh_Imp.hpp:485-510 (nextNodeId, ...): rbegin()->first + 1, or 0 when empty. *)
Definition t_next {A : Type} (t : table A) : Z :=
  match zlast_key (t_map t) with
  | Some k => k + 1
  | None => 0
  end.

(** Writing through the reference returned by node(id)/face(id)/element(id)
    (MshMesh_Imp.hpp:206-222); the caller has obtained the reference, so the key exists. *)
Definition t_set {A : Type} (t : table A) (id : Z) (v : A) : table A :=
  Table (t_ids t) (zinsert id v (t_map t)) (t_idx t) (t_ctr t).

(** MshMesh_Imp.hpp:728-760 (rebuildIndices), one table: the index map is rebuilt from the id
    vector, the counter is not touched. *)
Fixpoint index_from (ids : list Z) (i : Z) (m : zmap Z) : zmap Z :=
  match ids with
  | [] => m
  | id :: ids' => index_from ids' (i + 1) (zinsert id i m)
  end.

Definition t_rebuild {A : Type} (t : table A) : table A :=
  Table (t_ids t) (t_map t) (index_from (t_ids t) 0 zempty) (t_ctr t).

(** MshMesh_Imp.hpp:36-63 (copy constructor), one table: reset, then re-add every id in order. *)
Definition t_copy {A : Type} (t : table A) : outcome (table A) :=
  foldM (fun acc id => v <- zat (t_map t) id ;; Ok (t_add acc id v)) (t_ids t) t_empty.

(** ** The mesh *)

(** MshElement.hpp:18-29. *)
Inductive etype : Type :=
| ET_NONE | ET_NODE | ET_BEAM | ET_TRIANGLE | ET_QUADRILATERAL | ET_TETRAHEDRON
| ET_TRIANGULAR_PRISM | ET_HEXAHEDRON | ET_POLYHEDRON.

(** MshFace.hpp:20-27. *)
Inductive ftype : Type := FT_NONE | FT_POINT | FT_LINE | FT_TRIANGLE | FT_QUADRILATERAL.

(** MshElement.hpp:31-: type, node ids, face ids (thickness omitted). *)
Record element : Type := Element {
  e_type : etype;
  e_nodes : list Z;
  e_faces : list Z
}.

(** MshFace.hpp:29-, MshFace_Imp.hpp:17-42: m_faceType, m_nodeIds, m_hasPair, m_pairFaceId,
    m_elementId. *)
Record face : Type := Face {
  f_type : ftype;
  f_nodes : list Z;
  f_haspair : bool;
  f_pair : Z;
  f_elem : Z
}.

(** MshFace_Imp.hpp:73-78. *)
Definition set_pair (f : face) (p : Z) : face := Face (f_type f) (f_nodes f) true p (f_elem f).

Definition set_f_nodes (f : face) (l : list Z) : face :=
  Face (f_type f) l (f_haspair f) (f_pair f) (f_elem f).
Definition set_f_elem (f : face) (e : Z) : face :=
  Face (f_type f) (f_nodes f) (f_haspair f) (f_pair f) e.
Definition set_e_nodes (e : element) (l : list Z) : element := Element (e_type e) l (e_faces e).
Definition set_e_faces (e : element) (l : list Z) : element := Element (e_type e) (e_nodes e) l.

(** A node (MshNode.hpp) is a CGeoCoordinate: [coord] of Vec.v. *)
Record mesh : Type := Mesh {
  m_nodes : table coord;
  m_faces : table face;
  m_elems : table element
}.

Definition mesh_empty : mesh := Mesh t_empty t_empty t_empty.

(** MshMesh_Imp.hpp:36-63. *)
Definition mesh_copy (m : mesh) : outcome mesh :=
  n <- t_copy (m_nodes m) ;; f <- t_copy (m_faces m) ;; e <- t_copy (m_elems m) ;;
  Ok (Mesh n f e).

(** The loop [for j: x.setNodeId(j, new.at(x.nodeId(j)))] that occurs in addMesh, mergeNodes and
    renumber (MshMesh_Imp.hpp:182-186, 198-202, 573-579, 589-595, 898-899, 914-918). *)
Definition remap (new : zmap Z) (l : list Z) : outcome (list Z) := mapM (zat new) l.

(** MshMesh_Imp.hpp:163-171: the node loop of addMesh (with [a] distinct from [b]). *)
Definition addMesh_nodes (a b : table coord) : outcome (table coord * zmap Z) :=
  foldM (fun acc i =>
           id <- t_id b i ;; v <- t_get b id ;;
           let new := t_next (fst acc) in
           Ok (t_add (fst acc) new v, zinsert id new (snd acc)))
        (zrange (length (t_ids b))) (a, zempty).

(** MshMesh_Imp.hpp:173-187: the face loop of addMesh. *)
Definition addMesh_faces (new : zmap Z) (a b : table face) : outcome (table face) :=
  foldM (fun acc i =>
           id <- t_id b i ;; v <- t_get b id ;;
           l <- remap new (f_nodes v) ;;
           Ok (t_add acc (t_next acc) (set_f_nodes v l)))
        (zrange (length (t_ids b))) a.

(** MshMesh_Imp.hpp:189-203: the element loop of addMesh. *)
Definition addMesh_elems (new : zmap Z) (a b : table element) : outcome (table element) :=
  foldM (fun acc i =>
           id <- t_id b i ;; v <- t_get b id ;;
           l <- remap new (e_nodes v) ;;
           Ok (t_add acc (t_next acc) (set_e_nodes v l)))
        (zrange (length (t_ids b))) a.

(** MshMesh_Imp.hpp:158-204 (addMesh). The argument is a different object: with [m.addMesh(m)] the
    C++ loop bound grows with every iteration; that call is outside the model. *)
Definition addMesh (a b : mesh) : outcome mesh :=
  nn <- addMesh_nodes (m_nodes a) (m_nodes b) ;;
  f <- addMesh_faces (snd nn) (m_faces a) (m_faces b) ;;
  e <- addMesh_elems (snd nn) (m_elems a) (m_elems b) ;;
  Ok (Mesh (fst nn) f e).

(** MshMesh_Imp.hpp:872-883, 888-902: old id -> new id, new id being the position. *)
Definition new_ids (ids : list Z) : zmap Z := index_from ids 0 zempty.

(** MshMesh_Imp.hpp:872-883, 888-902, 906-921: the renumbered value map. [f] is what happens to a
    value on the way (identity for nodes, connectivity remapping for faces and elements).
    The C++ element loop writes through a reference into the old map; the old map is discarded at
    the end, and ids are distinct in every mesh the theorems speak about. *)
Definition renumber_map {A : Type} (f : A -> outcome A) (t : table A) : outcome (zmap A) :=
  r <- foldM (fun acc id =>
           v <- zat (t_map t) id ;; v' <- f v ;;
           Ok (zinsert (snd acc) v' (fst acc), snd acc + 1))
        (t_ids t) (zempty, 0) ;;
  Ok (fst r).

(** MshMesh_Imp.hpp:923-942: ids become 0..n-1, maps replaced, indices rebuilt, counters kept. *)
Definition renumber_table {A : Type} (f : A -> outcome A) (t : table A) : outcome (table A) :=
  m <- renumber_map f t ;;
  Ok (t_rebuild (Table (zrange (length (t_ids t))) m (t_idx t) (t_ctr t))).

(** MshMesh_Imp.hpp:866-943 (renumber). f_pair and f_elem of faces are left as they are
    (:888-902). *)
Definition renumber (m : mesh) : outcome mesh :=
  let nn := new_ids (t_ids (m_nodes m)) in
  let nf := new_ids (t_ids (m_faces m)) in
  n <- renumber_table (fun v => Ok v) (m_nodes m) ;;
  f <- renumber_table (fun v => l <- remap nn (f_nodes v) ;; Ok (set_f_nodes v l)) (m_faces m) ;;
  e <- renumber_table (fun v => l <- remap nn (e_nodes v) ;; g <- remap nf (e_faces v) ;;
                                Ok (set_e_faces (set_e_nodes v l) g)) (m_elems m) ;;
  Ok (Mesh n f e).
