(** Model of the topology of elements and of face generation, pairing and boundary extraction
    (mesh/MshElement_Imp.hpp:110-402, mesh/MshMesh_Imp.hpp:242-393 and 945-954). *)
From Coq Require Import ZArith List Bool QArith.
From Verif Require Import Prelude Vec ZMap Mesh_Model HashGrid_Model Merge_Model.
Import ListNotations.
Open Scope Z_scope.

(** MshElement_Imp.hpp:115-357: for every element type the faces, each as its type and the positions
    of its nodes in the element. *)
Definition face_table (t : etype) : list (ftype * list Z) :=
  match t with
  | ET_BEAM => [(FT_POINT, [0]); (FT_POINT, [1])]
  | ET_TRIANGLE => [(FT_LINE, [0; 1]); (FT_LINE, [1; 2]); (FT_LINE, [2; 0])]
  | ET_QUADRILATERAL => [(FT_LINE, [0; 1]); (FT_LINE, [1; 2]); (FT_LINE, [2; 3]); (FT_LINE, [3; 0])]
  | ET_TETRAHEDRON => [(FT_TRIANGLE, [0; 1; 2]); (FT_TRIANGLE, [1; 3; 2]); (FT_TRIANGLE, [0; 3; 1]); (FT_TRIANGLE, [0; 2; 3])]
  | ET_TRIANGULAR_PRISM =>
      [(FT_TRIANGLE, [0; 1; 2]); (FT_TRIANGLE, [5; 4; 3]); (FT_QUADRILATERAL, [1; 0; 3; 4]);
       (FT_QUADRILATERAL, [2; 1; 4; 5]); (FT_QUADRILATERAL, [0; 2; 5; 3])]
  | ET_HEXAHEDRON =>
      [(FT_QUADRILATERAL, [0; 1; 2; 3]); (FT_QUADRILATERAL, [7; 6; 5; 4]); (FT_QUADRILATERAL, [5; 1; 0; 4]);
       (FT_QUADRILATERAL, [3; 2; 6; 7]); (FT_QUADRILATERAL, [6; 2; 1; 5]); (FT_QUADRILATERAL, [3; 7; 4; 0])]
  | ET_NONE | ET_NODE | ET_POLYHEDRON => []
  end.

(** CMshElement::generateFaces, MshElement_Imp.hpp:110-360; m_nodeIds[i] is unchecked. *)
Definition elem_faces (e : element) : outcome (list face) :=
  mapM (fun tp => l <- mapM (vec_get (e_nodes e)) (snd tp) ;; Ok (Face (fst tp) l false 0 0))
       (face_table (e_type e)).

(** Swap of two entries through an auxiliary, MshElement_Imp.hpp:373-375 etc. *)
Definition swap_nodes (e : element) (i j : Z) : outcome element :=
  a <- vec_get (e_nodes e) i ;; b <- vec_get (e_nodes e) j ;;
  l1 <- vec_set (e_nodes e) i b ;; l2 <- vec_set l1 j a ;;
  Ok (set_e_nodes e l2).

(** MshElement_Imp.hpp:362-402. *)
Definition elem_invert (e : element) : outcome element :=
  match e_type e with
  | ET_BEAM => swap_nodes e 0 1
  | ET_TRIANGLE => swap_nodes e 1 2
  | ET_QUADRILATERAL => swap_nodes e 1 3
  | ET_TETRAHEDRON => swap_nodes e 1 2
  | _ => Ok e
  end.

(** MshMesh_Imp.hpp:945-954. *)
Definition mesh_invert (m : mesh) : outcome mesh :=
  t <- rewrite_all elem_invert (m_elems m) ;; Ok (Mesh (m_nodes m) (m_faces m) t).

(** ** generateFaces on a mesh *)

(** MshMesh_Imp.hpp:260-266: the faces of one element get consecutive new ids. *)
Definition add_one_face (id : Z) (st : table face * table element) (f : face)
  : outcome (table face * table element) :=
  let fid := t_next (fst st) in
  e <- t_get (snd st) id ;;
  Ok (t_add (fst st) fid (set_f_elem f id), t_set (snd st) id (set_e_faces e (e_faces e ++ [fid]))).

(** MshMesh_Imp.hpp:252-267: one element. *)
Definition add_elem_faces (st : table face * table element) (id : Z)
  : outcome (table face * table element) :=
  e <- t_get (snd st) id ;;
  fs <- elem_faces e ;;
  foldM (add_one_face id) fs (fst st, t_set (snd st) id (set_e_faces e [])).

(** MshMesh_Imp.hpp:278-289: mean of the nodes of a face. *)
Definition face_centre (nodes : table coord) (f : face) : outcome coord :=
  s <- foldM (fun s nd => c <- t_get nodes nd ;; Ok (vadd s c)) (f_nodes f) vzero ;;
  Ok (if 0 <? zlen (f_nodes f) then vscale (/ inject_Z (zlen (f_nodes f))) s else s).

Definition ftype_eqb (a b : ftype) : bool :=
  match a, b with
  | FT_NONE, FT_NONE | FT_POINT, FT_POINT | FT_LINE, FT_LINE
  | FT_TRIANGLE, FT_TRIANGLE | FT_QUADRILATERAL, FT_QUADRILATERAL => true
  | _, _ => false
  end.

(** std::vector equality. *)
Fixpoint ids_eqb (a b : list Z) : bool :=
  match a, b with
  | [], [] => true
  | x :: a', y :: b' => (x =? y) && ids_eqb a' b'
  | _, _ => false
  end.

(** The test of MshMesh_Imp.hpp:312-328. *)
Definition same_face (f g : face) : bool :=
  ftype_eqb (f_type f) (f_type g) && ids_eqb (zsort (f_nodes f)) (zsort (f_nodes g)).

(** MshMesh_Imp.hpp:306-335: the first matching face found is paired with [a]. *)
Fixpoint pair_scan (a : Z) (found : list Z) (t : table face) : outcome (table face) :=
  match found with
  | [] => Ok t
  | b :: found' =>
    if b =? a then pair_scan a found' t else
    f <- t_get t a ;; g <- t_get t b ;;
    if same_face f g then
      let t1 := t_set t a (set_pair f b) in
      g1 <- t_get t1 b ;; Ok (t_set t1 b (set_pair g1 a))
    else pair_scan a found' t
  end.

(** MshMesh_Imp.hpp:298-336; the centres were computed before (line 291). *)
Definition pair_step (g : grid) (tol : Q) (t : table face) (o : Z * coord) : outcome (table face) :=
  found <- grid_find g [] (snd o) tol ;; pair_scan (fst o) found t.

(** MshMesh_Imp.hpp:338-344. *)
Definition count_boundary (t : table face) : Z :=
  zlen (filter (fun p => negb (f_haspair (snd p))) (t_map t)).

(** MshMesh_Imp.hpp:242-345; the second component of the result is m_nbBoundaryFaces. *)
Definition generateFaces (n : Z) (tol : Q) (m : mesh) : outcome (mesh * Z) :=
  st <- foldM add_elem_faces (t_ids (m_elems m)) (t_empty, m_elems m) ;;
  objs <- with_ids (fun id => f <- t_get (fst st) id ;; face_centre (m_nodes m) f) (t_ids (fst st)) ;;
  g <- grid_of n objs ;;
  t <- foldM (pair_step g tol) objs (fst st) ;;
  Ok (Mesh (m_nodes m) t (snd st), count_boundary t).

(** MshMesh_Imp.hpp:366-378. *)
Definition face_element (f : face) : element :=
  Element (match f_type f with
           | FT_LINE => ET_BEAM | FT_TRIANGLE => ET_TRIANGLE | FT_QUADRILATERAL => ET_QUADRILATERAL
           | _ => ET_NONE end) (f_nodes f) [].

(** MshMesh_Imp.hpp:359-383: state = (element table of the boundary mesh, next element id). *)
Definition extract_step (t : table face) (st : table element * Z) (fid : Z) : outcome (table element * Z) :=
  f <- t_get t fid ;;
  Ok (if f_haspair f then st else (t_add (fst st) (snd st) (face_element f), snd st + 1)).

(** MshMesh_Imp.hpp:350-393: the result is the boundary mesh and the changed mesh itself. *)
Definition extractBoundary (n : Z) (tol : Q) (m : mesh) : outcome (mesh * mesh) :=
  r <- generateFaces n tol m ;;
  let m' := fst r in
  st <- foldM (extract_step (m_faces m')) (t_ids (m_faces m')) (t_empty, 0) ;;
  nodes <- foldM (fun t id => c <- t_get (m_nodes m') id ;; Ok (t_add t id c)) (t_ids (m_nodes m')) t_empty ;;
  Ok (Mesh nodes t_empty (fst st), m').
