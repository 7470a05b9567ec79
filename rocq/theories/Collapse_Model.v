(** Model of the coarsening of triangulations: collapseEdges of CMshTriangleMesher (mesh/MshTriangleMesher_Imp.hpp 1503-1587).
    Simplifications:
    - Coordinates are exact rationals; the comparison of a length with 0.75 * collapseSize is decided on the squares.
    - [n] and [n'] are the numbers of cells per axis of the hash grids of mergeNodes and generateFaces (the code derives them from the numbers of points).
    - The first loop over positions is a loop over the ids in order (the id vector does not change while it runs). *)
From Coq Require Import ZArith List Bool QArith.
From Verif Require Import Prelude Vec ZMap Mesh_Model HashGrid_Model Face_Model Merge_Model Tune_Model.
Import ListNotations.
Open Scope Z_scope.

(** 1546, 1551: (aNode1 - aNode2).norm() < collapseSize * 0.75. *)
Definition short (size : Q) (p1 p2 : coord) : bool :=
  let x := (size * (3 # 4))%Q in Qlt_bool 0 x && Qlt_bool (norm2 (vsub p1 p2)) (x * x).

(** 1538-1558: the loop over the nodes of an element; the result is the nodes and whether the loop was left by break. *)
Fixpoint collapse_sides (size : Q) (fixed : zmap bool) (e : element) (js : list Z) (nodes : table coord) : outcome (table coord * bool) :=
  match js with
  | [] => Ok (nodes, false)
  | j :: js' =>
    n1 <- vec_at (e_nodes e) (j mod 3) ;; n2 <- vec_at (e_nodes e) ((j + 1) mod 3) ;;
    p1 <- t_get nodes n1 ;; p2 <- t_get nodes n2 ;;
    stay <- zat fixed n2 ;;
    if stay : bool then collapse_sides size fixed e js' nodes else
    if short size p1 p2 then Ok (t_set nodes n2 p1, true) else collapse_sides size fixed e js' nodes
  end.

(** 1530-1559: body of the loop over the elements. *)
Definition collapse_step (size : Q) (fixed : zmap bool) (st : table coord * table element) (id : Z) : outcome (table coord * table element) :=
  e <- t_get (snd st) id ;;
  if negb (is_triangle e) then Ok st else
  r <- collapse_sides size fixed e (zrange (length (e_nodes e))) (fst st) ;;
  Ok (fst r, if snd r : bool then t_set (snd st) id (Element ET_NONE (e_nodes e) (e_faces e)) else snd st).

Definition is_none (e : element) : bool := match e_type e with ET_NONE => true | _ => false end.
(** 1562-1571: the deletion loop by position; [ids] are the ids from the current position on. After a removal the position is increased
    all the same, so that the next element is passed over. *)
Fixpoint sweep (ids : list Z) (t : table element) : outcome (table element) :=
  match ids with
  | [] => Ok t
  | id :: l =>
    e <- t_get t id ;;
    if is_none e then t' <- t_remove t id ;; match l with [] => Ok t' | _ :: l' => sweep l' t' end else sweep l t
  end.

(** 1576-1585: what is left of the marked elements become triangles again. *)
Definition unmark (t : table element) : outcome (table element) :=
  rewrite_all (fun e => Ok (if is_none e then Element ET_TRIANGLE (e_nodes e) (e_faces e) else e)) t.

(** 1506-1585; the map of boundary nodes (1506-1528) is made as in relaxNodes ([border] of Tune_Model). *)
Definition collapse_mesh (n : Z) (size tol : Q) (m : mesh) : outcome mesh :=
  fixed <- border m ;;
  st <- foldM (collapse_step size fixed) (t_ids (m_elems m)) (m_nodes m, m_elems m) ;;
  elems <- sweep (t_ids (snd st)) (snd st) ;;
  m1 <- mergeNodes n tol (Mesh (fst st) (m_faces m) elems) ;;
  m2 <- renumber m1 ;;
  elems' <- unmark (m_elems m2) ;;
  Ok (Mesh (m_nodes m2) (m_faces m2) elems').
(** 1503-1587. *)
Definition collapseEdges (n n' : Z) (size tol : Q) (m : mesh) : outcome mesh :=
  m1 <- collapse_mesh n size tol m ;; r <- generateFaces n' tol m1 ;; Ok (fst r).
