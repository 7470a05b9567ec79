(** Model of mesh queries (mesh/MshMeshQuery_Imp.hpp), of extrusion (mesh/MshExtrudedMesher_Imp.hpp) and of mesh checks
    (mesh/MshCheckMesh_Imp.hpp).
    Simplifications: loops over positions are loops over the ids in order; std::map<Integer, std::vector> of the query is a
    function from node ids to lists (a missing key and an empty list are not distinguished: operator[] inserts an empty list);
    Eigen's normalize() is an arbitrary function [unit] on coordinates, because square roots are not rational. *)
From Coq Require Import ZArith List Bool QArith.
From Verif Require Import Prelude Vec ZMap Mesh_Model.
Import ListNotations.
Open Scope Z_scope.

(** ** MshMeshQuery_Imp.hpp *)
(** 19-41: the member m_nodeToElement. *)
Definition query := Z -> list Z.
(** 27-38: body of the inner loop, for one node of an element. *)
Definition note_node (el : Z) (q : query) (n : Z) : query :=
  if existsb (Z.eqb el) (q n) then q else fun k => if k =? n then q n ++ [el] else q k.
(** 20-41: the constructor. *)
Definition query_of (elems : table element) : outcome query :=
  foldM (fun q el => e <- t_get elems el ;; Ok (fold_left (note_node el) (e_nodes e) q)) (t_ids elems) (fun _ => []).
(** 49-53: elementsSharingNode. *)
Definition sharing (q : query) (n : Z) : list Z := q n.
(** std::set_intersection: the usual merge of two ranges. Its precondition (both sorted) is not checked. *)
Fixpoint set_intersection (a : list Z) : list Z -> list Z :=
  match a with
  | [] => fun _ => []
  | x :: a' =>
    fix inner (b : list Z) : list Z :=
      match b with
      | [] => []
      | y :: b' => if x <? y then set_intersection a' b else if y <? x then inner b' else x :: set_intersection a' b'
      end
  end.
(** 55-60: elementsSharingNodes. *)
Definition sharing2 (q : query) (n1 n2 : Z) : list Z := set_intersection (q n1) (q n2).

(** ** MshExtrudedMesher_Imp.hpp *)
(** 42-51 with GeoTriangle_Imp.hpp 61-75: the normal of one element from its first three nodes; m_vertices[k] is unchecked. *)
Definition elem_normal (unit : coord -> coord) (m : mesh) (el : Z) : outcome coord :=
  e <- t_get (m_elems m) el ;;
  vs <- mapM (t_get (m_nodes m)) (e_nodes e) ;;
  p0 <- vec_get vs 0 ;; p1 <- vec_get vs 1 ;; p2 <- vec_get vs 2 ;;
  Ok (unit (cross (vsub p1 p0) (vsub p2 p0))).
(** 34-57: the displacement direction of one node. *)
Definition node_normal (unit : coord -> coord) (m : mesh) (q : query) (n : Z) : outcome coord :=
  s <- foldM (fun s el => v <- elem_normal unit m el ;; Ok (vadd s v)) (q n) vzero ;; Ok (vopp (unit s)).
(** 30-58. *)
Definition node_normals (unit : coord -> coord) (m : mesh) (q : query) : outcome (zmap coord) :=
  foldM (fun t n => v <- node_normal unit m q n ;; Ok (zinsert n v t)) (t_ids (m_nodes m)) zempty.
(** m_mesh.addNode(m_mesh.nextNodeId(), ...), with the new id. *)
Definition add_point (t : table coord) (c : coord) : table coord * Z := (t_add t (t_next t) c, t_next t).
Fixpoint add_points (t : table coord) (cs : list coord) : table coord * list Z :=
  match cs with
  | [] => (t, [])
  | c :: cs' => let '(t1, id) := add_point t c in let '(t2, ids) := add_points t1 cs' in (t2, id :: ids)
  end.
(** The order of the node ids in the solid: 101-106 (prism), 152-159 (hexahedron). *)
Definition solid_order (k : nat) : list nat := match k with 3%nat => [0;1;2;3;4;5]%nat | _ => [0;1;2;3;4;7;6;5]%nat end.
(** 67-109 (k = 3) and 110-162 (k = 4). *)
Definition extrude_one (m : mesh) (normals : zmap coord) (delta : Q) (k : nat) (ty : etype) (e : element) (s : mesh) : outcome mesh :=
  ids <- mapM (vec_at (e_nodes e)) (zrange k) ;;
  bottom <- mapM (t_get (m_nodes m)) ids ;;
  ns <- mapM (zat normals) ids ;;
  let top := map (fun p => vadd (fst p) (vscale delta (snd p))) (combine bottom ns) in
  let '(nodes, new) := add_points (m_nodes s) (bottom ++ top) in
  Ok (Mesh nodes (m_faces s) (t_add (m_elems s) (t_next (m_elems s)) (Element ty (map (fun i => nth i new 0) (solid_order k)) []))).
(** 61-163: the body of the loop over the elements. *)
Definition extrude_elem (m : mesh) (normals : zmap coord) (delta : Q) (s : mesh) (el : Z) : outcome mesh :=
  e <- t_get (m_elems m) el ;;
  match e_type e with
  | ET_TRIANGLE => extrude_one m normals delta 3 ET_TRIANGULAR_PRISM e s
  | ET_QUADRILATERAL => extrude_one m normals delta 4 ET_HEXAHEDRON e s
  | _ => Ok s
  end.
(** 26-175: generate. The result is the moved surface and the extended solid. *)
Definition extrude (unit : coord -> coord) (delta : Q) (m s : mesh) : outcome (mesh * mesh) :=
  q <- query_of (m_elems m) ;;
  normals <- node_normals unit m q ;;
  s' <- foldM (extrude_elem m normals delta) (t_ids (m_elems m)) s ;;
  nodes <- foldM (fun t n => c <- t_get t n ;; v <- zat normals n ;; Ok (t_set t n (vadd c (vscale delta v)))) (t_ids (m_nodes m)) (m_nodes m) ;;
  Ok (Mesh nodes (m_faces m) (m_elems m), s').

(** ** MshCheckMesh_Imp.hpp *)
(** 27-46: checkOpen; the loops stop at the first face without pair. *)
Fixpoint any_unpaired (faces : table face) (fs : list Z) : outcome bool :=
  match fs with
  | [] => Ok false
  | f :: fs' => g <- t_get faces f ;; if f_haspair g then any_unpaired faces fs' else Ok true
  end.
Fixpoint check_open_elems (m : mesh) (els : list Z) : outcome bool :=
  match els with
  | [] => Ok false
  | el :: els' => e <- t_get (m_elems m) el ;; r <- any_unpaired (m_faces m) (e_faces e) ;; if r then Ok true else check_open_elems m els'
  end.
Definition check_open (m : mesh) : outcome bool := check_open_elems m (t_ids (m_elems m)).
(** 76-137: the inner loop of checkIntersections over the elements found by the tree, with its two counters. [line] and
    [triangle] stand for the tests of two lines and of two triangles (true: they meet in an edge or inside). For an element that
    is no beam the first line was never given points, so [line el o] is then an arbitrary answer; likewise for triangles. *)
Fixpoint check_found (line triangle : Z -> Z -> bool) (elems : table element) (el : Z) (found : list Z) (nl nt : Z) : outcome bool :=
  match found with
  | [] => Ok false
  | o :: found' =>
    if el =? o then check_found line triangle elems el found' nl nt else
    e <- t_get elems o ;;
    let nl' := match e_type e with ET_BEAM => nl + 1 | _ => nl end in
    let nt' := match e_type e with ET_TRIANGLE => nt + 1 | _ => nt end in
    if (nl' =? 2) && line el o then Ok true
    else if (nt' =? 2) && triangle el o then Ok true
    else check_found line triangle elems el found' nl' nt'
  end.
(** 49-141: checkIntersections; [near] is the answer of the tree for the bounding box of an element. *)
Fixpoint check_crossing (line triangle : Z -> Z -> bool) (near : Z -> list Z) (elems : table element) (els : list Z) : outcome bool :=
  match els with
  | [] => Ok false
  | el :: els' =>
    e <- t_get elems el ;;
    r <- check_found line triangle elems el (near el) (match e_type e with ET_BEAM => 1 | _ => 0 end) (match e_type e with ET_TRIANGLE => 1 | _ => 0 end) ;;
    if r then Ok true else check_crossing line triangle near elems els'
  end.
Definition check_intersections (line triangle : Z -> Z -> bool) (near : Z -> list Z) (elems : table element) : outcome bool :=
  check_crossing line triangle near elems (t_ids elems).
