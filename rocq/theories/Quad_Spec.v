(** Words used in the statements about the improvement of meshes of quadrilaterals and triangles (Quad_Props.v). *)
From Coq Require Import ZArith List Bool QArith.
From Verif Require Import Prelude Vec ZMap Mesh_Model Face_Spec Front_Spec Tune_Spec.
Import ListNotations.
Open Scope Z_scope.

(** The element is a triangle or a quadrilateral with these corners, all different. *)
Definition corners (e : element) : option (list Z) :=
  match e_type e with ET_TRIANGLE | ET_QUADRILATERAL => Some (e_nodes e) | _ => None end.
Definition proper_flat (m : mesh) : Prop :=
  forall id e, t_get (m_elems m) id = Ok e ->
    (e_type e = ET_TRIANGLE -> length (e_nodes e) = 3%nat /\ NoDup (e_nodes e)) /\
    (e_type e = ET_QUADRILATERAL -> length (e_nodes e) = 4%nat /\ NoDup (e_nodes e)).
Definition only_flat (m : mesh) : Prop := forall id e, t_get (m_elems m) id = Ok e -> e_type e = ET_TRIANGLE \/ e_type e = ET_QUADRILATERAL.
(** The sides of a triangle or quadrilateral, in the sense of the list of corners. *)
Definition rim (e : element) : list (Z * Z) := match corners e with Some l => cycle l | None => [] end.
Definition element_rim (t : table element) (id : Z) : list (Z * Z) := match t_get t id with Ok e => rim e | _ => [] end.
Definition all_rims (t : table element) : list (Z * Z) := flat_map (element_rim t) (t_ids t).
(** How many more sides run from [a] to [b] than back: 0 inside, 1 or -1 on the boundary of a region. *)
Definition net_flat (m : mesh) (a b : Z) : Z := Z.of_nat (running (all_rims (m_elems m)) a b) - Z.of_nat (running (all_rims (m_elems m)) b a).
(** No two sides run the same way between the same nodes. *)
Definition once_flat (m : mesh) : Prop := forall a b, (running (all_rims (m_elems m)) a b <= 1)%nat.
(** The line faces of triangles and quadrilaterals are their sides, and paired faces run in opposite senses. *)
Definition linked_flat (m : mesh) : Prop :=
  forall fid f e, t_get (m_faces m) fid = Ok f -> f_type f = FT_LINE -> t_get (m_elems m) (f_elem f) = Ok e -> corners e <> None ->
  exists a b, f_nodes f = [a; b] /\ In (a, b) (rim e) /\
    (f_haspair f = true -> exists g e', t_get (m_faces m) (f_pair f) = Ok g /\ t_get (m_elems m) (f_elem g) = Ok e' /\
       (corners e' <> None -> In (b, a) (rim e'))).
(** Wherever sides do not cancel there is a face without partner. *)
Definition fitted_flat (m : mesh) : Prop := forall a b, net_flat m a b <> 0 -> on_border m a /\ on_border m b.
(** Every element lists as many existing faces as it has corners, and all faces are lines. *)
Definition listed_flat (m : mesh) : Prop :=
  (forall id e, t_get (m_elems m) id = Ok e -> length (e_faces e) = length (e_nodes e) /\ Forall (fun k => In k (t_ids (m_faces m))) (e_faces e)) /\
  (forall fid f, t_get (m_faces m) fid = Ok f -> f_type f = FT_LINE).
(** Some element has a side beginning at the node [n] that has a partner. *)
Definition begins_inside (m : mesh) (n : Z) : Prop :=
  exists id e j fid f, t_get (m_elems m) id = Ok e /\ vec_at (e_nodes e) j = Ok n /\ vec_at (e_faces e) j = Ok fid /\
    t_get (m_faces m) fid = Ok f /\ f_haspair f = true.

(** Triangles are counter-clockwise and the z of their unit normal is above [tol]; at all corners of quadrilaterals the way turns left, and the z of
    the unit normal of the two diagonals is above [tol]. *)
Definition steep (tol : Q) (n : coord) : Prop := (0 < cz n /\ tol * tol * norm2 n < cz n * cz n)%Q.
Definition good_shape (tol : Q) (l : list coord) : Prop :=
  match l with
  | [p; q; r] => steep tol (cross (vsub q p) (vsub r p))
  | [p; q; r; s] => steep tol (cross (vsub r p) (vsub s q)) /\ (0 < area2 p q r /\ 0 < area2 q r s /\ 0 < area2 r s p /\ 0 < area2 s p q)%Q
  | _ => True end.
Definition all_good (tol : Q) (m : mesh) : Prop :=
  forall id e l, t_get (m_elems m) id = Ok e -> corners e = Some l -> good_shape tol (map (where_ (m_nodes m)) l).
(** All triangles and quadrilaterals have at least this quality. *)
Definition quality_of (quality3 : coord -> coord -> coord -> Q) (quality4 : coord -> coord -> coord -> coord -> Q) (b : Q) (l : list coord) : Prop :=
  match l with [p; q; r] => (b <= quality3 p q r)%Q | [p; q; r; s] => (b <= quality4 p q r s)%Q | _ => True end.
Definition at_least_flat (quality3 : coord -> coord -> coord -> Q) (quality4 : coord -> coord -> coord -> coord -> Q) (b : Q) (m : mesh) : Prop :=
  forall id e l, t_get (m_elems m) id = Ok e -> corners e = Some l -> quality_of quality3 quality4 b (map (where_ (m_nodes m)) l).
(** Twice the signed area seen from above; of all triangles and quadrilaterals together. *)
Definition polygon_area2 (l : list coord) : Q :=
  match l with [p; q; r] => area2 p q r | [p; q; r; s] => (area2 p q r + area2 p r s)%Q | _ => 0%Q end.
Definition total_flat2 (m : mesh) : Q :=
  sum (map (fun id => match t_get (m_elems m) id with
                      | Ok e => match corners e with Some l => polygon_area2 (map (where_ (m_nodes m)) l) | None => 0%Q end
                      | _ => 0%Q end) (t_ids (m_elems m))).
