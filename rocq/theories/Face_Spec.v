(** Specification vocabulary for faces. *)
From Coq Require Import ZArith List Bool QArith Permutation.
From Verif Require Import Prelude Vec ZMap Mesh_Model Mesh_Spec Merge_Spec Face_Model.
Import ListNotations.
Open Scope Z_scope.

(** The closed polygon through the given nodes, as directed edges. *)
Definition cycle {A : Type} (l : list A) : list (A * A) :=
  match l with [] => [] | x :: r => combine l (r ++ [x]) end.

Definition edge_eq_dec (p q : Z * Z) : {p = q} + {p <> q}.
Proof. decide equality; apply Z.eq_dec. Defined.

(** How often the directed edge [p] occurs on the boundaries of a list of polygons. *)
Definition edge_count (polys : list (list Z)) (p : Z * Z) : nat :=
  count_occ edge_eq_dec (flat_map cycle polys) p.

(** A closed surface: every directed edge occurs as often as its reverse. *)
Definition closed_surface (polys : list (list Z)) : Prop :=
  forall a b, edge_count polys (a, b) = edge_count polys (b, a).

(** Number of nodes of each element type. *)
Definition node_count (t : etype) : nat :=
  match t with
  | ET_NONE => 0 | ET_NODE => 1 | ET_BEAM => 2 | ET_TRIANGLE => 3 | ET_QUADRILATERAL => 4
  | ET_TETRAHEDRON => 4 | ET_TRIANGULAR_PRISM => 6 | ET_HEXAHEDRON => 8 | ET_POLYHEDRON => 0
  end.

Definition solid (t : etype) : Prop := t = ET_TETRAHEDRON \/ t = ET_TRIANGULAR_PRISM \/ t = ET_HEXAHEDRON.

(** An element with exactly the nodes its type requires. *)
Definition complete (e : element) : Prop := length (e_nodes e) = node_count (e_type e).

(** Number of nodes of each face type. *)
Definition face_size (t : ftype) : nat :=
  match t with FT_NONE => 0 | FT_POINT => 1 | FT_LINE => 2 | FT_TRIANGLE => 3 | FT_QUADRILATERAL => 4 end.

(** ** Orientation *)

(** Half the sum of the cross products of consecutive corners: the vector area of a polygon. *)
Definition area_vector (l : list coord) : coord :=
  vscale (1#2) (fold_right vadd vzero (map (fun p => cross (fst p) (snd p)) (cycle l))).

Definition length_vector (l : list coord) : coord :=
  match l with [a; b] => vsub b a | _ => vzero end.

(** Signed volume of a tetrahedron. *)
Definition tet_volume (l : list coord) : Q :=
  match l with
  | [a; b; c; d] => ((1#6) * dot (vsub b a) (cross (vsub c a) (vsub d a)))%Q
  | _ => 0%Q
  end.

(** ** Pairing *)

(** Two different faces of the same type with the same nodes, in whatever order. *)
Definition mates (t : table face) (a b : Z) : Prop :=
  a <> b /\ exists f g, t_get t a = Ok f /\ t_get t b = Ok g /\
    f_type f = f_type g /\ Permutation (f_nodes f) (f_nodes g).

(** What a user sees of a face, apart from its pairing. *)
Definition face_data (t : table face) (fid : Z) : outcome (ftype * list Z * Z) :=
  f <- t_get t fid ;; Ok (f_type f, f_nodes f, f_elem f).

(** The position of the centre of a face with the given nodes. *)
Definition centre_of (m : mesh) (nodes : list Z) (c : coord) : Prop :=
  exists cs, coords m nodes = map Ok cs /\ c = match cs with [] => vzero | _ => mean cs end.

(** The face ids listed by an element. *)
Definition faces_listed (t : table element) (id : Z) : list Z :=
  match t_get t id with Ok e => e_faces e | _ => [] end.

Definition has_pair (t : table face) (a b : Z) : Prop :=
  exists f, t_get t a = Ok f /\ f_haspair f = true /\ f_pair f = b.

Definition unpaired (t : table face) (a : Z) : Prop :=
  exists f, t_get t a = Ok f /\ f_haspair f = false.

(** No three faces coincide. *)
Definition at_most_two (t : table face) : Prop := forall a b c, mates t a b -> mates t a c -> b = c.

(** Coinciding faces run around their nodes in opposite directions. *)
Definition opposed (t : table face) : Prop :=
  forall a b f g, mates t a b -> t_get t a = Ok f -> t_get t b = Ok g ->
    forall p q, edge_count [f_nodes f] (p, q) = edge_count [f_nodes g] (q, p).

(** Coinciding edges of a plane mesh run in opposite directions. *)
Definition opposed_edges (t : table face) : Prop :=
  forall a b f g, mates t a b -> t_get t a = Ok f -> t_get t b = Ok g -> f_nodes g = rev (f_nodes f).

(** The node lists of the elements of a mesh, in order. *)
Definition polygons (t : table element) : list (list Z) :=
  map (fun id => match t_get t id with Ok e => e_nodes e | _ => [] end) (t_ids t).

(** The element type that a boundary face becomes. *)
Definition skin_type (t : ftype) : etype :=
  match t with FT_LINE => ET_BEAM | FT_TRIANGLE => ET_TRIANGLE | FT_QUADRILATERAL => ET_QUADRILATERAL | _ => ET_NONE end.

(** Every element has at least the nodes its type requires. *)
Definition enough (m : mesh) : Prop :=
  forall id e, t_get (m_elems m) id = Ok e -> (node_count (e_type e) <= length (e_nodes e))%nat.

(** The mesh has two faces with different centres. *)
Definition spread (m : mesh) : Prop :=
  exists id1 e1 fs1 f1 c1 id2 e2 fs2 f2 c2,
    (t_get (m_elems m) id1 = Ok e1 /\ elem_faces e1 = Ok fs1 /\ In f1 fs1 /\ centre_of m (f_nodes f1) c1) /\
    (t_get (m_elems m) id2 = Ok e2 /\ elem_faces e2 = Ok fs2 /\ In f2 fs2 /\ centre_of m (f_nodes f2) c2) /\
    ~ c1 =v= c2.
