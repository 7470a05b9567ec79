(** Words used in the statements about the improvement of tetrahedral meshes (Tet_Props.v, Tet_Edge.v). *)
From Coq Require Import ZArith List Bool QArith.
From Verif Require Import Prelude Vec ZMap Mesh_Model Face_Spec Front_Spec Tune_Spec.
Import ListNotations.
Open Scope Z_scope.

(** The element [id] is a tetrahedron with these corners. *)
Definition tetrahedron (m : mesh) (id p q r s : Z) : Prop :=
  exists faces, t_get (m_elems m) id = Ok (Element ET_TETRAHEDRON [p; q; r; s] faces).
(** All tetrahedra have four different corners. *)
Definition proper4 (m : mesh) : Prop :=
  forall id e, t_get (m_elems m) id = Ok e -> e_type e = ET_TETRAHEDRON -> exists p q r s, e_nodes e = [p; q; r; s] /\ NoDup [p; q; r; s].
(** How far the fourth corner is below the plane of the first three (taken counter-clockwise seen from above), times twice their area: six times
    the volume, positive if seen from the fourth corner the first three run clockwise. *)
Definition volume6 (p q r s : coord) : Q := (- dot (cross (vsub q p) (vsub r p)) (vsub s p))%Q.
Definition corner (m : mesh) (n : Z) : coord := where_ (m_nodes m) n.
(** All tetrahedra have at least the volume of a cube of side [tol], and the right sense. *)
Definition all_thick (tol : Q) (m : mesh) : Prop :=
  forall id p q r s, tetrahedron m id p q r s -> (6 * (tol * tol * tol) <= volume6 (corner m p) (corner m q) (corner m r) (corner m s))%Q.
(** All tetrahedra have at least this quality. *)
Definition at_least4 (quality : coord -> coord -> coord -> coord -> Q) (b : Q) (m : mesh) : Prop :=
  forall id p q r s, tetrahedron m id p q r s -> (b <= quality (corner m p) (corner m q) (corner m r) (corner m s))%Q.
(** Six times the sum of the volumes of all tetrahedra. *)
Definition total_volume6 (m : mesh) : Q :=
  sum (map (fun id => match t_get (m_elems m) id with
                      | Ok (Element ET_TETRAHEDRON [p; q; r; s] _) => volume6 (corner m p) (corner m q) (corner m r) (corner m s)
                      | _ => 0%Q end) (t_ids (m_elems m))).

(** The four sides of a tetrahedron, counter-clockwise seen from outside (if the volume is positive). *)
Definition side : Type := (Z * Z * Z)%type.
Definition walls_of (e : element) : list side :=
  match e_type e, e_nodes e with
  | ET_TETRAHEDRON, [p; q; r; s] => [(p, q, r); (q, s, r); (p, s, q); (p, r, s)]
  | _, _ => [] end.
Definition element_walls (t : table element) (id : Z) : list side := match t_get t id with Ok e => walls_of e | _ => [] end.
Definition all_walls (t : table element) : list side := flat_map (element_walls t) (t_ids t).
(** The same three nodes in the same sense. *)
Definition same_side (d d' : side) : bool :=
  let '(x, y, z) := d in let '(a, b, c) := d' in
  ((x =? a) && (y =? b) && (z =? c)) || ((y =? a) && (z =? b) && (x =? c)) || ((z =? a) && (x =? b) && (y =? c)).
Definition facing (l : list side) (d : side) : nat := length (filter (fun d' => same_side d' d) l).
Definition turned_over (d : side) : side := let '(x, y, z) := d in (z, y, x).
(** How many more sides run around three nodes in this sense than in the other: 0 inside, 1 or -1 on the boundary of a region. *)
Definition net4 (m : mesh) (d : side) : Z :=
  Z.of_nat (facing (all_walls (m_elems m)) d) - Z.of_nat (facing (all_walls (m_elems m)) (turned_over d)).
(** No two tetrahedra lie at the same side of three nodes. *)
Definition once4 (m : mesh) : Prop := forall d, (facing (all_walls (m_elems m)) d <= 1)%nat.
(** The triangular faces of tetrahedra are their sides, and paired faces have opposite senses. *)
Definition linked4 (m : mesh) : Prop :=
  forall fid f e, t_get (m_faces m) fid = Ok f -> f_type f = FT_TRIANGLE -> t_get (m_elems m) (f_elem f) = Ok e -> e_type e = ET_TETRAHEDRON ->
  exists a b c, f_nodes f = [a; b; c] /\ (1 <= facing (walls_of e) (a, b, c))%nat /\
    (f_haspair f = true -> exists g e', t_get (m_faces m) (f_pair f) = Ok g /\ t_get (m_elems m) (f_elem g) = Ok e' /\
       (e_type e' = ET_TETRAHEDRON -> (1 <= facing (walls_of e') (c, b, a))%nat)).
(** Wherever sides do not cancel there is a face without partner. *)
Definition fitted4 (m : mesh) : Prop := forall a b c, net4 m (a, b, c) <> 0 -> on_border m a /\ on_border m b /\ on_border m c.
(** Every face listed by an element exists and is its own. *)
Definition listed4 (m : mesh) : Prop :=
  forall id e fid, t_get (m_elems m) id = Ok e -> In fid (e_faces e) -> exists f, t_get (m_faces m) fid = Ok f /\ f_elem f = id.
(** The element has both nodes. *)
Definition having (m : mesh) (a b id : Z) : Prop := exists e, t_get (m_elems m) id = Ok e /\ In a (e_nodes e) /\ In b (e_nodes e).
(** An edge with an end inside that belongs to exactly three elements. *)
Definition three_at (m : mesh) (a b : Z) : Prop :=
  ~ (on_border m a /\ on_border m b) /\ exists i j k, NoDup [i; j; k] /\ forall id, having m a b id <-> In id [i; j; k].
(** No element has two different such edges. *)
Definition apart (m : mesh) : Prop :=
  forall id a b c d, a <> b -> c <> d -> three_at m a b -> three_at m c d -> having m a b id -> having m c d id -> (c = a /\ d = b) \/ (c = b /\ d = a).
