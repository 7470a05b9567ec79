(** Words used in the statements about the quality of elements (Rate_Props.v); distances and areas are those of Split_Props.v. *)
From Coq Require Import ZArith List Bool QArith Reals Qreals.
From Verif Require Import Prelude Vec ZMap Mesh_Model HashGrid_Model Split_Props.
Import ListNotations.
Open Scope Z_scope.

(** A square: a parallelogram with neighboring sides equal and perpendicular. *)
Definition square (p q r s : coord) : Prop :=
  vadd p r =v= vadd q s /\ (norm2 (vsub q p) == norm2 (vsub s p))%Q /\ (dot (vsub q p) (vsub s p) == 0)%Q.
(** All edges of a tetrahedron have the length [L]. *)
Definition all_edges (p q r s : coord) (L : R) : Prop :=
  distance p q = L /\ distance q r = L /\ distance r p = L /\ distance p s = L /\ distance q s = L /\ distance r s = L.
(** The sides of a triangle are longer than the square root of the machine precision (about 1.5e-8). *)
Definition long_sides (p q r : coord) : Prop :=
  (Q2R real_eps < distance p q * distance p q /\ Q2R real_eps < distance q r * distance q r /\ Q2R real_eps < distance r p * distance r p)%R.
(** An element whose quality means something: it has the nodes its type asks for, triangles (also those at the ends of prisms) have long sides and
    quadrilaterals are not single points. Nothing is asked of elements of other types. *)
Definition measurable (m : mesh) (e : element) : Prop :=
  let at_ := mapM (t_get (m_nodes m)) (e_nodes e) in
  match e_type e with
  | ET_TRIANGLE => exists p q r, at_ = Ok [p; q; r] /\ long_sides p q r
  | ET_QUADRILATERAL => exists p q r s, at_ = Ok [p; q; r; s] /\ ~ (p =v= q /\ q =v= r /\ r =v= s)
  | ET_TETRAHEDRON => exists p q r s, at_ = Ok [p; q; r; s]
  | ET_TRIANGULAR_PRISM => exists p q r s t u, at_ = Ok [p; q; r; s; t; u] /\ long_sides p q r /\ long_sides s t u
  | _ => True end.
Definition all_measurable (m : mesh) : Prop := forall id, In id (t_ids (m_elems m)) -> exists e, t_get (m_elems m) id = Ok e /\ measurable m e.
