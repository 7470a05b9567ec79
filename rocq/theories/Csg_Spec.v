(** Vocabulary for BSP solids. *)
From Coq Require Import QArith ZArith List.
From Verif Require Import Prelude Vec Seg_Model Seg_Spec Face_Spec Grid_Spec Csg_Model.
Import ListNotations.
Open Scope Q_scope.

(** Left turn (or straight on) at b, seen from the side n points to. *)
Definition turn (n a b c : coord) : Q := dot n (cross (vsub b a) (vsub c a)).

(** A flat convex polygon with its normal: the normal is not zero, all vertices lie in one plane
    perpendicular to it and never turn right (repeated and collinear vertices are allowed). *)
Definition flat (q : poly) : Prop :=
  ~ pn q =v= vzero /\ exists c, forall v, In v (pv q) -> dot (pn q) v == c.
Definition convex_ring (n : coord) (vs : list coord) : Prop :=
  forall i j k, (i <= j <= k)%nat -> (k < length vs)%nat ->
    0 <= turn n (nth i vs vzero) (nth j vs vzero) (nth k vs vzero).
Definition convex_poly (q : poly) : Prop := flat q /\ convex_ring (pn q) (pv q).

(** The points of a convex polygon. *)
Definition points (q : poly) (p : coord) : Prop := in_hull (pv q) p.

(** The points outside the solid of a tree and inside it: in front of a plane without front child is
    outside, behind a plane without back child is inside. For the open versions a point on a plane must be
    outside (inside) on both sides of it; for the closed ones, on one side. *)
Fixpoint outside_open (t : bsp) (p : coord) : Prop :=
  match t with
  | Node (Some h) _ f b =>
    (p_d h < dot (p_normal h) p /\ (f = Null \/ outside_open f p)) \/
    (dot (p_normal h) p < p_d h /\ outside_open b p) \/
    (dot (p_normal h) p == p_d h /\ (f = Null \/ outside_open f p) /\ outside_open b p)
  | _ => False
  end.
Fixpoint inside_open (t : bsp) (p : coord) : Prop :=
  match t with
  | Node (Some h) _ f b =>
    (dot (p_normal h) p < p_d h /\ (b = Null \/ inside_open b p)) \/
    (p_d h < dot (p_normal h) p /\ inside_open f p) \/
    (dot (p_normal h) p == p_d h /\ (b = Null \/ inside_open b p) /\ inside_open f p)
  | _ => False
  end.
Fixpoint outside_closed (tol : Q) (t : bsp) (p : coord) : Prop :=
  match t with
  | Node (Some h) _ f b =>
    (p_d h - tol <= dot (p_normal h) p /\ (f = Null \/ outside_closed tol f p)) \/
    (dot (p_normal h) p <= p_d h + tol /\ outside_closed tol b p)
  | _ => False
  end.
Fixpoint inside_closed (tol : Q) (t : bsp) (p : coord) : Prop :=
  match t with
  | Node (Some h) _ f b =>
    (dot (p_normal h) p <= p_d h + tol /\ (b = Null \/ inside_closed tol b p)) \/
    (p_d h - tol <= dot (p_normal h) p /\ inside_closed tol f p)
  | _ => False
  end.

(** The point lies on the plane of some node. *)
Fixpoint on_some_plane (t : bsp) (p : coord) : Prop :=
  match t with
  | Null => False
  | Node pl _ f b => (match pl with Some h => dot (p_normal h) p == p_d h | None => False end)
                     \/ on_some_plane f p \/ on_some_plane b p
  end.

(** Every node has its plane. *)
Fixpoint planes_set (t : bsp) : Prop :=
  match t with Null => True | Node pl _ f b => pl <> None /\ planes_set f /\ planes_set b end.

(** All polygons stored in the nodes. *)
Fixpoint stored (t : bsp) : list poly :=
  match t with Null => [] | Node _ own f b => own ++ stored f ++ stored b end.

(** Height of a point above the plane of a polygon (times the length of its normal). *)
Definition above (q : poly) (p : coord) : Q := dot (pn q) p - dot (pn q) (hd vzero (pv q)).

(** A flat polygon with at least one vertex. *)
Definition usable (q : poly) : Prop := flat q /\ pv q <> [].

(** The faces of a convex body with outward normals: no vertex is above a face, and faces in the same
    plane have the same direction. *)
Definition convex_surface (ps : list poly) : Prop :=
  (forall q r v, In q ps -> In r ps -> In v (pv r) -> above q v <= 0) /\
  (forall q r, In q ps -> In r ps -> (forall v, In v (pv r) -> above q v == 0) -> exists k, 0 < k /\ pn r =v= vscale k (pn q)).
Definition convex_body (ps : list poly) : Prop :=
  ps <> [] /\ Forall usable ps /\ Forall convex_poly ps /\ convex_surface ps.

(** Strictly inside, strictly outside the body. *)
Definition within (ps : list poly) (p : coord) : Prop := forall q, In q ps -> above q p < 0.
Definition beyond (ps : list poly) (p : coord) : Prop := exists q, In q ps /\ 0 < above q p.
