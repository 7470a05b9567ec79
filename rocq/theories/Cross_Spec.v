(** What is to be shown of intersections of triangles. *)
From Coq Require Import Reals List Lra.
From Verif Require Import Fem_Model Inside_Spec Cross_Model.
Import ListNotations.
Open Scope R_scope.

Definition area_ok (t : tri) : Prop := proper (v0 t) (v1 t) (v2 t).
Definition of_tri (t : tri) (x : pt) : Prop := in_triangle (v0 t) (v1 t) (v2 t) x.
Definition in_plane (t : tri) (x : pt) : Prop := coplanar (v0 t) (v1 t) (v2 t) x.

(** [x] is the point at [s] of the way from [p] to [q]. *)
Definition at_part (p q : pt) (s : R) (x : pt) : Prop := x = mix (1 - s) s 0 p q p.

(** [x] is a point of the line from [p] to [q]. *)
Definition between (p q x : pt) : Prop := exists s, 0 <= s <= 1 /\ at_part p q s x.

(** [v] is a vertex of the triangle. *)
Definition corner (t : tri) (v : pt) : Prop := v = v0 t \/ v = v1 t \/ v = v2 t.

(** The side from [p] to [q] is one of the triangle. *)
Definition side_of (t : tri) (p q : pt) : Prop := p = v0 t /\ q = v1 t \/ p = v1 t /\ q = v2 t \/ p = v2 t /\ q = v0 t.
