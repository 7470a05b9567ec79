(** What is to be shown of points and triangles. *)
From Coq Require Import Reals List Lra.
From Verif Require Import Fem_Model.
Import ListNotations.
Open Scope R_scope.

(** The point with the given weights at the vertices. *)
Definition mix (x y z : R) (a b c : pt) : pt :=
  P (x * px a + y * px b + z * px c) (x * py a + y * py b + z * py c) (x * pz a + y * pz b + z * pz c).

(** [p] is a point of the triangle: with weights that are not negative and add up to 1. *)
Definition in_triangle (a b c p : pt) : Prop :=
  exists x y z, 0 <= x /\ 0 <= y /\ 0 <= z /\ x + y + z = 1 /\ p = mix x y z a b c.

(** The vertices are not on one line. *)
Definition proper (a b c : pt) : Prop := 0 < pdot (tri_normal a b c) (tri_normal a b c).

(** Twice the area. *)
Definition area2 (a b c : pt) : R := pnorm (tri_normal a b c).

(** [p] is in the plane of the triangle. *)
Definition coplanar (a b c p : pt) : Prop := pdot (psub p a) (tri_normal a b c) = 0.

Definition dist (p q : pt) : R := pnorm (psub p q).
