(** What is claimed of a convex hull. *)
From Coq Require Import Reals List.
From Verif Require Import Fem_Model.
Import ListNotations.
Open Scope R_scope.

(** [b] comes directly after [a] when the list is gone round, the first entry following the last one. *)
Definition follows {A} (h : list A) (a b : A) : Prop := (exists l m, h = l ++ a :: b :: m) \/ (exists m, h = b :: m ++ [a]).
(** Twice the signed area of a triangle seen from above: positive if a, b, c turn anticlockwise. *)
Definition area2 (a b c : pt) : R := (px b - px a) * (py c - py a) - (py b - py a) * (px c - px a).
(** How far p lies in the direction (gx, gy, gz). *)
Definition reach (gx gy gz : R) (p : pt) : R := gx * px p + gy * py p + gz * pz p.
(** The list [h] of vertices is the convex hull of the points [pts] of a plane with normal [n], gone round clockwise for someone looking against [n]. *)
Record is_hull (n : pt) (pts h : list pt) : Prop := {
  (** its vertices are points given, none appears twice, there are three at least *)
  hull_given : forall q, In q h -> In q pts;
  hull_once : NoDup h;
  hull_three : (3 <= length h)%nat;
  (** no point lies on the left of a side *)
  hull_right : forall a b p, follows h a b -> In p pts -> pdot n (pcross (psub b a) (psub p a)) <= 0;
  (** in no direction does a point reach farther than all vertices *)
  hull_reach : forall gx gy gz p, In p pts -> exists q, In q h /\ reach gx gy gz p <= reach gx gy gz q }.
