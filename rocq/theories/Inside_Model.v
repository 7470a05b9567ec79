(** Model of contains and distance of CGeoTriangle for points (geometry/GeoTriangle_Imp.hpp 280-362), with the box and the normal of
    the same file and the planes of geometry/GeoPlane_Imp.hpp. Arithmetic is exact over R. The triangle is one whose vertices
    are not changed after the first question (what is remembered when they are: Memo_Model). *)
From Coq Require Import Reals List Lra.
From Verif Require Import Fem_Model.
Import ListNotations.
Open Scope R_scope.

(** geometry/GeoIntersectionType.hpp: what contains() can answer besides IT_NONE. *)
Inductive kind := AtVertex | OnEdge | Internal.

(** 60-75: the normal, divided by its length unless the area is zero. *)
Definition unit_normal (a b c : pt) : pt := pnormalize (tri_normal a b c).

(** 83-95 and GeoBoundingBox_Imp.hpp 92-95: one axis of the box of the vertices, grown by the tolerance. *)
Definition within (x y z v tol : R) : bool :=
  if Rle_dec (Rmin x (Rmin y z) - tol) v then if Rle_dec v (Rmax x (Rmax y z) + tol) then true else false else false.

(** The box contains the point. *)
Definition boxed (a b c p : pt) (tol : R) : bool :=
  within (px a) (px b) (px c) (px p) tol && within (py a) (py b) (py c) (py p) tol && within (pz a) (pz b) (pz c) (pz p) tol.

(** 300-306: v.norm() <= aTolerance. *)
Definition near (v p : pt) (tol : R) : bool := if Rle_dec (pnorm (psub p v)) tol then true else false.

(** 308: s[k] for the side from [u] to [v]. *)
Definition side (n u v p : pt) : R := pdot (pcross (psub v u) (psub p u)) n.

(** 310-311: s[k] <= -aTolerance. *)
Definition outside (s tol : R) : bool := if Rle_dec s (- tol) then true else false.

(** 292-318: the least of the three numbers (the first one if equal) and the other two. *)
Definition least_first (s0 s1 s2 : R) : R * R * R :=
  if Rlt_dec s1 s0
  then if Rlt_dec s2 s1 then (s2, s0, s1) else (s1, s2, s0)
  else if Rlt_dec s2 s0 then (s2, s0, s1) else (s0, s1, s2).

(** 320-323: IT_EDGE or IT_INTERNAL. *)
Definition rate (s0 s1 s2 tol : R) : kind :=
  let '(w0, w1, w2) := least_first s0 s1 s2 in
  if Rlt_dec (Rabs (w0 - (w1 + w2))) tol then OnEdge else Internal.

(** 281-326: contains(); [None] is false with IT_NONE. The three steps of the loop are written out. *)
Definition contains (a b c p : pt) (tol : R) : option kind :=
  if negb (boxed a b c p tol) then None else
  let n := unit_normal a b c in
  if near a p tol then Some AtVertex else if outside (side n a b p) tol then None else
  if near b p tol then Some AtVertex else if outside (side n b c p) tol then None else
  if near c p tol then Some AtVertex else if outside (side n c a p) tol then None else
  Some (rate (side n a b p) (side n b c p) (side n c a p) tol).

(** 343-356: the nearer vertex; the first one if equal. *)
Definition nearer (p : pt) (best : R * pt) (v : pt) : R * pt :=
  if Rlt_dec (pnorm (psub p v)) (fst best) then (pnorm (psub p v), v) else best.

(** 329-360: distance(): the distance and aNewPoint. GeoPlane_Imp.hpp 74-79 for the plane. *)
Definition distance (a b c p : pt) (tol : R) : R * pt :=
  let n := unit_normal a b c in
  let s := pdot n p - pdot n a in
  let q := psub p (pscale s n) in
  match contains a b c q tol with
  | Some _ => (Rabs s, q)
  | None => nearer p (nearer p (pnorm (psub p a), a) b) c
  end.
