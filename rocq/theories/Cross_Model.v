(** Model of intersects of CGeoTriangle, for lines and for triangles (geometry/GeoTriangle_Imp.hpp 97-278), with the cut of a line and a plane
    (geometry/GeoLine_Imp.hpp 165-197). Arithmetic is exact over R. The intersection of two lines, used for triangles in one plane only, is
    a parameter. What triangles remember is left out (Memo_Model), except that the normal is the zero vector before it is calculated. *)
From Coq Require Import Reals List Lra Bool.
From Verif Require Import Fem_Model Inside_Model.
Import ListNotations.
Open Scope R_scope.

(** geometry/GeoTriangle.hpp: the three vertices. *)
Record tri := Tri { v0 : pt; v1 : pt; v2 : pt }.

(** 60-75 of GeoTriangle_Imp.hpp: the normal, once calculated. *)
Definition normal_of (t : tri) : pt := unit_normal (v0 t) (v1 t) (v2 t).

(** geometry/GeoTriangle_Imp.hpp 281-326: contains for a triangle. *)
Definition has_point (t : tri) (p : pt) (tol : R) : option kind := contains (v0 t) (v1 t) (v2 t) p tol.

(** The sides in the order of the loops over k. *)
Definition sides (t : tri) : list (pt * pt) := [(v0 t, v1 t); (v1 t, v2 t); (v2 t, v0 t)].

Definition vertices (t : tri) : list pt := [v0 t; v1 t; v2 t].

(** geometry/GeoLine_Imp.hpp 165-197: the point where the line from [p] to [q] meets the plane; the type is not used. *)
Definition cut (p q n : pt) (d tol : R) : option pt :=
  let v := psub q p in
  let dn := pdot n v in
  if Rle_dec (Rabs dn) (tol * tol) then None
  else let s := pdot n (psub (pscale d n) p) / dn in
    if Rle_dec (- tol) s then if Rle_dec s (1 + tol) then Some (P (px p + s * px v) (py p + s * py v) (pz p + s * pz v)) else None else None.

(** 266-278: intersects(aLine, aNewPoint, ...). [n] is what normal() returns: the code does not call calculateNormal here. *)
Definition meets_line (t : tri) (n p q : pt) (tol : R) : option (pt * kind) :=
  match cut p q n (pdot n (v0 t)) tol with
  | Some x => match has_point t x tol with Some k => Some (x, k) | None => None end
  | None => None
  end.

(** The types of the answer for two triangles. *)
Inductive answer := Coincident | Swapped | Inner | AlongEdge | AtCorner.

(** GeoBoundingBox_Imp.hpp 84-89: one axis. *)
Definition overlap (x y z x' y' z' tol : R) : bool :=
  if Rle_dec (Rmin x (Rmin y z) - tol) (Rmax x' (Rmax y' z'))
  then if Rle_dec (Rmin x' (Rmin y' z')) (Rmax x (Rmax y z) + tol) then true else false else false.

(** 103-107: the boxes. *)
Definition boxes (t u : tri) (tol : R) : bool :=
  overlap (px (v0 t)) (px (v1 t)) (px (v2 t)) (px (v0 u)) (px (v1 u)) (px (v2 u)) tol &&
  overlap (py (v0 t)) (py (v1 t)) (py (v2 t)) (py (v0 u)) (py (v1 u)) (py (v2 u)) tol &&
  overlap (pz (v0 t)) (pz (v1 t)) (pz (v2 t)) (pz (v0 u)) (pz (v1 u)) (pz (v2 u)) tol.

(** 113-121: all three vertices of [u] above, or all below, the plane with normal [n] at [d]. The second test (125-135) measures aTriangle's
    own vertices against its own plane. *)
Definition one_side (n : pt) (d : R) (u : tri) (tol : R) : bool :=
  let s v := pdot n v - d in
  let above x := if Rlt_dec tol (s x) then true else false in
  let below x := if Rlt_dec (s x) (- tol) then true else false in
  forallb above (vertices u) || forallb below (vertices u).

(** 137-148: nVertex. *)
Definition shared (t u : tri) (tol : R) : nat :=
  length (filter (fun pq => if Rlt_dec (pnorm (psub (fst pq) (snd pq))) tol then true else false) (list_prod (vertices t) (vertices u))).

(** 204-223 and 227-246: one side of the other triangle cuts [t] in a point that is not at a vertex of [t]. *)
Definition pierced (t : tri) (pq : pt * pt) (tol : R) : bool :=
  match cut (fst pq) (snd pq) (normal_of t) (pdot (normal_of t) (v0 t)) tol with
  | Some x => match has_point t x tol with Some OnEdge | Some Internal => true | _ => false end
  | None => false
  end.

(** 257: all vertices of [u] are contained in [t]. *)
Definition holds_all (t u : tri) (tol : R) : bool :=
  forallb (fun v => match has_point t v tol with Some _ => true | None => false end) (vertices u).

(** 249-263: the end of the function. *)
Definition last_tests (t u : tri) (n : nat) (tol : R) : option answer :=
  if Nat.eqb n 1 then Some AtCorner
  else if holds_all t u tol || holds_all u t tol then Some Inner else None.

(** 98-264: intersects(aTriangle, ...). [lines] tells whether two lines intersect with type IT_INTERNAL (161-187). *)
Definition intersects (lines : pt * pt -> pt * pt -> R -> bool) (t u : tri) (tol : R) : option answer :=
  if negb (boxes t u tol) then None else
  let n1 := normal_of t in let d1 := pdot n1 (v0 t) in
  if one_side n1 d1 u tol then None else
  let n2 := normal_of u in let d2 := pdot n2 (v0 u) in
  if one_side n2 d2 u tol then None else
  let n := shared t u tol in
  if Nat.eqb n 3 then Some Coincident else
  let coplanar := (if Rle_dec (pnorm (pcross n1 n2)) tol then true else false) && (if Rle_dec (Rabs (d1 - d2)) tol then true else false) in
  if coplanar then
    if existsb (fun e => existsb (fun e' => lines e e' tol) (sides u)) (sides t) then Some (if Nat.eqb n 2 then Swapped else Inner)
    else if Nat.eqb n 2 then Some AlongEdge else last_tests t u n tol
  else if Nat.eqb n 2 then Some AlongEdge
  else if existsb (fun e => pierced t e tol) (sides u) || existsb (fun e => pierced u e tol) (sides t) then Some Inner
  else last_tests t u n tol.
