(** Convex hull of points in a plane: geometry/GeoConvexHull.hpp and geometry/GeoConvexHull_Imp.hpp, with the projection of a coordinate
    (geometry/GeoCoordinate_Imp.hpp 16-20). Arithmetic is exact over R, normalize() divides by the square root. The array sNewExtVertices with
    its counter k is a stack whose top is the head of a list. *)
From Coq Require Import Reals List.
From Verif Require Import Fem_Model.
Import ListNotations.
Open Scope R_scope.

(** GeoConvexHull.hpp 22-30: a vertex with its projection. *)
Record svertex := SV { v2D : pt; v3D : pt }.
(** 27-30, operator<. *)
Definition sv_lt (a b : svertex) : bool :=
  if Rlt_dec (px (v2D a)) (px (v2D b)) then true
  else if Req_EM_T (px (v2D a)) (px (v2D b)) then (if Rlt_dec (py (v2D a)) (py (v2D b)) then true else false) else false.
(** GeoCoordinate_Imp.hpp 16-20, transform: the matrix, whose columns are the three axes, times the coordinate. *)
Definition transform (f : pt * pt * pt) (p : pt) : pt :=
  let '(vx, vy, vz) := f in
  P (px vx * px p + px vy * py p + px vz * pz p) (py vx * px p + py vy * py p + py vz * pz p) (pz vx * px p + pz vy * py p + pz vz * pz p).

(** std::sort(first, last) with operator<, GeoConvexHull_Imp.hpp 69: here an insertion sort, which keeps the order of vertices with the same
    projection. *)
Fixpoint sv_insert (a : svertex) (l : list svertex) : list svertex :=
  match l with
  | [] => [a]
  | b :: r => if sv_lt b a then b :: sv_insert a r else a :: l
  end.
Definition sv_sort (l : list svertex) : list svertex := fold_right sv_insert [] l.

(** GeoConvexHull_Imp.hpp 76, 93: the number c, for the two topmost entries [b] and [a] of the stack and a new vertex. *)
Definition turn (a b p : svertex) : R := pz (pcross (psub (v2D a) (v2D b)) (psub (v2D a) (v2D p))).
(** 74-82 and 91-99: the while loop; the stack has at least two entries as long as it is tested. *)
Fixpoint unwind (stack : list svertex) (p : svertex) : list svertex :=
  match stack with
  | b :: ((a :: _) as rest) => if Rle_dec (turn a b p) 0 then stack else unwind rest p
  | _ => stack
  end.
(** 84, 101 *)
Definition hull_push (stack : list svertex) (p : svertex) : list svertex := p :: unwind stack p.
(** 71-85: the first pass over the sorted vertices. *)
Definition lower_pass (l : list svertex) : list svertex := fold_left hull_push l [].
(** 88-102: the second pass over the sorted vertices from the last but one down to the first. While k >= t only entries above the top of the
    first pass are tested, so that top is the bottom of the stack of the second pass. *)
Definition upper_pass (l : list svertex) : list svertex :=
  match rev l with
  | [] => []
  | top :: r => fold_left hull_push r [top]
  end.
(** 104: the entries of both passes in the order of the array (the top of the first pass counted once) without the last one. *)
Definition hull_cycle (l : list svertex) : list svertex :=
  removelast (rev (lower_pass l) ++ tl (rev (upper_pass l))).
(** 28-108, set, for a hull holding the vertices [old] (a new one holds none): the vertices found are appended. *)
Definition hull_set (old pts : list pt) : list pt :=
  match pts with
  | a :: b :: c :: _ =>
    let f := frame a b c in
    old ++ map v3D (hull_cycle (sv_sort (map (fun p => SV (transform f p) p) pts)))
  | _ => old
  end.
(** 21-25, the constructor. *)
Definition convex_hull (pts : list pt) : list pt := hull_set [] pts.
