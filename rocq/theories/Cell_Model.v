(** Decomposition of cells, points in tetrahedra, circles and spheres through points.
    Paths are relative to /repo/trunk/src/geometry. Real is Q (no rounding). *)
From Coq Require Import QArith Qabs ZArith List Bool.
From Verif Require Import Prelude Vec Box_Model Seg_Model Grid_Model Poly_Model.
Import ListNotations.
Open Scope Q_scope.

(** m_vertices[k]. Only used on lists that are long enough. *)
Definition vert (vs : list coord) (k : nat) : coord := nth k vs vzero.

(** GeoHexahedron_Imp.hpp 70-128: decimate(). *)
Definition hex_decimate (vs : list coord) : list (list coord) :=
  map (map (vert vs)) [[0;1;3;7]; [0;4;1;7]; [1;4;5;7]; [1;2;3;7]; [1;6;2;7]; [1;5;6;7]]%nat.

(** GeoQuadrilateral_Imp.hpp 116-134: decimate(). *)
Definition quad_decimate (vs : list coord) : list (list coord) :=
  map (map (vert vs)) [[0;1;2]; [0;2;3]]%nat.

(** GeoTetrahedron_Imp.hpp 125-132: determinant of the 4x4 matrix with columns (x, y, z, 1), expanded
    along the row of ones. *)
Definition det_points (p0 p1 p2 p3 : coord) : Q :=
  - det3 p1 p2 p3 + det3 p0 p2 p3 - det3 p0 p1 p3 + det3 p0 p1 p2.

(** GeoTetrahedron_Imp.hpp 99-113, 115-189: contains(), with the bounding box computed from the current
    vertices. *)
Definition tet_contains (vs : list coord) (p : coord) (tol : Q) : bool :=
  let a := vert vs 0 in let b := vert vs 1 in let c := vert vs 2 in let d := vert vs 3 in
  if negb (box_contains (box_add_all [a; b; c; d]) p tol) then false else
  let det0 := det_points a b c d in
  if Qle_bool det0 0 then false else
  let s := det_points p b c d / det0 in
  if Qlt_bool s 0 then false else
  let t := det_points a p c d / det0 in
  if Qlt_bool t 0 then false else
  let u := det_points a b p d / det0 in
  if Qlt_bool u 0 then false else
  let v := det_points a b c p / det0 in
  if Qlt_bool v 0 then false else
  let x := s + t + u + v in
  negb (Qlt_bool x (- tol) || Qlt_bool (1 + tol) x).

(** Determinant of a 4x4 matrix given by rows, expanded along the first column. *)
Definition minor (a b c : Q * Q * Q) : Q :=
  let '(a1, a2, a3) := a in let '(b1, b2, b3) := b in let '(c1, c2, c3) := c in
  a1 * (b2 * c3 - b3 * c2) - a2 * (b1 * c3 - b3 * c1) + a3 * (b1 * c2 - b2 * c1).
Definition det4 (r0 r1 r2 r3 : Q * (Q * Q * Q)) : Q :=
  fst r0 * minor (snd r1) (snd r2) (snd r3) - fst r1 * minor (snd r0) (snd r2) (snd r3)
  + fst r2 * minor (snd r0) (snd r1) (snd r3) - fst r3 * minor (snd r0) (snd r1) (snd r2).
Definition det_rows (f : coord -> Q * (Q * Q * Q)) (p1 p2 p3 p4 : coord) : Q := det4 (f p1) (f p2) (f p3) (f p4).

(** GeoSphere_Imp.hpp 15-61: the sphere through four points: centre and square of the radius (the square
    root is not modelled). *)
Definition sphere_of (p1 p2 p3 p4 : coord) (tol : Q) : coord * Q :=
  let m11 := det_rows (fun p => (cx p, (cy p, cz p, 1))) p1 p2 p3 p4 in
  let m12 := det_rows (fun p => (norm2 p, (cy p, cz p, 1))) p1 p2 p3 p4 in
  let m13 := det_rows (fun p => (cx p, (norm2 p, cz p, 1))) p1 p2 p3 p4 in
  let m14 := det_rows (fun p => (cx p, (cy p, norm2 p, 1))) p1 p2 p3 p4 in
  let m15 := det_rows (fun p => (norm2 p, (cx p, cy p, cz p))) p1 p2 p3 p4 in
  if Qle_bool (Qabs m11) (tol * tol) then (vzero, 0)
  else
    let c := Coord ((1#2) * m12 / m11) ((1#2) * m13 / m11) ((1#2) * m14 / m11) in
    (c, norm2 c - m15 / m11).

(** GeoSphere_Imp.hpp 119-134: the bounding box; the centre is not used. *)
Definition sphere_box (centre : coord) (r : Q) : box :=
  box_add (box_add box_reset (Coord (- r) (- r) (- r))) (Coord r r r).

(** GeoSphere_Imp.hpp 136-145: contains(): norm() <= radius + tolerance. *)
Definition sphere_contains (centre : coord) (r : Q) (p : coord) (tol : Q) : bool :=
  norm_le (vsub p centre) (r + tol).

(** GeoCircle_Imp.hpp 15-49: the circle through three points: centre and square of the radius. A division
    by zero leaves an infinite or undefined Real in the centre; this is [UB] here. *)
Definition fdiv (x y : Q) : outcome Q := if Qeq_bool y 0 then UB else Ok (x / y).
Definition circle_of (p1 p2 p3 : coord) (tol : Q) : outcome (coord * Q) :=
  let xa := cx p2 - cx p1 in let ya := cy p2 - cy p1 in
  let xb := cx p3 - cx p2 in let yb := cy p3 - cy p2 in
  if Qle_bool (Qabs xa) (tol * tol) && Qle_bool (Qabs yb) (tol * tol) then
    let c := Coord ((1#2) * (cx p2 + cx p3)) ((1#2) * (cy p1 + cy p2)) (cz p1) in
    Ok (c, norm2 (vsub p1 c))
  else
    sa <- fdiv ya xa ;;
    sb <- fdiv yb xb ;;
    if Qle_bool (Qabs (sa - sb)) (tol * tol) then Ok (vzero, 0)
    else
      x <- fdiv (sa * sb * (cy p1 - cy p3) + sb * (cx p1 + cx p2) - sa * (cx p2 + cx p3)) (2 * (sb - sa)) ;;
      y0 <- fdiv (- (x - (cx p1 + cx p2) * (1#2))) sa ;;
      let c := Coord x (y0 + (cy p1 + cy p2) * (1#2)) (cz p1) in
      Ok (c, norm2 (vsub p1 c)).
