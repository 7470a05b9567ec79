(** CSG primitives with curved surfaces: csg/CsgCylinder_Imp.hpp and csg/CsgSphere_Imp.hpp, with closing and normals of polygons
    (geometry/GeoPolyline_Imp.hpp 111-121, geometry/GeoPolygon_Imp.hpp 64-91). Arithmetic, sine and cosine are exact over R (std::acos(-1.0) is
    pi); numbers of slices and stacks are natural numbers (negative ones give empty lists like zero). The polygons are what is handed to
    CCsgBoolean. *)
From Coq Require Import Reals List.
From Verif Require Import Fem_Model.
Import ListNotations.
Open Scope R_scope.

Definition padd (a b : pt) : pt := P (px a + px b) (py a + py b) (pz a + pz b).
(** A polygon: the vertices of its polyline and its normal. *)
Record rpoly := RPoly { rp_vs : list pt; rp_normal : pt }.
(** GeoPolyline_Imp.hpp 111-121, close() with the default tolerance 0. *)
Definition pclose (vs : list pt) : list pt :=
  match vs with
  | a :: _ :: _ :: _ => if Rlt_dec 0 (pnorm (psub (last vs a) a)) then vs ++ [a] else vs
  | _ => vs
  end.
(** GeoPolygon_Imp.hpp 69-87, calculateNormal: the first corner with a cross product longer than [eps] is normalised; if there is none, the cross
    product of the last corner remains as it is. [last] is the value of aNormal (undefined for fewer than three vertices; here the given one). *)
Fixpoint corner_normal (eps : R) (vs : list pt) (last : pt) : pt :=
  match vs with
  | a :: ((b :: c :: _) as rest) =>
    let n := pcross (psub b a) (psub c a) in
    if Rlt_dec eps (pnorm n) then pnormalize n else corner_normal eps rest n
  | _ => last
  end.
Definition polygon (eps : R) (vs : list pt) : rpoly := RPoly (pclose vs) (corner_normal eps (pclose vs) (P 0 0 0)).

(** CsgCylinder_Imp.hpp 37-54: the axes. *)
Definition cyl_Z (s e : pt) : pt := pnormalize (psub e s).
Definition cyl_X (s e : pt) : pt := pnormalize (pcross (if Rlt_dec (1 / 2) (Rabs (py (cyl_Z s e))) then P 1 0 0 else P 0 1 0) (cyl_Z s e)).
Definition cyl_Y (s e : pt) : pt := pnormalize (pcross (cyl_X s e) (cyl_Z s e)).
(** 21-30, point. *)
Definition cyl_point (s e : pt) (r stack slice : R) : pt :=
  let angle := slice * PI * 2 in
  let out := padd (pscale (cos angle) (cyl_X s e)) (pscale (sin angle) (cyl_Y s e)) in
  padd (padd s (pscale stack (psub e s))) (pscale r out).
(** 56-103: the three polygons of a slice. *)
Definition cyl_slice (eps : R) (s e : pt) (r : R) (n i : nat) : list rpoly :=
  let t0 := INR i / INR n in let t1 := INR (i + 1) / INR n in
  let q stack t := cyl_point s e r stack t in
  [polygon eps [s; q 0 t0; q 0 t1]; polygon eps [q 0 t1; q 0 t0; q 1 t0; q 1 t1]; polygon eps [e; q 1 t1; q 1 t0]].
(** 33-107, create. *)
Definition csg_cylinder (eps : R) (s e : pt) (r : R) (n : nat) : list rpoly := flat_map (cyl_slice eps s e r n) (seq 0 n).

(** CsgSphere_Imp.hpp 20-30, vertex. *)
Definition sph_vertex (c : pt) (r theta phi : R) : pt :=
  let theta := theta * (PI * 2) in let phi := phi * PI in
  padd c (pscale r (P (cos theta * sin phi) (cos phi) (sin theta * sin phi))).
(** 41-63: one polygon. *)
Definition sph_patch (eps : R) (c : pt) (r : R) (n m i j : nat) : rpoly :=
  let q i j := sph_vertex c r (INR i / INR n) (INR j / INR m) in
  polygon eps ([q i j] ++ (if Nat.ltb 0 j then [q (i + 1)%nat j] else []) ++ (if Nat.ltb (j + 1) m then [q (i + 1)%nat (j + 1)%nat] else []) ++ [q i (j + 1)%nat]).
(** 33-68, create. *)
Definition csg_sphere (eps : R) (c : pt) (r : R) (n m : nat) : list rpoly :=
  flat_map (fun i => map (sph_patch eps c r n m i) (seq 0 m)) (seq 0 n).
