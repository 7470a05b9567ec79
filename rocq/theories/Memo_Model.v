(** Geometric objects which remember what they have measured: CGeoTriangle, CGeoQuadrilateral, CGeoTetrahedron, CGeoHexahedron, CGeoTriangularPrism and CGeoPolygon with the bases
    CGeoCentroid, CGeoArea and CGeoVolume. Paths are relative to /repo/trunk/src/geometry. Real is Q (no rounding). *)
From Coq Require Import QArith ZArith List Bool.
From Verif Require Import Prelude Vec Box_Model Seg_Model Grid_Model Poly_Model Cell_Model.
Import ListNotations.
Open Scope Q_scope.

Inductive shape := Tri | Quad | Tet | Hex | Prism | Pgon.
(** What can be asked for: calculateCentroid, calculateNormal (calculateArea is the same call for triangles and quadrilaterals, GeoTriangle_Imp.hpp 77-81, GeoQuadrilateral_Imp.hpp 72-76),
    calculateBoundingBox, calculateSurfaceArea, calculateVolume. *)
Inductive kind := Centroid | Normal | Bounds | Surface | Volume.
(** Results. A normal is given before it is divided by its length, whose half is the area; a surface area is given by the normals of the faces, half of whose lengths are added up:
    square roots are not taken here. *)
Inductive value := At (p : coord) | Normals (l : list coord) | Within (b : box) | Amount (v : Q).

Definition vsum (l : list coord) : coord := fold_left vadd l vzero.
Definition corner_normal (a b c : coord) : coord := cross (vsub b a) (vsub c a).
(** How many vertices are accessed. *)
Definition needs (sh : shape) : nat := match sh with Tri => 3 | Quad => 4 | Tet => 4 | Hex => 5 | Prism => 4 | Pgon => 0 end.
(** GeoTriangle_Imp.hpp 45-58, 60-75, 83-95; GeoQuadrilateral_Imp.hpp 36-50, 52-70, 78-90; GeoTetrahedron_Imp.hpp 35-48, 50-79, 81-97, 99-113; GeoHexahedron_Imp.hpp 36-68;
    GeoTriangularPrism_Imp.hpp 34-67; GeoPolygon_Imp.hpp 46-62 (the first vertex is left out, a closed polyline repeats it; calculateNormal and calculateArea of polygons: Poly_Model, their flags work in the
    same way and are not represented here). None: the function is empty in the source or does not exist. *)
Definition measure (sh : shape) (k : kind) (vs : list coord) : option value :=
  match sh, k with
  | Tri, Centroid => Some (At (vscale (1 # 3) (vsum (firstn 3 vs))))
  | Tri, Normal => Some (Normals [corner_normal (vert vs 0) (vert vs 1) (vert vs 2)])
  | Tri, Bounds => Some (Within (box_add_all (firstn 3 vs)))
  | Quad, Centroid => Some (At (vscale (1 # 4) (vsum (firstn 4 vs))))
  | Quad, Normal => Some (Normals [cross (vsub (vert vs 2) (vert vs 0)) (vsub (vert vs 3) (vert vs 1))])
  | Quad, Bounds => Some (Within (box_add_all (firstn 4 vs)))
  | Tet, Centroid => Some (At (vscale (1 # 4) (vsum (firstn 4 vs))))
  | Tet, Surface => Some (Normals (map (fun f => corner_normal (vert vs (fst (fst f))) (vert vs (snd (fst f))) (vert vs (snd f))) [(0, 1, 2); (0, 1, 3); (1, 2, 3); (2, 0, 3)]%nat))
  | Tet, Volume => Some (Amount (geo_tet_volume vs))
  | Tet, Bounds => Some (Within (box_add_all (firstn 4 vs)))
  | Hex, Volume => Some (Amount (geo_hex_volume vs))
  | Prism, Volume => Some (Amount (geo_prism_volume vs))
  | Pgon, Centroid => Some (At (match tl vs with [] => vzero | l => vscale (/ inject_Z (zlen l)) (vsum l) end))
  | _, _ => None
  end.

(** The object: vertices and, for every kind, the result if its flag is set (m_bCentroid, m_bNormal, m_bBoundingBox, m_bSurfaceArea, m_bVolume). *)
Record object := Object { o_vs : list coord; o_val : kind -> option value }.
Definition fresh : object := Object [] (fun _ => None).
Definition kind_eqb (a b : kind) : bool :=
  match a, b with Centroid, Centroid | Normal, Normal | Bounds, Bounds | Surface, Surface | Volume, Volume => true | _, _ => false end.
Definition remember (o : object) (k : kind) (v : option value) : object := Object (o_vs o) (fun k' => if kind_eqb k k' then v else o_val o k').
(** calculate...(bReCalculate): [force]. Vertices beyond the end of the list are undefined behaviour. *)
Definition calculate (sh : shape) (k : kind) (force : bool) (o : object) : outcome object :=
  match measure sh k (o_vs o) with
  | None => Ok o
  | Some v =>
    match o_val o k with
    | Some _ => if force then (if Nat.ltb (length (o_vs o)) (needs sh) then UB else Ok (remember o k (Some v))) else Ok o
    | None => if Nat.ltb (length (o_vs o)) (needs sh) then UB else Ok (remember o k (Some v))
    end
  end.
(** reset(): GeoTriangle_Imp.hpp 28-33, GeoQuadrilateral_Imp.hpp 29-34 with GeoArea_Imp.hpp 30-38 and GeoCentroid_Imp.hpp 28-32; GeoTetrahedron_Imp.hpp 28-33 with GeoVolume_Imp.hpp 31-40, which
    leaves m_bCentroid alone; GeoHexahedron_Imp.hpp 30-34 and GeoTriangularPrism_Imp.hpp 28-32, which are empty; GeoPolygon_Imp.hpp 27-31, which clears the polyline only. *)
Definition forgets (sh : shape) (k : kind) : bool :=
  match sh, k with
  | Tri, _ | Quad, _ => true
  | Tet, Centroid => false
  | Tet, _ => true
  | _, _ => false
  end.
Definition empties (sh : shape) : bool := match sh with Tri | Quad | Tet | Pgon => true | Hex | Prism => false end.
Definition reset (sh : shape) (o : object) : object :=
  Object (if empties sh then [] else o_vs o) (fun k => if forgets sh k then None else o_val o k).

(** Calls on one object. Editing is CGeoVertexList (GeoVertexList_Imp.hpp 41-63, 113-117; Seg_Model). *)
Inductive call := Add (p : coord) | Insert (i : Z) (p : coord) | Remove (i : Z) | Change (i : Z) (p : coord) | Invert | Reset | Calculate (k : kind) (force : bool).
Definition with_vertices (o : object) (vs : list coord) : object := Object vs (o_val o).
Definition perform (sh : shape) (o : object) (c : call) : outcome object :=
  match c with
  | Add p => Ok (with_vertices o (o_vs o ++ [p]))
  | Insert i p => l <- vl_insert (o_vs o) i p ;; Ok (with_vertices o l)
  | Remove i => l <- vl_remove (o_vs o) i ;; Ok (with_vertices o l)
  | Change i p => l <- vl_set (o_vs o) i p ;; Ok (with_vertices o l)
  | Invert => Ok (with_vertices o (vl_invert (o_vs o)))
  | Reset => Ok (reset sh o)
  | Calculate k f => calculate sh k f o
  end.
Definition perform_all (sh : shape) (cs : list call) (o : object) : outcome object := foldM (perform sh) cs o.

(** GeoTetrahedron_Imp.hpp 123-188: the part of contains() after the bounding box. *)
Definition tet_inside (vs : list coord) (p : coord) (tol : Q) : bool :=
  let a := vert vs 0 in let b := vert vs 1 in let c := vert vs 2 in let d := vert vs 3 in
  let det0 := det_points a b c d in
  if Qle_bool det0 0 then false else
  let s := det_points p b c d / det0 in
  if Qlt_bool s 0 then false else
  let t := det_points a p c d / det0 in
  if Qlt_bool t 0 then false else
  let u := det_points a b p d / det0 in
  if Qlt_bool u 0 then false else
  let v := det_points a b c p / det0 in
  if Qlt_bool v 0 then false else
  let x := s + t + u + v in
  negb (Qlt_bool x (- tol) || Qlt_bool (1 + tol) x).
(** 115-121: contains() of an object, which asks for the bounding box first without forcing. *)
Definition holds_point (o : object) (p : coord) (tol : Q) : outcome (object * bool) :=
  o' <- calculate Tet Bounds false o ;;
  match o_val o' Bounds with
  | Some (Within b) => Ok (o', if negb (box_contains b p tol) then false else tet_inside (o_vs o') p tol)
  | _ => UB
  end.
