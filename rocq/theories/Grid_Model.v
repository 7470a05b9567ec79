(** Model of the structured mesh generator (mesh/MshBasicMesher_Imp.hpp) and of the volume and area
    formulas of the cells it produces (geometry/GeoHexahedron_Imp.hpp, GeoTetrahedron_Imp.hpp,
    GeoQuadrilateral_Imp.hpp, GeoTriangle_Imp.hpp).
    Simplifications: exact arithmetic; [Integer] is unbounded, so node numbers never overflow (the
    code needs (nu+1)*(nv+1)*(nw+1) < 2^31); m_dx, m_dy, m_dz are not kept. *)
From Coq Require Import ZArith List Bool QArith Qabs.
From Verif Require Import Prelude Vec ZMap Mesh_Model.
Import ListNotations.
Open Scope Z_scope.

(** for (i = 0; i < n; ++i). *)
Definition upto (n : Z) : list Z := zrange (Z.to_nat n).

(** addNode(nn, x); nn++ (lines 56-57 etc.). *)
Definition push {A : Type} (st : table A * Z) (v : A) : table A * Z := (t_add (fst st) (snd st) v, snd st + 1).

(** CGeoVertexList::vertex, geometry/GeoVertexList_Imp.hpp:66-74. *)
Definition vertex (vs : list coord) (i : Z) : outcome coord :=
  match vs with [] => Throw | _ => vec_get vs (i mod zlen vs) end.

(** The term aNormalU * du * i of lines 54, 114, 218: the vector is divided by its length, multiplied
    by its length divided by nu (by 0 when nu <= 0) and by i.  Simplified: the length, a square root,
    cancels in exact arithmetic (a zero vector stays zero in both). *)
Definition along (v : coord) (n i : Z) : coord :=
  if 0 <? n then vscale (inject_Z i / inject_Z n) v else vzero.

(** Lines 210-224 and 378-392: the node loops; [pos i j k] is the position of the node. *)
Definition grid_nodes (pos : Z -> Z -> Z -> coord) (nu nv nw : Z) : table coord * Z :=
  fold_left (fun st k => fold_left (fun st j => fold_left (fun st i =>
    push st (pos i j k)) (upto (nu + 1)) st) (upto (nv + 1)) st) (upto (nw + 1)) (t_empty, 0).

(** Lines 236-243 and 404-411: nodeId[0..7]. *)
Definition cell_nodes (nu nv i j k : Z) : list Z :=
  [(nu + 1) * (nv + 1) * k + (nu + 1) * j + i;
   (nu + 1) * (nv + 1) * k + (nu + 1) * j + i + 1;
   (nu + 1) * (nv + 1) * k + (nu + 1) * (j + 1) + i + 1;
   (nu + 1) * (nv + 1) * k + (nu + 1) * (j + 1) + i;
   (nu + 1) * (nv + 1) * (k + 1) + (nu + 1) * j + i;
   (nu + 1) * (nv + 1) * (k + 1) + (nu + 1) * j + i + 1;
   (nu + 1) * (nv + 1) * (k + 1) + (nu + 1) * (j + 1) + i + 1;
   (nu + 1) * (nv + 1) * (k + 1) + (nu + 1) * (j + 1) + i].

(** Lines 249-319 and 417-487: the node numbers of the six tetrahedra. *)
Definition six_tets : list (list nat) :=
  [[3; 0; 1; 7]; [1; 0; 4; 7]; [5; 1; 4; 7]; [3; 1; 2; 7]; [2; 1; 6; 7]; [6; 1; 5; 7]]%nat.

(** Lines 245-339 and 413-507: the elements of one cell. *)
Definition hex_cell (decimate : bool) (nu nv i j k : Z) : list element :=
  let nd := cell_nodes nu nv i j k in
  if decimate then map (fun p => Element ET_TETRAHEDRON (map (fun q => nth q nd 0) p) []) six_tets
  else [Element ET_HEXAHEDRON nd []].

(** Lines 226-342 and 394-510: the element loops. *)
Definition grid_cells (decimate : bool) (nu nv nw : Z) : table element * Z :=
  fold_left (fun st k => fold_left (fun st j => fold_left (fun st i =>
    fold_left push (hex_cell decimate nu nv i j k) st) (upto nu) st) (upto nv) st) (upto nw) (t_empty, 0).

(** generate(aHexahedron, nu, nv, nw, decimate), lines 174-345. *)
Definition generate_hex (vs : list coord) (nu nv nw : Z) (decimate : bool) : outcome mesh :=
  p0 <- vertex vs 0 ;; p1 <- vertex vs 1 ;; p3 <- vertex vs 3 ;; p4 <- vertex vs 4 ;;
  let u := vsub p1 p0 in let v := vsub p3 p0 in let w := vsub p4 p0 in
  let pos i j k := vadd (vadd (vadd p0 (along u nu i)) (along v nv j)) (along w nw k) in
  Ok (Mesh (fst (grid_nodes pos nu nv nw)) t_empty (fst (grid_cells decimate nu nv nw))).

(** Lines 123-169: the elements of one cell of a quadrilateral. *)
Definition quad_cell (decimate : bool) (nu i j : Z) : list element :=
  if decimate then
    [Element ET_TRIANGLE [(nu + 1) * j + i; (nu + 1) * j + i + 1; (nu + 1) * (j + 1) + i + 1] [];
     Element ET_TRIANGLE [(nu + 1) * j + i; (nu + 1) * (j + 1) + i + 1; (nu + 1) * (j + 1) + i] []]
  else
    [Element ET_QUADRILATERAL [(nu + 1) * j + i; (nu + 1) * j + i + 1; (nu + 1) * (j + 1) + i + 1; (nu + 1) * (j + 1) + i] []].

(** generate(aQuadrilateral, nu, nv, decimate), lines 78-172. *)
Definition generate_quad (vs : list coord) (nu nv : Z) (decimate : bool) : outcome mesh :=
  p0 <- vertex vs 0 ;; p1 <- vertex vs 1 ;; p3 <- vertex vs 3 ;;
  let u := vsub p1 p0 in let v := vsub p3 p0 in
  let pos i j := vadd (vadd p0 (along u nu i)) (along v nv j) in
  let nodes := fold_left (fun st j => fold_left (fun st i =>
    push st (pos i j)) (upto (nu + 1)) st) (upto (nv + 1)) (t_empty, 0) in
  let elems := fold_left (fun st j => fold_left (fun st i =>
    fold_left push (quad_cell decimate nu i j) st) (upto nu) st) (upto nv) (t_empty, 0) in
  Ok (Mesh (fst nodes) t_empty (fst elems)).

(** generate(aLine, nu), lines 30-76; [a] and [vec] are startPoint() and vector(). *)
Definition generate_line (a vec : coord) (nu : Z) : mesh :=
  let nodes := fold_left (fun st i => push st (vadd a (along vec nu i))) (upto (nu + 1)) (t_empty, 0) in
  let elems := fold_left (fun st i => push st (Element ET_BEAM [i; i + 1] [])) (upto nu) (t_empty, 0) in
  Mesh (fst nodes) t_empty (fst elems).

(** The direction of (x, 0, 0) etc. normalised (lines 352-362): the sign of x; Eigen leaves a zero
    vector unchanged. *)
Definition qsign (x : Q) : Q := if Qlt_bool 0 x then 1%Q else if Qlt_bool x 0 then (-1)%Q else 0%Q.

(** generate(aBoundingBox, meshSize, decimate), lines 347-513; a zero meshSize makes the quotients of
    lines 366-368 infinite or NaN, whose conversion is undefined. *)
Definition generate_box (lo hi : coord) (h : Q) (decimate : bool) : outcome mesh :=
  let d := vsub hi lo in
  if Qeq_bool h 0 then UB else
  nu <- to_int (Qabs (cx d) / h) ;; nv <- to_int (Qabs (cy d) / h) ;; nw <- to_int (Qabs (cz d) / h) ;;
  let pos i j k :=
    vadd (vadd (vadd lo (vscale (qsign (cx d) * h * inject_Z i) (Coord 1 0 0)))
               (vscale (qsign (cy d) * h * inject_Z j) (Coord 0 1 0)))
         (vscale (qsign (cz d) * h * inject_Z k) (Coord 0 0 1)) in
  Ok (Mesh (fst (grid_nodes pos nu nv nw)) t_empty (fst (grid_cells decimate nu nv nw))).

(** ** Cell measures *)

(** CGeoHexahedron::calculateVolume, geometry/GeoHexahedron_Imp.hpp:55-68. *)
Definition geo_hex_volume (vs : list coord) : Q :=
  match vs with
  | p0 :: p1 :: p2 :: p3 :: p4 :: _ => dot (vsub p4 p0) (cross (vsub p3 p0) (vsub p1 p0))
  | _ => 0%Q
  end.

(** 3x3 determinant with the given columns. *)
Definition det3 (a b c : coord) : Q := dot a (cross b c).

(** CGeoTetrahedron::calculateVolume, geometry/GeoTetrahedron_Imp.hpp:82-97: a sixth of the 4x4
    determinant with columns (x, y, z, 1), here expanded along its last row of ones. *)
Definition geo_tet_volume (vs : list coord) : Q :=
  match vs with
  | p0 :: p1 :: p2 :: p3 :: _ =>
      ((- det3 p1 p2 p3 + det3 p0 p2 p3 - det3 p0 p1 p3 + det3 p0 p1 p2) / 6)%Q
  | _ => 0%Q
  end.

(** CGeoQuadrilateral::calculateNormal, geometry/GeoQuadrilateral_Imp.hpp:53-70, before normalising;
    the area is half its length. *)
Definition geo_quad_normal (vs : list coord) : coord :=
  match vs with
  | p0 :: p1 :: p2 :: p3 :: _ => cross (vsub p2 p0) (vsub p3 p1)
  | _ => vzero
  end.

(** CGeoTriangle::calculateNormal, geometry/GeoTriangle_Imp.hpp:61-75, before normalising; the area is
    half its length.  In this and the three previous definitions a list with too few vertices, which
    the code reads past its end, is given the value 0. *)
Definition geo_tri_normal (vs : list coord) : coord :=
  match vs with
  | p0 :: p1 :: p2 :: _ => cross (vsub p1 p0) (vsub p2 p0)
  | _ => vzero
  end.
