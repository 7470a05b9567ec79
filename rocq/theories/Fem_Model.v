(** Finite elements (fem/, fem/thermal, fem/structural and the area, volume and length functions of geometry/ they use), element by
    element. Arithmetic is exact over R; norms are square roots. Matrices are functions of row and column; an element matrix is
    what the C++ object holds in laplacian, ddt or divergence after update(). Eigen's inverse() of a singular matrix (divisions by
    zero) is excluded in the theorems. *)
From Coq Require Import Reals ZArith QArith Qreals List Lia Lra.
From Verif Require Import Int_Model.
Import ListNotations.
Open Scope R_scope.

(** CGeoCoordinate, CGeoVector: three components. *)
Record pt := P { px : R; py : R; pz : R }.
Definition psub (a b : pt) : pt := P (px a - px b) (py a - py b) (pz a - pz b).
Definition pscale (c : R) (a : pt) : pt := P (c * px a) (c * py a) (c * pz a).
Definition pdot (a b : pt) : R := px a * px b + py a * py b + pz a * pz b.
Definition pcross (a b : pt) : pt := P (py a * pz b - pz a * py b) (pz a * px b - px a * pz b) (px a * py b - py a * px b).
Definition pnorm (a : pt) : R := sqrt (pdot a a).
(** Eigen's normalize(): zero vectors are left alone. *)
Definition pnormalize (a : pt) : pt := if Rlt_dec 0 (pdot a a) then pscale (/ pnorm a) a else a.

Definition rmat := nat -> nat -> R.
(** operator<< : entries row by row. *)
Definition of_rows (rows : list (list R)) : rmat := fun i j => nth j (nth i rows []) 0.
Fixpoint rsum (n : nat) (f : nat -> R) : R := match n with O => 0 | S n => rsum n f + f n end.
(** m *= c *)
Definition mscale (c : R) (A : rmat) : rmat := fun i j => A i j * c.
(** -B.transpose() * B for a matrix B of d rows. *)
Definition minus_BtB (d : nat) (B : rmat) : rmat := fun i j => - rsum d (fun k => B k i * B k j).
(** if (m_dt > 0.0) ddt /= m_dt  (e.g. FemBeam_Imp.hpp 45-46). *)
Definition per_dt (dt : R) (A : rmat) : rmat := if Rlt_dec 0 dt then mscale (/ dt) A else A.

(** ** Beam, FemBeam_Imp.hpp *)
(** GeoLine_Imp.hpp 80-88, calculateLength. *)
Definition beam_length (a b : pt) : R := pnorm (psub b a).
(** FemBeam_Imp.hpp 37-47, setTransientTerm. *)
Definition beam_ddt (section dt : R) (a b : pt) : rmat := per_dt dt (mscale (beam_length a b * section) (of_rows [[1 / 3; 1 / 6]; [1 / 6; 1 / 3]])).
(** FemBeam_Imp.hpp 49-57, setDiffusionTerm. *)
Definition beam_laplacian (diffusion section : R) (a b : pt) : rmat :=
  let K := of_rows [[-1; 1]; [1; -1]] in
  if Rlt_dec 0 (beam_length a b) then mscale (diffusion * section / beam_length a b) K else K.
(** FemBeam_Imp.hpp 59-66, setConvectiveTerm. *)
Definition beam_divergence (convection : R) : rmat := mscale (convection * (1 / 2)) (of_rows [[-1; 1]; [-1; 1]]).

(** ** Triangle, FemTriangle_Imp.hpp *)
(** GeoTriangle_Imp.hpp 61-75, calculateNormal (and calculateArea): the area. *)
Definition tri_normal (a b c : pt) : pt := pcross (psub b a) (psub c a).
Definition tri_area (a b c : pt) : R := pnorm (tri_normal a b c) * (1 / 2).
(** FemTriangle_Imp.hpp 39-63 (and FemQuadrilateral_Imp.hpp 42-67): the local frame when one of the first three vertices has z <> 0, the
    global one otherwise; a vertex in local coordinates. *)
Definition frame (a b c : pt) : pt * pt * pt :=
  let vx := pnormalize (psub b a) in
  let vz := pnormalize (pcross vx (psub c a)) in
  let vy := pnormalize (pcross vz vx) in (vx, vy, vz).
Definition in_frame (f : pt * pt * pt) (p : pt) : pt := let '(vx, vy, vz) := f in P (pdot vx p) (pdot vy p) (pdot vz p).
Definition local (a b c : pt) (p : pt) : pt :=
  if Req_EM_T (pz a) 0 then if Req_EM_T (pz b) 0 then if Req_EM_T (pz c) 0 then p else in_frame (frame a b c) p else in_frame (frame a b c) p
  else in_frame (frame a b c) p.
(** FemTriangle_Imp.hpp 65-80: the differences of local coordinates; 98-103, calculateB. *)
Definition tri_B (a b c : pt) : rmat :=
  let n1 := local a b c a in let n2 := local a b c b in let n3 := local a b c c in
  let x21 := px n2 - px n1 in let y21 := py n2 - py n1 in
  let x32 := px n3 - px n2 in let y32 := py n3 - py n2 in
  let x13 := px n1 - px n3 in let y13 := py n1 - py n3 in
  of_rows [[- y32; - y13; - y21]; [x32; x13; x21]].
(** FemTriangle_Imp.hpp 105-119, setDiffusionTerm. *)
Definition tri_laplacian (thickness : R) (a b c : pt) : rmat :=
  let A := tri_area a b c in
  let B := if Rlt_dec 0 A then mscale (1 / (2 * A)) (tri_B a b c) else tri_B a b c in
  mscale (A * thickness) (minus_BtB 2 B).
(** FemTriangle_Imp.hpp 83-96, setTransientTerm: no thickness. *)
Definition tri_ddt (dt : R) (a b c : pt) : rmat :=
  per_dt dt (mscale (tri_area a b c) (of_rows [[1 / 6; 1 / 12; 1 / 12]; [1 / 12; 1 / 6; 1 / 12]; [1 / 12; 1 / 12; 1 / 6]])).

(** ** Tetrahedron, FemTetrahedron_Imp.hpp *)
(** GeoTetrahedron_Imp.hpp 82-97, calculateVolume: the determinant of the four columns (x, y, z, 1), expanded after subtracting the last
    column from the others. *)
Definition tet_volume (a b c d : pt) : R := pdot (psub a d) (pcross (psub b d) (psub c d)) / 6.
(** FemTetrahedron_Imp.hpp 53-63 and 87-106. *)
Definition tet_B (a b c d : pt) : rmat :=
  let x14 := px a - px d in let y14 := py a - py d in let z14 := pz a - pz d in
  let x24 := px b - px d in let y24 := py b - py d in let z24 := pz b - pz d in
  let x34 := px c - px d in let y34 := py c - py d in let z34 := pz c - pz d in
  let bi := y24 * z34 - y34 * z24 in let bj := y34 * z14 - y14 * z34 in let bk := y14 * z24 - y24 * z14 in
  let ci := z24 * x34 - z34 * x24 in let cj := z34 * x14 - z14 * x34 in let ck := z14 * x24 - z24 * x14 in
  let di := x24 * y34 - x34 * y24 in let dj := x34 * y14 - x14 * y34 in let dk := x14 * y24 - x24 * y14 in
  of_rows [[bi; bj; bk; - (bi + bj + bk)]; [ci; cj; ck; - (ci + cj + ck)]; [di; dj; dk; - (di + dj + dk)]].
(** FemTetrahedron_Imp.hpp 82-114, setDiffusionTerm. *)
Definition tet_laplacian (a b c d : pt) : rmat :=
  let V := tet_volume a b c d in
  let B := if Rlt_dec 0 V then mscale (1 / (6 * V)) (tet_B a b c d) else tet_B a b c d in
  mscale V (minus_BtB 3 B).
(** FemTetrahedron_Imp.hpp 66-81, setTransientTerm. *)
Definition tet_ddt (dt : R) (a b c d : pt) : rmat :=
  per_dt dt (mscale (tet_volume a b c d) (of_rows [[1 / 10; 1 / 20; 1 / 20; 1 / 20]; [1 / 20; 1 / 10; 1 / 20; 1 / 20]; [1 / 20; 1 / 20; 1 / 10; 1 / 20]; [1 / 20; 1 / 20; 1 / 20; 1 / 10]])).

(** ** Quadrature: the tables of Int_Model as reals *)
Record rpoint := RPoint { r_xi : R; r_eta : R; r_zeta : R; r_w : R }.
Definition to_real (p : ipoint) : rpoint :=
  RPoint (Q2R (nth 0 (ip_at p) 0%Q)) (Q2R (nth 1 (ip_at p) 0%Q)) (Q2R (nth 2 (ip_at p) 0%Q)) (fold_right Rmult 1 (map Q2R (ip_w p))).
(** for (p...) { Ki = ...; Ki *= weights * fabs(detJ); sum += Ki; } *)
Definition over_points (ps : list rpoint) (det : rpoint -> R) (K : rpoint -> rmat) : rmat :=
  fold_left (fun S p => fun i j => S i j + K p i j * (r_w p * Rabs (det p))) ps (fun _ _ => 0).
(** Ji(i, j) = N[i] * N[j] *)
Definition outer (N : list R) : rmat := fun i j => nth i N 0 * nth j N 0.

(** ** Quadrilateral, FemQuadrilateral_Imp.hpp: vertices in local coordinates *)
Definition quad_points : list rpoint := map to_real (quad_rule 4).
(** FemQuadrilateral_Imp.hpp 184-187: G (times 0.25). *)
Definition quad_G (p : rpoint) : rmat :=
  let xim := 1 - r_xi p in let xip := 1 + r_xi p in let etam := 1 - r_eta p in let etap := 1 + r_eta p in
  mscale (1 / 4) (of_rows [[- xim; xim; xip; - xip]; [- etam; - etap; etap; etam]]).
(** FemQuadrilateral_Imp.hpp 118-121 and 177-180: J, the same combinations of the coordinates. *)
Definition quad_J (n1 n2 n3 n4 : pt) (p : rpoint) : rmat :=
  let xim := 1 - r_xi p in let xip := 1 + r_xi p in let etam := 1 - r_eta p in let etap := 1 + r_eta p in
  let row x := (- xim * x n1 + xim * x n2 + xip * x n3 - xip * x n4, - etam * x n1 - etap * x n2 + etap * x n3 + etam * x n4) in
  mscale (1 / 4) (of_rows [[fst (row px); fst (row py)]; [snd (row px); snd (row py)]]).
Definition det2 (J : rmat) : R := J 0%nat 0%nat * J 1%nat 1%nat - J 0%nat 1%nat * J 1%nat 0%nat.
(** J.inverse() * G for 2 x 2 J. *)
Definition solve2 (J G : rmat) : rmat := fun k j =>
  match k with
  | 0%nat => (J 1%nat 1%nat * G 0%nat j - J 0%nat 1%nat * G 1%nat j) / det2 J
  | 1%nat => (J 0%nat 0%nat * G 1%nat j - J 1%nat 0%nat * G 0%nat j) / det2 J
  | _ => 0
  end.
(** FemQuadrilateral_Imp.hpp 151-199, setDiffusionTerm. *)
Definition quad_laplacian (thickness : R) (a b c d : pt) : rmat :=
  let l := local a b c in let J := quad_J (l a) (l b) (l c) (l d) in
  mscale thickness (over_points quad_points (fun p => det2 (J p)) (fun p => minus_BtB 2 (solve2 (J p) (quad_G p)))).
(** FemQuadrilateral_Imp.hpp 125-128. *)
Definition quad_N (p : rpoint) : list R :=
  [1 / 4 * (1 - r_xi p) * (1 - r_eta p); 1 / 4 * (1 + r_xi p) * (1 - r_eta p); 1 / 4 * (1 + r_xi p) * (1 + r_eta p); 1 / 4 * (1 - r_xi p) * (1 + r_eta p)].
(** FemQuadrilateral_Imp.hpp 92-149, setTransientTerm. *)
Definition quad_ddt (thickness dt : R) (a b c d : pt) : rmat :=
  let l := local a b c in let J := quad_J (l a) (l b) (l c) (l d) in
  per_dt dt (mscale thickness (over_points quad_points (fun p => det2 (J p)) (fun p => outer (quad_N p)))).

(** ** Hexahedron, FemHexahedron_Imp.hpp *)
Definition hexa_points : list rpoint := map to_real (hexa_rule 8).
(** FemHexahedron_Imp.hpp 188-192: G (times 0.125). *)
Definition hexa_G (p : rpoint) : rmat :=
  let xim := 1 - r_xi p in let xip := 1 + r_xi p in let etam := 1 - r_eta p in let etap := 1 + r_eta p in let zetam := 1 - r_zeta p in let zetap := 1 + r_zeta p in
  mscale (1 / 8) (of_rows [
    [- etam * zetam; etam * zetam; - etap * zetam; etap * zetam; - etam * zetap; etam * zetap; - etap * zetap; etap * zetap];
    [- xim * zetam; - xip * zetam; xim * zetam; xip * zetam; - xim * zetap; - xip * zetap; xim * zetap; xip * zetap];
    [- etam * xim; - etam * xip; - etap * xim; - etap * xip; etam * xim; etam * xip; etap * xim; etap * xip]]).
(** FemHexahedron_Imp.hpp 102-112 and 174-184: J, the combinations of G of the coordinates. *)
Definition coordinate (k : nat) (p : pt) : R := match k with 0%nat => px p | 1%nat => py p | _ => pz p end.
Definition origin : pt := P 0 0 0.
Definition J_of (n : nat) (G : rmat) (v : list pt) : rmat := fun i k => rsum n (fun m => G i m * coordinate k (nth m v origin)).
Definition det3 (J : rmat) : R :=
  (J 0%nat 0%nat * (J 1%nat 1%nat * J 2%nat 2%nat - J 1%nat 2%nat * J 2%nat 1%nat) - J 0%nat 1%nat * (J 1%nat 0%nat * J 2%nat 2%nat - J 1%nat 2%nat * J 2%nat 0%nat) + J 0%nat 2%nat * (J 1%nat 0%nat * J 2%nat 1%nat - J 1%nat 1%nat * J 2%nat 0%nat)).
(** J.inverse() * G for 3 x 3 J: adjugate over determinant. *)
Definition adj3 (J : rmat) : rmat := of_rows [
  [J 1%nat 1%nat * J 2%nat 2%nat - J 1%nat 2%nat * J 2%nat 1%nat; J 0%nat 2%nat * J 2%nat 1%nat - J 0%nat 1%nat * J 2%nat 2%nat; J 0%nat 1%nat * J 1%nat 2%nat - J 0%nat 2%nat * J 1%nat 1%nat];
  [J 1%nat 2%nat * J 2%nat 0%nat - J 1%nat 0%nat * J 2%nat 2%nat; J 0%nat 0%nat * J 2%nat 2%nat - J 0%nat 2%nat * J 2%nat 0%nat; J 0%nat 2%nat * J 1%nat 0%nat - J 0%nat 0%nat * J 1%nat 2%nat];
  [J 1%nat 0%nat * J 2%nat 1%nat - J 1%nat 1%nat * J 2%nat 0%nat; J 0%nat 1%nat * J 2%nat 0%nat - J 0%nat 0%nat * J 2%nat 1%nat; J 0%nat 0%nat * J 1%nat 1%nat - J 0%nat 1%nat * J 1%nat 0%nat]].
Definition solve3 (J G : rmat) : rmat := fun k j => rsum 3 (fun m => adj3 J k m * G m j) / det3 J.
(** FemHexahedron_Imp.hpp 144-202, setDiffusionTerm. *)
Definition hexa_laplacian (v : list pt) : rmat :=
  let J p := J_of 8 (hexa_G p) v in over_points hexa_points (fun p => det3 (J p)) (fun p => minus_BtB 3 (solve3 (J p) (hexa_G p))).
(** FemHexahedron_Imp.hpp 116-123. *)
Definition hexa_N (p : rpoint) : list R :=
  let xim := 1 - r_xi p in let xip := 1 + r_xi p in let etam := 1 - r_eta p in let etap := 1 + r_eta p in let zetam := 1 - r_zeta p in let zetap := 1 + r_zeta p in
  [1 / 8 * xim * etam * zetam; 1 / 8 * xip * etam * zetam; 1 / 8 * xim * etap * zetam; 1 / 8 * xip * etap * zetam;
   1 / 8 * xim * etam * zetap; 1 / 8 * xip * etam * zetap; 1 / 8 * xim * etap * zetap; 1 / 8 * xip * etap * zetap].
(** FemHexahedron_Imp.hpp 72-142, setTransientTerm. *)
Definition hexa_ddt (dt : R) (v : list pt) : rmat :=
  let J p := J_of 8 (hexa_G p) v in per_dt dt (over_points hexa_points (fun p => det3 (J p)) (fun p => outer (hexa_N p))).

(** ** Triangular prism, FemTriangularPrism_Imp.hpp; [r3] is the rational value computed for 1 / sqrt(3) *)
Definition prism_points (r3 : Q) : list rpoint := map to_real (prism_rule r3 0 6).
(** FemTriangularPrism_Imp.hpp 164-168: G (times 0.5). *)
Definition prism_G (p : rpoint) : rmat :=
  let xi := r_xi p in let eta := r_eta p in let xieta := - r_xi p - r_eta p + 1 in let zetam := 1 - r_zeta p in let zetap := 1 + r_zeta p in
  mscale (1 / 2) (of_rows [[- zetam; zetam; 0; - zetap; zetap; 0]; [- zetam; 0; zetam; - zetap; 0; zetap]; [- xieta; - xi; - eta; xieta; xi; eta]]).
(** FemTriangularPrism_Imp.hpp 125-178, setDiffusionTerm (J 150-160: the combinations of G of the coordinates). *)
Definition prism_laplacian (r3 : Q) (v : list pt) : rmat :=
  let J p := J_of 6 (prism_G p) v in over_points (prism_points r3) (fun p => det3 (J p)) (fun p => minus_BtB 3 (solve3 (J p) (prism_G p))).
(** FemTriangularPrism_Imp.hpp 99-104. *)
Definition prism_N (p : rpoint) : list R :=
  let xi := r_xi p in let eta := r_eta p in let zeta := r_zeta p in
  [1 / 2 * (1 - xi - eta) * (1 - zeta); 1 / 2 * xi * (1 - zeta); 1 / 2 * eta * (1 - zeta); 1 / 2 * (1 - xi - eta) * (1 + zeta); 1 / 2 * xi * (1 + zeta); 1 / 2 * eta * (1 + zeta)].
(** FemTriangularPrism_Imp.hpp 64-123, setTransientTerm. *)
Definition prism_ddt (r3 : Q) (dt : R) (v : list pt) : rmat :=
  let J p := J_of 6 (prism_G p) v in per_dt dt (over_points (prism_points r3) (fun p => det3 (J p)) (fun p => outer (prism_N p))).

(** ** Thermal elements: convection on an edge, FemLinearTemperatureTriangle_Imp.hpp 38-59 and ...Quadrilateral_Imp.hpp 30-51 (n = 3, 4):
    adds to the source vector and to the laplacian of the element *)
Definition edge_source (n e : nat) (x : R) (s : nat -> R) : nat -> R := fun i =>
  s i + (if Nat.eqb i (e mod n) then x * (1 / 2) else 0) + (if Nat.eqb i ((e + 1) mod n) then x * (1 / 2) else 0).
Definition convection_source (n e : nat) (h Tinf len thickness : R) (s : nat -> R) : nat -> R := edge_source n e (h * Tinf * len * thickness) s.
Definition convection_laplacian (n e : nat) (h len thickness : R) (K : rmat) : rmat := fun i j =>
  let e1 := (e mod n)%nat in let e2 := ((e + 1) mod n)%nat in
  K i j + (if (Nat.eqb i e1 && Nat.eqb j e1)%bool then h * len * thickness / 3 else 0) + (if (Nat.eqb i e1 && Nat.eqb j e2)%bool then h * len * thickness / 6 else 0)
        + (if (Nat.eqb i e2 && Nat.eqb j e1)%bool then h * len * thickness / 6 else 0) + (if (Nat.eqb i e2 && Nat.eqb j e2)%bool then h * len * thickness / 3 else 0).
(** FemLinearTemperatureBeam_Imp.hpp 30-38. *)
Definition beam_convection_laplacian (h perimeter len : R) (K : rmat) : rmat := fun i j => K i j + (if Nat.eqb i j then h * perimeter * len else 0).
Definition beam_convection_source (h Tinf perimeter len : R) (s : nat -> R) : nat -> R := fun i => s i + h * Tinf * perimeter * len.

(** ** Structural elements *)
(** B.transpose() * D * B *)
Definition BtDB (d : nat) (B D : rmat) : rmat := fun i j => rsum d (fun k => B k i * rsum d (fun m => D k m * B m j)).
(** FemTriangle_Imp.hpp 153-167, calculateB for two unknowns per node: columns x1 y1 x2 y2 x3 y3. *)
Definition tri_strain (a b c : pt) : rmat :=
  let n1 := local a b c a in let n2 := local a b c b in let n3 := local a b c c in
  let x21 := px n2 - px n1 in let y21 := py n2 - py n1 in
  let x32 := px n3 - px n2 in let y32 := py n3 - py n2 in
  let x13 := px n1 - px n3 in let y13 := py n1 - py n3 in
  of_rows [[- y32; 0; - y13; 0; - y21; 0]; [0; x32; 0; x13; 0; x21]; [x32; - y32; x13; - y13; x21; - y21]].
(** FemConstantStrainTriangle_Imp.hpp 51-61. *)
Definition plane_stress (E v : R) : rmat := mscale (E / (1 - v * v)) (of_rows [[1; v; 0]; [v; 1; 0]; [0; 0; (1 - v) * (1 / 2)]]).
(** FemConstantStrainTriangle_Imp.hpp 39-65, setDiffusionTerm. *)
Definition cst_stiffness (E v thickness : R) (a b c : pt) : rmat :=
  let A := tri_area a b c in
  let B := if Rlt_dec 0 A then mscale (1 / (2 * A)) (tri_strain a b c) else tri_strain a b c in
  mscale (A * thickness) (BtDB 3 B (plane_stress E v)).
(** FemTetrahedron_Imp.hpp 176-220, calculateB for three unknowns per node. *)
Definition tet_strain (a b c d : pt) : rmat :=
  let A := mscale (/ (6 * tet_volume a b c d)) (tet_B a b c d) in
  let A11 := A 0%nat 0%nat in let A12 := A 0%nat 1%nat in let A13 := A 0%nat 2%nat in
  let A21 := A 1%nat 0%nat in let A22 := A 1%nat 1%nat in let A23 := A 1%nat 2%nat in
  let A31 := A 2%nat 0%nat in let A32 := A 2%nat 1%nat in let A33 := A 2%nat 2%nat in
  let A1t := A11 + A12 + A13 in let A2t := A21 + A22 + A23 in let A3t := A31 + A32 + A33 in
  of_rows [
    [A11; 0; 0; A12; 0; 0; A13; 0; 0; - A1t; 0; 0];
    [0; A21; 0; 0; A22; 0; 0; A23; 0; 0; - A2t; 0];
    [0; 0; A31; 0; 0; A32; 0; 0; A33; 0; 0; - A3t];
    [0; A31; A21; 0; A32; A22; 0; A33; A23; 0; - A3t; - A2t];
    [A31; 0; A11; A32; 0; A12; A33; 0; A13; - A3t; 0; - A1t];
    [A21; A11; 0; A22; A12; 0; A23; A13; 0; - A2t; - A1t; 0]].
(** FemConstantStrainTetrahedron_Imp.hpp 46-59: the first row lacks its third entry. *)
Definition tet_material (E v : R) : rmat := mscale (E / ((1 + v) * (1 - 2 * v))) (of_rows [
    [1 - v; v; 0; 0; 0; 0]; [v; 1 - v; v; 0; 0; 0]; [v; v; 1 - v; 0; 0; 0];
    [0; 0; 0; 1 / 2 - v; 0; 0]; [0; 0; 0; 0; 1 / 2 - v; 0]; [0; 0; 0; 0; 0; 1 / 2 - v]]).
(** FemConstantStrainTetrahedron_Imp.hpp 37-63, setDiffusionTerm. *)
Definition tet_stiffness (E v : R) (a b c d : pt) : rmat := mscale (tet_volume a b c d) (BtDB 6 (tet_strain a b c d) (tet_material E v)).
