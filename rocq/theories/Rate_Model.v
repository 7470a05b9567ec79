(** The quality of mesh elements (mesh/MshTriangle_Imp.hpp, MshQuadrilateral_Imp.hpp, MshTetrahedron_Imp.hpp, MshTriangularPrism_Imp.hpp) and its summary
    (mesh/MshMesh_Imp.hpp). Coordinates are exact rationals, qualities are real numbers without rounding; [None] stands for the not-a-number that 0.0 / 0.0 gives.
    The elements are built anew for every call, so nothing remembered by them (areas, volumes) plays a role here. *)
From Coq Require Import ZArith List Bool QArith Reals Qreals.
From Verif Require Import Prelude Vec ZMap Mesh_Model HashGrid_Model Surf_Model Cell_Model.
Import ListNotations.
Open Scope Z_scope.

(** MshTriangle_Imp.hpp 27-44 with k = 4; MshTriangularPrism_Imp.hpp 30-43 and 45-58 with k = 2. The angles are those of CGeoVector (Surf_Model). *)
Definition sine_ratio (k : R) (p q r : coord) : R :=
  let v0 := vsub q p in let v1 := vsub r q in let v2 := vsub p r in
  let a := sin (angle v0 (vopp v2)) in let b := sin (angle v1 (vopp v0)) in let c := sin (angle v2 (vopp v1)) in
  if Rlt_dec (Q2R real_eps) (a + b + c) then (k * a * b * c / (a + b + c))%R else 0%R.
Definition triangle_quality (p q r : coord) : R := sine_ratio 4 p q r.

(** geometry/GeoTriangle_Imp.hpp 60-81, geometry/GeoQuadrilateral_Imp.hpp 53-76: areas. *)
Definition triangle_area (p q r : coord) : R := (len (cross (vsub q p) (vsub r p)) * (1 / 2))%R.
Definition quad_area (p q r s : coord) : R := (len (cross (vsub r p) (vsub s q)) * (1 / 2))%R.

(** MshQuadrilateral_Imp.hpp 25-38. The divisor is zero only together with the area. *)
Definition quad_quality (p q r s : coord) : option R :=
  let d := Q2R (norm2 (vsub q p) + norm2 (vsub r q) + norm2 (vsub s r) + norm2 (vsub p s)) in
  if Req_EM_T d 0 then None else Some (4 * quad_area p q r s / d)%R.

(** geometry/GeoTetrahedron_Imp.hpp 51-79 (surface), 82-97 (volume); MshTetrahedron_Imp.hpp 25-48. *)
Definition tetra_surface (p q r s : coord) : R :=
  (triangle_area p q r + triangle_area p q s + triangle_area q r s + triangle_area r p s)%R.
Definition tetra_volume (p q r s : coord) : R := (Q2R (det_points p q r s) / 6)%R.
Definition longest (p q r s : coord) : R :=
  Rmax (len (vsub q p)) (Rmax (len (vsub r q)) (Rmax (len (vsub p r)) (Rmax (len (vsub s p)) (Rmax (len (vsub s q)) (len (vsub s r)))))).
Definition tetra_quality (p q r s : coord) : R :=
  let x := Rabs (tetra_surface p q r s * longest p q r s) in
  if Rlt_dec 0 x then (6 * sqrt 6 * Rabs (tetra_volume p q r s) / x)%R else 0%R.

(** MshTriangularPrism_Imp.hpp 25-59. *)
Definition prism_quality (p q r s t u : coord) : R := (0 + sine_ratio 2 p q r + sine_ratio 2 s t u)%R.

(** MshMesh_Imp.hpp 956-1029, quality. Too few nodes make the element read vertices it does not have. *)
Definition element_quality (m : mesh) (id : Z) : outcome (option R) :=
  e <- t_get (m_elems m) id ;;
  match e_type e with
  | ET_TRIANGLE =>
    vs <- mapM (t_get (m_nodes m)) (e_nodes e) ;;
    match vs with p :: q :: r :: _ => Ok (Some (triangle_quality p q r)) | _ => UB end
  | ET_QUADRILATERAL =>
    vs <- mapM (t_get (m_nodes m)) (e_nodes e) ;;
    match vs with p :: q :: r :: s :: _ => Ok (quad_quality p q r s) | _ => UB end
  | ET_TETRAHEDRON =>
    vs <- mapM (t_get (m_nodes m)) (e_nodes e) ;;
    match vs with p :: q :: r :: s :: _ => Ok (Some (tetra_quality p q r s)) | _ => UB end
  | ET_TRIANGULAR_PRISM =>
    vs <- mapM (t_get (m_nodes m)) (e_nodes e) ;;
    match vs with p :: q :: r :: s :: t :: u :: _ => Ok (Some (prism_quality p q r s t u)) | _ => UB end
  | _ => Ok (Some 1%R)
  end.

(** Comparison and sum of values that may be not-a-number; std::min(a, b) is b < a ? b : a, std::max(a, b) is a < b ? b : a. *)
Definition less (a b : option R) : bool := match a, b with Some x, Some y => if Rlt_dec x y then true else false | _, _ => false end.
Definition std_min (a b : option R) : option R := if less b a then b else a.
Definition std_max (a b : option R) : option R := if less a b then b else a.
Definition plus (a b : option R) : option R := match a, b with Some x, Some y => Some (x + y)%R | _, _ => None end.

(** MshMesh_Imp.hpp 1031-1060, meshQuality: minimum, maximum, average. *)
Definition mesh_quality (m : mesh) : outcome (option R * option R * option R) :=
  st <- foldM (fun st id =>
          q <- element_quality m id ;;
          let '(lo, hi, total, n) := st in
          Ok (std_min q lo, std_max q hi, plus total q, n + 1))
        (t_ids (m_elems m)) (Some 1%R, Some 0%R, Some 0%R, 0) ;;
  let '(lo, hi, total, n) := st in
  Ok (lo, hi, if 0 <? n then match total with Some x => Some (x / IZR n)%R | None => None end else Some 0%R).
