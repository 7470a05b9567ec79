(** Constructive solid geometry by BSP trees. Paths are relative to /repo/trunk/src. Real is Q (no
    rounding). *)
From Coq Require Import QArith Qabs ZArith List Bool.
From Verif Require Import Prelude Vec Seg_Model Poly_Model.
Import ListNotations.
Open Scope Q_scope.

(** geometry/GeoPolygon.hpp, GeoArea.hpp: the vertices of the polyline and the stored normal. *)
Record poly : Type := Poly { pv : list coord; pn : coord }.

(** geometry/GeoPolygon_Imp.hpp 177-183: invert(). *)
Definition poly_invert (q : poly) : poly := Poly (vl_invert (pv q)) (vopp (pn q)).

(** csg/CsgBspNode.hpp 24-32. [Null] is the null pointer. The plane of a node is not set before build();
    its m_d is then indeterminate (geometry/GeoPlane.hpp 23, GeoPlane_Imp.hpp 20-23): [None]. *)
Inductive bsp : Type :=
| Null
| Node (pl : option plane) (own : list poly) (front back : bsp).

(** csg/CsgBspNode_Imp.hpp 173-180: vertex types. *)
Inductive side : Type := Coplanar | Front | Back.
Definition side_of (h : plane) (tol : Q) (v : coord) : side :=
  let t := dot (p_normal h) v - p_d h in
  if Qlt_bool t (- tol) then Back else if Qlt_bool tol t then Front else Coplanar.
Definition is_front (s : side) : bool := match s with Front => true | _ => false end.
Definition is_back (s : side) : bool := match s with Back => true | _ => false end.
(** (ti | tj) == CSG_SPANNING. *)
Definition spanning (s s' : side) : bool := (is_front s && is_back s') || (is_back s && is_front s').

(** 222-226. *)
Definition crossing (h : plane) (a b : coord) : coord :=
  let t := (p_d h - dot (p_normal h) a) / dot (p_normal h) (vsub b a) in
  vadd a (vscale t (vsub b a)).

(** The pairs (vertex i, vertex (i + 1) % n). *)
Definition ring (vs : list coord) : list (coord * coord) :=
  match vs with [] => [] | v :: r => combine vs (r ++ [v]) end.

(** 203-230: the vertices of the front part, those of the back part. *)
Definition front_out (h : plane) (tol : Q) (e : coord * coord) : list coord :=
  let '(a, b) := e in
  (if is_back (side_of h tol a) then [] else [a]) ++
  (if spanning (side_of h tol a) (side_of h tol b) then [crossing h a b] else []).
Definition back_out (h : plane) (tol : Q) (e : coord * coord) : list coord :=
  let '(a, b) := e in
  (if is_front (side_of h tol a) then [] else [a]) ++
  (if spanning (side_of h tol a) (side_of h tol b) then [crossing h a b] else []).

(** 232-247. *)
Definition piece (vs : list coord) (n : coord) : list poly :=
  if Nat.ltb 2 (length vs) then [Poly (pl_close vs 0) n] else [].

(** 160-252: splitPolygon(): what is appended to sCoplanarFront, sCoplanarBack, sFront, sBack. *)
Definition split (h : plane) (tol : Q) (q : poly) : list poly * list poly * list poly * list poly :=
  let types := map (side_of h tol) (pv q) in
  match existsb is_front types, existsb is_back types with
  | false, false => if Qlt_bool 0 (dot (p_normal h) (pn q)) then ([q], [], [], []) else ([], [q], [], [])
  | true, false => ([], [], [q], [])
  | false, true => ([], [], [], [q])
  | true, true =>
    ([], [], piece (flat_map (front_out h tol) (ring (pv q))) (pn q),
     piece (flat_map (back_out h tol) (ring (pv q))) (pn q))
  end.
Definition s_cf (r : list poly * list poly * list poly * list poly) := fst (fst (fst r)).
Definition s_cb (r : list poly * list poly * list poly * list poly) := snd (fst (fst r)).
Definition s_front (r : list poly * list poly * list poly * list poly) := snd (fst r).
Definition s_back (r : list poly * list poly * list poly * list poly) := snd r.

(** 45-60: invert(). *)
Fixpoint invert (t : bsp) : bsp :=
  match t with
  | Null => Null
  | Node pl own f b => Node (option_map plane_invert pl) (map poly_invert own) (invert b) (invert f)
  end.

(** 62-90: clipPolygons(). Comparing with an indeterminate plane is [UB] (a polygon without vertices, for
    which the plane would not be read, is not distinguished). *)
Fixpoint clip (tol : Q) (rcf : bool) (t : bsp) (ps : list poly) : outcome (list poly) :=
  match t with
  | Null => Ok ps
  | Node pl _ f b =>
    parts <- match pl with
             | Some h =>
               Ok (flat_map (fun q => let r := split h tol q in (if rcf then [] else s_cf r) ++ s_front r) ps,
                   flat_map (fun q => let r := split h tol q in (if rcf then s_cf r else []) ++ s_cb r ++ s_back r) ps)
             | None => match ps with [] => Ok ([], []) | _ => UB end
             end ;;
    fr <- clip tol rcf f (fst parts) ;;
    ba <- match b with Null => Ok [] | _ => clip tol rcf b (snd parts) end ;;
    Ok (fr ++ ba)
  end.

(** 92-102: clipTo(); the argument is copied together with its child pointers and is not changed. *)
Fixpoint clip_to (tol : Q) (rcf : bool) (other t : bsp) : outcome bsp :=
  match t with
  | Null => Ok Null
  | Node pl own f b =>
    own' <- clip tol rcf other own ;;
    f' <- clip_to tol rcf other f ;;
    b' <- clip_to tol rcf other b ;;
    Ok (Node pl own' f' b')
  end.

(** 104-124: allPolygons(): returns m_polygons after appending those of the children (which change in the
    same way). *)
Fixpoint all_polygons (t : bsp) : list poly * bsp :=
  match t with
  | Null => ([], Null)
  | Node pl own f b =>
    let '(lf, f') := all_polygons f in
    let '(lb, b') := all_polygons b in
    let own' := own ++ lf ++ lb in (own', Node pl own' f' b')
  end.

Definition fresh : bsp := Node None [] Null Null.

(** 126-158: build(); the plane is overwritten if there was one. The recursion is bounded by [fuel]; a run
    that exceeds it is reported as [UB] (this does not happen for flat polygons, see C66). *)
Fixpoint build (tol : Q) (fuel : nat) (t : bsp) (ps : list poly) : outcome bsp :=
  match fuel with
  | O => UB
  | S fuel' =>
    match t, ps with
    | Null, _ => Ok Null
    | _, [] => Ok t
    | Node pl own f b, q0 :: _ =>
      match pv q0 with
      | [] => Ok t
      | v0 :: _ =>
        let h := Plane (pn q0) (dot (pn q0) v0) in
        let own' := own ++ flat_map (fun q => let r := split h tol q in s_cf r ++ s_cb r) ps in
        let sf := flat_map (fun q => s_front (split h tol q)) ps in
        let sb := flat_map (fun q => s_back (split h tol q)) ps in
        f' <- match sf with [] => Ok f | _ => build tol fuel' (match f with Null => fresh | _ => f end) sf end ;;
        b' <- match sb with [] => Ok b | _ => build tol fuel' (match b with Null => fresh | _ => b end) sb end ;;
        Ok (Node (Some h) own' f' b')
      end
    end
  end.

(** 19-36: the constructors. *)
Definition bsp_of (tol : Q) (ps : list poly) : outcome bsp :=
  match ps with [] => Ok fresh | _ => build tol (S (length ps)) fresh ps end.

(** csg/CsgBoolean_Imp.hpp 75-93: add(). *)
Definition csg_add (tol : Q) (A B : list poly) : outcome (list poly) :=
  a <- bsp_of tol A ;;
  b <- bsp_of tol B ;;
  a <- clip_to tol false b a ;;
  b <- clip_to tol false a b ;;
  b <- clip_to tol false a (invert b) ;;
  let ps := fst (all_polygons (invert b)) in
  a <- build tol (S (length ps)) a ps ;;
  Ok (fst (all_polygons a)).

(** 109-126: subtract(). *)
Definition csg_subtract (tol : Q) (A B : list poly) : outcome (list poly) :=
  a <- bsp_of tol A ;;
  b <- bsp_of tol B ;;
  a <- clip_to tol false b (invert a) ;;
  b <- clip_to tol true a b ;;
  let ps := fst (all_polygons b) in
  a <- build tol (S (length ps)) a ps ;;
  Ok (fst (all_polygons (invert a))).

(** 142-161: intersect(). *)
Definition csg_intersect (tol : Q) (A B : list poly) : outcome (list poly) :=
  a <- bsp_of tol A ;;
  b <- bsp_of tol B ;;
  let a := invert a in
  b <- clip_to tol false a b ;;
  let b := invert b in
  a <- clip_to tol false b a ;;
  b <- clip_to tol false a b ;;
  let ps := fst (all_polygons b) in
  a <- build tol (S (length ps)) a ps ;;
  Ok (fst (all_polygons (invert a))).

(** csg/CsgCube_Imp.hpp 20-99: create(). Vertex k has the signs of the bits of k; the normals are the
    corner normals (normalised in the code). *)
Definition cube_vertex (c r : coord) (k : nat) : coord :=
  let sg i := if Nat.testbit k i then 1 else - (1) in
  Coord (cx c + cx r * sg 0%nat) (cy c + cy r * sg 1%nat) (cz c + cz r * sg 2%nat).
Definition cube_faces : list (list nat) :=
  [[0; 4; 6; 2]; [1; 3; 7; 5]; [0; 1; 5; 4]; [2; 6; 7; 3]; [0; 2; 3; 1]; [4; 5; 7; 6]]%nat.
Definition csg_cube (c r : coord) : list poly :=
  map (fun f => let vs := pl_close (map (cube_vertex c r) f) 0 in Poly vs (pg_normal_any vs)) cube_faces.
