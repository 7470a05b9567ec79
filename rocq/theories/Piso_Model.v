(** Flow solvers on control volumes: solvers/FvmPisoSolver_Imp.hpp and solvers/FvmVofSolver_Imp.hpp, function by function, over exact rationals. The
    mesh is seen through its accessors: cells, the faces of a cell, owner, neighbour and boundary type of a face, areas, distances and normals. Maps from ids to
    numbers are total functions (the constructor gives every cell and face a value; densities and viscosities must be set before). Rows and
    columns of the systems are named by cell id instead of its position. The linear solvers (Eigen) are arguments. *)
From Coq Require Import QArith Qminmax Qabs Qround ZArith List Bool.
From Verif Require Import Prelude Vec.
Import ListNotations.
Open Scope Q_scope.

(** ** Mesh *)
Inductive btype : Type := BT_WALL_NO_SLIP | BT_INLET_FLOW | BT_INLET_PRESSURE | BT_OUTLET | BT_OTHER.
(** fvm/FvmFace.hpp: controlVolumeId, neighbour if hasPair, boundary type. *)
Record pface : Type := PFace { pf_owner : Z; pf_pair : option Z; pf_type : btype }.
(** fvm/FvmMesh.hpp, fvm/FvmControlVolume.hpp: accessors; area, distance to the face centre and normal as seen from the cell. *)
Record pmesh : Type := PMesh {
  pm_cells : list Z; pm_faces : list Z; pm_of : Z -> list Z; pm_face : Z -> pface;
  pm_area : Z -> Z -> Q; pm_dist : Z -> Z -> Q; pm_normal : Z -> Z -> coord; pm_volume : Z -> Q }.
(** fvm/FvmFace_Imp.hpp 89-96, neighborId. *)
Definition across (m : pmesh) (c f nb : Z) : Z := if (pf_owner (pm_face m f) =? c)%Z then nb else pf_owner (pm_face m f).
Definition contains (m : pmesh) (c f : Z) : bool := existsb (Z.eqb f) (pm_of m c).
(** hasPair() with the neighbour on the other side of the face, if that contains the face. *)
Definition neighbor (m : pmesh) (c f : Z) : option (option Z) :=
  match pf_pair (pm_face m f) with None => None | Some nb => Some (let n := across m c f nb in if contains m n f then Some n else None) end.

Definition upd {A} (g : Z -> A) (k : Z) (v : A) : Z -> A := fun x => if (x =? k)%Z then v else g x.
Definition matrix : Type := Z -> Z -> Q.
Definition addA (A : matrix) (r c : Z) (x : Q) : matrix := upd A r (upd (A r) c (A r c + x)).
Definition addb (b : Z -> Q) (r : Z) (x : Q) : Z -> Q := upd b r (b r + x).
Definition qsum {A} (l : list A) (g : A -> Q) : Q := fold_right (fun i s => g i + s) 0 l.
Definition vsum {A} (l : list A) (g : A -> coord) : coord := fold_right (fun i s => vadd (g i) s) vzero l.
(** for each cell, for each of its faces *)
Definition each_face {S} (m : pmesh) (step : Z -> Z -> S -> S) (s : S) : S :=
  fold_left (fun s c => fold_left (fun s f => step c f s) (pm_of m c) s) (pm_cells m) s.
(** The flux through a face seen from a cell (repeated throughout). *)
Definition seen (m : pmesh) (flux : Z -> Q) (c f : Z) : Q := if (pf_owner (pm_face m f) =? c)%Z then flux f else - flux f.

(** ** FvmPisoSolver_Imp.hpp *)
(** m_u, m_v, m_w together in [s_vel], the values on faces in [s_velf]. *)
Record flow : Type := Flow {
  s_vel : Z -> coord; s_velf : Z -> coord; s_p : Z -> Q; s_pf : Z -> Q; s_flux : Z -> Q;
  s_dens : Z -> Q; s_visc : Z -> Q; s_g : coord }.
(** 85-122, gradient. *)
Definition gradient (m : pmesh) (var varf : Z -> Q) (c : Z) : coord :=
  let sum := vsum (pm_of m c) (fun f =>
    let v := match pf_pair (pm_face m f) with Some nb => (var c + var (across m c f nb)) * (1 # 2) | None => varf f end in
    vscale (v * pm_area m c f) (pm_normal m c f)) in
  if Qlt_le_dec 0 (pm_volume m c) then vscale (/ pm_volume m c) sum else sum.
(** 232-299, calculateVelocityField: one face of one cell. The distance and the averages of area, density and viscosity are over both sides. *)
Definition vadd_at (b : Z -> coord) (r : Z) (x : coord) : Z -> coord := upd b r (vadd (b r) x).
Definition momentum_face (m : pmesh) (s : flow) (c f : Z) (st : matrix * (Z -> coord)) : matrix * (Z -> coord) :=
  let '(A, b) := st in
  let vol := pm_volume m c in let flux := seen m (s_flux s) c f in let n := pm_normal m c f in
  match neighbor m c f with
  | Some (Some d) =>
    let area := (pm_area m c f + pm_area m d f) * (1 # 2) in let dist := pm_dist m c f + pm_dist m d f in
    let dens := (s_dens s c + s_dens s d) * (1 # 2) in let visc := (s_visc s c + s_visc s d) * (1 # 2) in
    let A := addA A c c ((1 - (1 # 2)) * dens * flux / vol) in let A := addA A c c (visc * area / dist / vol) in
    let A := addA A c d ((1 # 2) * dens * flux / vol) in (addA A c d (- visc * area / dist / vol), b)
  | Some None => (A, b)
  | None =>
    let area := pm_area m c f in let dist := pm_dist m c f in let u := s_velf s f in
    let b := vadd_at b c (vscale (s_visc s c * area / dist / vol) u) in
    (addA A c c (s_visc s c * area / dist / vol),
     vadd_at b c (vscale (- s_dens s c * area * flux / vol) (Coord (cx u * cx n) (cy u * cy n) (cz u * cz n))))
  end.
(** 217-325: one cell; cells without volume are skipped. *)
Definition momentum_cell (m : pmesh) (dt : Q) (s : flow) (st : matrix * (Z -> coord)) (c : Z) : matrix * (Z -> coord) :=
  if Qlt_le_dec 0 (pm_volume m c) then
    let '(A, b) := fold_left (fun st f => momentum_face m s c f st) (pm_of m c) st in
    let b := vadd_at b c (vscale (s_dens s c) (s_g s)) in
    let b := vadd_at b c (gradient m (s_p s) (s_pf s) c) in
    if Qlt_le_dec 0 dt then (addA A c c (s_dens s c / dt), vadd_at b c (vscale (s_dens s c / dt) (s_vel s c))) else (A, b)
  else st.
Definition momentum (m : pmesh) (dt : Q) (s : flow) : matrix * (Z -> coord) :=
  fold_left (momentum_cell m dt s) (pm_cells m) (fun _ _ => 0, fun _ => vzero).
Definition solver : Type := matrix -> (Z -> Q) -> (Z -> Q).
Definition solve3 (solve : solver) (A : matrix) (b : Z -> coord) : Z -> coord :=
  fun c => Coord (solve A (fun r => cx (b r)) c) (solve A (fun r => cy (b r)) c) (solve A (fun r => cz (b r)) c).
(** 335-358: m_H. The matrix is stored by columns, so the loop over outerSize visits the entries (r, c) of column c. m_ap is the diagonal. *)
Definition predicted (m : pmesh) (s : flow) (A : matrix) (b : Z -> coord) (u : Z -> coord) (c : Z) : coord :=
  vsub (vsub (b c) (gradient m (s_p s) (s_pf s) c)) (vscale (qsum (pm_cells m) (fun r => if (r =? c)%Z then 0 else A r c)) (u c)).
(** 362-492, calculatePressureField: matrix, right-hand side and the fields that change on the way. *)
Record pressure_state : Type := PS { q_A : matrix; q_b : Z -> Q; q_flux : Z -> Q; q_velf : Z -> coord }.
Definition conduct (m : pmesh) (ap : Z -> Q) (c f : Z) (d : option Z) : Q :=
  match d with
  | Some d => 1 / (((ap c + ap d) * (1 # 2)) * (pm_dist m c f + pm_dist m d f)) * ((pm_area m c f + pm_area m d f) * (1 # 2))
  | None => 1 / (ap c * pm_dist m c f) * pm_area m c f
  end.
Definition open_flux (m : pmesh) (ap : Z -> Q) (H : Z -> coord) (c f : Z) (d : option Z) : Q :=
  match d with
  | Some d => - dot (vscale (1 # 2) (vadd (H c) (H d))) (pm_normal m c f) / ((ap c + ap d) * (1 # 2)) * ((pm_area m c f + pm_area m d f) * (1 # 2))
  | None => - dot (H c) (pm_normal m c f) / ap c * pm_area m c f
  end.
Definition pressure_face (m : pmesh) (s : flow) (ap : Z -> Q) (H : Z -> coord) (c f : Z) (q : pressure_state) : pressure_state :=
  let n := pm_normal m c f in
  match neighbor m c f with
  | Some (Some d) =>
    let k := conduct m ap c f (Some d) in let F := open_flux m ap H c f (Some d) in
    PS (addA (addA (q_A q) c c (- k)) c d k) (addb (q_b q) c (- F)) (upd (q_flux q) f F) (q_velf q)
  | Some None => q
  | None =>
    let k := conduct m ap c f None in let F := open_flux m ap H c f None in
    let out := vscale (- F / pm_area m c f) n in
    match pf_type (pm_face m f) with
    | BT_INLET_FLOW => PS (q_A q) (addb (q_b q) c (- q_flux q f)) (upd (q_flux q) f (- dot (q_velf q f) n * pm_area m c f)) (q_velf q)
    | BT_INLET_PRESSURE =>
      PS (addA (q_A q) c c (- k)) (addb (addb (q_b q) c (- k * s_pf s f)) c (- F)) (upd (q_flux q) f F) (upd (q_velf q) f out)
    | BT_OUTLET => PS (addA (q_A q) c c (- k)) (addb (q_b q) c (- F)) (upd (q_flux q) f F) (upd (q_velf q) f out)
    | BT_WALL_NO_SLIP | BT_OTHER => q
    end
  end.
Definition pressure (m : pmesh) (s : flow) (ap : Z -> Q) (H : Z -> coord) : pressure_state :=
  each_face m (pressure_face m s ap H) (PS (fun _ _ => 0) (fun _ => 0) (s_flux s) (s_velf s)).
(** 506-571, correctFlux: flux and m_pf. *)
Definition correct_face (m : pmesh) (ap : Z -> Q) (p : Z -> Q) (c f : Z) (st : (Z -> Q) * (Z -> Q)) : (Z -> Q) * (Z -> Q) :=
  let '(flux, pf) := st in
  match neighbor m c f with
  | Some (Some d) => if (pf_owner (pm_face m f) =? c)%Z then (upd flux f (flux f - conduct m ap c f (Some d) * (p d - p c)), pf) else st
  | Some None => st
  | None =>
    let k := conduct m ap c f None in
    match pf_type (pm_face m f) with
    | BT_WALL_NO_SLIP => (upd flux f 0, upd pf f (p c))
    | BT_INLET_FLOW => (flux, upd pf f (p c))
    | BT_INLET_PRESSURE => (upd flux f (flux f + k * (pf f - p c)), pf)
    | BT_OUTLET => (upd flux f (flux f + k * p c), upd pf f 0)
    | BT_OTHER => st
    end
  end.
Definition correct_flux (m : pmesh) (ap : Z -> Q) (p : Z -> Q) (flux pf : Z -> Q) : (Z -> Q) * (Z -> Q) := each_face m (correct_face m ap p) (flux, pf).
(** 574-588, correctVelocityField. *)
Definition correct_velocity (m : pmesh) (ap : Z -> Q) (H : Z -> coord) (p pf : Z -> Q) (c : Z) : coord :=
  vscale (/ ap c) (vsub (H c) (gradient m p pf c)).
(** 591-619, correctPressureField: the least pressure is subtracted from cells and faces. *)
Definition least (m : pmesh) (p : Z -> Q) : Q := match pm_cells m with [] => 0 | c :: r => fold_left (fun a d => Qmin a (p d)) r (p c) end.
(** 622-635, iterate. [solve_u] is BiCGSTAB, [solve_p] conjugate gradients. Values at ids outside the mesh are of no consequence. *)
Definition iterate (m : pmesh) (solve_u solve_p : solver) (dt : Q) (s : flow) : flow :=
  let '(A, b) := momentum m dt s in
  let H := predicted m s A b (solve3 solve_u A b) in let ap := fun c => A c c in
  let q := pressure m s ap H in
  let p := solve_p (q_A q) (q_b q) in
  let '(flux, pf) := correct_flux m ap p (q_flux q) (s_pf s) in
  let vel := correct_velocity m ap H p pf in
  let low := least m p in
  Flow vel (q_velf q) (fun c => p c - low) (fun f => pf f - low) flux (s_dens s) (s_visc s) (s_g s).
(** 638-659, checkMassConservationCell. *)
Definition mass_error (m : pmesh) (flux : Z -> Q) (c : Z) : Q := qsum (pm_of m c) (seen m flux c).

(** ** FvmVofSolver_Imp.hpp *)
(** 333-342, updateProperties: density or viscosity of a mixture. *)
Definition mixture (k0 k1 : Q) (s : Z -> Q) (c : Z) : Q := k0 * (1 - s c) + k1 * s c.
Definition clamp (x : Q) : Q := Qmin (Qmax x 0) 1.
(** 345-416, calculateGammaField: assembly. [s] is the current and [s0] the previous fraction, [sf] the given fraction on faces. *)
Definition gamma_face (m : pmesh) (flux beta s sf : Z -> Q) (c f : Z) (st : matrix * (Z -> Q)) : matrix * (Z -> Q) :=
  let '(A, b) := st in
  let F := seen m flux c f in
  match neighbor m c f with
  | Some (Some d) =>
    let w := if Qlt_le_dec F 0 then beta f else 1 - beta f in
    (addA (addA A c c ((1 # 2) * (1 - w) * F)) c d ((1 # 2) * w * F),
     addb (addb b c (- (1 # 2) * (1 - w) * F * s c)) c (- (1 # 2) * w * F * s d))
  | Some None => st
  | None => (A, addb b c (- (1) * F * sf f))
  end.
Definition gamma_cell (m : pmesh) (dt : Q) (flux beta s s0 sf : Z -> Q) (st : matrix * (Z -> Q)) (c : Z) : matrix * (Z -> Q) :=
  let '(A, b) := fold_left (fun st f => gamma_face m flux beta s sf c f st) (pm_of m c) st in
  if Qlt_le_dec 0 dt then (addA A c c (pm_volume m c / dt), addb b c (pm_volume m c / dt * s0 c)) else (A, b).
Definition gamma_system (m : pmesh) (dt : Q) (flux beta s s0 sf : Z -> Q) : matrix * (Z -> Q) :=
  fold_left (gamma_cell m dt flux beta s s0 sf) (pm_cells m) (fun _ _ => 0, fun _ => 0).
(** 419-429: solved and clamped. *)
Definition gamma_field (m : pmesh) (solve : solver) (dt : Q) (flux beta s s0 sf : Z -> Q) : Z -> Q :=
  let '(A, b) := gamma_system m dt flux beta s s0 sf in fun c => clamp (solve A b c).
(** 91-134, calculateCourant for one cell. *)
Definition courant (m : pmesh) (dt : Q) (interface : bool) (flux s : Z -> Q) (c : Z) : Q :=
  let cs := if interface then let x := clamp (s c) in (1 - x) * (1 - x) * x * x * 16 else 1 in
  qsum (pm_of m c) (fun f => cs * Qmax (- seen m flux c f * pm_area m c f * dt / pm_volume m c) 0).
(** 191-233, predictBeta for one face with a neighbour: fractions of acceptor and donor, gradient times normal times distance, product of the lengths, Courant
    number of the donor; [cos2 x] is cos(2 acos x). *)
Definition predict_beta (cos2 : Q -> Q) (tol sa sd dt_ l Co : Q) : Q :=
  let su := clamp (sa - 2 * dt_) in
  let Cod := Qmin Co 1 in
  if Qlt_le_dec tol (Qabs (sa - su)) then
    let sdn := (sd - su) / (sa - su) in
    let inside := (Qle_bool 0 sdn && Qle_bool sdn 1)%bool in
    let cbc := if (inside && negb (Qle_bool (Qabs Cod) tol))%bool then Qmin 1 (sdn / Cod) else sdn in
    let uq := if inside then Qmin ((8 * Cod * sdn + (1 - Cod) * (6 * sdn + 3)) / 8) cbc else sdn in
    let ang := if Qlt_le_dec tol (Qabs l) then Qabs (dt_ / l) else Qabs (dt_ / tol) in
    let ang := if Qlt_le_dec 1 ang then 1 else ang in
    let qj := Qmin (2 * (1 # 2) * (cos2 ang + 1)) 1 in
    let sjn := qj * cbc + (1 - qj) * uq in
    if Qlt_le_dec tol (Qabs (1 - sdn)) then clamp ((sjn - sdn) / (1 - sdn)) else 1
  else 1.
(** 253-328, correctBeta for one face: [Cj] is the clamped Courant number, [ds] the difference of the mean fractions, [sd] the donor fraction; [flows] is flux != 0
    with a neighbour. [eps] is std::numeric_limits::epsilon. *)
Definition correct_beta (tol eps beta Cj ds sd : Q) (flows : bool) : Q :=
  if Qlt_le_dec beta (1 # 100) then beta else
  let c := if flows then
    let low := Qmax (- sd) 0 in
    let c := if Qlt_le_dec sd 0 then
        if Qlt_le_dec tol low then if Qlt_le_dec tol Cj then if Qlt_le_dec low ds then Qmin (low * (2 + Cj - 2 * Cj * beta) / (2 * Cj * (ds - low))) beta else 0 else 0 else 0 else 0 in
    let high := Qmax (sd - 1) 0 in
    if Qlt_le_dec 1 sd then
        if Qlt_le_dec eps high then if Qlt_le_dec eps Cj then if Qlt_le_dec ds (- high) then Qmin (high * (2 + Cj - 2 * Cj * beta) / (2 * Cj * (- ds - high))) beta else c else c else c else c
    else 0 in
  Qmax (beta - c) 0.
