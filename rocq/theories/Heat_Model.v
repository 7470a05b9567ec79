(** Temperature on control volumes: solvers/FvmTemperatureSolver_Imp.hpp (paths relative to /repo/trunk/src), on top of the flow solver of Piso_Model, with its
    simplifications: exact rationals, the mesh seen through its accessors, maps from ids to numbers as total functions (reading a property before
    setMaterialProperties would throw), rows named by cell id, the linear solver an argument. *)
From Coq Require Import QArith ZArith List Bool.
From Verif Require Import Prelude Vec Piso_Model.
Import ListNotations.
Open Scope Q_scope.

(** FvmTemperatureSolver.hpp 27-34: properties of cells and m_bthcond; the constructor (18-36) sets m_bthcond to 1, no function changes it. *)
Record thermal : Type := Thermal { h_dens : Z -> Q; h_cond : Z -> Q; h_heat : Z -> Q; h_bcond : Q }.
(** 51-63, setMaterialProperties: every cell gets the same. *)
Definition setMaterialProperties (dens cond heat : Q) : thermal := Thermal (fun _ => dens) (fun _ => cond) (fun _ => heat) 1.
(** 66-77, setBoundaryTemperature. *)
Definition setBoundaryTemperature (l : list Z) (T : Q) (Tf : Z -> Q) : Z -> Q := fold_left (fun g f => upd g f T) l Tf.

(** The local variables dens, thcond and spheat of 97-100, which live through the loop over the faces of a cell. *)
Record local : Type := Local { l_dens : Q; l_cond : Q; l_heat : Q }.
Definition load (h : thermal) (c : Z) : local := Local (h_dens h c) (h_cond h c) (h_heat h c).
(** 102-170: one face of one cell. The averages are assigned to the local variables (127-132 and 152-153), so they are met by the faces that follow. *)
Definition heat_face (m : pmesh) (h : thermal) (flux Tf : Z -> Q) (c : Z) (st : (matrix * (Z -> Q)) * local) (f : Z) : (matrix * (Z -> Q)) * local :=
  let '((A, b), v) := st in
  let F := seen m flux c f in
  match neighbor m c f with
  | Some (Some d) =>
    let area := (pm_area m c f + pm_area m d f) * (1 # 2) in let dist := pm_dist m c f + pm_dist m d f in
    let v := Local ((l_dens v + h_dens h d) * (1 # 2)) ((l_cond v + h_cond h d) * (1 # 2)) ((l_heat v + h_heat h d) * (1 # 2)) in
    let A := addA A c c (l_cond v * area / dist) in let A := addA A c d (- l_cond v * area / dist) in
    let xsi := if Qlt_le_dec 0 F then 0 else 1 in
    let A := addA A c c ((1 - xsi) * l_dens v * l_heat v * F) in ((addA A c d (xsi * l_dens v * l_heat v * F), b), v)
  | Some None => st
  | None =>
    let area := pm_area m c f in let dist := pm_dist m c f in
    let v := Local (l_dens v) ((l_cond v + h_bcond h) * (1 # 2)) (l_heat v) in
    let A := addA A c c (l_cond v * area / dist) in let b := addb b c (l_cond v * area / dist / pm_volume m c * Tf f) in
    let xsi := if Qlt_le_dec 0 F then 0 else 1 in
    ((addA A c c ((1 - xsi) * l_dens v * l_heat v * F), addb b c (- xsi * l_dens v * l_heat v * F * Tf f)), v)
  end.
(** 89-178: one cell. The unsteady term, too, uses the local variables as the last face left them. *)
Definition heat_cell (m : pmesh) (dt : Q) (h : thermal) (flux Tf T0 : Z -> Q) (st : matrix * (Z -> Q)) (c : Z) : matrix * (Z -> Q) :=
  let '((A, b), v) := fold_left (heat_face m h flux Tf c) (pm_of m c) (st, load h c) in
  if Qlt_le_dec 0 dt then
    (addA A c c (pm_volume m c * l_heat v * l_dens v / dt), addb b c (pm_volume m c * l_heat v * l_dens v / dt * T0 c))
  else (A, b).
(** 79-180, calculateTemperatureField: assembly. *)
Definition heat_system (m : pmesh) (dt : Q) (h : thermal) (flux Tf T0 : Z -> Q) : matrix * (Z -> Q) :=
  fold_left (heat_cell m dt h flux Tf T0) (pm_cells m) (fun _ _ => 0, fun _ => 0).
(** 182-193: solved (BiCGSTAB). *)
Definition temperature (m : pmesh) (solve : solver) (dt : Q) (h : thermal) (flux Tf T0 : Z -> Q) : Z -> Q :=
  let '(A, b) := heat_system m dt h flux Tf T0 in solve A b.
(** 42-48 and 196-202, iterate: the flow solver stores the present temperature as the previous one, advances the flow, and the temperature follows with the new fluxes. *)
Definition heat_iterate (m : pmesh) (su sp st : solver) (dt : Q) (h : thermal) (Tf : Z -> Q) (s : flow * (Z -> Q)) : flow * (Z -> Q) :=
  let s' := iterate m su sp dt (fst s) in (s', temperature m st dt h (s_flux s') Tf (snd s)).
