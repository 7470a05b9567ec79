(** Finite differences (pde/fdm/generic/FdmGenericOperators_Imp.hpp; pde/fdm/thermal/FdmThermalOperators_Imp.hpp has the
    same ddt and laplacian), function by function. [n] is nbNodes(), [dx] the spacing of the mesh, [u] the field,
    [fixed] its uFixed. Reals are rationals; dx = 0 would be a division by zero (in Q: 1/0 = 0), the theorems exclude it. *)
From Coq Require Import QArith ZArith List Lia Lqa Bool.
From Verif Require Import Prelude Lin_Sum Lin_Model.
Import ListNotations.
Open Scope Q_scope.

(** aField.uFixed[i] (for keys that exist). *)
Definition fixed_at (fixed : values) (i : nat) : option Q :=
  match find (fun iv => Nat.eqb (fst iv) i) fixed with Some iv => Some (snd iv) | None => None end.

(** coeffRef(i, j) += x, coeffRef(i, j) = x and vectorB[i] += x; Eigen's preconditions are checked. *)
Definition addA (s : sys) (i j : nat) (x : Q) : outcome sys :=
  if Nat.ltb i (s_dim s) && Nat.ltb j (s_dim s) then Ok (Sys (s_type s) (s_dim s) (upd2 (s_A s) i j (s_A s i j + x)) (s_b s)) else UB.
Definition setA (s : sys) (i j : nat) (x : Q) : outcome sys :=
  if Nat.ltb i (s_dim s) && Nat.ltb j (s_dim s) then Ok (Sys (s_type s) (s_dim s) (upd2 (s_A s) i j x) (s_b s)) else UB.
Definition addB (s : sys) (i : nat) (x : Q) : outcome sys :=
  if Nat.ltb i (s_dim s) then Ok (Sys (s_type s) (s_dim s) (s_A s) (upd1 (s_b s) i (s_b s i + x))) else UB.

(** Common start of all operators (lines 25-41): zero matrix and vector; isFixed[key] = true for all keys. *)
Definition fdm_start (n : nat) (fixed : values) : outcome sys :=
  if forallb (fun iv => Nat.ltb (fst iv) n) fixed then Ok (Sys MT_SPARSE n (fun _ _ => 0) (fun _ => 0)) else UB.

(** ddt, lines 43-51. *)
Definition ddt_step (u : vec) (fixed : values) (s : sys) (ii : nat) : outcome sys :=
  s <- addA s ii ii 1 ;;
  addB s ii (match fixed_at fixed ii with Some v => v | None => u ii end).
Definition fdm_ddt (n : nat) (u : vec) (fixed : values) : outcome sys :=
  s <- fdm_start n fixed ;; foldM (ddt_step u fixed) (seq 0 n) s.

(** laplacian, lines 82-135. *)
Definition lap_step (dx : Q) (n : nat) (fixed : values) (s : sys) (ii : nat) : outcome sys :=
  let h := 1 / (dx * dx) in
  if Nat.eqb ii 0 then
    match fixed_at fixed ii with
    | Some v => s <- addA s ii ii (- (2) * h) ;; s <- addA s ii (ii + 1) h ;; addB s ii (- h * v)
    | None => s <- addA s ii ii (- h) ;; addA s ii (ii + 1) h
    end
  else if Nat.ltb ii (n - 1) then
    s <- addA s ii (ii - 1) h ;; s <- addA s ii ii (- (2) * h) ;; addA s ii (ii + 1) h
  else if Nat.eqb ii (n - 1) then
    match fixed_at fixed ii with
    | Some v => s <- addA s ii (ii - 1) h ;; s <- addA s ii ii (- (2) * h) ;; addB s ii (- h * v)
    | None => s <- addA s ii (ii - 1) h ;; addA s ii ii (- h)
    end
  else Ok s.
Definition fdm_laplacian (dx : Q) (n : nat) (fixed : values) : outcome sys :=
  s <- fdm_start n fixed ;; foldM (lap_step dx n fixed) (seq 0 n) s.

(** divergence (generic), lines 164-201. u(ip) is an unchecked read of the field, of size n. *)
Definition div_step (dx : Q) (n : nat) (u : vec) (fixed : values) (s : sys) (ii : nat) : outcome sys :=
  if Nat.eqb ii 0 then
    s <- setA s ii ii 1 ;;
    match fixed_at fixed ii with
    | Some v => if Nat.ltb (ii + 1) n then addB s ii (- (u (ii + 1)%nat - v) / dx) else UB
    | None => Ok s
    end
  else if Nat.ltb ii (n - 1) then
    s <- addA s ii (ii - 1) (- (1) / (2 * dx)) ;; addA s ii (ii + 1) (1 / (2 * dx))
  else if Nat.eqb ii (n - 1) then
    s <- setA s ii ii 1 ;;
    match fixed_at fixed ii with
    | Some v => addB s ii (- (v - u (ii - 1)%nat) / dx)
    | None => Ok s
    end
  else Ok s.
Definition fdm_divergence (dx : Q) (n : nat) (u : vec) (fixed : values) : outcome sys :=
  s <- fdm_start n fixed ;; foldM (div_step dx n u fixed) (seq 0 n) s.

(** The equation  (1/dt) ddt(u) - alpha laplacian(u) = 0  as users write it (examples/heat1d/MainWindow.cpp,
    examples/fdmheat/main.cpp): c = 1/dt. *)
Definition heat_system (c alpha dx : Q) (n : nat) (u : vec) (fixed : values) : outcome sys :=
  d <- fdm_ddt n u fixed ;; l <- fdm_laplacian dx n fixed ;; s <- sys_sub (sys_scale c d) (sys_scale alpha l) ;; Ok (assign_real s 0).
