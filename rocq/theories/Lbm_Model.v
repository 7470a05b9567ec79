(** The lattice-Boltzmann solver (solvers/LbmLidDrivenSolver_Imp.hpp, CLbmLidDrivenSolver<Real, 2, 9>), function by function.
    Paths are relative to /repo/trunk/src. *)
From Coq Require Import QArith ZArith List Bool.
From Verif Require Import Prelude Lin_Sum.
Import ListNotations.
Open Scope Q_scope.

(** LbmLidDrivenSolver_Imp.hpp 27-35: m_op; 37-71: m_e and m_w, as tables over the nine speeds. *)
Definition op (k : nat) : nat := nth k [0; 3; 4; 1; 2; 7; 8; 5; 6]%nat 0%nat.
Definition ex (k : nat) : Z := nth k [0; 1; 0; -1; 0; 1; -1; -1; 1]%Z 0%Z.
Definition ey (k : nat) : Z := nth k [0; 0; 1; 0; -1; 1; 1; -1; -1]%Z 0%Z.
Definition wt (k : nat) : Q := nth k [4 # 9; 1 # 9; 1 # 9; 1 # 9; 1 # 9; 1 # 36; 1 # 36; 1 # 36; 1 # 36] 0.

(** LbmLidDrivenSolver.hpp 31-44: the arrays, as functions of the node and the speed. m_u0 is written but never read and is
    left out; m_nz is not used. *)
Record lbm : Type := Lbm {
  l_B : Z -> Z -> Z;
  l_rho : Z -> Z -> Q;
  l_ux : Z -> Z -> Q;
  l_uy : Z -> Z -> Q;
  l_f : Z -> Z -> nat -> Q;
  l_F : Z -> Z -> nat -> Q
}.

(** LbmLidDrivenSolver_Imp.hpp 73-78, 86-124: resizeMatrix fills with zeros. *)
Definition lbm_new : lbm := Lbm (fun _ _ => 0%Z) (fun _ _ => 0) (fun _ _ => 0) (fun _ _ => 0) (fun _ _ _ => 0) (fun _ _ _ => 0).

(** LbmLidDrivenSolver_Imp.hpp 126-133: feq2(). *)
Definition feq (k : nat) (rho ux uy : Q) : Q :=
  let eu := inject_Z (ex k) * ux + inject_Z (ey k) * uy in
  let uv := ux * ux + uy * uy in
  wt k * rho * (1 + 3 * eu + (9 # 2) * eu * eu - (3 # 2) * uv).

(** LbmLidDrivenSolver_Imp.hpp 135-209: evolve(). Every loop body writes only its own node and reads only what no other pass of the
    same loop writes, so the loops are given node by node. *)

(** 138-150: inside the frame the populations of the neighbours after relaxation. *)
Definition inner (nx ny i j : Z) : bool := (1 <=? i)%Z && (i <? nx)%Z && (1 <=? j)%Z && (j <? ny)%Z.
Definition relaxed (tau : Q) (s : lbm) (i j : Z) (k : nat) : Q :=
  l_f s i j k + (feq k (l_rho s i j) (l_ux s i j) (l_uy s i j) - l_f s i j k) / tau.
Definition streamed (nx ny : Z) (tau : Q) (s : lbm) (i j : Z) (k : nat) : Q :=
  if inner nx ny i j then relaxed tau s (i - ex k) (j - ey k) k else l_F s i j k.

(** 155-168: at nodes with boundary flag 1 the populations are reversed. *)
Definition reflected (nx ny : Z) (tau : Q) (s : lbm) (i j : Z) (k : nat) : Q :=
  if (l_B s i j =? 1)%Z then streamed nx ny tau s i j (op k) else streamed nx ny tau s i j k.

(** 171-196: macroscopic quantities inside the frame. *)
Definition evolve_f (nx ny : Z) (tau : Q) (s : lbm) (i j : Z) (k : nat) : Q :=
  if inner nx ny i j then reflected nx ny tau s i j k else l_f s i j k.
Definition evolve_rho (nx ny : Z) (tau : Q) (s : lbm) (i j : Z) : Q :=
  if inner nx ny i j then sum 9 (reflected nx ny tau s i j) else l_rho s i j.
Definition evolve_u (e : nat -> Z) (u : Z -> Z -> Q) (nx ny : Z) (tau : Q) (s : lbm) (i j : Z) : Q :=
  if inner nx ny i j then sum 9 (fun k => inject_Z (e k) * reflected nx ny tau s i j k) / evolve_rho nx ny tau s i j else u i j.

(** 198-208: the upper boundary, the row ny, from the row below; with ny = 0 the row below does not exist. *)
Definition evolve (nx ny : Z) (tau : Q) (s : lbm) : outcome lbm :=
  if (ny <? 1)%Z then UB else
  let f1 := evolve_f nx ny tau s in
  let r1 := evolve_rho nx ny tau s in
  let x1 := evolve_u ex (l_ux s) nx ny tau s in
  let y1 := evolve_u ey (l_uy s) nx ny tau s in
  let top (i j : Z) := (0 <=? i)%Z && (i <=? nx)%Z && (j =? ny)%Z in
  Ok (Lbm (l_B s)
          (fun i j => if top i j then r1 i (ny - 1)%Z else r1 i j)
          x1 y1
          (fun i j k => if top i j then feq k (r1 i (ny - 1)%Z) (x1 i ny) (y1 i ny) + f1 i (ny - 1)%Z k - feq k (r1 i (ny - 1)%Z) (x1 i (ny - 1)%Z) (y1 i (ny - 1)%Z) else f1 i j k)
          (reflected nx ny tau s)).

(** 211-239: the setters. *)
Definition at_node {A : Type} (g : Z -> Z -> A) (i j : Z) (x : A) : Z -> Z -> A := fun a b => if (a =? i)%Z && (b =? j)%Z then x else g a b.
Definition set_density (s : lbm) (i j : Z) (x : Q) : lbm := Lbm (l_B s) (at_node (l_rho s) i j x) (l_ux s) (l_uy s) (l_f s) (l_F s).
Definition set_velocity (s : lbm) (i j : Z) (d : bool) (x : Q) : lbm :=
  if d then Lbm (l_B s) (l_rho s) (l_ux s) (at_node (l_uy s) i j x) (l_f s) (l_F s)
  else Lbm (l_B s) (l_rho s) (at_node (l_ux s) i j x) (l_uy s) (l_f s) (l_F s).
Definition set_boundary (s : lbm) (i j : Z) (x : Z) : lbm := Lbm (at_node (l_B s) i j x) (l_rho s) (l_ux s) (l_uy s) (l_f s) (l_F s).

(** 241-256: init(): density 1, at rest, in equilibrium; flags are kept. *)
Definition init (s : lbm) : lbm :=
  Lbm (l_B s) (fun _ _ => 1) (fun _ _ => 0) (fun _ _ => 0) (fun _ _ k => feq k 1 0 0) (l_F s).

Fixpoint evolves (n : nat) (nx ny : Z) (tau : Q) (s : lbm) : outcome lbm :=
  match n with O => Ok s | S k => s' <- evolve nx ny tau s ;; evolves k nx ny tau s' end.
