(** Smoothed particle hydrodynamics: the kernels of trunk/src/sph and the particle solver of
    trunk/src/solvers/SphParticles_Imp.hpp. Real arithmetic is exact (type R), std::acos(-1.0) is PI. *)
From Coq Require Import Reals ZArith List.
Import ListNotations.
Open Scope R_scope.

(** CGeoVector: three components. *)
Record vec := Vec { vx : R; vy : R; vz : R }.
Definition vsub (a b : vec) : vec := Vec (vx a - vx b) (vy a - vy b) (vz a - vz b).
Definition vscale (c : R) (a : vec) : vec := Vec (c * vx a) (c * vy a) (c * vz a).
(** r.norm() (Eigen). *)
Definition norm (a : vec) : R := sqrt (vx a * vx a + vy a * vy a + vz a * vz a).

(** The choice of m_C by dimension, the same in all three methods of each kernel (e.g. SphCubicSpline_Imp.hpp 51-56): in any other
    dimension m_C keeps its value [old]. *)
Definition by_dim (dim : Z) (old c1 c2 c3 : R) : R :=
  if (dim =? 1)%Z then c1 else if (dim =? 2)%Z then c2 else if (dim =? 3)%Z then c3 else old.

(** A kernel: W, gradientW and laplacianW; arguments m_dim, m_C (before the call), r, h (and the tolerance). *)
Record kernel := Kernel {
  k_W : Z -> R -> vec -> R -> R;
  k_grad : Z -> R -> vec -> R -> R -> vec;
  k_lap : Z -> R -> vec -> R -> R }.

(** if (q < aTolerance) q = aTolerance (e.g. SphCubicSpline_Imp.hpp 69-70). *)
Definition at_least (tol q : R) : R := if Rlt_dec q tol then tol else q.

(** SphCubicSpline_Imp.hpp 51-56. *)
Definition cubic_C dim old h := by_dim dim old (2 / (3 * h)) (10 / (7 * PI * h * h)) (1 / (PI * h * h * h)).
(** SphCubicSpline_Imp.hpp 43-62. *)
Definition cubic_W (dim : Z) (old : R) (r : vec) (h : R) : R :=
  let q := norm r / h in
  if Rlt_dec 2 q then 0 else
  let C := cubic_C dim old h in
  if Rle_dec 0 q then if Rlt_dec q 1 then C * ((2 - q) * (2 - q) * (2 - q) - 4 * (1 - q) * (1 - q) * (1 - q)) else C * (2 - q) * (2 - q) * (2 - q)
  else C * (2 - q) * (2 - q) * (2 - q).
(** SphCubicSpline_Imp.hpp 64-86. *)
Definition cubic_grad (dim : Z) (old : R) (r : vec) (h tol : R) : vec :=
  let q := at_least tol (norm r / h) in
  if Rlt_dec 2 q then Vec 0 0 0 else
  let C := cubic_C dim old h in
  if Rle_dec tol q then if Rlt_dec q 1 then vscale (C * (3 * q * (1 - 3 / 4 * q)) / q) r else vscale (C * (3 / 4) * (2 - q) * (2 - q) / q) r
  else vscale (C * (3 / 4) * (2 - q) * (2 - q) / q) r.
(** SphCubicSpline_Imp.hpp 88-117. *)
Definition cubic_lap (dim : Z) (old : R) (r : vec) (h : R) : R :=
  let q := norm r / h in
  if Rlt_dec 2 q then 0 else
  let C := cubic_C dim old h in
  let inner := (1 - 3 / 2 * q * q * (1 - 1 / 2 * q), - 3 * q * (1 - 3 / 4 * q)) in
  let outer := (1 / 4 * (2 - q) * (2 - q) * (2 - q), - (3 / 4) * (2 - q) * (2 - q)) in
  let '(w, dw) := if Rle_dec 0 q then if Rlt_dec q 1 then inner else outer else outer in
  C * h * (- dw * q + w * IZR dim).
Definition cubic : kernel := Kernel cubic_W cubic_grad cubic_lap.

(** SphQuintic_Imp.hpp 51-56. *)
Definition quintic_C dim old h := by_dim dim old (3 / (2 * h)) (7 / (4 * PI * h * h)) (21 / (16 * PI * h * h * h)).
(** SphQuintic_Imp.hpp 43-59. *)
Definition quintic_W (dim : Z) (old : R) (r : vec) (h : R) : R :=
  let q := norm r / h in
  if Rlt_dec 2 q then 0 else quintic_C dim old h * ((1 - 1 / 2 * q) ^ 4 * (2 * q + 1)).
(** SphQuintic_Imp.hpp 61-80. *)
Definition quintic_grad (dim : Z) (old : R) (r : vec) (h tol : R) : vec :=
  let q := at_least tol (norm r / h) in
  if Rlt_dec 2 q then Vec 0 0 0 else
  vscale (- quintic_C dim old h * (2 * (1 - 1 / 2 * q) ^ 4 - 2 * (1 - 1 / 2 * q) ^ 3 * (2 * q + 1)) / q) r.
(** SphQuintic_Imp.hpp 82-101. *)
Definition quintic_lap (dim : Z) (old : R) (r : vec) (h : R) : R :=
  let q := norm r / h in
  if Rlt_dec 2 q then 0 else
  let w := (1 - 1 / 2 * q) ^ 4 * (2 * q + 1) in
  let dw := 2 * (1 - 1 / 2 * q) ^ 4 - 2 * (1 - 1 / 2 * q) ^ 3 * (2 * q + 1) in
  quintic_C dim old h * h * (- dw * q + w * IZR dim).
Definition quintic : kernel := Kernel quintic_W quintic_grad quintic_lap.

(** SphGaussian_Imp.hpp 51-56. *)
Definition gaussian_C dim old h := by_dim dim old (1 / (sqrt PI * h)) (1 / (PI * h * h)) (1 / (PI * PI * PI * h * h * h)).
(** SphGaussian_Imp.hpp 43-59. *)
Definition gaussian_W (dim : Z) (old : R) (r : vec) (h : R) : R :=
  let q := norm r / h in
  if Rlt_dec 3 q then 0 else gaussian_C dim old h * exp (- q * q).
(** SphGaussian_Imp.hpp 61-80. *)
Definition gaussian_grad (dim : Z) (old : R) (r : vec) (h tol : R) : vec :=
  let q := at_least tol (norm r / h) in
  if Rlt_dec 3 q then Vec 0 0 0 else vscale (gaussian_C dim old h * 2 * exp (- q * q)) r.
(** SphGaussian_Imp.hpp 82-101. *)
Definition gaussian_lap (dim : Z) (old : R) (r : vec) (h : R) : R :=
  let q := norm r / h in
  if Rlt_dec 3 q then 0 else
  let w := exp (- q * q) in
  let dw := - 2 * q * w in
  gaussian_C dim old h * h * (- dw * q + w * IZR dim).
Definition gaussian : kernel := Kernel gaussian_W gaussian_grad gaussian_lap.

(** SphConvex_Imp.hpp 51-56. *)
Definition convex_C dim old h := by_dim dim old (5 / (24 * h)) (15 / (64 * PI * h * h)) (21 / (128 * PI * h * h * h)).
(** pow(x, 1.5) for x >= 0. *)
Definition pow15 (x : R) : R := x * sqrt x.
(** SphConvex_Imp.hpp 43-59. *)
Definition convex_W (dim : Z) (old : R) (r : vec) (h : R) : R :=
  let q := norm r / h in
  if Rlt_dec 2 q then 0 else convex_C dim old h * (2 - q) ^ 3 * (1 / 2 * q + 1).
(** SphConvex_Imp.hpp 61-80. *)
Definition convex_grad (dim : Z) (old : R) (r : vec) (h tol : R) : vec :=
  let q := at_least tol (norm r / h) in
  if Rlt_dec 2 q then Vec 0 0 0 else
  vscale (- convex_C dim old h * (pow15 (2 - q) - 3 * (2 - q) * (2 - q) * (1 / 2 * q + 1)) / q) r.
(** SphConvex_Imp.hpp 82-101. *)
Definition convex_lap (dim : Z) (old : R) (r : vec) (h : R) : R :=
  let q := norm r / h in
  if Rlt_dec 2 q then 0 else
  let w := (2 - q) ^ 3 * (1 / 2 * q + 1) in
  let dw := pow15 (2 - q) - 3 * (2 - q) * (2 - q) * (1 / 2 * q + 1) in
  convex_C dim old h * h * (- dw * q + w * IZR dim).
Definition convex : kernel := Kernel convex_W convex_grad convex_lap.

(** SphSpiky_Imp.hpp 55-60. *)
Definition spiky_C dim old h := by_dim dim old (4 / h) (10 / (PI * h * h)) (15 / (PI * h * h * h)).
(** SphSpiky_Imp.hpp 46-63. *)
Definition spiky_W (dim : Z) (old : R) (r : vec) (h : R) : R :=
  let q := norm r / h in
  if Rlt_dec 1 q then 0 else spiky_C dim old h * (1 - q) ^ 3.
(** SphSpiky_Imp.hpp 65-85. *)
Definition spiky_grad (dim : Z) (old : R) (r : vec) (h tol : R) : vec :=
  let q := at_least tol (norm r / h) in
  if Rlt_dec 1 q then Vec 0 0 0 else vscale (spiky_C dim old h * 3 * (1 - q) ^ 2 / q) r.
(** SphSpiky_Imp.hpp 87-107. *)
Definition spiky_lap (dim : Z) (old : R) (r : vec) (h : R) : R :=
  let q := norm r / h in
  if Rlt_dec 1 q then 0 else
  let w := (1 - q) ^ 3 in
  let dw := - 3 * (1 - q) ^ 2 in
  spiky_C dim old h * h * (- dw * q + w * IZR dim).
Definition spiky : kernel := Kernel spiky_W spiky_grad spiky_lap.

(** ** Particles (trunk/src/solvers/SphParticles_Imp.hpp) *)
(** A particle (SphParticles.hpp): mass, density, conductivity, velocity; with the node that carries it and the value of the field there.
    Particles are numbered as the nodes of the mesh; the ids the code goes through are those of the mesh (Mesh_Model). *)
Record particle := Particle { p_mass : R; p_density : R; p_cond : R; p_vel : vec; p_pos : vec; p_u : R }.
Definition state := list particle.
(** Parameters of the solver: m_h, m_dt, m_bCyclic, the box m_boundary, the kernel (with its dimension and m_C), and the prescribed
    values uFixed of the field. *)
Record params := Params { s_h : R; s_dt : R; s_cyclic : bool; s_min : vec; s_max : vec; s_kernel : kernel; s_dim : Z; s_C : R; s_fixed : nat -> option R }.
Definition origin_particle : particle := Particle 0 0 0 (Vec 0 0 0) (Vec 0 0 0) 0.
Definition part (s : state) (i : nat) : particle := nth i s origin_particle.

(** SphParticles_Imp.hpp 86-117, calculateDensity: [near i] are the particles found around particle i (CGeoHashGrid::find, a parameter). *)
Definition density (p : params) (near : nat -> list nat) (s : state) (i : nat) : R :=
  fold_left (fun rho j => rho + p_mass (part s j) * k_W (s_kernel p) (s_dim p) (s_C p) (vsub (p_pos (part s j)) (p_pos (part s i))) (s_h p)) (near i) 0.
Definition set_density (rho : R) (x : particle) : particle := Particle (p_mass x) rho (p_cond x) (p_vel x) (p_pos x) (p_u x).
Definition calculate_density (p : params) (near : nat -> list nat) (s : state) : state :=
  map (fun i => set_density (density p near s i) (part s i)) (seq 0 (length s)).

(** SphParticles_Imp.hpp 131-147: one coordinate at the ends of the box. *)
Definition wrap (lo hi x : R) : R := if Rle_dec hi x then lo else if Rle_dec x lo then hi else x.
(** SphParticles_Imp.hpp 118-148, advectParticles: y moves with the z velocity and z with the y velocity. *)
Definition advect (p : params) (x : particle) : particle :=
  let pos := p_pos x in let v := p_vel x in
  let moved := Vec (vx pos + vx v * s_dt p) (vy pos + vz v * s_dt p) (vz pos + vy v * s_dt p) in
  let pos' := if s_cyclic p then Vec (wrap (vx (s_min p)) (vx (s_max p)) (vx moved)) (wrap (vy (s_min p)) (vy (s_max p)) (vy moved)) (wrap (vz (s_min p)) (vz (s_max p)) (vz moved)) else moved in
  Particle (p_mass x) (p_density x) (p_cond x) v pos' (p_u x).
Definition advect_particles (p : params) (s : state) : state := map (advect p) s.

Definition set_u (u : R) (x : particle) : particle := Particle (p_mass x) (p_density x) (p_cond x) (p_vel x) (p_pos x) u.
Definition upd (s : state) (i : nat) (x : particle) : state := firstn i s ++ x :: skipn (S i) s.
(** SphParticles_Imp.hpp 156-185: the new value of one particle. *)
Definition diffuse_value (p : params) (near : nat -> list nat) (s : state) (i : nat) : R :=
  match s_fixed p i with
  | Some v => v
  | None =>
      let fd := fold_left (fun fd j => fd + (p_u (part s j) - p_u (part s i)) / p_density (part s j) * k_lap (s_kernel p) (s_dim p) (s_C p) (vsub (p_pos (part s j)) (p_pos (part s i))) (s_h p)) (near i) 0 in
      p_u (part s i) + p_cond (part s i) * fd * s_dt p
  end.
(** SphParticles_Imp.hpp 150-187, addDiffusion: the values are updated in place, one particle after the other. *)
Definition add_diffusion (p : params) (near : nat -> list nat) (s : state) : state :=
  fold_left (fun s i => upd s i (set_u (diffuse_value p near s i) (part s i))) (seq 0 (length s)) s.

(** SphParticles_Imp.hpp 189-200, solve: the neighbours found before and after the particles have moved. *)
Definition solve (p : params) (near near' : nat -> list nat) (s : state) : state :=
  add_diffusion p near' (advect_particles p (calculate_density p near s)).
