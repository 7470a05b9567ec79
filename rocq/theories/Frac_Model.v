(** Model of the cutting of polyhedra at a given fraction of their volume: the second clip and the second cut of CGeoPolyhedron
    (geometry/GeoPolyhedron_Imp.hpp 416-572), with the planes of geometry/GeoPlane_Imp.hpp.
    Simplifications:
    - Reals are rationals; a division by zero (total volume zero) gives zero where the code gets an infinity or no number.
    - The volume of the polyhedron is computed from its polygons (the code takes a remembered one if there is one, see Memo_Model).
    - aNormalizedTolerance is never used by the code and left out. *)
From Coq Require Import QArith Qabs ZArith List Bool.
From Verif Require Import Prelude Vec ZMap Seg_Model Box_Model Poly_Model.
Import ListNotations.
Open Scope Q_scope.

(** 447-459: the interval of n.p over all vertices. *)
Definition frac_range (p : polyhedron) (n : coord) : Q * Q :=
  fold_left (fun ab v => (qmin (fst ab) (dot v n), qmax (snd ab) (dot v n))) (flat_map snd (ph_map p)) (real_max, - real_max).

(** The variables a, b, e, f, fa, fb, fc and mflag of 447-481. *)
Record bracket : Type := Bracket { k_a : Q; k_b : Q; k_e : Q; k_f : Q; k_fa : Q; k_fb : Q; k_fc : Q; k_mid : bool }.

(** 493-498: the interpolated guess. *)
Definition frac_guess (k : bracket) : Q :=
  let '(Bracket a b e _ fa fb fc _) := k in
  if negb (Qeq_bool fa fc) && negb (Qeq_bool fb fc)
  then a * fb * fc / (fa - fb) / (fa - fc) + b * fa * fc / (fb - fa) / (fb - fc) + e * fa * fb / (fc - fa) / (fc - fb)
  else b - fb * (b - a) / (fb - fa).

(** 500-515: the next place, and the new mflag. *)
Definition frac_next (tol : Q) (k : bracket) : Q * bool :=
  let '(Bracket a b e f _ _ _ mid) := k in
  let s := frac_guess k in let tmp := (3 * a + b) / 4 in
  if negb ((Qlt_bool tmp s && Qlt_bool s b) || (Qlt_bool s tmp && Qlt_bool b s))
     || (mid && Qle_bool (Qabs (b - e) * (1 # 2)) (Qabs (s - b)))
     || (negb mid && Qle_bool (Qabs (e - f) * (1 # 2)) (Qabs (s - b)))
     || (mid && Qlt_bool (Qabs (b - e)) tol)
     || (negb mid && Qlt_bool (Qabs (e - f)) tol)
  then ((a + b) * (1 # 2), true) else (s, false).

(** 523-548: the new interval, once the value [fs] at [s] is known. *)
Definition frac_update (k : bracket) (s fs : Q) (mid : bool) : bracket :=
  let '(Bracket a b e _ fa fb _ _) := k in
  let '(a1, b1, fa1, fb1) := if Qlt_bool (fa * fs) 0 then (a, s, fa, fs) else (s, b, fs, fb) in
  if Qlt_bool (Qabs fa1) (Qabs fb1) then Bracket b1 a1 b e fb1 fa1 fb mid else Bracket a1 b1 b e fa1 fb1 fb mid.

(** aPolyhedron, aNewPolygon, aPlane, vs. *)
Record cutting : Type := Cutting { c_part : polyhedron; c_newp : list coord; c_plane : plane; c_vs : Q }.

(** 485-549: the loop; [fuel] iterations are left and [i] are done. The last result is nIterations ([nmax] if there was no break). *)
Fixpoint frac_loop (p : polyhedron) (newid : Z) (req tol vt : Q) (nmax : Z) (fuel : nat) (i : Z) (k : bracket) (c : cutting) : cutting * Z :=
  match fuel with
  | O => (c, nmax)
  | S fuel' =>
    if Qeq_bool (k_fb k) 0 || Qle_bool (Qabs (k_fa k - k_fb k)) tol then (c, (i + 1)%Z) else
    let '(s, mid) := frac_next tol k in
    let h := Plane (p_normal (c_plane c)) s in
    let '(part, newp) := ph_clip p (c_newp c) newid h tol in
    let vs := ph_volume part in
    frac_loop p newid req tol vt nmax fuel' (i + 1)%Z (frac_update k s (vs / vt - req) mid) (Cutting part newp h vs)
  end.

(** What the second clip gives: the part, aNewPolygon, aPlane, volumeFractionAct, nIterations. *)
Record fraction : Type := Fraction { r_part : polyhedron; r_newp : list coord; r_plane : plane; r_act : Q; r_iterations : Z }.

(** 416-554. *)
Definition ph_frac_clip (p : polyhedron) (newp : list coord) (newid : Z) (h : plane) (req : Q) (nmax : Z) (tol : Q) : fraction :=
  if Qle_bool req 0 then Fraction ph_empty newp h 0 0 else
  if Qle_bool 1 req then Fraction (fold_left (fun q e => ph_add q (fst e) (snd e)) (ph_map p) ph_empty) newp h 1 0 else
  let '(a, b) := frac_range p (p_normal h) in
  let vt := ph_volume p in
  let '(c, it) := frac_loop p newid req tol vt nmax (Z.to_nat nmax) 0 (Bracket a b a real_max (0 - req) (1 - req) (0 - req) true) (Cutting ph_empty newp h 0) in
  Fraction (c_part c) (c_newp c) (c_plane c) (c_vs c / vt) it.

(** 563-572: the second cut: (returned, aNewPolyhedron). Line 567 assigns to the value returned by normal() (GeoPlane.hpp:31), not to the plane:
    the normal of aPlaneInv is that of a new plane, zero (GeoNormal.hpp:15). *)
Definition ph_frac_cut (p : polyhedron) (newp : list coord) (newid : Z) (h : plane) (req : Q) (nmax : Z) (tol : Q) : fraction * polyhedron :=
  let other := ph_frac_clip p newp newid (Plane vzero (p_d h)) (1 - req) nmax tol in
  (ph_frac_clip p (r_newp other) newid h req nmax tol, r_part other).
