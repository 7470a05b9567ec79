(** Analytical solutions (trunk/src/analytical/AnaTemperature_Imp.hpp, AnaFlow_Imp.hpp), function by function, over the real numbers: no rounding, std::acos(-1.0) is
    PI, sin, cos, sinh, exp, sqrt are the functions of the standard library. A division by zero or the root of a negative number, which leave an infinite or undefined
    Real, are [UB]. steadyStateHeatConvectionRadiation1D is in [radiation], with the search of Root_Model over rationals. *)
From Coq Require Import QArith Reals ZArith List.
From Verif Require Import Prelude Root_Model.
Import ListNotations.
Open Scope R_scope.

(** for (p = 0; p < n; p++) T += f(p), from T = 0. *)
Fixpoint series (n : nat) (f : nat -> R) : R := match n with O => 0 | S n => series n f + f n end.
(** 2 * p + 1 *)
Definition odd (p : nat) : R := 2 * INR p + 1.

(** ** AnaTemperature_Imp.hpp *)
(** 27-38. *)
Definition steady1 (x : R) : R := x.
(** 41-60. *)
Definition steady2 (x y : R) : R :=
  series 25 (fun p => 4 / PI * sin (odd p * PI * x) * sinh (odd p * PI * y) / (odd p * sinh (odd p * PI))).
(** 63-88. *)
Definition lambda3 (p q : nat) : R := sqrt (odd p * odd p * PI * PI + odd q * odd q * PI * PI).
Definition steady3 (x y z : R) : R :=
  series 10 (fun p => series 10 (fun q => let l := lambda3 p q in
    16 / (PI * PI) * ((1 / 2 * sinh (l * (1 - x)) + sinh (l * x)) * sin (odd p * PI * y) * sin (odd q * PI * z)) / (odd p * odd q * sinh l))).
(** 91-103: conduction along a beam that loses heat through its sides. *)
Definition fdiv (a b : R) : outcome R := if Req_EM_T b 0 then UB else Ok (a / b).
Definition fsqrt (a : R) : outcome R := if Rlt_dec a 0 then UB else Ok (sqrt a).
Definition fin (x Ta Tb h Tinf k perimeter section length : R) : outcome R :=
  r <- fdiv (h * perimeter) (k * section) ;; m <- fsqrt r ;;
  c1 <- fdiv (- (exp (m * length) * Tb - exp (2 * m * length) * Ta + Tinf * exp (2 * m * length) - Tinf * exp (m * length))) (exp (2 * m * length) - 1) ;;
  let c2 := (Ta - Tinf) - c1 in
  Ok (Tinf + c1 * exp (- m * x) + c2 * exp (m * x)).
(** 135-150: p goes from 1 to 99; here from 0 to 98. *)
Definition transient1 (x t alpha : R) : R :=
  series 99 (fun i => let p := S i in let l := (2 * INR p - 1) * PI * (1 / 2) in
    4 / PI * (-1) ^ (p + 1) / (2 * INR p - 1) * exp (- alpha * l * l * t) * cos (l * x)).
(** 153-173. *)
Definition transient2 (x y t alpha : R) : R :=
  series 50 (fun p => series 50 (fun q =>
    let l := alpha * PI * PI * (odd p * odd p + odd q * odd q) in let phi := cos (odd p * PI * x) * cos (odd q * PI * y) in
    16 / (PI * PI) * (-1) ^ (p + q) / (odd p * odd q) * phi * exp (- l * t))).
(** 176-196: the sign is that of p + q, without r. *)
Definition transient3 (x y z t alpha : R) : R :=
  series 50 (fun p => series 50 (fun q => series 50 (fun r =>
    let l := alpha * PI * PI * (odd p * odd p + odd q * odd q + odd r * odd r) in
    64 / (PI * PI * PI) * (-1) ^ (p + q) / (odd p * odd q * odd r) * cos (odd p * PI * x) * cos (odd q * PI * y) * cos (odd r * PI * z) * exp (- l * t)))).

(** 106-132: the names G, M, x1, Tb1 are defined (1, 2, 3, 4 here), the text of the equation is set, and a root in the variable T is searched between 1E-12 and Tb in at
    most 100 steps with tolerance 1E-12. Every evaluation clears the table of names first (Root_Model.fn_evaluate1). A text that does not compile has no value: the
    number compared is then not a number, and the only comparison, [product > 0], is false, as it is for 0. [names] are T, x, Tb, ... of the text. *)
Definition number (o : option Q) : Q := match o with Some v => v | None => 0%Q end.
Definition radiation {E} (sem : E -> list (Z * Q) -> option Q) (equation : E) (T : Z) (f : func E) (x Tb h e k perimeter section : Q) : Q :=
  let G := ((2 # 3) * perimeter * e * (56704 # 1000000000000) / (k * section))%Q in
  let M := (h * perimeter / (k * section))%Q in
  let f := fn_set_expr (fn_define (fn_define (fn_define (fn_define f 1 G) 2 M) 3 x) 4 Tb) equation in
  fst (root (fun v => number (fst (fn_evaluate1 sem f T v))) (1 # 1000000000000) Tb 100 (1 # 1000000000000)).

(** ** AnaFlow_Imp.hpp *)
(** 23-26. *)
Definition phi (x t L mu : R) : R :=
  exp (- (x - 4 * t) * (x - 4 * t) / (4 * mu * (t + 1))) + exp (- (x - 4 * t - L) * (x - 4 * t - L) / (4 * mu * (t + 1))).
(** 29-35. *)
Definition burgers (x dx t L mu : R) : R :=
  let phi0 := phi x t L mu in let phi1 := phi (x + dx) t L mu in - 2 * mu / phi0 * (phi1 - phi0) / dx + 4.
