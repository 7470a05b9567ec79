(** Root finding and function objects (analytical/AnaFunction_Imp.hpp), function by function. Paths are relative to /repo/trunk/src.
    The function is any map on the rationals: evaluate(strVar, x) is taken to return a value that depends on x only and not to change
    x (an expression may assign to its variable in exprtk; such expressions are not covered). *)
From Coq Require Import QArith Qabs ZArith List Bool.
From Verif Require Import Prelude.
Import ListNotations.
Open Scope Q_scope.

Definition gtb (x y : Q) : bool := negb (Qle_bool x y).
Definition ltb (x y : Q) : bool := negb (Qle_bool y x).

(** AnaFunction_Imp.hpp 116-138: the loop of bisection: (a, b, i). [rem] is how many more passes the test  i > nMaxIterations
    allows after the next one. *)
Fixpoint bis_loop (f : Q -> Q) (tol : Q) (rem : nat) (a b : Q) (i : Z) : Q * Q * Z :=
  if gtb (Qabs (b - a)) tol then
    let s := (a + b) * (1 # 2) in
    let '(a', b') := if gtb (f a * f s) 0 then (s, b) else (a, s) in
    match rem with
    | O => (a', b', (i + 1)%Z)
    | S r => bis_loop f tol r a' b' (i + 1)%Z
    end
  else (a, b, i).

(** AnaFunction_Imp.hpp 105-143: bisection(): (returned value, nIterations). *)
Definition bisection (f : Q -> Q) (lower upper : Q) (nmax : Z) (tol : Q) : Q * Z :=
  let '(a, b, i) := bis_loop f tol (Z.to_nat nmax) lower upper 0 in ((a + b) * (1 # 2), i).

(** AnaFunction_Imp.hpp 145-263: the variables of brent. *)
Record brent_state : Type := Brent { b_a : Q; b_b : Q; b_c : Q; b_d : Q; b_fa : Q; b_fb : Q; b_fc : Q; b_flag : bool }.

(** 165-174 and 240-249: swap a and b if |f(a)| < |f(b)|. *)
Definition brent_swap (s : brent_state) : brent_state :=
  if ltb (Qabs (b_fa s)) (Qabs (b_fb s))
  then Brent (b_b s) (b_a s) (b_c s) (b_d s) (b_fb s) (b_fa s) (b_fc s) (b_flag s) else s.

(** 187-193: interpolation; Q division by zero gives zero, but the tests exclude it wherever the result is used. *)
Definition brent_guess (s : brent_state) : Q :=
  let '(Brent a b c _ fa fb fc _) := s in
  if negb (Qeq_bool fa fc) && negb (Qeq_bool fb fc)
  then a * fb * fc / (fa - fb) / (fa - fc) + b * fa * fc / (fb - fa) / (fb - fc) + c * fa * fb / (fc - fa) / (fc - fb)
  else b - fb * (b - a) / (fb - fa).

(** 195-214: accept the guess or take the midpoint; the new flag. *)
Definition brent_next (tol : Q) (s : brent_state) : Q * bool :=
  let '(Brent a b c d _ _ _ fl) := s in
  let g := brent_guess s in
  let t := (3 * a + b) / 4 in
  if negb ((gtb g t && ltb g b) || (ltb g t && gtb g b))
     || (fl && negb (ltb (Qabs (g - b)) (Qabs (b - c) / 2)))
     || (negb fl && negb (ltb (Qabs (g - b)) (Qabs (c - d) / 2)))
  then ((a + b) * (1 # 2), true)
  else if (fl && ltb (Qabs (b - c)) tol) || (negb fl && ltb (Qabs (c - d)) tol)
  then ((a + b) / 2, true)
  else (g, false).

(** 216-249: one pass. *)
Definition brent_step (f : Q -> Q) (tol : Q) (s : brent_state) : brent_state :=
  let '(x, fl) := brent_next tol s in
  let fs := f x in
  let '(Brent a b c d fa fb fc _) := s in
  brent_swap (if ltb (fa * fs) 0 then Brent a x b c fa fs fb fl else Brent x b b c fs fb fb fl).

(** 182-257: the loop: (state, i). *)
Fixpoint brent_loop (f : Q -> Q) (tol : Q) (rem : nat) (s : brent_state) (i : Z) : brent_state * Z :=
  if negb (Qeq_bool (b_fb s) 0) && gtb (Qabs (b_a s - b_b s)) tol then
    match rem with
    | O => (brent_step f tol s, (i + 1)%Z)
    | S r => brent_loop f tol r (brent_step f tol s) (i + 1)%Z
    end
  else (s, i).

(** 145-263: brent(): (returned value, nIterations; None when the caller's variable is left as it is). [big] is numeric_limits::max(). *)
Definition brent (f : Q -> Q) (big lower upper : Q) (nmax : Z) (tol : Q) : Q * option Z :=
  let fa := f lower in
  let fb := f upper in
  if negb (ltb (fa * fb) 0) then (if ltb fa fb then lower else upper, None)
  else
    let s := brent_swap (Brent lower upper 0 big fa fb 0 true) in
    let '(r, i) := brent_loop f tol (Z.to_nat nmax) (Brent (b_a s) (b_b s) (b_a s) (b_d s) (b_fa s) (b_fb s) (b_fa s) true) 0 in
    (b_b r, Some i).

(** 265-266: root(). *)
Definition root (f : Q -> Q) (lower upper : Q) (nmax : Z) (tol : Q) : Q * Z := bisection f lower upper nmax tol.

(** ** The function object. AnaFunction.hpp: m_value, m_constant, m_expressionString, m_symbolTable. [expr] is the type of expression
    strings; the symbol table maps the defined names to their present values. *)
Record func (expr : Type) : Type := Func { fn_value : Q; fn_constant : bool; fn_expr : expr; fn_vars : list (Z * Q) }.
Arguments Func {expr}. Arguments fn_value {expr}. Arguments fn_constant {expr}. Arguments fn_expr {expr}. Arguments fn_vars {expr}.

(** 30-42: set(). *)
Definition fn_set_constant {E} (f : func E) (c : Q) : func E := Func c true (fn_expr f) (fn_vars f).
Definition fn_set_expr {E} (f : func E) (e : E) : func E := Func (fn_value f) false e (fn_vars f).
(** 44-51: defineVariable, undefineVariable, removeAllVariables; a name already there is kept by add_variable. *)
Definition fn_define {E} (f : func E) (x : Z) (v : Q) : func E :=
  if existsb (fun p => Z.eqb (fst p) x) (fn_vars f) then f else Func (fn_value f) (fn_constant f) (fn_expr f) ((x, v) :: fn_vars f).
Definition fn_clear {E} (f : func E) : func E := Func (fn_value f) (fn_constant f) (fn_expr f) [].
(** 53-68: evaluate(); [sem] gives the value of an expression under a symbol table, None if it does not compile. *)
Definition fn_evaluate {E} (sem : E -> list (Z * Q) -> option Q) (f : func E) : option Q :=
  if fn_constant f then Some (fn_value f) else sem (fn_expr f) (fn_vars f).
(** 70-84: evaluate(variable, value): the symbol table is cleared first and m_constant is not looked at. *)
Definition fn_evaluate1 {E} (sem : E -> list (Z * Q) -> option Q) (f : func E) (x : Z) (v : Q) : option Q * func E :=
  let f1 := fn_define (fn_clear f) x v in (sem (fn_expr f1) (fn_vars f1), f1).
