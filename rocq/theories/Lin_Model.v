(** Linear systems and equations (sle/SleSystem.hpp, sle/SleSystem_Imp.hpp, pde/PdeEquation_Imp.hpp), function by function.
    A vector is a function on the indices together with its size, a matrix a function on pairs of indices;
    an access beyond the size is [UB] (Eigen asserts in debug builds only). An Eigen::SparseMatrix is its table
    of values: entries that are not stored are 0, and the loops over stored entries below are loops over all
    entries (the extra iterations copy a 0 onto a 0). Reals are rationals. *)
From Coq Require Import QArith ZArith List Lia Lqa Bool.
From Verif Require Import Prelude Lin_Sum.
Import ListNotations.
Open Scope Q_scope.

Definition vec : Type := nat -> Q.
Definition mat : Type := nat -> nat -> Q.

(** v(i) = x and coeffRef(i, j) = x. *)
Definition upd1 (v : vec) (i : nat) (x : Q) : vec := fun k => if Nat.eqb k i then x else v k.
Definition upd2 (A : mat) (i j : nat) (x : Q) : mat := fun k l => if Nat.eqb k i && Nat.eqb l j then x else A k l.

(** sle/SleSystem.hpp 18-25: EMatrixType. *)
Inductive mtype : Type := MT_UNKNOWN | MT_SPARSE_SYMMETRIC | MT_SPARSE | MT_DENSE.
Definition mt_rank (t : mtype) : Z := match t with MT_UNKNOWN => -1 | MT_SPARSE_SYMMETRIC => 0 | MT_SPARSE => 1 | MT_DENSE => 2 end.

(** sle/SleSystem.hpp 27-43: matrixType, matrixA, vectorB. Every operator of the library makes matrixA square
    of the size of vectorB, so one size is kept. *)
Record sys : Type := Sys { s_type : mtype; s_dim : nat; s_A : mat; s_b : vec }.

(** sle/SleSystem_Imp.hpp 32-35: the constructor; empty matrix and vector. *)
Definition sys_empty : sys := Sys MT_UNKNOWN 0 (fun _ _ => 0) (fun _ => 0).

(** sle/SleSystem_Imp.hpp 43-85: solve(). [lin] stands for the Eigen solver chosen by the matrix type; nothing
    is assumed about it. With MT_UNKNOWN no branch is taken and the result is the empty vector. *)
Definition sle_solve (lin : sys -> vec) (s : sys) : nat * vec :=
  match s_type s with
  | MT_UNKNOWN => (0%nat, fun _ => 0)
  | _ => (s_dim s, lin s)
  end.

(** sle/SleSystem_Imp.hpp 87-92: operator=(Real): vectorB.array() += right. *)
Definition assign_real (s : sys) (c : Q) : sys := Sys (s_type s) (s_dim s) (s_A s) (fun i => s_b s i + c).
(** sle/SleSystem_Imp.hpp 94-99: operator=(vector): vectorB += right (of the same size). *)
Definition assign_vec (s : sys) (v : vec) : sys := Sys (s_type s) (s_dim s) (s_A s) (fun i => s_b s i + v i).

(** The loop  for k: A(k, k) += c  and  for k: b[k] += c. *)
Definition diag_loop (n : nat) (c : Q) (A : mat) : mat := fold_left (fun A k => upd2 A k k (A k k + c)) (seq 0 n) A.
Definition vec_loop (n : nat) (f : nat -> Q -> Q) (b : vec) : vec := fold_left (fun b k => upd1 b k (f k (b k))) (seq 0 n) b.

(** sle/SleSystem_Imp.hpp 101-117: operator-(system, Real). *)
Definition minus_real (s : sys) (c : Q) : sys :=
  Sys (s_type s) (s_dim s) (diag_loop (s_dim s) (- c) (s_A s)) (vec_loop (s_dim s) (fun _ x => x - c) (s_b s)).
(** sle/SleSystem_Imp.hpp 119-135: operator+(system, Real). *)
Definition plus_real (s : sys) (c : Q) : sys :=
  Sys (s_type s) (s_dim s) (diag_loop (s_dim s) c (s_A s)) (vec_loop (s_dim s) (fun _ x => x + c) (s_b s)).

(** The type of a sum: the larger of the two. *)
Definition mt_max (a b : mtype) : mtype := if Z.gtb (mt_rank a) (mt_rank b) then a else b.

(** sle/SleSystem_Imp.hpp 137-152: operator+(system, system). Different sizes violate the precondition of Eigen's +. *)
Definition sys_add (l r : sys) : outcome sys :=
  if Nat.eqb (s_dim l) (s_dim r)
  then Ok (Sys (mt_max (s_type l) (s_type r)) (s_dim l) (fun i j => s_A l i j + s_A r i j) (fun i => s_b l i + s_b r i))
  else UB.
(** sle/SleSystem_Imp.hpp 154-169: operator-(system, system). *)
Definition sys_sub (l r : sys) : outcome sys :=
  if Nat.eqb (s_dim l) (s_dim r)
  then Ok (Sys (mt_max (s_type l) (s_type r)) (s_dim l) (fun i j => s_A l i j - s_A r i j) (fun i => s_b l i - s_b r i))
  else UB.
(** sle/SleSystem_Imp.hpp 171-182: operator*(Real, system). *)
Definition sys_scale (c : Q) (s : sys) : sys := Sys (s_type s) (s_dim s) (fun i j => c * s_A s i j) (fun i => c * s_b s i).
(** sle/SleSystem_Imp.hpp 184-204: operator*(vector, system): row i is multiplied by left[i]; the type is kept. *)
Definition rows_loop (n : nat) (v : vec) (A : mat) : mat :=
  fold_left (fun A k => fold_left (fun A i => upd2 A i k (A i k * v i)) (seq 0 n) A) (seq 0 n) A.
Definition sys_rows (v : vec) (s : sys) : sys :=
  Sys (s_type s) (s_dim s) (rows_loop (s_dim s) v (s_A s)) (vec_loop (s_dim s) (fun k x => x * v k) (s_b s)).

(** pde/PdeEquation_Imp.hpp 177-194: operator*(Real, field) for a field with n values; the type stays MT_UNKNOWN. *)
Definition field_scale (c : Q) (n : nat) : sys :=
  Sys MT_UNKNOWN n (fold_left (fun A k => upd2 A k k c) (seq 0 n) (fun _ _ => 0)) (fun _ => 0).

(** pde/PdeField.hpp 18-27: EDiscretMethod. *)
Inductive method : Type := DM_NONE | DM_FDM | DM_BEM | DM_FEM | DM_FVM | DM_LBM | DM_SPH.

(** pde/PdeField.hpp: uFixed and uSource, std::map<Integer, Real>: pairs with distinct keys in increasing order.
    Indices are natural numbers (a negative int is out of range everywhere). *)
Definition values : Type := list (nat * Q).

(** pde/PdeEquation.hpp 25-31: CPdeEquation: m_system, m_bDeleteIndex, m_eliminationMethod. *)
Record eqn : Type := Eqn { e_sys : sys; e_del : list bool; e_elim : bool }.
(** pde/PdeEquation_Imp.hpp 22-28: the constructor. *)
Definition eqn_of (s : sys) : eqn := Eqn s [] false.

(** pde/PdeEquation_Imp.hpp 41-57: setPenaltyFactor. *)
Definition penalty_step (pen : Q) (s : sys) (iv : nat * Q) : outcome sys :=
  let '(i, v) := iv in
  if Nat.ltb i (s_dim s)
  then Ok (Sys (s_type s) (s_dim s) (upd2 (s_A s) i i pen) (upd1 (s_b s) i (pen * v)))
  else UB.
Definition set_penalty (m : method) (fixed : values) (pen : Q) (e : eqn) : outcome eqn :=
  match m with
  | DM_FEM | DM_FDM => s <- foldM (penalty_step pen) fixed (e_sys e) ;; Ok (Eqn s (e_del e) (e_elim e))
  | _ => Ok e
  end.

(** std::vector<bool>::resize(n, false). *)
Definition resize (n : nat) (l : list bool) : list bool := firstn n l ++ repeat false (n - length l).
Fixpoint set_true (i : nat) (l : list bool) : list bool :=
  match l, i with
  | [], _ => []
  | _ :: l', O => true :: l'
  | b :: l', S i' => b :: set_true i' l'
  end.

(** pde/PdeEquation_Imp.hpp 67-76: b -= A.col(i) * v and mark row/column i. *)
Definition elim_step (A : mat) (n : nat) (st : vec * list bool) (iv : nat * Q) : outcome (vec * list bool) :=
  let '(b, del) := st in
  let '(i, v) := iv in
  if Nat.ltb i n then Ok (fun r => b r - A r i * v, set_true i del) else UB.

(** pde/PdeEquation_Imp.hpp 78-87: oldToNewIndex and the number of remaining unknowns. *)
Fixpoint old_to_new (del : list bool) (new : nat) : list nat * nat :=
  match del with
  | [] => ([], new)
  | d :: del' => let '(l, n) := old_to_new del' (if d then new else S new) in (new :: l, n)
  end.

(** pde/PdeEquation_Imp.hpp 97-103: the remaining entries of b; [junk] is the content of the resized vector. *)
Definition new_b (n : nat) (del : list bool) (o2n : list nat) (b junk : vec) : vec :=
  fold_left (fun nb i => if nth i del false then nb else upd1 nb (nth i o2n 0%nat) (b i)) (seq 0 n) junk.
(** pde/PdeEquation_Imp.hpp 105-117: the remaining entries of A. *)
Definition new_A (n : nat) (del : list bool) (o2n : list nat) (A : mat) : mat :=
  fold_left (fun nA k => fold_left (fun nA i =>
    if negb (nth i del false) && negb (nth k del false) then upd2 nA (nth i o2n 0%nat) (nth k o2n 0%nat) (A i k) else nA) (seq 0 n) nA)
    (seq 0 n) (fun _ _ => 0).

(** pde/PdeEquation_Imp.hpp 59-123: setElimination. *)
Definition set_elimination (junk : vec) (m : method) (fixed : values) (e : eqn) : outcome eqn :=
  match m with
  | DM_FEM =>
      let s := e_sys e in
      let n := s_dim s in
      st <- foldM (elim_step (s_A s) n) fixed (s_b s, resize n (e_del e)) ;;
      let '(b, del) := st in
      let '(o2n, n') := old_to_new del 0 in
      Ok (Eqn (Sys (s_type s) n' (new_A n del o2n (s_A s)) (new_b n del o2n b junk)) del true)
  | _ => Ok e
  end.

(** pde/PdeEquation_Imp.hpp 125-135: setSources. *)
Definition source_step (s : sys) (iv : nat * Q) : outcome sys :=
  let '(i, v) := iv in
  if Nat.ltb i (s_dim s) then Ok (Sys (s_type s) (s_dim s) (s_A s) (upd1 (s_b s) i (s_b s i + v))) else UB.
Definition set_sources (src : values) (e : eqn) : outcome eqn :=
  s <- foldM source_step src (e_sys e) ;; Ok (Eqn s (e_del e) (e_elim e)).

(** pde/PdeEquation_Imp.hpp 141-151: newToOldIndex (a std::map filled with the keys 0, 1, 2, ...). *)
Fixpoint new_to_old (del : list bool) (i : nat) : list nat :=
  match del with
  | [] => []
  | d :: del' => if d then new_to_old del' (S i) else i :: new_to_old del' (S i)
  end.

(** u(i) = v for u of size n. *)
Definition set_u (n : nat) (u : vec) (iv : nat * Q) : outcome vec :=
  let '(i, v) := iv in if Nat.ltb i n then Ok (upd1 u i v) else UB.

(** pde/PdeEquation_Imp.hpp 137-174: solve; [junk] is the content of the resized aField.u. A missing key of
    newToOldIndex gives 0 (std::map::operator[]). The result is the size and content of aField.u. *)
Definition eq_solve (junk : vec) (lin : sys -> vec) (fixed : values) (e : eqn) : outcome (nat * vec) :=
  let '(k, x) := sle_solve lin (e_sys e) in
  if e_elim e then
    let n := length (e_del e) in
    let n2o := new_to_old (e_del e) 0 in
    u <- foldM (set_u n) (map (fun i => (nth i n2o 0%nat, x i)) (seq 0 k)) junk ;;
    u' <- foldM (set_u n) fixed u ;;
    Ok (n, u')
  else
    u' <- foldM (set_u k) fixed x ;;
    Ok (k, u').
