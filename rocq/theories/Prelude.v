(** Common vocabulary of all models: outcomes of C++ calls and std::map / std::vector access. *)
From Coq Require Import ZArith List Lia Bool.
Import ListNotations.
Open Scope Z_scope.

(** Outcome of a C++ call.
    [Ok a]   the call returns normally with result (and new object state) [a];
    [Throw]  the call throws (std::out_of_range from [.at], ...);
    [UB]     the call has undefined behaviour (erase(end()), unchecked [] out of range, ...). *)
Inductive outcome (A : Type) : Type :=
| Ok (a : A)
| Throw
| UB.
Arguments Ok {A} a.
Arguments Throw {A}.
Arguments UB {A}.

Definition bind {A B : Type} (x : outcome A) (f : A -> outcome B) : outcome B :=
  match x with
  | Ok a => f a
  | Throw => Throw
  | UB => UB
  end.

Notation "x <- e ;; f" := (bind e (fun x => f)) (at level 61, e at next level, right associativity).

(** A C++ [for] loop over a container whose body may fail. *)
Fixpoint foldM {S A : Type} (f : S -> A -> outcome S) (l : list A) (s : S) : outcome S :=
  match l with
  | [] => Ok s
  | a :: l' => s' <- f s a ;; foldM f l' s'
  end.

(** Elementwise update with a function that may fail (left to right). *)
Fixpoint mapM {A B : Type} (f : A -> outcome B) (l : list A) : outcome (list B) :=
  match l with
  | [] => Ok []
  | a :: l' => b <- f a ;; bs <- mapM f l' ;; Ok (b :: bs)
  end.

(** [std::vector::at(i)] with a C++ [int] argument: a negative argument converts to a huge
    [size_t], hence throws as well. *)
Definition vec_at {A : Type} (l : list A) (i : Z) : outcome A :=
  if i <? 0 then Throw
  else match nth_error l (Z.to_nat i) with
       | Some a => Ok a
       | None => Throw
       end.

(** [std::vector::operator[](i)]: unchecked, out of range is undefined behaviour. *)
Definition vec_get {A : Type} (l : list A) (i : Z) : outcome A :=
  if i <? 0 then UB
  else match nth_error l (Z.to_nat i) with
       | Some a => Ok a
       | None => UB
       end.

Definition zlen {A : Type} (l : list A) : Z := Z.of_nat (length l).

(** The integers 0 .. n-1 (the index range of a counting [for] loop). *)
Definition zrange (n : nat) : list Z := map Z.of_nat (seq 0 n).
