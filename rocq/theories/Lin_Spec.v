(** Vocabulary for the properties of linear systems. *)
From Coq Require Import QArith ZArith List Lia Lqa Bool.
From Verif Require Import Prelude Lin_Sum Lin_Model.
Import ListNotations.
Open Scope Q_scope.

(** Row i of the system applied to x. *)
Definition row (s : sys) (x : vec) (i : nat) : Q := sum (s_dim s) (fun j => s_A s i j * x j).
Definition solves (s : sys) (x : vec) : Prop := forall i, (i < s_dim s)%nat -> row s x i == s_b s i.

Definition keys (f : values) : list nat := map fst f.
Definition is_fixed (f : values) (i : nat) : bool := existsb (Nat.eqb i) (keys f).
(** Prescribed values at distinct unknowns of a system of size n. *)
Definition proper (n : nat) (f : values) : Prop := NoDup (keys f) /\ Forall (fun i => (i < n)%nat) (keys f).
(** u has the prescribed values. *)
Definition meets (f : values) (u : vec) : Prop := forall i v, In (i, v) f -> u i == v.
(** The unknowns that are not prescribed, in order. *)
Definition free (n : nat) (f : values) : list nat := filter (fun i => negb (is_fixed f i)) (seq 0 n).

Definition symmetric (n : nat) (A : mat) : Prop := forall i j, (i < n)%nat -> (j < n)%nat -> A i j == A j i.
(** A system declared symmetric (or not declared at all) has a symmetric matrix. *)
Definition declared (s : sys) : Prop := (mt_rank (s_type s) <= 0)%Z -> symmetric (s_dim s) (s_A s).
(** Same matrix and right-hand side. *)
Definition sys_eq (s t : sys) : Prop :=
  s_dim s = s_dim t /\ (forall i j, (i < s_dim s)%nat -> (j < s_dim s)%nat -> s_A s i j == s_A t i j) /\ (forall i, (i < s_dim s)%nat -> s_b s i == s_b t i).
