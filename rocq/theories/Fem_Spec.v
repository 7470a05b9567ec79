(** Vocabulary for finite-element matrices. *)
From Coq Require Import Reals List.
From Verif Require Import Fem_Model.
Import ListNotations.
Open Scope R_scope.

(** v^T K u for n unknowns. *)
Definition form (n : nat) (K : rmat) (v u : nat -> R) : R := rsum n (fun i => v i * rsum n (fun j => K i j * u j)).
Definition symmetric (n : nat) (K : rmat) : Prop := forall i j, (i < n)%nat -> (j < n)%nat -> K i j = K j i.
(** K u = 0 for constant u. *)
Definition kills_constants (n : nat) (K : rmat) : Prop := forall c i, (i < n)%nat -> rsum n (fun j => K i j * c) = 0.
Definition dissipative (n : nat) (K : rmat) : Prop := forall u, form n K u u <= 0.
(** Sum of all entries. *)
Definition total (n : nat) (K : rmat) : R := rsum n (fun i => rsum n (fun j => K i j)).
(** Values at the vertices of the linear field with gradient g and value c at the origin. *)
Definition linear (g : pt) (c : R) (vs : list pt) : nat -> R := fun i => pdot g (nth i vs origin) + c.
(** Convex planar quadrilateral: turning the same way at all four corners (seen along the normal at the first). *)
Definition convex (a b c d : pt) : Prop :=
  let N := tri_normal a b c in
  pdot N (psub d a) = 0 /\ 0 < pdot N (pcross (psub b a) (psub d a)) /\ 0 < pdot N (pcross (psub c b) (psub a b)) /\
  0 < pdot N (pcross (psub d c) (psub b c)) /\ 0 < pdot N (pcross (psub a d) (psub c d)).
(** Area of a planar quadrilateral: half the product of the diagonals. *)
Definition quad_area (a b c d : pt) : R := pnorm (pcross (psub c a) (psub d b)) / 2.
(** A corner and three edges. *)
Definition padd (a b : pt) : pt := P (px a + px b) (py a + py b) (pz a + pz b).
