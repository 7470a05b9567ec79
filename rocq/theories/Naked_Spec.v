(** What is to be shown of collapsing naked edges. *)
From Coq Require Import ZArith List Bool QArith Reals Qreals Relation_Operators.
From Verif Require Import Prelude Vec ZMap Mesh_Model Mesh_Spec Face_Model.
Import ListNotations.
Open Scope Z_scope.

(** Face [id] is a line from node [a] to node [b] without a pair. *)
Definition naked (m : mesh) (id a b : Z) : Prop :=
  exists f, t_get (m_faces m) id = Ok f /\ f_type f = FT_LINE /\ f_haspair f = false /\ f_nodes f = [a; b].

(** There is such a line. *)
Definition naked_edge (m : mesh) (a b : Z) : Prop := exists id, naked m id a b.

(** The distance of two points, and the length of a line. *)
Definition dist (p q : coord) : R := sqrt (Q2R (norm2 (vsub q p))).
Definition length_is (m : mesh) (a b : Z) (l : R) : Prop :=
  exists p q, t_get (m_nodes m) a = Ok p /\ t_get (m_nodes m) b = Ok q /\ l = dist p q.

(** The least length of naked edges. *)
Definition least_length (m : mesh) (l : R) : Prop :=
  (exists a b, naked_edge m a b /\ length_is m a b l) /\
  (forall a b k, naked_edge m a b -> length_is m a b k -> (l <= k)%R).

(** Lines have two nodes. *)
Definition lines_ok (m : mesh) : Prop :=
  forall id f, t_get (m_faces m) id = Ok f -> f_type f = FT_LINE -> exists a b, f_nodes f = [a; b].

(** A naked edge shorter than [l]. *)
Definition short (m : mesh) (l : R) (id a b : Z) : Prop :=
  naked m id a b /\ exists k, length_is m a b k /\ (k < l)%R.

(** Along naked edges one gets from one node to the other. *)
Definition leads (m : mesh) : Z -> Z -> Prop := clos_refl_trans Z (naked_edge m).
