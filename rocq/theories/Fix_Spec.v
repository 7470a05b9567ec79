(** What is to be shown of fixed boundaries. *)
From Coq Require Import ZArith List Bool QArith.
From Verif Require Import Prelude Vec ZMap Mesh_Model Mesh_Spec Merge_Spec Face_Model Face_Spec.
Import ListNotations.
Open Scope Z_scope.

(** [c] is the centre of face [id]. *)
Definition centre_at (m : mesh) (id : Z) (c : coord) : Prop :=
  exists f, t_get (m_faces m) id = Ok f /\ centre_of m (f_nodes f) c.

(** Face [id] of [m] lies on an edge: their centres are within [tol]. *)
Definition on_edge (m edges : mesh) (tol : Q) (id : Z) : Prop :=
  exists e c q, centre_at m id c /\ centroid_of edges e q /\ norm_le (vsub c q) tol = true.

(** Some point within [tol] of [q] in each direction lies in the box of the centres of the faces. *)
Definition reached (m : mesh) (tol : Q) (q : coord) : Prop :=
  exists p a b c d e f, (cx q - tol <= cx p <= cx q + tol)%Q /\ (cy q - tol <= cy p <= cy q + tol)%Q /\ (cz q - tol <= cz p <= cz q + tol)%Q /\
    (exists i, centre_at m i a) /\ (exists i, centre_at m i b) /\ (exists i, centre_at m i c) /\
    (exists i, centre_at m i d) /\ (exists i, centre_at m i e) /\ (exists i, centre_at m i f) /\
    (cx a <= cx p <= cx b)%Q /\ (cy c <= cy p <= cy d)%Q /\ (cz e <= cz p <= cz f)%Q.
