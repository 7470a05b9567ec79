(** Specification vocabulary for the mesh clean-up operations. *)
From Coq Require Import ZArith List Bool QArith.
From Verif Require Import Prelude Vec ZMap Mesh_Model Mesh_Spec.
Import ListNotations.
Open Scope Z_scope.

(** [t'] is what is left of [t] when exactly the entries satisfying [P] are kept and rewritten by
    [f]: the surviving ids are enumerated in the old order, the others are gone. *)
Definition kept_as {A : Type} (t t' : table A) (P : Z -> A -> Prop) (f : A -> A) : Prop :=
  exists keep : Z -> bool,
    t_ids t' = filter keep (t_ids t) /\
    forall id, In id (t_ids t) -> exists v, t_get t id = Ok v /\
      ((P id v /\ keep id = true /\ t_get t' id = Ok (f v)) \/
       (~ P id v /\ keep id = false /\ t_get t' id = Throw)).

(** The same with the values unchanged. *)
Definition kept {A : Type} (t t' : table A) (P : Z -> A -> Prop) : Prop := kept_as t t' P (fun v => v).

(** Nodes [a] and [b] are within [tol] of each other. *)
Definition close (m : mesh) (tol : Q) (a b : Z) : Prop :=
  exists ca cb, t_get (m_nodes m) a = Ok ca /\ t_get (m_nodes m) b = Ok cb /\ norm_le (vsub cb ca) tol = true.

(** Arithmetic mean of a list of points. *)
Definition mean (l : list coord) : coord := vscale (/ inject_Z (zlen l)) (fold_left vadd l vzero).

(** [c] is the mean of the nodes of element [id] (the origin for an element without nodes). *)
Definition centroid_of (m : mesh) (id : Z) (c : coord) : Prop :=
  exists e cs, t_get (m_elems m) id = Ok e /\ coords m (e_nodes e) = map Ok cs /\
    c = match cs with [] => vzero | _ => mean cs end.

(** The centroids of elements [a] and [b] are within [tol]. *)
Definition close_elems (m : mesh) (tol : Q) (a b : Z) : Prop :=
  exists ca cb, centroid_of m a ca /\ centroid_of m b cb /\ norm_le (vsub cb ca) tol = true.

(** Node [n] is used by an element or a face. *)
Definition used (m : mesh) (n : Z) : Prop :=
  (exists id e, t_get (m_elems m) id = Ok e /\ In n (e_nodes e)) \/
  (exists id f, t_get (m_faces m) id = Ok f /\ In n (f_nodes f)).
