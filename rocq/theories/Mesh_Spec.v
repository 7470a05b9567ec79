(** Specification vocabulary for the mesh container, independent of how the container works:
    histories of insertions and removals and the list of entries they leave behind. *)
From Coq Require Import ZArith List Lia Bool QArith.
From Verif Require Import Prelude Vec ZMap Mesh_Model.
Import ListNotations.
Open Scope Z_scope.

(** A user history on one table. *)
Inductive op (A : Type) : Type :=
| Add (id : Z) (v : A)
| Remove (id : Z).
Arguments Add {A}.
Arguments Remove {A}.

(** Executing a history on the model. *)
Definition exec {A : Type} (t : table A) (o : op A) : outcome (table A) :=
  match o with
  | Add id v => Ok (t_add t id v)
  | Remove id => t_remove t id
  end.

Definition run {A : Type} (ops : list (op A)) : outcome (table A) := foldM exec ops t_empty.

(** What the user means: the ledger of all insertions ever made, each marked as still present or
    removed. *)
Record entry (A : Type) : Type := Entry { en_id : Z; en_val : A; en_live : bool }.
Arguments Entry {A}.
Arguments en_id {A}.
Arguments en_val {A}.
Arguments en_live {A}.

Definition ledger_step {A : Type} (l : list (entry A)) (o : op A) : list (entry A) :=
  match o with
  | Add id v => l ++ [Entry id v true]
  | Remove id => map (fun e => if en_live e && (en_id e =? id)
                               then Entry (en_id e) (en_val e) false else e) l
  end.

Definition ledger {A : Type} (ops : list (op A)) : list (entry A) := fold_left ledger_step ops [].

Definition live {A : Type} (l : list (entry A)) : list (entry A) := filter en_live l.

(** [id] is currently present. *)
Definition present {A : Type} (l : list (entry A)) (id : Z) : Prop := In id (map en_id (live l)).

(** Histories that insert only ids not present and remove only ids present. *)
Fixpoint valid_from {A : Type} (l : list (entry A)) (ops : list (op A)) : Prop :=
  match ops with
  | [] => True
  | o :: ops' =>
      match o with
      | Add id _ => ~ present l id
      | Remove id => present l id
      end /\ valid_from (ledger_step l o) ops'
  end.

Definition valid {A : Type} (ops : list (op A)) : Prop := valid_from [] ops.

(** A table whose id list has no repetitions and is exactly the set of keys. *)
Definition wf_table {A : Type} (t : table A) : Prop :=
  NoDup (t_ids t) /\ zsorted (t_map t) /\ (forall id, In id (t_ids t) <-> zlookup id (t_map t) <> None).

(** Positions and indices agree. *)
Definition indexed {A : Type} (t : table A) : Prop :=
  (forall i id, t_id t i = Ok id -> t_index t id = Ok i) /\
  (forall id, ~ In id (t_ids t) -> t_index t id = Throw).

(** The sequence of (id, value) pairs a user sees by enumerating [0 .. size-1]. *)
Definition contents {A : Type} (t : table A) : list (Z * option A) :=
  map (fun id => (id, zlookup id (t_map t))) (t_ids t).

Definition wf_mesh (m : mesh) : Prop :=
  wf_table (m_nodes m) /\ wf_table (m_faces m) /\ wf_table (m_elems m).

(** Every node id used by an element or face is the id of a stored node. *)
Definition refs_ok (m : mesh) : Prop :=
  (forall id e, t_get (m_elems m) id = Ok e -> Forall (fun n => In n (t_ids (m_nodes m))) (e_nodes e)) /\
  (forall id f, t_get (m_faces m) id = Ok f -> Forall (fun n => In n (t_ids (m_nodes m))) (f_nodes f)).

(** Coordinates of a connectivity list. *)
Definition coords (m : mesh) (l : list Z) : list (outcome coord) := map (t_get (m_nodes m)) l.

(** The value at position [n] of the enumeration, as a user obtains it: x(xId(n)). *)
Definition at_pos {A : Type} (t : table A) (n : nat) : outcome A :=
  id <- t_id t (Z.of_nat n) ;; t_get t id.

(** Every face id stored in an element is the id of a stored face. *)
Definition face_refs_ok (m : mesh) : Prop :=
  forall id e, t_get (m_elems m) id = Ok e -> Forall (fun n => In n (t_ids (m_faces m))) (e_faces e).
