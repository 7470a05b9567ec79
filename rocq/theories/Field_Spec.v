(** What is to be shown of fields. *)
From Coq Require Import ZArith QArith List Lia Bool.
From Verif Require Import Prelude ZMap Field_Model.
Import ListNotations.
Open Scope Z_scope.

(** The places of a field with [d] unknowns per node: the fixed value and the source of unknown [j] of node [i], the
    conditions on nodes, faces and sides of elements, the materials of elements. *)
Inductive place :=
| FixedAt (i j : Z) | SourceAt (i j : Z) | NodeAt (n : Z) | FaceAt (n : Z) | SideAt (e i : Z) | MaterialAt (e : Z).

(** What is found at a place. *)
Inductive found := Nothing | Number (q : Q) | Condition (b : cond) | Material (m : material).

Definition seen {A : Type} (k : A -> found) (x : option A) : found := match x with Some a => k a | None => Nothing end.

(** Reading a place: the number of unknown [j] of node [i] is [i * d + j], which is where equations look it up. *)
Definition read (d : Z) (f : field) (p : place) : found :=
  match p with
  | FixedAt i j => seen Number (zlookup (i * d + j) (f_fixed f))
  | SourceAt i j => seen Number (zlookup (i * d + j) (f_source f))
  | NodeAt n => seen Condition (zlookup n (f_nodes f))
  | FaceAt n => seen Condition (zlookup n (f_faces f))
  | SideAt e i => seen Condition (plookup (e, i) (f_elements f))
  | MaterialAt e => seen Material (zlookup e (f_materials f))
  end.

(** The place a call is about; calls about values of the solution and about the number of unknowns have none. *)
Definition about (d : Z) (c : call) : option place :=
  match c with
  | SetFixed k _ => Some (FixedAt (k / d) (k mod d))
  | SetFixedDof i j _ => Some (FixedAt i j)
  | SetSource k _ => Some (SourceAt (k / d) (k mod d))
  | SetSourceDof i j _ => Some (SourceAt i j)
  | AddMaterial e _ | AskMaterial e => Some (MaterialAt e)
  | AddNode n _ | AskNode n | ConditionNode n _ _ => Some (NodeAt n)
  | AddFace n _ | AskFace n | ConditionFace n _ _ => Some (FaceAt n)
  | AddElement e i _ | AskElement e i | ConditionElement e i _ _ => Some (SideAt e i)
  | SetNbDofs _ | SetSize _ | SetValue _ _ => None
  end.

(** What a call that sets something leaves there. *)
Definition sets (c : call) : option found :=
  match c with
  | SetFixed _ v | SetFixedDof _ _ v | SetSource _ v | SetSourceDof _ _ v => Some (Number v)
  | AddMaterial _ m => Some (Material m)
  | AddNode _ b | AddFace _ b | AddElement _ _ b => Some (Condition b)
  | _ => None
  end.

(** Unknowns are among the [d] of a node, and the number of unknowns is not changed. *)
Definition proper_call (d : Z) (c : call) : Prop :=
  match c with
  | SetFixedDof _ j _ | SetSourceDof _ j _ => 0 <= j < d
  | SetNbDofs _ => False
  | _ => True
  end.

(** A place with an unknown among the [d] of a node. *)
Definition proper_place (d : Z) (p : place) : Prop :=
  match p with
  | FixedAt _ j | SourceAt _ j => 0 <= j < d
  | _ => True
  end.

(** Equality of places is decidable. *)
Definition place_eq (p q : place) : {p = q} + {p <> q}.
Proof. decide equality; apply Z.eq_dec. Defined.

Definition concerns (d : Z) (p : place) (c : call) : bool :=
  match about d c with
  | Some q => if place_eq p q then true else false
  | None => false
  end.

(** Calls that leave value [i] alone: no other value for [i], no other size. *)
Definition leaves (n i : Z) (c : call) : Prop :=
  match c with SetSize m => m = n | SetValue k _ => k <> i | _ => True end.
