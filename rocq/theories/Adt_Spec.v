(** Vocabulary for the search tree. *)
From Coq Require Import ZArith List Bool QArith Permutation.
From Verif Require Import Prelude Vec Box_Model Adt_Model.
Import ListNotations.
Open Scope Z_scope.

(** The calls a user makes. *)
Inductive call : Type :=
| Insert (id : Z) (b : box)
| Remove (k : Z).

Definition run1 (t : adt) (c : call) : outcome adt :=
  match c with Insert id b => Ok (adt_insert t id b) | Remove k => adt_remove t k end.

Definition run (t : adt) (cs : list call) : outcome adt := foldM run1 cs t.

Definition inserts (objs : list (Z * box)) : list call := map (fun o => Insert (fst o) (snd o)) objs.

Fixpoint nb_inserts (cs : list call) : Z :=
  match cs with [] => 0 | Insert _ _ :: cs' => 1 + nb_inserts cs' | Remove _ :: cs' => nb_inserts cs' end.

(** Replace one entry of a list. *)
Definition put {A : Type} (l : list A) (i : nat) (a : A) : list A := firstn i l ++ a :: skipn (S i) l.

(** What is stored: a number of slots, each empty or holding one object, and for every insertion so
    far the slot it went to.  An insertion takes an empty slot or a new one; Remove k empties the slot
    of the k-th insertion.  At the start there is one empty slot (the root). An object with id -1 is
    as good as none. *)
Definition slot_for (id : Z) (b : box) : option (Z * box) := if id =? -1 then None else Some (id, b).

Inductive stored : list call -> list (option (Z * box)) -> list nat -> Prop :=
| stored_nothing : stored [] [None] []
| stored_new : forall cs slots owner id b, stored cs slots owner ->
    stored (cs ++ [Insert id b]) (slots ++ [slot_for id b]) (owner ++ [length slots])
| stored_reuse : forall cs slots owner id b s, stored cs slots owner -> nth_error slots s = Some None ->
    stored (cs ++ [Insert id b]) (put slots s (slot_for id b)) (owner ++ [s])
| stored_remove : forall cs slots owner k s, stored cs slots owner -> 0 <= k -> nth_error owner (Z.to_nat k) = Some s ->
    stored (cs ++ [Remove k]) (put slots s None) owner.

(** The objects in the slots. *)
Definition live (slots : list (option (Z * box))) : list (Z * box) :=
  flat_map (fun s => match s with Some e => [e] | None => [] end) slots.

(** The ids of the objects that meet the query box (C24 characterises [box_intersects]). *)
Definition meeting (objs : list (Z * box)) (q : box) : list Z :=
  map fst (filter (fun o => box_intersects (snd o) q 0) objs).

Definition ordered (b : box) : Prop :=
  (cx (b_min b) <= cx (b_max b) /\ cy (b_min b) <= cy (b_max b) /\ cz (b_min b) <= cz (b_max b))%Q.

(** What is left of the objects when those at the positions [ks] are taken out. *)
Definition without (objs : list (Z * box)) (ks : list Z) : list (Z * box) :=
  map snd (filter (fun p => negb (existsb (Z.eqb (fst p)) ks)) (combine (zrange (length objs)) objs)).

(** [res] answers the query [q] on [objs]: exactly, unless the search reported an overflow ([flag]), and
    then it still reports nothing but objects that meet the query, none more often than it is stored. *)
Definition answers (objs : list (Z * box)) (q : box) (res : list Z) (flag : bool) : Prop :=
  (flag = false -> Permutation res (meeting objs q)) /\ exists more, Permutation (meeting objs q) (res ++ more).
