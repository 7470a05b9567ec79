(** Vocabulary for segments, vertex lists and line lists, independent of the model's helpers. *)
From Coq Require Import QArith ZArith List Permutation.
From Verif Require Import Prelude Vec Seg_Model.
Import ListNotations.
Open Scope Q_scope.

(** The stored direction is end minus start. *)
Definition consistent (s : segment) : Prop := s_vec s =v= vsub (s_end s) (s_start s).

(** The point at parameter t on the straight line through the end points (0 is the start, 1 the end). *)
Definition at_param (s : segment) (t : Q) : coord :=
  vadd (s_start s) (vscale t (vsub (s_end s) (s_start s))).

(** p is a point of the segment. *)
Definition on (s : segment) (p : coord) : Prop := exists t, 0 <= t /\ t <= 1 /\ p =v= at_param s t.

(** p is a point of the unbounded straight line through the segment. *)
Definition on_line (s : segment) (p : coord) : Prop := exists t, p =v= at_param s t.

(** The side of the plane that clip keeps. *)
Definition inside (h : plane) (p : coord) : Prop := dot (p_normal h) p <= p_d h.

(** Two points at distance at most tol. *)
Definition near (tol : Q) (p q : coord) : Prop := 0 <= tol /\ norm2 (vsub p q) <= tol * tol.

(** The same undirected line. *)
Definition same_line (s r : segment) : Prop :=
  (s_start s =v= s_start r /\ s_end s =v= s_end r) \/ (s_start s =v= s_end r /\ s_end s =v= s_start r).

(** The same collection of undirected lines, counted with multiplicity. *)
Definition same_lines (l l' : list segment) : Prop :=
  exists m, Permutation l m /\ Forall2 same_line m l'.

(** Line k of l has an end point within tol of the end of line i. *)
Definition touches (tol : Q) (l : list segment) (i k : nat) : Prop :=
  exists a b, nth_error l i = Some a /\ nth_error l k = Some b /\
    (near tol (s_start b) (s_end a) \/ near tol (s_end b) (s_end a)).

(** Line i+1 of l starts within tol of where line i ends. *)
Definition follows (tol : Q) (l : list segment) (i : nat) : Prop :=
  exists a b, nth_error l i = Some a /\ nth_error l (i + 1) = Some b /\ near tol (s_start b) (s_end a).

(** Every line starts within tol of where the previous one ends. *)
Definition chained (tol : Q) (l : list segment) : Prop :=
  forall i, (i + 1 < length l)%nat -> follows tol l i.

(** The same line in the same direction. *)
Definition same_directed (s r : segment) : Prop := s_start s =v= s_start r /\ s_end s =v= s_end r.

(** The lines form a path in the order given: each starts where the previous one ends, and of the
    later lines only the next one comes near that end, and only with its start point. (The last line
    may close the path.) *)
Definition simple_path (tol : Q) (m : list segment) : Prop :=
  chained tol m /\
  forall i k a b, nth_error m i = Some a -> nth_error m k = Some b -> (i < k)%nat ->
    near tol (s_start b) (s_end a) \/ near tol (s_end b) (s_end a) ->
    k = (i + 1)%nat /\ ~ near tol (s_end b) (s_end a).

(** l' is obtained from l by deleting elements. *)
Inductive sublist {A : Type} : list A -> list A -> Prop :=
| sub_nil : sublist [] []
| sub_drop a l l' : sublist l l' -> sublist (a :: l) l'
| sub_keep a l l' : sublist l l' -> sublist (a :: l) (a :: l').

(** Setter calls on a segment. *)
Inductive setter : Type := SetStart (p : coord) | SetEnd (p : coord) | Invert.
Definition call (s : segment) (c : setter) : segment :=
  match c with
  | SetStart p => set_start s p
  | SetEnd p => set_end s p
  | Invert => line_invert s
  end.
Definition calls (s : segment) (cs : list setter) : segment := fold_left call cs s.
