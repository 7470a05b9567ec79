(** Specification vocabulary for the hash grid. *)
From Coq Require Import ZArith List Bool QArith.
From Verif Require Import Prelude Vec Box_Model HashGrid_Model.
Import ListNotations.
Open Scope Z_scope.

(** Positions (0,1,2,...) of the entries of [cells] equal to [e], in increasing order. *)
Definition members (cells : list Z) (e : Z) : list Z :=
  map fst (filter (fun ic => snd ic =? e) (combine (zrange (length cells)) cells)).

(** Number of entries of [cells] smaller than [e]. *)
Definition below (cells : list Z) (e : Z) : Z := zlen (filter (fun c => c <? e) cells).

(** Ids of the stored points within [tol] of [q], in insertion order. *)
Definition in_range (objs : list (Z * coord)) (q : coord) (tol : Q) : list Z :=
  map fst (filter (fun o => norm_le (vsub (snd o) q) tol) objs).

(** A grid as a user builds it: a list of insertions into a new (or reset) object, then build. *)
Definition grid_fill (g : grid) (objs : list (Z * coord)) : grid :=
  fold_left (fun g o => grid_add g (fst o) (snd o)) objs g.
