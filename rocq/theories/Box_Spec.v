(** Specification vocabulary for boxes: point sets, nothing about how boxes are computed. *)
From Coq Require Import ZArith List Bool QArith.
From Verif Require Import Prelude Vec ZMap Mesh_Model Box_Model.
Import ListNotations.
Open Scope Q_scope.

(** [p] lies in the box with corners [lo], [hi]. *)
Definition in_box (lo hi p : coord) : Prop :=
  (cx lo <= cx p /\ cx p <= cx hi) /\ (cy lo <= cy p /\ cy p <= cy hi) /\ (cz lo <= cz p /\ cz p <= cz hi).

(** [p] lies in the box enlarged by [tol] on every side. *)
Definition in_box_tol (b : box) (tol : Q) (p : coord) : Prop :=
  in_box (vsub (b_min b) (Coord tol tol tol)) (vadd (b_max b) (Coord tol tol tol)) p.

(** Representable as a finite [double] magnitude. *)
Definition finite (c : coord) : Prop :=
  in_box (Coord (- real_max) (- real_max) (- real_max)) (Coord real_max real_max real_max) c.

(** The box contains all of [cs] and each of its six sides touches one of them. *)
Definition tight (b : box) (cs : list coord) : Prop :=
  (forall c, In c cs -> in_box (b_min b) (b_max b) c) /\
  (exists c, In c cs /\ cx c == cx (b_min b)) /\ (exists c, In c cs /\ cx c == cx (b_max b)) /\
  (exists c, In c cs /\ cy c == cy (b_min b)) /\ (exists c, In c cs /\ cy c == cy (b_max b)) /\
  (exists c, In c cs /\ cz c == cz (b_min b)) /\ (exists c, In c cs /\ cz c == cz (b_max b)).

(** A box with at least one point. *)
Definition proper (b : box) : Prop :=
  cx (b_min b) <= cx (b_max b) /\ cy (b_min b) <= cy (b_max b) /\ cz (b_min b) <= cz (b_max b).
