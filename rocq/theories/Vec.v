(** Coordinates and vectors over exact rationals.
    CGeoCoordinate, CGeoVector (geometry/GeoCoordinate_Imp.hpp, geometry/GeoVector_Imp.hpp) are
    thin wrappers around Eigen::Matrix<Real,3,1>; the operations below are the Eigen ones, with
    [Real] replaced by Q (no rounding). *)
From Coq Require Import QArith Qround ZArith List Lia Lqa Bool Setoid.
From Verif Require Import Prelude.
Import ListNotations.
Open Scope Q_scope.

(** geometry/GeoCoordinate.hpp, geometry/GeoVector.hpp: three components x(), y(), z(). *)
Record coord : Type := Coord { cx : Q; cy : Q; cz : Q }.

Definition vzero : coord := Coord 0 0 0.
Definition vadd (a b : coord) : coord := Coord (cx a + cx b) (cy a + cy b) (cz a + cz b).
Definition vsub (a b : coord) : coord := Coord (cx a - cx b) (cy a - cy b) (cz a - cz b).
Definition vopp (a : coord) : coord := Coord (- cx a) (- cy a) (- cz a).
Definition vscale (k : Q) (a : coord) : coord := Coord (k * cx a) (k * cy a) (k * cz a).

(** GeoVector_Imp.hpp dot(), cross(). *)
Definition dot (a b : coord) : Q := cx a * cx b + cy a * cy b + cz a * cz b.
Definition cross (a b : coord) : coord :=
  Coord (cy a * cz b - cz a * cy b) (cz a * cx b - cx a * cz b) (cx a * cy b - cy a * cx b).

(** Squared norm; [norm() <= tol] is modelled by [norm_le]. *)
Definition norm2 (a : coord) : Q := dot a a.
Definition norm_le (a : coord) (tol : Q) : bool := Qle_bool 0 tol && Qle_bool (norm2 a) (tol * tol).

(** Equality of vectors up to the representation of rationals. *)
Definition veq (a b : coord) : Prop := cx a == cx b /\ cy a == cy b /\ cz a == cz b.
Infix "=v=" := veq (at level 70, no associativity).

Global Instance veq_Equivalence : Equivalence veq.
Proof.
  split.
  - intros a. repeat split; reflexivity.
  - intros a b (H1 & H2 & H3). repeat split; symmetry; assumption.
  - intros a b c (H1 & H2 & H3) (H4 & H5 & H6). repeat split; etransitivity; eassumption.
Qed.

Global Instance cx_Proper : Proper (veq ==> Qeq) cx. Proof. now intros a b (H & _ & _). Qed.
Global Instance cy_Proper : Proper (veq ==> Qeq) cy. Proof. now intros a b (_ & H & _). Qed.
Global Instance cz_Proper : Proper (veq ==> Qeq) cz. Proof. now intros a b (_ & _ & H). Qed.

Ltac vsolve := repeat split; cbn -[Qplus Qmult Qminus Qopp Qdiv Qinv];
  repeat match goal with H : _ =v= _ |- _ => destruct H as (? & ? & ?) end;
  repeat match goal with H : _ == _ |- _ => rewrite H; clear H end; try reflexivity.

Global Instance vadd_Proper : Proper (veq ==> veq ==> veq) vadd.
Proof. intros a b (H1 & H2 & H3) c d (H4 & H5 & H6). unfold vadd. repeat split; cbn [cx cy cz]; now rewrite ?H1, ?H2, ?H3, ?H4, ?H5, ?H6. Qed.
Global Instance vsub_Proper : Proper (veq ==> veq ==> veq) vsub.
Proof. intros a b (H1 & H2 & H3) c d (H4 & H5 & H6). unfold vsub. repeat split; cbn [cx cy cz]; now rewrite ?H1, ?H2, ?H3, ?H4, ?H5, ?H6. Qed.
Global Instance vopp_Proper : Proper (veq ==> veq) vopp.
Proof. intros a b (H1 & H2 & H3). unfold vopp. repeat split; cbn [cx cy cz]; now rewrite ?H1, ?H2, ?H3. Qed.
Global Instance vscale_Proper : Proper (Qeq ==> veq ==> veq) vscale.
Proof. intros k l Hk a b (H1 & H2 & H3). unfold vscale. repeat split; cbn [cx cy cz]; now rewrite ?Hk, ?H1, ?H2, ?H3. Qed.
Global Instance dot_Proper : Proper (veq ==> veq ==> Qeq) dot.
Proof. intros a b (H1 & H2 & H3) c d (H4 & H5 & H6). unfold dot. now rewrite H1, H2, H3, H4, H5, H6. Qed.
Global Instance cross_Proper : Proper (veq ==> veq ==> veq) cross.
Proof. intros a b (H1 & H2 & H3) c d (H4 & H5 & H6). unfold cross. repeat split; cbn [cx cy cz]; now rewrite ?H1, ?H2, ?H3, ?H4, ?H5, ?H6. Qed.
Global Instance norm2_Proper : Proper (veq ==> Qeq) norm2.
Proof. intros a b H. unfold norm2. now rewrite H. Qed.

Lemma norm2_nonneg a : 0 <= norm2 a.
Proof. unfold norm2, dot. destruct a as [x y z]; cbn [cx cy cz]. nra. Qed.

(** What [norm_le] means, axis by axis. *)
Lemma norm_le_true a tol :
  norm_le a tol = true <-> 0 <= tol /\ norm2 a <= tol * tol.
Proof.
  unfold norm_le. rewrite andb_true_iff. split; intros [H1 H2]; split; (apply Qle_bool_iff in H1 || apply Qle_bool_iff); try (apply Qle_bool_iff in H2); try assumption; try apply Qle_bool_iff; assumption.
Qed.

Lemma norm_le_axes a tol : norm_le a tol = true ->
  (- tol <= cx a /\ cx a <= tol) /\ (- tol <= cy a /\ cy a <= tol) /\ (- tol <= cz a /\ cz a <= tol).
Proof.
  rewrite norm_le_true. intros [Ht Hn]. unfold norm2, dot in Hn. destruct a as [x y z]; cbn [cx cy cz] in *.
  assert (x * x <= tol * tol) by nra. assert (y * y <= tol * tol) by nra. assert (z * z <= tol * tol) by nra.
  repeat split; nra.
Qed.

(** std::min, std::max on Real: min(a,b) = (b < a) ? b : a, max(a,b) = (a < b) ? b : a. *)
Definition Qlt_bool (a b : Q) : bool := negb (Qle_bool b a).
Lemma Qlt_bool_iff a b : Qlt_bool a b = true <-> a < b.
Proof.
  unfold Qlt_bool. rewrite negb_true_iff. split.
  - intros H. apply Qnot_le_lt. intros H'. apply Qle_bool_iff in H'. congruence.
  - intros H. destruct (Qle_bool b a) eqn:E; [|reflexivity]. apply Qle_bool_iff in E. lra.
Qed.
Lemma Qlt_bool_false a b : Qlt_bool a b = false <-> b <= a.
Proof.
  rewrite <- not_true_iff_false, Qlt_bool_iff. split; [apply Qnot_lt_le|]. intros H H'. lra.
Qed.
Lemma Qle_bool_false a b : Qle_bool a b = false <-> b < a.
Proof.
  rewrite <- not_true_iff_false, Qle_bool_iff. split; [apply Qnot_le_lt|]. intros H H'. lra.
Qed.
Definition qmin (a b : Q) : Q := if Qlt_bool b a then b else a.
Definition qmax (a b : Q) : Q := if Qlt_bool a b then b else a.

Lemma qmin_spec a b : (qmin a b <= a /\ qmin a b <= b) /\ (qmin a b = a \/ qmin a b = b).
Proof.
  unfold qmin. destruct (Qlt_bool b a) eqn:E.
  - apply Qlt_bool_iff in E. split; [lra|tauto].
  - apply Qlt_bool_false in E. split; [lra|tauto].
Qed.
Lemma qmax_spec a b : (a <= qmax a b /\ b <= qmax a b) /\ (qmax a b = a \/ qmax a b = b).
Proof.
  unfold qmax. destruct (Qlt_bool a b) eqn:E.
  - apply Qlt_bool_iff in E. split; [lra|tauto].
  - apply Qlt_bool_false in E. split; [lra|tauto].
Qed.

(** std::numeric_limits<double>::max(), epsilon(). *)
Definition real_max : Q := inject_Z (2 ^ 1024 - 2 ^ 971).
Definition real_eps : Q := 1 # 4503599627370496.

(** static_cast<Integer>(x): truncation towards zero, undefined when the truncated value does not
    fit a 32-bit int. *)
Definition int_max : Z := 2147483647%Z.
Definition int_min : Z := (-2147483648)%Z.
Definition qtrunc (x : Q) : Z := if Qle_bool 0 x then Qfloor x else (- Qfloor (- x))%Z.
Definition to_int (x : Q) : outcome Z :=
  let z := qtrunc x in
  if ((int_min <=? z) && (z <=? int_max))%Z then Ok z else UB.
