(** The face centres of generateFaces in binary64 arithmetic.  The exact model (Face_Model) finds every
    pair with tolerance 0, the default of the interface (mesh/MshMesh.hpp:97,99); in floating point the
    two cells of a face add its nodes in different orders.  Arithmetic is that of
    Coq.Floats.SpecFloat (IEEE 754, round to nearest even), one coordinate axis at a time. *)
From Coq Require Import ZArith List Floats.SpecFloat.
Import ListNotations.
Open Scope Z_scope.

Definition fadd := SFadd 53 1024.
Definition fsub := SFsub 53 1024.
Definition fmul := SFmul 53 1024.
Definition fdiv := SFdiv 53 1024.
Definition fsqrt := SFsqrt 53 1024.

(** MshMesh_Imp.hpp:278-289, one axis of the centre of a triangle: the sum starts from 0.0, then /3. *)
Definition fcentre (l : list spec_float) : spec_float :=
  fdiv (fold_left fadd l (S754_zero false)) (S754_finite false 6755399441055744 (-51)).

(** geometry/GeoHashGrid_Imp.hpp:214: norm of the difference of two points that agree on the other axes. *)
Definition fdist (a b : spec_float) : spec_float :=
  fsqrt (fadd (fadd (fmul (fsub a b) (fsub a b)) (S754_zero false)) (S754_zero false)).

(** [dist <= tol]. *)
Definition fwithin (a b tol : spec_float) : bool := SFleb (fdist a b) tol.

(** The doubles nearest to 0.1, 0.2 and 0.3 (as mantissa and exponent). *)
Definition f01 := S754_finite false 7205759403792794 (-56).
Definition f02 := S754_finite false 7205759403792794 (-55).
Definition f03 := S754_finite false 5404319552844595 (-54).

Lemma rounding_breaks_pairing :
  fwithin (fcentre [f01; f02; f03]) (fcentre [f03; f02; f01]) (S754_zero false) = false.
Proof. vm_compute. reflexivity. Qed.
