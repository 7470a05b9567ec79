(** Proofs about intersections of triangles. *)
From Coq Require Import Reals List Lra Lia Bool.
From Verif Require Import Fem_Model Inside_Model Inside_Spec Inside_Proofs Inside_Props Cross_Model Cross_Spec.
Import ListNotations.
Open Scope R_scope.

Lemma cut_complete n d p q x tol : pdot n n = 1 -> 0 <= tol -> pdot n x = d -> between p q x -> tol * tol < Rabs (pdot n (psub q p)) ->
  cut p q n d tol = Some x.
Proof.
  intros U T D (s & S01 & X) L. unfold cut. cbn zeta. destruct (Rle_dec _ _) as [K|_]; [lra|].
  set (dn := pdot n (psub q p)) in *.
  assert (N0 : dn <> 0) by (intros E; rewrite E, Rabs_R0 in L; nra).
  assert (E : pdot n (psub (pscale d n) p) = s * dn).
  { replace (pdot n (psub (pscale d n) p)) with (d * pdot n n - pdot n p) by (unfold pdot, psub, pscale; cbn; ring). rewrite U, <- D, X.
    unfold dn, mix, pdot, psub; cbn. ring. }
  rewrite E. replace (s * dn / dn) with s by (field; exact N0).
  destruct (Rle_dec _ _) as [_|K]; [|lra]. destruct (Rle_dec _ _) as [_|K]; [|lra].
  f_equal. rewrite X. unfold mix, psub; cbn. f_equal; ring.
Qed.

Lemma cut_sound n d p q x tol : pdot n n = 1 -> cut p q n d tol = Some x ->
  pdot n x = d /\ exists s, - tol <= s <= 1 + tol /\ at_part p q s x.
Proof.
  intros U H. unfold cut in H. cbn zeta in H. destruct (Rle_dec _ _) as [|L]; [discriminate|].
  set (dn := pdot n (psub q p)) in *.
  assert (N0 : dn <> 0) by (intros E; rewrite E, Rabs_R0 in L; nra).
  set (s := pdot n (psub (pscale d n) p) / dn) in *.
  destruct (Rle_dec _ _) as [L1|]; [|discriminate]. destruct (Rle_dec _ _) as [L2|]; [|discriminate].
  injection H as <-. split.
  - assert (E : s * dn = d - pdot n p).
    { unfold s. replace (pdot n (psub (pscale d n) p)) with (d * pdot n n - pdot n p) by (unfold pdot, psub, pscale; cbn; ring). rewrite U. field. exact N0. }
    replace (pdot n _) with (pdot n p + s * dn) by (unfold dn, pdot, psub; cbn; ring). lra.
  - exists s. split; [lra|]. unfold at_part, mix, psub; cbn. f_equal; ring.
Qed.

Lemma of_tri_plane t x : area_ok t -> of_tri t x -> pdot (normal_of t) x = pdot (normal_of t) (v0 t).
Proof.
  intros A (a & b & c & _ & _ & _ & E & ->). apply (coplanar_unit _ _ _ _ A). now apply mix_coplanar.
Qed.

Lemma side_of_tri t e x : In e (sides t) -> between (fst e) (snd e) x -> of_tri t x.
Proof.
  intros I (s & S01 & ->). unfold of_tri, in_triangle. cbn [sides In] in I.
  destruct I as [<-|[<-|[<-|[]]]]; cbn [fst snd].
  - exists (1 - s), s, 0. split; [lra|]. split; [lra|]. split; [lra|]. split; [lra|]. unfold mix; f_equal; ring.
  - exists 0, (1 - s), s. split; [lra|]. split; [lra|]. split; [lra|]. split; [lra|]. unfold mix; f_equal; ring.
  - exists s, 0, (1 - s). split; [lra|]. split; [lra|]. split; [lra|]. split; [lra|]. unfold mix; f_equal; ring.
Qed.

Lemma mid_bounds u v w x y z : 0 <= x -> 0 <= y -> 0 <= z -> x + y + z = 1 ->
  Rmin u (Rmin v w) <= x * u + y * v + z * w <= Rmax u (Rmax v w).
Proof.
  intros X Y Z E. pose proof (within_mix u v w x y z 0 (Rle_refl 0) X Y Z E) as K. apply within_ok in K. lra.
Qed.

Lemma one_side_common n d u x tol : 0 <= tol -> of_tri u x -> pdot n x = d -> one_side n d u tol = false.
Proof.
  intros T (a & b & c & A & B & C & E & X) D. unfold one_side. cbn zeta. cbn [vertices forallb].
  assert (Z : a * (pdot n (v0 u) - d) + b * (pdot n (v1 u) - d) + c * (pdot n (v2 u) - d) = 0).
  { assert (Q : a * pdot n (v0 u) + b * pdot n (v1 u) + c * pdot n (v2 u) = d) by (rewrite <- D, X; unfold mix, pdot; cbn; ring).
    replace a with (1 - b - c) in * by lra. lra. }
  set (s0 := pdot n (v0 u) - d) in *. set (s1 := pdot n (v1 u) - d) in *. set (s2 := pdot n (v2 u) - d) in *. clearbody s0 s1 s2.
  pose proof (mid_bounds s0 s1 s2 a b c A B C E) as M. rewrite Z in M. revert M. unfold Rmin, Rmax. intros M.
  apply orb_false_iff. split.
  - destruct (Rlt_dec tol s0), (Rlt_dec tol s1), (Rlt_dec tol s2); try reflexivity. exfalso. revert M. repeat destruct (Rle_dec _ _); lra.
  - destruct (Rlt_dec s0 (- tol)), (Rlt_dec s1 (- tol)), (Rlt_dec s2 (- tol)); try reflexivity. exfalso. revert M. repeat destruct (Rle_dec _ _); lra.
Qed.

Lemma boxes_common t u x tol : 0 <= tol -> of_tri t x -> of_tri u x -> boxes t u tol = true.
Proof.
  intros T (a & b & c & A & B & C & E & X) (a' & b' & c' & A' & B' & C' & E' & X'). unfold boxes.
  assert (K : forall f, (forall a b c p q r, f (mix a b c p q r) = a * f p + b * f q + c * f r) ->
    overlap (f (v0 t)) (f (v1 t)) (f (v2 t)) (f (v0 u)) (f (v1 u)) (f (v2 u)) tol = true).
  { intros f F. pose proof (mid_bounds (f (v0 t)) (f (v1 t)) (f (v2 t)) a b c A B C E) as M.
    pose proof (mid_bounds (f (v0 u)) (f (v1 u)) (f (v2 u)) a' b' c' A' B' C' E') as M'.
    rewrite <- F, <- X in M. rewrite <- F, <- X' in M'. unfold overlap.
    destruct (Rle_dec _ _) as [_|N]; [|exfalso; lra]. destruct (Rle_dec _ _) as [_|N]; [reflexivity|exfalso; lra]. }
  rewrite (K px), (K py), (K pz); reflexivity.
Qed.

Lemma pierced_ok t e x tol : area_ok t -> 0 < tol -> of_tri t x -> between (fst e) (snd e) x ->
  tol * tol < Rabs (pdot (normal_of t) (psub (snd e) (fst e))) -> (forall v, In v (vertices t) -> tol < dist x v) -> pierced t e tol = true.
Proof.
  intros A T I B L F. unfold pierced.
  rewrite (cut_complete _ _ _ _ x) by (first [exact (unit_one _ _ _ A)|lra|now apply of_tri_plane|assumption]).
  pose proof (C114_complete (v0 t) (v1 t) (v2 t) x tol A T I) as N. unfold has_point.
  destruct (contains _ _ _ x tol) as [[]|] eqn:K; [exfalso|reflexivity|reflexivity|congruence].
  apply C114_vertex in K. cbn [vertices In] in F.
  pose proof (F (v0 t) (or_introl eq_refl)). pose proof (F (v1 t) (or_intror (or_introl eq_refl))). pose proof (F (v2 t) (or_intror (or_intror (or_introl eq_refl)))).
  lra.
Qed.

Lemma overlap_sep x y z x' y' z' tol : overlap x y z x' y' z' tol = true ->
  ~ (forall v w, In v [x; y; z] -> In w [x'; y'; z'] -> v + tol < w) /\ ~ (forall v w, In v [x; y; z] -> In w [x'; y'; z'] -> w + tol < v).
Proof.
  unfold overlap. destruct (Rle_dec _ _) as [L1|]; [|discriminate]. destruct (Rle_dec _ _) as [L2|]; [|discriminate]. intros _.
  assert (M3 : forall a b c, In (Rmin a (Rmin b c)) [a; b; c]) by (intros; unfold Rmin; repeat destruct (Rle_dec _ _); cbn; auto).
  assert (X3 : forall a b c, In (Rmax a (Rmax b c)) [a; b; c]) by (intros; unfold Rmax; repeat destruct (Rle_dec _ _); cbn; auto).
  split; intros K.
  - pose proof (K _ _ (X3 x y z) (M3 x' y' z')). lra.
  - pose proof (K _ _ (M3 x y z) (X3 x' y' z')). lra.
Qed.

Lemma corner_in t v : corner t v <-> In v (vertices t).
Proof. unfold corner. cbn [vertices In]. intuition auto. Qed.

Lemma side_in t p q : side_of t p q <-> In (p, q) (sides t).
Proof. unfold side_of. cbn [sides In]. intuition (try congruence); subst; auto. Qed.

Lemma corner_of_tri t v : corner t v -> of_tri t v.
Proof.
  intros [-> | [-> | ->]]; [exists 1, 0, 0|exists 0, 1, 0|exists 0, 0, 1]; (split; [lra|]; split; [lra|]; split; [lra|]; split; [lra|]);
    apply pt_eq; unfold mix; cbn; ring.
Qed.
