(** C115: lines and triangles that cut triangles. *)
From Coq Require Import Reals List Lra Lia Bool.
From Verif Require Import Fem_Model Inside_Model Inside_Spec Inside_Proofs Inside_Props Cross_Model Cross_Spec Cross_Proofs.
Import ListNotations.
Open Scope R_scope.

(** A line (segment) with a point in common with a triangle whose normal was calculated intersects it there, unless it is too nearly parallel. *)
Theorem C115_line_complete (t : tri) (p q x : pt) (tol : R) : area_ok t -> 0 < tol -> of_tri t x -> between p q x ->
  tol * tol < Rabs (pdot (normal_of t) (psub q p)) -> exists k, meets_line t (normal_of t) p q tol = Some (x, k).
Proof.
  intros A T I B L. unfold meets_line.
  rewrite (cut_complete _ _ _ _ x) by (first [exact (unit_one _ _ _ A)|lra|now apply of_tri_plane|assumption]).
  pose proof (C114_complete (v0 t) (v1 t) (v2 t) x tol A T I) as N. unfold has_point. destruct (contains _ _ _ x tol) as [k|]; [now exists k|congruence].
Qed.
Print Assumptions C115_line_complete.

(** The point handed back lies in the plane of the triangle, on the line up to the tolerance beyond its ends, and near the triangle: within
    the tolerance of a vertex or with weights above minus the tolerance over twice the area. *)
Theorem C115_line_sound (t : tri) (p q x : pt) (k : kind) (tol : R) : area_ok t -> meets_line t (normal_of t) p q tol = Some (x, k) ->
  in_plane t x /\ (exists s, - tol <= s <= 1 + tol /\ at_part p q s x) /\
  ((exists v, corner t v /\ dist x v <= tol) \/
   exists a b c, a + b + c = 1 /\ x = mix a b c (v0 t) (v1 t) (v2 t) /\
     let w := - tol / area2 (v0 t) (v1 t) (v2 t) in w < a /\ w < b /\ w < c).
Proof.
  intros A H. unfold meets_line in H. destruct (cut _ _ _ _ _) as [y|] eqn:C; [|discriminate].
  destruct (has_point t y tol) as [k'|] eqn:K; [|discriminate]. injection H as -> ->.
  apply cut_sound in C; [|exact (unit_one _ _ _ A)]. destruct C as [D S].
  assert (Ip : in_plane t x) by (apply (coplanar_unit _ _ _ _ A); exact D).
  split; [exact Ip|]. split; [exact S|].
  destruct (C114_sound (v0 t) (v1 t) (v2 t) x tol A Ip) as [V|W]; [unfold has_point in K; congruence| |].
  - left. destruct V as [V|[V|V]]; eexists; (split; [|exact V]); unfold corner; auto.
  - right. exact W.
Qed.
Print Assumptions C115_line_sound.

(** Two triangles whose planes are not nearly parallel intersect if a side of one has a point in common with the other, away from the
    other's vertices and not nearly parallel to its plane. *)
Theorem C115_crossing (lines : pt * pt -> pt * pt -> R -> bool) (t u : tri) (x : pt) (tol : R) : area_ok t -> area_ok u -> 0 < tol ->
  tol < pnorm (pcross (normal_of t) (normal_of u)) ->
  (exists a b p q, (a = t /\ b = u \/ a = u /\ b = t) /\ side_of b p q /\ between p q x /\ of_tri a x /\
     tol * tol < Rabs (pdot (normal_of a) (psub q p)) /\ forall v, corner a v -> tol < dist x v) ->
  intersects lines t u tol <> None.
Proof.
  intros At Au T N (a & b & p & q & W & I & B & X & L & F). apply side_in in I. set (e := (p, q)) in *.
  change p with (fst e) in B, L. change q with (snd e) in B, L. clearbody e.
  assert (F' : forall v, In v (vertices a) -> tol < dist x v) by (intros v Iv; apply F; now apply corner_in). clear F.
  assert (Y : of_tri b x) by now apply (side_of_tri b e).
  assert (XY : of_tri t x /\ of_tri u x) by (destruct W as [[-> ->]|[-> ->]]; auto). destruct XY as [Xt Xu].
  assert (Pt : pierced a e tol = true).
  { apply (pierced_ok a e x); try assumption. destruct W as [[-> _]|[-> _]]; assumption. }
  unfold intersects. rewrite (boxes_common t u x) by (assumption || lra). cbn [negb].
  rewrite (one_side_common _ _ u x) by (first [lra|assumption|now apply of_tri_plane]).
  rewrite (one_side_common _ _ u x) by (first [lra|assumption|now apply of_tri_plane]).
  destruct (Nat.eqb _ 3); [discriminate|]. destruct (Rle_dec _ _) as [K|_]; [lra|]. cbn [andb].
  destruct (Nat.eqb _ 2); [discriminate|].
  replace (_ || _) with true; [discriminate|]. symmetry. apply orb_true_iff.
  destruct W as [[-> ->]|[-> ->]]; [left|right]; apply existsb_exists; exists e; auto.
Qed.
Print Assumptions C115_crossing.

(** A triangle all of whose vertices are points of the other intersects it, whatever the planes. *)
Theorem C115_inside (lines : pt * pt -> pt * pt -> R -> bool) (t u : tri) (tol : R) : area_ok t -> area_ok u -> 0 < tol ->
  (forall v, corner u v -> of_tri t v) \/ (forall v, corner t v -> of_tri u v) -> intersects lines t u tol <> None.
Proof.
  intros At Au T H.
  assert (X : exists x, of_tri t x /\ of_tri u x).
  { destruct H as [H|H]; [exists (v0 u)|exists (v0 t)]; split; try (apply H; unfold corner; auto); apply corner_of_tri; unfold corner; auto. }
  destruct X as (x & Xt & Xu).
  assert (A : forall a b, area_ok a -> (forall v, corner b v -> of_tri a v) -> holds_all a b tol = true).
  { intros a b Aa G. unfold holds_all. apply forallb_forall. intros v Iv.
    pose proof (C114_complete (v0 a) (v1 a) (v2 a) v tol Aa T (G v (proj2 (corner_in b v) Iv))) as N. unfold has_point. destruct (contains _ _ _ v tol); congruence. }
  assert (L : forall n, last_tests t u n tol <> None).
  { intros n. unfold last_tests. destruct (Nat.eqb n 1); [discriminate|].
    destruct H as [H|H]; [rewrite (A t u At H)|rewrite (A u t Au H), orb_true_r]; discriminate. }
  unfold intersects. rewrite (boxes_common t u x) by (assumption || lra). cbn [negb].
  rewrite (one_side_common _ _ u x) by (first [lra|assumption|now apply of_tri_plane]).
  rewrite (one_side_common _ _ u x) by (first [lra|assumption|now apply of_tri_plane]).
  destruct (Nat.eqb _ 3); [discriminate|].
  destruct (_ && _).
  - destruct (existsb _ _); [discriminate|]. destruct (Nat.eqb _ 2); [discriminate|apply L].
  - destruct (Nat.eqb _ 2); [discriminate|]. destruct (_ || _); [discriminate|apply L].
Qed.
Print Assumptions C115_inside.

(** Triangles that are more than the tolerance apart along an axis, or on one side of the plane of the first by more than the tolerance, do not
    intersect. *)
Theorem C115_apart (lines : pt * pt -> pt * pt -> R -> bool) (t u : tri) (tol : R) : area_ok t ->
  (exists f, (f = px \/ f = py \/ f = pz) /\
     ((forall v w, corner t v -> corner u w -> f v + tol < f w) \/ (forall v w, corner t v -> corner u w -> f w + tol < f v))) \/
  (forall w, corner u w -> tol < pdot (normal_of t) (psub w (v0 t))) \/
  (forall w, corner u w -> pdot (normal_of t) (psub w (v0 t)) < - tol) ->
  intersects lines t u tol = None.
Proof.
  intros A H. unfold intersects. destruct (boxes t u tol) eqn:B; [|reflexivity]. cbn [negb].
  destruct H as [(f & Hf & H)|H].
  - exfalso. assert (K : overlap (f (v0 t)) (f (v1 t)) (f (v2 t)) (f (v0 u)) (f (v1 u)) (f (v2 u)) tol = true).
    { unfold boxes in B. apply andb_true_iff in B as [B B3]. apply andb_true_iff in B as [B1 B2]. destruct Hf as [-> | [-> | ->]]; assumption. }
    apply overlap_sep in K as [K1 K2].
    assert (In3 : forall (z : tri) r, In r [f (v0 z); f (v1 z); f (v2 z)] -> exists v, corner z v /\ r = f v).
    { intros z r [<-|[<-|[<-|[]]]]; eexists; (split; [|reflexivity]); unfold corner; auto. }
    destruct H as [H|H]; [apply K1|apply K2]; intros v w Iv Iw;
      destruct (In3 _ _ Iv) as (v' & Iv' & ->); destruct (In3 _ _ Iw) as (w' & Iw' & ->); now apply H.
  - assert (E : forall w, pdot (normal_of t) (psub w (v0 t)) = pdot (normal_of t) w - pdot (normal_of t) (v0 t)) by (intros; unfold pdot, psub; cbn; ring).
    assert (O : one_side (normal_of t) (pdot (normal_of t) (v0 t)) u tol = true); [|now rewrite O].
    unfold one_side. apply orb_true_iff. rewrite !forallb_forall.
    destruct H as [H|H]; [left|right]; intros w Iw; pose proof (H w (proj2 (corner_in u w) Iw)) as G; rewrite E in G; destruct (Rlt_dec _ _); lra || reflexivity.
Qed.
Print Assumptions C115_apart.

(** ** A case *)
Definition T0 := Tri A0 B0 C0.
Definition U0 := Tri (P (1/4) (1/4) (-1)) (P (1/4) (1/4) 1) (P 5 (1/4) 0).

Lemma normal_T0 : normal_of T0 = P 0 0 1.
Proof. exact normal0. Qed.

(** A line through the middle of the triangle. *)
Example C115_case : area_ok T0 /\ exists k, meets_line T0 (normal_of T0) (P (1/4) (1/4) (-1)) (P (1/4) (1/4) 1) (1/1000) = Some (P (1/4) (1/4) 0, k).
Proof.
  split; [exact proper0|]. apply C115_line_complete; [exact proper0|lra|exact (proj1 C114_case)| |].
  - exists (1/2). split; [lra|]. unfold at_part, mix; cbn. f_equal; field.
  - rewrite normal_T0. unfold pdot, psub; cbn. rewrite Rabs_right; lra.
Qed.

(** A triangle with a side through the middle of another. *)
Example C115_crossing_case : area_ok U0 /\ forall lines, intersects lines T0 U0 (1/1000) <> None.
Proof.
  assert (Au : area_ok U0) by (unfold area_ok, proper, U0, tri_normal, pdot, pcross, psub; cbn; lra).
  split; [exact Au|]. intros lines.
  assert (Nu : normal_of U0 = P 0 1 0).
  { unfold normal_of. rewrite unit_is by exact Au.
    assert (E : area2 (v0 U0) (v1 U0) (v2 U0) = 19/2).
    { unfold area2, pnorm. replace (pdot _ _) with (19/2 * (19/2)) by (unfold U0, tri_normal, pdot, pcross, psub; cbn; field). apply sqrt_square. lra. }
    rewrite E. apply pt_eq; unfold U0, tri_normal, pscale, pcross, psub; cbn; field. }
  apply (C115_crossing lines T0 U0 (P (1/4) (1/4) 0)); [exact proper0|exact Au|lra| |].
  - rewrite normal_T0, Nu. unfold pnorm. replace (pdot _ _) with 1 by (unfold pdot, pcross; cbn; ring). rewrite sqrt_1. lra.
  - exists T0, U0, (v0 U0), (v1 U0). split; [left; split; reflexivity|]. split; [left; split; reflexivity|].
    split; [exists (1/2); split; [lra|]; unfold at_part, mix, U0; cbn; f_equal; field|]. split; [exact (proj1 C114_case)|].
    split; [rewrite normal_T0; unfold U0, pdot, psub; cbn; rewrite Rabs_right; lra|].
    intros v Iv. unfold dist, pnorm. rewrite <- (sqrt_square (1/1000)) by lra. apply sqrt_lt_1_alt.
    destruct Iv as [-> | [-> | ->]]; unfold T0, A0, B0, C0, pdot, psub; cbn; lra.
Qed.

(** A triangle within another, in the same plane. *)
Example C115_inside_case : let u := Tri (P (1/4) (1/4) 0) (P (1/2) (1/4) 0) (P (1/4) (1/2) 0) in
  area_ok u /\ forall lines, intersects lines T0 u (1/1000) <> None.
Proof.
  intros u. assert (Au : area_ok u) by (unfold area_ok, proper, u, tri_normal, pdot, pcross, psub; cbn; lra).
  split; [exact Au|]. intros lines. apply C115_inside; [exact proper0|exact Au|lra|]. left.
  intros v [-> | [-> | ->]]; [exists (1/2), (1/4), (1/4)|exists (1/4), (1/2), (1/4)|exists (1/4), (1/4), (1/2)];
    (split; [lra|]; split; [lra|]; split; [lra|]; split; [lra|]); unfold mix, T0, A0, B0, C0, u; cbn; f_equal; field.
Qed.

(** Finding: intersects for a line does not calculate the normal. On a triangle on which calculateNormal (or another function that needs the normal) was
    not called before, the normal is the zero vector and no line intersects. *)
Theorem C115_before_refuted : ~ (forall t p q x tol, area_ok t -> 0 < tol -> of_tri t x -> between p q x ->
  tol * tol < Rabs (pdot (normal_of t) (psub q p)) -> meets_line t (P 0 0 0) p q tol <> None).
Proof.
  intros K. apply (K T0 (P (1/4) (1/4) (-1)) (P (1/4) (1/4) 1) (P (1/4) (1/4) 0) (1/1000)); [exact proper0|lra|exact (proj1 C114_case)| | |].
  - exists (1/2). split; [lra|]. unfold at_part, mix; cbn. f_equal; field.
  - rewrite normal_T0. unfold pdot, psub; cbn. rewrite Rabs_right; lra.
  - unfold meets_line, cut. cbn zeta.
    replace (pdot (P 0 0 0) (psub (P (1 / 4) (1 / 4) 1) (P (1 / 4) (1 / 4) (-1)))) with 0 by (unfold pdot, psub; cbn; ring).
    rewrite Rabs_R0. destruct (Rle_dec _ _) as [_|N]; [reflexivity|lra].
Qed.
Print Assumptions C115_before_refuted.

(** Finding: triangles in one plane with opposite orientation count as being in different planes (the offsets d1 and d2 of the planes have opposite
    signs), unless the plane goes through the origin: two that overlap, none containing the other, do not intersect. *)
Theorem C115_opposite_refuted : exists t u x, area_ok t /\ area_ok u /\ of_tri t x /\ of_tri u x /\
  forall lines, intersects lines t u (1/1000) = None.
Proof.
  set (t := Tri (P 0 0 1) (P 4 0 1) (P 0 4 1)). set (u := Tri (P 1 1 1) (P 1 5 1) (P 5 1 1)). set (x := P (3/2) (3/2) 1).
  assert (At : area_ok t) by (unfold area_ok, proper, t, tri_normal, pdot, pcross, psub; cbn; lra).
  assert (Au : area_ok u) by (unfold area_ok, proper, u, tri_normal, pdot, pcross, psub; cbn; lra).
  assert (A16 : forall z, area_ok z -> pdot (tri_normal (v0 z) (v1 z) (v2 z)) (tri_normal (v0 z) (v1 z) (v2 z)) = 256 -> area2 (v0 z) (v1 z) (v2 z) = 16).
  { intros z _ E. unfold area2, pnorm. rewrite E. replace 256 with (16 * 16) by ring. apply sqrt_square. lra. }
  assert (Nt : normal_of t = P 0 0 1).
  { unfold normal_of. rewrite unit_is by exact At. rewrite A16; [|exact At|unfold t, tri_normal, pdot, pcross, psub; cbn; ring].
    apply pt_eq; unfold t, tri_normal, pscale, pcross, psub; cbn; field. }
  assert (Nu : normal_of u = P 0 0 (-1)).
  { unfold normal_of. rewrite unit_is by exact Au. rewrite A16; [|exact Au|unfold u, tri_normal, pdot, pcross, psub; cbn; ring].
    apply pt_eq; unfold u, tri_normal, pscale, pcross, psub; cbn; field. }
  assert (Xt : of_tri t x).
  { exists (1/4), (3/8), (3/8). split; [lra|]. split; [lra|]. split; [lra|]. split; [lra|]. unfold x, mix, t; cbn. f_equal; field. }
  assert (Xu : of_tri u x).
  { exists (3/4), (1/8), (1/8). split; [lra|]. split; [lra|]. split; [lra|]. split; [lra|]. unfold x, mix, u; cbn. f_equal; field. }
  exists t, u, x. split; [exact At|]. split; [exact Au|]. split; [exact Xt|]. split; [exact Xu|]. intros lines.
  assert (Far : forall a b, 1 <= pdot (psub a b) (psub a b) -> 1 <= pnorm (psub a b)).
  { intros a b G. unfold pnorm. rewrite <- sqrt_1 at 1. apply sqrt_le_1_alt. exact G. }
  assert (Sh : shared t u (1/1000) = 0%nat).
  { unfold shared. assert (Q : forall l, (forall a b, In (a, b) l -> 1 <= pnorm (psub a b)) ->
      filter (fun pq : pt * pt => if Rlt_dec (pnorm (psub (fst pq) (snd pq))) (1/1000) then true else false) l = []).
    { induction l as [|[a b] l IH]; intros G; [reflexivity|]. cbn [filter fst snd]. pose proof (G a b (or_introl eq_refl)).
      destruct (Rlt_dec _ _); [lra|]. apply IH. intros; apply G; now right. }
    rewrite Q; [reflexivity|]. intros a b I. apply in_prod_iff in I as [Ia Ib]. apply Far.
    destruct Ia as [<-|[<-|[<-|[]]]], Ib as [<-|[<-|[<-|[]]]]; unfold t, u, pdot, psub; cbn; lra. }
  assert (Cut : forall z pq w, (z = t \/ z = u) -> (In pq (sides t) \/ In pq (sides u)) -> cut (fst pq) (snd pq) (normal_of z) w (1/1000) = None).
  { intros z pq w Hz I. unfold cut. cbn zeta.
    replace (pdot (normal_of z) (psub (snd pq) (fst pq))) with 0; [rewrite Rabs_R0; destruct (Rle_dec _ _); [reflexivity|lra]|].
    destruct Hz as [-> | ->]; rewrite ?Nt, ?Nu; destruct I as [[<-|[<-|[<-|[]]]]|[<-|[<-|[<-|[]]]]]; unfold pdot, psub, t, u; cbn; ring. }
  assert (Out : forall z p, (exists f, (f = px \/ f = py \/ f = pz) /\ (forall v, In v (vertices z) -> f v + 1/1000 < f p \/ f p < f v - 1/1000) /\
    ((forall v, In v (vertices z) -> f v + 1/1000 < f p) \/ (forall v, In v (vertices z) -> f p < f v - 1/1000))) -> has_point z p (1/1000) = None).
  { intros z p (f & Hf & _ & G). unfold has_point, contains.
    assert (Wf : within (f (v0 z)) (f (v1 z)) (f (v2 z)) (f p) (1/1000) = false).
    { destruct (within _ _ _ _ _) eqn:W; [exfalso|reflexivity]. apply within_ok in W.
      destruct G as [G|G]; pose proof (G (v0 z) (or_introl eq_refl)); pose proof (G (v1 z) (or_intror (or_introl eq_refl)));
      pose proof (G (v2 z) (or_intror (or_intror (or_introl eq_refl)))); revert W; unfold Rmin, Rmax; repeat destruct (Rle_dec _ _); lra. }
    unfold boxed. destruct Hf as [-> | [-> | ->]]; rewrite Wf, ?andb_false_r; reflexivity. }
  assert (Ht : has_point t (P 5 1 1) (1/1000) = None).
  { apply Out. exists px. split; [auto|]. assert (G : forall v, In v (vertices t) -> px v + 1/1000 < px (P 5 1 1)) by (intros v [<-|[<-|[<-|[]]]]; cbn; lra).
    split; [intros v Iv; left; now apply G|left; exact G]. }
  assert (Hu : has_point u (P 0 0 1) (1/1000) = None).
  { apply Out. exists px. split; [auto|]. assert (G : forall v, In v (vertices u) -> px (P 0 0 1) < px v - 1/1000) by (intros v [<-|[<-|[<-|[]]]]; cbn; lra).
    split; [intros v Iv; right; now apply G|right; exact G]. }
  unfold intersects. destruct (boxes t u _); [cbn [negb]|reflexivity].
  destruct (one_side (normal_of t) _ u _); [reflexivity|]. destruct (one_side (normal_of u) _ u _); [reflexivity|].
  rewrite Sh. cbn [Nat.eqb].
  destruct (Rle_dec (Rabs _) _) as [G|_].
  { exfalso. rewrite Nt, Nu in G. replace (pdot (P 0 0 1) (v0 t) - pdot (P 0 0 (-1)) (v0 u)) with 2 in G by (unfold t, u, pdot; cbn; ring). rewrite Rabs_right in G; lra. }
  rewrite andb_false_r.
  assert (Pi : forall z pq, (z = t \/ z = u) -> (In pq (sides t) \/ In pq (sides u)) -> pierced z pq (1/1000) = false) by (intros z pq Hz I; unfold pierced; now rewrite Cut).
  assert (Ef : forall (g : pt * pt -> bool) l, (forall e, In e l -> g e = false) -> existsb g l = false).
  { induction l as [|e l IH]; intros G; [reflexivity|]. cbn [existsb]. rewrite G by now left. apply IH. intros; apply G; now right. }
  assert (E1 : existsb (fun e => pierced t e (1/1000)) (sides u) = false) by (apply Ef; intros e Ie; apply Pi; auto).
  assert (E2 : existsb (fun e => pierced u e (1/1000)) (sides t) = false) by (apply Ef; intros e Ie; apply Pi; auto).
  rewrite E1, E2. cbn [orb]. unfold last_tests. cbn [Nat.eqb].
  assert (F1 : holds_all t u (1/1000) = false) by (unfold holds_all; cbn [vertices forallb]; change (v2 u) with (P 5 1 1); rewrite Ht; now rewrite !andb_false_r).
  assert (F2 : holds_all u t (1/1000) = false) by (unfold holds_all; cbn [vertices forallb]; change (v0 t) with (P 0 0 1); now rewrite Hu).
  rewrite F1, F2. reflexivity.
Qed.
Print Assumptions C115_opposite_refuted.
