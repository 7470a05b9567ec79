(** C87, C88: the cylinder and the sphere of constructive solid geometry. *)
From Coq Require Import Reals List Lia Lra Permutation.
From Verif Require Import Fem_Model Fem_Proofs Prim_Model.
Import ListNotations.
Open Scope R_scope.

(** ** Vocabulary *)
(** Directed edges of a polyline. *)
Fixpoint edges (vs : list pt) : list (pt * pt) := match vs with a :: ((b :: _) as rest) => (a, b) :: edges rest | _ => [] end.
Definition swap (e : pt * pt) : pt * pt := (snd e, fst e).
(** A closed surface: every edge is used as often in one direction as in the other. *)
Definition watertight (ps : list rpoly) : Prop := let E := flat_map (fun p => edges (rp_vs p)) ps in Permutation (map swap E) E.
Definition is_loop (vs : list pt) : Prop := exists a rest, vs = a :: rest ++ [a].
(** Six times the volume between a reference point and a triangle; volume enclosed by polygons: fans from the first vertices. *)
Definition tri6 (o a b c : pt) : R := pdot (psub a o) (pcross (psub b o) (psub c o)).
Definition total (l : list R) : R := fold_right Rplus 0 l.
Definition fan6 (o : pt) (vs : list pt) : R := match vs with a :: rest => total (map (fun e => tri6 o a (fst e) (snd e)) (edges rest)) | [] => 0 end.
Definition enclosed (o : pt) (ps : list rpoly) : R := total (map (fun p => fan6 o (rp_vs p) / 6) ps).
(** All vertices of the polygon lie on the far side of the plane through c at right angles to the normal. *)
Definition faces_away (c : pt) (p : rpoly) : Prop := forall q, In q (rp_vs p) -> 0 < pdot (rp_normal p) (psub q c).

(** ** The volume does not depend on the reference point *)
Lemma total_app l l' : total (l ++ l') = total l + total l'.
Proof. unfold total. induction l as [|x l IH]; cbn; [ring|]. rewrite IH. ring. Qed.
Lemma total_perm l l' : Permutation l l' -> total l = total l'.
Proof. unfold total. induction 1; cbn [fold_right] in *; lra. Qed.
Lemma total_ext {A} (f g : A -> R) l : (forall x, In x l -> f x = g x) -> total (map f l) = total (map g l).
Proof. intros H. induction l as [|x l IH]; cbn; [reflexivity|]. rewrite H by now left. f_equal. apply IH. intros; apply H. now right. Qed.
Lemma total_scale {A} c (f : A -> R) l : total (map (fun x => c * f x) l) = c * total (map f l).
Proof. unfold total in *. induction l as [|x l IH]; cbn in *; [ring|]. rewrite IH. ring. Qed.
Lemma total_plus {A} (f g : A -> R) l : total (map (fun x => f x + g x) l) = total (map f l) + total (map g l).
Proof. unfold total in *. induction l as [|x l IH]; cbn in *; [ring|]. rewrite IH. ring. Qed.
Lemma total_flat {A B} (f : B -> R) (g : A -> list B) l : total (map f (flat_map g l)) = total (map (fun x => total (map f (g x))) l).
Proof. induction l as [|x l IH]; cbn; [reflexivity|]. rewrite map_app, total_app, IH. reflexivity. Qed.
Lemma total_const {A} c (l : list A) : total (map (fun _ => c) l) = INR (length l) * c.
Proof. induction l as [|x l IH]; cbn [map length]; [cbn; ring|]. rewrite S_INR. cbn. unfold total in IH. rewrite IH. ring. Qed.
(** o . (p x q) for an edge *)
Definition sweep (o : pt) (e : pt * pt) : R := pdot o (pcross (fst e) (snd e)).
Lemma fan_shift o a rest : total (map (fun e => tri6 o a (fst e) (snd e)) (edges (rest ++ [a]))) =
  total (map (fun e => tri6 (P 0 0 0) a (fst e) (snd e)) (edges (rest ++ [a]))) - total (map (sweep o) (edges (a :: rest ++ [a]))).
Proof.
  assert (G : forall l x, total (map (fun e => tri6 o a (fst e) (snd e)) (edges (x :: l ++ [a]))) =
     total (map (fun e => tri6 (P 0 0 0) a (fst e) (snd e)) (edges (x :: l ++ [a]))) - total (map (sweep o) (edges (x :: l ++ [a]))) - sweep o (a, x)).
  { induction l as [|y l IH]; intros x.
    - cbn. unfold sweep, tri6, pdot, pcross, psub. cbn. ring.
    - change ((y :: l) ++ [a]) with (y :: (l ++ [a])). cbn [edges map total fold_right fst snd]. unfold total in IH. cbn [edges] in IH. specialize (IH y). 
      match type of IH with ?p = ?q - ?r - ?s => set (P1 := p) in *; set (Q1 := q) in *; set (R1 := r) in * end. rewrite IH. unfold sweep, tri6, pdot, pcross, psub. cbn. ring. }
  destruct rest as [|x rest].
  - cbn. unfold sweep, tri6, pdot, pcross, psub. cbn. ring.
  - change ((x :: rest) ++ [a]) with (x :: (rest ++ [a])). rewrite G. cbn [edges map total fold_right]. unfold total. cbn [edges]. ring.
Qed.
Lemma sweep_swap o e : sweep o (swap e) = - sweep o e.
Proof. unfold sweep, swap, pdot, pcross. cbn. ring. Qed.
Lemma watertight_sweep o ps : watertight ps -> total (map (sweep o) (flat_map (fun p => edges (rp_vs p)) ps)) = 0.
Proof.
  unfold watertight. cbv zeta. set (E := flat_map _ _). intros H. apply (Permutation_map (sweep o)) in H. apply total_perm in H. rewrite map_map in H.
  rewrite (total_ext _ (fun e => -1 * sweep o e)) in H by (intros; rewrite sweep_swap; ring). rewrite total_scale in H. lra.
Qed.
Lemma enclosed_invariant o o' ps : watertight ps -> (forall p, In p ps -> is_loop (rp_vs p)) -> enclosed o ps = enclosed o' ps.
Proof.
  intros W L.
  assert (G : forall o, enclosed o ps = enclosed (P 0 0 0) ps - total (map (sweep o) (flat_map (fun p => edges (rp_vs p)) ps)) / 6).
  { clear o o' W. intros o. unfold enclosed. rewrite total_flat. induction ps as [|p ps IH]; [cbn; field|]. cbn [map total fold_right]. unfold total in IH. rewrite IH by (intros; apply L; now right).
    destruct (L p (or_introl eq_refl)) as (a & rest & ->). unfold fan6 at 1. rewrite fan_shift. unfold total. cbn [fan6]. unfold total. field. }
  rewrite (G o), (G o'), !watertight_sweep by exact W. reflexivity.
Qed.

(** ** Normals *)
Lemma corner_normal_shape eps vs z : (exists a b c rest, vs = a :: b :: c :: rest) -> 
  exists before a b c after k, vs = before ++ a :: b :: c :: after /\ 0 < k /\ corner_normal eps vs z = pscale k (pcross (psub b a) (psub c a)).
Proof.
  intros (a & b & c & rest & ->). revert a b c z. induction rest as [|d rest IH]; intros a b c z.
  - exists [], a, b, c, []. cbn [corner_normal]. set (w := pcross _ _). destruct (Rlt_dec eps (pnorm w)).
    + unfold pnormalize. destruct (Rlt_dec 0 (pdot w w)) as [H|H]; [|exists 1; split; [reflexivity|]; split; [lra|destruct w; unfold pscale; cbn; f_equal; ring]].
      exists (/ pnorm w). split; [reflexivity|]. split; [apply Rinv_0_lt_compat; unfold pnorm; now apply sqrt_lt_R0|reflexivity].
    + exists 1. split; [reflexivity|]. split; [lra|]. destruct w; unfold pscale; cbn; f_equal; ring.
  - cbn [corner_normal]. set (w := pcross (psub b a) (psub c a)). destruct (Rlt_dec eps (pnorm w)).
    + exists [], a, b, c, (d :: rest). fold w. unfold pnormalize. destruct (Rlt_dec 0 (pdot w w)) as [H|H]; [|exists 1; split; [reflexivity|]; split; [lra|destruct w; unfold pscale; cbn; f_equal; ring]].
      exists (/ pnorm w). split; [reflexivity|]. split; [apply Rinv_0_lt_compat; unfold pnorm; now apply sqrt_lt_R0|reflexivity].
    + destruct (IH b c d w) as (before & a' & b' & c' & after & k & Ev & Hk & En). exists (a :: before), a', b', c', after, k. split; [cbn; now rewrite Ev|]. split; [exact Hk|exact En].
Qed.
(** If every corner turns so that all vertices are on the far side, so does the normal. *)
Lemma faces_away_corners eps vs c0 : (exists a b c rest, vs = a :: b :: c :: rest) ->
  (forall before a b c after, vs = before ++ a :: b :: c :: after -> forall q, In q vs -> 0 < pdot (pcross (psub b a) (psub c a)) (psub q c0)) ->
  faces_away c0 (RPoly vs (corner_normal eps vs (P 0 0 0))).
Proof.
  intros H3 H q Hq. cbn [rp_vs rp_normal] in *. destruct (corner_normal_shape eps vs (P 0 0 0) H3) as (before & a & b & c & after & k & Ev & Hk & ->).
  specialize (H _ _ _ _ _ Ev q Hq). replace (pdot (pscale k (pcross (psub b a) (psub c a))) (psub q c0)) with (k * pdot (pcross (psub b a) (psub c a)) (psub q c0)) by (unfold pdot, pscale; cbn; ring).
  now apply Rmult_lt_0_compat.
Qed.
Lemma three_corners (P0 : pt -> pt -> pt -> Prop) a b c : P0 a b c -> P0 b c a -> forall before x y z after, [a; b; c; a] = before ++ x :: y :: z :: after -> P0 x y z.
Proof. intros H1 H2 before x y z after E. destruct before as [|? [|? before]]; cbn in E; [injection E as <- <- <- <-; exact H1|injection E as <- <- <- <- <-; exact H2|]. exfalso. apply (f_equal (@length pt)) in E. cbn in E. rewrite app_length in E. cbn in E. lia. Qed.
Lemma four_corners (P0 : pt -> pt -> pt -> Prop) a b c d : P0 a b c -> P0 b c d -> P0 c d a -> forall before x y z after, [a; b; c; d; a] = before ++ x :: y :: z :: after -> P0 x y z.
Proof. intros H1 H2 H3 before x y z after E. destruct before as [|? [|? [|? before]]]; cbn in E; [injection E as <- <- <- <-; exact H1|injection E as <- <- <- <- <-; exact H2|injection E as <- <- <- <- <- <-; exact H3|]. exfalso. apply (f_equal (@length pt)) in E. cbn in E. rewrite app_length in E. cbn in E. lia. Qed.
Lemma pnorm_nonzero p : p <> P 0 0 0 -> 0 < pnorm p.
Proof.
  intros H. unfold pnorm. apply sqrt_lt_R0. unfold pdot. destruct p as [x y z]. cbn.
  destruct (Req_dec x 0) as [->|]; [destruct (Req_dec y 0) as [->|]; [destruct (Req_dec z 0) as [->|]; [congruence|]|]|]; assert (forall t, t <> 0 -> 0 < t * t) by (intros t Ht; apply Rsqr_pos_lt; exact Ht); assert (forall t, 0 <= t * t) by (intros t; apply Rle_0_sqr); 
  repeat match goal with H : ?t <> 0, G : forall t, t <> 0 -> 0 < t * t |- _ => let K := fresh in assert (K := G t H); clear H end.
  all: match goal with G : forall t, 0 <= t * t |- 0 < ?a * ?a + ?b * ?b + ?c * ?c => pose proof (G a); pose proof (G b); pose proof (G c) end; lra.
Qed.
Lemma pclose3 a b c : c <> a -> pclose [a; b; c] = [a; b; c; a].
Proof.
  intros H. unfold pclose. cbn [last]. destruct (Rlt_dec 0 (pnorm (psub c a))) as [|N]; [reflexivity|]. exfalso. apply N, pnorm_nonzero. intros Z. apply H. destruct c as [x y z], a as [x' y' z']. unfold psub in Z. cbn in Z. injection Z as Z1 Z2 Z3. f_equal; lra.
Qed.
Lemma pclose4 a b c d : d <> a -> pclose [a; b; c; d] = [a; b; c; d; a].
Proof.
  intros H. unfold pclose. cbn [last]. destruct (Rlt_dec 0 (pnorm (psub d a))) as [|N]; [reflexivity|]. exfalso. apply N, pnorm_nonzero. intros Z. apply H. destruct d as [x y z], a as [x' y' z']. unfold psub in Z. cbn in Z. injection Z as Z1 Z2 Z3. f_equal; lra.
Qed.
(** Going round: a shift by one of a periodic sequence is a permutation. *)
Lemma shift_perm {A} (f : nat -> A) n : f n = f 0%nat -> Permutation (map f (seq 0 n)) (map (fun i => f (i + 1)%nat) (seq 0 n)).
Proof.
  intros H. destruct n as [|n]; [constructor|]. rewrite seq_S at 2. rewrite map_app. cbn [map Nat.add]. replace (n + 1)%nat with (S n) by lia. rewrite H.
  cbn [seq map]. rewrite <- seq_shift, map_map. rewrite (map_ext (fun i => f (i + 1)%nat) (fun i => f (S i))) by (intros; f_equal; lia). apply Permutation_cons_append.
Qed.
Lemma flat_map_split {A B} (f g : A -> list B) l : Permutation (flat_map (fun x => f x ++ g x) l) (flat_map f l ++ flat_map g l).
Proof.
  induction l as [|x l IH]; cbn; [constructor|]. rewrite <- !app_assoc. apply Permutation_app_head. rewrite IH. rewrite !app_assoc. apply Permutation_app_tail. apply Permutation_app_comm.
Qed.
Lemma flat_map_one {A B} (f : A -> B) l : flat_map (fun x => [f x]) l = map f l.
Proof. induction l as [|x l IH]; cbn; [reflexivity|]. now rewrite IH. Qed.
(** Counting edges. *)
Definition pt_dec (a b : pt) : {a = b} + {a <> b}.
Proof. destruct a as [x y z], b as [x' y' z']. destruct (Req_EM_T x x') as [->|]; [|right; congruence]. destruct (Req_EM_T y y') as [->|]; [|right; congruence]. destruct (Req_EM_T z z') as [->|]; [now left|right; congruence]. Defined.
Definition edge_dec (a b : pt * pt) : {a = b} + {a <> b}.
Proof. destruct a as [x y], b as [x' y']. destruct (pt_dec x x') as [->|]; [|right; congruence]. destruct (pt_dec y y') as [->|]; [now left|right; congruence]. Defined.
Definition cnt (x : pt * pt) (l : list (pt * pt)) : nat := count_occ edge_dec l x.
Lemma cnt_perm l l' : (forall x, cnt x l = cnt x l') -> Permutation l l'.
Proof. intros H. apply (Permutation_count_occ edge_dec). exact H. Qed.
Lemma perm_cnt x l l' : Permutation l l' -> cnt x l = cnt x l'.
Proof. intros H. now apply (Permutation_count_occ edge_dec) with (x := x) in H. Qed.
Lemma cnt_app x l l' : cnt x (l ++ l') = (cnt x l + cnt x l')%nat.
Proof. apply count_occ_app. Qed.
Lemma cnt_cons {A} x (f : A -> pt * pt) (g : A -> list (pt * pt)) l : cnt x (flat_map (fun i => f i :: g i) l) = (cnt x (map f l) + cnt x (flat_map g l))%nat.
Proof. induction l as [|i l IH]; [reflexivity|]. cbn [flat_map map]. change (f i :: g i) with ([f i] ++ g i). change (f i :: map f l) with ([f i] ++ map f l). rewrite <- app_assoc, !cnt_app, IH. lia. Qed.
Lemma cnt_none {A} x (l : list A) : cnt x (flat_map (fun _ => []) l) = 0%nat.
Proof. induction l; auto. Qed.
Lemma flat_map_flat {A B C} (f : B -> list C) (g : A -> list B) l : flat_map f (flat_map g l) = flat_map (fun x => flat_map f (g x)) l.
Proof. induction l as [|x l IH]; cbn; [reflexivity|]. now rewrite flat_map_app, IH. Qed.
Lemma map_flat {A B C} (f : B -> C) (g : A -> list B) l : map f (flat_map g l) = flat_map (fun x => map f (g x)) l.
Proof. induction l as [|x l IH]; cbn; [reflexivity|]. now rewrite map_app, IH. Qed.

(** ** The cylinder *)
Lemma pnormalize_unit p : 0 < pdot p p -> pdot (pnormalize p) (pnormalize p) = 1 /\ pnormalize p = pscale (/ pnorm p) p.
Proof.
  intros H. unfold pnormalize. destruct (Rlt_dec 0 (pdot p p)); [|contradiction]. split; [|reflexivity]. assert (N := pnorm_pos p H). assert (Q := pnorm_sqr p).
  replace (pdot (pscale (/ pnorm p) p) (pscale (/ pnorm p) p)) with (/ pnorm p * / pnorm p * pdot p p) by (unfold pdot, pscale; cbn; ring). rewrite <- Q. field. lra.
Qed.
Section Cylinder.
Context (s e : pt) (r : R) (n : nat) (Hse : s <> e) (Hr : 0 < r) (Hn : (3 <= n)%nat).
Let L := pnorm (psub e s).
Let X := cyl_X s e.
Let Y := cyl_Y s e.
Let Z := cyl_Z s e.
Lemma cyl_L : 0 < L.
Proof. apply pnorm_nonzero. intros H. apply Hse. destruct s as [x y z], e as [x' y' z']. unfold psub in H. cbn in H. injection H as H1 H2 H3. f_equal; lra. Qed.
Lemma cyl_frame : pdot X X = 1 /\ pdot Y Y = 1 /\ pdot Z Z = 1 /\ pdot X Y = 0 /\ pdot X Z = 0 /\ pdot Y Z = 0 /\ pdot (pcross X Y) Z = -1 /\ psub e s = pscale L Z.
Proof.
  assert (HL := cyl_L). assert (D : 0 < pdot (psub e s) (psub e s)) by (rewrite <- pnorm_sqr; apply Rmult_lt_0_compat; exact HL).
  destruct (pnormalize_unit _ D) as (ZZ & EZ). fold (cyl_Z s e) in ZZ, EZ. fold Z in ZZ, EZ. fold L in EZ.
  assert (ES : psub e s = pscale L Z) by (rewrite EZ; destruct (psub e s) as [x y z]; unfold pscale; cbn; f_equal; field; lra).
  set (v := if Rlt_dec (1 / 2) (Rabs (py Z)) then P 1 0 0 else P 0 1 0).
  assert (DX : 0 < pdot (pcross v Z) (pcross v Z)).
  { unfold v. destruct (Rlt_dec (1 / 2) (Rabs (py Z))) as [H|H]; unfold pdot, pcross in *; cbn.
    - assert (0 < py Z * py Z). { assert (Q : py Z * py Z = Rabs (py Z) * Rabs (py Z)) by (rewrite <- Rabs_mult; symmetry; apply Rabs_pos_eq, Rle_0_sqr). rewrite Q. apply Rmult_lt_0_compat; lra. }
      assert (0 <= pz Z * pz Z) by apply Rle_0_sqr. lra.
    - assert (py Z * py Z <= 1 / 4). { assert (Q : py Z * py Z = Rabs (py Z) * Rabs (py Z)) by (rewrite <- Rabs_mult; symmetry; apply Rabs_pos_eq, Rle_0_sqr). rewrite Q. assert (0 <= Rabs (py Z)) by apply Rabs_pos. replace (1 / 4) with (1 / 2 * (1 / 2)) by lra. apply Rmult_le_compat; lra. }
      lra. }
  destruct (pnormalize_unit _ DX) as (XX & EX). change (pnormalize (pcross v Z)) with X in XX, EX. set (k := / pnorm (pcross v Z)) in EX.
  assert (XZ : pdot X Z = 0) by (rewrite EX; unfold pdot, pscale, pcross; cbn; ring).
  assert (W1 : pdot (pcross X Z) (pcross X Z) = 1).
  { transitivity (pdot X X * pdot Z Z - pdot X Z * pdot X Z); [unfold pdot, pcross; cbn; ring|]. rewrite XX, ZZ, XZ. ring. }
  assert (EY : Y = pcross X Z).
  { unfold Y, cyl_Y. fold X Z. destruct (pnormalize_unit (pcross X Z)) as (_ & ->); [lra|]. rewrite (pnorm_unique _ 1); [|lra|lra]. rewrite Rinv_1. destruct (pcross X Z); unfold pscale; cbn; f_equal; ring. }
  repeat match goal with |- _ /\ _ => split end; try assumption; try (rewrite EY).
  - exact W1.
  - unfold pdot, pcross; cbn; ring.
  - unfold pdot, pcross; cbn; ring.
  - transitivity (pdot X Z * pdot X Z - pdot X X * pdot Z Z); [unfold pdot, pcross; cbn; ring|]. rewrite XX, ZZ, XZ. ring.
Qed.
(** Points in the frame of the cylinder. *)
Definition fp (x y z : R) : pt := padd s (padd (pscale x X) (padd (pscale y Y) (pscale z Z))).
Lemma fp_point stack t : cyl_point s e r stack t = fp (r * cos (t * PI * 2)) (r * sin (t * PI * 2)) (stack * L).
Proof. destruct cyl_frame as (_ & _ & _ & _ & _ & _ & _ & ES). unfold cyl_point, fp. cbv zeta. fold X Y. rewrite ES. unfold padd, pscale. cbn. f_equal; ring. Qed.
Lemma fp_start : s = fp 0 0 0.
Proof. unfold fp, padd, pscale. destruct s. cbn. f_equal; ring. Qed.
Lemma fp_end : e = fp 0 0 L.
Proof. destruct cyl_frame as (_ & _ & _ & _ & _ & _ & _ & ES). transitivity (padd s (psub e s)); [unfold padd, psub; destruct s, e; cbn; f_equal; ring|]. rewrite ES. unfold fp, padd, pscale. cbn. f_equal; ring. Qed.
Lemma fp_mid : pscale (1 / 2) (padd s e) = fp 0 0 (L / 2).
Proof. rewrite fp_end at 1. unfold fp, padd, pscale. cbn. f_equal; field. Qed.
Lemma fp_det x y z x' y' z' x'' y'' z'' u v w u' v' w' :
  pdot (pcross (psub (fp x' y' z') (fp x y z)) (psub (fp x'' y'' z'') (fp x y z))) (psub (fp u v w) (fp u' v' w')) =
  - (((y' - y) * (z'' - z) - (z' - z) * (y'' - y)) * (u - u') + ((z' - z) * (x'' - x) - (x' - x) * (z'' - z)) * (v - v') + ((x' - x) * (y'' - y) - (y' - y) * (x'' - x)) * (w - w')).
Proof.
  destruct cyl_frame as (_ & _ & _ & _ & _ & _ & D & _).
  transitivity ((((y' - y) * (z'' - z) - (z' - z) * (y'' - y)) * (u - u') + ((z' - z) * (x'' - x) - (x' - x) * (z'' - z)) * (v - v') + ((x' - x) * (y'' - y) - (y' - y) * (x'' - x)) * (w - w')) * pdot (pcross X Y) Z).
  - unfold fp, pdot, pcross, psub, padd, pscale. cbn. ring.
  - rewrite D. ring.
Qed.
Lemma fp_tri6 x y z x' y' z' x'' y'' z'' : tri6 s (fp x y z) (fp x' y' z') (fp x'' y'' z'') = - ((y' * z'' - z' * y'') * x + (z' * x'' - x' * z'') * y + (x' * y'' - y' * x'') * z).
Proof.
  destruct cyl_frame as (_ & _ & _ & _ & _ & _ & D & _). transitivity (((y' * z'' - z' * y'') * x + (z' * x'' - x' * z'') * y + (x' * y'' - y' * x'') * z) * pdot (pcross X Y) Z).
  - unfold tri6, fp, pdot, pcross, psub, padd, pscale. cbn. ring.
  - rewrite D. ring.
Qed.
Lemma fp_inj x y z x' y' z' : fp x y z = fp x' y' z' -> x = x' /\ y = y' /\ z = z'.
Proof.
  destruct cyl_frame as (XX & YY & ZZ & XY & XZ & YZ & _ & _). intros H.
  assert (C : forall w, pdot (psub (fp x y z) (fp x' y' z')) w = (x - x') * pdot X w + (y - y') * pdot Y w + (z - z') * pdot Z w) by (intros w; unfold fp, pdot, psub, padd, pscale; cbn; ring).
  assert (N : forall w, pdot (psub (fp x y z) (fp x' y' z')) w = 0) by (intros w; rewrite H; unfold pdot, psub; cbn; ring).
  assert (CX := C X). assert (CY := C Y). assert (CZ := C Z). rewrite N in CX, CY, CZ.
  assert (S : pdot Y X = 0 /\ pdot Z X = 0 /\ pdot Z Y = 0) by (unfold pdot in *; repeat split; lra). destruct S as (S1 & S2 & S3).
  rewrite XX, S1, S2 in CX. rewrite XY, YY, S3 in CY. rewrite XZ, YZ, ZZ in CZ. repeat split; lra.
Qed.
Lemma fp_dist x y z z' : pnorm (psub (fp x y z) (fp 0 0 z')) = sqrt (x * x + y * y + (z - z') * (z - z')).
Proof.
  destruct cyl_frame as (XX & YY & ZZ & XY & XZ & YZ & _ & _). unfold pnorm. f_equal.
  transitivity (x * x * pdot X X + y * y * pdot Y Y + (z - z') * (z - z') * pdot Z Z + 2 * (x * y * pdot X Y + x * (z - z') * pdot X Z + y * (z - z') * pdot Y Z)).
  - unfold fp, pdot, psub, padd, pscale. cbn. ring.
  - rewrite XX, YY, ZZ, XY, XZ, YZ. ring.
Qed.

(** Angles. *)
Let C (i : nat) := cos (INR i / INR n * PI * 2).
Let Sn (i : nat) := sin (INR i / INR n * PI * 2).
Lemma INR_n : 3 <= INR n. Proof. replace 3 with (INR 3) by (cbn; ring). now apply le_INR. Qed.
Lemma step_angle : 0 < 2 * PI / INR n < PI.
Proof.
  pose proof INR_n. pose proof PI_RGT_0. split; [apply Rdiv_lt_0_compat; lra|]. apply (Rmult_lt_reg_r (INR n)); [lra|]. replace (2 * PI / INR n * INR n) with (2 * PI) by (field; lra). nra.
Qed.
Lemma step_sin i : C i * Sn (i + 1) - Sn i * C (i + 1) = sin (2 * PI / INR n).
Proof.
  pose proof INR_n. unfold C, Sn. replace (2 * PI / INR n) with (INR (i + 1) / INR n * PI * 2 - INR i / INR n * PI * 2) by (rewrite plus_INR; cbn [INR]; field; lra). rewrite sin_minus. ring.
Qed.
Lemma circle i : C i * C i + Sn i * Sn i = 1.
Proof. unfold C, Sn. assert (H := sin2_cos2 (INR i / INR n * PI * 2)). unfold Rsqr in H. lra. Qed.
Lemma round : C n = C 0 /\ Sn n = Sn 0.
Proof.
  pose proof INR_n. unfold C, Sn. replace (INR n / INR n * PI * 2) with (2 * PI) by (field; lra). replace (INR 0 / INR n * PI * 2) with 0 by (cbn [INR]; field; lra). rewrite cos_2PI, sin_2PI, cos_0, sin_0. auto.
Qed.
Definition low (i : nat) : pt := fp (r * C i) (r * Sn i) 0.
Definition high (i : nat) : pt := fp (r * C i) (r * Sn i) L.
Lemma off_axis i z z' : fp (r * C i) (r * Sn i) z <> fp 0 0 z'.
Proof.
  intros H. apply fp_inj in H. destruct H as (H1 & H2 & _). apply Rmult_integral in H1, H2. pose proof (circle i) as Q. destruct H1 as [H1|H1]; [lra|]. destruct H2 as [H2|H2]; [lra|]. rewrite H1, H2 in Q. lra.
Qed.
Lemma slice_polygons eps i : cyl_slice eps s e r n i =
  [ (let vs := [s; low i; low (i + 1); s] in RPoly vs (corner_normal eps vs (P 0 0 0)));
    (let vs := [low (i + 1); low i; high i; high (i + 1); low (i + 1)] in RPoly vs (corner_normal eps vs (P 0 0 0)));
    (let vs := [e; high (i + 1); high i; e] in RPoly vs (corner_normal eps vs (P 0 0 0)))].
Proof.
  unfold cyl_slice. cbv zeta. rewrite !fp_point. change (cos (INR i / INR n * PI * 2)) with (C i). change (sin (INR i / INR n * PI * 2)) with (Sn i).
  change (cos (INR (i + 1) / INR n * PI * 2)) with (C (i + 1)). change (sin (INR (i + 1) / INR n * PI * 2)) with (Sn (i + 1)). rewrite !Rmult_0_l, !Rmult_1_l.
  fold (low i) (low (i + 1)) (high i) (high (i + 1)). unfold polygon. pose proof cyl_L as HL.
  assert (N1 : low (i + 1) <> s) by (intros H; apply (off_axis (i + 1) 0 0); rewrite <- fp_start; exact H).
  assert (N2 : high i <> e) by (intros H; apply (off_axis i L L); rewrite <- fp_end; exact H).
  assert (N3 : high (i + 1) <> low (i + 1)) by (unfold high, low; intros H; apply fp_inj in H; lra).
  rewrite (pclose3 s _ _ N1), (pclose3 e _ _ N2), (pclose4 _ _ _ _ N3). reflexivity.
Qed.
Lemma cylinder_shape eps p : In p (csg_cylinder eps s e r n) -> exists i,
  p = (let vs := [s; low i; low (i + 1); s] in RPoly vs (corner_normal eps vs (P 0 0 0))) \/
  p = (let vs := [low (i + 1); low i; high i; high (i + 1); low (i + 1)] in RPoly vs (corner_normal eps vs (P 0 0 0))) \/
  p = (let vs := [e; high (i + 1); high i; e] in RPoly vs (corner_normal eps vs (P 0 0 0))).
Proof. intros H. apply in_flat_map in H. destruct H as (i & _ & H). rewrite slice_polygons in H. exists i. destruct H as [<- | [<- | [<- | []]]]; auto. Qed.
Lemma cylinder_loops eps p : In p (csg_cylinder eps s e r n) -> is_loop (rp_vs p).
Proof. intros H. apply cylinder_shape in H. destruct H as (i & [-> | [-> | ->]]); cbn; [exists s, [low i; low (i + 1)]|exists (low (i + 1)), [low i; high i; high (i + 1)]|exists e, [high (i + 1); high i]]; reflexivity. Qed.
Lemma cylinder_watertight eps : watertight (csg_cylinder eps s e r n).
Proof.
  unfold watertight, csg_cylinder. rewrite flat_map_flat. cbv zeta.
  rewrite (flat_map_ext _ (fun i => [(s, low i); (low i, low (i + 1)); (low (i + 1), s); (low (i + 1), low i); (low i, high i); (high i, high (i + 1)); (high (i + 1), low (i + 1)); (e, high (i + 1)); (high (i + 1), high i); (high i, e)])) by (intros i; rewrite slice_polygons; reflexivity).
  rewrite map_flat. unfold swap. cbn [map fst snd]. set (l := seq 0 n).
  assert (Rl : low n = low 0 /\ high n = high 0) by (unfold low, high; destruct round as (-> & ->); auto). destruct Rl as (Rl & Rh).
  apply cnt_perm. intros x. rewrite !cnt_cons, !cnt_none.
  assert (A := perm_cnt x _ _ (shift_perm (fun i => (low i, s)) n ltac:(cbv beta; now rewrite Rl))). cbv beta in A. fold l in A.
  assert (B := perm_cnt x _ _ (shift_perm (fun i => (s, low i)) n ltac:(cbv beta; now rewrite Rl))). cbv beta in B. fold l in B.
  assert (D := perm_cnt x _ _ (shift_perm (fun i => (low i, high i)) n ltac:(cbv beta; now rewrite Rl, Rh))). cbv beta in D. fold l in D.
  assert (D' := perm_cnt x _ _ (shift_perm (fun i => (high i, low i)) n ltac:(cbv beta; now rewrite Rl, Rh))). cbv beta in D'. fold l in D'.
  assert (F := perm_cnt x _ _ (shift_perm (fun i => (high i, e)) n ltac:(cbv beta; now rewrite Rh))). cbv beta in F. fold l in F.
  assert (F' := perm_cnt x _ _ (shift_perm (fun i => (e, high i)) n ltac:(cbv beta; now rewrite Rh))). cbv beta in F'. fold l in F'.
  lia.
Qed.
Lemma cylinder_faces eps p : In p (csg_cylinder eps s e r n) -> faces_away (pscale (1 / 2) (padd s e)) p.
Proof.
  intros H. apply cylinder_shape in H. destruct H as (i & H). assert (Hs : 0 < sin (2 * PI / INR n)) by (apply sin_gt_0; apply step_angle). rewrite <- (step_sin i) in Hs. pose proof cyl_L as HL.
  assert (K1 : 0 < r * r * (C i * Sn (i + 1) - Sn i * C (i + 1)) * (L / 2)) by (repeat apply Rmult_lt_0_compat; lra).
  assert (K2 : 0 < r * r * (C i * Sn (i + 1) - Sn i * C (i + 1)) * L) by (repeat apply Rmult_lt_0_compat; lra).
  rewrite fp_mid. destruct H as [-> | [-> | ->]]; cbv zeta; apply faces_away_corners; eauto.
  - rewrite fp_start. unfold low. intros before a b c after E q Hq. revert before a b c after E. apply (three_corners (fun a b c => 0 < pdot (pcross (psub b a) (psub c a)) (psub q (fp 0 0 (L / 2))))); destruct Hq as [<- | [<- | [<- | [<- | []]]]]; rewrite fp_det;
    match goal with |- 0 < ?x => replace x with (r * r * (C i * Sn (i + 1) - Sn i * C (i + 1)) * (L / 2)) by field end; exact K1.
  - unfold low, high. intros before a b c after E q Hq. revert before a b c after E. apply (four_corners (fun a b c => 0 < pdot (pcross (psub b a) (psub c a)) (psub q (fp 0 0 (L / 2))))); destruct Hq as [<- | [<- | [<- | [<- | [<- | []]]]]]; rewrite fp_det;
    match goal with |- 0 < ?x => replace x with (r * r * (C i * Sn (i + 1) - Sn i * C (i + 1)) * L) by field end; exact K2.
  - rewrite fp_end. unfold high. intros before a b c after E q Hq. revert before a b c after E. apply (three_corners (fun a b c => 0 < pdot (pcross (psub b a) (psub c a)) (psub q (fp 0 0 (L / 2))))); destruct Hq as [<- | [<- | [<- | [<- | []]]]]; rewrite fp_det;
    match goal with |- 0 < ?x => replace x with (r * r * (C i * Sn (i + 1) - Sn i * C (i + 1)) * (L / 2)) by field end; exact K1.
Qed.
Lemma cylinder_volume eps o : enclosed o (csg_cylinder eps s e r n) = INR n / 2 * sin (2 * PI / INR n) * (r * r) * L.
Proof.
  rewrite (enclosed_invariant o s) by (apply cylinder_watertight || (intros; eapply cylinder_loops; eauto)). unfold enclosed, csg_cylinder. rewrite total_flat.
  rewrite (total_ext _ (fun _ => sin (2 * PI / INR n) * (r * r) * L / 2)); [rewrite total_const, seq_length; field|].
  intros i _. rewrite slice_polygons. rewrite <- (step_sin i). cbv zeta. cbn [map rp_vs fan6 edges fst snd total fold_right]. unfold low, high.
  assert (S0 : forall a b, tri6 s s a b = 0) by (intros; unfold tri6, pdot, psub; cbn; ring). rewrite !S0.
  assert (E0 : forall b c, tri6 s e b c = tri6 s (fp 0 0 L) b c) by (intros; now rewrite <- fp_end). assert (E1 : forall a b, tri6 s a b e = tri6 s a b (fp 0 0 L)) by (intros; now rewrite <- fp_end).
  rewrite !E0, !E1. assert (E2 : forall a b, tri6 s a b s = 0) by (intros; unfold tri6, pdot, pcross, psub; cbn; ring). rewrite ?E2. rewrite !fp_tri6.
  field.
Qed.
Lemma cylinder_vertices eps p q : In p (csg_cylinder eps s e r n) -> In q (rp_vs p) -> exists base, (base = s \/ base = e) /\ pdot (psub q base) (psub e s) = 0 /\ (q = base \/ pnorm (psub q base) = r).
Proof.
  assert (Rd : forall i z, pnorm (psub (fp (r * C i) (r * Sn i) z) (fp 0 0 z)) = r).
  { intros i z. rewrite fp_dist. replace (_ + _ + _) with (r * r * (C i * C i + Sn i * Sn i)) by ring. rewrite circle, Rmult_1_r. apply sqrt_square. lra. }
  assert (Or : forall x y z, pdot (psub (fp x y z) (fp 0 0 z)) (psub e s) = 0).
  { intros x y z. destruct cyl_frame as (_ & _ & _ & _ & XZ & YZ & _ & ->). transitivity (L * (x * pdot X Z + y * pdot Y Z)); [unfold fp, pdot, psub, padd, pscale; cbn; ring|]. rewrite XZ, YZ. ring. }
  assert (Lo : forall i, exists base, (base = s \/ base = e) /\ pdot (psub (low i) base) (psub e s) = 0 /\ (low i = base \/ pnorm (psub (low i) base) = r)).
  { intros i. exists s. split; [auto|]. split; [rewrite <- (Or (r * C i) (r * Sn i) 0), <- fp_start; reflexivity|right]. transitivity (pnorm (psub (fp (r * C i) (r * Sn i) 0) (fp 0 0 0))); [now rewrite <- fp_start|apply Rd]. }
  assert (Hi : forall i, exists base, (base = s \/ base = e) /\ pdot (psub (high i) base) (psub e s) = 0 /\ (high i = base \/ pnorm (psub (high i) base) = r)).
  { intros i. exists e. split; [auto|]. split; [rewrite <- (Or (r * C i) (r * Sn i) L), <- fp_end; reflexivity|right]. transitivity (pnorm (psub (fp (r * C i) (r * Sn i) L) (fp 0 0 L))); [now rewrite <- fp_end|apply Rd]. }
  assert (Ax : forall x, x = s \/ x = e -> exists base, (base = s \/ base = e) /\ pdot (psub x base) (psub e s) = 0 /\ (x = base \/ pnorm (psub x base) = r)).
  { intros x Hx. exists x. split; [exact Hx|]. split; [unfold pdot, psub; cbn; ring|auto]. }
  intros H Hq. apply cylinder_shape in H. destruct H as (i & [-> | [-> | ->]]); cbn [rp_vs] in Hq; repeat (destruct Hq as [<- | Hq]; [auto|]); contradiction.
Qed.
End Cylinder.

(** Every cylinder with different end points, positive radius and at least three slices: three polygons per slice, all of them closed; the
    surface is closed, all polygons face outward; vertices are the end points or lie on the end circles; the volume is that of the prism over
    the regular polygon, from any reference point, and below that of the cylinder. *)
Theorem C87_cylinder : forall eps s e r n, s <> e -> 0 < r -> (3 <= n)%nat ->
  let ps := csg_cylinder eps s e r n in
  length ps = (3 * n)%nat /\ (forall p, In p ps -> is_loop (rp_vs p)) /\ watertight ps /\
  (forall p, In p ps -> faces_away (pscale (1 / 2) (padd s e)) p) /\
  (forall p q, In p ps -> In q (rp_vs p) -> exists base, (base = s \/ base = e) /\ pdot (psub q base) (psub e s) = 0 /\ (q = base \/ pnorm (psub q base) = r)) /\
  (forall o, enclosed o ps = INR n / 2 * sin (2 * PI / INR n) * (r * r) * pnorm (psub e s)) /\
  (forall o, 0 < enclosed o ps < PI * (r * r) * pnorm (psub e s)).
Proof.
  intros eps s e r n Hse Hr Hn ps.
  assert (V : forall o, enclosed o ps = INR n / 2 * sin (2 * PI / INR n) * (r * r) * pnorm (psub e s)) by (intros o; now apply cylinder_volume).
  split; [|split; [|split; [|split; [|split; [|split]]]]].
  - unfold ps, csg_cylinder. assert (G : forall l, length (flat_map (cyl_slice eps s e r n) l) = (3 * length l)%nat) by (induction l as [|x l IH]; [reflexivity|]; cbn [flat_map]; rewrite app_length, IH; cbn [length cyl_slice]; lia).
    rewrite G, seq_length. reflexivity.
  - intros p H. eapply cylinder_loops; eauto.
  - now apply cylinder_watertight.
  - intros p H. eapply cylinder_faces; eauto.
  - intros p q H Hq. eapply cylinder_vertices; eauto.
  - exact V.
  - intros o. rewrite V. assert (HL := cyl_L s e Hse). set (L := pnorm (psub e s)) in *. destruct (step_angle n Hn) as (A1 & A2). assert (S1 := sin_gt_0 _ A1 A2). assert (S2 := sin_lt_x _ A1). pose proof (INR_n n Hn) as N3.
    set (d := 2 * PI / INR n) in *. assert (Ed : INR n * d = 2 * PI) by (unfold d; field; lra).
    assert (RL : 0 < r * r * L) by (repeat apply Rmult_lt_0_compat; lra). assert (M1 : 0 < INR n * sin d) by (apply Rmult_lt_0_compat; lra). assert (M2 : INR n * sin d < INR n * d) by (apply Rmult_lt_compat_l; lra).
    replace (INR n / 2 * sin d * (r * r) * L) with (INR n * sin d / 2 * (r * r * L)) by field. replace (PI * (r * r) * L) with (PI * (r * r * L)) by ring.
    split; [apply Rmult_lt_0_compat; lra|apply Rmult_lt_compat_r; lra].
Qed.
Print Assumptions C87_cylinder.
(** A cylinder of length 5 and radius 2 with four slices has the volume 2 * 2 * 2 * 5 of the prism over a square. *)
Example C87_case : P 0 0 0 <> P 3 4 0 /\ enclosed (P 7 8 9) (csg_cylinder (1 / 1000) (P 0 0 0) (P 3 4 0) 2 4) = 40.
Proof.
  assert (N : P 0 0 0 <> P 3 4 0) by (intros H; injection H; lra). split; [exact N|].
  destruct (C87_cylinder (1 / 1000) (P 0 0 0) (P 3 4 0) 2 4 N ltac:(lra) ltac:(lia)) as (_ & _ & _ & _ & _ & V & _). rewrite V.
  replace (2 * PI / INR 4) with (PI / 2) by (cbn [INR]; field). rewrite sin_PI2, (pnorm_unique _ 5); [cbn [INR]; field|lra|]. unfold pdot, psub. cbn. ring.
Qed.

(** ** The sphere *)
Fixpoint nsum (n : nat) (f : nat -> nat) : nat := match n with O => 0%nat | S k => (nsum k f + f k)%nat end.
Lemma nsum_ext n f g : (forall i, (i < n)%nat -> f i = g i) -> nsum n f = nsum n g.
Proof. induction n as [|n IH]; intros H; cbn; [reflexivity|]. rewrite IH, H by (intros; try apply H; lia). reflexivity. Qed.
Lemma nsum_first n f : nsum (S n) f = (f 0%nat + nsum n (fun i => f (i + 1)%nat))%nat.
Proof. induction n as [|n IH]; [cbn; lia|]. change (nsum (S (S n)) f) with (nsum (S n) f + f (S n))%nat. rewrite IH. cbn [nsum]. replace (n + 1)%nat with (S n) by lia. lia. Qed.
Lemma nsum_round n f : f n = f 0%nat -> nsum n (fun i => f (i + 1)%nat) = nsum n f.
Proof. intros H. assert (F := nsum_first n f). cbn [nsum] in F. lia. Qed.
Lemma nsum_plus n f g : nsum n (fun i => f i + g i)%nat = (nsum n f + nsum n g)%nat.
Proof. induction n as [|n IH]; cbn; [reflexivity|]. rewrite IH. lia. Qed.
Lemma cnt_flat x f n : cnt x (flat_map f (seq 0 n)) = nsum n (fun i => cnt x (f i)).
Proof. induction n as [|n IH]; [reflexivity|]. rewrite seq_S, flat_map_app, cnt_app, IH. cbn [flat_map nsum Nat.add]. rewrite app_nil_r. reflexivity. Qed.
Section Sphere.
Context (c : pt) (r : R) (n m : nat) (Hr : 0 < r) (Hn : (3 <= n)%nat) (Hm : (2 <= m)%nat).
Let Ct (i : nat) := cos (INR i / INR n * (PI * 2)).
Let St (i : nat) := sin (INR i / INR n * (PI * 2)).
Let cp (j : nat) := cos (INR j / INR m * PI).
Let sp (j : nat) := sin (INR j / INR m * PI).
Definition sv (i j : nat) : pt := padd c (pscale r (P (Ct i * sp j) (cp j) (St i * sp j))).
Lemma INR_m : 2 <= INR m. Proof. replace 2 with (INR 2) by (cbn; ring). now apply le_INR. Qed.
Lemma sv_vertex i j : sph_vertex c r (INR i / INR n) (INR j / INR m) = sv i j. Proof. reflexivity. Qed.
Lemma theta_step i : Ct i * St (i + 1) - St i * Ct (i + 1) = sin (2 * PI / INR n).
Proof. pose proof (INR_n n Hn). unfold Ct, St. replace (2 * PI / INR n) with (INR (i + 1) / INR n * (PI * 2) - INR i / INR n * (PI * 2)) by (rewrite plus_INR; cbn [INR]; field; lra). rewrite sin_minus. ring. Qed.
Lemma phi_step j : cp j * sp (j + 1) - sp j * cp (j + 1) = sin (PI / INR m).
Proof. pose proof INR_m. unfold cp, sp. replace (PI / INR m) with (INR (j + 1) / INR m * PI - INR j / INR m * PI) by (rewrite plus_INR; cbn [INR]; field; lra). rewrite sin_minus. ring. Qed.
Lemma theta_pos : 0 < sin (2 * PI / INR n). Proof. apply sin_gt_0; now apply step_angle. Qed.
Lemma phi_pos : 0 < sin (PI / INR m).
Proof.
  pose proof INR_m. pose proof PI_RGT_0. apply sin_gt_0; [apply Rdiv_lt_0_compat; lra|]. apply (Rmult_lt_reg_r (INR m)); [lra|]. replace (PI / INR m * INR m) with PI by (field; lra). nra.
Qed.
Lemma sp_pos j : (0 < j < m)%nat -> 0 < sp j.
Proof.
  intros Hj. pose proof INR_m. pose proof PI_RGT_0. assert (0 < INR j) by (apply (lt_INR 0); lia). assert (INR j < INR m) by (apply lt_INR; lia). unfold sp. apply sin_gt_0.
  - apply Rmult_lt_0_compat; [|lra]. apply Rdiv_lt_0_compat; lra.
  - rewrite <- (Rmult_1_l PI) at 2. apply Rmult_lt_compat_r; [lra|]. apply (Rmult_lt_reg_r (INR m)); [lra|]. replace (INR j / INR m * INR m) with (INR j) by (field; lra). lra.
Qed.
Lemma poles : sp 0 = 0 /\ sp m = 0 /\ cp 0 = 1 /\ cp m = -1.
Proof.
  pose proof INR_m. unfold sp, cp. replace (INR 0 / INR m * PI) with 0 by (cbn [INR]; field; lra). replace (INR m / INR m * PI) with PI by (field; lra). rewrite sin_0, cos_0, sin_PI, cos_PI. auto.
Qed.
Lemma sv_north i i' : sv i 0 = sv i' 0. Proof. unfold sv. destruct poles as (-> & _). f_equal. f_equal. f_equal; ring. Qed.
Lemma sv_south i i' : sv i m = sv i' m. Proof. unfold sv. destruct poles as (_ & -> & _). f_equal. f_equal. f_equal; ring. Qed.
Lemma sv_round j : sv n j = sv 0 j.
Proof.
  pose proof (INR_n n Hn). unfold sv. assert (E : Ct n = Ct 0 /\ St n = St 0); [|destruct E as (-> & ->); reflexivity]. unfold Ct, St. replace (INR n / INR n * (PI * 2)) with (2 * PI) by (field; lra). replace (INR 0 / INR n * (PI * 2)) with 0 by (cbn [INR]; field; lra).
  rewrite cos_2PI, sin_2PI, cos_0, sin_0. auto.
Qed.
Lemma theta_circle i : Ct i * Ct i + St i * St i = 1.
Proof. unfold Ct, St. assert (H := sin2_cos2 (INR i / INR n * (PI * 2))). unfold Rsqr in H. lra. Qed.
Lemma phi_circle j : cp j * cp j + sp j * sp j = 1.
Proof. unfold cp, sp. assert (H := sin2_cos2 (INR j / INR m * PI)). unfold Rsqr in H. lra. Qed.
Lemma sv_differ i j : sv i (j + 1) <> sv i j.
Proof.
  intros H. unfold sv, padd, pscale in H. cbn in H. injection H as H1 H2 H3.
  assert (E1 : Ct i * sp (j + 1) = Ct i * sp j) by (apply (Rmult_eq_reg_l r); lra). assert (E2 : cp (j + 1) = cp j) by (apply (Rmult_eq_reg_l r); lra). assert (E3 : St i * sp (j + 1) = St i * sp j) by (apply (Rmult_eq_reg_l r); lra).
  assert (E4 : sp (j + 1) = sp j).
  { transitivity ((Ct i * Ct i + St i * St i) * sp (j + 1)); [rewrite theta_circle; ring|]. transitivity (Ct i * (Ct i * sp (j + 1)) + St i * (St i * sp (j + 1))); [ring|]. rewrite E1, E3. transitivity ((Ct i * Ct i + St i * St i) * sp j); [ring|]. rewrite theta_circle. ring. }
  pose proof (phi_step j) as Q. rewrite E2, E4 in Q. pose proof phi_pos. lra.
Qed.
(** The corners of a patch, in order. *)
Definition corners (i j : nat) : list pt :=
  if Nat.eqb j 0 then [sv i j; sv (i + 1) (j + 1); sv i (j + 1); sv i j]
  else if Nat.eqb (j + 1) m then [sv i j; sv (i + 1) j; sv i (j + 1); sv i j]
  else [sv i j; sv (i + 1) j; sv (i + 1) (j + 1); sv i (j + 1); sv i j].
Lemma patch_polygon eps i j : (j < m)%nat -> sph_patch eps c r n m i j = RPoly (corners i j) (corner_normal eps (corners i j) (P 0 0 0)).
Proof.
  intros Hj. unfold sph_patch. cbv zeta. rewrite !sv_vertex. unfold polygon, corners. assert (N := sv_differ i j).
  destruct (Nat.eqb_spec j 0) as [->|J0]; [|destruct (Nat.eqb_spec (j + 1) m) as [J1|J1]].
  - replace (0 <? 0)%nat with false by reflexivity. replace (0 + 1 <? m)%nat with true by (symmetry; apply Nat.ltb_lt; lia). cbn [app]. now rewrite pclose3.
  - replace (0 <? j)%nat with true by (symmetry; apply Nat.ltb_lt; lia). replace (j + 1 <? m)%nat with false by (symmetry; apply Nat.ltb_ge; lia). cbn [app]. now rewrite pclose3.
  - replace (0 <? j)%nat with true by (symmetry; apply Nat.ltb_lt; lia). replace (j + 1 <? m)%nat with true by (symmetry; apply Nat.ltb_lt; lia). cbn [app]. now rewrite pclose4.
Qed.
Lemma sphere_shape eps p : In p (csg_sphere eps c r n m) -> exists i j, (i < n)%nat /\ (j < m)%nat /\ p = RPoly (corners i j) (corner_normal eps (corners i j) (P 0 0 0)).
Proof. intros H. apply in_flat_map in H. destruct H as (i & Hi & H). apply in_map_iff in H. destruct H as (j & <- & Hj). apply in_seq in Hi, Hj. exists i, j. split; [lia|]. split; [lia|]. apply patch_polygon. lia. Qed.
Lemma sphere_loops eps p : In p (csg_sphere eps c r n m) -> is_loop (rp_vs p).
Proof.
  intros H. apply sphere_shape in H. destruct H as (i & j & _ & _ & ->). cbn [rp_vs]. unfold corners. exists (sv i j). destruct (Nat.eqb j 0); [exists [sv (i + 1) (j + 1); sv i (j + 1)]; reflexivity|].
  destruct (Nat.eqb (j + 1) m); [exists [sv (i + 1) j; sv i (j + 1)]|exists [sv (i + 1) j; sv (i + 1) (j + 1); sv i (j + 1)]]; reflexivity.
Qed.
Lemma corners_edges i j : (j < m)%nat -> edges (corners i j) =
  (if Nat.ltb 0 j then [(sv i j, sv (i + 1) j)] else []) ++ [(sv (i + 1) j, sv (i + 1) (j + 1))] ++ (if Nat.ltb (j + 1) m then [(sv (i + 1) (j + 1), sv i (j + 1))] else []) ++ [(sv i (j + 1), sv i j)].
Proof.
  intros Hj. unfold corners. destruct (Nat.eqb_spec j 0) as [->|J0]; [|destruct (Nat.eqb_spec (j + 1) m) as [J1|J1]].
  - replace (0 <? 0)%nat with false by reflexivity. replace (0 + 1 <? m)%nat with true by (symmetry; apply Nat.ltb_lt; lia). cbn [app edges]. rewrite (sv_north (i + 1) i). reflexivity.
  - replace (0 <? j)%nat with true by (symmetry; apply Nat.ltb_lt; lia). replace (j + 1 <? m)%nat with false by (symmetry; apply Nat.ltb_ge; lia). cbn [app edges]. rewrite J1, (sv_south (i + 1) i). reflexivity.
  - replace (0 <? j)%nat with true by (symmetry; apply Nat.ltb_lt; lia). replace (j + 1 <? m)%nat with true by (symmetry; apply Nat.ltb_lt; lia). reflexivity.
Qed.
Lemma sphere_watertight eps : watertight (csg_sphere eps c r n m).
Proof.
  unfold watertight, csg_sphere. cbv zeta. rewrite flat_map_flat.
  assert (EE : flat_map (fun i => flat_map (fun p => edges (rp_vs p)) (map (sph_patch eps c r n m i) (seq 0 m))) (seq 0 n) = flat_map (fun i => flat_map (fun j => edges (corners i j)) (seq 0 m)) (seq 0 n)).
  { apply flat_map_ext. intros i. rewrite flat_map_concat_map, map_map, <- flat_map_concat_map. rewrite !flat_map_concat_map. f_equal. apply map_ext_in. intros j Hj. apply in_seq in Hj. rewrite patch_polygon by lia. reflexivity. }
  rewrite EE. clear EE. apply cnt_perm. intros x. rewrite map_flat, !cnt_flat.
  set (k := fun e => cnt x [e]).
  assert (Ki : forall (b : bool) e, cnt x (if b then [e] else []) = (if b then k e else 0)%nat) by (intros [|] e; reflexivity).
  rewrite (nsum_ext n (fun i => cnt x (map swap (flat_map (fun j => edges (corners i j)) (seq 0 m))))
     (fun i => nsum m (fun j => if Nat.ltb 0 j then k (sv (i + 1) j, sv i j) else 0) + nsum m (fun j => if Nat.ltb (j + 1) m then k (sv i (j + 1), sv (i + 1) (j + 1)) else 0) + nsum m (fun j => k (sv (i + 1) (j + 1), sv (i + 1) j)) + nsum m (fun j => k (sv i j, sv i (j + 1))))%nat).
  2:{ intros i _. rewrite map_flat, cnt_flat. rewrite <- !nsum_plus. apply nsum_ext. intros j Hj. rewrite corners_edges by exact Hj. rewrite !map_app, !cnt_app. rewrite <- (Ki (0 <? j)%nat), <- (Ki (j + 1 <? m)%nat). destruct (0 <? j)%nat, (j + 1 <? m)%nat; unfold k, swap; cbn [map fst snd]; lia. }
  rewrite (nsum_ext n (fun i => cnt x (flat_map (fun j => edges (corners i j)) (seq 0 m)))
     (fun i => nsum m (fun j => if Nat.ltb 0 j then k (sv i j, sv (i + 1) j) else 0) + nsum m (fun j => if Nat.ltb (j + 1) m then k (sv (i + 1) (j + 1), sv i (j + 1)) else 0) + nsum m (fun j => k (sv (i + 1) j, sv (i + 1) (j + 1))) + nsum m (fun j => k (sv i (j + 1), sv i j)))%nat).
  2:{ intros i _. rewrite cnt_flat. rewrite <- !nsum_plus. apply nsum_ext. intros j Hj. rewrite corners_edges by exact Hj. rewrite !cnt_app. rewrite !Ki. unfold k. lia. }
  rewrite !nsum_plus.
  assert (Sh : forall f : nat -> nat, nsum m (fun j => if Nat.ltb 0 j then f j else 0%nat) = nsum m (fun j => if Nat.ltb (j + 1) m then f (j + 1)%nat else 0%nat)).
  { intros f. destruct m as [|m']; [lia|]. rewrite nsum_first. cbn [nsum]. replace (m' + 1 <? S m')%nat with false by (symmetry; apply Nat.ltb_ge; lia). replace (0 <? 0)%nat with false by reflexivity. rewrite Nat.add_0_r. cbn [Nat.add]. apply nsum_ext. intros i Hi.
    replace (0 <? i + 1)%nat with true by (symmetry; apply Nat.ltb_lt; lia). replace (i + 1 <? S m')%nat with true by (symmetry; apply Nat.ltb_lt; lia). reflexivity. }
  assert (A : nsum n (fun i => nsum m (fun j => if Nat.ltb 0 j then k (sv (i + 1) j, sv i j) else 0%nat)) = nsum n (fun i => nsum m (fun j => if Nat.ltb (j + 1) m then k (sv (i + 1) (j + 1), sv i (j + 1)) else 0%nat))) by (apply nsum_ext; intros i _; apply (Sh (fun j => k (sv (i + 1) j, sv i j)))).
  assert (B : nsum n (fun i => nsum m (fun j => if Nat.ltb 0 j then k (sv i j, sv (i + 1) j) else 0%nat)) = nsum n (fun i => nsum m (fun j => if Nat.ltb (j + 1) m then k (sv i (j + 1), sv (i + 1) (j + 1)) else 0%nat))) by (apply nsum_ext; intros i _; apply (Sh (fun j => k (sv i j, sv (i + 1) j)))).
  assert (D : nsum n (fun i => nsum m (fun j => k (sv (i + 1) (j + 1), sv (i + 1) j))) = nsum n (fun i => nsum m (fun j => k (sv i (j + 1), sv i j)))) by (apply (nsum_round n (fun i => nsum m (fun j => k (sv i (j + 1), sv i j)))); apply nsum_ext; intros; now rewrite !sv_round).
  assert (F : nsum n (fun i => nsum m (fun j => k (sv (i + 1) j, sv (i + 1) (j + 1)))) = nsum n (fun i => nsum m (fun j => k (sv i j, sv i (j + 1))))) by (apply (nsum_round n (fun i => nsum m (fun j => k (sv i j, sv i (j + 1))))); apply nsum_ext; intros; now rewrite !sv_round).
  lia.
Qed.
Lemma sphere_faces eps p : In p (csg_sphere eps c r n m) -> faces_away c p.
Proof.
  intros H. apply sphere_shape in H. destruct H as (i & j & _ & Hj & ->). pose proof theta_pos as T. rewrite <- (theta_step i) in T. pose proof phi_pos as F. rewrite <- (phi_step j) in F.
  set (K := r * r * r * ((cp j * sp (j + 1) - sp j * cp (j + 1)) * (Ct i * St (i + 1) - St i * Ct (i + 1)))). assert (HK : 0 < K) by (unfold K; repeat apply Rmult_lt_0_compat; assumption).
  apply faces_away_corners; unfold corners; (destruct (Nat.eqb_spec j 0) as [J0|J0]; [|destruct (Nat.eqb_spec (j + 1) m) as [J1|J1]]); eauto.
  - assert (S1 : 0 < K * sp (j + 1)) by (apply Rmult_lt_0_compat; [exact HK|apply sp_pos; lia]).
    intros before x y z after E q Hq. revert before x y z after E. apply (three_corners (fun x y z => 0 < pdot (pcross (psub y x) (psub z x)) (psub q c))); destruct Hq as [<- | [<- | [<- | [<- | []]]]];
    match goal with |- 0 < ?x => replace x with (K * sp (j + 1)) by (unfold K, sv, pdot, pcross, psub, padd, pscale; cbn; ring) end; exact S1.
  - assert (S1 : 0 < K * sp j) by (apply Rmult_lt_0_compat; [exact HK|apply sp_pos; lia]).
    intros before x y z after E q Hq. revert before x y z after E. apply (three_corners (fun x y z => 0 < pdot (pcross (psub y x) (psub z x)) (psub q c))); destruct Hq as [<- | [<- | [<- | [<- | []]]]];
    match goal with |- 0 < ?x => replace x with (K * sp j) by (unfold K, sv, pdot, pcross, psub, padd, pscale; cbn; ring) end; exact S1.
  - assert (S1 : 0 < K * sp j) by (apply Rmult_lt_0_compat; [exact HK|apply sp_pos; lia]). assert (S2 : 0 < K * sp (j + 1)) by (apply Rmult_lt_0_compat; [exact HK|apply sp_pos; lia]).
    intros before x y z after E q Hq. revert before x y z after E. apply (four_corners (fun x y z => 0 < pdot (pcross (psub y x) (psub z x)) (psub q c))); destruct Hq as [<- | [<- | [<- | [<- | [<- | []]]]]];
    match goal with |- 0 < ?x => first [replace x with (K * sp j) by (unfold K, sv, pdot, pcross, psub, padd, pscale; cbn; ring); exact S1 | replace x with (K * sp (j + 1)) by (unfold K, sv, pdot, pcross, psub, padd, pscale; cbn; ring); exact S2] end.
Qed.
Lemma telescope (f : nat -> R) k : total (map (fun j => f j - f (j + 1)%nat) (seq 0 k)) = f 0%nat - f k.
Proof. induction k as [|k IH]; [cbn; ring|]. rewrite seq_S, map_app, total_app, IH. cbn [map total fold_right Nat.add]. replace (k + 1)%nat with (S k) by lia. ring. Qed.
Lemma sphere_volume eps o : enclosed o (csg_sphere eps c r n m) = 2 / 3 * INR n * sin (2 * PI / INR n) * (cos (PI / (2 * INR m)) * cos (PI / (2 * INR m))) * (r * r * r).
Proof.
  rewrite (enclosed_invariant o c) by (apply sphere_watertight || (intros; eapply sphere_loops; eauto)). unfold enclosed, csg_sphere. rewrite total_flat.
  set (h := PI / (2 * INR m)). pose proof INR_m as M2.
  rewrite (total_ext _ (fun _ => r * r * r / 6 * sin (2 * PI / INR n) * (4 * (cos h * cos h)))); [rewrite total_const, seq_length; field|].
  intros i _. rewrite map_map. rewrite (total_ext _ (fun j => r * r * r / 6 * sin (2 * PI / INR n) * (2 * (cos h * cos h)) * (cp j - cp (j + 1)))).
  - rewrite total_scale, telescope. destruct poles as (_ & _ & -> & ->). field.
  - intros j Hj. apply in_seq in Hj. rewrite patch_polygon by lia. cbn [rp_vs].
    assert (V : fan6 c (corners i j) = r * r * r * ((cp j * sp (j + 1) - sp j * cp (j + 1)) * (Ct i * St (i + 1) - St i * Ct (i + 1))) * (sp j + sp (j + 1))).
    { destruct poles as (P0 & P1 & _ & _). unfold corners. destruct (Nat.eqb_spec j 0) as [->|J0]; [|destruct (Nat.eqb_spec (j + 1) m) as [J1|J1]]; unfold fan6; cbn [edges map total fold_right fst snd].
      - unfold tri6, sv, pdot, pcross, psub, padd, pscale. cbn. rewrite P0. ring.
      - unfold tri6, sv, pdot, pcross, psub, padd, pscale. cbn. rewrite J1, P1. ring.
      - unfold tri6, sv, pdot, pcross, psub, padd, pscale. cbn. ring. }
    rewrite V, theta_step, phi_step. assert (A : sin (PI / INR m) * (sp j + sp (j + 1)) = 2 * (cos h * cos h) * (cp j - cp (j + 1))).
    { set (w := INR j / INR m * PI + h).
      assert (E1 : sp j = sin w * cos h - cos w * sin h) by (rewrite <- sin_minus; unfold sp, w; f_equal; ring).
      assert (E2 : sp (j + 1) = sin w * cos h + cos w * sin h) by (rewrite <- sin_plus; unfold sp, w, h; f_equal; rewrite plus_INR; cbn [INR]; field; lra).
      assert (E3 : cp j = cos w * cos h + sin w * sin h) by (rewrite <- cos_minus; unfold cp, w; f_equal; ring).
      assert (E4 : cp (j + 1) = cos w * cos h - sin w * sin h) by (rewrite <- cos_plus; unfold cp, w, h; f_equal; rewrite plus_INR; cbn [INR]; field; lra).
      assert (E5 : sin (PI / INR m) = 2 * sin h * cos h) by (rewrite <- sin_2a; f_equal; unfold h; field; lra).
      rewrite E1, E2, E3, E4, E5. ring. }
    transitivity (r * r * r / 6 * sin (2 * PI / INR n) * (sin (PI / INR m) * (sp j + sp (j + 1)))); [field|]. rewrite A. ring.
Qed.
Lemma sphere_vertices eps p q : In p (csg_sphere eps c r n m) -> In q (rp_vs p) -> pnorm (psub q c) = r.
Proof.
  assert (V : forall i j, pnorm (psub (sv i j) c) = r).
  { intros i j. apply pnorm_unique; [lra|]. transitivity (r * r * ((Ct i * Ct i + St i * St i) * (sp j * sp j) + cp j * cp j)); [rewrite theta_circle; replace (1 * (sp j * sp j) + cp j * cp j) with (cp j * cp j + sp j * sp j) by ring; rewrite phi_circle; ring|].
    unfold sv, pdot, psub, padd, pscale. cbn. ring. }
  intros H Hq. apply sphere_shape in H. destruct H as (i & j & _ & _ & ->). cbn [rp_vs] in Hq. unfold corners in Hq. destruct (Nat.eqb j 0), (Nat.eqb (j + 1) m); repeat (destruct Hq as [<- | Hq]; [apply V|]); contradiction.
Qed.
End Sphere.
(** Every sphere with positive radius, at least three slices and two stacks: one polygon per slice and stack, all closed; the surface is closed
    and all polygons face outward; all vertices lie on the sphere; the enclosed volume is known exactly and below that of the ball. *)
Theorem C88_sphere : forall eps c r n m, 0 < r -> (3 <= n)%nat -> (2 <= m)%nat ->
  let ps := csg_sphere eps c r n m in
  length ps = (n * m)%nat /\ (forall p, In p ps -> is_loop (rp_vs p)) /\ watertight ps /\ (forall p, In p ps -> faces_away c p) /\
  (forall p q, In p ps -> In q (rp_vs p) -> pnorm (psub q c) = r) /\
  (forall o, enclosed o ps = 2 / 3 * INR n * sin (2 * PI / INR n) * (cos (PI / (2 * INR m)) * cos (PI / (2 * INR m))) * (r * r * r)) /\
  (forall o, 0 < enclosed o ps < 4 / 3 * PI * (r * r * r)).
Proof.
  intros eps c r n m Hr Hn Hm ps.
  assert (V : forall o, enclosed o ps = 2 / 3 * INR n * sin (2 * PI / INR n) * (cos (PI / (2 * INR m)) * cos (PI / (2 * INR m))) * (r * r * r)) by (intros o; now apply sphere_volume).
  split; [|split; [|split; [|split; [|split; [|split]]]]].
  - unfold ps, csg_sphere. assert (G : forall l, length (flat_map (fun i => map (sph_patch eps c r n m i) (seq 0 m)) l) = (length l * m)%nat) by (induction l as [|x l IH]; [reflexivity|]; cbn [flat_map]; rewrite app_length, IH, map_length, seq_length; cbn [length]; lia).
    rewrite G, seq_length. reflexivity.
  - intros p H. eapply sphere_loops; eauto.
  - now apply sphere_watertight.
  - intros p H. eapply sphere_faces; eauto.
  - intros p q H Hq. eapply sphere_vertices; eauto.
  - exact V.
  - intros o. rewrite V. destruct (step_angle n Hn) as (A1 & A2). assert (S1 := sin_gt_0 _ A1 A2). assert (S2 := sin_lt_x _ A1). pose proof (INR_n n Hn) as N3. pose proof (INR_m m Hm) as M2. pose proof PI_RGT_0 as Pp.
    set (d := 2 * PI / INR n) in *. assert (Ed : INR n * d = 2 * PI) by (unfold d; field; lra). set (h := PI / (2 * INR m)).
    assert (Hh : 0 < h < PI / 2). { unfold h. split; [apply Rdiv_lt_0_compat; lra|]. apply (Rmult_lt_reg_r (2 * INR m)); [lra|]. replace (PI / (2 * INR m) * (2 * INR m)) with PI by (field; lra). nra. }
    assert (C0 : 0 < cos h) by (apply cos_gt_0; lra). assert (C1 : cos h <= 1) by apply COS_bound. assert (CC : 0 < cos h * cos h <= 1) by (split; [apply Rmult_lt_0_compat; lra|nra]).
    assert (R3 : 0 < r * r * r) by (repeat apply Rmult_lt_0_compat; lra). assert (M1 : 0 < INR n * sin d) by (apply Rmult_lt_0_compat; lra). assert (M3 : INR n * sin d < INR n * d) by (apply Rmult_lt_compat_l; lra).
    set (A := INR n * sin d) in *. replace (2 / 3 * INR n * sin d * (cos h * cos h) * (r * r * r)) with (2 / 3 * (A * (cos h * cos h)) * (r * r * r)) by (unfold A; ring).
    assert (0 < A * (cos h * cos h)) by (apply Rmult_lt_0_compat; lra). assert (A * (cos h * cos h) <= A * 1) by (apply Rmult_le_compat_l; lra).
    split; [apply Rmult_lt_0_compat; lra|]. apply Rmult_lt_compat_r; lra.
Qed.
Print Assumptions C88_sphere.
(** Four slices and two stacks: the octahedron, volume 4/3 r^3. *)
Example C88_case : enclosed (P 5 6 7) (csg_sphere (1 / 1000) (P 1 2 3) 2 4 2) = 32 / 3.
Proof.
  destruct (C88_sphere (1 / 1000) (P 1 2 3) 2 4 2 ltac:(lra) ltac:(lia) ltac:(lia)) as (_ & _ & _ & _ & _ & V & _). rewrite V.
  replace (2 * PI / INR 4) with (PI / 2) by (cbn [INR]; field). replace (PI / (2 * INR 2)) with (PI / 4) by (cbn [INR]; field). rewrite sin_PI2, cos_PI4. cbn [INR].
  assert (Q : sqrt 2 * sqrt 2 = 2) by (apply sqrt_sqrt; lra). assert (0 < sqrt 2) by (apply sqrt_lt_R0; lra).
  replace (1 / sqrt 2 * (1 / sqrt 2)) with (1 / (sqrt 2 * sqrt 2)) by (field; lra). rewrite Q. field.
Qed.
(** One stack: every polygon is the segment from pole to pole. *)
Theorem C88_one_stack_refuted : forall eps c r n p, In p (csg_sphere eps c r n 1) -> length (rp_vs p) = 2%nat.
Proof.
  intros eps c r n p H. unfold csg_sphere in H. apply in_flat_map in H. destruct H as (i & _ & H). cbn [seq map] in H. destruct H as [<- | []]. reflexivity.
Qed.
Print Assumptions C88_one_stack_refuted.
