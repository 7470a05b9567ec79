(** Convex hulls and the splitting of convex polygons by a plane. *)
From Coq Require Import QArith Qabs ZArith List Bool Lia Lqa Setoid Sorted.
From Verif Require Import Prelude Vec Seg_Model Seg_Spec Seg_Proofs Seg_Lists Face_Spec Grid_Spec Poly_Model Poly_Spec Poly_Proofs Poly_Tri Csg_Model Csg_Spec.
Import ListNotations.
Open Scope Q_scope.

(** ** Cones over a set: combinations with nonnegative weights of total s *)
Inductive cone (S : coord -> Prop) : coord -> Q -> Prop :=
| cone_nil p s : p =v= vzero -> s == 0 -> cone S p s
| cone_step c w p s p' s' : S c -> 0 <= w -> cone S p s -> p' =v= vadd (vscale w c) p -> s' == w + s -> cone S p' s'.

Lemma cone_eq S p s : cone S p s -> forall p' s', p' =v= p -> s' == s -> cone S p' s'.
Proof.
  intros H p' s' Hp Hs. destruct H as [p s Ep Es|c w p0 s0 p s Sc Hw H Ep Es].
  - apply cone_nil; [rewrite Hp; exact Ep|lra].
  - apply (cone_step S c w p0 s0); [exact Sc|exact Hw|exact H|rewrite Hp; exact Ep|lra].
Qed.

Lemma cone_add S p s q t : cone S p s -> cone S q t -> cone S (vadd p q) (s + t).
Proof.
  intros H. revert q t. induction H as [p s Ep Es|c w p0 s0 p s Sc Hw H IH Ep Es]; intros q t Hq.
  - apply (cone_eq S q t Hq); [rewrite Ep; vring|lra].
  - apply (cone_step S c w (vadd p0 q) (s0 + t)); [exact Sc|exact Hw|apply IH; exact Hq|rewrite Ep; vring|lra].
Qed.

Lemma cone_scale S k p s : 0 <= k -> cone S p s -> cone S (vscale k p) (k * s).
Proof.
  intros Hk H. induction H as [p s Ep Es|c w p0 s0 p s Sc Hw H IH Ep Es].
  - apply cone_nil; [rewrite Ep; vring|rewrite Es; ring].
  - apply (cone_step S c (k * w) (vscale k p0) (k * s0)); [exact Sc|nra|exact IH|rewrite Ep; vring|rewrite Es; ring].
Qed.

Lemma cone_one (S : coord -> Prop) c : S c -> cone S c 1.
Proof. intros H. apply (cone_step S c 1 vzero 0); [exact H|lra|apply cone_nil; reflexivity|vring|lra]. Qed.

Lemma cone_trans (S T : coord -> Prop) p s : (forall c, S c -> cone T c 1) -> cone S p s -> cone T p s.
Proof.
  intros HST H. induction H as [p s Ep Es|c w p0 s0 p s Sc Hw H IH Ep Es]; [now apply cone_nil|].
  apply (cone_eq T (vadd (vscale w c) p0) (w * 1 + s0)); [|exact Ep|lra].
  apply cone_add; [|exact IH]. apply cone_scale; [exact Hw|]. apply HST, Sc.
Qed.

Lemma cone_weaken (S T : coord -> Prop) p s : (forall c, S c -> T c) -> cone S p s -> cone T p s.
Proof. intros H. apply cone_trans. intros c Hc. apply cone_one. auto. Qed.

Lemma cone_pos S p s : cone S p s -> 0 <= s.
Proof. induction 1; lra. Qed.

Lemma hull_cone cs : forall p s, (exists ws, length ws = length cs /\ (forall x, In x ws -> 0 <= x) /\ qsum ws == s /\
    p =v= vsum (map (fun wc => vscale (fst wc) (snd wc)) (combine ws cs))) <-> cone (fun c => In c cs) p s.
Proof.
  intros p s. split.
  - revert p s. induction cs as [|c cs IH]; intros p s (ws & L & P & Su & E).
    + destruct ws; [|discriminate]. unfold qsum in Su. cbn [fold_right] in Su. apply cone_nil; [exact E|lra].
    + destruct ws as [|w ws]; [discriminate|]. unfold qsum in Su. cbn [fold_right] in Su. fold (qsum ws) in Su. cbn [combine map fst snd] in E.
      apply (cone_step _ c w (vsum (map (fun wc => vscale (fst wc) (snd wc)) (combine ws cs))) (qsum ws)).
      * now left.
      * apply P. now left.
      * apply (cone_weaken (fun c => In c cs)); [intros; now right|]. apply IH. exists ws. split; [cbn in L; lia|].
        split; [intros; apply P; now right|]. split; reflexivity.
      * exact E.
      * lra.
  - assert (Zero : forall cs, exists ws, length ws = length cs /\ (forall x, In x ws -> 0 <= x) /\ qsum ws == 0 /\
        vzero =v= vsum (map (fun wc => vscale (fst wc) (snd wc)) (combine ws cs))).
    { clear. induction cs as [|c cs (ws & L & P & Su & E)].
      - exists []. repeat split; cbn; try easy.
      - exists (0 :: ws). split; [cbn; lia|]. split; [intros x [<-|Hx]; [lra|auto]|]. unfold qsum in *. cbn [fold_right]. split; [lra|].
        cbn [combine map fst snd]. unfold vsum in *. cbn [fold_right]. rewrite <- E. vring. }
    assert (Add : forall cs c w, In c cs -> 0 <= w -> forall ws, length ws = length cs -> (forall x, In x ws -> 0 <= x) ->
      exists ws', length ws' = length cs /\ (forall x, In x ws' -> 0 <= x) /\ qsum ws' == w + qsum ws /\
        vsum (map (fun wc => vscale (fst wc) (snd wc)) (combine ws' cs)) =v=
        vadd (vscale w c) (vsum (map (fun wc => vscale (fst wc) (snd wc)) (combine ws cs)))).
    { clear. induction cs as [|c0 cs IH]; intros c w Hc Hw ws L P; [easy|].
      destruct ws as [|w0 ws]; [discriminate|]. destruct Hc as [->|Hc].
      - exists (w + w0 :: ws). split; [exact L|]. split; [intros x [<-|Hx]; [pose proof (P w0 (or_introl eq_refl)); lra|apply P; now right]|].
        unfold qsum, vsum. cbn [fold_right combine map fst snd]. split; [lra|]. vring.
      - destruct (IH c w Hc Hw ws) as (ws' & L' & P' & S' & E'); [cbn in L; lia|intros; apply P; now right|].
        exists (w0 :: ws'). split; [cbn; lia|]. split; [intros x [<-|Hx]; [apply P; now left|auto]|].
        unfold qsum, vsum in *. cbn [fold_right combine map fst snd]. split; [lra|]. rewrite E'. vring. }
    induction 1 as [p s Ep Es|c w p0 s0 p s Sc Hw H IH Ep Es].
    + destruct (Zero cs) as (ws & L & P & Su & E). exists ws. split; [exact L|]. split; [exact P|]. split; [lra|]. rewrite Ep. exact E.
    + destruct IH as (ws & L & P & Su & E). destruct (Add cs c w Sc Hw ws L P) as (ws' & L' & P' & S' & E').
      exists ws'. split; [exact L'|]. split; [exact P'|]. split; [lra|]. rewrite Ep, E, E'. reflexivity.
Qed.

Lemma in_hull_cone cs p : in_hull cs p <-> cone (fun c => In c cs) p 1.
Proof. unfold in_hull. apply hull_cone. Qed.

(** ** Half spaces *)
Definition val (h : plane) (p : coord) : Q := dot (p_normal h) p - p_d h.
(** The homogeneous form of [val]. *)
Definition hval (h : plane) (p : coord) (s : Q) : Q := dot (p_normal h) p - p_d h * s.

Global Instance val_proper h : Proper (veq ==> Qeq) (val h).
Proof. intros a b E. unfold val. now rewrite E. Qed.

Lemma hval_one h p : hval h p 1 == val h p. Proof. unfold hval, val. ring. Qed.

Lemma cone_above h (S : coord -> Prop) m p s : (forall c, S c -> m <= val h c) -> cone S p s -> m * s <= hval h p s.
Proof.
  intros HS H. induction H as [p s Ep Es|c w p0 s0 p s Sc Hw H IH Ep Es].
  - unfold hval. rewrite Ep, Es. unfold dot. cbn [vzero cx cy cz]. lra.
  - unfold hval in *. rewrite Ep, Es, dot_vadd, dot_vscale. specialize (HS c Sc). unfold val in HS. nra.
Qed.

Lemma hull_above h m cs p : (forall c, In c cs -> m <= val h c) -> in_hull cs p -> m <= val h p.
Proof. intros H Hp. apply in_hull_cone in Hp. pose proof (cone_above h _ m p 1 H Hp) as X. rewrite hval_one in X. lra. Qed.

Lemma val_invert h p : val (plane_invert h) p == - val h p.
Proof. unfold val, plane_invert. cbn [p_normal p_d]. unfold dot. cbn [vopp vscale cx cy cz]. ring. Qed.

Lemma hull_below h m cs p : (forall c, In c cs -> val h c <= m) -> in_hull cs p -> val h p <= m.
Proof.
  intros H Hp. assert (X : - m <= val (plane_invert h) p).
  { apply (hull_above _ _ cs); [|exact Hp]. intros c Hc. rewrite val_invert. specialize (H c Hc). lra. }
  rewrite val_invert in X. lra.
Qed.

Lemma hull_in cs c : In c cs -> in_hull cs c.
Proof. intros H. apply in_hull_cone, cone_one, H. Qed.

Lemma hull_trans cs ds p : (forall c, In c cs -> in_hull ds c) -> in_hull cs p -> in_hull ds p.
Proof. rewrite !in_hull_cone. intros H. apply cone_trans. intros c Hc. apply in_hull_cone, H, Hc. Qed.

Lemma hull_seg cs a b k : 0 <= k <= 1 -> in_hull cs a -> in_hull cs b -> in_hull cs (vadd a (vscale k (vsub b a))).
Proof.
  rewrite !in_hull_cone. intros Hk Ha Hb.
  apply (cone_eq _ (vadd (vscale (1 - k) a) (vscale k b)) ((1 - k) * 1 + k * 1)); [|vring|ring].
  apply cone_add; apply cone_scale; try assumption; lra.
Qed.

Lemma in_hull_veq cs p q : p =v= q -> in_hull cs p -> in_hull cs q.
Proof. rewrite !in_hull_cone. intros E H. apply (cone_eq _ _ _ H); [now rewrite E|reflexivity]. Qed.

(** ** The part of a cone on one side of a plane *)
Section Cut.
Variable h : plane.
Variables S T : coord -> Prop.
Hypothesis keep : forall v, S v -> 0 <= val h v -> cone T v 1.
Hypothesis cross_in : forall u v, S u -> S v -> 0 < val h u -> val h v < 0 -> cone T (crossing h u v) 1.

Lemma crossing_eq u v : 0 < val h u -> val h v < 0 ->
  vadd (vscale (val h u) v) (vscale (- val h v) u) =v= vscale (val h u - val h v) (crossing h u v).
Proof.
  intros Hu Hv. unfold crossing. rewrite dot_vsub.
  assert (D : ~ dot (p_normal h) v - dot (p_normal h) u == 0) by (unfold val in *; lra).
  unfold val. set (a := dot (p_normal h) u) in *. set (b := dot (p_normal h) v) in *. clearbody a b.
  repeat split; cbn [vadd vsub vscale cx cy cz]; field; exact D.
Qed.

Lemma pair_up v q s : S v -> val h v < 0 -> cone (fun u => S u /\ 0 <= val h u) q s ->
  cone T (vadd (vscale (hval h q s) v) (vscale (- val h v) q)) (hval h q s + - val h v * s).
Proof.
  intros Sv Hv H. induction H as [p s Ep Es|c w p0 s0 p s [Sc Hc] Hw H IH Ep Es].
  - apply cone_nil; [|unfold hval; rewrite Ep, Es; unfold dot; cbn [vzero cx cy cz]; ring].
    assert (E : hval h p s == 0) by (unfold hval; rewrite Ep, Es; unfold dot; cbn [vzero cx cy cz]; ring).
    rewrite E, Ep. vring.
  - assert (E : hval h p s == w * val h c + hval h p0 s0).
    { unfold hval, val. rewrite Ep, Es, dot_vadd, dot_vscale. ring. }
    set (X := vadd (vscale (hval h p0 s0) v) (vscale (- val h v) p0)) in *.
    assert (G : cone T (vadd (vscale (val h c) v) (vscale (- val h v) c)) (val h c - val h v)).
    { destruct (Qlt_le_dec 0 (val h c)) as [L|L].
      - apply (cone_eq T (vscale (val h c - val h v) (crossing h c v)) ((val h c - val h v) * 1)).
        + apply cone_scale; [lra|]. now apply cross_in.
        + now apply crossing_eq.
        + ring.
      - assert (Z : val h c == 0) by lra.
        apply (cone_eq T (vscale (- val h v) c) (- val h v * 1)).
        + apply cone_scale; [lra|]. now apply keep.
        + rewrite Z. vring.
        + rewrite Z. ring. }
    apply (cone_eq T (vadd (vscale w (vadd (vscale (val h c) v) (vscale (- val h v) c))) X)
             (w * (val h c - val h v) + (hval h p0 s0 + - val h v * s0))).
    + apply cone_add; [|exact IH]. now apply cone_scale.
    + unfold X. rewrite E, Ep. vring.
    + rewrite E, Es. ring.
Qed.

Lemma cone_parts p s : cone S p s -> exists q s1 r s2,
  cone (fun u => S u /\ 0 <= val h u) q s1 /\ cone (fun u => S u /\ val h u < 0) r s2 /\ p =v= vadd q r /\ s == s1 + s2.
Proof.
  intros H. induction H as [p s Ep Es|c w p0 s0 p s Sc Hw H (q & s1 & r & s2 & Hq & Hr & Ep0 & Es0) Ep Es].
  - exists vzero, 0, vzero, 0. split; [apply cone_nil; reflexivity|]. split; [apply cone_nil; reflexivity|]. split; [rewrite Ep; vring|lra].
  - destruct (Qlt_le_dec (val h c) 0) as [L|L].
    + exists q, s1, (vadd (vscale w c) r), (w + s2). split; [exact Hq|]. split.
      * apply (cone_step _ c w r s2); [auto|exact Hw|exact Hr|reflexivity|reflexivity].
      * split; [rewrite Ep, Ep0; vring|lra].
    + exists (vadd (vscale w c) q), (w + s1), r, s2. split.
      * apply (cone_step _ c w q s1); [auto|exact Hw|exact Hq|reflexivity|reflexivity].
      * split; [exact Hr|]. split; [rewrite Ep, Ep0; vring|lra].
Qed.

Lemma hval_add q s r t : hval h (vadd q r) (s + t) == hval h q s + hval h r t.
Proof. unfold hval. rewrite dot_vadd. ring. Qed.
Lemma hval_scale k q s : hval h (vscale k q) (k * s) == k * hval h q s.
Proof. unfold hval. rewrite dot_vscale. ring. Qed.

Lemma transport r s2 : cone (fun u => S u /\ val h u < 0) r s2 -> forall q s1,
  cone (fun u => S u /\ 0 <= val h u) q s1 -> 0 <= hval h q s1 + hval h r s2 -> cone T (vadd q r) (s1 + s2).
Proof.
  intros H. induction H as [r s2 Er Es|v w r0 t0 r s2 [Sv Hv] Hw H IH Er Es]; intros q s1 Hq Hs.
  - apply (cone_eq T q s1); [|rewrite Er; vring|lra]. apply (cone_trans (fun u => S u /\ 0 <= val h u)); [|exact Hq].
    intros c [A B]. now apply keep.
  - assert (V0 : hval h r0 t0 <= 0).
    { clear -H. induction H as [p s Ep Es|c w p0 s0 p s [Sc Hc] Hw H IH Ep Es]; unfold hval in *.
      - rewrite Ep, Es. unfold dot. cbn [vzero cx cy cz]. lra.
      - rewrite Ep, Es, dot_vadd, dot_vscale. unfold val in Hc. nra. }
    assert (E : hval h r s2 == w * val h v + hval h r0 t0).
    { unfold hval, val. rewrite Er, Es, dot_vadd, dot_vscale. ring. }
    set (A := hval h q s1) in *.
    destruct (Qlt_le_dec 0 w) as [W|W].
    2:{ assert (Zw : w == 0) by lra. apply (cone_eq T (vadd q r0) (s1 + t0)).
        - apply IH; [exact Hq|]. fold A. rewrite E, Zw in Hs. lra.
        - rewrite Er, Zw. vring.
        - lra. }
    assert (PA : 0 < A) by nra.
    set (k := w * - val h v / A).
    assert (Hk0 : 0 <= k) by (unfold k; apply Qle_shift_div_l; [exact PA|nra]).
    assert (Hk1 : k <= 1) by (unfold k; apply Qle_shift_div_r; [exact PA|nra]).
    assert (EkA : k * A == w * - val h v) by (unfold k; field; lra).
    apply (cone_eq T (vadd (vadd (vscale (1 - k) q) r0) (vscale (w / A) (vadd (vscale A v) (vscale (- val h v) q))))
             (((1 - k) * s1 + t0) + (w / A) * (A + - val h v * s1))).
    + apply cone_add.
      * apply IH; [apply cone_scale; [lra|exact Hq]|]. rewrite hval_scale. fold A. rewrite E in Hs. nra.
      * apply cone_scale; [apply Qle_shift_div_l; [exact PA|lra]|]. apply pair_up; assumption.
    + rewrite Er. unfold k. repeat split; cbn [vadd vscale cx cy cz]; field; lra.
    + rewrite Es. unfold k. field. lra.
Qed.

Lemma cone_cut p : cone S p 1 -> 0 <= val h p -> cone T p 1.
Proof.
  intros H V. destruct (cone_parts p 1 H) as (q & s1 & r & s2 & Hq & Hr & Ep & Es).
  apply (cone_eq T (vadd q r) (s1 + s2)); [|exact Ep|exact Es]. apply transport; [exact Hr|exact Hq|].
  rewrite <- hval_add. assert (X : hval h (vadd q r) (s1 + s2) == val h p).
  { rewrite <- hval_one. unfold hval. rewrite Ep, Es. reflexivity. }
  lra.
Qed.
End Cut.
