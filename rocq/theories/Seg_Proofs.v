(** Lemmas about segments. *)
From Coq Require Import QArith Qabs Qfield ZArith List Lia Lqa Bool Permutation Setoid.
From Verif Require Import Prelude Vec Seg_Model Seg_Spec.
Import ListNotations.
Open Scope Q_scope.

(** * Algebra *)

Lemma dot_vadd a b c : dot a (vadd b c) == dot a b + dot a c.
Proof. unfold dot, vadd; cbn [cx cy cz]; ring. Qed.
Lemma dot_vsub a b c : dot a (vsub b c) == dot a b - dot a c.
Proof. unfold dot, vsub; cbn [cx cy cz]; ring. Qed.
Lemma dot_vscale a k b : dot a (vscale k b) == k * dot a b.
Proof. unfold dot, vscale; cbn [cx cy cz]; ring. Qed.
Lemma dot_comm a b : dot a b == dot b a.
Proof. unfold dot; ring. Qed.

Global Instance norm_le_Proper tol : Proper (veq ==> eq) (fun a => norm_le a tol).
Proof.
  intros a b H. apply eq_true_iff_eq. rewrite !norm_le_true. now rewrite H.
Qed.
Lemma near_norm_le tol p q : norm_le (vsub p q) tol = true <-> near tol p q.
Proof. apply norm_le_true. Qed.
Global Instance near_Proper tol : Proper (veq ==> veq ==> iff) (near tol).
Proof. intros a b H c d H'. unfold near. now rewrite H, H'. Qed.

Lemma at_param_vec s t : consistent s -> at_param s t =v= vadd (s_start s) (vscale t (s_vec s)).
Proof. intros H. unfold at_param. red in H. now rewrite H. Qed.

Lemma vadd_scale1 a v : vadd a (vscale 1 v) =v= vadd a v.
Proof. repeat split; cbn [vadd vscale cx cy cz]; ring. Qed.
Lemma vadd_scale0 a v : vadd a (vscale 0 v) =v= a.
Proof. repeat split; cbn [vadd vscale cx cy cz]; ring. Qed.

Lemma start_plus_vec s : consistent s -> vadd (s_start s) (s_vec s) =v= s_end s.
Proof.
  intros H. red in H. rewrite H. repeat split; cbn [vadd vsub cx cy cz]; ring.
Qed.
Lemma end_minus_vec s : consistent s -> vsub (s_end s) (s_vec s) =v= s_start s.
Proof.
  intros H. red in H. rewrite H. repeat split; cbn [vadd vsub cx cy cz]; ring.
Qed.

Global Instance on_Proper s : Proper (veq ==> iff) (on s).
Proof. intros p q H. unfold on. split; intros (t & H1 & H2 & H3); exists t; (rewrite H || rewrite <- H); auto. Qed.

Lemma sq_nonneg (x : Q) : 0 <= x * x.
Proof. nra. Qed.
Lemma best_self (k u : Q) : (k - k) * (k - k) <= (u - k) * (u - k).
Proof. pose proof (sq_nonneg (u - k)). setoid_replace ((k - k) * (k - k)) with 0 by ring. assumption. Qed.
Lemma best_low (k u : Q) : k <= 0 -> 0 <= u -> (0 - k) * (0 - k) <= (u - k) * (u - k).
Proof. intros. nra. Qed.
Lemma best_high (k u : Q) : 1 <= k -> u <= 1 -> (1 - k) * (1 - k) <= (u - k) * (u - k).
Proof. intros. nra. Qed.

(** The segment between parameters a and b of a consistent segment. *)
Lemma on_sub s a b p1 p2 p :
  a <= b ->
  p1 =v= vadd (s_start s) (vscale a (s_vec s)) -> p2 =v= vadd (s_start s) (vscale b (s_vec s)) ->
  (on (set_end (set_start line_default p1) p2) p <->
   exists t, a <= t /\ t <= b /\ p =v= vadd (s_start s) (vscale t (s_vec s))).
Proof.
  intros Hab H1 H2. unfold on, at_param. cbn [set_end set_start s_start s_end s_vec].
  split.
  - intros (u & Hu0 & Hu1 & Hp). exists (a + u * (b - a)). repeat split; try nra; rewrite Hp, H1, H2;
    cbn [vadd vsub vscale s_start s_vec cx cy cz]; ring.
  - intros (t & Ht0 & Ht1 & Hp). destruct (Qlt_le_dec a b) as [Hlt|Hle].
    + exists ((t - a) / (b - a)). assert (Hd : 0 < b - a) by lra.
      repeat split.
      * apply Qle_shift_div_l; lra.
      * apply Qle_shift_div_r; lra.
      * rewrite Hp, H1, H2. cbn [vadd vsub vscale s_start s_vec cx cy cz]; field; lra.
      * rewrite Hp, H1, H2. cbn [vadd vsub vscale s_start s_vec cx cy cz]; field; lra.
      * rewrite Hp, H1, H2. cbn [vadd vsub vscale s_start s_vec cx cy cz]; field; lra.
    + assert (Ha : a == t) by lra. assert (Hb : b == t) by lra. exists 0. split; [lra|split; [lra|]].
      rewrite Hp, H1, H2, Ha, Hb. repeat split; cbn [vadd vsub vscale cx cy cz]; ring.
Qed.

Lemma on_iff s p : consistent s ->
  (on s p <-> exists t, 0 <= t /\ t <= 1 /\ p =v= vadd (s_start s) (vscale t (s_vec s))).
Proof.
  intros H. unfold on. split; intros (t & H0 & H1 & Hp); exists t; (split; [exact H0|split; [exact H1|]]); rewrite Hp; [|symmetry]; now apply at_param_vec.
Qed.

(** * Clipping: the clipped segment is the part between two parameters. *)

Inductive clip_view (s : segment) (h : plane) (tol : Q) : Prop :=
| clip_none :
    p_d h <= dot (p_normal h) (s_start s) ->
    (Qabs (dot (p_normal h) (s_vec s)) <= tol \/
     (dot (p_normal h) (s_vec s) >= 0 /\ p_d h < dot (p_normal h) (s_start s)) \/
     (dot (p_normal h) (s_vec s) <= 0 /\ p_d h < dot (p_normal h) (s_start s) + dot (p_normal h) (s_vec s))) ->
    (forall p, on (clip s h tol) p <-> p =v= s_start s) -> clip_view s h tol
| clip_whole :
    dot (p_normal h) (s_start s) < p_d h ->
    (Qabs (dot (p_normal h) (s_vec s)) <= tol \/ dot (p_normal h) (s_start s) + dot (p_normal h) (s_vec s) <= p_d h) ->
    (forall p, on (clip s h tol) p <-> exists t, 0 <= t /\ t <= 1 /\ p =v= vadd (s_start s) (vscale t (s_vec s))) ->
    clip_view s h tol
| clip_low alpha :
    0 <= alpha -> alpha <= 1 -> 0 < dot (p_normal h) (s_vec s) ->
    alpha * dot (p_normal h) (s_vec s) == p_d h - dot (p_normal h) (s_start s) ->
    (forall p, on (clip s h tol) p <-> exists t, 0 <= t /\ t <= alpha /\ p =v= vadd (s_start s) (vscale t (s_vec s))) ->
    clip_view s h tol
| clip_high alpha :
    0 <= alpha -> alpha <= 1 -> dot (p_normal h) (s_vec s) < 0 ->
    alpha * dot (p_normal h) (s_vec s) == p_d h - dot (p_normal h) (s_start s) ->
    (forall p, on (clip s h tol) p <-> exists t, alpha <= t /\ t <= 1 /\ p =v= vadd (s_start s) (vscale t (s_vec s))) ->
    clip_view s h tol.

Lemma on_point q p : on (set_end (set_start line_default q) q) p <-> p =v= q.
Proof.
  unfold on, at_param. cbn [set_end set_start s_start s_end s_vec]. split.
  - intros (t & _ & _ & Hp). rewrite Hp. repeat split; cbn [vadd vsub vscale cx cy cz]; ring.
  - intros Hp. exists 0. split; [lra|split; [lra|]]. rewrite Hp. repeat split; cbn [vadd vsub vscale cx cy cz]; ring.
Qed.

Lemma clip_cases s h tol : 0 <= tol -> clip_view s h tol.
Proof.
  intros Ht.
  set (den := dot (p_normal h) (s_vec s)). set (num := dot (p_normal h) (s_start s)).
  destruct (Qlt_bool tol (Qabs den)) eqn:E1; [|destruct (Qlt_bool num (p_d h)) eqn:E2].
  - apply Qlt_bool_iff in E1 as E1'.
    assert (Hden : ~ den == 0).
    { intros H. rewrite H in E1'. cbn in E1'. lra. }
    assert (Hal : (p_d h - num) / den * den == p_d h - num) by (field; exact Hden).
    destruct (Qle_bool 0 ((p_d h - num) / den) && Qle_bool ((p_d h - num) / den) 1) eqn:E2.
    + apply andb_true_iff in E2 as E2'. destruct E2' as [Ha Hb]. apply Qle_bool_iff in Ha, Hb.
      destruct (Qlt_bool 0 den) eqn:E3.
      * apply Qlt_bool_iff in E3 as E3'. apply (clip_low s h tol ((p_d h - num) / den)); auto.
        intros p. unfold clip. fold den num. rewrite E1, E2, E3. cbn [fst snd].
        apply on_sub; [exact Ha|symmetry; apply vadd_scale0|reflexivity].
      * apply Qlt_bool_false in E3 as E3'. apply (clip_high s h tol ((p_d h - num) / den)); auto.
        { fold den. destruct (Qlt_le_dec den 0); [assumption|]. exfalso. apply Hden. lra. }
        intros p. unfold clip. fold den num. rewrite E1, E2, E3. cbn [fst snd].
        apply on_sub; [exact Hb|reflexivity|symmetry; apply vadd_scale1].
    + assert (Hout : (p_d h - num) / den < 0 \/ 1 < (p_d h - num) / den).
      { apply andb_false_iff in E2 as [E|E]; apply Qle_bool_false in E; auto. }
      destruct (Qlt_bool num (p_d h)) eqn:E3.
      * apply Qlt_bool_iff in E3 as E3'. apply clip_whole; [exact E3'| |].
        { fold num den. right. destruct Hout as [H|H].
          - assert (den <= 0) by nra. lra.
          - destruct (Qlt_le_dec den 0); [nra|]. assert (0 < den) by (destruct (Qlt_le_dec 0 den); [assumption|exfalso; apply Hden; lra]). nra. }
        intros p. unfold clip. fold den num. rewrite E1, E2, E3. cbn [fst snd].
        apply on_sub; [lra|symmetry; apply vadd_scale0|symmetry; apply vadd_scale1].
      * apply Qlt_bool_false in E3 as E3'. apply clip_none; [exact E3'| |].
        { fold num den. right. destruct (Qlt_le_dec den 0) as [Hn|Hn].
          - right. split; [lra|]. destruct Hout as [H|H]; nra.
          - left. split; [lra|]. assert (0 < den) by (destruct (Qlt_le_dec 0 den); [assumption|exfalso; apply Hden; lra]).
            destruct Hout as [H'|H']; nra. }
        intros p. unfold clip. fold den num. rewrite E1, E2, E3. cbn [fst snd]. apply on_point.
  - apply Qlt_bool_false in E1 as E1'. apply Qlt_bool_iff in E2 as E2'.
    apply clip_whole; [exact E2'|left; exact E1'|].
    intros p. unfold clip. fold den num. rewrite E1, E2. cbn [fst snd].
    apply on_sub; [lra|symmetry; apply vadd_scale0|symmetry; apply vadd_scale1].
  - apply Qlt_bool_false in E1 as E1'. apply Qlt_bool_false in E2 as E2'.
    apply clip_none; [exact E2'|left; exact E1'|].
    intros p. unfold clip. fold den num. rewrite E1, E2. cbn [fst snd]. apply on_point.
Qed.

Lemma dot_at n s t p : p =v= vadd (s_start s) (vscale t (s_vec s)) ->
  dot n p == dot n (s_start s) + t * dot n (s_vec s).
Proof. intros H. rewrite H, dot_vadd, dot_vscale. reflexivity. Qed.

Lemma on_start s : on s (s_start s).
Proof. exists 0. split; [lra|split; [lra|]]. unfold at_param. symmetry. apply vadd_scale0. Qed.
Lemma on_end s : on s (s_end s).
Proof.
  exists 1. split; [lra|split; [lra|]]. unfold at_param. repeat split; cbn [vadd vsub vscale cx cy cz]; ring.
Qed.

Lemma clip_contained s h tol p : consistent s -> 0 <= tol -> on (clip s h tol) p -> on s p.
Proof.
  intros Hc Ht Hp. rewrite (on_iff s p Hc).
  destruct (clip_cases s h tol Ht) as [_ _ H|_ _ H|alpha H0 H1 _ _ H|alpha H0 H1 _ _ H]; apply H in Hp.
  - exists 0. split; [lra|split; [lra|]]. rewrite vadd_scale0. exact Hp.
  - exact Hp.
  - destruct Hp as (t & ? & ? & ?). exists t. split; [lra|split; [lra|assumption]].
  - destruct Hp as (t & ? & ? & ?). exists t. split; [lra|split; [lra|assumption]].
Qed.

Lemma clip_exact s h tol : consistent s -> 0 <= tol ->
  tol < Qabs (dot (p_normal h) (vsub (s_end s) (s_start s))) ->
  (exists p, on s p /\ inside h p) ->
  forall p, on (clip s h tol) p <-> on s p /\ inside h p.
Proof.
  intros Hc Ht Hden (p0 & Hp0 & Hi0) p. pose proof Hc as Hc'. red in Hc'. rewrite <- Hc' in Hden.
  rewrite (on_iff s p Hc). rewrite (on_iff s p0 Hc) in Hp0. destruct Hp0 as (t0 & Ha & Hb & Hp0).
  unfold inside in *. rewrite (dot_at _ _ _ _ Hp0) in Hi0.
  destruct (clip_cases s h tol Ht) as [Hs Hn H|Hs Hw H|alpha H0 H1 Hd Hal H|alpha H0 H1 Hd Hal H]; rewrite H; clear H.
  - exfalso. destruct Hn as [Hn|[[Hn1 Hn2]|[Hn1 Hn2]]]; [lra|nra|nra].
  - destruct Hw as [Hw|Hw]; [lra|]. split; [|tauto]. intros (t & H1 & H2 & Hp). split; [eauto|].
    rewrite (dot_at _ _ _ _ Hp). destruct (Qlt_le_dec (dot (p_normal h) (s_vec s)) 0); nra.
  - split.
    + intros (t & H2 & H3 & Hp). split; [exists t; split; [lra|split; [lra|exact Hp]]|]. rewrite (dot_at _ _ _ _ Hp). nra.
    + intros ((t & H2 & H3 & Hp) & Hi). exists t. split; [lra|split; [|exact Hp]]. rewrite (dot_at _ _ _ _ Hp) in Hi.
      assert (Hm : t * dot (p_normal h) (s_vec s) <= alpha * dot (p_normal h) (s_vec s)) by lra.
      apply Qmult_le_r in Hm; assumption.
  - split.
    + intros (t & H2 & H3 & Hp). split; [exists t; split; [lra|split; [lra|exact Hp]]|]. rewrite (dot_at _ _ _ _ Hp). nra.
    + intros ((t & H2 & H3 & Hp) & Hi). exists t. split; [|split; [lra|exact Hp]]. rewrite (dot_at _ _ _ _ Hp) in Hi.
      destruct (Qlt_le_dec t alpha); [nra|assumption].
Qed.

Lemma clip_empty s h tol : consistent s -> 0 <= tol ->
  (forall p, on s p -> ~ inside h p) -> forall p, on (clip s h tol) p <-> p =v= s_start s.
Proof.
  intros Hc Ht Hout p.
  pose proof (Hout _ (on_start s)) as Hs. unfold inside in Hs. apply Qnot_le_lt in Hs.
  destruct (clip_cases s h tol Ht) as [_ Hn H|Hs' Hw H|alpha H0 H1 Hd Hal H|alpha H0 H1 Hd Hal H]; [apply H|lra|nra|].
  exfalso. apply (Hout (vadd (s_start s) (vscale alpha (s_vec s)))).
  - rewrite (on_iff s _ Hc). exists alpha. split; [assumption|split; [assumption|reflexivity]].
  - unfold inside. rewrite dot_vadd, dot_vscale. lra.
Qed.

Lemma clip_side s h tol p : consistent s -> 0 <= tol -> on (clip s h tol) p ->
  dot (p_normal h) p <= p_d h + tol \/
  (p =v= s_start s /\ forall q, on (clip s h tol) q <-> q =v= s_start s).
Proof.
  intros Hc Ht Hp.
  destruct (clip_cases s h tol Ht) as [Hs Hn H|Hs Hw H|alpha H0 H1 Hd Hal H|alpha H0 H1 Hd Hal H]; apply H in Hp as Hp'.
  - right. auto.
  - left. destruct Hp' as (t & H1 & H2 & Hp'). rewrite (dot_at _ _ _ _ Hp').
    destruct Hw as [Hw|Hw]; [apply Qabs_Qle_condition in Hw; nra|].
    destruct (Qlt_le_dec (dot (p_normal h) (s_vec s)) 0); nra.
  - left. destruct Hp' as (t & H2 & H3 & Hp'). rewrite (dot_at _ _ _ _ Hp'). nra.
  - left. destruct Hp' as (t & H2 & H3 & Hp'). rewrite (dot_at _ _ _ _ Hp'). nra.
Qed.

Lemma clip_loses_only_near s h tol p : consistent s -> 0 <= tol -> on s p ->
  dot (p_normal h) p < p_d h - tol -> on (clip s h tol) p.
Proof.
  intros Hc Ht Hp Hi. rewrite (on_iff s p Hc) in Hp.
  destruct (clip_cases s h tol Ht) as [Hs Hn H|Hs Hw H|alpha H0 H1 Hd Hal H|alpha H0 H1 Hd Hal H]; apply H;
    destruct Hp as (t & H2 & H3 & Hp); rewrite (dot_at _ _ _ _ Hp) in Hi.
  - exfalso. destruct Hn as [Hn|[[Hn1 Hn2]|[Hn1 Hn2]]]; [apply Qabs_Qle_condition in Hn; nra|nra|nra].
  - eauto.
  - exists t. split; [lra|split; [|exact Hp]]. destruct (Qlt_le_dec alpha t); [nra|assumption].
  - exists t. split; [|split; [lra|exact Hp]]. destruct (Qlt_le_dec t alpha); [nra|assumption].
Qed.

(** * Distance to a point *)

Lemma norm2_along s p t : norm2 (vsub p (vadd (s_start s) (vscale t (s_vec s)))) ==
  norm2 (vsub p (s_start s)) - 2 * t * dot (vsub p (s_start s)) (s_vec s) + t * t * dot (s_vec s) (s_vec s).
Proof.
  unfold norm2, dot. cbn [vadd vsub vscale s_start s_vec cx cy cz]; ring.
Qed.

Lemma dist_point_some s p tol q d2 : consistent s -> 0 <= tol -> dist_point s p tol = Some (q, d2) ->
  d2 == norm2 (vsub p q) /\
  (exists t, - tol <= t /\ t <= 1 + tol /\ q =v= at_param s t) /\
  (forall x, on s x -> norm2 (vsub p q) <= norm2 (vsub p x)).
Proof.
  intros Hc Ht. unfold dist_point.
  set (d := dot (s_vec s) (s_vec s)). set (w := dot (vsub p (s_start s)) (s_vec s)).
  destruct (Qlt_bool (tol * tol) (Qabs d)) eqn:Ed; [|discriminate]. apply Qlt_bool_iff in Ed.
  assert (Hd0 : 0 <= d) by apply norm2_nonneg. rewrite (Qabs_pos _ Hd0) in Ed.
  assert (Hd : 0 < d) by nra.
  assert (Hk : w / d * d == w) by (field; lra).
  set (k := w / d) in *.
  intros [= <- <-]. split; [reflexivity|].
  assert (Hmin : forall t q, q =v= vadd (s_start s) (vscale t (s_vec s)) ->
            (forall u, 0 <= u -> u <= 1 -> (t - k) * (t - k) <= (u - k) * (u - k)) ->
            forall x, on s x -> norm2 (vsub p q) <= norm2 (vsub p x)).
  { intros t q Hq Hall x Hx. rewrite (on_iff s x Hc) in Hx. destruct Hx as (u & Hu0 & Hu1 & Hx).
    specialize (Hall u Hu0 Hu1). rewrite Hq, Hx, !norm2_along. fold d w. rewrite <- Hk.
    assert (Hm : d * ((t - k) * (t - k)) <= d * ((u - k) * (u - k))) by (apply Qmult_le_l; assumption).
    clearbody k d w. lra. }
  destruct (Qle_bool (- tol) k && Qle_bool k (1 + tol)) eqn:E1.
  - apply andb_true_iff in E1 as [Ha Hb]. apply Qle_bool_iff in Ha, Hb. split.
    + exists k. split; [exact Ha|split; [exact Hb|]]. symmetry. now apply at_param_vec.
    + apply (Hmin k); [reflexivity|]. intros u _ _. apply best_self.
  - assert (Hout : k < - tol \/ 1 + tol < k).
    { apply andb_false_iff in E1 as [E|E]; apply Qle_bool_false in E; auto. }
    destruct (Qlt_bool k (- tol)) eqn:E2.
    + apply Qlt_bool_iff in E2. split.
      * exists 0. split; [lra|split; [lra|]]. unfold at_param. symmetry. apply vadd_scale0.
      * apply (Hmin 0); [symmetry; apply vadd_scale0|]. intros u Hu _. apply best_low; lra.
    + apply Qlt_bool_false in E2. destruct Hout as [Hout|Hout]; [lra|]. split.
      * exists 1. split; [lra|split; [lra|]]. rewrite (at_param_vec s 1 Hc), vadd_scale1, (start_plus_vec s Hc). reflexivity.
      * apply (Hmin 1); [rewrite vadd_scale1, (start_plus_vec s Hc); reflexivity|]. intros u Hu Hu1. apply best_high; lra.
Qed.

Lemma dist_point_answers s p tol : consistent s ->
  (dist_point s p tol = None <-> norm2 (vsub (s_end s) (s_start s)) <= tol * tol).
Proof.
  intros Hc. unfold dist_point.
  assert (He : dot (s_vec s) (s_vec s) == norm2 (vsub (s_end s) (s_start s))) by (unfold norm2; red in Hc; now rewrite Hc).
  assert (Hn : 0 <= dot (s_vec s) (s_vec s)) by apply norm2_nonneg.
  destruct (Qlt_bool (tol * tol) (Qabs (dot (s_vec s) (s_vec s)))) eqn:E.
  - apply Qlt_bool_iff in E. rewrite (Qabs_pos _ Hn) in E. split; [discriminate|]. lra.
  - apply Qlt_bool_false in E. rewrite (Qabs_pos _ Hn) in E. split; [lra|reflexivity].
Qed.

Lemma dist_point_exact s p q d2 : consistent s -> dist_point s p 0 = Some (q, d2) ->
  on s q /\ d2 == norm2 (vsub p q) /\ (forall x, on s x -> norm2 (vsub p q) <= norm2 (vsub p x)).
Proof.
  intros Hc H. destruct (dist_point_some s p 0 q d2 Hc (Qle_refl 0) H) as (H1 & (t & H2 & H3 & H4) & H5).
  split; [|auto]. exists t. split; [lra|split; [lra|exact H4]].
Qed.

(** * Distance between segments *)

Lemma norm2_pair s r a b :
  dot (s_vec r) (s_vec r) *
    norm2 (vsub (vadd (s_start r) (vscale b (s_vec r))) (vadd (s_start s) (vscale a (s_vec s)))) ==
  (dot (s_vec r) (s_vec r) * b - (dot (vsub (s_start s) (s_start r)) (s_vec r) + dot (s_vec r) (s_vec s) * a)) *
  (dot (s_vec r) (s_vec r) * b - (dot (vsub (s_start s) (s_start r)) (s_vec r) + dot (s_vec r) (s_vec s) * a))
  + (dot (s_vec s) (s_vec s) * dot (s_vec r) (s_vec r) - dot (s_vec r) (s_vec s) * dot (s_vec r) (s_vec s)) * (a * a)
  - 2 * a * (dot (vsub (s_start s) (s_start r)) (s_vec r) * dot (s_vec r) (s_vec s)
             - dot (vsub (s_start s) (s_start r)) (s_vec s) * dot (s_vec r) (s_vec r))
  + (norm2 (vsub (s_start s) (s_start r)) * dot (s_vec r) (s_vec r)
     - dot (vsub (s_start s) (s_start r)) (s_vec r) * dot (vsub (s_start s) (s_start r)) (s_vec r)).
Proof.
  unfold norm2, dot. cbn [vadd vsub vscale s_start s_vec cx cy cz]; ring.
Qed.

Lemma lagrange a b : dot a a * dot b b - dot b a * dot b a == norm2 (cross a b).
Proof. unfold norm2, dot, cross; cbn [cx cy cz]; ring. Qed.

Lemma dist_line_some s r tol p1 p2 d2 : consistent s -> consistent r -> 0 <= tol ->
  dist_line s r tol = Some (p1, p2, d2) ->
  d2 == norm2 (vsub p2 p1) /\
  (exists t, - tol <= t /\ t <= 1 + tol /\ p1 =v= at_param s t) /\
  on_line r p2 /\
  (forall x y, on s x -> on_line r y -> norm2 (vsub p2 p1) <= norm2 (vsub y x)).
Proof.
  intros Hs Hr Ht. unfold dist_line.
  set (vv := dot (s_vec r) (s_vec r)). set (uu := dot (s_vec s) (s_vec s)). set (uv := dot (s_vec r) (s_vec s)).
  set (av := dot (vsub (s_start s) (s_start r)) (s_vec r)). set (au := dot (vsub (s_start s) (s_start r)) (s_vec s)).
  set (den := uu * vv - uv * uv). set (num := av * uv - au * vv).
  destruct (Qle_bool (Qabs den) tol) eqn:Ed; [discriminate|]. apply Qle_bool_false in Ed.
  assert (Hden0 : 0 <= den) by (unfold den, uu, vv, uv; rewrite lagrange; apply norm2_nonneg).
  rewrite (Qabs_pos _ Hden0) in Ed.
  assert (Hden : 0 < den) by lra.
  assert (Hvv0 : 0 <= vv) by apply norm2_nonneg.
  assert (Huu0 : 0 <= uu) by apply norm2_nonneg.
  assert (Hvv : 0 < vv).
  { destruct (Qlt_le_dec 0 vv); [assumption|]. assert (vv == 0) by lra. unfold den in Hden. nra. }
  assert (Hk : num / den * den == num) by (field; lra).
  set (k := num / den) in *.
  set (mua := if Qlt_bool (1 + tol) (if Qlt_bool k (- tol) then 0 else k) then 1 else if Qlt_bool k (- tol) then 0 else k).
  assert (Hmua : - tol <= mua /\ mua <= 1 + tol /\
                 forall u, 0 <= u -> u <= 1 -> (mua - k) * (mua - k) <= (u - k) * (u - k)).
  { unfold mua. destruct (Qlt_bool k (- tol)) eqn:E1.
    - apply Qlt_bool_iff in E1. destruct (Qlt_bool (1 + tol) 0) eqn:E2; [apply Qlt_bool_iff in E2; lra|].
      split; [lra|split; [lra|]]. intros u ? ?. apply best_low; lra.
    - apply Qlt_bool_false in E1. destruct (Qlt_bool (1 + tol) k) eqn:E2.
      + apply Qlt_bool_iff in E2. split; [lra|split; [lra|]]. intros u ? ?. apply best_high; lra.
      + apply Qlt_bool_false in E2. split; [lra|split; [lra|]]. intros u ? ?. apply best_self. }
  clearbody mua. intros [= <- <- <-].
  split; [reflexivity|]. split; [|split].
  - exists mua. split; [apply Hmua|split; [apply Hmua|]]. symmetry. now apply at_param_vec.
  - eexists. symmetry. now apply at_param_vec.
  - intros x y Hx (b & Hy). rewrite (on_iff s x Hs) in Hx. destruct Hx as (a & Ha0 & Ha1 & Hx).
    rewrite (at_param_vec r b Hr) in Hy. rewrite Hx, Hy.
    destruct Hmua as (_ & _ & Hbest). specialize (Hbest a Ha0 Ha1).
    assert (Hb : vv * ((av + uv * mua) / vv) - (av + uv * mua) == 0) by (field; lra).
    pose proof (norm2_pair s r mua ((av + uv * mua) / vv)) as E1. pose proof (norm2_pair s r a b) as E2.
    fold vv uu uv av au den num in E1, E2. rewrite Hb, <- Hk in E1. rewrite <- Hk in E2.
    apply (Qmult_le_l _ _ vv Hvv). rewrite E1, E2.
    pose proof (sq_nonneg (vv * b - (av + uv * a))) as Hz.
    assert (Hm : den * ((mua - k) * (mua - k)) <= den * ((a - k) * (a - k))) by (apply Qmult_le_l; assumption).
    clearbody k den num. lra.
Qed.

Lemma dist_line_answers s r tol : consistent s -> consistent r -> 0 <= tol ->
  (dist_line s r tol = None <->
   norm2 (cross (vsub (s_end s) (s_start s)) (vsub (s_end r) (s_start r))) <= tol).
Proof.
  intros Hs Hr Ht. red in Hs, Hr. rewrite <- Hs, <- Hr. unfold dist_line.
  assert (Hn : 0 <= dot (s_vec s) (s_vec s) * dot (s_vec r) (s_vec r) - dot (s_vec r) (s_vec s) * dot (s_vec r) (s_vec s))
    by (rewrite lagrange; apply norm2_nonneg).
  destruct (Qle_bool (Qabs (dot (s_vec s) (s_vec s) * dot (s_vec r) (s_vec r) - dot (s_vec r) (s_vec s) * dot (s_vec r) (s_vec s))) tol) eqn:E.
  - apply Qle_bool_iff in E. rewrite (Qabs_pos _ Hn) in E. rewrite lagrange in E. split; [auto|reflexivity].
  - apply Qle_bool_false in E. rewrite (Qabs_pos _ Hn) in E. rewrite lagrange in E. split; [discriminate|lra].
Qed.

(** * Intersection with a plane *)

Lemma cut_plane_spec s h tol : consistent s -> 0 <= tol -> norm2 (p_normal h) == 1 ->
  tol * tol < Qabs (dot (p_normal h) (vsub (s_end s) (s_start s))) ->
  (forall p v, cut_plane s h tol = Some (p, v) ->
     dot (p_normal h) p == p_d h /\ exists t, - tol <= t /\ t <= 1 + tol /\ p =v= at_param s t) /\
  (cut_plane s h tol = None -> forall p, on s p -> ~ dot (p_normal h) p == p_d h).
Proof.
  intros Hc Ht Hn Hd. pose proof Hc as Hc'. red in Hc'. rewrite <- Hc' in Hd. unfold cut_plane.
  set (d := dot (p_normal h) (s_vec s)) in *.
  destruct (Qle_bool (Qabs d) (tol * tol)) eqn:E; [apply Qle_bool_iff in E; lra|].
  assert (Hd0 : ~ d == 0).
  { intros H. rewrite H in Hd. cbn in Hd. nra. }
  assert (Hu : dot (p_normal h) (vsub (vscale (p_d h) (p_normal h)) (s_start s)) == p_d h - dot (p_normal h) (s_start s)).
  { rewrite dot_vsub, dot_vscale. unfold norm2 in Hn. rewrite Hn. ring. }
  set (u := dot (p_normal h) (vsub (vscale (p_d h) (p_normal h)) (s_start s))) in *.
  assert (Hk : u / d * d == u) by (field; exact Hd0).
  set (k := u / d) in *.
  destruct (Qle_bool (- tol) k && Qle_bool k (1 + tol)) eqn:E1.
  - apply andb_true_iff in E1 as [Ha Hb]. apply Qle_bool_iff in Ha, Hb. split; [|discriminate].
    intros p v [= <- _]. split.
    + rewrite dot_vadd, dot_vscale. fold d. lra.
    + exists k. split; [exact Ha|split; [exact Hb|]]. symmetry. now apply at_param_vec.
  - assert (Hout : k < - tol \/ 1 + tol < k).
    { apply andb_false_iff in E1 as [E'|E']; apply Qle_bool_false in E'; auto. }
    split; [discriminate|]. intros _ p Hp Hon. rewrite (on_iff s p Hc) in Hp. destruct Hp as (t & H0 & H1 & Hp).
    rewrite (dot_at _ _ _ _ Hp) in Hon. fold d in Hon.
    assert (Hm : (t - k) * d == 0) by lra. apply Qmult_integral in Hm. destruct Hm as [Hm|Hm]; [lra|contradiction].
Qed.

(** * Setters *)

Lemma line_of_consistent p q : consistent (line_of p q).
Proof. unfold consistent. reflexivity. Qed.
Lemma set_end_consistent s p : consistent (set_end s p).
Proof. unfold consistent. reflexivity. Qed.
Lemma invert_consistent s : consistent s -> consistent (line_invert s).
Proof.
  unfold consistent, line_invert. cbn [s_start s_end s_vec].
  intros (H1 & H2 & H3); cbn [vsub cx cy cz] in *.
  repeat split; cbn [vadd vsub vopp cx cy cz]; lra.
Qed.
Lemma invert_swaps s : consistent s ->
  s_start (line_invert s) =v= s_end s /\ s_end (line_invert s) =v= s_start s.
Proof.
  intros H. split; cbn [line_invert s_start s_end]; [now apply start_plus_vec|now apply end_minus_vec].
Qed.

(** Calls that keep the direction in step: the constructor, or any history whose last setter call is
    setEndPoint, with any number of inversions afterwards. *)
Lemma calls_inverts s k : consistent s -> consistent (calls s (repeat Invert k)).
Proof.
  revert s. induction k as [|k IH]; intros s H; cbn [repeat]; [exact H|].
  unfold calls in *. cbn [fold_left call]. apply IH. now apply invert_consistent.
Qed.
Lemma calls_end_last s cs p k : consistent (calls s (cs ++ SetEnd p :: repeat Invert k)).
Proof.
  unfold calls. rewrite fold_left_app. cbn [fold_left call]. apply (calls_inverts _ k), set_end_consistent.
Qed.
(** After a setStartPoint on a consistent segment the direction is right only if the point did not move. *)
Lemma set_start_stale s p : consistent s -> (consistent (set_start s p) <-> p =v= s_start s).
Proof.
  unfold consistent, set_start. cbn [s_start s_end s_vec].
  intros (H1 & H2 & H3); cbn [vsub cx cy cz] in *. split; intros (H4 & H5 & H6); cbn [vsub cx cy cz] in *;
    repeat split; cbn [vsub cx cy cz]; lra.
Qed.
(** The end points after setStartPoint then invert: both are off by how far the start moved. *)
Lemma stale_invert s p : consistent s ->
  s_start (line_invert (set_start s p)) =v= vadd (s_end s) (vsub p (s_start s)) /\
  s_end (line_invert (set_start s p)) =v= s_start s.
Proof.
  intros H. red in H. cbn [line_invert set_start s_start s_end s_vec]. rewrite H.
  split; repeat split; cbn [vadd vsub cx cy cz]; ring.
Qed.
