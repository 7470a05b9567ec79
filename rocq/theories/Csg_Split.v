(** The two parts of a polygon cut by a plane. *)
From Coq Require Import QArith Qabs ZArith List Bool Lia Lqa Setoid Sorted.
From Verif Require Import Prelude Vec Seg_Model Seg_Spec Seg_Proofs Seg_Lists Face_Spec Grid_Spec Poly_Model Poly_Spec Poly_Proofs Poly_Tri Poly_Clip Csg_Model Csg_Spec Csg_Hull Csg_Ring.
Import ListNotations.
Open Scope Q_scope.

(** ** The parts are convex again *)
Definition le_pos (x y : nat * Q) : Prop := (fst x < fst y)%nat \/ (fst x = fst y /\ snd x <= snd y).

Lemma turn_mix1 n a b c d r : turn n (mix a b r) c d == (1 - r) * turn n a c d + r * turn n b c d.
Proof. unfold mix. tring. Qed.
Lemma turn_mix2 n a b c d r : turn n c (mix a b r) d == (1 - r) * turn n c a d + r * turn n c b d.
Proof. unfold mix. tring. Qed.
Lemma turn_mix_same12 n a b r s z : turn n (mix a b r) (mix a b s) z == (s - r) * turn n a b z.
Proof. unfold mix. tring. Qed.
Lemma turn_mix_same23 n a b r s x : turn n x (mix a b r) (mix a b s) == (s - r) * turn n x a b.
Proof. unfold mix. tring. Qed.

Lemma sorted_nth {A} (R : A -> A -> Prop) l d : StronglySorted R l -> forall i j, (i < j)%nat -> (j < length l)%nat -> R (nth i l d) (nth j l d).
Proof.
  induction 1 as [|a l S IH F]; intros i j Hij Hj; [cbn in Hj; lia|]. destruct j as [|j]; [lia|]. cbn [length] in Hj.
  rewrite Forall_forall in F. destruct i as [|i]; cbn [nth]; [apply F, nth_In; lia|]. apply IH; lia.
Qed.

Lemma mod_inj i m x y : (i < m)%nat -> (i <= x < i + m)%nat -> (i <= y < i + m)%nat -> (x mod m = y mod m)%nat -> x = y.
Proof.
  intros Hi Hx Hy.
  assert (E : forall z, (i <= z < i + m)%nat -> (z mod m)%nat = if Nat.ltb z m then z else (z - m)%nat).
  { intros z Hz. destruct (Nat.ltb_spec z m); [now apply Nat.mod_small|].
    replace z with ((z - m) + 1 * m)%nat at 1 by lia. rewrite Nat.mod_add by lia. apply Nat.mod_small. lia. }
  rewrite (E x Hx), (E y Hy). destruct (Nat.ltb_spec x m), (Nat.ltb_spec y m); lia.
Qed.

Section Out.
Variable vs : list coord.
Variable h : plane.
Variable tol : Q.
Hypothesis tol_pos : 0 <= tol.
Variable drop : side -> bool.

Let V := vtx vs.
Let m := length vs.

Definition out (e : coord * coord) : list coord :=
  let '(a, b) := e in
  (if drop (side_of h tol a) then [] else [a]) ++
  (if spanning (side_of h tol a) (side_of h tol b) then [crossing h a b] else []).
Let F := flat_map out (ring vs).

Lemma spans_crossed a b : spanning (side_of h tol a) (side_of h tol b) = true -> crossed h a b.
Proof. intros H. apply (spanning_iff h tol a b tol_pos) in H. destruct H; [left|right]; split; lra. Qed.

Definition block (k : nat) : list ((nat * Q) * coord) :=
  (if drop (side_of h tol (V k)) then [] else [((k, 0), V k)]) ++
  (if spanning (side_of h tol (V k)) (side_of h tol (V (k + 1))) then [((k, cparam h (V k) (V (k + 1))), crossing h (V k) (V (k + 1)))] else []).
Definition placed : list ((nat * Q) * coord) := flat_map block (seq 0 m).

Lemma out_placed : F = map snd placed.
Proof.
  unfold F, placed. rewrite ring_vtx. fold m. induction (seq 0 m) as [|k l IH]; [reflexivity|].
  cbn [flat_map map]. rewrite IH, map_app. f_equal. unfold out, block, V.
  rewrite map_app. destruct (drop _), (spanning _ _); reflexivity.
Qed.

Lemma block_in k x : In x (block k) -> fst (fst x) = k /\ 0 <= snd (fst x) <= 1 /\ snd x =v= mix (V k) (V (k + 1)) (snd (fst x)).
Proof.
  unfold block. rewrite in_app_iff. intros [H|H].
  - destruct (drop _); [destruct H|]. destruct H as [<-|[]]. cbn [fst snd]. split; [reflexivity|]. split; [lra|unfold mix; vring].
  - destruct (spanning _ _) eqn:E; [|destruct H]. destruct H as [<-|[]]. cbn [fst snd]. split; [reflexivity|].
    split; [apply cparam_range, spans_crossed, E|reflexivity].
Qed.

Lemma placed_in x : In x placed -> (fst (fst x) < m)%nat /\ 0 <= snd (fst x) <= 1 /\
  snd x =v= mix (V (fst (fst x))) (V (fst (fst x) + 1)) (snd (fst x)).
Proof.
  unfold placed. rewrite in_flat_map. intros (k & Hk & Hx). apply in_seq in Hk. apply block_in in Hx as (<- & H). split; [lia|exact H].
Qed.

Lemma placed_sorted : StronglySorted (fun x y => le_pos (fst x) (fst y)) placed.
Proof.
  unfold placed. generalize 0%nat. induction m as [|d IH]; intros a; [constructor|].
  cbn [seq flat_map]. specialize (IH (S a)).
  assert (Later : Forall (fun y => (a < fst (fst y))%nat) (flat_map block (seq (S a) d))).
  { apply Forall_forall. intros y Hy. apply in_flat_map in Hy as (k & Hk & Hy). apply in_seq in Hk. apply block_in in Hy as [-> _]. lia. }
  rewrite Forall_forall in Later.
  assert (B : forall s y, In y (flat_map block (seq (S a) d)) -> le_pos (a, s) (fst y)) by (intros s y Hy; left; apply Later; exact Hy).
  pose proof (block_in a) as BI. unfold block in BI at 1. unfold block at 1.
  assert (One : forall s x, StronglySorted (fun x y : (nat * Q) * coord => le_pos (fst x) (fst y)) (((a, s), x) :: flat_map block (seq (S a) d))).
  { intros s x. apply SSorted_cons; [exact IH|]. apply Forall_forall. intros y Hy. apply B. exact Hy. }
  destruct (drop _), (spanning _ _); cbn [app]; [apply One|exact IH| |apply One].
  apply SSorted_cons; [apply One|]. apply Forall_cons; [|apply Forall_forall; intros y Hy; apply B; exact Hy].
  right. cbn [fst snd]. split; [reflexivity|]. specialize (BI _ (or_intror (or_introl eq_refl))). cbn [fst snd] in BI. tauto.
Qed.

Lemma out_convex n : convex_ring n vs -> convex_ring n F.
Proof.
  intros conv i j k O K. rewrite out_placed in *. rewrite map_length in K.
  assert (T : forall i j k, (i <= j <= k)%nat -> (k <= m)%nat -> 0 <= turn n (V i) (V j) (V k)) by (intros; now apply turn_idx).
  set (d := ((0%nat, 0), vzero) : (nat * Q) * coord).
  change vzero with (snd d). rewrite !map_nth.
  assert (Li : (i < length placed)%nat) by lia. assert (Lj : (j < length placed)%nat) by lia.
  pose proof (placed_in (nth i placed d) (nth_In _ _ Li)) as (Mi & Ri & Ei).
  pose proof (placed_in (nth j placed d) (nth_In _ _ Lj)) as (Mj & Rj & Ej).
  pose proof (placed_in (nth k placed d) (nth_In _ _ K)) as (Mk & Rk & Ek).
  assert (Lij : le_pos (fst (nth i placed d)) (fst (nth j placed d))).
  { destruct (Nat.eq_dec i j) as [->|Hij]; [right; split; [reflexivity|lra]|].
    apply (sorted_nth _ _ d placed_sorted i j); lia. }
  assert (Ljk : le_pos (fst (nth j placed d)) (fst (nth k placed d))).
  { destruct (Nat.eq_dec j k) as [->|Hij]; [right; split; [reflexivity|lra]|].
    apply (sorted_nth _ _ d placed_sorted j k); lia. }
  rewrite Ei, Ej, Ek. clear Ei Ej Ek.
  destruct (nth i placed d) as [[a r] pa], (nth j placed d) as [[b s] pb], (nth k placed d) as [[e t] pe].
  unfold le_pos in *. cbn [fst snd] in *. clear O K Li Lj pa pb pe i j k.
  destruct Lij as [Lij|[-> Lij]].
  - destruct Ljk as [Ljk|[-> Ljk]].
    + rewrite turn_mix1, !turn_mix2, !turn_mix.
      pose proof (T a b e ltac:(lia) ltac:(lia)). pose proof (T a b (e + 1)%nat ltac:(lia) ltac:(lia)).
      pose proof (T a (b + 1)%nat e ltac:(lia) ltac:(lia)). pose proof (T a (b + 1)%nat (e + 1)%nat ltac:(lia) ltac:(lia)).
      pose proof (T (a + 1)%nat b e ltac:(lia) ltac:(lia)). pose proof (T (a + 1)%nat b (e + 1)%nat ltac:(lia) ltac:(lia)).
      pose proof (T (a + 1)%nat (b + 1)%nat e ltac:(lia) ltac:(lia)). pose proof (T (a + 1)%nat (b + 1)%nat (e + 1)%nat ltac:(lia) ltac:(lia)).
      assert (C : forall x y w, 0 <= w <= 1 -> 0 <= x -> 0 <= y -> 0 <= (1 - w) * x + w * y) by (intros; nra).
      repeat (apply C; try assumption).
    + rewrite turn_mix_same23, turn_mix1.
      pose proof (T a e (e + 1)%nat ltac:(lia) ltac:(lia)). pose proof (T (a + 1)%nat e (e + 1)%nat ltac:(lia) ltac:(lia)).
      assert (0 <= (1 - r) * turn n (V a) (V e) (V (e + 1)) + r * turn n (V (a + 1)) (V e) (V (e + 1))) by nra. nra.
  - rewrite turn_mix_same12, turn_mix.
    assert (0 <= (1 - t) * turn n (V b) (V (b + 1)) (V e) + t * turn n (V b) (V (b + 1)) (V (e + 1))).
    { destruct Ljk as [Ljk|[-> Ljk]].
      - pose proof (T b (b + 1)%nat e ltac:(lia) ltac:(lia)). pose proof (T b (b + 1)%nat (e + 1)%nat ltac:(lia) ltac:(lia)). nra.
      - assert (Z1 : turn n (V e) (V (e + 1)) (V e) == 0) by tring. assert (Z2 : turn n (V e) (V (e + 1)) (V (e + 1)) == 0) by tring.
        rewrite Z1, Z2. lra. }
    nra.
Qed.

Lemma out_src x : In x F -> (In x vs /\ drop (side_of h tol x) = false) \/
  (exists a b, In a vs /\ In b vs /\ crossed h a b /\ x = crossing h a b).
Proof.
  unfold F. rewrite ring_vtx, in_flat_map. intros ([a b] & He & Hx). apply in_map_iff in He as (k & E & Hk).
  assert (Hne : vs <> []) by (intros E0; rewrite E0 in Hk; destruct Hk).
  injection E as <- <-. unfold out in Hx. rewrite in_app_iff in Hx. destruct Hx as [Hx|Hx].
  - left. destruct (drop _) eqn:D; [destruct Hx|]. destruct Hx as [<-|[]]. split; [now apply vtx_in|exact D].
  - right. destruct (spanning _ _) eqn:D; [|destruct Hx]. destruct Hx as [<-|[]].
    exists (vtx vs k), (vtx vs (k + 1)). split; [now apply vtx_in|]. split; [now apply vtx_in|]. split; [now apply spans_crossed|reflexivity].
Qed.

Lemma crossing_hull a b : In a vs -> In b vs -> crossed h a b -> in_hull vs (crossing h a b).
Proof.
  intros Ha Hb C. rewrite crossing_mix. apply hull_seg; [now apply cparam_range|now apply hull_in|now apply hull_in].
Qed.

Lemma out_hull x : In x F -> in_hull vs x.
Proof.
  intros H. destruct (out_src x H) as [[I _]|(a & b & Ia & Ib & C & ->)]; [now apply hull_in|now apply crossing_hull].
Qed.

Lemma out_keep v : In v vs -> drop (side_of h tol v) = false -> In v F.
Proof.
  intros Hv D. destruct (In_nth vs v vzero Hv) as (i & Hi & Ei). unfold F. rewrite ring_vtx. apply in_flat_map.
  exists (vtx vs i, vtx vs (i + 1)). split; [apply in_map_iff; exists i; split; [reflexivity|apply in_seq; lia]|].
  unfold out. rewrite (vtx_small vs i Hi), Ei, D. apply in_app_iff. left. now left.
Qed.
End Out.

Definition tags (drop : side -> bool) (h : plane) (vs : list coord) (k : nat) : list (nat * bool) :=
  (if drop (side_of h 0 (vtx vs k)) then [] else [(k, false)]) ++
  (if spanning (side_of h 0 (vtx vs k)) (side_of h 0 (vtx vs (k + 1))) then [(k, true)] else []).

(** A part of a polygon with vertices strictly on both sides has at least three vertices. *)
Lemma out_three vs h drop u v : drop Coplanar = false -> In u vs -> In v vs -> crossed h u v ->
  drop (side_of h 0 u) = false -> (3 <= length (flat_map (out h 0 drop) (ring vs)))%nat.
Proof.
  intros Dc Hu Hv C Du.
  destruct (In_nth vs u vzero Hu) as (i & Hi & Ei). destruct (In_nth vs v vzero Hv) as (j & Hj & Ej).
  rewrite <- (vtx_small vs i Hi) in Ei. rewrite <- (vtx_small vs j Hj) in Ej.
  set (m := length vs) in *.
  assert (Hij : i <> j) by (intros ->; rewrite Ei in Ej; subst; destruct C; lra).
  assert (Hd : exists d, (0 < d < m)%nat /\ vtx vs (i + d) = v).
  { destruct (Nat.lt_ge_cases i j).
    - exists (j - i)%nat. split; [lia|]. replace (i + (j - i))%nat with j by lia. exact Ej.
    - exists (j + m - i)%nat. split; [lia|]. replace (i + (j + m - i))%nat with (j + m)%nat by lia. unfold m. rewrite vtx_wrap. exact Ej. }
  destruct Hd as (d & Hd & Ed).
  destruct (sign_change vs h d i) as (k1 & K1 & Q1); [rewrite Ei, Ed; exact C|].
  destruct (sign_change vs h (m - d) (i + d)) as (k2 & K2 & Q2).
  { replace (i + d + (m - d))%nat with (i + m)%nat by lia. unfold m. rewrite vtx_wrap, Ei, Ed. destruct C; [right|left]; tauto. }
  assert (Lt : length (flat_map (out h 0 drop) (ring vs)) = length (flat_map (tags drop h vs) (seq 0 m))).
  { rewrite ring_vtx. fold m. induction (seq 0 m) as [|k l IH]; [reflexivity|]. cbn [map flat_map]. rewrite !app_length, IH. f_equal.
    unfold out, tags. rewrite !app_length. destruct (drop (side_of h 0 (vtx vs k))), (spanning _ _); reflexivity. }
  rewrite Lt.
  assert (Hm : (m <> 0)%nat) by lia.
  assert (In_tag : forall k b, In (k mod m, b)%nat (tags drop h vs (k mod m)) -> In (k mod m, b)%nat (flat_map (tags drop h vs) (seq 0 m))).
  { intros k b H. apply in_flat_map. exists (k mod m)%nat. split; [apply in_seq; pose proof (Nat.mod_upper_bound k m Hm); lia|exact H]. }
  assert (Vm : forall k, vtx vs (k mod m) = vtx vs k) by (intros k; unfold vtx; fold m; now rewrite Nat.mod_mod).
  assert (Vm1 : forall k, vtx vs (k mod m + 1) = vtx vs (k + 1)) by (intros k; unfold vtx; fold m; now rewrite Nat.add_mod_idemp_l).
  assert (Sz : forall w, val h w == 0 -> side_of h 0 w = Coplanar).
  { intros w Z. assert (Hb : is_back (side_of h 0 w) = false) by (apply (false_iff _ _ (back_iff h 0 w)); lra).
    assert (Hf : is_front (side_of h 0 w) = false) by (apply (false_iff _ _ (front_iff h 0 w ltac:(lra))); lra).
    now destruct (side_of h 0 w). }
  assert (Sp : forall a b, crossed h a b -> spanning (side_of h 0 a) (side_of h 0 b) = true).
  { intros a b X. apply spanning_iff; [lra|]. destruct X; [left|right]; split; lra. }
  assert (Tag : forall k, val h (vtx vs k) == 0 \/ crossed h (vtx vs k) (vtx vs (k + 1)) ->
            exists b, (b = false -> val h (vtx vs k) == 0) /\ In (k mod m, b)%nat (flat_map (tags drop h vs) (seq 0 m))).
  { intros k [Z|X].
    - exists false. split; [auto|]. apply In_tag. unfold tags. rewrite Vm, (Sz _ Z), Dc. now left.
    - exists true. split; [discriminate|]. apply In_tag. unfold tags. rewrite Vm, Vm1, (Sp _ _ X). apply in_app_iff. right. now left. }
  destruct (Tag k1 Q1) as (b1 & Z1 & I1). destruct (Tag k2 Q2) as (b2 & Z2 & I2).
  assert (I0 : In (i mod m, false)%nat (flat_map (tags drop h vs) (seq 0 m))).
  { apply In_tag. unfold tags. rewrite Vm, Ei, Du. now left. }
  change 3%nat with (length [(i mod m, false); (k1 mod m, b1); (k2 mod m, b2)]%nat).
  apply NoDup_incl_length; [|intros x [<-|[<-|[<-|[]]]]; assumption].
  assert (N12 : (k1 mod m)%nat <> (k2 mod m)%nat) by (intros E; apply (mod_inj i) in E; lia).
  assert (N02 : (i mod m)%nat <> (k2 mod m)%nat) by (intros E; apply (mod_inj i) in E; lia).
  constructor; [|constructor; [|constructor; [intros []|constructor]]].
  - intros [E|[E|[]]].
    + injection E as E Eb. apply (mod_inj i) in E; [|lia|lia|lia]. subst k1. specialize (Z1 Eb). rewrite Ei in Z1. destruct C; lra.
    + injection E as E _. congruence.
  - intros [E|[]]. injection E as E _. congruence.
Qed.

(** ** Closing *)
Lemma close_incl vs v : In v vs -> In v (pl_close vs 0).
Proof.
  intros H. unfold pl_close. destruct (Nat.ltb _ _); [|exact H]. destruct (norm_le _ _); [exact H|]. apply in_app_iff. now left.
Qed.

Lemma close_hull vs p : in_hull (pl_close vs 0) p <-> in_hull vs p.
Proof.
  split; apply hull_trans; intros c Hc; apply hull_in; [now apply pl_close_in in Hc|now apply close_incl].
Qed.

Lemma close_convex n vs : convex_ring n vs -> convex_ring n (pl_close vs 0).
Proof.
  intros C. unfold pl_close. destruct (Nat.ltb_spec 2 (length vs)) as [L|L]; [|exact C]. destruct (norm_le _ _); [exact C|].
  intros i j k O K. rewrite app_length in K. cbn [length] in K.
  assert (N : forall a, (a < length vs)%nat -> nth a (vs ++ [vtx vs 0]) vzero = nth a vs vzero) by (intros; now apply app_nth1).
  assert (Nm : nth (length vs) (vs ++ [vtx vs 0]) vzero = nth 0 vs vzero)
    by (rewrite app_nth2, Nat.sub_diag by lia; cbn [nth]; apply vtx_small; lia).
  destruct (Nat.eq_dec k (length vs)) as [->|Hk].
  - rewrite Nm. destruct (Nat.eq_dec j (length vs)) as [->|Hj].
    + rewrite Nm, turn_same. lra.
    + rewrite !N by lia. rewrite <- turn_rot. apply C; lia.
  - rewrite !N by lia. apply C; lia.
Qed.

(** ** splitPolygon *)
Lemma existsb_map {A B} (f : A -> B) g l : existsb g (map f l) = true <-> exists x, In x l /\ g (f x) = true.
Proof.
  rewrite existsb_exists. split.
  - intros (y & Hy & G). apply in_map_iff in Hy as (x & <- & Hx). eauto.
  - intros (x & Hx & G). exists (f x). split; [now apply in_map|exact G].
Qed.

Lemma existsb_map_false {A B} (f : A -> B) g l : existsb g (map f l) = false -> forall x, In x l -> g (f x) = false.
Proof.
  intros E x Hx. destruct (g (f x)) eqn:G; [|reflexivity]. assert (X : existsb g (map f l) = true) by (apply existsb_map; eauto). congruence.
Qed.

(** The four lists of splitPolygon, by cases. *)
Lemma split_cases h tol q : 0 <= tol ->
  ((forall v, In v (pv q) -> - tol <= val h v <= tol) /\
    ((0 < dot (p_normal h) (pn q) /\ split h tol q = ([q], [], [], [])) \/ (dot (p_normal h) (pn q) <= 0 /\ split h tol q = ([], [q], [], [])))) \/
  ((exists v, In v (pv q) /\ tol < val h v) /\ (forall v, In v (pv q) -> - tol <= val h v) /\ split h tol q = ([], [], [q], [])) \/
  ((exists v, In v (pv q) /\ val h v < - tol) /\ (forall v, In v (pv q) -> val h v <= tol) /\ split h tol q = ([], [], [], [q])) \/
  (exists u v, In u (pv q) /\ In v (pv q) /\ tol < val h u /\ val h v < - tol /\
    split h tol q = ([], [], piece (flat_map (out h tol is_back) (ring (pv q))) (pn q), piece (flat_map (out h tol is_front) (ring (pv q))) (pn q))).
Proof.
  intros Ht. unfold split. destruct (existsb is_front _) eqn:Ef, (existsb is_back _) eqn:Eb.
  - right. right. right. apply existsb_map in Ef as (u & Hu & Fu). apply existsb_map in Eb as (v & Hv & Bv).
    apply front_iff in Fu; [|exact Ht]. apply back_iff in Bv. exists u, v. tauto.
  - right. left. apply existsb_map in Ef as (u & Hu & Fu). apply front_iff in Fu; [|exact Ht]. split; [eauto|]. split; [|reflexivity].
    intros v Hv. pose proof (existsb_map_false _ _ _ Eb v Hv) as G. apply (false_iff _ _ (back_iff h tol v)) in G. lra.
  - right. right. left. apply existsb_map in Eb as (u & Hu & Fu). apply back_iff in Fu. split; [eauto|]. split; [|reflexivity].
    intros v Hv. pose proof (existsb_map_false _ _ _ Ef v Hv) as G. apply (false_iff _ _ (front_iff h tol v Ht)) in G. lra.
  - left. split.
    + intros v Hv. pose proof (existsb_map_false _ _ _ Eb v Hv) as G. apply (false_iff _ _ (back_iff h tol v)) in G.
      pose proof (existsb_map_false _ _ _ Ef v Hv) as G'. apply (false_iff _ _ (front_iff h tol v Ht)) in G'. lra.
    + destruct (Qlt_bool _ _) eqn:E; [apply Qlt_bool_iff in E; left|apply Qlt_bool_false in E; right]; tauto.
Qed.

Lemma piece_in vs n r : In r (piece vs n) -> (2 < length vs)%nat /\ r = Poly (pl_close vs 0) n.
Proof.
  unfold piece. destruct (Nat.ltb_spec 2 (length vs)); [|intros []]. intros [<-|[]]. tauto.
Qed.

Definition all_parts (r : list poly * list poly * list poly * list poly) : list poly := s_cf r ++ s_cb r ++ s_front r ++ s_back r.

Lemma flat_hull n c vs p : (forall v, In v vs -> dot n v == c) -> in_hull vs p -> dot n p == c.
Proof.
  intros H Hp. set (g := Plane n c).
  assert (A : 0 <= val g p) by (apply (hull_above g 0 vs); [|exact Hp]; intros v Hv; unfold val; cbn; rewrite (H v Hv); lra).
  assert (B : val g p <= 0) by (apply (hull_below g 0 vs); [|exact Hp]; intros v Hv; unfold val; cbn; rewrite (H v Hv); lra).
  unfold val in *. cbn in *. lra.
Qed.

(** Every part lies in the polygon, has its normal, and is flat and convex if the polygon is. *)
Lemma split_part h tol q r : 0 <= tol -> In r (all_parts (split h tol q)) ->
  pn r = pn q /\ (forall v, In v (pv r) -> points q v) /\ (flat q -> flat r) /\ (convex_poly q -> convex_poly r) /\
  (pv q <> [] -> pv r <> []).
Proof.
  intros Ht Hr.
  assert (Same : r = q -> pn r = pn q /\ (forall v, In v (pv r) -> points q v) /\ (flat q -> flat r) /\ (convex_poly q -> convex_poly r) /\ (pv q <> [] -> pv r <> [])).
  { intros ->. split; [reflexivity|]. split; [intros v Hv; now apply hull_in|]. tauto. }
  assert (Cut : forall drop, In r (piece (flat_map (out h tol drop) (ring (pv q))) (pn q)) -> pn r = pn q /\ (forall v, In v (pv r) -> points q v) /\ (flat q -> flat r) /\ (convex_poly q -> convex_poly r) /\ (pv q <> [] -> pv r <> [])).
  { intros drop H. apply piece_in in H as [L ->]. cbn [pv pn]. split; [reflexivity|].
    assert (Hull : forall v, In v (pl_close (flat_map (out h tol drop) (ring (pv q))) 0) -> points q v).
    { intros v Hv. apply pl_close_in in Hv. now apply (out_hull (pv q) h tol Ht drop). }
    assert (Fl : flat q -> flat (Poly (pl_close (flat_map (out h tol drop) (ring (pv q))) 0) (pn q))).
    { intros [N [c Hc]]. split; [exact N|]. exists c. intros v Hv. cbn [pn pv] in *. apply (flat_hull (pn q) c (pv q)); [exact Hc|now apply Hull]. }
    split; [exact Hull|]. split; [exact Fl|]. split.
    - intros [F C]. split; [now apply Fl|]. apply close_convex, out_convex; assumption.
    - intros _ E. destruct (flat_map _ _) as [|x l] eqn:E2; [cbn in L; lia|].
      assert (I : In x (pl_close (x :: l) 0)) by (apply close_incl; now left). rewrite E in I. destruct I. }
  destruct (split_cases h tol q Ht) as [[_ [[_ E]|[_ E]]]|[(_ & _ & E)|[(_ & _ & E)|(u & v & _ & _ & _ & _ & E)]]];
    rewrite E in Hr; unfold all_parts, s_cf, s_cb, s_front, s_back in Hr; cbn [fst snd app] in Hr.
  - destruct Hr as [<-|[]]; auto.
  - destruct Hr as [<-|[]]; auto.
  - destruct Hr as [<-|[]]; auto.
  - destruct Hr as [<-|[]]; auto.
  - apply in_app_iff in Hr as [Hr|Hr]; now apply Cut in Hr.
Qed.

Lemma split_front h tol q r : 0 <= tol -> In r (s_front (split h tol q)) -> forall p, points r p -> - tol <= val h p.
Proof.
  intros Ht Hr p Hp.
  assert (Vx : forall v, In v (pv r) -> - tol <= val h v).
  { destruct (split_cases h tol q Ht) as [[_ [[_ E]|[_ E]]]|[(_ & A & E)|[(_ & _ & E)|(u & v & _ & _ & _ & _ & E)]]];
      rewrite E in Hr; unfold s_front in Hr; cbn [fst snd] in Hr.
    - destruct Hr. - destruct Hr.
    - destruct Hr as [<-|[]]. exact A.
    - destruct Hr.
    - apply piece_in in Hr as [_ ->]. cbn [pv]. intros w Hw. apply pl_close_in in Hw.
      destruct (out_src (pv q) h tol Ht is_back w Hw) as [[_ D]|(a & b & _ & _ & C & ->)].
      + apply (false_iff _ _ (back_iff h tol w)) in D. lra.
      + rewrite crossing_on by exact C. lra. }
  apply (hull_above h (- tol) (pv r)); assumption.
Qed.

Lemma split_back h tol q r : 0 <= tol -> In r (s_back (split h tol q)) -> forall p, points r p -> val h p <= tol.
Proof.
  intros Ht Hr p Hp.
  assert (Vx : forall v, In v (pv r) -> val h v <= tol).
  { destruct (split_cases h tol q Ht) as [[_ [[_ E]|[_ E]]]|[(_ & A & E)|[(_ & A & E)|(u & v & _ & _ & _ & _ & E)]]];
      rewrite E in Hr; unfold s_back in Hr; cbn [fst snd] in Hr.
    - destruct Hr. - destruct Hr. - destruct Hr.
    - destruct Hr as [<-|[]]. exact A.
    - apply piece_in in Hr as [_ ->]. cbn [pv]. intros w Hw. apply pl_close_in in Hw.
      destruct (out_src (pv q) h tol Ht is_front w Hw) as [[_ D]|(a & b & _ & _ & C & ->)].
      + apply (false_iff _ _ (front_iff h tol w Ht)) in D. lra.
      + rewrite crossing_on by exact C. lra. }
  apply (hull_below h tol (pv r)); assumption.
Qed.

Lemma split_coplanar h tol q r : 0 <= tol -> In r (s_cf (split h tol q) ++ s_cb (split h tol q)) ->
  r = q /\ (forall p, points r p -> - tol <= val h p <= tol).
Proof.
  intros Ht Hr.
  destruct (split_cases h tol q Ht) as [[A [[_ E]|[_ E]]]|[(_ & _ & E)|[(_ & _ & E)|(u & v & _ & _ & _ & _ & E)]]];
    rewrite E in Hr; unfold s_cf, s_cb in Hr; cbn [fst snd app] in Hr; try (destruct Hr; fail).
  - destruct Hr as [<-|[]]. split; [reflexivity|]. intros p Hp. split.
    + apply (hull_above h (- tol) (pv q)); [intros; now apply A|exact Hp].
    + apply (hull_below h tol (pv q)); [intros; now apply A|exact Hp].
  - destruct Hr as [<-|[]]. split; [reflexivity|]. intros p Hp. split.
    + apply (hull_above h (- tol) (pv q)); [intros; now apply A|exact Hp].
    + apply (hull_below h tol (pv q)); [intros; now apply A|exact Hp].
Qed.

(** Exactly: with tolerance 0, each point of a convex polygon is in a part on its side. *)
Section Cover.
Variables (h : plane) (q : poly) (p u v : coord).
Hypothesis (Cq : convex_poly q) (Hp : points q p) (Hu : In u (pv q)) (Hv : In v (pv q)) (Pu : 0 < val h u) (Nv : val h v < 0).
Let Z : 0 <= 0 := Qle_refl 0.

Lemma cut_cover_front : 0 <= val h p -> exists r, In r (piece (flat_map (out h 0 is_back) (ring (pv q))) (pn q)) /\ points r p.
Proof.
  intros V. destruct Cq as [[N [c Hc]] C]. unfold piece.
  assert (L : (3 <= length (flat_map (out h 0 is_back) (ring (pv q))))%nat).
  { apply (out_three _ _ _ u v); try assumption; try reflexivity; [left; lra|]. apply (false_iff _ _ (back_iff h 0 u)). lra. }
  destruct (Nat.ltb_spec 2 (length (flat_map (out h 0 is_back) (ring (pv q))))) as [_|?]; [|lia].
  eexists. split; [now left|]. unfold points. cbn [pv]. apply close_hull. unfold points in Hp. rewrite in_hull_cone in *.
  refine (cone_cut h _ _ _ _ p Hp _); [| |lra].
  + intros w Hw Vw. apply cone_one. apply out_keep; [exact Hw|]. apply (false_iff _ _ (back_iff h 0 w)). lra.
  + intros a b Ha Hb Pa Nb. apply in_hull_cone.
    apply (crossing_in_hull (pv q) (pn q) N c Hc C h is_back eq_refl); assumption.
Qed.

Lemma cut_cover_back : val h p <= 0 -> exists r, In r (piece (flat_map (out h 0 is_front) (ring (pv q))) (pn q)) /\ points r p.
Proof.
  intros V. destruct Cq as [[N [c Hc]] C]. unfold piece.
  assert (L : (3 <= length (flat_map (out h 0 is_front) (ring (pv q))))%nat).
  { apply (out_three _ _ _ v u); try assumption; try reflexivity; [right; lra|]. apply (false_iff _ _ (front_iff h 0 v Z)). lra. }
  destruct (Nat.ltb_spec 2 (length (flat_map (out h 0 is_front) (ring (pv q))))) as [_|?]; [|lia].
  eexists. split; [now left|]. unfold points. cbn [pv]. apply close_hull. unfold points in Hp. rewrite in_hull_cone in *.
  refine (cone_cut (plane_invert h) _ _ _ _ p Hp _); [| |rewrite val_invert; lra].
  + intros w Hw Vw. rewrite val_invert in Vw. apply cone_one. apply out_keep; [exact Hw|]. apply (false_iff _ _ (front_iff h 0 w Z)). lra.
  + intros a b Ha Hb Pa Nb. rewrite val_invert in Pa, Nb. apply in_hull_cone.
    apply (in_hull_veq _ (crossing h b a)).
    * rewrite (crossing_sym h b a) by (left; lra). rewrite !crossing_mix.
      assert (D : ~ val h a - val h b == 0) by lra.
      assert (X : cparam (plane_invert h) a b == cparam h a b).
      { rewrite (proj1 (cparam_eq (plane_invert h) a b ltac:(left; rewrite !val_invert; lra))), (proj1 (cparam_eq h a b ltac:(right; lra))).
        rewrite !val_invert. field. split; [exact D|intros Z0; apply D; lra]. }
      unfold mix. rewrite X. reflexivity.
    * apply (crossing_in_hull (pv q) (pn q) N c Hc C h is_front eq_refl); try assumption; lra.
Qed.
End Cover.

Lemma split_cover_front h q p : convex_poly q -> points q p -> 0 < val h p -> exists r, In r (s_front (split h 0 q)) /\ points r p.
Proof.
  intros C Hp V. assert (Z : 0 <= 0) by lra.
  destruct (split_cases h 0 q Z) as [[A _]|[(_ & _ & E)|[(_ & A & E)|(u & v & Hu & Hv & Pu & Nv & E)]]].
  - exfalso. assert (X : val h p <= 0) by (apply (hull_below h 0 (pv q)); [intros w Hw; apply A in Hw; lra|exact Hp]). lra.
  - exists q. rewrite E. unfold s_front. cbn [fst snd]. split; [now left|exact Hp].
  - exfalso. assert (X : val h p <= 0) by (apply (hull_below h 0 (pv q)); [intros w Hw; apply A in Hw; lra|exact Hp]). lra.
  - rewrite E. unfold s_front. cbn [fst snd]. apply (cut_cover_front h q p u v); try assumption; lra.
Qed.

Lemma split_cover_back h q p : convex_poly q -> points q p -> val h p < 0 -> exists r, In r (s_back (split h 0 q)) /\ points r p.
Proof.
  intros C Hp V. assert (Z : 0 <= 0) by lra.
  destruct (split_cases h 0 q Z) as [[A _]|[(_ & A & E)|[(_ & A & E)|(u & v & Hu & Hv & Pu & Nv & E)]]].
  - exfalso. assert (X : 0 <= val h p) by (apply (hull_above h 0 (pv q)); [intros w Hw; apply A in Hw; lra|exact Hp]). lra.
  - exfalso. assert (X : 0 <= val h p) by (apply (hull_above h 0 (pv q)); [intros w Hw; apply A in Hw; lra|exact Hp]). lra.
  - exists q. rewrite E. unfold s_back. cbn [fst snd]. split; [now left|exact Hp].
  - rewrite E. unfold s_back. cbn [fst snd]. apply (cut_cover_back h q p u v); try assumption; lra.
Qed.

(** Every point is in some part. *)
Lemma split_cover h q p : convex_poly q -> points q p -> exists r, In r (all_parts (split h 0 q)) /\ points r p.
Proof.
  intros C Hp. assert (Z : 0 <= 0) by lra. unfold all_parts, s_cf, s_cb, s_front, s_back.
  destruct (split_cases h 0 q Z) as [[A [[_ E]|[_ E]]]|[(_ & A & E)|[(_ & A & E)|(u & v & Hu & Hv & Pu & Nv & E)]]]; rewrite E; cbn [fst snd app].
  - exists q. split; [now left|exact Hp].
  - exists q. split; [now left|exact Hp].
  - exists q. split; [now left|exact Hp].
  - exists q. split; [now left|exact Hp].
  - destruct (Qlt_le_dec (val h p) 0) as [V|V].
    + destruct (cut_cover_back h q p u v) as (r & Hr & Rp); try assumption; try lra. exists r. split; [apply in_app_iff; now right|exact Rp].
    + destruct (cut_cover_front h q p u v) as (r & Hr & Rp); try assumption; try lra. exists r. split; [apply in_app_iff; now left|exact Rp].
Qed.
