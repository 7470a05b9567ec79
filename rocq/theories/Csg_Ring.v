(** Splitting convex polygons by a plane: the pieces are convex and cover exactly both sides. *)
From Coq Require Import QArith Qabs ZArith List Bool Lia Lqa Setoid Sorted.
From Verif Require Import Prelude Vec Seg_Model Seg_Spec Seg_Proofs Seg_Lists Face_Spec Grid_Spec Poly_Model Poly_Spec Poly_Proofs Poly_Tri Csg_Model Csg_Spec Csg_Hull.
Import ListNotations.
Open Scope Q_scope.

Ltac tring := unfold turn, dot; cbn [vadd vsub vscale vopp cross vzero cx cy cz]; ring.

Lemma Qsq_nonneg (x : Q) : 0 <= x * x. Proof. nra. Qed.
Lemma sq_zero (x : Q) : x * x == 0 -> x == 0.
Proof. intros H. destruct (Qmult_integral _ _ H); assumption. Qed.
Lemma dot_self_zero n : dot n n == 0 -> n =v= vzero.
Proof.
  unfold dot. intros H. repeat split; cbn [vzero cx cy cz]; apply sq_zero.
  - pose proof (Qsq_nonneg (cx n)). pose proof (Qsq_nonneg (cy n)). pose proof (Qsq_nonneg (cz n)). lra.
  - pose proof (Qsq_nonneg (cx n)). pose proof (Qsq_nonneg (cy n)). pose proof (Qsq_nonneg (cz n)). lra.
  - pose proof (Qsq_nonneg (cx n)). pose proof (Qsq_nonneg (cy n)). pose proof (Qsq_nonneg (cz n)). lra.
Qed.

Global Instance turn_proper : Proper (veq ==> veq ==> veq ==> veq ==> Qeq) turn.
Proof. intros n n' En a a' Ea b b' Eb c c' Ec. unfold turn. now rewrite En, Ea, Eb, Ec. Qed.

Lemma turn_rot n a b c : turn n a b c == turn n b c a. Proof. tring. Qed.
Lemma turn_swap n a b c : turn n a b c == - turn n a c b. Proof. tring. Qed.
Lemma turn_same n a b : turn n a b b == 0. Proof. tring. Qed.
Definition mix (a b : coord) (s : Q) : coord := vadd a (vscale s (vsub b a)).
Lemma turn_mix n a b x y s : turn n a b (mix x y s) == (1 - s) * turn n a b x + s * turn n a b y.
Proof. unfold mix. tring. Qed.

(** ** Cyclic indices *)
Lemma vtx_small vs i : (i < length vs)%nat -> vtx vs i = nth i vs vzero.
Proof. intros H. unfold vtx. now rewrite Nat.mod_small. Qed.
Lemma vtx_wrap vs i : vtx vs (i + length vs) = vtx vs i.
Proof.
  unfold vtx. destruct vs as [|v r]; [rewrite !nth_overflow by (cbn; lia); reflexivity|]. set (m := length (v :: r)).
  replace (i + m)%nat with (i + 1 * m)%nat by lia. rewrite Nat.mod_add by (unfold m; cbn; lia). reflexivity.
Qed.
Lemma vtx_in vs i : vs <> [] -> In (vtx vs i) vs.
Proof. intros H. unfold vtx. apply nth_In, Nat.mod_upper_bound. now destruct vs. Qed.

Lemma ring_vtx vs : ring vs = map (fun k => (vtx vs k, vtx vs (k + 1))) (seq 0 (length vs)).
Proof.
  destruct vs as [|v r]; [reflexivity|]. set (vs := v :: r). unfold ring, vs at 1. fold vs.
  assert (Hl : length vs = length (r ++ [v])) by (rewrite app_length; cbn; lia).
  apply (nth_ext _ _ (vzero, vzero) (vtx vs 0, vtx vs (0 + 1))).
  - rewrite combine_length, map_length, seq_length. lia.
  - intros n Hn. rewrite combine_length in Hn.
    rewrite combine_nth by exact Hl. rewrite (map_nth (fun k => (vtx vs k, vtx vs (k + 1)))). rewrite seq_nth by lia. cbn [Nat.add].
    rewrite vtx_small by lia. f_equal. unfold vtx.
    assert (Lr : length vs = S (length r)) by reflexivity.
    destruct (Nat.lt_ge_cases n (length r)) as [L|L].
    + rewrite app_nth1 by exact L. rewrite Nat.mod_small by lia. replace (n + 1)%nat with (S n) by lia. reflexivity.
    + assert (n = length r) by lia. subst n. rewrite app_nth2, Nat.sub_diag by lia.
      replace (length r + 1)%nat with (length vs) by lia. rewrite Nat.mod_same by lia. reflexivity.
Qed.

(** ** Sides *)
Lemma back_iff h tol v : is_back (side_of h tol v) = true <-> val h v < - tol.
Proof.
  unfold side_of, val. destruct (Qlt_bool _ (- tol)) eqn:E.
  - apply Qlt_bool_iff in E. cbn. tauto.
  - apply Qlt_bool_false in E. destruct (Qlt_bool tol _); cbn; split; try discriminate; intros; lra.
Qed.
Lemma front_iff h tol v : 0 <= tol -> (is_front (side_of h tol v) = true <-> tol < val h v).
Proof.
  intros Ht. unfold side_of, val. destruct (Qlt_bool _ (- tol)) eqn:E.
  - apply Qlt_bool_iff in E. cbn. split; [discriminate|intros; lra].
  - destruct (Qlt_bool tol _) eqn:E2; cbn; [apply Qlt_bool_iff in E2; tauto|]. apply Qlt_bool_false in E2. split; [discriminate|intros; lra].
Qed.
Lemma spanning_iff h tol a b : 0 <= tol -> (spanning (side_of h tol a) (side_of h tol b) = true <->
  (tol < val h a /\ val h b < - tol) \/ (val h a < - tol /\ tol < val h b)).
Proof. intros Ht. unfold spanning. rewrite orb_true_iff, !andb_true_iff, !front_iff, !back_iff by exact Ht. tauto. Qed.

Lemma false_iff (b : bool) (P : Prop) : (b = true <-> P) -> (b = false <-> ~ P).
Proof. intros H. destruct b; split; intros X; try discriminate; try reflexivity; [exfalso; tauto|]. intros Y. apply H in Y. discriminate. Qed.

(** ** The crossing point *)
Definition crossed (h : plane) (a b : coord) : Prop := (0 < val h a /\ val h b < 0) \/ (val h a < 0 /\ 0 < val h b).
Definition cparam (h : plane) (a b : coord) : Q := (p_d h - dot (p_normal h) a) / dot (p_normal h) (vsub b a).

Lemma crossing_mix h a b : crossing h a b = mix a b (cparam h a b). Proof. reflexivity. Qed.

Lemma cparam_eq h a b : crossed h a b -> cparam h a b == val h a / (val h a - val h b) /\ ~ val h a - val h b == 0.
Proof.
  intros C. assert (D : ~ val h a - val h b == 0) by (destruct C; lra). split; [|exact D].
  unfold cparam. rewrite dot_vsub. unfold val in *. field. split; [lra|]. intros Z. apply D. lra.
Qed.

Lemma cparam_range h a b : crossed h a b -> 0 <= cparam h a b <= 1.
Proof.
  intros C. destruct (cparam_eq h a b C) as [E D]. rewrite E. clear E. destruct C as [[A B]|[A B]].
  - split; [apply Qle_shift_div_l; lra|apply Qle_shift_div_r; lra].
  - assert (E : val h a / (val h a - val h b) == - val h a / (val h b - val h a)) by (field; split; lra). rewrite E.
    split; [apply Qle_shift_div_l; lra|apply Qle_shift_div_r; lra].
Qed.

Lemma val_mix h a b s : val h (mix a b s) == val h a + s * (val h b - val h a).
Proof. unfold val, mix. rewrite dot_vadd, dot_vscale, dot_vsub. ring. Qed.

Lemma crossing_on h a b : crossed h a b -> val h (crossing h a b) == 0.
Proof.
  intros C. destruct (cparam_eq h a b C) as [E D]. rewrite crossing_mix, val_mix, E. field. exact D.
Qed.

Lemma crossing_sym h a b : crossed h a b -> crossing h a b =v= crossing h b a.
Proof.
  intros C. destruct (cparam_eq h a b C) as [E D].
  assert (C' : crossed h b a) by (destruct C; [right|left]; tauto). destruct (cparam_eq h b a C') as [E' D'].
  rewrite !crossing_mix. unfold mix. rewrite E, E'.
  set (x := val h a) in *. set (y := val h b) in *. clearbody x y.
  repeat split; cbn [vadd vsub vscale cx cy cz]; field; split; assumption.
Qed.

(** Two points of a plane on the clipping plane, on different sides of a line: the line meets the clipping
    plane between them. *)
Lemma between_meets h n c u v c1 c2 : ~ n =v= vzero -> dot n u == c -> dot n v == c -> dot n c1 == c -> dot n c2 == c ->
  crossed h u v -> val h c1 == 0 -> val h c2 == 0 -> turn n u v c1 <= 0 -> 0 <= turn n u v c2 ->
  exists k, 0 <= k <= 1 /\ crossing h u v =v= mix c1 c2 k.
Proof.
  intros Hn Eu Ev E1 E2 C V1 V2 T1 T2.
  assert (Y : forall y, dot n y == c -> val h y == 0 -> turn n u v y == 0 -> crossing h u v =v= y).
  { intros y Ey Vy Ty.
    assert (P1 : perp n (vsub v u)) by (unfold perp; rewrite dot_vsub; lra).
    assert (P2 : perp n (vsub y u)) by (unfold perp; rewrite dot_vsub; lra).
    pose proof (cross_perp n _ _ P1 P2) as CP.
    pose proof (parallel_ratio (cross (vsub v u) (vsub y u)) n (drop_axis n) CP (drop_axis_nonzero n Hn)) as R.
    set (lam := comp (drop_axis n) (cross (vsub v u) (vsub y u)) / comp (drop_axis n) n) in *.
    assert (Z : cross (vsub v u) (vsub y u) =v= vzero).
    { unfold turn in Ty. rewrite R, dot_vscale in Ty.
      assert (N : ~ dot n n == 0) by (intros N; apply Hn, dot_self_zero, N).
      assert (L : lam == 0).
      { destruct (Qeq_dec lam 0) as [L|L]; [exact L|]. exfalso. apply N.
        assert (G : dot n n == lam * dot n n / lam) by (field; exact L). rewrite G, Ty. field. exact L. }
      rewrite R, L. vring. }
    assert (Huv : ~ vsub v u =v= vzero).
    { intros X. assert (D : val h v - val h u == dot (p_normal h) (vsub v u)) by (rewrite dot_vsub; unfold val; ring).
      rewrite X in D. unfold dot in D. cbn [vzero cx cy cz] in D. destruct C; lra. }
    pose proof (parallel_ratio (vsub y u) (vsub v u) (drop_axis (vsub v u)) Z (drop_axis_nonzero _ Huv)) as S.
    set (s := comp (drop_axis (vsub v u)) (vsub y u) / comp (drop_axis (vsub v u)) (vsub v u)) in *. clearbody s.
    assert (Ys : y =v= mix u v s) by (unfold mix; rewrite <- S; vring).
    rewrite Ys, val_mix in Vy. destruct (cparam_eq h u v C) as [Ep D]. rewrite crossing_mix, Ys. unfold mix.
    assert (Es : s == cparam h u v) by (rewrite Ep; apply (Qmult_inj_r _ _ (val h u - val h v)); [exact D|]; field_simplify; lra).
    rewrite Es. reflexivity. }
  set (g1 := turn n u v c1) in *. set (g2 := turn n u v c2) in *.
  destruct (Qlt_le_dec 0 (g2 - g1)) as [L|L].
  - exists (- g1 / (g2 - g1)). split; [split; [apply Qle_shift_div_l; lra|apply Qle_shift_div_r; lra]|].
    apply Y.
    + unfold mix. rewrite dot_vadd, dot_vscale, dot_vsub, E1, E2. ring.
    + rewrite val_mix, V1, V2. ring.
    + rewrite turn_mix. fold g1 g2. field. lra.
  - exists 0. split; [lra|]. assert (G : g1 == 0) by lra.
    transitivity c1; [apply Y; assumption|unfold mix; vring].
Qed.

Section Ring.
Variable vs : list coord.
Variable n : coord.
Hypothesis n_nonzero : ~ n =v= vzero.
Variable c : Q.
Hypothesis in_plane : forall v, In v vs -> dot n v == c.
Hypothesis conv : convex_ring n vs.
Variable h : plane.
Variable drop : side -> bool.
Hypothesis drop_coplanar : drop Coplanar = false.

Let V := vtx vs.
Let m := length vs.

Definition gout (e : coord * coord) : list coord :=
  let '(a, b) := e in
  (if drop (side_of h 0 a) then [] else [a]) ++
  (if spanning (side_of h 0 a) (side_of h 0 b) then [crossing h a b] else []).
Let F := flat_map gout (ring vs).

Lemma gout_in k x : vs <> [] -> In x (gout (V k, V (k + 1))) -> In x F.
Proof.
  intros Hne Hx. unfold F. rewrite ring_vtx, flat_map_concat_map, map_map, <- flat_map_concat_map. apply in_flat_map.
  assert (Hm : (m <> 0)%nat) by (unfold m; now destruct vs).
  exists (k mod m)%nat. split; [apply in_seq; pose proof (Nat.mod_upper_bound k m Hm); unfold m in *; lia|].
  assert (E1 : vtx vs (k mod m) = V k) by (unfold V, vtx; fold m; now rewrite Nat.mod_mod).
  assert (E2 : vtx vs (k mod m + 1) = V (k + 1)) by (unfold V, vtx; fold m; now rewrite Nat.add_mod_idemp_l).
  rewrite E1, E2. exact Hx.
Qed.

Lemma sign_change d : forall i, crossed h (V i) (V (i + d)) ->
  exists k, (i <= k < i + d)%nat /\ (val h (V k) == 0 \/ crossed h (V k) (V (k + 1))).
Proof.
  induction d as [|d IH]; intros i C.
  - rewrite Nat.add_0_r in C. destruct C; lra.
  - destruct (Qlt_le_dec 0 (val h (V (i + 1)))) as [P|P]; [|destruct (Qlt_le_dec (val h (V (i + 1))) 0) as [N|N]].
    + destruct C as [[A B]|[A B]].
      * destruct (IH (i + 1)%nat) as (k & Hk & Q); [left; split; [exact P|replace (i + 1 + d)%nat with (i + S d)%nat by lia; exact B]|].
        exists k. split; [lia|exact Q].
      * exists i. split; [lia|]. right. right. tauto.
    + destruct C as [[A B]|[A B]].
      * exists i. split; [lia|]. right. left. tauto.
      * destruct (IH (i + 1)%nat) as (k & Hk & Q); [right; split; [exact N|replace (i + 1 + d)%nat with (i + S d)%nat by lia; exact B]|].
        exists k. split; [lia|exact Q].
    + assert (Z : val h (V (i + 1)) == 0) by lra. exists (i + 1)%nat. split; [|left; exact Z].
      destruct d as [|d]; [|lia]. exfalso. destruct C as [[A B]|[A B]]; unfold V in *; lra.
Qed.

Lemma side_zero v : val h v == 0 -> side_of h 0 v = Coplanar.
Proof.
  intros Z. assert (Hb : is_back (side_of h 0 v) = false) by (apply (false_iff _ _ (back_iff h 0 v)); lra).
  assert (Hf : is_front (side_of h 0 v) = false) by (apply (false_iff _ _ (front_iff h 0 v ltac:(lra))); lra).
  now destruct (side_of h 0 v).
Qed.

Lemma crossed_spans a b : crossed h a b <-> spanning (side_of h 0 a) (side_of h 0 b) = true.
Proof. rewrite spanning_iff by lra. unfold crossed. split; intros [H|H]; [left|right|left|right]; lra. Qed.

(** On a way from one side to the other there is a vertex of the result on the plane. *)
Lemma way_point i d : vs <> [] -> crossed h (V i) (V (i + d)) ->
  exists k s, (i <= k < i + d)%nat /\ 0 <= s <= 1 /\ exists x, In x F /\ x =v= mix (V k) (V (k + 1)) s /\ val h x == 0.
Proof.
  intros Hne C. destruct (sign_change d i C) as (k & Hk & [Z|X]).
  - exists k, 0. split; [exact Hk|]. split; [lra|]. exists (V k). split; [|split; [unfold mix; vring|exact Z]].
    apply (gout_in k); [exact Hne|]. unfold gout. rewrite side_zero, drop_coplanar by exact Z. now left.
  - exists k, (cparam h (V k) (V (k + 1))). split; [exact Hk|]. split; [now apply cparam_range|].
    exists (crossing h (V k) (V (k + 1))). split; [|split; [reflexivity|now apply crossing_on]].
    apply (gout_in k); [exact Hne|]. unfold gout. rewrite (proj1 (crossed_spans _ _) X). apply in_app_iff. right. now left.
Qed.

Lemma turn_idx i j k : (i <= j <= k)%nat -> (k <= m)%nat -> 0 <= turn n (V i) (V j) (V k).
Proof.
  intros O K. unfold V. destruct (Nat.eq_dec k m) as [->|Hk].
  - assert (E : vtx vs m = vtx vs 0) by (rewrite <- (vtx_wrap vs 0); reflexivity). rewrite E.
    destruct (Nat.eq_dec j m) as [->|Hj].
    + rewrite E, turn_same. lra.
    + rewrite <- turn_rot. rewrite !vtx_small by (fold m; lia). apply conv; unfold m in *; lia.
  - rewrite !vtx_small by (fold m; lia). apply conv; unfold m in *; lia.
Qed.

Lemma turn_outer i j k : (i < j < m)%nat -> (j <= k <= i + m)%nat -> 0 <= turn n (V i) (V j) (V k).
Proof.
  intros O K. destruct (Nat.le_gt_cases k m) as [L|L]; [apply turn_idx; lia|].
  replace k with ((k - m) + m)%nat by lia. unfold V. rewrite vtx_wrap. rewrite <- turn_rot. apply turn_idx; lia.
Qed.

Lemma mix_plane i k s : vs <> [] -> dot n (mix (V i) (V k) s) == c.
Proof.
  intros Hne. unfold mix. rewrite dot_vadd, dot_vscale, dot_vsub. unfold V. rewrite !in_plane by now apply vtx_in. ring.
Qed.

Lemma chord_in i j : (i < j < m)%nat -> crossed h (V i) (V j) -> in_hull F (crossing h (V i) (V j)).
Proof.
  intros O C. assert (Hne : vs <> []) by (intros E; unfold m in O; rewrite E in O; cbn in O; lia).
  destruct (way_point i (j - i) Hne) as (k1 & s1 & K1 & S1 & x1 & I1 & E1 & Z1); [replace (i + (j - i))%nat with j by lia; exact C|].
  assert (C' : crossed h (V j) (V (j + (m - j + i)))).
  { replace (j + (m - j + i))%nat with (i + m)%nat by lia. unfold V, m. rewrite vtx_wrap. destruct C as [C|C]; [right|left]; unfold V in C; tauto. }
  destruct (way_point j (m - j + i) Hne C') as (k2 & s2 & K2 & S2 & x2 & I2 & E2 & Z2).
  destruct (between_meets h n c (V i) (V j) x1 x2) as (k & Hk & Ex); try assumption.
  - apply in_plane, vtx_in, Hne.
  - apply in_plane, vtx_in, Hne.
  - rewrite E1. now apply mix_plane.
  - rewrite E2. now apply mix_plane.
  - rewrite turn_swap, E1. rewrite turn_rot, turn_rot, turn_mix.
    assert (A : 0 <= turn n (V j) (V i) (V k1)) by (rewrite turn_rot; apply turn_idx; lia).
    assert (B : 0 <= turn n (V j) (V i) (V (k1 + 1))) by (rewrite turn_rot; apply turn_idx; lia).
    nra.
  - rewrite E2, turn_mix.
    assert (A : 0 <= turn n (V i) (V j) (V k2)) by (apply turn_outer; lia).
    assert (B : 0 <= turn n (V i) (V j) (V (k2 + 1))) by (apply turn_outer; lia).
    nra.
  - apply (in_hull_veq F (mix x1 x2 k)); [now symmetry|]. apply hull_seg; [exact Hk|now apply hull_in|now apply hull_in].
Qed.

Lemma crossing_in_hull u v : In u vs -> In v vs -> 0 < val h u -> val h v < 0 -> in_hull F (crossing h u v).
Proof.
  intros Hu Hv Pu Nv. destruct (In_nth vs u vzero Hu) as (i & Hi & Ei). destruct (In_nth vs v vzero Hv) as (j & Hj & Ej).
  assert (Vi : V i = u) by (unfold V; now rewrite vtx_small). assert (Vj : V j = v) by (unfold V; now rewrite vtx_small).
  destruct (Nat.lt_trichotomy i j) as [L|[L|L]].
  - rewrite <- Vi, <- Vj. apply chord_in; [unfold m; lia|]. left. rewrite Vi, Vj. tauto.
  - subst j. exfalso. rewrite Ei in Ej. subst v. lra.
  - apply (in_hull_veq F (crossing h v u)); [apply crossing_sym; right; tauto|].
    rewrite <- Vi, <- Vj. apply chord_in; [unfold m; lia|]. right. rewrite Vi, Vj. tauto.
Qed.
End Ring.
