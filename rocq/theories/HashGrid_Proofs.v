From Coq Require Import ZArith List Bool QArith Qround Lia Lqa Permutation.
From Verif Require Import Prelude Vec Box_Model Box_Spec Box_Proofs Mesh_Proofs HashGrid_Model HashGrid_Spec.
Import ListNotations.
Open Scope Z_scope.

(** ** Arrays *)

Lemma vec_get_Ok {A} (l : list A) i a :
  vec_get l i = Ok a <-> 0 <= i /\ nth_error l (Z.to_nat i) = Some a.
Proof.
  unfold vec_get. destruct (Z.ltb_spec i 0); [split; [congruence|lia]|].
  destruct (nth_error l (Z.to_nat i)); split; intros H'; intuition congruence.
Qed.

Lemma vec_set_ok {A} (l : list A) i v :
  0 <= i < zlen l ->
  exists l', vec_set l i v = Ok l' /\ zlen l' = zlen l /\
    forall j, vec_get l' j = if j =? i then Ok v else vec_get l j.
Proof.
  intros Hi. unfold vec_set. destruct (Z.ltb_spec i 0); [lia|]. destruct (Z.ltb_spec i (zlen l)); [|lia].
  eexists. split; [reflexivity|]. unfold zlen in *.
  assert (Hlen : length (firstn (Z.to_nat i) l) = Z.to_nat i) by (rewrite firstn_length; lia).
  split. { rewrite app_length. cbn [length]. rewrite Hlen, skipn_length. lia. }
  intros j. unfold vec_get. destruct (Z.eqb_spec j i) as [->|Hne].
  - destruct (Z.ltb_spec i 0); [lia|]. rewrite nth_error_app2 by lia.
    rewrite Hlen, Nat.sub_diag. reflexivity.
  - destruct (Z.ltb_spec j 0); [reflexivity|].
    destruct (Z_lt_ge_dec j i).
    + rewrite nth_error_app1 by lia. rewrite <- (firstn_skipn (Z.to_nat i) l) at 2.
      rewrite nth_error_app1 by lia. reflexivity.
    + rewrite nth_error_app2 by lia. rewrite Hlen.
      rewrite <- (firstn_skipn (S (Z.to_nat i)) l) at 2.
      assert (Hl2 : length (firstn (S (Z.to_nat i)) l) = S (Z.to_nat i)) by (rewrite firstn_length; lia).
      rewrite (nth_error_app2 (firstn (S (Z.to_nat i)) l)) by lia. rewrite Hl2.
      replace (Z.to_nat j - Z.to_nat i)%nat with (S (Z.to_nat j - S (Z.to_nat i)))%nat by lia.
      reflexivity.
Qed.

Definition arr (p : list Z) (L : Z) (f : Z -> Z) : Prop :=
  zlen p = L /\ forall j, 0 <= j < L -> vec_get p j = Ok (f j).

Lemma arr_ext p L f g : arr p L f -> (forall j, 0 <= j < L -> f j = g j) -> arr p L g.
Proof. intros [H1 H2] H. split; [assumption|]. intros j Hj. rewrite <- H by assumption. auto. Qed.

Lemma arr_set p L f i v :
  arr p L f -> 0 <= i < L ->
  exists p', vec_set p i v = Ok p' /\ arr p' L (fun j => if j =? i then v else f j).
Proof.
  intros [H1 H2] Hi. destruct (vec_set_ok p i v) as (p' & Hp & Hl & Hg); [lia|].
  exists p'. split; [assumption|]. split; [lia|].
  intros j Hj. rewrite Hg. destruct (j =? i); [reflexivity|auto].
Qed.

Lemma arr_map p L f : 0 <= L -> arr p L f -> p = map f (zrange (Z.to_nat L)).
Proof.
  intros HL [H1 H2]. apply nth_ext with (d := 0) (d' := f 0).
  - rewrite map_length, zrange_length. unfold zlen in H1. lia.
  - intros k Hk. rewrite map_nth with (d := 0).
    unfold zlen in H1.
    assert (E : nth_error p k = Some (nth k p 0)) by (apply nth_error_nth'; assumption).
    specialize (H2 (Z.of_nat k) ltac:(lia)). apply vec_get_Ok in H2. destruct H2 as [_ H2].
    rewrite Nat2Z.id, E in H2. injection H2 as ->. f_equal.
    symmetry. apply nth_error_nth with (d := 0). apply zrange_nth. lia.
Qed.

(** ** Counting *)

Definition cnt (cells : list Z) (e : Z) : Z := zlen (filter (fun c => c =? e) cells).

Lemma cnt_app a b e : cnt (a ++ b) e = cnt a e + cnt b e.
Proof. unfold cnt, zlen. rewrite filter_app, app_length. lia. Qed.
Lemma below_app a b e : below (a ++ b) e = below a e + below b e.
Proof. unfold below, zlen. rewrite filter_app, app_length. lia. Qed.
Lemma cnt_nonneg a e : 0 <= cnt a e.
Proof. unfold cnt, zlen. lia. Qed.
Lemma cnt_cons c a e : cnt (c :: a) e = (if c =? e then 1 else 0) + cnt a e.
Proof. unfold cnt, zlen. cbn [filter]. destruct (c =? e); cbn [length]; lia. Qed.
Lemma below_cons c a e : below (c :: a) e = (if c <? e then 1 else 0) + below a e.
Proof. unfold below, zlen. cbn [filter]. destruct (c <? e); cbn [length]; lia. Qed.

Lemma below_succ cells e : below cells (e + 1) = below cells e + cnt cells e.
Proof.
  induction cells as [|c cells IH]; [reflexivity|]. rewrite !below_cons, cnt_cons, IH.
  destruct (Z.ltb_spec c (e + 1)), (Z.ltb_spec c e), (Z.eqb_spec c e); lia.
Qed.

Lemma below_mono cells a b : a <= b -> below cells a <= below cells b.
Proof.
  intros H. induction cells as [|c cells IH]; [cbn; lia|]. rewrite !below_cons.
  destruct (Z.ltb_spec c a), (Z.ltb_spec c b); lia.
Qed.

Lemma below_all cells n : Forall (fun c => 0 <= c < n) cells -> below cells n = zlen cells.
Proof.
  induction 1 as [|c cells Hc _ IH]; [reflexivity|]. rewrite below_cons, IH. unfold zlen. cbn [length].
  destruct (Z.ltb_spec c n); lia.
Qed.

Lemma below_zero cells n : Forall (fun c => 0 <= c < n) cells -> below cells 0 = 0.
Proof.
  induction 1 as [|c cells Hc _ IH]; [reflexivity|]. rewrite below_cons, IH.
  destruct (Z.ltb_spec c 0); lia.
Qed.

Lemma cnt_out cells n e : Forall (fun c => 0 <= c < n) cells -> e < 0 -> cnt cells e = 0.
Proof.
  intros H He. induction H as [|c cells Hc _ IH]; [reflexivity|]. rewrite cnt_cons, IH.
  destruct (Z.eqb_spec c e); lia.
Qed.

(** ** Pass 0 *)

Lemma pass0 n cells : forall p f,
  Forall (fun c => 0 <= c < n) cells -> arr p (n + 1) f ->
  exists p', foldM count_step cells p = Ok p' /\ arr p' (n + 1) (fun j => f j + cnt cells (j - 1)).
Proof.
  induction cells as [|c cells IH]; intros p f Hc Hp.
  - exists p. split; [reflexivity|]. eapply arr_ext; [exact Hp|]. intros j Hj. unfold cnt, zlen. cbn. lia.
  - inversion Hc as [|? ? H1 H2]; subst. cbn [foldM]. unfold count_step at 1.
    destruct Hp as [Hl Hg]. rewrite (Hg (c + 1)) by lia. cbn [bind].
    destruct (arr_set p (n + 1) f (c + 1) (f (c + 1) + 1) (conj Hl Hg)) as (p1 & E1 & A1); [lia|].
    rewrite E1. cbn [bind]. destruct (IH p1 _ H2 A1) as (p2 & E2 & A2).
    exists p2. split; [assumption|]. eapply arr_ext; [exact A2|].
    intros j Hj. cbn. rewrite cnt_cons.
    destruct (Z.eqb_spec j (c + 1)), (Z.eqb_spec c (j - 1)); subst; lia.
Qed.

(** ** Accumulation *)

Lemma accumulate_ok n cells p :
  0 <= n -> Forall (fun c => 0 <= c < n) cells -> arr p (n + 1) (fun j => cnt cells (j - 1)) ->
  exists p', accumulate n p = Ok p' /\ arr p' (n + 1) (below cells).
Proof.
  intros Hn Hc Hp. unfold accumulate.
  assert (H : forall k, (k <= Z.to_nat n)%nat -> exists p',
     foldM (fun p ie => a <- vec_get p (ie + 1) ;; b <- vec_get p ie ;; vec_set p (ie + 1) (a + b))
           (zrange k) p = Ok p' /\
     arr p' (n + 1) (fun j => if j <=? Z.of_nat k then below cells j else cnt cells (j - 1))).
  { induction k as [|k IH]; intros Hk.
    - exists p. split; [reflexivity|]. eapply arr_ext; [exact Hp|]. intros j Hj. cbn beta.
      destruct (Z.leb_spec j (Z.of_nat 0)); [|reflexivity].
      replace j with 0 by lia. rewrite (below_zero _ n Hc). apply (cnt_out cells n); [assumption|lia].
    - destruct IH as (p1 & E1 & A1); [lia|]. rewrite zrange_S, foldM_app, E1. cbn [bind foldM].
      destruct A1 as [L1 G1]. rewrite (G1 (Z.of_nat k + 1)) by lia. rewrite (G1 (Z.of_nat k)) by lia.
      cbn [bind]. destruct (Z.leb_spec (Z.of_nat k + 1) (Z.of_nat k)); [lia|].
      destruct (Z.leb_spec (Z.of_nat k) (Z.of_nat k)); [|lia].
      destruct (arr_set p1 (n + 1) _ (Z.of_nat k + 1) (cnt cells (Z.of_nat k + 1 - 1) + below cells (Z.of_nat k))
                  (conj L1 G1)) as (p2 & E2 & A2); [lia|].
      rewrite E2. cbn [bind]. exists p2. split; [reflexivity|]. eapply arr_ext; [exact A2|].
      intros j Hj. cbn beta. destruct (Z.eqb_spec j (Z.of_nat k + 1)) as [->|Hne].
      + destruct (Z.leb_spec (Z.of_nat k + 1) (Z.of_nat (S k))); [|lia].
        rewrite below_succ. replace (Z.of_nat k + 1 - 1) with (Z.of_nat k) by lia. lia.
      + destruct (Z.leb_spec j (Z.of_nat k)), (Z.leb_spec j (Z.of_nat (S k))); try reflexivity; lia. }
  destruct (H (Z.to_nat n) (Nat.le_refl _)) as (p' & E & A). exists p'. split; [exact E|].
  eapply arr_ext; [exact A|]. intros j Hj. cbn beta. destruct (Z.leb_spec j (Z.of_nat (Z.to_nat n))); [reflexivity|lia].
Qed.

(** ** Pass 1 *)

(** Where the [m]-th point (in cell [c]) is stored. *)
Definition pos (cells : list Z) (m : nat) (c : Z) : Z := below cells c + cnt (firstn m cells) c.

Lemma cnt_firstn_lt cells m c :
  nth_error cells m = Some c -> cnt (firstn m cells) c < cnt cells c.
Proof.
  intros H. rewrite <- (firstn_skipn m cells) at 2. rewrite cnt_app.
  assert (0 < cnt (skipn m cells) c); [|lia].
  destruct (skipn m cells) as [|d r] eqn:E.
  - exfalso. assert (length (skipn m cells) = 0)%nat by now rewrite E. rewrite skipn_length in H0.
    assert (m < length cells)%nat by (apply nth_error_Some; congruence). lia.
  - assert (d = c).
    { rewrite <- (firstn_skipn m cells) in H. rewrite nth_error_app2, firstn_length in H.
      - assert (m < length cells)%nat.
        { destruct (Nat.lt_ge_cases m (length cells)); [assumption|].
          rewrite skipn_all2 in E by assumption. discriminate. }
        replace (m - Nat.min m (length cells))%nat with 0%nat in H by lia. rewrite E in H. cbn in H. congruence.
      - rewrite firstn_length. lia. }
    subst. rewrite cnt_cons, Z.eqb_refl. pose proof (cnt_nonneg r c). lia.
Qed.

Lemma pos_range cells n m c :
  Forall (fun c => 0 <= c < n) cells -> nth_error cells m = Some c ->
  below cells c <= pos cells m c < below cells (c + 1) /\ 0 <= pos cells m c < zlen cells.
Proof.
  intros Hc Hm. unfold pos. pose proof (cnt_firstn_lt _ _ _ Hm). pose proof (cnt_nonneg (firstn m cells) c).
  rewrite below_succ. split; [lia|].
  rewrite Forall_forall in Hc. pose proof (Hc c (nth_error_In _ _ Hm)).
  assert (below cells 0 <= below cells c) by (apply below_mono; lia).
  assert (below cells (c + 1) <= below cells n) by (apply below_mono; lia).
  rewrite below_succ in H3. rewrite (below_all cells n) in H3 by now apply Forall_forall.
  rewrite (below_zero cells n) in H2 by now apply Forall_forall. lia.
Qed.

Lemma cnt_firstn_S cells m c e :
  nth_error cells m = Some c -> cnt (firstn (S m) cells) e = cnt (firstn m cells) e + (if c =? e then 1 else 0).
Proof.
  intros H. rewrite (firstn_S_nth _ _ _ H), cnt_app. unfold cnt at 2. cbn. destruct (c =? e); reflexivity.
Qed.

Lemma cnt_firstn_mono cells a b e : (a <= b)%nat -> cnt (firstn a cells) e <= cnt (firstn b cells) e.
Proof.
  intros H. replace (firstn a cells) with (firstn a (firstn b cells)).
  - rewrite <- (firstn_skipn a (firstn b cells)) at 2. rewrite cnt_app.
    pose proof (cnt_nonneg (skipn a (firstn b cells)) e). lia.
  - rewrite firstn_firstn. f_equal. lia.
Qed.

Lemma pos_inj cells n a b c d :
  Forall (fun c => 0 <= c < n) cells ->
  nth_error cells a = Some c -> nth_error cells b = Some d -> (a < b)%nat -> pos cells a c <> pos cells b d.
Proof.
  intros Hc Ha Hb Hab E. destruct (pos_range cells n a c Hc Ha) as [Ra _].
  destruct (pos_range cells n b d Hc Hb) as [Rb _].
  destruct (Z.lt_trichotomy c d) as [H|[H|H]].
  - assert (below cells (c + 1) <= below cells d) by (apply below_mono; lia). lia.
  - subst d. unfold pos in E. pose proof (cnt_firstn_mono cells (S a) b c Hab) as H.
    rewrite (cnt_firstn_S _ _ _ c Ha), Z.eqb_refl in H. lia.
  - assert (below cells (d + 1) <= below cells c) by (apply below_mono; lia). lia.
Qed.

Lemma combine_snoc {A B} (l : list A) (r : list B) a b :
  length l = length r -> combine (l ++ [a]) (r ++ [b]) = combine l r ++ [(a, b)].
Proof.
  revert r. induction l as [|x l IH]; intros [|y r]; cbn; try discriminate; [reflexivity|].
  intros [= H]. now rewrite IH.
Qed.

Lemma combine_firstn_S (cells : list Z) m c :
  nth_error cells m = Some c ->
  combine (zrange (S m)) (firstn (S m) cells) = combine (zrange m) (firstn m cells) ++ [(Z.of_nat m, c)].
Proof.
  intros H. rewrite zrange_S, (firstn_S_nth _ _ _ H). apply combine_snoc.
  rewrite zrange_length, firstn_length.
  assert (m < length cells)%nat by (apply nth_error_Some; congruence). lia.
Qed.

Lemma pass1 n cells l0 p :
  Forall (fun c => 0 <= c < n) cells -> zlen l0 = zlen cells -> arr p (n + 1) (below cells) ->
  exists l p', foldM store_step (combine (zrange (length cells)) cells) (l0, p) = Ok (l, p') /\
    arr p' (n + 1) (fun j => below cells j + cnt cells j) /\ zlen l = zlen cells /\
    forall m c, nth_error cells m = Some c -> vec_get l (pos cells m c) = Ok (Z.of_nat m).
Proof.
  intros Hc Hl0 Hp.
  assert (H : forall k, (k <= length cells)%nat -> exists l p',
     foldM store_step (combine (zrange k) (firstn k cells)) (l0, p) = Ok (l, p') /\
     arr p' (n + 1) (fun j => below cells j + cnt (firstn k cells) j) /\ zlen l = zlen cells /\
     forall m c, (m < k)%nat -> nth_error cells m = Some c -> vec_get l (pos cells m c) = Ok (Z.of_nat m)).
  { induction k as [|k IH]; intros Hk.
    - exists l0, p. split; [reflexivity|]. split; [|split; [assumption|lia]].
      eapply arr_ext; [exact Hp|]. intros j Hj. cbn. unfold cnt, zlen. cbn. lia.
    - destruct IH as (l & p1 & E & A & L & G); [lia|].
      destruct (nth_error cells k) as [c|] eqn:Ek; [|apply nth_error_None in Ek; lia].
      rewrite (combine_firstn_S _ _ _ Ek), foldM_app, E. cbn [bind foldM]. unfold store_step at 1.
      cbn [fst snd].
      assert (Hcr : 0 <= c < n) by (rewrite Forall_forall in Hc; apply Hc; eapply nth_error_In; eauto).
      destruct A as [LA GA]. rewrite (GA c) by lia. cbn [bind].
      destruct (pos_range cells n k c Hc Ek) as [R1 R2]. fold (pos cells k c).
      destruct (vec_set_ok l (pos cells k c) (Z.of_nat k)) as (l' & El & Ll & Gl); [lia|].
      rewrite El. cbn [bind].
      destruct (arr_set p1 (n + 1) _ c (pos cells k c + 1) (conj LA GA)) as (p2 & E2 & A2); [lia|].
      rewrite E2. cbn [bind]. exists l', p2. split; [reflexivity|].
      split; [|split; [lia|]].
      + eapply arr_ext; [exact A2|]. intros j Hj. cbn beta.
        rewrite (cnt_firstn_S _ _ _ j Ek). unfold pos.
        destruct (Z.eqb_spec j c), (Z.eqb_spec c j); subst; lia.
      + intros m d Hm Hd. rewrite Gl. destruct (Z.eqb_spec (pos cells m d) (pos cells k c)) as [Heq|Hne].
        * destruct (Nat.eq_dec m k) as [->|]; [reflexivity|].
          exfalso. refine (pos_inj cells n m k d c Hc Hd Ek _ Heq). lia.
        * apply G; [|assumption]. assert (m <> k) by (intros ->; congruence). lia. }
  destruct (H (length cells) (Nat.le_refl _)) as (l & p' & E & A & L & G).
  rewrite firstn_all in *. exists l, p'. split; [exact E|]. split; [exact A|]. split; [exact L|].
  intros m c Hm. apply G; [apply nth_error_Some; congruence|assumption].
Qed.

(** ** Shift *)

Lemma shift_back_ok n p f :
  0 <= n -> arr p (n + 1) f ->
  exists p', shift_back n p = Ok p' /\ arr p' (n + 1) (fun j => if j =? 0 then 0 else f (j - 1)).
Proof.
  intros Hn Hp. unfold shift_back.
  set (step := fun p ie => a <- vec_get p (ie - 1) ;; vec_set p ie a).
  (* process the indices n, n-1, ..., 1: the last k of them *)
  assert (H : forall k p f, 0 <= n -> (k <= Z.to_nat n)%nat -> arr p (n + 1) f ->
     exists p', foldM step (rev (map (Z.add 1) (zrange k))) p = Ok p' /\
       arr p' (n + 1) (fun j => if (1 <=? j) && (j <=? Z.of_nat k) then f (j - 1) else f j)).
  { clear Hp p f. induction k as [|k IH]; intros p f Hn' Hk Hp.
    - exists p. split; [reflexivity|]. eapply arr_ext; [exact Hp|]. intros j Hj. cbn beta.
      destruct (Z.leb_spec 1 j), (Z.leb_spec j (Z.of_nat 0)); cbn [andb]; try reflexivity; lia.
    - rewrite zrange_S, map_app, rev_app_distr. cbn [map rev app foldM]. unfold step at 1.
      destruct Hp as [L G]. rewrite (G (1 + Z.of_nat k - 1)) by lia. cbn [bind].
      destruct (arr_set p (n + 1) f (1 + Z.of_nat k) (f (1 + Z.of_nat k - 1)) (conj L G)) as (p1 & E1 & A1); [lia|].
      rewrite E1. cbn [bind]. destruct (IH p1 _ Hn' ltac:(lia) A1) as (p2 & E2 & A2).
      exists p2. split; [exact E2|]. eapply arr_ext; [exact A2|]. intros j Hj. cbn beta.
      destruct (Z.leb_spec 1 j), (Z.leb_spec j (Z.of_nat k)), (Z.leb_spec j (Z.of_nat (S k)));
        cbn [andb]; try lia;
        destruct (Z.eqb_spec (j - 1) (1 + Z.of_nat k)), (Z.eqb_spec j (1 + Z.of_nat k)); try lia; try reflexivity;
        f_equal; lia. }
  destruct (H (Z.to_nat n) p f Hn (Nat.le_refl _) Hp) as (p1 & E1 & A1). rewrite E1. cbn [bind].
  destruct (arr_set p1 (n + 1) _ 0 0 A1) as (p2 & E2 & A2); [lia|].
  exists p2. split; [exact E2|]. eapply arr_ext; [exact A2|]. intros j Hj. cbn beta.
  destruct (Z.eqb_spec j 0); [reflexivity|].
  destruct (Z.leb_spec 1 j), (Z.leb_spec j (Z.of_nat (Z.to_nat n))); cbn [andb]; try lia; reflexivity.
Qed.

(** ** Members *)

Lemma members_snoc cells c e :
  members (cells ++ [c]) e = members cells e ++ (if c =? e then [zlen cells] else []).
Proof.
  unfold members. rewrite app_length. cbn [length]. replace (length cells + 1)%nat with (S (length cells)) by lia.
  rewrite zrange_S, combine_snoc by now rewrite zrange_length.
  rewrite filter_app, map_app. cbn. destruct (c =? e); reflexivity.
Qed.

Lemma members_length cells e : zlen (members cells e) = cnt cells e.
Proof.
  induction cells as [|c cells IH] using rev_ind; [reflexivity|].
  rewrite members_snoc, cnt_app. unfold zlen in *. rewrite app_length. unfold cnt at 2. cbn.
  destruct (c =? e); unfold zlen; cbn; lia.
Qed.

Lemma members_nth cells e r x :
  nth_error (members cells e) r = Some x ->
  exists m, x = Z.of_nat m /\ nth_error cells m = Some e /\ cnt (firstn m cells) e = Z.of_nat r.
Proof.
  revert r x. induction cells as [|c cells IH] using rev_ind; intros r x; [destruct r; discriminate|].
  rewrite members_snoc. intros H. pose proof (members_length cells e) as HL. unfold zlen in HL.
  destruct (Nat.lt_ge_cases r (length (members cells e))) as [Hlt|Hge].
  - rewrite nth_error_app1 in H by assumption. destruct (IH r x H) as (m & -> & Hm & Hcnt).
    assert (m < length cells)%nat by (apply nth_error_Some; congruence).
    exists m. split; [reflexivity|]. split; [rewrite nth_error_app1; assumption|].
    rewrite firstn_app. replace (m - length cells)%nat with 0%nat by lia. cbn. now rewrite app_nil_r.
  - rewrite nth_error_app2 in H by assumption. destruct (Z.eqb_spec c e) as [->|]; [|destruct (r - _)%nat; discriminate].
    destruct (r - length (members cells e))%nat as [|k] eqn:E; [|destruct k; discriminate].
    cbn in H. injection H as <-. exists (length cells). split; [reflexivity|].
    split; [rewrite nth_error_app2, Nat.sub_diag by lia; reflexivity|].
    rewrite firstn_app, firstn_all, Nat.sub_diag. cbn. rewrite app_nil_r. lia.
Qed.

(** ** The two passes together *)

Lemma firstn_app_nth {A} (l : list A) a ms :
  (forall r x, nth_error ms r = Some x -> nth_error l (a + r) = Some x) ->
  (a + length ms <= length l)%nat ->
  firstn (a + length ms) l = firstn a l ++ ms.
Proof.
  induction ms as [|x ms IH] using rev_ind; intros H Hl.
  - cbn. now rewrite Nat.add_0_r, app_nil_r.
  - rewrite app_length in *. cbn [length] in *.
    replace (a + (length ms + 1))%nat with (S (a + length ms)) by lia.
    rewrite (firstn_S_nth _ _ x).
    + rewrite IH; [now rewrite <- app_assoc| |lia].
      intros r y Hr. apply H. rewrite nth_error_app1; [assumption|apply nth_error_Some; congruence].
    + apply H. rewrite nth_error_app2, Nat.sub_diag by lia. reflexivity.
Qed.

Lemma stored_list n cells l :
  0 <= n -> Forall (fun c => 0 <= c < n) cells -> zlen l = zlen cells ->
  (forall m c, nth_error cells m = Some c -> vec_get l (pos cells m c) = Ok (Z.of_nat m)) ->
  l = flat_map (members cells) (zrange (Z.to_nat n)).
Proof.
  intros Hn Hc Hl Hg.
  assert (H : forall k, (k <= Z.to_nat n)%nat ->
     firstn (Z.to_nat (below cells (Z.of_nat k))) l = flat_map (members cells) (zrange k)).
  { induction k as [|k IH]; intros Hk.
    - change (Z.of_nat 0) with 0. rewrite (below_zero cells n Hc). reflexivity.
    - rewrite zrange_S, flat_map_app, <- IH by lia. cbn [flat_map]. rewrite app_nil_r.
      replace (Z.of_nat (S k)) with (Z.of_nat k + 1) by lia. rewrite below_succ.
      pose proof (members_length cells (Z.of_nat k)) as HL. unfold zlen in HL.
      assert (Hb : 0 <= below cells (Z.of_nat k)) by (unfold below, zlen; lia).
      replace (Z.to_nat (below cells (Z.of_nat k) + cnt cells (Z.of_nat k)))
        with (Z.to_nat (below cells (Z.of_nat k)) + length (members cells (Z.of_nat k)))%nat by lia.
      apply firstn_app_nth.
      + intros r x Hr. destruct (members_nth _ _ _ _ Hr) as (m & -> & Hm & Hcnt).
        specialize (Hg m _ Hm). unfold pos in Hg. rewrite Hcnt in Hg. apply vec_get_Ok in Hg.
        destruct Hg as [_ Hg]. rewrite <- Hg. f_equal. lia.
      + assert (below cells (Z.of_nat k + 1) <= below cells n) by (apply below_mono; lia).
        rewrite below_succ, (below_all cells n Hc) in H. unfold zlen in *. lia. }
  specialize (H (Z.to_nat n) (Nat.le_refl _)). rewrite Z2Nat.id in H by lia.
  rewrite (below_all cells n Hc) in H. rewrite <- H. rewrite <- Hl. unfold zlen.
  rewrite Nat2Z.id. symmetry. apply firstn_all.
Qed.

Lemma resize_length l k : 0 <= k -> zlen (resize l k) = k.
Proof.
  intros H. unfold resize, zlen. rewrite app_length, firstn_length, repeat_length. lia.
Qed.

Lemma resize_nil_arr k : 0 <= k -> arr (resize [] k) k (fun _ => 0).
Proof.
  intros H. split; [now apply resize_length|]. intros j Hj. apply vec_get_Ok. split; [lia|].
  unfold resize. rewrite firstn_nil. cbn [app length]. rewrite Nat.sub_0_r.
  rewrite (nth_error_nth' (repeat 0 (Z.to_nat k)) 0) by (rewrite repeat_length; lia).
  now rewrite nth_repeat.
Qed.

Lemma two_pass_ok n cells list0 :
  0 <= n -> Forall (fun c => 0 <= c < n) cells ->
  two_pass n cells list0 (resize [] (n + 1)) =
    Ok (flat_map (members cells) (zrange (Z.to_nat n)),
        map (below cells) (zrange (Z.to_nat (n + 1)))).
Proof.
  intros Hn Hc. unfold two_pass.
  destruct (pass0 n cells _ _ Hc (resize_nil_arr (n + 1) ltac:(lia))) as (p1 & E1 & A1).
  rewrite E1. cbn [bind].
  destruct (accumulate_ok n cells p1 Hn Hc) as (p2 & E2 & A2).
  { eapply arr_ext; [exact A1|]. reflexivity. }
  rewrite E2. cbn [bind]. destruct A2 as [L2 G2]. rewrite (G2 n) by lia. cbn [bind].
  rewrite (below_all cells n Hc).
  destruct (pass1 n cells (resize list0 (zlen cells)) p2 Hc) as (l & p3 & E3 & A3 & L3 & G3).
  { apply resize_length. unfold zlen. lia. }
  { split; assumption. }
  rewrite E3. cbn [bind fst snd].
  destruct (shift_back_ok n p3 _ Hn A3) as (p4 & E4 & A4). rewrite E4. cbn [bind].
  rewrite (stored_list n cells l Hn Hc L3 G3). f_equal. f_equal.
  apply arr_map; [lia|]. eapply arr_ext; [exact A4|]. intros j Hj. cbn beta.
  destruct (Z.eqb_spec j 0) as [->|]; [symmetry; apply (below_zero cells n Hc)|].
  rewrite <- below_succ. f_equal. lia.
Qed.

(** Every position occurs exactly once. *)
Lemma filter_split_perm {A} (f : A -> Z) (l : list A) (L : list Z) :
  NoDup L ->
  Permutation (flat_map (fun e => filter (fun x => f x =? e) l) L)
              (filter (fun x => existsb (Z.eqb (f x)) L) l).
Proof.
  induction L as [|e L IH]; intros Hnd; cbn.
  - clear. induction l; cbn; [constructor|assumption].
  - inversion Hnd as [|? ? Hni Hnd']; subst. rewrite (IH Hnd'). clear IH.
    induction l as [|x l IHl]; cbn; [constructor|].
    destruct (Z.eqb_spec (f x) e) as [He|He]; cbn.
    + assert (Hex : existsb (Z.eqb (f x)) L = false).
      { destruct (existsb (Z.eqb (f x)) L) eqn:E; [|reflexivity].
        apply existsb_exists in E. destruct E as (y & Hy & Hxy). apply Z.eqb_eq in Hxy. subst. contradiction. }
      rewrite Hex. now constructor.
    + destruct (existsb (Z.eqb (f x)) L); [|assumption].
      rewrite <- Permutation_middle. now constructor.
Qed.

Lemma members_perm n cells :
  0 <= n -> Forall (fun c => 0 <= c < n) cells ->
  Permutation (flat_map (members cells) (zrange (Z.to_nat n))) (zrange (length cells)).
Proof.
  intros Hn Hc. unfold members.
  set (ic := combine (zrange (length cells)) cells).
  assert (E : flat_map (fun e => map fst (filter (fun ic => snd ic =? e) ic)) (zrange (Z.to_nat n))
          = map fst (flat_map (fun e => filter (fun x => snd x =? e) ic) (zrange (Z.to_nat n)))).
  { induction (zrange (Z.to_nat n)) as [|e L IH]; cbn; [reflexivity|]. now rewrite map_app, IH. }
  rewrite E, (filter_split_perm snd ic _ (zrange_NoDup _)).
  rewrite filter_all.
  - assert (Hf : forall (a b : list Z), length a = length b -> map fst (combine a b) = a).
    { induction a as [|x a IH]; intros [|y b]; cbn; try discriminate; [reflexivity|]. intros [= H]. now rewrite IH. }
    unfold ic. rewrite Hf by now rewrite zrange_length. reflexivity.
  - intros [i c] Hin. apply in_combine_r in Hin. rewrite Forall_forall in Hc. specialize (Hc c Hin).
    apply existsb_exists. exists c. split; [apply zrange_in; lia|apply Z.eqb_refl].
Qed.

(** ** Truncation and clamping *)

Lemma qtrunc_mono a b : (a <= b)%Q -> qtrunc a <= qtrunc b.
Proof.
  intros H. unfold qtrunc. destruct (Qle_bool 0 a) eqn:Ea, (Qle_bool 0 b) eqn:Eb.
  - now apply Qfloor_resp_le.
  - apply Qle_bool_iff in Ea. apply Qle_bool_false in Eb. lra.
  - apply Qle_bool_false in Ea. apply Qle_bool_iff in Eb.
    pose proof (Qfloor_resp_le 0 (- a) ltac:(lra)) as F1. pose proof (Qfloor_resp_le 0 b Eb) as F2.
    change (Qfloor 0) with 0 in *. lia.
  - pose proof (Qfloor_resp_le (- b) (- a) ltac:(lra)). lia.
Qed.

Lemma qtrunc_Z z : qtrunc (inject_Z z) = z.
Proof.
  unfold qtrunc. destruct (Qle_bool 0 (inject_Z z)); [apply Qfloor_Z|].
  rewrite <- inject_Z_opp, Qfloor_Z. lia.
Qed.

Lemma to_int_ok x : (inject_Z int_min <= x)%Q -> (x <= inject_Z int_max)%Q -> to_int x = Ok (qtrunc x).
Proof.
  intros H1 H2. apply qtrunc_mono in H1. apply qtrunc_mono in H2. rewrite qtrunc_Z in *.
  unfold to_int. destruct (Z.leb_spec int_min (qtrunc x)); [|lia].
  destruct (Z.leb_spec (qtrunc x) int_max); [|lia]. reflexivity.
Qed.

Lemma to_int_val x z : to_int x = Ok z -> z = qtrunc x.
Proof. unfold to_int. destruct (_ && _)%bool; congruence. Qed.

Lemma clamp_range n i : 1 <= n -> 0 <= clamp n i < n.
Proof. unfold clamp. lia. Qed.
Lemma clamp_mono n i j : i <= j -> clamp n i <= clamp n j.
Proof. unfold clamp. lia. Qed.

Lemma quot_ok a d : (0 < d)%Q -> quot a d = Ok (a / d)%Q.
Proof.
  intros H. unfold quot. destruct (Qeq_bool d 0) eqn:E; [|reflexivity].
  apply Qeq_bool_iff in E. lra.
Qed.

Lemma Qdiv_mono a b d : (0 < d)%Q -> (a <= b)%Q -> (a / d <= b / d)%Q.
Proof. intros Hd H. unfold Qdiv. apply Qmult_le_compat_r; [assumption|]. apply Qlt_le_weak, Qinv_lt_0_compat, Hd. Qed.

Lemma Qdiv_nonneg a d : (0 < d)%Q -> (0 <= a)%Q -> (0 <= a / d)%Q.
Proof. intros Hd H. apply (Qle_trans _ (0 / d)); [unfold Qdiv; lra|]. now apply Qdiv_mono. Qed.

(** A cell coordinate along one axis. *)
Definition axis_cell (n : Z) (v o d : Q) : Z := clamp n (qtrunc ((v - o) / d)).

Lemma lower_cell_le n v o d i p :
  1 <= n -> (0 < d)%Q -> lower_cell n v o d = Ok i -> (v <= p)%Q -> 0 <= i < n /\ i <= axis_cell n p o d.
Proof.
  intros Hn Hd. unfold lower_cell. rewrite (quot_ok _ _ Hd). cbn [bind].
  destruct (Qlt_bool (inject_Z int_min) ((v - o) / d)).
  - destruct (to_int ((v - o) / d)) as [z| |] eqn:E; cbn [bind]; try discriminate.
    intros [= <-] Hp. apply to_int_val in E. subst z. split; [now apply clamp_range|].
    apply clamp_mono, qtrunc_mono, Qdiv_mono; [assumption|lra].
  - cbn [bind]. intros [= <-] Hp. split; [now apply clamp_range|].
    unfold axis_cell. pose proof (clamp_range n (qtrunc ((p - o) / d)) Hn). unfold clamp at 1, int_min. lia.
Qed.

Lemma upper_cell_ge n v o d i p :
  1 <= n <= int_max -> (0 < d)%Q -> upper_cell n v o d = Ok i -> (p <= v)%Q -> 0 <= i < n /\ axis_cell n p o d <= i.
Proof.
  intros Hn Hd. unfold upper_cell. rewrite (quot_ok _ _ Hd). cbn [bind].
  destruct (Qlt_bool ((v - o) / d) (inject_Z int_max)).
  - destruct (to_int ((v - o) / d)) as [z| |] eqn:E; cbn [bind]; try discriminate.
    intros [= <-] Hp. apply to_int_val in E. subst z. split; [apply clamp_range; lia|].
    apply clamp_mono, qtrunc_mono, Qdiv_mono; [assumption|lra].
  - cbn [bind]. intros [= <-] Hp. split; [apply clamp_range; lia|].
    unfold axis_cell. pose proof (clamp_range n (qtrunc ((p - o) / d)) ltac:(lia)). unfold clamp at 2. lia.
Qed.

Lemma lower_cell_defined n v o d :
  (0 < d)%Q -> (v - o <= inject_Z int_max * d)%Q -> exists i, lower_cell n v o d = Ok i.
Proof.
  intros Hd H. unfold lower_cell. rewrite (quot_ok _ _ Hd). cbn [bind].
  destruct (Qlt_bool (inject_Z int_min) ((v - o) / d)) eqn:E; [|cbn [bind]; eauto].
  apply Qlt_bool_iff in E. rewrite to_int_ok; [cbn [bind]; eauto|lra|].
  apply Qle_shift_div_r; assumption.
Qed.

Lemma upper_cell_defined n v o d :
  (0 < d)%Q -> (0 <= v - o)%Q -> exists i, upper_cell n v o d = Ok i.
Proof.
  intros Hd H. unfold upper_cell. rewrite (quot_ok _ _ Hd). cbn [bind].
  destruct (Qlt_bool ((v - o) / d) (inject_Z int_max)) eqn:E; [|cbn [bind]; eauto].
  apply Qlt_bool_iff in E. rewrite to_int_ok; [cbn [bind]; eauto| |lra].
  apply (Qle_trans _ 0); [unfold Qle; cbn; lia|now apply Qdiv_nonneg].
Qed.

(** ** Visited cells *)

Lemma zseq_in a b i : In i (zseq a b) <-> a <= i <= b.
Proof.
  unfold zseq. rewrite in_map_iff. split.
  - intros (k & <- & Hk). apply zrange_in in Hk. lia.
  - intros H. exists (i - a). split; [lia|]. apply zrange_in. lia.
Qed.

Lemma zseq_NoDup a b : NoDup (zseq a b).
Proof. unfold zseq. apply FinFun.Injective_map_NoDup; [intros i j; lia|apply zrange_NoDup]. Qed.

Lemma NoDup_flat_map {A B} (f : A -> list B) l :
  NoDup l -> (forall a, In a l -> NoDup (f a)) ->
  (forall a b x, In a l -> In b l -> In x (f a) -> In x (f b) -> a = b) -> NoDup (flat_map f l).
Proof.
  induction 1 as [|a l Hni Hnd IH]; cbn; intros Hf Hd; [constructor|].
  assert (Hrec : NoDup (flat_map f l)) by (apply IH; [intros; apply Hf; now right|intros b c x Hb Hc; apply Hd; now right]).
  specialize (Hf a (or_introl eq_refl)).
  assert (Hx : forall x, In x (f a) -> ~ In x (flat_map f l)).
  { intros x Hx Hin. apply in_flat_map in Hin. destruct Hin as (b & Hb & Hxb).
    assert (a = b) by (apply (Hd a b x); [now left|now right|assumption|assumption]). subst. contradiction. }
  clear - Hf Hrec Hx. induction (f a) as [|x r IH]; cbn; [assumption|].
  inversion Hf; subst. constructor.
  - rewrite in_app_iff. intros [H|H]; [contradiction|]. apply (Hx x); [now left|assumption].
  - apply IH; [assumption|]. intros y Hy. apply Hx. now right.
Qed.

Lemma NoDup_map_in {A B} (f : A -> B) l :
  NoDup l -> (forall a b, In a l -> In b l -> f a = f b -> a = b) -> NoDup (map f l).
Proof.
  induction 1 as [|a l Hni Hnd IH]; cbn; intros Hf; constructor.
  - rewrite in_map_iff. intros (b & Hb & Hin). apply Hni.
    rewrite <- (Hf b a); [assumption|now right|now left|assumption].
  - apply IH. intros b c Hb Hc. apply Hf; now right.
Qed.

Lemma visited_in nx nxy i0 i1 j0 j1 k0 k1 e :
  In e (visited nx nxy i0 i1 j0 j1 k0 k1) <->
  exists i j k, i0 <= i <= i1 /\ j0 <= j <= j1 /\ k0 <= k <= k1 /\ e = i + j * nx + k * nxy.
Proof.
  unfold visited. rewrite in_flat_map. split.
  - intros (i & Hi & He). apply in_flat_map in He. destruct He as (j & Hj & He).
    apply in_map_iff in He. destruct He as (k & <- & Hk). apply zseq_in in Hi, Hj, Hk. exists i, j, k. auto.
  - intros (i & j & k & Hi & Hj & Hk & ->). exists i. rewrite zseq_in. split; [assumption|].
    apply in_flat_map. exists j. rewrite zseq_in. split; [assumption|].
    apply in_map_iff. exists k. rewrite zseq_in. auto.
Qed.

Lemma cell_inj nx ny nxy i j k i' j' k' :
  0 <= i < nx -> 0 <= i' < nx -> 0 <= j < ny -> 0 <= j' < ny -> nx * ny <= nxy -> 0 <= k -> 0 <= k' ->
  i + j * nx + k * nxy = i' + j' * nx + k' * nxy -> i = i' /\ j = j' /\ k = k'.
Proof.
  intros Hi Hi' Hj Hj' Hn Hk Hk' E.
  assert (B : 0 <= i + j * nx < nxy) by nia. assert (B' : 0 <= i' + j' * nx < nxy) by nia.
  assert (k = k') by nia. subst k'.
  assert (E2 : i + j * nx = i' + j' * nx) by nia.
  assert (j = j') by nia. subst j'. split; [lia|auto].
Qed.

Lemma visited_NoDup nx ny nxy i0 i1 j0 j1 k0 k1 :
  0 <= i0 -> i1 < nx -> 0 <= j0 -> j1 < ny -> nx * ny <= nxy -> 0 <= k0 ->
  NoDup (visited nx nxy i0 i1 j0 j1 k0 k1).
Proof.
  intros Hi0 Hi1 Hj0 Hj1 Hn Hk0. unfold visited.
  apply NoDup_flat_map; [apply zseq_NoDup| |].
  - intros i Hi. apply zseq_in in Hi. apply NoDup_flat_map; [apply zseq_NoDup| |].
    + intros j Hj. apply zseq_in in Hj.
      apply NoDup_map_in; [apply zseq_NoDup|].
      intros k k' Hk Hk' E. apply zseq_in in Hk, Hk'.
      apply (cell_inj nx ny nxy i j k i j k'); lia.
    + intros j j' e Hj Hj' He He'. apply zseq_in in Hj, Hj'. apply in_map_iff in He, He'.
      destruct He as (k & <- & Hk), He' as (k' & E & Hk'). apply zseq_in in Hk, Hk'.
      symmetry. apply (cell_inj nx ny nxy i j' k' i j k); lia.
  - intros i i' e Hi Hi' He He'. apply zseq_in in Hi, Hi'. apply in_flat_map in He, He'.
    destruct He as (j & Hj & He), He' as (j' & Hj' & He'). apply zseq_in in Hj, Hj'.
    apply in_map_iff in He, He'. destruct He as (k & <- & Hk), He' as (k' & E & Hk').
    apply zseq_in in Hk, Hk'. symmetry. apply (cell_inj nx ny nxy i' j' k' i j k); lia.
Qed.

(** ** Scanning a cell *)

Definition in_cell (cells : list Z) (objs : list (Z * coord)) (e : Z) : list (Z * coord) :=
  map snd (filter (fun co => fst co =? e) (combine cells objs)).

Lemma in_cell_members cells : forall objs e,
  length cells = length objs ->
  map (vec_get objs) (members cells e) = map Ok (in_cell cells objs e).
Proof.
  induction cells as [|c cells IH] using rev_ind; intros objs e Hlen.
  - reflexivity.
  - destruct objs as [|o objs _] using rev_ind; [rewrite app_length in Hlen; cbn in Hlen; lia|].
    rewrite !app_length in Hlen. cbn in Hlen. assert (Hl : length cells = length objs) by lia.
    rewrite members_snoc. unfold in_cell. rewrite combine_snoc by assumption.
    rewrite filter_app, !map_app. f_equal.
    + specialize (IH objs e Hl). fold (in_cell cells objs e). rewrite <- IH.
      apply map_ext_in. intros m Hm.
      apply In_nth_error in Hm. destruct Hm as [r Hr]. destruct (members_nth _ _ _ _ Hr) as (k & -> & Hk & _).
      assert (k < length cells)%nat by (apply nth_error_Some; congruence).
      unfold vec_get. destruct (Z.ltb_spec (Z.of_nat k) 0); [reflexivity|].
      rewrite nth_error_app1 by lia. reflexivity.
    + cbn. destruct (Z.eqb_spec c e); [|reflexivity]. cbn. f_equal. apply vec_get_Ok.
      unfold zlen. split; [lia|]. rewrite Nat2Z.id, Hl, nth_error_app2, Nat.sub_diag by lia. reflexivity.
Qed.

Lemma members_prefix_length n cells k :
  Forall (fun c => 0 <= c < n) cells -> zlen (flat_map (members cells) (zrange k)) = below cells (Z.of_nat k).
Proof.
  intros Hc. induction k as [|k IH].
  - change (Z.of_nat 0) with 0. rewrite (below_zero cells n Hc). reflexivity.
  - rewrite zrange_S, flat_map_app. cbn [flat_map]. rewrite app_nil_r.
    replace (Z.of_nat (S k)) with (Z.of_nat k + 1) by lia. rewrite below_succ, <- IH, <- members_length.
    unfold zlen. rewrite app_length. lia.
Qed.

Lemma zrange_split n k : (k < n)%nat -> exists r, zrange n = zrange k ++ Z.of_nat k :: r.
Proof.
  induction n as [|n IH]; intros H; [lia|]. rewrite zrange_S.
  destruct (Nat.eq_dec k n) as [->|]; [exists []; reflexivity|].
  destruct IH as [r ->]; [lia|]. exists (r ++ [Z.of_nat n]). now rewrite <- app_assoc.
Qed.

Lemma list_segment n cells e :
  Forall (fun c => 0 <= c < n) cells -> 0 <= e < n ->
  map (vec_get (flat_map (members cells) (zrange (Z.to_nat n)))) (zseq (below cells e) (below cells (e + 1) - 1))
  = map Ok (members cells e).
Proof.
  intros Hc He. destruct (zrange_split (Z.to_nat n) (Z.to_nat e)) as [r Hr]; [lia|].
  rewrite Hr, flat_map_app. cbn [flat_map]. rewrite Z2Nat.id by lia.
  pose proof (members_prefix_length n cells (Z.to_nat e) Hc) as HL. rewrite Z2Nat.id in HL by lia.
  set (P := flat_map (members cells) (zrange (Z.to_nat e))) in *.
  rewrite below_succ, <- members_length, <- HL.
  set (M := members cells e). set (R := flat_map (members cells) r).
  replace (zlen P + zlen M - 1) with (zlen P + (zlen M - 1)) by lia.
  unfold zseq. replace (Z.to_nat (zlen P + (zlen M - 1) - zlen P + 1)) with (length M) by (unfold zlen; lia).
  rewrite map_map. apply nth_ext with (d := UB) (d' := UB).
  - now rewrite !map_length, zrange_length.
  - intros k Hk. rewrite map_length, zrange_length in Hk.
    apply nth_error_nth.
    rewrite nth_error_map, (zrange_nth _ _ Hk). cbn [option_map].
    f_equal. rewrite (nth_indep _ UB (Ok 0)) by (now rewrite map_length). rewrite map_nth.
    apply vec_get_Ok. split; [unfold zlen; lia|].
    rewrite nth_error_app2 by (unfold zlen; lia). rewrite nth_error_app1 by (unfold zlen; lia).
    replace (Z.to_nat (zlen P + Z.of_nat k) - length P)%nat with k by (unfold zlen; lia).
    now apply nth_error_nth'.
Qed.

Definition near (q : coord) (tol : Q) (o : Z * coord) : bool := norm_le (vsub (snd o) q) tol.

Lemma scan_fold (lst : list Z) (objs : list (Z * coord)) q tol ps : forall ms os out,
  map (vec_get lst) ps = map Ok ms -> map (vec_get objs) ms = map Ok os ->
  foldM (fun out p => ix <- vec_get lst p ;; o <- vec_get objs ix ;;
           Ok (if norm_le (vsub (snd o) q) tol then out ++ [fst o] else out)) ps out
  = Ok (out ++ map fst (filter (near q tol) os)).
Proof.
  induction ps as [|p ps IH]; intros [|m ms] [|o os] out; cbn; try discriminate.
  - now rewrite app_nil_r.
  - intros [= H1 H2] [= H3 H4]. rewrite H1. cbn. rewrite H3. cbn.
    rewrite (IH ms os _ H2 H4). unfold near at 2.
    destruct (norm_le (vsub (snd o) q) tol); cbn; [now rewrite <- app_assoc|reflexivity].
Qed.

(** ** Exactness *)

(** What [grid_build] establishes. *)
Record built (g : grid) (objs : list (Z * coord)) (cells : list Z) (n : Z) : Prop := {
  bu_objs : g_objs g = objs;
  bu_len : length cells = length objs;
  bu_n : 1 <= n <= int_max;
  bu_nx : g_nx g = 1 \/ g_nx g = n;
  bu_ny : g_ny g = 1 \/ g_ny g = n;
  bu_nz : g_nz g = 1 \/ g_nz g = n;
  bu_nxy : g_nxy g = n * n;
  bu_cells : Forall (fun c => 0 <= c < n * n * n) cells;
  bu_cell : forall i c o, nth_error cells i = Some c -> nth_error objs i = Some o ->
     c = axis_cell (g_nx g) (cx (snd o)) (cx (g_orig g)) (cx (g_delta g))
       + axis_cell (g_ny g) (cy (snd o)) (cy (g_orig g)) (cy (g_delta g)) * g_nx g
       + axis_cell (g_nz g) (cz (snd o)) (cz (g_orig g)) (cz (g_delta g)) * g_nxy g;
  bu_list : g_list g = flat_map (members cells) (zrange (Z.to_nat (n * n * n)));
  bu_ptr : g_ptr g = map (below cells) (zrange (Z.to_nat (n * n * n + 1)));
  bu_delta : (0 < cx (g_delta g) /\ 0 < cy (g_delta g) /\ 0 < cz (g_delta g))%Q
}.

Lemma ptr_get g objs cells n e :
  built g objs cells n -> 0 <= e <= n * n * n -> vec_get (g_ptr g) e = Ok (below cells e).
Proof.
  intros B He. rewrite (bu_ptr _ _ _ _ B). apply vec_get_Ok. split; [lia|].
  rewrite nth_error_map, zrange_nth by lia. cbn. now rewrite Z2Nat.id by lia.
Qed.

Lemma scan_cell_ok g objs cells n q tol out e :
  built g objs cells n -> 0 <= e < n * n * n ->
  scan_cell g q tol out e = Ok (out ++ map fst (filter (near q tol) (in_cell cells objs e))).
Proof.
  intros B He. unfold scan_cell.
  rewrite (ptr_get g objs cells n e B) by lia. rewrite (ptr_get g objs cells n (e + 1) B) by lia. cbn [bind].
  apply (scan_fold _ _ _ _ _ (members cells e)).
  - rewrite (bu_list _ _ _ _ B). apply list_segment; [apply (bu_cells _ _ _ _ B)|assumption].
  - rewrite (bu_objs _ _ _ _ B). apply in_cell_members, (bu_len _ _ _ _ B).
Qed.

Lemma scan_all g objs cells n q tol L : forall out,
  built g objs cells n -> (forall e, In e L -> 0 <= e < n * n * n) ->
  foldM (scan_cell g q tol) L out
  = Ok (out ++ flat_map (fun e => map fst (filter (near q tol) (in_cell cells objs e))) L).
Proof.
  induction L as [|e L IH]; intros out B HL; cbn [foldM flat_map].
  - now rewrite app_nil_r.
  - rewrite (scan_cell_ok g objs cells n) by (auto; apply HL; now left). cbn [bind].
    rewrite IH by (auto; intros; apply HL; now right). now rewrite <- app_assoc.
Qed.

Lemma filter_filter {A} (p r : A -> bool) l : filter p (filter r l) = filter r (filter p l).
Proof.
  induction l as [|a l IH]; cbn; [reflexivity|].
  destruct (r a) eqn:Er, (p a) eqn:Ep; cbn; rewrite ?Er, ?Ep, ?IH; reflexivity.
Qed.

Lemma map_filter_comm_gen co cells objs q tol :
  length cells = length objs -> co = combine cells objs ->
  map (fun x : Z * (Z * coord) => fst (snd x)) (filter (fun x => near q tol (snd x)) co)
  = map fst (filter (fun o => norm_le (vsub (snd o) q) tol) objs).
Proof.
  intros Hlen ->. revert objs Hlen. induction cells as [|c cells IH]; intros [|o objs]; cbn; try discriminate; [reflexivity|].
  intros [= Hlen]. specialize (IH objs Hlen). unfold near at 1. cbn.
  destruct (norm_le (vsub (snd o) q) tol); cbn; now rewrite IH.
Qed.

Lemma nth_error_combine {A B} (l : list A) (r : list B) i a b :
  nth_error (combine l r) i = Some (a, b) -> nth_error l i = Some a /\ nth_error r i = Some b.
Proof.
  revert l r. induction i as [|i IH]; intros [|x l] [|y r]; cbn; intros H; try discriminate.
  - injection H as -> ->. auto.
  - now apply IH.
Qed.

Lemma in_range_perm cells objs q tol L :
  length cells = length objs -> NoDup L ->
  (forall i c o, nth_error cells i = Some c -> nth_error objs i = Some o -> near q tol o = true -> In c L) ->
  Permutation (flat_map (fun e => map fst (filter (near q tol) (in_cell cells objs e))) L) (in_range objs q tol).
Proof.
  intros Hlen Hnd Hcov.
  set (co := combine cells objs).
  assert (E : forall e, map fst (filter (near q tol) (in_cell cells objs e))
     = map (fun x => fst (snd x)) (filter (fun x => fst x =? e) (filter (fun x => near q tol (snd x)) co))).
  { intros e. unfold in_cell. fold co. rewrite <- (map_filter_comm snd (near q tol)).
    rewrite map_map, filter_filter. reflexivity. }
  rewrite (flat_map_ext _ _ E).
  assert (E2 : flat_map (fun e => map (fun x : Z * (Z * coord) => fst (snd x))
                  (filter (fun x => fst x =? e) (filter (fun x => near q tol (snd x)) co))) L
     = map (fun x => fst (snd x)) (flat_map (fun e => filter (fun x => fst x =? e) (filter (fun x => near q tol (snd x)) co)) L)).
  { clear. induction L as [|e L IH]; cbn; [reflexivity|]. now rewrite map_app, IH. }
  rewrite E2, (filter_split_perm fst _ L Hnd). rewrite filter_all.
  - unfold in_range. rewrite (map_filter_comm_gen co cells objs q tol Hlen eq_refl). reflexivity.
  - intros [c o] Hin. apply filter_In in Hin. destruct Hin as [Hin Hnear]. cbn in *.
    apply In_nth_error in Hin. destruct Hin as [i Hi].
    apply nth_error_combine in Hi. destruct Hi as [Hc Ho]. apply existsb_exists. exists c. split; [eauto|apply Z.eqb_refl].
Qed.

(** ** build *)

Lemma mapM_ok {A B} (f : A -> outcome B) (g : A -> B) l :
  (forall a, In a l -> f a = Ok (g a)) -> mapM f l = Ok (map g l).
Proof.
  induction l as [|a l IH]; intros H; cbn; [reflexivity|].
  rewrite (H a) by now left. cbn. rewrite IH by (intros; apply H; now right). reflexivity.
Qed.

Lemma box_add_all_in cs b c :
  In c cs -> in_box (b_min (fold_left box_add cs b)) (b_max (fold_left box_add cs b)) c.
Proof.
  intros Hc. destruct (box_add_all_axes cs b) as (E1 & E2 & E3 & E4 & E5 & E6).
  unfold in_box. rewrite E1, E2, E3, E4, E5, E6.
  repeat apply conj; (apply (fold_min_le _ cs) || apply (fold_max_ge _ cs)); exact Hc.
Qed.

Lemma max_coeff_ge v : (cx v <= max_coeff v /\ cy v <= max_coeff v /\ cz v <= max_coeff v)%Q.
Proof.
  unfold max_coeff. destruct (qmax_spec (cx v) (cy v)) as [[H1 H2] _].
  destruct (qmax_spec (qmax (cx v) (cy v)) (cz v)) as [[H3 H4] _]. lra.
Qed.

Lemma eps_pos : (0 < real_eps)%Q. Proof. reflexivity. Qed.

Lemma axis_quot v o d k :
  (0 < d)%Q -> 1 <= k <= int_max -> (0 <= v - o)%Q -> (v - o <= inject_Z k * d)%Q ->
  quot (v - o) d = Ok ((v - o) / d)%Q /\ to_int ((v - o) / d) = Ok (qtrunc ((v - o) / d)).
Proof.
  intros Hd Hk H1 H2. split; [now apply quot_ok|]. apply to_int_ok.
  - apply (Qle_trans _ 0); [unfold Qle; cbn; lia|now apply Qdiv_nonneg].
  - apply (Qle_trans _ (inject_Z k)); [now apply Qle_shift_div_r|]. rewrite <- Zle_Qle. lia.
Qed.

Lemma cell_of_ok b delta nx ny nz nxy k c :
  (0 < cx delta /\ 0 < cy delta /\ 0 < cz delta)%Q -> 1 <= k <= int_max ->
  in_box (b_min b) (b_max b) c ->
  (cx (b_max b) - cx (b_min b) <= inject_Z k * cx delta)%Q ->
  (cy (b_max b) - cy (b_min b) <= inject_Z k * cy delta)%Q ->
  (cz (b_max b) - cz (b_min b) <= inject_Z k * cz delta)%Q ->
  cell_of b delta nx ny nz nxy c =
  Ok (axis_cell nx (cx c) (cx (b_min b)) (cx delta) + axis_cell ny (cy c) (cy (b_min b)) (cy delta) * nx
      + axis_cell nz (cz c) (cz (b_min b)) (cz delta) * nxy).
Proof.
  intros (Dx & Dy & Dz) Hk ((X1 & X2) & (Y1 & Y2) & (Z1 & Z2)) Hx Hy Hz. unfold cell_of.
  destruct (axis_quot (cx c) (cx (b_min b)) (cx delta) k Dx Hk) as [-> Ex]; [lra|lra|].
  destruct (axis_quot (cy c) (cy (b_min b)) (cy delta) k Dy Hk) as [-> Ey]; [lra|lra|].
  destruct (axis_quot (cz c) (cz (b_min b)) (cz delta) k Dz Hk) as [-> Ez]; [lra|lra|].
  cbn [bind]. rewrite Ex, Ey, Ez. reflexivity.
Qed.

Lemma cell_bound nx ny nz n i j k :
  1 <= n -> nx = 1 \/ nx = n -> ny = 1 \/ ny = n -> nz = 1 \/ nz = n ->
  0 <= i < nx -> 0 <= j < ny -> 0 <= k < nz -> 0 <= i + j * nx + k * (n * n) < n * n * n.
Proof.
  intros Hn Hx Hy Hz Hi Hj Hk.
  assert (nx <= n) by lia. assert (ny <= n) by lia. assert (nz <= n) by lia.
  assert (0 <= j * nx) by nia. assert (j * nx <= (n - 1) * nx) by nia.
  assert (i + j * nx < n * n) by nia. assert (0 <= k * (n * n) <= (n - 1) * (n * n)) by nia. nia.
Qed.

Lemma build_ok n g :
  1 <= n <= int_max -> g_ptr g = [] -> g_objs g <> [] ->
  let b0 := fold_left box_add (map snd (g_objs g)) (g_box g) in
  (0 < max_coeff (vsub (b_max b0) (b_min b0)))%Q ->
  exists g' cells, grid_build n g = Ok g' /\ built g' (g_objs g) cells n /\
    exists e, (0 < e)%Q /\ g_orig g' =v= vsub (b_min b0) (Coord e e e) /\
      vscale (inject_Z (g_nx g')) (g_delta g') =v= vsub (vadd (b_max b0) (Coord e e e)) (g_orig g').
Proof.
  intros Hn Hptr Hne b0 Hmax. unfold grid_build. fold b0.
  set (d0 := vsub (b_max b0) (b_min b0)) in *.
  set (nx := if Qle_bool (cx d0) real_eps then 1 else n).
  set (ny := if Qle_bool (cy d0) real_eps then 1 else n).
  set (nz := if Qle_bool (cz d0) real_eps then 1 else n).
  set (e := (real_eps * max_coeff d0)%Q).
  set (b := box_grow b0 e).
  set (delta := vscale (/ inject_Z nx) (vsub (b_max b) (b_min b))).
  assert (Hnx : nx = 1 \/ nx = n) by (unfold nx; destruct (Qle_bool (cx d0) real_eps); auto).
  assert (Hny : ny = 1 \/ ny = n) by (unfold ny; destruct (Qle_bool (cy d0) real_eps); auto).
  assert (Hnz : nz = 1 \/ nz = n) by (unfold nz; destruct (Qle_bool (cz d0) real_eps); auto).
  assert (He : (0 < e)%Q) by (unfold e; pose proof eps_pos; nra).
  assert (Hin0 : forall o, In o (g_objs g) -> in_box (b_min b0) (b_max b0) (snd o)).
  { intros o Ho. apply box_add_all_in, in_map, Ho. }
  assert (Hord : (cx (b_min b0) <= cx (b_max b0) /\ cy (b_min b0) <= cy (b_max b0) /\ cz (b_min b0) <= cz (b_max b0))%Q).
  { destruct (g_objs g) as [|o os] eqn:E; [congruence|]. specialize (Hin0 o (or_introl eq_refl)).
    destruct Hin0 as ((?&?)&(?&?)&(?&?)). lra. }
  assert (HN : (0 < inject_Z nx)%Q) by (change 0%Q with (inject_Z 0); rewrite <- Zlt_Qlt; lia).
  assert (Hspan : (0 < cx (vsub (b_max b) (b_min b)) /\ 0 < cy (vsub (b_max b) (b_min b)) /\ 0 < cz (vsub (b_max b) (b_min b)))%Q).
  { unfold b, box_grow, vsub, vadd. cbn [b_max b_min cx cy cz]. lra. }
  assert (Hdel : (0 < cx delta /\ 0 < cy delta /\ 0 < cz delta)%Q).
  { pose proof (Qinv_lt_0_compat _ HN) as HI. destruct Hspan as (S1 & S2 & S3).
    unfold delta, vscale. cbn [cx cy cz]. repeat split; now apply Qmult_lt_0_compat. }
  assert (Hscale : forall s, (inject_Z nx * (/ inject_Z nx * s) == s)%Q) by (intros s; field; lra).
  assert (Hcell : forall c, In c (map snd (g_objs g)) -> cell_of b delta nx ny nz (n * n) c =
     Ok (axis_cell nx (cx c) (cx (b_min b)) (cx delta) + axis_cell ny (cy c) (cy (b_min b)) (cy delta) * nx
      + axis_cell nz (cz c) (cz (b_min b)) (cz delta) * (n * n))).
  { intros c Hc. apply in_map_iff in Hc. destruct Hc as (o & <- & Ho). specialize (Hin0 o Ho).
    apply (cell_of_ok b delta nx ny nz (n * n) nx).
    - exact Hdel.
    - lia.
    - destruct Hin0 as ((?&?)&(?&?)&(?&?)). unfold in_box, b, box_grow, vsub, vadd. cbn [b_max b_min cx cy cz]. lra.
    - unfold delta, vscale, vsub. cbn [cx cy cz]. rewrite Hscale. lra.
    - unfold delta, vscale, vsub. cbn [cx cy cz]. rewrite Hscale. lra.
    - unfold delta, vscale, vsub. cbn [cx cy cz]. rewrite Hscale. lra. }
  rewrite (mapM_ok _ _ _ Hcell). cbn [bind].
  set (cells := map _ (map snd (g_objs g))).
  assert (Hcells : Forall (fun c => 0 <= c < n * n * n) cells).
  { apply Forall_forall. intros x Hx. apply in_map_iff in Hx. destruct Hx as (c & <- & _).
    apply cell_bound with (nx := nx) (ny := ny) (nz := nz); auto; try lia; apply clamp_range; lia. }
  rewrite Hptr. rewrite two_pass_ok; [|nia|exact Hcells]. cbn [bind fst snd].
  eexists. exists cells. split; [reflexivity|]. split.
  - constructor; cbn; auto.
    + unfold cells. now rewrite !map_length.
    + intros i c o Hc Ho. unfold cells in Hc. rewrite map_map, nth_error_map, Ho in Hc. cbn in Hc. congruence.
  - exists e. split; [exact He|]. cbn. split; [reflexivity|].
    unfold delta, b, box_grow, vscale, vsub, vadd, veq. cbn [b_max b_min cx cy cz].
    rewrite !Hscale. repeat split; reflexivity.
Qed.

Lemma find_exact g objs cells n q tol out r :
  built g objs cells n -> grid_find g out q tol = Ok r ->
  exists r', r = out ++ r' /\ Permutation r' (in_range objs q tol).
Proof.
  intros B. unfold grid_find. pose proof (bu_objs _ _ _ _ B) as Eo.
  destruct (g_objs g) as [|o os] eqn:E.
  { intros [= <-]. exists []. rewrite app_nil_r. split; [reflexivity|]. rewrite <- Eo. constructor. }
  clear Eo o os E.
  destruct (bu_delta _ _ _ _ B) as (Dx & Dy & Dz). pose proof (bu_n _ _ _ _ B) as Hn.
  pose proof (bu_nx _ _ _ _ B) as Hnx. pose proof (bu_ny _ _ _ _ B) as Hny. pose proof (bu_nz _ _ _ _ B) as Hnz.
  pose proof (bu_nxy _ _ _ _ B) as Hnxy.
  assert (Hlox : 1 <= g_nx g) by lia. assert (Hloy : 1 <= g_ny g) by lia. assert (Hloz : 1 <= g_nz g) by lia.
  assert (Hupx : 1 <= g_nx g <= int_max) by lia. assert (Hupy : 1 <= g_ny g <= int_max) by lia.
  assert (Hupz : 1 <= g_nz g <= int_max) by lia.
  destruct (lower_cell (g_nx g) _ _ _) as [i0| |] eqn:E1; cbn [bind]; try discriminate.
  destruct (lower_cell (g_ny g) _ _ _) as [j0| |] eqn:E2; cbn [bind]; try discriminate.
  destruct (lower_cell (g_nz g) _ _ _) as [k0| |] eqn:E3; cbn [bind]; try discriminate.
  destruct (upper_cell (g_nx g) _ _ _) as [i1| |] eqn:E4; cbn [bind]; try discriminate.
  destruct (upper_cell (g_ny g) _ _ _) as [j1| |] eqn:E5; cbn [bind]; try discriminate.
  destruct (upper_cell (g_nz g) _ _ _) as [k1| |] eqn:E6; cbn [bind]; try discriminate.
  assert (R1 := proj1 (lower_cell_le _ _ _ _ _ _ Hlox Dx E1 (Qle_refl _))).
  assert (R2 := proj1 (lower_cell_le _ _ _ _ _ _ Hloy Dy E2 (Qle_refl _))).
  assert (R3 := proj1 (lower_cell_le _ _ _ _ _ _ Hloz Dz E3 (Qle_refl _))).
  assert (R4 := proj1 (upper_cell_ge _ _ _ _ _ _ Hupx Dx E4 (Qle_refl _))).
  assert (R5 := proj1 (upper_cell_ge _ _ _ _ _ _ Hupy Dy E5 (Qle_refl _))).
  assert (R6 := proj1 (upper_cell_ge _ _ _ _ _ _ Hupz Dz E6 (Qle_refl _))).
  rewrite (scan_all g objs cells n q tol _ out B).
  - intros [= <-]. eexists. split; [reflexivity|].
    apply in_range_perm; [apply (bu_len _ _ _ _ B)| |].
    + apply visited_NoDup with (ny := g_ny g); try lia. rewrite Hnxy. nia.
    + intros i c o Hc Ho Hnear. rewrite (bu_cell _ _ _ _ B i c o Hc Ho). apply visited_in.
      apply norm_le_axes in Hnear. unfold vsub in Hnear. cbn [cx cy cz] in Hnear.
      destruct Hnear as ((X1 & X2) & (Y1 & Y2) & (Z1 & Z2)).
      assert (P1 := proj2 (lower_cell_le _ _ _ _ _ (cx (snd o)) Hlox Dx E1 ltac:(lra))).
      assert (P2 := proj2 (lower_cell_le _ _ _ _ _ (cy (snd o)) Hloy Dy E2 ltac:(lra))).
      assert (P3 := proj2 (lower_cell_le _ _ _ _ _ (cz (snd o)) Hloz Dz E3 ltac:(lra))).
      assert (P4 := proj2 (upper_cell_ge _ _ _ _ _ (cx (snd o)) Hupx Dx E4 ltac:(lra))).
      assert (P5 := proj2 (upper_cell_ge _ _ _ _ _ (cy (snd o)) Hupy Dy E5 ltac:(lra))).
      assert (P6 := proj2 (upper_cell_ge _ _ _ _ _ (cz (snd o)) Hupz Dz E6 ltac:(lra))).
      do 3 eexists. repeat split; try eassumption.
  - intros e He. apply visited_in in He. destruct He as (i & j & k & Hi & Hj & Hk & ->).
    rewrite Hnxy. apply cell_bound with (nx := g_nx g) (ny := g_ny g) (nz := g_nz g); auto; lia.
Qed.

(** ** Packaging *)

Lemma grid_fill_spec objs : forall g,
  g_objs (grid_fill g objs) = g_objs g ++ objs /\ g_ptr (grid_fill g objs) = g_ptr g /\
  g_box (grid_fill g objs) = g_box g.
Proof.
  unfold grid_fill. induction objs as [|[id c] objs IH]; intros g; cbn; [rewrite app_nil_r; auto|].
  destruct (IH (grid_add g id c)) as (-> & -> & ->). cbn. now rewrite <- app_assoc.
Qed.

Lemma hash_grid_ok n g0 objs :
  1 <= n <= int_max ->
  (exists a b, In a objs /\ In b objs /\ ~ (snd a =v= snd b)) ->
  exists g, grid_build n (grid_fill (grid_reset g0) objs) = Ok g /\
    (forall q tol out r, grid_find g out q tol = Ok r ->
       exists r', r = out ++ r' /\ Permutation r' (in_range objs q tol)) /\
    (forall q tol out,
       (exists o p, In o objs /\ veq p (snd o) /\ in_box (vsub q (Coord tol tol tol)) (vadd q (Coord tol tol tol)) p) ->
       exists r, grid_find g out q tol = Ok r) /\
    (forall q tol out p,
       (exists a b c d e f, In a objs /\ In b objs /\ In c objs /\ In d objs /\ In e objs /\ In f objs /\
          (cx (snd a) <= cx p <= cx (snd b) /\ cy (snd c) <= cy p <= cy (snd d) /\ cz (snd e) <= cz p <= cz (snd f))%Q) ->
       in_box (vsub q (Coord tol tol tol)) (vadd q (Coord tol tol tol)) p ->
       exists r, grid_find g out q tol = Ok r).
Proof.
  intros Hn (a & b & Ha & Hb & Hab).
  destruct (grid_fill_spec objs (grid_reset g0)) as (Eo & Ep & Eb). cbn in Eo, Ep, Eb.
  set (g1 := grid_fill (grid_reset g0) objs) in *.
  assert (Hin : forall o, In o objs ->
    in_box (b_min (fold_left box_add (map snd (g_objs g1)) (g_box g1)))
           (b_max (fold_left box_add (map snd (g_objs g1)) (g_box g1))) (snd o)).
  { intros o Ho. apply box_add_all_in. rewrite Eo. now apply in_map. }
  destruct (build_ok n g1 Hn Ep) as (g & cells & Hb1 & B & e & He & Horig & Hdelta).
  { rewrite Eo. intros E. rewrite E in Ha. destruct Ha. }
  { set (b0 := fold_left box_add (map snd (g_objs g1)) (g_box g1)) in *.
    destruct (max_coeff_ge (vsub (b_max b0) (b_min b0))) as (M1 & M2 & M3).
    apply Qnot_le_lt. intros Hle. apply Hab.
    destruct (Hin a Ha) as ((?&?)&(?&?)&(?&?)). destruct (Hin b Hb) as ((?&?)&(?&?)&(?&?)).
    unfold vsub in *. cbn [cx cy cz] in *. unfold veq. repeat split; lra. }
  rewrite Eo in B. exists g. split; [exact Hb1|]. split; [intros; eapply find_exact; eauto|].
  set (b0 := fold_left box_add (map snd (g_objs g1)) (g_box g1)) in *.
  assert (Hdef : forall q tol out p, in_box (b_min b0) (b_max b0) p ->
     in_box (vsub q (Coord tol tol tol)) (vadd q (Coord tol tol tol)) p ->
     exists r, grid_find g out q tol = Ok r).
  { intros q tol out p ((X1 & X2) & (Y1 & Y2) & (Z1 & Z2)) ((X3 & X4) & (Y3 & Y4) & (Z3 & Z4)).
    unfold grid_find. destruct (g_objs g) as [|o os] eqn:Eg; [eauto|].
    destruct (bu_delta _ _ _ _ B) as (Dx & Dy & Dz). pose proof (bu_n _ _ _ _ B) as Hn'.
    pose proof (bu_nx _ _ _ _ B) as Hnx. pose proof (bu_ny _ _ _ _ B) as Hny. pose proof (bu_nz _ _ _ _ B) as Hnz.
    pose proof (bu_nxy _ _ _ _ B) as Hnxy.
    assert (HNle : (inject_Z (g_nx g) <= inject_Z int_max)%Q) by (rewrite <- Zle_Qle; lia).
    destruct Horig as (O1 & O2 & O3), Hdelta as (D1 & D2 & D3).
    unfold vsub, vadd, vscale in *. cbn [cx cy cz] in *.
    assert (Lx : (cx q - tol - cx (g_orig g) <= inject_Z int_max * cx (g_delta g))%Q) by nra.
    assert (Ly : (cy q - tol - cy (g_orig g) <= inject_Z int_max * cy (g_delta g))%Q) by nra.
    assert (Lz : (cz q - tol - cz (g_orig g) <= inject_Z int_max * cz (g_delta g))%Q) by nra.
    destruct (lower_cell_defined (g_nx g) _ _ _ Dx Lx) as [i0 E1]. rewrite E1. cbn [bind].
    destruct (lower_cell_defined (g_ny g) _ _ _ Dy Ly) as [j0 E2]. rewrite E2. cbn [bind].
    destruct (lower_cell_defined (g_nz g) _ _ _ Dz Lz) as [k0 E3]. rewrite E3. cbn [bind].
    destruct (upper_cell_defined (g_nx g) (cx q + tol) (cx (g_orig g)) (cx (g_delta g)) Dx ltac:(lra)) as [i1 E4]. rewrite E4. cbn [bind].
    destruct (upper_cell_defined (g_ny g) (cy q + tol) (cy (g_orig g)) (cy (g_delta g)) Dy ltac:(lra)) as [j1 E5]. rewrite E5. cbn [bind].
    destruct (upper_cell_defined (g_nz g) (cz q + tol) (cz (g_orig g)) (cz (g_delta g)) Dz ltac:(lra)) as [k1 E6]. rewrite E6. cbn [bind].
    assert (Hlox : 1 <= g_nx g) by lia. assert (Hloy : 1 <= g_ny g) by lia. assert (Hloz : 1 <= g_nz g) by lia.
    assert (Hupx : 1 <= g_nx g <= int_max) by lia. assert (Hupy : 1 <= g_ny g <= int_max) by lia.
    assert (Hupz : 1 <= g_nz g <= int_max) by lia.
    assert (R1 := proj1 (lower_cell_le _ _ _ _ _ _ Hlox Dx E1 (Qle_refl _))).
    assert (R2 := proj1 (lower_cell_le _ _ _ _ _ _ Hloy Dy E2 (Qle_refl _))).
    assert (R3 := proj1 (lower_cell_le _ _ _ _ _ _ Hloz Dz E3 (Qle_refl _))).
    assert (R4 := proj1 (upper_cell_ge _ _ _ _ _ _ Hupx Dx E4 (Qle_refl _))).
    assert (R5 := proj1 (upper_cell_ge _ _ _ _ _ _ Hupy Dy E5 (Qle_refl _))).
    assert (R6 := proj1 (upper_cell_ge _ _ _ _ _ _ Hupz Dz E6 (Qle_refl _))).
    rewrite (scan_all g objs cells n q tol _ out B); [eauto|].
    intros e' He'. apply visited_in in He'. destruct He' as (i & j & k & Hi & Hj & Hk & ->).
    rewrite Hnxy. apply cell_bound with (nx := g_nx g) (ny := g_ny g) (nz := g_nz g); auto; lia. }
  split.
  - intros q tol out (o & p & Ho & Hp & Hq). apply (Hdef q tol out p); [|exact Hq].
    specialize (Hin o Ho). destruct Hin as ((?&?)&(?&?)&(?&?)), Hp as (?&?&?). unfold in_box. lra.
  - intros q tol out p (o1 & o2 & o3 & o4 & o5 & o6 & I1 & I2 & I3 & I4 & I5 & I6 & Hp) Hq.
    apply (Hdef q tol out p); [|exact Hq].
    destruct (Hin _ I1) as ((?&?)&_&_). destruct (Hin _ I2) as ((?&?)&_&_).
    destruct (Hin _ I3) as (_&(?&?)&_). destruct (Hin _ I4) as (_&(?&?)&_).
    destruct (Hin _ I5) as (_&_&(?&?)). destruct (Hin _ I6) as (_&_&(?&?)). unfold in_box. lra.
Qed.

(** Witnesses. *)
Definition three_points : list (Z * coord) := [(4, Coord 0 0 0); (7, Coord 1 1 1); (9, Coord (1#2) 0 1)].

Lemma rebuild_witness : exists g g' r,
  grid_build 2 (grid_fill grid_new three_points) = Ok g /\ grid_build 2 g = Ok g' /\
  grid_find g' [] (Coord 0 0 0) 2 = Ok r /\ in_range three_points (Coord 0 0 0) 2 = [4; 7; 9] /\ ~ NoDup r.
Proof.
  destruct (grid_build 2 (grid_fill grid_new three_points)) as [g| |] eqn:E; [|vm_compute in E; discriminate..].
  exists g. vm_compute in E. injection E as <-.
  do 2 eexists. split; [reflexivity|]. split; [vm_compute; reflexivity|]. split; [vm_compute; reflexivity|].
  split; [vm_compute; reflexivity|]. intros H. inversion H as [|? ? H1]. apply H1. now left.
Qed.
