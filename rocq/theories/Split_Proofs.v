(** One step of splitFacets on a glued surface with ids 0 .. n-1. *)
From Coq Require Import ZArith List Bool QArith Lia.
From Verif Require Import Prelude Vec ZMap Mesh_Proofs Surf_Model Surf_Spec Surf_Proofs.
Import ListNotations.
Open Scope Z_scope.
Ltac Zify.zify_post_hook ::= Z.div_mod_to_equations.

Definition he (i k i' k' : Z) : bool := (i =? i') && (k mod 3 =? k' mod 3).
Lemma he_spec (i k i' k' : Z) : he i k i' k' = true <-> i = i' /\ k mod 3 = k' mod 3.
Proof. unfold he. rewrite andb_true_iff, !Z.eqb_eq. tauto. Qed.
Lemma he_dec (i k i' k' : Z) : {i = i' /\ k mod 3 = k' mod 3} + {~ (i = i' /\ k mod 3 = k' mod 3)}.
Proof. destruct (he i k i' k') eqn:E; [left; now apply he_spec|right; intros H; apply he_spec in H; congruence]. Qed.
Lemma he_true i k i' k' : i = i' -> k mod 3 = k' mod 3 -> he i k i' k' = true.
Proof. intros. now apply he_spec. Qed.
Lemma he_false i k i' k' : ~ (i = i' /\ k mod 3 = k' mod 3) -> he i k i' k' = false.
Proof. intros H. destruct (he i k i' k') eqn:E; [|reflexivity]. apply he_spec in E. contradiction. Qed.
Lemma link_put s id f k x y id' k' : sf_nb f = sf_nb (facet s id) -> sf_vn f = sf_vn (facet s id) ->
  link (u_put s id (set_link f k x y)) id' k' = if he id k id' k' then (x, y) else link s id' k'.
Proof.
  intros E1 E2. unfold link, across, apart, he. rewrite facet_put. rewrite (Z.eqb_sym id id'). destruct (Z.eqb_spec id' id) as [->|]; [|reflexivity]. cbn [set_link sf_nb sf_vn andb]. rewrite !tget_tset, E1, E2. now destruct (k mod 3 =? k' mod 3).
Qed.
Lemma link_add s id f id' k' : link (u_add s id f) id' k' = if id' =? id then (tget (sf_nb f) k', tget (sf_vn f) k') else link s id' k'.
Proof. unfold link, across, apart. rewrite facet_add. now destruct (id' =? id). Qed.
Lemma corner_put s id f id' k' : corner (u_put s id f) id' k' = if id' =? id then tget (sf_v f) k' else corner s id' k'.
Proof. unfold corner. rewrite facet_put. now destruct (id' =? id). Qed.
Lemma corner_add s id f id' k' : corner (u_add s id f) id' k' = if id' =? id then tget (sf_v f) k' else corner s id' k'.
Proof. unfold corner. rewrite facet_add. now destruct (id' =? id). Qed.
Lemma tget_pair {A B} (a b c : A * B) k : (tget (fst a, fst b, fst c) k, tget (snd a, snd b, snd c) k) = tget (a, b, c) k.
Proof. unfold tget. destruct (k mod 3 =? 0); [now destruct a|]. destruct (k mod 3 =? 1); [now destruct b|now destruct c]. Qed.

Lemma zrange_in n id : In id (zrange n) <-> 0 <= id < Z.of_nat n.
Proof. unfold zrange. rewrite in_map_iff. split; [intros (k & <- & H); apply in_seq in H; lia|]. intros H. exists (Z.to_nat id). split; [lia|]. apply in_seq. lia. Qed.
Lemma zrange_snoc n : zrange (Datatypes.S n) = zrange n ++ [Z.of_nat n].
Proof. unfold zrange. rewrite seq_S, map_app. reflexivity. Qed.
Lemma zrange_len n : length (zrange n) = n.
Proof. unfold zrange. now rewrite map_length, seq_length. Qed.
Lemma next_range s n : well_stored s -> u_ids s = zrange n -> u_next s = Z.of_nat n.
Proof.
  intros (N & So & K & P) E. unfold u_next. destruct (zlast_key (u_map s)) as [k|] eqn:El.
  - assert (H : In k (u_ids s)). { apply K. apply zlookup_in_keys. clear - El. induction (u_map s) as [|[x f] m IH]; [discriminate|]. cbn [zlast_key] in El. destruct m as [|y m]; [injection El as <-; now left|]. right. now apply IH. }
    rewrite E, zrange_in in H. assert (Q := zlast_key_max (u_map s) k (Z.of_nat n - 1) So El). assert (J : In (Z.of_nat n - 1) (zkeys (u_map s))) by (apply zlookup_in_keys, K; rewrite E, zrange_in; lia). specialize (Q J). lia.
  - apply zlast_key_none in El. destruct n as [|n]; [reflexivity|]. exfalso. assert (J : In 0 (u_ids s)) by (rewrite E, zrange_in; lia). apply K in J. apply J. rewrite El. reflexivity.
Qed.

Section Step.
Variables (s : surf) (n : nat) (i b v g : Z) (fr : Q).
Hypothesis G : glued s.
Hypothesis Ei : u_ids s = zrange n.
Hypothesis Hi : 0 <= i < Z.of_nat n.
Hypothesis Lb : across s i b = g.
Hypothesis Lv : apart s i b = v.
Hypothesis Hv : 0 <= v <= 2.
Let N := Z.of_nat n.
Let p k := corner s i k.
Definition cut_point : coord := vadd (p b) (vscale fr (vsub (p (b + 1)) (p b))).
Let pn := cut_point.
Let L1 := link s i (b + 1).
Let L2 := if negb (fst L1 =? -1) && he (fst L1) (snd L1 + 1) g v then (N, 0) else link s g v.
Definition cut_link (id k : Z) : Z * Z :=
  if id =? N + 1 then tget ((g, (v + 2) mod 3), L2, (N, 2)) k else if he g v id k then (N + 1, 2)
  else if negb (fst L2 =? -1) && he (fst L2) (snd L2 + 1) id k then (N + 1, 0)
  else if id =? N then tget ((N + 1, 1), L1, (i, b mod 3)) k else if he i (b + 1) id k then (N, 1)
  else if negb (fst L1 =? -1) && he (fst L1) (snd L1 + 1) id k then (N, 0) else link s id k.
Definition cut_corner (id k : Z) : coord :=
  if id =? N + 1 then tget (pn, corner s g v, p (b + 1)) k else if he g (v + 1) id k then pn
  else if id =? N then tget (pn, p (b + 1), p (b + 2)) k else if he i (b + 1) id k then pn else corner s id k.

Lemma link_of id k : In id (u_ids s) -> link s id k = (-1, -1) \/ exists nb l, linked s id k nb l /\ opposite s id k nb l /\ 0 <= nb < N /\ link s id k = (nb, (l + 2) mod 3) /\ link s nb l = (id, (k + 2) mod 3).
Proof.
  intros I. destruct (proj2 G id k I) as [[A B]|(nb & l & L & O)]; [left; unfold link; now rewrite A, B|]. right. exists nb, l. split; [exact L|]. split; [exact O|]. destruct L as (In_ & _ & A & B & C & D). rewrite Ei, zrange_in in In_. unfold link. rewrite A, B, C, D. auto.
Qed.
Lemma main_link : linked s i b g (v + 1) /\ opposite s i b g (v + 1) /\ 0 <= g < N /\ g <> i.
Proof.
  destruct (link_of i b) as [E|(nb & l & L & O & B & E & E')]; [rewrite Ei, zrange_in; exact Hi|unfold link in E; rewrite Lv in E; injection E as _ E; lia|].
  assert (E0 := E). unfold link in E0. rewrite Lb, Lv in E0. injection E0 as <- Ev. assert (Em : l mod 3 = (v + 1) mod 3) by lia.
  destruct L as (In_ & Ne & A & B1 & C & D). destruct O as [O1 O2]. split; [|split; [|split; [exact B|exact Ne]]].
  - split; [exact In_|]. split; [exact Ne|]. split; [exact A|]. split; [rewrite B1; lia|]. rewrite (across_mod s g (v + 1) l), (apart_mod s g (v + 1) l) by lia. auto.
  - split; [rewrite (corner_mod s g (v + 1) l) by lia; exact O1|rewrite (corner_mod s g (v + 1 + 1) (l + 1)) by lia; exact O2].
Qed.
Lemma split_runs choice : choice (facet s i) = Some (b, fr) -> exists s', split_at choice s i = Ok s' /\ u_ids s' = zrange (n + 2) /\ well_stored s' /\
  (forall id k, link s' id k = cut_link id k) /\ (forall id k, corner s' id k = cut_corner id k).
Proof.
  intros C. destruct main_link as (L & O & Bg & Ngi). assert (W := proj1 G). assert (Ii : In i (u_ids s)) by (rewrite Ei, zrange_in; exact Hi).
  assert (St : forall id, 0 <= id < N -> stored s id) by (intros id H; apply (well_stored_in s id W); rewrite Ei, zrange_in; exact H).
  unfold split_at. assert (U : u_id s i = Ok i). { unfold u_id. rewrite Ei. unfold vec_at. destruct (Z.ltb_spec i 0); [lia|]. unfold zrange. rewrite nth_error_map, (nth_error_nth' _ 0%nat) by (rewrite seq_length; lia). rewrite seq_nth by lia. cbn. f_equal. lia. }
  rewrite U. cbn [bind]. rewrite (u_get_stored s i (St i Hi)). cbn [bind]. rewrite C. change (tget (sf_nb (facet s i)) b) with (across s i b). change (tget (sf_vn (facet s i)) b) with (apart s i b). rewrite Lb, Lv.
  change (tget (sf_nb (facet s i)) (b + 1)) with (fst L1). change (tget (sf_vn (facet s i)) (b + 1)) with (snd L1). change (tget (sf_v (facet s i))) with p. change (vadd (p b) (vscale fr (vsub (p (b + 1)) (p b)))) with pn.
  destruct (Z.ltb_spec 2 v); [lia|]. destruct (Z.ltb_spec v 0); [lia|]. cbn [orb]. destruct (Z.eqb_spec g (-1)); [lia|].
  rewrite (next_range s n W Ei). change (Z.of_nat n) with N. assert (Sz : u_size s = N) by (unfold u_size, zlen; now rewrite Ei, zrange_len). rewrite Sz.
  set (new1 := SFacet (pn, p (b + 1), p (b + 2)) (N + 1, fst L1, i) (1, snd L1, b mod 3)).
  (* the neighbour across b + 1 *)
  assert (S1 : exists s1, (if fst L1 =? -1 then Ok s else g0 <- u_get s (fst L1) ;; Ok (u_put s (fst L1) (set_link g0 (snd L1 + 1) N 0))) = Ok s1 /\ u_ids s1 = u_ids s /\ well_stored s1 /\
    (forall id k, link s1 id k = if negb (fst L1 =? -1) && he (fst L1) (snd L1 + 1) id k then (N, 0) else link s id k) /\ (forall id k, corner s1 id k = corner s id k) /\ (forall id, stored s id -> stored s1 id)).
  { destruct (Z.eqb_spec (fst L1) (-1)) as [E|E]; [exists s; auto 8|]. destruct (link_of i (b + 1) Ii) as [E'|(nb & l & _ & _ & B & E1 & _)]; [fold L1 in E'; rewrite E' in E; now elim E|]. fold L1 in E1.
    assert (In1 : 0 <= fst L1 < N) by (rewrite E1; exact B). rewrite (u_get_stored s _ (St _ In1)). cbn [bind negb andb]. eexists. split; [reflexivity|]. split; [reflexivity|]. split; [apply well_put; [exact W|rewrite Ei, zrange_in; exact In1]|]. split; [intros id k; now apply link_put|]. split; [|intros id H'; apply stored_put; auto].
    intros id k. rewrite corner_put. cbn [set_link sf_v]. destruct (Z.eqb_spec id (fst L1)) as [->|]; reflexivity. }
  destruct S1 as (s1 & E1 & I1 & W1 & K1 & C1 & T1). rewrite E1. cbn [bind]. rewrite (u_get_stored s1 i (T1 i (St i Hi))). cbn [bind]. assert (Sz1 : u_size s1 = N) by (unfold u_size; rewrite I1; exact Sz). rewrite Sz1.
  set (s3 := u_add (u_put s1 i (set_link (set_v (facet s1 i) (b + 1) pn) (b + 1) N 1)) N new1).
  assert (Nn : ~ In N (u_ids s1)) by (rewrite I1, Ei, zrange_in; unfold N; lia).
  assert (W3 : well_stored s3). { apply well_add; [apply well_put; [exact W1|now rewrite I1]|exact Nn|unfold N; lia]. }
  assert (I3 : u_ids s3 = zrange (n + 1)). { unfold s3. cbn [u_add u_put u_ids]. rewrite I1, Ei. replace (n + 1)%nat with (Datatypes.S n) by lia. now rewrite zrange_snoc. }
  assert (K3 : forall id k, link s3 id k = if id =? N then tget ((N + 1, 1), L1, (i, b mod 3)) k else if he i (b + 1) id k then (N, 1) else link s1 id k).
  { intros id k. unfold s3. rewrite link_add. destruct (Z.eqb_spec id N); [unfold new1; cbn [sf_nb sf_vn]; now rewrite <- tget_pair|]. now apply link_put. }
  assert (C3 : forall id k, corner s3 id k = if id =? N then tget (pn, p (b + 1), p (b + 2)) k else if he i (b + 1) id k then pn else corner s id k).
  { intros id k. unfold s3. rewrite corner_add. destruct (Z.eqb_spec id N); [reflexivity|]. rewrite corner_put. cbn [set_link set_v sf_v]. unfold he. rewrite (Z.eqb_sym i id). destruct (Z.eqb_spec id i) as [->|]; [|cbn [andb]; apply C1]. cbn [andb]. rewrite tget_tset. destruct ((b + 1) mod 3 =? k mod 3); [reflexivity|]. apply C1. }
  assert (St3 : forall id, 0 <= id < N + 1 -> stored s3 id) by (intros id H'; apply (well_stored_in s3 id W3); rewrite I3, zrange_in; unfold N in H'; lia).
  rewrite (u_get_stored s3 g) by (apply St3; lia). cbn [bind].
  assert (Eg : link s3 g v = L2).
  { rewrite K3. destruct (Z.eqb_spec g N); [lia|]. rewrite (he_false i (b + 1) g v) by (intros [? _]; congruence). rewrite K1. reflexivity. }
  change (tget (sf_nb (facet s3 g)) v) with (fst (link s3 g v)). change (tget (sf_vn (facet s3 g)) v) with (snd (link s3 g v)). rewrite Eg.
  assert (Cg : tget (sf_v (facet s3 g)) v = corner s g v). { change (tget (sf_v (facet s3 g)) v) with (corner s3 g v). rewrite C3. destruct (Z.eqb_spec g N); [lia|]. now rewrite (he_false i (b + 1) g v) by (intros [? _]; congruence). } rewrite Cg.
  assert (Sz3 : u_size s3 = N + 1) by (unfold u_size, zlen; rewrite I3, zrange_len; unfold N; lia). rewrite Sz3.
  assert (S4 : exists s4, (if fst L2 =? -1 then Ok s3 else h <- u_get s3 (fst L2) ;; Ok (u_put s3 (fst L2) (set_link h (snd L2 + 1) (N + 1) 0))) = Ok s4 /\ u_ids s4 = u_ids s3 /\ well_stored s4 /\
    (forall id k, link s4 id k = if negb (fst L2 =? -1) && he (fst L2) (snd L2 + 1) id k then (N + 1, 0) else link s3 id k) /\ (forall id k, corner s4 id k = corner s3 id k) /\ (forall id, stored s3 id -> stored s4 id)).
  { destruct (Z.eqb_spec (fst L2) (-1)) as [E|E]; [exists s3; auto 8|].
    assert (In2 : 0 <= fst L2 < N + 1). { unfold L2 in *. destruct (negb (fst L1 =? -1) && he (fst L1) (snd L1 + 1) g v); [cbn [fst]; unfold N; lia|]. destruct (link_of g v) as [E'|(nb & l & _ & _ & B & E' & _)]; [rewrite Ei, zrange_in; exact Bg|rewrite E' in E; now elim E|]. rewrite E'. cbn [fst]. lia. }
    rewrite (u_get_stored s3 _ (St3 _ In2)). cbn [bind negb andb]. eexists. split; [reflexivity|]. split; [reflexivity|]. split; [apply well_put; [exact W3|rewrite I3, zrange_in; unfold N in In2; lia]|]. split; [intros id k; now apply link_put|]. split; [|intros id H'; apply stored_put; auto].
    intros id k. rewrite corner_put. cbn [set_link sf_v]. destruct (Z.eqb_spec id (fst L2)) as [->|]; reflexivity. }
  destruct S4 as (s4 & E4 & I4 & W4 & K4 & C4 & T4). rewrite E4. cbn [bind]. rewrite (u_get_stored s4 g) by (apply T4, St3; lia). cbn [bind]. assert (Sz4 : u_size s4 = N + 1) by (unfold u_size; rewrite I4; exact Sz3). rewrite Sz4.
  eexists. split; [reflexivity|]. split; [|split; [|split]].
  - cbn [u_add u_put u_ids]. rewrite I4, I3. replace (n + 2)%nat with (Datatypes.S (n + 1)) by lia. rewrite zrange_snoc. do 2 f_equal. unfold N. lia.
  - apply well_add; [apply well_put; [exact W4|rewrite I4, I3, zrange_in; unfold N in Bg; lia]|cbn [u_put u_ids]; rewrite I4, I3, zrange_in; unfold N; lia|unfold N; lia].
  - intros id k. rewrite link_add. unfold cut_link. destruct (Z.eqb_spec id (N + 1)); [cbn [sf_nb sf_vn]; now rewrite <- tget_pair|]. rewrite link_put by reflexivity. destruct (he g v id k); [reflexivity|]. rewrite K4. destruct (negb (fst L2 =? -1) && he (fst L2) (snd L2 + 1) id k); [reflexivity|]. rewrite K3. destruct (id =? N); [reflexivity|]. destruct (he i (b + 1) id k); [reflexivity|]. apply K1.
  - intros id k. rewrite corner_add. unfold cut_corner. destruct (Z.eqb_spec id (N + 1)); [reflexivity|]. rewrite corner_put. cbn [set_link set_v sf_v]. unfold he at 1. rewrite (Z.eqb_sym g id). destruct (Z.eqb_spec id g) as [->|].
    + cbn [andb]. rewrite tget_tset. destruct ((v + 1) mod 3 =? k mod 3); [reflexivity|]. change (tget (sf_v (facet s4 g)) k) with (corner s4 g k). rewrite C4. apply C3.
    + cbn [andb]. rewrite C4. apply C3.
Qed.

(** Where an old edge is afterwards. *)
Definition moved (id k : Z) : Z * Z := if he i (b + 1) id k then (N, 1) else if he g v id k then (N + 1, 1) else (id, k).
Lemma link_mod id k l : k mod 3 = l mod 3 -> link s id k = link s id l.
Proof. intros E. unfold link. now rewrite (across_mod s id k l E), (apart_mod s id k l E). Qed.
Lemma pair id k : 0 <= id < N -> link s id k = (-1, -1) \/ exists nb l, 0 <= nb < N /\ nb <> id /\ opposite s id k nb l /\ link s id k = (nb, (l + 2) mod 3) /\ link s nb l = (id, (k + 2) mod 3).
Proof. intros H. destruct (link_of id k) as [E|(nb & l & L & O & B & E & E')]; [rewrite Ei, zrange_in; exact H|now left|]. right. exists nb, l. destruct L as (_ & Ne & _). auto 8. Qed.
(** Whoever is named by an edge names it. *)
Lemma back id k nb w : 0 <= id < N -> link s id k = (nb, w) -> nb <> -1 -> link s nb (w + 1) = (id, (k + 2) mod 3) /\ 0 <= nb < N /\ nb <> id /\ 0 <= w < 3.
Proof.
  intros H E Ne. destruct (pair id k H) as [E'|(nb' & l & B & N' & O & E1 & E2)]; [rewrite E in E'; injection E' as -> _; now elim Ne|]. rewrite E in E1. injection E1 as -> ->. split; [|split; [exact B|split; [exact N'|lia]]]. rewrite <- E2. apply link_mod. lia.
Qed.
Ltac hf := rewrite he_false by (intros [? ?]; lia).
Ltac ht := rewrite he_true by lia.
Lemma L1_cases : L1 = (-1, -1) \/ exists nb l, 0 <= nb < N /\ nb <> i /\ L1 = (nb, (l + 2) mod 3) /\ link s nb l = (i, b mod 3).
Proof. destruct (pair i (b + 1) Hi) as [E|(nb & l & B & Ne & _ & E1 & E2)]; [now left|right]. exists nb, l. split; [exact B|]. split; [exact Ne|]. split; [exact E1|]. rewrite E2. f_equal. lia. Qed.
Lemma Lg_cases : link s g v = (-1, -1) \/ exists nb l, 0 <= nb < N /\ nb <> g /\ link s g v = (nb, (l + 2) mod 3) /\ link s nb l = (g, (v + 2) mod 3).
Proof. destruct main_link as (_ & _ & Bg & _). destruct (pair g v Bg) as [E|(nb & l & B & Ne & _ & E1 & E2)]; [now left|right]. exists nb, l. auto. Qed.
Lemma N_pos : N = Z.of_nat n. Proof. reflexivity. Qed.
Lemma cut_free id k : 0 <= id < N -> link s id k = (-1, -1) -> cut_link (fst (moved id k)) (snd (moved id k)) = (-1, -1).
Proof.
  intros H E. destruct main_link as (_ & _ & Bg & Ngi). assert (HN := N_pos). unfold moved. destruct (he_dec i (b + 1) id k) as [[Eid Ek]|D1].
  - subst id. ht. cbn [fst snd]. assert (E1 : L1 = (-1, -1)) by (unfold L1; rewrite <- E; now apply link_mod). unfold cut_link. destruct (Z.eqb_spec N (N + 1)); [lia|]. hf.
    assert (E2 : L2 = link s g v) by (unfold L2; rewrite E1; reflexivity). rewrite E2. destruct Lg_cases as [Eg|(nb & l & B & _ & Eg & _)]; rewrite Eg; cbn [fst snd Z.eqb Pos.eqb negb andb]; [|rewrite (he_false nb) by (intros [? ?]; lia); rewrite andb_false_r]; rewrite Z.eqb_refl; rewrite E1; reflexivity.
  - rewrite (he_false i) by exact D1. destruct (he_dec g v id k) as [[Eid Ek]|D2].
    + subst id. ht. cbn [fst snd]. unfold cut_link. rewrite Z.eqb_refl. rewrite (tget1 _ _ _ 1 eq_refl). unfold L2. destruct L1_cases as [E1|(nb & l & B & Ne & E1 & E2)]; rewrite E1; cbn [fst snd Z.eqb Pos.eqb negb andb]; [rewrite <- E; now apply link_mod|].
      destruct (he_dec nb ((l + 2) mod 3 + 1) g v) as [[-> Ev]|D]; [|rewrite (he_false nb) by exact D; rewrite andb_false_r, <- E; now apply link_mod].
      exfalso. assert (link s g l = link s g k) by (apply link_mod; lia). rewrite E2, E in H0. injection H0 as Hx _. lia.
    + rewrite (he_false g) by exact D2. cbn [fst snd]. unfold cut_link. destruct (Z.eqb_spec id (N + 1)); [lia|]. rewrite (he_false g) by exact D2.
      assert (X2 : negb (fst L2 =? -1) && he (fst L2) (snd L2 + 1) id k = false).
      { destruct (negb (fst L2 =? -1) && he (fst L2) (snd L2 + 1) id k) eqn:X; [|reflexivity]. exfalso. apply andb_true_iff in X. destruct X as [X1 X2]. apply he_spec in X2. destruct X2 as [X2 X3]. unfold L2 in *. destruct (negb (fst L1 =? -1) && he (fst L1) (snd L1 + 1) g v); [cbn in X2; lia|]. destruct (link s g v) as [x y] eqn:Q. cbn [fst snd] in *. subst x.
        destruct (back g v id y Bg Q ltac:(lia)) as (Q2 & _). rewrite (link_mod id (y + 1) k X3), E in Q2. injection Q2 as Hx _. lia. }
      rewrite X2. destruct (Z.eqb_spec id N); [lia|]. rewrite (he_false i) by exact D1.
      destruct (negb (fst L1 =? -1) && he (fst L1) (snd L1 + 1) id k) eqn:X; [|exact E]. exfalso. apply andb_true_iff in X. destruct X as [_ X3]. apply he_spec in X3. destruct X3 as [X3 X4]. unfold L1 in *. destruct (link s i (b + 1)) as [x y] eqn:Q. cbn [fst snd] in *. subst x.
      destruct (back i (b + 1) id y Hi Q ltac:(lia)) as (Q2 & _). rewrite (link_mod id (y + 1) k X4), E in Q2. injection Q2 as Hx _. lia.
Qed.
Lemma cut_pair id k nb l : 0 <= id < N -> 0 <= nb < N -> nb <> id -> link s id k = (nb, (l + 2) mod 3) -> link s nb l = (id, (k + 2) mod 3) ->
  cut_link (fst (moved id k)) (snd (moved id k)) = (fst (moved nb l), (snd (moved nb l) + 2) mod 3).
Proof.
  intros H Hb Ne E E'. destruct main_link as (_ & _ & Bg & Ngi). assert (HN := N_pos). unfold moved at 1 2. destruct (he_dec i (b + 1) id k) as [[Eid Ek]|D1].
  - subst id. ht. cbn [fst snd]. assert (E1 : L1 = (nb, (l + 2) mod 3)) by (unfold L1; rewrite <- E; now apply link_mod). unfold cut_link. destruct (Z.eqb_spec N (N + 1)); [lia|]. hf. rewrite Z.eqb_refl, (tget1 _ _ _ 1 eq_refl).
    unfold L2. rewrite E1. cbn [fst snd]. destruct (Z.eqb_spec nb (-1)); [lia|]. cbn [negb andb]. destruct (he_dec nb ((l + 2) mod 3 + 1) g v) as [[-> Ev]|D].
    + ht. cbn [fst snd]. destruct (Z.eqb_spec N (-1)); [lia|]. cbn [negb andb]. ht. unfold moved. hf. ht. reflexivity.
    + rewrite (he_false nb) by exact D. assert (X : negb (fst (link s g v) =? -1) && he (fst (link s g v)) (snd (link s g v) + 1) N 1 = false). { destruct Lg_cases as [Eg|(x & y & B & _ & Eg & _)]; rewrite Eg; cbn [fst snd]; [reflexivity|]. rewrite (he_false x) by (intros [? ?]; lia). apply andb_false_r. } rewrite X.
      unfold moved. hf. rewrite (he_false g) by (intros [Enb Q]; subst nb; apply D; split; [reflexivity|lia]). reflexivity.
  - rewrite (he_false i (b + 1) id k) by exact D1. destruct (he_dec g v id k) as [[Eid Ek]|D2].
    + subst id. ht. cbn [fst snd]. unfold cut_link. rewrite Z.eqb_refl, (tget1 _ _ _ 1 eq_refl). assert (Eg : link s g v = (nb, (l + 2) mod 3)) by (rewrite <- E; now apply link_mod).
      unfold L2. destruct (negb (fst L1 =? -1) && he (fst L1) (snd L1 + 1) g v) eqn:X.
      * apply andb_true_iff in X. destruct X as [_ X3]. apply he_spec in X3. destruct X3 as [X3 X4]. unfold L1 in *. destruct (link s i (b + 1)) as [x y] eqn:Q. cbn [fst snd] in *. subst x.
        destruct (back i (b + 1) g y Hi Q ltac:(lia)) as (Q2 & _). rewrite (link_mod g (y + 1) v X4), Eg in Q2. injection Q2 as -> Q3. unfold moved. ht. reflexivity.
      * rewrite Eg. unfold moved. rewrite (he_false i (b + 1) nb l).
        2: { intros [Enb Q]. subst nb. assert (E1 : L1 = (g, (k + 2) mod 3)) by (unfold L1; rewrite <- E'; now apply link_mod). rewrite E1 in X. cbn [fst snd] in X. destruct (Z.eqb_spec g (-1)); [lia|]. cbn [negb andb] in X. rewrite he_true in X by lia. discriminate. }
        rewrite (he_false g) by (intros [? _]; lia). reflexivity.
    + rewrite (he_false g v id k) by exact D2. cbn [fst snd]. unfold cut_link. destruct (Z.eqb_spec id (N + 1)); [lia|]. rewrite (he_false g v id k) by exact D2.
      destruct (negb (fst L2 =? -1) && he (fst L2) (snd L2 + 1) id k) eqn:X2.
      * apply andb_true_iff in X2. destruct X2 as [_ X3]. apply he_spec in X3. destruct X3 as [X3 X4]. unfold L2 in *. destruct (negb (fst L1 =? -1) && he (fst L1) (snd L1 + 1) g v); [cbn in X3; lia|]. destruct (link s g v) as [x y] eqn:Q. cbn [fst snd] in *. subst x.
        destruct (back g v id y Bg Q ltac:(lia)) as (Q2 & _). rewrite (link_mod id (y + 1) k X4), E in Q2. injection Q2 as -> Q3. unfold moved. hf. ht. reflexivity.
      * destruct (Z.eqb_spec id N); [lia|]. rewrite (he_false i (b + 1) id k) by exact D1. destruct (negb (fst L1 =? -1) && he (fst L1) (snd L1 + 1) id k) eqn:X1.
        -- apply andb_true_iff in X1. destruct X1 as [_ X3]. apply he_spec in X3. destruct X3 as [X3 X4]. unfold L1 in *. destruct (link s i (b + 1)) as [x y] eqn:Q. cbn [fst snd] in *. subst x.
           destruct (back i (b + 1) id y Hi Q ltac:(lia)) as (Q2 & _). rewrite (link_mod id (y + 1) k X4), E in Q2. injection Q2 as -> Q3. unfold moved. ht. reflexivity.
        -- rewrite E. unfold moved. rewrite (he_false i (b + 1) nb l).
           2: { intros [Enb Q]. subst nb. assert (E1 : L1 = (id, (k + 2) mod 3)) by (unfold L1; rewrite <- E'; now apply link_mod). rewrite E1 in X1. cbn [fst snd] in X1. destruct (Z.eqb_spec id (-1)); [lia|]. cbn [negb andb] in X1. rewrite he_true in X1 by lia. discriminate. }
           rewrite (he_false g v nb l); [reflexivity|]. intros [Enb Q]. subst nb. assert (Eg : link s g v = (id, (k + 2) mod 3)) by (rewrite <- E'; now apply link_mod).
           unfold L2 in X2. destruct (negb (fst L1 =? -1) && he (fst L1) (snd L1 + 1) g v) eqn:X.
           ++ apply andb_true_iff in X. destruct X as [_ X3]. apply he_spec in X3. destruct X3 as [X3 X4]. unfold L1 in *. destruct (link s i (b + 1)) as [x y] eqn:Q1. cbn [fst snd] in *. subst x.
              destruct (back i (b + 1) g y Hi Q1 ltac:(lia)) as (Q2 & _). rewrite (link_mod g (y + 1) v X4), Eg in Q2. injection Q2 as -> Q3. apply D1. split; [reflexivity|lia].
           ++ rewrite Eg in X2. cbn [fst snd] in X2. destruct (Z.eqb_spec id (-1)); [lia|]. cbn [negb andb] in X2. rewrite he_true in X2 by lia. discriminate.
Qed.
Lemma cut_ends id k : 0 <= id < N -> ~ (i = id /\ b mod 3 = k mod 3) -> ~ (g = id /\ (v + 1) mod 3 = k mod 3) ->
  cut_corner (fst (moved id k)) (snd (moved id k)) =v= corner s id k /\ cut_corner (fst (moved id k)) (snd (moved id k) + 1) =v= corner s id (k + 1).
Proof.
  intros H D1 D2. destruct main_link as (_ & (O1 & O2) & Bg & Ngi). assert (HN := N_pos). unfold moved. destruct (he_dec i (b + 1) id k) as [[Eid Ek]|D3].
  - subst id. ht. cbn [fst snd]. unfold cut_corner. destruct (Z.eqb_spec N (N + 1)); [lia|]. rewrite !(he_false g) by (intros [? ?]; lia). rewrite Z.eqb_refl. rewrite (tget1 _ _ _ 1 eq_refl), (tget2 _ _ _ (1 + 1) eq_refl). unfold p. rewrite (corner_mod s i (b + 1) k), (corner_mod s i (b + 2) (k + 1)) by lia. split; reflexivity.
  - rewrite (he_false i) by exact D3. destruct (he_dec g v id k) as [[Eid Ek]|D4].
    + subst id. ht. cbn [fst snd]. unfold cut_corner. rewrite Z.eqb_refl. rewrite (tget1 _ _ _ 1 eq_refl), (tget2 _ _ _ (1 + 1) eq_refl). rewrite (corner_mod s g v k), (corner_mod s g (k + 1) (v + 1)) by lia. split; [reflexivity|]. symmetry. exact O1.
    + rewrite (he_false g v) by exact D4. cbn [fst snd]. unfold cut_corner. destruct (Z.eqb_spec id (N + 1)); [lia|]. destruct (Z.eqb_spec id N); [lia|].
      rewrite (he_false g (v + 1) id k), (he_false i (b + 1) id k) by assumption. rewrite (he_false g (v + 1) id (k + 1)), (he_false i (b + 1) id (k + 1)); [split; reflexivity| |].
      * intros [Eid Q]. subst id. apply D1. split; [reflexivity|lia].
      * intros [Eid Q]. subst id. apply D4. split; [reflexivity|lia].
Qed.
Lemma L2_cases : (L2 = (N, 0) /\ negb (fst L1 =? -1) && he (fst L1) (snd L1 + 1) g v = true) \/ (L2 = link s g v /\ negb (fst L1 =? -1) && he (fst L1) (snd L1 + 1) g v = false).
Proof. unfold L2. case (negb (fst L1 =? -1) && he (fst L1) (snd L1 + 1) g v); auto. Qed.
Section Result.
Variable s' : surf.
Hypothesis I' : u_ids s' = zrange (n + 2).
Hypothesis W' : well_stored s'.
Hypothesis K' : forall id k, link s' id k = cut_link id k.
Hypothesis C' : forall id k, corner s' id k = cut_corner id k.
Lemma moved_range id k : 0 <= id < N -> 0 <= fst (moved id k) < N + 2.
Proof. intros H. assert (HN := N_pos). unfold moved. destruct (he i (b + 1) id k); [cbn; lia|]. destruct (he g v id k); cbn; lia. Qed.
Lemma moved_differ id k nb l : 0 <= id < N -> 0 <= nb < N -> nb <> id -> fst (moved nb l) <> fst (moved id k).
Proof.
  intros H H' Ne. assert (HN := N_pos). unfold moved. destruct (he_dec i (b + 1) id k) as [D1|D1]; [rewrite (he_true i (b + 1) id k) by tauto|rewrite (he_false i (b + 1) id k) by exact D1]; (destruct (he_dec i (b + 1) nb l) as [D2|D2]; [rewrite (he_true i (b + 1) nb l) by tauto|rewrite (he_false i (b + 1) nb l) by exact D2]); cbn [fst].
  - destruct D1, D2. congruence.
  - destruct (he g v nb l); cbn [fst]; lia.
  - destruct (he g v id k); cbn [fst]; lia.
  - destruct (he_dec g v id k) as [D3|D3]; [rewrite (he_true g v id k) by tauto|rewrite (he_false g v id k) by exact D3]; (destruct (he_dec g v nb l) as [D4|D4]; [rewrite (he_true g v nb l) by tauto|rewrite (he_false g v nb l) by exact D4]); cbn [fst]; try lia.
Qed.
Lemma mk_linked id k nb l : link s' id k = (nb, (l + 2) mod 3) -> link s' nb l = (id, (k + 2) mod 3) -> nb <> id -> 0 <= nb < N + 2 -> linked s' id k nb l.
Proof. intros E E' Ne B. assert (HN := N_pos). unfold link in E, E'. injection E as E1 E2. injection E' as E3 E4. split; [rewrite I', zrange_in; lia|auto 6]. Qed.
Lemma moved_linked id k nb l : 0 <= id < N -> 0 <= nb < N -> nb <> id -> link s id k = (nb, (l + 2) mod 3) -> link s nb l = (id, (k + 2) mod 3) ->
  linked s' (fst (moved id k)) (snd (moved id k)) (fst (moved nb l)) (snd (moved nb l)).
Proof.
  intros H Hb Ne E E'. apply mk_linked; [rewrite K'; now apply cut_pair|rewrite K'; apply cut_pair; auto|now apply moved_differ|now apply moved_range].
Qed.
Lemma moved_opposite id k nb l : 0 <= id < N -> 0 <= nb < N -> nb <> id -> link s id k = (nb, (l + 2) mod 3) -> link s nb l = (id, (k + 2) mod 3) -> opposite s id k nb l ->
  opposite s' (fst (moved id k)) (snd (moved id k)) (fst (moved nb l)) (snd (moved nb l)).
Proof.
  intros H Hb Ne E E' O. destruct main_link as (L & (O1 & O2) & Bg & Ngi). assert (HN := N_pos).
  assert (Lm : link s i b = (g, v)) by (unfold link; now rewrite Lb, Lv). assert (Lm' : link s g (v + 1) = (i, (b + 2) mod 3)) by (unfold link; destruct L as (_ & _ & _ & _ & A & B); now rewrite A, B).
  unfold opposite. rewrite !C'. destruct (he_dec i b id k) as [[Eid Ek]|D1].
  - subst id. assert (Q : link s i k = (g, v)) by (rewrite <- Lm; apply link_mod; lia). rewrite E in Q. injection Q as Q1 Q2. subst nb. unfold moved. rewrite (he_false i (b + 1) i k), (he_false g v i k), (he_false i (b + 1) g l), (he_false g v g l) by (intros [? ?]; lia). cbn [fst snd].
    unfold cut_corner. destruct (Z.eqb_spec g (N + 1)); [lia|]. destruct (Z.eqb_spec i (N + 1)); [lia|]. destruct (Z.eqb_spec g N); [lia|]. destruct (Z.eqb_spec i N); [lia|]. rewrite (he_true g (v + 1) g l) by lia. rewrite (he_false g (v + 1) i (k + 1)) by (intros [? ?]; lia). rewrite (he_true i (b + 1) i (k + 1)) by lia. split; [reflexivity|].
    rewrite (he_false g (v + 1) g (l + 1)), (he_false i (b + 1) g (l + 1)), (he_false g (v + 1) i k), (he_false i (b + 1) i k) by (intros [? ?]; lia). exact (proj2 O).
  - destruct (he_dec g (v + 1) id k) as [[Eid Ek]|D2].
    + subst id. assert (Q : link s g k = (i, (b + 2) mod 3)) by (rewrite <- Lm'; apply link_mod; lia). rewrite E in Q. injection Q as Q1 Q2. subst nb. unfold moved. rewrite (he_false i (b + 1) i l), (he_false g v i l), (he_false i (b + 1) g k), (he_false g v g k) by (intros [? ?]; lia). cbn [fst snd].
      unfold cut_corner. destruct (Z.eqb_spec g (N + 1)); [lia|]. destruct (Z.eqb_spec i (N + 1)); [lia|]. destruct (Z.eqb_spec g N); [lia|]. destruct (Z.eqb_spec i N); [lia|]. rewrite (he_true g (v + 1) g k) by lia. rewrite (he_false g (v + 1) i (l + 1)) by (intros [? ?]; lia). rewrite (he_true i (b + 1) i (l + 1)) by lia. split; [|reflexivity].
      rewrite (he_false g (v + 1) g (k + 1)), (he_false i (b + 1) g (k + 1)), (he_false g (v + 1) i l), (he_false i (b + 1) i l) by (intros [? ?]; lia). exact (proj1 O).
    + destruct (cut_ends id k H D1 D2) as [A1 A2]. destruct (cut_ends nb l Hb) as [B1 B2].
      { intros [Q1 Q2]. subst nb. apply D2. assert (Q : link s i l = (g, v)) by (rewrite <- Lm; apply link_mod; lia). rewrite E' in Q. injection Q as Q3 Q4. split; [congruence|lia]. }
      { intros [Q1 Q2]. subst nb. apply D1. assert (Q : link s g l = (i, (b + 2) mod 3)) by (rewrite <- Lm'; apply link_mod; lia). rewrite E' in Q. injection Q as Q3 Q4. split; [congruence|lia]. }
      destruct O as [O3 O4]. split; [rewrite B1, A2; exact O3|rewrite B2, A1; exact O4].
Qed.
(** Every new edge is an inner one or an old one. *)
Lemma every_edge id k : 0 <= id < N + 2 -> (exists nb l, linked s' id k nb l /\ opposite s' id k nb l) \/ exists id0 k0, 0 <= id0 < N /\ fst (moved id0 k0) = id /\ snd (moved id0 k0) mod 3 = k mod 3.
Proof.
  intros H. destruct main_link as (_ & (O1 & O2) & Bg & Ngi). assert (HN := N_pos).
  assert (X2 : forall x y, (x = N -> y mod 3 <> 1) -> ~ 0 <= x < N -> negb (fst L2 =? -1) && he (fst L2) (snd L2 + 1) x y = false).
  { intros x y Hx Hx'. destruct L2_cases as [[HL _]|[HL _]]; rewrite HL.
    - cbn [fst snd]. rewrite he_false; [apply andb_false_r|]. intros [Q1 Q]. apply Hx; [now symmetry|lia].
    - destruct Lg_cases as [Eg|(nb & l & B & _ & Eg & _)]; rewrite Eg; cbn [fst snd]; [reflexivity|]. rewrite he_false by (intros [? ?]; lia). apply andb_false_r. }
  assert (Ki : forall y, y mod 3 = (b + 1) mod 3 -> cut_link i y = (N, 1)).
  { intros y Hy. unfold cut_link. destruct (Z.eqb_spec i (N + 1)); [lia|]. rewrite (he_false g v i y) by (intros [? ?]; lia). destruct (negb (fst L2 =? -1) && he (fst L2) (snd L2 + 1) i y) eqn:X; [|destruct (Z.eqb_spec i N); [lia|]; now rewrite he_true by lia].
    exfalso. apply andb_true_iff in X. destruct X as [_ X3]. apply he_spec in X3. destruct X3 as [X3 X4]. destruct L2_cases as [[HL _]|[HL X]]; rewrite HL in X3, X4; [cbn in X3; lia|]. assert (Q : link s g v = (i, snd (link s g v))) by (rewrite <- X3; apply surjective_pairing). destruct (back g v i _ Bg Q ltac:(lia)) as (Q2 & _).
    assert (E1 : L1 = (g, (v + 2) mod 3)) by (unfold L1; rewrite <- Q2; apply link_mod; lia). rewrite E1 in X. cbn [fst snd] in X. destruct (Z.eqb_spec g (-1)); [lia|]. cbn [negb andb] in X. rewrite he_true in X by lia. discriminate. }
  assert (KN2 : forall y, y mod 3 = 2 -> cut_link N y = (i, b mod 3)). { intros y Hy. unfold cut_link. destruct (Z.eqb_spec N (N + 1)); [lia|]. hf. rewrite X2 by lia. rewrite Z.eqb_refl. now apply tget2. }
  assert (KN0 : forall y, y mod 3 = 0 -> cut_link N y = (N + 1, 1)). { intros y Hy. unfold cut_link. destruct (Z.eqb_spec N (N + 1)); [lia|]. hf. rewrite X2 by lia. rewrite Z.eqb_refl. now apply tget0. }
  assert (KM0 : forall y, y mod 3 = 0 -> cut_link (N + 1) y = (g, (v + 2) mod 3)). { intros y Hy. unfold cut_link. rewrite Z.eqb_refl. now apply tget0. }
  assert (KM2 : forall y, y mod 3 = 2 -> cut_link (N + 1) y = (N, 2)). { intros y Hy. unfold cut_link. rewrite Z.eqb_refl. now apply tget2. }
  assert (Kg : forall y, y mod 3 = v mod 3 -> cut_link g y = (N + 1, 2)). { intros y Hy. unfold cut_link. destruct (Z.eqb_spec g (N + 1)); [lia|]. now rewrite he_true by lia. }
  assert (CN : forall y, cut_corner N y = tget (pn, p (b + 1), p (b + 2)) y). { intros y. unfold cut_corner. destruct (Z.eqb_spec N (N + 1)); [lia|]. hf. now rewrite Z.eqb_refl. }
  assert (CM : forall y, cut_corner (N + 1) y = tget (pn, corner s g v, p (b + 1)) y). { intros y. unfold cut_corner. now rewrite Z.eqb_refl. }
  assert (Ci : forall y, cut_corner i y = if (b + 1) mod 3 =? y mod 3 then pn else corner s i y). { intros y. unfold cut_corner. destruct (Z.eqb_spec i (N + 1)); [lia|]. hf. destruct (Z.eqb_spec i N); [lia|]. unfold he. now rewrite Z.eqb_refl. }
  assert (Cg : forall y, cut_corner g y = if (v + 1) mod 3 =? y mod 3 then pn else corner s g y). { intros y. unfold cut_corner. destruct (Z.eqb_spec g (N + 1)); [lia|]. destruct (Z.eqb_spec g N); [lia|]. rewrite (he_false i) by (intros [? ?]; lia). unfold he. now rewrite Z.eqb_refl. }
  destruct (Z.eq_dec id (N + 1)) as [E|NM]; [|destruct (Z.eq_dec id N) as [E|NN]].
  - subst id. destruct (tget_cases k) as [Ek|[Ek|Ek]].
    + left. exists g, v. split; [apply mk_linked; rewrite ?K'; [now apply KM0|rewrite Kg by reflexivity; f_equal; lia|lia|lia]|]. unfold opposite. rewrite !C', !CM, !Cg. rewrite (tget0 _ _ _ k Ek), (tget1 _ _ _ (k + 1)) by lia. destruct (Z.eqb_spec ((v + 1) mod 3) (v mod 3)); [lia|]. rewrite Z.eqb_refl. split; reflexivity.
    + right. exists g, v. split; [exact Bg|]. unfold moved. hf. ht. cbn [fst snd]. split; [reflexivity|lia].
    + left. exists N, 0. split; [apply mk_linked; rewrite ?K'; [rewrite KM2 by exact Ek; reflexivity|rewrite KN0 by reflexivity; f_equal; lia|lia|lia]|]. unfold opposite. rewrite !C', !CM, !CN. rewrite (tget2 _ _ _ k Ek), (tget0 _ _ _ (k + 1)) by lia. split; reflexivity.
  - subst id. destruct (tget_cases k) as [Ek|[Ek|Ek]].
    + left. exists (N + 1), 2. split; [apply mk_linked; rewrite ?K'; [rewrite KN0 by exact Ek; reflexivity|rewrite KM2 by reflexivity; f_equal; lia|lia|lia]|]. unfold opposite. rewrite !C', !CM, !CN. rewrite (tget0 _ _ _ k Ek), (tget1 _ _ _ (k + 1)) by lia. split; reflexivity.
    + right. exists i, (b + 1). split; [exact Hi|]. unfold moved. ht. cbn [fst snd]. split; [reflexivity|lia].
    + left. exists i, (b + 1). split; [apply mk_linked; rewrite ?K'; [rewrite KN2 by exact Ek; f_equal; lia|rewrite Ki by reflexivity; f_equal; lia|lia|lia]|]. unfold opposite. rewrite !C', !CN, !Ci. rewrite (tget2 _ _ _ k Ek), (tget0 _ _ _ (k + 1)) by lia. rewrite Z.eqb_refl. destruct (Z.eqb_spec ((b + 1) mod 3) ((b + 1 + 1) mod 3)); [lia|]. split; [reflexivity|]. unfold p. rewrite (corner_mod s i (b + 1 + 1) (b + 2)) by lia. reflexivity.
  - assert (Hid : 0 <= id < N) by lia. destruct (he_dec i (b + 1) id k) as [[E Ek]|D1].
    + subst id. left. exists N, 2. split; [apply mk_linked; rewrite ?K'; [rewrite Ki by lia; reflexivity|rewrite KN2 by reflexivity; f_equal; lia|lia|lia]|]. unfold opposite. rewrite !C', !CN, !Ci. rewrite (tget2 _ _ _ 2 eq_refl), (tget0 _ _ _ (2 + 1) eq_refl). destruct (Z.eqb_spec ((b + 1) mod 3) (k mod 3)); [|lia]. destruct (Z.eqb_spec ((b + 1) mod 3) ((k + 1) mod 3)); [lia|]. split; [|reflexivity]. unfold p. rewrite (corner_mod s i (k + 1) (b + 2)) by lia. reflexivity.
    + destruct (he_dec g v id k) as [[E Ek]|D2].
      * subst id. left. exists (N + 1), 0. split; [apply mk_linked; rewrite ?K'; [rewrite Kg by lia; reflexivity|rewrite KM0 by reflexivity; f_equal; lia|lia|lia]|]. unfold opposite. rewrite !C', !CM, !Cg. rewrite (tget0 _ _ _ 0 eq_refl), (tget1 _ _ _ (0 + 1) eq_refl). destruct (Z.eqb_spec ((v + 1) mod 3) (k mod 3)); [lia|]. destruct (Z.eqb_spec ((v + 1) mod 3) ((k + 1) mod 3)); [|lia]. split; [reflexivity|]. rewrite (corner_mod s g v k) by lia. reflexivity.
      * right. exists id, k. split; [exact Hid|]. unfold moved. rewrite (he_false i) by exact D1. rewrite (he_false g) by exact D2. split; reflexivity.
Qed.
Lemma link_mod' id k l : k mod 3 = l mod 3 -> link s' id k = link s' id l.
Proof. intros E. unfold link. now rewrite (across_mod s' id k l E), (apart_mod s' id k l E). Qed.
Lemma split_glued : glued s'.
Proof.
  split; [exact W'|]. assert (HN := N_pos). intros id k I. rewrite I', zrange_in in I. destruct (every_edge id k) as [L|(id0 & k0 & H0 & E1 & E2)]; [lia|now right|].
  destruct (pair id0 k0 H0) as [E|(nb & l & B & Ne & O & E & E')].
  - left. assert (Q := cut_free id0 k0 H0 E). rewrite <- K', E1, (link_mod' id _ k E2) in Q. unfold link in Q. injection Q as Q1 Q2. split; assumption.
  - right. exists (fst (moved nb l)), (snd (moved nb l)). assert (Lk := moved_linked id0 k0 nb l H0 B Ne E E'). assert (Op := moved_opposite id0 k0 nb l H0 B Ne E E' O). rewrite E1 in Lk, Op. split.
    + destruct Lk as (A1 & A2 & A3 & A4 & A5 & A6). split; [exact A1|]. split; [exact A2|]. split; [now rewrite (across_mod s' id k _ (eq_sym E2))|]. split; [now rewrite (apart_mod s' id k _ (eq_sym E2))|]. split; [exact A5|]. rewrite A6. lia.
    + destruct Op as [A1 A2]. split; [rewrite (corner_mod s' id (k + 1) (snd (moved id0 k0) + 1)) by lia; exact A1|rewrite (corner_mod s' id k (snd (moved id0 k0))) by lia; exact A2].
Qed.
(** Free edges stay where they are. *)
Lemma split_rim x y : (exists id k, In id (u_ids s) /\ free s id k /\ corner s id k =v= x /\ corner s id (k + 1) =v= y) <->
  exists id k, In id (u_ids s') /\ free s' id k /\ corner s' id k =v= x /\ corner s' id (k + 1) =v= y.
Proof.
  destruct main_link as (L & O & Bg & Ngi). assert (HN := N_pos). assert (Lm : link s i b = (g, v)) by (unfold link; now rewrite Lb, Lv). assert (Lm' : link s g (v + 1) = (i, (b + 2) mod 3)) by (unfold link; destruct L as (_ & _ & _ & _ & A & B); now rewrite A, B).
  assert (Ends : forall id k, 0 <= id < N -> link s id k = (-1, -1) -> corner s' (fst (moved id k)) (snd (moved id k)) =v= corner s id k /\ corner s' (fst (moved id k)) (snd (moved id k) + 1) =v= corner s id (k + 1)).
  { intros id k H E. rewrite !C'. apply cut_ends; [exact H| |].
    - intros [Q1 Q2]. subst id. assert (Q : link s i k = (g, v)) by (rewrite <- Lm; apply link_mod; lia). rewrite E in Q. injection Q as Q _. lia.
    - intros [Q1 Q2]. subst id. assert (Q : link s g k = (i, (b + 2) mod 3)) by (rewrite <- Lm'; apply link_mod; lia). rewrite E in Q. injection Q as Q _. lia. }
  split; intros (id & k & I & [F1 F2] & E1 & E2).
  - rewrite Ei, zrange_in in I. assert (E : link s id k = (-1, -1)) by (unfold link; now rewrite F1, F2). exists (fst (moved id k)), (snd (moved id k)). assert (Q := cut_free id k I E). rewrite <- K' in Q. unfold link in Q. injection Q as Q1 Q2. destruct (Ends id k I E) as [A1 A2].
    split; [assert (R := moved_range id k I); rewrite I', zrange_in; lia|]. split; [split; assumption|]. split; [now rewrite A1|now rewrite A2].
  - rewrite I', zrange_in in I. destruct (every_edge id k) as [(nb & l & Lk & _)|(id0 & k0 & H0 & M1 & M2)]; [lia| |].
    + exfalso. destruct Lk as (A1 & _ & A3 & _). rewrite I', zrange_in in A1. lia.
    + destruct (pair id0 k0 H0) as [E|(nb & l & B & Ne & _ & E & E')].
      * destruct (Ends id0 k0 H0 E) as [A1 A2]. exists id0, k0. split; [rewrite Ei, zrange_in; exact H0|]. unfold link in E. injection E as Q1 Q2. split; [split; assumption|].
        rewrite M1 in A1, A2. rewrite (corner_mod s' id (snd (moved id0 k0)) k) in A1 by lia. rewrite (corner_mod s' id (snd (moved id0 k0) + 1) (k + 1)) in A2 by lia. split; [now rewrite <- A1|now rewrite <- A2].
      * exfalso. destruct (moved_linked id0 k0 nb l H0 B Ne E E') as (A1 & _ & A3 & _). rewrite M1, (across_mod s' id _ k M2), F1 in A3. rewrite <- A3, I', zrange_in in A1. lia.
Qed.
End Result.
End Step.
