(** Inverting a facet of a joined surface. *)
From Coq Require Import ZArith List Bool QArith Lia Lqa.
From Verif Require Import Prelude Vec ZMap Mesh_Proofs Surf_Model Surf_Spec Surf_Proofs Split_Proofs.
Import ListNotations.
Open Scope Z_scope.
Ltac Zify.zify_post_hook ::= Z.div_mod_to_equations.

Lemma link_mod3 s id k l : k mod 3 = l mod 3 -> link s id k = link s id l.
Proof. intros E. unfold link. now rewrite (across_mod s id k l E), (apart_mod s id k l E). Qed.
Lemma linked_link s id k nb l : linked s id k nb l <-> In nb (u_ids s) /\ nb <> id /\ link s id k = (nb, (l + 2) mod 3) /\ link s nb l = (id, (k + 2) mod 3).
Proof.
  unfold linked, link. split; [intros (A & B & -> & -> & -> & ->); auto|intros (A & B & C & D)]. injection C as -> ->. injection D as -> ->. auto 7.
Qed.
Lemma linked_sym s id k nb l : In id (u_ids s) -> linked s id k nb l -> linked s nb l id k.
Proof. rewrite !linked_link. intros I (A & B & C & D). auto. Qed.
Lemma linked_to s id k nb l l' : l mod 3 = l' mod 3 -> linked s id k nb l -> linked s id k nb l'.
Proof. rewrite !linked_link. intros E (A & B & C & D). rewrite <- (link_mod3 s nb l l' E). replace ((l' + 2) mod 3) with ((l + 2) mod 3) by lia. auto. Qed.
Lemma linked_unique s id k nb l nb' l' : linked s id k nb l -> linked s id k nb' l' -> nb = nb' /\ l mod 3 = l' mod 3.
Proof. rewrite !linked_link. intros (_ & _ & A & _) (_ & _ & B & _). rewrite A in B. injection B as -> E. split; [reflexivity|lia]. Qed.
(** Links go both ways. *)
Definition tied (s : surf) : Prop := well_stored s /\ forall id k, In id (u_ids s) -> free s id k \/ exists nb l, linked s id k nb l.
Lemma joined_tied s : joined s -> tied s.
Proof. intros [W H]. split; [exact W|]. intros id k I. destruct (H id k I) as [F|(nb & l & L & _)]; [now left|right; now exists nb, l]. Qed.
Lemma bump_ok s nb vn c : well_stored s -> In nb (u_ids s) -> 0 <= nb -> vn <> -1 ->
  exists s', bump s nb vn c = Ok s' /\ u_ids s' = u_ids s /\ well_stored s' /\ (forall y u, corner s' y u = corner s y u) /\
    forall y k, link s' y k = if he nb (vn + 1) y k then (across s y k, Z.rem (apart s y k + c) 3) else link s y k.
Proof.
  intros W I P V. unfold bump. destruct (Z.eqb_spec vn (-1)); [contradiction|]. rewrite (u_get_stored s nb (well_stored_in s nb W I)). cbn [bind]. destruct (Z.eqb_spec nb (-1)); [lia|]. eexists. split; [reflexivity|]. split; [reflexivity|]. split; [now apply well_put|]. split.
  - intros y u. rewrite corner_put. destruct (Z.eqb_spec y nb) as [->|]; reflexivity.
  - intros y k. unfold link, across, apart, he. rewrite facet_put, (Z.eqb_sym nb y). destruct (Z.eqb_spec y nb) as [->|]; [|reflexivity]. cbn [sf_nb sf_vn andb]. rewrite tget_tset. destruct (Z.eqb_spec ((vn + 1) mod 3) (k mod 3)) as [E|]; [|reflexivity]. now rewrite (tget_mod _ (vn + 1) k E).
Qed.
Lemma bump_free s nb c : bump s nb (-1) c = Ok s.
Proof. reflexivity. Qed.
(** The half-edge of a neighbour that looks at an edge. *)
Definition bumped (s s' : surf) (x e c : Z) : Prop :=
  u_ids s' = u_ids s /\ well_stored s' /\ (forall y u, corner s' y u = corner s y u) /\
  forall y k, link s' y k = if he (across s x e) (apart s x e + 1) y k && negb (apart s x e =? -1) then (across s y k, Z.rem (apart s y k + c) 3) else link s y k.
Lemma bump_edge s t x e c : tied s -> In x (u_ids s) -> u_ids t = u_ids s -> well_stored t ->
  exists s', bump t (across s x e) (apart s x e) c = Ok s' /\ u_ids s' = u_ids t /\ well_stored s' /\ (forall y u, corner s' y u = corner t y u) /\
  forall y k, link s' y k = if he (across s x e) (apart s x e + 1) y k && negb (apart s x e =? -1) then (across t y k, Z.rem (apart t y k + c) 3) else link t y k.
Proof.
  intros [W T] I Et Wt. destruct (T x e I) as [[F1 F2]|(nb & l & L)].
  - rewrite F2. exists t. split; [apply bump_free|]. split; [reflexivity|]. split; [exact Wt|]. split; [reflexivity|]. intros y k. cbn [Z.eqb Pos.eqb negb]. now rewrite andb_false_r.
  - destruct L as (L1 & L2 & L3 & L4 & L5 & L6). rewrite L3, L4. destruct (bump_ok t nb ((l + 2) mod 3) c Wt) as (s' & B1 & B2 & B3 & B4 & B5); [now rewrite Et|now apply W|lia|]. exists s'. split; [exact B1|]. split; [exact B2|]. split; [exact B3|]. split; [exact B4|].
    intros y k. rewrite B5. destruct (Z.eqb_spec ((l + 2) mod 3) (-1)); [lia|]. cbn [negb]. now rewrite andb_true_r.
Qed.
Definition mirror (v k : Z) : Z := 2 * v + 2 - k.
Lemma link_of_put s id f y k : link (u_put s id f) y k = if y =? id then (tget (sf_nb f) k, tget (sf_vn f) k) else link s y k.
Proof. unfold link, across, apart. rewrite facet_put. now destruct (y =? id). Qed.
Lemma invert_ok s x v : tied s -> In x (u_ids s) ->
  exists s', invert s x v = Ok s' /\ u_ids s' = u_ids s /\ well_stored s' /\
    (forall y u, corner s' y u = if y =? x then corner s x (2 * v - u) else corner s y u) /\
    forall y k, link s' y k = if y =? x then link s x (mirror v k) else if across s y k =? x then (x, (2 * v - apart s y k) mod 3) else link s y k.
Proof.
  intros T I. assert (W := proj1 T). unfold invert. rewrite (u_get_stored s x (well_stored_in s x W I)). cbn [bind].
  set (s1 := u_put s x (SFacet (tset (tset (sf_v (facet s x)) (v + 2) (tget (sf_v (facet s x)) (v + 1))) (v + 1) (tget (sf_v (facet s x)) (v + 2))) (sf_nb (facet s x)) (sf_vn (facet s x)))).
  change (tget (sf_nb (facet s x)) (v + 2)) with (across s x (v + 2)). change (tget (sf_vn (facet s x)) (v + 2)) with (apart s x (v + 2)). change (tget (sf_nb (facet s x)) (v + 3)) with (across s x (v + 3)). change (tget (sf_vn (facet s x)) (v + 3)) with (apart s x (v + 3)).
  assert (W1 : well_stored s1) by now apply well_put. assert (K1 : forall y k, link s1 y k = link s y k) by (intros y k; unfold link, across, apart, s1; rewrite facet_put; destruct (Z.eqb_spec y x) as [->|]; reflexivity).
  assert (C1 : forall y u, corner s1 y u = if y =? x then corner s x (2 * v - u) else corner s y u).
  { intros y u. unfold s1. rewrite corner_put. destruct (y =? x); [|reflexivity]. cbn [sf_v]. rewrite !tget_tset. unfold corner. set (t := sf_v (facet s x)). destruct (Z.eqb_spec ((v + 1) mod 3) (u mod 3)) as [E|E]; [apply tget_mod; lia|]. destruct (Z.eqb_spec ((v + 2) mod 3) (u mod 3)) as [E'|E']; [apply tget_mod; lia|]. apply tget_mod; lia. }
  destruct (bump_edge s s1 x (v + 2) 4 T I eq_refl W1) as (s2 & B1 & B2 & B3 & B4 & B5). rewrite B1. cbn [bind].
  destruct (bump_edge s s2 x (v + 3) 2 T I B2 B3) as (s3 & D1 & D2 & D3 & D4 & D5). rewrite D1. cbn [bind].
  assert (I3 : In x (u_ids s3)) by (rewrite D2, B2; exact I). rewrite (u_get_stored s3 x (well_stored_in s3 x D3 I3)). cbn [bind]. eexists. split; [reflexivity|]. split; [cbn [u_put u_ids]; now rewrite D2, B2|]. split; [now apply well_put|].
  (* edges of x itself *)
  assert (Nx : forall e y k, he (across s x e) (apart s x e + 1) y k && negb (apart s x e =? -1) = true -> exists l, linked s x e y l /\ l mod 3 = k mod 3).
  { intros e y k H. apply andb_true_iff in H. destruct H as [H1 H2]. apply he_spec in H1. destruct H1 as [H1 H3]. apply negb_true_iff, Z.eqb_neq in H2. destruct (proj2 T x e I) as [[_ F]|(nb & l & L)]; [contradiction|]. assert (L' := L). destruct L' as (_ & _ & L3 & L4 & _). exists l. rewrite L3 in H1. subst nb. split; [exact L|]. rewrite L4 in H3. lia. }
  assert (Kx : forall k, link s3 x k = link s x k).
  { intros k. rewrite D5. destruct (he (across s x (v + 3)) _ x k && _) eqn:E; [apply Nx in E; destruct E as (l & L & _); destruct L as (_ & Q & _); congruence|]. rewrite B5. destruct (he (across s x (v + 2)) _ x k && _) eqn:E'; [apply Nx in E'; destruct E' as (l & L & _); destruct L as (_ & Q & _); congruence|]. apply K1. }
  split.
  - intros y u. rewrite corner_put. destruct (Z.eqb_spec y x) as [->|Ne]; [|now rewrite D4, B4, C1, (proj2 (Z.eqb_neq y x) Ne)]. cbn [set_link sf_v]. fold (corner s3 x u). now rewrite D4, B4, C1, Z.eqb_refl.
  - intros y k. rewrite link_of_put. destruct (Z.eqb_spec y x) as [->|Ne].
    + cbn [set_link sf_nb sf_vn]. rewrite !tget_tset. destruct (Z.eqb_spec ((v + 3) mod 3) (k mod 3)) as [E|E]; [transitivity (link s x (v + 2)); [reflexivity|apply link_mod3; unfold mirror; lia]|]. destruct (Z.eqb_spec ((v + 2) mod 3) (k mod 3)) as [E'|E']; [transitivity (link s x (v + 3)); [reflexivity|apply link_mod3; unfold mirror; lia]|].
      change (link s3 x k = link s x (mirror v k)). rewrite Kx. apply link_mod3. unfold mirror. lia.
    + change (link s3 y k = if across s y k =? x then (x, (2 * v - apart s y k) mod 3) else link s y k).
      assert (F1 : forall e, he (across s x e) (apart s x e + 1) y k && negb (apart s x e =? -1) = true -> across s y k = x /\ apart s y k = (e + 2) mod 3).
      { intros e H. apply Nx in H. destruct H as (l & L & M). destruct L as (_ & _ & _ & _ & L5 & L6). now rewrite (across_mod s y l k M) in L5; rewrite (apart_mod s y l k M) in L6. }
      assert (F2 : forall e l, linked s y k x l -> l mod 3 = e mod 3 -> he (across s x e) (apart s x e + 1) y k && negb (apart s x e =? -1) = true).
      { intros e l (_ & _ & _ & _ & L5 & L6) M. rewrite (across_mod s x l e M) in L5. rewrite (apart_mod s x l e M) in L6. rewrite L5, L6. rewrite he_true by lia. cbn [andb]. apply negb_true_iff, Z.eqb_neq. lia. }
      rewrite D5. destruct (he (across s x (v + 3)) _ y k && _) eqn:E3.
      * apply F1 in E3. destruct E3 as [Ea Eb]. assert (E2 : he (across s x (v + 2)) (apart s x (v + 2) + 1) y k && negb (apart s x (v + 2) =? -1) = false). { destruct (he _ _ y k && _) eqn:E2; [|reflexivity]. apply F1 in E2. destruct E2 as [_ E2]. rewrite Eb in E2. lia. }
        assert (X : link s2 y k = link s y k) by (rewrite B5, E2; apply K1). unfold link in X. injection X as X1 X2. rewrite X1, X2, Ea, Z.eqb_refl, Eb. f_equal. rewrite Z.rem_mod_nonneg by lia. lia.
      * rewrite B5. destruct (he (across s x (v + 2)) _ y k && _) eqn:E2.
        { apply F1 in E2. destruct E2 as [Ea Eb]. assert (X := K1 y k). unfold link in X. injection X as X1 X2. rewrite X1, X2, Ea, Z.eqb_refl, Eb. f_equal. rewrite Z.rem_mod_nonneg by lia. lia. }
        rewrite K1. destruct (Z.eqb_spec (across s y k) x) as [Ex|]; [|reflexivity].
        assert (Iy : In y (u_ids s) \/ ~ In y (u_ids s)) by (destruct (in_dec Z.eq_dec y (u_ids s)); auto). destruct Iy as [Iy|Iy].
        -- destruct (proj2 T y k Iy) as [[F _]|(nb & l & L)]; [rewrite F in Ex; assert (0 <= x) by (now apply W); lia|]. assert (nb = x) by (destruct L as (_ & _ & L3 & _); congruence). subst nb. destruct (tget_cases (l - v)) as [M|[M|M]].
           ++ rewrite (F2 (v + 3) l L ltac:(lia)) in E3. discriminate.
           ++ destruct L as (_ & _ & _ & L4 & _). unfold link. rewrite Ex, L4. f_equal. lia.
           ++ rewrite (F2 (v + 2) l L ltac:(lia)) in E2. discriminate.
        -- exfalso. unfold across, facet in Ex. destruct (zlookup y (u_map s)) eqn:Z0; [apply Iy, W; congruence|]. cbn in Ex. assert (0 <= x) by (now apply W). destruct (tget_cases k) as [M|[M|M]]; [rewrite tget0 in Ex by exact M|rewrite tget1 in Ex by exact M|rewrite tget2 in Ex by exact M]; lia.
Qed.

(** ** How links and ends change *)
  Definition mu (x v y k : Z) : Z := if y =? x then mirror v k else k.
  Lemma mu_mu x v y k : mu x v y (mu x v y k) = k.
  Proof. unfold mu, mirror. destruct (y =? x); lia. Qed.
  Lemma mu_mod x v y k k' : k mod 3 = k' mod 3 -> mu x v y k mod 3 = mu x v y k' mod 3.
  Proof. unfold mu, mirror. destruct (y =? x); lia. Qed.
Section Inverted.
  Variables (s s' : surf) (x v : Z).
  Hypothesis T : tied s.
  Hypothesis I : In x (u_ids s).
  Hypothesis Ei : u_ids s' = u_ids s.
  Hypothesis W' : well_stored s'.
  Hypothesis C' : forall y u, corner s' y u = if y =? x then corner s x (2 * v - u) else corner s y u.
  Hypothesis L' : forall y k, link s' y k = if y =? x then link s x (mirror v k) else if across s y k =? x then (x, (2 * v - apart s y k) mod 3) else link s y k.
  Lemma inv_linked a k b l : linked s a k b l -> linked s' a (mu x v a k) b (mu x v b l).
  Proof using T I Ei W' C' L'.
    rewrite !linked_link, Ei. intros (A & B & C & D). split; [exact A|]. split; [exact B|]. rewrite !L'. unfold mu. injection C as C1 C2. injection D as D1 D2. destruct (Z.eqb_spec a x) as [->|Na].
    - destruct (Z.eqb_spec b x) as [->|Nb]; [congruence|]. rewrite D1, Z.eqb_refl, D2. replace (mirror v (mirror v k)) with k by (unfold mirror; lia). unfold link. rewrite C1, C2. split; [reflexivity|]. f_equal. unfold mirror. lia.
    - destruct (Z.eqb_spec b x) as [->|Nb].
      + rewrite C1, Z.eqb_refl, C2. replace (mirror v (mirror v l)) with l by (unfold mirror; lia). unfold link. rewrite D1, D2. split; [|reflexivity]. f_equal. unfold mirror. lia.
      + rewrite C1, D1. destruct (Z.eqb_spec b x); [contradiction|]. destruct (Z.eqb_spec a x); [contradiction|]. unfold link. now rewrite C1, C2, D1, D2.
  Qed.
  Lemma inv_free a k : free s a k -> free s' a (mu x v a k).
  Proof using T I Ei W' C' L'.
    assert (P : 0 <= x) by (apply T; exact I). intros [F1 F2]. assert (X : link s' a (mu x v a k) = (-1, -1)); [|unfold link in X; injection X as X1 X2; now split]. rewrite L'. unfold mu. destruct (Z.eqb_spec a x) as [->|Na].
    - replace (mirror v (mirror v k)) with k by (unfold mirror; lia). unfold link. now rewrite F1, F2.
    - rewrite F1. destruct (Z.eqb_spec (-1) x); [lia|]. unfold link. now rewrite F1, F2.
  Qed.
  Lemma inv_tied : tied s'.
  Proof using T I Ei W' C' L'.
    split; [exact W'|]. rewrite Ei. intros id k Hi. destruct (proj2 T id (mu x v id k) Hi) as [F|(nb & l & L)].
    - left. apply inv_free in F. now rewrite mu_mu in F.
    - right. exists nb, (mu x v nb l). apply inv_linked in L. now rewrite mu_mu in L.
  Qed.
  Lemma inv_linked_back a k b l : In a (u_ids s) -> linked s' a k b l -> linked s a (mu x v a k) b (mu x v b l).
  Proof using T I Ei W' C' L'.
    intros Ia H. destruct (proj2 T a (mu x v a k) Ia) as [F|(nb & l' & L)].
    - exfalso. apply inv_free in F. rewrite mu_mu in F. destruct F as [F _]. destruct H as (H1 & _ & H2 & _). rewrite F in H2. rewrite Ei in H1. assert (P : 0 <= b) by (apply T; exact H1). lia.
    - assert (L2 := inv_linked _ _ _ _ L). rewrite mu_mu in L2. destruct (linked_unique _ _ _ _ _ _ _ H L2) as [-> E]. apply (linked_to s a (mu x v a k) nb l'); [|exact L]. rewrite (mu_mod x v nb l (mu x v nb l') E). now rewrite mu_mu.
  Qed.
  Lemma inv_across y k : y <> x -> across s' y k = across s y k.
  Proof using T I Ei W' C' L'. intros N. change (fst (link s' y k) = across s y k). rewrite L'. destruct (Z.eqb_spec y x); [contradiction|]. destruct (Z.eqb_spec (across s y k) x) as [E|]; [now rewrite E|reflexivity]. Qed.
  Lemma inv_ends y k : corner s' y (mu x v y k) = (if y =? x then corner s y (k + 1) else corner s y k) /\ corner s' y (mu x v y k + 1) = (if y =? x then corner s y k else corner s y (k + 1)).
  Proof using T I Ei W' C' L'. rewrite !C'. unfold mu. destruct (Z.eqb_spec y x) as [->|]; [|auto]. split; apply corner_mod; unfold mirror; lia. Qed.
End Inverted.
(** The facets with equal value of [o] run through common edges in opposite directions, others in the same. *)
Definition orients (o : Z -> bool) (s : surf) : Prop := forall a k b l, In a (u_ids s) -> linked s a k b l -> if Bool.eqb (o a) (o b) then opposite s a k b l else alike s a k b l.
Definition toggle (o : Z -> bool) (x : Z) : Z -> bool := fun y => if y =? x then negb (o y) else o y.
Lemma inv_orients s s' x v o : tied s -> In x (u_ids s) -> u_ids s' = u_ids s -> well_stored s' -> (forall y u, corner s' y u = if y =? x then corner s x (2 * v - u) else corner s y u) ->
  (forall y k, link s' y k = if y =? x then link s x (mirror v k) else if across s y k =? x then (x, (2 * v - apart s y k) mod 3) else link s y k) -> orients o s -> orients (toggle o x) s'.
Proof.
  intros T I Ei W' C' L' O a k b l Ia H. rewrite Ei in Ia. assert (H2 := inv_linked_back s s' x v T I Ei W' C' L' a k b l Ia H). assert (Ne : b <> a) by apply H. specialize (O _ _ _ _ Ia H2). destruct (inv_ends s s' x v T I Ei W' C' L' a (mu x v a k)) as [A1 A2]. destruct (inv_ends s s' x v T I Ei W' C' L' b (mu x v b l)) as [B1 B2]. rewrite mu_mu in A1, A2, B1, B2.
  unfold toggle. unfold opposite, alike in *. rewrite A1, A2, B1, B2. destruct (Z.eqb_spec a x) as [->|Na].
  - destruct (Z.eqb_spec b x) as [->|Nb]; [congruence|]. destruct (o x), (o b); cbn [negb Bool.eqb] in *; tauto.
  - destruct (Z.eqb_spec b x) as [Eb|Nb]; [subst b|]; [destruct (o a), (o x)|destruct (o a), (o b)]; cbn [negb Bool.eqb] in *; tauto.
Qed.
