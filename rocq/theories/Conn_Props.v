(** C90: finding the neighbours of the facets of a surface. *)
From Coq Require Import ZArith List Bool QArith Lia Lqa.
From Verif Require Import Prelude Vec ZMap HashGrid_Model HashGrid_Spec Merge_Model Merge_Proofs Mesh_Proofs Surf_Model Surf_Spec Surf_Proofs Split_Proofs Query_Props.
Import ListNotations.
Open Scope Z_scope.
Ltac Zify.zify_post_hook ::= Z.div_mod_to_equations.

(** ** Vocabulary *)
Definition middle (s : surf) (id k : Z) : coord := vscale (1 # 2) (vadd (corner s id k) (corner s id (k + 1))).
(** The middles of two different edges are at most [tol] apart. *)
Definition near (s : surf) (tol : Q) (id k nb l : Z) : Prop :=
  In nb (u_ids s) /\ ~ (id = nb /\ k mod 3 = l mod 3) /\ (norm2 (vsub (middle s nb l) (middle s id k)) <= tol * tol)%Q.
Definition named (x : Z * Z) (nb l : Z) : Prop := x = (nb, (l + 2) mod 3).

(** ** Lemmas *)
Lemma middle_mod s id k l : k mod 3 = l mod 3 -> middle s id k = middle s id l.
Proof. intros E. unfold middle. now rewrite (corner_mod s id k l), (corner_mod s id (k + 1) (l + 1)) by lia. Qed.
Lemma near_mod s tol id k k' nb l l' : k mod 3 = k' mod 3 -> l mod 3 = l' mod 3 -> near s tol id k nb l -> near s tol id k' nb l'.
Proof. intros E E' (A & B & C). unfold near. rewrite <- (middle_mod s id k k' E), <- (middle_mod s nb l l' E'), <- E, <- E'. auto. Qed.
Lemma first_other_some e l x : first_other e l = Some x -> In x l /\ x <> e.
Proof. induction l as [|y l IH]; cbn; [discriminate|]. destruct (Z.eqb_spec y e); [intros H; destruct (IH H); auto|]. intros [= ->]. auto. Qed.
Lemma first_other_none e l : first_other e l = None -> forall x, In x l -> x = e.
Proof. induction l as [|y l IH]; cbn; [intros _ x []|]. destruct (Z.eqb_spec y e); [|discriminate]. intros H x [<-|Hx]; auto. Qed.
Definition objs_of (s : surf) : list (Z * coord) := concat (map (fun id => map (fun j => (id * 3 + j, edge_middle (facet s id) j)) [0; 1; 2]) (u_ids s)).
Lemma edge_objs_ok s : well_stored s -> edge_objs s = Ok (objs_of s).
Proof.
  intros W. unfold edge_objs. rewrite (mapM_ok _ (fun id => map (fun j => (id * 3 + j, edge_middle (facet s id) j)) [0; 1; 2])); [reflexivity|]. intros id I. rewrite (u_get_stored s id (well_stored_in s id W I)). reflexivity.
Qed.
Lemma objs_in s e c : In (e, c) (objs_of s) <-> exists id j, In id (u_ids s) /\ 0 <= j < 3 /\ e = id * 3 + j /\ c = middle s id j.
Proof.
  unfold objs_of. rewrite in_concat. split.
  - intros (l & Hl & I). apply in_map_iff in Hl. destruct Hl as (id & <- & Hi). apply in_map_iff in I. destruct I as (j & E & Ij). injection E as <- <-. exists id, j. cbn in Ij. split; [exact Hi|]. split; [lia|]. split; reflexivity.
  - intros (id & j & I & Hj & -> & ->). exists (map (fun j => (id * 3 + j, edge_middle (facet s id) j)) [0; 1; 2]). split; [apply in_map_iff; now exists id|]. apply in_map_iff. exists j. split; [reflexivity|]. cbn. lia.
Qed.
Definition alike_to (s s' : surf) : Prop := u_ids s' = u_ids s /\ well_stored s' /\ forall id, sf_v (facet s' id) = sf_v (facet s id).
Lemma unlink_all s : well_stored s -> exists s1, foldM unlink (u_ids s) s = Ok s1 /\ alike_to s s1 /\ forall id k, In id (u_ids s) -> link s1 id k = (-1, -1).
Proof.
  intros W. assert (G : forall l s2, (forall id, In id l -> In id (u_ids s)) -> alike_to s s2 -> exists s1, foldM unlink l s2 = Ok s1 /\ alike_to s s1 /\ (forall id k, In id l -> link s1 id k = (-1, -1)) /\ forall id k, ~ In id l -> link s1 id k = link s2 id k).
  { induction l as [|id l IH]; intros s2 Hl A; [exists s2; cbn; repeat split; try tauto; apply A|]. destruct A as (A1 & A2 & A3). assert (I : In id (u_ids s2)) by (rewrite A1; apply Hl; now left).
    cbn [foldM]. unfold unlink at 1. rewrite (u_get_stored s2 id (well_stored_in _ _ A2 I)). cbn [bind]. set (s3 := u_put s2 id (SFacet (sf_v (facet s2 id)) (-1, -1, -1) (-1, -1, -1))).
    assert (A' : alike_to s s3). { split; [exact A1|]. split; [now apply well_put|]. intros id'. unfold s3. rewrite facet_put. destruct (Z.eqb_spec id' id) as [->|]; [cbn|]; apply A3. }
    assert (L3 : forall id' k, link s3 id' k = if id' =? id then (-1, -1) else link s2 id' k). { intros id' k. unfold link, across, apart, s3. rewrite facet_put. destruct (id' =? id); [|reflexivity]. cbn [sf_nb sf_vn]. destruct (tget_cases k) as [E|[E|E]]; [now rewrite !tget0|now rewrite !tget1|now rewrite !tget2]. }
    destruct (IH s3 (fun x Hx => Hl x (or_intror Hx)) A') as (s1 & R1 & R2 & R3 & R4). exists s1. split; [exact R1|]. split; [exact R2|]. split.
    - intros id' k Hi. destruct (in_dec Z.eq_dec id' l) as [J|J]; [now apply R3|]. rewrite (R4 _ _ J), L3. destruct Hi as [<-|Hi]; [now rewrite Z.eqb_refl|contradiction].
    - intros id' k Hi. cbn in Hi. rewrite R4 by tauto. rewrite L3. destruct (Z.eqb_spec id' id) as [->|]; [tauto|reflexivity]. }
  destruct (G (u_ids s) s (fun _ H => H)) as (s1 & R1 & R2 & R3 & _); [split; [reflexivity|split; [exact W|reflexivity]]|]. exists s1. auto.
Qed.
(** What an edge may be linked to. *)
Definition fits (s : surf) (tol : Q) (x : Z * Z) (id k : Z) : Prop := (x = (-1, -1) /\ forall nb l, ~ near s tol id k nb l) \/ exists nb l, near s tol id k nb l /\ named x nb l.
Lemma corner_alike s s' id k : alike_to s s' -> corner s' id k = corner s id k.
Proof. intros (_ & _ & H). unfold corner. now rewrite H. Qed.
Lemma norm_le_iff a tol : (0 <= tol)%Q -> norm_le a tol = true <-> (norm2 a <= tol * tol)%Q.
Proof. intros H. unfold norm_le. rewrite andb_true_iff, !Qle_bool_iff. tauto. Qed.
Lemma link_edge_ok s g tol s2 id j : well_stored s -> (0 <= tol)%Q ->
  (forall id c, In (id, c) (objs_of s) -> exists r, grid_find g [] c tol = Ok r /\ forall k, In k r <-> exists c', In (k, c') (objs_of s) /\ norm_le (vsub c' c) tol = true) ->
  alike_to s s2 -> In id (u_ids s) -> 0 <= j < 3 -> link s2 id j = (-1, -1) ->
  exists s3, link_edge g tol id s2 j = Ok s3 /\ alike_to s s3 /\ (forall id' k', ~ (id' = id /\ k' mod 3 = j) -> link s3 id' k' = link s2 id' k') /\ fits s tol (link s3 id j) id j.
Proof.
  intros W Ht Hg A I Hj L0. destruct A as (A1 & A2 & A3). assert (I2 : In id (u_ids s2)) by now rewrite A1. unfold link_edge. rewrite (u_get_stored s2 id (well_stored_in _ _ A2 I2)). cbn [bind].
  assert (Em : edge_middle (facet s2 id) j = middle s id j) by (unfold edge_middle, middle, corner; now rewrite A3). rewrite Em. destruct (Hg (id * 3 + j) (middle s id j)) as (r & Er & Hr); [apply objs_in; now exists id, j|]. rewrite Er. cbn [bind].
  destruct (first_other (id * 3 + j) r) as [e|] eqn:F.
  - apply first_other_some in F. destruct F as [Fr Fe]. apply Hr in Fr. destruct Fr as (c' & Fc & Fn). apply objs_in in Fc. destruct Fc as (nb & l & In' & Hl & -> & ->). apply norm_le_iff in Fn; [|exact Ht]. assert (Pn : 0 <= nb) by (apply W; exact In').
    assert (E1 : Z.quot (nb * 3 + l) 3 = nb) by (rewrite Z.quot_div_nonneg; lia). assert (E2 : Z.rem (Z.rem (nb * 3 + l) 3 + 2) 3 = (l + 2) mod 3) by (rewrite (Z.rem_mod_nonneg (nb * 3 + l)) by lia; rewrite Z.rem_mod_nonneg by lia; replace ((nb * 3 + l) mod 3) with l by lia; reflexivity). rewrite E1, E2.
    eexists. split; [reflexivity|]. split; [|split].
    + split; [exact A1|]. split; [now apply well_put|]. intros id'. rewrite facet_put. destruct (Z.eqb_spec id' id) as [->|]; [cbn|]; apply A3.
    + intros id' k' H. unfold link, across, apart. rewrite facet_put. destruct (Z.eqb_spec id' id) as [->|]; [|reflexivity]. cbn [sf_nb sf_vn set_link]. rewrite !tget_tset. destruct (Z.eqb_spec (j mod 3) (k' mod 3)) as [E|]; [exfalso; apply H; split; [reflexivity|]; rewrite <- E; apply Z.mod_small; exact Hj|reflexivity].
    + right. exists nb, l. split; [|unfold named, link, across, apart; rewrite facet_put, Z.eqb_refl; cbn [sf_nb sf_vn set_link]; now rewrite !tget_tset, !Z.eqb_refl]. split; [exact In'|]. split; [intros [-> H]; apply Fe; rewrite !Z.mod_small in H by lia; now subst|exact Fn].
  - exists s2. split; [reflexivity|]. split; [now split|]. split; [reflexivity|]. left. split; [exact L0|]. intros nb l (N1 & N2 & N3).
    assert (X : In (nb * 3 + l mod 3) r). { apply Hr. exists (middle s nb l). split; [apply objs_in; exists nb, (l mod 3); split; [exact N1|]; split; [lia|]; split; [reflexivity|]; apply middle_mod; lia|]. now apply norm_le_iff. }
    apply (first_other_none _ _ F) in X. apply N2. lia.
Qed.
Lemma link_all s g tol : well_stored s -> (0 <= tol)%Q ->
  (forall id c, In (id, c) (objs_of s) -> exists r, grid_find g [] c tol = Ok r /\ forall k, In k r <-> exists c', In (k, c') (objs_of s) /\ norm_le (vsub c' c) tol = true) ->
  forall l s2, NoDup l -> (forall id, In id l -> In id (u_ids s)) -> alike_to s s2 -> (forall id k, In id l -> link s2 id k = (-1, -1)) ->
  exists s3, foldM (fun s id => foldM (link_edge g tol id) [0; 1; 2] s) l s2 = Ok s3 /\ alike_to s s3 /\ (forall id k, In id l -> fits s tol (link s3 id k) id k) /\ forall id k, ~ In id l -> link s3 id k = link s2 id k.
Proof.
  intros W Ht Hg. induction l as [|id l IH]; intros s2 Nd Hl A Lk; [exists s2; cbn; repeat split; try tauto; apply A|]. inversion Nd as [|? ? Ni Nd']; subst. assert (I := Hl id (or_introl eq_refl)).
  destruct (link_edge_ok s g tol s2 id 0 W Ht Hg A I ltac:(lia) (Lk id 0 (or_introl eq_refl))) as (a & Ra & Aa & Oa & Fa).
  destruct (link_edge_ok s g tol a id 1 W Ht Hg Aa I ltac:(lia)) as (b & Rb & Ab & Ob & Fb); [rewrite Oa by (cbn; lia); apply Lk; now left|].
  destruct (link_edge_ok s g tol b id 2 W Ht Hg Ab I ltac:(lia)) as (c & Rc & Ac & Oc & Fc); [rewrite Ob, Oa by (cbn; lia); apply Lk; now left|].
  destruct (IH c Nd' (fun x Hx => Hl x (or_intror Hx)) Ac) as (s3 & R3 & A3 & F3 & O3). { intros id' k Hi. rewrite Oc, Ob, Oa by (intros [-> _]; contradiction). apply Lk. now right. }
  exists s3. split; [cbn [foldM]; rewrite Ra; cbn [bind]; rewrite Rb; cbn [bind]; rewrite Rc; cbn [bind]; exact R3|]. split; [exact A3|]. split.
  - intros id' k [<-|Hi]; [|now apply F3]. assert (Fit : forall j k', k mod 3 = k' -> k' mod 3 = k mod 3 -> fits s tol j id k' -> fits s tol j id k). { intros x k' _ E [[X1 X2]|(nb & l0 & X1 & X2)]; [left; split; [exact X1|]; intros nb l0 H; apply (X2 nb l0); eapply near_mod; [|reflexivity|exact H]; now symmetry|right; exists nb, l0; split; [eapply near_mod; [exact E|reflexivity|exact X1]|exact X2]]. }
    assert (Lm : forall k', k mod 3 = k' mod 3 -> link c id k = link c id k') by (intros k' E; unfold link; now rewrite (across_mod c id k k' E), (apart_mod c id k k' E)).
    rewrite (O3 _ _ Ni). destruct (tget_cases k) as [E|[E|E]]; apply (Fit _ _ E ltac:(lia)).
    + rewrite (Lm 0) by lia. now rewrite Oc, Ob by (cbn; lia).
    + rewrite (Lm 1) by lia. now rewrite Oc by (cbn; lia).
    + rewrite (Lm 2) by lia. exact Fc.
  - intros id' k Hi. cbn in Hi. rewrite O3 by tauto. rewrite Oc, Ob, Oa by (intros [-> _]; tauto). reflexivity.
Qed.

(** ** C90 *)
Theorem C90_connectivity : forall n tol s, 1 <= n <= int_max -> (0 <= tol)%Q -> well_stored s ->
  (exists id k nb l, In id (u_ids s) /\ In nb (u_ids s) /\ ~ middle s id k =v= middle s nb l) ->
  exists s', connectivity n tol s = Ok s' /\ u_ids s' = u_ids s /\ well_stored s' /\ (forall id k, corner s' id k = corner s id k) /\
    forall id k, In id (u_ids s) ->
      free s' id k /\ (forall nb l, ~ near s tol id k nb l) \/
      exists nb l, near s tol id k nb l /\ across s' id k = nb /\ apart s' id k = (l + 2) mod 3.
Proof.
  intros n tol s Hn Ht W (id0 & k0 & nb0 & l0 & D1 & D2 & D3). unfold connectivity. rewrite (edge_objs_ok s W). cbn [bind].
  destruct (grid_of_ok n (objs_of s) Hn) as (g & Eg & Hg). { exists (id0 * 3 + k0 mod 3, middle s id0 k0), (nb0 * 3 + l0 mod 3, middle s nb0 l0). split; [apply objs_in; exists id0, (k0 mod 3); split; [exact D1|split; [lia|split; [reflexivity|apply middle_mod; lia]]]|]. split; [|exact D3]. apply objs_in; exists nb0, (l0 mod 3); split; [exact D2|split; [lia|split; [reflexivity|apply middle_mod; lia]]]. }
  rewrite Eg. cbn [bind]. destruct (unlink_all s W) as (s1 & R1 & A1 & L1). rewrite R1. cbn [bind]. assert (E1 := proj1 A1). rewrite E1.
  destruct (link_all s g tol W Ht) with (l := u_ids s) (s2 := s1) as (s' & R' & A' & F' & _); auto; [|apply W|].
  - intros id c Hi. destruct (Hg id c tol Hi Ht) as (r & Hr & _ & _ & Hk). now exists r.
  - exists s'. split; [exact R'|]. split; [apply A'|]. split; [apply A'|]. split; [intros; now apply corner_alike|]. intros id k I. destruct (F' id k I) as [[X Y]|(nb & l & X & Y)]; [left|right; exists nb, l]; unfold named, link in *; [injection X as X1 X2|injection Y as Y1 Y2]; (split; [|auto]); [now split|assumption].
Qed.
Print Assumptions C90_connectivity.

(** If edges are close only when they belong to different facets and have the same ends in opposite order, and at most two meet anywhere, then the facets are linked exactly along their common edges. *)
Theorem C90_glued : forall n tol s, 1 <= n <= int_max -> (0 <= tol)%Q -> well_stored s ->
  (exists id k nb l, In id (u_ids s) /\ In nb (u_ids s) /\ ~ middle s id k =v= middle s nb l) ->
  (forall id k nb l, In id (u_ids s) -> near s tol id k nb l -> nb <> id /\ opposite s id k nb l) ->
  (forall id k nb l nb' l', In id (u_ids s) -> near s tol id k nb l -> near s tol id k nb' l' -> nb = nb' /\ l mod 3 = l' mod 3) ->
  exists s', connectivity n tol s = Ok s' /\ glued s' /\ u_ids s' = u_ids s /\ (forall id k, corner s' id k = corner s id k) /\
    (forall id k nb l, In id (u_ids s) -> In nb (u_ids s) -> nb <> id -> opposite s id k nb l -> linked s' id k nb l) /\
    (forall id k, In id (u_ids s) -> (free s' id k <-> ~ exists nb l, In nb (u_ids s) /\ nb <> id /\ opposite s id k nb l)).
Proof.
  intros n tol s Hn Ht W Hd Ho Hu. destruct (C90_connectivity n tol s Hn Ht W Hd) as (s' & R' & I' & W' & C' & F'). exists s'. split; [exact R'|].
  assert (Sym : forall id k nb l, In id (u_ids s) -> near s tol id k nb l -> near s tol nb l id k). { intros id k nb l I (N1 & N2 & N3). split; [exact I|]. split; [intros [-> E]; apply N2; auto|]. assert (E : norm2 (vsub (middle s id k) (middle s nb l)) == norm2 (vsub (middle s nb l) (middle s id k))) by (unfold norm2, dot, vsub; cbn [cx cy cz]; ring). now rewrite E. }
  assert (Op : forall id k nb l, In nb (u_ids s) -> nb <> id -> opposite s id k nb l -> near s tol id k nb l). { intros id k nb l I Ne [O1 O2]. split; [exact I|]. split; [intros [E _]; congruence|]. assert (E : norm2 (vsub (middle s nb l) (middle s id k)) == 0) by (unfold middle; rewrite O1, O2; unfold norm2, dot, vsub, vscale, vadd; cbn [cx cy cz]; ring). rewrite E. nra. }
  assert (Lk : forall id k nb l, In id (u_ids s) -> near s tol id k nb l -> linked s' id k nb l).
  { intros id k nb l I N. assert (One : forall id k nb l, In id (u_ids s) -> near s tol id k nb l -> across s' id k = nb /\ apart s' id k = (l + 2) mod 3). { intros a b c d Ia Na. destruct (F' a b Ia) as [[_ X]|(nb' & l' & X1 & X2 & X3)]; [now apply X in Na|]. destruct (Hu a b c d nb' l' Ia Na X1) as [-> E]. split; [exact X2|]. rewrite X3. lia. }
    destruct (One id k nb l I N) as [A1 A2]. destruct (One nb l id k (proj1 N) (Sym _ _ _ _ I N)) as [B1 B2]. unfold linked. rewrite I'. repeat split; auto; [apply N|]. apply (Ho id k nb l I N). }
  assert (Oc : forall id k nb l, opposite s id k nb l <-> opposite s' id k nb l) by (intros; unfold opposite; now rewrite !C').
  split; [split; [exact W'|]; rewrite I'; intros id k I; destruct (F' id k I) as [[X _]|(nb & l & X & _)]; [now left|right; exists nb, l; split; [now apply Lk|apply Oc; now apply (Ho id k nb l)]]|]. split; [exact I'|]. split; [exact C'|]. split; [intros id k nb l I1 I2 Ne O; apply Lk; auto|].
  intros id k I. split.
  - intros [Fa Fb] (nb & l & I2 & Ne & O). destruct (Lk id k nb l I (Op id k nb l I2 Ne O)) as (_ & _ & L1 & _). rewrite Fa in L1. assert (P := proj2 (proj2 (proj2 W)) nb I2). lia.
  - intros H. destruct (F' id k I) as [[X _]|(nb & l & X & _)]; [exact X|]. exfalso. apply H. exists nb, l. destruct (Ho id k nb l I X). split; [apply X|auto].
Qed.
Print Assumptions C90_glued.

(** ** Cases *)
Definition nearb (s : surf) (tol : Q) (id k nb l : Z) : bool := negb ((id =? nb) && (k =? l)) && Qle_bool (norm2 (vsub (middle s nb l) (middle s id k))) (tol * tol).
Definition edges (s : surf) : list (Z * Z) := concat (map (fun id => [(id, 0); (id, 1); (id, 2)]) (u_ids s)).
Definition partners (s : surf) (tol : Q) (e : Z * Z) : list (Z * Z) := filter (fun e' => nearb s tol (fst e) (snd e) (fst e') (snd e')) (edges s).
Lemma in_edges s id k : In id (u_ids s) -> In (id, k mod 3) (edges s).
Proof. intros I. unfold edges. apply in_concat. exists [(id, 0); (id, 1); (id, 2)]. split; [apply in_map_iff; now exists id|]. destruct (tget_cases k) as [->|[->| ->]]; cbn; auto. Qed.
Lemma near_partner s tol id k nb l : In id (u_ids s) -> near s tol id k nb l -> In (nb, l mod 3) (partners s tol (id, k mod 3)).
Proof.
  intros I (N1 & N2 & N3). unfold partners. apply filter_In. split; [now apply in_edges|]. cbn [fst snd]. unfold nearb. apply andb_true_iff. split; [apply negb_true_iff, andb_false_iff; destruct (Z.eqb_spec id nb) as [E|]; [right; apply Z.eqb_neq; auto|now left]|]. apply Qle_bool_iff. rewrite (middle_mod s nb (l mod 3) l), (middle_mod s id (k mod 3) k) by lia. exact N3.
Qed.
Definition pairsb (s : surf) (tol : Q) : bool := forallb (fun e => match partners s tol e with
  | [] => true
  | [e'] => negb (fst e' =? fst e) && Qsame (corner s (fst e') (snd e')) (corner s (fst e) (snd e + 1)) && Qsame (corner s (fst e') (snd e' + 1)) (corner s (fst e) (snd e))
  | _ => false end) (edges s).
Lemma pairsb_spec s tol : pairsb s tol = true ->
  (forall id k nb l, In id (u_ids s) -> near s tol id k nb l -> nb <> id /\ opposite s id k nb l) /\
  (forall id k nb l nb' l', In id (u_ids s) -> near s tol id k nb l -> near s tol id k nb' l' -> nb = nb' /\ l mod 3 = l' mod 3).
Proof.
  intros H. unfold pairsb in H. rewrite forallb_forall in H. split.
  - intros id k nb l I N. apply near_partner in N; [|exact I]. specialize (H _ (in_edges s id k I)). destruct (partners s tol (id, k mod 3)) as [|e' [|]]; [destruct N| |discriminate]. destruct N as [->|[]]. cbn [fst snd] in H. rewrite !andb_true_iff, negb_true_iff, Z.eqb_neq, !Qsame_spec in H. destruct H as ((H1 & H2) & H3). split; [exact H1|].
    rewrite (corner_mod s nb (l mod 3) l), (corner_mod s id (k mod 3 + 1) (k + 1)) in H2 by lia. rewrite (corner_mod s nb (l mod 3 + 1) (l + 1)), (corner_mod s id (k mod 3) k) in H3 by lia. now split.
  - intros id k nb l nb' l' I N N'. apply near_partner in N; [|exact I]. apply near_partner in N'; [|exact I]. specialize (H _ (in_edges s id k I)). destruct (partners s tol (id, k mod 3)) as [|e' [|]]; [destruct N| |discriminate]. destruct N as [->|[]], N' as [E|[]]. injection E as -> ->. auto.
Qed.
Definition pt3 (x y z : Z) : coord := Coord (inject_Z x) (inject_Z y) (inject_Z z).
(** A pyramid without links, ids 3, 1, 8, 4 and the base missing. *)
Definition roof : surf :=
  let f a b := SFacet (a, b, pt3 1 1 2) (-1, -1, -1) (-1, -1, -1) in
  u_add (u_add (u_add (u_add u_empty 3 (f (pt3 0 0 0) (pt3 2 0 0))) 1 (f (pt3 2 0 0) (pt3 2 2 0))) 8 (f (pt3 2 2 0) (pt3 0 2 0))) 4 (f (pt3 0 2 0) (pt3 0 0 0)).
Lemma roof_well : well_stored roof.
Proof. repeat (apply well_add; [| |lia]); try apply well_empty; cbn [u_ids u_add u_empty app In]; lia. Qed.
Example C90_case : exists s', connectivity 7 (1 # 10) roof = Ok s' /\ glued s' /\ linked s' 3 1 1 2 /\ linked s' 4 1 3 2 /\ (forall id, In id (u_ids roof) -> free s' id 0).
Proof.
  destruct (pairsb_spec roof (1 # 10)) as [P1 P2]; [vm_compute; reflexivity|]. assert (Hd : exists id k nb l, In id (u_ids roof) /\ In nb (u_ids roof) /\ ~ middle roof id k =v= middle roof nb l) by (exists 3, 0, 1, 0; split; [cbn; auto|]; split; [cbn; auto|]; intros E; apply Qsame_spec in E; vm_compute in E; discriminate).
  destruct (C90_glued 7 (1 # 10) roof ltac:(unfold int_max; lia) ltac:(discriminate) roof_well Hd P1 P2) as (s' & R & G & I & C & L & F). exists s'. split; [exact R|]. split; [exact G|]. split; [apply L; [cbn; auto|cbn; auto|lia|split; apply Qsame_spec; vm_compute; reflexivity]|]. split; [apply L; [cbn; auto|cbn; auto|lia|split; apply Qsame_spec; vm_compute; reflexivity]|].
  intros id Hi. apply F; [exact Hi|]. intros (nb & l & Hn & Ne & O). assert (N : near roof 0 id 0 nb l). { destruct O as [O1 O2]. split; [exact Hn|]. split; [intros [E _]; congruence|]. assert (E : norm2 (vsub (middle roof nb l) (middle roof id 0)) == 0) by (unfold middle; rewrite O1, O2; unfold norm2, dot, vsub, vscale, vadd; cbn [cx cy cz]; ring). rewrite E. discriminate. }
  apply near_partner in N; [|exact Hi]. change (0 mod 3) with 0 in N. destruct Hi as [<-|[<-|[<-|[<-|[]]]]]; vm_compute in N; exact N.
Qed.
(** Edges are compared by their middles only: two facets without a common vertex whose edges cross in the middle become neighbours. *)
Definition crossing : surf := u_add (u_add u_empty 0 (SFacet (pt3 0 0 0, pt3 2 0 0, pt3 0 0 5) (-1, -1, -1) (-1, -1, -1))) 1 (SFacet (pt3 1 (-1) 0, pt3 1 1 0, pt3 1 0 (-5)) (-1, -1, -1) (-1, -1, -1)).
Theorem C90_crossing_refuted : exists n tol s s', 1 <= n <= int_max /\ (0 <= tol)%Q /\ well_stored s /\ connectivity n tol s = Ok s' /\ linked s' 0 0 1 0 /\ forall k l, ~ corner s' 0 k =v= corner s' 1 l.
Proof.
  assert (W : well_stored crossing) by (repeat (apply well_add; [| |lia]); try apply well_empty; cbn [u_ids u_add u_empty app In]; lia).
  assert (Hd : exists id k nb l, In id (u_ids crossing) /\ In nb (u_ids crossing) /\ ~ middle crossing id k =v= middle crossing nb l) by (exists 0, 0, 1, 1; split; [cbn; auto|]; split; [cbn; auto|]; intros E; apply Qsame_spec in E; vm_compute in E; discriminate).
  destruct (C90_connectivity 5 (1 # 10) crossing ltac:(unfold int_max; lia) ltac:(discriminate) W Hd) as (s' & R & I & W' & C & F). exists 5, (1 # 10), crossing, s'. split; [unfold int_max; lia|]. split; [discriminate|]. split; [exact W|]. split; [exact R|]. split.
  - assert (A : forall id nb, (id = 0 /\ nb = 1) \/ (id = 1 /\ nb = 0) -> across s' id 0 = nb /\ apart s' id 0 = 2). { intros id nb H. assert (Hi : In id (u_ids crossing)) by (cbn; lia). destruct (F id 0 Hi) as [[_ X]|(nb' & l' & N & X1 & X2)].
      - exfalso. apply (X nb 0). split; [cbn; lia|]. split; [lia|]. apply Qle_bool_iff. destruct H as [[-> ->]|[-> ->]]; vm_compute; reflexivity.
      - apply near_partner in N; [|exact Hi]. change (0 mod 3) with 0 in N. assert (Y : nb' = nb /\ l' mod 3 = 0) by (destruct H as [[-> ->]|[-> ->]]; change (In (nb', l' mod 3) [(1, 0)]) in N || change (In (nb', l' mod 3) [(0, 0)]) in N; destruct N as [N|[]]; injection N as <- <-; auto). destruct Y as [-> Y]. split; [exact X1|]. rewrite X2. lia. }
    destruct (A 0 1) as [A1 A2]; [auto|]. destruct (A 1 0) as [B1 B2]; [auto|]. unfold linked. rewrite I. split; [cbn; auto|]. split; [lia|]. auto.
  - intros k l. rewrite !C. intros E. apply Qsame_spec in E. destruct (tget_cases k) as [K|[K|K]]; [rewrite (corner_mod crossing 0 k 0) in E by lia|rewrite (corner_mod crossing 0 k 1) in E by lia|rewrite (corner_mod crossing 0 k 2) in E by lia]; (destruct (tget_cases l) as [M|[M|M]]; [rewrite (corner_mod crossing 1 l 0) in E by lia|rewrite (corner_mod crossing 1 l 1) in E by lia|rewrite (corner_mod crossing 1 l 2) in E by lia]; vm_compute in E; discriminate).
Qed.
Print Assumptions C90_crossing_refuted.
