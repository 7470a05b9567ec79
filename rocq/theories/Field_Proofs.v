(** Proofs about fields. *)
From Coq Require Import ZArith QArith List Lia Bool.
From Verif Require Import Prelude ZMap Field_Model Field_Spec.
Import ListNotations.
Open Scope Z_scope.

Lemma plookup_pinsert {A} (m : pmap A) k k' v :
  plookup k' (pinsert k v m) = if (fst k' =? fst k) && (snd k' =? snd k) then Some v else plookup k' m.
Proof.
  destruct k as [a b], k' as [a' b']. cbn [fst snd].
  induction m as [|[[x y] w] m IH]; cbn [pinsert plookup fst snd]; [reflexivity|].
  destruct (Z.eqb_spec a x), (Z.eqb_spec b y); cbn [andb plookup fst snd]; subst;
    try rewrite IH;
    repeat match goal with |- context [?u =? ?w] => destruct (Z.eqb_spec u w); subst; cbn [andb] end;
    try reflexivity; try lia.
Qed.

Lemma number_inj d i j i' j' : 0 <= j < d -> 0 <= j' < d -> i * d + j = i' * d + j' -> i = i' /\ j = j'.
Proof.
  intros H H' E. assert (i = i') by nia.
  subst. lia.
Qed.

Lemma number_split d k : 0 < d -> k / d * d + k mod d = k.
Proof. intros. rewrite Z.mul_comm. symmetry. apply Z.div_mod. lia. Qed.

Lemma dofs_kept d f c f' : proper_call d c -> step f c = Ok f' -> f_dofs f' = f_dofs f.
Proof.
  destruct c; cbn; intros P H; try contradiction;
    try (injection H as <-; reflexivity).
  - unfold bind in H. destruct (resized _ _); try discriminate. now injection H as <-.
  - unfold bind in H. destruct (written _ _ _); try discriminate. now injection H as <-.
  - unfold bind in H. destruct (zat _ _); try discriminate. now injection H as <-.
  - unfold bind in H. destruct (zat _ _); try discriminate. now injection H as <-.
  - unfold bind in H. destruct (zat _ _); try discriminate. now injection H as <-.
  - injection H as <-. unfold element_bc. destruct (plookup _ _); reflexivity.
  - unfold bind in H. destruct (zat _ _); try discriminate. now injection H as <-.
  - unfold bind in H. destruct (zat _ _); try discriminate. now injection H as <-.
Qed.

Ltac outc H :=
  unfold bind in H;
  repeat match type of H with
  | (match ?x with _ => _ end) = Ok _ => destruct x eqn:?; try discriminate H
  end; injection H as <-.

Lemma step_other d f c f' p :
  0 < d -> f_dofs f = d -> proper_call d c -> proper_place d p -> concerns d p c = false -> step f c = Ok f' ->
  read d f' p = read d f p.
Proof.
  intros D F P Q N H. unfold concerns in N.
  destruct c; cbn [about step proper_call] in *; try contradiction; rewrite ?F in *; outc H;
    destruct p; try reflexivity; cbn [read with_fixed with_source with_materials with_nodes with_faces f_fixed f_source
      f_materials f_nodes f_faces f_elements with_elements proper_place] in *;
    try (destruct (place_eq _ _) as [|Ne]; [discriminate|]);
    rewrite ?zlookup_insert.
  - destruct (Z.eqb_spec (i0 * d + j) i); [|reflexivity]. destruct Ne. subst.
    rewrite Z.div_add_l, Z.div_small, Z.add_0_r by lia. now rewrite Z.add_comm, Z.mod_add, Z.mod_small by lia.
  - destruct (Z.eqb_spec (i0 * d + j0) (i * d + j)); [|reflexivity]. destruct Ne.
    now destruct (number_inj d i0 j0 i j) as [-> ->].
  - destruct (Z.eqb_spec (i0 * d + j) i); [|reflexivity]. destruct Ne. subst.
    rewrite Z.div_add_l, Z.div_small, Z.add_0_r by lia. now rewrite Z.add_comm, Z.mod_add, Z.mod_small by lia.
  - destruct (Z.eqb_spec (i0 * d + j0) (i * d + j)); [|reflexivity]. destruct Ne.
    now destruct (number_inj d i0 j0 i j) as [-> ->].
  - destruct (Z.eqb_spec e0 e); [subst; now destruct Ne|reflexivity].
  - destruct (Z.eqb_spec n0 n); [subst; now destruct Ne|reflexivity].
  - destruct (Z.eqb_spec n0 n); [subst; now destruct Ne|reflexivity].
  - rewrite plookup_pinsert. cbn [fst snd].
    destruct (Z.eqb_spec e0 e), (Z.eqb_spec i0 i); try reflexivity. subst. now destruct Ne.
  - unfold element_bc. destruct (plookup (e, i) _); reflexivity.
  - unfold element_bc. destruct (plookup (e, i) _); reflexivity.
  - unfold element_bc. destruct (plookup (e, i) _); reflexivity.
  - unfold element_bc. destruct (plookup (e, i) _); reflexivity.
  - unfold element_bc. destruct (plookup (e, i) _); [reflexivity|]. cbn [snd with_elements f_elements].
    rewrite plookup_pinsert. cbn [fst snd].
    destruct (Z.eqb_spec e0 e), (Z.eqb_spec i0 i); try reflexivity. subst. now destruct Ne.
  - unfold element_bc. destruct (plookup (e, i) _); reflexivity.
  - destruct (Z.eqb_spec n0 n); [subst; now destruct Ne|reflexivity].
  - destruct (Z.eqb_spec n0 n); [subst; now destruct Ne|reflexivity].
  - rewrite plookup_pinsert. cbn [fst snd].
    destruct (Z.eqb_spec e0 e), (Z.eqb_spec i0 i); try reflexivity. subst. now destruct Ne.
Qed.

Lemma step_sets d f c f' p x :
  0 < d -> f_dofs f = d -> about d c = Some p -> sets c = Some x -> step f c = Ok f' -> read d f' p = x.
Proof.
  intros D F A S H. destruct c; cbn [about sets step] in *; try discriminate; rewrite ?F in *;
    injection A as <-; injection S as <-; injection H as <-;
    cbn [read with_fixed with_source with_materials with_nodes with_faces f_fixed f_source
      f_materials f_nodes f_faces f_elements with_elements];
    rewrite ?number_split by exact D; rewrite ?zlookup_insert_eq; try reflexivity.
  rewrite plookup_pinsert. cbn [fst snd]. now rewrite !Z.eqb_refl.
Qed.

Lemma seen_inj {A} (k : A -> found) x y :
  (forall a b, k a = k b -> a = b) -> (forall a, k a <> Nothing) -> seen k x = seen k y -> x = y.
Proof.
  intros I N. destruct x, y; cbn; intros E; [f_equal; now apply I|now apply N in E|now symmetry in E; apply N in E|reflexivity].
Qed.

(** A call about a place does the same there in two fields that agree there. *)
Lemma step_same d f g c f' p :
  0 < d -> f_dofs f = d -> f_dofs g = d -> concerns d p c = true -> read d f p = read d g p -> step f c = Ok f' ->
  exists g', step g c = Ok g' /\ f_dofs g' = d /\ read d f' p = read d g' p.
Proof.
  intros D F G C E H.
  unfold concerns in C. destruct (about d c) as [q|] eqn:A; [|discriminate].
  destruct (place_eq p q) as [->|]; [|discriminate].
  destruct (sets c) as [x|] eqn:S.
  - assert (exists g', step g c = Ok g' /\ f_dofs g' = d) as (g' & Hg & Dg).
    { destruct c; cbn [sets step] in *; try discriminate; eexists; (split; [reflexivity|exact G]). }
    exists g'. split; [exact Hg|]. split; [exact Dg|].
    rewrite (step_sets d f c f' q x), (step_sets d g c g' q x); auto.
  - destruct c; cbn [about sets] in *; try discriminate; injection A as <-; cbn [step read] in *.
    1,2,3: apply seen_inj in E; [|intros ? ? Q; now injection Q as ->|discriminate];
      unfold zat in *; rewrite <- E;
      match type of H with context [zlookup ?a ?b] => destruct (zlookup a b) eqn:L end;
      cbn in H |- *; try discriminate; injection H as <-; exists g; rewrite L, <- E; auto.
    + injection H as <-. apply seen_inj in E; [|intros ? ? Q; now injection Q as ->|discriminate].
      eexists. split; [reflexivity|]. unfold element_bc. rewrite <- E.
      destruct (plookup (e, i) (f_elements f)) eqn:L; cbn [snd]; split; auto; [now rewrite L, <- E|].
      cbn [with_elements f_elements]. rewrite !plookup_pinsert. cbn [fst snd]. now rewrite !Z.eqb_refl.
    + apply seen_inj in E; [|intros ? ? Q; now injection Q as ->|discriminate].
      unfold zat in *. rewrite <- E. destruct (zlookup n (f_nodes f)) eqn:L; cbn in H |- *; try discriminate.
      injection H as <-. eexists. split; [reflexivity|]. split; [exact G|].
      cbn [with_nodes f_nodes]. now rewrite !zlookup_insert_eq.
    + apply seen_inj in E; [|intros ? ? Q; now injection Q as ->|discriminate].
      unfold zat in *. rewrite <- E. destruct (zlookup n (f_faces f)) eqn:L; cbn in H |- *; try discriminate.
      injection H as <-. eexists. split; [reflexivity|]. split; [exact G|].
      cbn [with_faces f_faces]. now rewrite !zlookup_insert_eq.
    + apply seen_inj in E; [|intros ? ? Q; now injection Q as ->|discriminate].
      injection H as <-. eexists. split; [reflexivity|]. split; [exact G|].
      cbn [with_elements f_elements]. rewrite !plookup_pinsert. cbn [fst snd]. rewrite !Z.eqb_refl. cbn [andb seen].
      unfold element_bc. rewrite <- E. now destruct (plookup (e, i) (f_elements f)).
Qed.

Lemma run_apart d p l : 0 < d -> proper_place d p -> forall f g f',
  f_dofs f = d -> f_dofs g = d -> Forall (proper_call d) l -> read d f p = read d g p -> run f l = Ok f' ->
  exists g', run g (filter (concerns d p) l) = Ok g' /\ read d f' p = read d g' p.
Proof.
  intros D Q. induction l as [|c l IH]; intros f g f' F G P E H.
  - injection H as <-. exists g. now split.
  - inversion P as [|? ? Pc Pl]; subst. unfold run in H. cbn [foldM] in H. unfold bind in H.
    destruct (step f c) as [f1| |] eqn:S1; try discriminate.
    pose proof (dofs_kept _ _ _ _ Pc S1) as K.
    cbn [filter]. destruct (concerns (f_dofs f) p c) eqn:C.
    + destruct (step_same _ f g c f1 p D eq_refl G C E S1) as (g1 & Sg & Dg & E1).
      destruct (IH f1 g1 f' K Dg Pl E1 H) as (g' & R & E'). exists g'.
      unfold run in *. cbn [foldM]. rewrite Sg. cbn [bind]. now split.
    + apply (IH f1 g f' K G Pl); [|exact H].
      rewrite (step_other _ f c f1 p D eq_refl Pc Q C S1). exact E.
Qed.

Lemma run_app f l l' : run f (l ++ l') = (g <- run f l ;; run g l').
Proof.
  unfold run. revert f. induction l as [|c l IH]; intros f; [reflexivity|].
  cbn [app foldM]. destruct (step f c); cbn [bind]; [apply IH|reflexivity|reflexivity].
Qed.

Lemma run_dofs d l : forall f f', f_dofs f = d -> Forall (proper_call d) l -> run f l = Ok f' -> f_dofs f' = d.
Proof.
  induction l as [|c l IH]; intros f f' F P H; [now injection H as <-|].
  inversion P; subst. unfold run in H. cbn [foldM] in H. unfold bind in H.
  destruct (step f c) eqn:S1; try discriminate. eapply IH; [|eassumption|exact H].
  now apply dofs_kept with (f_dofs f) c.
Qed.

Lemma run_latest d f l c l' f' p x :
  0 < d -> f_dofs f = d -> Forall (proper_call d) (l ++ c :: l') -> proper_place d p ->
  about d c = Some p -> sets c = Some x -> Forall (fun c' => about d c' <> Some p) l' ->
  run f (l ++ c :: l') = Ok f' -> read d f' p = x.
Proof.
  intros D F P Q A X N H. rewrite run_app in H. unfold bind in H.
  destruct (run f l) as [f1| |] eqn:R1; try discriminate.
  apply Forall_app in P as [P1 P2]. inversion P2 as [|? ? Pc Pl]; subst.
  pose proof (run_dofs _ _ _ _ eq_refl P1 R1) as F1.
  unfold run in H. cbn [foldM] in H. unfold bind in H.
  destruct (step f1 c) as [f2| |] eqn:S1; try discriminate.
  pose proof (dofs_kept _ _ _ _ Pc S1) as F2. rewrite F1 in F2.
  pose proof (step_sets _ f1 c f2 p x D F1 A X S1) as E.
  destruct (run_apart _ p l' D Q f2 f2 f' F2 F2 Pl eq_refl H) as (g & Hg & ->).
  replace (filter (concerns (f_dofs f) p) l') with (@nil call) in Hg; [injection Hg as <-; exact E|].
  clear - N. induction N as [|c' l' Hc N IH]; [reflexivity|]. cbn [filter].
  unfold concerns at 1. destruct (about (f_dofs f) c') as [q|]; [|exact IH].
  destruct (place_eq p q) as [->|]; [now destruct Hc|exact IH].
Qed.

(** ** Presence *)
Lemma step_node f c f' n : step f c = Ok f' -> node_has f' n = node_has f n || match c with AddNode m _ => m =? n | _ => false end.
Proof.
  unfold node_has. intros H. destruct c; cbn [step] in H; outc H; cbn [with_nodes f_nodes with_u with_dofs with_fixed with_source with_materials with_faces with_elements];
    rewrite ?orb_false_r; try reflexivity.
  - rewrite zlookup_insert, Z.eqb_sym. destruct (n0 =? n); [now rewrite orb_true_r|now rewrite orb_false_r].
  - unfold element_bc. now destruct (plookup _ _).
  - rewrite zlookup_insert. destruct (Z.eqb_spec n n0) as [->|]; [|reflexivity].
    unfold zat in *. now destruct (zlookup n0 (f_nodes f)).
Qed.

Lemma step_face f c f' n : step f c = Ok f' -> face_has f' n = face_has f n || match c with AddFace m _ => m =? n | _ => false end.
Proof.
  unfold face_has. intros H. destruct c; cbn [step] in H; outc H; cbn [with_nodes f_faces with_u with_dofs with_fixed with_source with_materials with_faces with_elements];
    rewrite ?orb_false_r; try reflexivity.
  - rewrite zlookup_insert, Z.eqb_sym. destruct (n0 =? n); [now rewrite orb_true_r|now rewrite orb_false_r].
  - unfold element_bc. now destruct (plookup _ _).
  - rewrite zlookup_insert. destruct (Z.eqb_spec n n0) as [->|]; [|reflexivity].
    unfold zat in *. now destruct (zlookup n0 (f_faces f)).
Qed.

Lemma step_material f c f' n : step f c = Ok f' -> has_material f' n = has_material f n || match c with AddMaterial m _ => m =? n | _ => false end.
Proof.
  unfold has_material. intros H. destruct c; cbn [step] in H; outc H; cbn [with_nodes f_materials with_u with_dofs with_fixed with_source with_materials with_faces with_elements];
    rewrite ?orb_false_r; try reflexivity.
  - rewrite zlookup_insert, Z.eqb_sym. destruct (e =? n); [now rewrite orb_true_r|now rewrite orb_false_r].
  - unfold element_bc. now destruct (plookup _ _).
Qed.

Lemma step_side f c f' e i : step f c = Ok f' -> element_has f' e i = element_has f e i ||
  match c with AddElement e' i' _ | AskElement e' i' | ConditionElement e' i' _ _ => (e =? e') && (i =? i') | _ => false end.
Proof.
  unfold element_has. intros H. destruct c; cbn [step] in H; outc H; cbn [with_nodes f_elements with_u with_dofs with_fixed with_source with_materials with_faces with_elements];
    rewrite ?orb_false_r; try reflexivity.
  - rewrite plookup_pinsert. cbn [fst snd]. destruct ((e =? e0) && (i =? i0)); [now rewrite orb_true_r|now rewrite orb_false_r].
  - unfold element_bc. destruct (plookup (e0, i0) (f_elements f)) eqn:L; cbn [snd].
    + destruct (Z.eqb_spec e e0), (Z.eqb_spec i i0); cbn [andb]; rewrite ?orb_false_r; try reflexivity.
      subst. now rewrite L.
    + cbn [with_elements f_elements]. rewrite plookup_pinsert. cbn [fst snd].
      destruct ((e =? e0) && (i =? i0)); [now rewrite orb_true_r|now rewrite orb_false_r].
  - rewrite plookup_pinsert. cbn [fst snd]. destruct ((e =? e0) && (i =? i0)); [now rewrite orb_true_r|now rewrite orb_false_r].
Qed.

Lemma run_has (has : field -> bool) (q : call -> bool) l :
  (forall f c f', step f c = Ok f' -> has f' = has f || q c) ->
  forall f f', run f l = Ok f' -> has f' = has f || existsb q l.
Proof.
  intros K. induction l as [|c l IH]; intros f f' H.
  - injection H as <-. cbn. now rewrite orb_false_r.
  - unfold run in H. cbn [foldM] in H. unfold bind in H. destruct (step f c) as [f1| |] eqn:S1; try discriminate.
    rewrite (IH f1 f' H), (K _ _ _ S1). cbn [existsb]. now rewrite orb_assoc.
Qed.

(** ** Values of the solution *)
Lemma written_length u i v u' : written u i v = Ok u' -> length u' = length u.
Proof.
  unfold written, vec_get. intros H. destruct (Z.ltb_spec i 0); [discriminate|].
  destruct (nth_error u (Z.to_nat i)) eqn:E; [|discriminate].
  assert (u' = firstn (Z.to_nat i) u ++ Some v :: skipn (S (Z.to_nat i)) u) as -> by (cbn [bind] in H; congruence). clear H.
  assert (Z.to_nat i < length u)%nat by (apply nth_error_Some; congruence).
  rewrite app_length, firstn_length.
  match goal with |- context [length (?a :: ?l)] => change (length (a :: l)) with (S (length l)) end.
  rewrite skipn_length. lia.
Qed.

Lemma written_get u i v u' k : written u i v = Ok u' -> vec_get u' k = if k =? i then Ok (Some v) else vec_get u k.
Proof.
  unfold written, vec_get. intros H. destruct (Z.ltb_spec i 0); [discriminate|].
  destruct (nth_error u (Z.to_nat i)) eqn:E; [|discriminate].
  assert (u' = firstn (Z.to_nat i) u ++ Some v :: skipn (S (Z.to_nat i)) u) as -> by (cbn [bind] in H; congruence). clear H.
  assert (L : (Z.to_nat i < length u)%nat) by (apply nth_error_Some; congruence).
  destruct (Z.ltb_spec k 0); [destruct (Z.eqb_spec k i); [lia|reflexivity]|].
  destruct (Z.eqb_spec k i) as [->|Ne].
  - rewrite nth_error_app2; rewrite firstn_length_le by lia; [|lia]. now rewrite Nat.sub_diag.
  - assert (Z.to_nat k <> Z.to_nat i) by lia.
    destruct (lt_dec (Z.to_nat k) (Z.to_nat i)) as [Lk|Lk].
    + rewrite nth_error_app1 by (rewrite firstn_length_le; lia).
      rewrite <- (firstn_skipn (Z.to_nat i) u) at 2. now rewrite nth_error_app1 by (rewrite firstn_length_le; lia).
    + rewrite nth_error_app2; rewrite firstn_length_le by lia; [|lia].
      replace (Z.to_nat k - Z.to_nat i)%nat with (S (Z.to_nat k - Z.to_nat i - 1)) by lia. cbn [nth_error].
      rewrite <- (firstn_skipn (S (Z.to_nat i)) u) at 2.
      rewrite nth_error_app2; rewrite firstn_length_le by lia; [|lia].
      now replace (Z.to_nat k - S (Z.to_nat i))%nat with (Z.to_nat k - Z.to_nat i - 1)%nat by lia.
Qed.

Lemma step_value f c f' i : leaves (zlen (f_u f)) i c -> step f c = Ok f' ->
  value f' i = value f i /\ zlen (f_u f') = zlen (f_u f).
Proof.
  intros V H. unfold value.
  destruct c; cbn [step leaves] in *; outc H; cbn [with_nodes f_u with_u with_dofs with_fixed with_source with_materials with_faces with_elements]; auto.
  - unfold resized in *. subst. rewrite Z.eqb_refl in *. destruct (zlen (f_u f) <? 0); [discriminate|].
    match goal with E : Ok _ = Ok _ |- _ => injection E as <- end. now split.
  - split; [|unfold zlen; f_equal; eapply written_length; eassumption].
    erewrite (written_get _ _ _ _ i) by eassumption. destruct (Z.eqb_spec i i0); [congruence|reflexivity].
  - unfold element_bc. now destruct (plookup _ _).
Qed.

Lemma run_value n i l : forall f f', zlen (f_u f) = n -> Forall (leaves n i) l -> run f l = Ok f' -> value f' i = value f i.
Proof.
  induction l as [|c l IH]; intros f f' L V H; [now injection H as <-|].
  inversion V; subst. unfold run in H. cbn [foldM] in H. unfold bind in H.
  destruct (step f c) as [f1| |] eqn:S1; try discriminate.
  destruct (step_value f c f1 i) as [E L1]; auto.
  rewrite (IH f1 f' L1); auto.
Qed.
