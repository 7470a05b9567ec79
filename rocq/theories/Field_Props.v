(** Properties of fields. *)
From Coq Require Import ZArith QArith List Lia Bool.
From Verif Require Import Prelude ZMap Field_Model Field_Spec Field_Proofs.
Import ListNotations.
Open Scope Z_scope.

(** A new field with [d] unknowns per node, then any calls that succeed: what is found at a place is what would be found
    had only the calls about that place been made. *)
Theorem C111_apart : forall d l f p,
  0 < d -> Forall (proper_call d) l -> proper_place d p ->
  run new_field (SetNbDofs d :: l) = Ok f ->
  exists g, run new_field (SetNbDofs d :: filter (concerns d p) l) = Ok g /\ read d f p = read d g p.
Proof.
  intros d l f p D P Q H.
  exact (run_apart d p l D Q (with_dofs new_field d) (with_dofs new_field d) f eq_refl eq_refl P eq_refl H).
Qed.
Print Assumptions C111_apart.

(** And what was set there last is found there. *)
Theorem C111_latest : forall d l c l' f p x,
  0 < d -> Forall (proper_call d) (l ++ c :: l') -> proper_place d p ->
  about d c = Some p -> sets c = Some x -> Forall (fun c' => about d c' <> Some p) l' ->
  run new_field (SetNbDofs d :: l ++ c :: l') = Ok f -> read d f p = x.
Proof.
  intros d l c l' f p x D P Q A X N H.
  exact (run_latest d (with_dofs new_field d) l c l' f p x D eq_refl P Q A X N H).
Qed.
Print Assumptions C111_latest.

(** nodeHasBC, faceHasBC and hasMaterial tell whether one was ever added. elementHasBC also holds where one was only asked for. *)
Theorem C111_presence : forall l f, run new_field l = Ok f ->
  (forall n, node_has f n = true <-> exists b, In (AddNode n b) l) /\
  (forall n, face_has f n = true <-> exists b, In (AddFace n b) l) /\
  (forall e, has_material f e = true <-> exists m, In (AddMaterial e m) l) /\
  (forall e i, element_has f e i = true <->
     (exists b, In (AddElement e i b) l) \/ In (AskElement e i) l \/ exists t v, In (ConditionElement e i t v) l).
Proof.
  intros l f H. split; [|split; [|split]].
  - intros n. rewrite (run_has _ _ l (fun f c f' => step_node f c f' n) _ _ H). cbn [node_has new_field f_nodes zlookup zempty orb].
    change (node_has new_field n) with false. cbn [orb]. rewrite existsb_exists. split.
    + intros (c & I & E). destruct c; try discriminate. apply Z.eqb_eq in E. subst. now exists b.
    + intros [b I]. exists (AddNode n b). split; [exact I|apply Z.eqb_refl].
  - intros n. rewrite (run_has _ _ l (fun f c f' => step_face f c f' n) _ _ H).
    change (face_has new_field n) with false. cbn [orb]. rewrite existsb_exists. split.
    + intros (c & I & E). destruct c; try discriminate. apply Z.eqb_eq in E. subst. now exists b.
    + intros [b I]. exists (AddFace n b). split; [exact I|apply Z.eqb_refl].
  - intros n. rewrite (run_has _ _ l (fun f c f' => step_material f c f' n) _ _ H).
    change (has_material new_field n) with false. cbn [orb]. rewrite existsb_exists. split.
    + intros (c & I & E). destruct c; try discriminate. apply Z.eqb_eq in E. subst. now exists m.
    + intros [b I]. exists (AddMaterial n b). split; [exact I|apply Z.eqb_refl].
  - intros e i. rewrite (run_has _ _ l (fun f c f' => step_side f c f' e i) _ _ H).
    change (element_has new_field e i) with false. cbn [orb]. rewrite existsb_exists. split.
    + intros (c & I & E). destruct c; try discriminate; apply andb_true_iff in E as [E1 E2];
        apply Z.eqb_eq in E1; apply Z.eqb_eq in E2; subst; eauto.
    + intros [[b I]|[I|(t & v & I)]]; eexists; (split; [exact I|]); cbn; now rewrite !Z.eqb_refl.
Qed.
Print Assumptions C111_presence.

(** A sequence of calls throws exactly when, after calls that succeed, the condition of a node or a face, or the material
    of an element, is asked for and none was added before. *)
Theorem C111_throws : forall l,
  run new_field l = Throw <->
  exists l1 c l2 f, l = l1 ++ c :: l2 /\ run new_field l1 = Ok f /\
    match c with
    | AskNode n | ConditionNode n _ _ => ~ exists b, In (AddNode n b) l1
    | AskFace n | ConditionFace n _ _ => ~ exists b, In (AddFace n b) l1
    | AskMaterial e => ~ exists m, In (AddMaterial e m) l1
    | _ => False
    end.
Proof.
  assert (S : forall l1 c f, run new_field l1 = Ok f -> (step f c = Throw <->
    match c with
    | AskNode n | ConditionNode n _ _ => ~ exists b, In (AddNode n b) l1
    | AskFace n | ConditionFace n _ _ => ~ exists b, In (AddFace n b) l1
    | AskMaterial e => ~ exists m, In (AddMaterial e m) l1
    | _ => False
    end)).
  { intros l1 c f H. destruct (C111_presence l1 f H) as (N & F & M & _).
    destruct c; cbn [step]; try (split; [discriminate|contradiction]).
    - unfold resized. split; [|contradiction]. destruct (n <? 0); [discriminate|]. destruct (n =? zlen (f_u f)); discriminate.
    - unfold written, vec_get. split; [|contradiction]. destruct (i <? 0); [discriminate|].
      destruct (nth_error _ _); discriminate.
    - rewrite <- M. unfold has_material, zat. destruct (zlookup _ _); cbn [bind]; split; congruence.
    - rewrite <- N. unfold node_has, zat. destruct (zlookup _ _); cbn [bind]; split; congruence.
    - rewrite <- F. unfold face_has, zat. destruct (zlookup _ _); cbn [bind]; split; congruence.
    - rewrite <- N. unfold node_has, zat. destruct (zlookup _ _); cbn [bind]; split; congruence.
    - rewrite <- F. unfold face_has, zat. destruct (zlookup _ _); cbn [bind]; split; congruence. }
  assert (T : forall l l0 f0, run new_field l0 = Ok f0 -> run f0 l = Throw ->
    exists l1 c l2 f, l = l1 ++ c :: l2 /\ run new_field (l0 ++ l1) = Ok f /\ step f c = Throw).
  { induction l as [|c l IH]; intros l0 f0 H0 H; [discriminate|].
    unfold run in H. cbn [foldM] in H. destruct (step f0 c) as [f1| |] eqn:E; cbn [bind] in H; try discriminate.
    - destruct (IH (l0 ++ [c]) f1) as (l1 & c' & l2 & f & -> & R & Th).
      + rewrite run_app, H0. cbn [bind]. unfold run. cbn [foldM]. now rewrite E.
      + exact H.
      + exists (c :: l1), c', l2, f. split; [reflexivity|]. split; [|exact Th]. now rewrite <- app_assoc in R.
    - exists [], c, l, f0. rewrite app_nil_r. now split. }
  intros l. split.
  - intros H. destruct (T l [] new_field eq_refl H) as (l1 & c & l2 & f & -> & R & Th).
    exists l1, c, l2, f. split; [reflexivity|]. split; [exact R|]. now apply (S l1 c f R).
  - intros (l1 & c & l2 & f & -> & R & C). apply (S l1 c f R) in C.
    rewrite run_app, R. cbn [bind]. unfold run. cbn [foldM]. now rewrite C.
Qed.
Print Assumptions C111_throws.

(** A value of the solution stays until it is set again or the size is changed. *)
Theorem C111_values : forall l i v l' f g,
  run new_field (l ++ [SetValue i v]) = Ok g -> Forall (leaves (zlen (f_u g)) i) l' ->
  run new_field (l ++ SetValue i v :: l') = Ok f -> value f i = Ok v.
Proof.
  intros l i v l' f g G N H.
  replace (l ++ SetValue i v :: l') with ((l ++ [SetValue i v]) ++ l') in H by now rewrite <- app_assoc.
  rewrite run_app, G in H. cbn [bind] in H.
  rewrite (run_value _ i l' g f eq_refl N H).
  rewrite run_app in G. unfold bind in G. destruct (run new_field l) as [h| |]; try discriminate.
  unfold run in G. cbn [foldM step] in G. destruct (written (f_u h) i v) as [u| |] eqn:W; cbn [bind] in G; try discriminate.
  injection G as <-. unfold value. cbn [with_u f_u]. rewrite (written_get _ _ _ _ i W), Z.eqb_refl. reflexivity.
Qed.
Print Assumptions C111_values.

(** Adding a value to a condition, after any calls, keeps its kind and its other values and replaces that value. The
    condition of a side of an element that has none yet is one of kind 0 (BT_GENERIC_FIXED_VALUE), all of whose values are 0. *)
Theorem C111_added : forall l c f g, run new_field l = Ok f -> run new_field (l ++ [c]) = Ok g ->
  let added (b b' : cond) (t : Z) (v : Q) :=
    c_type b' = c_type b /\ forall t', fst (condition_value b' t') = if t' =? t then v else fst (condition_value b t') in
  match c with
  | ConditionNode n t v => exists b b', zlookup n (f_nodes f) = Some b /\ zlookup n (f_nodes g) = Some b' /\ added b b' t v
  | ConditionFace n t v => exists b b', zlookup n (f_faces f) = Some b /\ zlookup n (f_faces g) = Some b' /\ added b b' t v
  | ConditionElement e i t v => exists b b', plookup (e, i) (f_elements g) = Some b' /\ added b b' t v /\
      match plookup (e, i) (f_elements f) with
      | Some b0 => b = b0
      | None => c_type b = 0 /\ forall t', fst (condition_value b t') = 0%Q
      end
  | _ => True
  end.
Proof.
  intros l c f g H1 H2. rewrite run_app, H1 in H2. cbn [bind] in H2. unfold run in H2. cbn [foldM] in H2.
  assert (A : forall b t v, c_type (add_condition b t v) = c_type b /\
    forall t', fst (condition_value (add_condition b t v) t') = if t' =? t then v else fst (condition_value b t')).
  { intros b t v. split; [reflexivity|]. intros t'. unfold condition_value, add_condition at 1. cbn [c_values].
    destruct (Z.eqb_spec t' t) as [->|N]; [now rewrite zlookup_insert_eq|].
    rewrite zlookup_insert_ne by congruence. now destruct (zlookup t' (c_values b)). }
  destruct c; try exact I; cbn [step] in H2; cbn zeta.
  - unfold zat in H2. destruct (zlookup n (f_nodes f)) as [b|] eqn:E; cbn [bind] in H2; [|discriminate].
    exists b, (add_condition b t v). split; [reflexivity|]. split; [|apply A].
    assert (G : g = with_nodes f (zinsert n (add_condition b t v) (f_nodes f))) by congruence. subst g. cbn [with_nodes f_nodes]. apply zlookup_insert_eq.
  - unfold zat in H2. destruct (zlookup n (f_faces f)) as [b|] eqn:E; cbn [bind] in H2; [|discriminate].
    exists b, (add_condition b t v). split; [reflexivity|]. split; [|apply A].
    assert (G : g = with_faces f (zinsert n (add_condition b t v) (f_faces f))) by congruence. subst g. cbn [with_faces f_faces]. apply zlookup_insert_eq.
  - cbn [bind] in H2. set (b := fst (element_bc f e i)) in *.
    assert (G : g = with_elements f (pinsert (e, i) (add_condition b t v) (f_elements f))) by congruence.
    exists b, (add_condition b t v). split; [|split; [apply A|]].
    + subst g. cbn [with_elements f_elements]. rewrite plookup_pinsert. cbn [fst snd]. now rewrite !Z.eqb_refl.
    + unfold b, element_bc. destruct (plookup (e, i) (f_elements f)); [reflexivity|]. split; [reflexivity|]. intros t'. reflexivity.
Qed.
Print Assumptions C111_added.

(** Two unknowns per node: the second of node 4 fixed twice, the first of node 5 once, by its own number; a convective
    condition on side 1 of element 7 with a coefficient given later. *)
Definition calls_ex : list call :=
  [SetFixedDof 4 1 (3#1); SetFixed 10 (8#1); AddElement 7 1 (Cond 3 zempty); SetFixedDof 4 1 (5#1); SetSourceDof 4 1 (2#1);
   ConditionElement 7 1 2 (9#1); SetSize 4; SetValue 3 (6#1); AddNode 2 default_cond; AskNode 2].

Example C111_case :
  0 < 2 /\ Forall (proper_call 2) calls_ex /\ proper_place 2 (FixedAt 4 1) /\
  exists f, run new_field (SetNbDofs 2 :: calls_ex) = Ok f /\
    read 2 f (FixedAt 4 1) = Number (5#1) /\ read 2 f (FixedAt 5 0) = Number (8#1) /\ read 2 f (FixedAt 4 0) = Nothing /\
    read 2 f (SideAt 7 1) = Condition (Cond 3 [(2, 9#1)]) /\ value f 3 = Ok (6#1) /\ node_has f 2 = true /\ node_has f 3 = false.
Proof.
  split; [lia|]. split; [repeat constructor; lia|]. split; [cbn; lia|].
  eexists. split; [reflexivity|]. repeat (split; [reflexivity|]). reflexivity.
Qed.

(** Before setNbDofs a field has 0 unknowns per node, and the fixed values of all nodes go to one place: fixing node 1
    replaces what was fixed at node 0. Likewise an unknown beyond the number of unknowns: with one per node, fixing
    unknown 1 of node 0 fixes node 1. *)
Theorem C111_dofs_refuted :
  (exists f, run new_field [SetFixedDof 0 0 (3#1); SetFixedDof 1 0 (5#1); SetNbDofs 1] = Ok f /\
     read 1 f (FixedAt 0 0) = Number (5#1) /\ read 1 f (FixedAt 1 0) = Nothing) /\
  (exists f, run new_field [SetNbDofs 1; SetFixedDof 1 0 (3#1); SetFixedDof 0 1 (5#1)] = Ok f /\
     read 1 f (FixedAt 1 0) = Number (5#1)).
Proof. split; eexists; (split; [reflexivity|]); [split|]; reflexivity. Qed.
Print Assumptions C111_dofs_refuted.

(** Asking for the condition of a side without one does not throw, as it does for nodes and faces: it creates a condition of
    fixed value there, and elementHasBC holds from then on. Asking a condition for a value it was not given answers 0, and
    is given from then on. *)
Theorem C111_asking_refuted :
  (exists f, run new_field [AskElement 7 1] = Ok f /\ element_has new_field 7 1 = false /\ element_has f 7 1 = true /\
     fst (element_bc f 7 1) = default_cond) /\
  run new_field [AskNode 7] = Throw /\
  (exists b, zlookup 2 (c_values default_cond) = None /\ condition_value default_cond 2 = (0%Q, b) /\ zlookup 2 (c_values b) = Some 0%Q).
Proof.
  split; [|split; [reflexivity|]].
  - eexists. split; [reflexivity|]. repeat (split; [reflexivity|]). reflexivity.
  - eexists. repeat (split; [reflexivity|]). reflexivity.
Qed.
Print Assumptions C111_asking_refuted.

(** Changing the size loses all values, also when it grows: reading one set before is reading uninitialised memory. *)
Theorem C111_size_refuted :
  exists f g, run new_field [SetSize 2; SetValue 0 (5#1)] = Ok f /\ value f 0 = Ok (5#1) /\
    run f [SetSize 3] = Ok g /\ value g 0 = UB.
Proof. eexists. eexists. repeat (split; [reflexivity|]). reflexivity. Qed.
Print Assumptions C111_size_refuted.
