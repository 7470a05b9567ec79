(** C83, C84, C85: mesh queries, extrusion, mesh checks. *)
From Coq Require Import ZArith List Bool QArith Lia Lqa Sorted Permutation.
From Verif Require Import Prelude Vec ZMap Mesh_Model Mesh_Spec Mesh_Proofs Face_Model Face_Spec Face_Proofs Face_Props Grid_Model Poly_Model Query_Model.
Import ListNotations.
Open Scope Z_scope.

(** ** C83 *)
(** The ids of the elements that have [n] among their nodes, in the order of the mesh. *)
Definition users (elems : table element) (n : Z) : list Z :=
  filter (fun el => match t_get elems el with Ok e => existsb (Z.eqb n) (e_nodes e) | _ => false end) (t_ids elems).

Lemma existsb_In (l : list Z) x : existsb (Z.eqb x) l = true <-> In x l.
Proof. rewrite existsb_exists. split; [intros (y & I & E); apply Z.eqb_eq in E; now subst|intros I; exists x; split; [exact I|apply Z.eqb_refl]]. Qed.
Lemma existsb_notIn (l : list Z) x : existsb (Z.eqb x) l = false <-> ~ In x l.
Proof. rewrite <- existsb_In. destruct (existsb (Z.eqb x) l); split; congruence. Qed.

Lemma note_nodes el : forall ns q n, ~ In el (q n) \/ In el (q n) ->
  fold_left (note_node el) ns q n = if existsb (Z.eqb n) ns && negb (existsb (Z.eqb el) (q n)) then q n ++ [el] else q n.
Proof.
  induction ns as [|x ns IH]; intros q n D; [reflexivity|]. cbn [fold_left existsb].
  rewrite IH by (unfold note_node; destruct (existsb (Z.eqb el) (q x)); [exact D|]; destruct (n =? x); [|exact D]; destruct (in_dec Z.eq_dec el (q x ++ [el])); auto).
  unfold note_node. destruct (existsb (Z.eqb el) (q x)) eqn:Ex.
  - destruct (Z.eqb_spec n x) as [->|Hne]; cbn [orb]; [rewrite Ex, andb_false_r; reflexivity|reflexivity].
  - destruct (Z.eqb_spec n x) as [->|Hne]; cbn [orb]; [|reflexivity].
    rewrite Ex. cbn [negb andb]. assert (Y : existsb (Z.eqb el) (q x ++ [el]) = true) by (apply existsb_In, in_or_app; right; now left).
    rewrite Y, andb_false_r. reflexivity.
Qed.

Lemma query_of_ok elems : wf_table elems -> exists q, query_of elems = Ok q /\ forall n, q n = users elems n.
Proof.
  intros W. unfold query_of.
  destruct (foldM_invariant (fun q el => e <- t_get elems el ;; Ok (fold_left (note_node el) (e_nodes e) q))
    (fun done q => forall n, q n = filter (fun el => match t_get elems el with Ok e => existsb (Z.eqb n) (e_nodes e) | _ => false end) done) (t_ids elems) (fun _ => []))
    as (q & E & H).
  - reflexivity.
  - intros done el rest q Ed H. destruct (wf_get elems el W) as (e & Ee); [rewrite Ed; apply in_or_app; right; now left|].
    rewrite Ee. cbn [bind]. eexists. split; [reflexivity|]. intros n. rewrite note_nodes by (destruct (in_dec Z.eq_dec el (q n)); auto).
    rewrite filter_app. cbn [filter]. rewrite Ee, H.
    assert (F : existsb (Z.eqb el) (filter (fun el0 => match t_get elems el0 with Ok e0 => existsb (Z.eqb n) (e_nodes e0) | _ => false end) done) = false).
    { apply existsb_notIn. intros I. apply filter_In in I. destruct I as (I & _). destruct W as (N & _). rewrite Ed in N. apply NoDup_remove_2 in N. apply N, in_or_app. now left. }
    rewrite F. cbn [negb]. rewrite andb_true_r. destruct (existsb (Z.eqb n) (e_nodes e)); [reflexivity|now rewrite app_nil_r].
  - exists q. split; [exact E|]. exact H.
Qed.

(** Elements sharing a node: exactly those that have it, each once, also if an element repeats a node. *)
Theorem C83_sharing_node : forall elems, wf_table elems ->
  exists q, query_of elems = Ok q /\ forall n,
    NoDup (sharing q n) /\
    forall el, In el (sharing q n) <-> exists e, t_get elems el = Ok e /\ In n (e_nodes e).
Proof.
  intros elems W. destruct (query_of_ok elems W) as (q & E & H). exists q. split; [exact E|]. intros n. unfold sharing. rewrite H. split.
  - apply NoDup_filter, W.
  - intros el. unfold users. rewrite filter_In. split.
    + intros (I & M). destruct (t_get elems el) as [e| |]; try discriminate. exists e. split; [reflexivity|now apply existsb_In].
    + intros (e & Ee & I). split; [eapply wf_get_in; eauto|]. rewrite Ee. now apply existsb_In.
Qed.
Print Assumptions C83_sharing_node.

Lemma set_intersection_In : forall a b, StronglySorted Z.lt a -> StronglySorted Z.lt b -> forall x, In x (set_intersection a b) <-> In x a /\ In x b.
Proof.
  induction a as [|x a IHa]; intros b Sa Sb z; [cbn; tauto|]. inversion Sa as [|? ? Sa' Fa]; subst. rewrite Forall_forall in Fa.
  induction b as [|y b IHb]; [cbn; tauto|]. inversion Sb as [|? ? Sb' Fb]; subst. rewrite Forall_forall in Fb.
  cbn [set_intersection]. destruct (Z.ltb_spec x y) as [L|L].
  - rewrite IHa by assumption. cbn [In]. split; [tauto|]. intros ([-> | Ia] & Ib); [|tauto]. destruct Ib as [-> | Ib]; [lia|]. specialize (Fb _ Ib). lia.
  - destruct (Z.ltb_spec y x) as [L2|L2].
    + fold (set_intersection (x :: a) b). rewrite (IHb Sb'). cbn [In]. split; [tauto|]. intros (Ia & [-> | Ib]); [|tauto]. destruct Ia as [-> | Ia]; [lia|]. specialize (Fa _ Ia). lia.
    + assert (x = y) by lia. subst y. cbn [In]. rewrite IHa by assumption. split; [tauto|]. intros ([-> | Ia] & [Eb | Ib]); auto.
Qed.
Lemma set_intersection_sorted : forall a b, StronglySorted Z.lt a -> StronglySorted Z.lt b -> StronglySorted Z.lt (set_intersection a b).
Proof.
  induction a as [|x a IHa]; intros b Sa Sb; [constructor|]. inversion Sa as [|? ? Sa' Fa]; subst.
  induction b as [|y b IHb]; [constructor|]. inversion Sb as [|? ? Sb' Fb]; subst.
  cbn [set_intersection]. destruct (x <? y); [apply IHa; assumption|]. destruct (y <? x); [apply IHb; assumption|].
  constructor; [apply IHa; assumption|]. rewrite Forall_forall in Fa |- *. intros z I. apply set_intersection_In in I; [|assumption|assumption]. apply Fa, I.
Qed.
Lemma sorted_filter (p : Z -> bool) l : StronglySorted Z.lt l -> StronglySorted Z.lt (filter p l).
Proof.
  induction 1 as [|x l S IH F]; cbn; [constructor|]. destruct (p x); [|exact IH]. constructor; [exact IH|]. rewrite Forall_forall in F |- *. intros y I. apply filter_In in I. apply F, I.
Qed.

(** Elements sharing two nodes, for element ids that ascend in the order of the mesh. *)
Theorem C83_sharing_two : forall elems, wf_table elems -> StronglySorted Z.lt (t_ids elems) ->
  exists q, query_of elems = Ok q /\ forall n1 n2,
    NoDup (sharing2 q n1 n2) /\
    forall el, In el (sharing2 q n1 n2) <-> exists e, t_get elems el = Ok e /\ In n1 (e_nodes e) /\ In n2 (e_nodes e).
Proof.
  intros elems W S. destruct (C83_sharing_node elems W) as (q & E & H). destruct (query_of_ok elems W) as (q' & E' & H'). rewrite E in E'. injection E' as <-.
  exists q. split; [exact E|]. intros n1 n2. unfold sharing2. rewrite !H'.
  assert (S1 := sorted_filter (fun el => match t_get elems el with Ok e => existsb (Z.eqb n1) (e_nodes e) | _ => false end) _ S).
  assert (S2 := sorted_filter (fun el => match t_get elems el with Ok e => existsb (Z.eqb n2) (e_nodes e) | _ => false end) _ S).
  fold (users elems n1) in S1. fold (users elems n2) in S2. split.
  - assert (K := set_intersection_sorted _ _ S1 S2). clear -K. induction K as [|x l K IH F]; constructor; [|exact IH]. intros I. rewrite Forall_forall in F. specialize (F _ I). lia.
  - intros el. rewrite set_intersection_In by assumption. destruct (H n1) as (_ & A). destruct (H n2) as (_ & B). unfold sharing in A, B. rewrite H' in A, B. rewrite A, B.
    split; [intros ((e & Ee & I) & (e' & Ee' & I')); assert (e = e') by congruence; subst; eauto|intros (e & Ee & I & I'); split; eauto].
Qed.
Print Assumptions C83_sharing_two.

(** Ids ascend whenever they were taken from nextElementId, also after removals. *)
Theorem C83_next_ids_ascend : forall (A : Type) (t : table A) v, wf_table t -> StronglySorted Z.lt (t_ids t) ->
  StronglySorted Z.lt (t_ids (t_add t (t_next t) v)) /\
  forall id t', t_remove t id = Ok t' -> StronglySorted Z.lt (t_ids t').
Proof.
  intros A t v (N & Zs & Hk) S. split.
  - cbn. destruct (t_next_fresh t Zs) as (_ & Hb).
    assert (F : Forall (fun k => k < t_next t) (t_ids t)).
    { rewrite Forall_forall. intros k I. apply Hb, Hk, I. }
    clear -S F. induction S as [|x l S IH G]; cbn; [repeat constructor|]. inversion F; subst. constructor; [now apply IH|]. rewrite Forall_forall in *. intros y I. apply in_app_or in I. destruct I as [I|[<-|[]]]; auto.
  - intros id t' R. unfold t_remove in R. destruct (erase_first id (t_ids t)) as [l|] eqn:E; [|discriminate]. injection R as <-. cbn.
    apply erase_first_Some in E; [|exact N]. destruct E as (_ & ->). now apply sorted_filter.
Qed.
Print Assumptions C83_next_ids_ascend.

Definition tri (a b c : Z) : element := Element ET_TRIANGLE [a; b; c] [].
(** Three triangles around node 0; triangles 2 and 5 share the edge 0 - 2. *)
Example C83_case : let elems := t_add (t_add (t_add t_empty 2 (tri 0 1 2)) 5 (tri 0 2 3)) 9 (tri 0 3 4) in
  wf_table elems /\ StronglySorted Z.lt (t_ids elems) /\ exists q, query_of elems = Ok q /\ sharing q 0 = [2; 5; 9] /\ sharing2 q 0 2 = [2; 5] /\ sharing q 7 = [].
Proof.
  split; [|split; [repeat constructor|eexists; split; [reflexivity|repeat split]]].
  apply (run_wf _ [Add 2 (tri 0 1 2); Add 5 (tri 0 2 3); Add 9 (tri 0 3 4)]); [|reflexivity]. cbn. unfold present. cbn. intuition congruence.
Qed.
(** With descending ids a shared element is lost: triangle 0 has both nodes 0 and 1. *)
Theorem C83_descending_ids_refuted : exists elems q, wf_table elems /\ query_of elems = Ok q /\
  t_get elems 0 = Ok (tri 0 1 2) /\ In 0 (sharing q 0) /\ In 0 (sharing q 1) /\ sharing2 q 0 1 = [].
Proof.
  exists (t_add (t_add t_empty 1 (tri 0 3 4)) 0 (tri 0 1 2)). eexists. split; [|split; [reflexivity|]].
  - apply (run_wf _ [Add 1 (tri 0 3 4); Add 0 (tri 0 1 2)]); [|reflexivity]. cbn. unfold present. cbn. intuition congruence.
  - cbn. auto 10.
Qed.
Print Assumptions C83_descending_ids_refuted.

(** ** C84 *)
Definition pos (m : mesh) (n : Z) : coord := match t_get (m_nodes m) n with Ok c => c | _ => vzero end.
(** The vector product of the first two edges of an element. *)
Definition normal (m : mesh) (e : element) : coord :=
  match map (pos m) (e_nodes e) with p0 :: p1 :: p2 :: _ => cross (vsub p1 p0) (vsub p2 p0) | _ => vzero end.
(** The displacement of a node: against the unit vector of the sum of the unit normals of its elements. *)
Definition displacement (unit : coord -> coord) (delta : Q) (m : mesh) (n : Z) : coord :=
  vscale delta (vopp (unit (fold_left vadd (map (fun el => match t_get (m_elems m) el with Ok e => unit (normal m e) | _ => vzero end) (users (m_elems m) n)) vzero))).
Definition moved (unit : coord -> coord) (delta : Q) (m : mesh) (n : Z) : coord := vadd (pos m n) (displacement unit delta m n).
(** A mesh of triangles and quadrilaterals. *)
Definition surface (m : mesh) : Prop := forall id e, t_get (m_elems m) id = Ok e -> (e_type e = ET_TRIANGLE \/ e_type e = ET_QUADRILATERAL) /\ complete e.

Lemma mapM_ok {A B} (f : A -> outcome B) (g : A -> B) l : (forall a, In a l -> f a = Ok (g a)) -> mapM f l = Ok (map g l).
Proof. induction l as [|a l IH]; intros H; [reflexivity|]. cbn. rewrite (H a (or_introl eq_refl)). cbn. rewrite IH; [reflexivity|]. intros; apply H; now right. Qed.
Lemma foldM_ok {S A} (f : S -> A -> outcome S) (g : S -> A -> S) l : forall s, (forall s a, In a l -> f s a = Ok (g s a)) -> foldM f l s = Ok (fold_left g l s).
Proof. induction l as [|a l IH]; intros s H; [reflexivity|]. cbn. rewrite (H s a (or_introl eq_refl)). cbn. apply IH. intros; apply H; now right. Qed.
Lemma pos_get m n : wf_table (m_nodes m) -> In n (t_ids (m_nodes m)) -> t_get (m_nodes m) n = Ok (pos m n).
Proof. intros W I. destruct (wf_get _ _ W I) as (c & E). unfold pos. now rewrite E. Qed.

Lemma elem_normal_ok unit m el e : wf_mesh m -> refs_ok m -> surface m -> t_get (m_elems m) el = Ok e -> elem_normal unit m el = Ok (unit (normal m e)).
Proof.
  intros (Wn & _) (Re & _) Su Ee. unfold elem_normal. rewrite Ee. cbn [bind]. specialize (Re el e Ee). rewrite Forall_forall in Re.
  rewrite (mapM_ok _ (pos m)) by (intros a I; apply pos_get; auto). cbn [bind].
  destruct (Su el e Ee) as (T & C). unfold complete in C. unfold normal.
  destruct e as [ty ns fs]. cbn in *. destruct ns as [|a [|b [|c ns]]]; try (destruct T as [-> | ->]; discriminate). reflexivity.
Qed.
Lemma node_normals_ok unit delta m q : wf_mesh m -> refs_ok m -> surface m -> query_of (m_elems m) = Ok q ->
  exists N, node_normals unit m q = Ok N /\ forall n, In n (t_ids (m_nodes m)) -> exists v, zat N n = Ok v /\ vscale delta v = displacement unit delta m n.
Proof.
  intros W Rf Su Q. assert (We : wf_table (m_elems m)) by apply W. destruct (query_of_ok _ We) as (q' & Q' & H). rewrite Q in Q'. injection Q' as <-.
  set (f := fun el => match t_get (m_elems m) el with Ok e => unit (normal m e) | _ => vzero end).
  assert (F : forall n, node_normal unit m q n = Ok (vopp (unit (fold_left vadd (map f (users (m_elems m) n)) vzero)))).
  { intros n. unfold node_normal. rewrite H.
    rewrite (foldM_ok _ (fun s el => vadd s (f el))).
    - cbn [bind]. f_equal. f_equal. f_equal. generalize vzero. induction (users (m_elems m) n) as [|x l IH]; intros s; cbn; auto.
    - intros s el I. unfold users in I. apply filter_In in I. destruct I as (I & _). destruct (wf_get _ _ We I) as (e & Ee). unfold f. rewrite (elem_normal_ok unit m el e), Ee by assumption. reflexivity. }
  unfold node_normals.
  destruct (foldM_invariant (fun t n => v <- node_normal unit m q n ;; Ok (zinsert n v t)) (fun done t => forall n, In n done -> zlookup n t = Some (vopp (unit (fold_left vadd (map f (users (m_elems m) n)) vzero)))) (t_ids (m_nodes m)) zempty) as (N & E & K).
  - intros n [].
  - intros done n rest t _ H'. rewrite F. cbn [bind]. eexists. split; [reflexivity|]. intros k I. rewrite zlookup_insert. destruct (Z.eqb_spec k n) as [->|Hne]; [reflexivity|].
    apply H'. apply in_app_or in I. destruct I as [I|[<-|[]]]; [exact I|congruence].
  - exists N. split; [exact E|]. intros n I. eexists. split; [apply zat_Ok, (K n I)|]. reflexivity.
Qed.

(** Adding points under new ids. *)
Record grown (a t : table coord) (new : list Z) (cs : list coord) : Prop := {
  g_wf : wf_table t;
  g_ids : t_ids t = t_ids a ++ new;
  g_old : forall id, In id (t_ids a) -> t_get t id = t_get a id;
  g_new : Forall2 (fun id c => t_get t id = Ok c) new cs
}.
Lemma add_points_ok cs : forall a, wf_table a -> grown a (fst (add_points a cs)) (snd (add_points a cs)) cs.
Proof.
  induction cs as [|c cs IH]; intros a W; cbn [add_points].
  - cbn. constructor; auto; [now rewrite app_nil_r].
  - unfold add_point. assert (W1 := t_add_next_wf a c W). specialize (IH _ W1). destruct (add_points (t_add a (t_next a) c) cs) as (t & ids). cbn [fst snd] in *.
    destruct IH as [G1 G2 G3 G4]. assert (Fr : zlookup (t_next a) (t_map a) = None) by (apply t_next_fresh, W).
    assert (Ni : ~ In (t_next a) (t_ids a)) by (destruct W as (_ & _ & Hk); rewrite Hk; congruence).
    constructor; [exact G1|rewrite G2; cbn; now rewrite <- app_assoc| |].
    + intros id I. rewrite G3 by (cbn; apply in_or_app; now left). unfold t_get. cbn. unfold zat. rewrite zlookup_insert_ne; [reflexivity|]. intros Heq. apply Ni. congruence.
    + constructor; [|exact G4]. rewrite G3 by (cbn; apply in_or_app; right; now left). unfold t_get. apply zat_Ok. cbn. apply zlookup_insert_eq.
Qed.
Lemma grown_fresh a t new cs : wf_table a -> grown a t new cs -> NoDup new /\ Forall (fun n => ~ In n (t_ids a)) new.
Proof.
  intros W [G1 G2 _ _]. destruct G1 as (N & _). rewrite G2 in N. split; [clear -N; induction (t_ids a) as [|y l IH]; [exact N|]; inversion N; auto|].
  rewrite Forall_forall. intros x I J. clear -N I J. induction (t_ids a) as [|y l IH]; cbn in *; [contradiction|]. inversion N; subst. destruct J as [-> | J]; [apply H1, in_or_app; now right|auto].
Qed.

(** The solid made from a surface element: corners below, corners above. *)
Definition solid_type (t : etype) : etype := match t with ET_TRIANGLE => ET_TRIANGULAR_PRISM | _ => ET_HEXAHEDRON end.
Definition solid_corners (P D : Z -> coord) (ns : list Z) : list coord :=
  match ns with
  | [a; b; c] => [P a; P b; P c; D a; D b; D c]
  | [a; b; c; d] => [P a; P b; P c; P d; D a; D d; D c; D b]
  | _ => []
  end.

Lemma Forall2_len_eq {A B} (R : A -> B -> Prop) l k : Forall2 R l k -> length l = length k.
Proof. induction 1; cbn; congruence. Qed.

Lemma extrude_elem_ok unit delta m N el e s : wf_mesh m -> refs_ok m -> surface m -> wf_mesh s ->
  (forall n, In n (t_ids (m_nodes m)) -> exists v, zat N n = Ok v /\ vscale delta v = displacement unit delta m n) ->
  t_get (m_elems m) el = Ok e ->
  exists nodes new e', extrude_elem m N delta s el = Ok (Mesh nodes (m_faces s) (t_add (m_elems s) (t_next (m_elems s)) e')) /\
    (exists cs, grown (m_nodes s) nodes new cs) /\ e_type e' = solid_type (e_type e) /\ Permutation (e_nodes e') new /\
    map (t_get nodes) (e_nodes e') = map Ok (solid_corners (pos m) (moved unit delta m) (e_nodes e)).
Proof.
  intros W Rf Su Ws HN Ee. unfold extrude_elem. rewrite Ee. cbn [bind]. destruct (Su el e Ee) as (T & C). destruct Rf as (Re & _). specialize (Re el e Ee). rewrite Forall_forall in Re.
  assert (Wn : wf_table (m_nodes m)) by apply W.
  assert (G : forall ns, incl ns (t_ids (m_nodes m)) -> mapM (t_get (m_nodes m)) ns = Ok (map (pos m) ns) /\
     exists vs, mapM (zat N) ns = Ok vs /\ map (fun p => vadd (fst p) (vscale delta (snd p))) (combine (map (pos m) ns) vs) = map (moved unit delta m) ns).
  { intros ns I. split; [apply mapM_ok; intros a Ia; apply pos_get; auto|].
    induction ns as [|n ns IH]; [exists []; split; reflexivity|]. destruct IH as (vs & E1 & E2); [intros x Ix; apply I; now right|].
    destruct (HN n (I n (or_introl eq_refl))) as (v & Ev & Dv). exists (v :: vs). cbn. rewrite Ev. cbn. rewrite E1. cbn. split; [reflexivity|]. rewrite E2. unfold moved. now rewrite Dv. }
  unfold complete in C. destruct e as [ty ns fs]. cbn [e_type e_nodes] in *.
  assert (Wsn : wf_table (m_nodes s)) by apply Ws.
  destruct T as [-> | ->]; cbn in C.
  - destruct ns as [|a [|b [|c [|? ?]]]]; try discriminate. destruct (G [a; b; c] Re) as (G1 & vs & G2 & G3).
    unfold extrude_one. cbn [zrange seq map e_nodes]. replace (mapM (vec_at [a; b; c]) [Z.of_nat 0; Z.of_nat 1; Z.of_nat 2]) with (Ok [a; b; c]) by reflexivity. cbn [bind].
    rewrite G1. cbn [bind]. rewrite G2. cbn [bind]. cbv zeta. rewrite G3.
    assert (A := add_points_ok (map (pos m) [a; b; c] ++ map (moved unit delta m) [a; b; c]) (m_nodes s) Wsn).
    destruct (add_points (m_nodes s) _) as (nodes & new). cbn [fst snd] in A. exists nodes, new. eexists. split; [reflexivity|]. split; [eauto|]. split; [reflexivity|].
    destruct A as [_ _ _ A4]. assert (L := Forall2_len_eq _ _ _ A4). cbn in L. destruct new as [|n0 [|n1 [|n2 [|n3 [|n4 [|n5 [|? ?]]]]]]]; try discriminate.
    cbn. split; [apply Permutation_refl|]. cbn in A4. repeat match goal with H : Forall2 _ (_ :: _) _ |- _ => inversion H; clear H; subst end. congruence.
  - destruct ns as [|a [|b [|c [|d [|? ?]]]]]; try discriminate. destruct (G [a; b; c; d] Re) as (G1 & vs & G2 & G3).
    unfold extrude_one. cbn [zrange seq map e_nodes]. replace (mapM (vec_at [a; b; c; d]) [Z.of_nat 0; Z.of_nat 1; Z.of_nat 2; Z.of_nat 3]) with (Ok [a; b; c; d]) by reflexivity. cbn [bind].
    rewrite G1. cbn [bind]. rewrite G2. cbn [bind]. cbv zeta. rewrite G3.
    assert (A := add_points_ok (map (pos m) [a; b; c; d] ++ map (moved unit delta m) [a; b; c; d]) (m_nodes s) Wsn).
    destruct (add_points (m_nodes s) _) as (nodes & new). cbn [fst snd] in A. exists nodes, new. eexists. split; [reflexivity|]. split; [eauto|]. split; [reflexivity|].
    destruct A as [_ _ _ A4]. assert (L := Forall2_len_eq _ _ _ A4). cbn in L. destruct new as [|n0 [|n1 [|n2 [|n3 [|n4 [|n5 [|n6 [|n7 [|? ?]]]]]]]]]; try discriminate.
    cbn. split.
    + do 5 apply perm_skip. apply (Permutation_trans (l' := [n7; n5; n6])); [apply perm_skip, perm_swap|]. apply (Permutation_trans (l' := [n5; n7; n6])); [apply perm_swap|]. apply perm_skip, perm_swap.
    + cbn in A4. repeat match goal with H : Forall2 _ (_ :: _) _ |- _ => inversion H; clear H; subst end. congruence.
Qed.

Lemma Forall2_mono {A B} (R T : A -> B -> Prop) l k : (forall a b, R a b -> T a b) -> Forall2 R l k -> Forall2 T l k.
Proof. intros H. induction 1; constructor; auto. Qed.
(** Extrusion of a surface of triangles and quadrilaterals into any mesh made before. Every surface element gives one solid with its
    own new nodes: the corners of the element and the corners after moving; the surface itself is moved. *)
Theorem C84_extrude : forall unit delta m s, wf_mesh m -> refs_ok m -> surface m -> wf_mesh s ->
  exists m' s', extrude unit delta m s = Ok (m', s') /\
    (m_elems m' = m_elems m /\ m_faces m' = m_faces m /\ t_ids (m_nodes m') = t_ids (m_nodes m) /\ wf_mesh m' /\
     forall n, In n (t_ids (m_nodes m)) -> t_get (m_nodes m') n = Ok (moved unit delta m n)) /\
    (wf_mesh s' /\ m_faces s' = m_faces s /\ (forall n, In n (t_ids (m_nodes s)) -> t_get (m_nodes s') n = t_get (m_nodes s) n) /\
     (forall el, In el (t_ids (m_elems s)) -> t_get (m_elems s') el = t_get (m_elems s) el)) /\
    t_size (m_elems s') = t_size (m_elems s) + t_size (m_elems m) /\
    forall i e, at_pos (m_elems m) i = Ok e ->
      exists e', at_pos (m_elems s') (length (t_ids (m_elems s)) + i) = Ok e' /\ e_type e' = solid_type (e_type e) /\
        NoDup (e_nodes e') /\ Forall (fun n => ~ In n (t_ids (m_nodes s))) (e_nodes e') /\
        coords s' (e_nodes e') = map Ok (solid_corners (pos m) (moved unit delta m) (e_nodes e)).
Proof.
  intros unit delta m s W Rf Su Ws. assert (We : wf_table (m_elems m)) by apply W. assert (Wn : wf_table (m_nodes m)) by apply W.
  destruct (query_of_ok _ We) as (q & Q & _). destruct (node_normals_ok unit delta m q W Rf Su Q) as (N & EN & HN).
  unfold extrude. rewrite Q. cbn [bind]. rewrite EN. cbn [bind].
  set (good := fun (st : mesh) el e' => exists e, t_get (m_elems m) el = Ok e /\ e_type e' = solid_type (e_type e) /\ NoDup (e_nodes e') /\
     Forall (fun n => ~ In n (t_ids (m_nodes s))) (e_nodes e') /\ incl (e_nodes e') (t_ids (m_nodes st)) /\ coords st (e_nodes e') = map Ok (solid_corners (pos m) (moved unit delta m) (e_nodes e))).
  destruct (foldM_invariant (extrude_elem m N delta) (fun done st => wf_mesh st /\ m_faces st = m_faces s /\ (exists l, t_ids (m_nodes st) = t_ids (m_nodes s) ++ l) /\
     (forall n, In n (t_ids (m_nodes s)) -> t_get (m_nodes st) n = t_get (m_nodes s) n) /\ exists es, extends (m_elems s) (m_elems st) es /\ Forall2 (good st) done es) (t_ids (m_elems m)) s)
    as (s' & E & (Ws' & Fs' & (l & El) & Old & es & Ex & F2)).
  - split; [exact Ws|]. split; [reflexivity|]. split; [exists []; now rewrite app_nil_r|]. split; [reflexivity|]. exists []. split; [apply extends_refl, Ws|constructor].
  - intros done el rest st Ed (Wst & Fst & (l & El) & Old & es & Ex & F2). destruct (wf_get _ el We) as (e & Ee); [rewrite Ed; apply in_or_app; right; now left|].
    destruct (extrude_elem_ok unit delta m N el e st W Rf Su Wst HN Ee) as (nodes & new & e' & E1 & (cs & G) & T & P & Cs).
    assert (Wsn : wf_table (m_nodes st)) by apply Wst. destruct (grown_fresh _ _ _ _ Wsn G) as (Nd & Fr). destruct G as [G1 G2 G3 G4].
    eexists. split; [exact E1|]. split; [|split; [exact Fst|split; [|split]]].
    + split; [exact G1|]. split; [apply Wst|]. cbn. apply t_add_next_wf, Wst.
    + exists (l ++ new). cbn. now rewrite G2, El, app_assoc.
    + intros n I. cbn. rewrite G3; [now apply Old|]. rewrite El. apply in_or_app. now left.
    + exists (es ++ [e']). split; [apply extends_snoc, Ex|]. apply Forall2_app.
      * eapply Forall2_mono; [|exact F2]. intros a b (e1 & A1 & A2 & A3 & A4 & A5 & A6). exists e1. repeat (split; [assumption|]). split; [cbn; rewrite G2; intros x Ix; apply in_or_app; left; now apply A5|].
        rewrite <- A6. unfold coords. apply map_ext_in. intros n I. cbn. apply G3, A5, I.
      * constructor; [|constructor]. exists e. split; [exact Ee|]. split; [exact T|]. split; [apply (Permutation_NoDup (Permutation_sym P) Nd)|].
        split; [|split; [cbn; rewrite G2; intros x Ix; apply in_or_app; right; apply (Permutation_in x P Ix)|exact Cs]].
        rewrite Forall_forall in *. intros n I J. apply (Fr n (Permutation_in n P I)). rewrite El. apply in_or_app. now left.
  - rewrite E. cbn [bind].
    destruct (foldM_invariant (fun t n => c <- t_get t n ;; v <- zat N n ;; Ok (t_set t n (vadd c (vscale delta v))))
       (fun done t => t_ids t = t_ids (m_nodes m) /\ wf_table t /\ (forall n, In n done -> t_get t n = Ok (moved unit delta m n)) /\ (forall n, ~ In n done -> t_get t n = t_get (m_nodes m) n)) (t_ids (m_nodes m)) (m_nodes m))
      as (t & Et & (Ti & Tw & T1 & T2)).
    + repeat split; auto; try apply Wn. intros n [].
    + intros done n rest t Ed (Ti & Tw & T1 & T2). assert (In n (t_ids (m_nodes m))) by (rewrite Ed; apply in_or_app; right; now left).
      destruct Wn as (Nn & Hn2). rewrite Ed in Nn. apply NoDup_remove_2 in Nn. assert (~ In n done) by (intros J; apply Nn, in_or_app; now left).
      rewrite (T2 n H0), pos_get by (auto; apply W). cbn [bind]. destruct (HN n H) as (v & Ev & Dv). rewrite Ev. cbn [bind]. eexists. split; [reflexivity|]. rewrite Dv. fold (moved unit delta m n).
      split; [exact Ti|]. split; [|split].
      * destruct Tw as (K1 & K2 & K3). split; [exact K1|]. split; [now apply zsorted_insert|]. intros id. cbn. rewrite zlookup_insert. destruct (Z.eqb_spec id n) as [->|]; [|apply K3]. split; [congruence|]. intros _. rewrite Ti. exact H.
      * intros k I. unfold t_get. cbn. unfold zat. rewrite zlookup_insert. destruct (Z.eqb_spec k n) as [->|]; [reflexivity|]. apply in_app_or in I. destruct I as [I|[->|[]]]; [apply (T1 k I)|congruence].
      * intros k I. unfold t_get. cbn. unfold zat. rewrite zlookup_insert. destruct (Z.eqb_spec k n) as [->|]; [exfalso; apply I, in_or_app; right; now left|]. apply T2. intros J. apply I, in_or_app. now left.
    + rewrite Et. cbn [bind]. eexists. eexists. split; [reflexivity|]. destruct (extends_at_pos _ _ _ Ex) as (X1 & _ & X2).
      split; [|split; [|split]].
      * cbn. repeat (split; [first [reflexivity|exact Ti]|]). split; [split; [exact Tw|split; apply W]|]. intros n I. now apply T1.
      * split; [exact Ws'|]. split; [exact Fs'|]. split; [exact Old|]. intros el I. now apply (x_old _ _ _ Ex).
      * rewrite X1. f_equal. unfold t_size, zlen. f_equal. symmetry. apply (Forall2_len_eq _ _ _ F2).
      * intros i e Ei. unfold at_pos, t_id in Ei. rewrite vec_at_nat in Ei. destruct (nth_error (t_ids (m_elems m)) i) as [el|] eqn:Eel; [|discriminate]. cbn [bind] in Ei.
        assert (exists e', nth_error es i = Some e' /\ good s' el e') as (e' & Ee' & G).
        { clear -F2 Eel. revert i Eel. induction F2; intros [|i] Eel; cbn in *; try discriminate; [injection Eel as <-; eauto|eauto]. }
        exists e'. split; [apply X2, Ee'|]. destruct G as (e1 & A1 & A2 & A3 & A4 & A5 & A6). assert (e1 = e) by congruence. subst e1. auto.
Qed.
Print Assumptions C84_extrude.

(** The elements made before keep their positions. *)
Lemma old_positions unit delta m s m' s' : wf_mesh m -> refs_ok m -> surface m -> wf_mesh s -> extrude unit delta m s = Ok (m', s') ->
  exists l, t_ids (m_elems s') = t_ids (m_elems s) ++ l.
Proof.
  intros W Rf Su Ws E. unfold extrude in E. destruct (query_of (m_elems m)) as [q| |]; try discriminate. cbn [bind] in E.
  destruct (node_normals unit m q) as [N| |]; try discriminate. cbn [bind] in E.
  destruct (foldM (extrude_elem m N delta) (t_ids (m_elems m)) s) as [s1| |] eqn:F; try discriminate. cbn [bind] in E.
  destruct (foldM _ (t_ids (m_nodes m)) (m_nodes m)) as [t| |]; try discriminate. injection E as <- <-. clear -F.
  revert s F. induction (t_ids (m_elems m)) as [|el els IH]; intros s F; cbn in F; [injection F as <-; exists []; now rewrite app_nil_r|].
  destruct (extrude_elem m N delta s el) as [s2| |] eqn:X; try discriminate. destruct (IH s2 F) as (l & ->).
  assert (Y : exists l', t_ids (m_elems s2) = t_ids (m_elems s) ++ l').
  { unfold extrude_elem in X. destruct (t_get (m_elems m) el) as [e| |]; try discriminate. cbn [bind] in X.
    assert (Z1 : forall k ty, extrude_one m N delta k ty e s = Ok s2 -> exists l', t_ids (m_elems s2) = t_ids (m_elems s) ++ l').
    { intros k ty Y. unfold extrude_one in Y. destruct (mapM _ (zrange k)) as [ids| |]; try discriminate. cbn [bind] in Y. destruct (mapM (t_get (m_nodes m)) ids) as [bt| |]; try discriminate. cbn [bind] in Y.
      destruct (mapM (zat N) ids) as [ns| |]; try discriminate. cbn [bind] in Y. cbv zeta in Y. destruct (add_points _ _) as (nodes & new). injection Y as <-. cbn. eauto. }
    destruct (e_type e); try (injection X as <-; exists []; now rewrite app_nil_r); eapply Z1; exact X. }
  destruct Y as (l' & ->). exists (l' ++ l). now rewrite app_assoc.
Qed.
(** A second layer stands on the first one. *)
Theorem C84_layers : forall unit delta delta2 m s, wf_mesh m -> refs_ok m -> surface m -> wf_mesh s ->
  exists m1 s1 m2 s2, extrude unit delta m s = Ok (m1, s1) /\ extrude unit delta2 m1 s1 = Ok (m2, s2) /\
    forall i e, at_pos (m_elems m) i = Ok e -> e_type e = ET_TRIANGLE ->
      exists e1 e2, at_pos (m_elems s1) (length (t_ids (m_elems s)) + i) = Ok e1 /\ at_pos (m_elems s2) (length (t_ids (m_elems s1)) + i) = Ok e2 /\
        at_pos (m_elems s2) (length (t_ids (m_elems s)) + i) = Ok e1 /\ coords s2 (e_nodes e1) = coords s1 (e_nodes e1) /\
        firstn 3 (coords s2 (e_nodes e2)) = skipn 3 (coords s2 (e_nodes e1)).
Proof.
  intros unit delta delta2 m s W Rf Su Ws.
  destruct (C84_extrude unit delta m s W Rf Su Ws) as (m1 & s1 & E1 & (A1 & A2 & A3 & A4 & A5) & (B1 & B2 & B3 & B4) & C1 & D1).
  assert (Rf1 : refs_ok m1). { destruct Rf as (R1 & R2). split; intros id x Hx; rewrite ?A1, ?A2 in Hx; rewrite A3; eauto. }
  assert (Su1 : surface m1) by (intros id x Hx; rewrite A1 in Hx; eauto).
  destruct (C84_extrude unit delta2 m1 s1 A4 Rf1 Su1 B1) as (m2 & s2 & E2 & _ & (F1 & F2 & F3 & F4) & C2 & D2).
  exists m1, s1, m2, s2. split; [exact E1|]. split; [exact E2|]. intros i e Ei T.
  destruct (D1 i e Ei) as (e1 & P1 & T1 & N1 & _ & K1). destruct (D2 i e) as (e2 & P2 & T2 & N2 & _ & K2); [now rewrite A1|].
  exists e1, e2. split; [exact P1|]. split; [exact P2|].
  assert (I1 : exists id1, nth_error (t_ids (m_elems s1)) (length (t_ids (m_elems s)) + i) = Some id1 /\ t_get (m_elems s1) id1 = Ok e1).
  { unfold at_pos, t_id in P1. rewrite vec_at_nat in P1. destruct (nth_error (t_ids (m_elems s1)) (length (t_ids (m_elems s)) + i)) as [id1|]; [|discriminate]. eauto. }
  destruct I1 as (id1 & I1 & G1).
  assert (Q : coords s2 (e_nodes e1) = coords s1 (e_nodes e1)).
  { unfold coords. apply map_ext_in. intros n In1. apply F3. assert (X : exists c, t_get (m_nodes s1) n = Ok c).
    { unfold coords in K1. assert (Y : In (t_get (m_nodes s1) n) (map (t_get (m_nodes s1)) (e_nodes e1))) by now apply in_map. rewrite K1 in Y. apply in_map_iff in Y. destruct Y as (c & Ec & _). eauto. }
    destruct X as (c & X). eapply wf_get_in; [apply B1|exact X]. }
  split; [|split; [exact Q|]].
  -
    unfold at_pos, t_id. rewrite vec_at_nat.
    assert (L : (length (t_ids (m_elems s)) + i < length (t_ids (m_elems s1)))%nat) by (apply nth_error_Some; congruence).
    destruct (old_positions unit delta2 m1 s1 m2 s2 A4 Rf1 Su1 B1 E2) as (l & El). rewrite El, nth_error_app1 by exact L. rewrite I1. cbn [bind].
    rewrite F4; [exact G1|]. eapply nth_error_In; exact I1.
  - rewrite K2, Q, K1. assert (Ei' := Ei). unfold at_pos in Ei'. destruct (t_id (m_elems m) (Z.of_nat i)) as [el| |]; try discriminate. cbn [bind] in Ei'. destruct (Su el e Ei') as (_ & Cp). unfold complete in Cp. rewrite T in Cp. cbn in Cp.
    destruct Rf as (R1 & _). specialize (R1 el e Ei'). destruct e as [ty ns fs]. cbn [e_nodes] in *. destruct ns as [|a [|b [|c [|? ?]]]]; try discriminate. cbn.
    rewrite Forall_forall in R1. unfold pos. rewrite !A5 by (apply R1; cbn; auto). reflexivity.
Qed.
Print Assumptions C84_layers.

(** A flat surface: the normals of all triangles are positive multiples of one vector. Then every prism has the volume
    distance times area, for every normalisation that only depends on the direction. *)
Lemma tri_area_vector a b c : vscale 2 (area_vector [a; b; c]) =v= cross (vsub b a) (vsub c a).
Proof. unfold area_vector, veq. cbn. split; [|split]; ring. Qed.
Theorem C84_flat : forall unit delta m s direction, wf_mesh m -> refs_ok m -> wf_mesh s ->
  (forall u v, u =v= v -> unit u =v= unit v) -> (forall k v, (0 < k)%Q -> unit (vscale k v) =v= unit v) -> (forall v, unit (unit v) =v= unit v) ->
  (forall id e, t_get (m_elems m) id = Ok e -> e_type e = ET_TRIANGLE /\ complete e /\ exists k, (0 < k)%Q /\ normal m e =v= vscale k direction) ->
  exists m' s', extrude unit delta m s = Ok (m', s') /\
    forall i e, at_pos (m_elems m) i = Ok e ->
      exists e' cs, at_pos (m_elems s') (length (t_ids (m_elems s)) + i) = Ok e' /\ e_type e' = ET_TRIANGULAR_PRISM /\
        coords s' (e_nodes e') = map Ok cs /\
        (geo_prism_volume cs == delta * dot (unit direction) (area_vector (map (pos m) (e_nodes e))))%Q.
Proof.
  intros unit delta m s dir W Rf Ws Uext Uscale Uidem H.
  assert (Su : surface m) by (intros id e He; destruct (H id e He) as (T & C & _); auto).
  assert (Dis : forall n el e, t_get (m_elems m) el = Ok e -> In n (e_nodes e) -> displacement unit delta m n =v= vscale delta (vopp (unit dir))).
  { intros n el e He I. assert (L : In el (users (m_elems m) n)).
    { unfold users. apply filter_In. split; [eapply wf_get_in; [apply W|exact He]|]. rewrite He. now apply existsb_In. }
    assert (S : forall l acc c, (forall x, In x l -> In x (t_ids (m_elems m))) -> acc =v= vscale (inject_Z c) (unit dir) ->
       fold_left vadd (map (fun el => match t_get (m_elems m) el with Ok e => unit (normal m e) | _ => vzero end) l) acc =v= vscale (inject_Z (c + zlen l)) (unit dir)).
    { induction l as [|x l IH]; intros acc c Hl Ha; [cbn; rewrite Z.add_0_r; exact Ha|]. cbn [map fold_left].
      replace (c + zlen (x :: l)) with ((c + 1) + zlen l) by (unfold zlen; cbn [length]; lia). apply IH; [intros; apply Hl; now right|].
      destruct (wf_get (m_elems m) x) as (ex & Ex); [apply W|apply Hl; now left|]. rewrite Ex. destruct (H x ex Ex) as (_ & _ & k & Hk & Nk).
      assert (U : unit (normal m ex) =v= unit dir). { destruct (Uext _ _ Nk) as (U1 & U2 & U3). destruct (Uscale k dir Hk) as (V1 & V2 & V3). unfold veq. now rewrite U1, U2, U3. }
      destruct Ha as (a1 & a2 & a3), U as (u1 & u2 & u3). unfold veq. cbn in *. rewrite a1, a2, a3, u1, u2, u3, inject_Z_plus. change (inject_Z 1) with 1%Q. split; [|split]; ring. }
    specialize (S (users (m_elems m) n) vzero 0 ltac:(intros x Ix; unfold users in Ix; apply filter_In in Ix; apply Ix) ltac:(unfold veq; cbn; split; [|split]; ring)).
    unfold displacement. assert (P : (0 < inject_Z (0 + zlen (users (m_elems m) n)))%Q).
    { unfold zlen. destruct (users (m_elems m) n) as [|y l]; [destruct L|]. unfold Qlt. cbn. lia. }
    destruct (Uext _ _ S) as (s1 & s2 & s3). destruct (Uscale _ (unit dir) P) as (v1 & v2 & v3). destruct (Uidem dir) as (i1 & i2 & i3).
    unfold veq. cbn. rewrite s1, s2, s3, v1, v2, v3, i1, i2, i3. split; [|split]; reflexivity. }
  destruct (C84_extrude unit delta m s W Rf Su Ws) as (m' & s' & E & _ & _ & _ & D). exists m', s'. split; [exact E|]. intros i e Ei.
  destruct (D i e Ei) as (e' & P & T & _ & _ & K). assert (Ei' := Ei). unfold at_pos in Ei'. destruct (t_id (m_elems m) (Z.of_nat i)) as [el| |]; try discriminate. cbn [bind] in Ei'.
  destruct (H el e Ei') as (Ty & Cp & _). exists e', (solid_corners (pos m) (moved unit delta m) (e_nodes e)). split; [exact P|]. split; [rewrite T, Ty; reflexivity|]. split; [exact K|].
  unfold complete in Cp. rewrite Ty in Cp. destruct e as [ty ns fs]. cbn [e_nodes e_type] in *. destruct ns as [|a [|b [|c [|? ?]]]]; try discriminate.
  destruct (Dis a el _ Ei' (or_introl eq_refl)) as (d1 & d2 & d3).
  cbn [solid_corners map geo_prism_volume]. unfold moved.
  assert (V := tri_area_vector (pos m a) (pos m b) (pos m c)). set (A := area_vector [pos m a; pos m b; pos m c]) in *. destruct V as (V1 & V2 & V3). cbn in V1, V2, V3, d1, d2, d3.
  assert (X : (dot (unit dir) A == (1 # 2) * dot (unit dir) (cross (vsub (pos m b) (pos m a)) (vsub (pos m c) (pos m a))))%Q).
  { unfold dot. cbn. rewrite <- V1, <- V2, <- V3. ring. }
  rewrite X. unfold dot. cbn. rewrite d1, d2, d3. ring.
Qed.
Print Assumptions C84_flat.

(** The prism of a triangle has the three side faces above the edges. *)
Theorem C84_sides : forall unit delta m s, wf_mesh m -> refs_ok m -> surface m -> wf_mesh s ->
  exists m' s', extrude unit delta m s = Ok (m', s') /\
    forall i e, at_pos (m_elems m) i = Ok e -> e_type e = ET_TRIANGLE ->
      exists e' fs, at_pos (m_elems s') (length (t_ids (m_elems s)) + i) = Ok e' /\ elem_faces e' = Ok fs /\
        forall a b, In (a, b) (cycle (e_nodes e)) ->
          exists f, In f fs /\ coords s' (f_nodes f) = map Ok [pos m b; pos m a; moved unit delta m a; moved unit delta m b].
Proof.
  intros unit delta m s W Rf Su Ws. destruct (C84_extrude unit delta m s W Rf Su Ws) as (m' & s' & E & _ & _ & _ & D). exists m', s'. split; [exact E|]. intros i e Ei Ty.
  destruct (D i e Ei) as (e' & P & T & _ & _ & K). assert (Ei' := Ei). unfold at_pos in Ei'. destruct (t_id (m_elems m) (Z.of_nat i)) as [el| |]; try discriminate. cbn [bind] in Ei'.
  destruct (Su el e Ei') as (_ & Cp). unfold complete in Cp. rewrite Ty in Cp. destruct e as [ty ns fs]. cbn [e_nodes e_type] in *. destruct ns as [|a [|b [|c [|? ?]]]]; try discriminate.
  cbn [solid_corners] in K. destruct e' as [ty' ns' fs']. cbn [e_nodes e_type] in *. subst ty. cbn in T. subst ty'.
  assert (L : length ns' = 6%nat) by (apply (f_equal (@length _)) in K; unfold coords in K; rewrite !map_length in K; exact K).
  destruct ns' as [|n0 [|n1 [|n2 [|n3 [|n4 [|n5 [|? ?]]]]]]]; try discriminate. unfold coords in K. cbn in K. injection K as K0 K1 K2 K3 K4 K5.
  eexists. eexists. split; [exact P|]. split; [reflexivity|]. intros x y I. cbn in I.
  destruct I as [I|[I|[I|[]]]]; injection I as <- <-; eexists; (split; [cbn|]).
  - right; right; left; reflexivity.
  - unfold coords. cbn. congruence.
  - right; right; right; left; reflexivity.
  - unfold coords. cbn. congruence.
  - right; right; right; right; left; reflexivity.
  - unfold coords. cbn. congruence.
Qed.
Print Assumptions C84_sides.

(** Two triangles in a horizontal plane. *)
Definition quarter (x y : Z) : coord := Coord (inject_Z x) (inject_Z y) 0.
Definition square_nodes : table coord := t_add (t_add (t_add (t_add t_empty 4 (quarter 0 0)) 7 (quarter 1 0)) 2 (quarter 1 1)) 9 (quarter 0 1).
Definition two_triangles : mesh := Mesh square_nodes t_empty (t_add (t_add t_empty 0 (tri 4 7 2)) 1 (tri 4 2 9)).
(** Normalisation of vertical vectors: only the sign of the third component is left. *)
Definition upward (v : coord) : coord := Coord 0 0 (match (cz v ?= 0)%Q with Gt => 1 | Lt => - (1) | Eq => 0 end).
Lemma square_nodes_wf : wf_table square_nodes.
Proof. apply (run_wf _ [Add 4 (quarter 0 0); Add 7 (quarter 1 0); Add 2 (quarter 1 1); Add 9 (quarter 0 1)]); [|reflexivity]. cbn. unfold present. cbn. intuition congruence. Qed.
Example C84_case : wf_mesh two_triangles /\ refs_ok two_triangles /\ surface two_triangles /\
  (forall id e, t_get (m_elems two_triangles) id = Ok e -> e_type e = ET_TRIANGLE /\ complete e /\ exists k, (0 < k)%Q /\ normal two_triangles e =v= vscale k (Coord 0 0 1)) /\
  exists m' s', extrude upward 3 two_triangles mesh_empty = Ok (m', s') /\ t_size (m_elems s') = 2 /\ t_size (m_nodes s') = 12.
Proof.
  assert (E : forall id e, t_get (m_elems two_triangles) id = Ok e -> e = tri 4 7 2 \/ e = tri 4 2 9).
  { intros id e H. unfold t_get, two_triangles in H. apply zat_Ok in H. cbn in H. destruct (id =? 0); [left; congruence|]. destruct (id =? 1); [right; congruence|discriminate]. }
  split; [|split; [|split; [|split]]].
  - split; [apply square_nodes_wf|]. split.
    + apply (run_wf face []); [exact I|reflexivity].
    + apply (run_wf _ [Add 0 (tri 4 7 2); Add 1 (tri 4 2 9)]); [|reflexivity]. cbn. unfold present. cbn. intuition congruence.
  - split; [|intros id f H; discriminate]. intros id e H. destruct (E id e H) as [-> | ->]; cbn; repeat (apply Forall_cons; [cbn; auto 10|]); apply Forall_nil.
  - intros id e H. destruct (E id e H) as [-> | ->]; split; auto; reflexivity.
  - intros id e H. destruct (E id e H) as [-> | ->]; (split; [reflexivity|]; split; [reflexivity|]; exists 1%Q; split; [reflexivity|]; unfold veq; vm_compute; auto).
  - eexists. eexists. split; [vm_compute; reflexivity|]. split; reflexivity.
Qed.
Example C84_normalisation : (forall u v, u =v= v -> upward u =v= upward v) /\ (forall k v, (0 < k)%Q -> upward (vscale k v) =v= upward v) /\ (forall v, upward (upward v) =v= upward v).
Proof.
  assert (K : forall u v, ((cz u ?= 0) = (cz v ?= 0))%Q -> upward u =v= upward v) by (intros u v E; unfold upward; rewrite E; unfold veq; cbn; auto with qarith).
  split; [|split].
  - intros u v (_ & _ & E). apply K. now rewrite E.
  - intros k v Hk. apply K. cbn. destruct (Qcompare_spec (cz v) 0) as [E|E|E].
    + apply Qeq_alt. rewrite E. ring.
    + apply Qlt_alt. rewrite <- (Qmult_0_r k). now apply Qmult_lt_l.
    + apply Qgt_alt. rewrite <- (Qmult_0_r k). now apply Qmult_lt_l.
  - intros v. apply K. unfold upward. cbn [cz]. destruct (Qcompare_spec (cz v) 0) as [E|E|E]; reflexivity.
Qed.
(** The hexahedron of a quadrilateral is twisted: no face of it stands on the first edge of the quadrilateral. *)
Definition one_square : mesh := Mesh square_nodes t_empty (t_add t_empty 0 (Element ET_QUADRILATERAL [4; 7; 2; 9] [])).
Theorem C84_hexahedron_refuted : wf_mesh one_square /\ refs_ok one_square /\ surface one_square /\
  exists m' s' e' fs, extrude (fun v => v) 1 one_square mesh_empty = Ok (m', s') /\ at_pos (m_elems s') 0 = Ok e' /\ elem_faces e' = Ok fs /\
    forall f, In f fs -> ~ (In (t_get (m_nodes s') 0) (coords s' (f_nodes f)) /\ In (t_get (m_nodes s') 1) (coords s' (f_nodes f)) /\
      In (Ok (moved (fun v => v) 1 one_square 4)) (coords s' (f_nodes f)) /\ In (Ok (moved (fun v => v) 1 one_square 7)) (coords s' (f_nodes f))).
Proof.
  assert (E : forall id e, t_get (m_elems one_square) id = Ok e -> e = Element ET_QUADRILATERAL [4; 7; 2; 9] []).
  { intros id e H. unfold t_get, one_square in H. apply zat_Ok in H. cbn in H. destruct (id =? 0); [congruence|discriminate]. }
  split; [|split; [|split]].
  - split; [apply square_nodes_wf|]. split.
    + apply (run_wf face []); [exact I|reflexivity].
    + apply (run_wf _ [Add 0 (Element ET_QUADRILATERAL [4; 7; 2; 9] [])]); [|reflexivity]. cbn. unfold present. cbn. intuition congruence.
  - split; [|intros id f H; discriminate]. intros id e H. rewrite (E id e H); cbn; repeat (apply Forall_cons; [cbn; auto 10|]); apply Forall_nil.
  - intros id e H. rewrite (E id e H); split; auto; reflexivity.
  - destruct (extrude (fun v => v) 1 one_square mesh_empty) as [(m', s')| |] eqn:X; [|vm_compute in X; discriminate|vm_compute in X; discriminate].
    destruct (at_pos (m_elems s') 0) as [e'| |] eqn:P; [|exfalso; revert P; vm_compute in X; injection X as <- <-; discriminate|exfalso; revert P; vm_compute in X; injection X as <- <-; discriminate].
    vm_compute in X. injection X as <- <-. vm_compute in P. injection P as <-. do 4 eexists. split; [reflexivity|]. split; [reflexivity|]. split; [reflexivity|].
    intros f If (H1 & H2 & H3 & H4). vm_compute in If. vm_compute in H1, H2, H3, H4.
    repeat (destruct If as [<-|If]; [vm_compute in H1, H2, H3, H4; intuition congruence|]). contradiction.
Qed.
Print Assumptions C84_hexahedron_refuted.

(** ** C85 *)
Lemma any_unpaired_ok faces fs : (forall f, In f fs -> exists g, t_get faces f = Ok g) ->
  exists b, any_unpaired faces fs = Ok b /\ (b = true <-> exists f g, In f fs /\ t_get faces f = Ok g /\ f_haspair g = false).
Proof.
  induction fs as [|f fs IH]; intros H; cbn.
  - exists false. split; [reflexivity|]. split; [discriminate|intros (? & ? & [] & _)].
  - destruct (H f (or_introl eq_refl)) as (g & Eg). rewrite Eg. cbn. destruct IH as (b & E & Hb); [intros; apply H; now right|]. destruct (f_haspair g) eqn:P.
    + exists b. split; [exact E|]. rewrite Hb. split; intros (x & y & I & J & K); exists x, y; [auto|]. destruct I as [-> | I]; [congruence|auto].
    + exists true. split; [reflexivity|]. split; [|reflexivity]. intros _. exists f, g. auto.
Qed.
Lemma check_open_ok m els : (forall el, In el els -> exists e, t_get (m_elems m) el = Ok e /\ forall f, In f (e_faces e) -> exists g, t_get (m_faces m) f = Ok g) ->
  exists b, check_open_elems m els = Ok b /\ (b = true <-> exists el e f g, In el els /\ t_get (m_elems m) el = Ok e /\ In f (e_faces e) /\ t_get (m_faces m) f = Ok g /\ f_haspair g = false).
Proof.
  induction els as [|el els IH]; intros H; cbn.
  - exists false. split; [reflexivity|]. split; [discriminate|intros (? & ? & ? & ? & [] & _)].
  - destruct (H el (or_introl eq_refl)) as (e & Ee & Hf). rewrite Ee. cbn. destruct (any_unpaired_ok _ _ Hf) as (r & Er & Hr). rewrite Er. cbn. destruct IH as (b & E & Hb); [intros; apply H; now right|].
    destruct r.
    + exists true. split; [reflexivity|]. split; [|reflexivity]. intros _. destruct (proj1 Hr eq_refl) as (f & g & A & B & C). exists el, e, f, g. auto 10.
    + exists b. split; [exact E|]. rewrite Hb. split; intros (el' & e' & f & g & A & B & C & D & F); exists el', e', f, g; [auto|]. destruct A as [-> | A]; [|auto].
      assert (e' = e) by congruence. subst. exfalso. assert (X : false = true) by (apply Hr; eauto). discriminate.
Qed.

(** A mesh whose faces were generated is reported open exactly if some face has no other face with the same nodes. *)
Theorem C85_open : forall n tol m,
  1 <= n <= int_max -> (0 <= tol)%Q -> wf_mesh m -> refs_ok m -> enough m -> spread m ->
  exists m' nb b, generateFaces n tol m = Ok (m', nb) /\ check_open m' = Ok b /\
    (b = true <-> 0 < nb) /\
    (b = true <-> exists a, In a (t_ids (m_faces m')) /\ forall a', ~ mates (m_faces m') a a').
Proof.
  intros n tol m Hn Ht W Rf En Sp. destruct (C13_face_pairing n tol m Hn Ht W Rf En Sp) as (m' & nb & E & _ & W' & _ & _ & _ & Fl & _ & Un & (l & Nl & Il & Lb) & _).
  assert (Wf : wf_table (m_faces m')) by apply W'. assert (We : wf_table (m_elems m')) by apply W'.
  assert (Faces : forall el e f, t_get (m_elems m') el = Ok e -> In f (e_faces e) -> In f (t_ids (m_faces m'))).
  { intros el e f He If. rewrite <- Fl. apply in_flat_map. exists el. split; [eapply wf_get_in; eauto|]. unfold faces_listed. now rewrite He. }
  destruct (check_open_ok m' (t_ids (m_elems m'))) as (b & Eb & Hb).
  { intros el I. destruct (wf_get _ _ We I) as (e & He). exists e. split; [exact He|]. intros f If. apply (wf_get _ _ Wf). eauto. }
  assert (K : b = true <-> exists a, In a (t_ids (m_faces m')) /\ unpaired (m_faces m') a).
  { rewrite Hb. split.
    - intros (el & e & f & g & A & B & C & D & F). exists f. split; [eauto|]. exists g. auto.
    - intros (a & Ia & (g & Hg & Hp)). rewrite <- Fl in Ia. apply in_flat_map in Ia. destruct Ia as (el & Iel & Ia). unfold faces_listed in Ia.
      destruct (t_get (m_elems m') el) as [e| |] eqn:He; try contradiction. exists el, e, a, g. auto. }
  exists m', nb, b. split; [exact E|]. split; [exact Eb|]. split; rewrite K.
  - rewrite Lb. split.
    + intros (a & Ia & U). apply Il in U. destruct l; [destruct U|]. unfold zlen. cbn. lia.
    + intros L. destruct l as [|a l]; [cbn in L; lia|]. exists a. assert (U : unpaired (m_faces m') a) by (apply Il; now left). split; [|exact U]. destruct U as (g & Hg & _). eapply wf_get_in; eauto.
  - split; intros (a & Ia & U); exists a; (split; [exact Ia|]); now apply Un.
Qed.
Print Assumptions C85_open.

(** Crossing triangles: for every element only the first other element found is looked at. *)
Theorem C85_crossing : forall line triangle near elems,
  wf_table elems -> (forall id e, t_get elems id = Ok e -> e_type e = ET_TRIANGLE) -> (forall el o, In o (near el) -> In o (t_ids elems)) ->
  exists b, check_intersections line triangle near elems = Ok b /\
    (b = true <-> exists el o, In el (t_ids elems) /\ find (fun o => negb (el =? o)) (near el) = Some o /\ triangle el o = true).
Proof.
  intros line triangle near elems W T Hn. unfold check_intersections.
  assert (Later : forall el found nt, 2 <= nt -> (forall o, In o found -> In o (t_ids elems)) -> check_found line triangle elems el found 0 nt = Ok false).
  { intros el. induction found as [|o found IH]; intros nt Hnt Hf; cbn; [reflexivity|]. destruct (el =? o); [apply IH; auto; intros; apply Hf; now right|].
    destruct (wf_get _ o W) as (e & Ee); [apply Hf; now left|]. rewrite Ee. cbn [bind]. rewrite (T o e Ee). cbv zeta. cbn [andb Z.eqb].
    replace (nt + 1 =? 2) with false by (symmetry; apply Z.eqb_neq; lia). cbn [andb]. apply IH; [lia|]. intros; apply Hf; now right. }
  assert (First : forall el found, (forall o, In o found -> In o (t_ids elems)) -> exists b, check_found line triangle elems el found 0 1 = Ok b /\ (b = true <-> exists o, find (fun o => negb (el =? o)) found = Some o /\ triangle el o = true)).
  { intros el. induction found as [|o found IH]; intros Hf; cbn [check_found find].
    - exists false. split; [reflexivity|]. split; [discriminate|intros (o & F & _); discriminate].
    - destruct (el =? o) eqn:Eo; cbn [negb]; [apply IH; intros; apply Hf; now right|]. destruct (wf_get _ o W) as (e & Ee); [apply Hf; now left|]. rewrite Ee. cbn [bind]. rewrite (T o e Ee). cbv zeta.
      change (1 + 1 =? 2) with true. change (0 =? 2) with false. cbn [andb]. destruct (triangle el o) eqn:Et.
      + exists true. split; [reflexivity|]. split; [eauto|reflexivity].
      + exists false. split; [apply Later; [lia|intros; apply Hf; now right]|]. split; [discriminate|]. intros (o' & Eo' & Et'). injection Eo' as <-. congruence. }
  assert (All : forall els, (forall el, In el els -> In el (t_ids elems)) -> exists b, check_crossing line triangle near elems els = Ok b /\
     (b = true <-> exists el o, In el els /\ find (fun o => negb (el =? o)) (near el) = Some o /\ triangle el o = true)).
  { induction els as [|el els IH]; intros Hs; cbn [check_crossing].
    - exists false. split; [reflexivity|]. split; [discriminate|intros (? & ? & [] & _)].
    - destruct (wf_get _ el W) as (e & Ee); [apply Hs; now left|]. rewrite Ee. cbn [bind]. rewrite (T el e Ee). destruct (First el (near el) (Hn el)) as (r & Er & Hr). rewrite Er. cbn [bind].
      destruct IH as (b & Eb & Hb); [intros; apply Hs; now right|]. destruct r.
      + exists true. split; [reflexivity|]. split; [|reflexivity]. intros _. destruct (proj1 Hr eq_refl) as (o & Fo & To). exists el, o. split; [now left|auto].
      + exists b. split; [exact Eb|]. rewrite Hb. split; intros (x & o & I & F & Tx); exists x, o; [split; [now right|auto]|]. destruct I as [<- | I]; [|auto]. exfalso. assert (false = true) by (apply Hr; eauto). discriminate. }
  apply All. auto.
Qed.
Print Assumptions C85_crossing.

(** Of three triangles the last two cross, and everything is near everything; the check does not notice. *)
Theorem C85_crossing_refuted : exists line triangle near elems,
  wf_table elems /\ (forall id e, t_get elems id = Ok e -> e_type e = ET_TRIANGLE) /\ (forall el, near el = t_ids elems) /\
  In 1 (t_ids elems) /\ In 2 (t_ids elems) /\ (triangle 1 2 = true /\ triangle 2 1 = true) /\
  check_intersections line triangle near elems = Ok false.
Proof.
  exists (fun _ _ => false), (fun a b => (a * b =? 2)), (fun _ => [0; 1; 2]), (t_add (t_add (t_add t_empty 0 (tri 0 1 2)) 1 (tri 3 4 5)) 2 (tri 6 7 8)).
  split; [|split; [|split; [|split; [|split; [|split]]]]]; try reflexivity.
  - apply (run_wf _ [Add 0 (tri 0 1 2); Add 1 (tri 3 4 5); Add 2 (tri 6 7 8)]); [|reflexivity]. cbn. unfold present. cbn. intuition congruence.
  - intros id e H. unfold t_get in H. apply zat_Ok in H. cbn in H. destruct (id =? 0); [injection H as <-; reflexivity|]. destruct (id =? 1); [injection H as <-; reflexivity|]. destruct (id =? 2); [injection H as <-; reflexivity|discriminate].
  - cbn. auto.
  - cbn. auto.
  - split; reflexivity.
Qed.
Print Assumptions C85_crossing_refuted.

(** Two tetrahedra sharing a face are open, two opposite triangles on the same nodes are closed; both meet the hypotheses. *)
Definition pillow : mesh :=
  Mesh (t_add (t_add (t_add t_empty 0 (Coord 0 0 0)) 1 (Coord 1 0 0)) 2 (Coord 0 1 0)) t_empty (t_add (t_add t_empty 0 (tri 0 1 2)) 1 (tri 0 2 1)).
Example C85_case : (wf_mesh two_tets /\ refs_ok two_tets /\ enough two_tets /\ spread two_tets) /\
  (exists m' nb, generateFaces 2 0 two_tets = Ok (m', nb) /\ check_open m' = Ok true /\ nb = 6) /\
  (exists m' nb, generateFaces 2 0 pillow = Ok (m', nb) /\ check_open m' = Ok false /\ nb = 0).
Proof.
  split; [split; [apply two_tets_ok|]; split; [apply two_tets_ok|]; split; apply two_tets_ok|]. split.
  - eexists. eexists. split; [vm_compute; reflexivity|]. split; reflexivity.
  - eexists. eexists. split; [vm_compute; reflexivity|]. split; reflexivity.
Qed.
