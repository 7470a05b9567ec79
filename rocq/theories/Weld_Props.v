(** C92: a surface as a mesh. *)
From Coq Require Import ZArith List Bool QArith Lia Lqa.
From Verif Require Import Prelude Vec ZMap HashGrid_Model Mesh_Model Mesh_Proofs Surf_Model Surf_Spec Surf_Proofs Split_Proofs Orient_Proofs Orient_Props Weld_Proofs.
Import ListNotations.
Open Scope Z_scope.
Ltac Zify.zify_post_hook ::= Z.div_mod_to_equations.

(** ** Vocabulary *)
(** Node [n] of the mesh lies at [p]. *)
Definition lies_at (m : mesh) (n : Z) (p : coord) : Prop := exists q, t_get (m_nodes m) n = Ok q /\ q =v= p.
(** Node [n] is node [k] (modulo 3) of the element [id]. *)
Definition node_of (m : mesh) (id k n : Z) : Prop := exists e, t_get (m_elems m) id = Ok e /\ nth_error (e_nodes e) (Z.to_nat (k mod 3)) = Some n.
(** The three vertices of every facet are different points. *)
Definition three_points (s : surf) : Prop := forall id k l, In id (u_ids s) -> corner s id k =v= corner s id l -> k mod 3 = l mod 3.
(** At no point do 100 or more corners of facets meet. *)
Definition few_at_points (s : surf) : Prop := forall p cs, NoDup cs -> (forall id k, In (id, k) cs -> In id (u_ids s) /\ 0 <= k < 3 /\ corner s id k =v= p) -> (length cs < 100)%nat.

(** ** One corner *)
Definition even (s : surf) (t : table element) : Prop := forall x y, proper s x -> ahead s x = Some y -> label t (fst x) (snd x) = label t (fst y) (snd y).
Record meshing (s : surf) (st : table coord * table element * Z) : Prop := {
  g_tris : tris (u_ids s) (snd (fst st));
  g_pos : 0 <= snd st;
  g_ids : t_ids (fst (fst st)) = zrange (Z.to_nat (snd st));
  g_label : forall id u, In id (u_ids s) -> label (snd (fst st)) id u = int_max \/ 0 <= label (snd (fst st)) id u < snd st /\ exists q, t_get (fst (fst st)) (label (snd (fst st)) id u) = Ok q /\ q =v= corner s id u }.
(** What holds in addition around vertices which are walked around completely. *)
Definition tidy (s : surf) (st : table coord * table element * Z) : Prop :=
  even s (snd (fst st)) /\ forall n, 0 <= n < snd st -> exists id u, In id (u_ids s) /\ label (snd (fst st)) id u = n.
Definition good (s : surf) : Prop := simple s /\ forall id j, In id (u_ids s) -> 0 <= j < 3 -> (length (corners_at s (corner s id j)) < 100)%nat.
Lemma zrange_app n : zrange (S n) = zrange n ++ [Z.of_nat n].
Proof. unfold zrange. rewrite seq_S, map_app. reflexivity. Qed.
Lemma corner_step s st id j : glued s -> meshing s st -> proper s (id, j) -> snd st < int_max ->
  exists st', mesh_corner s id st j = Ok st' /\ meshing s st' /\ snd st <= snd st' <= snd st + 1 /\ label (snd (fst st')) id j <> int_max /\
    (forall y u, label (snd (fst st)) y u <> int_max -> label (snd (fst st')) y u <> int_max) /\ (good s -> tidy s st -> tidy s st').
Proof.
  destruct st as [[nodes elems] k]. cbn [fst snd]. intros G [T K Ni La] P Hk. cbn [fst snd] in *. unfold mesh_corner. destruct (label_at _ elems id j T (proj1 P) (proj2 P)) as (e & E1 & E2). rewrite E1. cbn [bind]. rewrite E2. cbn [bind].
  destruct (Z.eqb_spec (label elems id j) int_max) as [Em|Nm]; cbn [negb].
  2: { exists (nodes, elems, k). cbn [fst snd]. split; [reflexivity|]. split; [constructor; auto|]. split; [lia|]. auto. }
  rewrite (u_get_stored s id (well_stored_in s id (proj1 G) (proj1 P))). cbn [bind]. destruct (walk_ok s id j k G P 100 false false (id, j) elems P ltac:(reflexivity) T) as (t' & W & T' & Lb & L0). cbn [fst snd vnot] in W, L0. specialize (L0 ltac:(discriminate)). rewrite W. cbn [bind]. exists (t_add nodes k (tget (sf_v (facet s id)) j), t', k + 1). cbn [fst snd]. split; [reflexivity|]. fold (corner s id j).
  split. { constructor; cbn [fst snd]; auto.
    - lia.
    - cbn [t_add t_ids]. rewrite Ni. replace (Z.to_nat (k + 1)) with (S (Z.to_nat k)) by lia. rewrite zrange_app, Z2Nat.id by lia. reflexivity.
    - intros y u Hy. destruct (Lb y u) as [E|[E C]].
      + rewrite E. destruct (La y u Hy) as [->|(H1 & q & H2 & H3)]; [now left|]. right. split; [lia|]. exists q. split; [|exact H3]. unfold t_get, zat in *. cbn [t_add t_map]. rewrite zlookup_insert. destruct (Z.eqb_spec (label elems y u) k); [lia|exact H2].
      + rewrite E. right. split; [lia|]. exists (corner s id j). split; [unfold t_get, zat; cbn [t_add t_map]; now rewrite zlookup_insert_eq|]. symmetry. exact C. }
  split; [lia|]. split; [rewrite L0; lia|]. split; [intros y u H; destruct (Lb y u) as [->|[-> _]]; [exact H|lia]|].
  intros [Sm Fw]. unfold tidy. cbn [fst snd]. intros [Ev Us]. set (Q := fun x : Z * Z => label elems (fst x) (snd x) = int_max).
  assert (Ps : passing s Q). { intros x y Px Qx [H|H]; unfold Q in *; [rewrite <- (Ev x y Px H); exact Qx|]. destruct (behind_ahead s x y G Px H) as (Py & A & _). rewrite (Ev y x Py A). exact Qx. }
  destruct (walk_all s id j k elems Q G Sm P T (Fw id j (proj1 P) (proj2 P)) Ps Em) as (t2 & V & W2 & T2 & Mk & Ab & Cl & If). rewrite W in W2. injection W2 as <-. split.
  - intros x y Px A. destruct (ahead_behind s x y G Px A) as (Py & B & _). destruct (Mk (fst x) (snd x)) as [M1 M2], (Mk (fst y) (snd y)) as [M3 M4]. destruct Px as [X1 X2], Py as [Y1 Y2]. rewrite Z.mod_small in M1, M2, M3, M4 by assumption. rewrite <- !surjective_pairing in M1, M2, M3, M4. destruct (in_dec pair_dec x V) as [H|H].
    + rewrite M1 by exact H. symmetry. apply M3. exact (proj1 (Cl x y H) A).
    + assert (H' : ~ In y V) by (intros C; apply H; exact (proj2 (Cl y x C) B)). rewrite M2, M4 by assumption. apply Ev; [now split|exact A].
  - intros n Hn. destruct (Z.eq_dec n k) as [->|Nk]; [exists id, j; split; [apply P|exact L0]|]. destruct (Us n ltac:(lia)) as (y & u & Hy & E). exists y, u. split; [exact Hy|]. rewrite <- E. apply Mk. intros C. destruct (Ab _ C) as (_ & _ & C'). unfold Q in C'. cbn [fst snd] in C'. rewrite (label_mod elems y (u mod 3) u) in C' by lia. cbn [snd] in Hn. lia.
Qed.
Lemma facet_step s st id : glued s -> meshing s st -> In id (u_ids s) -> snd st + 3 <= int_max ->
  exists st', foldM (mesh_corner s id) [0; 1; 2] st = Ok st' /\ meshing s st' /\ snd st <= snd st' <= snd st + 3 /\ (forall u, label (snd (fst st')) id u <> int_max) /\
    (forall y u, label (snd (fst st)) y u <> int_max -> label (snd (fst st')) y u <> int_max) /\ (good s -> tidy s st -> tidy s st').
Proof.
  intros G M I K. assert (P : forall j, 0 <= j < 3 -> proper s (id, j)) by (intros j Hj; now split).
  destruct (corner_step s st id 0 G M (P 0 ltac:(lia)) ltac:(lia)) as (s1 & R1 & M1 & K1 & L1 & N1 & T1). destruct (corner_step s s1 id 1 G M1 (P 1 ltac:(lia)) ltac:(lia)) as (s2 & R2 & M2 & K2 & L2 & N2 & T2). destruct (corner_step s s2 id 2 G M2 (P 2 ltac:(lia)) ltac:(lia)) as (s3 & R3 & M3 & K3 & L3 & N3 & T3).
  exists s3. split; [cbn [foldM]; rewrite R1; cbn [bind]; rewrite R2; cbn [bind]; rewrite R3; reflexivity|]. split; [exact M3|]. split; [lia|]. split; [|split; auto]. intros u. destruct (tget_cases u) as [E|[E|E]]; [rewrite (label_mod _ id u 0) by lia; auto|rewrite (label_mod _ id u 1) by lia; auto|rewrite (label_mod _ id u 2) by lia; auto].
Qed.
Lemma loop_step s : glued s -> forall l st, meshing s st -> (forall id, In id l -> In id (u_ids s)) -> snd st + 3 * zlen l <= int_max ->
  exists st', foldM (fun st id => foldM (mesh_corner s id) [0; 1; 2] st) l st = Ok st' /\ meshing s st' /\ (forall id u, In id l -> label (snd (fst st')) id u <> int_max) /\
    (forall y u, label (snd (fst st)) y u <> int_max -> label (snd (fst st')) y u <> int_max) /\ (good s -> tidy s st -> tidy s st').
Proof.
  intros G. induction l as [|x l IH]; intros st M I K; [exists st; split; [reflexivity|]; split; [exact M|]; split; [intros id u []|auto]|]. unfold zlen in *. cbn [length] in *. set (F := fun st id => foldM (mesh_corner s id) [0; 1; 2] st) in *.
  destruct (facet_step s st x G M (I x (or_introl eq_refl)) ltac:(lia)) as (s1 & R1 & M1 & K1 & L1 & N1 & T1). assert (Ef : foldM F (x :: l) st = bind (F st x) (foldM F l)) by reflexivity. rewrite Ef. change (F st x) with (foldM (mesh_corner s x) [0; 1; 2] st). rewrite R1. cbn [bind]. destruct (IH s1 M1 (fun y Hy => I y (or_intror Hy)) ltac:(lia)) as (s2 & R2 & M2 & L2 & N2 & T2). exists s2. split; [exact R2|]. split; [exact M2|]. split; [intros id u [<-|H]; auto|]. auto.
Qed.
Lemma start_meshing s : glued s -> let elems := fold_left (fun t id => t_add t id (Element ET_TRIANGLE [int_max; int_max; int_max] [])) (u_ids s) t_empty in
  meshing s (t_empty, elems, 0) /\ tidy s (t_empty, elems, 0).
Proof.
  intros G. cbv zeta. destruct (fold_tris (u_ids s) t_empty) as [A B]. set (elems := fold_left _ _ _) in *. assert (Lb : forall id u, In id (u_ids s) -> label elems id u = int_max). { intros id u Hi. unfold label. rewrite (B id) by now left. cbn [e_nodes]. destruct (tget_cases u) as [E|[E|E]]; rewrite E; reflexivity. }
  split; [constructor; cbn [fst snd]|split; cbn [fst snd]].
  - split; [exact A|]. intros id Hi. exists int_max, int_max, int_max. apply B. now left.
  - lia.
  - reflexivity.
  - intros id u Hi. left. now apply Lb.
  - intros x y Px H. destruct (ahead_behind s x y G Px H) as (Py & _). rewrite !Lb; [reflexivity|apply Py|apply Px].
  - intros n Hn. lia.
Qed.
Lemma good_of s : three_points s -> few_at_points s -> NoDup (u_ids s) -> good s.
Proof.
  intros H F N. split; [exact H|]. intros id j _ _. apply (F (corner s id j)).
  - apply NoDup_filter. unfold spots. induction (u_ids s) as [|x l IH]; [constructor|]. inversion N; subst. cbn [flat_map app]. assert (Nx : forall k, ~ In (x, k) (flat_map (fun id0 => [(id0, 0); (id0, 1); (id0, 2)]) l)) by (intros k C; apply in_flat_map in C; destruct C as (y & Hy & C); cbn in C; destruct C as [C|[C|[C|[]]]]; injection C as -> _; contradiction).
    repeat constructor; auto; cbn [In]; intros C; repeat (destruct C as [C|C]; [discriminate C|]); now apply (Nx _ C).
  - intros y k C. apply filter_In in C. destruct C as [C E]. apply Qsame_spec in E. unfold spots in C. apply in_flat_map in C. destruct C as (z & Hz & C). cbn in C. destruct C as [C|[C|[C|[]]]]; injection C as -> <-; (split; [exact Hz|]; split; [lia|exact E]).
Qed.
Lemma label_node s t nodes id k : tris (u_ids s) t -> In id (u_ids s) -> node_of (Mesh nodes t_empty t) id k (label t id k).
Proof.
  intros [_ T] I. destruct (T id I) as (a & b & c & E). exists (Element ET_TRIANGLE [a; b; c] []). split; [unfold t_get, zat; cbn [m_elems]; now rewrite E|]. unfold label. rewrite E. cbn [e_nodes]. destruct (tget_cases k) as [M|[M|M]]; rewrite M; reflexivity.
Qed.
Lemma node_label s t nodes id k n : tris (u_ids s) t -> In id (u_ids s) -> node_of (Mesh nodes t_empty t) id k n -> n = label t id k.
Proof.
  intros T I (e & E1 & E2). destruct (label_node s t nodes id k T I) as (e' & E1' & E2'). rewrite E1 in E1'. injection E1' as <-. congruence.
Qed.

(** ** C92 *)
(** Every facet becomes a triangle of the same number whose nodes lie at its vertices. *)
Theorem C92_mesh : forall s, glued s -> 3 * zlen (u_ids s) <= int_max ->
  exists m, to_mesh s = Ok m /\ t_ids (m_elems m) = u_ids s /\
    forall id, In id (u_ids s) -> exists n0 n1 n2, t_get (m_elems m) id = Ok (Element ET_TRIANGLE [n0; n1; n2] []) /\
      lies_at m n0 (corner s id 0) /\ lies_at m n1 (corner s id 1) /\ lies_at m n2 (corner s id 2).
Proof.
  intros s G K. unfold to_mesh. destruct (start_meshing s G) as [M0 _]. set (elems := fold_left _ _ _) in *. destruct (loop_step s G (u_ids s) _ M0 (fun id H => H) ltac:(cbn [snd]; lia)) as (st & R & M & L & _). rewrite R. cbn [bind]. eexists. split; [reflexivity|]. cbn [m_elems m_nodes]. destruct M as [[T1 T2] _ _ La]. split; [exact T1|]. intros id I. destruct (T2 id I) as (a & b & c & E). exists a, b, c. split; [unfold t_get, zat; now rewrite E|].
  assert (At : forall u, lies_at (Mesh (fst (fst st)) t_empty (snd (fst st))) (label (snd (fst st)) id u) (corner s id u)) by (intros u; destruct (La id u I) as [H|(_ & q & H1 & H2)]; [exfalso; now apply (L id u I)|exists q; now split]).
  assert (E0 := At 0). assert (E1 := At 1). assert (E2 := At 2). unfold label in E0, E1, E2. rewrite E in E0, E1, E2. auto.
Qed.
Print Assumptions C92_mesh.
(** Neighbours share the nodes of their common edge, and no node is without triangle. *)
Theorem C92_welded : forall s m, glued s -> three_points s -> few_at_points s -> 3 * zlen (u_ids s) <= int_max -> to_mesh s = Ok m ->
  (forall id k nb l, In id (u_ids s) -> linked s id k nb l -> exists n n', node_of m id k n /\ node_of m nb (l + 1) n /\ node_of m id (k + 1) n' /\ node_of m nb l n') /\
  (exists count, t_ids (m_nodes m) = zrange count) /\ (forall n, In n (t_ids (m_nodes m)) -> exists id k, In id (u_ids s) /\ node_of m id k n).
Proof.
  intros s m G Tp Fw K. unfold to_mesh. destruct (start_meshing s G) as [M0 D0]. set (elems := fold_left _ _ _) in *. destruct (loop_step s G (u_ids s) _ M0 (fun id H => H) ltac:(cbn [snd]; lia)) as (st & R & M & L & _ & D). rewrite R. cbn [bind]. intros E. injection E as <-. specialize (D (good_of s Tp Fw (proj1 (proj1 G))) D0). destruct D as [Ev Us], M as [T Kp Ni La]. destruct st as [[nodes t] c]. cbn [fst snd] in *. cbn [m_nodes]. split; [|split].
  - intros id k nb l I Lk. assert (Inb : In nb (u_ids s)) by apply Lk. exists (label t id k), (label t id (k + 1)). split; [now apply (label_node s)|]. assert (Ab : forall a k b l, In a (u_ids s) -> linked s a k b l -> label t a (k + 1) = label t b l).
    { clear - G Ev. intros a k b l Ia Lk. assert (P : proper s (a, (k + 1) mod 3)) by (split; [exact Ia|cbn; lia]). assert (A : ahead s (a, (k + 1) mod 3) = Some (b, l mod 3)). { unfold ahead. cbn [fst snd]. destruct Lk as (Hb & _ & E1 & E2 & _). rewrite (across_mod s a ((k + 1) mod 3 + 2) k), (apart_mod s a ((k + 1) mod 3 + 2) k), E1, E2 by lia. assert (0 <= b) by (apply G; exact Hb). destruct (Z.eqb_spec b (-1)); [lia|]. f_equal. f_equal. lia. }
      assert (X := Ev _ _ P A). cbn [fst snd] in X. rewrite (label_mod t a ((k + 1) mod 3) (k + 1)), (label_mod t b (l mod 3) l) in X by lia. exact X. }
    assert (Lk2 : linked s nb l id k) by now apply linked_sym.
    rewrite <- (Ab nb l id k Inb Lk2). split; [now apply (label_node s)|]. split; [now apply (label_node s)|]. rewrite (Ab id k nb l I Lk). now apply (label_node s).
  - exists (Z.to_nat c). exact Ni.
  - intros n Hn. rewrite Ni in Hn. apply in_map_iff in Hn. destruct Hn as (i & <- & Hi). apply in_seq in Hi. destruct (Us (Z.of_nat i) ltac:(lia)) as (id & u & I & E). exists id, u. split; [exact I|]. rewrite <- E. now apply (label_node s).
Qed.
Print Assumptions C92_welded.

(** *** Cases *)
Definition pointsb (s : surf) : bool := forallb (fun id => negb (Qsame (corner s id 0) (corner s id 1)) && negb (Qsame (corner s id 1) (corner s id 2)) && negb (Qsame (corner s id 2) (corner s id 0))) (u_ids s).
Lemma pointsb_spec s : pointsb s = true -> three_points s.
Proof.
  intros H id k l I E. unfold pointsb in H. rewrite forallb_forall in H. specialize (H id I). rewrite !andb_true_iff, !negb_true_iff in H. destruct H as [[H0 H1] H2]. assert (X : forall a b, Qsame a b = false -> ~ a =v= b) by (intros a b Hab C; apply Qsame_spec in C; congruence). apply X in H0, H1, H2.
  rewrite (corner_mod s id k (k mod 3)), (corner_mod s id l (l mod 3)) in E by lia. destruct (tget_cases k) as [K|[K|K]], (tget_cases l) as [L|[L|L]]; rewrite K, L in E |- *; try reflexivity; exfalso; first [now apply H0|now apply H1|now apply H2|symmetry in E; first [now apply H0|now apply H1|now apply H2]].
Qed.
Lemma few_facets s : NoDup (u_ids s) -> 3 * zlen (u_ids s) < 100 -> few_at_points s.
Proof.
  intros N K p cs Nc H. assert (Q := NoDup_incl_length (l := cs) (l' := spots s) Nc). assert (Ls : zlen (spots s) = 3 * zlen (u_ids s)) by (unfold spots, zlen; clear; induction (u_ids s) as [|x l IH]; [reflexivity|cbn [flat_map app length]; lia]). unfold zlen in Ls, K. enough (length cs <= length (spots s))%nat by lia. apply Q. intros [id k] Hc. destruct (H id k Hc) as (I & Hk & _). apply in_flat_map. exists id. split; [exact I|]. assert (C : k = 0 \/ k = 1 \/ k = 2) by lia. destruct C as [->|[->| ->]]; cbn; auto.
Qed.
(** The corner tetrahedron: twelve corners, four nodes. *)
Example C92_case : glued corner_tet /\ three_points corner_tet /\ few_at_points corner_tet /\ 3 * zlen (u_ids corner_tet) <= int_max /\
  exists m, to_mesh corner_tet = Ok m /\ t_ids (m_nodes m) = [0; 1; 2; 3] /\ t_ids (m_elems m) = [0; 1; 2; 3] /\ node_of m 0 0 0 /\ node_of m 1 0 0 /\ node_of m 3 0 0.
Proof.
  split; [exact corner_tet_glued|]. split; [apply pointsb_spec; vm_compute; reflexivity|]. split; [apply few_facets; [apply corner_tet_glued|vm_compute; reflexivity]|]. split; [vm_compute; discriminate|].
  eexists. split; [vm_compute; reflexivity|]. split; [reflexivity|]. split; [reflexivity|]. repeat split; eexists; split; reflexivity.
Qed.
Lemma orients_joined o s : tied s -> orients o s -> joined s.
Proof. intros [W T] O. split; [exact W|]. intros id k I. destruct (T id k I) as [F|(nb & l & L)]; [now left|]. right. exists nb, l. split; [exact L|]. specialize (O id k nb l I L). destruct (Bool.eqb (o id) (o nb)); [now left|now right]. Qed.
(** Facets which are connected but not consistently oriented, here the corner tetrahedron with one facet turned over: triangles with wrong vertices. *)
Theorem C92_orientation_refuted : exists s m, joined s /\ three_points s /\ few_at_points s /\ 3 * zlen (u_ids s) <= int_max /\ to_mesh s = Ok m /\ exists id k n, In id (u_ids s) /\ node_of m id k n /\ ~ lies_at m n (corner s id k).
Proof.
  destruct (glued_oriented _ corner_tet_glued) as [T O]. assert (I2 : In 2 (u_ids corner_tet)) by (vm_compute; auto). destruct (invert_ok corner_tet 2 0 T I2) as (s & R & Ei & W & C & K).
  assert (T' := inv_tied corner_tet s 2 0 T I2 Ei W C K). assert (O' := inv_orients corner_tet s 2 0 _ T I2 Ei W C K O). assert (J := orients_joined _ s T' O'). clear C K T' O'.
  assert (Es : s = match invert corner_tet 2 0 with Ok x => x | _ => u_empty end) by now rewrite R. vm_compute in Es. exists s. rewrite Es in W, J |- *. eexists. split; [exact J|]. split; [apply pointsb_spec; vm_compute; reflexivity|]. split; [apply few_facets; [apply W|vm_compute; reflexivity]|]. split; [vm_compute; discriminate|]. split; [vm_compute; reflexivity|].
  exists 1, 2, 2. split; [vm_compute; auto|]. split; [eexists; split; reflexivity|]. intros (q & E & V). vm_compute in E. injection E as <-. destruct V as (V & _). vm_compute in V. discriminate.
Qed.
Print Assumptions C92_orientation_refuted.
(** A fan of 101 facets around one point: after 100 facets the walk stops, and neighbours do not share a node. *)
Definition rim (i : Z) : coord := Coord (inject_Z i) (inject_Z (i * i)) 0.
Definition fan (n : Z) : surf := fold_left (fun s i => u_add s i (SFacet (Coord 0 0 1, rim i, rim ((i + 1) mod n)) ((i + n - 1) mod n, -1, (i + 1) mod n) (1, -1, 2))) (zrange (Z.to_nat n)) u_empty.
Lemma existsb_eqb x l : existsb (Z.eqb x) l = true -> In x l.
Proof. intros H. apply existsb_exists in H. destruct H as (y & Hy & E). apply Z.eqb_eq in E. now subst. Qed.
Lemma fan_well n l s : well_stored s -> NoDup l -> (forall i, In i l -> 0 <= i /\ ~ In i (u_ids s)) ->
  well_stored (fold_left (fun s i => u_add s i (SFacet (Coord 0 0 1, rim i, rim ((i + 1) mod n)) ((i + n - 1) mod n, -1, (i + 1) mod n) (1, -1, 2))) l s).
Proof.
  revert s. induction l as [|i l IH]; intros s W N H; [exact W|]. cbn [fold_left]. inversion N; subst. apply IH; [apply well_add; [exact W|apply H; now left|apply H; now left]|assumption|]. intros k Hk. split; [apply H; now right|]. cbn [u_add u_ids]. rewrite in_app_iff. intros [C|[C|[]]]; [revert C; apply H; now right|congruence].
Qed.
Theorem C92_fan_refuted : exists s m id k nb l, glued s /\ three_points s /\ 3 * zlen (u_ids s) <= int_max /\ to_mesh s = Ok m /\ In id (u_ids s) /\ linked s id k nb l /\ forall n, node_of m id k n -> ~ node_of m nb (l + 1) n.
Proof.
  set (r := match to_mesh (fan 101) with Ok m => (match t_get (m_elems m) 100 with Ok e => e_nodes e | _ => [] end, match t_get (m_elems m) 99 with Ok e => e_nodes e | _ => [] end) | _ => ([], []) end).
  assert (Er : r = ([102; 101; 1], [0; 100; 101])) by (vm_compute; reflexivity). unfold r in Er. clear r.
  assert (W : well_stored (fan 101)). { unfold fan. apply fan_well; [apply well_empty| |intros i Hi; split; [|intros []]]. { apply FinFun.Injective_map_NoDup; [intros a b; lia|apply seq_NoDup]. } apply in_map_iff in Hi. destruct Hi as (k & <- & _). lia. }
  destruct (to_mesh (fan 101)) as [m| |] eqn:Em; [|discriminate|discriminate]. exists (fan 101), m, 100, 0, 99, 2. split; [apply gluedb_spec; [exact W|vm_compute; reflexivity]|]. split; [apply pointsb_spec; vm_compute; reflexivity|]. split; [vm_compute; discriminate|]. split; [exact Em|]. split; [apply (existsb_eqb 100); vm_compute; reflexivity|]. split; [apply (linkedb_spec (fan 101) 100 0); vm_compute; reflexivity|].
  intros n (e & E1 & E2) (e' & E1' & E2'). rewrite E1, E1' in Er. injection Er as R1 R2. rewrite R1 in E2. rewrite R2 in E2'. cbn in E2, E2'. congruence.
Qed.
Print Assumptions C92_fan_refuted.

(** *** There and back *)
Lemma of_mesh_ok m (c : Z -> Z -> coord) : forall l s0,
  (forall id, In id l -> exists n0 n1 n2, t_get (m_elems m) id = Ok (Element ET_TRIANGLE [n0; n1; n2] []) /\ lies_at m n0 (c id 0) /\ lies_at m n1 (c id 1) /\ lies_at m n2 (c id 2)) -> NoDup l ->
  exists s', foldM (fun s id =>
    e <- t_get (m_elems m) id ;;
    match e_type e with
    | ET_TRIANGLE =>
      ps <- mapM (t_get (m_nodes m)) (e_nodes e) ;;
      Ok (u_add s id (SFacet (nth 0 ps vzero, nth 1 ps vzero, nth 2 ps vzero) (-1, -1, -1) (-1, -1, -1)))
    | _ => Ok s
    end) l s0 = Ok s' /\ u_ids s' = u_ids s0 ++ l /\ (forall id k, In id l -> corner s' id k =v= c id (k mod 3) /\ free s' id k) /\ (forall id, ~ In id l -> facet s' id = facet s0 id).
Proof.
  set (F := fun s id => _). induction l as [|x l IH]; intros s0 H N; [exists s0; split; [reflexivity|]; split; [now rewrite app_nil_r|]; split; [intros id k []|reflexivity]|].
  destruct (H x (or_introl eq_refl)) as (n0 & n1 & n2 & E & (q0 & A0 & B0) & (q1 & A1 & B1) & (q2 & A2 & B2)). inversion N; subst. set (f := SFacet (q0, q1, q2) (-1, -1, -1) (-1, -1, -1)).
  assert (E1 : F s0 x = Ok (u_add s0 x f)) by (unfold F; rewrite E; cbn [bind e_type e_nodes mapM]; rewrite A0; cbn [bind]; rewrite A1; cbn [bind]; rewrite A2; reflexivity).
  assert (Ef : foldM F (x :: l) s0 = bind (F s0 x) (foldM F l)) by reflexivity. rewrite Ef, E1. cbn [bind]. destruct (IH (u_add s0 x f) (fun y Hy => H y (or_intror Hy)) ltac:(assumption)) as (s' & R & I & C & O). exists s'. split; [exact R|]. split; [rewrite I; cbn [u_add u_ids]; now rewrite <- app_assoc|]. split.
  - intros id k [<-|Hk]; [|now apply C]. unfold corner, free, across, apart. rewrite O by assumption. rewrite facet_add, Z.eqb_refl. unfold f. cbn [sf_v sf_nb sf_vn]. destruct (tget_cases k) as [M|[M|M]]; rewrite M; [rewrite !tget0 by exact M|rewrite !tget1 by exact M|rewrite !tget2 by exact M]; auto.
  - intros id Hi. rewrite O by (intros C'; apply Hi; now right). rewrite facet_add. destruct (Z.eqb_spec id x) as [->|]; [exfalso; apply Hi; now left|reflexivity].
Qed.
(** Taking the facets from the mesh again gives the same facets under the same numbers, without links. *)
Theorem C92_round_trip : forall s, glued s -> 3 * zlen (u_ids s) <= int_max ->
  exists m s', to_mesh s = Ok m /\ of_mesh m = Ok s' /\ u_ids s' = u_ids s /\ forall id k, In id (u_ids s) -> corner s' id k =v= corner s id k /\ free s' id k.
Proof.
  intros s G K. destruct (C92_mesh s G K) as (m & R & I & H). exists m. destruct (of_mesh_ok m (corner s) (u_ids s) u_empty H (proj1 (proj1 G))) as (s' & R' & I' & C & _). exists s'. split; [exact R|]. split; [unfold of_mesh; rewrite I; exact R'|]. split; [exact I'|]. intros id k Hi. destruct (C id k Hi) as [C1 C2]. split; [|exact C2]. rewrite C1. rewrite (corner_mod s id (k mod 3) k) by lia. reflexivity.
Qed.
Print Assumptions C92_round_trip.
