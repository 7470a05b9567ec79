(** Proofs about element topology, face generation, pairing and boundary extraction. *)
From Coq Require Import ZArith List Bool Lia QArith Lqa Permutation Sorting.Sorted.
From Verif Require Import Prelude Vec ZMap Mesh_Model Mesh_Spec Mesh_Proofs HashGrid_Model HashGrid_Spec
  HashGrid_Proofs Mesh_Check Merge_Model Merge_Spec Merge_Proofs Face_Model Face_Spec.
Import ListNotations.
Open Scope Z_scope.

(** ** C11: the face tables *)

Definition npos (l : list Z) (p : Z) : Z := nth (Z.to_nat p) l 0.

Lemma vec_get_npos l p : 0 <= p < zlen l -> vec_get l p = Ok (npos l p).
Proof.
  intros H. unfold vec_get, npos. destruct (Z.ltb_spec p 0); [lia|].
  rewrite (nth_error_nth' l 0) by (unfold zlen in H; lia). reflexivity.
Qed.

Lemma mapM_npos l ps : Forall (fun p => 0 <= p < zlen l) ps -> mapM (vec_get l) ps = Ok (map (npos l) ps).
Proof.
  intros H. apply mapM_ok. intros p Hp. apply vec_get_npos. rewrite Forall_forall in H. auto.
Qed.

Definition mk_faces (e : element) : list face :=
  map (fun tp => Face (fst tp) (map (npos (e_nodes e)) (snd tp)) false 0 0) (face_table (e_type e)).

Lemma face_table_range ty tp p : In tp (face_table ty) -> In p (snd tp) -> 0 <= p < Z.of_nat (node_count ty).
Proof.
  intros H1 H2. destruct ty; cbn in H1; repeat destruct H1 as [<-|H1]; try contradiction;
  cbn in H2; cbn; repeat destruct H2 as [<-|H2]; try contradiction; lia.
Qed.

Lemma elem_faces_ok e : (node_count (e_type e) <= length (e_nodes e))%nat -> elem_faces e = Ok (mk_faces e).
Proof.
  intros H. unfold elem_faces, mk_faces. apply mapM_ok. intros tp Htp. rewrite mapM_npos; [reflexivity|].
  apply Forall_forall. intros p Hp. pose proof (face_table_range _ _ _ Htp Hp). unfold zlen. lia.
Qed.

Lemma cycle_map {A B} (f : A -> B) l : cycle (map f l) = map (fun p => (f (fst p), f (snd p))) (cycle l).
Proof.
  destruct l as [|x r]; [reflexivity|]. cbn [map cycle].
  change [f x] with (map f [x]). rewrite <- map_app. change (f x :: map f r) with (map f (x :: r)).
  generalize (x :: r) (r ++ [x]). clear. induction l as [|a l IH]; intros [|b k]; cbn; auto. now rewrite IH.
Qed.

Definition swap {A} (p : A * A) : A * A := (snd p, fst p).

(** Executable check that every directed edge of the table has a partner in the opposite direction. *)
Fixpoint remove_edge (p : Z * Z) (l : list (Z * Z)) : option (list (Z * Z)) :=
  match l with
  | [] => None
  | q :: l' => if edge_eq_dec q p then Some l'
               else match remove_edge p l' with Some r => Some (q :: r) | None => None end
  end.
Fixpoint perm_check (l k : list (Z * Z)) : bool :=
  match l with
  | [] => match k with [] => true | _ => false end
  | p :: l' => match remove_edge p k with Some k' => perm_check l' k' | None => false end
  end.

Lemma remove_edge_perm p l : forall r, remove_edge p l = Some r -> Permutation (p :: r) l.
Proof.
  induction l as [|q l IH]; cbn; intros r; [discriminate|].
  destruct (edge_eq_dec q p) as [->|]; [intros [= ->]; reflexivity|].
  destruct (remove_edge p l) as [r'|]; [|discriminate]. intros [= <-].
  rewrite perm_swap. constructor. now apply IH.
Qed.

Lemma perm_check_ok l : forall k, perm_check l k = true -> Permutation l k.
Proof.
  induction l as [|p l IH]; intros k; cbn.
  - destruct k; [constructor|discriminate].
  - destruct (remove_edge p k) as [k'|] eqn:E; [|discriminate]. intros H.
    apply remove_edge_perm in E. rewrite <- E. constructor. auto.
Qed.

Definition table_edges (ty : etype) : list (Z * Z) := flat_map (fun tp => cycle (snd tp)) (face_table ty).

Lemma table_closed ty : solid ty -> Permutation (table_edges ty) (map swap (table_edges ty)).
Proof. intros [->|[->| ->]]; apply perm_check_ok; vm_compute; reflexivity. Qed.

Lemma table_simple ty : solid ty -> NoDup (table_edges ty).
Proof.
  intros H. apply (NoDup_map_inv (fun p : Z * Z => fst p * 10 + snd p)).
  apply nodupb_ok. destruct H as [->|[->| ->]]; vm_compute; reflexivity.
Qed.

Lemma mk_faces_edges e :
  flat_map cycle (map f_nodes (mk_faces e)) =
  map (fun p => (npos (e_nodes e) (fst p), npos (e_nodes e) (snd p))) (table_edges (e_type e)).
Proof.
  unfold mk_faces, table_edges. rewrite map_map. cbn [f_nodes].
  induction (face_table (e_type e)) as [|tp l IH]; [reflexivity|].
  cbn [flat_map map]. now rewrite map_app, cycle_map, IH.
Qed.

Lemma count_map_swap (l : list (Z * Z)) a b :
  count_occ edge_eq_dec (map swap l) (a, b) = count_occ edge_eq_dec l (b, a).
Proof.
  induction l as [|[x y] l IH]; [reflexivity|]. cbn [map]. unfold swap at 1. cbn [fst snd].
  destruct (edge_eq_dec (x, y) (b, a)) as [F|F].
  - injection F as -> ->. rewrite !count_occ_cons_eq by reflexivity. now rewrite IH.
  - rewrite !count_occ_cons_neq by congruence. exact IH.
Qed.

Lemma count_perm (l k : list (Z * Z)) p : Permutation l k -> count_occ edge_eq_dec l p = count_occ edge_eq_dec k p.
Proof. intros H. now apply Permutation_count_occ. Qed.

Lemma mk_faces_closed e : solid (e_type e) -> closed_surface (map f_nodes (mk_faces e)).
Proof.
  intros H a b. unfold edge_count. rewrite mk_faces_edges.
  set (f := fun p : Z * Z => (npos (e_nodes e) (fst p), npos (e_nodes e) (snd p))).
  rewrite <- (count_map_swap _ b a). apply count_perm.
  replace (map swap (map f (table_edges (e_type e)))) with (map f (map swap (table_edges (e_type e)))).
  - apply Permutation_map. apply Permutation_sym, table_closed; assumption.
  - rewrite !map_map. apply map_ext. now intros [x y].
Qed.

Lemma npos_inj l p q : NoDup l -> 0 <= p < zlen l -> 0 <= q < zlen l -> npos l p = npos l q -> p = q.
Proof.
  unfold npos, zlen. intros H Hp Hq E. rewrite (NoDup_nth l 0) in H. apply H in E; lia.
Qed.

Lemma cycle_in {A} (l : list A) a b : In (a, b) (cycle l) -> In a l /\ In b l.
Proof.
  destruct l as [|x r]; [contradiction|]. unfold cycle. intros H. pose proof (in_combine_l _ _ _ _ H) as H1.
  apply in_combine_r in H. split; [assumption|]. apply in_app_iff in H. cbn in H |- *. intuition.
Qed.

Lemma table_edges_range ty a b : In (a, b) (table_edges ty) ->
  0 <= a < Z.of_nat (node_count ty) /\ 0 <= b < Z.of_nat (node_count ty).
Proof.
  intros H. apply in_flat_map in H. destruct H as (tp & Htp & H). apply cycle_in in H. destruct H.
  split; eapply face_table_range; eauto.
Qed.

Lemma mk_faces_simple e : solid (e_type e) -> (node_count (e_type e) <= length (e_nodes e))%nat ->
  NoDup (e_nodes e) -> NoDup (flat_map cycle (map f_nodes (mk_faces e))).
Proof.
  intros H Hl Hnd. rewrite mk_faces_edges. apply NoDup_map_in; [now apply table_simple|].
  intros [a b] [c d] H1 H2. cbn. intros [= E1 E2].
  apply table_edges_range in H1, H2. unfold zlen.
  f_equal; (eapply npos_inj; [exact Hnd|unfold zlen; lia..|assumption]).
Qed.

Lemma mk_faces_shape e f : (node_count (e_type e) <= length (e_nodes e))%nat -> In f (mk_faces e) ->
  incl (f_nodes f) (e_nodes e) /\ length (f_nodes f) = face_size (f_type f) /\ f_haspair f = false.
Proof.
  intros Hl H. unfold mk_faces in H. apply in_map_iff in H. destruct H as (tp & <- & Htp). cbn. split; [|split; [|reflexivity]].
  - intros x Hx. apply in_map_iff in Hx. destruct Hx as (p & <- & Hp).
    pose proof (face_table_range _ _ _ Htp Hp). apply nth_In. lia.
  - rewrite map_length. destruct (e_type e); cbn in Htp; repeat destruct Htp as [<-|Htp]; try contradiction; reflexivity.
Qed.

Lemma mk_faces_cover e n : solid (e_type e) -> complete e -> In n (e_nodes e) ->
  exists f, In f (mk_faces e) /\ In n (f_nodes f).
Proof.
  intros H Hc Hn. destruct (In_nth _ _ 0 Hn) as (k & Hk & <-). rewrite Hc in Hk.
  assert (exists tp, In tp (face_table (e_type e)) /\ In (Z.of_nat k) (snd tp)) as (tp & Htp & Hin).
  { assert (G : existsb (fun tp => memb (Z.of_nat k) (snd tp)) (face_table (e_type e)) = true).
    { destruct H as [H|[H|H]]; rewrite H in *; cbn in Hk;
      do 8 (destruct k as [|k]; [vm_compute; reflexivity|try lia]); lia. }
    apply existsb_exists in G. destruct G as (tp & ? & G). apply memb_In in G. eauto. }
  exists (Face (fst tp) (map (npos (e_nodes e)) (snd tp)) false 0 0). split.
  - unfold mk_faces. now apply (in_map (fun tp => Face (fst tp) (map (npos (e_nodes e)) (snd tp)) false 0 0)).
  - cbn. apply in_map_iff. exists (Z.of_nat k). split; [unfold npos; now rewrite Nat2Z.id|assumption].
Qed.

Lemma flat_faces e : e_type e = ET_TRIANGLE \/ e_type e = ET_QUADRILATERAL -> complete e ->
  map (fun f => (f_type f, f_nodes f)) (mk_faces e) = map (fun p => (FT_LINE, [fst p; snd p])) (cycle (e_nodes e)).
Proof.
  unfold complete. intros [H|H] Hc; unfold mk_faces; rewrite H in *; cbn in Hc.
  - destruct (e_nodes e) as [|a [|b [|c [|]]]]; try discriminate. reflexivity.
  - destruct (e_nodes e) as [|a [|b [|c [|d [|]]]]]; try discriminate. reflexivity.
Qed.

Lemma short_elem_UB e : (length (e_nodes e) < node_count (e_type e))%nat ->
  face_table (e_type e) <> [] -> elem_faces e = UB.
Proof.
  intros Hl Hne. unfold elem_faces. destruct e as [ty l fs]. cbn in *.
  destruct ty; cbn in Hl, Hne |- *; try congruence;
  repeat (destruct l as [|? l]; [reflexivity|cbn in Hl; try lia]).
Qed.

(** ** C12: invert *)

(** What [elem_invert] does to a complete element. *)
Definition inverted (e : element) : element :=
  set_e_nodes e (match e_type e, e_nodes e with
                 | ET_BEAM, [a; b] => [b; a]
                 | ET_TRIANGLE, [a; b; c] => [a; c; b]
                 | ET_QUADRILATERAL, [a; b; c; d] => [a; d; c; b]
                 | ET_TETRAHEDRON, [a; b; c; d] => [a; c; b; d]
                 | _, l => l end).

Lemma elem_invert_ok e : complete e -> elem_invert e = Ok (inverted e).
Proof.
  destruct e as [ty l fs]. unfold complete, elem_invert, inverted. cbn [e_type e_nodes]. intros H.
  destruct ty; cbn in H; try reflexivity;
  repeat (destruct l as [|? l]; cbn in H; try discriminate); reflexivity.
Qed.

Lemma inverted_complete e : complete e -> complete (inverted e).
Proof.
  destruct e as [ty l fs]. unfold complete, inverted. cbn [e_type e_nodes set_e_nodes]. intros H.
  destruct ty; cbn in H; try exact H;
  repeat (destruct l as [|? l]; cbn in H; try discriminate); reflexivity.
Qed.

Lemma inverted_twice e : complete e -> inverted (inverted e) = e.
Proof.
  destruct e as [ty l fs]. unfold complete, inverted, set_e_nodes. cbn [e_type e_nodes e_faces]. intros H.
  destruct ty; cbn in H; try reflexivity;
  repeat (destruct l as [|? l]; cbn in H; try discriminate); reflexivity.
Qed.

Lemma inverted_orientation e (P : Z -> coord) : complete e ->
  (e_type e = ET_BEAM -> length_vector (map P (e_nodes (inverted e))) =v= vopp (length_vector (map P (e_nodes e)))) /\
  (e_type e = ET_TRIANGLE \/ e_type e = ET_QUADRILATERAL ->
     area_vector (map P (e_nodes (inverted e))) =v= vopp (area_vector (map P (e_nodes e)))) /\
  (e_type e = ET_TETRAHEDRON -> (tet_volume (map P (e_nodes (inverted e))) == - tet_volume (map P (e_nodes e)))%Q).
Proof.
  destruct e as [ty l fs]. unfold complete, inverted, set_e_nodes. cbn [e_type e_nodes e_faces]. intros H.
  split; [|split].
  - intros ->. cbn in H. destruct l as [|a [|b [|]]]; try discriminate. cbn.
    unfold veq, vopp, vsub; cbn. repeat split; ring.
  - intros [-> | ->]; cbn in H.
    + destruct l as [|a [|b [|c [|]]]]; try discriminate. cbn.
      unfold veq, vopp, vsub; cbn. repeat split; ring.
    + destruct l as [|a [|b [|c [|d [|]]]]]; try discriminate. cbn.
      unfold veq, vopp, vsub; cbn. repeat split; ring.
  - intros ->. cbn in H. destruct l as [|a [|b [|c [|d [|]]]]]; try discriminate. cbn.
    unfold dot, cross, vsub; cbn. ring.
Qed.

Lemma mesh_invert_ok m : wf_mesh m -> (forall id e, t_get (m_elems m) id = Ok e -> complete e) ->
  exists m', mesh_invert m = Ok m' /\ wf_mesh m' /\ m_nodes m' = m_nodes m /\ m_faces m' = m_faces m /\
    t_ids (m_elems m') = t_ids (m_elems m) /\
    (forall id e, t_get (m_elems m) id = Ok e -> t_get (m_elems m') id = Ok (inverted e)).
Proof.
  intros (Wn & Wf & We) Hc. unfold mesh_invert.
  destruct (rewrite_all_ok elem_invert inverted (m_elems m) We) as (t' & E & W' & I & G).
  { intros id e He. apply elem_invert_ok. eauto. }
  rewrite E. cbn [bind]. exists (Mesh (m_nodes m) (m_faces m) t'). cbn. split; [reflexivity|].
  split; [split; [exact Wn|split; assumption]|]. auto.
Qed.

Lemma mesh_invert_twice m : wf_mesh m -> (forall id e, t_get (m_elems m) id = Ok e -> complete e) ->
  exists m1 m2, mesh_invert m = Ok m1 /\ mesh_invert m1 = Ok m2 /\ m_nodes m2 = m_nodes m /\
    t_ids (m_elems m2) = t_ids (m_elems m) /\
    (forall id, t_get (m_elems m2) id = t_get (m_elems m) id).
Proof.
  intros W Hc. destruct (mesh_invert_ok m W Hc) as (m1 & E1 & W1 & N1 & _ & I1 & G1).
  assert (Hc1 : forall id e, t_get (m_elems m1) id = Ok e -> complete e).
  { intros id e He. destruct (wf_get (m_elems m) id) as [e0 He0]; [apply W| |].
    - rewrite <- I1. eapply wf_get_in; [apply W1|exact He].
    - pose proof (G1 _ _ He0). assert (e = inverted e0) by congruence. subst. apply inverted_complete. eauto. }
  destruct (mesh_invert_ok m1 W1 Hc1) as (m2 & E2 & W2 & N2 & _ & I2 & G2).
  exists m1, m2. split; [assumption|]. split; [assumption|]. split; [congruence|]. split; [congruence|].
  intros id. destruct (t_get (m_elems m) id) as [e| |] eqn:E.
  - rewrite (G2 _ _ (G1 _ _ E)). now rewrite inverted_twice by eauto.
  - unfold t_get in *. apply zat_Throw in E. apply zat_Throw.
    destruct (zlookup id (t_map (m_elems m2))) eqn:E'; [|reflexivity]. exfalso.
    assert (In id (t_ids (m_elems m2))) as Hin by (apply W2; congruence).
    rewrite I2, I1 in Hin. apply W in Hin. congruence.
  - unfold t_get, zat in E. destruct (zlookup id (t_map (m_elems m))); discriminate.
Qed.

(** ** C13: generation *)

(** A table whose ids are 0, 1, 2, ... and whose values are [vs]. *)
Record numbered {A} (t : table A) (vs : list A) : Prop := {
  nb_wf : wf_table t;
  nb_ids : t_ids t = zrange (length vs);
  nb_get : forall k v, nth_error vs k = Some v -> t_get t (Z.of_nat k) = Ok v;
  nb_compact : compact t
}.

Lemma numbered_empty {A} : numbered (@t_empty A) [].
Proof.
  constructor.
  - split; [constructor|]. split; [apply zsorted_empty|]. intros id. cbn. tauto.
  - reflexivity.
  - intros [|k] v; discriminate.
  - split; [|reflexivity]. split.
    + intros i id H. unfold t_id in H. apply vec_at_Ok in H. cbn in H. destruct H as [_ H]. destruct (Z.to_nat i); discriminate.
    + intros id _. reflexivity.
Qed.

Lemma zlast_key_in {A} (m : zmap A) k : zlast_key m = Some k -> zlookup k m <> None.
Proof.
  induction m as [|[k' v] m IH]; cbn; [discriminate|]. destruct m as [|p m].
  - intros [= ->]. now rewrite Z.eqb_refl.
  - intros H. destruct (k =? k'); [discriminate|]. now apply IH.
Qed.

Lemma numbered_next {A} (t : table A) vs : numbered t vs -> t_next t = Z.of_nat (length vs).
Proof.
  intros N. destruct (nb_wf _ _ N) as (Hnd & Hs & Hk). destruct (t_next_fresh t Hs) as [_ Hlt].
  unfold t_next in *. destruct (zlast_key (t_map t)) as [k|] eqn:E.
  - apply zlast_key_in in E. apply Hk in E. rewrite (nb_ids _ _ N) in E. apply zrange_in in E.
    destruct (Z.eq_dec (k + 1) (Z.of_nat (length vs))); [assumption|].
    assert (In (k + 1) (t_ids t)) as H by (rewrite (nb_ids _ _ N); apply zrange_in; lia).
    apply Hk, Hlt in H. lia.
  - destruct vs as [|v vs]; [reflexivity|]. exfalso.
    assert (In 0 (t_ids t)) as H by (rewrite (nb_ids _ _ N); apply zrange_in; cbn; lia).
    apply Hk, Hlt in H. lia.
Qed.

Lemma numbered_add_id {A} (t : table A) vs v id : numbered t vs -> id = Z.of_nat (length vs) ->
  numbered (t_add t id v) (vs ++ [v]).
Proof.
  intros N ->. pose proof (numbered_next _ _ N) as Hn. rewrite <- Hn.
  pose proof (nb_wf _ _ N) as W. destruct W as (Hnd & Hs & Hk).
  assert (Hni : ~ In (t_next t) (t_ids t)) by (rewrite (nb_ids _ _ N), zrange_in; lia).
  constructor.
  - now apply t_add_next_wf, N.
  - cbn. rewrite (nb_ids _ _ N), app_length, Nat.add_comm. cbn [length Nat.add]. rewrite zrange_S. congruence.
  - intros k w Hk'. unfold t_get. apply zat_Ok. cbn. rewrite zlookup_insert.
    destruct (Nat.lt_ge_cases k (length vs)) as [Hlt|Hge].
    + rewrite nth_error_app1 in Hk' by assumption.
      destruct (Z.eqb_spec (Z.of_nat k) (t_next t)); [lia|]. apply zat_Ok. now apply (nb_get _ _ N).
    + rewrite nth_error_app2 in Hk' by assumption.
      destruct (k - length vs)%nat as [|j] eqn:E; cbn in Hk'; [|destruct j; discriminate].
      injection Hk' as <-. destruct (Z.eqb_spec (Z.of_nat k) (t_next t)); [reflexivity|lia].
  - apply t_add_compact; [apply N|assumption|apply N].
Qed.

Lemma numbered_add {A} (t : table A) vs v : numbered t vs -> numbered (t_add t (t_next t) v) (vs ++ [v]).
Proof. intros N. apply numbered_add_id; [assumption|]. now apply numbered_next. Qed.

Lemma t_set_wf {A} (t : table A) id v : wf_table t -> In id (t_ids t) ->
  wf_table (t_set t id v) /\ forall k, t_get (t_set t id v) k = if k =? id then Ok v else t_get t k.
Proof.
  intros (Hnd & Hs & Hk) Hin. split; [split; [exact Hnd|split]|].
  - cbn. now apply zsorted_insert.
  - intros k. cbn. rewrite zlookup_insert. destruct (Z.eqb_spec k id) as [->|]; [|apply Hk].
    split; [congruence|tauto].
  - intros k. unfold t_get, zat. cbn. rewrite zlookup_insert. now destruct (k =? id).
Qed.

Definition ids_from (a n : nat) : list Z := map Z.of_nat (seq a n).

Lemma ids_from_S a n : ids_from a (S n) = ids_from a n ++ [Z.of_nat (a + n)].
Proof. unfold ids_from. rewrite seq_S, map_app. reflexivity. Qed.

Lemma ids_from_app a n k : ids_from a (n + k) = ids_from a n ++ ids_from (a + n) k.
Proof. unfold ids_from. now rewrite seq_app, map_app. Qed.

Lemma add_faces_fold id e : forall fs t el F pre,
  numbered t F -> wf_table el -> In id (t_ids el) -> t_get el id = Ok (set_e_faces e pre) ->
  exists t' el', foldM (add_one_face id) fs (t, el) = Ok (t', el') /\
    numbered t' (F ++ map (fun f => set_f_elem f id) fs) /\ wf_table el' /\ t_ids el' = t_ids el /\
    t_get el' id = Ok (set_e_faces e (pre ++ ids_from (length F) (length fs))) /\
    (forall k, k <> id -> t_get el' k = t_get el k).
Proof.
  induction fs as [|f fs IH]; intros t el F pre N W Hin He; cbn [foldM].
  - exists t, el. cbn. rewrite !app_nil_r. auto 10.
  - unfold add_one_face at 1. cbn [fst snd]. rewrite He. cbn [bind].
    destruct (t_set_wf el id (set_e_faces (set_e_faces e pre) (e_faces (set_e_faces e pre) ++ [t_next t])) W Hin) as [W1 G1].
    destruct (IH (t_add t (t_next t) (set_f_elem f id))
                 (t_set el id (set_e_faces (set_e_faces e pre) (e_faces (set_e_faces e pre) ++ [t_next t])))
                 (F ++ [set_f_elem f id]) (pre ++ [t_next t])) as (t' & el' & E & N' & W' & I' & G' & O').
    + now apply numbered_add.
    + assumption.
    + assumption.
    + rewrite G1, Z.eqb_refl. reflexivity.
    + exists t', el'. split; [exact E|]. split; [|split; [exact W'|split; [exact I'|split]]].
      * cbn [map]. rewrite <- app_assoc in N'. exact N'.
      * rewrite G', (numbered_next _ _ N), app_length. cbn [length]. do 2 f_equal. rewrite <- app_assoc. f_equal.
        change (S (length fs)) with (1 + length fs)%nat. rewrite ids_from_app. cbn. reflexivity.
      * intros k Hk. rewrite O' by assumption. rewrite G1. destruct (Z.eqb_spec k id); [contradiction|reflexivity].
Qed.

(** What the generation loop has established after the elements [done]. *)
Record generated (elems : table element) (done : list Z) (F : list face) (t : table face) (el : table element) : Prop := {
  gn_faces : numbered t F;
  gn_wf : wf_table el;
  gn_ids : t_ids el = t_ids elems;
  gn_done : forall id e, In id done -> t_get elems id = Ok e ->
    exists start, t_get el id = Ok (set_e_faces e (ids_from start (length (mk_faces e)))) /\
      forall j f, nth_error (mk_faces e) j = Some f -> nth_error F (start + j) = Some (set_f_elem f id);
  gn_rest : forall id, ~ In id done -> t_get el id = t_get elems id;
  gn_order : flat_map (faces_listed el) done = zrange (length F);
  gn_all : forall f, In f F -> exists id e f0, In id done /\ t_get elems id = Ok e /\ In f0 (mk_faces e) /\ f = set_f_elem f0 id
}.

Lemma generate_ok m : wf_mesh m -> enough m ->
  exists t el F, foldM add_elem_faces (t_ids (m_elems m)) (t_empty, m_elems m) = Ok (t, el) /\
    generated (m_elems m) (t_ids (m_elems m)) F t el.
Proof.
  intros (_ & _ & W) Hen.
  destruct (foldM_invariant add_elem_faces
    (fun done st => exists F, generated (m_elems m) done F (fst st) (snd st))
    (t_ids (m_elems m)) (t_empty, m_elems m)) as ((t & el) & E & F & G).
  - exists []. constructor; cbn.
    + apply numbered_empty.
    + assumption.
    + reflexivity.
    + contradiction.
    + reflexivity.
    + reflexivity.
    + contradiction.
  - intros done id rest (t & el) Hl (F & G). cbn [fst snd] in G.
    assert (Hin : In id (t_ids (m_elems m))) by (rewrite Hl; apply in_elt).
    assert (Hnd : ~ In id done).
    { destruct W as (Hnd & _). rewrite Hl in Hnd. apply NoDup_remove_2 in Hnd. intros H. apply Hnd, in_app_iff. now left. }
    destruct (wf_get _ id W Hin) as [e He].
    unfold add_elem_faces. cbn [fst snd]. rewrite (gn_rest _ _ _ _ _ G id Hnd), He. cbn [bind].
    rewrite (elem_faces_ok e (Hen _ _ He)). cbn [bind].
    assert (Hin' : In id (t_ids el)) by now rewrite (gn_ids _ _ _ _ _ G).
    destruct (t_set_wf el id (set_e_faces e []) (gn_wf _ _ _ _ _ G) Hin') as [W1 G1].
    destruct (add_faces_fold id e (mk_faces e) t (t_set el id (set_e_faces e [])) F [] (gn_faces _ _ _ _ _ G) W1 Hin')
      as (t' & el' & E & N' & W' & I' & G' & O').
    { rewrite G1, Z.eqb_refl. reflexivity. }
    exists (t', el'). split; [exact E|]. exists (F ++ map (fun f => set_f_elem f id) (mk_faces e)). cbn [fst snd app] in *.
    assert (Ho : forall k, k <> id -> t_get el' k = t_get el k).
    { intros k Hk. rewrite O' by assumption. rewrite G1. destruct (Z.eqb_spec k id); [contradiction|reflexivity]. }
    constructor.
    + exact N'.
    + exact W'.
    + rewrite I'. apply G.
    + intros k e' Hk He'. apply in_app_iff in Hk. destruct Hk as [Hk|[<-|[]]].
      * destruct (gn_done _ _ _ _ _ G k e' Hk He') as (start & Hg & Hf). exists start.
        rewrite Ho by (intros ->; contradiction). split; [exact Hg|].
        intros j f Hj. specialize (Hf j f Hj). rewrite nth_error_app1; [assumption|]. apply nth_error_Some. congruence.
      * assert (e' = e) by congruence. subst e'. exists (length F). split; [exact G'|].
        intros j f Hj. rewrite nth_error_app2 by lia. replace (length F + j - length F)%nat with j by lia.
        rewrite nth_error_map, Hj. reflexivity.
    + intros k Hk. rewrite in_app_iff in Hk. rewrite Ho by (intros ->; apply Hk; right; now left).
      apply G. tauto.
    + rewrite flat_map_app. cbn [flat_map]. rewrite app_nil_r, app_length, map_length.
      unfold faces_listed at 2. rewrite G'. cbn [e_faces set_e_faces].
      replace (flat_map (faces_listed el') done) with (flat_map (faces_listed el) done).
      * rewrite (gn_order _ _ _ _ _ G). unfold zrange, ids_from. now rewrite seq_app, map_app.
      * assert (H : forall k, In k done -> faces_listed el k = faces_listed el' k).
        { intros k Hk. unfold faces_listed. rewrite Ho; [reflexivity|]. intros ->. contradiction. }
        clear -H. induction done as [|k done IH]; cbn; [reflexivity|]. rewrite H by now left. f_equal.
        apply IH. intros; apply H; now right.
    + intros f Hf. apply in_app_iff in Hf. destruct Hf as [Hf|Hf].
      * destruct (gn_all _ _ _ _ _ G f Hf) as (k & e' & f0 & ? & ? & ? & ?). exists k, e', f0. rewrite in_app_iff. auto.
      * apply in_map_iff in Hf. destruct Hf as (f0 & <- & Hf). exists id, e, f0. rewrite in_app_iff. cbn. auto.
  - exists t, el, F. split; [exact E|exact G].
Qed.

(** ** C13: pairing *)

Lemma sorted_perm_eq (a b : list Z) : StronglySorted Z.le a -> StronglySorted Z.le b -> Permutation a b -> a = b.
Proof.
  revert b. induction a as [|x a IH]; intros b Sa Sb P.
  - apply Permutation_nil in P. now subst.
  - destruct b as [|y b]; [apply Permutation_sym, Permutation_nil in P; discriminate|].
    inversion Sa as [|? ? Sa' Fa]; subst. inversion Sb as [|? ? Sb' Fb]; subst.
    rewrite Forall_forall in Fa, Fb.
    assert (x = y).
    { assert (H1 : In x (y :: b)) by (eapply Permutation_in; [exact P|now left]).
      assert (H2 : In y (x :: a)) by (eapply Permutation_in; [apply Permutation_sym, P|now left]).
      destruct H1 as [?|H1]; [congruence|]. destruct H2 as [?|H2]; [congruence|].
      specialize (Fa _ H2). specialize (Fb _ H1). lia. }
    subst. f_equal. apply IH; auto. now apply Permutation_cons_inv in P.
Qed.

Lemma zsort_eq_iff a b : zsort a = zsort b <-> Permutation a b.
Proof.
  split.
  - intros H. rewrite <- (zsort_perm a), H. apply zsort_perm.
  - intros H. apply sorted_perm_eq; try apply zsort_sorted. rewrite !zsort_perm. exact H.
Qed.

Lemma ids_eqb_iff a : forall b, ids_eqb a b = true <-> a = b.
Proof.
  induction a as [|x a IH]; intros [|y b]; cbn; try (split; [discriminate|congruence]); [tauto|].
  rewrite andb_true_iff, Z.eqb_eq, IH. split; [intros [-> ->]; reflexivity|intros [= -> ->]; auto].
Qed.

Lemma ftype_eqb_iff a b : ftype_eqb a b = true <-> a = b.
Proof. destruct a, b; cbn; split; congruence. Qed.

Lemma same_face_iff f g : same_face f g = true <-> f_type f = f_type g /\ Permutation (f_nodes f) (f_nodes g).
Proof. unfold same_face. now rewrite andb_true_iff, ftype_eqb_iff, ids_eqb_iff, zsort_eq_iff. Qed.

(** [t] differs from [t0] at most in pairing. *)
Record paired_from (t0 t : table face) : Prop := {
  pf_wf : wf_table t;
  pf_ids : t_ids t = t_ids t0;
  pf_data : forall id f0, t_get t0 id = Ok f0 ->
    exists f, t_get t id = Ok f /\ f_type f = f_type f0 /\ f_nodes f = f_nodes f0 /\ f_elem f = f_elem f0;
  pf_mate : forall a b, has_pair t a b -> mates t0 a b;
  pf_sym : forall a b, has_pair t a b -> exists c, has_pair t b c
}.

Lemma paired_back t0 t id f : wf_table t0 -> paired_from t0 t -> t_get t id = Ok f ->
  exists f0, t_get t0 id = Ok f0 /\ f_type f = f_type f0 /\ f_nodes f = f_nodes f0 /\ f_elem f = f_elem f0.
Proof.
  intros W P H. destruct (wf_get t0 id W) as [f0 H0].
  - rewrite <- (pf_ids _ _ P). eapply wf_get_in; [apply P|exact H].
  - destruct (pf_data _ _ P id f0 H0) as (f' & E & D). assert (f' = f) by congruence. subst. eauto.
Qed.

Lemma mates_sym t a b : mates t a b -> mates t b a.
Proof.
  intros (Hne & f & g & Hf & Hg & Ht & Hp). split; [auto|]. exists g, f.
  split; [assumption|]. split; [assumption|]. split; [auto|]. now apply Permutation_sym.
Qed.

Lemma mates_from t0 t a b : wf_table t0 -> paired_from t0 t -> (mates t a b <-> mates t0 a b).
Proof.
  intros W P. split; intros (Hne & f & g & Hf & Hg & Ht & Hp); (split; [assumption|]).
  - destruct (paired_back _ _ _ _ W P Hf) as (f0 & Hf0 & Tf & Nf & _).
    destruct (paired_back _ _ _ _ W P Hg) as (g0 & Hg0 & Tg & Ng & _).
    exists f0, g0. rewrite <- Tf, <- Tg, <- Nf, <- Ng. auto.
  - destruct (pf_data _ _ P _ _ Hf) as (f1 & Hf1 & Tf & Nf & _).
    destruct (pf_data _ _ P _ _ Hg) as (g1 & Hg1 & Tg & Ng & _).
    exists f1, g1. rewrite Tf, Tg, Nf, Ng. auto.
Qed.

(** One successful pairing. *)
Lemma set_pairs_ok t0 t a b f g :
  wf_table t0 -> paired_from t0 t -> t_get t a = Ok f -> t_get t b = Ok g -> mates t0 a b ->
  let t1 := t_set t a (set_pair f b) in
  exists t2, (g1 <- t_get t1 b ;; Ok (t_set t1 b (set_pair g1 a))) = Ok t2 /\
    paired_from t0 t2 /\ has_pair t2 a b /\ has_pair t2 b a /\
    (forall k, k <> a -> k <> b -> t_get t2 k = t_get t k).
Proof.
  intros W0 P Hf Hg M t1. pose proof M as (Hne & _).
  pose proof (pf_wf _ _ P) as W.
  assert (Ha : In a (t_ids t)) by (eapply wf_get_in; eauto).
  assert (Hb : In b (t_ids t)) by (eapply wf_get_in; eauto).
  destruct (t_set_wf t a (set_pair f b) W Ha) as [W1 G1]. fold t1 in W1, G1.
  assert (E1 : t_get t1 b = Ok g). { rewrite G1. destruct (Z.eqb_spec b a); [congruence|assumption]. }
  rewrite E1. cbn [bind].
  destruct (t_set_wf t1 b (set_pair g a) W1 Hb) as [W2 G2].
  exists (t_set t1 b (set_pair g a)). split; [reflexivity|].
  assert (Ga : t_get (t_set t1 b (set_pair g a)) a = Ok (set_pair f b)).
  { rewrite G2. destruct (Z.eqb_spec a b); [contradiction|]. now rewrite G1, Z.eqb_refl. }
  assert (Gb : t_get (t_set t1 b (set_pair g a)) b = Ok (set_pair g a)).
  { now rewrite G2, Z.eqb_refl. }
  assert (Go : forall k, k <> a -> k <> b -> t_get (t_set t1 b (set_pair g a)) k = t_get t k).
  { intros k H1 H2. rewrite G2, G1. destruct (Z.eqb_spec k b); [contradiction|]. now destruct (Z.eqb_spec k a). }
  assert (Pa : has_pair (t_set t1 b (set_pair g a)) a b) by (exists (set_pair f b); auto).
  assert (Pb : has_pair (t_set t1 b (set_pair g a)) b a) by (exists (set_pair g a); auto).
  split; [|auto].
  constructor.
  - exact W2.
  - cbn. apply P.
  - intros id f0 H0. destruct (pf_data _ _ P id f0 H0) as (f' & Hf' & D).
    destruct (Z.eq_dec id a) as [->|Ha'].
    + exists (set_pair f b). split; [exact Ga|]. assert (f' = f) by congruence. subst. exact D.
    + destruct (Z.eq_dec id b) as [->|Hb'].
      * exists (set_pair g a). split; [exact Gb|]. assert (f' = g) by congruence. subst. exact D.
      * exists f'. rewrite Go by assumption. auto.
  - intros x y (h & Hh & H1 & H2). destruct (Z.eq_dec x a) as [->|Ha'].
    + rewrite Ga in Hh. injection Hh as <-. cbn in H2. now subst.
    + destruct (Z.eq_dec x b) as [->|Hb'].
      * rewrite Gb in Hh. injection Hh as <-. cbn in H2. subst. now apply mates_sym.
      * rewrite Go in Hh by assumption. apply P. exists h. auto.
  - intros x y (h & Hh & H1 & H2). destruct (Z.eq_dec y a) as [->|Ha']; [eauto|].
    destruct (Z.eq_dec y b) as [->|Hb']; [eauto|].
    destruct (Z.eq_dec x a) as [->|Hxa]; [rewrite Ga in Hh; injection Hh as <-; cbn in H2; congruence|].
    destruct (Z.eq_dec x b) as [->|Hxb]; [rewrite Gb in Hh; injection Hh as <-; cbn in H2; congruence|].
    rewrite Go in Hh by assumption. destruct (pf_sym _ _ P x y) as (c & h' & Hc); [exists h; auto|].
    exists c, h'. now rewrite Go by assumption.
Qed.

Lemma pair_scan_ok t0 a found : forall t,
  wf_table t0 -> paired_from t0 t -> In a (t_ids t0) -> (forall b, In b found -> In b (t_ids t0)) ->
  exists t', pair_scan a found t = Ok t' /\ paired_from t0 t' /\
    (forall x y, has_pair t x y -> exists y', has_pair t' x y') /\
    ((exists b, In b found /\ mates t0 a b) -> exists b, has_pair t' a b).
Proof.
  induction found as [|b found IH]; intros t W0 P Ha Hf; cbn [pair_scan].
  - exists t. split; [reflexivity|]. split; [assumption|]. split; [eauto|]. intros (b & [] & _).
  - destruct (Z.eqb_spec b a) as [->|Hne].
    + destruct (IH t W0 P Ha) as (t' & E & P' & K & M); [intros; apply Hf; now right|].
      exists t'. split; [assumption|]. split; [assumption|]. split; [assumption|].
      intros (b & [->|Hb] & Mb); [destruct Mb; congruence|eauto].
    + destruct (wf_get t a) as [f Hfa]; [apply P|rewrite (pf_ids _ _ P); assumption|].
      destruct (wf_get t b) as [g Hgb]; [apply P|rewrite (pf_ids _ _ P); apply Hf; now left|].
      rewrite Hfa, Hgb. cbn [bind].
      destruct (same_face f g) eqn:S.
      * apply same_face_iff in S.
        assert (M : mates t0 a b).
        { apply (mates_from t0 t a b W0 P). split; [congruence|]. exists f, g. tauto. }
        destruct (set_pairs_ok t0 t a b f g W0 P Hfa Hgb M) as (t2 & E2 & P2 & Pa & Pb & Go).
        exists t2. split; [exact E2|]. split; [exact P2|]. split; [|eauto].
        intros x y (h & Hh & H1 & H2). destruct (Z.eq_dec x a) as [->|]; [eauto|].
        destruct (Z.eq_dec x b) as [->|]; [eauto|]. exists y, h. now rewrite Go by assumption.
      * destruct (IH t W0 P Ha) as (t' & E & P' & K & M); [intros; apply Hf; now right|].
        exists t'. split; [assumption|]. split; [assumption|]. split; [assumption|].
        intros (b' & [->|Hb] & Mb); [|eauto]. exfalso.
        apply (mates_from t0 t _ _ W0 P) in Mb. destruct Mb as (_ & f' & g' & Hf' & Hg' & T & Pm).
        assert (same_face f g = true); [|congruence]. apply same_face_iff. split; congruence.
Qed.

(** ** Centres *)

Lemma vadd_fold_perm l k : Permutation l k -> forall s s', s =v= s' -> fold_left vadd l s =v= fold_left vadd k s'.
Proof.
  induction 1 as [|x l k P IH|x y l|l k j P1 IH1 P2 IH2]; intros s s' H; cbn.
  - assumption.
  - apply IH. now rewrite H.
  - enough (G : vadd (vadd s y) x =v= vadd (vadd s' x) y).
    { revert G. generalize (vadd (vadd s y) x) (vadd (vadd s' x) y). clear.
      induction l as [|z l IH]; cbn; intros a b G; [assumption|]. apply IH. now rewrite G. }
    destruct H as (H1 & H2 & H3). unfold veq, vadd; cbn. repeat split; [rewrite H1|rewrite H2|rewrite H3]; ring.
  - rewrite (IH1 s s' H). apply IH2. reflexivity.
Qed.

Lemma face_centre_ok m f : wf_table (m_nodes m) -> Forall (fun n => In n (t_ids (m_nodes m))) (f_nodes f) ->
  exists cs, coords m (f_nodes f) = map Ok cs /\
    face_centre (m_nodes m) f = Ok (match cs with [] => vzero | _ => mean cs end).
Proof.
  intros W H. destruct (coords_exist m (f_nodes f) W H) as [cs Hcs]. exists cs. split; [assumption|].
  unfold face_centre. rewrite (vadd_fold m _ _ _ Hcs). cbn [bind].
  assert (L : length (f_nodes f) = length cs) by (rewrite <- (map_length Ok cs), <- Hcs; unfold coords; now rewrite map_length).
  unfold zlen. rewrite L. destruct cs; [reflexivity|]. unfold mean, zlen.
  destruct (Z.ltb_spec 0 (Z.of_nat (length (c :: cs)))); [reflexivity|cbn in *; lia].
Qed.

Lemma coords_inj (cs ds : list coord) : map (@Ok coord) cs = map Ok ds -> cs = ds.
Proof.
  revert ds. induction cs as [|a cs IH]; intros [|b l]; cbn; try discriminate; [reflexivity|]. intros [= -> E]. f_equal. now apply IH.
Qed.

Lemma coords_perm m l k cs ds : Permutation l k -> coords m l = map Ok cs -> coords m k = map Ok ds -> Permutation cs ds.
Proof.
  intros P H1 H2. assert (Q : Permutation (map (@Ok coord) cs) (map Ok ds)).
  { rewrite <- H1, <- H2. unfold coords. now apply Permutation_map. }
  apply Permutation_map_inv in Q. destruct Q as (l3 & E & Q).
  apply coords_inj in E. subst. now apply Permutation_sym.
Qed.

Lemma mean_perm cs ds : Permutation cs ds -> mean cs =v= mean ds.
Proof.
  intros P. unfold mean. unfold zlen. rewrite (Permutation_length P).
  pose proof (vadd_fold_perm _ _ P vzero vzero (reflexivity _)) as (H1 & H2 & H3).
  unfold veq, vscale; cbn. now rewrite H1, H2, H3.
Qed.

Lemma mates_centre m f g c d : wf_table (m_nodes m) ->
  Forall (fun n => In n (t_ids (m_nodes m))) (f_nodes f) -> Forall (fun n => In n (t_ids (m_nodes m))) (f_nodes g) ->
  Permutation (f_nodes f) (f_nodes g) ->
  face_centre (m_nodes m) f = Ok c -> face_centre (m_nodes m) g = Ok d -> c =v= d.
Proof.
  intros W Hf Hg P Ec Ed.
  destruct (face_centre_ok m f W Hf) as (cs & Hcs & E1). destruct (face_centre_ok m g W Hg) as (ds & Hds & E2).
  rewrite E1 in Ec. rewrite E2 in Ed. injection Ec as <-. injection Ed as <-.
  pose proof (coords_perm _ _ _ _ _ P Hcs Hds) as Q.
  destruct cs; [apply Permutation_nil in Q; subst; reflexivity|].
  destruct ds; [apply Permutation_sym, Permutation_nil in Q; discriminate|]. now apply mean_perm.
Qed.

(** ** The whole function *)

Lemma generated_face m F t el id e f : wf_mesh m -> generated (m_elems m) (t_ids (m_elems m)) F t el ->
  t_get (m_elems m) id = Ok e -> In f (mk_faces e) ->
  exists k, nth_error F k = Some (set_f_elem f id) /\ t_get t (Z.of_nat k) = Ok (set_f_elem f id).
Proof.
  intros W G He Hf. destruct (gn_done _ _ _ _ _ G id e) as (start & _ & H); [|assumption|].
  - eapply wf_get_in; [apply W|exact He].
  - destruct (In_nth_error _ _ Hf) as [j Hj]. exists (start + j)%nat. split; [auto|].
    apply (nb_get _ _ (gn_faces _ _ _ _ _ G)). auto.
Qed.

Lemma numbered_get {A} (t : table A) vs id v : numbered t vs -> t_get t id = Ok v ->
  exists k, id = Z.of_nat k /\ nth_error vs k = Some v.
Proof.
  intros N H. assert (Hin : In id (t_ids t)) by (eapply wf_get_in; [apply N|exact H]).
  rewrite (nb_ids _ _ N) in Hin. apply zrange_in in Hin. exists (Z.to_nat id). split; [lia|].
  destruct (nth_error vs (Z.to_nat id)) as [w|] eqn:E.
  - apply (nb_get _ _ N) in E. rewrite Z2Nat.id in E by lia. congruence.
  - apply nth_error_None in E. lia.
Qed.

Lemma count_unpaired t : wf_table t ->
  exists l, NoDup l /\ (forall id, In id l <-> unpaired t id) /\ count_boundary t = zlen l.
Proof.
  intros (Hnd & Hs & Hk). exists (map fst (filter (fun p => negb (f_haspair (snd p))) (t_map t))).
  split; [|split].
  - pose proof (zsorted_NoDup _ Hs) as H. unfold zkeys in H.
    revert H. generalize (t_map t) as l. induction l as [|p l IH]; cbn; intros H; [constructor|].
    inversion H as [|? ? Hni Hnd']; subst. destruct (negb _); cbn; [constructor|]; auto.
    intros Hin. apply Hni. apply in_map_iff in Hin. destruct Hin as (q & <- & Hq). apply filter_In in Hq. now apply in_map.
  - intros id. split.
    + intros H. apply in_map_iff in H. destruct H as ([k f] & <- & H). apply filter_In in H. cbn in *.
      exists f. split; [apply zat_Ok; apply zlookup_of_in; tauto|]. apply negb_true_iff. tauto.
    + intros (f & Hf & Hp). apply zat_Ok in Hf. apply in_map_iff. exists (id, f). split; [reflexivity|].
      apply filter_In. split; [now apply zlookup_in|]. cbn. now rewrite Hp.
  - unfold count_boundary, zlen. now rewrite map_length.
Qed.

Theorem generateFaces_ok n tol m :
  1 <= n <= int_max -> (0 <= tol)%Q -> wf_mesh m -> refs_ok m -> enough m -> spread m ->
  exists m' nb t0 F, generateFaces n tol m = Ok (m', nb) /\ m_nodes m' = m_nodes m /\
    generated (m_elems m) (t_ids (m_elems m)) F t0 (m_elems m') /\
    paired_from t0 (m_faces m') /\ nb = count_boundary (m_faces m') /\
    (forall a, (exists b, mates (m_faces m') a b) -> exists b, has_pair (m_faces m') a b).
Proof.
  intros Hn Htol W R Hen Hsp. destruct (generate_ok m W Hen) as (t0 & el & F & E0 & G).
  unfold generateFaces. rewrite E0. cbn [bind fst snd].
  pose proof (gn_faces _ _ _ _ _ G) as N. pose proof (nb_wf _ _ N) as W0.
  assert (Hnodes : forall k f, t_get t0 k = Ok f -> Forall (fun n => In n (t_ids (m_nodes m))) (f_nodes f)).
  { intros k f Hf. destruct (numbered_get _ _ _ _ N Hf) as (j & -> & Hj). apply nth_error_In in Hj.
    destruct (gn_all _ _ _ _ _ G f Hj) as (id & e & f0 & Hid & He & Hf0 & ->). cbn.
    destruct (mk_faces_shape e f0 (Hen _ _ He) Hf0) as (Hi & _). destruct R as (Re & _).
    pose proof (Re _ _ He) as Hall. rewrite Forall_forall in Hall |- *. auto. }
  destruct (with_ids_ok (fun id => f <- t_get t0 id ;; face_centre (m_nodes m) f) (t_ids t0)) as (objs & Eo & Mo & Io).
  { intros id Hid. destruct (wf_get _ _ W0 Hid) as [f Hf]. rewrite Hf. cbn [bind].
    destruct (face_centre_ok m f (proj1 W) (Hnodes _ _ Hf)) as (cs & _ & E). eauto. }
  rewrite Eo. cbn [bind].
  assert (Hobj : forall k f c, t_get t0 k = Ok f -> face_centre (m_nodes m) f = Ok c -> In (k, c) objs).
  { intros k f c Hf Hc. apply Io. split; [eapply wf_get_in; eauto|]. rewrite Hf. exact Hc. }
  destruct (grid_of_ok n objs Hn) as (g & Eg & Hg).
  { destruct Hsp as (id1 & e1 & fs1 & f1 & c1 & id2 & e2 & fs2 & f2 & c2 & (He1 & Hfs1 & Hf1 & Hc1) & (He2 & Hfs2 & Hf2 & Hc2) & Hne).
    rewrite elem_faces_ok in Hfs1 by eauto. injection Hfs1 as <-.
    rewrite elem_faces_ok in Hfs2 by eauto. injection Hfs2 as <-.
    assert (Hc : forall id e f c, t_get (m_elems m) id = Ok e -> In f (mk_faces e) -> centre_of m (f_nodes f) c ->
               exists k, In (k, c) objs).
    { intros id e f c He Hf (cs & Hcs & ->). destruct (generated_face m F t0 el id e f W G He Hf) as (k & _ & Hk).
      exists (Z.of_nat k). apply (Hobj _ _ _ Hk).
      destruct (face_centre_ok m _ (proj1 W) (Hnodes _ _ Hk)) as (cs' & Hcs' & E). cbn [f_nodes set_f_elem] in Hcs'.
      rewrite E. do 2 f_equal. assert (cs' = cs) by (apply coords_inj; congruence). now subst. }
    destruct (Hc _ _ _ _ He1 Hf1 Hc1) as [k1 H1]. destruct (Hc _ _ _ _ He2 Hf2 Hc2) as [k2 H2].
    exists (k1, c1), (k2, c2). auto. }
  rewrite Eg. cbn [bind].
  assert (Hnp : forall a b, ~ has_pair t0 a b).
  { intros a b (f & Hf & Hp & _). destruct (numbered_get _ _ _ _ N Hf) as (j & -> & Hj). apply nth_error_In in Hj.
    destruct (gn_all _ _ _ _ _ G f Hj) as (id & e & f0 & Hid & He & Hf0 & ->). cbn in Hp.
    destruct (mk_faces_shape e f0 (Hen _ _ He) Hf0) as (_ & _ & E). congruence. }
  destruct (foldM_invariant (pair_step g tol)
    (fun done t => paired_from t0 t /\
       (forall a, In a (map fst done) -> (exists b, mates t0 a b) -> exists b, has_pair t a b))
    objs t0) as (t & Et & P & Hall).
  - split; [|intros a []]. constructor; [exact W0|reflexivity| | |].
    + intros id f0 H. exists f0. auto.
    + intros a b H. destruct (Hnp _ _ H).
    + intros a b H. destruct (Hnp _ _ H).
  - intros done (a & c) rest t Hl (P & Hd). unfold pair_step. cbn [fst snd].
    assert (Hac : In (a, c) objs) by (rewrite Hl; apply in_elt).
    destruct (Hg a c tol Hac Htol) as (r & Er & _ & _ & Hr). rewrite Er. cbn [bind].
    pose proof Hac as Hac'. apply Io in Hac'. destruct Hac' as [Ha Hc].
    destruct (pair_scan_ok t0 a r t W0 P Ha) as (t' & E & P' & K & M).
    { intros b Hb. apply Hr in Hb. destruct Hb as (c' & Hb & _). apply Io in Hb. tauto. }
    exists t'. split; [exact E|]. split; [exact P'|].
    intros x Hx Mx. rewrite map_app, in_app_iff in Hx. destruct Hx as [Hx|[<-|[]]].
    + destruct (Hd x Hx Mx) as [y Hy]. eauto.
    + cbn [fst] in *. destruct Mx as [b Mb]. apply M. exists b. split; [|assumption].
      destruct Mb as (Hne & f & h & Hf & Hh & T & Pm).
      destruct (face_centre_ok m h (proj1 W) (Hnodes _ _ Hh)) as (cs & _ & Ec). apply Hr.
      eexists. split; [apply (Hobj _ _ _ Hh Ec)|].
      rewrite Hf in Hc. cbn [bind] in Hc.
      pose proof (mates_centre m f h _ _ (proj1 W) (Hnodes _ _ Hf) (Hnodes _ _ Hh) Pm Hc Ec) as V.
      apply norm_le_zero; [|assumption]. destruct V as (V1 & V2 & V3).
      unfold veq, vsub, vzero in *; cbn [cx cy cz] in *. rewrite V1, V2, V3. repeat split; ring.
  - match goal with |- context [bind (foldM ?f ?l ?s)] => replace (foldM f l s) with (Ok t) by (symmetry; exact Et) end.
    cbn [bind]. exists (Mesh (m_nodes m) t el), (count_boundary t), t0, F. cbn [m_nodes m_faces m_elems].
    split; [reflexivity|]. split; [reflexivity|]. split; [exact G|]. split; [exact P|]. split; [reflexivity|].
    intros a [b Mb]. apply (mates_from t0 t a b W0 P) in Mb. apply Hall; [|eauto].
    rewrite Mo. destruct Mb as (_ & f & _ & Hf & _). eapply wf_get_in; eauto.
Qed.

Lemma pairs_distinct_positions ty tp tq :
  In tp (face_table ty) -> In tq (face_table ty) -> fst tp = fst tq -> Permutation (snd tp) (snd tq) -> tp = tq.
Proof.
  intros H1 H2 T P. apply zsort_eq_iff in P.
  destruct ty; cbn in H1, H2; repeat (destruct H1 as [<-|H1]); try contradiction;
  repeat (destruct H2 as [<-|H2]); try contradiction; try reflexivity; cbn in P, T; discriminate.
Qed.

Lemma mk_faces_no_mates e i j f g :
  (node_count (e_type e) <= length (e_nodes e))%nat -> NoDup (e_nodes e) ->
  nth_error (mk_faces e) i = Some f -> nth_error (mk_faces e) j = Some g ->
  f_type f = f_type g -> Permutation (f_nodes f) (f_nodes g) -> i = j.
Proof.
  intros Hl Hnd Hi Hj T P. unfold mk_faces in Hi, Hj. rewrite nth_error_map in Hi, Hj.
  destruct (nth_error (face_table (e_type e)) i) as [tp|] eqn:Ei; [|discriminate].
  destruct (nth_error (face_table (e_type e)) j) as [tq|] eqn:Ej; [|discriminate].
  cbn in Hi, Hj. injection Hi as <-. injection Hj as <-. cbn in T, P.
  apply Permutation_map_inv in P. destruct P as (l & E & P).
  pose proof (nth_error_In _ _ Ei) as Hp. pose proof (nth_error_In _ _ Ej) as Hq.
  assert (snd tp = l).
  { assert (Hr : forall x, In x l -> In x (snd tq)) by (intros x Hx; eapply Permutation_in; [apply Permutation_sym, P|exact Hx]).
    assert (Hr1 : forall x, In x (snd tp) -> 0 <= x < zlen (e_nodes e)).
    { intros x Hx. pose proof (face_table_range _ _ _ Hp Hx). unfold zlen. lia. }
    assert (Hr2 : forall x, In x l -> 0 <= x < zlen (e_nodes e)).
    { intros x Hx. pose proof (face_table_range _ _ _ Hq (Hr _ Hx)). unfold zlen. lia. }
    clear -E Hr1 Hr2 Hnd. revert l E Hr2. induction (snd tp) as [|x l1 IH]; intros [|y l] E Hr2; cbn in E; try discriminate; [reflexivity|].
    injection E as E1 E2. f_equal.
    - eapply npos_inj; [exact Hnd|apply Hr1; now left|apply Hr2; now left|exact E1].
    - apply IH; [intros; apply Hr1; now right|exact E2|intros; apply Hr2; now right]. }
  subst l. assert (tp = tq) by (eapply pairs_distinct_positions; eauto using Permutation_sym). subst tq.
  assert (Hndt : NoDup (face_table (e_type e))).
  { apply (NoDup_map_inv (fun tp => fold_left (fun s p => s * 10 + p + 1) (snd tp) 0)). apply nodupb_ok.
    destruct (e_type e); vm_compute; reflexivity. }
  eapply NoDup_nth_error; [exact Hndt| |congruence]. apply nth_error_Some. congruence.
Qed.

Lemma pairing_ok n tol m :
  1 <= n <= int_max -> (0 <= tol)%Q -> wf_mesh m -> refs_ok m -> enough m -> spread m ->
  exists m' nb, generateFaces n tol m = Ok (m', nb) /\
    m_nodes m' = m_nodes m /\ wf_mesh m' /\ refs_ok m' /\ t_ids (m_elems m') = t_ids (m_elems m) /\
    (forall id e, t_get (m_elems m) id = Ok e ->
       exists e' fs, t_get (m_elems m') id = Ok e' /\ e_type e' = e_type e /\ e_nodes e' = e_nodes e /\
         elem_faces e = Ok fs /\
         map (face_data (m_faces m')) (e_faces e') = map (fun f => Ok (f_type f, f_nodes f, id)) fs) /\
    flat_map (faces_listed (m_elems m')) (t_ids (m_elems m')) = t_ids (m_faces m') /\
    (forall a b, has_pair (m_faces m') a b -> mates (m_faces m') a b) /\
    (forall a, In a (t_ids (m_faces m')) -> (unpaired (m_faces m') a <-> forall b, ~ mates (m_faces m') a b)) /\
    (exists l, NoDup l /\ (forall a, In a l <-> unpaired (m_faces m') a) /\ nb = zlen l) /\
    (at_most_two (m_faces m') -> forall a b, has_pair (m_faces m') a b -> has_pair (m_faces m') b a) /\
    ((forall id e, t_get (m_elems m) id = Ok e -> NoDup (e_nodes e)) ->
     forall a b f g, has_pair (m_faces m') a b -> t_get (m_faces m') a = Ok f -> t_get (m_faces m') b = Ok g ->
       f_elem f <> f_elem g).
Proof.
  intros Hn Htol W R Hen Hsp.
  destruct (generateFaces_ok n tol m Hn Htol W R Hen Hsp) as (m' & nb & t0 & F & E & En & G & P & Enb & Hall).
  pose proof (gn_faces _ _ _ _ _ G) as N. pose proof (nb_wf _ _ N) as W0.
  assert (Hdata : forall k f, nth_error F k = Some f ->
            exists f', t_get (m_faces m') (Z.of_nat k) = Ok f' /\ f_type f' = f_type f /\ f_nodes f' = f_nodes f /\ f_elem f' = f_elem f).
  { intros k f Hk. apply (nb_get _ _ N) in Hk. now apply (pf_data _ _ P). }
  assert (Hback : forall id e', t_get (m_elems m') id = Ok e' -> exists e, t_get (m_elems m) id = Ok e).
  { intros id e' H. apply (wf_get _ id (proj2 (proj2 W))). rewrite <- (gn_ids _ _ _ _ _ G).
    eapply wf_get_in; [apply G|exact H]. }
  exists m', nb. split; [exact E|]. split; [exact En|].
  split. { split; [rewrite En; apply W|]. split; [apply P|apply G]. }
  split.
  { destruct R as (Re & _). split.
    - intros id e' He'. destruct (Hback _ _ He') as [e He]. rewrite En.
      destruct (gn_done _ _ _ _ _ G id e) as (start & Hg & _); [eapply wf_get_in; [apply W|exact He]|assumption|].
      assert (e' = set_e_faces e (ids_from start (length (mk_faces e)))) by congruence. subst e'. cbn. eauto.
    - intros k f Hf. destruct (paired_back _ _ _ _ W0 P Hf) as (f0 & Hf0 & _ & Nf & _). rewrite Nf, En.
      destruct (numbered_get _ _ _ _ N Hf0) as (j & -> & Hj). apply nth_error_In in Hj.
      destruct (gn_all _ _ _ _ _ G f0 Hj) as (id & e & f1 & Hid & He & Hf1 & ->). cbn.
      destruct (mk_faces_shape e f1 (Hen _ _ He) Hf1) as (Hi & _).
      pose proof (Re _ _ He) as Ha. rewrite Forall_forall in Ha |- *. auto. }
  split; [apply G|]. split.
  { intros id e He. destruct (gn_done _ _ _ _ _ G id e) as (start & Hg & Hf); [eapply wf_get_in; [apply W|exact He]|assumption|].
    exists (set_e_faces e (ids_from start (length (mk_faces e)))), (mk_faces e).
    split; [exact Hg|]. split; [reflexivity|]. split; [reflexivity|]. split; [apply elem_faces_ok; eauto|].
    cbn [e_faces set_e_faces]. unfold ids_from. rewrite map_map.
    assert (H : forall l k, (forall j f, nth_error l j = Some f -> nth_error F (k + j) = Some (set_f_elem f id)) ->
      map (fun x => face_data (m_faces m') (Z.of_nat x)) (seq k (length l)) = map (fun f => Ok (f_type f, f_nodes f, id)) l).
    { induction l as [|f l IH]; intros k H; cbn; [reflexivity|]. f_equal.
      - specialize (H 0%nat f eq_refl). rewrite Nat.add_0_r in H. destruct (Hdata _ _ H) as (f' & Hf' & T & Nn & El).
        unfold face_data. rewrite Hf'. cbn. rewrite T, Nn, El. reflexivity.
      - apply IH. intros j g Hj. replace (S k + j)%nat with (k + S j)%nat by lia. apply H. exact Hj. }
    now apply H. }
  split. { rewrite (gn_ids _ _ _ _ _ G), (gn_order _ _ _ _ _ G), (pf_ids _ _ P). symmetry. apply N. }
  split. { intros a b H. apply (mates_from t0 _ a b W0 P). now apply P. }
  split.
  { intros a Ha. split.
    - intros (f & Hf & Hp) b Mb. destruct (Hall a) as (c & f' & Hf' & Hp' & _); [eauto|]. congruence.
    - intros Hno. destruct (wf_get (m_faces m') a) as [f Hf]; [apply P|assumption|].
      exists f. split; [assumption|]. destruct (f_haspair f) eqn:Ep; [|reflexivity]. exfalso.
      apply (Hno (f_pair f)). apply (mates_from t0 _ _ _ W0 P). apply P. exists f. auto. }
  split. { subst nb. apply count_unpaired. apply P. }
  split.
  { intros Huniq a b H. assert (Mab : mates (m_faces m') a b) by (apply (mates_from t0 _ a b W0 P); now apply P).
    destruct (pf_sym _ _ P a b H) as [c Hc].
    assert (Mbc : mates (m_faces m') b c) by (apply (mates_from t0 _ b c W0 P); now apply P).
    assert (c = a) by (eapply Huniq; [exact Mbc|now apply mates_sym]). now subst. }
  intros Hnd a b f g Hab Hf Hg Eel.
  apply (pf_mate _ _ P) in Hab. destruct Hab as (Hne & f0 & g0 & Hf0 & Hg0 & T & Pm).
  destruct (pf_data _ _ P _ _ Hf0) as (f' & Hf' & _ & _ & Ef). assert (f' = f) by congruence. subst f'.
  destruct (pf_data _ _ P _ _ Hg0) as (g' & Hg' & _ & _ & Eg). assert (g' = g) by congruence. subst g'.
  assert (Hpos : forall k h, t_get t0 k = Ok h -> exists e start i h0, t_get (m_elems m) (f_elem h) = Ok e /\
     t_get (m_elems m') (f_elem h) = Ok (set_e_faces e (ids_from start (length (mk_faces e)))) /\
     nth_error (mk_faces e) i = Some h0 /\ h = set_f_elem h0 (f_elem h) /\ k = Z.of_nat (start + i)).
  { intros k h Hh. assert (Hin : In k (t_ids t0)) by (eapply wf_get_in; eauto).
    rewrite (nb_ids _ _ N), <- (gn_order _ _ _ _ _ G) in Hin. apply in_flat_map in Hin. destruct Hin as (id & Hid & Hin).
    destruct (wf_get _ id (proj2 (proj2 W)) Hid) as [e He].
    destruct (gn_done _ _ _ _ _ G id e Hid He) as (start & Hge & Hfe).
    unfold faces_listed in Hin. rewrite Hge in Hin. cbn in Hin. unfold ids_from in Hin. apply in_map_iff in Hin.
    destruct Hin as (x & <- & Hx). apply in_seq in Hx. 
    destruct (nth_error (mk_faces e) (x - start)) as [h0|] eqn:Eh; [|apply nth_error_None in Eh; lia].
    pose proof (Hfe _ _ Eh) as Hn'. replace (start + (x - start))%nat with x in Hn' by lia.
    apply (nb_get _ _ N) in Hn'. rewrite Hh in Hn'. injection Hn' as ->.
    exists e, start, (x - start)%nat, h0. cbn. split; [assumption|]. split; [assumption|]. split; [assumption|].
    split; [reflexivity|]. f_equal. lia. }
  destruct (Hpos _ _ Hf0) as (e1 & s1 & i1 & h1 & He1 & Hg1 & Hn1 & Eh1 & ->).
  destruct (Hpos _ _ Hg0) as (e2 & s2 & i2 & h2 & He2 & Hg2 & Hn2 & Eh2 & ->).
  assert (Ee : f_elem f0 = f_elem g0) by congruence. rewrite <- Ee in He2, Hg2.
  assert (e2 = e1) by congruence. subst e2.
  assert (Hm0 : (0 < length (mk_faces e1))%nat) by (apply Nat.le_lt_trans with i1; [lia|]; apply nth_error_Some; congruence).
  assert (s1 = s2).
  { rewrite Hg1 in Hg2. injection Hg2 as Hs. destruct (length (mk_faces e1)) as [|l0]; [lia|].
    unfold ids_from in Hs. cbn in Hs. injection Hs as Hs _. lia. }
  subst s2. apply Hne. do 2 f_equal.
  apply (mk_faces_no_mates e1 i1 i2 h1 h2); eauto.
  - rewrite Eh1, Eh2 in T. exact T.
  - rewrite Eh1, Eh2 in Pm. exact Pm.
Qed.

(** ** C14: the boundary *)

Definition zsum (l : list Z) : Z := fold_right Z.add 0 l.

Lemma zsum_app a b : zsum (a ++ b) = zsum a + zsum b.
Proof. unfold zsum. induction a as [|x a IH]; cbn; [lia|]. rewrite IH. lia. Qed.

Lemma zsum_perm a b : Permutation a b -> zsum a = zsum b.
Proof. unfold zsum. induction 1; cbn; lia. Qed.

Lemma zsum_split (p : Z -> bool) (w : Z -> Z) l :
  zsum (map w l) = zsum (map w (filter p l)) + zsum (map w (filter (fun x => negb (p x)) l)).
Proof. unfold zsum. induction l as [|x l IH]; cbn; [reflexivity|]. destruct (p x); cbn; lia. Qed.

Lemma zsum_opp (f g : Z -> Z) l : (forall x, In x l -> f x = - g x) -> zsum (map f l) = - zsum (map g l).
Proof.
  unfold zsum. induction l as [|x l IH]; cbn; intros H; [lia|]. rewrite H by now left. rewrite IH by (intros; apply H; now right). lia.
Qed.

(** Cancellation: an involution without fixed points that negates the weight leaves sum zero. *)
Lemma involution_cancels (pr w : Z -> Z) l :
  NoDup l -> (forall x, In x l -> In (pr x) l /\ pr (pr x) = x /\ w (pr x) = - w x) -> zsum (map w l) = 0.
Proof.
  intros Hnd H. assert (P : Permutation (map pr l) l).
  { apply NoDup_Permutation_bis.
    - apply NoDup_map_in; [assumption|]. intros a b Ha Hb E. destruct (H a Ha) as (_ & <- & _).
      destruct (H b Hb) as (_ & <- & _). now rewrite E.
    - rewrite map_length. lia.
    - intros x Hx. apply in_map_iff in Hx. destruct Hx as (y & <- & Hy). now apply H. }
  pose proof (zsum_perm _ _ (Permutation_map w P)) as E. rewrite map_map in E.
  rewrite (zsum_opp (fun x => w (pr x)) w) in E by (intros x Hx; now apply H). lia.
Qed.

Definition fnodes (t : table face) (id : Z) : list Z := match t_get t id with Ok f => f_nodes f | _ => [] end.
Definition fpaired (t : table face) (id : Z) : bool := match t_get t id with Ok f => f_haspair f | _ => false end.

Definition skin (t : table face) : list Z := filter (fun a => negb (fpaired t a)) (t_ids t).

(** A weight of node lists that vanishes on every element and is negated by pairing vanishes on the skin. *)
Lemma skin_sum m m' (w : list Z -> Z) :
  wf_mesh m' ->
  (forall id e, t_get (m_elems m) id = Ok e -> exists e' fs, t_get (m_elems m') id = Ok e' /\ elem_faces e = Ok fs /\
     map (face_data (m_faces m')) (e_faces e') = map (fun f => Ok (f_type f, f_nodes f, id)) fs /\
     zsum (map (fun f => w (f_nodes f)) fs) = 0) ->
  (forall id, In id (t_ids (m_elems m')) -> exists e, t_get (m_elems m) id = Ok e) ->
  flat_map (faces_listed (m_elems m')) (t_ids (m_elems m')) = t_ids (m_faces m') ->
  (forall a b, has_pair (m_faces m') a b -> mates (m_faces m') a b) ->
  (forall a b, has_pair (m_faces m') a b -> has_pair (m_faces m') b a) ->
  (forall a b f g, mates (m_faces m') a b -> t_get (m_faces m') a = Ok f -> t_get (m_faces m') b = Ok g ->
     w (f_nodes g) = - w (f_nodes f)) ->
  zsum (map (fun a => w (fnodes (m_faces m') a)) (skin (m_faces m'))) = 0.
Proof.
  intros W Hel Hin Hord Hm Hs Hw. set (wt := fun a => w (fnodes (m_faces m') a)).
  assert (Htot : zsum (map wt (t_ids (m_faces m'))) = 0).
  { rewrite <- Hord. assert (Hi : forall id, In id (t_ids (m_elems m')) -> zsum (map wt (faces_listed (m_elems m') id)) = 0).
    { intros id Hid. destruct (Hin id Hid) as [e He]. destruct (Hel id e He) as (e' & fs & He' & _ & Hd & Hz).
      unfold faces_listed. rewrite He'. rewrite <- Hz. f_equal. clear -Hd.
      revert fs Hd. induction (e_faces e') as [|k l IH]; intros [|f fs] Hd; cbn in *; try discriminate; [reflexivity|].
      injection Hd as H1 H2. rewrite (IH fs H2). f_equal. unfold face_data in H1. unfold wt, fnodes.
      destruct (t_get (m_faces m') k); cbn in H1; [|discriminate..]. injection H1 as _ -> _. reflexivity. }
    clear -Hi. induction (t_ids (m_elems m')) as [|id l IH]; cbn; [reflexivity|].
    rewrite map_app, zsum_app, Hi by now left. rewrite IH; [reflexivity|]. intros; apply Hi; now right. }
  rewrite (zsum_split (fpaired (m_faces m')) wt) in Htot. unfold skin.
  rewrite (involution_cancels (fun a => match t_get (m_faces m') a with Ok f => f_pair f | _ => 0 end)) in Htot; [exact Htot| |].
  - apply NoDup_filter_ids. apply W.
  - intros a Ha. apply filter_In in Ha. destruct Ha as [Ha Hp]. unfold fpaired in Hp.
    destruct (t_get (m_faces m') a) as [f| |] eqn:Ef; try discriminate.
    assert (Hab : has_pair (m_faces m') a (f_pair f)) by (exists f; auto).
    pose proof (Hs _ _ Hab) as (g & Eg & Hpg & Eba).
    split; [|split].
    + apply filter_In. split; [eapply wf_get_in; [apply W|exact Eg]|]. unfold fpaired. now rewrite Eg.
    + now rewrite Eg.
    + unfold wt, fnodes. rewrite Ef, Eg. apply (Hw a (f_pair f)); auto.
Qed.

Lemma extract_ok n tol m m' nb :
  generateFaces n tol m = Ok (m', nb) -> wf_mesh m' ->
  exists bm, extractBoundary n tol m = Ok (bm, m') /\
    numbered (m_elems bm) (map (fun a => match t_get (m_faces m') a with Ok f => face_element f | _ => Element ET_NONE [] [] end)
                               (skin (m_faces m'))) /\
    wf_table (m_nodes bm) /\ t_ids (m_nodes bm) = t_ids (m_nodes m') /\
    (forall id, In id (t_ids (m_nodes m')) -> t_get (m_nodes bm) id = t_get (m_nodes m') id) /\
    m_faces bm = t_empty.
Proof.
  intros E (Wn & Wf & We). unfold extractBoundary. rewrite E. cbn [bind fst].
  set (fe := fun a => match t_get (m_faces m') a with Ok f => face_element f | _ => Element ET_NONE [] [] end).
  destruct (foldM_invariant (extract_step (m_faces m'))
    (fun done st => numbered (fst st) (map fe (filter (fun a => negb (fpaired (m_faces m') a)) done)) /\
       snd st = zlen (filter (fun a => negb (fpaired (m_faces m') a)) done))
    (t_ids (m_faces m')) (t_empty, 0)) as ((te & c) & E1 & N & _).
  - split; [apply numbered_empty|reflexivity].
  - intros done a rest (te & c) Hl (N & Hc). cbn [fst snd] in *. unfold extract_step.
    destruct (wf_get _ a Wf) as [f Hf]; [rewrite Hl; apply in_elt|]. rewrite Hf. cbn [bind].
    eexists. split; [reflexivity|]. rewrite filter_app. cbn [filter]. unfold fpaired at 2 4. rewrite Hf.
    destruct (f_haspair f) eqn:Ep; cbn [negb].
    + rewrite app_nil_r. auto.
    + cbn [fst snd]. rewrite map_app. cbn [map]. split.
      * unfold fe at 2. rewrite Hf. apply numbered_add_id; [exact N|]. rewrite map_length. exact Hc.
      * unfold zlen in *. rewrite app_length. cbn. lia.
  - rewrite E1. cbn [bind fst].
    pose proof (t_copy_ok (m_nodes m') Wn) as Hcp. unfold t_copy in Hcp.
    destruct Hcp as (tn & E2 & Hcp). unfold t_get. 
    replace (foldM (fun t id => c0 <- zat (t_map (m_nodes m')) id ;; Ok (t_add t id c0)) (t_ids (m_nodes m')) t_empty) with (Ok tn) by (symmetry; exact E2).
    cbn [bind]. eexists. split; [reflexivity|]. cbn [m_elems m_nodes m_faces].
    destruct Hcp as (I & Gn & _ & Wn' & _). split; [exact N|]. split; [exact Wn'|]. split; [exact I|]. split; [|reflexivity].
    intros id _. apply Gn.
Qed.

Lemma skin_spec t : wf_table t -> NoDup (skin t) /\ forall a, In a (skin t) <-> unpaired t a.
Proof.
  intros W. split; [apply NoDup_filter_ids; apply W|].
  intros a. unfold skin. rewrite filter_In. unfold fpaired. split.
  - intros [Ha Hp]. destruct (wf_get _ a W Ha) as [f Hf]. rewrite Hf in Hp. exists f. split; [assumption|]. now apply negb_true_iff.
  - intros (f & Hf & Hp). rewrite Hf, Hp. split; [eapply wf_get_in; eauto|reflexivity].
Qed.

Lemma nth_error_ext {A} (l k : list A) : (forall i, nth_error l i = nth_error k i) -> l = k.
Proof.
  revert k. induction l as [|a l IH]; intros [|b k] H; [reflexivity|specialize (H 0%nat); discriminate..|].
  pose proof (H 0%nat) as H0. injection H0 as ->. f_equal. apply IH. intros i. apply (H (S i)).
Qed.

Lemma numbered_values {A} (t : table A) vs (d : A) : numbered t vs ->
  map (fun id => match t_get t id with Ok v => v | _ => d end) (t_ids t) = vs.
Proof.
  intros N. rewrite (nb_ids _ _ N). unfold zrange. rewrite map_map.
  apply nth_error_ext. intros k. rewrite nth_error_map.
  destruct (Nat.lt_ge_cases k (length vs)) as [H|H].
  - rewrite (nth_error_nth' (seq 0 (length vs)) 0%nat) by now rewrite seq_length. cbn. rewrite seq_nth by assumption.
    destruct (nth_error vs k) as [v|] eqn:E; [|apply nth_error_None in E; lia].
    cbn. now rewrite (nb_get _ _ N k v E).
  - rewrite (proj2 (nth_error_None _ _)) by (now rewrite seq_length). symmetry. now apply nth_error_None.
Qed.

Lemma boundary_ok n tol m :
  1 <= n <= int_max -> (0 <= tol)%Q -> wf_mesh m -> refs_ok m -> enough m -> spread m ->
  exists bm m' nb, extractBoundary n tol m = Ok (bm, m') /\ generateFaces n tol m = Ok (m', nb) /\
    wf_mesh bm /\ refs_ok bm /\
    t_ids (m_elems bm) = zrange (Z.to_nat nb) /\
    (exists l, NoDup l /\ (forall a, In a l <-> unpaired (m_faces m') a) /\
       Forall2 (fun id a => exists f, t_get (m_faces m') a = Ok f /\
                  t_get (m_elems bm) id = Ok (Element (skin_type (f_type f)) (f_nodes f) []))
               (t_ids (m_elems bm)) l) /\
    t_ids (m_nodes bm) = t_ids (m_nodes m) /\
    (forall id, In id (t_ids (m_nodes m)) -> t_get (m_nodes bm) id = t_get (m_nodes m) id).
Proof.
  intros Hn Htol W R Hen Hsp.
  destruct (pairing_ok n tol m Hn Htol W R Hen Hsp) as (m' & nb & E & En & W' & R' & _ & _ & _ & _ & _ & (l0 & Hnd0 & Hl0 & ->) & _).
  destruct (extract_ok n tol m m' _ E W') as (bm & Eb & N & Wbn & Ib & Gb & Fb).
  set (fe := fun a => match t_get (m_faces m') a with Ok f => face_element f | _ => Element ET_NONE [] [] end) in *.
  destruct (skin_spec (m_faces m') (proj1 (proj2 W'))) as [Hnd Hin].
  exists bm, m', (zlen l0). split; [exact Eb|]. split; [exact E|].
  assert (Hget : forall k e, t_get (m_elems bm) k = Ok e -> exists a f, t_get (m_faces m') a = Ok f /\ e = face_element f).
  { intros k e He. destruct (numbered_get _ _ _ _ N He) as (j & -> & Hj). rewrite nth_error_map in Hj.
    destruct (nth_error (skin (m_faces m')) j) as [a|] eqn:Ea; [|discriminate]. cbn in Hj. injection Hj as <-.
    apply nth_error_In, Hin in Ea. destruct Ea as (f & Hf & _). exists a, f. unfold fe. now rewrite Hf. }
  split. { split; [exact Wbn|]. split; [|apply N]. rewrite Fb. apply (nb_wf _ _ numbered_empty). }
  split.
  { split.
    - intros k e He. destruct (Hget _ _ He) as (a & f & Hf & ->). cbn. rewrite Ib. destruct R' as (_ & Rf). eauto.
    - intros k f Hf. rewrite Fb in Hf. discriminate. }
  assert (Hlen : length (skin (m_faces m')) = length l0).
  { apply Permutation_length. apply NoDup_Permutation; [assumption|assumption|]. intros x. now rewrite Hin, Hl0. }
  split. { rewrite (nb_ids _ _ N), map_length, Hlen. unfold zlen. now rewrite Nat2Z.id. }
  split.
  { exists (skin (m_faces m')). split; [assumption|]. split; [assumption|].
    rewrite (nb_ids _ _ N), map_length.
    assert (H : forall l k, (forall j a, nth_error l j = Some a -> t_get (m_elems bm) (Z.of_nat (k + j)) = Ok (fe a) /\ unpaired (m_faces m') a) ->
      Forall2 (fun id a => exists f, t_get (m_faces m') a = Ok f /\
                 t_get (m_elems bm) id = Ok (Element (skin_type (f_type f)) (f_nodes f) [])) (ids_from k (length l)) l).
    { induction l as [|a l IH]; intros k H; cbn; constructor.
      - destruct (H 0%nat a eq_refl) as (Hg & f & Hf & _). rewrite Nat.add_0_r in Hg. exists f. split; [assumption|].
        rewrite Hg. unfold fe. rewrite Hf. unfold face_element, skin_type. reflexivity.
      - apply IH. intros j b Hj. replace (S k + j)%nat with (k + S j)%nat by lia. now apply H. }
    apply (H (skin (m_faces m')) 0%nat). intros j a Ha. split.
    - cbn [Nat.add]; apply (nb_get _ _ N). rewrite nth_error_map, Ha. reflexivity.
    - apply Hin. eapply nth_error_In; eauto. }
  rewrite <- En. split; assumption.
Qed.

Lemma edge_count_sum polys p : Z.of_nat (edge_count polys p) = zsum (map (fun l => Z.of_nat (edge_count [l] p)) polys).
Proof.
  unfold edge_count, zsum. induction polys as [|l polys IH]; cbn [flat_map map fold_right]; [reflexivity|].
  rewrite count_occ_app, Nat2Z.inj_add, IH. cbn [flat_map]. now rewrite app_nil_r.
Qed.

Lemma zsum_sub (f g : list Z -> Z) l : zsum (map (fun x => f x - g x) l) = zsum (map f l) - zsum (map g l).
Proof. unfold zsum. induction l as [|x l IH]; cbn; lia. Qed.

Lemma polygons_skin bm m' :
  numbered (m_elems bm) (map (fun a => match t_get (m_faces m') a with Ok f => face_element f | _ => Element ET_NONE [] [] end)
                             (skin (m_faces m'))) ->
  polygons (m_elems bm) = map (fnodes (m_faces m')) (skin (m_faces m')).
Proof.
  intros N. unfold polygons.
  replace (map (fun id => match t_get (m_elems bm) id with Ok e => e_nodes e | _ => [] end) (t_ids (m_elems bm)))
    with (map e_nodes (map (fun id => match t_get (m_elems bm) id with Ok e => e | _ => Element ET_NONE [] [] end) (t_ids (m_elems bm)))).
  - rewrite (numbered_values _ _ _ N), map_map. apply map_ext. intros a. unfold fnodes. now destruct (t_get (m_faces m') a).
  - rewrite map_map. apply map_ext. intros id. now destruct (t_get (m_elems bm) id).
Qed.

Lemma skin_vanishes n tol m bm m' (w : list Z -> Z) :
  1 <= n <= int_max -> (0 <= tol)%Q -> wf_mesh m -> refs_ok m -> enough m -> spread m ->
  extractBoundary n tol m = Ok (bm, m') -> at_most_two (m_faces m') ->
  (forall id e, t_get (m_elems m) id = Ok e -> zsum (map (fun f => w (f_nodes f)) (mk_faces e)) = 0) ->
  (forall a b f g, mates (m_faces m') a b -> t_get (m_faces m') a = Ok f -> t_get (m_faces m') b = Ok g ->
     w (f_nodes g) = - w (f_nodes f)) ->
  zsum (map w (polygons (m_elems bm))) = 0.
Proof.
  intros Hn Htol W R Hen Hsp Eb Hu Hz Hw.
  destruct (pairing_ok n tol m Hn Htol W R Hen Hsp) as (m1 & nb & E & En & W' & R' & Hids & Hel & Hord & Hm & _ & _ & Hinv & _).
  destruct (extract_ok n tol m m1 _ E W') as (bm1 & Eb1 & N & _).
  rewrite Eb1 in Eb. injection Eb as -> ->.
  rewrite (polygons_skin _ _ N), map_map. apply (skin_sum m m' w); auto.
  - intros id e He. destruct (Hel id e He) as (e' & fs & He' & _ & _ & Hfs & Hd). exists e', fs.
    split; [assumption|]. split; [assumption|]. split; [assumption|].
    rewrite elem_faces_ok in Hfs by eauto. injection Hfs as <-. eauto.
  - intros id Hid. rewrite Hids in Hid. apply wf_get; [apply W|assumption].
Qed.

Lemma watertight_ok n tol m bm m' :
  1 <= n <= int_max -> (0 <= tol)%Q -> wf_mesh m -> refs_ok m -> enough m -> spread m ->
  (forall id e, t_get (m_elems m) id = Ok e -> solid (e_type e)) ->
  extractBoundary n tol m = Ok (bm, m') -> at_most_two (m_faces m') -> opposed (m_faces m') ->
  closed_surface (polygons (m_elems bm)).
Proof.
  intros Hn Htol W R Hen Hsp Hso Eb Hu Hop a b.
  set (w := fun l => Z.of_nat (edge_count [l] (a, b)) - Z.of_nat (edge_count [l] (b, a))).
  assert (H : zsum (map w (polygons (m_elems bm))) = 0).
  { apply (skin_vanishes n tol m bm m' w); auto.
    - intros id e He. unfold w. rewrite <- (map_map f_nodes (fun l => Z.of_nat (edge_count [l] (a, b)) - Z.of_nat (edge_count [l] (b, a)))).
      rewrite (zsum_sub (fun l => Z.of_nat (edge_count [l] (a, b))) (fun l => Z.of_nat (edge_count [l] (b, a)))).
      rewrite <- !edge_count_sum. rewrite (mk_faces_closed e (Hso _ _ He) a b). lia.
    - intros x y f g M Hf Hg. unfold w. rewrite (Hop x y f g M Hf Hg a b), (Hop x y f g M Hf Hg b a). lia. }
  unfold w in H. rewrite (zsum_sub (fun l => Z.of_nat (edge_count [l] (a, b))) (fun l => Z.of_nat (edge_count [l] (b, a)))) in H.
  rewrite <- !edge_count_sum in H. lia.
Qed.

Definition zcount (x : Z) (l : list Z) : Z := Z.of_nat (count_occ Z.eq_dec l x).

Lemma zcount_sum x l : zcount x l = zsum (map (fun y => if y =? x then 1 else 0) l).
Proof.
  unfold zcount, zsum. induction l as [|y l IH]; [reflexivity|]. cbn [count_occ map fold_right].
  destruct (Z.eq_dec y x) as [->|Hne].
  - rewrite Z.eqb_refl. lia.
  - destruct (Z.eqb_spec y x); [contradiction|]. lia.
Qed.

Definition end_weight (x : Z) (l : list Z) : Z :=
  match l with [p; q] => (if p =? x then 1 else 0) - (if q =? x then 1 else 0) | _ => 0 end.

Lemma loops_ok n tol m bm m' :
  1 <= n <= int_max -> (0 <= tol)%Q -> wf_mesh m -> refs_ok m -> spread m ->
  (forall id e, t_get (m_elems m) id = Ok e -> (e_type e = ET_TRIANGLE \/ e_type e = ET_QUADRILATERAL) /\ complete e) ->
  extractBoundary n tol m = Ok (bm, m') -> at_most_two (m_faces m') -> opposed_edges (m_faces m') ->
  exists ends, polygons (m_elems bm) = map (fun p => [fst p; snd p]) ends /\
    forall x, count_occ Z.eq_dec (map fst ends) x = count_occ Z.eq_dec (map snd ends) x.
Proof.
  intros Hn Htol W R Hsp Hfl Eb Hu Hop.
  assert (Hen : enough m) by (intros id e He; destruct (Hfl _ _ He) as (_ & Hc); rewrite Hc; lia).
  assert (Hz : forall x id e, t_get (m_elems m) id = Ok e -> zsum (map (fun f => end_weight x (f_nodes f)) (mk_faces e)) = 0).
  { intros x id e He. destruct (Hfl _ _ He) as (T & Hc). pose proof (flat_faces e T Hc) as Hff.
    assert (En : map f_nodes (mk_faces e) = map (fun p => [fst p; snd p]) (cycle (e_nodes e))).
    { apply (f_equal (map snd)) in Hff. rewrite !map_map in Hff. exact Hff. }
    rewrite <- (map_map f_nodes (end_weight x)), En, map_map. cbn [end_weight].
    unfold complete in Hc. destruct T as [T|T]; rewrite T in Hc; cbn in Hc.
    - destruct (e_nodes e) as [|p [|q [|r [|]]]]; try discriminate. cbn. lia.
    - destruct (e_nodes e) as [|p [|q [|r [|s [|]]]]]; try discriminate. cbn. lia. }
  destruct (pairing_ok n tol m Hn Htol W R Hen Hsp) as (m1 & nb & E & En & W' & R' & Hids & Hel & Hord & Hm & _ & _ & Hinv & _).
  destruct (extract_ok n tol m m1 _ E W') as (bm1 & Eb1 & N & _).
  pose proof Eb as Eb0. rewrite Eb1 in Eb. injection Eb as -> ->.
  assert (Hlines : forall a f, t_get (m_faces m') a = Ok f -> exists p q, f_nodes f = [p; q]).
  { intros a f Hf. assert (Ha : In a (t_ids (m_faces m'))) by (eapply wf_get_in; [apply W'|exact Hf]).
    rewrite <- Hord in Ha. apply in_flat_map in Ha. destruct Ha as (id & Hid & Ha). rewrite Hids in Hid.
    destruct (wf_get _ id (proj2 (proj2 W)) Hid) as [e He].
    destruct (Hel id e He) as (e' & fs & He' & _ & _ & Hfs & Hd).
    unfold faces_listed in Ha. rewrite He' in Ha. apply (in_map (face_data (m_faces m'))) in Ha. rewrite Hd in Ha.
    apply in_map_iff in Ha. destruct Ha as (f0 & E0 & Hf0). unfold face_data in E0. rewrite Hf in E0. cbn in E0.
    injection E0 as _ <- _. rewrite elem_faces_ok in Hfs by eauto. injection Hfs as <-.
    destruct (Hfl _ _ He) as (T & Hc). pose proof (flat_faces e T Hc) as Hff.
    apply (in_map (fun f => (f_type f, f_nodes f))) in Hf0. rewrite Hff in Hf0. apply in_map_iff in Hf0.
    destruct Hf0 as (p & Ep & _). injection Ep as _ <-. eauto. }
  assert (Hp : forall l, (forall a, In a l -> unpaired (m_faces m') a) ->
    exists ends, map (fnodes (m_faces m')) l = map (fun p => [fst p; snd p]) ends).
  { induction l as [|a l IH]; intros H; [now exists []|].
    destruct IH as [ends Ee]; [intros; apply H; now right|].
    destruct (H a) as (f & Hf & _); [now left|]. destruct (Hlines _ _ Hf) as (p & q & Epq).
    exists ((p, q) :: ends). cbn. rewrite Ee. unfold fnodes. rewrite Hf, Epq. reflexivity. }
  destruct (Hp (skin (m_faces m'))) as [ends Ee]; [intros a Ha; now apply (skin_spec _ (proj1 (proj2 W')))|].
  rewrite (polygons_skin _ _ N). exists ends. split; [exact Ee|].
  intros x. assert (H : zsum (map (end_weight x) (polygons (m_elems bm))) = 0).
  { apply (skin_vanishes n tol m bm m' (end_weight x)); auto.
    - intros id e He. eapply Hz; exact He.
    - intros a b f g M Hf Hg. rewrite (Hop a b f g M Hf Hg). destruct (Hlines _ _ Hf) as (p & q & ->). cbn. lia. }
  rewrite (polygons_skin _ _ N), Ee, map_map in H. cbn [end_weight] in H.
  pose proof (zcount_sum x (map fst ends)) as H1. pose proof (zcount_sum x (map snd ends)) as H2.
  rewrite map_map in H1, H2. unfold zcount in H1, H2.
  assert (zsum (map (fun p : Z * Z => (if fst p =? x then 1 else 0) - (if snd p =? x then 1 else 0)) ends) =
          zsum (map (fun p => if fst p =? x then 1 else 0) ends) - zsum (map (fun p => if snd p =? x then 1 else 0) ends)).
  { unfold zsum. clear. induction ends as [|p l IH]; cbn; [reflexivity|]. rewrite IH. lia. }
  lia.
Qed.

(** ** Checkers and samples *)

Definition matesb (t : table face) (a b : Z) : bool :=
  negb (a =? b) && match t_get t a, t_get t b with Ok f, Ok g => same_face f g | _, _ => false end.

Lemma matesb_iff t a b : matesb t a b = true <-> mates t a b.
Proof.
  unfold matesb, mates. rewrite andb_true_iff, negb_true_iff, Z.eqb_neq. split.
  - intros [H1 H2]. destruct (t_get t a) as [f| |]; [|discriminate..]. destruct (t_get t b) as [g| |]; [|discriminate..].
    apply same_face_iff in H2. split; [assumption|]. exists f, g. tauto.
  - intros (H1 & f & g & -> & -> & H). split; [assumption|]. now apply same_face_iff.
Qed.

Definition at_most_twob (t : table face) : bool :=
  forallb (fun a => match filter (matesb t a) (t_ids t) with [] | [_] => true | _ => false end) (t_ids t).

Lemma at_most_twob_ok t : wf_table t -> at_most_twob t = true -> at_most_two t.
Proof.
  intros W H a b c Hb Hc. unfold at_most_twob in H. rewrite forallb_forall in H.
  assert (Ha : In a (t_ids t)) by (destruct Hb as (_ & f & _ & Hf & _); eapply wf_get_in; eauto).
  specialize (H a Ha).
  assert (Ib : In b (filter (matesb t a) (t_ids t))).
  { apply filter_In. split; [|now apply matesb_iff]. destruct Hb as (_ & _ & g & _ & Hg & _). eapply wf_get_in; eauto. }
  assert (Ic : In c (filter (matesb t a) (t_ids t))).
  { apply filter_In. split; [|now apply matesb_iff]. destruct Hc as (_ & _ & g & _ & Hg & _). eapply wf_get_in; eauto. }
  destruct (filter (matesb t a) (t_ids t)) as [|x [|]]; [destruct Ib| |discriminate].
  cbn in Ib, Ic. destruct Ib as [<-|[]]. destruct Ic as [<-|[]]. reflexivity.
Qed.

Definition opposedb (t : table face) : bool :=
  forallb (fun a => forallb (fun b => negb (matesb t a b) ||
     perm_check (cycle (fnodes t a)) (map swap (cycle (fnodes t b)))) (t_ids t)) (t_ids t).

Lemma opposedb_ok t : wf_table t -> opposedb t = true -> opposed t.
Proof.
  intros W H a b f g M Hf Hg p q. unfold opposedb in H. rewrite forallb_forall in H.
  specialize (H a (wf_get_in _ _ _ W Hf)). rewrite forallb_forall in H.
  specialize (H b (wf_get_in _ _ _ W Hg)). apply matesb_iff in M. rewrite M in H. cbn [negb orb] in H.
  apply perm_check_ok in H. unfold fnodes in H. rewrite Hf, Hg in H.
  unfold edge_count. cbn [flat_map]. rewrite !app_nil_r, <- (count_map_swap (cycle (f_nodes g)) p q). now apply count_perm.
Qed.

Definition opposed_edgesb (t : table face) : bool :=
  forallb (fun a => forallb (fun b => negb (matesb t a b) || ids_eqb (fnodes t b) (rev (fnodes t a))) (t_ids t)) (t_ids t).

Lemma opposed_edgesb_ok t : wf_table t -> opposed_edgesb t = true -> opposed_edges t.
Proof.
  intros W H a b f g M Hf Hg. unfold opposed_edgesb in H. rewrite forallb_forall in H.
  specialize (H a (wf_get_in _ _ _ W Hf)). rewrite forallb_forall in H.
  specialize (H b (wf_get_in _ _ _ W Hg)). apply matesb_iff in M. rewrite M in H. cbn [negb orb] in H.
  apply ids_eqb_iff in H. unfold fnodes in H. now rewrite Hf, Hg in H.
Qed.

(** A property of all elements, by enumeration. *)
Lemma elems_forall (t : table element) (P : element -> Prop) :
  Forall (fun p => P (snd p)) (t_map t) -> forall id e, t_get t id = Ok e -> P e.
Proof.
  intros H id e He. rewrite Forall_forall in H. apply zat_Ok, zlookup_in in He. apply (H _ He).
Qed.

(** Two tetrahedra on both sides of the triangle 2, 3, 9. *)
Definition two_tets : mesh :=
  Mesh (mk_table [(2, Coord 0 0 0); (3, Coord 1 0 0); (9, Coord 0 1 0); (4, Coord 0 0 1); (1, Coord 0 0 (-1#1))]) t_empty
       (mk_table [(10, Element ET_TETRAHEDRON [2; 3; 9; 4] []); (7, Element ET_TETRAHEDRON [3; 2; 9; 1] [])]).

Lemma two_tets_ok : wf_mesh two_tets /\ refs_ok two_tets /\ enough two_tets /\ spread two_tets /\
  (forall id e, t_get (m_elems two_tets) id = Ok e -> solid (e_type e) /\ NoDup (e_nodes e)) /\
  exists bm m', extractBoundary 2 0 two_tets = Ok (bm, m') /\ at_most_two (m_faces m') /\ opposed (m_faces m') /\
    has_pair (m_faces m') 0 4 /\ polygons (m_elems bm) = [[3; 4; 9]; [2; 4; 3]; [2; 9; 4]; [2; 1; 9]; [3; 1; 2]; [3; 9; 1]].
Proof.
  split; [now apply wf_meshb_ok|]. split; [now apply refs_okb_ok|].
  split. { unfold enough. apply elems_forall. repeat constructor. }
  split.
  { exists 10, (Element ET_TETRAHEDRON [2; 3; 9; 4] []), (mk_faces (Element ET_TETRAHEDRON [2; 3; 9; 4] [])).
    exists (Face FT_TRIANGLE [2; 3; 9] false 0 0), (mean [Coord 0 0 0; Coord 1 0 0; Coord 0 1 0]).
    exists 10, (Element ET_TETRAHEDRON [2; 3; 9; 4] []), (mk_faces (Element ET_TETRAHEDRON [2; 3; 9; 4] [])).
    exists (Face FT_TRIANGLE [3; 4; 9] false 0 0), (mean [Coord 1 0 0; Coord 0 0 1; Coord 0 1 0]).
    split; [|split].
    - split; [reflexivity|]. split; [reflexivity|]. split; [now left|]. exists [Coord 0 0 0; Coord 1 0 0; Coord 0 1 0]. split; reflexivity.
    - split; [reflexivity|]. split; [reflexivity|]. split; [right; now left|]. exists [Coord 1 0 0; Coord 0 0 1; Coord 0 1 0]. split; reflexivity.
    - intros (_ & _ & H). discriminate H. }
  split. { apply elems_forall. repeat constructor; cbn; intuition congruence. }
  destruct (extractBoundary 2 0 two_tets) as [[bm m']| |] eqn:E; [|vm_compute in E; discriminate..].
  exists bm, m'. split; [reflexivity|]. vm_compute in E. injection E as <- <-.
  split; [apply at_most_twob_ok; [now apply wf_tableb_ok|reflexivity]|].
  split; [apply opposedb_ok; [now apply wf_tableb_ok|reflexivity]|].
  split; [|reflexivity]. eexists. split; [reflexivity|]. split; reflexivity.
Qed.

(** A triangle and a quadrilateral with a common edge. *)
Definition tri_quad : mesh :=
  Mesh (mk_table [(0, Coord 0 0 0); (1, Coord 1 0 0); (2, Coord 1 1 0); (3, Coord 0 1 0); (8, Coord 2 0 0)]) t_empty
       (mk_table [(5, Element ET_QUADRILATERAL [0; 1; 2; 3] []); (6, Element ET_TRIANGLE [1; 8; 2] [])]).

Lemma tri_quad_ok : wf_mesh tri_quad /\ refs_ok tri_quad /\ spread tri_quad /\
  (forall id e, t_get (m_elems tri_quad) id = Ok e -> (e_type e = ET_TRIANGLE \/ e_type e = ET_QUADRILATERAL) /\ complete e) /\
  exists bm m', extractBoundary 2 0 tri_quad = Ok (bm, m') /\ at_most_two (m_faces m') /\ opposed_edges (m_faces m') /\
    polygons (m_elems bm) = [[0; 1]; [2; 3]; [3; 0]; [1; 8]; [8; 2]].
Proof.
  split; [now apply wf_meshb_ok|]. split; [now apply refs_okb_ok|].
  split.
  { exists 5, (Element ET_QUADRILATERAL [0; 1; 2; 3] []), (mk_faces (Element ET_QUADRILATERAL [0; 1; 2; 3] [])).
    exists (Face FT_LINE [0; 1] false 0 0), (mean [Coord 0 0 0; Coord 1 0 0]).
    exists 5, (Element ET_QUADRILATERAL [0; 1; 2; 3] []), (mk_faces (Element ET_QUADRILATERAL [0; 1; 2; 3] [])).
    exists (Face FT_LINE [1; 2] false 0 0), (mean [Coord 1 0 0; Coord 1 1 0]).
    split; [|split].
    - split; [reflexivity|]. split; [reflexivity|]. split; [now left|]. exists [Coord 0 0 0; Coord 1 0 0]. split; reflexivity.
    - split; [reflexivity|]. split; [reflexivity|]. split; [right; now left|]. exists [Coord 1 0 0; Coord 1 1 0]. split; reflexivity.
    - intros (H & _). discriminate H. }
  split. { apply elems_forall. repeat (apply Forall_cons || apply Forall_nil); (split; [auto|reflexivity]). }
  destruct (extractBoundary 2 0 tri_quad) as [[bm m']| |] eqn:E; [|vm_compute in E; discriminate..].
  exists bm, m'. split; [reflexivity|]. vm_compute in E. injection E as <- <-.
  split; [apply at_most_twob_ok; [now apply wf_tableb_ok|reflexivity]|].
  split; [apply opposed_edgesb_ok; [now apply wf_tableb_ok|reflexivity]|]. reflexivity.
Qed.

(** Three triangles on one edge. *)
Definition fan : mesh :=
  Mesh (mk_table [(0, Coord 0 0 0); (1, Coord 1 0 0); (2, Coord 0 1 0); (3, Coord 0 0 1); (4, Coord 0 (-1#1) 0)]) t_empty
       (mk_table [(0, Element ET_TRIANGLE [0; 1; 2] []); (1, Element ET_TRIANGLE [0; 1; 3] []);
                  (2, Element ET_TRIANGLE [0; 1; 4] [])]).

Lemma fan_asymmetric : exists m' nb, wf_mesh fan /\ refs_ok fan /\ generateFaces 2 0 fan = Ok (m', nb) /\
  has_pair (m_faces m') 3 0 /\ has_pair (m_faces m') 0 6.
Proof.
  destruct (generateFaces 2 0 fan) as [[m' nb]| |] eqn:E; [|vm_compute in E; discriminate..].
  exists m', nb. split; [now apply wf_meshb_ok|]. split; [now apply refs_okb_ok|]. split; [reflexivity|].
  vm_compute in E. injection E as <- <-.
  split; (eexists; split; [reflexivity|split; reflexivity]).
Qed.

Lemma cells_ok : forall e, solid (e_type e) -> (node_count (e_type e) <= length (e_nodes e))%nat ->
  exists fs, elem_faces e = Ok fs /\
    length fs = (match e_type e with ET_TETRAHEDRON => 4 | ET_TRIANGULAR_PRISM => 5 | _ => 6 end)%nat /\
    (forall f, In f fs -> incl (f_nodes f) (e_nodes e) /\ length (f_nodes f) = face_size (f_type f)) /\
    closed_surface (map f_nodes fs) /\
    (NoDup (e_nodes e) -> forall p, (edge_count (map f_nodes fs) p <= 1)%nat) /\
    (complete e -> forall n, In n (e_nodes e) -> exists f, In f fs /\ In n (f_nodes f)).
Proof.
  intros e Hs Hl. exists (mk_faces e). split; [now apply elem_faces_ok|].
  split. { unfold mk_faces. rewrite map_length. destruct Hs as [->|[->| ->]]; reflexivity. }
  split. { intros f Hf. destruct (mk_faces_shape e f Hl Hf) as (? & ? & _). auto. }
  split; [now apply mk_faces_closed|]. split.
  - intros Hnd p. unfold edge_count. apply (NoDup_count_occ edge_eq_dec). now apply mk_faces_simple.
  - intros Hc n Hn. now apply mk_faces_cover.
Qed.

Lemma flat_cells_ok : forall e, e_type e = ET_TRIANGLE \/ e_type e = ET_QUADRILATERAL -> complete e ->
  exists fs, elem_faces e = Ok fs /\
    map (fun f => (f_type f, f_nodes f)) fs = map (fun p => (FT_LINE, [fst p; snd p])) (cycle (e_nodes e)).
Proof.
  intros e T Hc. exists (mk_faces e). split; [apply elem_faces_ok; rewrite Hc; lia|now apply flat_faces].
Qed.

Lemma invert_elem_ok : forall e, complete e ->
  exists e', elem_invert e = Ok e' /\ elem_invert e' = Ok e /\ e_type e' = e_type e /\ e_faces e' = e_faces e /\
    Permutation (e_nodes e') (e_nodes e) /\
    forall P : Z -> coord,
      (e_type e = ET_BEAM -> length_vector (map P (e_nodes e')) =v= vopp (length_vector (map P (e_nodes e)))) /\
      (e_type e = ET_TRIANGLE \/ e_type e = ET_QUADRILATERAL ->
         area_vector (map P (e_nodes e')) =v= vopp (area_vector (map P (e_nodes e)))) /\
      (e_type e = ET_TETRAHEDRON -> (tet_volume (map P (e_nodes e')) == - tet_volume (map P (e_nodes e)))%Q) /\
      (e_type e = ET_TRIANGULAR_PRISM \/ e_type e = ET_HEXAHEDRON -> e' = e).
Proof.
  intros e Hc. exists (inverted e). split; [now apply elem_invert_ok|].
  split. { rewrite elem_invert_ok by now apply inverted_complete. now rewrite inverted_twice. }
  split; [reflexivity|]. split; [reflexivity|]. split.
  { destruct e as [ty l fs]. unfold complete in Hc. cbn [e_type e_nodes] in Hc. unfold inverted. cbn [e_type e_nodes set_e_nodes].
    destruct ty; try reflexivity; cbn in Hc.
    - destruct l as [|a [|b [|]]]; try discriminate. apply perm_swap.
    - destruct l as [|a [|b [|c [|]]]]; try discriminate. apply perm_skip, perm_swap.
    - destruct l as [|a [|b [|c [|d [|]]]]]; try discriminate. apply perm_skip.
      apply Permutation_trans with [d; b; c]; [apply perm_skip, perm_swap|].
      apply Permutation_trans with [b; d; c]; [apply perm_swap|apply perm_skip, perm_swap].
    - destruct l as [|a [|b [|c [|d [|]]]]]; try discriminate. apply perm_skip, perm_swap. }
  intros P. destruct (inverted_orientation e P Hc) as (H1 & H2 & H3). split; [exact H1|]. split; [exact H2|]. split; [exact H3|].
  intros T. destruct e as [ty l fs]. cbn in T. unfold inverted, set_e_nodes. cbn. destruct T as [-> | ->]; reflexivity.
Qed.
