(** Proofs about the generated meshes (continues Grid_Proofs). *)
From Coq Require Import ZArith List Bool Lia QArith Qabs Qround Lqa Qfield Permutation.
From Verif Require Import Prelude Vec ZMap Mesh_Model Mesh_Spec Mesh_Proofs HashGrid_Model HashGrid_Spec
  HashGrid_Proofs Mesh_Check Merge_Model Merge_Spec Merge_Proofs Face_Model Face_Spec Face_Proofs Grid_Model Grid_Spec
  Grid_Proofs.
Import ListNotations.
Open Scope Z_scope.

Lemma flat_z d f o : In f (pat_faces (quad_pat d)) -> In o (snd f) -> oz o = 0.
Proof.
  intros Hf Ho. destruct d; cbn in Hf; repeat destruct Hf as [<-|Hf]; try contradiction;
  cbn in Ho; repeat destruct Ho as [<-|Ho]; try contradiction; reflexivity.
Qed.

Lemma plane_side d nu nv c f : inbox nu nv 1 c -> In f (pat_faces (quad_pat d)) ->
  snd f <> [] -> (forall o, In o (snd f) -> in_cube o = true) ->
  (on_plane_side nu nv (map (fun o => pid nu nv (oadd c o)) (snd f)) <->
   exists d0, In d0 flat_dirs /\ ~ inbox nu nv 1 (oadd c d0) /\ forall o, In o (snd f) -> on_side d0 o = true).
Proof.
  intros Ic Hf Hne Hcube. assert (Hz : forall o, In o (snd f) -> oz o = 0) by (intros; eapply flat_z; eauto).
  revert Hne Hcube Hz. generalize (snd f) as l. clear Hf f. intros l Hne Hcube Hz. split.
  - assert (Hex : exists o, In o l) by (destruct l as [|o l]; [congruence|exists o; now left]). destruct Hex as [o0 Ho0].
    intros [(i & Hi & H)|(j & Hj & H)].
    + assert (X : forall o, In o l -> ox c + ox o = i).
      { intros o Ho. destruct (H (pid nu nv (oadd c o))) as (j & Hj & E); [apply in_map_iff; eauto|].
        pose proof (pid_range _ _ _ _ _ Ic (Hcube _ Ho)).
        apply point_id_inj in E; unfold oadd in *; cbn [ox oy oz fst snd] in *; lia. }
      pose proof (X _ Ho0). pose proof (Hcube _ Ho0) as C0. apply in_cube_iff in C0. unfold inbox in Ic.
      exists (if i =? 0 then (-1,0,0) else (1,0,0)). destruct (Z.eqb_spec i 0); (split; [cbn; tauto|]); (split; [unfold inbox, oadd; cbn [ox oy oz fst snd]; lia|]);
      intros o Ho; pose proof (X _ Ho); pose proof (Hcube _ Ho) as C; apply in_cube_iff in C; unfold on_side; cbn -[Z.mul Z.sub];
      rewrite !andb_true_r; apply Z.eqb_eq; lia.
    + assert (X : forall o, In o l -> oy c + oy o = j).
      { intros o Ho. destruct (H (pid nu nv (oadd c o))) as (i & Hi & E); [apply in_map_iff; eauto|].
        pose proof (pid_range _ _ _ _ _ Ic (Hcube _ Ho)).
        apply point_id_inj in E; unfold oadd in *; cbn [ox oy oz fst snd] in *; lia. }
      pose proof (X _ Ho0). pose proof (Hcube _ Ho0) as C0. apply in_cube_iff in C0. unfold inbox in Ic.
      exists (if j =? 0 then (0,-1,0) else (0,1,0)). destruct (Z.eqb_spec j 0); (split; [cbn; tauto|]); (split; [unfold inbox, oadd; cbn [ox oy oz fst snd]; lia|]);
      intros o Ho; pose proof (X _ Ho); pose proof (Hcube _ Ho) as C; apply in_cube_iff in C; unfold on_side; cbn -[Z.mul Z.sub];
      rewrite !andb_true_r; apply Z.eqb_eq; lia.
  - intros (d0 & Hd & Hout & Hs).
    assert (Z1 : forall o, In o l -> 0 <= ox c + ox o <= nu /\ 0 <= oy c + oy o <= nv /\ oz c + oz o = 0)
      by (intros o Ho; pose proof (pid_range _ _ _ _ _ Ic (Hcube _ Ho)); pose proof (Hz _ Ho); unfold inbox in Ic; lia).
    unfold inbox, oadd in *; cbn [ox oy oz fst snd] in *.
    cbn in Hd. repeat destruct Hd as [<-|Hd]; cbn [ox oy oz fst snd] in *; try contradiction.
    + left. exists nu. split; [now right|]. intros n Hn. apply in_map_iff in Hn. destruct Hn as (o & <- & Ho).
      exists (oy c + oy o). pose proof (Z1 _ Ho). split; [lia|]. unfold pid, oadd; cbn [ox oy oz fst snd].
      specialize (Hs _ Ho). unfold on_side in Hs. cbn -[Z.mul Z.sub] in Hs. rewrite !andb_true_r, Z.eqb_eq in Hs. f_equal; lia.
    + left. exists 0. split; [now left|]. intros n Hn. apply in_map_iff in Hn. destruct Hn as (o & <- & Ho).
      exists (oy c + oy o). pose proof (Z1 _ Ho). split; [lia|]. unfold pid, oadd; cbn [ox oy oz fst snd].
      specialize (Hs _ Ho). unfold on_side in Hs. cbn -[Z.mul Z.sub] in Hs. rewrite !andb_true_r, Z.eqb_eq in Hs. f_equal; lia.
    + right. exists nv. split; [now right|]. intros n Hn. apply in_map_iff in Hn. destruct Hn as (o & <- & Ho).
      exists (ox c + ox o). pose proof (Z1 _ Ho). split; [lia|]. unfold pid, oadd; cbn [ox oy oz fst snd].
      specialize (Hs _ Ho). unfold on_side in Hs. cbn -[Z.mul Z.sub] in Hs. rewrite !andb_true_r, Z.eqb_eq in Hs. f_equal; lia.
    + right. exists 0. split; [now left|]. intros n Hn. apply in_map_iff in Hn. destruct Hn as (o & <- & Ho).
      exists (ox c + ox o). pose proof (Z1 _ Ho). split; [lia|]. unfold pid, oadd; cbn [ox oy oz fst snd].
      specialize (Hs _ Ho). unfold on_side in Hs. cbn -[Z.mul Z.sub] in Hs. rewrite !andb_true_r, Z.eqb_eq in Hs. f_equal; lia.
Qed.

Lemma line_z f o : In f (pat_faces line_pat) -> In o (snd f) -> oy o = 0 /\ oz o = 0.
Proof.
  intros Hf Ho. cbn in Hf; repeat destruct Hf as [<-|Hf]; try contradiction;
  cbn in Ho; repeat destruct Ho as [<-|Ho]; try contradiction; auto.
Qed.

Lemma line_end nu c f : inbox nu 1 1 c -> In f (pat_faces line_pat) ->
  snd f <> [] -> (forall o, In o (snd f) -> in_cube o = true) ->
  (on_line_end nu (map (fun o => pid nu 1 (oadd c o)) (snd f)) <->
   exists d0, In d0 line_dirs /\ ~ inbox nu 1 1 (oadd c d0) /\ forall o, In o (snd f) -> on_side d0 o = true).
Proof.
  intros Ic Hf Hne Hcube. assert (Hz : forall o, In o (snd f) -> oy o = 0 /\ oz o = 0) by (intros; eapply line_z; eauto).
  revert Hne Hcube Hz. generalize (snd f) as l. clear Hf f. intros l Hne Hcube Hz.
  assert (Hex : exists o, In o l) by (destruct l as [|o l]; [congruence|exists o; now left]). destruct Hex as [o0 Ho0].
  assert (V : forall o, In o l -> pid nu 1 (oadd c o) = ox c + ox o).
  { intros o Ho. destruct (Hz _ Ho). unfold inbox in Ic. unfold pid, point_id, oadd; cbn [ox oy oz fst snd].
    replace (oy c + oy o) with 0 by lia. replace (oz c + oz o) with 0 by lia. lia. }
  unfold inbox in Ic. pose proof (Hcube _ Ho0) as C0. apply in_cube_iff in C0. split.
  - intros [H|H]; [exists (-1,0,0)|exists (1,0,0)]; (split; [cbn; tauto|]).
    + assert (Y : forall o, In o l -> ox c + ox o = 0).
      { intros o Ho. rewrite <- (V _ Ho). apply H. apply in_map_iff. eauto. }
      pose proof (Y _ Ho0). split; [unfold inbox, oadd; cbn [ox oy oz fst snd]; lia|].
      intros o Ho; pose proof (Y _ Ho); pose proof (Hcube _ Ho) as C; apply in_cube_iff in C; unfold on_side; cbn -[Z.mul Z.sub];
      rewrite !andb_true_r; apply Z.eqb_eq; lia.
    + assert (Y : forall o, In o l -> ox c + ox o = nu).
      { intros o Ho. rewrite <- (V _ Ho). apply H. apply in_map_iff. eauto. }
      pose proof (Y _ Ho0). split; [unfold inbox, oadd; cbn [ox oy oz fst snd]; lia|].
      intros o Ho; pose proof (Y _ Ho); pose proof (Hcube _ Ho) as C; apply in_cube_iff in C; unfold on_side; cbn -[Z.mul Z.sub];
      rewrite !andb_true_r; apply Z.eqb_eq; lia.
  - intros (d0 & Hd & Hout & Hs). unfold inbox, oadd in Hout; cbn [ox oy oz fst snd] in Hout.
    cbn in Hd. destruct Hd as [<-|[<-|[]]]; cbn [ox oy oz fst snd] in *; [right|left];
      intros n Hn; apply in_map_iff in Hn; destruct Hn as (o & <- & Ho); rewrite V by assumption;
      specialize (Hs _ Ho); unfold on_side in Hs; cbn -[Z.mul Z.sub] in Hs; rewrite !andb_true_r, Z.eqb_eq in Hs; lia.
Qed.

(** ** Generated meshes *)

Record gm (ds : list off) (pat : pattern) (pos : off -> coord) (nu nv nw ku kv kw : Z) (m : mesh) : Prop := {
  gm_check : pattern_check ds pat = true;
  gm_nodes : numbered (m_nodes m) (map pos (box_list ku kv kw));
  gm_faces : m_faces m = t_empty;
  gm_elems : numbered (m_elems m) (stamped pat nu nv nw);
  gm_in : forall c p o, inbox nu nv nw c -> In p pat -> In o (snd p) ->
    inbox ku kv kw (oadd c o) /\ pid nu nv (oadd c o) = pid (ku - 1) (kv - 1) (oadd c o)
}.

Lemma box_list_nth_error nu nv nw (c : off) : inbox nu nv nw c ->
  nth_error (box_list nu nv nw) (Z.to_nat (pid (nu - 1) (nv - 1) c)) = Some c.
Proof.
  destruct c as [[i j] k]. unfold inbox, pid; cbn [ox oy oz fst snd]. intros (Hi & Hj & Hk).
  etransitivity; [|apply (box_list_nth nu nv nw i j k); assumption]. f_equal. unfold point_id. f_equal.
  replace (nu - 1 + 1) with nu by lia. replace (nv - 1 + 1) with nv by lia. reflexivity.
Qed.

Section GM.
  Variables (ds : list off) (pat : pattern) (pos : off -> coord) (nu nv nw ku kv kw : Z) (m : mesh).
  Hypothesis G : gm ds pat pos nu nv nw ku kv kw m.

  Lemma gm_ec : forallb elem_check pat = true.
  Proof. pose proof (gm_check _ _ _ _ _ _ _ _ _ _ G) as H. unfold pattern_check in H. apply andb_true_iff in H. tauto. Qed.

  Lemma gm_node (o : off) : inbox ku kv kw o -> t_get (m_nodes m) (pid (ku - 1) (kv - 1) o) = Ok (pos o).
  Proof.
    intros Ho. replace (pid (ku - 1) (kv - 1) o) with (Z.of_nat (Z.to_nat (pid (ku - 1) (kv - 1) o))).
    - apply (nb_get _ _ (gm_nodes _ _ _ _ _ _ _ _ _ _ G)). rewrite nth_error_map, box_list_nth_error by assumption. reflexivity.
    - apply Z2Nat.id. unfold inbox in Ho. unfold pid, point_id.
      assert (0 <= (kv - 1 + 1) * oz o) by (apply Z.mul_nonneg_nonneg; lia).
      assert (0 <= (ku - 1 + 1) * (oy o + (kv - 1 + 1) * oz o)) by (apply Z.mul_nonneg_nonneg; lia). lia.
  Qed.

  Lemma gm_cell_node c p o : inbox nu nv nw c -> In p pat -> In o (snd p) ->
    t_get (m_nodes m) (pid nu nv (oadd c o)) = Ok (pos (oadd c o)).
  Proof.
    intros Hc Hp Ho. destruct (gm_in _ _ _ _ _ _ _ _ _ _ G c p o Hc Hp Ho) as [I ->]. now apply gm_node.
  Qed.

  Lemma gm_elem id e : t_get (m_elems m) id = Ok e ->
    exists c p, inbox nu nv nw c /\ In p pat /\ e = stamp nu nv c p.
  Proof.
    intros He. destruct (numbered_get _ _ _ _ (gm_elems _ _ _ _ _ _ _ _ _ _ G) He) as (k & _ & Hk).
    apply nth_error_In in Hk. destruct (stamped_elem _ _ _ _ _ gm_ec Hk) as (c & p & ? & ? & ? & _). eauto.
  Qed.

  Lemma gm_stamp c p : inbox nu nv nw c -> In p pat ->
    exists id, In id (t_ids (m_elems m)) /\ t_get (m_elems m) id = Ok (stamp nu nv c p).
  Proof.
    intros Hc Hp. assert (H : In (stamp nu nv c p) (stamped pat nu nv nw)).
    { unfold stamped. apply in_flat_map. exists c. split; [|now apply in_map].
      destruct c as [[i j] k]. now apply box_list_in. }
    apply In_nth_error in H. destruct H as [k Hk]. exists (Z.of_nat k).
    split; [|now apply (nb_get _ _ (gm_elems _ _ _ _ _ _ _ _ _ _ G))].
    rewrite (nb_ids _ _ (gm_elems _ _ _ _ _ _ _ _ _ _ G)). apply zrange_in.
    assert (k < length (stamped pat nu nv nw))%nat by (apply nth_error_Some; congruence). lia.
  Qed.

  Lemma gm_coords id c p : t_get (m_elems m) id = Ok (stamp nu nv c p) -> inbox nu nv nw c -> In p pat ->
    elem_coords m id = map (fun o => pos (oadd c o)) (snd p).
  Proof.
    intros He Hc Hp. unfold elem_coords. rewrite He. cbn [stamp e_nodes]. rewrite map_map. apply map_ext_in.
    intros o Ho. now rewrite (gm_cell_node c p o).
  Qed.

  Lemma gm_wf : wf_mesh m.
  Proof.
    split; [apply (gm_nodes _ _ _ _ _ _ _ _ _ _ G)|]. split; [|apply (gm_elems _ _ _ _ _ _ _ _ _ _ G)].
    rewrite (gm_faces _ _ _ _ _ _ _ _ _ _ G). apply (nb_wf _ _ numbered_empty).
  Qed.

  Lemma gm_refs : refs_ok m.
  Proof.
    split.
    - intros id e He. destruct (gm_elem _ _ He) as (c & p & Hc & Hp & ->). apply Forall_forall. intros n Hn.
      cbn [stamp e_nodes] in Hn. apply in_map_iff in Hn. destruct Hn as (o & <- & Ho).
      eapply wf_get_in; [apply gm_wf|]. apply (gm_cell_node c p o); assumption.
    - intros id f. rewrite (gm_faces _ _ _ _ _ _ _ _ _ _ G). discriminate.
  Qed.

  Lemma gm_proper t : (forall p, In p pat -> fst p = t) -> proper m t.
  Proof.
    intros Ht id e He. destruct (numbered_get _ _ _ _ (gm_elems _ _ _ _ _ _ _ _ _ _ G) He) as (k & _ & Hk).
    apply nth_error_In in Hk. destruct (stamped_elem _ _ _ _ _ gm_ec Hk) as (c & p & Hc & Hp & E & L & N & _).
    assert (T : e_type e = t) by (rewrite E; cbn; auto). split; [exact T|]. split; [now rewrite <- T|]. split; [exact N|].
    pose proof (proj1 gm_refs _ _ He) as R. rewrite Forall_forall in R. exact R.
  Qed.

  Lemma gm_size : t_size (m_faces m) = 0.
  Proof. rewrite (gm_faces _ _ _ _ _ _ _ _ _ _ G). reflexivity. Qed.

  Lemma gm_node_ids : 0 <= ku -> 0 <= kv -> 0 <= kw -> t_ids (m_nodes m) = zrange (Z.to_nat (ku * kv * kw)).
  Proof.
    intros. rewrite (nb_ids _ _ (gm_nodes _ _ _ _ _ _ _ _ _ _ G)), map_length.
    rewrite <- (box_list_length ku kv kw) by assumption. unfold zlen. now rewrite Nat2Z.id.
  Qed.

  Lemma gm_elem_ids : 0 <= nu -> 0 <= nv -> 0 <= nw -> t_ids (m_elems m) = zrange (Z.to_nat (zlen pat * (nu * nv * nw))).
  Proof.
    intros. rewrite (nb_ids _ _ (gm_elems _ _ _ _ _ _ _ _ _ _ G)). unfold stamped.
    rewrite (flat_map_length_const _ (length pat)) by (intros; apply map_length).
    rewrite <- (box_list_length nu nv nw) by assumption. unfold zlen. f_equal.
    rewrite <- Nat2Z.inj_mul, Nat2Z.id. apply Nat.mul_comm.
  Qed.

  (** Two faces of one cell with different centres. *)
  Lemma gm_spread p f g : In p pat -> 1 <= nu -> 1 <= nv -> 1 <= nw ->
    In f (pat_faces [p]) -> In g (pat_faces [p]) -> snd f <> [] -> snd g <> [] ->
    ~ mean (map pos (snd f)) =v= mean (map pos (snd g)) -> spread m.
  Proof.
    intros Hp Hu Hv Hw Hf Hg Nf Ng Hne. set (c := (0,0,0) : off).
    assert (Hc : inbox nu nv nw c) by (unfold inbox, c; cbn [ox oy oz fst snd]; lia).
    destruct (gm_stamp c p Hc Hp) as (id & _ & He).
    pose proof gm_ec as EC. rewrite forallb_forall in EC. specialize (EC _ Hp).
    assert (L : (node_count (e_type (stamp nu nv c p)) <= length (e_nodes (stamp nu nv c p)))%nat).
    { unfold elem_check in EC. apply andb_true_iff in EC. destruct EC as [EC _]. apply andb_true_iff in EC.
      destruct EC as [EC _]. apply Nat.eqb_eq in EC. cbn [stamp e_type e_nodes]. rewrite map_length. lia. }
    assert (X : forall f, In f (pat_faces [p]) -> snd f <> [] ->
      exists f', In f' (mk_faces (stamp nu nv c p)) /\ centre_of m (f_nodes f') (mean (map pos (snd f)))).
    { clear f g Hf Hg Nf Ng Hne. intros f Hf Nf. cbn [pat_faces flat_map] in Hf. rewrite app_nil_r in Hf.
      pose proof (stamp_faces nu nv c p EC) as SF.
      assert (In (face_of nu nv c f) (map td (mk_faces (stamp nu nv c p)))) as H1 by (rewrite SF; now apply in_map).
      apply in_map_iff in H1. destruct H1 as (f' & E & Hf'). exists f'. split; [exact Hf'|].
      unfold td, face_of in E. injection E as _ E. exists (map pos (snd f)). split.
      - rewrite E. unfold coords. rewrite !map_map. apply map_ext_in. intros o Ho.
        apply in_map_iff in Hf. destruct Hf as (tp & <- & Htp). cbn [snd] in Ho. apply in_map_iff in Ho.
        destruct Ho as (q & <- & Hq).
        assert (Hin : In (nth (Z.to_nat q) (snd p) (0,0,0)) (snd p)).
        { apply nth_In. pose proof (face_table_range _ _ _ Htp Hq). unfold stamp in L. cbn [e_type e_nodes] in L. rewrite map_length in L.
          eapply Nat.lt_le_trans; [|exact L].
          destruct H as [Hq0 Hq1]. apply Nat2Z.inj_lt. rewrite Z2Nat.id by assumption. exact Hq1. }
        etransitivity; [exact (gm_cell_node c p _ Hc Hp Hin)|]. f_equal. apply f_equal. clear. unfold oadd, c; cbn [ox oy oz fst snd].
        unfold ox, oy, oz. rewrite !Z.add_0_l, <- !surjective_pairing. reflexivity.
      - destruct (snd f); [congruence|reflexivity]. }
    destruct (X f Hf Nf) as (f1 & Hf1 & C1). destruct (X g Hg Ng) as (g1 & Hg1 & C2).
    exists id, (stamp nu nv c p), (mk_faces (stamp nu nv c p)), f1, (mean (map pos (snd f))).
    exists id, (stamp nu nv c p), (mk_faces (stamp nu nv c p)), g1, (mean (map pos (snd g))).
    pose proof (elem_faces_ok _ L). tauto.
  Qed.
End GM.

(** ** Hexahedra *)

Lemma frac_add n i x : (frac (i + x) n == frac i n + frac x n)%Q.
Proof. unfold frac, Qdiv. rewrite inject_Z_plus. ring. Qed.
Lemma frac_zero n : (frac 0 n == 0)%Q.
Proof. unfold frac, Qdiv. ring. Qed.
Lemma frac_full n : 1 <= n -> (frac n n == 1)%Q.
Proof. intros H. unfold frac. field. intros E. unfold Qeq in E. cbn in E. lia. Qed.
Lemma frac_one_pos n : 1 <= n -> (0 < frac 1 n)%Q.
Proof. intros H. unfold frac, Qdiv. rewrite Qmult_1_l. apply Qinv_lt_0_compat. unfold Qlt. cbn. lia. Qed.
Lemma frac_scale i n : (frac i n == inject_Z i * frac 1 n)%Q.
Proof. unfold frac, Qdiv. ring. Qed.

Definition hex_pos (o u v w : coord) (nu nv nw : Z) (c : off) : coord :=
  vadd (vadd (vadd o (along u nu (ox c))) (along v nv (oy c))) (along w nw (oz c)).

Lemma along_eq v n i : 1 <= n -> along v n i =v= vscale (frac i n) v.
Proof. intros H. unfold along. destruct (Z.ltb_spec 0 n); [reflexivity|lia]. Qed.

Lemma hex_pos_eq o u v w nu nv nw c : 1 <= nu -> 1 <= nv -> 1 <= nw ->
  hex_pos o u v w nu nv nw c =v= at_fractions o u v w (frac (ox c) nu) (frac (oy c) nv) (frac (oz c) nw).
Proof.
  intros. unfold hex_pos, at_fractions. rewrite !along_eq by assumption.
  unfold veq, vadd, vscale; cbn [cx cy cz]. repeat split; ring.
Qed.

(** The edge vectors of one cell. *)
Definition edge (v : coord) (n : Z) : coord := vscale (frac 1 n) v.

Lemma hex_pos_cell o u v w nu nv nw c x : 1 <= nu -> 1 <= nv -> 1 <= nw ->
  hex_pos o u v w nu nv nw (oadd c x) =v=
  at_fractions (hex_pos o u v w nu nv nw c) (edge u nu) (edge v nv) (edge w nw)
    (inject_Z (ox x)) (inject_Z (oy x)) (inject_Z (oz x)).
Proof.
  intros. rewrite hex_pos_eq by assumption. unfold at_fractions at 2. rewrite hex_pos_eq by assumption.
  unfold at_fractions, edge, oadd; cbn [ox oy oz fst snd].
  unfold veq, vadd, vscale; cbn [cx cy cz]. rewrite !frac_add.
  rewrite (frac_scale (oy x)), (frac_scale (ox x)), (frac_scale (oz x)). repeat split; ring.
Qed.

Lemma corners_cell o u v w : Forall2 veq
  (map (fun x : off => at_fractions o u v w (inject_Z (ox x)) (inject_Z (oy x)) (inject_Z (oz x))) hex_offs) (corners o u v w).
Proof.
  unfold corners, hex_offs; cbn [map ox oy oz fst snd]; repeat constructor;
  unfold at_fractions, veq, vadd, vscale; cbn [cx cy cz]; ring.
Qed.

Lemma generate_hex_gm p0 p1 p2 p3 p4 p5 p6 p7 nu nv nw d : 1 <= nu -> 1 <= nv -> 1 <= nw ->
  exists m, generate_hex [p0; p1; p2; p3; p4; p5; p6; p7] nu nv nw d = Ok m /\
    gm unit_dirs (hex_pat d) (hex_pos p0 (vsub p1 p0) (vsub p3 p0) (vsub p4 p0) nu nv nw) nu nv nw (nu + 1) (nv + 1) (nw + 1) m.
Proof.
  intros Hu Hv Hw. eexists. split; [reflexivity|]. split.
  - apply hex_pat_check.
  - apply grid_nodes_ok.
  - reflexivity.
  - cbn [m_elems]. destruct (grid_cells_ok d nu nv nw) as [H _].
    rewrite (flat_map_ext _ (fun c => map (stamp nu nv c) (hex_pat d))) in H; [exact H|]. intros c. apply hex_cell_stamp.
  - intros c p o Hc Hp Ho. assert (Hcube : in_cube o = true).
    { pose proof (hex_pat_check d) as CH. unfold pattern_check in CH. apply andb_true_iff in CH. destruct CH as [CH _].
      rewrite forallb_forall in CH. specialize (CH _ Hp). unfold elem_check in CH. apply andb_true_iff in CH.
      destruct CH as [CH _]. apply andb_true_iff in CH. destruct CH as [_ CH]. rewrite forallb_forall in CH. auto. }
    apply in_cube_iff in Hcube. unfold inbox, oadd in *; cbn [ox oy oz fst snd] in *. split; [lia|].
    now rewrite !Z.add_simpl_r.
Qed.

Definition nonzero3 (u v w : coord) : Prop := ~ (u =v= vzero /\ v =v= vzero /\ w =v= vzero).

Lemma veq_dec (a b : coord) : {a =v= b} + {~ a =v= b}.
Proof.
  unfold veq. destruct (Qeq_dec (cx a) (cx b)); [|right; tauto].
  destruct (Qeq_dec (cy a) (cy b)); [|right; tauto]. destruct (Qeq_dec (cz a) (cz b)); [left; tauto|right; tauto].
Qed.

Lemma edge_zero v n : 1 <= n -> edge v n =v= vzero -> v =v= vzero.
Proof.
  intros Hn (H1 & H2 & H3). pose proof (frac_one_pos n Hn). unfold edge, vscale, veq, vzero in *; cbn [cx cy cz] in *.
  repeat split; match goal with |- (?x == 0)%Q => destruct (Qmult_integral (frac 1 n) x) as [E|E]; [assumption|lra|assumption] end.
Qed.

Lemma mean_pos o u v w nu nv nw (l : list off) : 1 <= nu -> 1 <= nv -> 1 <= nw ->
  mean (map (hex_pos o u v w nu nv nw) l) =v=
  mean (map (fun x : off => at_fractions o (edge u nu) (edge v nv) (edge w nw) (inject_Z (ox x)) (inject_Z (oy x)) (inject_Z (oz x))) l).
Proof.
  intros Hu Hv Hw. unfold mean, zlen. rewrite !map_length. apply vscale_Proper; [reflexivity|].
  assert (H : forall a b, a =v= b -> fold_left vadd (map (hex_pos o u v w nu nv nw) l) a =v=
    fold_left vadd (map (fun x : off => at_fractions o (edge u nu) (edge v nv) (edge w nw) (inject_Z (ox x)) (inject_Z (oy x)) (inject_Z (oz x))) l) b).
  { induction l as [|x l IH]; intros a b E; cbn [map fold_left]; [exact E|]. apply IH. rewrite E. apply vadd_Proper; [reflexivity|].
    rewrite hex_pos_eq by assumption. unfold at_fractions, edge, veq, vadd, vscale; cbn [cx cy cz].
    rewrite (frac_scale (oy x)), (frac_scale (ox x)), (frac_scale (oz x)). repeat split; ring. }
  apply H. reflexivity.
Qed.

Ltac face_comp := repeat match goal with |- context [snd (nth ?n ?F ?x)] =>
  let X := constr:(snd (nth n F x)) in let l := eval vm_compute in X in change X with l end.
Ltac mean_tac := let H1 := fresh in let H2 := fresh in let H3 := fresh in
  intros (H1 & H2 & H3); unfold mean, zlen, at_fractions, vadd, vscale, vzero, veq in *;
  cbn [fold_left map length ox oy oz fst snd cx cy cz] in *;
  repeat match goal with H : context [(/ inject_Z ?z)%Q] |- _ =>
    let q := eval vm_compute in (/ inject_Z z)%Q in change (/ inject_Z z)%Q with q in * end;
  change (inject_Z 0) with 0%Q in *; change (inject_Z 1) with 1%Q in *.

Lemma mean_veq {A} (f g : A -> coord) l : (forall x, f x =v= g x) -> mean (map f l) =v= mean (map g l).
Proof.
  intros H. unfold mean, zlen. rewrite !map_length. apply vscale_Proper; [reflexivity|].
  assert (X : forall a b, a =v= b -> fold_left vadd (map f l) a =v= fold_left vadd (map g l) b).
  { induction l as [|x l IH]; intros a b E; cbn [map fold_left]; [exact E|]. apply IH. now rewrite E, H. }
  apply X. reflexivity.
Qed.

Lemma hex_spread pos o u v w nu nv nw d m : 1 <= nu -> 1 <= nv -> 1 <= nw -> nonzero3 u v w ->
  (forall c, pos c =v= hex_pos o u v w nu nv nw c) ->
  gm unit_dirs (hex_pat d) pos nu nv nw (nu + 1) (nv + 1) (nw + 1) m -> spread m.
Proof.
  intros Hu Hv Hw Hne Hpos G.
  assert (Hcase : ~ u =v= vzero \/ ~ v =v= vzero \/ ~ w =v= vzero).
  { destruct (veq_dec u vzero); [|tauto]. destruct (veq_dec v vzero); [|tauto]. destruct (veq_dec w vzero); [|tauto].
    exfalso. apply Hne. auto. }
  destruct d.
  - (* first tetrahedron 3 0 1 7: faces 0 = 3 0 1, 1 = 0 7 1, 2 = 3 7 0, 3 = 3 1 7 *)
    pose (p := nth 0 (hex_pat true) (ET_NONE, [])). assert (Hp : In p (hex_pat true)) by (left; reflexivity).
    pose (F := pat_faces [p]).
    destruct Hcase as [H|[H|H]].
    + apply (gm_spread _ _ _ _ _ _ _ _ _ _ G p (nth 3 F (FT_NONE, [])) (nth 2 F (FT_NONE, []))); try assumption; try discriminate;
        try (cbn; tauto). rewrite !(mean_veq _ _ _ Hpos), !mean_pos by assumption. intros E. apply H. apply (edge_zero u nu Hu).
      revert E. face_comp. generalize (edge u nu) (edge v nv) (edge w nw). intros [a b c] [a' b' c'] [a'' b'' c''].
      mean_tac. repeat split; lra.
    + apply (gm_spread _ _ _ _ _ _ _ _ _ _ G p (nth 3 F (FT_NONE, [])) (nth 1 F (FT_NONE, []))); try assumption; try discriminate;
        try (cbn; tauto). rewrite !(mean_veq _ _ _ Hpos), !mean_pos by assumption. intros E. apply H. apply (edge_zero v nv Hv).
      revert E. face_comp. generalize (edge u nu) (edge v nv) (edge w nw). intros [a b c] [a' b' c'] [a'' b'' c''].
      mean_tac. repeat split; lra.
    + apply (gm_spread _ _ _ _ _ _ _ _ _ _ G p (nth 1 F (FT_NONE, [])) (nth 0 F (FT_NONE, []))); try assumption; try discriminate;
        try (cbn; tauto). rewrite !(mean_veq _ _ _ Hpos), !mean_pos by assumption. intros E. apply H. apply (edge_zero w nw Hw).
      revert E. face_comp. generalize (edge u nu) (edge v nv) (edge w nw). intros [a b c] [a' b' c'] [a'' b'' c''].
      mean_tac. repeat split; lra.
  - pose (p := (ET_HEXAHEDRON, hex_offs)). assert (Hp : In p (hex_pat false)) by (left; reflexivity).
    pose (F := pat_faces [p]).
    destruct Hcase as [H|[H|H]].
    + apply (gm_spread _ _ _ _ _ _ _ _ _ _ G p (nth 4 F (FT_NONE, [])) (nth 5 F (FT_NONE, []))); try assumption; try discriminate;
        try (cbn; tauto). rewrite !(mean_veq _ _ _ Hpos), !mean_pos by assumption. intros E. apply H. apply (edge_zero u nu Hu).
      revert E. face_comp. generalize (edge u nu) (edge v nv) (edge w nw). intros [a b c] [a' b' c'] [a'' b'' c''].
      mean_tac. repeat split; lra.
    + apply (gm_spread _ _ _ _ _ _ _ _ _ _ G p (nth 3 F (FT_NONE, [])) (nth 2 F (FT_NONE, []))); try assumption; try discriminate;
        try (cbn; tauto). rewrite !(mean_veq _ _ _ Hpos), !mean_pos by assumption. intros E. apply H. apply (edge_zero v nv Hv).
      revert E. face_comp. generalize (edge u nu) (edge v nv) (edge w nw). intros [a b c] [a' b' c'] [a'' b'' c''].
      mean_tac. repeat split; lra.
    + apply (gm_spread _ _ _ _ _ _ _ _ _ _ G p (nth 1 F (FT_NONE, [])) (nth 0 F (FT_NONE, []))); try assumption; try discriminate;
        try (cbn; tauto). rewrite !(mean_veq _ _ _ Hpos), !mean_pos by assumption. intros E. apply H. apply (edge_zero w nw Hw).
      revert E. face_comp. generalize (edge u nu) (edge v nv) (edge w nw). intros [a b c] [a' b' c'] [a'' b'' c''].
      mean_tac. repeat split; lra.
Qed.

Lemma zlen_hex_pat d : zlen (hex_pat d) = if d then 6 else 1.
Proof. destruct d; reflexivity. Qed.

Lemma eight {A} (vs : list A) : length vs = 8%nat -> exists p0 p1 p2 p3 p4 p5 p6 p7, vs = [p0; p1; p2; p3; p4; p5; p6; p7].
Proof.
  intros H. do 8 (destruct vs as [|? vs]; [discriminate|]). destruct vs; [|discriminate]. do 8 eexists. reflexivity.
Qed.
Lemma four {A} (vs : list A) : length vs = 4%nat -> exists p0 p1 p2 p3, vs = [p0; p1; p2; p3].
Proof.
  intros H. do 4 (destruct vs as [|? vs]; [discriminate|]). destruct vs; [|discriminate]. do 4 eexists. reflexivity.
Qed.

Lemma hex_generated p0 p1 p2 p3 p4 p5 p6 p7 nu nv nw d : 1 <= nu -> 1 <= nv -> 1 <= nw ->
  exists m, generate_hex [p0; p1; p2; p3; p4; p5; p6; p7] nu nv nw d = Ok m /\ wf_mesh m /\ refs_ok m /\ t_size (m_faces m) = 0 /\
    t_ids (m_nodes m) = zrange (Z.to_nat ((nu + 1) * (nv + 1) * (nw + 1))) /\
    t_ids (m_elems m) = zrange (Z.to_nat ((if d then 6 else 1) * (nu * nv * nw))) /\
    proper m (if d then ET_TETRAHEDRON else ET_HEXAHEDRON) /\
    forall i j k, 0 <= i <= nu -> 0 <= j <= nv -> 0 <= k <= nw ->
      exists c, t_get (m_nodes m) (point_id nu nv i j k) = Ok c /\
        c =v= at_fractions p0 (vsub p1 p0) (vsub p3 p0) (vsub p4 p0) (frac i nu) (frac j nv) (frac k nw).
Proof.
  intros Hu Hv Hw. destruct (generate_hex_gm p0 p1 p2 p3 p4 p5 p6 p7 nu nv nw d Hu Hv Hw) as (m & E & G). exists m.
  split; [exact E|]. split; [apply (gm_wf _ _ _ _ _ _ _ _ _ _ G)|]. split; [apply (gm_refs _ _ _ _ _ _ _ _ _ _ G)|].
  split; [apply (gm_size _ _ _ _ _ _ _ _ _ _ G)|].
  split; [apply (gm_node_ids _ _ _ _ _ _ _ _ _ _ G); lia|].
  split. { rewrite <- zlen_hex_pat. apply (gm_elem_ids _ _ _ _ _ _ _ _ _ _ G); lia. }
  split. { apply (gm_proper _ _ _ _ _ _ _ _ _ _ G). intros p Hp. destruct d; cbn in Hp; repeat destruct Hp as [<-|Hp]; try contradiction; reflexivity. }
  intros i j k Hi Hj Hk. eexists. split.
  - pose proof (gm_node _ _ _ _ _ _ _ _ _ _ G (i, j, k)) as H. rewrite !Z.add_simpl_r in H. apply H.
    unfold inbox; cbn [ox oy oz fst snd]. lia.
  - apply hex_pos_eq; assumption.
Qed.

Lemma hex_conform pos o u v w nu nv nw d m n tol : 1 <= nu -> 1 <= nv -> 1 <= nw ->
  nonzero3 u v w -> (forall c, pos c =v= hex_pos o u v w nu nv nw c) ->
  gm unit_dirs (hex_pat d) pos nu nv nw (nu + 1) (nv + 1) (nw + 1) m -> 1 <= n <= int_max -> (0 <= tol)%Q ->
  exists m' nb bm,
    generateFaces n tol m = Ok (m', nb) /\ m_nodes m' = m_nodes m /\
    conforming (m_faces m') (on_box_side nu nv nw) /\
    nb = (if d then 4 else 2) * (nu * nv + nv * nw + nu * nw) /\
    extractBoundary n tol m = Ok (bm, m') /\ t_ids (m_elems bm) = zrange (Z.to_nat nb) /\
    closed_surface (polygons (m_elems bm)).
Proof.
  intros Hu Hv Hw Hne Hpos G Hn Htol.
  assert (Sp : spread m) by (apply (hex_spread pos o u v w nu nv nw d m Hu Hv Hw); assumption).
  pose proof (gm_wf _ _ _ _ _ _ _ _ _ _ G) as W. pose proof (gm_refs _ _ _ _ _ _ _ _ _ _ G) as R.
  destruct (conform_ok (hex_pat d) unit_dirs nu nv nw (on_box_side nu nv nw) n tol m (hex_pat_check d) Hn Htol W R Sp
    (gm_elems _ _ _ _ _ _ _ _ _ _ G)) as (m' & nb & EF & En & Cf & Hnb & _).
  { intros c f Hc _ Hne' Hcube. now apply box_side. }
  assert (Enough : enough m).
  { intros id e He. destruct (numbered_get _ _ _ _ (gm_elems _ _ _ _ _ _ _ _ _ _ G) He) as (k & _ & Hk).
    apply nth_error_In in Hk. destruct (stamped_elem _ _ _ _ _ (gm_ec _ _ _ _ _ _ _ _ _ _ G) Hk) as (c & p & _ & _ & _ & L & _). lia. }
  destruct (boundary_ok n tol m Hn Htol W R Enough Sp) as (bm & m2 & nb2 & EB & EF2 & Wb & Rb & Ib & _).
  assert (m2 = m' /\ nb2 = nb) as [-> ->] by (split; congruence).
  exists m', nb, bm. split; [exact EF|]. split; [exact En|]. split; [exact Cf|].
  split.
  { rewrite Hnb. destruct d.
    - let l := eval vm_compute in (outdirs (hex_pat true)) in change (outdirs (hex_pat true)) with l.
      cbn [map]. rewrite ?missing_zero, ?missing_x, ?missing_y, ?missing_z by lia. unfold zsum; cbn [fold_right]. lia.
    - let l := eval vm_compute in (outdirs (hex_pat false)) in change (outdirs (hex_pat false)) with l.
      cbn [map]. rewrite ?missing_zero, ?missing_x, ?missing_y, ?missing_z by lia. unfold zsum; cbn [fold_right]. lia. }
  split; [exact EB|]. split; [exact Ib|].
  destruct Cf as (C1 & C2 & C3 & C4).
  apply (watertight_ok n tol m bm m'); try assumption.
  - intros id e He. destruct (gm_elem _ _ _ _ _ _ _ _ _ _ G _ _ He) as (c & p & _ & Hp & ->). cbn [stamp e_type].
    destruct d; cbn in Hp; repeat destruct Hp as [<-|Hp]; try contradiction; cbn; unfold solid; auto.
  - intros a b f g Hm Hf Hg. now apply (C3 a b f g Hm Hf Hg).
Qed.

Lemma hex_conforming p0 p1 p2 p3 p4 p5 p6 p7 nu nv nw d n tol : 1 <= nu -> 1 <= nv -> 1 <= nw ->
  ~ (p1 =v= p0 /\ p3 =v= p0 /\ p4 =v= p0) -> 1 <= n <= int_max -> (0 <= tol)%Q ->
  exists m m' nb bm, generate_hex [p0; p1; p2; p3; p4; p5; p6; p7] nu nv nw d = Ok m /\
    generateFaces n tol m = Ok (m', nb) /\ m_nodes m' = m_nodes m /\
    conforming (m_faces m') (on_box_side nu nv nw) /\
    nb = (if d then 4 else 2) * (nu * nv + nv * nw + nu * nw) /\
    extractBoundary n tol m = Ok (bm, m') /\ t_ids (m_elems bm) = zrange (Z.to_nat nb) /\
    closed_surface (polygons (m_elems bm)).
Proof.
  intros Hu Hv Hw Hne Hn Htol. destruct (generate_hex_gm p0 p1 p2 p3 p4 p5 p6 p7 nu nv nw d Hu Hv Hw) as (m & E & G).
  destruct (hex_conform (hex_pos p0 (vsub p1 p0) (vsub p3 p0) (vsub p4 p0) nu nv nw) p0 (vsub p1 p0) (vsub p3 p0) (vsub p4 p0) nu nv nw d m n tol Hu Hv Hw) as (m' & nb & bm & H); try assumption.
  { intros (H1 & H2 & H3). apply Hne. unfold veq, vsub, vzero in *; cbn [cx cy cz] in *. repeat split; lra. }
  { reflexivity. }
  exists m, m', nb, bm. tauto.
Qed.
