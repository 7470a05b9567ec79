(** Proofs about fixed boundaries. *)
From Coq Require Import ZArith List Lia Bool QArith Lqa Permutation.
From Verif Require Import Prelude Vec Box_Model Box_Spec ZMap Mesh_Model Mesh_Spec Mesh_Proofs HashGrid_Model HashGrid_Spec HashGrid_Proofs
  Merge_Model Merge_Spec Merge_Proofs Face_Model Face_Spec Face_Proofs Fix_Model Fix_Spec.
Import ListNotations.
Open Scope Z_scope.

(** What the table of faces is when the faces in [P] have lost their pair. *)
Definition unset (t0 t : table face) (P : Z -> Prop) : Prop :=
  wf_table t /\ t_ids t = t_ids t0 /\ t_idx t = t_idx t0 /\ t_ctr t = t_ctr t0 /\
  forall id f, t_get t0 id = Ok f ->
    (P id /\ t_get t id = Ok (unset_pair f)) \/ (~ P id /\ t_get t id = Ok f).

Lemma unset_same t0 t P P' : (forall id, P id <-> P' id) -> unset t0 t P -> unset t0 t P'.
Proof.
  intros E (W & I & X & C & H). split; [exact W|]. split; [exact I|]. split; [exact X|]. split; [exact C|].
  intros id f Hf. destruct (H id f Hf) as [[Hp Hg]|[Hp Hg]]; [left|right]; split; auto; rewrite <- E; auto.
Qed.

Lemma unset_pair_twice f : unset_pair (unset_pair f) = unset_pair f.
Proof. reflexivity. Qed.

Lemma unset_one t0 t P id : wf_table t0 -> (forall k, P k \/ ~ P k) -> unset t0 t P -> In id (t_ids t0) ->
  exists t', unset_found t id = Ok t' /\ unset t0 t' (fun k => P k \/ k = id).
Proof.
  intros W0 D (W & I & X & C & H) Hin. destruct (wf_get t0 id W0 Hin) as [f Hf].
  assert (Hin' : In id (t_ids t)) by now rewrite I.
  destruct (wf_get t id W Hin') as [f' Hf'].
  assert (Ef : unset_pair f' = unset_pair f).
  { destruct (H id f Hf) as [[_ G]|[_ G]]; rewrite G in Hf'; injection Hf' as <-; reflexivity. }
  unfold unset_found. rewrite Hf'. cbn [bind]. eexists. split; [reflexivity|].
  destruct (t_set_wf t id (unset_pair f') W Hin') as [W' G].
  split; [exact W'|]. split; [exact I|]. split; [exact X|]. split; [exact C|].
  intros k fk Hk. rewrite G. destruct (Z.eqb_spec k id) as [->|Ne].
  - left. split; [now right|]. rewrite Ef. congruence.
  - destruct (H k fk Hk) as [[Hp Hg]|[Hp Hg]]; [left|right]; split; auto. intros [?|?]; auto.
Qed.

Lemma unset_all t0 found : wf_table t0 -> forall t P, (forall k, P k \/ ~ P k) -> unset t0 t P ->
  (forall id, In id found -> In id (t_ids t0)) ->
  exists t', foldM unset_found found t = Ok t' /\ unset t0 t' (fun k => P k \/ In k found).
Proof.
  intros W0. induction found as [|id found IH]; intros t P D H Hin.
  - exists t. split; [reflexivity|]. eapply unset_same; [|exact H]. intros k. cbn. tauto.
  - destruct (unset_one t0 t P id W0 D H) as (t1 & E1 & H1); [apply Hin; now left|].
    destruct (IH t1 (fun k => P k \/ k = id)) as (t' & E' & H').
    + intros k. destruct (D k), (Z.eq_dec k id); tauto.
    + exact H1.
    + intros; apply Hin; now right.
    + exists t'. cbn [foldM]. rewrite E1. cbn [bind]. split; [exact E'|].
      eapply unset_same; [|exact H']. intros k. cbn. intuition congruence.
Qed.

Lemma centre_one m l c c' : centre_of m l c -> centre_of m l c' -> c = c'.
Proof.
  intros (cs & E & ->) (ds & E' & ->). assert (cs = ds) by (apply coords_inj; congruence). now subst.
Qed.

Theorem fixed_ok n m edges tol :
  1 <= n <= int_max -> (0 <= tol)%Q -> wf_mesh m -> refs_ok m -> wf_mesh edges -> refs_ok edges ->
  (exists a b c d, centre_at m a c /\ centre_at m b d /\ ~ c =v= d) ->
  (forall e q, centroid_of edges e q -> reached m tol q) ->
  exists t, applyFixedBoundary n m edges tol = Ok (Mesh (m_nodes m) t (m_elems m)) /\
    unset (m_faces m) t (on_edge m edges tol).
Proof.
  intros Hn Ht W R We Re (a0 & b0 & c0 & d0 & Ha0 & Hb0 & Hne) Hr.
  pose proof W as (Wn & Wf & _). destruct R as (_ & Rf).
  unfold applyFixedBoundary.
  destruct (with_ids_ok (fun id => f <- t_get (m_faces m) id ;; face_centre (m_nodes m) f) (t_ids (m_faces m))) as (objs & Eo & Mo & Io).
  { intros id Hid. destruct (wf_get _ _ Wf Hid) as [f Hf]. rewrite Hf. cbn [bind].
    destruct (face_centre_ok m f Wn (Rf _ _ Hf)) as (cs & _ & E). eauto. }
  rewrite Eo. cbn [bind].
  assert (Ob : forall k c, In (k, c) objs <-> centre_at m k c).
  { intros k c. rewrite Io. split.
    - intros [Hk E]. destruct (wf_get _ _ Wf Hk) as [f Hf]. rewrite Hf in E. cbn [bind] in E.
      destruct (face_centre_ok m f Wn (Rf _ _ Hf)) as (cs & Hcs & E'). rewrite E' in E. injection E as <-.
      exists f. split; [exact Hf|]. exists cs. now split.
    - intros (f & Hf & Hc). split; [eapply wf_get_in; eauto|]. rewrite Hf. cbn [bind].
      destruct (face_centre_ok m f Wn (Rf _ _ Hf)) as (cs & Hcs & E'). rewrite E'. f_equal.
      apply (centre_one m (f_nodes f)); [exists cs; now split|exact Hc]. }
  destruct (hash_grid_ok n grid_new objs Hn) as (g & Eg & Hex & _ & Hbox).
  { exists (a0, c0), (b0, d0). rewrite !Ob. auto. }
  change (grid_build n (grid_fill (grid_reset grid_new) objs)) with (grid_of n objs) in Eg. rewrite Eg. cbn [bind].
  assert (Fd : forall e q, centroid_of edges e q -> exists r, grid_find g [] q tol = Ok r /\
    forall k, In k r <-> exists c, centre_at m k c /\ norm_le (vsub c q) tol = true).
  { intros e q Hq. destruct (Hr e q Hq) as (p & a & b & c & d & e' & f & P1 & P2 & P3 & (ia & Ha) & (ib & Hb) & (ic & Hc) & (id & Hd) & (ie & He) & (jf & Hf) & Q1 & Q2 & Q3).
    destruct (Hbox q tol [] p) as [r Er].
    - exists (ia, a), (ib, b), (ic, c), (id, d), (ie, e'), (jf, f). rewrite !Ob. cbn [snd]. auto 10.
    - unfold in_box. cbn. lra.
    - exists r. split; [exact Er|]. destruct (Hex _ _ _ _ Er) as (r' & -> & Hp). cbn [app]. intros k. split.
      + intros Hk. apply (Permutation_in _ Hp) in Hk. unfold in_range in Hk. apply in_map_iff in Hk.
        destruct Hk as ([k' c'] & <- & Hk). apply filter_In in Hk as [Hk1 Hk2]. exists c'. split; [now apply Ob|exact Hk2].
      + intros (c' & Hc' & Hl). apply (Permutation_in _ (Permutation_sym Hp)). unfold in_range. apply in_map_iff.
        exists (k, c'). split; [reflexivity|]. apply filter_In. split; [now apply Ob|exact Hl]. }
  destruct (foldM_invariant (fix_edge g edges tol)
    (fun done t => (forall k, (exists e c q, In e done /\ centre_at m k c /\ centroid_of edges e q /\ norm_le (vsub c q) tol = true) \/
                         ~ (exists e c q, In e done /\ centre_at m k c /\ centroid_of edges e q /\ norm_le (vsub c q) tol = true)) /\
       unset (m_faces m) t (fun k => exists e c q, In e done /\ centre_at m k c /\ centroid_of edges e q /\ norm_le (vsub c q) tol = true))
    (t_ids (m_elems edges)) (m_faces m)) as (t & Et & _ & Ht').
  - split; [intros k; right; intros (? & ? & ? & [] & _)|].
    split; [exact Wf|]. split; [reflexivity|]. split; [reflexivity|]. split; [reflexivity|].
    intros id f Hf. right. split; [intros (? & ? & ? & [] & _)|exact Hf].
  - intros done e rest t El [D U].
    assert (Ine : In e (t_ids (m_elems edges))) by (rewrite El; apply in_elt).
    destruct (elem_centroid_ok edges e We Re Ine) as (q & Eq & Uq).
    assert (Hq : centroid_of edges e q) by now apply Uq.
    destruct (Fd e q Hq) as (r & Er & Hrk).
    destruct (unset_all (m_faces m) r Wf t _ D U) as (t' & E' & U').
    { intros k Hk. apply Hrk in Hk as (c & (f & Hf & _) & _). eapply wf_get_in; eauto. }
    exists t'. unfold fix_edge. rewrite Eq. cbn [bind]. rewrite Er. cbn [bind]. split; [exact E'|].
    assert (Eqv : forall k, (exists e0 c q0, In e0 (done ++ [e]) /\ centre_at m k c /\ centroid_of edges e0 q0 /\ norm_le (vsub c q0) tol = true) <->
      ((exists e0 c q0, In e0 done /\ centre_at m k c /\ centroid_of edges e0 q0 /\ norm_le (vsub c q0) tol = true) \/ In k r)).
    { intros k. rewrite Hrk. split.
      - intros (e0 & c & q0 & I0 & H1 & H2 & H3). apply in_app_iff in I0 as [I0|[<-|[]]]; [left; eauto 8|].
        right. exists c. split; [exact H1|]. apply Uq in H2. now subst.
      - intros [(e0 & c & q0 & I0 & H)|(c & H1 & H2)].
        + exists e0, c, q0. split; [apply in_app_iff; now left|exact H].
        + exists e, c, q. split; [apply in_app_iff; right; now left|]. auto. }
    split.
    + intros k. rewrite Eqv. destruct (D k) as [?|N]; [left; now left|].
      destruct (in_dec Z.eq_dec k r); [left; now right|right; tauto].
    + eapply unset_same; [|exact U']. intros k. symmetry. apply Eqv.
  - rewrite Et. cbn [bind]. exists t. split; [reflexivity|].
    eapply unset_same; [|exact Ht']. intros k. unfold on_edge. split.
    + intros (e & c & q & _ & H). exists e, c, q. exact H.
    + intros (e & c & q & H1 & H2 & H3). exists e, c, q. split; [|auto]. eapply centroid_in; eauto.
Qed.

Lemma mean_perm cs ds : Permutation cs ds -> mean cs =v= mean ds.
Proof.
  intros P. unfold mean, zlen. rewrite (Permutation_length P).
  assert (E : fold_left vadd cs vzero =v= fold_left vadd ds vzero) by (apply vadd_fold_perm; [exact P|reflexivity]).
  destruct E as (A & B & C).
  unfold veq, vscale; cbn. split; [now rewrite A|]. split; [now rewrite B|now rewrite C].
Qed.
