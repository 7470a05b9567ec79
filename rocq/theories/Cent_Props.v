(** C116: centroids of faces and elements by id. *)
From Coq Require Import ZArith List Lia Bool QArith.
From Verif Require Import Prelude Vec ZMap Mesh_Model Mesh_Spec Mesh_Proofs Mesh_Check Merge_Model Merge_Spec Merge_Proofs
  Face_Model Face_Spec Face_Proofs Fix_Spec HashGrid_Proofs Cent_Model.
Import ListNotations.
Open Scope Z_scope.

Lemma list_at {A} (t : table A) (g : Z -> outcome coord) cs : indexed t -> mapM g (t_ids t) = Ok cs ->
  forall id, In id (t_ids t) -> (i <- t_index t id ;; vec_at cs i) = g id.
Proof.
  intros [I _] M id H. apply In_nth_error in H as [i Hi].
  assert (E : t_index t id = Ok (Z.of_nat i)) by (apply I; unfold t_id; now rewrite vec_at_nat, Hi).
  rewrite E. cbn [bind]. rewrite vec_at_nat. clear E I. revert i cs M Hi.
  induction (t_ids t) as [|a l IH]; intros i cs M Hi; [now destruct i|].
  cbn [mapM] in M. destruct (g a) as [c| |] eqn:G; cbn [bind] in M; try discriminate.
  destruct (mapM g l) as [cs'| |]; cbn [bind] in M; try discriminate. injection M as <-.
  destruct i as [|i]; cbn [nth_error] in *; [injection Hi as <-; now rewrite G|]. now apply IH.
Qed.

Lemma mapM_exists {A B} (g : A -> outcome B) l : (forall a, In a l -> exists b, g a = Ok b) -> exists bs, mapM g l = Ok bs.
Proof.
  induction l as [|a l IH]; intros H; [now exists []|]. destruct (H a (or_introl eq_refl)) as [b E].
  destruct IH as [bs Eb]; [intros; apply H; now right|]. exists (b :: bs). cbn [mapM]. rewrite E. cbn [bind]. now rewrite Eb.
Qed.

(** After calculateElementCentroid elementCentroid gives the mean of the nodes of each element, and throws for ids without one. *)
Theorem C116_elements : forall m, wf_mesh m -> refs_ok m -> indexed (m_elems m) ->
  exists cs, element_centroids m = Ok cs /\
    (forall id c, element_centroid m cs id = Ok c <-> centroid_of m id c) /\
    (forall id, ~ In id (t_ids (m_elems m)) -> element_centroid m cs id = Throw).
Proof.
  intros m W R I. destruct (mapM_exists (elem_centroid m) (t_ids (m_elems m))) as [cs E].
  { intros id H. destruct (elem_centroid_ok m id W R H) as (c & Hc & _). now exists c. }
  assert (N : forall id, ~ In id (t_ids (m_elems m)) -> element_centroid m cs id = Throw).
  { intros id H. unfold element_centroid. now rewrite (proj2 I id H). }
  exists cs. split; [exact E|]. split; [|exact N]. intros id c.
  destruct (in_dec Z.eq_dec id (t_ids (m_elems m))) as [H|H].
  - unfold element_centroid. rewrite (list_at _ _ _ I E id H). destruct (elem_centroid_ok m id W R H) as (c' & Hc & U).
    rewrite Hc, U. split; [intros [= ->]; reflexivity|intros ->; reflexivity].
  - rewrite (N id H). split; [discriminate|]. intros (e & x & G & _). exfalso. apply H. destruct W as (_ & _ & W). eapply wf_get_in; eauto.
Qed.
Print Assumptions C116_elements.

(** The same for faces. *)
Theorem C116_faces : forall m, wf_mesh m -> refs_ok m -> indexed (m_faces m) ->
  exists cs, face_centroids m = Ok cs /\
    (forall id c, face_centroid m cs id = Ok c <-> centre_at m id c) /\
    (forall id, ~ In id (t_ids (m_faces m)) -> face_centroid m cs id = Throw).
Proof.
  intros m W R I. pose proof W as (Wn & Wf & _). destruct R as [_ R].
  set (g := fun id => f <- t_get (m_faces m) id ;; face_centre (m_nodes m) f).
  assert (G : forall id, In id (t_ids (m_faces m)) -> exists c, g id = Ok c /\ forall c', centre_at m id c' <-> c' = c).
  { intros id H. destruct (wf_get _ id Wf H) as [f Hf]. destruct (face_centre_ok m f Wn (R _ _ Hf)) as (cs & Hcs & E).
    eexists. unfold g. rewrite Hf. cbn [bind]. split; [exact E|]. intros c'. split.
    - intros (f' & Hf' & cs' & Hcs' & ->). assert (f' = f) by congruence. subst f'.
      assert (cs' = cs); [|now subst]. rewrite Hcs in Hcs'. clear -Hcs'. revert cs' Hcs'.
      induction cs as [|c cs IH]; intros [|c' cs'] K; try discriminate; [reflexivity|]. cbn [map] in K. injection K as -> K. f_equal. now apply IH.
    - intros ->. exists f. split; [exact Hf|]. exists cs. auto. }
  destruct (mapM_exists g (t_ids (m_faces m))) as [cs E].
  { intros id H. destruct (G id H) as (c & Hc & _). now exists c. }
  assert (N : forall id, ~ In id (t_ids (m_faces m)) -> face_centroid m cs id = Throw).
  { intros id H. unfold face_centroid. now rewrite (proj2 I id H). }
  exists cs. split; [exact E|]. split; [|exact N]. intros id c.
  destruct (in_dec Z.eq_dec id (t_ids (m_faces m))) as [H|H].
  - unfold face_centroid. rewrite (list_at _ _ _ I E id H). destruct (G id H) as (c' & Hc & U).
    rewrite Hc, U. split; [intros [= ->]; reflexivity|intros ->; reflexivity].
  - rewrite (N id H). split; [discriminate|]. intros (f & Hf & _). exfalso. apply H. eapply wf_get_in; eauto.
Qed.
Print Assumptions C116_faces.

Lemma removes_keep {A} ids : forall (t t' : table A), NoDup (t_ids t) -> foldM t_remove ids t = Ok t' ->
  forall id, In id (t_ids t') -> In id (t_ids t) /\ t_index t' id = t_index t id.
Proof.
  induction ids as [|k ids IH]; intros t t' N H id Hid; cbn [foldM] in H.
  - injection H as <-. auto.
  - destruct (t_remove t k) as [t1| |] eqn:E; cbn [bind] in H; try discriminate.
    unfold t_remove in E. destruct (erase_first k (t_ids t)) as [l|] eqn:El; [|discriminate]. injection E as <-.
    apply erase_first_Some in El as [_ ->]; [|exact N].
    specialize (IH (Table (filter (fun x => negb (x =? k)) (t_ids t)) (zdelete k (t_map t)) (zdelete k (t_idx t)) (t_ctr t)) t' (NoDup_filter _ N) H id Hid). cbn [t_ids] in IH. destruct IH as [I1 I2].
    apply filter_In in I1 as [I1 K]. split; [exact I1|]. rewrite I2. unfold t_index, zat. cbn [t_idx].
    rewrite zlookup_delete. apply negb_true_iff in K. now rewrite K.
Qed.

(** Removing elements afterwards leaves the centroids of the others right, as long as they are not calculated again. *)
Theorem C116_removed : forall m cs ids m', wf_mesh m -> refs_ok m -> indexed (m_elems m) ->
  element_centroids m = Ok cs -> remove_elements m ids = Ok m' ->
  forall id c, In id (t_ids (m_elems m')) -> (element_centroid m' cs id = Ok c <-> centroid_of m id c).
Proof.
  intros m cs ids m' W R I E H id c Hid. unfold remove_elements in H.
  destruct (foldM t_remove ids (m_elems m)) as [t| |] eqn:F; cbn [bind] in H; try discriminate. injection H as <-. cbn [m_elems] in Hid.
  destruct W as (Wn & Wf & We). destruct (removes_keep ids _ _ (proj1 We) F id Hid) as [J X].
  destruct (C116_elements m (conj Wn (conj Wf We)) R I) as (cs' & E' & U & _). assert (cs' = cs) by congruence. subst cs'.
  rewrite <- U. unfold element_centroid. cbn [m_elems]. now rewrite X.
Qed.
Print Assumptions C116_removed.

(** Whatever the indices were, after rebuildIndices and calculateElementCentroid they are right. *)
Theorem C116_rebuilt : forall m, wf_mesh m -> refs_ok m -> let m' := Mesh (m_nodes m) (m_faces m) (t_rebuild (m_elems m)) in
  exists cs, element_centroids m' = Ok cs /\ forall id c, element_centroid m' cs id = Ok c <-> centroid_of m id c.
Proof.
  intros m W R m'. pose proof W as (Wn & Wf & We).
  destruct (C116_elements m') as (cs & E & U & _); [exact W|exact R|apply t_rebuild_indexed; exact (proj1 We)|].
  exists cs. split; [exact E|exact U].
Qed.
Print Assumptions C116_rebuilt.

(** ** A case: three triangles in a row *)
Definition strip : mesh :=
  Mesh (mk_table [(0, Coord 0 0 0); (1, Coord 3 0 0); (2, Coord 0 3 0); (3, Coord 3 3 0); (4, Coord 6 0 0)])
    (mk_table [(0, Face FT_LINE [0; 1] false 0 0)])
    (mk_table [(7, Element ET_TRIANGLE [0; 1; 2] []); (8, Element ET_TRIANGLE [1; 3; 2] []); (9, Element ET_TRIANGLE [1; 4; 3] [])]).

Lemma strip_indexed : indexed (m_elems strip).
Proof.
  change (m_elems strip) with (t_rebuild (m_elems strip)). apply t_rebuild_indexed.
  repeat constructor; cbn; intuition discriminate.
Qed.

Definition asked (m : mesh) (r : outcome (list coord)) (id : Z) : option (Q * Q) :=
  match (cs <- r ;; element_centroid m cs id) with Ok c => Some (Qred (cx c), Qred (cy c)) | _ => None end.

Example C116_case : wf_mesh strip /\ refs_ok strip /\ indexed (m_elems strip) /\
  asked strip (element_centroids strip) 7 = Some (1, 1)%Q /\ asked strip (element_centroids strip) 8 = Some (2, 2)%Q /\
  asked strip (element_centroids strip) 9 = Some (4, 1)%Q /\ asked strip (element_centroids strip) 6 = None.
Proof.
  split; [apply wf_meshb_ok; reflexivity|]. split; [apply refs_okb_ok; reflexivity|]. split; [exact strip_indexed|].
  repeat (split; [reflexivity|]). reflexivity.
Qed.

(** Finding: calculated again after elements were removed (which leaves the indices of the others as they are), the centroid of an element is that of
    another one: with element 7 removed, element 8 gets the centroid of element 9, and element 9 has none (an exception). *)
Theorem C116_again_refuted : exists m, remove_elements strip [7] = Ok m /\
  asked m (element_centroids strip) 8 = Some (2, 2)%Q /\ asked m (element_centroids m) 8 = Some (4, 1)%Q /\ asked m (element_centroids m) 9 = None.
Proof. eexists. split; [reflexivity|]. split; [reflexivity|]. split; reflexivity. Qed.
Print Assumptions C116_again_refuted.
