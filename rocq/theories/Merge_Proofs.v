(** Proofs about the mesh clean-up operations. *)
From Coq Require Import ZArith List Bool QArith Permutation Lia Lqa Sorted.
From Verif Require Import Prelude Vec ZMap Mesh_Model Mesh_Spec Mesh_Proofs Mesh_Check
  Box_Model Box_Spec HashGrid_Model HashGrid_Spec HashGrid_Proofs Merge_Model Merge_Spec.
Import ListNotations.
Open Scope Z_scope.

(** ** Deleting a set of ids *)

Lemma t_remove_ok {A} (t : table A) k :
  wf_table t -> In k (t_ids t) ->
  exists t', t_remove t k = Ok t' /\ wf_table t' /\
    t_ids t' = filter (fun id => negb (id =? k)) (t_ids t) /\
    (forall id, t_get t' id = if id =? k then Throw else t_get t id) /\
    (forall id, t_index t' id = if id =? k then Throw else t_index t id).
Proof.
  intros (Hnd & Hs & Hk) Hin. unfold t_remove.
  destruct (erase_first k (t_ids t)) as [l|] eqn:E; [|apply erase_first_None in E; contradiction].
  apply erase_first_Some in E; [|assumption]. destruct E as [_ ->].
  eexists. split; [reflexivity|]. cbn. split; [|split; [reflexivity|split]].
  - split; [|split]; cbn.
    + now apply NoDup_filter_ids.
    + now apply zsorted_delete.
    + intros id. rewrite filter_In, zlookup_delete, Hk.
      destruct (Z.eqb_spec id k); cbn; intuition congruence.
  - intros id. unfold t_get, zat. cbn. rewrite zlookup_delete. now destruct (id =? k).
  - intros id. unfold t_index, zat. cbn. rewrite zlookup_delete. now destruct (id =? k).
Qed.

Lemma filter_twice {A} (p q : A -> bool) l : filter p (filter q l) = filter (fun x => q x && p x) l.
Proof.
  induction l as [|a l IH]; cbn; [reflexivity|]. destruct (q a); cbn; [|assumption].
  destruct (p a); cbn; now rewrite IH.
Qed.

Lemma removes_ok {A} ks : forall (t : table A),
  wf_table t -> NoDup ks -> (forall k, In k ks -> In k (t_ids t)) ->
  exists t', foldM t_remove ks t = Ok t' /\ wf_table t' /\
    t_ids t' = filter (fun id => negb (memb id ks)) (t_ids t) /\
    (forall id, t_get t' id = if memb id ks then Throw else t_get t id) /\
    (forall id, t_index t' id = if memb id ks then Throw else t_index t id).
Proof.
  induction ks as [|k ks IH]; intros t W Hnd Hin; cbn [foldM].
  - exists t. split; [reflexivity|]. split; [assumption|]. split; [symmetry; now apply filter_all|]. now cbn.
  - inversion Hnd as [|? ? Hni Hnd']; subst.
    destruct (t_remove_ok t k W) as (t1 & -> & W1 & I1 & G1 & X1); [apply Hin; now left|]. cbn [bind].
    destruct (IH t1 W1 Hnd') as (t2 & E2 & W2 & I2 & G2 & X2).
    { intros k' Hk'. rewrite I1, filter_In. split; [apply Hin; now right|].
      destruct (Z.eqb_spec k' k); [subst; contradiction|reflexivity]. }
    exists t2. split; [assumption|]. split; [assumption|]. split; [|split].
    + rewrite I2, I1, filter_twice. apply filter_ext. intros id. cbn.
      destruct (Z.eqb_spec id k); cbn; [reflexivity|]. reflexivity.
    + intros id. rewrite G2, G1. cbn. destruct (id =? k); cbn; [now destruct (memb id ks)|reflexivity].
    + intros id. rewrite X2, X1. cbn. destruct (id =? k); cbn; [now destruct (memb id ks)|reflexivity].
Qed.

Lemma remove_flagged_keys {A} flags : forall t : table A,
  remove_flagged flags t = foldM t_remove (map fst (filter (fun kb : Z * bool => snd kb) flags)) t.
Proof.
  unfold remove_flagged. induction flags as [|[k b] fl IH]; intros t; cbn; [reflexivity|].
  destruct b; cbn; [|apply IH]. destruct (t_remove t k); cbn; auto.
Qed.

Definition flagged (flags : zmap bool) (id : Z) : bool :=
  match zlookup id flags with Some true => true | _ => false end.

Lemma flagged_keys flags id :
  zsorted flags -> memb id (map fst (filter (fun kb : Z * bool => snd kb) flags)) = flagged flags id.
Proof.
  intros Hs. unfold flagged. destruct (memb id _) eqn:E.
  - apply memb_In, in_map_iff in E. destruct E as ([k b] & E & Hin). cbn in E. subst k.
    apply filter_In in Hin. destruct Hin as [Hin Hb]. cbn in Hb. subst b.
    now rewrite (zlookup_of_in _ _ _ Hs Hin).
  - destruct (zlookup id flags) as [[|]|] eqn:El; [|reflexivity..].
    apply zlookup_in in El. exfalso. rewrite <- not_true_iff_false, memb_In in E. apply E.
    apply in_map_iff. exists (id, true). split; [reflexivity|]. apply filter_In. auto.
Qed.

Lemma remove_flagged_ok {A} flags (t : table A) :
  wf_table t -> zsorted flags -> (forall k, flagged flags k = true -> In k (t_ids t)) ->
  exists t', remove_flagged flags t = Ok t' /\ wf_table t' /\
    t_ids t' = filter (fun id => negb (flagged flags id)) (t_ids t) /\
    (forall id, t_get t' id = if flagged flags id then Throw else t_get t id) /\
    (forall id, t_index t' id = if flagged flags id then Throw else t_index t id).
Proof.
  intros W Hs Hin. rewrite remove_flagged_keys.
  destruct (removes_ok (map fst (filter (fun kb : Z * bool => snd kb) flags)) t W) as (t' & E & W' & I & G & X).
  - apply zsorted_NoDup in Hs. unfold zkeys in Hs. clear -Hs.
    induction flags as [|[k b] fl IH]; cbn; [constructor|]. inversion Hs as [|? ? Hni Hs']; subst.
    destruct b; cbn; [constructor|]; auto. intros H. apply Hni. apply in_map_iff in H.
    destruct H as (p & <- & Hp). apply filter_In in Hp. now apply in_map.
  - intros k Hk. apply Hin. rewrite <- flagged_keys by assumption. now apply memb_In.
  - exists t'. split; [assumption|]. split; [assumption|]. split; [|split].
    + rewrite I. apply filter_ext. intros id. now rewrite flagged_keys.
    + intros id. rewrite G. now rewrite flagged_keys.
    + intros id. rewrite X. now rewrite flagged_keys.
Qed.

Lemma flag_all_lookup b ids : forall fl id,
  zlookup id (flag_all b ids fl) = if memb id ids then Some b else zlookup id fl.
Proof.
  unfold flag_all. induction ids as [|k ids IH]; intros fl id; cbn; [reflexivity|].
  rewrite IH, zlookup_insert. unfold memb. destruct (id =? k); cbn; [now destruct (existsb _ _)|reflexivity].
Qed.

Lemma flag_all_sorted b ids : forall fl, zsorted fl -> zsorted (flag_all b ids fl).
Proof. unfold flag_all. induction ids as [|k ids IH]; intros fl H; cbn; [assumption|]. apply IH. now apply zsorted_insert. Qed.

Lemma flag_all_flagged b ids fl id :
  flagged (flag_all b ids fl) id = if memb id ids then b else flagged fl id.
Proof. unfold flagged. rewrite flag_all_lookup. destruct (memb id ids); [now destruct b|reflexivity]. Qed.

(** ** Sorting and repeated ids *)

Lemma sort_insert_perm x l : Permutation (sort_insert x l) (x :: l).
Proof.
  induction l as [|y l IH]; cbn; [reflexivity|]. destruct (x <=? y); [reflexivity|].
  rewrite IH. apply perm_swap.
Qed.

Lemma zsort_perm l : Permutation (zsort l) l.
Proof. induction l as [|x l IH]; cbn; [reflexivity|]. rewrite sort_insert_perm. now constructor. Qed.

Lemma sort_insert_sorted x l : StronglySorted Z.le l -> StronglySorted Z.le (sort_insert x l).
Proof.
  induction 1 as [|y l Hs IH Hf]; cbn; [repeat constructor|].
  destruct (Z.leb_spec x y).
  - constructor; [constructor; assumption|]. constructor; [assumption|].
    eapply Forall_impl; [|exact Hf]. cbn. lia.
  - constructor; [assumption|]. apply Forall_forall. intros z Hz.
    apply (Permutation_in _ (sort_insert_perm x l)) in Hz. rewrite Forall_forall in Hf.
    destruct Hz as [<-|Hz]; [lia|auto].
Qed.

Lemma zsort_sorted l : StronglySorted Z.le (zsort l).
Proof. induction l as [|x l IH]; cbn; [constructor|now apply sort_insert_sorted]. Qed.

Lemma adjacent_equal_sorted l : StronglySorted Z.le l -> (adjacent_equal l = false <-> NoDup l).
Proof.
  induction 1 as [|x l Hs IH Hf]; [split; [constructor|reflexivity]|].
  destruct l as [|y l].
  - cbn. split; [repeat constructor; cbn; tauto|reflexivity].
  - change (adjacent_equal (x :: y :: l)) with ((x =? y) || adjacent_equal (y :: l)).
    rewrite orb_false_iff, IH, Z.eqb_neq. inversion Hf as [|? ? Hxy Hf']; subst.
    inversion Hs as [|? ? Hs' Hfy]; subst. rewrite Forall_forall in Hfy.
    split.
    + intros [Hne Hnd]. constructor; [|assumption]. intros [->|Hin]; [congruence|].
      specialize (Hfy _ Hin). lia.
    + intros H. inversion H as [|? ? Hni Hnd]; subst. split; [|assumption].
      intros ->. apply Hni. now left.
Qed.

Lemma has_repeat_ok l : adjacent_equal (zsort l) = false <-> NoDup l.
Proof.
  rewrite adjacent_equal_sorted by apply zsort_sorted. split; apply Permutation_NoDup; [|symmetry]; apply zsort_perm.
Qed.

(** ** removeInvalidElements *)

Lemma removeInvalid_ok m :
  wf_table (m_elems m) ->
  exists m', removeInvalidElements m = Ok m' /\ m_nodes m' = m_nodes m /\ m_faces m' = m_faces m /\
    wf_table (m_elems m') /\ kept (m_elems m) (m_elems m') (fun _ e => NoDup (e_nodes e)) /\
    (forall id, In id (t_ids (m_elems m')) -> t_index (m_elems m') id = t_index (m_elems m) id).
Proof.
  intros W. unfold removeInvalidElements.
  pose (P := fun (done : list Z) (fl : zmap bool) => zsorted fl /\
     (forall id, In id done -> forall e, t_get (m_elems m) id = Ok e -> (flagged fl id = false <-> NoDup (e_nodes e))) /\
     (forall id, ~ In id done -> flagged fl id = false)).
  destruct (foldM_invariant (fun fl id => e <- t_get (m_elems m) id ;;
             Ok (let fl := zinsert id false fl in
                 if adjacent_equal (zsort (e_nodes e)) then zinsert id true fl else fl)) P
             (t_ids (m_elems m)) zempty) as (fl & Efl & Hs & Hin & Hout).
  - split; [apply zsorted_empty|]. split; [intros ? []|reflexivity].
  - intros done a rest fl Hl (Hs & Hin & Hout).
    destruct (wf_get _ a W) as [e He]; [rewrite Hl; apply in_elt|]. rewrite He. cbn [bind].
    eexists. split; [reflexivity|]. cbv zeta.
    assert (L : forall id, flagged (if adjacent_equal (zsort (e_nodes e)) then zinsert a true (zinsert a false fl) else zinsert a false fl) id
                 = if id =? a then adjacent_equal (zsort (e_nodes e)) else flagged fl id).
    { intros id. unfold flagged. destruct (adjacent_equal (zsort (e_nodes e))); rewrite !zlookup_insert;
        destruct (id =? a); reflexivity. }
    split; [|split].
    + destruct (adjacent_equal (zsort (e_nodes e))); repeat apply zsorted_insert; assumption.
    + intros id Hid e' He'. rewrite L. destruct (Z.eqb_spec id a) as [->|Hne].
      * assert (e' = e) by congruence. subst. apply has_repeat_ok.
      * apply in_app_or in Hid. destruct Hid as [Hid|[->|[]]]; [now apply Hin|congruence].
    + intros id Hid. rewrite L. destruct (Z.eqb_spec id a) as [->|Hne].
      * exfalso. apply Hid, in_or_app. right. now left.
      * apply Hout. intros H. apply Hid, in_or_app. now left.
  - match goal with |- context [bind (foldM ?f ?l ?s)] => replace (foldM f l s) with (Ok fl) by (symmetry; exact Efl) end.
    cbn [bind].
    assert (Hfin : forall id, flagged fl id = true -> In id (t_ids (m_elems m))).
    { intros id Hid. destruct (in_dec Z.eq_dec id (t_ids (m_elems m))) as [H|H]; [assumption|].
      rewrite Hout in Hid by assumption. discriminate. }
    destruct (remove_flagged_ok fl (m_elems m) W Hs Hfin) as (t' & Et & W' & I & G & X).
    rewrite Et. cbn [bind]. eexists. split; [reflexivity|]. cbn. split; [reflexivity|]. split; [reflexivity|].
    split; [assumption|]. split.
    + exists (fun id => negb (flagged fl id)). split; [assumption|].
      intros id Hid. destruct (wf_get _ id W Hid) as [e He]. exists e. split; [assumption|].
      specialize (Hin id Hid e He). rewrite G. destruct (flagged fl id).
      * right. repeat split; auto. intros H. apply Hin in H. discriminate.
      * left. repeat split; auto. now apply Hin.
    + intros id Hid. rewrite X. rewrite I, filter_In, negb_true_iff in Hid. destruct Hid as [_ ->]. reflexivity.
Qed.

(** ** removeDanglingNodes *)

Lemma unflag_fold {A} (nd : A -> list Z) (t : table A) fl0 :
  wf_table t -> zsorted fl0 ->
  exists fl, foldM (fun fl id => f <- t_get t id ;; Ok (flag_all false (nd f) fl)) (t_ids t) fl0 = Ok fl /\
    zsorted fl /\
    forall n, flagged fl n = true <-> flagged fl0 n = true /\ (forall id f, t_get t id = Ok f -> ~ In n (nd f)).
Proof.
  intros W Hs0.
  destruct (foldM_invariant (fun fl id => f <- t_get t id ;; Ok (flag_all false (nd f) fl))
    (fun done fl => zsorted fl /\ forall n, flagged fl n = true <-> flagged fl0 n = true /\
        (forall id f, In id done -> t_get t id = Ok f -> ~ In n (nd f))) (t_ids t) fl0) as (fl & E & Hs & H).
  - split; [assumption|]. intros n. split; [intros H; split; [assumption|intros ? ? []]|tauto].
  - intros done a rest fl Hl (Hs & H).
    destruct (wf_get _ a W) as [v Hv]; [rewrite Hl; apply in_elt|]. rewrite Hv. cbn [bind].
    eexists. split; [reflexivity|]. split; [now apply flag_all_sorted|].
    intros n. rewrite flag_all_flagged. destruct (memb n (nd v)) eqn:E.
    + apply memb_In in E. split; [discriminate|]. intros [_ H']. exfalso. eapply H'; [|exact Hv|exact E].
      apply in_or_app. right. now left.
    + rewrite H. rewrite <- not_true_iff_false, memb_In in E.
      split; intros [H1 H2]; (split; [assumption|]); intros id f Hid Hf.
      * apply in_app_or in Hid. destruct Hid as [Hid|[->|[]]]; [eapply H2; eauto|]. congruence.
      * eapply H2; eauto. apply in_or_app. now left.
  - exists fl. split; [assumption|]. split; [assumption|]. intros n. rewrite H.
    split; intros [H1 H2]; (split; [assumption|]); intros id f; [|eauto].
    intros Hf. apply (H2 id f); [eapply wf_get_in; eauto|assumption].
Qed.

Lemma occurs_dec {A} (nd : A -> list Z) (t : table A) n :
  wf_table t -> (exists id v, t_get t id = Ok v /\ In n (nd v)) \/ ~ (exists id v, t_get t id = Ok v /\ In n (nd v)).
Proof.
  intros (_ & Hs & _).
  destruct (existsb (fun p : Z * A => memb n (nd (snd p))) (t_map t)) eqn:E.
  - left. apply existsb_exists in E. destruct E as ([id v] & Hin & Hm). exists id, v.
    split; [apply zat_Ok; now apply zlookup_of_in|now apply memb_In].
  - right. intros (id & v & Hg & Hn). rewrite <- not_true_iff_false, existsb_exists in E. apply E.
    exists (id, v). split; [apply zlookup_in; now apply zat_Ok|now apply memb_In].
Qed.

Lemma used_dec m n : wf_table (m_elems m) -> wf_table (m_faces m) -> used m n \/ ~ used m n.
Proof.
  intros We Wf. unfold used. destruct (occurs_dec e_nodes _ n We); [tauto|].
  destruct (occurs_dec f_nodes _ n Wf); tauto.
Qed.

Lemma removeDangling_ok m :
  wf_mesh m ->
  exists m', removeDanglingNodes m = Ok m' /\ m_faces m' = m_faces m /\ m_elems m' = m_elems m /\
    wf_table (m_nodes m') /\ kept (m_nodes m) (m_nodes m') (fun n _ => used m n) /\
    (forall id, In id (t_ids (m_nodes m')) -> t_index (m_nodes m') id = t_index (m_nodes m) id).
Proof.
  intros (Wn & Wf & We). unfold removeDanglingNodes. cbv zeta.
  assert (Hs0 : zsorted (flag_all true (t_ids (m_nodes m)) zempty)) by apply flag_all_sorted, zsorted_empty.
  destruct (unflag_fold f_nodes (m_faces m) _ Wf Hs0) as (f1 & -> & Hs1 & H1). cbn [bind].
  destruct (unflag_fold e_nodes (m_elems m) _ We Hs1) as (f2 & -> & Hs2 & H2). cbn [bind].
  assert (H0 : forall n, flagged (flag_all true (t_ids (m_nodes m)) zempty) n = true <-> In n (t_ids (m_nodes m))).
  { intros n. rewrite flag_all_flagged, <- memb_In. destruct (memb n _); [tauto|]. cbn. split; discriminate. }
  assert (HU : forall n, In n (t_ids (m_nodes m)) -> (flagged f2 n = false <-> used m n)).
  { intros n Hn. split.
    - intros Hf. destruct (used_dec m n We Wf) as [H|H]; [assumption|].
      assert (T : flagged f2 n = true); [|congruence].
      apply H2. split.
      + apply H1. split; [now apply H0|]. intros id f Hf' Hin. apply H. right. exists id, f. auto.
      + intros id e He Hin. apply H. left. exists id, e. auto.
    - intros [(id & e & He & Hin)|(id & f & Hf & Hin)]; apply not_true_iff_false; intros T; apply H2 in T;
        destruct T as [T1 T2]; [eapply T2; eauto|]. apply H1 in T1. destruct T1 as [_ T1]. eapply T1; eauto. }
  destruct (remove_flagged_ok f2 (m_nodes m) Wn Hs2) as (t' & -> & W' & I & G & X).
  { intros k Hk. apply H2 in Hk. destruct Hk as [Hk _]. apply H1 in Hk. now apply H0. }
  cbn [bind]. eexists. split; [reflexivity|]. cbn. repeat (split; [reflexivity|]). split; [assumption|]. split.
  - exists (fun id => negb (flagged f2 id)). split; [assumption|].
    intros id Hid. destruct (wf_get _ id Wn Hid) as [e He]. exists e. split; [assumption|].
    specialize (HU id Hid). rewrite G. destruct (flagged f2 id).
    + right. repeat split; auto. intros H. apply HU in H. discriminate.
    + left. repeat split; auto. now apply HU.
  - intros id Hid. rewrite X. rewrite I, filter_In, negb_true_iff in Hid. destruct Hid as [_ ->]. reflexivity.
Qed.

(** ** Searching *)

Lemma with_ids_ok {A} (f : Z -> outcome A) ids :
  (forall id, In id ids -> exists v, f id = Ok v) ->
  exists objs, with_ids f ids = Ok objs /\ map fst objs = ids /\
    (forall id v, In (id, v) objs <-> In id ids /\ f id = Ok v).
Proof.
  unfold with_ids. induction ids as [|k ids IH]; intros H; cbn.
  - exists []. split; [reflexivity|]. split; [reflexivity|]. cbn. tauto.
  - destruct (H k) as [v Hv]; [now left|]. rewrite Hv. cbn.
    destruct IH as (objs & E & Hm & Hi); [intros; apply H; now right|]. rewrite E. cbn.
    exists ((k, v) :: objs). split; [reflexivity|]. split; [cbn; now f_equal|].
    intros id w. cbn. rewrite Hi. split.
    + intros [[= <- <-]|[? ?]]; auto.
    + intros [[<-|?] Hw]; [left; congruence|auto].
Qed.

Lemma norm_le_zero v tol : v =v= vzero -> (0 <= tol)%Q -> norm_le v tol = true.
Proof.
  intros (H1 & H2 & H3) Ht. apply norm_le_true. split; [assumption|]. cbn in *.
  unfold norm2, dot. rewrite H1, H2, H3. nra.
Qed.

Lemma norm_le_sym a b tol : norm_le (vsub a b) tol = norm_le (vsub b a) tol.
Proof.
  apply Bool.eq_iff_eq_true. rewrite !norm_le_true.
  assert (E : (norm2 (vsub a b) == norm2 (vsub b a))%Q) by (unfold norm2, dot, vsub; cbn; ring).
  now rewrite E.
Qed.

Lemma vsub_self a : vsub a a =v= vzero.
Proof. unfold vsub, vzero, veq; cbn. repeat split; ring. Qed.

Lemma grid_of_ok n objs :
  1 <= n <= int_max -> (exists a b, In a objs /\ In b objs /\ ~ (snd a =v= snd b)) ->
  exists g, grid_of n objs = Ok g /\
    forall id c tol, In (id, c) objs -> (0 <= tol)%Q ->
      exists r, grid_find g [] c tol = Ok r /\ In id r /\ (NoDup (map fst objs) -> NoDup r) /\
        (forall k, In k r <-> exists c', In (k, c') objs /\ norm_le (vsub c' c) tol = true).
Proof.
  intros Hn Hd. destruct (hash_grid_ok n grid_new objs Hn Hd) as (g & Hb & Hex & Hdef & _).
  exists g. split; [exact Hb|]. intros id c tol Hin Ht.
  destruct (Hdef c tol []) as [r Hr].
  { exists (id, c), c. split; [assumption|]. split; [reflexivity|]. unfold in_box; cbn. lra. }
  exists r. split; [assumption|]. destruct (Hex _ _ _ _ Hr) as (r' & -> & Hp). cbn [app].
  assert (HI : forall k, In k r' <-> exists c', In (k, c') objs /\ norm_le (vsub c' c) tol = true).
  { intros k. split.
    - intros Hk. apply (Permutation_in _ Hp) in Hk. unfold in_range in Hk. apply in_map_iff in Hk.
      destruct Hk as ([k' c'] & <- & Hk). apply filter_In in Hk. exists c'. exact Hk.
    - intros (c' & Hc & Hl). apply (Permutation_in _ (Permutation_sym Hp)). unfold in_range. apply in_map_iff.
      exists (k, c'). split; [reflexivity|]. apply filter_In. auto. }
  split; [|split; [|exact HI]].
  2: { intros Hnd. apply (Permutation_NoDup (Permutation_sym Hp)). unfold in_range. clear -Hnd.
       induction objs as [|[k c'] objs IH]; cbn; [constructor|]. inversion Hnd as [|? ? Hni Hnd']; subst.
       destruct (norm_le _ _); cbn; [constructor|]; auto. intros H. apply Hni.
       apply in_map_iff in H. destruct H as (o & <- & Ho). apply filter_In in Ho. now apply in_map. }
  apply HI. exists c. split; [assumption|]. apply norm_le_zero; [apply vsub_self|assumption].
Qed.

Lemma two_in_length (l : list Z) a b : In a l -> In b l -> a <> b -> 1 <? zlen l = true.
Proof.
  intros Ha Hb Hne. apply Z.ltb_lt. unfold zlen. destruct l as [|x [|y l]]; cbn in *; [tauto| |lia].
  destruct Ha as [->|[]], Hb as [->|[]]. congruence.
Qed.

Lemma length_two (l : list Z) a : NoDup l -> In a l -> 1 <? zlen l = true -> exists b, In b l /\ b <> a.
Proof.
  intros Hnd Ha Hl. apply Z.ltb_lt in Hl. unfold zlen in Hl. destruct l as [|x [|y l]]; cbn in Hl; [lia|lia|].
  inversion Hnd as [|? ? Hx Hnd']; subst.
  destruct (Z.eq_dec x a) as [->|Hne]; [exists y|exists x]; split; cbn; auto. intros ->. apply Hx. now left.
Qed.

(** ** The marking loop of mergeNodes *)

Lemma mark_fold a found : forall st,
  let st' := fold_left (fun st k => if a <? k then (zinsert k true (fst st), zinsert k a (snd st)) else st) found st
  in (forall k, zlookup k (fst st') = if memb k found && (a <? k) then Some true else zlookup k (fst st)) /\
     (forall k, zlookup k (snd st') = if memb k found && (a <? k) then Some a else zlookup k (snd st)) /\
     (zsorted (fst st) -> zsorted (fst st')).
Proof.
  induction found as [|x found IH]; intros st; cbn zeta.
  - cbn. auto.
  - cbn [fold_left]. specialize (IH (if a <? x then (zinsert x true (fst st), zinsert x a (snd st)) else st)).
    cbn zeta in IH. destruct IH as (I1 & I2 & I3). split; [|split].
    + intros k. rewrite I1. cbn [memb existsb]. unfold memb. destruct (Z.eqb_spec k x) as [->|Hne]; cbn [orb].
      * destruct (Z.ltb_spec a x); cbn [fst]; rewrite ?andb_true_r, ?andb_false_r; cbn [andb].
        -- rewrite zlookup_insert_eq. now destruct (existsb _ _).
        -- reflexivity.
      * destruct (a <? x); [|reflexivity]. cbn [fst]. rewrite zlookup_insert_ne by congruence. reflexivity.
    + intros k. rewrite I2. cbn [memb existsb]. unfold memb. destruct (Z.eqb_spec k x) as [->|Hne]; cbn [orb].
      * destruct (Z.ltb_spec a x); cbn [snd]; rewrite ?andb_true_r, ?andb_false_r; cbn [andb].
        -- rewrite zlookup_insert_eq. now destruct (existsb _ _).
        -- reflexivity.
      * destruct (a <? x); [|reflexivity]. cbn [snd]. rewrite zlookup_insert_ne by congruence. reflexivity.
    + intros H. apply I3. destruct (a <? x); [|assumption]. cbn. now apply zsorted_insert.
Qed.

Lemma id_map_lookup ids : forall mp k,
  zlookup k (fold_left (fun mp id => zinsert id id mp) ids mp) = if memb k ids then Some k else zlookup k mp.
Proof.
  induction ids as [|x ids IH]; intros mp k; cbn; [reflexivity|].
  rewrite IH, zlookup_insert. unfold memb. destruct (Z.eqb_spec k x); cbn; [subst; now destruct (existsb _ _)|reflexivity].
Qed.

Lemma sorted_split l done a rest x :
  StronglySorted Z.lt l -> l = done ++ a :: rest -> In x done -> x < a.
Proof.
  intros Hs ->. revert Hs. induction done as [|y done IH]; intros Hs Hx; [destruct Hx|].
  cbn in Hs. inversion Hs as [|? ? Hs' Hf]; subst. rewrite Forall_forall in Hf.
  destruct Hx as [->|Hx]; [apply Hf, in_elt|]. now apply IH.
Qed.

Record marking (ids done : list Z) (near : Z -> Z -> Prop) (st : zmap bool * zmap Z) : Prop := {
  mk_sorted : zsorted (fst st);
  mk_new : forall id, In id ids -> exists r, zlookup id (snd st) = Some r /\
      zlookup id (fst st) = Some (negb (r =? id)) /\
      (r = id \/ (In r done /\ r < id /\ zlookup r (fst st) = Some false /\ near r id));
  mk_out : forall id, ~ In id ids -> zlookup id (fst st) = None;
  mk_far : forall a b, In a done -> zlookup a (fst st) = Some false -> In b ids -> a < b -> near a b ->
      zlookup b (fst st) = Some true
}.

Lemma merge_marking ids near step :
  StronglySorted Z.lt ids ->
  (forall st a, In a ids ->
     (zlookup a (fst st) = Some true -> step st a = Ok st) /\
     (zlookup a (fst st) = Some false -> exists found, In a found /\
        (forall k, In k found <-> In k ids /\ near a k) /\
        step st a = Ok (if 1 <? zlen found
           then fold_left (fun st k => if a <? k then (zinsert k true (fst st), zinsert k a (snd st)) else st) found st
           else st))) ->
  exists st, foldM step ids
     (flag_all false ids zempty, fold_left (fun mp id => zinsert id id mp) ids zempty) = Ok st /\
     marking ids ids near st.
Proof.
  intros Hs Hstep. apply (foldM_invariant step (fun done st => marking ids done near st)).
  - constructor; cbn [fst snd].
    + apply flag_all_sorted, zsorted_empty.
    + intros id Hid. exists id. rewrite id_map_lookup, flag_all_lookup.
      apply memb_In in Hid. rewrite Hid, Z.eqb_refl. auto.
    + intros id Hid. rewrite flag_all_lookup. rewrite <- memb_In in Hid. now destruct (memb id ids).
    + intros ? ? [].
  - intros done a rest st Hl M. assert (Ha : In a ids) by (rewrite Hl; apply in_elt).
    assert (Hlt : forall x, In x done -> x < a) by (intros x Hx; eapply sorted_split; eauto).
    destruct (Hstep st a Ha) as [St Sf].
    destruct (mk_new _ _ _ _ M a Ha) as (ra & _ & Hda & _).
    destruct (negb (ra =? a)).
    + exists st. split; [auto|]. constructor.
      * apply M.
      * intros id Hid. destruct (mk_new _ _ _ _ M id Hid) as (r & H1 & H2 & H3). exists r. split; [assumption|].
        split; [assumption|]. destruct H3 as [H3|(H3 & H4 & H5)]; [now left|right]. split; [apply in_or_app; now left|auto].
      * apply M.
      * intros x b Hx Hf Hb. apply in_app_or in Hx. destruct Hx as [Hx|[<-|[]]]; [now apply (mk_far _ _ _ _ M)|congruence].
    + destruct (Sf Hda) as (found & Haf & Hfound & ->). eexists. split; [reflexivity|].
      destruct (mark_fold a found st) as (F1 & F2 & F3). cbn zeta in F1, F2, F3.
      set (st' := fold_left _ found st) in *.
      assert (Hlen : forall k, In k found -> a < k -> 1 <? zlen found = true)
        by (intros k Hk Hak; apply (two_in_length found a k); auto; lia).
      assert (G1 : forall k, zlookup k (fst (if 1 <? zlen found then st' else st))
                   = if memb k found && (a <? k) then Some true else zlookup k (fst st)).
      { intros k. destruct (1 <? zlen found) eqn:E; [apply F1|].
        destruct (memb k found) eqn:Em; cbn; [|reflexivity]. destruct (Z.ltb_spec a k); [|reflexivity].
        apply memb_In in Em. specialize (Hlen k Em ltac:(assumption)). congruence. }
      assert (G2 : forall k, zlookup k (snd (if 1 <? zlen found then st' else st))
                   = if memb k found && (a <? k) then Some a else zlookup k (snd st)).
      { intros k. destruct (1 <? zlen found) eqn:E; [apply F2|].
        destruct (memb k found) eqn:Em; cbn; [|reflexivity]. destruct (Z.ltb_spec a k); [|reflexivity].
        apply memb_In in Em. specialize (Hlen k Em ltac:(assumption)). congruence. }
      assert (Gle : forall k, k <= a -> memb k found && (a <? k) = false)
        by (intros k Hk; destruct (Z.ltb_spec a k); [lia|apply andb_false_r]).
      constructor.
      * destruct (1 <? zlen found); [apply F3|]; apply M.
      * intros id Hid. destruct (memb id found && (a <? id)) eqn:E.
        -- exists a. rewrite G2, G1, E. apply andb_true_iff in E. destruct E as [E1 E2]. apply memb_In in E1.
           apply Z.ltb_lt in E2. split; [reflexivity|]. split.
           { destruct (Z.eqb_spec a id); [lia|reflexivity]. }
           right. split; [apply in_or_app; right; now left|]. split; [assumption|].
           split; [|now apply Hfound]. rewrite G1, Gle by lia. assumption.
        -- destruct (mk_new _ _ _ _ M id Hid) as (r & H1 & H2 & H3). exists r. rewrite G2, G1, E.
           split; [assumption|]. split; [assumption|]. destruct H3 as [H3|(H3 & H4 & H5 & H6)]; [now left|right].
           split; [apply in_or_app; now left|]. split; [assumption|]. split; [|assumption].
           rewrite G1, Gle; [assumption|]. specialize (Hlt _ H3). lia.
      * intros id Hid. rewrite G1. destruct (memb id found) eqn:E; cbn; [|now apply M].
        apply memb_In, Hfound in E. tauto.
      * intros x b Hx Hf Hb Hxb Hn. apply in_app_or in Hx. destruct Hx as [Hx|[<-|[]]].
        -- rewrite G1 in Hf |- *. rewrite Gle in Hf by (specialize (Hlt _ Hx); lia).
           destruct (memb b found && (a <? b)); [reflexivity|]. eapply (mk_far _ _ _ _ M); eauto.
        -- rewrite G1. assert (In b found) as Hbf by (apply Hfound; auto). apply memb_In in Hbf. rewrite Hbf.
           apply Z.ltb_lt in Hxb. now rewrite Hxb.
Qed.

(** ** Rewriting in place *)

Lemma rewrite_all_ok {A} (f : A -> outcome A) (h : A -> A) (t : table A) :
  wf_table t -> (forall id v, t_get t id = Ok v -> f v = Ok (h v)) ->
  exists t', rewrite_all f t = Ok t' /\ wf_table t' /\ t_ids t' = t_ids t /\
    (forall id v, t_get t id = Ok v -> t_get t' id = Ok (h v)).
Proof.
  intros W Hf. unfold rewrite_all. pose proof W as (Hnd & Hs & Hk).
  destruct (foldM_invariant (fun acc id => v <- t_get acc id ;; v' <- f v ;; Ok (t_set acc id v'))
    (fun done t' => t_ids t' = t_ids t /\ zsorted (t_map t') /\
       (forall id, zlookup id (t_map t') <> None <-> zlookup id (t_map t) <> None) /\
       (forall id v, t_get t id = Ok v -> t_get t' id = Ok (if memb id done then h v else v)))
    (t_ids t) t) as (t' & E & I & S' & K & G).
  - repeat split; auto.
  - intros done a rest t' Hl (I & S' & K & G).
    destruct (wf_get _ a W) as [v Hv]; [rewrite Hl; apply in_elt|].
    assert (Hda : memb a done = false).
    { apply not_true_iff_false. rewrite memb_In. intros Ha. rewrite Hl in Hnd.
      apply NoDup_remove_2 in Hnd. apply Hnd, in_or_app. now left. }
    rewrite (G _ _ Hv), Hda. cbn [bind]. rewrite (Hf _ _ Hv). cbn [bind]. eexists. split; [reflexivity|].
    cbn. split; [assumption|]. split; [now apply zsorted_insert|]. split.
    + intros id. rewrite zlookup_insert. destruct (Z.eqb_spec id a) as [->|]; [|apply K].
      apply zat_Ok in Hv. rewrite Hv. split; congruence.
    + intros id w Hw. unfold t_get, zat in *. cbn. rewrite zlookup_insert.
      unfold memb. rewrite existsb_app. cbn. rewrite orb_false_r.
      destruct (Z.eqb_spec id a) as [->|Hne].
      * rewrite orb_true_r. congruence.
      * rewrite orb_false_r. now apply G.
  - exists t'. split; [assumption|]. split; [|split; [assumption|]].
    + split; [now rewrite I|]. split; [assumption|]. intros id. now rewrite I, K.
    + intros id v Hv. rewrite (G _ _ Hv). assert (In id (t_ids t)) as Hin by (eapply wf_get_in; eauto).
      apply memb_In in Hin. now rewrite Hin.
Qed.

Lemma remap_map (rep : Z -> Z) new l :
  (forall k, In k l -> zlookup k new = Some (rep k)) -> remap new l = Ok (map rep l).
Proof.
  unfold remap. induction l as [|k l IH]; intros H; cbn; [reflexivity|].
  rewrite (proj2 (zat_Ok new k (rep k))) by (apply H; now left). cbn. rewrite IH by (intros; apply H; now right). reflexivity.
Qed.

Lemma merge_nodes_ok n tol m :
  1 <= n <= int_max -> (0 <= tol)%Q -> wf_mesh m -> refs_ok m ->
  StronglySorted Z.lt (t_ids (m_nodes m)) ->
  (exists a b ca cb, t_get (m_nodes m) a = Ok ca /\ t_get (m_nodes m) b = Ok cb /\ ~ (ca =v= cb)) ->
  exists m' rep, mergeNodes n tol m = Ok m' /\
    wf_mesh m' /\ refs_ok m' /\ indexed (m_nodes m') /\ indexed (m_faces m') /\ indexed (m_elems m') /\
    (forall a, In a (t_ids (m_nodes m)) -> In (rep a) (t_ids (m_nodes m')) /\ close m tol (rep a) a) /\
    kept (m_nodes m) (m_nodes m') (fun a _ => rep a = a) /\
    (forall a b, In a (t_ids (m_nodes m')) -> In b (t_ids (m_nodes m')) -> a <> b -> ~ close m tol a b) /\
    kept_as (m_faces m) (m_faces m') (fun _ _ => True)
      (fun f => Face (f_type f) (map rep (f_nodes f)) (f_haspair f) (f_pair f) (f_elem f)) /\
    kept_as (m_elems m) (m_elems m') (fun _ e => NoDup (map rep (e_nodes e)))
      (fun e => Element (e_type e) (map rep (e_nodes e)) (e_faces e)).
Proof.
  intros Hn Ht (Wn & Wf & We) (Re & Rf) Hs (a0 & b0 & ca0 & cb0 & Ga & Gb & Hab).
  unfold mergeNodes.
  destruct (with_ids_ok (t_get (m_nodes m)) (t_ids (m_nodes m))) as (objs & Eo & Hm & Ho).
  { intros id Hid. now apply wf_get. }
  rewrite Eo. cbn [bind].
  destruct (grid_of_ok n objs Hn) as (g & Eg & Hg).
  { exists (a0, ca0), (b0, cb0). cbn. split; [apply Ho; split; [eapply wf_get_in; eauto|assumption]|].
    split; [apply Ho; split; [eapply wf_get_in; eauto|assumption]|assumption]. }
  rewrite Eg. cbn [bind].
  destruct (merge_marking (t_ids (m_nodes m)) (close m tol) (merge_step g (m_nodes m) tol) Hs) as (st & Est & M).
  { intros st a Ha. destruct (wf_get _ a Wn Ha) as [c Hc]. unfold merge_step.
    split; intros Hz; apply zat_Ok in Hz; rewrite Hz; cbn [bind]; [reflexivity|].
    rewrite Hc. cbn [bind]. destruct (Hg a c tol) as (r & Er & Hin & _ & Hr); [apply Ho; auto|assumption|].
    exists r. split; [assumption|]. rewrite Er. cbn [bind]. split; [|reflexivity].
    intros k. rewrite Hr. split.
    - intros (c' & Hc' & Hl). apply Ho in Hc'. destruct Hc' as [H1 H2]. split; [assumption|]. exists c, c'. auto.
    - intros (H1 & ca & cb & H2 & H3 & H4). exists cb. split; [apply Ho; auto|]. congruence. }
  rewrite Est. cbn [bind].
  pose (rep := fun k => match zlookup k (snd st) with Some r => r | None => k end).
  assert (Hrep : forall k, In k (t_ids (m_nodes m)) -> zlookup k (snd st) = Some (rep k) /\
     zlookup k (fst st) = Some (negb (rep k =? k)) /\
     (rep k = k \/ (In (rep k) (t_ids (m_nodes m)) /\ rep k < k /\ zlookup (rep k) (fst st) = Some false /\ close m tol (rep k) k))).
  { intros k Hk. destruct (mk_new _ _ _ _ M k Hk) as (r & H1 & H2 & H3). unfold rep. rewrite H1. auto. }
  assert (Hfl : forall k, In k (t_ids (m_nodes m)) -> flagged (fst st) k = negb (rep k =? k)).
  { intros k Hk. unfold flagged. destruct (Hrep k Hk) as (_ & -> & _). now destruct (negb (rep k =? k)). }
  destruct (rewrite_all_ok (fun e => l <- remap (snd st) (e_nodes e) ;; Ok (set_e_nodes e l))
    (fun e => set_e_nodes e (map rep (e_nodes e))) (m_elems m) We) as (te & Ee & We' & Ie & Ge).
  { intros id e He. rewrite (remap_map rep); [reflexivity|]. intros k Hk. apply Hrep.
    specialize (Re _ _ He). rewrite Forall_forall in Re. auto. }
  rewrite Ee. cbn [bind].
  destruct (rewrite_all_ok (fun f => l <- remap (snd st) (f_nodes f) ;; Ok (set_f_nodes f l))
    (fun f => set_f_nodes f (map rep (f_nodes f))) (m_faces m) Wf) as (tf & Ef & Wf' & If & Gf).
  { intros id f Hf. rewrite (remap_map rep); [reflexivity|]. intros k Hk. apply Hrep.
    specialize (Rf _ _ Hf). rewrite Forall_forall in Rf. auto. }
  rewrite Ef. cbn [bind].
  destruct (remove_flagged_ok (fst st) (m_nodes m) Wn (mk_sorted _ _ _ _ M)) as (tn & En & Wn' & In' & Gn & _).
  { intros k Hk. destruct (in_dec Z.eq_dec k (t_ids (m_nodes m))) as [H|H]; [assumption|].
    unfold flagged in Hk. rewrite (mk_out _ _ _ _ M k H) in Hk. discriminate. }
  rewrite En. cbn [bind].
  destruct (removeInvalid_ok (Mesh tn tf te)) as (m1 & E1 & N1 & F1 & W1 & K1 & _); [exact We'|].
  rewrite E1. cbn [bind]. cbn [m_nodes m_faces m_elems] in *.
  exists (rebuildIndices m1), rep. split; [reflexivity|].
  assert (HnIn : forall k, In k (t_ids tn) <-> In k (t_ids (m_nodes m)) /\ rep k = k).
  { intros k. rewrite In', filter_In. split; intros [H1 H2]; (split; [assumption|]).
    - rewrite Hfl, negb_involutive in H2 by assumption. now apply Z.eqb_eq.
    - rewrite Hfl by assumption. rewrite H2, Z.eqb_refl. reflexivity. }
  assert (Hsurv : forall k, In k (t_ids (m_nodes m)) -> In (rep k) (t_ids tn)).
  { intros k Hk. apply HnIn. destruct (Hrep k Hk) as (_ & _ & [H|(H1 & H2 & H3 & _)]).
    - rewrite !H. auto.
    - split; [assumption|]. destruct (Hrep _ H1) as (_ & H4 & _). rewrite H3 in H4. injection H4 as H4.
      symmetry in H4. rewrite negb_false_iff in H4. now apply Z.eqb_eq. }
  assert (Hself : forall k, In k (t_ids (m_nodes m)) -> close m tol k k).
  { intros k Hk. destruct (wf_get _ k Wn Hk) as [c Hc]. exists c, c. split; [assumption|]. split; [assumption|].
    apply norm_le_zero; [apply vsub_self|assumption]. }
  destruct K1 as (keep & Ke1 & Ke2).
  assert (Wm : wf_mesh (rebuildIndices m1)).
  { split; [|split]; cbn; [rewrite N1|rewrite F1|]; assumption. }
  assert (Hef : forall id e', t_get (m_elems m1) id = Ok e' -> exists e, t_get (m_elems m) id = Ok e /\ e' = set_e_nodes e (map rep (e_nodes e))).
  { intros id e' He'. pose proof (wf_get_in _ _ _ W1 He') as Hin. rewrite Ke1, filter_In, Ie in Hin.
    destruct Hin as [Hin Hk]. rewrite Ie in Ke2. destruct (Ke2 id Hin) as (v & Hv & [(_ & _ & H)|(_ & _ & H)]); [|congruence].
    destruct (wf_get _ id We Hin) as [e He]. exists e. split; [assumption|]. rewrite (Ge _ _ He) in Hv. congruence. }
  split; [assumption|]. split; [|split; [|split; [|split]]]; [| apply t_rebuild_indexed .. |].
  - split; cbn; rewrite N1.
    + intros id e' He'. destruct (Hef id e' He') as (e & He & ->). cbn. apply Forall_forall.
      intros k Hk. apply in_map_iff in Hk. destruct Hk as (k0 & <- & Hk0). apply Hsurv.
      specialize (Re _ _ He). rewrite Forall_forall in Re. auto.
    + rewrite F1. intros id f' Hf'. pose proof (wf_get_in _ _ _ Wf' Hf') as Hin. rewrite If in Hin.
      destruct (wf_get _ id Wf Hin) as [f Hf]. assert (f' = set_f_nodes f (map rep (f_nodes f))) as -> by (pose proof (Gf _ _ Hf) as G1; change (t_get tf id = Ok f') in Hf'; congruence).
      cbn. apply Forall_forall. intros k Hk. apply in_map_iff in Hk. destruct Hk as (k0 & <- & Hk0). apply Hsurv.
      specialize (Rf _ _ Hf). rewrite Forall_forall in Rf. auto.
  - rewrite N1. apply Wn'.
  - rewrite F1. apply Wf'.
  - apply W1.
  - cbn [rebuildIndices m_nodes m_faces m_elems t_rebuild t_ids]. rewrite N1. split; [|split; [|split; [|split]]].
    + intros a Ha. split; [now apply Hsurv|]. destruct (Hrep a Ha) as (_ & _ & [H|(_ & _ & _ & H)]); [rewrite H; auto|assumption].
    + exists (fun id => negb (flagged (fst st) id)). cbn. split; [assumption|]. intros id Hid.
      destruct (wf_get _ id Wn Hid) as [c Hc]. exists c. split; [assumption|]. 
      pose proof (Gn id) as G0. rewrite Hfl in G0 |- * by assumption. unfold t_get in *. cbn in *.
      rewrite G0. destruct (Z.eqb_spec (rep id) id); cbn; [left|right]; auto.
    + assert (Hlt : forall a b, In a (t_ids tn) -> In b (t_ids tn) -> a < b -> ~ close m tol a b).
      { intros a b Ha Hb Hl Hc. apply HnIn in Ha, Hb. destruct Ha as [Ha Hra], Hb as [Hb Hrb].
        destruct (Hrep a Ha) as (_ & Da & _). destruct (Hrep b Hb) as (_ & Db & _).
        rewrite Hra, Z.eqb_refl in Da. rewrite Hrb, Z.eqb_refl in Db. cbn [negb] in Da, Db.
        pose proof (mk_far _ _ _ _ M a b Ha Da Hb Hl Hc) as Hx. rewrite Db in Hx. discriminate Hx. }
      intros a b Ha Hb Hne Hc. destruct (Z.lt_trichotomy a b) as [H|[H|H]]; [exact (Hlt a b Ha Hb H Hc)|congruence|].
      apply (Hlt b a); auto. destruct Hc as (x & y & H1 & H2 & H3). exists y, x. rewrite norm_le_sym. auto.
    + exists (fun _ => true). cbn. rewrite F1. split; [rewrite If; symmetry; now apply filter_all|].
      intros id Hid. destruct (wf_get _ id Wf Hid) as [f Hf]. exists f. split; [assumption|]. left.
      split; [exact I|]. split; [reflexivity|]. exact (Gf _ _ Hf).
    + exists keep. cbn. split; [now rewrite Ke1, Ie|]. intros id Hid.
      destruct (wf_get _ id We Hid) as [e He]. exists e. split; [assumption|].
      rewrite Ie in Ke2. destruct (Ke2 id Hid) as (v & Hv & H).
      rewrite (Ge _ _ He) in Hv. injection Hv as <-. exact H.
Qed.

(** ** mergeElements *)

Lemma vadd_fold m nodes : forall s cs,
  coords m nodes = map Ok cs ->
  foldM (fun s nd => c <- t_get (m_nodes m) nd ;; Ok (vadd s c)) nodes s = Ok (fold_left vadd cs s).
Proof.
  unfold coords. induction nodes as [|k nodes IH]; intros s [|c cs]; cbn; try discriminate; [reflexivity|].
  intros [= H1 H2]. rewrite H1. cbn. now apply IH.
Qed.

Lemma coords_exist m nodes :
  wf_table (m_nodes m) -> Forall (fun n => In n (t_ids (m_nodes m))) nodes -> exists cs, coords m nodes = map Ok cs.
Proof.
  intros W. induction 1 as [|k nodes Hk _ [cs IH]]; [now exists []|].
  destruct (wf_get _ k W Hk) as [c Hc]. exists (c :: cs). unfold coords in *. cbn. now rewrite Hc, IH.
Qed.

Lemma elem_centroid_ok m id :
  wf_mesh m -> refs_ok m -> In id (t_ids (m_elems m)) ->
  exists c, elem_centroid m id = Ok c /\ forall c', centroid_of m id c' <-> c' = c.
Proof.
  intros (Wn & _ & We) (Re & _) Hid. destruct (wf_get _ id We Hid) as [e He].
  destruct (coords_exist m (e_nodes e) Wn (Re _ _ He)) as [cs Hcs].
  exists (match cs with [] => vzero | _ => mean cs end). split.
  - unfold elem_centroid. rewrite He. cbn [bind]. rewrite (vadd_fold m _ _ _ Hcs). cbn [bind].
    assert (L : length (e_nodes e) = length cs) by (rewrite <- (map_length Ok cs), <- Hcs; unfold coords; now rewrite map_length).
    unfold zlen. rewrite L. destruct cs; [reflexivity|]. unfold mean, zlen.
    destruct (Z.ltb_spec 0 (Z.of_nat (length (c :: cs)))); [reflexivity|cbn in *; lia].
  - intros c'. split.
    + intros (e' & cs' & He' & Hc' & ->). assert (e' = e) by congruence. subst e'.
      assert (map (@Ok coord) cs' = map Ok cs) as E by congruence.
      assert (cs' = cs); [|now subst]. clear -E. revert cs E. induction cs' as [|a l IH]; intros [|b k]; cbn; try discriminate; [reflexivity|].
      intros [= -> E]. f_equal. now apply IH.
    + intros ->. exists e, cs. auto.
Qed.

Lemma centroid_in m id c : wf_mesh m -> centroid_of m id c -> In id (t_ids (m_elems m)).
Proof. intros (_ & _ & We) (e & _ & He & _). eapply wf_get_in; eauto. Qed.

Lemma merge_elements_ok n tol m :
  1 <= n <= int_max -> (0 <= tol)%Q -> wf_mesh m -> refs_ok m ->
  (exists a b ca cb, centroid_of m a ca /\ centroid_of m b cb /\ ~ (ca =v= cb)) ->
  exists m', mergeElements n tol m = Ok m' /\ m_nodes m' = m_nodes m /\ m_faces m' = m_faces m /\
    wf_table (m_elems m') /\
    kept (m_elems m) (m_elems m')
      (fun a _ => forall b, In b (t_ids (m_elems m)) -> b <> a -> ~ close_elems m tol a b) /\
    (forall id, In id (t_ids (m_elems m')) -> t_index (m_elems m') id = t_index (m_elems m) id).
Proof.
  intros Hn Ht W R (a0 & b0 & ca0 & cb0 & Ga & Gb & Hab). pose proof W as (Wn & Wf & We).
  unfold mergeElements. set (ids := t_ids (m_elems m)) in *.
  assert (Hc : forall id, In id ids -> exists c, elem_centroid m id = Ok c /\ forall c', centroid_of m id c' <-> c' = c)
    by (intros; now apply elem_centroid_ok).
  destruct (with_ids_ok (elem_centroid m) ids) as (objs & Eo & Hm & Ho).
  { intros id Hid. destruct (Hc id Hid) as (c & E & _). eauto. }
  assert (Ho' : forall id c, In (id, c) objs <-> centroid_of m id c).
  { intros id c. rewrite Ho. split.
    - intros [Hid E]. destruct (Hc id Hid) as (c' & E' & H). apply H. congruence.
    - intros H. assert (Hid : In id ids) by (eapply centroid_in; eauto). split; [assumption|].
      destruct (Hc id Hid) as (c' & E' & H'). apply H' in H. congruence. }
  rewrite Eo. cbn [bind].
  destruct (grid_of_ok n objs Hn) as (g & Eg & Hg).
  { exists (a0, ca0), (b0, cb0). cbn. rewrite !Ho'. auto. }
  rewrite Eg. cbn [bind]. cbv zeta.
  assert (Hsym : forall a b, close_elems m tol a b -> close_elems m tol b a).
  { intros a b (x & y & H1 & H2 & H3). exists y, x. rewrite norm_le_sym. auto. }
  destruct (foldM_invariant (mergeElements_step g m tol)
    (fun done del => zsorted del /\ (forall id, In id ids -> zlookup id del = Some (flagged del id)) /\
       (forall id, flagged del id = true -> In id ids /\ exists b, In b ids /\ b <> id /\ close_elems m tol id b) /\
       (forall id b, In id done -> In b ids -> b <> id -> close_elems m tol id b -> flagged del id = true))
    ids (flag_all false ids zempty)) as (del & Ed & Hs & _ & Hd1 & Hd2).
  - split; [apply flag_all_sorted, zsorted_empty|]. split; [|split].
    + intros id Hid. rewrite flag_all_flagged, flag_all_lookup. apply memb_In in Hid. now rewrite Hid.
    + intros id. rewrite flag_all_flagged. destruct (memb id ids); discriminate.
    + intros ? ? [].
  - intros done a rest del Hl (Hs & H1 & H2 & H3). assert (Ha : In a ids) by (rewrite Hl; apply in_elt).
    unfold mergeElements_step. rewrite (proj2 (zat_Ok _ _ _) (H1 a Ha)). cbn [bind].
    destruct (flagged del a) eqn:Ea.
    + exists del. split; [reflexivity|]. split; [assumption|]. split; [assumption|]. split; [assumption|].
      intros id b Hid Hb Hne Hcl. apply in_app_or in Hid. destruct Hid as [Hid|[<-|[]]]; [eapply H3; eauto|assumption].
    + destruct (Hc a Ha) as (c & Ec & Hcu). rewrite Ec. cbn [bind].
      destruct (Hg a c tol) as (r & Er & Har & Hnd & Hr); [apply Ho'; now apply Hcu|assumption|].
      rewrite Er. cbn [bind]. eexists. split; [reflexivity|].
      assert (Hr' : forall k, In k r <-> close_elems m tol a k).
      { intros k. rewrite Hr. split.
        - intros (c' & Hc' & Hle). exists c, c'. split; [now apply Hcu|]. split; [now apply Ho'|assumption].
        - intros (x & y & Hx & Hy & Hle). apply Hcu in Hx. subst x. exists y. split; [now apply Ho'|assumption]. }
      assert (Hin : forall k, close_elems m tol a k -> In k ids) by (intros k (x & y & _ & Hy & _); eapply centroid_in; eauto).
      destruct (1 <? zlen r) eqn:El.
      * split; [now apply flag_all_sorted|]. split; [|split].
        -- intros id Hid. rewrite flag_all_flagged, flag_all_lookup. destruct (memb id r); [reflexivity|auto].
        -- intros id. rewrite flag_all_flagged. destruct (memb id r) eqn:Em; [|apply H2]. intros _.
           apply memb_In in Em. pose proof (proj1 (Hr' id) Em) as Hid. split; [now apply Hin|].
           destruct (Z.eq_dec id a) as [->|Hne].
           ++ destruct (length_two r a) as (b & Hb & Hba); [apply Hnd; rewrite Hm; apply We|assumption|assumption|].
              exists b. split; [apply Hin; now apply Hr'|]. split; [assumption|]. now apply Hr'.
           ++ exists a. split; [assumption|]. split; [congruence|]. now apply Hsym.
        -- intros id b Hid Hb Hne Hcl. rewrite flag_all_flagged. destruct (memb id r) eqn:Em; [reflexivity|].
           apply in_app_or in Hid. destruct Hid as [Hid|[<-|[]]]; [eapply H3; eauto|].
           apply memb_In in Har. congruence.
      * split; [assumption|]. split; [assumption|]. split; [assumption|].
        intros id b Hid Hb Hne Hcl. apply in_app_or in Hid. destruct Hid as [Hid|[<-|[]]]; [eapply H3; eauto|].
        apply Hr' in Hcl. rewrite (two_in_length r a b) in El; auto. discriminate.
  - rewrite Ed. cbn [bind].
    destruct (remove_flagged_ok del (m_elems m) We Hs) as (t' & -> & W' & I & G & X).
    { intros k Hk. now apply Hd1. }
    cbn [bind]. eexists. split; [reflexivity|]. cbn. split; [reflexivity|]. split; [reflexivity|].
    split; [assumption|]. split.
    + exists (fun id => negb (flagged del id)). split; [assumption|]. intros id Hid.
      destruct (wf_get _ id We Hid) as [e He]. exists e. split; [assumption|]. rewrite G.
      destruct (flagged del id) eqn:Ef.
      * right. repeat split; auto. intros H. destruct (Hd1 id Ef) as (_ & b & Hb & Hne & Hcl). eapply H; eauto.
      * left. repeat split; auto. intros b Hb Hne Hcl. rewrite (Hd2 id b Hid Hb Hne Hcl) in Ef. discriminate.
    + intros id Hid. rewrite X. rewrite I, filter_In, negb_true_iff in Hid. destruct Hid as [_ ->]. reflexivity.
Qed.

(** ** Sample meshes *)

(** Nodes 2 and 5 nearly coincide; element 11 collapses when they are merged. *)
Definition near_mesh : mesh :=
  Mesh (mk_table [(1, Coord 0 0 0); (2, Coord 1 0 0); (5, Coord (101#100) 0 0); (8, Coord 0 3 0)])
       (mk_table [(0, Face FT_LINE [5; 8] false 0 12)])
       (mk_table [(10, Element ET_TRIANGLE [1; 2; 8] []); (11, Element ET_TRIANGLE [2; 5; 8] []);
                  (12, Element ET_TRIANGLE [5; 8; 1] [0])]).

Lemma near_mesh_ok : wf_mesh near_mesh /\ refs_ok near_mesh /\ StronglySorted Z.lt (t_ids (m_nodes near_mesh)) /\
  (exists a b ca cb, t_get (m_nodes near_mesh) a = Ok ca /\ t_get (m_nodes near_mesh) b = Ok cb /\ ~ (ca =v= cb)).
Proof.
  split; [now apply wf_meshb_ok|]. split; [now apply refs_okb_ok|]. split; [now apply ssortedb_ok|].
  exists 1, 2, (Coord 0 0 0), (Coord 1 0 0). split; [reflexivity|]. split; [reflexivity|].
  intros (H & _). discriminate H.
Qed.

(** Node ids are not enumerated in increasing order; 5 absorbs 7, then 3 absorbs 5. *)
Definition chain_mesh : mesh :=
  Mesh (mk_table [(5, Coord 1 0 0); (7, Coord 2 0 0); (3, Coord 0 0 0); (9, Coord 0 9 0)]) t_empty
       (mk_table [(0, Element ET_BEAM [7; 9] [])]).

Lemma chain_witness : wf_mesh chain_mesh /\ refs_ok chain_mesh /\
  exists m', mergeNodes 2 1 chain_mesh = Ok m' /\ t_ids (m_nodes m') = [3; 9] /\
    t_get (m_elems m') 0 = Ok (Element ET_BEAM [5; 9] []).
Proof.
  split; [now apply wf_meshb_ok|]. split; [now apply refs_okb_ok|].
  eexists. split; [vm_compute; reflexivity|]. split; reflexivity.
Qed.

(** Elements 4 and 6 are the same triangle, element 9 is another one. *)
Definition twin_mesh : mesh :=
  Mesh (mk_table [(1, Coord 0 0 0); (2, Coord 1 0 0); (3, Coord 0 1 0); (8, Coord 5 5 5)]) t_empty
       (mk_table [(4, Element ET_TRIANGLE [1; 2; 3] []); (6, Element ET_TRIANGLE [2; 3; 1] []);
                  (9, Element ET_TRIANGLE [1; 2; 8] [])]).

Lemma twin_mesh_ok : wf_mesh twin_mesh /\ refs_ok twin_mesh /\
  (exists a b ca cb, centroid_of twin_mesh a ca /\ centroid_of twin_mesh b cb /\ ~ (ca =v= cb)).
Proof.
  split; [now apply wf_meshb_ok|]. split; [now apply refs_okb_ok|].
  exists 4, 9. do 2 eexists.
  split; [exists (Element ET_TRIANGLE [1; 2; 3] []), [Coord 0 0 0; Coord 1 0 0; Coord 0 1 0]; repeat split; reflexivity|].
  split; [exists (Element ET_TRIANGLE [1; 2; 8] []), [Coord 0 0 0; Coord 1 0 0; Coord 5 5 5]; repeat split; reflexivity|].
  intros (H & _). discriminate H.
Qed.

Lemma twins_vanish : exists m', mergeElements 2 0 twin_mesh = Ok m' /\ t_ids (m_elems m') = [9] /\
  t_index (m_elems m') 9 = Ok 2.
Proof. eexists. split; [vm_compute; reflexivity|]. split; reflexivity. Qed.

(** Node 3 is used by a face only, node 4 by nothing; element 7 is degenerate. *)
Definition messy_mesh : mesh :=
  Mesh (mk_table [(4, Coord 0 0 0); (2, Coord 1 0 0); (3, Coord 0 1 0); (8, Coord 5 5 5)])
       (mk_table [(1, Face FT_POINT [3] false 0 0)])
       (mk_table [(7, Element ET_BEAM [2; 2] []); (6, Element ET_BEAM [2; 8] [])]).

Lemma messy_ok : wf_mesh messy_mesh /\ refs_ok messy_mesh /\
  exists m1 m2, removeInvalidElements messy_mesh = Ok m1 /\ removeDanglingNodes m1 = Ok m2 /\
    t_ids (m_elems m1) = [6] /\ t_ids (m_nodes m2) = [2; 3; 8].
Proof.
  split; [now apply wf_meshb_ok|]. split; [now apply refs_okb_ok|].
  do 2 eexists. split; [vm_compute; reflexivity|]. split; [vm_compute; reflexivity|]. split; reflexivity.
Qed.

Lemma chain_dangling : exists m m' e, wf_mesh m /\ refs_ok m /\ mergeNodes 2 1 m = Ok m' /\
  t_get (m_elems m') 0 = Ok e /\ In 5 (e_nodes e) /\ t_get (m_nodes m') 5 = Throw.
Proof.
  exists chain_mesh. do 2 eexists. split; [now apply wf_meshb_ok|]. split; [now apply refs_okb_ok|].
  split; [vm_compute; reflexivity|]. split; [reflexivity|]. split; [now left|reflexivity].
Qed.

Lemma twins_gone : exists m', mergeElements 2 0 twin_mesh = Ok m' /\
  t_ids (m_elems twin_mesh) = [4; 6; 9] /\ t_ids (m_elems m') = [9] /\ t_index (m_elems m') 9 = Ok 2.
Proof. eexists. split; [vm_compute; reflexivity|]. repeat split; reflexivity. Qed.

Lemma kept_get {A} (t t' : table A) P id v :
  wf_table t' -> kept t t' P -> t_get t' id = Ok v -> t_get t id = Ok v /\ P id v.
Proof.
  intros W (keep & I & K) Hg. pose proof (wf_get_in _ _ _ W Hg) as Hin. rewrite I, filter_In in Hin.
  destruct (K id (proj1 Hin)) as (w & Hw & [(HP & _ & H)|(_ & Hk & _)]); [|destruct Hin; congruence].
  assert (w = v) by congruence. now subst.
Qed.

Lemma kept_in {A} (t t' : table A) (P : Z -> A -> Prop) id :
  kept t t' P -> In id (t_ids t) -> (forall v, P id v) -> In id (t_ids t').
Proof.
  intros (keep & I & K) Hin HP. rewrite I, filter_In. split; [assumption|].
  destruct (K id Hin) as (w & Hw & [(_ & H & _)|(H & _)]); [assumption|]. exfalso. apply H, HP.
Qed.

Lemma cleanup_refs m m1 m2 : wf_mesh m -> refs_ok m ->
  removeInvalidElements m = Ok m1 -> removeDanglingNodes m1 = Ok m2 -> wf_mesh m2 /\ refs_ok m2.
Proof.
  intros (Wn & Wf & We) (Re & Rf) E1 E2.
  destruct (removeInvalid_ok m We) as (m1' & E1' & N1 & F1 & W1 & K1 & _).
  assert (m1' = m1) by congruence. subst m1'.
  assert (Wm1 : wf_mesh m1) by (split; [rewrite N1|split; [rewrite F1|]]; assumption).
  destruct (removeDangling_ok m1 Wm1) as (m2' & E2' & F2 & L2 & W2 & K2 & _).
  assert (m2' = m2) by congruence. subst m2'. split; [split; [assumption|split; [rewrite F2, F1|rewrite L2]; assumption]|].
  assert (U : forall k, used m1 k -> In k (t_ids (m_nodes m1)) -> In k (t_ids (m_nodes m2)))
    by (intros k Hu Hk; eapply kept_in; eauto).
  rewrite N1 in U.
  split; intros id v Hg; apply Forall_forall; intros k Hk; apply U.
  - rewrite L2 in Hg. left. eauto.
  - rewrite L2 in Hg. apply (kept_get _ _ _ _ _ W1 K1) in Hg. destruct Hg as [Hg _].
    specialize (Re _ _ Hg). rewrite Forall_forall in Re. auto.
  - rewrite F2 in Hg. right. eauto.
  - rewrite F2, F1 in Hg. specialize (Rf _ _ Hg). rewrite Forall_forall in Rf. auto.
Qed.
