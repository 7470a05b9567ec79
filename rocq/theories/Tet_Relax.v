(** Proofs about relaxNodes of tetrahedral meshes. *)
From Coq Require Import ZArith List Bool QArith Lia Lqa.
From Verif Require Import Prelude Vec ZMap Mesh_Model HashGrid_Model Face_Model Query_Model Merge_Model Mesh_Spec Mesh_Proofs Face_Spec Face_Proofs
  Query_Props Front_Model Front_Spec Front_Proofs Front_Finish Tune_Model Tune_Spec Tune_Proofs Tune_Relax Tet_Model Tet_Spec Tet_Walls Tet_Proofs.
Import ListNotations.
Open Scope Z_scope.

Section Relax4.
Variable quality : coord -> coord -> coord -> coord -> Q.
Variable factor tol : Q.
Variable m : mesh.
Hypothesis Wm : wf_mesh m.
Hypothesis Rm : refs_ok m.
Hypothesis Pm : proper4 m.

Definition moved4 (t : table coord) : mesh := Mesh t (m_faces m) (m_elems m).

Lemma corner_ok t e z : wf_table t -> t_ids t = t_ids (m_nodes m) -> (exists id, t_get (m_elems m) id = Ok e) -> In z (e_nodes e) -> t_get t z = Ok (where_ t z).
Proof.
  intros Wt It [id He] Hz. destruct (wf_get t z Wt) as [w Hw]; [|unfold where_; now rewrite Hw]. rewrite It. pose proof (proj1 Rm _ _ He) as Fa.
  rewrite Forall_forall in Fa. now apply Fa.
Qed.

Lemma gather_ok t : wf_table t -> t_ids t = t_ids (m_nodes m) -> forall els st, (forall el, In el els -> exists e, t_get (m_elems m) el = Ok e) ->
  exists st', foldM (gather (m_elems m) t) els st = Ok st'.
Proof.
  intros Wt It. induction els as [|el els IH]; intros st Hk; [exists st; reflexivity|]. cbn [foldM]. unfold gather at 1.
  destruct (Hk el (or_introl eq_refl)) as [e He]. rewrite He. cbn [bind].
  destruct (is_tet e) eqn:Et; cbn [negb bind]; [|apply IH; intros k H; apply Hk; now right].
  apply is_tet_spec in Et. destruct (Pm _ _ He Et) as (a & b & c & d & En & _). rewrite En.
  change (vec_at [a; b; c; d] 0) with (Ok a). change (vec_at [a; b; c; d] 1) with (Ok b). change (vec_at [a; b; c; d] 2) with (Ok c). change (vec_at [a; b; c; d] 3) with (Ok d).
  cbn [bind]. rewrite !(corner_ok t e) by (try rewrite En; cbn; eauto 6). cbn [bind]. apply IH. intros k H. apply Hk. now right.
Qed.

Lemma weigh4_ok t n p : wf_table t -> t_ids t = t_ids (m_nodes m) -> forall els x y go,
  (forall el, In el els -> exists e, t_get (m_elems m) el = Ok e) ->
  exists x' y' go', foldM (weigh4 quality tol (m_elems m) t n p) els (x, y, go) = Ok (x', y', go') /\
    (go' = true -> go = true /\ (y' <= y)%Q /\
       (forall w, (w <= x)%Q -> (forall el a b c d, In el els -> tetrahedron m el a b c d -> (w <= quality (where_ t a) (where_ t b) (where_ t c) (where_ t d))%Q) -> (w <= x')%Q) /\
       forall el a b c d, In el els -> tetrahedron m el a b c d -> let t' := t_set t n p in
         (y' <= quality (where_ t' a) (where_ t' b) (where_ t' c) (where_ t' d))%Q /\
         (6 * (tol * tol * tol) <= volume6 (where_ t' a) (where_ t' b) (where_ t' c) (where_ t' d))%Q).
Proof.
  intros Wt It. induction els as [|el els IH]; intros x y go Hk.
  - exists x, y, go. split; [reflexivity|]. intros ->. split; [reflexivity|]. split; [apply Qle_refl|]. split; [auto|intros el a b c d []].
  - cbn [foldM]. unfold weigh4 at 1. cbn [fst snd]. destruct go; cbn [negb].
    + destruct (Hk el (or_introl eq_refl)) as [e He]. rewrite He. cbn [bind].
      destruct (is_tet e) eqn:Et; cbn [negb bind].
      * apply is_tet_spec in Et. destruct (Pm _ _ He Et) as (a & b & c & d & En & _). rewrite En.
        change (vec_at [a; b; c; d] 0) with (Ok a). change (vec_at [a; b; c; d] 1) with (Ok b). change (vec_at [a; b; c; d] 2) with (Ok c). change (vec_at [a; b; c; d] 3) with (Ok d).
        cbn [bind]. rewrite !(corner_ok t e) by (try rewrite En; cbn; eauto 6). cbn [bind]. rewrite <- !where_set.
        set (t' := t_set t n p). set (q1 := quality (where_ t a) (where_ t b) (where_ t c) (where_ t d)).
        set (q2 := quality (where_ t' a) (where_ t' b) (where_ t' c) (where_ t' d)).
        destruct (IH (qmin x q1) (qmin y q2) (negb (Qlt_bool (volume (where_ t' a) (where_ t' b) (where_ t' c) (where_ t' d)) (cube tol))) (fun k H => Hk k (or_intror H)))
          as (x' & y' & go' & E & H).
        exists x', y', go'. split; [exact E|]. intros Hg. destruct (H Hg) as (U & A & B & C). split; [reflexivity|].
        pose proof (qmin_le_l y q2). pose proof (qmin_le_r y q2). split; [lra|].
        assert (Htet : tetrahedron m el a b c d) by (exists (e_faces e); rewrite He; destruct e; cbn in *; congruence).
        split. { intros w Hw Hall. apply B; [apply qmin_glb; [exact Hw|]; apply (Hall el a b c d); [now left|exact Htet]|]. intros k a0 b0 c0 d0 Hin. apply Hall. now right. }
        intros el0 a0 b0 c0 d0 [<-|Hin] Htr; [|exact (C el0 a0 b0 c0 d0 Hin Htr)].
        destruct Htr as [fs Htr]. rewrite He in Htr. injection Htr as ->. cbn in En. injection En as -> -> -> ->.
        cbv zeta. fold t'. fold q2. split; [lra|]. apply negb_true_iff in U. apply Qlt_bool_ge in U. unfold cube in U.
        pose proof (volume_six (where_ t' a) (where_ t' b) (where_ t' c) (where_ t' d)). lra.
      * destruct (IH x y true (fun k H => Hk k (or_intror H))) as (x' & y' & go' & E & H). exists x', y', go'. split; [exact E|]. intros Hg.
        destruct (H Hg) as (_ & A & B & C). split; [reflexivity|]. split; [exact A|]. split.
        { intros w Hw Hall. apply B; [exact Hw|]. intros k a0 b0 c0 d0 Hin. apply Hall. now right. }
        intros el0 a0 b0 c0 d0 [<-|Hin] Htr; [|exact (C el0 a0 b0 c0 d0 Hin Htr)].
        destruct Htr as [fs Htr]. rewrite He in Htr. injection Htr as ->. discriminate.
    + destruct (IH x y false (fun k H => Hk k (or_intror H))) as (x' & y' & go' & E & H). cbn [bind]. exists x', y', go'. split; [exact E|].
      intros Hg. destruct (H Hg) as (C & _). discriminate.
Qed.

Record relaxing4 (fixed : zmap bool) (t : table coord) : Prop := Relaxing4 {
  r4_wf : wf_table t;
  r4_ids : t_ids t = t_ids (m_nodes m);
  r4_fixed : forall n, zat fixed n = Ok true -> t_get t n = t_get (m_nodes m) n;
  r4_thick : all_thick tol m -> all_thick tol (moved4 t);
  r4_quality : forall b, (b <= 1)%Q -> at_least4 quality b m -> at_least4 quality b (moved4 t)
}.

Lemma try_places_ok fixed t n els : relaxing4 fixed t -> In n (t_ids (m_nodes m)) -> zat fixed n = Ok false ->
  (forall el, In el els -> exists e, t_get (m_elems m) el = Ok e) ->
  (forall id a b c d, tetrahedron m id a b c d -> In n [a; b; c; d] -> In id els) ->
  forall ps, exists t', try_places quality tol (m_elems m) t n els ps = Ok t' /\ relaxing4 fixed t'.
Proof.
  intros L Hn Hb Hels Hall. pose proof (r4_wf _ _ L) as Wt. pose proof (r4_ids _ _ L) as It. induction ps as [|p ps IH]; [exists t; split; [reflexivity|exact L]|]. cbn [try_places].
  destruct (weigh4_ok t n p Wt It els 1%Q 1%Q true Hels) as (x' & y' & go' & Ew & Hgo). rewrite Ew. cbn [bind fst snd].
  destruct (go' && negb (Qlt_bool y' x'))%bool eqn:Eg; [|exact IH]. apply andb_true_iff in Eg. destruct Eg as [Eg Elt]. apply negb_true_iff, Qlt_bool_ge in Elt.
  destruct (Hgo Eg) as (_ & Hy & Hx & Hnew). eexists. split; [reflexivity|].
  destruct (t_set_wf t n p Wt) as [W1 G1]; [now rewrite It|].
  assert (Hold : forall a b c d, ~ In n [a; b; c; d] -> where_ (t_set t n p) a = where_ t a /\ where_ (t_set t n p) b = where_ t b /\
    where_ (t_set t n p) c = where_ t c /\ where_ (t_set t n p) d = where_ t d).
  { intros a b c d Hni. cbn in Hni. rewrite !where_set. destruct (Z.eqb_spec a n), (Z.eqb_spec b n), (Z.eqb_spec c n), (Z.eqb_spec d n); try tauto; exfalso; apply Hni; auto 6. }
  constructor.
  - exact W1.
  - exact It.
  - intros k Hk. rewrite G1. destruct (Z.eqb_spec k n); [congruence|]. now apply (r4_fixed _ _ L).
  - intros Hu id a b c d Htr. unfold corner. cbn [moved4 m_nodes]. destruct (in_dec Z.eq_dec n [a; b; c; d]) as [Hin|Hni].
    + apply (Hnew id a b c d (Hall _ _ _ _ _ Htr Hin) Htr).
    + destruct (Hold a b c d Hni) as (-> & -> & -> & ->). exact (r4_thick _ _ L Hu id a b c d Htr).
  - intros w Hw Hu id a b c d Htr. unfold corner. cbn [moved4 m_nodes]. pose proof (r4_quality _ _ L w Hw Hu) as Hq. destruct (in_dec Z.eq_dec n [a; b; c; d]) as [Hin|Hni].
    + destruct (Hnew id a b c d (Hall _ _ _ _ _ Htr Hin) Htr) as [A _].
      assert (w <= x')%Q by (apply Hx; [exact Hw|]; intros el a0 b0 c0 d0 _ Ht0; exact (Hq el a0 b0 c0 d0 Ht0)). cbv zeta in A. lra.
    + destruct (Hold a b c d Hni) as (-> & -> & -> & ->). exact (Hq id a b c d Htr).
Qed.

Lemma relax_tet_ok fixed q t n : relaxing4 fixed t -> In n (t_ids (m_nodes m)) -> (exists b, zat fixed n = Ok b) -> (forall k, q k = users (m_elems m) k) ->
  exists t', relax_tet quality factor tol m fixed q t n = Ok t' /\ relaxing4 fixed t'.
Proof.
  intros L Hn [b Hb] Hq. unfold relax_tet. pose proof (r4_wf _ _ L) as Wt. pose proof (r4_ids _ _ L) as It.
  destruct (wf_get t n Wt) as [c Hc]; [now rewrite It|]. rewrite Hc, Hb. cbn [bind]. destruct b; [eauto|].
  unfold sharing. rewrite Hq. set (els := users (m_elems m) n).
  assert (Hels : forall el, In el els -> exists e, t_get (m_elems m) el = Ok e).
  { intros el Hel. unfold els, users in Hel. apply filter_In in Hel. destruct Hel as [_ Hel]. destruct (t_get (m_elems m) el); try discriminate. eauto. }
  destruct (gather_ok t Wt It els (vzero, 0%Q) Hels) as [g ->]. cbn [bind]. apply try_places_ok; auto.
  intros id a b0 c0 d [fs Ht] Ha. unfold els, users. apply filter_In. split; [exact (wf_get_in _ _ _ (proj2 (proj2 Wm)) Ht)|]. rewrite Ht. cbn [e_nodes].
  apply existsb_exists. exists n. split; [exact Ha|apply Z.eqb_refl].
Qed.

Lemma relax4_ok : exists t, relaxTets quality factor tol m = Ok (moved4 t) /\ wf_table t /\ t_ids t = t_ids (m_nodes m) /\
  (forall n, on_border m n -> t_get t n = t_get (m_nodes m) n) /\
  (all_thick tol m -> all_thick tol (moved4 t)) /\
  (forall b, (b <= 1)%Q -> at_least4 quality b m -> at_least4 quality b (moved4 t)) /\
  (fitted4 m -> (total_volume6 (moved4 t) == total_volume6 m)%Q).
Proof.
  destruct (border_ok m Wm) as (fixed & Eb & Hb). destruct (query_of_ok (m_elems m) (proj2 (proj2 Wm))) as (q & Eq & Hq).
  unfold relaxTets. rewrite Eb, Eq. cbn [bind].
  destruct (foldM_invariant (relax_tet quality factor tol m fixed q) (fun _ t => relaxing4 fixed t) (t_ids (m_nodes m)) (m_nodes m)) as (t & E & H).
  - constructor; auto; apply Wm.
  - intros done n rest t Ed H. assert (Hin : In n (t_ids (m_nodes m))) by (rewrite Ed; apply in_elt).
    apply (relax_tet_ok fixed q t n H Hin); [destruct (Hb n Hin) as [[A _]|[A _]]; eauto|exact Hq].
  - exists t. rewrite E. cbn [bind]. split; [reflexivity|]. split; [apply H|]. split; [apply H|].
    assert (Hf : forall n, on_border m n -> t_get t n = t_get (m_nodes m) n).
    { intros n (fid & f & Hf & Hp & Hi). apply (r4_fixed _ _ H).
      assert (Hin : In n (t_ids (m_nodes m))). { pose proof (proj2 Rm _ _ Hf) as Fa. rewrite Forall_forall in Fa. auto. }
      destruct (Hb n Hin) as [[A _]|[_ A]]; [exact A|]. exfalso. apply A. exists fid, f. auto. }
    split; [exact Hf|]. split; [apply H|]. split; [apply H|]. intros Hfit.
    refine (volume_moved (m_elems m) (m_nodes m) t (fun n => match zat fixed n with Ok true => true | _ => false end) _ _ (m_faces m) (m_faces m)).
    + intros n Hk. unfold where_. replace (t_get t n) with (t_get (m_nodes m) n); [reflexivity|]. symmetry. apply (r4_fixed _ _ H). destruct (zat fixed n) as [[|]| |]; congruence.
    + intros a b c Hk. destruct (Z.eq_dec (net4 m (a, b, c)) 0) as [E0|E0]; [unfold net4 in E0; cbn in E0; lia|].
      exfalso. destruct (Hfit a b c E0) as (Ba & Bb & Bc).
      assert (K : forall n, on_border m n -> zat fixed n = Ok true).
      { intros n Bn. assert (Hin : In n (t_ids (m_nodes m))).
        { destruct Bn as (fid & f & Hf0 & Hp & Hi). pose proof (proj2 Rm _ _ Hf0) as Fa. rewrite Forall_forall in Fa. exact (Fa n Hi). }
        destruct (Hb n Hin) as [[A _]|[_ A]]; [exact A|]. contradiction. }
      rewrite (K a Ba), (K b Bb), (K c Bc) in Hk. discriminate.
Qed.
End Relax4.
