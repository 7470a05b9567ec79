(** Proofs about the coarsening of triangulations. *)
From Coq Require Import ZArith List Bool QArith Lia Lqa Sorted.
From Verif Require Import Prelude Vec ZMap Mesh_Model HashGrid_Model Face_Model Merge_Model Merge_Spec Merge_Proofs Mesh_Spec Mesh_Proofs Mesh_Check Face_Spec Face_Proofs
  Front_Model Front_Spec Front_Proofs Tune_Model Tune_Spec Tune_Proofs Tune_Relax Tune_Faces Collapse_Model Collapse_Spec.
Import ListNotations.
Open Scope Z_scope.

Lemma short_near size a b : short size a b = true <-> near size a b.
Proof.
  unfold short, near. rewrite andb_true_iff, !Qlt_bool_iff.
  assert (E : (size * (3 # 4) * (size * (3 # 4)) == (3 # 4) * size * ((3 # 4) * size))%Q) by ring. rewrite E.
  split; intros [A B]; (split; [Lqa.lra|exact B]).
Qed.

Lemma hops_old size m a c c' : t_get (m_nodes m) a = Ok c -> hops size m c c' -> exists n, t_get (m_nodes m) n = Ok c'.
Proof. intros Ha H. inversion H; subst; eauto. Qed.

(** ** The first loop *)
Section Collapse.
Variables (size : Q) (m : mesh) (fixed : zmap bool).
Hypothesis Wm : wf_mesh m.
Hypothesis Rm : refs_ok m.
Hypothesis Tm : only_triangles m.
Hypothesis Pm : proper m.
Hypothesis Hb : forall n, In n (t_ids (m_nodes m)) -> (zat fixed n = Ok true /\ on_border m n) \/ (zat fixed n = Ok false /\ ~ on_border m n).

Lemma sides_ok (nodes : table coord) e p q r : wf_table nodes -> t_ids nodes = t_ids (m_nodes m) -> e_nodes e = [p; q; r] ->
  Forall (fun n => In n (t_ids (m_nodes m))) (e_nodes e) ->
  exists r', collapse_sides size fixed e (zrange 3) nodes = Ok r' /\
    ((r' = (nodes, false) /\ forall a b ca cb, In (a, b) (sides_of (e_nodes e)) -> ~ on_border m b -> t_get nodes a = Ok ca -> t_get nodes b = Ok cb -> ~ near size ca cb) \/
     (exists a b ca cb, In (a, b) (sides_of (e_nodes e)) /\ ~ on_border m b /\ t_get nodes a = Ok ca /\ t_get nodes b = Ok cb /\ near size ca cb /\ r' = (t_set nodes b ca, true))).
Proof.
  intros Wn In_ En Fn. rewrite En in *. inversion Fn as [|? ? Hp Fn1]; subst. inversion Fn1 as [|? ? Hq Fn2]; subst. inversion Fn2 as [|? ? Hr _]; subst.
  rewrite <- In_ in Hp, Hq, Hr. destruct (wf_get nodes p Wn Hp) as [cp Ep]. destruct (wf_get nodes q Wn Hq) as [cq Eq]. destruct (wf_get nodes r Wn Hr) as [cr Er].
  rewrite In_ in Hp, Hq, Hr.
  assert (St : forall a b ca cb, In b (t_ids (m_nodes m)) -> t_get nodes a = Ok ca -> t_get nodes b = Ok cb ->
    (zat fixed b = Ok true /\ (~ on_border m b -> ~ near size ca cb)) \/
    (zat fixed b = Ok false /\ short size ca cb = false /\ (~ on_border m b -> ~ near size ca cb)) \/
    (zat fixed b = Ok false /\ short size ca cb = true /\ ~ on_border m b /\ near size ca cb)).
  { intros a b ca cb Hin _ _. destruct (Hb b Hin) as [[A B]|[A B]]; [left; split; [exact A|contradiction]|right].
    destruct (short size ca cb) eqn:S0; [right|left]; (split; [exact A|split; [reflexivity|]]).
    - split; [exact B|now apply short_near].
    - intros _ N. apply short_near in N. congruence. }
  assert (Z3 : zrange 3 = [0; 1; 2]) by reflexivity. rewrite Z3. cbn [collapse_sides].
  change (0 mod 3) with 0. change ((0 + 1) mod 3) with 1. change (1 mod 3) with 1. change ((1 + 1) mod 3) with 2. change (2 mod 3) with 2. change ((2 + 1) mod 3) with 0.
  rewrite En. change (vec_at [p; q; r] 0) with (Ok p). change (vec_at [p; q; r] 1) with (Ok q). change (vec_at [p; q; r] 2) with (Ok r). cbn [bind].
  rewrite Ep, Eq, Er. cbn [bind sides_of].
  destruct (St p q cp cq Hq Ep Eq) as [[A1 N1]|[(A1 & S1 & N1)|(A1 & S1 & B1 & N1)]]; rewrite A1; cbn [bind]; rewrite ?S1;
  try (eexists; split; [reflexivity|]; right; exists p, q, cp, cq; cbn; now auto 10);
  (destruct (St q r cq cr Hr Eq Er) as [[A2 N2]|[(A2 & S2 & N2)|(A2 & S2 & B2 & N2)]]; rewrite A2; cbn [bind]; rewrite ?S2;
   try (eexists; split; [reflexivity|]; right; exists q, r, cq, cr; cbn; now auto 10);
   (destruct (St r p cr cp Hp Er Ep) as [[A3 N3]|[(A3 & S3 & N3)|(A3 & S3 & B3 & N3)]]; rewrite A3; cbn [bind]; rewrite ?S3;
    try (eexists; split; [reflexivity|]; right; exists r, p, cr, cp; cbn; now auto 10);
    (eexists; split; [reflexivity|]; left; split; [reflexivity|];
     intros a b ca cb [[= <- <-]|[[= <- <-]|[[= <- <-]|[]]]] Nb Ga Gb; [rewrite Ep in Ga; rewrite Eq in Gb|rewrite Eq in Ga; rewrite Er in Gb|rewrite Er in Ga; rewrite Ep in Gb];
     injection Ga as <-; injection Gb as <-; auto))).
Qed.

Record collapsing (done : list Z) (st : table coord * table element) : Prop := {
  cg_wf : wf_table (fst st);
  cg_ids : t_ids (fst st) = t_ids (m_nodes m);
  cg_border : forall a, on_border m a -> t_get (fst st) a = t_get (m_nodes m) a;
  cg_hops : forall a c, t_get (m_nodes m) a = Ok c -> exists c', t_get (fst st) a = Ok c' /\ hops size m c c';
  cg_ewf : wf_table (snd st);
  cg_eids : t_ids (snd st) = t_ids (m_elems m);
  cg_elem : forall id e, t_get (m_elems m) id = Ok e -> t_get (snd st) id = Ok e \/
    (t_get (snd st) id = Ok (Element ET_NONE (e_nodes e) (e_faces e)) /\ shrank size m id);
  cg_todo : forall id, ~ In id done -> t_get (snd st) id = t_get (m_elems m) id;
  cg_first : (fst st = m_nodes m /\ snd st = m_elems m /\ forall id, In id done -> ~ shrinking size m id) \/
    (exists pre id post e, done = pre ++ id :: post /\ shrinking size m id /\ (forall k, In k pre -> ~ shrinking size m k /\ t_get (snd st) k = t_get (m_elems m) k) /\
       t_get (snd st) id = Ok e /\ e_type e = ET_NONE) }.

Lemma border_node n : on_border m n -> In n (t_ids (m_nodes m)).
Proof. intros (fid & f & Hf & _ & Hi). pose proof (proj2 Rm _ _ Hf) as Fa. rewrite Forall_forall in Fa. auto. Qed.

Lemma collapse_loop : exists st, foldM (collapse_step size fixed) (t_ids (m_elems m)) (m_nodes m, m_elems m) = Ok st /\ collapsing (t_ids (m_elems m)) st.
Proof.
  pose proof Wm as (Wn & Wf & We).
  apply (foldM_invariant (collapse_step size fixed) collapsing).
  - constructor; cbn [fst snd]; auto.
    + intros a c Ha. exists c. split; [exact Ha|constructor].
  - intros done id rest st Ed G. assert (Hin : In id (t_ids (m_elems m))) by (rewrite Ed; apply in_elt).
    assert (Hnd : NoDup (done ++ id :: rest)) by (rewrite <- Ed; apply We).
    assert (Hnew : ~ In id done). { intros H. apply NoDup_remove_2 in Hnd. apply Hnd, in_or_app. now left. }
    destruct (wf_get (m_elems m) id We Hin) as [e He]. pose proof (cg_todo _ _ G id Hnew) as Hs. rewrite He in Hs.
    pose proof (Tm _ _ He) as Ht. destruct (Pm _ _ He Ht) as (p & q & r & En & _).
    pose proof (proj1 Rm _ _ He) as Fe.
    unfold collapse_step. rewrite Hs. cbn [bind]. unfold is_triangle. rewrite Ht. cbn [negb].
    assert (L3 : length (e_nodes e) = 3%nat) by (now rewrite En). rewrite L3.
    destruct (sides_ok (fst st) e p q r (cg_wf _ _ G) (cg_ids _ _ G) En Fe) as (r' & -> & [[-> Hno]|(a & b & ca & cb & Hab & Nb & Ga & Gb & Nr & ->)]); cbn [bind fst snd].
    + eexists. split; [reflexivity|]. destruct G as [G1 G2 G3 G4 G5 G6 G7 G8 G9]. constructor; cbn [fst snd]; auto.
      * intros k Hk. apply G8. intros C. apply Hk, in_or_app. now left.
      * destruct G9 as [(A & B & C)|(pre & k & post & e0 & E0 & R0)].
        -- left. split; [exact A|split; [exact B|]]. intros k Hk. apply in_app_or in Hk. destruct Hk as [Hk|[<-|[]]]; [auto|].
           intros (e1 & a & b & ca & cb & H1 & H2 & H3 & H4 & H5 & H6). assert (e1 = e) by congruence. subst e1. rewrite <- A in H4, H5. exact (Hno a b ca cb H2 H3 H4 H5 H6).
        -- right. exists pre, k, (post ++ [id]), e0. split; [rewrite E0, <- app_assoc; reflexivity|exact R0].
    + assert (Fe' : forall k, In k (e_nodes e) -> In k (t_ids (m_nodes m))) by (rewrite Forall_forall in Fe; exact Fe).
      assert (Ia : In a (t_ids (m_nodes m)) /\ In b (t_ids (m_nodes m))).
      { rewrite En in Hab, Fe'. cbn in Hab, Fe'. destruct Hab as [[= <- <-]|[[= <- <-]|[[= <- <-]|[]]]]; split; apply Fe'; auto. }
      destruct Ia as [Ia Ib].
      destruct (t_set_wf (fst st) b ca (cg_wf _ _ G)) as [W1 G1]; [rewrite (cg_ids _ _ G); exact Ib|].
      destruct (t_set_wf (snd st) id (Element ET_NONE (e_nodes e) (e_faces e)) (cg_ewf _ _ G)) as [W2 G2]; [rewrite (cg_eids _ _ G); exact Hin|].
      destruct (wf_get (m_nodes m) a Wn Ia) as [oa Oa]. destruct (wf_get (m_nodes m) b Wn Ib) as [ob Ob].
      destruct (cg_hops _ _ G a oa Oa) as (c1 & X1 & Ha). destruct (cg_hops _ _ G b ob Ob) as (c2 & X2 & Hbb).
      assert (c1 = ca) by congruence. assert (c2 = cb) by congruence. subst c1 c2.
      eexists. split; [reflexivity|]. constructor; cbn [fst snd]; auto.
      * exact (cg_ids _ _ G).
      * intros k Hk. rewrite G1. destruct (Z.eqb_spec k b) as [->|]; [contradiction|]. now apply (cg_border _ _ G).
      * intros k c Hk. rewrite G1. destruct (Z.eqb_spec k b) as [->|]; [|now apply (cg_hops _ _ G)].
        exists ca. split; [reflexivity|]. assert (c = ob) by congruence. subst c.
        destruct (hops_old _ _ _ _ _ Oa Ha) as [n Hn]. exact (one_more size m ob cb ca n Hbb Hn Nr).
      * exact (cg_eids _ _ G).
      * intros k e0 Hk. rewrite G2. destruct (Z.eqb_spec k id) as [->|]; [|now apply (cg_elem _ _ G)]. assert (e0 = e) by congruence. subst e0.
        right. split; [reflexivity|]. exists e, a, b, oa, ob, ca, cb. auto 10.
      * intros k Hk. rewrite G2. destruct (Z.eqb_spec k id) as [->|]; [exfalso; apply Hk, in_or_app; right; now left|].
        apply (cg_todo _ _ G). intros C. apply Hk, in_or_app. now left.
      * right. destruct (cg_first _ _ G) as [(A & B & C)|(pre & k & post & e0 & E0 & R0 & R1 & R2 & R3)].
        -- exists done, id, [], (Element ET_NONE (e_nodes e) (e_faces e)). split; [reflexivity|]. split.
           ++ exists e, a, b, ca, cb. rewrite A in Ga, Gb. auto 10.
           ++ split; [|split; [|reflexivity]].
              ** intros k Hk. split; [auto|]. rewrite G2, B. destruct (Z.eqb_spec k id) as [->|]; [contradiction|reflexivity].
              ** rewrite G2, Z.eqb_refl. reflexivity.
        -- exists pre, k, (post ++ [id]), e0. split; [rewrite E0, <- app_assoc; reflexivity|]. split; [exact R0|].
           assert (Hk : k <> id). { intros ->. apply Hnew. rewrite E0. apply in_elt. }
           split; [|split; [|exact R3]].
           ++ intros k' Hk'. destruct (R1 k' Hk') as [X Y]. split; [exact X|]. rewrite G2. destruct (Z.eqb_spec k' id) as [->|]; [|exact Y].
              exfalso. apply Hnew. rewrite E0. apply in_or_app. now left.
           ++ rewrite G2. destruct (Z.eqb_spec k id); [contradiction|exact R2].
Qed.
End Collapse.

(** ** The deletion loop *)
Lemma is_none_true e : is_none e = true <-> e_type e = ET_NONE.
Proof. unfold is_none. destruct (e_type e); split; congruence. Qed.

Lemma sweep_ok k : forall ids (t : table element), (length ids <= k)%nat -> wf_table t -> NoDup ids -> (forall id, In id ids -> In id (t_ids t)) ->
  exists gone t', sweep ids t = Ok t' /\ wf_table t' /\ t_ids t' = filter (fun id => negb (memb id gone)) (t_ids t) /\
    (forall id, t_get t' id = if memb id gone then Throw else t_get t id) /\
    (forall id, In id gone -> In id ids /\ exists e, t_get t id = Ok e /\ e_type e = ET_NONE) /\
    (forall pre id post e, ids = pre ++ id :: post -> t_get t id = Ok e -> e_type e = ET_NONE ->
       (forall j e', In j pre -> t_get t j = Ok e' -> e_type e' <> ET_NONE) -> In id gone).
Proof.
  induction k as [|k IH]; intros ids t Hl W Nd Hin.
  - destruct ids; [|cbn in Hl; lia]. exists [], t. cbn. split; [reflexivity|]. split; [exact W|]. split; [now rewrite filter_all|].
    split; [reflexivity|]. split; [intros _ []|]. intros [|? pre] id post e H; discriminate.
  - destruct ids as [|id l].
    { exists [], t. cbn. split; [reflexivity|]. split; [exact W|]. split; [now rewrite filter_all|].
      split; [reflexivity|]. split; [intros _ []|]. intros [|? pre] id post e H; discriminate. }
    cbn [length] in Hl. inversion Nd as [|? ? Ni Nl]; subst.
    destruct (wf_get t id W (Hin id (or_introl eq_refl))) as [e He]. cbn [sweep]. rewrite He. cbn [bind].
    destruct (is_none e) eqn:En.
    + apply is_none_true in En. destruct (t_remove_ok t id W (Hin id (or_introl eq_refl))) as (t1 & E1 & W1 & I1 & G1 & _). rewrite E1. cbn [bind].
      destruct l as [|id2 l'].
      * exists [id], t1. split; [reflexivity|]. split; [exact W1|]. split; [rewrite I1; apply filter_ext; intros j; unfold memb; cbn; now rewrite orb_false_r|].
        split; [intros j; rewrite G1; unfold memb; cbn; now rewrite orb_false_r|]. split; [intros j [<-|[]]; split; [now left|eauto]|].
        intros pre j post e' H. destruct pre as [|x pre]; [injection H as <- _; now left|]. injection H as _ H. destruct pre; discriminate.
      * inversion Nl as [|? ? Ni2 Nl']; subst.
        destruct (IH l' t1) as (gone & t' & Es & W' & I' & G' & Hg & Hf); [cbn in Hl; lia|exact W1|exact Nl'| |].
        { intros j Hj. rewrite I1. apply filter_In. split; [apply Hin; right; now right|]. apply negb_true_iff, Z.eqb_neq. intros ->. apply Ni. now right. }
        exists (id :: gone), t'. split; [exact Es|]. split; [exact W'|]. split.
        { rewrite I', I1, filter_twice. apply filter_ext. intros j. unfold memb. cbn. now rewrite negb_orb. }
        split; [intros j; rewrite G', G1; unfold memb; cbn; destruct (j =? id), (existsb (Z.eqb j) gone); reflexivity|]. split.
        { intros j [<-|Hj]; [split; [now left|eauto]|]. destruct (Hg j Hj) as (A & e' & B & C). split; [right; now right|]. exists e'. split; [|exact C].
          rewrite G1 in B. destruct (j =? id); congruence. }
        intros pre j post e' H Hj Tj Hpre. destruct pre as [|x pre]; [injection H as <- _; now left|]. injection H as -> _. exfalso. exact (Hpre x e (or_introl eq_refl) He En).
    + assert (Tn : e_type e <> ET_NONE) by (rewrite <- is_none_true; congruence).
      destruct (IH l t) as (gone & t' & Es & W' & I' & G' & Hg & Hf); [lia|exact W|exact Nl|intros j Hj; apply Hin; now right|].
      exists gone, t'. split; [exact Es|]. split; [exact W'|]. split; [exact I'|]. split; [exact G'|]. split.
      { intros j Hj. destruct (Hg j Hj) as [A B]. split; [now right|exact B]. }
      intros pre j post e' H Hj Tj Hpre. destruct pre as [|x pre]; [injection H as <- _; congruence|]. injection H as -> H.
      apply (Hf pre j post e' H Hj Tj). intros i ei Hi. apply Hpre. now right.
Qed.

(** ** Renumbering, with the new ids *)
Lemma nth_error_Some_lt {A} (l : list A) n a : nth_error l n = Some a -> (n < length l)%nat.
Proof. intros H. apply nth_error_Some. congruence. Qed.

Definition position_of (ids : list Z) (a : Z) : Z := match zlookup a (new_ids ids) with Some k => k | None => 0 end.

Lemma position_nth ids n a : NoDup ids -> nth_error ids n = Some a -> position_of ids a = Z.of_nat n.
Proof. intros N H. unfold position_of. now rewrite (new_ids_lookup ids n a N H). Qed.

Lemma renumber_names m : wf_mesh m -> refs_ok m -> face_refs_ok m ->
  exists m', renumber m = Ok m' /\ wf_mesh m' /\ refs_ok m' /\ t_ids (m_nodes m') = zrange (length (t_ids (m_nodes m))) /\ t_ids (m_elems m') = zrange (length (t_ids (m_elems m))) /\
    (forall a, In a (t_ids (m_nodes m)) -> t_get (m_nodes m') (position_of (t_ids (m_nodes m)) a) = t_get (m_nodes m) a) /\
    (forall n id e, nth_error (t_ids (m_elems m)) n = Some id -> t_get (m_elems m) id = Ok e ->
       exists fs, t_get (m_elems m') (Z.of_nat n) = Ok (Element (e_type e) (map (position_of (t_ids (m_nodes m))) (e_nodes e)) fs)).
Proof.
  intros (Hn & Hf & He) (Hre & Hrf) Hff.
  assert (Hndn : NoDup (t_ids (m_nodes m))) by apply Hn. assert (Hndf : NoDup (t_ids (m_faces m))) by apply Hf.
  set (pos := position_of (t_ids (m_nodes m))).
  assert (Hre' : forall l, Forall (fun k => In k (t_ids (m_nodes m))) l -> remap (new_ids (t_ids (m_nodes m))) l = Ok (map pos l)).
  { intros l Hl. apply remap_map. intros k Hk. rewrite Forall_forall in Hl. destruct (new_ids_in _ k Hndn (Hl k Hk)) as (j & Hj & _). unfold pos, position_of. now rewrite Hj. }
  assert (Hfa : forall l, Forall (fun k => In k (t_ids (m_faces m))) l -> remap (new_ids (t_ids (m_faces m))) l = Ok (map (position_of (t_ids (m_faces m))) l)).
  { intros l Hl. apply remap_map. intros k Hk. rewrite Forall_forall in Hl. destruct (new_ids_in _ k Hndf (Hl k Hk)) as (j & Hj & _). unfold position_of. now rewrite Hj. }
  destruct (renumber_table_ok (fun v => Ok v) (m_nodes m) Hn) as (tn & Htn & Wn & _ & Idn & _ & Vn); [eauto|].
  destruct (renumber_table_ok (fun v => l <- remap (new_ids (t_ids (m_nodes m))) (f_nodes v) ;; Ok (set_f_nodes v l)) (m_faces m) Hf) as (tf & Htf & Wf & _ & Idf & _ & Vf).
  { intros id v Hv. rewrite (Hre' _ (Hrf _ _ Hv)). cbn. eauto. }
  destruct (renumber_table_ok (fun v => l <- remap (new_ids (t_ids (m_nodes m))) (e_nodes v) ;; g <- remap (new_ids (t_ids (m_faces m))) (e_faces v) ;;
                                Ok (set_e_faces (set_e_nodes v l) g)) (m_elems m) He) as (te & Hte & We & _ & Ide & _ & Ve).
  { intros id v Hv. rewrite (Hre' _ (Hre _ _ Hv)). cbn [bind]. rewrite (Hfa _ (Hff _ _ Hv)). cbn. eauto. }
  exists (Mesh tn tf te). split; [unfold renumber; rewrite Htn; cbn [bind]; rewrite Htf; cbn [bind]; rewrite Hte; reflexivity|].
  split; [split; [exact Wn|split; [exact Wf|exact We]]|].
  assert (Pin : forall l, Forall (fun k => In k (t_ids (m_nodes m))) l -> Forall (fun k => In k (t_ids tn)) (map pos l)).
  { intros l Hl. rewrite Forall_forall in *. intros k Hk. apply in_map_iff in Hk. destruct Hk as (a & <- & Ha). specialize (Hl a Ha). apply In_nth_error in Hl.
    destruct Hl as [j Hj]. unfold pos. rewrite (position_nth _ j a Hndn Hj), Idn. apply zrange_in. apply nth_error_Some_lt in Hj. lia. }
  split.
  { split; cbn [m_nodes m_elems m_faces].
    - intros id e H. pose proof (wf_get_in _ _ _ We H) as Hi. rewrite Ide in Hi. apply zrange_in in Hi.
      destruct (nth_error (t_ids (m_elems m)) (Z.to_nat id)) as [i|] eqn:Ei; [|apply nth_error_None in Ei; lia].
      destruct (Ve _ i Ei) as (v & v' & Hv & Hr & Hv'). rewrite Z2Nat.id in Hv' by lia. assert (v' = e) by congruence. subst v'.
      rewrite (Hre' _ (Hre _ _ Hv)) in Hr. cbn [bind] in Hr. rewrite (Hfa _ (Hff _ _ Hv)) in Hr. injection Hr as <-. cbn. apply Pin. exact (Hre _ _ Hv).
    - intros id e H. pose proof (wf_get_in _ _ _ Wf H) as Hi. rewrite Idf in Hi. apply zrange_in in Hi.
      destruct (nth_error (t_ids (m_faces m)) (Z.to_nat id)) as [i|] eqn:Ei; [|apply nth_error_None in Ei; lia].
      destruct (Vf _ i Ei) as (v & v' & Hv & Hr & Hv'). rewrite Z2Nat.id in Hv' by lia. assert (v' = e) by congruence. subst v'.
      rewrite (Hre' _ (Hrf _ _ Hv)) in Hr. injection Hr as <-. cbn. apply Pin. exact (Hrf _ _ Hv). }
  cbn [m_nodes m_elems]. split; [exact Idn|]. split; [exact Ide|]. split.
  - intros a Ha. apply In_nth_error in Ha. destruct Ha as [j Hj]. unfold pos. rewrite (position_nth _ j a Hndn Hj).
    destruct (Vn j a Hj) as (v & v' & Hv & [= <-] & Hv'). congruence.
  - intros n id e Hid Hg. destruct (Ve n id Hid) as (v & v' & Hv & Hr & Hv'). assert (v = e) by congruence. subst v.
    rewrite (Hre' _ (Hre _ _ Hg)) in Hr. cbn [bind] in Hr. rewrite (Hfa _ (Hff _ _ Hg)) in Hr. injection Hr as <-. rewrite Hv'. eexists. reflexivity.
Qed.

(** ** All together *)
Lemma where_of t a c : t_get t a = Ok c -> where_ t a = c. Proof. unfold where_. now intros ->. Qed.

Lemma NoDup3 (p q r : Z) : NoDup [p; q; r] <-> p <> q /\ r <> p /\ r <> q.
Proof.
  split.
  - intros H. inversion H as [|? ? A B]; subst. inversion B as [|? ? C _]; subst. cbn in *. repeat split; intros ->; tauto.
  - intros (A & B & C). repeat constructor; cbn; intuition congruence.
Qed.

Theorem collapse_ok n size tol m : 1 <= n <= int_max -> (0 <= tol)%Q -> wf_mesh m -> refs_ok m -> face_refs_ok m -> only_triangles m -> proper m ->
  StronglySorted Z.lt (t_ids (m_nodes m)) ->
  (exists a b ca cb, on_border m a /\ on_border m b /\ t_get (m_nodes m) a = Ok ca /\ t_get (m_nodes m) b = Ok cb /\ ~ (ca =v= cb)) ->
  exists m1 place name left, collapse_mesh n size tol m = Ok m1 /\ wf_mesh m1 /\ refs_ok m1 /\ collapsed size tol m m1 place name left /\
    ((forall id, ~ shrinking size m id) -> (forall a c, t_get (m_nodes m) a = Ok c -> place a = c) /\
        (forall id p q r, triangle m id p q r -> NoDup [name p; name q; name r] -> In id left)) /\
    (forall pre id post, t_ids (m_elems m) = pre ++ id :: post -> shrinking size m id -> (forall k, In k pre -> ~ shrinking size m k) -> ~ In id left).
Proof.
  intros Hn Ht Wm Rm Fm Tm Pm Hs (a0 & b0 & ca0 & cb0 & Ba & Bb & Ga & Gb & Nab).
  destruct (border_ok m Wm) as (fixed & Eb & Hb). destruct (collapse_loop size m fixed Wm Rm Tm Pm Hb) as (st & El & G).
  pose proof Wm as (Wn & Wf & We).
  destruct (sweep_ok (length (t_ids (snd st))) (t_ids (snd st)) (snd st)) as (gone & t2 & Es & W2 & I2 & G2 & Hg & Hfst); [lia|apply G|apply (cg_ewf _ _ _ _ G)|auto|].
  set (M2 := Mesh (fst st) (m_faces m) t2).
  assert (Eback : forall id e, t_get t2 id = Ok e -> exists e0, t_get (m_elems m) id = Ok e0 /\ e_nodes e = e_nodes e0 /\ e_faces e = e_faces e0 /\
            (e_type e = ET_TRIANGLE \/ e_type e = ET_NONE)).
  { intros id e H. rewrite G2 in H. destruct (memb id gone) eqn:Em; [discriminate|]. pose proof (wf_get_in _ _ _ (cg_ewf _ _ _ _ G) H) as Hi. rewrite (cg_eids _ _ _ _ G) in Hi.
    destruct (wf_get _ _ We Hi) as [e0 He0]. exists e0. split; [exact He0|]. destruct (cg_elem _ _ _ _ G id e0 He0) as [A|[A _]]; rewrite A in H; injection H as <-; cbn; auto.
    split; [reflexivity|]. split; [reflexivity|]. left. exact (Tm _ _ He0). }
  assert (WM2 : wf_mesh M2) by (split; [apply G|split; [exact Wf|exact W2]]).
  assert (RM2 : refs_ok M2).
  { split; cbn [M2 m_nodes m_elems m_faces].
    - intros id e H. destruct (Eback id e H) as (e0 & He0 & -> & _). rewrite (cg_ids _ _ _ _ G). exact (proj1 Rm _ _ He0).
    - intros id f H. rewrite (cg_ids _ _ _ _ G). exact (proj2 Rm _ _ H). }
  destruct (merge_nodes_ok n tol M2 Hn Ht WM2 RM2) as (m3 & rep & E3 & W3 & R3 & _ & _ & _ & Hrep & Kn & Kapart & Kf & Ke).
  { cbn. rewrite (cg_ids _ _ _ _ G). exact Hs. }
  { exists a0, b0, ca0, cb0. cbn. rewrite (cg_border _ _ _ _ G a0 Ba), (cg_border _ _ _ _ G b0 Bb). auto. }
  cbn [M2 m_nodes m_faces m_elems] in *.
  assert (F3 : face_refs_ok m3).
  { intros id e He. destruct Ke as (keep & Ik & Hk). pose proof (wf_get_in _ _ _ (proj2 (proj2 W3)) He) as Hi. rewrite Ik in Hi. apply filter_In in Hi. destruct Hi as [Hi _].
    destruct (Hk id Hi) as (v & Hv & [(_ & _ & C)|(_ & _ & C)]); [|congruence]. rewrite C in He. injection He as <-. cbn [e_faces].
    destruct (Eback id v Hv) as (e0 & He0 & _ & -> & _). pose proof (Fm _ _ He0) as Fa. rewrite Forall_forall in *. intros g Hgin. specialize (Fa g Hgin).
    destruct Kf as (kf & If & Hkf). rewrite If. apply filter_In. split; [exact Fa|]. destruct (Hkf g Fa) as (w & _ & [(_ & B & _)|(B & _)]); [exact B|now destruct (B I)]. }
  destruct (renumber_names m3 W3 R3 F3) as (m4 & E4 & W4 & R4 & In4 & Ie4 & Gn4 & Ge4).
  destruct (rewrite_all_ok (fun e => Ok (if is_none e then Element ET_TRIANGLE (e_nodes e) (e_faces e) else e))
    (fun e => if is_none e then Element ET_TRIANGLE (e_nodes e) (e_faces e) else e) (m_elems m4) (proj2 (proj2 W4))) as (t5 & E5 & W5 & I5 & G5); [reflexivity|].
  set (m1 := Mesh (m_nodes m4) (m_faces m4) t5).
  set (place := where_ (fst st)). set (name := fun a => position_of (t_ids (m_nodes m3)) (rep a)). set (left := t_ids (m_elems m3)).
  assert (Nd3 : NoDup (t_ids (m_nodes m3))) by apply W3.
  assert (Gplace : forall a, In a (t_ids (m_nodes m)) -> t_get (fst st) a = Ok (place a)).
  { intros a Ha. rewrite <- (cg_ids _ _ _ _ G) in Ha. destruct (wf_get _ _ (cg_wf _ _ _ _ G) Ha) as [c Hc]. unfold place. now rewrite (where_of _ _ _ Hc). }
  assert (Gname : forall a, In a (t_ids (m_nodes m)) -> t_get (m_nodes m4) (name a) = t_get (m_nodes m3) (rep a)).
  { intros a Ha. unfold name. apply Gn4. apply Hrep. now rewrite (cg_ids _ _ _ _ G). }
  assert (Keep : forall a, In a (t_ids (m_nodes m3)) -> In a (t_ids (m_nodes m)) /\ rep a = a /\ t_get (m_nodes m3) a = Ok (place a)).
  { intros a Ha. destruct Kn as (kn & Ikn & Hkn). rewrite Ikn in Ha. apply filter_In in Ha. destruct Ha as [Ha Hka]. destruct (Hkn a Ha) as (v & Hv & [(A & _ & C)|(_ & B & _)]); [|congruence].
    rewrite (cg_ids _ _ _ _ G) in Ha. split; [exact Ha|]. split; [exact A|]. rewrite C, <- Hv. now apply Gplace. }
  assert (Elt : forall k id, nth_error left k = Some id -> exists e fs, t_get (m_elems m) id = Ok e /\
     t_get t5 (Z.of_nat k) = Ok (Element ET_TRIANGLE (map name (e_nodes e)) fs) /\ NoDup (map rep (e_nodes e))).
  { intros k id Hk. pose proof (nth_error_In _ _ Hk) as Hi. destruct Ke as (ke & Ike & Hke). pose proof Hi as Hi2. unfold left in Hi2. rewrite Ike in Hi2. apply filter_In in Hi2. destruct Hi2 as [Hi2 Hki].
    destruct (Hke id Hi2) as (v & Hv & [(A & _ & C)|(_ & B & _)]); [|congruence]. destruct (Eback id v Hv) as (e0 & He0 & En & _ & Hty).
    destruct (Ge4 k id _ Hk C) as (fs & H4). cbn [e_type e_nodes] in H4. rewrite map_map in H4. exists e0, fs. split; [exact He0|]. split.
    - rewrite (G5 _ _ H4). unfold is_none. cbn [e_type e_nodes e_faces]. rewrite En. destruct Hty as [-> | ->]; reflexivity.
    - now rewrite <- En. }
  exists m1, place, name, left. split.
  { unfold collapse_mesh. rewrite Eb. cbn [bind]. rewrite El. cbn [bind]. rewrite Es. cbn [bind]. fold M2. rewrite E3. cbn [bind]. rewrite E4. cbn [bind]. unfold unmark. rewrite E5. reflexivity. }
  split; [split; [apply W4|split; [apply W4|exact W5]]|]. split.
  { split; cbn [m1 m_nodes m_elems m_faces]; [|exact (proj2 R4)]. intros id e He. pose proof (wf_get_in _ _ _ W5 He) as Hi. rewrite I5 in Hi.
    destruct (wf_get _ _ (proj2 (proj2 W4)) Hi) as [e4 H4]. rewrite (G5 _ _ H4) in He. injection He as <-. pose proof (proj1 R4 _ _ H4) as Fa. destruct (is_none e4); exact Fa. }
  assert (Inj : forall a b, In a (t_ids (m_nodes m)) -> In b (t_ids (m_nodes m)) -> name a = name b -> rep a = rep b).
  { intros a b Ha Hb' E. rewrite <- (cg_ids _ _ _ _ G) in Ha, Hb'. destruct (Hrep a Ha) as [Ra _]. destruct (Hrep b Hb') as [Rb _].
    apply In_nth_error in Ra, Rb. destruct Ra as [i Hi], Rb as [j Hj]. unfold name in E. rewrite (position_nth _ i _ Nd3 Hi), (position_nth _ j _ Nd3 Hj) in E.
    assert (i = j) by lia. subst. congruence. }
  assert (NDn : forall id e, t_get (m_elems m) id = Ok e -> (NoDup (map rep (e_nodes e)) <-> NoDup (map name (e_nodes e)))).
  { intros id e He. pose proof (proj1 Rm _ _ He) as Fa. rewrite Forall_forall in Fa. destruct (Pm _ _ He (Tm _ _ He)) as (p & q & r & En & _). rewrite En in *. cbn [map]. rewrite !NoDup3.
    split; intros (A & B & C); (split; [|split]); intros E.
    - apply A, Inj; cbn in Fa; auto 6.
    - apply B, Inj; cbn in Fa; auto 6.
    - apply C, Inj; cbn in Fa; auto 6.
    - apply A. unfold name. now rewrite E.
    - apply B. unfold name. now rewrite E.
    - apply C. unfold name. now rewrite E. }
  assert (Hkeep : forall id e, t_get (m_elems m) id = Ok e -> ~ In id gone -> NoDup (map name (e_nodes e)) -> In id left).
  { intros id e He Hng Hnd. pose proof (wf_get_in _ _ _ We He) as Hi. destruct Ke as (ke & Ike & Hke). unfold left. rewrite Ike. 
    assert (Hm : memb id gone = false) by (destruct (memb id gone) eqn:E; [apply memb_In in E; contradiction|reflexivity]).
    assert (Hi2 : In id (t_ids t2)) by (rewrite I2, (cg_eids _ _ _ _ G); apply filter_In; split; [exact Hi|now rewrite Hm]).
    apply filter_In. split; [exact Hi2|]. destruct (Hke id Hi2) as (v & Hv & [(_ & B & _)|(B & _)]); [exact B|]. exfalso. apply B.
    destruct (Eback id v Hv) as (e0 & He0 & -> & _). assert (e0 = e) by congruence. subst. apply (NDn id e He). exact Hnd. }
  split.
  - constructor; cbn [m1 m_nodes m_elems].
    + intros a c Ha. destruct (cg_hops _ _ _ _ G a c Ha) as (c' & A & B). unfold place. now rewrite (where_of _ _ _ A).
    + intros a c B Ha. unfold place. apply where_of. now rewrite (cg_border _ _ _ _ G a B).
    + intros a Ha. rewrite (Gname a Ha). pose proof Ha as Ha'. rewrite <- (cg_ids _ _ _ _ G) in Ha'. destruct (Hrep a Ha') as [Ra (c1 & c2 & C1 & C2 & C3)]. cbn in C1, C2.
      destruct (Keep _ Ra) as (Rin & _ & Hk). exists (place (rep a)). split; [exact Hk|]. rewrite (Gplace a Ha) in C2. rewrite (Gplace _ Rin) in C1. congruence.
    + intros k c Hk. pose proof (wf_get_in _ _ _ (proj1 W4) Hk) as Hi. rewrite In4 in Hi. apply zrange_in in Hi.
      destruct (nth_error (t_ids (m_nodes m3)) (Z.to_nat k)) as [a|] eqn:Ea; [|apply nth_error_None in Ea; lia].
      destruct (Keep a (nth_error_In _ _ Ea)) as (A & B & C). exists a. split; [exact A|].
      assert (N : name a = k) by (unfold name; rewrite B, (position_nth _ _ _ Nd3 Ea); lia). split; [exact N|].
      rewrite <- N, (Gname a A), B, C in Hk. congruence.
    + intros k l c d Hkl Hk Hl. pose proof (wf_get_in _ _ _ (proj1 W4) Hk) as Hik. pose proof (wf_get_in _ _ _ (proj1 W4) Hl) as Hil. rewrite In4 in Hik, Hil. apply zrange_in in Hik, Hil.
      destruct (nth_error (t_ids (m_nodes m3)) (Z.to_nat k)) as [a|] eqn:Ea; [|apply nth_error_None in Ea; lia].
      destruct (nth_error (t_ids (m_nodes m3)) (Z.to_nat l)) as [b|] eqn:Eb'; [|apply nth_error_None in Eb'; lia].
      pose proof (nth_error_In _ _ Ea) as Ia. pose proof (nth_error_In _ _ Eb') as Ib. destruct (Keep a Ia) as (A1 & A2 & A3). destruct (Keep b Ib) as (B1 & B2 & B3).
      pose proof (Gn4 a Ia) as X. pose proof (Gn4 b Ib) as Y. rewrite (position_nth _ _ _ Nd3 Ea), Z2Nat.id, Hk, A3 in X by lia. rewrite (position_nth _ _ _ Nd3 Eb'), Z2Nat.id, Hl, B3 in Y by lia.
      injection X as ->. injection Y as ->. destruct (norm_le _ tol) eqn:E; [|reflexivity]. exfalso. apply (Kapart b a Ib Ia).
      * intros ->. apply Hkl. rewrite <- (Z2Nat.id k), <- (Z2Nat.id l) by lia. f_equal. apply (NoDup_nth_error_inj _ _ _ _ Nd3 Ea Eb').
      * exists (place b), (place a). cbn. rewrite (Gplace a A1), (Gplace b B1). auto.
    + eauto.
    + rewrite I5. exact Ie4.
    + destruct Ke as (ke & Ike & _). unfold left. rewrite Ike, I2, (cg_eids _ _ _ _ G), filter_twice. eauto.
    + intros k id p q r Hk [fs Hid]. destruct (Elt k id Hk) as (e & fs' & He & H5 & _). rewrite Hid in He. injection He as <-. exists fs'. exact H5.
    + intros id e He. pose proof (wf_get_in _ _ _ W5 He) as Hi. rewrite I5, Ie4 in Hi. apply zrange_in in Hi. fold left in Hi.
      destruct (nth_error left (Z.to_nat id)) as [i|] eqn:Ei; [|apply nth_error_None in Ei; lia].
      destruct (Elt _ _ Ei) as (e0 & fs & He0 & H5 & Hnd). rewrite Z2Nat.id, He in H5 by lia. injection H5 as ->. cbn [e_type e_nodes]. split; [reflexivity|].
      apply (NDn i e0 He0) in Hnd. destruct (Pm _ _ He0 (Tm _ _ He0)) as (p & q & r & En & _). rewrite En in *. cbn [map] in *. exists (name p), (name q), (name r). split; [reflexivity|]. now apply NoDup3.
    + intros id p q r [fs Hid] Hnl. destruct (in_dec Z.eq_dec id gone) as [Hgo|Hgo].
      * right. destruct (Hg id Hgo) as (_ & e' & He' & Ty). destruct (cg_elem _ _ _ _ G id _ Hid) as [A|[_ A]]; [|exact A]. rewrite A in He'. injection He' as <-. discriminate.
      * left. intros Hnd. apply Hnl. exact (Hkeep id _ Hid Hgo Hnd).
  - split.
    + intros Hno. destruct (cg_first _ _ _ _ G) as [(A & B & _)|(pre & id & post & e & _ & C & _)]; [|now destruct (Hno id)]. split.
      * intros a c Ha. unfold place. rewrite A. now apply where_of.
      * intros id p q r [fs Hid] Hnd. apply (Hkeep id _ Hid); [|exact Hnd]. intros Hgo. destruct (Hg id Hgo) as (_ & e' & He' & Ty). rewrite B, Hid in He'. injection He' as <-. discriminate.
    + intros pre id post Ei Hsh Hpre Hin. destruct (cg_first _ _ _ _ G) as [(_ & _ & C)|(pre' & id' & post' & e & E' & C & D & Ee & Te)].
      { apply (C id); [rewrite Ei; apply in_elt|exact Hsh]. }
      assert (In id' gone).
      { apply (Hfst pre' id' post' e); [now rewrite (cg_eids _ _ _ _ G)|exact Ee|exact Te|]. intros j e' Hj Hje. destruct (D j Hj) as [_ D2]. rewrite D2 in Hje. rewrite (Tm _ _ Hje). discriminate. }
      assert (id' = id).
      { rewrite Ei in E'. clear - E' Hsh Hpre C D. revert pre' E' D. induction pre as [|x pre IH]; intros [|y pre'] E' D; cbn in E'.
        - now injection E' as -> _.
        - injection E' as -> _. destruct (D y (or_introl eq_refl)) as [F _]. contradiction.
        - injection E' as <- _. destruct (Hpre x (or_introl eq_refl) C).
        - injection E' as -> E'. apply (IH (fun k Hk => Hpre k (or_intror Hk)) pre' E'). intros k Hk. apply D. now right. }
      subst id'. destruct Ke as (ke & Ike & _). unfold left in Hin. rewrite Ike in Hin. apply filter_In in Hin. destruct Hin as [Hin _]. rewrite I2 in Hin. apply filter_In in Hin.
      destruct Hin as [_ Hin]. apply negb_true_iff in Hin. apply memb_In in H. congruence.
Qed.
