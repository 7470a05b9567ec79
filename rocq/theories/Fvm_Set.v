(** The control-volume mesh built by set(): lemmas for C54. *)
From Coq Require Import QArith ZArith List Lia Lqa Bool Permutation Setoid.
From Verif Require Import Prelude Vec ZMap Mesh_Model Mesh_Spec Mesh_Proofs Face_Model Face_Spec Poly_Model Lin_Sum Lin_Model Fdm_Model Fvm_Model Fvm_Spec Fvm_Proofs.
Import ListNotations.
Open Scope Z_scope.

Section Set_.
  Variable m : mesh.
  Hypothesis M : cells_ok m.
  Let fids := t_ids (m_faces m).

  Definition same (a b : Z) : Prop := a = b \/ pair_of m a = Some b.
  Lemma same_sym a b : same a b -> same b a.
  Proof. intros [->|E]; [now left|]. right. now apply (pair_sym m M). Qed.
  Lemma same_trans a b c : same a b -> same b c -> same a c.
  Proof.
    intros [->|E] [->|F]; [now left|now right|now right|]. left. apply (pair_sym m M) in E. destruct E as (_ & E & _). congruence.
  Qed.

  Definition fvface_of (r : Z) : fvface :=
    FvFace (outline m r) (paired m r) (owner m r) (match pair_of m r with Some b => owner m b | None => 0 end).

  Lemma added_init_false a : In a fids -> zlookup a (added_init m) = Some false.
  Proof.
    unfold added_init. fold fids. assert (G : forall l z, (In a l \/ zlookup a z = Some false) -> zlookup a (fold_left (fun z id => zinsert id false z) l z) = Some false).
    { induction l as [|x l IH]; intros z H; [destruct H as [[]|H]; exact H|]. cbn [fold_left]. apply IH. destruct H as [[->|H]|H]; [|now left|].
      - right. apply zlookup_insert_eq.
      - right. rewrite zlookup_insert. destruct (Z.eqb a x); [reflexivity|exact H]. }
    intros I. apply G. now left.
  Qed.

  Definition inv (done : list Z) (st : fvstate) : Prop := exists reps : list Z,
    t_ids (fs_faces st) = zrange (length reps) /\
    (forall k r, nth_error reps k = Some r -> zlookup (Z.of_nat k) (t_map (fs_faces st)) = Some (fvface_of r)) /\
    fs_next st = Z.of_nat (length reps) /\
    (forall a, In a fids -> (zlookup a (fs_added st) = Some true /\ exists k r, nth_error reps k = Some r /\ same a r /\ zlookup a (fs_new st) = Some (Z.of_nat k)) \/
                            (zlookup a (fs_added st) = Some false /\ forall r, In r reps -> ~ same a r)) /\
    incl reps fids /\
    (forall i j r r', nth_error reps i = Some r -> nth_error reps j = Some r' -> same r r' -> i = j) /\
    (forall a, In a done -> exists r, In r reps /\ same a r).

  Lemma set_face_inv done st fid : In fid fids -> inv done st -> exists st', set_face m st fid = Ok st' /\ inv (done ++ [fid]) st'.
  Proof.
    intros Hf (reps & Hids & Hmap & Hnext & Hadd & Hincl & Hinj & Hdone). unfold set_face.
    destruct (Hadd fid Hf) as [(A & k & r & Hk & Hs & Hn)|(A & Hno)].
    - unfold zat. rewrite A. cbn [bind]. exists st. split; [reflexivity|]. exists reps. repeat (split; [assumption|]).
      intros a I. apply in_app_or in I. destruct I as [I|[<-|[]]]; [now apply Hdone|]. exists r. split; [eapply nth_error_In; exact Hk|exact Hs].
    - unfold zat at 1. rewrite A. cbn [bind].
      destruct (face_get m M fid Hf) as (f & G). rewrite G. cbn [bind].
      assert (V : exists vs, mapM (t_get (m_nodes m)) (f_nodes f) = Ok vs).
      { destruct M as ((W & _) & _ & (_ & R) & _). specialize (R fid f G). clear - W R. induction R as [|n l In _ IH]; [now exists []|]. cbn [mapM]. destruct (wf_get _ n W In) as (c & ->). cbn [bind]. destruct IH as (vs & ->). cbn [bind]. now eexists. }
      destruct V as (vs & V). rewrite V. cbn [bind].
      assert (Nb : (if f_haspair f then g <- t_get (m_faces m) (f_pair f) ;; Ok (f_elem g) else Ok 0) = Ok (match pair_of m fid with Some b => owner m b | None => 0 end)).
      { unfold pair_of. rewrite G. destruct (f_haspair f) eqn:H; [|reflexivity].
        assert (E : pair_of m fid = Some (f_pair f)) by (unfold pair_of; rewrite G, H; reflexivity). destruct (pair_sym m M _ _ E) as (_ & _ & _ & Jb). destruct (face_get m M _ Jb) as (p & Gp). unfold owner. rewrite Gp. reflexivity. }
      rewrite Nb. cbn [bind]. eexists. split; [reflexivity|].
      assert (Ff : FvFace (pl_close vs 0) (f_haspair f) (f_elem f) (match pair_of m fid with Some b => owner m b | None => 0 end) = fvface_of fid).
      { unfold fvface_of, outline, paired, owner at 2, pair_of. rewrite G, V. destruct (f_haspair f); reflexivity. }
      rewrite Ff. clear Nb Ff.
      set (st' := if f_haspair f then _ else _).
      assert (Fc : fs_faces st' = t_add (fs_faces st) (fs_next st) (fvface_of fid) /\ fs_next st' = fs_next st + 1) by (unfold st'; destruct (f_haspair f); now split).
      destruct Fc as [Fc Nx].
      assert (Ad : forall a, In a fids -> (same a fid -> zlookup a (fs_added st') = Some true /\ zlookup a (fs_new st') = Some (fs_next st)) /\
                                          (~ same a fid -> zlookup a (fs_added st') = zlookup a (fs_added st) /\ zlookup a (fs_new st') = zlookup a (fs_new st))).
      { intros a Ia. assert (Pf : pair_of m fid = if f_haspair f then Some (f_pair f) else None) by (unfold pair_of; now rewrite G).
        unfold st'. destruct (f_haspair f) eqn:H; cbn [fs_added fs_new]; rewrite !zlookup_insert.
        - destruct (Z.eqb_spec a (f_pair f)) as [->|N1]; [split; [now split|]; intros N; exfalso; apply N; right; now apply (pair_sym m M)|].
          destruct (Z.eqb_spec a fid) as [->|N2]; [split; [now split|]; intros N; exfalso; apply N; now left|]. split; [|now split].
          intros Sm. apply same_sym in Sm. exfalso. destruct Sm as [E|E]; congruence.
        - destruct (Z.eqb_spec a fid) as [->|N2]; [split; [now split|]; intros N; exfalso; apply N; now left|]. split; [|now split].
          intros Sm. apply same_sym in Sm. exfalso. destruct Sm as [E|E]; congruence. }
      exists (reps ++ [fid]). rewrite Fc, Nx. cbn [t_add t_ids t_map]. rewrite app_length. cbn [length].
      split; [rewrite Nat.add_1_r, zrange_S, Hids, Hnext; reflexivity|].
      split.
      { intros k r Hk. rewrite zlookup_insert. destruct (Nat.lt_ge_cases k (length reps)) as [L|L].
        - rewrite nth_error_app1 in Hk by exact L. destruct (Z.eqb_spec (Z.of_nat k) (fs_next st)); [lia|]. now apply Hmap.
        - rewrite nth_error_app2 in Hk by exact L. destruct (k - length reps)%nat as [|j] eqn:E; [|destruct j; discriminate Hk]. cbn in Hk. injection Hk as <-. destruct (Z.eqb_spec (Z.of_nat k) (fs_next st)); [reflexivity|lia]. }
      split; [rewrite Hnext; lia|].
      split.
      { intros a Ia. destruct (Ad a Ia) as [Y N].
        assert (Dec : same a fid \/ ~ same a fid).
        { unfold same. destruct (Z.eq_dec a fid); [now left; left|]. destruct (pair_of m a) as [b|]; [|right; intros [?|?]; congruence]. destruct (Z.eq_dec b fid); [left; right; congruence|right; intros [?|?]; congruence]. }
        destruct Dec as [Sm|Sm].
        - destruct (Y Sm) as [Y1 Y2]. left. split; [exact Y1|]. exists (length reps), fid. split; [rewrite nth_error_app2, Nat.sub_diag by lia; reflexivity|]. split; [exact Sm|]. rewrite Y2, Hnext. reflexivity.
        - destruct (N Sm) as [N1 N2]. rewrite N1, N2. destruct (Hadd a Ia) as [(A1 & k & r & Hk & Hs & Hn)|(A1 & Hno1)].
          + left. split; [exact A1|]. exists k, r. split; [rewrite nth_error_app1; [exact Hk|apply nth_error_Some; congruence]|]. now split.
          + right. split; [exact A1|]. intros r Ir. apply in_app_or in Ir. destruct Ir as [Ir|[<-|[]]]; [now apply Hno1|exact Sm]. }
      split; [intros x Hx; apply in_app_or in Hx; destruct Hx as [Hx|[<-|[]]]; [now apply Hincl|exact Hf]|].
      split.
      { assert (Last : forall k r, nth_error (reps ++ [fid]) k = Some r -> (nth_error reps k = Some r /\ (k < length reps)%nat) \/ (k = length reps /\ r = fid)).
        { intros k r Hk. destruct (Nat.lt_ge_cases k (length reps)) as [L|L]; [left; rewrite nth_error_app1 in Hk by exact L; now split|]. rewrite nth_error_app2 in Hk by exact L. destruct (k - length reps)%nat as [|j] eqn:E; [|destruct j; discriminate Hk]. cbn in Hk. injection Hk as <-. right. split; [lia|reflexivity]. }
        intros i j r r' Hi Hj Hs. destruct (Last _ _ Hi) as [[Ei Li]|[Ei ->]]; destruct (Last _ _ Hj) as [[Ej Lj]|[Ej ->]].
        - eapply Hinj; eassumption.
        - exfalso. apply (Hno r); [eapply nth_error_In; exact Ei|now apply same_sym].
        - exfalso. apply (Hno r'); [eapply nth_error_In; exact Ej|exact Hs].
        - congruence. }
      intros a Ia. apply in_app_or in Ia. destruct Ia as [Ia|[<-|[]]].
      + destruct (Hdone a Ia) as (r & Ir & Hs). exists r. split; [apply in_or_app; now left|exact Hs].
      + exists fid. split; [apply in_or_app; right; now left|now left].
  Qed.

  Lemma set_faces_ok : exists st, foldM (set_face m) fids (FvState t_empty zempty (added_init m) 0) = Ok st /\ inv fids st.
  Proof.
    apply (foldM_invariant (set_face m) inv).
    - exists []. split; [reflexivity|]. split; [intros [|k] r H; discriminate H|]. split; [reflexivity|]. split; [intros a Ia; right; split; [now apply added_init_false|intros r []]|]. split; [intros x []|]. split; [intros [|i] j r r' H; discriminate H|intros a []].
    - intros done a rest s E I. apply set_face_inv; [rewrite E; apply in_or_app; right; now left|exact I].
  Qed.

  (** The number of a face. *)
  Lemma classes st : inv fids st -> exists n (num : Z -> Z),
    t_ids (fs_faces st) = zrange n /\
    (forall a, In a fids -> In (num a) (zrange n) /\ zlookup a (fs_new st) = Some (num a) /\ exists r, In r fids /\ same a r /\ zlookup (num a) (t_map (fs_faces st)) = Some (fvface_of r)) /\
    (forall k, In k (zrange n) -> exists a, In a fids /\ num a = k) /\
    (forall a b, In a fids -> In b fids -> (num a = num b <-> same a b)) /\
    (2 * n = length fids + length (filter (fun a => negb (paired m a)) fids))%nat.
  Proof.
    intros (reps & Hids & Hmap & Hnext & Hadd & Hincl & Hinj & Hdone). exists (length reps), (fun a => match zlookup a (fs_new st) with Some k => k | None => 0 end).
    assert (Hc : forall a, In a fids -> exists k r, nth_error reps k = Some r /\ same a r /\ zlookup a (fs_new st) = Some (Z.of_nat k)).
    { intros a Ia. destruct (Hadd a Ia) as [(_ & H)|(_ & H)]; [exact H|]. destruct (Hdone a Ia) as (r & Ir & Hs). exfalso. exact (H r Ir Hs). }
    split; [exact Hids|]. split.
    { intros a Ia. destruct (Hc a Ia) as (k & r & Hk & Hs & Hn). rewrite Hn. split; [apply zrange_in; split; [lia|]; apply inj_lt, nth_error_Some; congruence|]. split; [reflexivity|]. exists r. split; [apply Hincl; eapply nth_error_In; exact Hk|]. split; [exact Hs|now apply Hmap]. }
    split.
    { intros k Ik. apply zrange_in in Ik. destruct (nth_error reps (Z.to_nat k)) as [r|] eqn:E; [|apply nth_error_None in E; lia].
      assert (Ir : In r fids) by (apply Hincl; eapply nth_error_In; exact E). exists r. split; [exact Ir|]. destruct (Hc r Ir) as (k' & r' & Hk & Hs & Hn). rewrite Hn.
      assert (X := Hinj _ _ _ _ E Hk Hs). lia. }
    split.
    { intros a b Ia Ib. destruct (Hc a Ia) as (k & r & Hk & Hs & ->). destruct (Hc b Ib) as (k' & r' & Hk' & Hs' & ->). split.
      - intros E. apply Nat2Z.inj in E. subst k'. rewrite Hk in Hk'. injection Hk' as <-. eapply same_trans; [exact Hs|now apply same_sym].
      - intros Sm. f_equal. apply (Hinj _ _ _ _ Hk Hk'). eapply same_trans; [apply same_sym; exact Hs|]. eapply same_trans; [exact Sm|exact Hs']. }
    assert (Nf : NoDup fids) by (destruct M as ((_ & (X & _) & _) & _); exact X).
    assert (Nr : NoDup reps).
    { apply NoDup_nth_error. intros i j Hi E. destruct (nth_error reps i) as [r|] eqn:Ei; [|apply nth_error_None in Ei; lia]. symmetry in E. apply (Hinj i j r r Ei E). now left. }
    set (cl := fun r => match pair_of m r with Some b => [r; b] | None => [r] end).
    assert (Pm : Permutation (flat_map cl reps) fids).
    { apply NoDup_Permutation.
      - assert (Sub : forall l, NoDup l -> (forall x, In x l -> In x reps) -> NoDup (flat_map cl l)).
        { induction l as [|r l IH]; intros Nl Il; [constructor|]. inversion_clear Nl as [|? ? Nr' Nl']. cbn [flat_map]. assert (IHl := IH Nl' (fun x H => Il x (or_intror H))).
          assert (Cl : forall x, In x (cl r) -> same r x) by (intros x; unfold cl; destruct (pair_of m r) as [b|] eqn:E; [intros [<-|[<-|[]]]; [now left|now right]|intros [<-|[]]; now left]).
          assert (Dj : forall x, In x (cl r) -> ~ In x (flat_map cl l)).
          { intros x Hx Hy. apply in_flat_map in Hy. destruct Hy as (r' & Ir' & Hx'). assert (S' : same r' x) by (revert Hx'; unfold cl; destruct (pair_of m r') as [b|] eqn:E; [intros [<-|[<-|[]]]; [now left|now right]|intros [<-|[]]; now left]).
            assert (Srr : same r r') by (eapply same_trans; [apply Cl; exact Hx|now apply same_sym]).
            destruct (In_nth_error reps r (Il r (or_introl eq_refl))) as (i & Ei). destruct (In_nth_error reps r' (Il r' (or_intror Ir'))) as (j & Ej). assert (X := Hinj _ _ _ _ Ei Ej Srr). subst j. rewrite Ei in Ej. injection Ej as ->. contradiction. }
          assert (Ec : cl r = match pair_of m r with Some b => [r; b] | None => [r] end) by reflexivity. rewrite Ec in *.
          destruct (pair_of m r) as [b|] eqn:E; cbn [app].
          - constructor; [|constructor; [apply Dj; right; now left|exact IHl]]. intros [<-|H]; [apply (pair_sym m M) in E; destruct E as (E & _); now apply E|]. apply (Dj r); [now left|exact H].
          - constructor; [apply Dj; now left|exact IHl]. }
        apply Sub; [exact Nr|auto].
      - exact Nf.
      - intros x. split.
        + intros Hx. apply in_flat_map in Hx. destruct Hx as (r & Ir & Hx). unfold cl in Hx. destruct (pair_of m r) as [b|] eqn:E.
          * destruct (pair_sym m M _ _ E) as (_ & _ & Ia & Ib). destruct Hx as [<-|[<-|[]]]; assumption.
          * destruct Hx as [<-|[]]. now apply Hincl.
        + intros Ix. destruct (Hdone x Ix) as (r & Ir & Hs). apply in_flat_map. exists r. split; [exact Ir|]. apply same_sym in Hs. unfold cl. destruct Hs as [->|E]; [destruct (pair_of m x); now left|rewrite E; right; now left]. }
    assert (Len : (length fids + length (filter (fun a => negb (paired m a)) fids) = length (flat_map cl reps) + length (filter (fun a => negb (paired m a)) (flat_map cl reps)))%nat).
    { rewrite (Permutation_length Pm). f_equal. assert (FP : forall (p : Z -> bool) l l', Permutation l l' -> length (filter p l) = length (filter p l')).
      { intros p l l' Hp. induction Hp; cbn; [reflexivity|destruct (p x); cbn; lia|destruct (p x), (p y); reflexivity|lia]. }
      symmetry. now apply FP. }
    rewrite Len. clear Len Pm Nr Hdone Hinj Hadd Hmap Hids Hnext Hc. induction reps as [|r l IH]; [reflexivity|]. cbn [flat_map length]. rewrite filter_app, !app_length.
    assert (X := IH (fun x H => Hincl x (or_intror H))). assert (C : (length (cl r) + length (filter (fun a => negb (paired m a)) (cl r)) = 2)%nat); [|lia].
    unfold cl. destruct (pair_of m r) as [b|] eqn:E; cbn [filter].
    - destruct (pair_sym m M _ _ E) as (_ & Eb & _). assert (P1 : paired m r = true) by (unfold paired; now rewrite E). assert (P2 : paired m b = true) by (unfold paired; now rewrite Eb). rewrite P1, P2. reflexivity.
    - assert (P1 : paired m r = false) by (unfold paired; now rewrite E). rewrite P1. reflexivity.
  Qed.

  (** The polygon of a numbered face as the control volume [id] sees it. *)
  Definition seen (st : fvstate) (id k : Z) : list coord :=
    match zlookup k (t_map (fs_faces st)) with Some f => if ff_cv f =? id then ff_poly f else rev (ff_poly f) | None => [] end.

  Lemma set_cv_faces st num id l : (forall a, In a l -> zlookup a (fs_new st) = Some (num a) /\ zlookup (num a) (t_map (fs_faces st)) <> None) ->
    exists p, foldM (set_cv_face st id) l ph_empty = Ok p /\ ph_ids p = map num l /\ forall a, In a l -> ph_polygon p (num a) = seen st id (num a).
  Proof.
    intros H. apply (foldM_invariant (set_cv_face st id) (fun done p => ph_ids p = map num done /\ forall a, In a done -> ph_polygon p (num a) = seen st id (num a))); [split; [reflexivity|intros a []]|].
    intros done a rest p E (Ip & Pp). destruct (H a) as [N F]; [rewrite E; apply in_or_app; right; now left|].
    unfold set_cv_face. unfold zat at 1. rewrite N. cbn [bind]. unfold zat. destruct (zlookup (num a) (t_map (fs_faces st))) as [f|] eqn:L; [|congruence]. cbn [bind]. eexists. split; [reflexivity|]. cbn [ph_add ph_ids]. split; [rewrite Ip, map_app; reflexivity|].
    assert (Sa : seen st id (num a) = if ff_cv f =? id then ff_poly f else rev (ff_poly f)) by (unfold seen; now rewrite L).
    intros b Ib. unfold ph_polygon. cbn [ph_add ph_map]. rewrite zlookup_insert. destruct (Z.eqb_spec (num b) (num a)) as [Eb|Nb]; [rewrite Eb; now rewrite Sa|].
    apply in_app_or in Ib. destruct Ib as [Ib|[<-|[]]]; [exact (Pp b Ib)|congruence].
  Qed.

  Lemma set_cvs_ok st num : (forall a, In a fids -> zlookup a (fs_new st) = Some (num a) /\ zlookup (num a) (t_map (fs_faces st)) <> None) ->
    exists t, foldM (set_cv m st) (t_ids (m_elems m)) t_empty = Ok t /\ t_ids t = t_ids (m_elems m) /\
      forall id, In id (t_ids (m_elems m)) -> exists cv, t_get t id = Ok cv /\ cv_id cv = id /\ ph_ids (cv_poly cv) = map num (faces_listed (m_elems m) id) /\
        forall a, In a (faces_listed (m_elems m) id) -> ph_polygon (cv_poly cv) (num a) = seen st id (num a).
  Proof.
    intros H. apply (foldM_invariant (set_cv m st) (fun done t => t_ids t = done /\ forall id, In id done -> exists cv, t_get t id = Ok cv /\ cv_id cv = id /\ ph_ids (cv_poly cv) = map num (faces_listed (m_elems m) id) /\
        forall a, In a (faces_listed (m_elems m) id) -> ph_polygon (cv_poly cv) (num a) = seen st id (num a))); [split; [reflexivity|intros a []]|].
    intros done id rest t E (It & Pt). assert (Ii : In id (t_ids (m_elems m))) by (rewrite E; apply in_or_app; right; now left).
    unfold set_cv. destruct (elem_get m M id Ii) as (e & Ge & Fe). rewrite Ge. cbn [bind].
    destruct (set_cv_faces st num id (e_faces e)) as (p & Ep & Ip & Pp); [intros a Ia; apply H; rewrite <- Fe in Ia; now apply (listed_face m M id a Ii)|]. rewrite Ep. cbn [bind]. eexists. split; [reflexivity|]. cbn [t_add t_ids]. split; [now rewrite It|].
    intros i Hi. unfold t_get, zat. cbn [t_add t_map]. rewrite zlookup_insert. destruct (Z.eqb_spec i id) as [->|N].
    - exists (CVol id p). split; [reflexivity|]. split; [reflexivity|]. rewrite Fe. cbn [cv_poly]. now split.
    - apply in_app_or in Hi. destruct Hi as [Hi|[<-|[]]]; [|congruence]. destruct (Pt i Hi) as (cv & G & R). exists cv. split; [exact G|exact R].
  Qed.

  Lemma fvm_set_ok : exists fm n num, fvm_set m = Ok fm /\
    t_ids (fm_faces fm) = zrange n /\ (2 * n = length fids + length (filter (fun a => negb (paired m a)) fids))%nat /\
    (forall a, In a fids -> In (num a) (zrange n)) /\ (forall k, In k (zrange n) -> exists a, In a fids /\ num a = k) /\
    (forall a b, In a fids -> In b fids -> (num a = num b <-> same a b)) /\
    (forall a, In a fids -> exists r, In r fids /\ same a r /\ t_get (fm_faces fm) (num a) = Ok (fvface_of r)) /\
    t_ids (fm_cvs fm) = t_ids (m_elems m) /\
    forall id, In id (t_ids (m_elems m)) -> exists cv, t_get (fm_cvs fm) id = Ok cv /\ cv_id cv = id /\ ph_ids (cv_poly cv) = map num (faces_listed (m_elems m) id) /\
        forall a, In a (faces_listed (m_elems m) id) -> exists r, same a r /\ ph_polygon (cv_poly cv) (num a) = if owner m r =? id then outline m r else rev (outline m r).
  Proof.
    destruct set_faces_ok as (st & Es & Iv). destruct (classes st Iv) as (n & num & Hids & Hnum & Hsur & Hinj & Hlen).
    destruct (set_cvs_ok st num) as (t & Et & It & Pt).
    { intros a Ia. destruct (Hnum a Ia) as (_ & H & r & _ & _ & L). split; [exact H|congruence]. }
    exists (FvMesh (fs_faces st) t), n, num. unfold fvm_set. fold fids. rewrite Es. cbn [bind]. rewrite Et. cbn [bind]. split; [reflexivity|]. cbn [fm_faces fm_cvs].
    split; [exact Hids|]. split; [exact Hlen|]. split; [intros a Ia; apply (Hnum a Ia)|]. split; [exact Hsur|]. split; [exact Hinj|].
    split; [intros a Ia; destruct (Hnum a Ia) as (_ & _ & r & Ir & Sr & L); exists r; split; [exact Ir|]; split; [exact Sr|]; now apply zat_Ok|].
    split; [exact It|]. intros id Ii. destruct (Pt id Ii) as (cv & G & C & P & Q). exists cv. split; [exact G|]. split; [exact C|]. split; [exact P|].
    intros a Ia. destruct (listed_face m M id a Ii Ia) as [Ja _]. destruct (Hnum a Ja) as (_ & _ & r & _ & Sr & L). exists r. split; [exact Sr|]. rewrite (Q a Ia). unfold seen. rewrite L. reflexivity.
  Qed.
End Set_.
