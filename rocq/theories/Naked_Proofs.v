(** Proofs about collapsing naked edges. *)
From Coq Require Import ZArith List Lia Bool QArith Reals Qreals Lra Relation_Operators.
From Verif Require Import Prelude Vec ZMap Mesh_Model Mesh_Spec Mesh_Proofs Merge_Proofs Face_Model Face_Proofs Clean_Model Clean_Props
  Naked_Model Naked_Spec.
Import ListNotations.
Open Scope Z_scope.

Lemma root_less_spec a b t : (0 <= a)%Q -> (0 <= b)%Q ->
  (root_less a b t = true <-> (sqrt (Q2R a) < sqrt (Q2R b) + Q2R t)%R).
Proof.
  intros Ha Hb. unfold root_less. destruct (Qlt_bool 0 t) eqn:Et.
  - apply root_below_spec; auto. now apply Qlt_bool_iff.
  - assert (Ht : (Q2R t <= 0)%R).
    { destruct (Rle_lt_dec (Q2R t) 0) as [|H]; [assumption|]. exfalso.
      assert (Qlt_bool 0 t = true) by (apply Qlt_bool_R; now rewrite RMicromega.Q2R_0). congruence. }
    apply sqrt_Q_pos in Ha. apply sqrt_Q_pos in Hb.
    rewrite andb_true_iff, !Qlt_bool_R, !Q2R_mult, !Q2R_minus, Q2R_mult, RMicromega.Q2R_0.
    replace (Q2R 4) with 4%R by (unfold Q2R; cbn; lra).
    set (A := Q2R a) in *. set (B := Q2R b) in *. set (T := Q2R t) in *.
    pose proof (sqrt_pos A) as PA. pose proof (sqrt_pos B) as PB.
    pose proof (sqrt_sqrt A Ha) as SA. pose proof (sqrt_sqrt B Hb) as SB.
    set (x := sqrt A) in *. set (y := sqrt B) in *. rewrite <- SA, <- SB. clearbody x y A B T. clear SA SB Ha Hb Et.
    set (s := (- T)%R). assert (Hs : (0 <= s)%R) by (unfold s; lra). replace T with (- s)%R by (unfold s; lra). clearbody s. clear T Ht.
    assert (Key : (x < y + - s <-> 2 * (s * x) < y * y - x * x - s * s)%R) by (split; intros H; nra).
    rewrite Key. replace (y * y - x * x - - s * - s)%R with (y * y - x * x - s * s)%R by ring.
    set (d := (y * y - x * x - s * s)%R). assert (P : (0 <= s * x)%R) by (apply Rmult_le_pos; lra). clearbody d.
    replace (4 * (- s * - s) * (x * x))%R with ((2 * (s * x)) * (2 * (s * x)))%R by ring.
    set (e := (2 * (s * x))%R). assert (Pe : (0 <= e)%R) by (unfold e; lra). clearbody e. split.
    + intros [H1 H2]. destruct (Rlt_dec e d) as [|N]; [assumption|]. exfalso.
      assert (d * d <= e * e)%R by (apply Rmult_le_compat; lra). lra.
    + intros H. split; [lra|]. apply Rmult_le_0_lt_compat; lra.
Qed.

(** ** Distances *)
Lemma dist_nonneg p q : (0 <= dist p q)%R. Proof. apply sqrt_pos. Qed.

Lemma dist_sym p q : dist p q = dist q p.
Proof. unfold dist. f_equal. apply Qeq_eqR. unfold norm2, dot, vsub; cbn. ring. Qed.

Lemma dist_tri p q r : (dist p r <= dist p q + dist q r)%R.
Proof.
  unfold dist. set (u := vsub q p). set (v := vsub r q).
  assert (E : (norm2 (vsub r p) == norm2 u + norm2 v + 2 * dot u v)%Q) by (unfold u, v, norm2, dot, vsub; cbn; ring).
  rewrite (Qeq_eqR _ _ E), !Q2R_plus, Q2R_mult. replace (Q2R 2) with 2%R by (unfold Q2R; cbn; lra).
  assert (C : (dot u v * dot u v <= norm2 u * norm2 v)%Q).
  { unfold norm2, dot. set (a := cx u). set (b := cy u). set (c := cz u). set (x := cx v). set (y := cy v). set (z := cz v).
    clearbody a b c x y z. apply Qle_minus_iff.
    setoid_replace ((a * a + b * b + c * c) * (x * x + y * y + z * z) + - ((a * x + b * y + c * z) * (a * x + b * y + c * z)))%Q
      with ((a * y - b * x) * (a * y - b * x) + (a * z - c * x) * (a * z - c * x) + (b * z - c * y) * (b * z - c * y))%Q by ring.
    assert (S : forall w : Q, (0 <= w * w)%Q) by (intros w; destruct (Qlt_le_dec w 0); Lqa.nra).
    pose proof (S (a * y - b * x)%Q). pose proof (S (a * z - c * x)%Q). pose proof (S (b * z - c * y)%Q). Lqa.lra. }
  apply Qle_Rle in C. rewrite !Q2R_mult in C.
  pose proof (sqrt_Q_pos _ (norm2_nonneg u)) as Pu. pose proof (sqrt_Q_pos _ (norm2_nonneg v)) as Pv.
  set (U := Q2R (norm2 u)) in *. set (V := Q2R (norm2 v)) in *. set (D := Q2R (dot u v)) in *. clearbody U V D.
  pose proof (sqrt_pos U) as PU. pose proof (sqrt_pos V) as PV. pose proof (sqrt_sqrt U Pu) as SU. pose proof (sqrt_sqrt V Pv) as SV.
  set (x := sqrt U) in *. set (y := sqrt V) in *.
  assert (Dx : (D <= x * y)%R).
  { destruct (Rle_dec D (x * y)) as [|N]; [assumption|]. exfalso. assert (0 <= x * y)%R by (apply Rmult_le_pos; lra).
    assert ((x * y) * (x * y) < D * D)%R by (apply Rmult_le_0_lt_compat; lra).
    assert ((x * y) * (x * y) = U * V)%R by (rewrite <- SU, <- SV; ring). lra. }
  rewrite <- (sqrt_square (x + y)) by lra. apply sqrt_le_1_alt. rewrite <- SU, <- SV. clearbody x y. nra.
Qed.

Lemma dist_same p q : p = q -> dist p q = 0%R.
Proof.
  intros ->. unfold dist. rewrite (Qeq_eqR _ 0) by (unfold norm2, dot, vsub; cbn; ring).
  rewrite RMicromega.Q2R_0. apply sqrt_0.
Qed.

(** ** The lines without pair *)
Lemma ftype_line t : ftype_eqb t FT_LINE = true <-> t = FT_LINE.
Proof. destruct t; cbn; split; congruence. Qed.

Definition is_least (m : mesh) (ids : list Z) (mn : option Q) : Prop :=
  match mn with
  | None => ids = []
  | Some x => (exists id a b p q, In id ids /\ naked m id a b /\ t_get (m_nodes m) a = Ok p /\ t_get (m_nodes m) b = Ok q /\ x = norm2 (vsub q p)) /\
      (forall id a b p q, In id ids -> naked m id a b -> t_get (m_nodes m) a = Ok p -> t_get (m_nodes m) b = Ok q -> (x <= norm2 (vsub q p))%Q)
  end.

Lemma naked_refs m id a b : refs_ok m -> wf_table (m_nodes m) -> naked m id a b ->
  (exists p, t_get (m_nodes m) a = Ok p) /\ (exists q, t_get (m_nodes m) b = Ok q).
Proof.
  intros [_ R] W (f & Hf & _ & _ & E). specialize (R id f Hf). rewrite E in R.
  inversion R as [|? ? Ha Rb]; subst. inversion Rb; subst. split; now apply wf_get.
Qed.

Lemma naked_det m id a b a' b' : naked m id a b -> naked m id a' b' -> a = a' /\ b = b'.
Proof. intros (f & Hf & _ & _ & E) (f' & Hf' & _ & _ & E'). assert (f = f') by congruence. subst. rewrite E in E'. now injection E'. Qed.

Lemma ends_ok (t : table coord) f a b p q : f_nodes f = [a; b] -> t_get t a = Ok p -> t_get t b = Ok q ->
  ends t f = Ok (a, q, norm2 (vsub q p)).
Proof. intros E Ha Hb. unfold ends. rewrite E. change (vec_at [a; b] 0) with (Ok a). change (vec_at [a; b] 1) with (Ok b). cbn [bind]. rewrite Ha. cbn [bind]. rewrite Hb. reflexivity. Qed.

Lemma naked_list m : wf_mesh m -> refs_ok m -> lines_ok m ->
  exists ids mn, foldM (naked_step m) (t_ids (m_faces m)) ([], None) = Ok (ids, mn) /\
    NoDup ids /\ (forall id, In id ids <-> exists a b, naked m id a b) /\ is_least m ids mn.
Proof.
  intros (Wn & Wf & _) R L.
  destruct (foldM_invariant (naked_step m)
    (fun done s => (forall id, In id (fst s) <-> In id done /\ exists a b, naked m id a b) /\ NoDup (fst s) /\ is_least m (fst s) (snd s))
    (t_ids (m_faces m)) ([], None)) as ([ids mn] & E & H1 & H2 & H3).
  - cbn. split; [intros id; tauto|]. split; [constructor|reflexivity].
  - intros done id rest [ids mn] El (H1 & H2 & H3). cbn [fst snd] in *.
    assert (Hin : In id (t_ids (m_faces m))) by (rewrite El; apply in_elt).
    assert (Hnd : ~ In id done).
    { pose proof (proj1 Wf) as N. rewrite El in N. apply NoDup_remove_2 in N. intros I. apply N. apply in_app_iff. now left. }
    destruct (wf_get _ _ Wf Hin) as [f Hf]. unfold naked_step. rewrite Hf. cbn [bind].
    assert (Skip : (~ exists a b, naked m id a b) ->
      (forall k, In k ids <-> In k (done ++ [id]) /\ exists a b, naked m k a b) /\ NoDup ids /\ is_least m ids mn).
    { intros N. split; [|split; assumption]. intros k. rewrite H1, in_app_iff. cbn. split; [tauto|].
      intros [[?|[<-|[]]] ?]; tauto. }
    destruct (ftype_eqb (f_type f) FT_LINE) eqn:Ft; cbn [negb].
    2:{ eexists. split; [reflexivity|]. apply Skip. intros (a & b & f' & Hf' & T & _).
        assert (f = f') by congruence. subst. rewrite (proj2 (ftype_line _) T) in Ft. discriminate. }
    destruct (f_haspair f) eqn:Hp.
    { eexists. split; [reflexivity|]. apply Skip. intros (a & b & f' & Hf' & _ & T & _). congruence. }
    apply ftype_line in Ft. destruct (L id f Hf Ft) as (a & b & En).
    assert (Nk : naked m id a b) by (exists f; auto).
    destruct (naked_refs m id a b R Wn Nk) as [[p Hp'] [q Hq]].
    rewrite (ends_ok _ f a b p q En Hp' Hq). cbn [bind snd fst]. eexists. split; [reflexivity|]. cbn [fst snd].
    split; [|split].
    + intros k. rewrite !in_app_iff, H1. cbn. split.
      * intros [[? ?]|[<-|[]]]; [tauto|]. split; [tauto|eauto].
      * intros [[?|[<-|[]]] ?]; tauto.
    + apply (NoDup_Add (Add_app id ids [])). rewrite app_nil_r. split; [exact H2|]. rewrite H1. tauto.
    + unfold is_least in *. destruct mn as [x|]; cbn [least].
      * destruct H3 as [(i0 & a0 & b0 & p0 & q0 & I0 & N0 & P0 & Q0 & X0) Le].
        destruct (Qlt_bool (norm2 (vsub q p)) x) eqn:Lt.
        -- apply Qlt_bool_iff in Lt. split.
           ++ exists id, a, b, p, q. split; [apply in_app_iff; right; now left|]. auto.
           ++ intros k a1 b1 p1 q1 I1 N1 P1 Q1. apply in_app_iff in I1 as [I1|[<-|[]]].
              ** specialize (Le k a1 b1 p1 q1 I1 N1 P1 Q1). Lqa.lra.
              ** destruct (naked_det m id a b a1 b1 Nk N1) as [-> ->]. assert (p1 = p) by congruence. assert (q1 = q) by congruence. subst. apply Qle_refl.
        -- assert (Ge : (x <= norm2 (vsub q p))%Q).
           { destruct (Qlt_le_dec (norm2 (vsub q p)) x) as [H|H]; [|exact H]. apply Qlt_bool_iff in H. congruence. }
           split.
           ++ exists i0, a0, b0, p0, q0. split; [apply in_app_iff; now left|]. auto.
           ++ intros k a1 b1 p1 q1 I1 N1 P1 Q1. apply in_app_iff in I1 as [I1|[<-|[]]]; [eauto|].
              destruct (naked_det m id a b a1 b1 Nk N1) as [-> ->]. assert (p1 = p) by congruence. assert (q1 = q) by congruence. now subst.
      * subst ids. split.
        -- exists id, a, b, p, q. split; [now left|]. auto.
        -- intros k a1 b1 p1 q1 [<-|[]] N1 P1 Q1.
           destruct (naked_det m id a b a1 b1 Nk N1) as [-> ->]. assert (p1 = p) by congruence. assert (q1 = q) by congruence. subst. apply Qle_refl.
  - exists ids, mn. split; [exact E|]. split; [exact H2|]. split; [|exact H3].
    intros id. rewrite H1. split; [tauto|]. intros (a & b & N). split; [|eauto].
    destruct N as (f & Hf & _). eapply wf_get_in; eauto.
Qed.

(** ** Moving the nodes *)
Lemma clos_trans_step m a b c : leads m a b -> naked_edge m b c -> leads m a c.
Proof. intros H1 H2. eapply rt_trans; [exact H1|]. now apply rt_step. Qed.

Definition moved (m : mesh) (t : table coord) : Prop :=
  wf_table t /\ t_ids t = t_ids (m_nodes m) /\ t_idx t = t_idx (m_nodes m) /\ t_ctr t = t_ctr (m_nodes m) /\
  (forall n c, t_get t n = Ok c -> exists k, leads m n k /\ t_get (m_nodes m) k = Ok c) /\
  (forall n, (forall b, ~ naked_edge m n b) -> t_get t n = t_get (m_nodes m) n).

Lemma moved_step m t mn tol id a b : wf_mesh m -> refs_ok m -> naked m id a b -> moved m t ->
  exists p q, t_get t a = Ok p /\ t_get t b = Ok q /\
    collapse_step (m_faces m) mn tol t id = Ok (if root_less (norm2 (vsub q p)) mn tol then t_set t a q else t) /\
    moved m (t_set t a q) /\ (forall k, t_get (t_set t a q) k = if k =? a then Ok q else t_get t k).
Proof.
  intros W R N (Wt & I & X & C & M & U). pose proof N as (f & Hf & _ & _ & En).
  destruct R as [_ Rf]. pose proof (Rf id f Hf) as Fa. rewrite En in Fa.
  inversion Fa as [|? ? Ha Fb]; subst. inversion Fb as [|? ? Hb _]; subst. rewrite <- I in Ha, Hb.
  destruct (wf_get _ _ Wt Ha) as [p Hp]. destruct (wf_get _ _ Wt Hb) as [q Hq].
  exists p, q. split; [exact Hp|]. split; [exact Hq|]. split.
  - unfold collapse_step. rewrite Hf. cbn [bind]. rewrite (ends_ok t f a b p q En Hp Hq). reflexivity.
  - destruct (t_set_wf t a q Wt Ha) as [W' G]. split; [|exact G].
    split; [exact W'|]. split; [exact I|]. split; [exact X|]. split; [exact C|]. split.
    + intros n c. rewrite G. destruct (Z.eqb_spec n a) as [->|]; [|apply M]. intros [= <-].
      destruct (M b q Hq) as (k & Lk & Hk). exists k. split; [|exact Hk].
      eapply rt_trans; [apply rt_step; exists id; exact N|exact Lk].
    + intros n Nn. rewrite G. destruct (Z.eqb_spec n a) as [->|]; [|now apply U].
      destruct (Nn b). exists id. exact N.
Qed.

Lemma moved_start m : wf_mesh m -> moved m (m_nodes m).
Proof.
  intros (Wn & _). split; [exact Wn|]. split; [reflexivity|]. split; [reflexivity|]. split; [reflexivity|]. split; [|reflexivity].
  intros n c H. exists n. split; [apply rt_refl|exact H].
Qed.

Lemma moved_all m ids mn tol : wf_mesh m -> refs_ok m -> (forall id, In id ids -> exists a b, naked m id a b) ->
  exists t, foldM (collapse_step (m_faces m) mn tol) ids (m_nodes m) = Ok t /\ moved m t.
Proof.
  intros W R H. destruct (foldM_invariant (collapse_step (m_faces m) mn tol) (fun _ t => moved m t) ids (m_nodes m)) as (t & E & M).
  - now apply moved_start.
  - intros done id rest t El M. destruct (H id) as (a & b & N); [rewrite El; apply in_elt|].
    destruct (moved_step m t mn tol id a b W R N M) as (p & q & _ & _ & E & M' & _). eexists. split; [exact E|].
    now destruct (root_less _ _ _).
  - exists t. auto.
Qed.

(** ** Short edges apart from each other *)
Definition placed (m : mesh) (l : R) (done : list Z) (t : table coord) : Prop :=
  forall n c, t_get (m_nodes m) n = Ok c ->
    (forall id b q, In id done -> short m l id n b -> t_get (m_nodes m) b = Ok q -> t_get t n = Ok q) /\
    ((forall id b, In id done -> ~ short m l id n b) -> t_get t n = Ok c).

Lemma least_is m ids x : (forall id, In id ids <-> exists a b, naked m id a b) -> is_least m ids (Some x) ->
  least_length m (sqrt (Q2R x)).
Proof.
  intros H [(id & a & b & p & q & I & N & P & Q & ->) L]. split.
  - exists a, b. split; [exists id; exact N|]. exists p, q. auto.
  - intros a' b' k [id' N'] (p' & q' & P' & Q' & ->). unfold dist. apply sqrt_le_1_alt. apply Qle_Rle.
    apply (L id' a' b'); auto. apply H. eauto.
Qed.

Lemma least_unique m l l' : least_length m l -> least_length m l' -> l = l'.
Proof.
  intros [(a & b & N & H) L] [(a' & b' & N' & H') L'].
  apply Rle_antisym; eauto.
Qed.

Lemma apart_all m ids x tol l : wf_mesh m -> refs_ok m -> NoDup ids -> (forall id, In id ids -> exists a b, naked m id a b) ->
  (0 <= x)%Q -> l = (sqrt (Q2R x) + Q2R tol)%R ->
  (forall id id' a b a' b' n, short m l id a b -> short m l id' a' b' -> (n = a \/ n = b) -> (n = a' \/ n = b') -> id = id') ->
  (forall id a b k, naked m id a b -> length_is m a b k -> (k < l \/ 3 * l <= k)%R) ->
  exists t, foldM (collapse_step (m_faces m) x tol) ids (m_nodes m) = Ok t /\ moved m t /\ placed m l ids t.
Proof.
  intros W R ND Hn Hx El Ap Gap. pose proof (proj1 W) as Wn.
  destruct (foldM_invariant (collapse_step (m_faces m) x tol) (fun done t => moved m t /\ placed m l done t) ids (m_nodes m)) as (t & E & M & P).
  - split; [now apply moved_start|]. intros n c Hc. split; [intros ? ? ? []|]. intros _. exact Hc.
  - intros done id rest t Ei (M & P).
    assert (Hin : In id ids) by (rewrite Ei; apply in_elt).
    assert (Hnd : ~ In id done).
    { rewrite Ei in ND. apply NoDup_remove_2 in ND. intros I. apply ND. apply in_app_iff. now left. }
    destruct (Hn id Hin) as (a & b & N).
    destruct (moved_step m t x tol id a b W R N M) as (p' & q' & Hp' & Hq' & E & M' & G).
    destruct (naked_refs m id a b R Wn N) as [[p Hp] [q Hq]].
    eexists. split; [exact E|].
    (* where a node can be now *)
    assert (Near : forall n c c', t_get (m_nodes m) n = Ok c -> t_get t n = Ok c' ->
      c' = c \/ exists i k w, In i done /\ short m l i n k /\ t_get (m_nodes m) k = Ok w /\ c' = w).
    { intros n c c' Hc Hc'. destruct (P n c Hc) as [P1 P2].
      destruct (existsb (fun i => match t_get (m_faces m) i with
        | Ok f => ftype_eqb (f_type f) FT_LINE && negb (f_haspair f) && (match f_nodes f with [u; v] => (u =? n) &&
            match t_get (m_nodes m) v with Ok w => root_less (norm2 (vsub w c)) x tol | _ => false end | _ => false end)
        | _ => false end) done) eqn:Ex.
      - right. apply existsb_exists in Ex as (i & Ii & Ei'). destruct (t_get (m_faces m) i) as [f| |] eqn:Hf; try discriminate.
        apply andb_true_iff in Ei' as [Ei' E3]. apply andb_true_iff in Ei' as [E1 E2].
        destruct (f_nodes f) as [|u [|v [|]]] eqn:En; try discriminate.
        apply andb_true_iff in E3 as [E3 E4]. apply Z.eqb_eq in E3. subst u.
        destruct (t_get (m_nodes m) v) as [w| |] eqn:Hw; try discriminate.
        assert (S : short m l i n v).
        { split; [exists f; rewrite ftype_line in E1; rewrite negb_true_iff in E2; auto|].
          exists (dist c w). split; [exists c, w; auto|]. rewrite El. apply root_less_spec; auto using norm2_nonneg. }
        exists i, v, w. split; [exact Ii|]. split; [exact S|]. split; [exact Hw|].
        specialize (P1 i v w Ii S Hw). congruence.
      - left. assert (t_get t n = Ok c); [|congruence]. apply P2. intros i k Ii S.
        assert (X : existsb (fun i => match t_get (m_faces m) i with
        | Ok f => ftype_eqb (f_type f) FT_LINE && negb (f_haspair f) && (match f_nodes f with [u; v] => (u =? n) &&
            match t_get (m_nodes m) v with Ok w => root_less (norm2 (vsub w c)) x tol | _ => false end | _ => false end)
        | _ => false end) done = true); [|congruence].
        apply existsb_exists. exists i. split; [exact Ii|].
        destruct S as [(f & Hf & T & Pf & En) (d & (c1 & w & H1 & H2 & ->) & Lt)]. rewrite Hf, T, Pf, En. cbn [ftype_eqb negb andb].
        rewrite Z.eqb_refl, H2. cbn [andb]. assert (c1 = c) by congruence. subst c1.
        apply root_less_spec; auto using norm2_nonneg. now rewrite <- El. }
    assert (Close : forall n c c', t_get (m_nodes m) n = Ok c -> t_get t n = Ok c' -> (0 < l -> dist c c' < l)%R).
    { intros n c c' Hc Hc' Lp. destruct (Near n c c' Hc Hc') as [->|(i & k & w & Ii & S & Hk & ->)].
      - rewrite dist_same by reflexivity. exact Lp.
      - destruct S as [_ (d & (c1 & w1 & H1 & H2 & ->) & Lt)]. congruence. }
    destruct (Gap id a b (dist p q) N) as [Sh|Lg]; [exists p, q; auto| |].
    + (* a short edge: both ends are still in their places *)
      assert (S : short m l id a b) by (split; [exact N|]; exists (dist p q); split; [exists p, q; auto|exact Sh]).
      assert (Still : forall n c, (n = a \/ n = b) -> t_get (m_nodes m) n = Ok c -> t_get t n = Ok c).
      { intros n c Hab Hc. apply (proj2 (P n c Hc)). intros i k Ii Si. apply Hnd.
        rewrite (Ap id i a b n k n S Si Hab (or_introl eq_refl)). exact Ii. }
      assert (p' = p) by (pose proof (Still a p (or_introl eq_refl) Hp); congruence).
      assert (q' = q) by (pose proof (Still b q (or_intror eq_refl) Hq); congruence). subst p' q'.
      assert (RL : root_less (norm2 (vsub q p)) x tol = true) by (apply root_less_spec; auto using norm2_nonneg; rewrite <- El; exact Sh).
      rewrite RL. split; [exact M'|]. intros n c Hc. destruct (P n c Hc) as [P1 P2]. split.
      * intros i k w Ii Si Hw. rewrite G. apply in_app_iff in Ii as [Ii|[<-|[]]].
        -- destruct (Z.eqb_spec n a) as [->|].
           ++ exfalso. apply Hnd. rewrite (Ap id i a b a k a S Si (or_introl eq_refl) (or_introl eq_refl)). exact Ii.
           ++ eauto.
        -- destruct (naked_det m id n k a b (proj1 Si) N) as [-> ->]. rewrite Z.eqb_refl. congruence.
      * intros No. rewrite G. destruct (Z.eqb_spec n a) as [->|].
        -- exfalso. apply (No id b); [apply in_app_iff; right; now left|exact S].
        -- apply P2. intros i k Ii. apply No. apply in_app_iff. now left.
    + (* a long edge stays long *)
      assert (Nsh : forall i k, short m l i a k -> i = id -> False).
      { intros i k [N1 (d & (c1 & w1 & H1 & H2 & ->) & Lt)] ->. destruct (naked_det m id a k a b N1 N) as [_ ->].
        assert (c1 = p) by congruence. assert (w1 = q) by congruence. subst. pose proof (dist_nonneg p q). lra. }
      assert (RL : root_less (norm2 (vsub q' p')) x tol = false).
      { destruct (root_less (norm2 (vsub q' p')) x tol) eqn:RL; [|reflexivity]. exfalso.
        apply root_less_spec in RL; auto using norm2_nonneg. rewrite <- El in RL. fold (dist p' q') in RL.
        assert (Lp : (0 < l)%R) by (pose proof (dist_nonneg p' q'); lra).
        pose proof (Close a p p' Hp Hp' Lp). pose proof (Close b q q' Hq Hq' Lp).
        pose proof (dist_tri p p' q). pose proof (dist_tri p' q' q). rewrite (dist_sym q' q) in *. lra. }
      rewrite RL. split; [exact M|]. intros n c Hc. destruct (P n c Hc) as [P1 P2]. split.
      * intros i k w Ii Si Hw. apply in_app_iff in Ii as [Ii|[<-|[]]]; [eauto|].
        exfalso. destruct (naked_det m id n k a b (proj1 Si) N) as [-> ->]. exact (Nsh id b Si eq_refl).
      * intros No. apply P2. intros i k Ii. apply No. apply in_app_iff. now left.
  - exists t. auto.
Qed.
