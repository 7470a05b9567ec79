From Coq Require Import QArith ZArith List Lia Lqa Bool Permutation Setoid.
From Verif Require Import Prelude Vec ZMap Mesh_Model Mesh_Spec Mesh_Proofs Face_Model Face_Spec Poly_Model Poly_Proofs Lin_Sum Lin_Model Lin_Spec Lin_Proofs Fdm_Model Fdm_Proofs Fvm_Model Fvm_Spec.
Import ListNotations.
Open Scope Q_scope.

(** ** Residuals *)
Lemma addA_res s i j x : (i < s_dim s)%nat -> (j < s_dim s)%nat -> exists s', addA s i j x = Ok s' /\ s_dim s' = s_dim s /\ s_type s' = s_type s /\
  forall u k, residual s' u k == residual s u k + if Nat.eqb k i then x * u j else 0.
Proof.
  intros Hi Hj. rewrite addA_ok by assumption. eexists. split; [reflexivity|]. cbn [s_dim s_type]. split; [reflexivity|]. split; [reflexivity|].
  intros u k. unfold residual, row. cbn [s_dim s_A s_b].
  assert (E : sum (s_dim s) (fun j0 => upd2 (s_A s) i j (s_A s i j + x) k j0 * u j0) == sum (s_dim s) (fun j0 => s_A s k j0 * u j0) + if Nat.eqb k i then x * u j else 0); [|rewrite E; ring].
  destruct (Nat.eqb_spec k i) as [->|N].
  - rewrite (sum_ext _ _ (fun j0 => s_A s i j0 * u j0 + if Nat.eqb j0 j then x * u j else 0)).
    + rewrite sum_add, sum_pick. apply Nat.ltb_lt in Hj. rewrite Hj. reflexivity.
    + intros j0 _. unfold upd2. rewrite Nat.eqb_refl. destruct (Nat.eqb_spec j0 j) as [->|]; cbn [andb]; ring.
  - rewrite Qplus_0_r. apply sum_ext. intros j0 _. unfold upd2. destruct (Nat.eqb_spec k i); [congruence|]. reflexivity.
Qed.

Lemma addB_res s i x : (i < s_dim s)%nat -> exists s', addB s i x = Ok s' /\ s_dim s' = s_dim s /\ s_type s' = s_type s /\
  forall u k, residual s' u k == residual s u k - if Nat.eqb k i then x else 0.
Proof.
  intros Hi. rewrite addB_ok by assumption. eexists. split; [reflexivity|]. cbn [s_dim s_type]. split; [reflexivity|]. split; [reflexivity|].
  intros u k. unfold residual, row, upd1. cbn [s_dim s_A s_b]. destruct (Nat.eqb_spec k i) as [->|N]; ring.
Qed.

(** A loop that adds contributions to one residual. *)
Lemma res_loop {A} (step : sys -> A -> outcome sys) (C : vec -> A -> Q) n t el l :
  (forall s a, In a l -> s_dim s = n -> s_type s = t -> exists s', step s a = Ok s' /\ s_dim s' = n /\ s_type s' = t /\
     forall u k, residual s' u k == residual s u k + if Nat.eqb k el then C u a else 0) ->
  forall s, s_dim s = n -> s_type s = t -> exists s', foldM step l s = Ok s' /\ s_dim s' = n /\ s_type s' = t /\
     forall u k, residual s' u k == residual s u k + if Nat.eqb k el then rsum (map (C u) l) else 0.
Proof.
  induction l as [|a l IH]; intros St s D T.
  - exists s. cbn. split; [reflexivity|]. split; [exact D|]. split; [exact T|]. intros u k. destruct (Nat.eqb k el); ring.
  - destruct (St s a (or_introl eq_refl) D T) as (s1 & E1 & D1 & T1 & R1). cbn [foldM]. rewrite E1. cbn [bind].
    destruct (IH (fun s b I => St s b (or_intror I)) s1 D1 T1) as (s2 & E2 & D2 & T2 & R2). exists s2. split; [exact E2|]. split; [exact D2|]. split; [exact T2|].
    intros u k. rewrite R2, R1. change (rsum (map (C u) (a :: l))) with (C u a + rsum (map (C u) l)). destruct (Nat.eqb k el); ring.
Qed.

Lemma cells_loop (step : sys -> nat -> outcome sys) (C : vec -> nat -> Q) n t :
  (forall s i, (i < n)%nat -> s_dim s = n -> s_type s = t -> exists s', step s i = Ok s' /\ s_dim s' = n /\ s_type s' = t /\
     forall u k, residual s' u k == residual s u k + if Nat.eqb k i then C u i else 0) ->
  exists s, foldM step (seq 0 n) (Sys t n (fun _ _ => 0) (fun _ => 0)) = Ok s /\ s_dim s = n /\ s_type s = t /\
     forall u k, (k < n)%nat -> residual s u k == C u k.
Proof.
  intros St.
  assert (G : forall m, (m <= n)%nat -> exists s, foldM step (seq 0 m) (Sys t n (fun _ _ => 0) (fun _ => 0)) = Ok s /\ s_dim s = n /\ s_type s = t /\
     forall u k, residual s u k == if Nat.ltb k m then C u k else 0).
  { induction m as [|m IH]; intros Hm.
    - eexists. split; [reflexivity|]. split; [reflexivity|]. split; [reflexivity|]. intros u k. unfold residual, row. cbn [s_dim s_A s_b Nat.ltb Nat.leb]. rewrite sum_zero; [|intros; ring]. destruct k; reflexivity.
    - destruct (IH ltac:(lia)) as (s & E & D & T & R). rewrite seq_S, foldM_app, E. cbn [bind plus foldM]. destruct (St s m ltac:(lia) D T) as (s' & E' & D' & T' & R'). rewrite E'. cbn [bind].
      exists s'. split; [reflexivity|]. split; [exact D'|]. split; [exact T'|]. intros u k. rewrite R', R. destruct (Nat.ltb_spec k m), (Nat.ltb_spec k (S m)), (Nat.eqb_spec k m); try lia; subst; ring. }
  destruct (G n (Nat.le_refl n)) as (s & E & D & T & R). exists s. split; [exact E|]. split; [exact D|]. split; [exact T|]. intros u k Hk. rewrite R. apply Nat.ltb_lt in Hk. now rewrite Hk.
Qed.

(** ** Facts about the mesh *)
Section Mesh.
  Variable m : mesh.
  Hypothesis M : cells_ok m.
  Let ids := t_ids (m_elems m).

  Lemma elem_at i : (i < length ids)%nat -> t_id (m_elems m) (Z.of_nat i) = Ok (nth i ids 0%Z) /\ In (nth i ids 0%Z) ids.
  Proof.
    intros Hi. split; [|now apply nth_In]. unfold t_id. rewrite vec_at_nat. fold ids. rewrite (nth_error_nth' ids 0%Z Hi). reflexivity.
  Qed.
  Lemma elem_get id : In id ids -> exists e, t_get (m_elems m) id = Ok e /\ faces_listed (m_elems m) id = e_faces e.
  Proof.
    intros I. destruct M as ((_ & _ & (_ & _ & W)) & _). apply W in I. unfold t_get, zat, faces_listed, t_get, zat. destruct (zlookup id (t_map (m_elems m))) as [e|]; [|congruence]. exists e. now split.
  Qed.
  Lemma elem_index id : In id ids -> exists k, (k < length ids)%nat /\ nth k ids 0%Z = id /\ t_index (m_elems m) id = Ok (Z.of_nat k).
  Proof.
    intros I. destruct (In_nth ids id 0%Z I) as (k & Hk & E). exists k. split; [exact Hk|]. split; [exact E|]. destruct M as (_ & (Ix & _) & _). apply Ix. rewrite <- E. now apply elem_at.
  Qed.
  Lemma face_get fid : In fid (t_ids (m_faces m)) -> exists f, t_get (m_faces m) fid = Ok f.
  Proof.
    intros I. destruct M as ((_ & (_ & _ & W) & _) & _). apply W in I. unfold t_get, zat. destruct (zlookup fid (t_map (m_faces m))) as [f|]; [|congruence]. now exists f.
  Qed.
  Lemma face_got fid f : t_get (m_faces m) fid = Ok f -> In fid (t_ids (m_faces m)).
  Proof.
    intros G. destruct M as ((_ & (_ & _ & W) & _) & _). apply W. unfold t_get, zat in G. destruct (zlookup fid (t_map (m_faces m))); congruence.
  Qed.
  Lemma listed_face id fid : In id ids -> In fid (faces_listed (m_elems m) id) -> In fid (t_ids (m_faces m)) /\ owner m fid = id.
  Proof.
    intros I F. destruct M as (_ & _ & _ & P & O & _). assert (J : In fid (t_ids (m_faces m))) by (eapply Permutation_in; [exact P|apply in_flat_map; exists id; now split]).
    split; [exact J|]. destruct (face_get fid J) as (f & G). unfold owner. rewrite G. eapply O; eassumption.
  Qed.
  Lemma face_owner fid : In fid (t_ids (m_faces m)) -> In (owner m fid) ids /\ In fid (faces_listed (m_elems m) (owner m fid)).
  Proof.
    intros I. destruct M as (_ & _ & _ & P & O & _). apply (Permutation_in _ (Permutation_sym P)) in I. apply in_flat_map in I. destruct I as (id & I1 & I2).
    destruct (listed_face id fid I1 I2) as [_ E]. rewrite E. now split.
  Qed.
  Lemma pair_of_spec a b : pair_of m a = Some b <-> has_pair (m_faces m) a b.
  Proof.
    unfold pair_of, has_pair. destruct (t_get (m_faces m) a) as [f| |]; [|split; [discriminate|intros (f & H & _); discriminate]..].
    destruct (f_haspair f) eqn:H.
    - split; [intros E; injection E as <-; now exists f|intros (f' & E & _ & <-); injection E as <-; reflexivity].
    - split; [discriminate|intros (f' & E & H' & _); injection E as <-; congruence].
  Qed.
  Lemma pair_sym a b : pair_of m a = Some b -> a <> b /\ pair_of m b = Some a /\ In a (t_ids (m_faces m)) /\ In b (t_ids (m_faces m)).
  Proof.
    intros E. apply pair_of_spec in E. destruct M as (_ & _ & _ & _ & _ & S). destruct (S a b E) as [N E']. split; [exact N|]. split; [now apply pair_of_spec|].
    destruct E as (f & G & _). destruct E' as (f' & G' & _). split; eapply face_got; eassumption.
  Qed.
  Lemma field_at U k id : nth k ids 0%Z = id -> field m U k = U id.
  Proof. intros <-. reflexivity. Qed.

  Lemma check_ok l : incl l (t_ids (m_faces m)) -> foldM (check_face m) l tt = Ok tt.
  Proof.
    induction l as [|fid l IH]; intros I; [reflexivity|]. cbn [foldM]. unfold check_face at 1.
    destruct (face_get fid (I _ (or_introl eq_refl))) as (f & G). rewrite G. cbn [bind].
    assert (X : exists vs, mapM (t_get (m_nodes m)) (f_nodes f) = Ok vs).
    { destruct M as ((W & _) & _ & (_ & R) & _). specialize (R fid f G). clear - W R. induction R as [|n l In _ IH]; [now exists []|]. cbn [mapM]. assert (Gn : exists c, t_get (m_nodes m) n = Ok c).
      { destruct W as (_ & _ & W). apply W in In. unfold t_get, zat. destruct (zlookup n (t_map (m_nodes m))) as [c|]; [now exists c|congruence]. }
      destruct Gn as (c & ->). cbn [bind]. destruct IH as (vs & ->). cbn [bind]. now eexists. }
    destruct X as (vs & ->). cbn [bind]. apply IH. intros x Hx. apply I. now right.
  Qed.

  Variable g : geometry.
  Variable bc : bcs.

  (** Contribution of a face to the residual of the laplacian and the divergence. *)
  Definition lap_part (u : vec) (id fid : Z) : Q :=
    match pair_of m fid with
    | Some b => g_area g fid / g_cells g (owner m b) id / g_volume g id * (u (Z.to_nat (match t_index (m_elems m) (owner m b) with Ok k => k | _ => 0%Z end)) - u (Z.to_nat (match t_index (m_elems m) id with Ok k => k | _ => 0%Z end)))
    | None => match bc fid with Some w => g_area g fid / g_wall g fid id / g_volume g id * (w - u (Z.to_nat (match t_index (m_elems m) id with Ok k => k | _ => 0%Z end))) | None => 0 end
    end.

  Lemma lap_face_ok el fid s : (el < length ids)%nat -> In fid (faces_listed (m_elems m) (nth el ids 0%Z)) -> s_dim s = length ids ->
    exists s', lap_face m g bc el (nth el ids 0%Z) s fid = Ok s' /\ s_dim s' = s_dim s /\ s_type s' = s_type s /\
      forall u k, residual s' u k == residual s u k + if Nat.eqb k el then lap_part u (nth el ids 0%Z) fid else 0.
  Proof.
    intros Hel F D. destruct (elem_at el Hel) as [At I]. set (id := nth el ids 0%Z) in *. destruct (listed_face id fid I F) as [J Ow]. destruct (face_get fid J) as (f & G).
    assert (Ix : t_index (m_elems m) id = Ok (Z.of_nat el)) by (destruct M as (_ & (X & _) & _); now apply X).
    unfold lap_face, lap_part. rewrite Ix, Nat2Z.id. unfold pair_of. rewrite G. cbn [bind]. destruct (f_haspair f) eqn:H.
    - assert (E : pair_of m fid = Some (f_pair f)) by (unfold pair_of; rewrite G, H; reflexivity). destruct (pair_sym _ _ E) as (_ & _ & _ & Jb).
      destruct (face_get _ Jb) as (p & Gp). destruct (face_owner _ Jb) as [Ob _]. unfold owner in *. rewrite Gp in *. cbn [bind].
      destruct (elem_index _ Ob) as (k & Hk & Ek & Ik). rewrite Ik. cbn [bind]. rewrite Nat2Z.id.
      destruct (addA_res s el el (- g_area g fid / g_cells g (f_elem p) id / g_volume g id) ltac:(lia) ltac:(lia)) as (s1 & E1 & D1 & T1 & R1). rewrite E1. cbn [bind].
      unfold addA_at. destruct (Z.ltb_spec (Z.of_nat k) 0); [lia|]. rewrite Nat2Z.id.
      destruct (addA_res s1 el k (g_area g fid / g_cells g (f_elem p) id / g_volume g id) ltac:(lia) ltac:(lia)) as (s2 & E2 & D2 & T2 & R2). exists s2. split; [exact E2|].
      split; [congruence|]. split; [congruence|]. intros u i. rewrite R2, R1. destruct (Nat.eqb i el); unfold Qdiv; ring.
    - destruct (bc fid) as [w|].
      + destruct (addA_res s el el (- g_area g fid / g_wall g fid id / g_volume g id) ltac:(lia) ltac:(lia)) as (s1 & E1 & D1 & T1 & R1). rewrite E1. cbn [bind].
        destruct (addB_res s1 el (- g_area g fid / g_wall g fid id / g_volume g id * w) ltac:(lia)) as (s2 & E2 & D2 & T2 & R2). exists s2. split; [exact E2|].
        split; [congruence|]. split; [congruence|]. intros u i. rewrite R2, R1. destruct (Nat.eqb i el); unfold Qdiv; ring.
      + exists s. split; [reflexivity|]. split; [reflexivity|]. split; [reflexivity|]. intros u i. destruct (Nat.eqb i el); ring.
  Qed.

  Lemma laplacian_residual : exists s, fvm_laplacian m g bc = Ok s /\ s_dim s = length ids /\ s_type s = MT_SPARSE /\
    forall u i, (i < length ids)%nat -> residual s u i == rsum (map (lap_part u (nth i ids 0%Z)) (faces_listed (m_elems m) (nth i ids 0%Z))).
  Proof.
    apply (cells_loop (lap_cell m g bc) (fun u i => rsum (map (lap_part u (nth i ids 0%Z)) (faces_listed (m_elems m) (nth i ids 0%Z))))).
    intros s i Hi D T. destruct (elem_at i Hi) as [At I]. unfold lap_cell. rewrite At. cbn [bind]. destruct (elem_get _ I) as (e & Ge & Fe). rewrite Ge. cbn [bind].
    rewrite check_ok by (intros fid F; rewrite <- Fe in F; now apply (listed_face _ _ I)). cbn [bind]. rewrite Fe.
    apply (res_loop (lap_face m g bc i (nth i ids 0%Z)) (fun u => lap_part u (nth i ids 0%Z)) (length ids) MT_SPARSE i (e_faces e)); [|exact D|exact T].
    intros s0 fid F D0 T0. rewrite <- Fe in F. destruct (lap_face_ok i fid s0 Hi F D0) as (s' & E & D' & T' & R). exists s'. split; [exact E|]. split; [congruence|]. split; [congruence|exact R].
  Qed.

  Lemma ddt_residual u0 : exists s, fvm_ddt m bc u0 = Ok s /\ s_dim s = length ids /\ s_type s = MT_SPARSE /\
    forall u i, (i < length ids)%nat -> residual s u i == u i - match first_fixed bc (faces_listed (m_elems m) (nth i ids 0%Z)) with Some v => v | None => u0 i end.
  Proof.
    apply (cells_loop (ddt_cell m bc u0) (fun u i => u i - match first_fixed bc (faces_listed (m_elems m) (nth i ids 0%Z)) with Some v => v | None => u0 i end)).
    intros s i Hi D T. destruct (elem_at i Hi) as [At I]. unfold ddt_cell. rewrite At. cbn [bind]. destruct (elem_get _ I) as (e & Ge & Fe). rewrite Ge, Fe. cbn [bind].
    destruct (addA_res s i i 1 ltac:(lia) ltac:(lia)) as (s1 & E1 & D1 & T1 & R1). rewrite E1. cbn [bind].
    destruct (addB_res s1 i (match first_fixed bc (e_faces e) with Some v => v | None => u0 i end) ltac:(lia)) as (s2 & E2 & D2 & T2 & R2). exists s2. split; [exact E2|]. split; [congruence|]. split; [congruence|].
    intros u k. rewrite R2, R1. destruct (Nat.eqb_spec k i) as [->|]; ring.
  Qed.

  (** In terms of element values. *)
  Lemma lap_part_field U id fid : In id ids -> In fid (faces_listed (m_elems m) id) -> lap_part (field m U) id fid == inflow m g bc U fid / g_volume g id.
  Proof.
    intros I F. destruct (listed_face id fid I F) as [J Ow]. unfold lap_part, inflow. rewrite Ow.
    destruct (elem_index id I) as (k & Hk & Ek & Ik). rewrite Ik, Nat2Z.id, (field_at U k id Ek).
    destruct (pair_of m fid) as [b|] eqn:E.
    - destruct (pair_sym _ _ E) as (_ & _ & _ & Jb). destruct (face_owner _ Jb) as [Ob _]. destruct (elem_index _ Ob) as (k' & Hk' & Ek' & Ik'). rewrite Ik', Nat2Z.id, (field_at U k' _ Ek'). unfold Qdiv. ring.
    - destruct (bc fid); unfold Qdiv; ring.
  Qed.
  Definition div_part (u : vec) (id fid : Z) : Q :=
    match pair_of m fid with
    | Some b => (1 # 2) * g_area g fid / g_volume g id * flow_sum (g_normal g fid) * (u (Z.to_nat (match t_index (m_elems m) (owner m b) with Ok k => k | _ => 0%Z end)) + u (Z.to_nat (match t_index (m_elems m) id with Ok k => k | _ => 0%Z end)))
    | None => match bc fid with Some w => - (g_area g fid / g_volume g id * flow_sum (g_normal g fid) * w) | None => 0 end
    end.

  Lemma div_face_ok el fid s : (el < length ids)%nat -> In fid (faces_listed (m_elems m) (nth el ids 0%Z)) -> s_dim s = length ids ->
    exists s', div_face m g bc el (nth el ids 0%Z) s fid = Ok s' /\ s_dim s' = s_dim s /\ s_type s' = s_type s /\
      forall u k, residual s' u k == residual s u k + if Nat.eqb k el then div_part u (nth el ids 0%Z) fid else 0.
  Proof.
    intros Hel F D. destruct (elem_at el Hel) as [At I]. set (id := nth el ids 0%Z) in *. destruct (listed_face id fid I F) as [J Ow]. destruct (face_get fid J) as (f & G).
    assert (Ix : t_index (m_elems m) id = Ok (Z.of_nat el)) by (destruct M as (_ & (X & _) & _); now apply X).
    unfold div_face, div_part. rewrite Ix, Nat2Z.id. unfold pair_of. rewrite G. cbn [bind]. destruct (f_haspair f) eqn:H.
    - assert (E : pair_of m fid = Some (f_pair f)) by (unfold pair_of; rewrite G, H; reflexivity). destruct (pair_sym _ _ E) as (_ & _ & _ & Jb).
      destruct (face_get _ Jb) as (p & Gp). destruct (face_owner _ Jb) as [Ob _]. unfold owner in *. rewrite Gp in *. cbn [bind].
      destruct (elem_index _ Ob) as (k & Hk & Ek & Ik). rewrite Ik. cbn [bind]. rewrite Nat2Z.id.
      set (q := (1 # 2) * g_area g fid / g_volume g id * flow_sum (g_normal g fid)).
      destruct (addA_res s el el q ltac:(lia) ltac:(lia)) as (s1 & E1 & D1 & T1 & R1). rewrite E1. cbn [bind].
      unfold addA_at. destruct (Z.ltb_spec (Z.of_nat k) 0); [lia|]. rewrite Nat2Z.id.
      destruct (addA_res s1 el k q ltac:(lia) ltac:(lia)) as (s2 & E2 & D2 & T2 & R2). exists s2. split; [exact E2|].
      split; [congruence|]. split; [congruence|]. intros u i. rewrite R2, R1. destruct (Nat.eqb i el); ring.
    - destruct (bc fid) as [w|].
      + destruct (addB_res s el (g_area g fid / g_volume g id * flow_sum (g_normal g fid) * w) ltac:(lia)) as (s2 & E2 & D2 & T2 & R2). exists s2. split; [exact E2|].
        split; [congruence|]. split; [congruence|]. intros u i. rewrite R2. destruct (Nat.eqb i el); ring.
      + exists s. split; [reflexivity|]. split; [reflexivity|]. split; [reflexivity|]. intros u i. destruct (Nat.eqb i el); ring.
  Qed.

  Lemma divergence_residual : exists s, fvm_divergence m g bc = Ok s /\ s_dim s = length ids /\ s_type s = MT_SPARSE /\
    forall u i, (i < length ids)%nat -> residual s u i == rsum (map (div_part u (nth i ids 0%Z)) (faces_listed (m_elems m) (nth i ids 0%Z))).
  Proof.
    apply (cells_loop (div_cell m g bc) (fun u i => rsum (map (div_part u (nth i ids 0%Z)) (faces_listed (m_elems m) (nth i ids 0%Z))))).
    intros s i Hi D T. destruct (elem_at i Hi) as [At I]. unfold div_cell. rewrite At. cbn [bind]. destruct (elem_get _ I) as (e & Ge & Fe). rewrite Ge. cbn [bind].
    rewrite check_ok by (intros fid F; rewrite <- Fe in F; now apply (listed_face _ _ I)). cbn [bind]. rewrite Fe.
    apply (res_loop (div_face m g bc i (nth i ids 0%Z)) (fun u => div_part u (nth i ids 0%Z)) (length ids) MT_SPARSE i (e_faces e)); [|exact D|exact T].
    intros s0 fid F D0 T0. rewrite <- Fe in F. destruct (div_face_ok i fid s0 Hi F D0) as (s' & E & D' & T' & R). exists s'. split; [exact E|]. split; [congruence|]. split; [congruence|exact R].
  Qed.

  Lemma div_part_field U id fid : In id ids -> In fid (faces_listed (m_elems m) id) -> div_part (field m U) id fid == outflow m g bc U fid / g_volume g id.
  Proof.
    intros I F. destruct (listed_face id fid I F) as [J Ow]. unfold div_part, outflow. rewrite Ow.
    destruct (elem_index id I) as (k & Hk & Ek & Ik). rewrite Ik, Nat2Z.id, (field_at U k id Ek).
    destruct (pair_of m fid) as [b|] eqn:E.
    - destruct (pair_sym _ _ E) as (_ & _ & _ & Jb). destruct (face_owner _ Jb) as [Ob _]. destruct (elem_index _ Ob) as (k' & Hk' & Ek' & Ik'). rewrite Ik', Nat2Z.id, (field_at U k' _ Ek'). unfold Qdiv. ring.
    - destruct (bc fid); unfold Qdiv; ring.
  Qed.
End Mesh.

(** ** Sums over faces *)
Lemma rsum_perm l k : Permutation l k -> rsum l == rsum k.
Proof. induction 1; cbn [rsum fold_right] in *; unfold rsum in *; cbn [fold_right]; try lra. Qed.
Lemma rsum_flat {A B} (f : B -> Q) (h : A -> list B) l : rsum (map f (flat_map h l)) == rsum (map (fun a => rsum (map f (h a))) l).
Proof. induction l as [|a l IH]; [reflexivity|]. cbn [flat_map map]. rewrite map_app, rsum_app, IH. reflexivity. Qed.
Lemma rsum_nth (f : Z -> Q) l : sum (length l) (fun i => f (nth i l 0%Z)) == rsum (map f l).
Proof.
  induction l as [|a l IH] using rev_ind; [reflexivity|]. rewrite app_length, map_app, rsum_app. cbn [length]. rewrite Nat.add_1_r. cbn [sum]. rewrite app_nth2, Nat.sub_diag by lia. cbn [nth map rsum fold_right].
  rewrite <- IH. rewrite (sum_ext _ _ (fun i => f (nth i l 0%Z))) by (intros i Hi; rewrite app_nth1 by exact Hi; reflexivity). ring.
Qed.
Lemma rsum_scale {A} (f : A -> Q) c l : rsum (map (fun x => c * f x) l) == c * rsum (map f l).
Proof. induction l as [|a l IH]; unfold rsum in *; cbn [map fold_right]; [ring|]. rewrite IH. ring. Qed.
Lemma rsum_nonpos {A} (f : A -> Q) l : (forall x, In x l -> f x <= 0) -> rsum (map f l) <= 0.
Proof. induction l as [|a l IH]; intros H; unfold rsum in *; cbn [map fold_right]; [lra|]. specialize (IH (fun x I => H x (or_intror I))). specialize (H a (or_introl eq_refl)). lra. Qed.
Lemma rsum_filter {A} (f : A -> Q) p l : rsum (map f l) == rsum (map f (filter p l)) + rsum (map f (filter (fun x => negb (p x)) l)).
Proof. induction l as [|a l IH]; [reflexivity|]. cbn [filter]. destruct (p a); cbn [negb]; unfold rsum in *; cbn [map fold_right]; rewrite IH; ring. Qed.
Lemma rsum_add {A} (f h : A -> Q) l : rsum (map (fun x => f x + h x) l) == rsum (map f l) + rsum (map h l).
Proof. induction l as [|a l IH]; unfold rsum in *; cbn [map fold_right]; [ring|]. rewrite IH. ring. Qed.

(** Summation over an involution. *)
Lemma rsum_involution (f : Z -> Q) (p : Z -> Z) l : NoDup l -> (forall a, In a l -> In (p a) l /\ p (p a) = a) -> rsum (map f l) == rsum (map (fun a => f (p a)) l).
Proof.
  intros N P. rewrite <- (map_map p f). apply rsum_perm, Permutation_map, NoDup_Permutation; [exact N| |].
  - clear f. assert (Q : forall a b, In a l -> In b l -> p a = p b -> a = b) by (intros a b Ia Ib E; rewrite <- (proj2 (P a Ia)), <- (proj2 (P b Ib)); now rewrite E). clear P.
    induction N as [|a l Na N IH]; [constructor|]. cbn [map]. constructor.
    + intros I. apply in_map_iff in I. destruct I as (b & E & Ib). apply Na. rewrite <- (Q b a); [exact Ib|now right|now left|exact E].
    + apply IH. intros x y Ix Iy. apply Q; now right.
  - intros a. split.
    + intros I. apply in_map_iff. exists (p a). split; apply P; exact I.
    + intros I. apply in_map_iff in I. destruct I as (b & <- & Ib). apply P. exact Ib.
Qed.

Definition mate (m : mesh) (a : Z) : Z := match pair_of m a with Some b => b | None => a end.
Definition paired (m : mesh) (a : Z) : bool := match pair_of m a with Some _ => true | None => false end.

Lemma paired_involution m : cells_ok m -> let l := filter (paired m) (t_ids (m_faces m)) in
  NoDup l /\ forall a, In a l -> In (mate m a) l /\ mate m (mate m a) = a.
Proof.
  intros M l. split; [apply NoDup_filter, M|]. intros a I. apply filter_In in I. destruct I as [I P]. unfold paired in P. destruct (pair_of m a) as [b|] eqn:E; [|discriminate].
  destruct (pair_sym m M _ _ E) as (_ & Eb & _ & Jb). unfold mate at 1 3. rewrite E. split.
  - apply filter_In. split; [exact Jb|]. unfold paired. now rewrite Eb.
  - unfold mate. now rewrite Eb.
Qed.

(** A weighted sum over all cells as a sum over all faces. *)
Lemma cells_to_faces m (M : cells_ok m) (F : Z -> Q) : sum (length (t_ids (m_elems m))) (fun i => rsum (map F (faces_listed (m_elems m) (nth i (t_ids (m_elems m)) 0%Z)))) == rsum (map F (t_ids (m_faces m))).
Proof.
  rewrite (rsum_nth (fun id => rsum (map F (faces_listed (m_elems m) id)))). rewrite <- rsum_flat. apply rsum_perm, Permutation_map. apply M.
Qed.

Lemma inflow_mate m g bc U a b : cells_ok m -> matching m g -> pair_of m a = Some b -> inflow m g bc U b == - inflow m g bc U a.
Proof.
  intros M [Ma Md] E. destruct (pair_sym m M _ _ E) as (_ & Eb & _ & _). unfold inflow. rewrite E, Eb. rewrite (Md (owner m a) (owner m b)), (Ma a b) by (now apply pair_of_spec). unfold Qdiv. ring.
Qed.

(** ** Implicit heat steps *)
Lemma heat_residual c alpha m g bc u : cells_ok m -> exists s, fvm_heat c alpha m g bc u = Ok s /\ s_dim s = length (t_ids (m_elems m)) /\ s_type s = MT_SPARSE /\
  forall x i, (i < length (t_ids (m_elems m)))%nat -> let id := nth i (t_ids (m_elems m)) 0%Z in
    residual s x i == c * (x i - match first_fixed bc (faces_listed (m_elems m) id) with Some v => v | None => u i end) - alpha * rsum (map (lap_part m g bc x id) (faces_listed (m_elems m) id)).
Proof.
  intros M. unfold fvm_heat. destruct (ddt_residual m M bc u) as (d & Ed & Dd & Td & Rd). destruct (laplacian_residual m M g bc) as (l & El & Dl & Tl & Rl). rewrite Ed, El. cbn [bind].
  unfold sys_sub. cbn [sys_scale s_dim]. rewrite Dd, Dl, Nat.eqb_refl. cbn [bind]. eexists. split; [reflexivity|]. cbn [assign_real sys_scale s_dim s_type]. split; [reflexivity|]. split; [rewrite Td, Tl; reflexivity|].
  intros x i Hi. pose proof (Rd x i Hi) as R1. pose proof (Rl x i Hi) as R2. cbv zeta in R1, R2. rewrite <- R1, <- R2. unfold residual, row. cbn [assign_real sys_scale s_dim s_A s_b]. rewrite Dd, Dl.
  rewrite (sum_ext _ _ (fun j => c * (s_A d i j * x j) - alpha * (s_A l i j * x j))) by (intros; ring). rewrite sum_sub, !sum_scale. ring.
Qed.

Lemma lap_part_max m g bc x i hi fid : cells_ok m -> positive m g -> (i < length (t_ids (m_elems m)))%nat ->
  (forall j, (j < length (t_ids (m_elems m)))%nat -> x j <= x i) -> (forall f w, bc f = Some w -> w <= hi) -> hi <= x i ->
  In fid (faces_listed (m_elems m) (nth i (t_ids (m_elems m)) 0%Z)) -> lap_part m g bc x (nth i (t_ids (m_elems m)) 0%Z) fid <= 0.
Proof.
  intros M (Pv & Pf & Pd) Hi Mx B Hx F. destruct (elem_at m i Hi) as [At I]. set (id := nth i (t_ids (m_elems m)) 0%Z) in *. destruct (listed_face m M id fid I F) as [J Ow].
  assert (Ix : t_index (m_elems m) id = Ok (Z.of_nat i)) by (destruct M as (_ & (X & _) & _); now apply X). unfold lap_part. rewrite Ix, Nat2Z.id. destruct (Pf fid J) as [Pa Pw]. rewrite Ow in Pw. pose proof (Pv id I) as PV.
  destruct (pair_of m fid) as [b|] eqn:E.
  - assert (D := Pd fid b (proj1 (pair_of_spec m fid b) E)). rewrite Ow in D. destruct (pair_sym m M _ _ E) as (_ & _ & _ & Jb). destruct (face_owner m M _ Jb) as [Ob _].
    destruct (elem_index m M _ Ob) as (k & Hk & _ & Ik). rewrite Ik, Nat2Z.id. specialize (Mx k Hk).
    assert (Q : 0 <= g_area g fid / g_cells g (owner m b) id / g_volume g id) by (apply Qle_shift_div_l; [lra|]; rewrite Qmult_0_l; apply Qle_shift_div_l; lra).
    set (q := g_area g fid / g_cells g (owner m b) id / g_volume g id) in *. clearbody q. nra.
  - destruct (bc fid) as [w|] eqn:Bf; [|lra]. specialize (B fid w Bf).
    assert (Q : 0 <= g_area g fid / g_wall g fid id / g_volume g id) by (apply Qle_shift_div_l; [lra|]; rewrite Qmult_0_l; apply Qle_shift_div_l; lra).
    set (q := g_area g fid / g_wall g fid id / g_volume g id) in *. clearbody q. nra.
Qed.

Lemma first_fixed_in bc l v : first_fixed bc l = Some v -> exists f, bc f = Some v.
Proof. induction l as [|f l IH]; cbn; [discriminate|]. destruct (bc f) as [w|] eqn:E; [intros H; injection H as ->; now exists f|exact IH]. Qed.

Lemma fvm_max c alpha m g bc u s x hi : cells_ok m -> positive m g -> 0 < c -> 0 <= alpha -> fvm_heat c alpha m g bc u = Ok s -> solves s x ->
  (forall f w, bc f = Some w -> w <= hi) -> (forall i, (i < length (t_ids (m_elems m)))%nat -> u i <= hi) -> forall i, (i < length (t_ids (m_elems m)))%nat -> x i <= hi.
Proof.
  intros M P Hc Ha E Sv B U i Hi. set (n := length (t_ids (m_elems m))) in *. destruct (argmax x n ltac:(lia)) as (k & Hk & Mx).
  assert (G : x k <= hi); [|specialize (Mx i Hi); lra]. destruct (Qlt_le_dec hi (x k)) as [L|L]; [exfalso|exact L].
  destruct (heat_residual c alpha m g bc u M) as (s' & E' & D & _ & R). rewrite E in E'. injection E' as <-. specialize (R x k Hk). cbv zeta in R.
  assert (Z : residual s x k == 0) by (unfold residual; rewrite (Sv k ltac:(rewrite D; exact Hk)); ring). rewrite Z in R. clear Z.
  assert (S : rsum (map (lap_part m g bc x (nth k (t_ids (m_elems m)) 0%Z)) (faces_listed (m_elems m) (nth k (t_ids (m_elems m)) 0%Z))) <= 0).
  { apply rsum_nonpos. intros fid F. apply (lap_part_max m g bc x k hi fid M P Hk Mx B ltac:(lra) F). }
  set (q := rsum _) in *. clearbody q.
  assert (O : match first_fixed bc (faces_listed (m_elems m) (nth k (t_ids (m_elems m)) 0%Z)) with Some v => v | None => u k end <= hi).
  { destruct (first_fixed bc _) as [v|] eqn:F; [destruct (first_fixed_in _ _ _ F) as (f & Bf); exact (B f v Bf)|exact (U k Hk)]. }
  set (o := match first_fixed bc _ with Some v => v | None => u k end) in *. clearbody o. nra.
Qed.

(** Negating all values. *)
Definition bneg (bc : bcs) : bcs := fun f => match bc f with Some w => Some (- w) | None => None end.
Lemma lap_part_neg m g bc x id fid : lap_part m g (bneg bc) (fun i => - x i) id fid == - lap_part m g bc x id fid.
Proof. unfold lap_part, bneg. destruct (pair_of m fid); [ring|]. destruct (bc fid); ring. Qed.
Lemma first_fixed_neg bc l : first_fixed (bneg bc) l = match first_fixed bc l with Some v => Some (- v) | None => None end.
Proof. induction l as [|f l IH]; [reflexivity|]. cbn [first_fixed]. unfold bneg at 1. destruct (bc f); [reflexivity|exact IH]. Qed.

Lemma fvm_neg c alpha m g bc u s x : cells_ok m -> fvm_heat c alpha m g bc u = Ok s -> solves s x ->
  exists t, fvm_heat c alpha m g (bneg bc) (fun i => - u i) = Ok t /\ solves t (fun i => - x i).
Proof.
  intros M E Sv. destruct (heat_residual c alpha m g bc u M) as (s' & E' & D & _ & R). rewrite E in E'. injection E' as <-.
  destruct (heat_residual c alpha m g (bneg bc) (fun i => - u i) M) as (t & Et & Dt & _ & Rt). exists t. split; [exact Et|]. intros i Hi. rewrite Dt in Hi.
  specialize (R x i Hi). specialize (Rt (fun i => - x i) i Hi). cbv zeta in R, Rt. set (id := nth i (t_ids (m_elems m)) 0%Z) in *.
  assert (Z : residual s x i == 0) by (unfold residual; rewrite (Sv i ltac:(rewrite D; exact Hi)); ring). rewrite Z in R.
  rewrite (rsum_ext _ (fun fid => - (1) * lap_part m g bc x id fid)) in Rt by (intros; rewrite lap_part_neg; ring). rewrite rsum_scale, first_fixed_neg in Rt.
  unfold residual in Rt. set (q := rsum _) in *. clearbody q. destruct (first_fixed bc (faces_listed (m_elems m) id)); lra.
Qed.

Lemma fvm_min c alpha m g bc u s x lo : cells_ok m -> positive m g -> 0 < c -> 0 <= alpha -> fvm_heat c alpha m g bc u = Ok s -> solves s x ->
  (forall f w, bc f = Some w -> lo <= w) -> (forall i, (i < length (t_ids (m_elems m)))%nat -> lo <= u i) -> forall i, (i < length (t_ids (m_elems m)))%nat -> lo <= x i.
Proof.
  intros M P Hc Ha E Sv B U i Hi. destruct (fvm_neg c alpha m g bc u s x M E Sv) as (t & Et & St).
  assert (G : - x i <= - lo); [|lra]. apply (fvm_max c alpha m g (bneg bc) _ t _ (- lo) M P Hc Ha Et St); [| |exact Hi].
  - intros f w F. unfold bneg in F. destruct (bc f) as [v|] eqn:Bf; [|discriminate]. injection F as <-. specialize (B f v Bf). lra.
  - intros k Hk. specialize (U k Hk). lra.
Qed.

(** The homogeneous system. *)
Definition bzero (bc : bcs) : bcs := fun f => match bc f with Some _ => Some 0 | None => None end.
Lemma first_fixed_zero bc l : match first_fixed (bzero bc) l with Some v => v | None => 0 end = 0.
Proof. induction l as [|f l IH]; [reflexivity|]. cbn [first_fixed]. unfold bzero at 1. destruct (bc f); [reflexivity|exact IH]. Qed.
Lemma fvm_homogeneous c alpha m g bc u s : cells_ok m -> fvm_heat c alpha m g bc u = Ok s ->
  exists t, fvm_heat c alpha m g (bzero bc) (fun _ => 0) = Ok t /\ forall x, (forall i, (i < s_dim s)%nat -> row s x i == 0) -> solves t x.
Proof.
  intros M E. destruct (heat_residual c alpha m g bc u M) as (s' & E' & D & _ & R). rewrite E in E'. injection E' as <-.
  destruct (heat_residual c alpha m g (bzero bc) (fun _ => 0) M) as (t & Et & Dt & _ & Rt). exists t. split; [exact Et|]. intros x X i Hi. rewrite Dt in Hi. specialize (X i ltac:(now rewrite D)).
  pose proof (R x i Hi) as R1. pose proof (R (fun _ => 0) i Hi) as R0. specialize (Rt x i Hi). cbv zeta in R1, R0, Rt. set (id := nth i (t_ids (m_elems m)) 0%Z) in *.
  rewrite first_fixed_zero in Rt.
  rewrite (rsum_ext (lap_part m g (bzero bc) x id) (fun fid => lap_part m g bc x id fid - lap_part m g bc (fun _ => 0) id fid)) in Rt.
  - rewrite rsum_sub in Rt. unfold residual in *. rewrite X in R1.
    assert (Z : row s (fun _ => 0) i == 0) by (unfold row; apply sum_zero; intros; ring). rewrite Z in R0.
    set (q1 := rsum (map (lap_part m g bc x id) _)) in *. set (q2 := rsum (map (lap_part m g bc (fun _ => 0) id) _)) in *.
    assert (Q1 : rsum (map (fun fid => lap_part m g bc x id fid) (faces_listed (m_elems m) id)) == q1) by reflexivity. clearbody q1 q2.
    set (o := match first_fixed bc _ with Some v => v | None => u i end) in *. clearbody o. clear - Rt R1 R0. lra.
  - intros fid _. unfold lap_part, bzero. destruct (pair_of m fid); [ring|]. destruct (bc fid); ring.
Qed.
