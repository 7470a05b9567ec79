(** Properties C45, C54, C70 and C71: finite volumes. *)
From Coq Require Import QArith ZArith List Lia Lqa Bool Permutation Setoid.
From Verif Require Import Prelude Vec ZMap Mesh_Model Mesh_Spec Mesh_Proofs Face_Model Face_Spec Poly_Model Poly_Proofs Lin_Sum Lin_Exist Lin_Model Lin_Spec Lin_Proofs Fdm_Model Fdm_Proofs Fvm_Model Fvm_Spec Fvm_Proofs Fvm_Set.
Import ListNotations.
Open Scope Q_scope.

(** Two beam cells in a row: nodes 0, 1, 2; the faces 1 and 2 are paired; the right end is face 3. *)
Definition two_cells : mesh :=
  Mesh (t_add (t_add (t_add t_empty 0 (Coord 0 0 0)) 1 (Coord 1 0 0)) 2 (Coord 2 0 0))
       (t_add (t_add (t_add (t_add t_empty 0 (Face FT_POINT [0%Z] false 0 7)) 1 (Face FT_POINT [1%Z] true 2 7)) 2 (Face FT_POINT [1%Z] true 1 8)) 3 (Face FT_POINT [2%Z] false 0 8))
       (t_add (t_add t_empty 7 (Element ET_BEAM [0; 1]%Z [0; 1]%Z)) 8 (Element ET_BEAM [1; 2]%Z [2; 3]%Z)).
Definition unit_geo : geometry := Geo (fun _ => 1) (fun _ => Coord 1 0 0) (fun _ => 1) (fun _ _ => 1) (fun _ _ => 1 # 2).

Lemma two_cells_ok : cells_ok two_cells.
Proof.
  assert (W : forall (A : Type) (t : table A) ps, NoDup (map fst ps) -> run (map (fun p => Add (fst p) (snd p)) ps) = Ok t -> wf_table t /\ indexed t).
  { intros A t ps N E. assert (R := run_adds ps N). unfold adds in R. destruct R as (t' & E' & R). rewrite E in E'. injection E' as <-. split; [exact (repr_wf _ _ R)|]. destruct (repr_adds_facts _ _ R) as (I & F & Z & _). split.
    - intros i id H. unfold t_id in H. apply vec_at_Ok in H. destruct H as [H0 H]. rewrite I in H. rewrite nth_error_map in H. destruct (nth_error ps (Z.to_nat i)) as [[k v]|] eqn:X; [|discriminate]. cbn in H. injection H as ->.
      destruct (F _ _ _ X) as (_ & Y & _). rewrite Z2Nat.id in Y by exact H0. exact Y.
    - intros id H. rewrite I in H. now apply Z. }
  assert (Wn : wf_table (m_nodes two_cells)) by (apply (W _ _ [(0, Coord 0 0 0); (1, Coord 1 0 0); (2, Coord 2 0 0)]%Z); [repeat constructor; cbn; intuition discriminate|reflexivity]).
  assert (Wf : wf_table (m_faces two_cells)).
  { apply (W _ _ [(0, Face FT_POINT [0] false 0 7); (1, Face FT_POINT [1] true 2 7); (2, Face FT_POINT [1] true 1 8); (3, Face FT_POINT [2] false 0 8)]%Z); [repeat constructor; cbn; intuition discriminate|reflexivity]. }
  assert (We : wf_table (m_elems two_cells) /\ indexed (m_elems two_cells)).
  { apply (W _ _ [(7, Element ET_BEAM [0; 1] [0; 1]); (8, Element ET_BEAM [1; 2] [2; 3])]%Z); [repeat constructor; cbn; intuition discriminate|reflexivity]. }
  assert (Fi : forall a f, t_get (m_faces two_cells) a = Ok f -> (a = 0 \/ a = 1 \/ a = 2 \/ a = 3)%Z).
  { intros a f G. assert (I : In a (t_ids (m_faces two_cells))). { destruct Wf as (_ & _ & X). apply X. apply zat_Ok in G. unfold t_get in G. rewrite G. discriminate. } cbn in I. intuition. }
  assert (Ei : forall a f, t_get (m_elems two_cells) a = Ok f -> (a = 7 \/ a = 8)%Z).
  { intros a f G. assert (I : In a (t_ids (m_elems two_cells))). { destruct We as ((_ & _ & X) & _). apply X. apply zat_Ok in G. unfold t_get in G. rewrite G. discriminate. } cbn in I. intuition. }
  split; [split; [exact Wn|split; [exact Wf|apply We]]|]. split; [apply We|]. split; [split|].
  - intros a e G. destruct (Ei a e G) as [-> | ->]; injection G as <-; repeat apply Forall_cons; try apply Forall_nil; cbn; auto.
  - intros a e G. destruct (Fi a e G) as [-> |[-> |[-> | ->]]]; injection G as <-; repeat apply Forall_cons; try apply Forall_nil; cbn; auto.
  - split; [reflexivity|]. split.
    + intros id fid f I1 I2 G. cbn in I1. destruct I1 as [<-|[<-|[]]]; cbn in I2; destruct I2 as [<-|[<-|[]]]; injection G as <-; reflexivity.
    + intros a b (f & G & H & <-). destruct (Fi a f G) as [-> |[-> |[-> | ->]]]; injection G as <-; try discriminate H; (split; [discriminate|eexists; split; [reflexivity|split; reflexivity]]).
Qed.

(** ** C45 *)
(** The operator is defined, and applied to any field it gives in each element the net inflow through its faces divided by the volume. *)
Theorem C45_balance : forall m g bc, cells_ok m ->
  exists s, fvm_laplacian m g bc = Ok s /\ s_dim s = length (t_ids (m_elems m)) /\
    forall U i, (i < length (t_ids (m_elems m)))%nat -> let id := nth i (t_ids (m_elems m)) 0%Z in
      residual s (field m U) i == rsum (map (inflow m g bc U) (faces_listed (m_elems m) id)) / g_volume g id.
Proof.
  intros m g bc M. destruct (laplacian_residual m M g bc) as (s & E & D & _ & R). exists s. split; [exact E|]. split; [exact D|]. intros U i Hi id. rewrite (R _ i Hi). fold id.
  destruct (elem_at m i Hi) as [_ I]. fold id in I. rewrite (rsum_ext _ (fun fid => / g_volume g id * inflow m g bc U fid)).
  - rewrite rsum_scale. unfold Qdiv. ring.
  - intros fid F. rewrite (lap_part_field m M g bc U id fid I F). unfold Qdiv. ring.
Qed.
Print Assumptions C45_balance.

(** Constant fields are in the kernel, also when prescribed on the boundary. *)
Theorem C45_constants : forall m g bc c s, cells_ok m -> fvm_laplacian m g bc = Ok s ->
  (forall fid w, bc fid = Some w -> w == c) ->
  forall i, (i < s_dim s)%nat -> residual s (fun _ => c) i == 0.
Proof.
  intros m g bc c s M E B i Hi. destruct (C45_balance m g bc M) as (s' & E' & D & R). rewrite E in E'. injection E' as <-. rewrite D in Hi.
  specialize (R (fun _ => c) i Hi). cbv zeta in R. change (field m (fun _ => c)) with (fun _ : nat => c) in R. rewrite R.
  assert (Z : rsum (map (inflow m g bc (fun _ => c)) (faces_listed (m_elems m) (nth i (t_ids (m_elems m)) 0%Z))) == 0); [|rewrite Z; unfold Qdiv; ring].
  rewrite (rsum_ext _ (fun _ => 0 * 0)); [rewrite rsum_scale; ring|]. intros fid _. unfold inflow. destruct (pair_of m fid); [unfold Qdiv; ring|]. destruct (bc fid) as [w|] eqn:F; [rewrite (B fid w F); unfold Qdiv|]; ring.
Qed.
Print Assumptions C45_constants.

Definition total (m : mesh) (g : geometry) (F : nat -> Q) : Q := sum (length (t_ids (m_elems m))) (fun i => g_volume g (nth i (t_ids (m_elems m)) 0%Z) * F i).

Lemma total_faces m g bc s U (W : Z -> Q) : cells_ok m -> positive m g -> fvm_laplacian m g bc = Ok s ->
  total m g (fun i => W (nth i (t_ids (m_elems m)) 0%Z) * residual s (field m U) i) == rsum (map (fun fid => W (owner m fid) * inflow m g bc U fid) (t_ids (m_faces m))).
Proof.
  intros M (Pv & _) E. destruct (C45_balance m g bc M) as (s' & E' & D & R). rewrite E in E'. injection E' as <-. rewrite <- (cells_to_faces m M). unfold total. apply sum_ext. intros i Hi.
  rewrite (R U i Hi). set (id := nth i (t_ids (m_elems m)) 0%Z). destruct (elem_at m i Hi) as [_ I]. fold id in I. specialize (Pv id I).
  rewrite (rsum_ext (fun fid => W (owner m fid) * inflow m g bc U fid) (fun fid => W id * inflow m g bc U fid)).
  - rewrite rsum_scale. field. lra.
  - intros fid F. destruct (listed_face m M id fid I F) as [_ ->]. reflexivity.
Qed.

(** Conservation: weighted by the volumes, what remains of the sum over all elements is the flow through the boundary. *)
Theorem C45_conservation : forall m g bc s U, cells_ok m -> matching m g -> positive m g -> fvm_laplacian m g bc = Ok s ->
  total m g (residual s (field m U)) ==
  rsum (map (fun fid => match bc fid with Some w => g_area g fid / g_wall g fid (owner m fid) * (w - U (owner m fid)) | None => 0 end)
            (filter (fun fid => negb (paired m fid)) (t_ids (m_faces m)))).
Proof.
  intros m g bc s U M Ma P E. assert (T : total m g (residual s (field m U)) == total m g (fun i => (fun _ => 1) (nth i (t_ids (m_elems m)) 0%Z) * residual s (field m U) i)) by (unfold total; apply sum_ext; intros; ring).
  rewrite T, (total_faces m g bc s U (fun _ => 1) M P E), (rsum_filter _ (paired m)).
  destruct (paired_involution m M) as [N I].
  assert (Z : rsum (map (fun fid => 1 * inflow m g bc U fid) (filter (paired m) (t_ids (m_faces m)))) == 0).
  { assert (X := rsum_involution (fun fid => 1 * inflow m g bc U fid) (mate m) _ N I).
    rewrite (rsum_ext (fun a => 1 * inflow m g bc U (mate m a)) (fun a => - (1) * (1 * inflow m g bc U a))) in X; [rewrite (rsum_scale (fun a => 1 * inflow m g bc U a) (- (1))) in X; lra|].
    intros a Ia. apply filter_In in Ia. destruct Ia as [_ Pa]. unfold paired in Pa. unfold mate. destruct (pair_of m a) as [b|] eqn:F; [|discriminate]. rewrite (inflow_mate m g bc U a b M Ma F). ring. }
  rewrite Z, Qplus_0_l. apply rsum_ext. intros fid F. apply filter_In in F. destruct F as [_ F]. unfold paired in F. unfold inflow. destruct (pair_of m fid); [discriminate|]. ring.
Qed.
Print Assumptions C45_conservation.

(** Dissipation and symmetry: with nothing prescribed the operator is symmetric and negative semidefinite with respect to the volume-weighted product. *)
Theorem C45_dissipation : forall m g s U W, cells_ok m -> matching m g -> positive m g -> fvm_laplacian m g (fun _ => None) = Ok s ->
  total m g (fun i => field m U i * residual s (field m U) i) <= 0 /\
  total m g (fun i => field m W i * residual s (field m U) i) == total m g (fun i => field m U i * residual s (field m W) i).
Proof.
  intros m g s U W M Ma P E. destruct (paired_involution m M) as [N I].
  assert (K : forall U W, total m g (fun i => field m W i * residual s (field m U) i) ==
    - (1 # 2) * rsum (map (fun a => g_area g a / g_cells g (owner m (mate m a)) (owner m a) * (U (owner m (mate m a)) - U (owner m a)) * (W (owner m (mate m a)) - W (owner m a))) (filter (paired m) (t_ids (m_faces m))))).
  { clear U W. intros U W. unfold field at 1. rewrite (total_faces m g _ s U W M P E). rewrite (rsum_filter _ (paired m)).
    assert (Z : rsum (map (fun fid => W (owner m fid) * inflow m g (fun _ => None) U fid) (filter (fun x => negb (paired m x)) (t_ids (m_faces m)))) == 0).
    { rewrite (rsum_ext _ (fun _ => 0 * 0)); [rewrite rsum_scale; ring|]. intros fid F. apply filter_In in F. destruct F as [_ F]. unfold paired in F. unfold inflow. destruct (pair_of m fid); [discriminate|]. ring. }
    rewrite Z, Qplus_0_r. assert (X := rsum_involution (fun fid => W (owner m fid) * inflow m g (fun _ => None) U fid) (mate m) _ N I). cbv beta in X.
    assert (Y : rsum (map (fun fid => W (owner m fid) * inflow m g (fun _ => None) U fid) (filter (paired m) (t_ids (m_faces m)))) + rsum (map (fun a => W (owner m (mate m a)) * inflow m g (fun _ => None) U (mate m a)) (filter (paired m) (t_ids (m_faces m)))) ==
      - (1) * rsum (map (fun a => g_area g a / g_cells g (owner m (mate m a)) (owner m a) * (U (owner m (mate m a)) - U (owner m a)) * (W (owner m (mate m a)) - W (owner m a))) (filter (paired m) (t_ids (m_faces m))))).
    { rewrite <- rsum_add, <- rsum_scale. apply rsum_ext. intros a Ia. apply filter_In in Ia. destruct Ia as [_ Pa]. unfold paired in Pa. unfold mate. destruct (pair_of m a) as [b|] eqn:F; [|discriminate].
      rewrite (inflow_mate m g _ U a b M Ma F). unfold inflow. rewrite F. ring. }
    lra. }
  split.
  - rewrite (K U U). assert (X : rsum (map (fun a => - (1) * (g_area g a / g_cells g (owner m (mate m a)) (owner m a) * (U (owner m (mate m a)) - U (owner m a)) * (U (owner m (mate m a)) - U (owner m a)))) (filter (paired m) (t_ids (m_faces m)))) <= 0).
    { apply rsum_nonpos. intros a Ia. apply filter_In in Ia. destruct Ia as [Ja Pa]. unfold paired in Pa. unfold mate. destruct (pair_of m a) as [b|] eqn:F; [|discriminate].
      destruct P as (_ & Pa' & Pd). destruct (Pa' a Ja) as [Aa _]. assert (Dd := Pd a b (proj1 (pair_of_spec m a b) F)).
      assert (Q : 0 < g_area g a / g_cells g (owner m b) (owner m a)) by (apply Qlt_shift_div_l; lra). set (q := g_area g a / g_cells g (owner m b) (owner m a)) in *. clearbody q. set (d := U (owner m b) - U (owner m a)). clearbody d. destruct (Qlt_le_dec d 0); nra. }
    rewrite rsum_scale in X. lra.
  - rewrite (K U W), (K W U). assert (X : forall l, rsum (map (fun a => g_area g a / g_cells g (owner m (mate m a)) (owner m a) * (U (owner m (mate m a)) - U (owner m a)) * (W (owner m (mate m a)) - W (owner m a))) l) ==
      rsum (map (fun a => g_area g a / g_cells g (owner m (mate m a)) (owner m a) * (W (owner m (mate m a)) - W (owner m a)) * (U (owner m (mate m a)) - U (owner m a))) l)) by (intros l; apply rsum_ext; intros; ring).
    rewrite X. reflexivity.
Qed.
Print Assumptions C45_dissipation.

Example C45_case : cells_ok two_cells /\ matching two_cells unit_geo /\ positive two_cells unit_geo /\
  exists s, fvm_laplacian two_cells unit_geo (fun f => if Z.eqb f 3 then Some 5 else None) = Ok s /\
    residual s (field two_cells (fun id => if Z.eqb id 7 then 1 else 2)) 0 == 1 /\ residual s (field two_cells (fun id => if Z.eqb id 7 then 1 else 2)) 1 == 5.
Proof.
  split; [exact two_cells_ok|]. split; [split; intros; reflexivity|]. split; [split; [|split]; intros; try split; reflexivity|].
  destruct (C45_balance two_cells unit_geo (fun f => if Z.eqb f 3 then Some 5 else None) two_cells_ok) as (s & E & _ & R). exists s. split; [exact E|]. rewrite !R by (cbn; lia). split; vm_compute; reflexivity.
Qed.

(** ** C70 *)
(** The implicit step: the system is defined and has exactly one solution, which stays within the bounds of the old field and the prescribed values. *)
Theorem C70_step : forall c alpha m g bc u, cells_ok m -> positive m g -> 0 < c -> 0 <= alpha ->
  exists s x, fvm_heat c alpha m g bc u = Ok s /\ s_dim s = length (t_ids (m_elems m)) /\ solves s x /\
    (forall y, solves s y -> forall i, (i < s_dim s)%nat -> y i == x i).
Proof.
  intros c alpha m g bc u M P Hc Ha. destruct (heat_residual c alpha m g bc u M) as (s & E & D & _ & _). destruct (fvm_homogeneous c alpha m g bc u s M E) as (t & Et & H).
  assert (K : forall x, (forall i, (i < s_dim s)%nat -> row s x i == 0) -> forall i, (i < s_dim s)%nat -> x i == 0).
  { intros x X i Hi. specialize (H x X). rewrite D in Hi.
    assert (B : forall f w, bzero bc f = Some w -> w == 0) by (intros f w F; unfold bzero in F; destruct (bc f); [injection F as <-; reflexivity|discriminate]).
    apply Qle_antisym.
    - apply (fvm_max c alpha m g (bzero bc) (fun _ => 0) t x 0 M P Hc Ha Et H); [intros f w F; rewrite (B f w F); lra|intros; lra|exact Hi].
    - apply (fvm_min c alpha m g (bzero bc) (fun _ => 0) t x 0 M P Hc Ha Et H); [intros f w F; rewrite (B f w F); lra|intros; lra|exact Hi]. }
  destruct (square_solvable (s_dim s) (s_A s) K (s_b s)) as (x & X). exists s, x. split; [exact E|]. split; [exact D|]. split; [exact X|].
  intros y Y i Hi. assert (G : y i - x i == 0); [|lra]. apply (K (fun i => y i - x i)); [|exact Hi]. clear i Hi. intros i Hi. unfold row.
  rewrite (sum_ext _ _ (fun j => s_A s i j * y j - s_A s i j * x j)) by (intros; ring). rewrite sum_sub. specialize (X i Hi). specialize (Y i Hi). unfold row in Y. rewrite Y, X. ring.
Qed.
Print Assumptions C70_step.

Theorem C70_bounds : forall c alpha m g bc u s x lo hi, cells_ok m -> positive m g -> 0 < c -> 0 <= alpha ->
  fvm_heat c alpha m g bc u = Ok s -> solves s x ->
  (forall f w, bc f = Some w -> lo <= w <= hi) -> (forall i, (i < length (t_ids (m_elems m)))%nat -> lo <= u i <= hi) ->
  forall i, (i < length (t_ids (m_elems m)))%nat -> lo <= x i <= hi.
Proof.
  intros c alpha m g bc u s x lo hi M P Hc Ha E Sv B U i Hi. split.
  - apply (fvm_min c alpha m g bc u s x lo M P Hc Ha E Sv); [intros f w F; apply (B f w F)|intros k Hk; apply (U k Hk)|exact Hi].
  - apply (fvm_max c alpha m g bc u s x hi M P Hc Ha E Sv); [intros f w F; apply (B f w F)|intros k Hk; apply (U k Hk)|exact Hi].
Qed.
Print Assumptions C70_bounds.

(** One time step as users run it: build the equation from the field, solve it exactly, store the result in the field. *)
Definition fvm_time_step (c alpha : Q) (m : mesh) (g : geometry) (bc : bcs) (u u' : vec) : Prop :=
  exists junk lin s, fvm_heat c alpha m g bc u = Ok s /\ solves s (lin s) /\ eq_solve junk lin [] (eqn_of s) = Ok (length (t_ids (m_elems m)), u').

Theorem C70_all_steps : forall c alpha m g bc lo hi (us : nat -> vec), cells_ok m -> positive m g -> 0 < c -> 0 <= alpha ->
  (forall f w, bc f = Some w -> lo <= w <= hi) -> (forall i, (i < length (t_ids (m_elems m)))%nat -> lo <= us 0%nat i <= hi) ->
  (forall k, fvm_time_step c alpha m g bc (us k) (us (S k))) ->
  forall k i, (i < length (t_ids (m_elems m)))%nat -> lo <= us k i <= hi.
Proof.
  intros c alpha m g bc lo hi us M P Hc Ha B U St k. induction k as [|k IH]; [exact U|]. intros i Hi.
  destruct (St k) as (junk & lin & s & E & Sv & Q). destruct (heat_residual c alpha m g bc (us k) M) as (s' & E' & D & T & _). rewrite E in E'. injection E' as <-.
  unfold eq_solve in Q. cbn [eqn_of e_sys e_elim] in Q. unfold sle_solve in Q. rewrite T, D in Q. cbn in Q. injection Q as Q. rewrite <- Q.
  exact (C70_bounds c alpha m g bc (us k) s (lin s) lo hi M P Hc Ha E Sv B IH i Hi).
Qed.
Print Assumptions C70_all_steps.

Theorem C70_step_exists : forall c alpha m g bc u, cells_ok m -> positive m g -> 0 < c -> 0 <= alpha -> exists u', fvm_time_step c alpha m g bc u u'.
Proof.
  intros c alpha m g bc u M P Hc Ha. destruct (C70_step c alpha m g bc u M P Hc Ha) as (s & x & E & D & Sv & _). exists x.
  destruct (heat_residual c alpha m g bc u M) as (s' & E' & _ & T & _). rewrite E in E'. injection E' as <-.
  exists (fun _ => 0), (fun _ => x), s. split; [exact E|]. split; [exact Sv|]. unfold eq_solve. cbn [eqn_of e_sys e_elim]. unfold sle_solve. rewrite T, D. reflexivity.
Qed.
Print Assumptions C70_step_exists.

(** But an element with a prescribed face forgets its own value: without any diffusion the old field should be kept, and is not. *)
Theorem C70_old_value_refuted : exists c m g bc u s x, cells_ok m /\ positive m g /\ 0 < c /\ fvm_heat c 0 m g bc u = Ok s /\ solves s x /\ ~ x 1%nat == u 1%nat.
Proof.
  set (bc := fun f => if Z.eqb f 3 then Some 5 else None).
  assert (P : positive two_cells unit_geo) by (split; [|split]; intros; try split; reflexivity).
  destruct (C70_step 1 0 two_cells unit_geo bc (fun _ => 0) two_cells_ok P) as (s & x & E & D & Sv & _); [lra|lra|].
  exists 1, two_cells, unit_geo, bc, (fun _ => 0), s, x. split; [exact two_cells_ok|]. split; [exact P|]. split; [lra|]. split; [exact E|]. split; [exact Sv|].
  destruct (heat_residual 1 0 two_cells unit_geo bc (fun _ => 0) two_cells_ok) as (s' & E' & _ & _ & R). rewrite E in E'. injection E' as <-.
  specialize (R x 1%nat ltac:(cbn; lia)). cbv zeta in R. assert (Z : residual s x 1 == 0) by (unfold residual; rewrite (Sv 1%nat ltac:(rewrite D; cbn; lia)); ring). rewrite Z in R.
  change (first_fixed bc (faces_listed (m_elems two_cells) (nth 1 (t_ids (m_elems two_cells)) 0%Z))) with (Some 5) in R. set (q := rsum _) in R. clearbody q. intros X. rewrite X in R. clear - R. lra.
Qed.
Print Assumptions C70_old_value_refuted.

Example C70_case : exists s x, fvm_heat 1 1 two_cells unit_geo (fun f => if Z.eqb f 3 then Some 4 else None) (fun i => match i with 0%nat => 1 | _ => 2 end) = Ok s /\ solves s x /\
  (1 <= x 0%nat <= 4) /\ (1 <= x 1%nat <= 4) /\ x 0%nat == 16 # 7 /\ x 1%nat == 25 # 7.
Proof.
  set (bc := fun f => if Z.eqb f 3 then Some 4 else None). set (u := fun i : nat => match i with 0%nat => 1 | _ => 2 end).
  assert (P : positive two_cells unit_geo) by (split; [|split]; intros; try split; reflexivity).
  destruct (C70_step 1 1 two_cells unit_geo bc u two_cells_ok P) as (s & x & E & D & Sv & _); [lra|lra|]. exists s, x. split; [exact E|]. split; [exact Sv|].
  destruct (heat_residual 1 1 two_cells unit_geo bc u two_cells_ok) as (s' & E' & _ & _ & R). rewrite E in E'. injection E' as <-.
  assert (Z : forall i, (i < 2)%nat -> residual s x i == 0) by (intros i Hi; unfold residual; rewrite (Sv i ltac:(rewrite D; cbn; lia)); ring).
  pose proof (R x 0%nat ltac:(cbn; lia)) as R0. pose proof (R x 1%nat ltac:(cbn; lia)) as R1. cbv zeta in R0, R1. rewrite (Z 0%nat ltac:(lia)) in R0. rewrite (Z 1%nat ltac:(lia)) in R1.
  set (x0 := x 0%nat) in *. set (x1 := x 1%nat) in *.
  assert (L0 : rsum (map (lap_part two_cells unit_geo bc x 7) [0%Z; 1%Z]) == x1 - x0).
  { change (rsum (map (lap_part two_cells unit_geo bc x 7) [0%Z; 1%Z])) with (0 + (1 / 1 / 1 * (x1 - x0) + 0)). field. }
  assert (L1 : rsum (map (lap_part two_cells unit_geo bc x 8) [2%Z; 3%Z]) == (x0 - x1) + 2 * (4 - x1)).
  { change (rsum (map (lap_part two_cells unit_geo bc x 8) [2%Z; 3%Z])) with (1 / 1 / 1 * (x0 - x1) + (1 / (1 # 2) / 1 * (4 - x1) + 0)). unfold Qdiv. setoid_replace (/ (1 # 2)) with 2 by reflexivity. field. }
  change (rsum (map (lap_part two_cells unit_geo bc x (nth 0 (t_ids (m_elems two_cells)) 0%Z)) (faces_listed (m_elems two_cells) (nth 0 (t_ids (m_elems two_cells)) 0%Z)))) with (rsum (map (lap_part two_cells unit_geo bc x 7) [0%Z; 1%Z])) in R0.
  change (rsum (map (lap_part two_cells unit_geo bc x (nth 1 (t_ids (m_elems two_cells)) 0%Z)) (faces_listed (m_elems two_cells) (nth 1 (t_ids (m_elems two_cells)) 0%Z)))) with (rsum (map (lap_part two_cells unit_geo bc x 8) [2%Z; 3%Z])) in R1.
  rewrite L0 in R0. rewrite L1 in R1. change (first_fixed bc (faces_listed (m_elems two_cells) (nth 0 (t_ids (m_elems two_cells)) 0%Z))) with (@None Q) in R0. change (first_fixed bc (faces_listed (m_elems two_cells) (nth 1 (t_ids (m_elems two_cells)) 0%Z))) with (Some 4) in R1.
  change (u 0%nat) with 1 in R0. clearbody x0 x1. cbv iota in R0, R1. clear - R0 R1. repeat match goal with |- _ /\ _ => split end; lra.
Qed.

(** ** C71 *)
(** The divergence operator gives in each element the sum of what it counts as outflow, divided by the volume; what crosses an inner face
    leaves one element and enters the other, so inside nothing is lost. *)
Theorem C71_balance : forall m g bc, cells_ok m -> positive m g -> opposite_normals m g ->
  exists s, fvm_divergence m g bc = Ok s /\ s_dim s = length (t_ids (m_elems m)) /\
    (forall U i, (i < length (t_ids (m_elems m)))%nat -> let id := nth i (t_ids (m_elems m)) 0%Z in
      residual s (field m U) i == rsum (map (outflow m g bc U) (faces_listed (m_elems m) id)) / g_volume g id) /\
    (forall U a b, has_pair (m_faces m) a b -> outflow m g bc U a == - outflow m g bc U b) /\
    (forall U, total m g (residual s (field m U)) == rsum (map (outflow m g bc U) (filter (fun fid => negb (paired m fid)) (t_ids (m_faces m))))).
Proof.
  intros m g bc M P N. destruct (divergence_residual m M g bc) as (s & E & D & _ & R). exists s. split; [exact E|]. split; [exact D|].
  assert (B : forall U i, (i < length (t_ids (m_elems m)))%nat -> residual s (field m U) i == rsum (map (outflow m g bc U) (faces_listed (m_elems m) (nth i (t_ids (m_elems m)) 0%Z))) / g_volume g (nth i (t_ids (m_elems m)) 0%Z)).
  { intros U i Hi. rewrite (R _ i Hi). set (id := nth i (t_ids (m_elems m)) 0%Z).
    destruct (elem_at m i Hi) as [_ I]. fold id in I. rewrite (rsum_ext _ (fun fid => / g_volume g id * outflow m g bc U fid)).
    - rewrite rsum_scale. unfold Qdiv. ring.
    - intros fid F. rewrite (div_part_field m M g bc U id fid I F). unfold Qdiv. ring. }
  split; [exact B|].
  assert (O : forall U a b, has_pair (m_faces m) a b -> outflow m g bc U a == - outflow m g bc U b).
  { intros U a b H. assert (Pa := proj2 (pair_of_spec m a b) H). destruct (pair_sym m M _ _ Pa) as (_ & Pb & _). specialize (N a b H). unfold outflow. rewrite Pa, Pb, N. ring. }
  split; [exact O|]. intros U.
  assert (T : total m g (residual s (field m U)) == rsum (map (outflow m g bc U) (t_ids (m_faces m)))).
  { rewrite <- (cells_to_faces m M). unfold total. apply sum_ext. intros i Hi. rewrite (B U i Hi). destruct (elem_at m i Hi) as [_ I]. destruct P as (Pv & _). specialize (Pv _ I). field. lra. }
  rewrite T, (rsum_filter _ (paired m)). destruct (paired_involution m M) as [Nd I].
  assert (X := rsum_involution (outflow m g bc U) (mate m) _ Nd I).
  rewrite (rsum_ext (fun a => outflow m g bc U (mate m a)) (fun a => - (1) * outflow m g bc U a)) in X.
  - rewrite (rsum_scale (outflow m g bc U) (- (1))) in X.
    assert (Z : rsum (map (outflow m g bc U) (filter (paired m) (t_ids (m_faces m)))) == 0) by lra. rewrite Z. ring.
  - intros a Ia. apply filter_In in Ia. destruct Ia as [_ Pa]. unfold paired in Pa. unfold mate. destruct (pair_of m a) as [b|] eqn:F; [|discriminate].
    apply pair_of_spec in F. rewrite (O U a b F). ring.
Qed.
Print Assumptions C71_balance.

(** A uniform field has no divergence in an element all of whose faces are shared. *)
Theorem C71_uniform : forall m g bc c s i, cells_ok m -> fvm_divergence m g bc = Ok s -> (i < length (t_ids (m_elems m)))%nat ->
  let id := nth i (t_ids (m_elems m)) 0%Z in
  (forall fid, In fid (faces_listed (m_elems m) id) -> exists b, has_pair (m_faces m) fid b) -> closed_cell m g id -> residual s (fun _ => c) i == 0.
Proof.
  intros m g bc c s i M E Hi id A C. destruct (divergence_residual m M g bc) as (s' & E' & D & _ & R). rewrite E in E'. injection E' as <-. rewrite (R _ i Hi). fold id. destruct (elem_at m i Hi) as [_ I]. fold id in I.
  change (fun _ : nat => c) with (field m (fun _ => c)).
  rewrite (rsum_ext _ (fun fid => (c / g_volume g id) * (g_area g fid * flow_sum (g_normal g fid)))).
  - rewrite rsum_scale. unfold closed_cell in C. rewrite C. ring.
  - intros fid F. rewrite (div_part_field m M g bc _ id fid I F). destruct (A fid F) as (b & H). apply pair_of_spec in H. unfold outflow. rewrite H. unfold Qdiv. ring.
Qed.
Print Assumptions C71_uniform.

Definition line_geo : geometry := Geo (fun _ => 1) (fun f => Coord (if Z.even f then - (1) else 1) 0 0) (fun _ => 1) (fun _ _ => 1) (fun _ _ => 1 # 2).
(** At the boundary it has: with the value 1 everywhere, also prescribed at both ends, the divergence is 2 in one element and -2 in the other. *)
Theorem C71_boundary_sign_refuted : exists m g bc s, cells_ok m /\ positive m g /\ opposite_normals m g /\ (forall id, In id (t_ids (m_elems m)) -> closed_cell m g id) /\
  (forall fid, In fid (t_ids (m_faces m)) -> paired m fid = false -> bc fid = Some 1) /\
  fvm_divergence m g bc = Ok s /\ residual s (fun _ => 1) 0 == 2 /\ residual s (fun _ => 1) 1 == - (2).
Proof.
  assert (P : positive two_cells line_geo) by (split; [|split]; intros; try split; reflexivity).
  assert (N : opposite_normals two_cells line_geo).
  { intros a b (f & G & H & <-). assert (I := face_got two_cells two_cells_ok a f G). cbn in I. destruct I as [<-|[<-|[<-|[<-|[]]]]]; injection G as <-; try discriminate H; reflexivity. }
  destruct (C71_balance two_cells line_geo (fun _ => Some 1) two_cells_ok P N) as (s & E & _ & R & _).
  exists two_cells, line_geo, (fun _ => Some 1), s. split; [exact two_cells_ok|]. split; [exact P|]. split; [exact N|]. split.
  { intros id I. cbn in I. destruct I as [<-|[<-|[]]]; reflexivity. }
  split; [reflexivity|]. split; [exact E|]. change (fun _ : nat => 1) with (field two_cells (fun _ => 1)). rewrite !R by (cbn; lia). split; vm_compute; reflexivity.
Qed.
Print Assumptions C71_boundary_sign_refuted.

Example C71_case : exists s, fvm_divergence two_cells line_geo (fun _ => None) = Ok s /\ residual s (field two_cells (fun id => if Z.eqb id 7 then 1 else 2)) 0 == 3 # 2 /\ residual s (field two_cells (fun id => if Z.eqb id 7 then 1 else 2)) 1 == - (3 # 2).
Proof.
  assert (P : positive two_cells line_geo) by (split; [|split]; intros; try split; reflexivity).
  assert (N : opposite_normals two_cells line_geo).
  { intros a b (f & G & H & <-). assert (I := face_got two_cells two_cells_ok a f G). cbn in I. destruct I as [<-|[<-|[<-|[<-|[]]]]]; injection G as <-; try discriminate H; reflexivity. }
  destruct (C71_balance two_cells line_geo (fun _ => None) two_cells_ok P N) as (s & E & _ & R & _). exists s. split; [exact E|]. rewrite !R by (cbn; lia). split; vm_compute; reflexivity.
Qed.

(** ** C54 *)
(** set() is defined on every mesh with generated faces; [num] numbers the faces of the mesh by the faces of the control-volume mesh. *)
Theorem C54_control_volumes : forall m, cells_ok m -> exists fm n num, fvm_set m = Ok fm /\
  (** as many faces as pairs and unpaired faces *)
  (t_ids (fm_faces fm) = zrange n /\
   (2 * n = length (t_ids (m_faces m)) + length (filter (fun a => negb (paired m a)) (t_ids (m_faces m))))%nat /\
   (forall a, In a (t_ids (m_faces m)) -> In (num a) (t_ids (fm_faces fm))) /\
   (forall k, In k (t_ids (fm_faces fm)) -> exists a, In a (t_ids (m_faces m)) /\ num a = k) /\
   (forall a b, In a (t_ids (m_faces m)) -> In b (t_ids (m_faces m)) -> (num a = num b <-> a = b \/ has_pair (m_faces m) a b))) /\
  (** both sides of an inner face see each other *)
  (forall a, In a (t_ids (m_faces m)) -> exists f, t_get (fm_faces fm) (num a) = Ok f /\
     (ff_haspair f = true <-> exists b, has_pair (m_faces m) a b) /\
     (forall b, has_pair (m_faces m) a b -> neighbor_id f (owner m a) = owner m b /\ neighbor_id f (owner m b) = owner m a) /\
     (unpaired (m_faces m) a -> ff_cv f = owner m a)) /\
  (** one control volume per element, with the same id, made of the faces of the element, each seen from its own side *)
  t_ids (fm_cvs fm) = t_ids (m_elems m) /\
  (forall id, In id (t_ids (m_elems m)) -> exists cv, t_get (fm_cvs fm) id = Ok cv /\ cv_id cv = id /\
     ph_ids (cv_poly cv) = map num (faces_listed (m_elems m) id) /\
     forall a, In a (faces_listed (m_elems m) id) -> (forall b, has_pair (m_faces m) a b -> owner m b <> id) ->
       ph_polygon (cv_poly cv) (num a) = outline m a \/
       exists b, has_pair (m_faces m) a b /\ ph_polygon (cv_poly cv) (num a) = rev (outline m b)).
Proof.
  intros m M. destruct (fvm_set_ok m M) as (fm & n & num & E & Hids & Hlen & Hin & Hsur & Hinj & Hf & Hc & Hp). exists fm, n, num. split; [exact E|]. rewrite Hids.
  split; [split; [reflexivity|]; split; [exact Hlen|]; split; [exact Hin|]; split; [exact Hsur|]; intros a b Ia Ib; rewrite (Hinj a b Ia Ib); unfold same; rewrite pair_of_spec; reflexivity|].
  split.
  { intros a Ia. destruct (Hf a Ia) as (r & Ir & Sr & G). exists (fvface_of m r). split; [exact G|]. unfold fvface_of, neighbor_id, paired. cbn [ff_haspair ff_cv ff_nb].
    split; [|split].
    - destruct Sr as [<-|Sr].
      + destruct (pair_of m a) as [b|] eqn:P; split; [intros _; exists b; now apply pair_of_spec|reflexivity|discriminate|intros (b & H); apply pair_of_spec in H; congruence].
      + destruct (pair_sym m M _ _ Sr) as (_ & -> & _). split; [intros _; exists r; now apply pair_of_spec|reflexivity].
    - intros b H. apply pair_of_spec in H. destruct (pair_sym m M _ _ H) as (_ & Hb & _). destruct Sr as [<-|Sr].
      + rewrite H, Z.eqb_refl. split; [reflexivity|]. destruct (Z.eqb_spec (owner m a) (owner m b)); congruence.
      + assert (r = b) by congruence. subst r. rewrite Hb, Z.eqb_refl. split; [|reflexivity]. destruct (Z.eqb_spec (owner m b) (owner m a)); congruence.
    - intros (f & Gf & Hf'). destruct Sr as [<-|Sr]; [reflexivity|]. apply pair_of_spec in Sr. destruct Sr as (f' & Gf' & H' & _). congruence. }
  split; [exact Hc|]. intros id Ii. destruct (Hp id Ii) as (cv & G & C & P & Q). exists cv. split; [exact G|]. split; [exact C|]. split; [exact P|].
  intros a Ia Ho. destruct (Q a Ia) as (r & Sr & ->). destruct (listed_face m M id a Ii Ia) as [_ Oa]. destruct Sr as [<-|Sr].
  - left. rewrite Oa, Z.eqb_refl. reflexivity.
  - right. exists r. apply pair_of_spec in Sr. split; [exact Sr|]. specialize (Ho r Sr). destruct (Z.eqb_spec (owner m r) id); [congruence|reflexivity].
Qed.
Print Assumptions C54_control_volumes.

Example C54_case : cells_ok two_cells /\ exists fm, fvm_set two_cells = Ok fm /\ t_ids (fm_faces fm) = [0; 1; 2]%Z /\ t_ids (fm_cvs fm) = [7; 8]%Z /\
  exists f, t_get (fm_faces fm) 1 = Ok f /\ neighbor_id f 7 = 8%Z /\ neighbor_id f 8 = 7%Z.
Proof. split; [exact two_cells_ok|]. eexists. split; [reflexivity|]. split; [reflexivity|]. split; [reflexivity|]. eexists. split; [reflexivity|]. split; reflexivity. Qed.
