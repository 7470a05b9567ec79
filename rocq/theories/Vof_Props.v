(** C55: the volume-of-fluid solver. *)
From Coq Require Import QArith Qminmax Qabs ZArith List Bool Lia Lqa Setoid.
From Verif Require Import Prelude Vec Piso_Model Piso_Props.
Import ListNotations.
Open Scope Q_scope.

Lemma clamp_bounds x : 0 <= clamp x <= 1.
Proof. unfold clamp. split; [apply Q.min_glb; [apply Q.le_max_r|discriminate]|apply Q.le_min_r]. Qed.
Lemma clamp_inside x : 0 <= x <= 1 -> clamp x == x.
Proof. intros [H H']. unfold clamp. rewrite Q.max_l by exact H. apply Q.min_l. exact H'. Qed.
(** After every step all fractions lie between 0 and 1, whatever the linear solver returned. *)
Theorem C55_fraction_bounded : forall m solve dt flux beta s s0 sf c, 0 <= gamma_field m solve dt flux beta s s0 sf c <= 1.
Proof. intros. unfold gamma_field. destruct (gamma_system m dt flux beta s s0 sf). apply clamp_bounds. Qed.
Print Assumptions C55_fraction_bounded.
(** Density and viscosity lie between those of the two fluids. *)
Theorem C55_mixture_between : forall k0 k1 s c, (s c == 0 -> mixture k0 k1 s c == k0) /\ (s c == 1 -> mixture k0 k1 s c == k1) /\
  forall lo hi, 0 <= s c <= 1 -> lo <= k0 <= hi -> lo <= k1 <= hi -> lo <= mixture k0 k1 s c <= hi.
Proof. intros. unfold mixture. split; [intros ->; ring|]. split; [intros ->; ring|]. intros. nra. Qed.
Print Assumptions C55_mixture_between.
Example C55_case_mixture : mixture 1000 1 (fun _ => 1 # 4) 0 == 3001 # 4.
Proof. reflexivity. Qed.

(** ** The system for the fractions *)
(** What a cell gets from a face: [x] new, [s] current fraction. *)
Definition gnet (m : pmesh) (flux beta s sf x : Z -> Q) (c f : Z) : Q :=
  let F := seen m flux c f in
  match neighbor m c f with
  | Some (Some d) => let w := if Qlt_le_dec F 0 then beta f else 1 - beta f in (1 # 2) * F * ((1 - w) * (x c + s c) + w * (x d + s d))
  | Some None => 0
  | None => F * sf f
  end.
Definition resid (m : pmesh) (st : matrix * (Z -> Q)) (x : Z -> Q) (c : Z) : Q := row m (fst st) x c - snd st c.
Lemma gamma_face_row m flux beta s sf x c' c f st : sound m -> In c' (pm_cells m) -> In f (pm_of m c') ->
  resid m (gamma_face m flux beta s sf c' f st) x c == resid m st x c + (if (c' =? c)%Z then gnet m flux beta s sf x c f else 0).
Proof.
  intros S I J. destruct st as [A b]. unfold gamma_face, resid. destruct (pf_pair (pm_face m f)) as [nb|] eqn:Ep.
  - destruct (neighbor_pair m c' f nb S I J Ep) as (d & En & Id & _). rewrite En. cbn [fst snd]. rewrite !row_add by assumption. rewrite !addb_at. destruct (Z.eqb_spec c' c) as [->|]; [|ring]. unfold gnet. rewrite En. cbv zeta. ring.
  - rewrite (neighbor_alone m c' f Ep). cbn [fst snd]. rewrite addb_at. destruct (Z.eqb_spec c' c) as [->|]; [|ring]. unfold gnet. rewrite (neighbor_alone m c f Ep). cbv zeta. ring.
Qed.
Lemma gamma_faces_row m flux beta s sf x c' c : sound m -> In c' (pm_cells m) -> forall l st, (forall f, In f l -> In f (pm_of m c')) ->
  resid m (fold_left (fun st f => gamma_face m flux beta s sf c' f st) l st) x c == resid m st x c + (if (c' =? c)%Z then qsum l (gnet m flux beta s sf x c) else 0).
Proof.
  intros S I. induction l as [|f l IH]; intros st H; cbn [fold_left].
  - cbn. destruct (c' =? c)%Z; ring.
  - rewrite IH by (intros; apply H; now right). rewrite gamma_face_row by (try assumption; apply H; now left). rewrite qsum_cons. destruct (c' =? c)%Z; ring.
Qed.
Lemma gamma_row m dt flux beta s s0 sf x c : sound m -> In c (pm_cells m) -> 0 < dt ->
  resid m (gamma_system m dt flux beta s s0 sf) x c == qsum (pm_of m c) (gnet m flux beta s sf x c) + pm_volume m c / dt * (x c - s0 c).
Proof.
  intros S Ic T. unfold gamma_system. set (own := qsum (pm_of m c) (gnet m flux beta s sf x c) + pm_volume m c / dt * (x c - s0 c)).
  assert (G : forall l st, (forall d, In d l -> In d (pm_cells m)) -> NoDup l ->
    resid m (fold_left (gamma_cell m dt flux beta s s0 sf) l st) x c == resid m st x c + (if existsb (Z.eqb c) l then own else 0)).
  { induction l as [|d l IH]; intros st H N; cbn [fold_left]; [cbn; ring|]. inversion N; subst. rewrite IH by (auto; intros; apply H; now right). cbn [existsb].
    assert (St : resid m (gamma_cell m dt flux beta s s0 sf st d) x c == resid m st x c + (if (c =? d)%Z then own else 0)).
    { unfold gamma_cell. rewrite (Z.eqb_sym c d). assert (F := gamma_faces_row m flux beta s sf x d c S (H d (or_introl eq_refl)) (pm_of m d) st (fun f I => I)).
      destruct (fold_left _ (pm_of m d) st) as [A b]. unfold resid in *. cbn [fst snd] in F. destruct (Qlt_le_dec 0 dt); [|lra]. cbn [fst snd]. rewrite row_add by (try assumption; apply H; now left). rewrite addb_at.
      destruct (Z.eqb_spec d c) as [->|]; [|lra]. unfold own. lra. }
    rewrite St. destruct (Z.eqb_spec c d) as [->|]; cbn; [|ring]. destruct (existsb (Z.eqb d) l) eqn:E; [|ring]. apply existsb_exists in E. destruct E as (y & Iy & Ey). apply Z.eqb_eq in Ey. subst. contradiction. }
  rewrite G by (auto; apply S). assert (E : existsb (Z.eqb c) (pm_cells m) = true) by (apply existsb_exists; exists c; split; [exact Ic|apply Z.eqb_refl]). rewrite E. unfold resid, row. cbn [fst snd]. rewrite qsum_zero; [ring|]. intros; ring.
Qed.
(** The amounts exchanged through a face between two cells cancel, whatever the flux, the weight and the fractions. *)
Lemma gnet_cancel m flux beta s sf x f nb c : sound m -> In c (pm_cells m) -> In f (pm_of m c) -> pf_pair (pm_face m f) = Some nb -> ~ flux f == 0 ->
  gnet m flux beta s sf x (pf_owner (pm_face m f)) f + gnet m flux beta s sf x nb f == 0.
Proof.
  intros S I J E NZ. destruct (so_pair m S c f nb I J E) as (_ & B & Fo & Fn & _). destruct (before_in _ _ _ B) as [Io Ib]. assert (Ne := before_neq _ _ _ (so_cells m S) B). set (o := pf_owner (pm_face m f)) in *.
  destruct (neighbor_pair m o f nb S Io Fo E) as (d & E1 & _ & _ & _ & [[_ ->]|[H _]]); [|contradiction]. destruct (neighbor_pair m nb f nb S Ib Fn E) as (d' & E2 & _ & _ & _ & [[H _]|[_ ->]]); [now symmetry in H|].
  unfold gnet. rewrite E1, E2. fold o. unfold seen. fold o. rewrite Z.eqb_refl. destruct (Z.eqb_spec o nb); [contradiction|]. cbv zeta. destruct (Qlt_le_dec (flux f) 0), (Qlt_le_dec (- flux f) 0); try lra; ring.
Qed.
(** No flux, no exchange. *)
Lemma gnet_still m flux beta s sf x c f : interior m f -> sound m -> In c (pm_cells m) -> In f (pm_of m c) -> flux f == 0 -> gnet m flux beta s sf x c f == 0.
Proof.
  intros (nb & E) S I J Z0. destruct (neighbor_pair m c f nb S I J E) as (d & E1 & _). unfold gnet. rewrite E1. cbv zeta. assert (F0 : seen m flux c f == 0) by (unfold seen; destruct (_ =? _)%Z; rewrite Z0; reflexivity). generalize (if Qlt_le_dec (seen m flux c f) 0 then beta f else 1 - beta f). intros w. rewrite F0. ring.
Qed.
(** A face between two cells moves what one loses to the other: an exact solution changes the total amount of the fluid only by what crosses the boundary. *)
Theorem C55_conserved : forall m dt flux beta s s0 sf x, sound m -> 0 < dt ->
  solves m (fst (gamma_system m dt flux beta s s0 sf)) (snd (gamma_system m dt flux beta s s0 sf)) x ->
  qsum (pm_cells m) (fun c => pm_volume m c * x c) ==
  qsum (pm_cells m) (fun c => pm_volume m c * s0 c) - dt * qsum (all_faces m) (fun f => match pf_pair (pm_face m f) with None => flux f * sf f | Some _ => 0 end).
Proof.
  intros m dt flux beta s s0 sf x S T H.
  assert (G : qsum (pm_cells m) (fun c => qsum (pm_of m c) (gnet m flux beta s sf x c) + pm_volume m c / dt * (x c - s0 c)) == 0).
  { apply qsum_zero. intros c I. rewrite <- gamma_row by assumption. unfold resid. rewrite (H c I). ring. }
  rewrite qsum_add, pair_sum in G by exact S.
  assert (B : qsum (all_faces m) (fun f => match pf_pair (pm_face m f) with Some nb => gnet m flux beta s sf x (pf_owner (pm_face m f)) f + gnet m flux beta s sf x nb f | None => gnet m flux beta s sf x (pf_owner (pm_face m f)) f end)
            == qsum (all_faces m) (fun f => match pf_pair (pm_face m f) with None => flux f * sf f | Some _ => 0 end)).
  { apply qsum_ext. intros f I. apply in_all_faces in I. destruct I as (c & Ic & If). destruct (pf_pair (pm_face m f)) as [nb|] eqn:E.
    - destruct (Qeq_dec (flux f) 0) as [Z0|Z0]; [|now apply (gnet_cancel m flux beta s sf x f nb c)]. destruct (so_pair m S c f nb Ic If E) as (_ & Bf & Fo & Fn & _). destruct (before_in _ _ _ Bf) as [Io Ib]. rewrite !gnet_still; try assumption; try (exists nb; assumption). ring.
    - unfold gnet. rewrite (neighbor_alone m _ f E). unfold seen. rewrite Z.eqb_refl. reflexivity. }
  rewrite B in G. set (out := qsum (all_faces m) _) in *.
  assert (V : qsum (pm_cells m) (fun c => pm_volume m c / dt * (x c - s0 c)) == (/ dt) * (qsum (pm_cells m) (fun c => pm_volume m c * x c) - qsum (pm_cells m) (fun c => pm_volume m c * s0 c))).
  { setoid_replace (qsum (pm_cells m) (fun c => pm_volume m c * x c) - qsum (pm_cells m) (fun c => pm_volume m c * s0 c)) with (qsum (pm_cells m) (fun c => pm_volume m c * x c + - (pm_volume m c * s0 c))) by (rewrite qsum_add, qsum_opp; ring).
    rewrite <- qsum_scale. apply qsum_ext. intros c _. unfold Qdiv. ring. }
  rewrite V in G. set (a := qsum (pm_cells m) (fun c => pm_volume m c * x c)) in *. set (a0 := qsum (pm_cells m) (fun c => pm_volume m c * s0 c)) in *.
  assert (K : dt * (out + / dt * (a - a0)) == 0) by (rewrite G; ring). assert (K' : dt * (out + / dt * (a - a0)) == dt * out + (a - a0)) by (field; lra). lra.
Qed.
Print Assumptions C55_conserved.
(** A uniform fraction in a mass-conserving flow stays as it is. *)
Theorem C55_uniform : forall m dt flux beta k, sound m -> 0 < dt -> (forall c, In c (pm_cells m) -> mass_error m flux c == 0) ->
  let s := fun _ => k in solves m (fst (gamma_system m dt flux beta s s s)) (snd (gamma_system m dt flux beta s s s)) s.
Proof.
  intros m dt flux beta k S T M s c I. assert (R := gamma_row m dt flux beta s s s s c S I T). unfold resid in R.
  assert (Z0 : qsum (pm_of m c) (gnet m flux beta s s s c) == k * mass_error m flux c).
  { unfold mass_error. rewrite <- qsum_scale. apply qsum_ext. intros f J. unfold gnet. destruct (pf_pair (pm_face m f)) as [nb|] eqn:E.
    - destruct (neighbor_pair m c f nb S I J E) as (d & E1 & _). rewrite E1. cbv zeta. unfold s. ring.
    - rewrite (neighbor_alone m c f E). unfold s. cbv zeta. ring. }
  rewrite Z0, (M c I) in R. unfold s in *. assert (R' : forall a b, a - b == k * 0 + pm_volume m c / dt * (k - k) -> a == b). { intros a b H. assert (Z1 : k * 0 + pm_volume m c / dt * (k - k) == 0) by ring. rewrite Z1 in H. lra. } now apply R'.
Qed.
Print Assumptions C55_uniform.

(** ** Weights *)
Theorem C55_beta_bounded : forall cos2 tol sa sd dt_ l Co, 0 <= predict_beta cos2 tol sa sd dt_ l Co <= 1.
Proof. intros. unfold predict_beta. cbv zeta. destruct (Qlt_le_dec tol (Qabs (sa - _))); [|split; discriminate]. destruct (Qlt_le_dec tol (Qabs (1 - _))); [apply clamp_bounds|split; discriminate]. Qed.
Print Assumptions C55_beta_bounded.
Lemma correction_bounds x beta : 0 <= x -> 0 <= beta -> 0 <= Qmin x beta <= beta.
Proof. intros. split; [now apply Q.min_glb|apply Q.le_min_r]. Qed.
Theorem C55_correction_bounded : forall tol eps beta Cj ds sd flows, 0 <= tol -> 0 <= eps -> 0 <= beta <= 1 -> 0 <= Cj <= 1 ->
  0 <= correct_beta tol eps beta Cj ds sd flows <= beta.
Proof.
  intros tol eps beta Cj ds sd flows T E B C. unfold correct_beta. destruct (Qlt_le_dec beta (1 # 100)); [lra|].
  assert (P : forall k d, 0 <= k -> 0 < d -> 0 < Cj -> 0 <= Qmin (k * (2 + Cj - 2 * Cj * beta) / (2 * Cj * d)) beta <= beta).
  { intros k d K D Cp. apply correction_bounds; [|lra]. apply Qle_shift_div_l; [nra|]. rewrite Qmult_0_l. apply Qmult_le_0_compat; [exact K|]. nra. }
  match goal with |- 0 <= Qmax (beta - ?c) 0 <= beta => assert (G : 0 <= c <= beta) end.
  { destruct flows; [|lra]. cbv zeta.
    assert (L : 0 <= Qmax (- sd) 0) by apply Q.le_max_r. assert (H : 0 <= Qmax (sd - 1) 0) by apply Q.le_max_r.
    match goal with |- 0 <= (if _ then if _ then if _ then if _ then _ else ?c else _ else _ else _) <= beta => assert (G : 0 <= c <= beta) end.
    { destruct (Qlt_le_dec sd 0); [|lra]. destruct (Qlt_le_dec tol _); [|lra]. destruct (Qlt_le_dec tol Cj); [|lra]. destruct (Qlt_le_dec _ ds); [|lra]. apply P; lra. }
    destruct (Qlt_le_dec 1 sd); [|exact G]. destruct (Qlt_le_dec eps _); [|exact G]. destruct (Qlt_le_dec eps Cj); [|exact G]. destruct (Qlt_le_dec ds _); [|exact G]. apply P; lra. }
  split; [apply Q.le_max_r|]. apply Q.max_lub; lra.
Qed.
Print Assumptions C55_correction_bounded.
Example C55_case_correction : correct_beta 0 0 (1 # 2) 1 1 (-(1 # 10)) true == 7 # 18.
Proof. reflexivity. Qed.
(** Since all fractions have been clamped, the correction of the weights never changes anything. *)
Theorem C55_correction_idle : forall tol eps beta Cj ds sd flows, 0 <= beta -> 0 <= sd <= 1 -> correct_beta tol eps beta Cj ds sd flows == beta.
Proof.
  intros tol eps beta Cj ds sd flows B D. unfold correct_beta. destruct (Qlt_le_dec beta (1 # 100)); [reflexivity|]. destruct (Qlt_le_dec sd 0); [lra|]. destruct (Qlt_le_dec 1 sd); [lra|]. cbv zeta.
  rewrite Q.max_l; destruct flows; try ring; lra.
Qed.
Print Assumptions C55_correction_idle.
Theorem C55_courant_nonneg : forall m dt interface flux s c, 0 <= courant m dt interface flux s c.
Proof.
  intros. unfold courant. cbv zeta. apply qsum_nonneg. intros f _. apply Qmult_le_0_compat; [|apply Q.le_max_r]. destruct interface; [|discriminate]. assert (H := clamp_bounds (s c)). set (x := clamp (s c)) in *.
  setoid_replace ((1 - x) * (1 - x) * x * x * 16) with (16 * (((1 - x) * x) * ((1 - x) * x))) by ring. assert (0 <= (1 - x) * x) by (apply Qmult_le_0_compat; lra). assert (0 <= (1 - x) * x * ((1 - x) * x)) by now apply Qmult_le_0_compat. lra.
Qed.
Print Assumptions C55_courant_nonneg.

(** ** A case and failures *)
(** Three cells in a row with a loop of flux would need more faces; two cells with through-flow suffice: the mesh is sound, the mass errors vanish. *)
Definition stream : Z -> Q := fun f => if (f =? 1)%Z then - (1 # 2) else if ((f =? 0) || (f =? 6))%Z then 1 # 2 else 0.
Definition solution (m : pmesh) (st : matrix * (Z -> Q)) : Z -> Q := solve2 (fst st) (snd st).
Example C55_case : let m := pair_mesh walls in let s0 := fun c => if (c =? 0)%Z then 1 # 4 else 3 # 4 in let sf := fun f => if (f =? 1)%Z then 1 else 3 # 4 in
  let st := gamma_system m 1 stream (fun _ => 1) s0 s0 sf in
  sound m /\ (forall c, In c (pm_cells m) -> mass_error m stream c == 0) /\ solves m (fst st) (snd st) (solution m st) /\
  solution m st 0%Z == 11 # 20 /\ solution m st 1%Z == 23 # 40.
Proof.
  cbv zeta. split; [apply pair_mesh_sound|]. split; [intros c I; cbn in I; destruct I as [<-|[<-|[]]]; reflexivity|]. split; [intros c I; cbn in I; destruct I as [<-|[<-|[]]]; vm_compute; reflexivity|]. split; vm_compute; reflexivity.
Qed.
(** The flux the flow solver keeps at an inlet is positive for inflow, while the fraction equation takes positive for outflow: letting in fluid 1 removes fluid 1. *)
Theorem C55_inflow_refuted : exists m s, sound m /\ (forall c, In c (pm_cells m) -> 0 < cx (s_vel (iterate m solve2 solve2 1 s) c)) /\
  (let flux := s_flux (iterate m solve2 solve2 1 s) in let half := fun _ => 1 # 2 in
   let r := gamma_field m solve2 1 flux (fun _ => 1) half half (fun f => if (f =? 1)%Z then 1 else 1 # 2) in r 0%Z < 1 # 2 /\ dot (s_velf s 1%Z) (pm_normal m 0%Z 1%Z) < 0).
Proof.
  exists (pair_mesh channel), channel_flow. split; [apply pair_mesh_sound|]. split; [intros c I; cbn in I; destruct I as [<-|[<-|[]]]; vm_compute; reflexivity|]. split; vm_compute; reflexivity.
Qed.
Print Assumptions C55_inflow_refuted.
(** The flux between two cells is positive when the fluid leaves the owner, but donor and acceptor are chosen as if it were negative. With weight 0 (meant as upwind) a face
    takes the fraction of the cell downstream: here fluid 0 flows into a cell full of fluid 1 and the cell stays full. *)
Theorem C55_upwind_refuted : exists m s s0, let s' := iterate m solve2 solve2 1 s in sound m /\ (forall c, In c (pm_cells m) -> cx (s_vel s' c) == 1 # 2) /\
  s0 0%Z == 0 /\ s0 1%Z == 1 /\ gamma_field m solve2 1 (s_flux s') (fun _ => 0) s0 s0 (fun _ => 0) 1%Z == 1.
Proof.
  exists (pair_mesh (fun f => if (f =? 1)%Z then BT_INLET_PRESSURE else if (f =? 6)%Z then BT_OUTLET else BT_WALL_NO_SLIP)),
    (Flow (fun _ => vzero) (fun _ => vzero) (fun _ => 0) (fun f => if (f =? 1)%Z then 1 else 0) (fun _ => 0) (fun _ => 1) (fun _ => 0) vzero), (fun c => if (c =? 0)%Z then 0 else 1).
  cbv zeta. split; [apply pair_mesh_sound|]. split; [intros c I; cbn in I; destruct I as [<-|[<-|[]]]; vm_compute; reflexivity|]. split; [reflexivity|]. split; [reflexivity|]. vm_compute. reflexivity.
Qed.
Print Assumptions C55_upwind_refuted.
