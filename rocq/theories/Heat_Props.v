(** C98: temperature on control volumes. *)
From Coq Require Import QArith Qabs ZArith List Bool Lia Lqa Setoid.
From Verif Require Import Prelude Vec Piso_Model Piso_Props Heat_Model Heat_Proofs.
Import ListNotations.
Open Scope Q_scope.

(** ** Vocabulary *)
(** Density and specific heat are positive and the same everywhere (as setMaterialProperties leaves them); conductivities are positive. *)
Definition one_material (m : pmesh) (h : thermal) (rho cp : Q) : Prop :=
  0 < rho /\ 0 < cp /\ 0 <= h_bcond h /\ forall c, In c (pm_cells m) -> h_dens h c == rho /\ h_heat h c == cp /\ 0 < h_cond h c.
(** What flows into a cell flows out of it. *)
Definition balanced (m : pmesh) (flux : Z -> Q) : Prop := forall c, In c (pm_cells m) -> mass_error m flux c == 0.
Definition outer (m : pmesh) (c f : Z) : Prop := In c (pm_cells m) /\ In f (pm_of m c) /\ ~ interior m f.
Definition between (lo hi x : Q) : Prop := lo <= x /\ x <= hi.
Lemma outer_pair m c f : outer m c f <-> In c (pm_cells m) /\ In f (pm_of m c) /\ pf_pair (pm_face m f) = None.
Proof.
  unfold outer, interior. destruct (pf_pair (pm_face m f)) as [nb|]; split; intros (A & B & C); repeat (split; [assumption|]); try congruence; [exfalso; apply C; eauto|intros [x X]; discriminate].
Qed.

(** The system has exactly one solution, and the temperatures lie in every range that contains the old temperatures, what flows in, and the temperatures of the boundary faces
    divided by the volume of the cell behind them. Conductivities may differ from cell to cell. *)
Theorem C98_range : forall m solve dt h flux Tf T0 rho cp lo hi, sound m -> roomy m -> one_material m h rho cp -> balanced m flux -> 0 < dt -> exact_solver m solve ->
  (forall c, In c (pm_cells m) -> between lo hi (T0 c)) ->
  (forall c f, outer m c f -> between lo hi (Tf f / pm_volume m c) /\ (seen m flux c f < 0 -> between lo hi (Tf f))) ->
  let '(A, b) := heat_system m dt h flux Tf T0 in let T := temperature m solve dt h flux Tf T0 in
  solves m A b T /\ (forall T', solves m A b T' -> forall c, In c (pm_cells m) -> T' c == T c) /\ forall c, In c (pm_cells m) -> between lo hi (T c).
Proof.
  intros m solve dt h flux Tf T0 rho cp lo hi So Ro (Hr & Hc & Hb & Hp) Hm Hd Ex H0 Hf. unfold temperature.
  destruct (heat_solvable m h flux Tf T0 dt rho cp So Ro Hr Hc Hd Hb) as [Hex (w & Pw & Iff)]; [intros c Ic; destruct (Hp c Ic) as (A & B & C); repeat (split; [assumption|]); now apply Hm|].
  destruct (heat_system m dt h flux Tf T0) as [A b]. cbn [fst snd] in *. cbv zeta. assert (St := Ex A b Hex). split; [exact St|].
  assert (Rg : forall T', solves m A b T' -> forall lo hi, (forall c, In c (pm_cells m) -> between lo hi (T0 c)) ->
    (forall c f, outer m c f -> between lo hi (Tf f / pm_volume m c) /\ (seen m flux c f < 0 -> between lo hi (Tf f))) -> forall c, In c (pm_cells m) -> between lo hi (T' c)).
  { intros T' ST lo' hi' H0' Hf' c Ic. assert (ST' := proj1 (Iff T') ST). split.
    - apply (above m flux (rho * cp) dt w So Ro (times_pos _ _ Hr Hc) Hd Pw Hm Tf T0 T' lo' ST'); [intros d Id; apply (H0' d Id)| |exact Ic].
      intros d f Id If P. destruct (Hf' d f (proj2 (outer_pair m d f) (conj Id (conj If P)))) as [X Y]. split; [apply X|intros Z0; apply (Y Z0)].
    - apply (below m flux (rho * cp) dt w So Ro (times_pos _ _ Hr Hc) Hd Pw Hm Tf T0 T' hi' ST'); [intros d Id; apply (H0' d Id)| |exact Ic].
      intros d f Id If P. destruct (Hf' d f (proj2 (outer_pair m d f) (conj Id (conj If P)))) as [X Y]. split; [apply X|intros Z0; apply (Y Z0)]. }
  split; [|intros c Ic; now apply Rg]. intros T' ST c Ic. set (T := solve A b) in *. assert (ST1 := proj1 (Iff T') ST). assert (St1 := proj1 (Iff T) St).
  assert (X : T' c - T c == 0); [|lra]. apply (regular m flux (rho * cp) dt w So Ro (times_pos _ _ Hr Hc) Hd Pw Hm (fun c => T' c - T c)); [|exact Ic]. intros d Id.
  setoid_replace 0 with (equation m flux (rho * cp) dt w Tf T0 T' d - equation m flux (rho * cp) dt w Tf T0 T d) at 3 by (rewrite (ST1 d Id), (St1 d Id); ring). unfold equation.
  assert (L : qsum (pm_of m d) (fun f => leaving m (rho * cp) flux (fun _ => 0) (fun c0 => T' c0 - T c0) (w d f) d f) ==
    qsum (pm_of m d) (fun f => leaving m (rho * cp) flux Tf T' (w d f) d f) - qsum (pm_of m d) (fun f => leaving m (rho * cp) flux Tf T (w d f) d f)).
  { unfold Qminus at 2. rewrite <- qsum_opp, <- qsum_add. apply qsum_ext. intros f _. unfold leaving. destruct (neighbor m d f) as [[e|]|]; [| ring |]; destruct (Qlt_le_dec 0 _); unfold Qdiv; ring. }
  rewrite L. ring.
Qed.
Print Assumptions C98_range.

(** In particular a uniform temperature stays, if the cells at the boundary have volume 1. *)
Theorem C98_uniform : forall m solve dt h flux Tf T0 rho cp t, sound m -> roomy m -> one_material m h rho cp -> balanced m flux -> 0 < dt -> exact_solver m solve ->
  (forall c, In c (pm_cells m) -> T0 c == t) -> (forall c f, outer m c f -> Tf f == t /\ pm_volume m c == 1) ->
  forall c, In c (pm_cells m) -> temperature m solve dt h flux Tf T0 c == t.
Proof.
  intros m solve dt h flux Tf T0 rho cp t So Ro Hh Hm Hd Ex H0 Hf c Ic.
  pose proof (C98_range m solve dt h flux Tf T0 rho cp t t So Ro Hh Hm Hd Ex) as X. destruct (heat_system m dt h flux Tf T0) as [A b].
  destruct X as (_ & _ & X); [intros d Id; unfold between; rewrite (H0 d Id); split; lra| |destruct (X c Ic); lra].
  intros d f Of. destruct (Hf d f Of) as [E V]. unfold between. rewrite E, V. setoid_replace (t / 1) with t by field. split; [split; lra|intros _; split; lra].
Qed.
Print Assumptions C98_uniform.

(** ** Heat is conserved *)
(** Heat entering through a face of the boundary in unit time: conduction, and convection with the temperature upstream. *)
Definition entering (m : pmesh) (k rc : Q) (flux Tf T : Z -> Q) (f : Z) : Q :=
  let c := pf_owner (pm_face m f) in
  k * pm_area m c f / pm_dist m c f * (Tf f / pm_volume m c - T c) - rc * flux f * (if Qlt_le_dec 0 (flux f) then T c else Tf f).
Definition outer_faces (m : pmesh) : list Z := filter (fun f => match pf_pair (pm_face m f) with None => true | Some _ => false end) (all_faces m).
Lemma qsum_filter {A} (p : A -> bool) (l : list A) g : qsum (filter p l) g == qsum l (fun x => if p x then g x else 0).
Proof. induction l as [|x l IH]; [reflexivity|]. cbn [filter]. rewrite qsum_cons. destruct (p x); [rewrite qsum_cons, IH|rewrite IH]; ring. Qed.
(** If the conductivity is the same in all cells and at the boundary, the heat gained by all cells in a step is what entered through the boundary: nothing is lost or made inside. *)
Theorem C98_conserved : forall m dt h flux Tf T0 T rho cp k, sound m -> 0 < dt ->
  (forall c, In c (pm_cells m) -> h_dens h c == rho /\ h_heat h c == cp /\ h_cond h c == k) -> h_bcond h == k ->
  (let '(A, b) := heat_system m dt h flux Tf T0 in solves m A b T) ->
  qsum (pm_cells m) (fun c => rho * cp * pm_volume m c * (T c - T0 c)) == dt * qsum (outer_faces m) (entering m k (rho * cp) flux Tf T).
Proof.
  intros m dt h flux Tf T0 T rho cp k So Hd Hp Hb St.
  destruct (system_row m h flux Tf rho cp (fun a => a == k) So (fun c Ic => proj1 (Hp c Ic)) (fun c Ic => proj1 (proj2 (Hp c Ic)))) with (dt := dt) (T0 := T0) as (w & Pw & Row);
    [intros a c Pa Ic; apply half_same; [exact Pa|apply (Hp c Ic)]|intros a Pa; now apply half_same|intros c Ic; apply (Hp c Ic)|exact Hd|].
  destruct (heat_system m dt h flux Tf T0) as [A b]. cbn [fst snd] in *.
  assert (Eq : forall c, In c (pm_cells m) -> rho * cp * pm_volume m c * (T c - T0 c) == - dt * qsum (pm_of m c) (fun f => leaving m (rho * cp) flux Tf T (w c f) c f)).
  { intros c Ic. pose proof (Row T c Ic) as R1. rewrite (St c Ic) in R1. set (q := qsum _ _) in *. assert (X : q == - (pm_volume m c * (rho * cp) / dt * (T c - T0 c))) by lra. rewrite X. field. lra. }
  rewrite (qsum_ext _ _ _ Eq), qsum_scale. rewrite (pair_sum m (fun c f => leaving m (rho * cp) flux Tf T (w c f) c f) So). unfold outer_faces. rewrite qsum_filter.
  setoid_replace (- dt * qsum (all_faces m) (fun f => match pf_pair (pm_face m f) with Some nb => leaving m (rho * cp) flux Tf T (w (pf_owner (pm_face m f)) f) (pf_owner (pm_face m f)) f + leaving m (rho * cp) flux Tf T (w nb f) nb f | None => leaving m (rho * cp) flux Tf T (w (pf_owner (pm_face m f)) f) (pf_owner (pm_face m f)) f end))
    with (dt * qsum (all_faces m) (fun f => - match pf_pair (pm_face m f) with Some nb => leaving m (rho * cp) flux Tf T (w (pf_owner (pm_face m f)) f) (pf_owner (pm_face m f)) f + leaving m (rho * cp) flux Tf T (w nb f) nb f | None => leaving m (rho * cp) flux Tf T (w (pf_owner (pm_face m f)) f) (pf_owner (pm_face m f)) f end)) by (rewrite qsum_opp; ring).
  apply Qmult_comp; [reflexivity|]. apply qsum_ext. intros f Hf. apply in_all_faces in Hf. destruct Hf as (c & Ic & If). destruct (pf_pair (pm_face m f)) as [nb|] eqn:P.
  - destruct (so_pair m So c f nb Ic If P) as (_ & B & Fo & Fn & Ar & _). destruct (before_in _ _ _ B) as [Io Ib]. assert (Ne := before_neq _ _ _ (so_cells m So) B).
    destruct (neighbor_pair m _ f nb So Io Fo P) as (d1 & E1 & _ & _ & _ & [[_ ->]|[X _]]); [|congruence].
    destruct (neighbor_pair m _ f nb So Ib Fn P) as (d2 & E2 & _ & _ & _ & [[X _]|[_ ->]]); [congruence|].
    pose proof (Pw _ f Io Fo) as W1. pose proof (Pw _ f Ib Fn) as W2. unfold leaving. rewrite E1, E2. unfold seen. rewrite Z.eqb_refl. set (o := pf_owner (pm_face m f)) in *. destruct (Z.eqb_spec o nb) as [X|_]; [contradiction|].
    set (ws := w o f) in *. set (wn := w nb f) in *.
    assert (C : ws * ((pm_area m o f + pm_area m nb f) * (1 # 2)) / (pm_dist m o f + pm_dist m nb f) * (T o - T nb) + wn * ((pm_area m nb f + pm_area m o f) * (1 # 2)) / (pm_dist m nb f + pm_dist m o f) * (T nb - T o) == 0).
    { rewrite W1, W2, (Qplus_comm (pm_area m nb f)), (Qplus_comm (pm_dist m nb f)). unfold Qdiv. ring. }
    set (x1 := ws * _ / _ * _) in *. set (x2 := wn * _ / _ * _) in *.
    destruct (Qlt_le_dec 0 (flux f)), (Qlt_le_dec 0 (- flux f)); try (exfalso; lra).
    + setoid_replace (- (x1 + rho * cp * flux f * T o + (x2 + rho * cp * - flux f * T o))) with (- (x1 + x2)) by ring. rewrite C. ring.
    + setoid_replace (- (x1 + rho * cp * flux f * T nb + (x2 + rho * cp * - flux f * T nb))) with (- (x1 + x2)) by ring. rewrite C. ring.
    + assert (Z0 : flux f == 0) by lra. setoid_replace (- (x1 + rho * cp * flux f * T nb + (x2 + rho * cp * - flux f * T o))) with (- (x1 + x2) - rho * cp * flux f * (T nb - T o)) by ring. rewrite C, Z0. ring.
  - pose proof (so_alone m So c f Ic If P) as Eo. unfold entering. cbv zeta. rewrite Eo. pose proof (Pw c f Ic If) as W. unfold leaving. rewrite (neighbor_alone m c f P). unfold seen. rewrite Eo, Z.eqb_refl. rewrite W. ring.
Qed.
Print Assumptions C98_conserved.

(** ** Together with the flow *)
(** Fluid between walls: as long as the pressure equations are solved, any number of steps keeps the temperatures in the range given by the start and the walls. *)
Theorem C98_with_flow : forall m su sp st dt h Tf s T rho cp lo hi n, sound m -> closed m -> roomy m -> one_material m h rho cp -> 0 < dt -> exact_solver m st ->
  (forall k, (k < n)%nat -> let q := pressure_system m su dt (fst (Nat.iter k (heat_iterate m su sp st dt h Tf) (s, T))) in solves m (q_A q) (q_b q) (sp (q_A q) (q_b q))) ->
  (forall c, In c (pm_cells m) -> between lo hi (T c)) -> (forall c f, outer m c f -> between lo hi (Tf f / pm_volume m c)) ->
  forall c, In c (pm_cells m) -> between lo hi (snd (Nat.iter n (heat_iterate m su sp st dt h Tf) (s, T)) c).
Proof.
  intros m su sp st dt h Tf s T rho cp lo hi n So Cl Ro Hh Hd Ex Hs H0 Hf. induction n as [|n IH]; [exact H0|].
  assert (IH' := IH (fun k Hk => Hs k (Nat.lt_lt_succ_r _ _ Hk))). specialize (Hs n (Nat.lt_succ_diag_r n)). cbn [Nat.iter nat_rect]. fold (Nat.iter n (heat_iterate m su sp st dt h Tf) (s, T)).
  destruct (Nat.iter n (heat_iterate m su sp st dt h Tf) (s, T)) as [s1 T1]. cbn [fst snd] in *. unfold heat_iterate. cbn [fst snd]. cbv zeta in Hs.
  assert (Hm : balanced m (s_flux (iterate m su sp dt s1))) by (intros c Ic; apply C77_mass_conserved; [exact So|exact Hs|exact Ic|intros f If; now apply (Cl c)]).
  pose proof (C98_range m st dt h (s_flux (iterate m su sp dt s1)) Tf T1 rho cp lo hi So Ro Hh Hm Hd Ex IH') as X. destruct (heat_system m dt h _ Tf T1) as [A b]. apply X.
  intros c f Of. split; [now apply Hf|]. apply outer_pair in Of. destruct Of as (Ic & If & P). destruct (Cl c f Ic If) as [[nb E]|[_ Ty]]; [congruence|].
  unfold seen. rewrite (so_alone m So c f Ic If P), Z.eqb_refl, iterate_flux.
  destruct (correct_alone m (fun c => fst (momentum m dt s1) c c) (sp (q_A (pressure_system m su dt s1)) (q_b (pressure_system m su dt s1))) (q_flux (pressure_system m su dt s1)) (s_pf s1) c f So Ic If P) as [-> _].
  rewrite Ty. intros Bad. exfalso. revert Bad. apply Qle_not_lt. discriminate.
Qed.
Print Assumptions C98_with_flow.

(** ** Cases *)
Example C98_case : let m := pair_mesh walls in let h := setMaterialProperties 2 1 3 in let s := fluid walls vzero (fun _ => vzero) (fun _ => 0) in
  let T := fun c => if (c =? 0)%Z then 1 else 5 in let Tf := setBoundaryTemperature [1; 2; 3]%Z 4 (fun _ => 1) in
  (sound m /\ closed m /\ roomy m /\ one_material m h 2 3 /\ balanced m (s_flux s) /\ exact_solver m solve2 /\ h_bcond h == h_cond h 0%Z) /\
  (forall c, In c (pm_cells m) -> between 1 5 (T c)) /\ (forall c f, outer m c f -> between 1 5 (Tf f / pm_volume m c)) /\
  (let q := pressure_system m solve2 1 s in solves m (q_A q) (q_b q) (solve2 (q_A q) (q_b q))) /\
  let T' := snd (heat_iterate m solve2 solve2 solve2 1 h Tf (s, T)) in 2 < T' 0%Z /\ T' 0%Z < 3 /\ 2 < T' 1%Z /\ T' 1%Z < 3.
Proof.
  cbv zeta. split; [|split; [|split; [|split]]].
  - split; [apply pair_mesh_sound|]. split; [apply pair_mesh_closed|]. split; [intros c I; destruct (pair_mesh_geometry walls c I) as (A & _ & B); auto|].
    split; [split; [reflexivity|split; [reflexivity|split; [discriminate|]]]; intros c _; cbn; repeat split; reflexivity|].
    split; [intros c I; cbn in I; destruct I as [<-|[<-|[]]]; vm_compute; reflexivity|]. split; [apply solve2_exact|reflexivity].
  - intros c _. destruct (c =? 0)%Z; split; discriminate.
  - intros c f _. cbn [pair_mesh pm_volume]. unfold setBoundaryTemperature. cbn [fold_left]. unfold upd. destruct (f =? 3)%Z; [split; discriminate|]. destruct (f =? 2)%Z; [split; discriminate|]. destruct (f =? 1)%Z; split; discriminate.
  - intros c I. cbn in I. destruct I as [<-|[<-|[]]]; vm_compute; reflexivity.
  - vm_compute. repeat split; reflexivity.
Qed.

(** ** Failures *)
(** Two cubes with edges of 1/2: the mesh of [pair_mesh] scaled down. *)
Definition small (m : pmesh) : pmesh := PMesh (pm_cells m) (pm_faces m) (pm_of m) (pm_face m) (fun _ _ => 1 # 4) (fun _ _ => 1 # 4) (pm_normal m) (fun _ => 1 # 8).
(** A uniform temperature does not stay if the cells are not of volume 1: with walls as warm as the fluid at rest the temperature rises from 1 to above 7 in a step, because the heat
    conducted from the boundary is divided by the volume. *)
Theorem C98_uniform_refuted : exists m h T, sound m /\ roomy m /\ one_material m h 1 1 /\ (let '(A, b) := heat_system m 1 h (fun _ => 0) (fun _ => 1) (fun _ => 1) in solves m A b T) /\
  forall c, In c (pm_cells m) -> 7 < T c.
Proof.
  exists (small (pair_mesh walls)), (setMaterialProperties 1 1 1), (temperature (small (pair_mesh walls)) solve2 1 (setMaterialProperties 1 1 1) (fun _ => 0) (fun _ => 1) (fun _ => 1)).
  split; [|split; [|split; [|split]]].
  - destruct (pair_mesh_sound walls) as [A B C D]. constructor; [exact A|exact B|exact C|]. intros c f nb I J E. destruct (D c f nb I J E) as (D1 & D2 & D3 & D4 & _ & D6). cbv zeta. repeat (split; [assumption|]). split; [reflexivity|exact D6].
  - intros c I. split; [reflexivity|]. intros f _. split; reflexivity.
  - split; [reflexivity|split; [reflexivity|split; [discriminate|]]]. intros c _. cbn. repeat split; reflexivity.
  - vm_compute heat_system. intros c I. cbn in I. destruct I as [<-|[<-|[]]]; vm_compute; reflexivity.
  - intros c I. cbn in I. destruct I as [<-|[<-|[]]]; vm_compute; reflexivity.
Qed.
Print Assumptions C98_uniform_refuted.
(** The same mesh with the faces of one cell listed in another order. *)
Definition reordered (m : pmesh) : pmesh :=
  PMesh (pm_cells m) (pm_faces m) (fun c => if (c =? 1)%Z then rev (pm_of m c) else pm_of m c) (pm_face m) (pm_area m) (pm_dist m) (pm_normal m) (pm_volume m).
(** Temperatures depend on the order in which a cell lists its faces, and heat is made or lost inside, unless the conductivity is 1 (that of the boundary): the conductivity of a cell is
    averaged again and again, so the two cells of a face use different ones. *)
Theorem C98_order_refuted : exists m h T0 Tf, sound m /\ sound (reordered m) /\ roomy m /\ h = setMaterialProperties 1 9 1 /\
  ~ temperature (reordered m) solve2 1 h (fun _ => 0) Tf T0 1%Z == temperature m solve2 1 h (fun _ => 0) Tf T0 1%Z.
Proof.
  exists (pair_mesh walls), (setMaterialProperties 1 9 1), (fun c => if (c =? 0)%Z then 1 else 0), (fun _ => 0). split; [apply pair_mesh_sound|]. split; [|split; [|split; [reflexivity|vm_compute; discriminate]]].
  - split.
    + repeat constructor; cbn; intuition discriminate.
    + intros c I. cbn in I. destruct I as [<-|[<-|[]]]; repeat constructor; cbn; intuition discriminate.
    + intros c f I J. cbn in I. destruct I as [<-|[<-|[]]]; cbn in J; repeat (destruct J as [<-|J]; [cbn; intros; (discriminate || reflexivity)|]); destruct J.
    + intros c f nb I J E. cbn in I. assert (f = 0%Z /\ nb = 1%Z) as [-> ->]. { cbn in E. destruct (Z.eqb_spec f 0); [split; [assumption|]; now injection E|discriminate]. }
      cbn. split; [destruct I as [<-|[<-|[]]]; auto|]. split; [exists [], [], []; reflexivity|]. split; [auto|]. split; [auto 8|]. split; [reflexivity|]. repeat split; reflexivity.
  - intros c I. destruct (pair_mesh_geometry walls c I) as (A & _ & B). auto.
Qed.
Print Assumptions C98_order_refuted.
