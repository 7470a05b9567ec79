(** Lemmas for C98. *)
From Coq Require Import QArith Qabs ZArith List Bool Lia Lqa Setoid.
From Verif Require Import Prelude Vec Lin_Sum Lin_Exist Piso_Model Piso_Props Heat_Model.
Import ListNotations.
Open Scope Q_scope.

(** ** Square systems over the cells *)
Fixpoint place (l : list Z) (c : Z) : nat := match l with [] => O | d :: r => if (d =? c)%Z then O else S (place r c) end.
Lemma place_nth l : NoDup l -> forall i, (i < length l)%nat -> place l (nth i l 0%Z) = i.
Proof.
  induction l as [|d r IH]; intros N i Hi; [cbn in Hi; lia|]. inversion N; subst. destruct i as [|i]; cbn [nth place]; [now rewrite Z.eqb_refl|]. cbn in Hi.
  destruct (Z.eqb_spec d (nth i r 0%Z)) as [->|]; [exfalso; apply H1; apply nth_In; lia|]. rewrite IH by (assumption || lia). reflexivity.
Qed.
Lemma in_nth (l : list Z) c : In c l -> exists i, (i < length l)%nat /\ nth i l 0%Z = c.
Proof. intros I. destruct (In_nth l c 0%Z I) as (i & Hi & E). eauto. Qed.
Lemma sum_nth (g : Z -> Q) l : Lin_Sum.sum (length l) (fun i => g (nth i l 0%Z)) == qsum l g.
Proof.
  assert (X : forall n (h : nat -> Q), Lin_Sum.sum (S n) h == h O + Lin_Sum.sum n (fun i => h (S i))).
  { intros n h. induction n as [|n IH]; [cbn; ring|]. cbn [Lin_Sum.sum]. cbn [Lin_Sum.sum] in IH. rewrite IH. ring. }
  induction l as [|d r IH]; [reflexivity|]. cbn [length]. rewrite X. cbn [nth]. rewrite IH. reflexivity.
Qed.
Lemma solvable m A : NoDup (pm_cells m) -> (forall x, (forall c, In c (pm_cells m) -> row m A x c == 0) -> forall c, In c (pm_cells m) -> x c == 0) ->
  forall b, exists x, solves m A b x.
Proof.
  intros N K b. set (l := pm_cells m) in *. set (at_ := fun i => nth i l 0%Z).
  assert (R : forall x i, (i < length l)%nat -> Lin_Sum.sum (length l) (fun j => A (at_ i) (at_ j) * x (at_ j)) == row m A x (at_ i)).
  { intros x i _. unfold row. fold l. unfold at_ at 2 3. exact (sum_nth (fun d => A (at_ i) d * x d) l). }
  assert (E : forall (y : nat -> Q) i, (i < length l)%nat -> Lin_Sum.sum (length l) (fun j => A (at_ i) (at_ j) * y j) == row m A (fun c => y (place l c)) (at_ i)).
  { intros y i Hi. rewrite <- (R _ i Hi).
    assert (X : forall n, (n <= length l)%nat -> Lin_Sum.sum n (fun j => A (at_ i) (at_ j) * y j) == Lin_Sum.sum n (fun j => A (at_ i) (at_ j) * y (place l (at_ j)))).
    { induction n as [|n IHn]; intros Hn; [reflexivity|]. cbn [Lin_Sum.sum]. rewrite IHn by lia. replace (place l (at_ n)) with n by (symmetry; unfold at_; apply place_nth; [assumption|lia]). reflexivity. }
    apply X. lia. }
  destruct (square_solvable (length l) (fun i j => A (at_ i) (at_ j))) with (b := fun i => b (at_ i)) as [y Y].
  - intros y Hy i Hi. assert (Z0 := K (fun c => y (place l c))). rewrite <- (place_nth l N i Hi). apply Z0; [|now apply nth_In]. intros c Ic. destruct (in_nth l c Ic) as (k & Hk & <-). etransitivity; [symmetry; exact (E y k Hk)|exact (Hy k Hk)].
  - exists (fun c => y (place l c)). intros c Ic. destruct (in_nth l c Ic) as (k & Hk & <-). etransitivity; [symmetry; exact (E y k Hk)|exact (Y k Hk)].
Qed.

(** ** What a face contributes *)
(** Heat leaving cell [c] through face [f] at temperatures [x], with conductivity [w] and heat capacity [rc] per volume. *)
Definition leaving (m : pmesh) (rc : Q) (flux Tf x : Z -> Q) (w : Q) (c f : Z) : Q :=
  let F := seen m flux c f in
  match neighbor m c f with
  | Some (Some d) => w * ((pm_area m c f + pm_area m d f) * (1 # 2)) / (pm_dist m c f + pm_dist m d f) * (x c - x d) + rc * F * (if Qlt_le_dec 0 F then x c else x d)
  | Some None => 0
  | None => w * pm_area m c f / pm_dist m c f * (x c - Tf f / pm_volume m c) + rc * F * (if Qlt_le_dec 0 F then x c else Tf f)
  end.
Definition roomy (m : pmesh) : Prop := forall c, In c (pm_cells m) -> 0 < pm_volume m c /\ forall f, In f (pm_of m c) -> 0 < pm_area m c f /\ 0 < pm_dist m c f.
Lemma half_same a b c : a == c -> b == c -> (a + b) * (1 # 2) == c.
Proof. intros -> ->. ring. Qed.
Lemma neighbor_in m c f d : sound m -> In c (pm_cells m) -> In f (pm_of m c) -> neighbor m c f = Some (Some d) -> In d (pm_cells m) /\ In f (pm_of m d).
Proof.
  intros S Ic If E. destruct (pf_pair (pm_face m f)) as [nb|] eqn:P; [|rewrite (neighbor_alone m c f P) in E; discriminate].
  destruct (neighbor_pair m c f nb S Ic If P) as (d' & E' & A & B & _). rewrite E in E'. injection E' as <-. auto.
Qed.
Lemma alone_pair m c f : neighbor m c f = None -> pf_pair (pm_face m f) = None.
Proof. unfold neighbor. destruct (pf_pair _); [discriminate|reflexivity]. Qed.

Section faces.
Variables (m : pmesh) (h : thermal) (flux Tf : Z -> Q) (rho cp : Q) (P : Q -> Prop).
Hypotheses (So : sound m) (Hr : forall c, In c (pm_cells m) -> h_dens h c == rho) (Hc : forall c, In c (pm_cells m) -> h_heat h c == cp)
  (Pm : forall a c, P a -> In c (pm_cells m) -> P ((a + h_cond h c) * (1 # 2))) (Pb : forall a, P a -> P ((a + h_bcond h) * (1 # 2))).
Lemma faces_row c : In c (pm_cells m) -> forall l A b v, NoDup l -> (forall f, In f l -> In f (pm_of m c)) -> l_dens v == rho -> l_heat v == cp -> P (l_cond v) ->
  exists w A' b' v', fold_left (heat_face m h flux Tf c) l ((A, b), v) = ((A', b'), v') /\ l_dens v' == rho /\ l_heat v' == cp /\
    (forall f, In f l -> P (w f)) /\
    forall x c', row m A' x c' - b' c' == row m A x c' - b c' + (if (c =? c')%Z then qsum l (fun f => leaving m (rho * cp) flux Tf x (w f) c f) else 0).
Proof.
  intros Ic. induction l as [|f l IH]; intros A b v N Il Vr Vc Vp.
  - exists (fun _ => 0), A, b, v. split; [reflexivity|]. split; [exact Vr|]. split; [exact Vc|]. split; [intros f []|]. intros x c'. cbn [qsum fold_right]. destruct (_ =? _)%Z; ring.
  - inversion N as [|? ? Nf Nl]; subst. assert (If : In f (pm_of m c)) by (apply Il; now left).
    assert (Step : exists w A1 b1 v1, heat_face m h flux Tf c ((A, b), v) f = ((A1, b1), v1) /\ l_dens v1 == rho /\ l_heat v1 == cp /\ P (l_cond v1) /\ P w /\
      forall x c', row m A1 x c' - b1 c' == row m A x c' - b c' + (if (c =? c')%Z then leaving m (rho * cp) flux Tf x w c f else 0)).
    { unfold heat_face, leaving. destruct (neighbor m c f) as [[d|]|] eqn:E.
      - destruct (neighbor_in m c f d So Ic If E) as [Id _]. exists ((l_cond v + h_cond h d) * (1 # 2)). eexists _, _, _. split; [reflexivity|]. cbn [l_dens l_cond l_heat].
        split; [apply half_same; auto|]. split; [apply half_same; auto|]. split; [now apply Pm|]. split; [now apply Pm|].
        intros x c'. rewrite !row_add by assumption. cbn [l_dens l_cond l_heat]. assert (D1 := half_same (l_dens v) (h_dens h d) rho Vr (Hr d Id)). assert (D2 := half_same (l_heat v) (h_heat h d) cp Vc (Hc d Id)).
        destruct (c =? c')%Z; [|ring]. destruct (Qlt_le_dec 0 (seen m flux c f)); rewrite D1, D2; unfold Qdiv; ring.
      - exists (l_cond v), A, b, v. split; [reflexivity|]. split; [exact Vr|]. split; [exact Vc|]. split; [exact Vp|]. split; [exact Vp|]. intros x c'. destruct (_ =? _)%Z; ring.
      - exists ((l_cond v + h_bcond h) * (1 # 2)). eexists _, _, _. split; [reflexivity|]. cbn [l_dens l_cond l_heat]. split; [exact Vr|]. split; [exact Vc|]. split; [now apply Pb|]. split; [now apply Pb|].
        intros x c'. rewrite !row_add by assumption. rewrite !addb_at. destruct (c =? c')%Z; [|ring]. destruct (Qlt_le_dec 0 (seen m flux c f)); rewrite Vr, Vc; unfold Qdiv; ring. }
    destruct Step as (w1 & A1 & b1 & v1 & E1 & R1 & C1 & P1 & Pw & Row1).
    destruct (IH A1 b1 v1 Nl (fun g Hg => Il g (or_intror Hg)) R1 C1 P1) as (w & A' & b' & v' & E' & R' & C' & Pw' & Row').
    exists (upd w f w1), A', b', v'. split; [cbn [fold_left]; rewrite E1; exact E'|]. split; [exact R'|]. split; [exact C'|]. split.
    + intros g [<-|Hg]; [now rewrite upd_eq|]. rewrite upd_ne by congruence. auto.
    + intros x c'. rewrite Row', Row1, qsum_cons, upd_eq.
      assert (X : qsum l (fun g => leaving m (rho * cp) flux Tf x (upd w f w1 g) c g) == qsum l (fun g => leaving m (rho * cp) flux Tf x (w g) c g)).
      { apply qsum_ext. intros g Hg. rewrite upd_ne by congruence. reflexivity. }
      destruct (_ =? _)%Z; [rewrite X|]; ring.
Qed.
Hypothesis (Pc : forall c, In c (pm_cells m) -> P (h_cond h c)).
Lemma system_row dt T0 : 0 < dt -> exists w, (forall c f, In c (pm_cells m) -> In f (pm_of m c) -> P (w c f)) /\
  forall x c, In c (pm_cells m) -> row m (fst (heat_system m dt h flux Tf T0)) x c - snd (heat_system m dt h flux Tf T0) c ==
    qsum (pm_of m c) (fun f => leaving m (rho * cp) flux Tf x (w c f) c f) + pm_volume m c * (rho * cp) / dt * (x c - T0 c).
Proof.
  intros Hd.
  assert (G : forall l A b, NoDup l -> (forall c, In c l -> In c (pm_cells m)) -> exists w A' b', fold_left (heat_cell m dt h flux Tf T0) l (A, b) = (A', b') /\
    (forall c f, In c l -> In f (pm_of m c) -> P (w c f)) /\
    forall x c', In c' (pm_cells m) -> row m A' x c' - b' c' == row m A x c' - b c' + (if existsb (Z.eqb c') l then
      qsum (pm_of m c') (fun f => leaving m (rho * cp) flux Tf x (w c' f) c' f) + pm_volume m c' * (rho * cp) / dt * (x c' - T0 c') else 0)).
  { induction l as [|c l IH]; intros A b N Il; [exists (fun _ _ => 0), A, b; split; [reflexivity|]; split; [intros c f []|]; intros x c' _; cbn; ring|].
    inversion N as [|? ? Nc Nl]; subst. assert (Ic : In c (pm_cells m)) by (apply Il; now left).
    destruct (faces_row c Ic (pm_of m c) A b (load h c) (so_faces m So c Ic) (fun f Hf => Hf) (Hr c Ic) (Hc c Ic) (Pc c Ic)) as (w1 & A1 & b1 & v1 & E1 & R1 & C1 & P1 & Row1).
    cbn [fold_left]. unfold heat_cell at 2. rewrite E1. destruct (Qlt_le_dec 0 dt) as [_|Bad]; [|exfalso; lra].
    destruct (IH (addA A1 c c (pm_volume m c * l_heat v1 * l_dens v1 / dt)) (addb b1 c (pm_volume m c * l_heat v1 * l_dens v1 / dt * T0 c)) Nl (fun d Hd => Il d (or_intror Hd))) as (w & A' & b' & E' & P' & Row').
    exists (upd w c w1), A', b'. split; [exact E'|]. split.
    - intros d f [<-|Hd'] Hf; [rewrite upd_eq; auto|]. rewrite upd_ne by congruence. auto.
    - intros x c' Ic'. rewrite (Row' x c' Ic'), (row_add m A1 c c _ x c' So Ic), addb_at. pose proof (Row1 x c') as Q1. cbn [existsb].
      set (rA := row m A x c') in *. set (rA1 := row m A1 x c') in *. set (bb := b c') in *. set (bb1 := b1 c') in *.
      destruct (Z.eqb_spec c' c) as [Eq|Ne].
      + subst c'. rewrite Z.eqb_refl in *. cbn [orb]. rewrite upd_eq. assert (existsb (Z.eqb c) l = false) as ->.
        { destruct (existsb (Z.eqb c) l) eqn:X; [|reflexivity]. apply existsb_exists in X. destruct X as (y & Hy & Ey). apply Z.eqb_eq in Ey. subst. contradiction. }
        set (S0 := qsum _ _) in *. transitivity (rA1 - bb1 + pm_volume m c * l_heat v1 * l_dens v1 / dt * (x c - T0 c)); [ring|]. rewrite Q1, R1, C1. unfold Qdiv. ring.
      + destruct (Z.eqb_spec c c') as [Eq|_]; [congruence|]. cbn [orb]. rewrite upd_ne by congruence.
        set (Z0 := if existsb _ l then _ else _) in *. transitivity (rA1 - bb1 + Z0); [ring|]. rewrite Q1. ring. }
  destruct (G (pm_cells m) (fun _ _ => 0) (fun _ => 0) (so_cells m So) (fun c Hc' => Hc')) as (w & A' & b' & E' & P' & Row'). exists w. split; [exact P'|].
  intros x c Ic. assert (heat_system m dt h flux Tf T0 = (A', b')) as -> by exact E'. cbn [fst snd]. rewrite (Row' x c Ic). assert (existsb (Z.eqb c) (pm_cells m) = true) as -> by (apply existsb_exists; exists c; split; [exact Ic|apply Z.eqb_refl]).
  assert (row m (fun _ _ => 0) x c == 0) as ->; [|ring]. unfold row. apply qsum_zero. intros. ring.
Qed.
End faces.

(** ** Maximum principle *)
Lemma largest (x : Z -> Q) l : l <> [] -> exists c, In c l /\ forall d, In d l -> x d <= x c.
Proof.
  induction l as [|a l IH]; [contradiction|]. intros _. destruct l as [|b l]; [exists a; split; [now left|]; intros d [<-|[]]; lra|].
  destruct IH as (c & Ic & Hc); [discriminate|]. destruct (Qlt_le_dec (x c) (x a)) as [L|L].
  - exists a. split; [now left|]. intros d [<-|Id]; [lra|]. specialize (Hc d Id). lra.
  - exists c. split; [now right|]. intros d [<-|Id]; auto.
Qed.
Lemma times_pos a b : 0 < a -> 0 < b -> 0 < a * b.
Proof. apply Qmult_lt_0_compat. Qed.
Lemma over_pos a b : 0 < a -> 0 < b -> 0 < a / b.
Proof. intros Ha Hb. apply times_pos; [exact Ha|now apply Qinv_lt_0_compat]. Qed.
Lemma times_nonneg a b : 0 <= a -> 0 <= b -> 0 <= a * b.
Proof. apply Qmult_le_0_compat. Qed.
Section principle.
Variables (m : pmesh) (flux : Z -> Q) (rc dt : Q) (w : Z -> Z -> Q).
Hypotheses (So : sound m) (Ro : roomy m) (Hrc : 0 < rc) (Hdt : 0 < dt)
  (Hw : forall c f, In c (pm_cells m) -> In f (pm_of m c) -> 0 < w c f) (Hm : forall c, In c (pm_cells m) -> mass_error m flux c == 0).
Definition equation (Tf T0 x : Z -> Q) (c : Z) : Q :=
  qsum (pm_of m c) (fun f => leaving m rc flux Tf x (w c f) c f) + pm_volume m c * rc / dt * (x c - T0 c).
Definition fits (P : Q -> Prop) (Tf : Z -> Q) : Prop := forall c f, In c (pm_cells m) -> In f (pm_of m c) -> pf_pair (pm_face m f) = None -> P (Tf f / pm_volume m c) /\ (seen m flux c f < 0 -> P (Tf f)).
Lemma below Tf T0 x hi : (forall c, In c (pm_cells m) -> equation Tf T0 x c == 0) -> (forall c, In c (pm_cells m) -> T0 c <= hi) -> fits (fun t => t <= hi) Tf ->
  forall c, In c (pm_cells m) -> x c <= hi.
Proof.
  intros Eq H0 Hf c0 Ic0. destruct (largest x (pm_cells m)) as (c & Ic & Hc); [intros E; rewrite E in Ic0; destruct Ic0|].
  destruct (Qlt_le_dec hi (x c)) as [L|L]; [exfalso|specialize (Hc c0 Ic0); lra].
  destruct (Ro c Ic) as [Hv Ha].
  assert (S0 : 0 <= qsum (pm_of m c) (fun f => leaving m rc flux Tf x (w c f) c f)).
  { assert (X : qsum (pm_of m c) (fun f => leaving m rc flux Tf x (w c f) c f) == qsum (pm_of m c) (fun f => leaving m rc flux Tf x (w c f) c f - rc * x c * seen m flux c f)).
    { transitivity (qsum (pm_of m c) (fun f => leaving m rc flux Tf x (w c f) c f) - rc * x c * mass_error m flux c); [rewrite (Hm c Ic); ring|].
      unfold mass_error. rewrite <- qsum_scale. unfold Qminus. rewrite <- qsum_opp, <- qsum_add. reflexivity. }
    rewrite X. apply qsum_nonneg. intros f If. destruct (Ha f If) as [Pa Pd]. specialize (Hw c f Ic If). unfold leaving. set (F := seen m flux c f) in *.
    destruct (neighbor m c f) as [[d|]|] eqn:E.
    - destruct (neighbor_in m c f d So Ic If E) as [Id Ifd]. destruct (Ro d Id) as [_ Ha']. destruct (Ha' f Ifd) as [Pa' Pd']. specialize (Hc d Id).
      assert (G : 0 <= w c f * ((pm_area m c f + pm_area m d f) * (1 # 2)) / (pm_dist m c f + pm_dist m d f) * (x c - x d)).
      { apply times_nonneg; [|lra]. apply Qlt_le_weak. apply over_pos; [|lra]. apply times_pos; [exact Hw|]. lra. }
      set (g := _ * (x c - x d)) in *. destruct (Qlt_le_dec 0 F) as [Po|Ne].
      + setoid_replace (g + rc * F * x c - rc * x c * F) with g by ring. exact G.
      + setoid_replace (g + rc * F * x d - rc * x c * F) with (g + rc * ((- F) * (x c - x d))) by ring. assert (0 <= rc * ((- F) * (x c - x d))) by (apply times_nonneg; [lra|apply times_nonneg; lra]). lra.
    - exfalso. unfold neighbor in E. destruct (pf_pair (pm_face m f)) as [nb|] eqn:P; [|discriminate]. destruct (neighbor_pair m c f nb So Ic If P) as (d & E' & _). unfold neighbor in E'. rewrite P in E'. congruence.
    - destruct (Hf c f Ic If (alone_pair m c f E)) as [H1 H2]. assert (G : 0 <= w c f * pm_area m c f / pm_dist m c f * (x c - Tf f / pm_volume m c)).
      { apply times_nonneg; [|lra]. apply Qlt_le_weak. apply over_pos; [|lra]. now apply times_pos. }
      set (g := _ * (x c - Tf f / pm_volume m c)) in *. destruct (Qlt_le_dec 0 F) as [Po|Ne].
      + setoid_replace (g + rc * F * x c - rc * x c * F) with g by ring. exact G.
      + setoid_replace (g + rc * F * Tf f - rc * x c * F) with (g + rc * ((- F) * (x c - Tf f))) by ring.
        destruct (Qlt_le_dec F 0) as [Ng|Nn]; [|assert (F0 : F == 0) by lra; rewrite F0; setoid_replace (g + rc * (- 0 * (x c - Tf f))) with g by ring; exact G].
        specialize (H2 Ng). assert (0 <= rc * ((- F) * (x c - Tf f))) by (apply times_nonneg; [lra|apply times_nonneg; lra]). lra. }
  assert (G : 0 < pm_volume m c * rc / dt * (x c - T0 c)).
  { specialize (H0 c Ic). apply times_pos; [|lra]. apply over_pos; [|exact Hdt]. now apply times_pos. }
  specialize (Eq c Ic). unfold equation in Eq. lra.
Qed.
Lemma equation_opp Tf T0 x c : In c (pm_cells m) -> equation (fun f => - Tf f) (fun c => - T0 c) (fun c => - x c) c == - equation Tf T0 x c.
Proof.
  intros Ic. unfold equation. rewrite (qsum_ext _ _ (fun f => - leaving m rc flux Tf x (w c f) c f)); [rewrite qsum_opp; unfold Qdiv; ring|].
  intros f _. unfold leaving. destruct (neighbor m c f) as [[d|]|]; [| ring |]; destruct (Qlt_le_dec 0 _); unfold Qdiv; ring.
Qed.
Lemma above Tf T0 x lo : (forall c, In c (pm_cells m) -> equation Tf T0 x c == 0) -> (forall c, In c (pm_cells m) -> lo <= T0 c) -> fits (fun t => lo <= t) Tf ->
  forall c, In c (pm_cells m) -> lo <= x c.
Proof.
  intros Eq H0 Hf c Ic. assert (- x c <= - lo); [|lra]. apply (below (fun f => - Tf f) (fun c => - T0 c) (fun c => - x c) (- lo)); [| | |exact Ic].
  - intros d Id. rewrite equation_opp by exact Id. rewrite (Eq d Id). ring.
  - intros d Id. specialize (H0 d Id). lra.
  - intros d f Id If P. destruct (Hf d f Id If P) as [H1 H2]. split; [setoid_replace (- Tf f / pm_volume m d) with (- (Tf f / pm_volume m d)) by (unfold Qdiv; ring); lra|].
    intros Ng. specialize (H2 Ng). lra.
Qed.
(** Differences with the value at zero solve the homogeneous equations. *)
Lemma equation_zero Tf T0 x c : equation (fun _ => 0) (fun _ => 0) x c == equation Tf T0 x c - equation Tf T0 (fun _ => 0) c.
Proof.
  unfold equation. assert (X : qsum (pm_of m c) (fun f => leaving m rc flux (fun _ => 0) x (w c f) c f) == qsum (pm_of m c) (fun f => leaving m rc flux Tf x (w c f) c f) - qsum (pm_of m c) (fun f => leaving m rc flux Tf (fun _ => 0) (w c f) c f)).
  { unfold Qminus. rewrite <- qsum_opp, <- qsum_add. apply qsum_ext. intros f _. unfold leaving. destruct (neighbor m c f) as [[d|]|]; [| ring |]; destruct (Qlt_le_dec 0 _); unfold Qdiv; ring. }
  rewrite X. ring.
Qed.
Lemma regular x : (forall c, In c (pm_cells m) -> equation (fun _ => 0) (fun _ => 0) x c == 0) -> forall c, In c (pm_cells m) -> x c == 0.
Proof.
  intros Eq c Ic. assert (Z1 : forall v, 0 / v == 0) by (intros v; unfold Qdiv; ring).
  assert (x c <= 0) by (apply (below (fun _ => 0) (fun _ => 0) x 0 Eq); [intros; lra| |exact Ic]; intros d f _ _ _; rewrite Z1; split; [lra|intros; lra]).
  assert (0 <= x c) by (apply (above (fun _ => 0) (fun _ => 0) x 0 Eq); [intros; lra| |exact Ic]; intros d f _ _ _; rewrite Z1; split; [lra|intros; lra]). lra.
Qed.
End principle.

(** ** The system *)
Lemma heat_solvable m h flux Tf T0 dt rho cp : sound m -> roomy m -> 0 < rho -> 0 < cp -> 0 < dt -> 0 <= h_bcond h ->
  (forall c, In c (pm_cells m) -> h_dens h c == rho /\ h_heat h c == cp /\ 0 < h_cond h c /\ mass_error m flux c == 0) ->
  (exists x, solves m (fst (heat_system m dt h flux Tf T0)) (snd (heat_system m dt h flux Tf T0)) x) /\
  exists w, (forall c f, In c (pm_cells m) -> In f (pm_of m c) -> 0 < w c f) /\
    forall x, solves m (fst (heat_system m dt h flux Tf T0)) (snd (heat_system m dt h flux Tf T0)) x <-> forall c, In c (pm_cells m) -> equation m flux (rho * cp) dt w Tf T0 x c == 0.
Proof.
  intros So Ro Hr Hc Hd Hb Hp.
  destruct (system_row m h flux Tf rho cp (fun a => 0 < a) So (fun c Ic => proj1 (Hp c Ic)) (fun c Ic => proj1 (proj2 (Hp c Ic)))) with (dt := dt) (T0 := T0) as (w & Pw & Row);
    [intros a c Pa Ic; destruct (Hp c Ic) as (_ & _ & X & _); lra|intros; lra|intros c Ic; apply (Hp c Ic)|exact Hd|].
  set (A := fst _) in *. set (b := snd _) in *.
  assert (Iff : forall x, solves m A b x <-> forall c, In c (pm_cells m) -> equation m flux (rho * cp) dt w Tf T0 x c == 0).
  { intros x. split; intros Sx c Ic; specialize (Row x c Ic); specialize (Sx c Ic); unfold equation in *; [rewrite <- Row, Sx; ring|rewrite Sx in Row; lra]. }
  split; [|exists w; auto]. apply solvable; [apply So|]. intros x Kx. apply (regular m flux (rho * cp) dt w So Ro); [now apply times_pos|exact Hd|exact Pw|intros c Ic; apply (Hp c Ic)|].
  intros c Ic. rewrite (equation_zero m flux (rho * cp) dt w Tf T0). pose proof (Row x c Ic) as R1. pose proof (Row (fun _ => 0) c Ic) as R0. unfold equation. rewrite <- R1, <- R0, (Kx c Ic), row_zero. ring.
Qed.
