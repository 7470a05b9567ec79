(** Properties C48 and C49: lattice Boltzmann. *)
From Coq Require Import QArith Qfield ZArith List Lia Lqa Bool Setoid.
From Verif Require Import Prelude Lin_Sum Lbm_Model.
Import ListNotations.
Open Scope Q_scope.

Lemma sum9 (g : nat -> Q) : sum 9 g == g 0%nat + g 1%nat + g 2%nat + g 3%nat + g 4%nat + g 5%nat + g 6%nat + g 7%nat + g 8%nat.
Proof. cbn [sum]. ring. Qed.
Lemma lt9 (P : nat -> Prop) : P 0%nat -> P 1%nat -> P 2%nat -> P 3%nat -> P 4%nat -> P 5%nat -> P 6%nat -> P 7%nat -> P 8%nat -> forall k, (k < 9)%nat -> P k.
Proof. intros. do 9 (destruct k as [|k]; [assumption|]). lia. Qed.

(** ** C48 *)
(** Moments of the equilibrium: density, momentum and momentum flux (pressure rho / 3). *)
Theorem C48_moments : forall rho ux uy,
  sum 9 (fun k => feq k rho ux uy) == rho /\
  sum 9 (fun k => inject_Z (ex k) * feq k rho ux uy) == rho * ux /\ sum 9 (fun k => inject_Z (ey k) * feq k rho ux uy) == rho * uy /\
  sum 9 (fun k => inject_Z (ex k) * inject_Z (ex k) * feq k rho ux uy) == rho * (1 # 3) + rho * ux * ux /\
  sum 9 (fun k => inject_Z (ex k) * inject_Z (ey k) * feq k rho ux uy) == rho * ux * uy /\
  sum 9 (fun k => inject_Z (ey k) * inject_Z (ey k) * feq k rho ux uy) == rho * (1 # 3) + rho * uy * uy.
Proof. intros. unfold feq. repeat match goal with |- _ /\ _ => split end; rewrite sum9; cbn [ex ey wt nth inject_Z]; ring. Qed.
Print Assumptions C48_moments.

(** Relaxation keeps density and momentum of a node, whatever the populations and the relaxation time. *)
Theorem C48_collision : forall tau s i j,
  l_rho s i j == sum 9 (l_f s i j) ->
  l_rho s i j * l_ux s i j == sum 9 (fun k => inject_Z (ex k) * l_f s i j k) ->
  l_rho s i j * l_uy s i j == sum 9 (fun k => inject_Z (ey k) * l_f s i j k) ->
  sum 9 (relaxed tau s i j) == sum 9 (l_f s i j) /\
  sum 9 (fun k => inject_Z (ex k) * relaxed tau s i j k) == sum 9 (fun k => inject_Z (ex k) * l_f s i j k) /\
  sum 9 (fun k => inject_Z (ey k) * relaxed tau s i j k) == sum 9 (fun k => inject_Z (ey k) * l_f s i j k).
Proof.
  intros tau s i j R X Y. destruct (C48_moments (l_rho s i j) (l_ux s i j) (l_uy s i j)) as (M0 & M1 & M2 & _).
  assert (G : forall e : nat -> Q, sum 9 (fun k => e k * feq k (l_rho s i j) (l_ux s i j) (l_uy s i j)) == sum 9 (fun k => e k * l_f s i j k) -> sum 9 (fun k => e k * relaxed tau s i j k) == sum 9 (fun k => e k * l_f s i j k)).
  { intros e E. unfold relaxed. rewrite (sum_ext 9 _ (fun k => e k * l_f s i j k + / tau * (e k * feq k (l_rho s i j) (l_ux s i j) (l_uy s i j) - e k * l_f s i j k))) by (intros; unfold Qdiv; ring).
    rewrite sum_add, sum_scale, sum_sub, E. ring. }
  split; [|split].
  - assert (A := G (fun _ => 1)). rewrite (sum_ext 9 _ (fun k => 1 * relaxed tau s i j k)) by (intros; ring). rewrite (sum_ext 9 (l_f s i j) (fun k => 1 * l_f s i j k)) by (intros; ring). apply A.
    rewrite (sum_ext 9 (fun k => 1 * feq k _ _ _) (fun k => feq k (l_rho s i j) (l_ux s i j) (l_uy s i j))) by (intros; ring). rewrite (sum_ext 9 (fun k => 1 * l_f s i j k) (l_f s i j)) by (intros; ring). rewrite M0. exact R.
  - apply (G (fun k => inject_Z (ex k))). rewrite M1. exact X.
  - apply (G (fun k => inject_Z (ey k))). rewrite M2. exact Y.
Qed.
Print Assumptions C48_collision.

(** The table of opposite speeds: an involution that reverses the speeds and keeps the weights; reversing the populations of a node
    keeps its density and reverses its momentum. *)
Theorem C48_opposite :
  (forall k, (k < 9)%nat -> (op k < 9)%nat /\ op (op k) = k /\ ex (op k) = (- ex k)%Z /\ ey (op k) = (- ey k)%Z /\ wt (op k) = wt k) /\
  (forall g : nat -> Q, sum 9 (fun k => g (op k)) == sum 9 g /\
     sum 9 (fun k => inject_Z (ex k) * g (op k)) == - sum 9 (fun k => inject_Z (ex k) * g k) /\
     sum 9 (fun k => inject_Z (ey k) * g (op k)) == - sum 9 (fun k => inject_Z (ey k) * g k)).
Proof.
  split.
  - apply lt9; cbn; repeat split; lia.
  - intros g. repeat split; rewrite !sum9; cbn [op ex ey nth inject_Z]; ring.
Qed.
Print Assumptions C48_opposite.

(** A step moves every relaxed population one node along its speed, unless it arrives at a frame node or a flagged node; and density
    and velocity of the nodes inside the frame are the moments of their populations afterwards. *)
Theorem C48_step : forall nx ny tau s s' i j, evolve nx ny tau s = Ok s' ->
  (1 <= i < nx)%Z -> (1 <= j < ny)%Z ->
  (l_B s i j <> 1%Z -> forall k, (k < 9)%nat -> l_f s' i j k = relaxed tau s (i - ex k) (j - ey k) k) /\
  (l_B s i j = 1%Z -> forall k, (k < 9)%nat -> l_f s' i j k = relaxed tau s (i + ex k) (j + ey k) (op k)) /\
  l_rho s' i j == sum 9 (l_f s' i j) /\
  (~ l_rho s' i j == 0 -> l_rho s' i j * l_ux s' i j == sum 9 (fun k => inject_Z (ex k) * l_f s' i j k) /\
                          l_rho s' i j * l_uy s' i j == sum 9 (fun k => inject_Z (ey k) * l_f s' i j k)).
Proof.
  intros nx ny tau s s' i j E Hi Hj. unfold evolve in E. destruct (Z.ltb_spec ny 1); [discriminate|]. injection E as <-. cbn [l_f l_rho l_ux l_uy l_B].
  assert (T : ((0 <=? i)%Z && (i <=? nx)%Z && (j =? ny)%Z) = false) by (destruct (Z.eqb_spec j ny); [lia|]; now rewrite andb_false_r). rewrite T.
  assert (In : inner nx ny i j = true) by (unfold inner; rewrite !andb_true_iff, !Z.leb_le, !Z.ltb_lt; lia).
  unfold evolve_f, evolve_rho, evolve_u. rewrite In. split; [|split; [|split]].
  - intros N k Hk. unfold reflected. destruct (Z.eqb_spec (l_B s i j) 1); [contradiction|]. unfold streamed. rewrite In. reflexivity.
  - intros Y k Hk. unfold reflected. rewrite Y. cbn [Z.eqb Pos.eqb]. unfold streamed. rewrite In. destruct (proj1 C48_opposite k Hk) as (_ & _ & Ex & Ey & _). rewrite Ex, Ey. f_equal; lia.
  - reflexivity.
  - intros Nz. unfold evolve_rho. rewrite In. split; field; exact Nz.
Qed.
Print Assumptions C48_step.

Example C48_case : exists s', evolve 3 3 (1 # 2) (set_velocity (set_boundary (init lbm_new) 1 1 1) 1 3 false (1 # 10)) = Ok s' /\
  ~ l_ux s' 2 2 == 0 /\ l_f s' 2 2 8%nat == relaxed (1 # 2) (set_velocity (set_boundary (init lbm_new) 1 1 1) 1 3 false (1 # 10)) 1 3 8.
Proof. eexists. split; [reflexivity|]. split; [vm_compute; discriminate|]. reflexivity. Qed.

(** ** C49 *)
(** Fluid at rest: density one, no velocity, populations in equilibrium, on the whole grid. *)
Definition at_rest (nx ny : Z) (s : lbm) : Prop :=
  forall i j, (0 <= i <= nx)%Z -> (0 <= j <= ny)%Z ->
    l_rho s i j == 1 /\ l_ux s i j == 0 /\ l_uy s i j == 0 /\ forall k, (k < 9)%nat -> l_f s i j k == wt k.

Lemma feq_rest k : feq k 1 0 0 == wt k.
Proof. unfold feq. cbv zeta. ring. Qed.
Lemma feq_proper k r r' x x' y y' : r == r' -> x == x' -> y == y' -> feq k r x y == feq k r' x' y'.
Proof. intros E1 E2 E3. unfold feq. cbv zeta. rewrite E1, E2, E3. reflexivity. Qed.

Lemma rest_step nx ny tau s : (1 <= ny)%Z -> at_rest nx ny s -> exists s', evolve nx ny tau s = Ok s' /\ at_rest nx ny s'.
Proof.
  intros Hn R. unfold evolve. destruct (Z.ltb_spec ny 1); [lia|]. eexists. split; [reflexivity|].
  assert (Rx : forall i j k, (0 <= i <= nx)%Z -> (0 <= j <= ny)%Z -> (k < 9)%nat -> relaxed tau s i j k == wt k).
  { intros i j k Hi Hj Hk. destruct (R i j Hi Hj) as (A & B & C & D). unfold relaxed. rewrite (D k Hk), (feq_proper k _ 1 _ 0 _ 0 A B C), feq_rest. unfold Qdiv. ring. }
  assert (In : forall i j, inner nx ny i j = true -> (1 <= i < nx)%Z /\ (1 <= j < ny)%Z) by (intros i j H1; unfold inner in H1; rewrite !andb_true_iff, !Z.leb_le, !Z.ltb_lt in H1; lia).
  assert (Rf : forall i j k, inner nx ny i j = true -> (k < 9)%nat -> reflected nx ny tau s i j k == wt k).
  { intros i j k H1 Hk. assert (L := In i j H1). assert (St : forall k, (k < 9)%nat -> streamed nx ny tau s i j k == wt k).
    { intros k0 Hk0. unfold streamed. rewrite H1. apply Rx; [| |exact Hk0]; revert Hk0; revert k0; apply lt9; cbn; lia. }
    unfold reflected. destruct (proj1 C48_opposite k Hk) as (Ho & _ & _ & _ & Hw). destruct (l_B s i j =? 1)%Z; [rewrite (St _ Ho), Hw; reflexivity|now apply St]. }
  assert (F : forall i j k, (0 <= i <= nx)%Z -> (0 <= j <= ny)%Z -> (k < 9)%nat -> evolve_f nx ny tau s i j k == wt k).
  { intros i j k Hi Hj Hk. unfold evolve_f. destruct (inner nx ny i j) eqn:E; [now apply Rf|]. now apply R. }
  assert (Rh : forall i j, (0 <= i <= nx)%Z -> (0 <= j <= ny)%Z -> evolve_rho nx ny tau s i j == 1).
  { intros i j Hi Hj. unfold evolve_rho. destruct (inner nx ny i j) eqn:E; [|now apply R]. rewrite (sum_ext 9 _ wt) by (intros; now apply Rf). reflexivity. }
  assert (U : forall (e : nat -> Z) u i j, sum 9 (fun k => inject_Z (e k) * wt k) == 0 -> u i j == 0 -> (0 <= i <= nx)%Z -> (0 <= j <= ny)%Z -> evolve_u e u nx ny tau s i j == 0).
  { intros e u i j E0 U0 Hi Hj. unfold evolve_u. destruct (inner nx ny i j) eqn:E; [|exact U0]. rewrite (sum_ext 9 _ (fun k => inject_Z (e k) * wt k)) by (intros; rewrite Rf by assumption; reflexivity). rewrite E0. unfold Qdiv. ring. }
  intros i j Hi Hj. cbn [l_rho l_ux l_uy l_f]. destruct (R i j Hi Hj) as (_ & X0 & Y0 & _). split; [|split; [|split]].
  - destruct ((0 <=? i)%Z && (i <=? nx)%Z && (j =? ny)%Z); apply Rh; lia.
  - apply U; [reflexivity|exact X0|lia|lia].
  - apply U; [reflexivity|exact Y0|lia|lia].
  - intros k Hk. destruct ((0 <=? i)%Z && (i <=? nx)%Z && (j =? ny)%Z); [|apply F; assumption || lia].
    assert (Zx : sum 9 (fun k => inject_Z (ex k) * wt k) == 0) by reflexivity. assert (Zy : sum 9 (fun k => inject_Z (ey k) * wt k) == 0) by reflexivity.
    assert (R1 := Rh i (ny - 1)%Z Hi ltac:(lia)). destruct (R i ny Hi ltac:(lia)) as (_ & Xn & Yn & _). destruct (R i (ny - 1)%Z Hi ltac:(lia)) as (_ & Xm & Ym & _).
    rewrite (F i (ny - 1)%Z k) by (assumption || lia).
    rewrite (feq_proper k _ 1 _ 0 _ 0 R1 (U ex (l_ux s) i ny Zx Xn Hi ltac:(lia)) (U ey (l_uy s) i ny Zy Yn Hi ltac:(lia))).
    rewrite (feq_proper k _ 1 _ 0 _ 0 R1 (U ex (l_ux s) i (ny - 1)%Z Zx Xm Hi ltac:(lia)) (U ey (l_uy s) i (ny - 1)%Z Zy Ym Hi ltac:(lia))). ring.
Qed.

(** From init() on, with whatever nodes flagged, any number of steps leaves the fluid at rest. The relaxation time must not be zero
    (the code would divide by it). *)
Theorem C49_rest : forall nx ny tau s n, (1 <= ny)%Z -> ~ tau == 0 -> exists s', evolves n nx ny tau (init s) = Ok s' /\ at_rest nx ny s'.
Proof.
  intros nx ny tau s n Hn _. assert (R0 : at_rest nx ny (init s)).
  { intros i j _ _. cbn [init l_rho l_ux l_uy l_f]. split; [reflexivity|]. split; [reflexivity|]. split; [reflexivity|]. intros k _. apply feq_rest. }
  revert R0. generalize (init s). clear s. induction n as [|n IH]; intros s R; [exists s; now split|]. cbn [evolves].
  destruct (rest_step nx ny tau s Hn R) as (s1 & E1 & R1). rewrite E1. cbn [bind]. now apply IH.
Qed.
Print Assumptions C49_rest.

(** What a user sees: density, velocity, populations. *)
Definition same_flow (s t : lbm) : Prop :=
  (forall i j, l_rho s i j = l_rho t i j /\ l_ux s i j = l_ux t i j /\ l_uy s i j = l_uy t i j) /\ (forall i j k, l_f s i j k = l_f t i j k).

(** Flagging nodes of the frame as solid has no effect on the flow, ever. *)
Theorem C49_frame_flags_ignored : forall nx ny tau n s t, (1 <= ny)%Z -> same_flow s t -> (forall i j, inner nx ny i j = true -> l_B s i j = l_B t i j) ->
  exists s' t', evolves n nx ny tau s = Ok s' /\ evolves n nx ny tau t = Ok t' /\ same_flow s' t'.
Proof.
  intros nx ny tau n. induction n as [|n IH]; intros s t Hn [F1 F2] B; [exists s, t; repeat split; auto; apply F1|]. cbn [evolves]. unfold evolve. destruct (Z.ltb_spec ny 1); [lia|]. cbn [bind].
  assert (Rx : forall i j k, relaxed tau s i j k = relaxed tau t i j k) by (intros i j k; unfold relaxed; destruct (F1 i j) as (-> & -> & ->); rewrite F2; reflexivity).
  assert (Rf : forall i j k, inner nx ny i j = true -> reflected nx ny tau s i j k = reflected nx ny tau t i j k) by (intros i j k H1; unfold reflected, streamed; rewrite (B i j H1), H1, !Rx; reflexivity).
  assert (Sm : forall n (g h : nat -> Q), (forall k, g k = h k) -> sum n g = sum n h) by (induction n0; intros g h H1; [reflexivity|]; cbn [sum]; rewrite (IHn0 g h H1), H1; reflexivity).
  assert (Ef : forall i j k, evolve_f nx ny tau s i j k = evolve_f nx ny tau t i j k) by (intros i j k; unfold evolve_f; destruct (inner nx ny i j) eqn:E; [now apply Rf|apply F2]).
  assert (Er : forall i j, evolve_rho nx ny tau s i j = evolve_rho nx ny tau t i j) by (intros i j; unfold evolve_rho; destruct (inner nx ny i j) eqn:E; [apply Sm; intros; now apply Rf|apply F1]).
  assert (Eu : forall e (u v : Z -> Z -> Q), (forall i j, u i j = v i j) -> forall i j, evolve_u e u nx ny tau s i j = evolve_u e v nx ny tau t i j).
  { intros e u v U i j. unfold evolve_u. destruct (inner nx ny i j) eqn:E; [|apply U]. rewrite Er. f_equal. apply Sm. intros k. now rewrite Rf. }
  assert (Ex := Eu ex (l_ux s) (l_ux t) (fun i j => proj1 (proj2 (F1 i j)))). assert (Ey := Eu ey (l_uy s) (l_uy t) (fun i j => proj2 (proj2 (F1 i j)))).
  apply IH; [exact Hn| |exact B]. split; cbn [l_rho l_ux l_uy l_f].
  - intros i j. rewrite !Er, Ex, Ey. repeat split.
  - intros i j k. rewrite !Er, !Ex, !Ey, !Ef. reflexivity.
Qed.
Print Assumptions C49_frame_flags_ignored.

(** A closed cavity with a moving lid, walls flagged: the fluid inside should keep its mass, and does not. *)
Definition cavity : lbm :=
  let s := fold_left (fun s p => set_boundary s (fst p) (snd p) 1) [(0, 0); (1, 0); (2, 0); (0, 1); (2, 1); (0, 2); (2, 2)]%Z (init lbm_new) in
  set_velocity s 1 2 false (1 # 10).
Theorem C49_mass_refuted : exists s', evolves 2 2 2 1 cavity = Ok s' /\ l_rho cavity 1 1 == 1 /\ l_rho s' 1 1 < 1.
Proof. eexists. split; [reflexivity|]. split; [reflexivity|]. vm_compute. reflexivity. Qed.
Print Assumptions C49_mass_refuted.

Example C49_case : exists s', evolves 5 3 2 (3 # 5) (init (set_boundary lbm_new 1 1 1)) = Ok s' /\ l_f s' 1 1 5%nat == 1 # 36.
Proof.
  destruct (C49_rest 3 2 (3 # 5) (set_boundary lbm_new 1 1 1) 5) as (s' & E & R); [lia|discriminate|]. exists s'. split; [exact E|]. destruct (R 1 1)%Z as (_ & _ & _ & F); [lia|lia|]. apply (F 5%nat). lia.
Qed.
