(** Properties C44 and C69: finite differences. *)
From Coq Require Import QArith ZArith List Lia Lqa Bool Setoid.
From Verif Require Import Prelude Lin_Sum Lin_Model Lin_Spec Lin_Proofs Fdm_Model Fdm_Proofs.
Import ListNotations.
Open Scope Q_scope.

(** ** C44 *)
(** The laplacian is defined, symmetric and couples neighbours only. *)
Theorem C44_shape : forall dx n fixed, (2 <= n)%nat -> proper n fixed ->
  exists s, fdm_laplacian dx n fixed = Ok s /\ s_dim s = n /\ s_type s <> MT_UNKNOWN /\ symmetric n (s_A s) /\
    forall i j, (i < n)%nat -> (j < n)%nat -> (i + 1 < j \/ j + 1 < i)%nat -> s_A s i j == 0.
Proof.
  intros dx n fixed Hn P. destruct (laplacian_spec dx n fixed P Hn) as (s & E & D & T & A & _). exists s. split; [exact E|]. split; [exact D|]. split; [rewrite T; discriminate|]. split.
  - intros i j Hi Hj. rewrite !A by assumption. unfold lap_row. rewrite (Nat.eqb_sym j i). destruct (Nat.eqb_spec i j) as [->|N]; [reflexivity|]. rewrite (orb_comm (Nat.eqb (j + 1) i)). reflexivity.
  - intros i j Hi Hj F. rewrite A by assumption. unfold lap_row. destruct (Nat.eqb_spec i j), (Nat.eqb_spec (i + 1) j), (Nat.eqb_spec (j + 1) i); try lia. reflexivity.
Qed.
Print Assumptions C44_shape.

Lemma lap_rows dx n fixed s x i : (2 <= n)%nat -> proper n fixed -> fdm_laplacian dx n fixed = Ok s -> (i < n)%nat ->
  row s x i - s_b s i == lap_diag (1 / (dx * dx)) n fixed i * x i + (if Nat.ltb (i + 1) n then 1 / (dx * dx) * x (i + 1)%nat else 0) + (if Nat.ltb 0 i then 1 / (dx * dx) * x (i - 1)%nat else 0)
    - lap_b (1 / (dx * dx)) n fixed i.
Proof.
  intros Hn P E Hi. destruct (laplacian_spec dx n fixed P Hn) as (s' & E' & D & _ & A & B). rewrite E in E'. injection E' as <-. rewrite (B i Hi). unfold row. rewrite D.
  rewrite <- lap_row_sum by exact Hi. assert (Q : sum n (fun j => s_A s i j * x j) == sum n (fun j => lap_row (1 / (dx * dx)) n fixed i j * x j)) by (apply sum_ext; intros j Hj; rewrite (A i j Hi Hj); reflexivity). rewrite Q. reflexivity.
Qed.

(** Matrix times field minus right-hand side, at an inner node: the centred second difference. *)
Theorem C44_inner : forall dx n fixed s u i, proper n fixed -> fdm_laplacian dx n fixed = Ok s -> (0 < i < n - 1)%nat ->
  row s u i - s_b s i == (u (i + 1)%nat - 2 * u i + u (i - 1)%nat) / (dx * dx).
Proof.
  intros dx n fixed s u i P E Hi. rewrite (lap_rows dx n fixed s u i) by (assumption || lia). unfold lap_diag, lap_b.
  destruct (Nat.eqb_spec i 0), (Nat.eqb_spec i (n - 1)), (Nat.ltb_spec (i + 1) n), (Nat.ltb_spec 0 i); try lia. cbn [orb andb]. unfold Qdiv. ring.
Qed.
Print Assumptions C44_inner.

(** At an end: a prescribed value acts as a further node one spacing outside; a free end has no such node. *)
Theorem C44_ends : forall dx n fixed s u, (2 <= n)%nat -> proper n fixed -> fdm_laplacian dx n fixed = Ok s ->
  (~ In 0%nat (keys fixed) -> row s u 0 - s_b s 0%nat == (u 1%nat - u 0%nat) / (dx * dx)) /\
  (~ In (n - 1)%nat (keys fixed) -> row s u (n - 1) - s_b s (n - 1)%nat == (u (n - 2)%nat - u (n - 1)%nat) / (dx * dx)) /\
  (forall v, In (0%nat, v) fixed -> row s u 0 - s_b s 0%nat == (u 1%nat - 2 * u 0%nat + v) / (dx * dx)) /\
  (forall v, In ((n - 1)%nat, v) fixed -> row s u (n - 1) - s_b s (n - 1)%nat == (v - 2 * u (n - 1)%nat + u (n - 2)%nat) / (dx * dx)).
Proof.
  intros dx n fixed s u Hn P E.
  assert (At : forall i v, In (i, v) fixed -> fixed_at fixed i = Some v).
  { intros i v I. destruct (fixed_at fixed i) as [w|] eqn:F.
    - apply fixed_at_in in F. destruct P as [N _]. f_equal. clear - N I F. unfold keys in N. induction fixed as [|[k x] l IH]; [destruct I|]. cbn in N. inversion N; subst.
      destruct I as [I|I], F as [F|F]; [congruence| | |now apply IH].
      + injection I as -> ->. exfalso. apply H1. apply in_map_iff. exists (i, w). now split.
      + injection F as -> ->. exfalso. apply H1. apply in_map_iff. exists (i, v). now split.
    - exfalso. apply (proj1 (fixed_at_none _ _) F). eapply in_keys. exact I. }
  pose proof (lap_rows dx n fixed s u 0 Hn P E ltac:(lia)) as R0. pose proof (lap_rows dx n fixed s u (n - 1) Hn P E ltac:(lia)) as R1.
  replace (n - 1 - 1)%nat with (n - 2)%nat in R1 by lia. unfold lap_diag, lap_b in R0, R1. rewrite is_fixed_at in R0, R1.
  destruct (Nat.ltb_spec (0 + 1) n); [|lia]. destruct (Nat.ltb_spec (n - 1 + 1) n); [lia|]. destruct (Nat.ltb_spec 0 (n - 1)); [|lia].
  rewrite Nat.ltb_irrefl in R0. rewrite Nat.eqb_refl in R0. rewrite Nat.eqb_refl, orb_true_r in R1. cbn [orb plus] in R0.
  split; [|split; [|split]].
  - intros F. apply fixed_at_none in F. rewrite F in R0. cbn [andb negb] in R0. rewrite R0. unfold Qdiv. ring.
  - intros F. apply fixed_at_none in F. rewrite F in R1. cbn [andb negb] in R1. rewrite R1. unfold Qdiv. ring.
  - intros v I. rewrite (At _ _ I) in R0. cbn [andb negb] in R0. rewrite R0. unfold Qdiv. ring.
  - intros v I. rewrite (At _ _ I) in R1. cbn [andb negb] in R1. rewrite R1. unfold Qdiv. ring.
Qed.
Print Assumptions C44_ends.

(** Exact for quadratic functions of the position x0 + i dx at inner nodes; constants give zero when nothing is prescribed. *)
Theorem C44_exact : forall dx n fixed s u, ~ dx == 0 -> proper n fixed -> fdm_laplacian dx n fixed = Ok s ->
  (forall x0 a b c i, (0 < i < n - 1)%nat ->
     (forall j, u j == a + b * (x0 + inject_Z (Z.of_nat j) * dx) + c * (x0 + inject_Z (Z.of_nat j) * dx) * (x0 + inject_Z (Z.of_nat j) * dx)) ->
     row s u i - s_b s i == 2 * c) /\
  (forall c i, (2 <= n)%nat -> fixed = [] -> (forall j, u j == c) -> (i < n)%nat -> row s u i - s_b s i == 0).
Proof.
  intros dx n fixed s u Hx P E. split.
  - intros x0 a b c i Hi U. rewrite (C44_inner dx n fixed s u i P E Hi). rewrite !U.
    replace (Z.of_nat (i + 1)) with (Z.of_nat i + 1)%Z by lia. replace (Z.of_nat (i - 1)) with (Z.of_nat i + - (1))%Z by lia. rewrite !inject_Z_plus. change (inject_Z (- (1))) with (- (1)). change (inject_Z 1) with 1.
    field. exact Hx.
  - intros c i Hn F U Hi. destruct (C44_ends dx n fixed s u Hn P E) as (R0 & R1 & _). subst fixed.
    destruct (Nat.eq_dec i 0) as [->|N0]; [rewrite R0 by (intros []); rewrite !U; field; exact Hx|].
    destruct (Nat.eq_dec i (n - 1)) as [->|N1]; [rewrite R1 by (intros []); rewrite !U; field; exact Hx|].
    rewrite (C44_inner dx n [] s u i P E ltac:(lia)), !U. field. exact Hx.
Qed.
Print Assumptions C44_exact.

(** laplacian(u) = 0 with both ends prescribed has exactly one solution: linear, with the prescribed values one spacing outside the mesh. *)
Theorem C44_dirichlet : forall dx n fixed s a b x, ~ dx == 0 -> (2 <= n)%nat -> proper n fixed -> fdm_laplacian dx n fixed = Ok s ->
  fixed_at fixed 0 = Some a -> fixed_at fixed (n - 1) = Some b ->
  (solves s x <-> forall i, (i < n)%nat -> x i == a + inject_Z (Z.of_nat (i + 1)) * (b - a) / inject_Z (Z.of_nat (n + 1))).
Proof.
  intros dx n fixed s a b x Hx Hn P E Fa Fb. destruct (laplacian_spec dx n fixed P Hn) as (s' & E' & D & T & A & B). rewrite E in E'. injection E' as <-.
  assert (Hh : ~ 1 / (dx * dx) == 0). { intros F. apply Hx. assert (X : 0 < 1 / (dx * dx)); [|lra]. apply Qlt_shift_div_l; [|lra]. destruct (Qlt_le_dec dx 0) as [L|L]; [nra|]. apply Qle_lt_or_eq in L. destruct L as [L|L]; [nra|]. exfalso. apply Hx. lra. }
  replace (n + 1)%nat with (S n) by lia. split.
  - intros S i Hi. replace (i + 1)%nat with (Datatypes.S i) by lia. exact (dirichlet _ n a b fixed x s Hn Hh D A B Fa Fb S i Hi).
  - intros X i Hi. rewrite D in Hi.
    assert (N0 : ~ inject_Z (Z.of_nat (S n)) == 0) by (intros F; unfold Qeq in F; cbn in F; lia).
    destruct (C44_ends dx n fixed s x Hn P E) as (_ & _ & R0 & R1).
    assert (G : row s x i - s_b s i == 0); [|lra].
    destruct (Nat.eq_dec i 0) as [->|N1]; [|destruct (Nat.eq_dec i (n - 1)) as [->|N2]].
    + rewrite (R0 a (fixed_at_in _ _ _ Fa)), !X by lia. change (inject_Z (Z.of_nat (0 + 1))) with 1. change (inject_Z (Z.of_nat (1 + 1))) with 2. field. split; assumption.
    + rewrite (R1 b (fixed_at_in _ _ _ Fb)), !X by lia. replace (Z.of_nat (n - 1 + 1)) with (Z.of_nat (S n) + - (1))%Z by lia. replace (Z.of_nat (n - 2 + 1)) with (Z.of_nat (S n) + - (2))%Z by lia.
      rewrite !inject_Z_plus. change (inject_Z (- (1))) with (- (1)). change (inject_Z (- (2))) with (- (2)). field. split; assumption.
    + rewrite (C44_inner dx n fixed s x i P E ltac:(lia)), !X by lia. replace (Z.of_nat (i + 1 + 1)) with (Z.of_nat (i + 1) + 1)%Z by lia. replace (Z.of_nat (i - 1 + 1)) with (Z.of_nat (i + 1) + - (1))%Z by lia.
      rewrite !inject_Z_plus. change (inject_Z (- (1))) with (- (1)). change (inject_Z 1) with 1. field. split; assumption.
Qed.
Print Assumptions C44_dirichlet.

(** Hence the field after solve(), which puts the prescribed values at the end nodes themselves, is not the linear
    profile between them. *)
Definition ends4 : values := [(0%nat, 0); (3%nat, 1)].
Theorem C44_linear_profile_refuted : exists s x u, proper 4 ends4 /\ fdm_laplacian 1 4 ends4 = Ok s /\ solves s x /\
  eq_solve (fun _ => 0) (fun _ => x) ends4 (eqn_of s) = Ok (4%nat, u) /\ u 0%nat == 0 /\ u 3%nat == 1 /\ u 1%nat == 2 # 5 /\ ~ u 1%nat == 1 # 3.
Proof.
  assert (P : proper 4 ends4) by (split; [repeat constructor; cbn; intuition discriminate|repeat constructor]).
  destruct (laplacian_spec 1 4 ends4 P ltac:(lia)) as (s & E & D & T & _). exists s, (fun i => inject_Z (Z.of_nat (i + 1)) / 5). eexists. split; [exact P|]. split; [exact E|]. split.
  - apply (C44_dirichlet 1 4 ends4 s 0 1 _ ltac:(lra) ltac:(lia) P E eq_refl eq_refl). intros i Hi. change (inject_Z (Z.of_nat (4 + 1))) with 5. field.
  - unfold eq_solve, eqn_of, e_sys, e_elim, sle_solve. rewrite T, D. split; [reflexivity|]. repeat match goal with |- _ /\ _ => split end; vm_compute; congruence.
Qed.
Print Assumptions C44_linear_profile_refuted.

(** A mesh of one node has no neighbour: the operator writes outside the matrix. *)
Theorem C44_one_node_refuted : forall dx fixed, fdm_laplacian dx 1 fixed = UB.
Proof.
  intros dx fixed. unfold fdm_laplacian, fdm_start. destruct (forallb _ fixed); [|reflexivity]. cbn [bind seq foldM]. unfold lap_step. cbn [Nat.eqb]. destruct (fixed_at fixed 0) as [v|]; reflexivity.
Qed.
Print Assumptions C44_one_node_refuted.

(** The divergence operator is the centred first difference at inner nodes ... *)
Theorem C44_divergence : forall dx n u0 fixed, ~ dx == 0 -> (2 <= n)%nat -> proper n fixed ->
  exists s, fdm_divergence dx n u0 fixed = Ok s /\ s_dim s = n /\
    forall u i, (0 < i < n - 1)%nat -> row s u i - s_b s i == (u (i + 1)%nat - u (i - 1)%nat) / (2 * dx).
Proof.
  intros dx n u0 fixed Hx Hn P. destruct (divergence_spec dx n u0 fixed P Hn) as (s & E & D & _ & A & B). exists s. split; [exact E|]. split; [exact D|]. intros u i Hi.
  rewrite (B i ltac:(lia)). unfold row. rewrite D.
  rewrite (sum_ext n _ (fun j => (if Nat.eqb j (i + 1) then 1 / (2 * dx) * u (i + 1)%nat else 0) + (if Nat.eqb j (i - 1) then - (1) / (2 * dx) * u (i - 1)%nat else 0))).
  - rewrite sum_add, !sum_pick. destruct (Nat.ltb_spec (i + 1) n), (Nat.ltb_spec (i - 1) n); try lia. unfold div_b. destruct (Nat.eqb_spec i 0), (Nat.eqb_spec i (n - 1)); try lia.
    assert (Z : match fixed_at fixed i with Some _ => 0 | None => 0 end == 0) by (destruct (fixed_at fixed i); reflexivity). rewrite Z. field. exact Hx.
  - intros j Hj. rewrite (A i j ltac:(lia) Hj). unfold div_row. destruct (Nat.eqb_spec i 0), (Nat.eqb_spec i (n - 1)); try lia. cbn [orb].
    destruct (Nat.eqb_spec (i + 1) j), (Nat.eqb_spec (j + 1) i), (Nat.eqb_spec j (i + 1)), (Nat.eqb_spec j (i - 1)); try lia; subst; try lra.
    replace (j + 1 - 1)%nat with j by lia. lra.
Qed.
Print Assumptions C44_divergence.

(** ... but not at the ends, where it is the identity: a constant field has a non-zero divergence there. *)
Theorem C44_divergence_refuted : forall dx n u, (2 <= n)%nat -> exists s, fdm_divergence dx n u [] = Ok s /\ s_dim s = n /\
  row s (fun _ => 1) 0 - s_b s 0%nat == 1 /\ row s (fun _ => 1) (n - 1) - s_b s (n - 1)%nat == 1.
Proof.
  intros dx n u Hn. destruct (divergence_spec dx n u [] ltac:(split; constructor) Hn) as (s & E & D & _ & A & B). exists s. split; [exact E|]. split; [exact D|].
  assert (R : forall i, (i = 0 \/ i = n - 1)%nat -> row s (fun _ => 1) i - s_b s i == 1).
  { intros i Hi. rewrite (B i ltac:(lia)). unfold row. rewrite D. rewrite (sum_ext n _ (fun j => if Nat.eqb j i then 1 else 0)).
    - rewrite sum_pick. destruct (Nat.ltb_spec i n); [|lia]. unfold div_b. cbn. lra.
    - intros j Hj. rewrite (A i j ltac:(lia) Hj). unfold div_row. rewrite (Nat.eqb_sym j i). destruct (Nat.eqb_spec i 0), (Nat.eqb_spec i (n - 1)); try lia; cbn [orb]; destruct (Nat.eqb i j); lra. }
  split; apply R; lia.
Qed.
Print Assumptions C44_divergence_refuted.

Example C44_case : exists s, fdm_laplacian (1 # 2) 5 [(0%nat, 3)] = Ok s /\ s_A s 0%nat 0%nat == - (8) /\ s_A s 4%nat 4%nat == - (4) /\ s_b s 0%nat == - (12) /\
  row s (fun i => inject_Z (Z.of_nat (i * i))) 2 == 8.
Proof.
  destruct (laplacian_spec (1 # 2) 5 [(0%nat, 3)] ltac:(split; repeat constructor; intros []) ltac:(lia)) as (s & E & D & _ & A & B). exists s. split; [exact E|].
  unfold row. rewrite D. cbn [sum]. rewrite !A, B by lia. repeat match goal with |- _ /\ _ => split end; vm_compute; reflexivity.
Qed.

(** ** C69: implicit heat steps *)
(** Each step has exactly one solution. *)
Theorem C69_unique : forall c alpha dx n u fixed, (2 <= n)%nat -> proper n fixed -> 0 < c -> 0 <= alpha -> ~ dx == 0 ->
  exists s x, heat_system c alpha dx n u fixed = Ok s /\ s_dim s = n /\ solves s x /\
    forall y, solves s y -> forall i, (i < n)%nat -> y i == x i.
Proof.
  intros c alpha dx n u fixed Hn P Hc Ha Hx. destruct (heat_rows c alpha dx n u fixed P Hn) as (s & E & D & _ & R). exists s.
  set (h := 1 / (dx * dx)) in *.
  pose proof (fun i Hi => heat_dominant c alpha dx n fixed i Hc Ha Hx Hi Hn) as Dm. cbv zeta in Dm. fold h in Dm.
  assert (K : 0 <= alpha * h) by (apply (Dm 0%nat); lia).
  destruct (tri_exists n (fun i => c - alpha * lap_diag h n fixed i) (fun i => c * match fixed_at fixed i with Some v => v | None => u i end - alpha * lap_b h n fixed i) (alpha * h) c Hc K ltac:(lia) (fun i Hi => proj2 (Dm i Hi))) as (x & X).
  exists x. split; [exact E|]. split; [exact D|]. split.
  - intros i Hi. rewrite D in Hi. apply (R x i Hi). apply (heat_tri c alpha dx n fixed x _ i Hi Hn). exact (X i Hi).
  - intros y Y.
    assert (Y' : forall i, (i < n)%nat -> (c - alpha * lap_diag h n fixed i) * y i - alpha * h * below y i - alpha * h * above n y i == c * match fixed_at fixed i with Some v => v | None => u i end - alpha * lap_b h n fixed i).
    { intros i Hi. apply (heat_tri c alpha dx n fixed y _ i Hi Hn). apply (R y i Hi). apply Y. now rewrite D. }
    assert (U1 : forall i, (i < n)%nat -> y i - x i <= 0).
    { apply (tri_unique n (fun i => c - alpha * lap_diag h n fixed i) (alpha * h) c (fun i => y i - x i) Hc K (fun i Hi => proj2 (Dm i Hi))). intros i Hi. pose proof (X i Hi) as Xi. pose proof (Y' i Hi) as Yi. cbv beta in Xi. unfold below, above in *.
      destruct (Nat.ltb 0 i), (Nat.ltb (i + 1) n); lra. }
    assert (U2 : forall i, (i < n)%nat -> x i - y i <= 0).
    { apply (tri_unique n (fun i => c - alpha * lap_diag h n fixed i) (alpha * h) c (fun i => x i - y i) Hc K (fun i Hi => proj2 (Dm i Hi))). intros i Hi. pose proof (X i Hi) as Xi. pose proof (Y' i Hi) as Yi. cbv beta in Xi. unfold below, above in *.
      destruct (Nat.ltb 0 i), (Nat.ltb (i + 1) n); lra. }
    intros i Hi. pose proof (U1 i Hi). pose proof (U2 i Hi). lra.
Qed.
Print Assumptions C69_unique.

(** The solution of one step stays between the bounds of the old values and the prescribed values. *)
Lemma heat_min c alpha dx n u fixed x s lo : proper n fixed -> (2 <= n)%nat -> 0 < c -> 0 <= alpha -> ~ dx == 0 ->
  heat_system c alpha dx n u fixed = Ok s -> solves s x ->
  (forall i v, In (i, v) fixed -> lo <= v) -> (forall i, (i < n)%nat -> lo <= u i) -> forall i, (i < n)%nat -> lo <= x i.
Proof.
  intros P Hn Hc Ha Hx E S Fl Ul.
  set (neg := map (fun iv : nat * Q => (fst iv, - snd iv)) fixed).
  assert (Kn : keys neg = keys fixed). { unfold neg, keys. rewrite map_map. reflexivity. }
  assert (Pn : proper n neg). { destruct P as [N F]. split; rewrite Kn; assumption. }
  assert (Fn : forall i, fixed_at neg i = match fixed_at fixed i with Some v => Some (- v) | None => None end).
  { intros i. unfold fixed_at, neg. clear. induction fixed as [|[k w] l IH]; [reflexivity|]. cbn [map find fst snd]. destruct (Nat.eqb k i); [reflexivity|exact IH]. }
  assert (Is : forall i, is_fixed neg i = is_fixed fixed i). { intros i. unfold is_fixed. now rewrite Kn. }
  destruct (heat_rows c alpha dx n u fixed P Hn) as (s' & E' & D & _ & R). rewrite E in E'. injection E' as <-.
  destruct (heat_rows c alpha dx n (fun i => - u i) neg Pn Hn) as (t & Et & Dt & _ & Rt).
  assert (St : solves t (fun i => - x i)).
  { intros i Hi. rewrite Dt in Hi. apply (Rt _ i Hi). specialize (S i ltac:(now rewrite D)). apply (R x i Hi) in S. unfold lap_diag, lap_b in *. rewrite Is, Fn.
    destruct (fixed_at fixed i), (Nat.eqb i 0 || Nat.eqb i (n - 1))%bool, (Nat.ltb (i + 1) n), (Nat.ltb 0 i), (negb (is_fixed fixed i)); cbn [andb] in *; lra. }
  intros i Hi. pose proof (heat_max c alpha dx n _ neg _ t (- lo) Pn Hn Hc Ha Hx Et St) as M. cbv beta in M.
  assert (G : - x i <= - lo); [|lra]. apply M; [| |exact Hi].
  - intros k v I. apply in_map_iff in I. destruct I as ([k' v'] & Q & I). cbn in Q. injection Q as <- <-. specialize (Fl _ _ I). lra.
  - intros k Hk. specialize (Ul k Hk). lra.
Qed.

Theorem C69_bounds : forall c alpha dx n u fixed s x lo hi, (2 <= n)%nat -> proper n fixed -> 0 < c -> 0 <= alpha -> ~ dx == 0 ->
  heat_system c alpha dx n u fixed = Ok s -> solves s x ->
  (forall i v, In (i, v) fixed -> lo <= v <= hi) -> (forall i, (i < n)%nat -> lo <= u i <= hi) ->
  forall i, (i < n)%nat -> lo <= x i <= hi.
Proof.
  intros c alpha dx n u fixed s x lo hi Hn P Hc Ha Hx E S F U i Hi. split.
  - refine (heat_min c alpha dx n u fixed x s lo P Hn Hc Ha Hx E S _ _ i Hi); [intros k v I; apply (F k v I)|intros k Hk; apply (U k Hk)].
  - refine (heat_max c alpha dx n u fixed x s hi P Hn Hc Ha Hx E S _ _ i Hi); [intros k v I; apply (F k v I)|intros k Hk; apply (U k Hk)].
Qed.
Print Assumptions C69_bounds.

(** One time step as users run it: build the equation from the field, solve it exactly, and store the result in the field. *)
Definition time_step (c alpha dx : Q) (n : nat) (fixed : values) (u u' : vec) : Prop :=
  exists junk lin s, heat_system c alpha dx n u fixed = Ok s /\ solves s (lin s) /\ eq_solve junk lin fixed (eqn_of s) = Ok (n, u').

(** Any number of steps stays within the bounds, however large the time step. *)
Theorem C69_all_steps : forall c alpha dx n fixed lo hi (us : nat -> vec), (2 <= n)%nat -> proper n fixed -> 0 < c -> 0 <= alpha -> ~ dx == 0 ->
  (forall i v, In (i, v) fixed -> lo <= v <= hi) -> (forall i, (i < n)%nat -> lo <= us 0%nat i <= hi) ->
  (forall k, time_step c alpha dx n fixed (us k) (us (S k))) ->
  forall k i, (i < n)%nat -> lo <= us k i <= hi.
Proof.
  intros c alpha dx n fixed lo hi us Hn P Hc Ha Hx F U St k. induction k as [|k IH]; [exact U|]. intros i Hi.
  destruct (St k) as (junk & lin & s & E & S & Q). destruct (heat_rows c alpha dx n (us k) fixed P Hn) as (s' & E' & D & T & _). rewrite E in E'. injection E' as <-.
  unfold eq_solve in Q. cbn [eqn_of e_sys e_elim] in Q. unfold sle_solve in Q. rewrite T in Q. rewrite D in Q.
  destruct P as [N Fo]. destruct (set_u_spec n fixed (lin s) N Fo) as (u' & Eu & U1 & U2). rewrite Eu in Q. cbn [bind] in Q. injection Q as Q. rewrite <- Q.
  destruct (in_dec Nat.eq_dec i (keys fixed)) as [I|I].
  - apply in_map_iff in I. destruct I as ([k' v] & K & I). cbn in K. subst k'. rewrite (U1 _ _ I). exact (F _ _ I).
  - rewrite (U2 i I). exact (C69_bounds c alpha dx n (us k) fixed s (lin s) lo hi Hn (conj N Fo) Hc Ha Hx E S F IH i Hi).
Qed.
Print Assumptions C69_all_steps.

(** And each step can be taken. *)
Theorem C69_step_exists : forall c alpha dx n fixed u, (2 <= n)%nat -> proper n fixed -> 0 < c -> 0 <= alpha -> ~ dx == 0 ->
  exists u', time_step c alpha dx n fixed u u' /\ meets fixed u'.
Proof.
  intros c alpha dx n fixed u Hn P Hc Ha Hx. destruct (C69_unique c alpha dx n u fixed Hn P Hc Ha Hx) as (s & x & E & D & S & _).
  destruct (heat_rows c alpha dx n u fixed P Hn) as (s' & E' & _ & T & _). rewrite E in E'. injection E' as <-.
  destruct P as [N Fo]. destruct (set_u_spec n fixed x N Fo) as (u' & Eu & U1 & _). exists u'. split.
  - exists (fun _ => 0), (fun _ => x), s. split; [exact E|]. split; [exact S|]. unfold eq_solve. cbn [eqn_of e_sys e_elim]. unfold sle_solve. rewrite T, D, Eu. reflexivity.
  - intros i v I. rewrite (U1 i v I). reflexivity.
Qed.
Print Assumptions C69_step_exists.

(** Three nodes, the first prescribed at 1, the hat 0, 9, 0 as old values. *)
Example C69_case : exists s, heat_system 4 1 1 3 (fun i => if Nat.eqb i 1 then 9 else 0) [(0%nat, 1)] = Ok s /\
  solves s (fun i => nth i [25 # 13; 85 # 13; 17 # 13] 0).
Proof.
  destruct (heat_rows 4 1 1 3 (fun i => if Nat.eqb i 1 then 9 else 0) [(0%nat, 1)] ltac:(split; repeat constructor; intros []) ltac:(lia)) as (s & E & D & _ & R). exists s. split; [exact E|].
  intros i Hi. rewrite D in Hi. apply (R _ i Hi). destruct i as [|[|[|i]]]; [vm_compute; reflexivity|vm_compute; reflexivity|vm_compute; reflexivity|lia].
Qed.
