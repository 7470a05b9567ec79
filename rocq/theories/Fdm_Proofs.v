From Coq Require Import QArith ZArith List Lia Lqa Bool Setoid.
From Verif Require Import Prelude Lin_Sum Lin_Model Lin_Spec Lin_Proofs Fdm_Model.
Import ListNotations.
Open Scope Q_scope.

Lemma fixed_at_in fixed i v : fixed_at fixed i = Some v -> In (i, v) fixed.
Proof.
  unfold fixed_at. destruct (find _ fixed) as [[k w]|] eqn:E; [|discriminate]. intros H. injection H as <-. apply find_some in E. destruct E as [I E].
  cbn in E. apply Nat.eqb_eq in E. subst k. exact I.
Qed.
Lemma fixed_at_none fixed i : fixed_at fixed i = None <-> ~ In i (keys fixed).
Proof.
  unfold fixed_at. destruct (find _ fixed) as [[k w]|] eqn:E.
  - apply find_some in E. destruct E as [I E]. cbn in E. apply Nat.eqb_eq in E. subst k. split; [discriminate|]. intros H. exfalso. apply H. eapply in_keys. exact I.
  - split; [intros _ H|reflexivity]. apply in_map_iff in H. destruct H as ([k w] & <- & I). apply (find_none _ _ E) in I. cbn in I. rewrite Nat.eqb_refl in I. discriminate.
Qed.

Lemma start_ok n fixed : proper n fixed -> fdm_start n fixed = Ok (Sys MT_SPARSE n (fun _ _ => 0) (fun _ => 0)).
Proof.
  intros [_ F]. unfold fdm_start. assert (E : forallb (fun iv => Nat.ltb (fst iv) n) fixed = true).
  { apply forallb_forall. intros iv I. apply Nat.ltb_lt. rewrite Forall_forall in F. apply F. now apply in_map. }
  now rewrite E.
Qed.

Lemma addA_ok s i j x : (i < s_dim s)%nat -> (j < s_dim s)%nat -> addA s i j x = Ok (Sys (s_type s) (s_dim s) (upd2 (s_A s) i j (s_A s i j + x)) (s_b s)).
Proof. intros Hi Hj. unfold addA. apply Nat.ltb_lt in Hi. apply Nat.ltb_lt in Hj. now rewrite Hi, Hj. Qed.
Lemma setA_ok s i j x : (i < s_dim s)%nat -> (j < s_dim s)%nat -> setA s i j x = Ok (Sys (s_type s) (s_dim s) (upd2 (s_A s) i j x) (s_b s)).
Proof. intros Hi Hj. unfold setA. apply Nat.ltb_lt in Hi. apply Nat.ltb_lt in Hj. now rewrite Hi, Hj. Qed.
Lemma addB_ok s i x : (i < s_dim s)%nat -> addB s i x = Ok (Sys (s_type s) (s_dim s) (s_A s) (upd1 (s_b s) i (s_b s i + x))).
Proof. intros Hi. unfold addB. apply Nat.ltb_lt in Hi. now rewrite Hi. Qed.

(** A loop whose step ii fills row ii of an empty matrix with [R ii] and entry ii of b with [B ii]. *)
Lemma row_loop (step : sys -> nat -> outcome sys) (R : nat -> nat -> Q) (B : nat -> Q) n t :
  (forall s ii, s_dim s = n -> s_type s = t -> (ii < n)%nat -> (forall j, s_A s ii j == 0) -> s_b s ii == 0 ->
     exists s', step s ii = Ok s' /\ s_dim s' = n /\ s_type s' = t /\ (forall j, (j < n)%nat -> s_A s' ii j == R ii j) /\ s_b s' ii == B ii /\
       (forall i j, i <> ii -> s_A s' i j = s_A s i j) /\ (forall i, i <> ii -> s_b s' i = s_b s i)) ->
  forall k, (k <= n)%nat -> exists s, foldM step (seq 0 k) (Sys t n (fun _ _ => 0) (fun _ => 0)) = Ok s /\ s_dim s = n /\ s_type s = t /\
    (forall i j, (i < k)%nat -> (j < n)%nat -> s_A s i j == R i j) /\ (forall i, (i < k)%nat -> s_b s i == B i) /\
    (forall i j, (k <= i)%nat -> s_A s i j == 0) /\ (forall i, (k <= i)%nat -> s_b s i == 0).
Proof.
  intros St. induction k as [|k IH]; intros Hk.
  - exists (Sys t n (fun _ _ => 0) (fun _ => 0)). cbn. repeat split; intros; try lia; reflexivity.
  - destruct (IH ltac:(lia)) as (s & E & D & T & A1 & B1 & A0 & B0).
    assert (App : forall l a s0, foldM step (l ++ [a]) s0 = bind (foldM step l s0) (fun s => foldM step [a] s)).
    { clear. induction l as [|x l IH]; intros a s0; [reflexivity|]. cbn [app foldM]. destruct (step s0 x); cbn [bind]; [apply IH|reflexivity|reflexivity]. }
    rewrite seq_S, App, E. cbn [bind plus]. destruct (St s k D T ltac:(lia) (fun j => A0 k j (Nat.le_refl k)) (B0 k (Nat.le_refl k))) as (s' & E' & D' & T' & R1 & R2 & K1 & K2).
    exists s'. cbn [foldM]. rewrite E'. cbn [bind]. split; [reflexivity|]. split; [exact D'|]. split; [exact T'|]. split; [|split; [|split]].
    + intros i j Hi Hj. destruct (Nat.eq_dec i k) as [->|N]; [now apply R1|]. rewrite K1 by exact N. apply A1; lia.
    + intros i Hi. destruct (Nat.eq_dec i k) as [->|N]; [exact R2|]. rewrite K2 by exact N. apply B1. lia.
    + intros i j Hi. rewrite K1 by lia. apply A0. lia.
    + intros i Hi. rewrite K2 by lia. apply B0. lia.
Qed.

Ltac rw_upd := repeat first [rewrite upd2_same | rewrite upd2_other by (intros EQ; injection EQ; lia) | rewrite upd1_same | rewrite upd1_other by lia].

(** The closed form of the operators. *)
Definition lap_row (h : Q) (n : nat) (fixed : values) (i j : nat) : Q :=
  if Nat.eqb i j then
    (if (Nat.eqb i 0 || Nat.eqb i (n - 1)) && negb (is_fixed fixed i) then - h else - (2) * h)
  else if Nat.eqb (i + 1) j || Nat.eqb (j + 1) i then h else 0.
Definition lap_b (h : Q) (n : nat) (fixed : values) (i : nat) : Q :=
  if Nat.eqb i 0 || Nat.eqb i (n - 1) then match fixed_at fixed i with Some v => - h * v | None => 0 end else 0.

Lemma is_fixed_at fixed i : is_fixed fixed i = match fixed_at fixed i with Some _ => true | None => false end.
Proof.
  destruct (fixed_at fixed i) as [v|] eqn:E.
  - apply is_fixed_true. eapply in_keys. apply fixed_at_in; exact E.
  - apply is_fixed_false. exact (proj1 (fixed_at_none _ _) E).
Qed.

Ltac fin3 i j := unfold upd2, upd1; repeat match goal with |- context [Nat.eqb ?a ?b] => destruct (Nat.eqb_spec a b); try lia end; cbn [andb orb negb].

Lemma laplacian_spec dx n fixed : proper n fixed -> (2 <= n)%nat -> exists s, fdm_laplacian dx n fixed = Ok s /\ s_dim s = n /\ s_type s = MT_SPARSE /\
  (forall i j, (i < n)%nat -> (j < n)%nat -> s_A s i j == lap_row (1 / (dx * dx)) n fixed i j) /\ (forall i, (i < n)%nat -> s_b s i == lap_b (1 / (dx * dx)) n fixed i).
Proof.
  intros P Hn. unfold fdm_laplacian. rewrite start_ok by exact P. cbn [bind].
  destruct (row_loop (lap_step dx n fixed) (lap_row (1 / (dx * dx)) n fixed) (lap_b (1 / (dx * dx)) n fixed) n MT_SPARSE) with (k := n) as (s & E & D & T & A & B & _); [|lia|].
  - intros s ii D T Hii A0 B0. unfold lap_step, lap_row, lap_b. set (h := 1 / (dx * dx)). clearbody h. rewrite is_fixed_at.
    destruct (Nat.eqb_spec ii 0) as [E0|E0]; [|destruct (Nat.ltb_spec ii (n - 1)) as [L|L]; [|destruct (Nat.eqb_spec ii (n - 1)) as [L2|]; [|lia]]].
    + destruct (fixed_at fixed ii) as [v|].
      * rewrite addA_ok by lia. cbn [bind]. rewrite addA_ok by (cbn [s_dim]; lia). cbn [bind]. rewrite addB_ok by (cbn [s_dim]; lia). eexists. split; [reflexivity|]. cbn [s_dim s_type s_A s_b].
        split; [exact D|]. split; [exact T|]. split; [|split; [|split]].
        -- intros j Hj. pose proof (A0 j) as A0j. pose proof (A0 ii) as A0i. pose proof (A0 (ii + 1)%nat) as A0p. fin3 ii j; subst; cbn [orb andb negb]; try lra.
        -- fin3 ii ii. lra.
        -- intros i j Ni. fin3 i j; reflexivity.
        -- intros i Ni. fin3 i i. reflexivity.
      * rewrite addA_ok by lia. cbn [bind]. rewrite addA_ok by (cbn [s_dim]; lia). eexists. split; [reflexivity|]. cbn [s_dim s_type s_A s_b].
        split; [exact D|]. split; [exact T|]. split; [|split; [|split]].
        -- intros j Hj. pose proof (A0 j) as A0j. pose proof (A0 ii) as A0i. pose proof (A0 (ii + 1)%nat) as A0p. fin3 ii j; subst; cbn [orb andb negb]; try lra.
        -- fin3 ii ii. lra.
        -- intros i j Ni. fin3 i j; reflexivity.
        -- intros i Ni. reflexivity.
    + rewrite addA_ok by lia. cbn [bind]. rewrite addA_ok by (cbn [s_dim]; lia). cbn [bind]. rewrite addA_ok by (cbn [s_dim]; lia). eexists. split; [reflexivity|]. cbn [s_dim s_type s_A s_b].
      split; [exact D|]. split; [exact T|]. split; [|split; [|split]].
      * intros j Hj. pose proof (A0 j) as A0j. pose proof (A0 ii) as A0i. pose proof (A0 (ii + 1)%nat) as A0p. pose proof (A0 (ii - 1)%nat) as A0m. fin3 ii j; subst; cbn [orb andb negb]; try lra.
      * fin3 ii ii. lra.
      * intros i j Ni. fin3 i j; reflexivity.
      * intros i Ni. reflexivity.
    + destruct (fixed_at fixed ii) as [v|].
      * rewrite addA_ok by lia. cbn [bind]. rewrite addA_ok by (cbn [s_dim]; lia). cbn [bind]. rewrite addB_ok by (cbn [s_dim]; lia). eexists. split; [reflexivity|]. cbn [s_dim s_type s_A s_b].
        split; [exact D|]. split; [exact T|]. split; [|split; [|split]].
        -- intros j Hj. pose proof (A0 j) as A0j. pose proof (A0 ii) as A0i. pose proof (A0 (ii - 1)%nat) as A0p. fin3 ii j; subst; cbn [orb andb negb]; try lra.
        -- fin3 ii ii. lra.
        -- intros i j Ni. fin3 i j; reflexivity.
        -- intros i Ni. fin3 i i. reflexivity.
      * rewrite addA_ok by lia. cbn [bind]. rewrite addA_ok by (cbn [s_dim]; lia). eexists. split; [reflexivity|]. cbn [s_dim s_type s_A s_b].
        split; [exact D|]. split; [exact T|]. split; [|split; [|split]].
        -- intros j Hj. pose proof (A0 j) as A0j. pose proof (A0 ii) as A0i. pose proof (A0 (ii - 1)%nat) as A0p. fin3 ii j; subst; cbn [orb andb negb]; try lra.
        -- fin3 ii ii. lra.
        -- intros i j Ni. fin3 i j; reflexivity.
        -- intros i Ni. reflexivity.
  - exists s. split; [exact E|]. split; [exact D|]. split; [exact T|]. split; [exact A|exact B].
Qed.

Lemma ddt_spec n u fixed : proper n fixed -> exists s, fdm_ddt n u fixed = Ok s /\ s_dim s = n /\ s_type s = MT_SPARSE /\
  (forall i j, (i < n)%nat -> (j < n)%nat -> s_A s i j == if Nat.eqb i j then 1 else 0) /\
  (forall i, (i < n)%nat -> s_b s i == match fixed_at fixed i with Some v => v | None => u i end).
Proof.
  intros P. unfold fdm_ddt. rewrite start_ok by exact P. cbn [bind].
  destruct (row_loop (ddt_step u fixed) (fun i j => if Nat.eqb i j then 1 else 0) (fun i => match fixed_at fixed i with Some v => v | None => u i end) n MT_SPARSE) with (k := n) as (s & E & D & T & A & B & _); [|lia|].
  - intros s ii D T Hii A0 B0. unfold ddt_step. rewrite addA_ok by lia. cbn [bind]. rewrite addB_ok by (cbn [s_dim]; lia). eexists. split; [reflexivity|]. cbn [s_dim s_type s_A s_b].
    split; [exact D|]. split; [exact T|]. split; [|split; [|split]].
    + intros j Hj. pose proof (A0 j). pose proof (A0 ii). fin3 ii j; subst; try lra.
    + rewrite upd1_same. lra.
    + intros i j Ni. fin3 i j; reflexivity.
    + intros i Ni. fin3 i i. reflexivity.
  - exists s. split; [exact E|]. split; [exact D|]. split; [exact T|]. split; [exact A|exact B].
Qed.

Lemma sum_pick n k c : sum n (fun j => if Nat.eqb j k then c else 0) == if Nat.ltb k n then c else 0.
Proof.
  destruct (Nat.ltb_spec k n) as [L|L].
  - rewrite (sum_single n _ k L); [rewrite Nat.eqb_refl; reflexivity|]. intros i _ N. apply Nat.eqb_neq in N. now rewrite N.
  - apply sum_zero. intros i Hi. destruct (Nat.eqb_spec i k); [lia|reflexivity].
Qed.

Definition lap_diag (h : Q) (n : nat) (fixed : values) (i : nat) : Q :=
  if (Nat.eqb i 0 || Nat.eqb i (n - 1)) && negb (is_fixed fixed i) then - h else - (2) * h.

Lemma lap_row_sum h n fixed x i : (i < n)%nat -> sum n (fun j => lap_row h n fixed i j * x j) ==
  lap_diag h n fixed i * x i + (if Nat.ltb (i + 1) n then h * x (i + 1)%nat else 0) + (if Nat.ltb 0 i then h * x (i - 1)%nat else 0).
Proof.
  intros Hi.
  rewrite (sum_ext n _ (fun j => (if Nat.eqb j i then lap_diag h n fixed i * x i else 0) + (if Nat.eqb j (i + 1) then h * x (i + 1)%nat else 0) + (if Nat.eqb j (i - 1) then (if Nat.ltb 0 i then h * x (i - 1)%nat else 0) else 0))).
  - rewrite sum_add, sum_add, !sum_pick. apply Nat.ltb_lt in Hi. rewrite Hi. apply Nat.ltb_lt in Hi. destruct (Nat.ltb_spec (i - 1) n); [reflexivity|lia].
  - intros j Hj. unfold lap_row, lap_diag. destruct (Nat.ltb_spec 0 i);
    destruct (Nat.eqb_spec i j), (Nat.eqb_spec j i), (Nat.eqb_spec (i + 1) j), (Nat.eqb_spec (j + 1) i), (Nat.eqb_spec j (i + 1)), (Nat.eqb_spec j (i - 1)); try lia; subst; cbn [orb]; try lra.
    all: replace (j + 1 - 1)%nat with j by lia; lra.
Qed.

(** ** The Dirichlet problem *)
Lemma dirichlet h n a b fixed x s : (2 <= n)%nat -> ~ h == 0 -> s_dim s = n ->
  (forall i j, (i < n)%nat -> (j < n)%nat -> s_A s i j == lap_row h n fixed i j) -> (forall i, (i < n)%nat -> s_b s i == lap_b h n fixed i) ->
  fixed_at fixed 0 = Some a -> fixed_at fixed (n - 1) = Some b -> solves s x ->
  forall i, (i < n)%nat -> x i == a + inject_Z (Z.of_nat (S i)) * (b - a) / inject_Z (Z.of_nat (S n)).
Proof.
  intros Hn Hh D A B Fa Fb Sv.
  assert (R : forall i, (i < n)%nat -> lap_diag h n fixed i * x i + (if Nat.ltb (i + 1) n then h * x (i + 1)%nat else 0) + (if Nat.ltb 0 i then h * x (i - 1)%nat else 0) == lap_b h n fixed i).
  { intros i Hi. rewrite <- (B i Hi). rewrite <- (Sv i ltac:(now rewrite D)). unfold row. rewrite D. rewrite <- lap_row_sum by exact Hi. apply sum_ext. intros j Hj. rewrite (A i j Hi Hj). reflexivity. }
  assert (Dg : forall i, (i < n)%nat -> lap_diag h n fixed i == - (2) * h).
  { intros i Hi. unfold lap_diag. rewrite is_fixed_at. destruct (Nat.eqb_spec i 0) as [->|]; [rewrite Fa; reflexivity|]. destruct (Nat.eqb_spec i (n - 1)) as [->|]; [rewrite Fb; reflexivity|reflexivity]. }
  assert (X : forall y, h * y == 0 -> y == 0). { intros y E. apply Qmult_integral in E. tauto. }
  assert (S1 : forall k, (S k < n)%nat -> x (S k) == (if Nat.eqb k 0 then 2 * x 0%nat - a else 2 * x k - x (k - 1)%nat)).
  { intros k Hk. specialize (R k ltac:(lia)). rewrite (Dg k ltac:(lia)) in R. replace (k + 1)%nat with (S k) in R by lia. destruct (Nat.ltb_spec (S k) n); [|lia].
    unfold lap_b in R. destruct (Nat.eqb_spec k 0) as [K0|Nk]; [rewrite K0 in *|].
    - rewrite Fa in R. cbn [Nat.ltb Nat.leb orb] in R. assert (E : h * (x 1%nat - 2 * x 0%nat + a) == 0) by lra. apply X in E. lra.
    - destruct (Nat.eqb_spec k (n - 1)); [lia|]. cbn [orb] in R. destruct (Nat.ltb_spec 0 k); [|lia]. assert (E : h * (x (S k) - 2 * x k + x (k - 1)%nat) == 0) by lra. apply X in E. lra. }
  set (d := x 0%nat - a).
  assert (L : forall i, (i < n)%nat -> x i == a + inject_Z (Z.of_nat (1 + i)) * d).
  { intros i. induction i as [i IH] using lt_wf_ind. intros Hi. destruct i as [|[|i]].
    - change (inject_Z (Z.of_nat (1 + 0))) with 1. unfold d. lra.
    - rewrite S1 by lia. cbn [Nat.eqb]. change (inject_Z (Z.of_nat (1 + 1))) with 2. unfold d. lra.
    - rewrite S1 by lia. cbn [Nat.eqb]. replace (S i - 1)%nat with i by lia. rewrite (IH (S i)), (IH i) by lia.
      replace (Z.of_nat (1 + S (S i))) with (Z.of_nat i + 3)%Z by lia. replace (Z.of_nat (1 + S i)) with (Z.of_nat i + 2)%Z by lia. replace (Z.of_nat (1 + i)) with (Z.of_nat i + 1)%Z by lia.
      rewrite !inject_Z_plus. change (inject_Z 3) with 3. change (inject_Z 2) with 2. change (inject_Z 1) with 1. lra. }
  assert (E : inject_Z (Z.of_nat (1 + n)) * d == b - a).
  { specialize (R (n - 1)%nat ltac:(lia)). rewrite (Dg (n - 1)%nat ltac:(lia)) in R. destruct (Nat.ltb_spec (n - 1 + 1) n); [lia|]. destruct (Nat.ltb_spec 0 (n - 1)); [|lia].
    unfold lap_b in R. rewrite Nat.eqb_refl, orb_true_r, Fb in R. assert (E : h * (- (2) * x (n - 1)%nat + x (n - 1 - 1)%nat + b) == 0) by lra. apply X in E.
    rewrite (L (n - 1)%nat), (L (n - 1 - 1)%nat) in E by lia.
    replace (Z.of_nat (1 + (n - 1))) with (Z.of_nat n) in E by lia. replace (Z.of_nat (1 + (n - 1 - 1))) with (Z.of_nat n - 1)%Z in E by lia. replace (Z.of_nat (1 + n)) with (Z.of_nat n + 1)%Z by lia.
    unfold Z.sub in E. rewrite inject_Z_plus in *. change (inject_Z (- (1))) with (- (1)) in E. change (inject_Z 1) with 1. lra. }
  intros i Hi. rewrite (L i Hi). change (1 + i)%nat with (S i). change (1 + n)%nat with (S n) in E. rewrite <- E. field.
  intros F. unfold Qeq in F. cbn in F. lia.
Qed.

(** ** Maximum principle *)
Lemma argmax (x : vec) n : (1 <= n)%nat -> exists i, (i < n)%nat /\ forall j, (j < n)%nat -> x j <= x i.
Proof.
  induction n as [|n IH]; intros H; [lia|]. destruct (Nat.eq_dec n 0) as [->|N].
  - exists 0%nat. split; [lia|]. intros j Hj. replace j with 0%nat by lia. lra.
  - destruct (IH ltac:(lia)) as (i & Hi & M). destruct (Qlt_le_dec (x i) (x n)) as [L|L].
    + exists n. split; [lia|]. intros j Hj. destruct (Nat.eq_dec j n) as [->|]; [lra|]. specialize (M j ltac:(lia)). lra.
    + exists i. split; [lia|]. intros j Hj. destruct (Nat.eq_dec j n) as [->|]; [lra|]. apply M. lia.
Qed.

Lemma heat_rows c alpha dx n u fixed : proper n fixed -> (2 <= n)%nat -> exists s, heat_system c alpha dx n u fixed = Ok s /\ s_dim s = n /\ s_type s = MT_SPARSE /\
  forall x i, (i < n)%nat -> (row s x i == s_b s i <->
    c * x i - alpha * (lap_diag (1 / (dx * dx)) n fixed i * x i + (if Nat.ltb (i + 1) n then 1 / (dx * dx) * x (i + 1)%nat else 0) + (if Nat.ltb 0 i then 1 / (dx * dx) * x (i - 1)%nat else 0))
    == c * (match fixed_at fixed i with Some v => v | None => u i end) - alpha * lap_b (1 / (dx * dx)) n fixed i).
Proof.
  intros P Hn. unfold heat_system. destruct (ddt_spec n u fixed P) as (d & Ed & Dd & Td & Ad & Bd). destruct (laplacian_spec dx n fixed P Hn) as (l & El & Dl & Tl & Al & Bl).
  rewrite Ed, El. cbn [bind]. unfold sys_sub. cbn [sys_scale s_dim]. rewrite Dd, Dl, Nat.eqb_refl. cbn [bind]. eexists. split; [reflexivity|]. cbn [assign_real s_dim s_type sys_scale s_b s_A]. rewrite Td, Tl.
  split; [reflexivity|]. split; [reflexivity|]. intros x i Hi. unfold row. cbn [s_dim s_A]. rewrite (Bd i Hi), (Bl i Hi).
  assert (E : sum n (fun j => (c * s_A d i j - alpha * s_A l i j) * x j) == c * x i - alpha * (lap_diag (1 / (dx * dx)) n fixed i * x i + (if Nat.ltb (i + 1) n then 1 / (dx * dx) * x (i + 1)%nat else 0) + (if Nat.ltb 0 i then 1 / (dx * dx) * x (i - 1)%nat else 0))).
  { rewrite <- lap_row_sum by exact Hi. rewrite <- sum_scale. assert (P1 : c * x i == sum n (fun j => if Nat.eqb j i then c * x i else 0)) by (rewrite sum_pick; apply Nat.ltb_lt in Hi; rewrite Hi; reflexivity). rewrite P1.
    rewrite <- sum_sub. apply sum_ext. intros j Hj. rewrite (Ad i j Hi Hj), (Al i j Hi Hj). destruct (Nat.eqb_spec i j) as [->|N]; [rewrite Nat.eqb_refl; lra|]. destruct (Nat.eqb_spec j i); [congruence|lra]. }
  rewrite E. split; intros H; lra.
Qed.

Lemma heat_max c alpha dx n u fixed x s hi : proper n fixed -> (2 <= n)%nat -> 0 < c -> 0 <= alpha -> ~ dx == 0 ->
  heat_system c alpha dx n u fixed = Ok s -> solves s x ->
  (forall i v, In (i, v) fixed -> v <= hi) -> (forall i, (i < n)%nat -> u i <= hi) -> forall i, (i < n)%nat -> x i <= hi.
Proof.
  intros P Hn Hc Ha Hx E Sv Fh Uh. destruct (argmax x n ltac:(lia)) as (m & Hm & M).
  assert (G : x m <= hi); [|intros i Hi; specialize (M i Hi); lra].
  destruct (heat_rows c alpha dx n u fixed P Hn) as (s' & E' & D & _ & R). rewrite E in E'. injection E' as <-.
  specialize (Sv m ltac:(now rewrite D)). apply (R x m Hm) in Sv. clear R.
  assert (Hh : 0 < 1 / (dx * dx)). { apply Qlt_shift_div_l; [|lra]. destruct (Qlt_le_dec dx 0); nra. }
  set (h := 1 / (dx * dx)) in *. clearbody h. set (k := alpha * h). assert (Hk : 0 <= k) by (unfold k; nra).
  assert (Old : match fixed_at fixed m with Some v => v | None => u m end <= hi).
  { destruct (fixed_at fixed m) as [v|] eqn:F; [apply (Fh m v), fixed_at_in, F|now apply Uh]. }
  destruct (Qlt_le_dec hi (x m)) as [L|L]; [exfalso|exact L].
  assert (Up : Nat.ltb (m + 1) n = true -> x (m + 1)%nat <= x m) by (intros H; apply M; now apply Nat.ltb_lt).
  assert (Dn : Nat.ltb 0 m = true -> x (m - 1)%nat <= x m) by (intros H; apply M; lia).
  unfold lap_diag, lap_b in Sv. rewrite is_fixed_at in Sv. destruct (fixed_at fixed m) as [v|] eqn:F.
  - assert (Hv : v <= hi) by exact Old. rewrite andb_false_r in Sv.
    destruct (Nat.ltb_spec (m + 1) n) as [L1|L1], (Nat.ltb_spec 0 m) as [L0|L0]; try specialize (Up eq_refl); try specialize (Dn eq_refl);
      destruct (Nat.eqb_spec m 0), (Nat.eqb_spec m (n - 1)); try lia; cbn [orb] in Sv.
    + assert (X : c * x m == c * v + k * (x (m + 1)%nat - 2 * x m + x (m - 1)%nat)) by (unfold k; lra). nra.
    + assert (X : c * x m == c * v + k * (x (m + 1)%nat - 2 * x m + v)) by (unfold k; lra). nra.
    + assert (X : c * x m == c * v + k * (x (m - 1)%nat - 2 * x m + v)) by (unfold k; lra). nra.
  - set (v := u m) in *.
    destruct (Nat.ltb_spec (m + 1) n) as [L1|L1], (Nat.ltb_spec 0 m) as [L0|L0]; try specialize (Up eq_refl); try specialize (Dn eq_refl);
      destruct (Nat.eqb_spec m 0), (Nat.eqb_spec m (n - 1)); try lia; cbn [orb andb negb] in Sv.
    + assert (X : c * x m == c * v + k * (x (m + 1)%nat - 2 * x m + x (m - 1)%nat)) by (unfold k; lra). nra.
    + assert (X : c * x m == c * v + k * (x (m + 1)%nat - x m)) by (unfold k; lra). nra.
    + assert (X : c * x m == c * v + k * (x (m - 1)%nat - x m)) by (unfold k; lra). nra.
Qed.

(** Diagonally dominant tridiagonal systems: existence and uniqueness. *)
Definition below (x : vec) (i : nat) : Q := if Nat.ltb 0 i then x (i - 1)%nat else 0.
Definition above (n : nat) (x : vec) (i : nat) : Q := if Nat.ltb (i + 1) n then x (i + 1)%nat else 0.

Lemma tri_unique n (d : vec) k (c : Q) x : 0 < c -> 0 <= k ->
  (forall i, (i < n)%nat -> c + (if Nat.ltb 0 i then k else 0) + (if Nat.ltb (i + 1) n then k else 0) <= d i) ->
  (forall i, (i < n)%nat -> d i * x i - k * below x i - k * above n x i == 0) -> forall i, (i < n)%nat -> x i <= 0.
Proof.
  intros Hc Hk Dom R i Hi. destruct (argmax x n ltac:(lia)) as (m & Hm & M).
  assert (G : x m <= 0); [|specialize (M i Hi); lra].
  destruct (Qlt_le_dec 0 (x m)) as [L|L]; [exfalso|exact L].
  specialize (R m Hm). specialize (Dom m Hm). unfold below, above in R.
  destruct (Nat.ltb_spec (m + 1) n) as [L1|L1], (Nat.ltb_spec 0 m) as [L0|L0].
  - pose proof (M (m + 1)%nat ltac:(lia)). pose proof (M (m - 1)%nat ltac:(lia)). nra.
  - pose proof (M (m + 1)%nat ltac:(lia)). nra.
  - pose proof (M (m - 1)%nat ltac:(lia)). nra.
  - nra.
Qed.

Lemma tri_exists n (d r : vec) k (c : Q) : 0 < c -> 0 <= k -> (1 <= n)%nat ->
  (forall i, (i < n)%nat -> c + (if Nat.ltb 0 i then k else 0) + (if Nat.ltb (i + 1) n then k else 0) <= d i) ->
  exists x, forall i, (i < n)%nat -> d i * x i - k * below x i - k * above n x i == r i.
Proof.
  intros Hc Hk Hn Dom.
  assert (A : forall m, (S m < n)%nat -> exists p q, 0 <= p /\ p < 1 /\ forall y, exists x, x (S m) = y /\ x m == p * y + q /\
    forall i, (i <= m)%nat -> d i * x i - k * below x i - k * above n x i == r i).
  { induction m as [|m IH]; intros Hm.
    - pose proof (Dom 0%nat ltac:(lia)) as D0. rewrite Nat.ltb_irrefl in D0. destruct (Nat.ltb_spec (0 + 1) n) as [L1|]; [|lia]. apply Nat.ltb_lt in L1.
      exists (k / d 0%nat), (r 0%nat / d 0%nat). split; [apply Qle_shift_div_l; lra|]. split; [apply Qlt_shift_div_r; lra|]. intros y.
      exists (fun i => if Nat.eqb i 0 then (k * y + r 0%nat) / d 0%nat else y). split; [reflexivity|]. cbn [Nat.eqb]. split; [field; lra|].
      intros i Hi. replace i with 0%nat by lia. unfold below, above. rewrite L1, Nat.ltb_irrefl. cbn [Nat.eqb plus]. field. lra.
    - destruct (IH ltac:(lia)) as (p & q & P0 & P1 & X). pose proof (Dom (S m) ltac:(lia)) as D0.
      destruct (Nat.ltb_spec 0 (S m)); [|lia]. destruct (Nat.ltb_spec (S m + 1) n); [|lia].
      assert (Pk : k * p <= k) by nra. assert (E : k < d (S m) - k * p) by lra.
      exists (k / (d (S m) - k * p)), ((k * q + r (S m)) / (d (S m) - k * p)). split; [apply Qle_shift_div_l; lra|]. split; [apply Qlt_shift_div_r; lra|]. intros y.
      set (z := (k * y + k * q + r (S m)) / (d (S m) - k * p)). destruct (X z) as (x & X1 & X2 & X3).
      exists (fun i => if Nat.ltb i (S (S m)) then x i else y). rewrite Nat.ltb_irrefl. split; [reflexivity|].
      destruct (Nat.ltb_spec (S m) (S (S m))); [|lia]. split; [rewrite X1; unfold z; field; lra|].
      intros i Hi. destruct (Nat.eq_dec i (S m)) as [->|N].
      + unfold below, above. destruct (Nat.ltb_spec 0 (S m)); [|lia]. destruct (Nat.ltb_spec (S m + 1) n); [|lia]. destruct (Nat.ltb_spec (S m) (S (S m))); [|lia].
        destruct (Nat.ltb_spec (S m - 1) (S (S m))); [|lia]. destruct (Nat.ltb_spec (S m + 1) (S (S m))); [lia|]. replace (S m - 1)%nat with m by lia. rewrite X2, X1. unfold z. field. lra.
      + rewrite <- (X3 i ltac:(lia)). unfold below, above. destruct (Nat.ltb_spec i (S (S m))); [|lia]. destruct (Nat.ltb_spec (i - 1) (S (S m))); [|lia]. destruct (Nat.ltb_spec (i + 1) (S (S m))); [|lia]. reflexivity. }
  destruct (Nat.eq_dec n 1) as [->|N1].
  - pose proof (Dom 0%nat ltac:(lia)) as D0. cbn in D0. exists (fun _ => r 0%nat / d 0%nat). intros i Hi. replace i with 0%nat by lia. unfold below, above. cbn [Nat.ltb Nat.leb plus]. field. lra.
  - destruct (A (n - 2)%nat ltac:(lia)) as (p & q & P0 & P1 & X). replace (S (n - 2)) with (n - 1)%nat in X by lia.
    pose proof (Dom (n - 1)%nat ltac:(lia)) as D0. destruct (Nat.ltb_spec 0 (n - 1)); [|lia]. destruct (Nat.ltb_spec (n - 1 + 1) n); [lia|].
    assert (Pk : k * p <= k) by nra. destruct (X ((k * q + r (n - 1)%nat) / (d (n - 1)%nat - k * p))) as (x & X1 & X2 & X3). exists x. intros i Hi.
    destruct (Nat.eq_dec i (n - 1)) as [->|N]; [|apply X3; lia]. unfold below, above. destruct (Nat.ltb_spec 0 (n - 1)); [|lia]. destruct (Nat.ltb_spec (n - 1 + 1) n); [lia|].
    replace (n - 1 - 1)%nat with (n - 2)%nat by lia. rewrite X2, X1. field. lra.
Qed.

Lemma heat_tri c alpha dx n fixed x r i : (i < n)%nat -> (2 <= n)%nat ->
  let h := 1 / (dx * dx) in
  (c * x i - alpha * (lap_diag h n fixed i * x i + (if Nat.ltb (i + 1) n then h * x (i + 1)%nat else 0) + (if Nat.ltb 0 i then h * x (i - 1)%nat else 0)) == r <->
   (c - alpha * lap_diag h n fixed i) * x i - alpha * h * below x i - alpha * h * above n x i == r).
Proof. intros Hi Hn h. unfold below, above. destruct (Nat.ltb (i + 1) n), (Nat.ltb 0 i); split; intros H; lra. Qed.

Lemma heat_dominant c alpha dx n fixed i : 0 < c -> 0 <= alpha -> ~ dx == 0 -> (i < n)%nat -> (2 <= n)%nat ->
  let h := 1 / (dx * dx) in
  0 <= alpha * h /\ c + (if Nat.ltb 0 i then alpha * h else 0) + (if Nat.ltb (i + 1) n then alpha * h else 0) <= c - alpha * lap_diag h n fixed i.
Proof.
  intros Hc Ha Hx Hi Hn h. assert (Hh : 0 < h). { apply Qlt_shift_div_l; [|lra]. destruct (Qlt_le_dec dx 0); nra. }
  clearbody h. assert (K : 0 <= alpha * h) by nra. split; [exact K|]. unfold lap_diag.
  destruct (Nat.ltb_spec 0 i), (Nat.ltb_spec (i + 1) n), (Nat.eqb_spec i 0), (Nat.eqb_spec i (n - 1)); try lia; cbn [orb andb]; destruct (negb (is_fixed fixed i)); cbn [andb]; nra.
Qed.

(** ** Divergence *)
Definition div_row (dx : Q) (n : nat) (i j : nat) : Q :=
  if Nat.eqb i 0 || Nat.eqb i (n - 1) then (if Nat.eqb i j then 1 else 0)
  else if Nat.eqb (i + 1) j then 1 / (2 * dx) else if Nat.eqb (j + 1) i then - (1) / (2 * dx) else 0.
Definition div_b (dx : Q) (n : nat) (u : vec) (fixed : values) (i : nat) : Q :=
  match fixed_at fixed i with
  | Some v => if Nat.eqb i 0 then - (u 1%nat - v) / dx else if Nat.eqb i (n - 1) then - (v - u (n - 2)%nat) / dx else 0
  | None => 0
  end.
Lemma divergence_spec dx n u fixed : proper n fixed -> (2 <= n)%nat -> exists s, fdm_divergence dx n u fixed = Ok s /\ s_dim s = n /\ s_type s = MT_SPARSE /\
  (forall i j, (i < n)%nat -> (j < n)%nat -> s_A s i j == div_row dx n i j) /\ (forall i, (i < n)%nat -> s_b s i == div_b dx n u fixed i).
Proof.
  intros P Hn. unfold fdm_divergence. rewrite start_ok by exact P. cbn [bind].
  destruct (row_loop (div_step dx n u fixed) (div_row dx n) (div_b dx n u fixed) n MT_SPARSE) with (k := n) as (s & E & D & T & A & B & _); [|lia|].
  - intros s ii D T Hii A0 B0. unfold div_step, div_row, div_b.
    destruct (Nat.eqb_spec ii 0) as [E0|E0]; [|destruct (Nat.ltb_spec ii (n - 1)) as [L|L]; [|destruct (Nat.eqb_spec ii (n - 1)) as [L2|]; [|lia]]].
    + rewrite setA_ok by lia. cbn [bind]. destruct (fixed_at fixed ii) as [v|].
      * destruct (Nat.ltb_spec (ii + 1) n); [|lia]. rewrite addB_ok by (cbn [s_dim]; lia). eexists. split; [reflexivity|]. cbn [s_dim s_type s_A s_b].
        split; [exact D|]. split; [exact T|]. split; [|split; [|split]].
        -- intros j Hj. pose proof (A0 j) as A0j. fin3 ii j; subst; cbn [orb andb negb]; try lra.
        -- rewrite upd1_same, E0. cbn [plus]. rewrite E0 in B0. lra.
        -- intros i j Ni. fin3 i j; reflexivity.
        -- intros i Ni. fin3 i i. reflexivity.
      * eexists. split; [reflexivity|]. cbn [s_dim s_type s_A s_b].
        split; [exact D|]. split; [exact T|]. split; [|split; [|split]].
        -- intros j Hj. pose proof (A0 j) as A0j. fin3 ii j; subst; cbn [orb andb negb]; try lra.
        -- exact B0.
        -- intros i j Ni. fin3 i j; reflexivity.
        -- intros i Ni. reflexivity.
    + rewrite addA_ok by lia. cbn [bind]. rewrite addA_ok by (cbn [s_dim]; lia). eexists. split; [reflexivity|]. cbn [s_dim s_type s_A s_b].
      split; [exact D|]. split; [exact T|]. split; [|split; [|split]].
      * intros j Hj. pose proof (A0 j) as A0j. pose proof (A0 (ii + 1)%nat) as A0p. pose proof (A0 (ii - 1)%nat) as A0m. fin3 ii j; subst; cbn [orb andb negb]; try lra.
      * destruct (Nat.eqb_spec ii (n - 1)); [lia|]. destruct (fixed_at fixed ii); exact B0.
      * intros i j Ni. fin3 i j; reflexivity.
      * intros i Ni. reflexivity.
    + rewrite setA_ok by lia. cbn [bind]. destruct (fixed_at fixed ii) as [v|].
      * rewrite addB_ok by (cbn [s_dim]; lia). eexists. split; [reflexivity|]. cbn [s_dim s_type s_A s_b].
        split; [exact D|]. split; [exact T|]. split; [|split; [|split]].
        -- intros j Hj. pose proof (A0 j) as A0j. fin3 ii j; subst; cbn [orb andb negb]; try lra.
        -- rewrite upd1_same. replace (ii - 1)%nat with (n - 2)%nat by lia. lra.
        -- intros i j Ni. fin3 i j; reflexivity.
        -- intros i Ni. fin3 i i. reflexivity.
      * eexists. split; [reflexivity|]. cbn [s_dim s_type s_A s_b].
        split; [exact D|]. split; [exact T|]. split; [|split; [|split]].
        -- intros j Hj. pose proof (A0 j) as A0j. fin3 ii j; subst; cbn [orb andb negb]; try lra.
        -- exact B0.
        -- intros i j Ni. fin3 i j; reflexivity.
        -- intros i Ni. reflexivity.
  - exists s. split; [exact E|]. split; [exact D|]. split; [exact T|]. split; [exact A|exact B].
Qed.
