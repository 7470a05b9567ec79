(** Properties C41, C42, C43, C68: linear systems and equations. *)
From Coq Require Import QArith ZArith List Lia Lqa Bool Setoid.
From Verif Require Import Prelude Lin_Sum Lin_Model Lin_Spec Lin_Proofs.
Import ListNotations.
Open Scope Q_scope.

(** ** C41: elimination *)
(** A full vector with the prescribed values satisfies all rows of free unknowns exactly if its free part
    solves the reduced system. *)
Theorem C41_equivalence : forall junk fixed s, proper (s_dim s) fixed ->
  exists e, set_elimination junk DM_FEM fixed (eqn_of s) = Ok e /\ s_dim (e_sys e) = length (free (s_dim s) fixed) /\
  forall u, meets fixed u ->
    (solves (e_sys e) (fun k => u (nth k (free (s_dim s) fixed) 0%nat)) <->
     (forall i, (i < s_dim s)%nat -> ~ In i (keys fixed) -> row s u i == s_b s i)).
Proof.
  intros junk fixed s P. destruct (elimination_iff junk fixed s P) as (e & E & _ & _ & D & _ & _ & H). exists e. now repeat (split; [assumption|]).
Qed.
Print Assumptions C41_equivalence.

(** Whatever vector the solver returns, solve() puts it back at the free unknowns and the prescribed values at
    the others; if the solver is exact, all rows of free unknowns of the original system hold. *)
Theorem C41_solve : forall junk junk' lin fixed s e, proper (s_dim s) fixed -> s_type s <> MT_UNKNOWN ->
  set_elimination junk DM_FEM fixed (eqn_of s) = Ok e ->
  exists u, eq_solve junk' lin fixed e = Ok (s_dim s, u) /\ meets fixed u /\
    (forall k, (k < length (free (s_dim s) fixed))%nat -> u (nth k (free (s_dim s) fixed) 0%nat) = lin (e_sys e) k) /\
    (solves (e_sys e) (lin (e_sys e)) <-> (forall i, (i < s_dim s)%nat -> ~ In i (keys fixed) -> row s u i == s_b s i)).
Proof.
  intros junk junk' lin fixed s e P T E. destruct (elimination_iff junk fixed s P) as (e' & E' & El & Te & D & L & FE & H).
  rewrite E in E'. injection E' as <-. destruct (solve_elim junk' lin fixed e (s_dim s) El ltac:(now rewrite Te) L P FE D) as (u & S & M & G).
  exists u. split; [exact S|]. split; [exact M|]. split; [exact G|]. rewrite <- (H u M). split; apply solves_ext; intros k Hk; rewrite D in Hk; rewrite (G k Hk); reflexivity.
Qed.
Print Assumptions C41_solve.

(** A 3 x 3 system with unknown 1 prescribed. *)
Definition sys3 : sys := Sys MT_SPARSE_SYMMETRIC 3
  (fun i j => if Nat.eqb i j then 2 else if Nat.eqb (i + j) 2 then 0 else - (1)) (fun i => if Nat.eqb i 0 then 1 else 0).
Definition fix3 : values := [(1%nat, 5)].
Example C41_case : proper (s_dim sys3) fix3 /\ free 3 fix3 = [0%nat; 2%nat] /\
  exists e, set_elimination (fun _ => 7) DM_FEM fix3 (eqn_of sys3) = Ok e /\ s_dim (e_sys e) = 2%nat /\ s_b (e_sys e) 0%nat == 6 /\ s_b (e_sys e) 1%nat == 5 /\
  solves (e_sys e) (fun k => if Nat.eqb k 0 then 3 else 5 # 2).
Proof.
  split; [split; [repeat constructor; intros []|repeat constructor]|]. split; [reflexivity|]. eexists. split; [reflexivity|]. split; [reflexivity|].
  split; [vm_compute; reflexivity|]. split; [vm_compute; reflexivity|]. intros [|[|k]] Hk; [vm_compute; reflexivity|vm_compute; reflexivity|cbn in Hk; lia].
Qed.

(** Sources add up on the right-hand side and change nothing else. *)
Theorem C41_sources : forall src e,
  (Forall (fun iv => (fst iv < s_dim (e_sys e))%nat) src -> exists e', set_sources src e = Ok e') /\
  (forall e', set_sources src e = Ok e' ->
     Forall (fun iv => (fst iv < s_dim (e_sys e))%nat) src /\
     s_type (e_sys e') = s_type (e_sys e) /\ s_dim (e_sys e') = s_dim (e_sys e) /\ s_A (e_sys e') = s_A (e_sys e) /\
     e_del e' = e_del e /\ e_elim e' = e_elim e /\
     forall i, s_b (e_sys e') i == s_b (e_sys e) i + fold_right Qplus 0 (map snd (filter (fun iv => Nat.eqb (fst iv) i) src))).
Proof.
  intros src e. unfold set_sources. destruct e as [s del el]. cbn [e_sys e_del e_elim].
  assert (K : forall src s, (Forall (fun iv => (fst iv < s_dim s)%nat) src -> exists s', foldM source_step src s = Ok s') /\
    forall s', foldM source_step src s = Ok s' -> Forall (fun iv => (fst iv < s_dim s)%nat) src /\ s_type s' = s_type s /\ s_dim s' = s_dim s /\ s_A s' = s_A s /\
      forall i, s_b s' i == s_b s i + fold_right Qplus 0 (map snd (filter (fun iv => Nat.eqb (fst iv) i) src))).
  { clear. induction src as [|[j v] src IH]; intros s; cbn [foldM].
    - split; [intros; eexists; reflexivity|]. intros s' H. injection H as <-. repeat split; auto. intros i. cbn. ring.
    - unfold source_step at 1 3. destruct (Nat.ltb_spec j (s_dim s)) as [L|L]; cbn [bind].
      + destruct (IH (Sys (s_type s) (s_dim s) (s_A s) (upd1 (s_b s) j (s_b s j + v)))) as (I1 & I2). split.
        * intros H. inversion H; subst. apply I1. assumption.
        * intros s' H. destruct (I2 s' H) as (F & T & D & A & B). split; [constructor; assumption|]. split; [assumption|]. split; [assumption|]. split; [assumption|].
          intros i. rewrite B. cbn [s_b filter fst]. unfold upd1. rewrite (Nat.eqb_sym j i). destruct (Nat.eqb_spec i j) as [->|]; cbn; ring.
      + split; [|discriminate]. intros H. inversion H; subst. cbn in *. lia. }
  destruct (K src s) as (K1 & K2). split.
  - intros H. destruct (K1 H) as (s' & E). rewrite E. eexists. reflexivity.
  - intros e' H. destruct (foldM source_step src s) as [s'| |] eqn:E; try discriminate. injection H as <-. cbn. destruct (K2 s' eq_refl) as (A & B & C & D & F). auto 10.
Qed.
Print Assumptions C41_sources.

(** setSources after setElimination uses the old index in the reduced system: the source of the last unknown
    is out of range (and others end up at the wrong unknown). *)
Theorem C41_source_after_elimination_refuted : exists fixed s e, proper (s_dim s) fixed /\
  set_elimination (fun _ => 0) DM_FEM fixed (eqn_of s) = Ok e /\ set_sources [(2%nat, 1)] e = UB /\
  exists e', set_sources [(2%nat, 1)] (eqn_of s) = Ok e'.
Proof.
  exists fix3, sys3. eexists. split; [apply C41_case|]. split; [reflexivity|]. split; [reflexivity|]. eexists. reflexivity.
Qed.
Print Assumptions C41_source_after_elimination_refuted.

(** A second setElimination eliminates again, by old indices. *)
Theorem C41_second_elimination_refuted : exists fixed s e e', proper (s_dim s) fixed /\
  set_elimination (fun _ => 0) DM_FEM fixed (eqn_of s) = Ok e /\ set_elimination (fun _ => 0) DM_FEM fixed e = Ok e' /\
  s_dim (e_sys e) = 2%nat /\ s_dim (e_sys e') = 1%nat.
Proof.
  exists fix3, sys3. eexists. eexists. split; [apply C41_case|]. split; [reflexivity|]. split; [reflexivity|]. split; reflexivity.
Qed.
Print Assumptions C41_second_elimination_refuted.

(** ** C42: penalty *)
Theorem C42_penalty : forall m fixed pen s, m = DM_FEM \/ m = DM_FDM -> proper (s_dim s) fixed ->
  exists e, set_penalty m fixed pen (eqn_of s) = Ok e /\ s_dim (e_sys e) = s_dim s /\
    (forall i v, In (i, v) fixed -> s_A (e_sys e) i i = pen /\ s_b (e_sys e) i = pen * v) /\
    (forall i j, (i <> j \/ ~ In i (keys fixed)) -> s_A (e_sys e) i j = s_A s i j) /\
    (forall i, ~ In i (keys fixed) -> s_b (e_sys e) i = s_b s i).
Proof.
  intros m fixed pen s M [N F]. destruct (penalty_spec pen fixed s N F) as (s' & E & _ & D & H1 & H2 & H3).
  exists (Eqn s' [] false). split; [destruct M as [-> | ->]; cbn [set_penalty eqn_of e_sys]; rewrite E; reflexivity|]. cbn [e_sys]. now repeat (split; [assumption|]).
Qed.
Print Assumptions C42_penalty.

(** The error of a prescribed unknown in every exact solution of the modified system. *)
Theorem C42_error : forall m fixed pen s e x i v, m = DM_FEM \/ m = DM_FDM -> proper (s_dim s) fixed -> ~ pen == 0 ->
  set_penalty m fixed pen (eqn_of s) = Ok e -> solves (e_sys e) x -> In (i, v) fixed ->
  x i - v == - (sum (s_dim s) (fun j => if Nat.eqb j i then 0 else s_A s i j * x j)) / pen.
Proof.
  intros m fixed pen s e x i v M P Hp E S I. destruct (C42_penalty m fixed pen s M P) as (e' & E' & D & H1 & H2 & H3). rewrite E in E'. injection E' as <-.
  assert (Hi : (i < s_dim s)%nat) by (destruct P as [_ F]; rewrite Forall_forall in F; apply F; eapply in_keys; exact I).
  specialize (S i ltac:(now rewrite D)). unfold row in S. rewrite D in S. destruct (H1 i v I) as [Ha Hb]. rewrite Hb in S.
  assert (Q1 : sum (s_dim s) (fun j => s_A (e_sys e) i j * x j) == pen * x i + sum (s_dim s) (fun j => if Nat.eqb j i then 0 else s_A s i j * x j)).
  { rewrite (sum_ext _ _ (fun j => (if Nat.eqb j i then pen * x i else 0) + (if Nat.eqb j i then 0 else s_A s i j * x j))).
    - rewrite sum_add. rewrite (sum_single _ (fun j => if Nat.eqb j i then pen * x i else 0) i Hi).
      + rewrite Nat.eqb_refl. reflexivity.
      + intros j _ Nj. apply Nat.eqb_neq in Nj. rewrite Nj. reflexivity.
    - intros j Hj. destruct (Nat.eqb_spec j i) as [->|Nj]; [rewrite Ha; lra|]. rewrite H2 by (left; congruence). lra. }
  rewrite Q1 in S. set (t := sum (s_dim s) _) in *. assert (X : t == pen * v - pen * x i) by lra. rewrite X. field. exact Hp.
Qed.
Print Assumptions C42_error.

(** After solve() the prescribed unknowns have exactly the prescribed values, the others those of the solver. *)
Theorem C42_solve : forall junk lin m fixed pen s e, m = DM_FEM \/ m = DM_FDM -> proper (s_dim s) fixed -> s_type s <> MT_UNKNOWN ->
  set_penalty m fixed pen (eqn_of s) = Ok e ->
  exists u, eq_solve junk lin fixed e = Ok (s_dim s, u) /\ meets fixed u /\ forall i, ~ In i (keys fixed) -> u i = lin (e_sys e) i.
Proof.
  intros junk lin m fixed pen s e M [N F] T E. destruct (penalty_spec pen fixed s N F) as (s' & E1 & T1 & D & _).
  assert (Ee : e = Eqn s' [] false) by (destruct M as [-> | ->]; cbn [set_penalty eqn_of e_sys] in E; rewrite E1 in E; cbn in E; congruence). subst e.
  unfold eq_solve. assert (X : sle_solve lin s' = (s_dim s, lin s')) by (unfold sle_solve; rewrite <- D; rewrite T1; destruct (s_type s); congruence).
  cbn [e_sys e_elim]. rewrite X. destruct (set_u_spec (s_dim s) fixed (lin s') N F) as (u & Eu & U1 & U2). rewrite Eu. cbn [bind]. exists u. split; [reflexivity|].
  split; [intros i v H; rewrite (U1 i v H); reflexivity|exact U2].
Qed.
Print Assumptions C42_solve.

(** For the other methods setPenaltyFactor does nothing. *)
Theorem C42_other_methods : forall m fixed pen e, m <> DM_FEM -> m <> DM_FDM -> set_penalty m fixed pen e = Ok e.
Proof. intros [] fixed pen e H1 H2; try reflexivity; congruence. Qed.
Print Assumptions C42_other_methods.

Example C42_case : exists e, set_penalty DM_FDM fix3 1000 (eqn_of sys3) = Ok e /\ s_A (e_sys e) 1%nat 1%nat = 1000 /\ s_b (e_sys e) 1%nat == 5000 /\
  solves (e_sys e) (fun k => nth k [11999 # 3996; 10001 # 1998; 10001 # 3996] 0) /\ ~ (10001 # 1998) == 5.
Proof.
  eexists. split; [reflexivity|]. split; [reflexivity|]. split; [vm_compute; reflexivity|]. split; [|vm_compute; discriminate].
  intros [|[|[|k]]] Hk; [vm_compute; reflexivity|vm_compute; reflexivity|vm_compute; reflexivity|cbn in Hk; lia].
Qed.

(** ** C43: operator algebra *)
Theorem C43_sum : forall s t, s_dim s = s_dim t ->
  exists a d, sys_add s t = Ok a /\ sys_sub s t = Ok d /\ s_dim a = s_dim s /\ s_dim d = s_dim s /\
    forall x i, row a x i == row s x i + row t x i /\ s_b a i == s_b s i + s_b t i /\
                row d x i == row s x i - row t x i /\ s_b d i == s_b s i - s_b t i.
Proof.
  intros s t D. unfold sys_add, sys_sub. rewrite D, Nat.eqb_refl. eexists. eexists. split; [reflexivity|]. split; [reflexivity|]. split; [reflexivity|]. split; [reflexivity|].
  intros x i. unfold row. cbn [s_dim s_A s_b]. rewrite D. split; [|split; [lra|split; [|lra]]].
  - rewrite <- sum_add. apply sum_ext. intros; lra.
  - rewrite <- sum_sub. apply sum_ext. intros; lra.
Qed.
Print Assumptions C43_sum.

Theorem C43_scale : forall c s x i, s_dim (sys_scale c s) = s_dim s /\ row (sys_scale c s) x i == c * row s x i /\ s_b (sys_scale c s) i == c * s_b s i.
Proof.
  intros c s x i. split; [reflexivity|]. split; [|cbn; lra]. unfold row. cbn [sys_scale s_dim s_A]. rewrite <- sum_scale. apply sum_ext. intros; lra.
Qed.
Print Assumptions C43_scale.

Theorem C43_rows : forall v s x i, (i < s_dim s)%nat -> s_dim (sys_rows v s) = s_dim s /\ row (sys_rows v s) x i == v i * row s x i /\ s_b (sys_rows v s) i == v i * s_b s i.
Proof.
  intros v s x i Hi. split; [reflexivity|]. unfold row. cbn [sys_rows s_dim s_A s_b]. split.
  - rewrite <- sum_scale. apply sum_ext. intros j Hj. rewrite rows_loop_at by assumption. lra.
  - rewrite vec_loop_at by exact Hi. lra.
Qed.
Print Assumptions C43_rows.

(** A vector solving two systems solves their sum, difference and multiples. *)
Theorem C43_common_solution : forall s t x c a d, solves s x -> solves t x -> sys_add s t = Ok a -> sys_sub s t = Ok d ->
  solves a x /\ solves d x /\ solves (sys_scale c s) x.
Proof.
  intros s t x c a d Hs Ht Ea Ed. assert (D : s_dim s = s_dim t) by (unfold sys_add in Ea; destruct (Nat.eqb_spec (s_dim s) (s_dim t)); [assumption|discriminate]).
  destruct (C43_sum s t D) as (a' & d' & Ea' & Ed' & Da & Dd & H). rewrite Ea in Ea'. rewrite Ed in Ed'. injection Ea' as <-. injection Ed' as <-.
  split; [|split]; intros i Hi.
  - rewrite Da in Hi. destruct (H x i) as (A & B & _). rewrite A, B, (Hs i Hi), (Ht i ltac:(lia)). reflexivity.
  - rewrite Dd in Hi. destruct (H x i) as (_ & _ & A & B). rewrite A, B, (Hs i Hi), (Ht i ltac:(lia)). reflexivity.
  - destruct (C43_scale c s x i) as (_ & A & B). rewrite A, B, (Hs i Hi). reflexivity.
Qed.
Print Assumptions C43_common_solution.

(** Assignment accumulates: after "system = c" the right-hand side is not c but the old one plus c. *)
Theorem C43_assign : forall s c v x i,
  (row (assign_real s c) x i = row s x i /\ s_b (assign_real s c) i = s_b s i + c) /\
  (row (assign_vec s v) x i = row s x i /\ s_b (assign_vec s v) i = s_b s i + v i).
Proof. intros. repeat split. Qed.
Print Assumptions C43_assign.
Theorem C43_assign_refuted : ~ (forall s c i, (i < s_dim s)%nat -> s_b (assign_real s c) i == c).
Proof. intros H. specialize (H sys3 0 0%nat ltac:(cbn; lia)). revert H. vm_compute. discriminate. Qed.
Print Assumptions C43_assign_refuted.

(** Adding (subtracting) a number adds it to the diagonal and to the right-hand side. *)
Theorem C43_real : forall s c x i, (i < s_dim s)%nat ->
  (row (plus_real s c) x i == row s x i + c * x i /\ s_b (plus_real s c) i == s_b s i + c) /\
  (row (minus_real s c) x i == row s x i - c * x i /\ s_b (minus_real s c) i == s_b s i - c).
Proof.
  intros s c x i Hi.
  assert (K : forall c, sum (s_dim s) (fun j => diag_loop (s_dim s) c (s_A s) i j * x j) == row s x i + c * x i).
  { intros k. unfold row. rewrite (sum_ext _ _ (fun j => s_A s i j * x j + (if Nat.eqb i j then k * x i else 0))).
    - rewrite sum_add. apply Qplus_comp; [reflexivity|]. rewrite (sum_single _ _ i Hi); [rewrite Nat.eqb_refl; reflexivity|].
      intros j _ N. destruct (Nat.eqb_spec i j); [congruence|reflexivity].
    - intros j _. rewrite diag_loop_at by exact Hi. destruct (Nat.eqb_spec i j) as [<-|]; lra. }
  unfold row at 1 3. cbn [plus_real minus_real s_dim s_A s_b]. rewrite !K, !vec_loop_at by exact Hi. repeat match goal with |- _ /\ _ => split end; lra.
Qed.
Print Assumptions C43_real.

Example C43_case : exists a, sys_add sys3 (sys_scale 2 sys3) = Ok a /\ s_A a 0%nat 1%nat == - (3) /\ s_b a 0%nat == 3 /\ s_b (assign_real sys3 4) 0%nat == 5 /\
  s_A (plus_real sys3 4) 1%nat 1%nat == 6 /\ s_A (sys_rows (fun i => inject_Z (Z.of_nat i)) sys3) 2%nat 1%nat == - (2).
Proof. eexists. split; [reflexivity|]. repeat match goal with |- _ /\ _ => split end; vm_compute; reflexivity. Qed.

(** ** C68: the declared matrix type *)
(** Sums, differences, multiples, shifts, penalty and elimination keep "declared symmetric => symmetric",
    so conjugate gradients is only chosen for symmetric matrices. *)
Theorem C68_declared : forall s t c, declared s -> declared t ->
  (forall a, sys_add s t = Ok a -> declared a) /\ (forall a, sys_sub s t = Ok a -> declared a) /\
  declared (sys_scale c s) /\ declared (plus_real s c) /\ declared (minus_real s c) /\ declared (assign_real s c) /\ declared (field_scale c (s_dim s)).
Proof.
  assert (Max : forall a b, (mt_rank (mt_max a b) <= 0)%Z -> (mt_rank a <= 0)%Z /\ (mt_rank b <= 0)%Z) by (intros [] []; cbn; lia).
  assert (Diag : forall s c, symmetric (s_dim s) (s_A s) -> symmetric (s_dim s) (diag_loop (s_dim s) c (s_A s))).
  { intros u k H i j Hi Hj. rewrite !diag_loop_at by assumption. destruct (Nat.eqb_spec i j) as [->|N]; [rewrite Nat.eqb_refl; reflexivity|].
    destruct (Nat.eqb_spec j i); [congruence|]. now apply H. }
  intros s t c Ds Dt. unfold sys_add, sys_sub. repeat match goal with |- _ /\ _ => split end.
  - intros a E. destruct (Nat.eqb_spec (s_dim s) (s_dim t)) as [D|]; [|discriminate]. injection E as <-. intros R. cbn [s_type s_dim s_A] in *. destruct (Max _ _ R) as [R1 R2].
    intros i j Hi Hj. cbn [s_A]. rewrite (Ds R1 i j Hi Hj), (Dt R2 i j ltac:(lia) ltac:(lia)). reflexivity.
  - intros a E. destruct (Nat.eqb_spec (s_dim s) (s_dim t)) as [D|]; [|discriminate]. injection E as <-. intros R. cbn [s_type s_dim s_A] in *. destruct (Max _ _ R) as [R1 R2].
    intros i j Hi Hj. cbn [s_A]. rewrite (Ds R1 i j Hi Hj), (Dt R2 i j ltac:(lia) ltac:(lia)). reflexivity.
  - intros R i j Hi Hj. cbn [sys_scale s_type s_dim s_A] in *. rewrite (Ds R i j Hi Hj). reflexivity.
  - intros R. exact (Diag s c (Ds R)).
  - intros R. exact (Diag s (- c) (Ds R)).
  - intros R. exact (Ds R).
  - intros R i j Hi Hj. cbn [field_scale s_dim] in Hi, Hj. rewrite !field_scale_at by assumption. destruct (Nat.eqb_spec i j) as [->|N]; [now rewrite Nat.eqb_refl|]. destruct (Nat.eqb_spec j i); [congruence|reflexivity].
Qed.
Print Assumptions C68_declared.

Theorem C68_penalty_elimination : forall junk m fixed pen s e, declared s -> proper (s_dim s) fixed ->
  set_penalty m fixed pen (eqn_of s) = Ok e \/ set_elimination junk m fixed (eqn_of s) = Ok e -> declared (e_sys e).
Proof.
  intros junk m fixed pen s e D P [E|E].
  - assert (M : (m = DM_FEM \/ m = DM_FDM) \/ (m <> DM_FEM /\ m <> DM_FDM)) by (destruct m; try (left; tauto); right; split; discriminate).
    destruct M as [M|[M1 M2]]; [|rewrite C42_other_methods in E by assumption; injection E as <-; exact D].
    destruct P as [N F]. destruct (penalty_spec pen fixed s N F) as (s' & E1 & T1 & D1 & H1 & H2 & _).
    assert (Ee : e = Eqn s' [] false) by (destruct M as [-> | ->]; cbn [set_penalty eqn_of e_sys] in E; rewrite E1 in E; cbn in E; congruence). subst e. cbn [e_sys].
    intros R. rewrite T1 in R. rewrite D1. intros i j Hi Hj. destruct (Nat.eq_dec i j) as [->|Nij]; [reflexivity|]. rewrite !H2 by (left; congruence). now apply (D R).
  - destruct m; try (injection E as <-; exact D).
    destruct (elimination_spec junk fixed s P) as (b & del & n' & E' & L & Hd & FE & N' & _). rewrite E in E'. injection E' as ->. cbn [e_sys].
    intros R k l Hk Hl. cbn [s_dim s_A s_type] in *. rewrite N', <- FE in Hk, Hl. destruct (free_nth del k Hk) as (Hi & Di & Oi). destruct (free_nth del l Hl) as (Hj & Dj & Oj).
    set (i := nth k (new_to_old del 0) 0%nat) in *. set (j := nth l (new_to_old del 0) 0%nat) in *. rewrite <- Oi, <- Oj. unfold new_A.
    assert (Inj : forall x y, In x (seq 0 (s_dim s)) -> In y (seq 0 (s_dim s)) -> nth x del false = false -> nth y del false = false ->
       nth x (fst (old_to_new del 0)) 0%nat = nth y (fst (old_to_new del 0)) 0%nat -> x = y) by (intros x y Hx Hy; apply in_seq in Hx; apply in_seq in Hy; apply old_inj; lia).
    rewrite (copy2_outer (fun i => nth i del false) (fun i => nth i (fst (old_to_new del 0)) 0%nat) (s_A s) (seq 0 (s_dim s)) (seq_NoDup _ _) (seq 0 (s_dim s)) _ i j); try assumption; try apply seq_NoDup; try (apply in_seq; lia).
    rewrite (copy2_outer (fun i => nth i del false) (fun i => nth i (fst (old_to_new del 0)) 0%nat) (s_A s) (seq 0 (s_dim s)) (seq_NoDup _ _) (seq 0 (s_dim s)) _ j i); try assumption; try apply seq_NoDup; try (apply in_seq; lia).
    apply (D R); lia.
Qed.
Print Assumptions C68_penalty_elimination.

Example C68_case : declared sys3 /\ s_type sys3 = MT_SPARSE_SYMMETRIC /\ proper (s_dim sys3) fix3.
Proof.
  split; [|split; [reflexivity|apply C41_case]]. intros _ i j Hi Hj. cbn [sys3 s_dim s_A] in *. rewrite (Nat.add_comm j i). destruct (Nat.eqb_spec i j) as [->|N]; [now rewrite Nat.eqb_refl|]. destruct (Nat.eqb_spec j i); [congruence|reflexivity].
Qed.

(** Multiplying by a vector scales rows but keeps the declared type. *)
Theorem C68_rows_refuted : ~ (forall v s, declared s -> declared (sys_rows v s)).
Proof.
  intros H. specialize (H (fun i => inject_Z (Z.of_nat i)) sys3 (proj1 C68_case)). specialize (H ltac:(cbn; lia) 0%nat 1%nat ltac:(cbn; lia) ltac:(cbn; lia)). revert H. vm_compute. discriminate.
Qed.
Print Assumptions C68_rows_refuted.

(** "c * field" alone has no declared type: solve() returns no values at all, and setting a prescribed value
    afterwards is out of range. *)
Theorem C68_undeclared_refuted : forall junk lin c n, eq_solve junk lin [] (eqn_of (field_scale c n)) = Ok (0%nat, fun _ => 0) /\
  forall i v, eq_solve junk lin [(i, v)] (eqn_of (field_scale c n)) = UB.
Proof. intros. split; reflexivity. Qed.
Print Assumptions C68_undeclared_refuted.
