From Coq Require Import ZArith List Bool QArith Lia Lqa Permutation.
From Verif Require Import Prelude Vec ZMap Mesh_Model Mesh_Spec Mesh_Proofs Box_Model Box_Spec.
Import ListNotations.
Open Scope Q_scope.

Ltac qb := repeat (rewrite ?andb_true_iff, ?Qle_bool_iff in *).

(** One axis: the running minimum/maximum over a list. *)
Lemma fold_axis (f : coord -> Q) (op : Q -> Q -> Q)
  (Hop : forall a b, op a b = a \/ op a b = b) cs x0 :
  fold_left (fun x c => op x (f c)) cs x0 = x0 \/
  exists c, In c cs /\ f c = fold_left (fun x c => op x (f c)) cs x0.
Proof.
  revert x0. induction cs as [|c cs IH]; intros x0; cbn; [tauto|].
  destruct (IH (op x0 (f c))) as [H|(d & Hd & H)].
  - rewrite H. destruct (Hop x0 (f c)) as [->| ->]; [tauto|]. right. exists c. auto.
  - right. exists d. auto.
Qed.

Lemma fold_min_le (f : coord -> Q) cs x0 :
  let r := fold_left (fun x c => qmin x (f c)) cs x0 in
  r <= x0 /\ forall c, In c cs -> r <= f c.
Proof.
  revert x0. induction cs as [|c cs IH]; intros x0; cbn; [split; [lra|tauto]|].
  destruct (IH (qmin x0 (f c))) as [H1 H2]. destruct (qmin_spec x0 (f c)) as [[H3 H4] _].
  split; [lra|]. intros d [<-|Hd]; [lra|auto].
Qed.

Lemma fold_max_ge (f : coord -> Q) cs x0 :
  let r := fold_left (fun x c => qmax x (f c)) cs x0 in
  x0 <= r /\ forall c, In c cs -> f c <= r.
Proof.
  revert x0. induction cs as [|c cs IH]; intros x0; cbn; [split; [lra|tauto]|].
  destruct (IH (qmax x0 (f c))) as [H1 H2]. destruct (qmax_spec x0 (f c)) as [[H3 H4] _].
  split; [lra|]. intros d [<-|Hd]; [lra|auto].
Qed.

Lemma box_add_all_axes cs b :
  let r := fold_left box_add cs b in
  cx (b_min r) = fold_left (fun x c => qmin x (cx c)) cs (cx (b_min b)) /\
  cy (b_min r) = fold_left (fun x c => qmin x (cy c)) cs (cy (b_min b)) /\
  cz (b_min r) = fold_left (fun x c => qmin x (cz c)) cs (cz (b_min b)) /\
  cx (b_max r) = fold_left (fun x c => qmax x (cx c)) cs (cx (b_max b)) /\
  cy (b_max r) = fold_left (fun x c => qmax x (cy c)) cs (cy (b_max b)) /\
  cz (b_max r) = fold_left (fun x c => qmax x (cz c)) cs (cz (b_max b)).
Proof. revert b. induction cs as [|c cs IH]; intros b; cbn; [auto 10|apply IH]. Qed.

(** Touching: replace the initial value when it is attained only as a bound. *)
Lemma min_touch (f : coord -> Q) cs x0 c0 cs' :
  cs = c0 :: cs' -> f c0 <= x0 -> (forall c, In c cs -> f c <= x0) ->
  exists c, In c cs /\ f c == fold_left (fun x c => qmin x (f c)) cs x0.
Proof.
  intros -> H0 Hall.
  destruct (fold_axis f qmin (fun a b => proj2 (qmin_spec a b)) (c0 :: cs') x0) as [H|(d & Hd & H)].
  - exists c0. split; [now left|].
    destruct (fold_min_le f (c0 :: cs') x0) as [H1 H2]. specialize (H2 c0 (or_introl eq_refl)).
    rewrite H in *. lra.
  - exists d. split; [assumption|]. now rewrite H.
Qed.

Lemma fold_min_first (f : coord -> Q) c0 cs x0 :
  f c0 <= x0 -> exists c, In c (c0 :: cs) /\ f c == fold_left (fun x c => qmin x (f c)) (c0 :: cs) x0.
Proof.
  intros H0.
  destruct (fold_axis f qmin (fun a b => proj2 (qmin_spec a b)) (c0 :: cs) x0) as [H|(d & Hd & H)].
  - exists c0. split; [now left|].
    destruct (fold_min_le f (c0 :: cs) x0) as [H1 H2]. specialize (H2 c0 (or_introl eq_refl)).
    rewrite H in *. lra.
  - exists d. split; [assumption|]. now rewrite H.
Qed.

Lemma fold_max_first (f : coord -> Q) c0 cs x0 :
  x0 <= f c0 -> exists c, In c (c0 :: cs) /\ f c == fold_left (fun x c => qmax x (f c)) (c0 :: cs) x0.
Proof.
  intros H0.
  destruct (fold_axis f qmax (fun a b => proj2 (qmax_spec a b)) (c0 :: cs) x0) as [H|(d & Hd & H)].
  - exists c0. split; [now left|].
    destruct (fold_max_ge f (c0 :: cs) x0) as [H1 H2]. specialize (H2 c0 (or_introl eq_refl)).
    rewrite H in *. lra.
  - exists d. split; [assumption|]. now rewrite H.
Qed.

Lemma box_tight cs :
  cs <> [] -> (forall c, In c cs -> finite c) -> tight (box_add_all cs) cs.
Proof.
  intros Hne Hfin. destruct cs as [|c0 cs]; [congruence|].
  unfold box_add_all. destruct (box_add_all_axes (c0 :: cs) box_reset) as (E1 & E2 & E3 & E4 & E5 & E6).
  destruct (Hfin c0 (or_introl eq_refl)) as ((F1 & F2) & (F3 & F4) & (F5 & F6)).
  unfold tight, in_box. rewrite E1, E2, E3, E4, E5, E6.
  cbn [b_min b_max box_reset cx cy cz] in *.
  repeat apply conj.
  - intros c Hc. repeat apply conj;
      (apply (fold_min_le _ (c0 :: cs)) || apply (fold_max_ge _ (c0 :: cs))); exact Hc.
  - now apply fold_min_first.
  - now apply fold_max_first.
  - now apply fold_min_first.
  - now apply fold_max_first.
  - now apply fold_min_first.
  - now apply fold_max_first.
Qed.

(** Tight boxes are least and determined by the set of coordinates. *)
Lemma tight_least b cs lo hi :
  tight b cs -> (forall c, In c cs -> in_box lo hi c) ->
  in_box lo hi (b_min b) /\ in_box lo hi (b_max b).
Proof.
  intros (Hin & (c1 & I1 & T1) & (c2 & I2 & T2) & (c3 & I3 & T3) & (c4 & I4 & T4) & (c5 & I5 & T5) & (c6 & I6 & T6)) Hall.
  pose proof (Hall _ I1) as ((A1 & B1) & _ & _). pose proof (Hall _ I2) as ((A2 & B2) & _ & _).
  pose proof (Hall _ I3) as (_ & (A3 & B3) & _). pose proof (Hall _ I4) as (_ & (A4 & B4) & _).
  pose proof (Hall _ I5) as (_ & _ & (A5 & B5)). pose proof (Hall _ I6) as (_ & _ & (A6 & B6)).
  unfold in_box. rewrite <- T1, <- T2, <- T3, <- T4, <- T5, <- T6. auto 10.
Qed.

Lemma in_box_antisym b b' :
  in_box (b_min b) (b_max b) (b_min b') -> in_box (b_min b) (b_max b) (b_max b') ->
  in_box (b_min b') (b_max b') (b_min b) -> in_box (b_min b') (b_max b') (b_max b) ->
  b_min b =v= b_min b' /\ b_max b =v= b_max b'.
Proof. unfold in_box, veq. intros. intuition lra. Qed.

Lemma tight_same_set b b' cs cs' :
  tight b cs -> tight b' cs' -> (forall c, In c cs <-> In c cs') ->
  b_min b =v= b_min b' /\ b_max b =v= b_max b'.
Proof.
  intros H H' Hs.
  destruct (tight_least b cs (b_min b') (b_max b') H) as [A B].
  { intros c Hc. apply (proj1 H'). now apply Hs. }
  destruct (tight_least b' cs' (b_min b) (b_max b) H') as [C D].
  { intros c Hc. apply (proj1 H). now apply Hs. }
  apply in_box_antisym; assumption.
Qed.

Lemma box_order cs cs' :
  cs <> [] -> (forall c, In c cs -> finite c) -> (forall c, In c cs <-> In c cs') ->
  b_min (box_add_all cs) =v= b_min (box_add_all cs') /\ b_max (box_add_all cs) =v= b_max (box_add_all cs').
Proof.
  intros Hne Hfin Hs. apply (tight_same_set _ _ cs cs'); [now apply box_tight| |assumption].
  apply box_tight.
  - intros ->. destruct cs as [|c cs]; [congruence|]. apply (proj1 (Hs c)). now left.
  - intros c Hc. apply Hfin. now apply Hs.
Qed.

Lemma shrink_grow b a :
  b_min (box_shrink (box_grow b a) a) =v= b_min b /\ b_max (box_shrink (box_grow b a) a) =v= b_max b.
Proof.
  unfold box_shrink, box_grow, vsub, vadd, veq. cbn [b_min b_max cx cy cz]. repeat split; lra.
Qed.

Lemma contains_iff b c tol : box_contains b c tol = true <-> in_box_tol b tol c.
Proof.
  unfold box_contains, in_box_tol, in_box, vsub, vadd. cbn [cx cy cz]. rewrite !andb_true_iff, !Qle_bool_iff.
  tauto.
Qed.

Lemma contains_box_iff b b' tol :
  proper b' -> (box_contains_box b b' tol = true <-> forall p, in_box (b_min b') (b_max b') p -> in_box_tol b tol p).
Proof.
  intros (P1 & P2 & P3).
  unfold box_contains_box, in_box_tol, in_box, vsub, vadd. cbn [cx cy cz]. rewrite !andb_true_iff, !Qle_bool_iff.
  split.
  - intros H p Hp. intuition lra.
  - intros H. pose proof (H (b_min b')) as A. pose proof (H (b_max b')) as B.
    assert (A' : (cx (b_min b) - tol <= cx (b_min b') /\ cx (b_min b') <= cx (b_max b) + tol) /\ (cy (b_min b) - tol <= cy (b_min b') /\ cy (b_min b') <= cy (b_max b) + tol) /\ (cz (b_min b) - tol <= cz (b_min b') /\ cz (b_min b') <= cz (b_max b) + tol)) by (apply A; intuition lra).
    assert (B' : (cx (b_min b) - tol <= cx (b_max b') /\ cx (b_max b') <= cx (b_max b) + tol) /\ (cy (b_min b) - tol <= cy (b_max b') /\ cy (b_max b') <= cy (b_max b) + tol) /\ (cz (b_min b) - tol <= cz (b_max b') /\ cz (b_max b') <= cz (b_max b) + tol)) by (apply B; intuition lra).
    tauto.
Qed.

Lemma axis_meet a b c d : a <= b -> c <= d -> (a <= d /\ c <= b <-> exists x, (a <= x /\ x <= b) /\ (c <= x /\ x <= d)).
Proof.
  intros Hab Hcd. split.
  - intros [H1 H2]. destruct (Qlt_le_dec a c).
    + exists c. lra.
    + exists a. lra.
  - intros (x & H1 & H2). lra.
Qed.

Lemma intersects_iff a b tol :
  proper a -> proper b -> 0 <= tol ->
  (box_intersects a b tol = true <-> exists p, in_box_tol a tol p /\ in_box (b_min b) (b_max b) p).
Proof.
  intros (A1 & A2 & A3) (B1 & B2 & B3) Ht.
  unfold box_intersects. rewrite !andb_true_iff, !Qle_bool_iff. split.
  - intros H.
    assert (Hx : cx (b_min a) - tol <= cx (b_max a) + tol) by lra.
    assert (Hy : cy (b_min a) - tol <= cy (b_max a) + tol) by lra.
    assert (Hz : cz (b_min a) - tol <= cz (b_max a) + tol) by lra.
    destruct (proj1 (axis_meet _ _ _ _ Hx B1) ltac:(tauto)) as (x & X1 & X2).
    destruct (proj1 (axis_meet _ _ _ _ Hy B2) ltac:(tauto)) as (y & Y1 & Y2).
    destruct (proj1 (axis_meet _ _ _ _ Hz B3) ltac:(tauto)) as (z & Z1 & Z2).
    exists (Coord x y z). unfold in_box_tol, in_box, vsub, vadd. cbn [cx cy cz]. tauto.
  - intros (p & H1 & H2). unfold in_box_tol, in_box, vsub, vadd in *. cbn [cx cy cz] in *.
    intuition lra.
Qed.

(** ** Mesh boxes *)

Lemma wf_sizes {A} (t : table A) : wf_table t -> length (t_map t) = length (t_ids t).
Proof.
  intros (Hnd & Hs & Hk). transitivity (length (zkeys (t_map t))); [unfold zkeys; now rewrite map_length|].
  apply Permutation_length, NoDup_Permutation; [now apply zsorted_NoDup|assumption|].
  intros id. rewrite Hk, zlookup_in_keys. tauto.
Qed.

Lemma foldM_box (g : Z -> outcome coord) ids : forall b cs,
  map g ids = map Ok cs ->
  foldM (fun b n => c <- g n ;; Ok (box_add b c)) ids b = Ok (fold_left box_add cs b).
Proof.
  induction ids as [|id ids IH]; intros b [|c cs]; cbn; try discriminate; [reflexivity|].
  intros [= H1 H2]. rewrite H1. cbn. now apply IH.
Qed.

Lemma values_exist {A} (t : table A) ids :
  wf_table t -> (forall id, In id ids -> In id (t_ids t)) -> exists vs, map (t_get t) ids = map Ok vs.
Proof.
  intros Hwf. induction ids as [|id ids IH]; intros H; [exists []; reflexivity|].
  destruct IH as [vs Hvs]; [intros; apply H; now right|].
  destruct (wf_get t id Hwf (H id (or_introl eq_refl))) as [v Hv].
  exists (v :: vs). cbn. now rewrite Hv, Hvs.
Qed.

Lemma mesh_box_ok m :
  wf_table (m_nodes m) -> t_ids (m_nodes m) <> [] ->
  (forall id c, t_get (m_nodes m) id = Ok c -> finite c) ->
  exists b cs, mesh_box m = Ok b /\ map (t_get (m_nodes m)) (t_ids (m_nodes m)) = map Ok cs /\ tight b cs.
Proof.
  intros Hwf Hne Hfin.
  destruct (values_exist (m_nodes m) (t_ids (m_nodes m)) Hwf ltac:(auto)) as [cs Hcs].
  exists (box_add_all cs), cs. split; [|split; [assumption|]].
  - unfold mesh_box. rewrite (wf_sizes _ Hwf).
    rewrite (foldM_positions (m_nodes m) (fun b _ c => Ok (box_add b c)) box_reset Hwf).
    now apply foldM_box.
  - apply box_tight.
    + intros ->. cbn in Hcs. apply map_eq_nil in Hcs. contradiction.
    + intros c Hc. assert (Hok : In (Ok c) (map Ok cs)) by now apply in_map.
      rewrite <- Hcs in Hok. apply in_map_iff in Hok. destruct Hok as (id & Hid & _). eauto.
Qed.

Lemma elem_box_ok m id e :
  wf_mesh m -> refs_ok m -> t_get (m_elems m) id = Ok e -> e_nodes e <> [] ->
  (forall id c, t_get (m_nodes m) id = Ok c -> finite c) ->
  exists b cs, elem_box m id = Ok b /\ coords m (e_nodes e) = map Ok cs /\ tight b cs.
Proof.
  intros (Hn & _ & _) (Hr & _) He Hne Hfin. specialize (Hr id e He). rewrite Forall_forall in Hr.
  destruct (values_exist (m_nodes m) (e_nodes e) Hn Hr) as [cs Hcs].
  exists (box_add_all cs), cs. split; [|split; [exact Hcs|]].
  - unfold elem_box. rewrite He. cbn. now apply foldM_box.
  - apply box_tight.
    + intros ->. cbn in Hcs. apply map_eq_nil in Hcs. contradiction.
    + intros c Hc. assert (Hok : In (Ok c) (map Ok cs)) by now apply in_map.
      rewrite <- Hcs in Hok. apply in_map_iff in Hok. destruct Hok as (k & Hk & _). eauto.
Qed.

Lemma grow_midpoint lo hi a :
  b_center (box_grow (box_of lo hi) a) =v= centre (b_min (box_grow (box_of lo hi) a)) (b_max (box_grow (box_of lo hi) a)).
Proof.
  unfold box_grow, box_of, centre, vsub, vadd, vscale, veq. cbn [b_min b_max b_center cx cy cz]. repeat split; lra.
Qed.
