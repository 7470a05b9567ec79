(** Proofs about the advancing front. *)
From Coq Require Import ZArith List Bool QArith Lia Lqa.
From Verif Require Import Prelude Vec ZMap Mesh_Model HashGrid_Model Face_Model Merge_Model Mesh_Spec Mesh_Proofs Front_Model Front_Spec.
Import ListNotations.
Open Scope Z_scope.

(** ** Parities *)
Definition joins (d : Z * Z) (a b : Z) : bool := ((fst d =? a) && (snd d =? b)) || ((fst d =? b) && (snd d =? a)).
Definition par (l : list (Z * Z)) (a b : Z) : bool := fold_right (fun d x => xorb (joins d a b) x) false l.
Definition w (e : fedge) (a b : Z) : bool := negb (fe_off e) && joins (fe_a e, fe_b e) a b.
Definition W (l : list fedge) (a b : Z) : bool := fold_right (fun e x => xorb (w e a b) x) false l.

Lemma par_app l k a b : par (l ++ k) a b = xorb (par l a b) (par k a b).
Proof. induction l as [|d l IH]; [symmetry; apply xorb_false_l|]. cbn [app par fold_right]. fold (par (l ++ k) a b) (par l a b). rewrite IH. now destruct (joins d a b), (par l a b), (par k a b). Qed.

Lemma W_app l k a b : W (l ++ k) a b = xorb (W l a b) (W k a b).
Proof. induction l as [|d l IH]; [symmetry; apply xorb_false_l|]. cbn [app W fold_right]. fold (W (l ++ k) a b) (W l a b). rewrite IH. now destruct (w d a b), (W l a b), (W k a b). Qed.

Lemma odd_joining l a b : a <> b -> Nat.odd (joining l a b) = par l a b.
Proof.
  intros Hab. unfold joining. induction l as [|[x y] l IH]; [reflexivity|].
  cbn [par fold_right]. fold (par l a b). rewrite <- IH. unfold running. cbn [filter fst snd]. unfold joins. cbn [fst snd].
  destruct (Z.eqb_spec x a), (Z.eqb_spec y b), (Z.eqb_spec x b), (Z.eqb_spec y a); cbn [andb orb length xorb]; subst; try congruence;
    rewrite ?Nat.add_succ_r, ?Nat.add_succ_l, ?Nat.odd_succ, <- ?Nat.negb_odd; try reflexivity;
    destruct (Nat.odd _); reflexivity.
Qed.

Lemma joins_sym x y a b : joins (x, y) a b = joins (y, x) a b.
Proof. unfold joins. cbn. now rewrite orb_comm, (andb_comm (y =? a)), (andb_comm (y =? b)). Qed.

Lemma joins_loop x a b : a <> b -> joins (x, x) a b = false.
Proof. intros H. unfold joins. cbn. destruct (Z.eqb_spec x a), (Z.eqb_spec x b); cbn; congruence. Qed.

Lemma same_nodes_joins e f a b : same_nodes e f = true -> joins (fe_a e, fe_b e) a b = joins (fe_a f, fe_b f) a b.
Proof.
  unfold same_nodes. rewrite orb_true_iff, !andb_true_iff, !Z.eqb_eq. intros [[-> ->]|[-> ->]]; [reflexivity|apply joins_sym].
Qed.

(** ** Lists *)
Lemma upd_length {A} (l : list A) : forall n x, length (upd l n x) = length l.
Proof. induction l; intros [|n] x; cbn; auto. Qed.

Lemma nth_upd {A} (l : list A) : forall n k x, nth_error (upd l n x) k =
  if Nat.eqb n k then match nth_error l k with Some _ => Some x | None => None end else nth_error l k.
Proof.
  induction l as [|y l IH]; intros [|n] [|k] x; cbn; try reflexivity.
  - now destruct (Nat.eqb n k).
  - apply IH.
Qed.

Lemma W_upd l : forall n e x a b, nth_error l n = Some e -> W (upd l n x) a b = xorb (W l a b) (xorb (w e a b) (w x a b)).
Proof.
  induction l as [|y l IH]; intros [|n] e x a b H; cbn in H; try discriminate.
  - injection H as ->. cbn [upd W fold_right]. fold (W l a b). destruct (w e a b), (w x a b), (W l a b); reflexivity.
  - cbn [upd W fold_right]. fold (W (upd l n x) a b) (W l a b). rewrite (IH n e x a b H).
    destruct (w y a b), (w e a b), (w x a b), (W l a b); reflexivity.
Qed.

(** ** Changes that only touch the links, or switch off an edge from a node to itself *)
Definition alike (e f : fedge) : Prop := fe_a f = fe_a e /\ fe_b f = fe_b e /\ (fe_off f = fe_off e \/ fe_a e = fe_b e).
Definition sim (l l' : list fedge) : Prop := Forall2 alike l l'.

Lemma alike_refl e : alike e e.
Proof. unfold alike. auto. Qed.
Lemma sim_refl l : sim l l.
Proof. induction l; constructor; auto using alike_refl. Qed.
Lemma sim_trans l k m : sim l k -> sim k m -> sim l m.
Proof.
  intros H. revert m. induction H as [|e f l k A H IH]; intros m Hm; inversion Hm; subst; constructor; [|apply IH; assumption].
  match goal with X : alike f _ |- _ => destruct A as (?&?&A), X as (?&?&B2) end.
  split; [congruence|]. split; [congruence|]. destruct A; [|right; congruence]. destruct B2; [left|right]; congruence.
Qed.
Lemma sim_nth l k n e : sim l k -> nth_error l n = Some e -> exists f, nth_error k n = Some f /\ alike e f.
Proof. intros H. revert n. induction H; intros [|n] Hn; cbn in *; try discriminate; [injection Hn as <-; eauto|auto]. Qed.
Lemma sim_back l k n f : sim l k -> nth_error k n = Some f -> exists e, nth_error l n = Some e /\ alike e f.
Proof. intros H. revert n. induction H; intros [|n] Hn; cbn in *; try discriminate; [injection Hn as <-; eauto|auto]. Qed.
Lemma sim_W l k a b : a <> b -> sim l k -> W k a b = W l a b.
Proof.
  intros Hab. induction 1 as [|e f l k A H IH]; [reflexivity|]. cbn [W fold_right]. fold (W k a b) (W l a b). rewrite IH. f_equal.
  destruct A as (Ha & Hb & O). unfold w. rewrite Ha, Hb. destruct O as [->|E]; [reflexivity|].
  rewrite E, joins_loop by assumption. now rewrite !andb_false_r.
Qed.
Lemma sim_length l k : sim l k -> length k = length l.
Proof. induction 1; cbn; congruence. Qed.
Lemma sim_upd l n e f : nth_error l n = Some e -> alike e f -> sim l (upd l n f).
Proof.
  revert n. induction l as [|y l IH]; intros [|n] H A; cbn in *; try discriminate.
  - injection H as ->. constructor; [assumption|apply sim_refl].
  - constructor; [apply alike_refl|apply IH; auto].
Qed.

Lemma edge_at_ok s i e : edge_at s i = Ok e <-> 0 <= i /\ nth_error (ms_front s) (Z.to_nat i) = Some e.
Proof. apply vec_at_Ok. Qed.

(** ** The invariant *)
Section Inv.
Variable em : mesh.
Variable tol : Q.
Hypothesis Htol : (0 <= tol)%Q.

Definition placed (t : table coord) (n : Z) : Prop := exists c, t_get t n = Ok c.
Definition good_triangle (t : table coord) (e : element) : Prop :=
  exists p q r cp cq cr, e = Element ET_TRIANGLE [p; q; r] [] /\
    t_get t p = Ok cp /\ t_get t q = Ok cq /\ t_get t r = Ok cr /\ upright tol cp cq cr = true.

Record inv (s : mesher) : Prop := {
  i_nodes : wf_table (ms_nodes s);
  i_elems : wf_table (ms_elems s);
  i_tri : forall id e, t_get (ms_elems s) id = Ok e -> good_triangle (ms_nodes s) e;
  i_edge : forall e, In e (ms_front s) -> placed (ms_nodes s) (fe_a e) /\ placed (ms_nodes s) (fe_b e);
  i_tree : forall k, In k (ms_tree s) -> exists e, edge_at s k = Ok e /\ (fe_off e = false \/ fe_a e = fe_b e);
  i_par : forall a b, a <> b -> xorb (par (all_sides (ms_elems s)) a b) (xorb (W (ms_front s) a b) (par (beams em) a b)) = false;
  i_keep : forall n c, t_get (m_nodes em) n = Ok c -> t_get (ms_nodes s) n = Ok c
}.

(** Replacing the front by a similar one. *)
Lemma inv_sim s l : inv s -> sim (ms_front s) l -> inv (Mesher l (ms_tree s) (ms_nodes s) (ms_elems s) (ms_inner s)).
Proof.
  intros I H. constructor; cbn [ms_front ms_tree ms_nodes ms_elems ms_inner]; try apply I.
  - intros e He. apply In_nth_error in He. destruct He as [n Hn]. destruct (sim_back _ _ _ _ H Hn) as (f & Hf & -> & -> & _).
    apply (i_edge _ I). eapply nth_error_In; eauto.
  - intros k Hk. destruct (i_tree _ I k Hk) as (e & He & O). apply edge_at_ok in He. destruct He as [H0 He].
    destruct (sim_nth _ _ _ _ H He) as (f & Hf & A). exists f. split; [apply edge_at_ok; auto|].
    destruct A as (Ha & Hb & [Ho|E]); rewrite Ha, Hb; [rewrite Ho; assumption|now right].
  - intros a b Hab. rewrite (sim_W _ _ a b Hab H). now apply (i_par _ I).
Qed.

(** What [sim] leaves alone. *)
Definition same_rest (s s' : mesher) : Prop :=
  ms_tree s' = ms_tree s /\ ms_nodes s' = ms_nodes s /\ ms_elems s' = ms_elems s /\ ms_inner s' = ms_inner s.
Definition like (s s' : mesher) : Prop := sim (ms_front s) (ms_front s') /\ same_rest s s'.
Lemma like_refl s : like s s.
Proof. repeat split. apply sim_refl. Qed.
Lemma like_trans s t u : like s t -> like t u -> like s u.
Proof. intros (A & B & C & D & E) (A' & B' & C' & D' & E'). split; [eapply sim_trans; eauto|]. repeat split; congruence. Qed.
Lemma inv_like s s' : inv s -> like s s' -> inv s'.
Proof. intros I (H & B & C & D & E). destruct s' as [l tr nd el inn]. cbn in *. subst. now apply inv_sim. Qed.

Lemma like_put s i e f : edge_at s i = Ok e -> alike e f -> like s (put s i f).
Proof. intros H A. apply edge_at_ok in H. split; [|repeat split]. cbn. eapply sim_upd; [apply H|assumption]. Qed.
Lemma alike_prev e k : alike e (set_prev e k).
Proof. repeat split. now left. Qed.
Lemma alike_next e k : alike e (set_next e k).
Proof. repeat split. now left. Qed.

Lemma put_other s i k e : 0 <= i -> 0 <= k -> i <> k -> edge_at (put s i e) k = edge_at s k.
Proof.
  intros Hi Hk Hne. unfold edge_at, vec_at, put. cbn. destruct (k <? 0) eqn:E; [reflexivity|]. rewrite nth_upd.
  destruct (Nat.eqb_spec (Z.to_nat i) (Z.to_nat k)); [lia|reflexivity].
Qed.

Lemma rewire_like i s x s' : rewire i s x = Ok s' -> like s s'.
Proof.
  unfold rewire. destruct (Z.eqb_spec x i); [intros [= <-]; apply like_refl|].
  destruct (edge_at s i) as [e| |] eqn:He; cbn; try discriminate.
  destruct (edge_at s x) as [f| |] eqn:Hf; cbn; try discriminate.
  pose proof (proj1 (edge_at_ok _ _ _) He) as [Hi _]. pose proof (proj1 (edge_at_ok _ _ _) Hf) as [Hx _].
  destruct (fe_off f); [intros [= <-]; apply like_refl|].
  destruct (fe_a e =? fe_b f).
  { intros [= <-]. eapply like_trans; [eapply like_put; [exact He|apply (alike_prev e x)]|].
    eapply like_put; [rewrite put_other by auto; exact Hf|apply alike_next]. }
  destruct (fe_b e =? fe_a f); intros [= <-]; [|apply like_refl].
  eapply like_trans; [eapply like_put; [exact He|apply (alike_next e x)]|].
  eapply like_put; [rewrite put_other by auto; exact Hf|apply alike_prev].
Qed.

Lemma foldM_like {B} (f : mesher -> B -> outcome mesher) : (forall s x s', f s x = Ok s' -> like s s') ->
  forall l s s', foldM f l s = Ok s' -> like s s'.
Proof.
  intros H. induction l as [|x l IH]; intros s s'; cbn; [intros [= <-]; apply like_refl|].
  destruct (f s x) as [s1| |] eqn:E; cbn; try discriminate. intros H1. eapply like_trans; eauto.
Qed.

Lemma adjust_like s near s' : adjust s near = Ok s' -> like s s'.
Proof.
  unfold adjust. apply foldM_like. clear. intros s i s'. unfold adjust_step.
  destruct (edge_at s i) as [e| |] eqn:He; cbn; try discriminate.
  destruct (fe_off e) eqn:Ho; [intros [= <-]; apply like_refl|].
  destruct (Z.eqb_spec (fe_a e) (fe_b e)) as [E|].
  { intros [= <-]. eapply like_put; [exact He|]. repeat split. now right. }
  destruct (_ || _); [discriminate|].
  destruct (edge_at s (fe_prev e)) as [p| |]; cbn; try discriminate.
  destruct (edge_at s (fe_next e)) as [n0| |]; cbn; try discriminate.
  destruct (_ || _); [|intros [= <-]; apply like_refl].
  apply foldM_like. apply rewire_like.
Qed.

(** ** Removing an edge *)
Lemma drop_edge_ok s i s' e : edge_at s i = Ok e -> drop_edge s i = Ok s' ->
  ms_nodes s' = ms_nodes s /\ ms_elems s' = ms_elems s /\ ms_inner s' = ms_inner s /\
  ms_front s' = upd (ms_front s) (Z.to_nat i) (switch_off e) /\ ms_tree s' = filter (fun k => negb (k =? i)) (ms_tree s).
Proof.
  intros He. unfold drop_edge. rewrite He. cbn.
  destruct (t_get (ms_nodes s) (fe_a e)); cbn; try discriminate. destruct (t_get (ms_nodes s) (fe_b e)); cbn; try discriminate.
  intros [= <-]. cbn. auto.
Qed.

(** Everything but the parity; it is stated separately because it is broken while a triangle is being added. *)
Definition broken (s : mesher) (d : Z -> Z -> bool) : Prop :=
  wf_table (ms_nodes s) /\ wf_table (ms_elems s) /\
  (forall id e, t_get (ms_elems s) id = Ok e -> good_triangle (ms_nodes s) e) /\
  (forall e, In e (ms_front s) -> placed (ms_nodes s) (fe_a e) /\ placed (ms_nodes s) (fe_b e)) /\
  (forall k, In k (ms_tree s) -> exists e, edge_at s k = Ok e /\ (fe_off e = false \/ fe_a e = fe_b e)) /\
  (forall a b, a <> b -> xorb (par (all_sides (ms_elems s)) a b) (xorb (W (ms_front s) a b) (par (beams em) a b)) = d a b) /\
  (forall n c, t_get (m_nodes em) n = Ok c -> t_get (ms_nodes s) n = Ok c).

Lemma broken_inv s : inv s <-> broken s (fun _ _ => false).
Proof.
  split.
  - intros I. repeat (split; [apply I|]). apply I.
  - intros (A & B & C & D & E & F & G). constructor; assumption.
Qed.

Lemma drop_broken s i s' e d : broken s d -> edge_at s i = Ok e -> drop_edge s i = Ok s' ->
  broken s' (fun a b => xorb (d a b) (w e a b)).
Proof.
  intros (A & B & C & D & E & F & G) He H. destruct (drop_edge_ok _ _ _ _ He H) as (Hn & Hel & _ & Hf & Ht).
  pose proof (proj1 (edge_at_ok _ _ _) He) as [Hi Hi'].
  unfold broken. rewrite Hn, Hel, Hf, Ht. split; [exact A|]. split; [exact B|]. split; [exact C|]. split; [|split; [|split]].
  - intros x Hx. apply In_nth_error in Hx. destruct Hx as [n Hx]. rewrite nth_upd in Hx.
    destruct (Nat.eqb_spec (Z.to_nat i) n).
    + subst n. rewrite Hi' in Hx. injection Hx as <-. cbn. apply D. eapply nth_error_In; eauto.
    + apply D. eapply nth_error_In; eauto.
  - intros k Hk. apply filter_In in Hk. destruct Hk as [Hk Hne]. destruct (Z.eqb_spec k i) as [|Hki]; [discriminate|].
    destruct (E k Hk) as (x & Hx & O). exists x. split; [|exact O]. apply edge_at_ok in Hx. apply edge_at_ok. split; [apply Hx|].
    rewrite Hf, nth_upd. destruct (Nat.eqb_spec (Z.to_nat i) (Z.to_nat k)); [lia|apply Hx].
  - intros a b Hab. rewrite (W_upd _ _ _ _ _ _ Hi').
    replace (w (switch_off e) a b) with false by reflexivity. rewrite <- (F a b Hab), xorb_false_r.
    destruct (par _ a b), (W _ a b), (w e a b), (par _ a b); reflexivity.
  - exact G.
Qed.

Lemma broken_ext s d d' : broken s d -> (forall a b, a <> b -> d a b = d' a b) -> broken s d'.
Proof.
  intros (A & B & C & D & E & F & G) H. unfold broken. split; [exact A|]. split; [exact B|]. split; [exact C|]. split; [exact D|].
  split; [exact E|]. split; [|exact G]. intros a b Hab. rewrite <- (H a b Hab). auto.
Qed.

Lemma edge_exists_some s i e near : forall x, edge_exists s i e near = Ok (Some x) ->
  In x near /\ x <> i /\ exists f, edge_at s x = Ok f /\ same_nodes e f = true.
Proof.
  induction near as [|y near IH]; intros x; cbn; [discriminate|].
  destruct (Z.eqb_spec y i); [intros H; destruct (IH x H); split; [now right|assumption]|].
  destruct (edge_at s y) as [f| |] eqn:Hf; cbn; try discriminate.
  destruct (same_nodes e f) eqn:Hs.
  - intros [= <-]. split; [now left|]. split; [assumption|]. eauto.
  - intros H; destruct (IH x H); split; [now right|assumption].
Qed.

(** One turn of cleanDuplicateEdges.  Every edge of [near] is either stored in the tree or does not join the nodes of [e]. *)
Lemma clean_step_ok near s b i r e : inv s -> edge_at s i = Ok e -> fe_off e = false -> fe_a e <> fe_b e -> ~ In i near ->
  (forall k f, In k near -> edge_at s k = Ok f -> In k (ms_tree s) \/ same_nodes e f = false) ->
  clean_step near (s, b) i = Ok r -> inv (fst r) /\
  ms_nodes (fst r) = ms_nodes s /\ ms_elems (fst r) = ms_elems s /\ length (ms_front (fst r)) = length (ms_front s) /\
  (forall k f, edge_at (fst r) k = Ok f -> exists f0, edge_at s k = Ok f0 /\ fe_a f0 = fe_a f /\ fe_b f0 = fe_b f /\
     (same_nodes e f = false -> f = f0 /\ (In k (ms_tree s) -> In k (ms_tree (fst r))))).
Proof.
  intros I He Ho Hab Hni Hnear. unfold clean_step. cbn [fst]. rewrite He. cbn [bind]. rewrite Ho.
  destruct (edge_exists s i e near) as [[x|]| |] eqn:Hx; cbn [bind]; try discriminate.
  2:{ intros [= <-]. cbn. split; [exact I|]. split; [reflexivity|]. split; [reflexivity|]. split; [reflexivity|].
      intros k f Hk. exists f. auto. }
  destruct (edge_exists_some _ _ _ _ _ Hx) as (Hin & Hxi & f & Hf & Hs).
  destruct (drop_edge s i) as [s1| |] eqn:H1; cbn [bind]; try discriminate.
  destruct (drop_edge s1 x) as [s2| |] eqn:H2; cbn [bind]; try discriminate.
  intros [= <-]. cbn [fst].
  pose proof (proj1 (edge_at_ok _ _ _) He) as [Hi Hi']. pose proof (proj1 (edge_at_ok _ _ _) Hf) as [Hxx Hx'].
  destruct (drop_edge_ok _ _ _ _ He H1) as (Hn1 & Hel1 & _ & Hf1 & Ht1).
  assert (Hfx : edge_at s1 x = Ok f).
  { apply edge_at_ok. split; [assumption|]. rewrite Hf1, nth_upd. destruct (Nat.eqb_spec (Z.to_nat i) (Z.to_nat x)); [lia|assumption]. }
  destruct (drop_edge_ok _ _ _ _ Hfx H2) as (Hn2 & Hel2 & _ & Hf2 & Ht2).
  assert (Hoff : fe_off f = false).
  { destruct (Hnear x f Hin Hf) as [Ht|Hd]; [|congruence]. destruct (i_tree _ I x Ht) as (f' & Hf' & [O|O]); [congruence|].
    assert (f' = f) by congruence. subst f'. exfalso. unfold same_nodes in Hs.
    apply orb_true_iff in Hs. rewrite !andb_true_iff, !Z.eqb_eq in Hs. destruct Hs as [[]|[]]; congruence. }
  split; [|split; [congruence|split; [congruence|split]]].
  - apply broken_inv. apply (proj1 (broken_inv s)) in I.
    pose proof (drop_broken _ _ _ _ _ (drop_broken _ _ _ _ _ I He H1) Hfx H2) as Hb.
    apply (broken_ext _ _ _ Hb). intros a c Hac. unfold w. rewrite Ho, Hoff. cbn. rewrite (same_nodes_joins e f a c Hs).
    now destruct (joins (fe_a f, fe_b f) a c).
  - rewrite Hf2, Hf1, !upd_length. reflexivity.
  - intros k g Hk. apply edge_at_ok in Hk. destruct Hk as [Hk0 Hk]. rewrite Hf2, nth_upd in Hk.
    destruct (Nat.eqb_spec (Z.to_nat x) (Z.to_nat k)) as [E|E].
    + destruct (nth_error (ms_front s1) (Z.to_nat k)) eqn:Hq; [|discriminate]. injection Hk as <-.
      assert (k = x) by lia. subst k. exists f. split; [assumption|]. cbn. split; [reflexivity|]. split; [reflexivity|].
      intros Hd. exfalso. unfold same_nodes in *. cbn in Hd. congruence.
    + rewrite Hf1, nth_upd in Hk. destruct (Nat.eqb_spec (Z.to_nat i) (Z.to_nat k)) as [E'|E'].
      * rewrite <- E', Hi' in Hk. injection Hk as <-. assert (k = i) by lia. subst k. exists e. split; [assumption|]. cbn.
        split; [reflexivity|]. split; [reflexivity|]. intros Hd. exfalso. unfold same_nodes in Hd. cbn in Hd.
        rewrite !Z.eqb_refl in Hd. discriminate.
      * exists g. split; [apply edge_at_ok; auto|]. split; [reflexivity|]. split; [reflexivity|]. intros _. split; [reflexivity|].
        intros Hkt. rewrite Ht2, Ht1. apply filter_In. split.
        -- apply filter_In. split; [assumption|]. destruct (Z.eqb_spec k i); [subst; lia|reflexivity].
        -- destruct (Z.eqb_spec k x); [subst; lia|reflexivity].
Qed.

Lemma same_nodes_apart n1 n2 n3 f : n1 <> n2 -> n3 <> n1 -> n3 <> n2 -> forall p q p' q',
  same_nodes (FEdge false n3 n2 p q) f = true -> same_nodes (FEdge false n1 n3 p' q') f = false.
Proof.
  intros H1 H2 H3 p q p' q'. unfold same_nodes. cbn. intros H.
  destruct (Z.eqb_spec n1 (fe_a f)), (Z.eqb_spec n3 (fe_b f)), (Z.eqb_spec n1 (fe_b f)), (Z.eqb_spec n3 (fe_a f)),
    (Z.eqb_spec n2 (fe_a f)), (Z.eqb_spec n2 (fe_b f)); cbn in *; try congruence; try discriminate.
Qed.

(** cleanDuplicateEdges after a triangle: the last two edges of the front are the new ones. *)
Lemma clean_ok s near s' front n1 n2 n3 p q p' q' : inv s ->
  ms_front s = front ++ [FEdge false n1 n3 p q; FEdge false n3 n2 p' q'] ->
  n1 <> n2 -> n3 <> n1 -> n3 <> n2 ->
  (forall k, In k near -> In k (ms_tree s) /\ k < zlen front) ->
  clean s near = Ok s' -> inv s' /\ ms_nodes s' = ms_nodes s /\ ms_elems s' = ms_elems s.
Proof.
  intros I Hf H12 H31 H32 Hnear. unfold clean. set (k := zlen (ms_front s)).
  assert (Hk : k = zlen front + 2) by (unfold k, zlen; rewrite Hf, app_length; cbn [length]; lia).
  assert (H0 : 0 <= zlen front) by (unfold zlen; lia).
  destruct (k <? 2) eqn:E; [apply Z.ltb_lt in E; lia|]. clear E. cbn [foldM].
  assert (He2 : edge_at s (k - 1) = Ok (FEdge false n3 n2 p' q')).
  { apply edge_at_ok. split; [lia|]. rewrite Hf, nth_error_app2 by (unfold zlen in *; lia).
    replace (Z.to_nat (k - 1) - length front)%nat with 1%nat by (unfold zlen in *; lia). reflexivity. }
  assert (He1 : edge_at s (k - 2) = Ok (FEdge false n1 n3 p q)).
  { apply edge_at_ok. split; [lia|]. rewrite Hf, nth_error_app2 by (unfold zlen in *; lia).
    replace (Z.to_nat (k - 2) - length front)%nat with 0%nat by (unfold zlen in *; lia). reflexivity. }
  destruct (clean_step near (s, false) (k - 1)) as [r1| |] eqn:H1; cbn [bind]; try discriminate.
  destruct (clean_step_ok near s false (k - 1) r1 _ I He2) as (I1 & Hn1 & Hel1 & Hl1 & Hold); auto.
  { intros Hin. apply Hnear in Hin. lia. }
  { intros x f Hin _. left. now apply Hnear. }
  destruct r1 as [s1 b1]. cbn [fst] in *.
  destruct (clean_step near (s1, b1) (k - 2)) as [r2| |] eqn:H2; cbn [bind]; try discriminate.
  assert (Hlt : (Z.to_nat (k - 2) < length (ms_front s1))%nat).
  { rewrite Hl1, Hf, app_length. cbn [length]. unfold zlen in *. lia. }
  assert (He1' : edge_at s1 (k - 2) = Ok (FEdge false n1 n3 p q)).
  { destruct (nth_error (ms_front s1) (Z.to_nat (k - 2))) as [g|] eqn:Hg; [|apply nth_error_None in Hg; lia].
    assert (Hg' : edge_at s1 (k - 2) = Ok g) by (apply edge_at_ok; split; [lia|assumption]).
    destruct (Hold _ _ Hg') as (g0 & Hg0 & Ha & Hb & Hsame). rewrite He1 in Hg0. injection Hg0 as <-.
    destruct Hsame as [-> _]; [|assumption]. unfold same_nodes. cbn in *. rewrite <- Ha, <- Hb.
    destruct (Z.eqb_spec n3 n1), (Z.eqb_spec n3 n3), (Z.eqb_spec n2 n3), (Z.eqb_spec n2 n1); cbn; congruence. }
  destruct (clean_step_ok near s1 b1 (k - 2) r2 _ I1 He1') as (I2 & Hn2 & Hel2 & Hl2 & _); auto.
  { intros Hin. apply Hnear in Hin. lia. }
  { intros x f Hin Hx. destruct (Hold _ _ Hx) as (f0 & Hf0 & Ha & Hb & Hsame).
    destruct (same_nodes (FEdge false n3 n2 p' q') f) eqn:Hs.
    - right. eapply same_nodes_apart; eauto.
    - left. destruct (Hsame eq_refl) as [_ Ht]. apply Ht. now apply Hnear. }
  destruct (snd r2).
  - intros H. apply adjust_like in H. split; [eapply inv_like; eauto|]. destruct H as (_ & _ & A & B & _). split; congruence.
  - intros [= <-]. split; [exact I2|]. split; congruence.
Qed.

(** ** Tables *)
Lemma t_get_add {A} (t : table A) id v k : t_get (t_add t id v) k = if k =? id then Ok v else t_get t k.
Proof. unfold t_get, zat, t_add. cbn. rewrite zlookup_insert. now destruct (k =? id). Qed.

Lemma next_absent {A} (t : table A) : wf_table t -> t_get t (t_next t) = Throw /\ ~ In (t_next t) (t_ids t).
Proof.
  intros (Hnd & Hs & Hk). destruct (t_next_fresh t Hs) as [Hf _]. split; [now apply zat_Throw|]. rewrite Hk. congruence.
Qed.

Lemma flat_map_same {A B} (f g : A -> list B) l : (forall x, In x l -> f x = g x) -> flat_map f l = flat_map g l.
Proof.
  induction l as [|x l IH]; intros H; [reflexivity|]. cbn [flat_map]. rewrite (H x (or_introl eq_refl)), IH; [reflexivity|].
  intros y Hy. apply H. now right.
Qed.

Lemma all_sides_add t e : wf_table t -> all_sides (t_add t (t_next t) e) = all_sides t ++ sides_of (e_nodes e).
Proof.
  intros Wf. destruct (next_absent t Wf) as [_ Hni]. unfold all_sides. cbn [t_add t_ids]. rewrite flat_map_app. f_equal.
  - apply flat_map_same. intros id Hid. unfold element_sides. rewrite t_get_add.
    destruct (Z.eqb_spec id (t_next t)); [congruence|reflexivity].
  - cbn [flat_map]. unfold element_sides. rewrite t_get_add, Z.eqb_refl. apply app_nil_r.
Qed.

(** ** Upright triangles have three different corners *)
Lemma upright_cross p q r : upright tol p q r = true ->
  (0 < area2 p q r)%Q /\ (tol * tol * norm2 (cross (vsub q p) (vsub r p)) < area2 p q r * area2 p q r)%Q.
Proof.
  unfold upright. replace (Qle_bool 0 tol) with true by (symmetry; now apply Qle_bool_iff).
  rewrite andb_true_iff, !Qlt_bool_iff. intros [H1 H2].
  assert (E : (cz (cross (vsub q p) (vsub r p)) == area2 p q r)%Q) by (unfold cross, vsub, area2; cbn; ring).
  rewrite E in H1, H2. auto.
Qed.

Lemma upright_distinct t p q r cp cq cr : t_get t p = Ok cp -> t_get t q = Ok cq -> t_get t r = Ok cr ->
  upright tol cp cq cr = true -> p <> q /\ r <> p /\ r <> q.
Proof.
  intros Hp Hq Hr H. apply upright_cross in H. destruct H as [H _].
  split; [|split]; intros ->.
  - assert (cp = cq) by congruence. subst. unfold area2 in H. ring_simplify in H. now apply Qlt_irrefl in H.
  - assert (cp = cr) by congruence. subst. unfold area2 in H. ring_simplify in H. now apply Qlt_irrefl in H.
  - assert (cq = cr) by congruence. subst. unfold area2 in H. ring_simplify in H. now apply Qlt_irrefl in H.
Qed.

Lemma good_mono t t' e : (forall n c, t_get t n = Ok c -> t_get t' n = Ok c) -> good_triangle t e -> good_triangle t' e.
Proof.
  intros H (p & q & r & cp & cq & cr & E & Hp & Hq & Hr & U). exists p, q, r, cp, cq, cr. auto 10.
Qed.

(** ** addTriangle *)
Lemma add_triangle_ok s i n3 near s' e cp cq cr : inv s -> edge_at s i = Ok e -> fe_off e = false ->
  t_get (ms_nodes s) (fe_a e) = Ok cp -> t_get (ms_nodes s) (fe_b e) = Ok cq -> t_get (ms_nodes s) n3 = Ok cr ->
  upright tol cp cq cr = true ->
  (forall k, In k near -> In k (ms_tree s) /\ k <> i) ->
  add_triangle s i n3 near = Ok s' -> inv s'.
Proof.
  intros I He Ho Hp Hq Hr U Hnear. destruct (upright_distinct _ _ _ _ _ _ _ Hp Hq Hr U) as (H12 & H31 & H32).
  unfold add_triangle. rewrite He. cbn [bind].
  destruct (Z.eqb_spec n3 (fe_a e)); [contradiction|]. destruct (Z.eqb_spec n3 (fe_b e)); [contradiction|]. cbn [orb].
  destruct (edge_at s (fe_prev e)) as [pe| |] eqn:Hpe; cbn [bind]; try discriminate.
  destruct (edge_at s (fe_next e)) as [ne| |] eqn:Hne; cbn [bind]; try discriminate.
  rewrite Hp, Hq, Hr. cbn [bind]. set (k := zlen (ms_front s)).
  set (s1 := put s (fe_prev e) (set_next pe k)).
  assert (L1 : like s s1) by (eapply like_put; [exact Hpe|apply alike_next]).
  destruct (edge_at s1 i) as [e'| |] eqn:He'; cbn [bind]; try discriminate.
  destruct (edge_at s1 (fe_next e)) as [nx| |] eqn:Hnx; cbn [bind]; try discriminate.
  set (s2 := put s1 (fe_next e) (set_prev nx (k + 1))).
  assert (L2 : like s s2) by (eapply like_trans; [exact L1|eapply like_put; [exact Hnx|apply alike_prev]]).
  destruct (drop_edge s2 i) as [s3| |] eqn:H3; cbn [bind]; try discriminate.
  pose proof (inv_like _ _ I L2) as I2.
  destruct L2 as (S2 & T2 & N2 & E2 & _).
  destruct (proj1 (edge_at_ok _ _ _) He) as [Hi0 Hi].
  destruct (sim_nth _ _ _ _ S2 Hi) as (e2 & He2 & Ha2 & Hb2 & Ho2).
  assert (He2' : edge_at s2 i = Ok e2) by (apply edge_at_ok; auto).
  destruct Ho2 as [Ho2|]; [|contradiction]. rewrite Ho in Ho2.
  pose proof (drop_broken _ _ _ _ _ (proj1 (broken_inv _) I2) He2' H3) as B3.
  destruct (drop_edge_ok _ _ _ _ He2' H3) as (N3 & E3 & _ & F3 & T3).
  assert (Hlen : zlen (ms_front s3) = k).
  { unfold zlen, k. rewrite F3, upd_length, (sim_length _ _ S2). reflexivity. }
  intros Hc. eapply clean_ok in Hc; [apply Hc| |cbn [ms_front]; reflexivity|assumption|assumption|assumption|].
  - apply broken_inv. destruct B3 as (A & B & C & D & Et & F & G).
    assert (Wel : wf_table (ms_elems s)) by apply I.
    unfold broken. cbn [ms_front ms_tree ms_nodes ms_elems ms_inner]. split; [exact A|]. split; [now apply t_add_next_wf|].
    split; [|split; [|split; [|split]]].
    + intros id x. rewrite t_get_add. destruct (id =? t_next (ms_elems s)).
      * intros [= <-]. exists (fe_a e), (fe_b e), n3, cp, cq, cr. rewrite N3, N2. auto.
      * intros Hx. apply (C id). rewrite E3, E2. exact Hx.
    + intros x Hx. apply in_app_or in Hx. destruct Hx as [Hx|[<-|[<-|[]]]]; [now apply D| |]; cbn; unfold placed; rewrite N3, N2; eauto.
    + intros x Hx. apply in_app_or in Hx. destruct Hx as [Hx|Hx].
      * destruct (Et x Hx) as (y & Hy & O). exists y. split; [|exact O]. apply edge_at_ok in Hy. apply edge_at_ok. cbn [ms_front].
        split; [apply Hy|]. rewrite nth_error_app1; [apply Hy|]. apply nth_error_Some. destruct Hy as [_ Hy]. congruence.
      * destruct Hx as [<-|[<-|[]]]; eexists; (split; [apply edge_at_ok; cbn [ms_front]; split; [unfold k, zlen; lia|];
          rewrite nth_error_app2 by (unfold zlen in *; lia)|]).
        -- replace (Z.to_nat k - length (ms_front s3))%nat with 0%nat by (unfold zlen in *; lia). reflexivity.
        -- left. reflexivity.
        -- replace (Z.to_nat (k + 1) - length (ms_front s3))%nat with 1%nat by (unfold zlen in *; lia). reflexivity.
        -- left. reflexivity.
    + intros a b Hab. rewrite all_sides_add by assumption. rewrite par_app, W_app. specialize (F a b Hab). rewrite E3, E2 in F.
      unfold w in F. rewrite Ho2, Ha2, Hb2 in F.
      cbn [e_nodes sides_of par W fold_right w fe_off fe_a fe_b negb andb xorb] in *. fold (par (beams em) a b) in *. fold (W (ms_front s3) a b) in *.
      rewrite (joins_sym (fe_b e) n3), (joins_sym n3 (fe_a e)). unfold w. cbn [fe_off fe_a fe_b negb andb].
      revert F. generalize (joins (fe_a e, fe_b e) a b) (joins (n3, fe_b e) a b) (joins (fe_a e, n3) a b) (W (ms_front s3) a b)
        (par (all_sides (ms_elems s)) a b) (par (beams em) a b).
      intros [] [] [] [] [] []; cbn; intros F; congruence.
    + exact G.
  - intros x Hx. destruct (Hnear x Hx) as [Hxt Hxi]. cbn [ms_tree]. split.
    + apply in_or_app. left. rewrite T3. apply filter_In. split; [now rewrite T2|]. destruct (Z.eqb_spec x i); [contradiction|reflexivity].
    + destruct (i_tree _ I x Hxt) as (y & Hy & _). apply edge_at_ok in Hy. rewrite Hlen. unfold k, zlen.
      assert ((Z.to_nat x < length (ms_front s))%nat) by (apply nth_error_Some; destruct Hy; congruence). lia.
Qed.

Lemma inv_inner s l : inv s -> inv (Mesher (ms_front s) (ms_tree s) (ms_nodes s) (ms_elems s) l).
Proof. intros I. destruct I. constructor; assumption. Qed.

Lemma get_add_new (t : table coord) c n x : wf_table t -> t_get t n = Ok x -> t_get (t_add t (t_next t) c) n = Ok x.
Proof.
  intros Wt H. rewrite t_get_add. destruct (Z.eqb_spec n (t_next t)) as [->|]; [|exact H].
  destruct (next_absent t Wt) as [H' _]. congruence.
Qed.

Lemma inv_node s c : inv s ->
  inv (Mesher (ms_front s) (ms_tree s) (t_add (ms_nodes s) (t_next (ms_nodes s)) c) (ms_elems s) (ms_inner s)).
Proof.
  intros I. pose proof (i_nodes _ I) as Wn. constructor; cbn [ms_front ms_tree ms_nodes ms_elems ms_inner].
  - now apply t_add_next_wf.
  - apply I.
  - intros id e He. eapply good_mono; [|eapply (i_tri _ I); eauto]. intros n x. now apply get_add_new.
  - intros e He. destruct (i_edge _ I e He) as [[x Hx] [y Hy]]. split; eexists; apply get_add_new; eauto.
  - exact (i_tree _ I).
  - exact (i_par _ I).
  - intros n x Hx. apply get_add_new; [assumption|]. now apply (i_keep _ I).
Qed.

(** The best existing node: either none better than 0, or one that makes an upright triangle. *)
Lemma candidates_ok j s i near n1 n2 p1 p2 : forall nodes st best,
  ((fst st <= 0)%Q \/ exists p, t_get (ms_nodes s) (snd st) = Ok p /\ upright tol p1 p2 p = true) ->
  foldM (candidate j tol s i near n1 n2 p1 p2) nodes st = Ok best ->
  (fst best <= 0)%Q \/ exists p, t_get (ms_nodes s) (snd best) = Ok p /\ upright tol p1 p2 p = true.
Proof.
  induction nodes as [|n nodes IH]; intros st best Hst; cbn [foldM]; [intros [= <-]; exact Hst|].
  destruct (candidate j tol s i near n1 n2 p1 p2 st n) as [st'| |] eqn:E; cbn [bind]; try discriminate.
  apply IH. unfold candidate in E.
  destruct (_ || _); [injection E as <-; exact Hst|].
  destruct (t_get (ms_nodes s) n) as [p| |] eqn:Hp; cbn [bind] in E; try discriminate.
  destruct (j_close j s i near n && upright tol p1 p2 p) eqn:C; [|injection E as <-; exact Hst].
  apply andb_true_iff in C. destruct C as [_ U].
  match type of E with (if ?b then _ else _) = _ => destruct b end; injection E as <-; [|exact Hst].
  right. exists p. auto.
Qed.

Lemma turn_ok j limit adding minq s i r : (0 <= minq)%Q -> inv s -> turn j tol limit adding minq s i = Ok r -> inv (fst r).
Proof.
  intros Hm I. unfold turn. destruct (edge_at s i) as [e| |] eqn:He; cbn [bind]; try discriminate.
  destruct (fe_off e) eqn:Ho; [intros [= <-]; exact I|].
  destruct (j_stop j s i); [intros [= <-]; exact I|].
  destruct (_ && _); [discriminate|].
  destruct (t_get (ms_nodes s) (fe_a e)) as [p1| |] eqn:H1; cbn [bind]; try discriminate.
  destruct (t_get (ms_nodes s) (fe_b e)) as [p2| |] eqn:H2; cbn [bind]; try discriminate.
  destruct (edge_at s (fe_prev e)) as [ep| |]; cbn [bind]; try discriminate.
  destruct (edge_at s (fe_next e)) as [en| |]; cbn [bind]; try discriminate.
  set (near := filter _ (filter _ _)).
  assert (Hnear : forall k, In k near -> In k (ms_tree s) /\ k <> i).
  { intros k Hk. apply filter_In in Hk. destruct Hk as [Hk Hne]. apply filter_In in Hk. destruct Hk as [_ Hk].
    apply existsb_exists in Hk. destruct Hk as (x & Hx & E). apply Z.eqb_eq in E. subst x. split; [assumption|].
    intros ->. now rewrite Z.eqb_refl in Hne. }
  clearbody near.
  destruct (find_nodes s near) as [nodes| |]; cbn [bind]; try discriminate.
  destruct (fe_a ep =? fe_b en).
  1: destruct (t_get (ms_nodes s) (fe_a ep)) as [p3| |] eqn:H3; cbn [bind]; try discriminate;
     destruct (upright tol p1 p2 p3 && j_hole j s i near) eqn:C;
     [apply andb_true_iff in C; destruct C as [U _];
      destruct (add_triangle s i (fe_a ep) near) as [s'| |] eqn:Ha; cbn [bind]; try discriminate; intros [= <-];
      exact (add_triangle_ok _ _ _ _ _ _ _ _ _ I He Ho H1 H2 H3 U Hnear Ha)|].
  2: cbn [bind].
  all: destruct (foldM _ nodes _) as [best| |] eqn:Hb; cbn [bind]; try discriminate;
    apply candidates_ok in Hb; [|left; apply Qle_refl];
    (destruct (Qlt_bool minq (fst best)) eqn:Hq;
     [apply Qlt_bool_iff in Hq; destruct Hb as [Hb|(p & Hp & U)]; [exfalso; lra|];
      destruct (add_triangle _ i _ near) as [s'| |] eqn:Ha; cbn [bind]; try discriminate; intros [= <-];
      exact (add_triangle_ok (use_inner s (snd best)) _ _ _ _ _ _ _ _ (inv_inner s _ I) He Ho H1 H2 Hp U Hnear Ha)|]);
    (destruct adding; [|intros [= <-]; exact I]);
    (destruct (upright tol p1 p2 (j_place j s i near) && j_accept j s i near (j_place j s i near)) eqn:C2;
       [|intros [= <-]; exact I]);
    apply andb_true_iff in C2; destruct C2 as [U _];
    (destruct (add_triangle _ i _ near) as [s'| |] eqn:Ha; cbn [bind]; try discriminate);
    (destruct (j_inside j s _); [|discriminate]); intros [= <-];
    pose proof (i_nodes _ I) as Wn;
    refine (add_triangle_ok _ _ _ _ _ e p1 p2 (j_place j s i near) (inv_node s (j_place j s i near) I) He Ho _ _ _ U Hnear Ha); cbn [ms_nodes];
      [apply get_add_new; assumption|apply get_add_new; assumption|rewrite t_get_add, Z.eqb_refl; reflexivity].
Qed.

Lemma advance_ok j limit adding minq : (0 <= minq)%Q -> forall fuel i s s', inv s ->
  advance j tol limit adding minq fuel i s = Ok (Some s') -> inv s'.
Proof.
  intros Hm. induction fuel as [|fuel IH]; intros i s s' I; cbn [advance].
  - destruct (_ <=? i); [intros [= <-]; exact I|discriminate].
  - destruct (_ <=? i); [intros [= <-]; exact I|].
    destruct (turn j tol limit adding minq s i) as [r| |] eqn:Ht; cbn [bind]; try discriminate.
    pose proof (turn_ok _ _ _ _ _ _ _ Hm I Ht) as I'. destruct (snd r); [intros [= <-]; exact I'|]. now apply IH.
Qed.

Lemma fill_ok j1 j2 j3 limit fuel s s' : inv s -> fill j1 j2 j3 tol limit fuel s = Ok (Some s') ->
  inv s' /\ forall e, In e (ms_front s') -> fe_off e = true.
Proof.
  intros I. unfold fill.
  destruct (advance j1 _ _ _ _ _ _ s) as [[s1|]| |] eqn:H1; cbn [bind]; try discriminate.
  apply advance_ok in H1; [|discriminate|exact I].
  destruct (advance j2 _ _ _ _ _ _ s1) as [[s2|]| |] eqn:H2; cbn [bind]; try discriminate.
  apply advance_ok in H2; [|discriminate|exact H1].
  destruct (advance j3 _ _ _ _ _ _ s2) as [[s3|]| |] eqn:H3; cbn [bind]; try discriminate.
  apply advance_ok in H3; [|discriminate|exact H2].
  destruct (0 <? front_size s3) eqn:Hz; [discriminate|]. intros [= <-]. split; [exact H3|].
  intros e He. destruct (fe_off e) eqn:Ho; [reflexivity|]. apply Z.ltb_ge in Hz. exfalso.
  assert (Hin : In e (filter (fun e => negb (fe_off e)) (ms_front s3))) by (apply filter_In; now rewrite Ho).
  unfold front_size, zlen in Hz. destruct (filter _ _); [destruct Hin|cbn in Hz; lia].
Qed.

Lemma W_off l a b : (forall e, In e l -> fe_off e = true) -> W l a b = false.
Proof.
  induction l as [|e l IH]; intros H; [reflexivity|]. cbn [W fold_right]. fold (W l a b). rewrite IH by (intros; apply H; now right).
  unfold w. now rewrite (H e (or_introl eq_refl)).
Qed.

(** ** The start *)
Lemma par_beams_app t l k a b : par (flat_map (beam_of t) (l ++ k)) a b = xorb (par (flat_map (beam_of t) l) a b) (par (flat_map (beam_of t) k) a b).
Proof. now rewrite flat_map_app, par_app. Qed.

Record early (done : list Z) (nodes : table coord) (s : mesher) : Prop := {
  ea_nodes : ms_nodes s = nodes;
  ea_elems : ms_elems s = t_empty;
  ea_edge : forall e, In e (ms_front s) -> placed nodes (fe_a e) /\ placed nodes (fe_b e);
  ea_tree : forall k, In k (ms_tree s) -> exists e, edge_at s k = Ok e /\ (fe_off e = false \/ fe_a e = fe_b e);
  ea_par : forall a b, W (ms_front s) a b = par (flat_map (beam_of (m_elems em)) done) a b
}.

Lemma add_beam_ok ids done nodes s id s' : early done nodes s -> add_beam em ids s id = Ok s' -> early (done ++ [id]) nodes s'.
Proof.
  intros E. unfold add_beam. destruct (t_get (m_elems em) id) as [e| |] eqn:He; cbn [bind]; try discriminate.
  assert (Hno : beam_of (m_elems em) id = [] -> early (done ++ [id]) nodes s).
  { intros Hb. destruct E as [A B C D F]. constructor; auto. intros a b. rewrite par_beams_app, F. cbn [flat_map]. rewrite Hb. cbn. now rewrite xorb_false_r. }
  destruct (is_beam e) eqn:Hb.
  2:{ intros [= <-]. apply Hno. unfold beam_of. rewrite He. unfold is_beam in Hb. now destruct (e_type e). }
  destruct (e_nodes e) as [|a [|b [|]]] eqn:Hn; try discriminate.
  destruct (e_faces e) as [|fa [|fb [|]]]; try discriminate.
  destruct (t_get (m_nodes em) a); cbn [bind]; try discriminate. destruct (t_get (m_nodes em) b); cbn [bind]; try discriminate.
  destruct (neighbour em ids fa) as [pr| |]; cbn [bind]; try discriminate.
  destruct (neighbour em ids fb) as [nx| |]; cbn [bind]; try discriminate.
  destruct E as [A B C D F]. rewrite A.
  destruct (t_get nodes a) as [ca| |] eqn:Ha; cbn [bind]; try discriminate.
  destruct (t_get nodes b) as [cb| |] eqn:Hb'; cbn [bind]; try discriminate.
  intros [= <-]. constructor; cbn [ms_front ms_tree ms_nodes ms_elems].
  - reflexivity.
  - exact B.
  - intros x Hx. apply in_app_or in Hx. destruct Hx as [Hx|[<-|[]]]; [now apply C|]. cbn. split; eexists; eassumption.
  - intros k Hk. apply in_app_or in Hk. destruct Hk as [Hk|[<-|[]]].
    + destruct (D k Hk) as (x & Hx & O). exists x. split; [|exact O]. apply edge_at_ok in Hx. apply edge_at_ok. cbn [ms_front].
      split; [apply Hx|]. rewrite nth_error_app1; [apply Hx|]. apply nth_error_Some. destruct Hx; congruence.
    + eexists. split; [apply edge_at_ok; cbn [ms_front]; split; [unfold zlen; lia|];
        rewrite nth_error_app2 by (unfold zlen; lia);
        replace (Z.to_nat (zlen (ms_front s)) - length (ms_front s))%nat with 0%nat by (unfold zlen; lia); reflexivity|]. now left.
  - intros x y. rewrite W_app, par_beams_app, F. f_equal. cbn [flat_map]. unfold beam_of. rewrite He, Hn.
    unfold is_beam in Hb. destruct (e_type e); try discriminate. cbn. now rewrite !xorb_false_r.
Qed.

Lemma prepare_ok old points s : wf_table (m_nodes em) -> prepare old em points = Ok s -> inv s.
Proof.
  intros Wn. unfold prepare.
  destruct (t_copy_ok (m_nodes em) Wn) as (nodes & Hc & _ & Hg & _ & Wc & _).
  assert (Hgn : given_nodes em = Ok nodes) by exact Hc. rewrite Hgn. cbn [bind].
  destruct (edge_ids em) as [ids| |]; cbn [bind]; try discriminate.
  destruct (foldM (add_beam em ids) _ _) as [s0| |] eqn:Hf; cbn [bind]; try discriminate. intros [= <-].
  assert (E : early (t_ids (m_elems em)) nodes s0).
  { assert (Gen : forall l done s1, early done nodes s1 -> foldM (add_beam em ids) l s1 = Ok s0 -> early (done ++ l) nodes s0).
    { induction l as [|id l IH]; intros done s1 E; cbn [foldM]; [intros [= <-]; now rewrite app_nil_r|].
      destruct (add_beam em ids s1 id) as [s2| |] eqn:H2; cbn [bind]; try discriminate.
      intros H. apply (IH (done ++ [id]) s2) in H; [now rewrite <- app_assoc in H|]. eapply add_beam_ok; eauto. }
    refine (Gen _ [] _ _ Hf). constructor; cbn; try reflexivity; contradiction. }
  assert (I : inv s0).
  { destruct E as [A B C D F]. constructor.
    - now rewrite A.
    - rewrite B. split; [constructor|]. split; [apply zsorted_empty|]. intros id. cbn. tauto.
    - intros id e. rewrite B. discriminate.
    - now rewrite A.
    - exact D.
    - intros a b Hab. rewrite B, F. cbn [all_sides t_empty t_ids flat_map par fold_right]. rewrite xorb_false_l. apply xorb_nilpotent.
    - intros n c Hn. rewrite A, Hg. exact Hn. }
  clear - I. revert s0 I. induction points as [|c points IH]; intros s0 I; [exact I|]. cbn [fold_left]. apply IH.
  unfold add_inner. exact (inv_inner _ _ (inv_node s0 c I)).
Qed.
End Inv.
