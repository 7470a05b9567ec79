(** Proofs about flipEdges23. *)
From Coq Require Import ZArith List Bool QArith Lia Lqa.
From Verif Require Import Prelude Vec ZMap Mesh_Model HashGrid_Model Face_Model Query_Model Merge_Model Mesh_Spec Mesh_Proofs Face_Spec Face_Proofs
  Front_Model Front_Spec Front_Proofs Front_Finish Tune_Model Tune_Spec Tune_Proofs Tune_Relax Tet_Model Tet_Spec Tet_Walls.
Import ListNotations.
Open Scope Z_scope.

Lemma cube_pos tol : (0 <= tol)%Q -> (0 <= cube tol)%Q.
Proof. intros H. unfold cube. apply Qmult_le_0_compat; [apply Qmult_le_0_compat|]; exact H. Qed.

Lemma fourth_perm e a b c : fourth e a b c = fourth e c b a.
Proof. unfold fourth. induction (e_nodes e) as [|x l IH]; [reflexivity|]. cbn [find]. rewrite IH. destruct (x =? a), (x =? b), (x =? c); reflexivity. Qed.

Lemma ind4_other x y z a b c : (x <> a /\ x <> b /\ x <> c) \/ (y <> a /\ y <> b /\ y <> c) \/ (z <> a /\ z <> b /\ z <> c) -> ind4 (x, y, z) (a, b, c) = 0.
Proof. intros H. unfold ind4. destruct (same_side (x, y, z) (a, b, c)) eqn:E; [|reflexivity]. apply same_side_iff in E. intuition congruence. Qed.

Lemma nodup4 (a b c d : Z) : NoDup [a; b; c; d] <-> a <> b /\ a <> c /\ a <> d /\ b <> c /\ b <> d /\ c <> d.
Proof.
  split.
  - intros H. repeat (apply NoDup_cons_iff in H; destruct H as [?Hx H]). cbn [In] in *. repeat split; intros E; subst; tauto.
  - intros (A & B & C & D & E & F). repeat constructor; cbn [In]; intuition congruence.
Qed.

(** No tetrahedron lies at both sides of one of its walls. *)
Lemma one_sided e a b c d : e_type e = ET_TETRAHEDRON -> even4 (e_nodes e) a b c d -> NoDup [a; b; c; d] -> facing (walls_of e) (c, b, a) = 0%nat.
Proof.
  intros Ht Hev Hnd. apply nodup4 in Hnd. destruct Hnd as (A & B & C & D & E & F). pose proof (even4_facing _ _ _ _ _ (c, b, a) Ht Hev) as H.
  assert (I1 : ind4 (a, b, c) (c, b, a) = 0). { unfold ind4. destruct (same_side _ _) eqn:X; [|reflexivity]. apply same_side_iff in X. intuition congruence. }
  rewrite I1 in H. rewrite !ind4_other in H by intuition congruence. lia.
Qed.

Lemma rewrite_four_ok (t : table element) id e p q r s a b c d : t_get t id = Ok e -> e_nodes e = [p; q; r; s] ->
  rewrite_four t id a b c d = Ok (t_set t id (set_e_nodes e [a; b; c; d])).
Proof. intros He En. unfold rewrite_four. rewrite He. cbn [bind]. unfold set_four. now rewrite En. Qed.

Lemma Qlt_bool_ge a b : Qlt_bool a b = false -> (b <= a)%Q.
Proof. intros H. destruct (Qlt_le_dec a b) as [C|C]; [|exact C]. apply Qlt_bool_iff in C. congruence. Qed.
Lemma qmin_le_l a b : (qmin a b <= a)%Q.
Proof. unfold qmin. destruct (Qlt_bool b a) eqn:E; [apply Qlt_bool_iff in E; lra|apply Qle_refl]. Qed.
Lemma qmin_le_r a b : (qmin a b <= b)%Q.
Proof. unfold qmin. destruct (Qlt_bool b a) eqn:E; [apply Qle_refl|now apply Qlt_bool_ge]. Qed.
Lemma qmin_glb c a b : (c <= a)%Q -> (c <= b)%Q -> (c <= qmin a b)%Q.
Proof. intros. unfold qmin. now destruct (Qlt_bool b a). Qed.

Section Flip23.
Variable quality : coord -> coord -> coord -> coord -> Q.
Variable tol : Q.
Hypothesis Htol : (0 <= tol)%Q.
Variable m : mesh.
Hypothesis Wm : wf_mesh m.
Hypothesis Rm : refs_ok m.
Hypothesis Lm : linked4 m.
Hypothesis Om : owned m.
Hypothesis Pm : proper4 m.

Notation with_elems T := (Mesh (m_nodes m) (m_faces m) T).

Record changing (T : table element) : Prop := Changing {
  ch_wf : wf_table T;
  ch_type : forall id e, t_get (m_elems m) id = Ok e -> exists e', t_get T id = Ok e' /\ e_type e' = e_type e /\
      (e_type e <> ET_TETRAHEDRON -> e_nodes e' = e_nodes e);
  ch_proper : proper4 (with_elems T);
  ch_refs : forall id e, t_get T id = Ok e -> Forall (fun n => In n (t_ids (m_nodes m))) (e_nodes e);
  ch_net : forall d, net4 (with_elems T) d = net4 m d;
  ch_thick : all_thick tol m -> all_thick tol (with_elems T);
  ch_quality : even_quality quality -> forall b, at_least4 quality b m -> at_least4 quality b (with_elems T)
}.
Record flipping23 (st : table element * zmap bool) : Prop := Flipping23 {
  fl3_ch : changing (fst st);
  fl3_ids : exists l, t_ids (fst st) = t_ids (m_elems m) ++ l;
  fl3_same : forall id, In id (t_ids (m_elems m)) -> flagged (snd st) id = false -> t_get (fst st) id = t_get (m_elems m) id;
  fl3_new : forall id e, t_get (fst st) id = Ok e -> ~ In id (t_ids (m_elems m)) -> e_type e = ET_TETRAHEDRON
}.

Lemma changing_start : changing (m_elems m).
Proof.
  assert (Hm : with_elems (m_elems m) = m) by now destruct m.
  constructor; rewrite ?Hm; auto; try apply Wm; [intros id e He; eauto|]. intros id e He. now apply (proj1 Rm) in He.
Qed.
Lemma flipping23_start : flipping23 (m_elems m, none_flipped (t_ids (m_elems m))).
Proof.
  constructor; cbn [fst snd]; [exact changing_start|exists []; now rewrite app_nil_r|auto|].
  intros id e He Hni. destruct Hni. exact (wf_get_in _ _ _ (proj2 (proj2 Wm)) He).
Qed.

Lemma flagged_insert s k k' b : flagged (zinsert k b s) k' = if k' =? k then b else flagged s k'.
Proof. unfold flagged. rewrite zlookup_insert. now destruct (k' =? k). Qed.

Lemma is_tet_spec e : is_tet e = true <-> e_type e = ET_TETRAHEDRON.
Proof. unfold is_tet. destruct (e_type e); split; congruence. Qed.

Lemma new_thick p q r s : Qlt_bool (cube tol) (volume p q r s) = true -> (6 * (tol * tol * tol) < volume6 p q r s)%Q.
Proof. intros H. apply Qlt_bool_iff in H. rewrite <- volume_six. unfold cube in H. lra. Qed.

Lemma flip23_step_ok st fid f : flipping23 st -> t_get (m_faces m) fid = Ok f ->
  exists st', flip23_step quality tol m st fid = Ok st' /\ flipping23 st'.
Proof.
  intros F Hf. destruct st as [T S0]. unfold flip23_step. rewrite Hf. cbn [bind fst snd].
  destruct (f_type f) eqn:Ef; eauto.
  pose proof (Om _ _ Hf) as Hin. destruct (flagged S0 (f_elem f)) eqn:Hb; [eauto|].
  pose proof (fl3_same _ F _ Hin Hb) as Hs. cbn [fst] in Hs. destruct (wf_get (m_elems m) _ (proj2 (proj2 Wm)) Hin) as [e He].
  rewrite Hs, He. cbn [bind]. destruct (is_tet e) eqn:Ee; cbn [negb]; [|eauto]. apply is_tet_spec in Ee.
  destruct (Lm _ _ _ Hf Ef He Ee) as (n1 & n2 & n3 & En & Hside & Hpair). rewrite En.
  change (vec_at [n1; n2; n3] 0) with (Ok n1). change (vec_at [n1; n2; n3] 1) with (Ok n2). change (vec_at [n1; n2; n3] 2) with (Ok n3). cbn [bind].
  destruct (fourth e n1 n2 n3) as [n4|] eqn:E4; [|eauto].
  destruct (f_haspair f) eqn:Ep; cbn [negb]; [|eauto]. destruct (Hpair eq_refl) as (g & e' & Hg & He' & Hrev). rewrite Hg. cbn [bind].
  pose proof (Om _ _ Hg) as Hin'. destruct (flagged S0 (f_elem g)) eqn:Hb'; [eauto|].
  pose proof (fl3_same _ F _ Hin' Hb') as Hs'. cbn [fst] in Hs'. rewrite Hs', He'. cbn [bind].
  destruct (is_tet e') eqn:Ee'; cbn [negb]; [|eauto]. apply is_tet_spec in Ee'. specialize (Hrev Ee').
  destruct (fourth e' n1 n2 n3) as [n5|] eqn:E5; [|eauto]. rewrite fourth_perm in E5.
  destruct (Pm _ _ He Ee) as (u & v & w & x & Euvw & Hnd). destruct (Pm _ _ He' Ee') as (u' & v' & w' & x' & Euvw' & Hnd').
  assert (Hs1 : (1 <= facing (walls_of e) (n1, n2, n3))%nat) by lia. assert (Hs2 : (1 <= facing (walls_of e') (n3, n2, n1))%nat) by lia.
  destruct (fourth_corner _ _ _ _ _ _ _ _ _ Ee Euvw Hnd Hs1 E4) as (Tu & Nd).
  destruct (fourth_corner _ _ _ _ _ _ _ _ _ Ee' Euvw' Hnd' Hs2 E5) as (Tu' & Nd').
  assert (Hne : f_elem f <> f_elem g).
  { intros E. assert (e = e') by congruence. subst e'. pose proof (one_sided _ _ _ _ _ Ee Tu Nd). lia. }
  apply nodup4 in Nd, Nd'. destruct Nd as (N12 & N13 & N14 & N23 & N24 & N34). destruct Nd' as (_ & _ & N35 & _ & N25 & N15).
  assert (Hk : forall x, In x (e_nodes e) \/ In x (e_nodes e') -> In x (t_ids (m_nodes m)) /\ exists c, t_get (m_nodes m) x = Ok c).
  { intros z Hz. destruct Rm as [Re _]. pose proof (Re _ _ He) as A. pose proof (Re _ _ He') as B. rewrite Forall_forall in A, B.
    assert (Hi : In z (t_ids (m_nodes m))) by (destruct Hz; auto). split; [exact Hi|]. apply wf_get; [apply Wm|exact Hi]. }
  pose proof (proj1 (even4_in _ _ _ _ _ Tu n1) (ltac:(cbn; auto))) as I1. pose proof (proj1 (even4_in _ _ _ _ _ Tu n2) (ltac:(cbn; auto))) as I2.
  pose proof (proj1 (even4_in _ _ _ _ _ Tu n3) (ltac:(cbn; auto))) as I3. pose proof (proj1 (even4_in _ _ _ _ _ Tu n4) (ltac:(cbn; auto))) as I4.
  pose proof (proj1 (even4_in _ _ _ _ _ Tu' n5) (ltac:(cbn; auto))) as I5.
  destruct (Hk n1 (or_introl I1)) as [M1 [p1 P1]]. destruct (Hk n2 (or_introl I2)) as [M2 [p2 P2]].
  destruct (Hk n3 (or_introl I3)) as [M3 [p3 P3]]. destruct (Hk n4 (or_introl I4)) as [M4 [p4 P4]]. destruct (Hk n5 (or_intror I5)) as [M5 [p5 P5]].
  rewrite P1, P2, P3, P4, P5. cbn [bind].
  destruct (Qlt_bool (qmin (quality p1 p2 p3 p4) (quality p3 p2 p1 p5)) (qmin (quality p1 p2 p5 p4) (qmin (quality p2 p3 p5 p4) (quality p1 p3 p4 p5)))
           && Qlt_bool (cube tol) (volume p1 p2 p5 p4) && Qlt_bool (cube tol) (volume p2 p3 p5 p4) && Qlt_bool (cube tol) (volume p1 p3 p4 p5))%bool eqn:Hgo; [|eauto].
  apply andb_true_iff in Hgo. destruct Hgo as [Hgo V5]. apply andb_true_iff in Hgo. destruct Hgo as [Hgo V4]. apply andb_true_iff in Hgo. destruct Hgo as [Hq V3].
  apply new_thick in V3, V4, V5.
  assert (N45 : n4 <> n5).
  { intros <-. assert (p5 = p4) by congruence. subst p5. assert (Z0 : (volume6 p1 p2 p4 p4 == 0)%Q) by (unfold volume6, dot, cross, vsub; cbn; ring).
    pose proof (cube_pos tol Htol) as C. unfold cube in C. lra. }
  pose proof (fl3_ch _ F) as CH. cbn [fst] in CH.
  assert (WT : wf_table T) by apply CH. destruct (fl3_ids _ F) as [lnew IdT]. cbn [fst] in IdT.
  assert (InT : In (f_elem f) (t_ids T)) by (rewrite IdT; apply in_app_iff; now left).
  assert (InT' : In (f_elem g) (t_ids T)) by (rewrite IdT; apply in_app_iff; now left).
  rewrite He in Hs. rewrite He' in Hs'.
  rewrite (rewrite_four_ok T _ _ _ _ _ _ _ _ _ _ Hs Euvw). cbn [bind]. set (e1 := set_e_nodes e [n1; n2; n5; n4]).
  destruct (t_set_wf T (f_elem f) e1 WT InT) as [W1 G1]. set (T1 := t_set T (f_elem f) e1) in *.
  assert (Hge' : t_get T1 (f_elem g) = Ok e') by (rewrite G1; destruct (Z.eqb_spec (f_elem g) (f_elem f)); congruence).
  rewrite (rewrite_four_ok T1 _ _ _ _ _ _ _ _ _ _ Hge' Euvw'). cbn [bind]. set (e2 := set_e_nodes e' [n2; n3; n5; n4]).
  destruct (t_set_wf T1 (f_elem g) e2 W1 InT') as [W2 G2]. set (T2 := t_set T1 (f_elem g) e2) in *.
  set (e3 := Element ET_TETRAHEDRON [n1; n3; n4; n5] []). set (id3 := t_next T2).
  pose proof (t_add_next_wf T2 e3 W2) as W3. fold id3 in W3.
  assert (Hfresh : ~ In id3 (t_ids T2)).
  { intros C. apply (proj2 (proj2 W2)) in C. apply C. apply t_next_fresh, W2. }
  eexists. split; [reflexivity|].
  assert (GT : forall k, t_get (t_add T2 id3 e3) k = if k =? id3 then Ok e3 else if k =? f_elem g then Ok e2 else if k =? f_elem f then Ok e1 else t_get T k).
  { intros k. rewrite t_get_add, G2, G1. reflexivity. }
  assert (Hid3 : ~ In id3 (t_ids T)) by exact Hfresh.
  assert (D1 : f_elem f <> id3) by (intros E; rewrite <- E in Hid3; contradiction). assert (D2 : f_elem g <> id3) by (intros E; rewrite <- E in Hid3; contradiction).
  assert (Hold3 : ~ In id3 (t_ids (m_elems m))) by (intros C; apply Hid3; rewrite IdT; apply in_app_iff; now left).
  assert (Htet : forall id p q r s, tetrahedron (with_elems (t_add T2 id3 e3)) id p q r s ->
    [p; q; r; s] = [n1; n3; n4; n5] \/ [p; q; r; s] = [n2; n3; n5; n4] \/ [p; q; r; s] = [n1; n2; n5; n4] \/ tetrahedron (with_elems T) id p q r s).
  { intros id p q r s (fs & Ht). cbn [m_elems] in Ht. rewrite GT in Ht.
    destruct (id =? id3); [left; unfold e3 in Ht; congruence|].
    destruct (id =? f_elem g); [right; left; unfold e2, set_e_nodes in Ht; congruence|].
    destruct (id =? f_elem f); [right; right; left; unfold e1, set_e_nodes in Ht; congruence|].
    right. right. right. now exists fs. }
  assert (Tre : tetrahedron (with_elems T) (f_elem f) u v w x).
  { exists (e_faces e). cbn [m_elems]. rewrite Hs. destruct e as [ty nd fc]. cbn in *. congruence. }
  assert (Tre' : tetrahedron (with_elems T) (f_elem g) u' v' w' x').
  { exists (e_faces e'). cbn [m_elems]. rewrite Hs'. destruct e' as [ty nd fc]. cbn in *. congruence. }
  constructor; cbn [fst snd].
  - constructor.
    + exact W3.
    + intros id y Hy. assert (Hiy : In id (t_ids (m_elems m))) by exact (wf_get_in _ _ _ (proj2 (proj2 Wm)) Hy). rewrite GT.
      destruct (Z.eqb_spec id id3) as [->|]; [contradiction|].
      destruct (Z.eqb_spec id (f_elem g)) as [->|].
      { exists e2. split; [reflexivity|]. assert (y = e') by congruence. subst y. split; [reflexivity|]. intros C. congruence. }
      destruct (Z.eqb_spec id (f_elem f)) as [->|]; [|now apply (ch_type _ CH)].
      exists e1. split; [reflexivity|]. assert (y = e) by congruence. subst y. split; [reflexivity|]. intros C. congruence.
    + intros id y Hy Ht. cbn [m_elems] in Hy. rewrite GT in Hy.
      destruct (id =? id3). { injection Hy as <-. exists n1, n3, n4, n5. split; [reflexivity|]. apply nodup4. repeat split; auto. }
      destruct (id =? f_elem g). { injection Hy as <-. exists n2, n3, n5, n4. split; [reflexivity|]. apply nodup4. repeat split; auto. }
      destruct (id =? f_elem f). { injection Hy as <-. exists n1, n2, n5, n4. split; [reflexivity|]. apply nodup4. repeat split; auto. }
      now apply (ch_proper _ CH id y).
    + intros id y Hy. rewrite GT in Hy.
      destruct (id =? id3). { injection Hy as <-. cbn. repeat constructor; auto. }
      destruct (id =? f_elem g). { injection Hy as <-. cbn. repeat constructor; auto. }
      destruct (id =? f_elem f). { injection Hy as <-. cbn. repeat constructor; auto. }
      now apply (ch_refs _ CH id y).
    + intros d. rewrite <- (ch_net _ CH d). unfold net4. cbn [m_elems].
      assert (Hall : forall d, Z.of_nat (facing (all_walls (t_add T2 id3 e3)) d) = Z.of_nat (facing (all_walls T) d) -
        (ind4 (n1, n2, n3) d + ind4 (n2, n4, n3) d + ind4 (n1, n4, n2) d + ind4 (n1, n3, n4) d) -
        (ind4 (n3, n2, n1) d + ind4 (n2, n5, n1) d + ind4 (n3, n5, n2) d + ind4 (n3, n1, n5) d) +
        (ind4 (n1, n2, n5) d + ind4 (n2, n4, n5) d + ind4 (n1, n4, n2) d + ind4 (n1, n5, n4) d) +
        (ind4 (n2, n3, n5) d + ind4 (n3, n4, n5) d + ind4 (n2, n4, n3) d + ind4 (n2, n5, n4) d) +
        (ind4 (n1, n3, n4) d + ind4 (n3, n5, n4) d + ind4 (n1, n5, n3) d + ind4 (n1, n4, n5) d)).
      { clear d. intros d. rewrite (facing_add T2 id3 e3 d Hfresh), Nat2Z.inj_add.
        pose proof (facing_set T1 _ _ e2 d (proj1 W1) InT' Hge') as R1. pose proof (facing_set T _ _ e1 d (proj1 WT) InT Hs) as R2. fold T1 in R2. fold T2 in R1.
        pose proof (even4_facing _ _ _ _ _ d Ee Tu) as Q1. pose proof (even4_facing _ _ _ _ _ d Ee' Tu') as Q2.
        pose proof (facing_walls (e_type e) n1 n2 n5 n4 (e_faces e) d Ee) as Q3. pose proof (facing_walls (e_type e') n2 n3 n5 n4 (e_faces e') d Ee') as Q4.
        pose proof (facing_walls ET_TETRAHEDRON n1 n3 n4 n5 [] d eq_refl) as Q5. fold e3 in Q5.
        change (Element (e_type e) [n1; n2; n5; n4] (e_faces e)) with e1 in Q3. change (Element (e_type e') [n2; n3; n5; n4] (e_faces e')) with e2 in Q4. lia. }
      rewrite !Hall, !ind4_over. cbn [turned_over].
      pose proof (ind4_rot n1 n2 n5 d). pose proof (ind4_rot n5 n2 n1 d). pose proof (ind4_rot n2 n1 n5 d). pose proof (ind4_rot n2 n3 n5 d). pose proof (ind4_rot n5 n3 n2 d). pose proof (ind4_rot n3 n2 n5 d).
      pose proof (ind4_rot n1 n5 n3 d). pose proof (ind4_rot n5 n3 n1 d). pose proof (ind4_rot n3 n5 n1 d). pose proof (ind4_rot n5 n1 n3 d).
      pose proof (ind4_rot n2 n4 n5 d). pose proof (ind4_rot n4 n5 n2 d). pose proof (ind4_rot n5 n4 n2 d). pose proof (ind4_rot n4 n2 n5 d).
      pose proof (ind4_rot n3 n4 n5 d). pose proof (ind4_rot n4 n5 n3 d). pose proof (ind4_rot n5 n4 n3 d). pose proof (ind4_rot n4 n3 n5 d).
      pose proof (ind4_rot n1 n4 n5 d). pose proof (ind4_rot n4 n5 n1 d). pose proof (ind4_rot n5 n4 n1 d). pose proof (ind4_rot n4 n1 n5 d).
      lia.
    + intros Hu id p q r s Ht. destruct (Htet _ _ _ _ _ Ht) as [E|[E|[E|H]]]; [| | |exact (ch_thick _ CH Hu id p q r s H)];
        injection E as -> -> -> ->; unfold corner; cbn [m_nodes]; rewrite (where_get _ _ _ P4), (where_get _ _ _ P5);
        rewrite ?(where_get _ _ _ P1), ?(where_get _ _ _ P2), ?(where_get _ _ _ P3); lra.
    + intros Hr b Hb0. pose proof (ch_quality _ CH Hr b Hb0) as Hb1.
      pose proof (Hb1 _ _ _ _ _ Tre) as B1. pose proof (Hb1 _ _ _ _ _ Tre') as B2. unfold corner in B1, B2. cbn [m_nodes] in B1, B2.
      rewrite (even4_quality quality (e_nodes e) n1 n2 n3 n4 u v w x (where_ (m_nodes m)) Hr Euvw Tu) in B1.
      rewrite (even4_quality quality (e_nodes e') n3 n2 n1 n5 u' v' w' x' (where_ (m_nodes m)) Hr Euvw' Tu') in B2.
      rewrite (where_get _ _ _ P1), (where_get _ _ _ P2), (where_get _ _ _ P3) in B1, B2. rewrite (where_get _ _ _ P4) in B1. rewrite (where_get _ _ _ P5) in B2.
      apply Qlt_bool_iff in Hq. pose proof (qmin_glb b _ _ B1 B2) as B3.
      pose proof (qmin_le_l (quality p1 p2 p5 p4) (qmin (quality p2 p3 p5 p4) (quality p1 p3 p4 p5))) as L1.
      pose proof (qmin_le_r (quality p1 p2 p5 p4) (qmin (quality p2 p3 p5 p4) (quality p1 p3 p4 p5))) as L2.
      pose proof (qmin_le_l (quality p2 p3 p5 p4) (quality p1 p3 p4 p5)) as L3. pose proof (qmin_le_r (quality p2 p3 p5 p4) (quality p1 p3 p4 p5)) as L4.
      intros id p q r s Ht. destruct (Htet _ _ _ _ _ Ht) as [E|[E|[E|H]]]; [| | |exact (Hb1 id p q r s H)];
        injection E as -> -> -> ->; unfold corner; cbn [m_nodes]; rewrite (where_get _ _ _ P4), (where_get _ _ _ P5);
        rewrite ?(where_get _ _ _ P1), ?(where_get _ _ _ P2), ?(where_get _ _ _ P3); lra.
  - exists (lnew ++ [id3]). cbn [t_add t_ids]. change (t_ids T2) with (t_ids T). rewrite IdT. now rewrite app_assoc.
  - intros id Hid. rewrite !flagged_insert, GT. destruct (id =? id3); [discriminate|]. destruct (id =? f_elem g); [discriminate|]. destruct (id =? f_elem f); [discriminate|].
    now apply (fl3_same _ F).
  - intros id y Hy Hni. rewrite GT in Hy. destruct (id =? id3); [injection Hy as <-; reflexivity|].
    destruct (id =? f_elem g); [injection Hy as <-; exact Ee'|]. destruct (id =? f_elem f); [injection Hy as <-; exact Ee|]. now apply (fl3_new _ F id y).
Qed.

Lemma flip23_all_ok : exists st, flip23_all quality tol m = Ok st /\ flipping23 st.
Proof.
  unfold flip23_all. destruct (foldM_invariant (flip23_step quality tol m) (fun _ st => flipping23 st) (t_ids (m_faces m))
    (m_elems m, none_flipped (t_ids (m_elems m)))) as (st & E & H); eauto using flipping23_start.
  intros done id rest st El F. destruct (wf_get (m_faces m) id) as [f Hf]; [apply Wm|rewrite El; apply in_elt|]. now apply (flip23_step_ok st id f).
Qed.
End Flip23.
