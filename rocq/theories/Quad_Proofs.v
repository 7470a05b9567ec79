(** Proofs about flipEdges of meshes of quadrilaterals and triangles. *)
From Coq Require Import ZArith List Bool QArith Lia Lqa.
From Verif Require Import Prelude Vec ZMap Mesh_Model HashGrid_Model Face_Model Query_Model Merge_Model Mesh_Spec Mesh_Proofs Face_Spec Face_Proofs
  Front_Model Front_Spec Front_Proofs Front_Finish Tune_Model Tune_Spec Tune_Proofs Tet_Model Quad_Model Quad_Spec.
Import ListNotations.
Open Scope Z_scope.

(** ** Replacing one element *)
Lemma element_rim_set (T : table element) id e k : element_rim (t_set T id e) k = if k =? id then rim e else element_rim T k.
Proof. unfold element_rim, t_get, zat, t_set. cbn. rewrite zlookup_insert. now destruct (k =? id). Qed.

Lemma rims_set (T : table element) id e0 e a b : NoDup (t_ids T) -> In id (t_ids T) -> t_get T id = Ok e0 ->
  (running (all_rims (t_set T id e)) a b + running (rim e0) a b = running (all_rims T) a b + running (rim e) a b)%nat.
Proof.
  intros Hnd Hin He0. unfold all_rims. cbn [t_set t_ids]. pose proof (element_rim_set T id e) as Hg.
  assert (Hno : forall l, ~ In id l -> flat_map (element_rim (t_set T id e)) l = flat_map (element_rim T) l).
  { intros l Hl. apply flat_map_same. intros k Hk. rewrite Hg. destruct (Z.eqb_spec k id); [congruence|reflexivity]. }
  induction (t_ids T) as [|k l IH]; [destruct Hin|]. cbn [flat_map]. rewrite !running_app. apply NoDup_cons_iff in Hnd. destruct Hnd as [Hk Hnd].
  destruct (Z.eq_dec k id) as [->|Hne].
  - rewrite (Hno l Hk). rewrite Hg, Z.eqb_refl. assert (E : element_rim T id = rim e0) by (unfold element_rim; now rewrite He0).
    rewrite E. lia.
  - destruct Hin as [->|Hin]; [contradiction|]. rewrite Hg. destruct (Z.eqb_spec k id); [contradiction|]. specialize (IH Hnd Hin). lia.
Qed.

Definition each (h : element -> Q) (T : table element) (id : Z) : Q := match t_get T id with Ok e => h e | _ => 0%Q end.
Lemma each_set h (T : table element) id e0 e : NoDup (t_ids T) -> In id (t_ids T) -> t_get T id = Ok e0 ->
  (sum (map (each h (t_set T id e)) (t_ids T)) + h e0 == sum (map (each h T) (t_ids T)) + h e)%Q.
Proof.
  intros Hnd Hin He0.
  assert (Hg : forall k, each h (t_set T id e) k = if k =? id then h e else each h T k).
  { intros k. unfold each, t_get, zat, t_set. cbn. rewrite zlookup_insert. now destruct (k =? id). }
  assert (Hno : forall l, ~ In id l -> map (each h (t_set T id e)) l = map (each h T) l).
  { intros l Hl. apply map_ext_in. intros k Hk. rewrite Hg. destruct (Z.eqb_spec k id); [congruence|reflexivity]. }
  unfold sum. induction (t_ids T) as [|k l IH]; [destruct Hin|]. cbn [map fold_right]. apply NoDup_cons_iff in Hnd. destruct Hnd as [Hk Hnd].
  destruct (Z.eq_dec k id) as [->|Hne].
  - rewrite (Hno l Hk). rewrite Hg, Z.eqb_refl. assert (E : each h T id = h e0) by (unfold each; now rewrite He0).
    rewrite E. ring.
  - destruct Hin as [->|Hin]; [contradiction|]. rewrite Hg. destruct (Z.eqb_spec k id); [contradiction|]. specialize (IH Hnd Hin). lra.
Qed.

(** ** Rims *)
Lemma running_tri p q r x y : Z.of_nat (running (cycle [p; q; r]) x y) = ind p q x y + ind q r x y + ind r p x y.
Proof. exact (running_sides p q r x y). Qed.
Lemma running_quad p q r s x y : Z.of_nat (running (cycle [p; q; r; s]) x y) = ind p q x y + ind q r x y + ind r s x y + ind s p x y.
Proof.
  cbn [cycle combine app]. rewrite !running_cons. unfold ind, running. cbn [filter length].
  destruct ((p =? x) && (q =? y)), ((q =? x) && (r =? y)), ((r =? x) && (s =? y)), ((s =? x) && (p =? y)); reflexivity.
Qed.

Definition turned4 (l : list Z) (a b c d : Z) : Prop := l = [a; b; c; d] \/ l = [d; a; b; c] \/ l = [c; d; a; b] \/ l = [b; c; d; a].
Lemma turned4_running l a b c d x y : turned4 l a b c d -> Z.of_nat (running (cycle l) x y) = ind a b x y + ind b c x y + ind c d x y + ind d a x y.
Proof. intros [->|[->|[->| ->]]]; rewrite running_quad; lia. Qed.
Lemma turned_running3 l a b c x y : turned l a b c -> Z.of_nat (running (cycle l) x y) = ind a b x y + ind b c x y + ind c a x y.
Proof. intros [->|[->| ->]]; rewrite running_tri; lia. Qed.

Lemma find_side_quad u v w x a b : find_side [u; v; w; x] a b = Ok (
  if (v =? a) && (u =? b) then Some 0 else if (w =? a) && (v =? b) then Some 1 else if (x =? a) && (w =? b) then Some 2
  else if (u =? a) && (x =? b) then Some 3 else None).
Proof.
  unfold find_side. change (zrange (length [u; v; w; x])) with [0; 1; 2; 3]. cbn [foldM].
  change (vec_at [u; v; w; x] ((0 + 1) mod 4)) with (Ok v). change (vec_at [u; v; w; x] (0 mod 4)) with (Ok u).
  change (vec_at [u; v; w; x] ((1 + 1) mod 4)) with (Ok w). change (vec_at [u; v; w; x] (1 mod 4)) with (Ok v).
  change (vec_at [u; v; w; x] ((2 + 1) mod 4)) with (Ok x). change (vec_at [u; v; w; x] (2 mod 4)) with (Ok w).
  change (vec_at [u; v; w; x] ((3 + 1) mod 4)) with (Ok u). change (vec_at [u; v; w; x] (3 mod 4)) with (Ok x).
  cbn [bind]. destruct (v =? a); cbn [bind andb]; [destruct (u =? b); cbn [bind]; [reflexivity|]|];
  (destruct (w =? a); cbn [bind andb]; [destruct (v =? b); cbn [bind]; [reflexivity|]|]);
  (destruct (x =? a); cbn [bind andb]; [destruct (w =? b); cbn [bind]; [reflexivity|]|]);
  (destruct (u =? a); cbn [bind andb]; [destruct (x =? b); cbn [bind]|]); reflexivity.
Qed.

Lemma find_side_ok l u v w x a b : l = [u; v; w; x] -> NoDup l -> In (b, a) (cycle l) ->
  exists j n4 n5, find_side l a b = Ok (Some j) /\ vec_at l ((j + 3) mod 4) = Ok n4 /\ vec_at l ((j + 2) mod 4) = Ok n5 /\ turned4 l b a n5 n4.
Proof.
  intros -> Hnd Hin. rewrite find_side_quad.
  assert (D : u <> v /\ u <> w /\ u <> x /\ v <> w /\ v <> x /\ w <> x).
  { repeat match goal with H : NoDup (_ :: _) |- _ => apply NoDup_cons_iff in H; destruct H as [? H] end. cbn in *. intuition congruence. }
  destruct D as (D1 & D2 & D3 & D4 & D5 & D6). unfold turned4. cbn [cycle combine app In] in Hin.
  destruct Hin as [[= <- <-]|[[= <- <-]|[[= <- <-]|[[= <- <-]|[]]]]];
    repeat match goal with |- context [?s =? ?t] => destruct (Z.eqb_spec s t); try congruence; cbn [andb] end.
  - exists 0, x, w. repeat split; auto.
  - exists 1, u, x. repeat split; auto.
  - exists 2, v, u. repeat split; auto.
  - exists 3, w, v. repeat split; auto.
Qed.

(** ** flipEdges *)
Section FlipQ.
Variable quality3 : coord -> coord -> coord -> Q.
Variable quality4 : coord -> coord -> coord -> coord -> Q.
Variable tol : Q.
Hypothesis Htol : (0 <= tol)%Q.
Variable m : mesh.
Hypothesis Wm : wf_mesh m.
Hypothesis Rm : refs_ok m.
Hypothesis Lm : linked_flat m.
Hypothesis Om : owned m.
Hypothesis Pm : proper_flat m.

Notation pos := (where_ (m_nodes m)).
Notation shown T := (Mesh (m_nodes m) (m_faces m) T).
Definition turnable4 : Prop := (forall p q r, quality3 p q r == quality3 q r p)%Q /\ (forall p q r s, quality4 p q r s == quality4 q r s p)%Q.

Record flippingq (st : table element * zmap bool) : Prop := Flippingq {
  fq_wf : wf_table (fst st);
  fq_ids : t_ids (fst st) = t_ids (m_elems m);
  fq_same : forall id, flagged (snd st) id = false -> t_get (fst st) id = t_get (m_elems m) id;
  fq_type : forall id e, t_get (m_elems m) id = Ok e -> exists e', t_get (fst st) id = Ok e' /\ e_type e' = e_type e /\
      (corners e = None -> e_nodes e' = e_nodes e);
  fq_proper : proper_flat (shown (fst st));
  fq_refs : forall id e, t_get (fst st) id = Ok e -> Forall (fun n => In n (t_ids (m_nodes m))) (e_nodes e);
  fq_net : forall a b, net_flat (shown (fst st)) a b = net_flat m a b;
  fq_good : all_good tol m -> all_good tol (shown (fst st));
  fq_area : (total_flat2 (shown (fst st)) == total_flat2 m)%Q;
  fq_quality : turnable4 -> forall b, at_least_flat quality3 quality4 b m -> at_least_flat quality3 quality4 b (shown (fst st))
}.

Lemma none_flagged ids id : flagged (none_flipped ids) id = false.
Proof.
  unfold flagged, none_flipped. assert (H : forall s, (forall k, zlookup k s <> Some true) -> forall k, zlookup k (fold_left (fun s id => zinsert id false s) ids s) <> Some true).
  { induction ids as [|x l IH]; intros s Hs; [exact Hs|]. cbn [fold_left]. apply IH. intros k. rewrite zlookup_insert. destruct (k =? x); [discriminate|apply Hs]. }
  specialize (H zempty). destruct (zlookup id (fold_left _ ids zempty)) as [[]|] eqn:E; try reflexivity. exfalso. apply (H ltac:(intros k; discriminate) id). exact E.
Qed.

Lemma shown_same : shown (m_elems m) = m. Proof. now destruct m. Qed.

Lemma flippingq_start : flippingq (m_elems m, none_flipped (t_ids (m_elems m))).
Proof.
  assert (Wn : wf_table (m_elems m)) by apply Wm.
  constructor; cbn [fst snd]; rewrite ?shown_same; auto.
  - intros id e He. eauto.
  - intros id e He. now apply (proj1 Rm) in He.
  - reflexivity.
Qed.

Definition flat_area (e : element) : Q := match corners e with Some l => polygon_area2 (map pos l) | None => 0%Q end.
Lemma total_each T : total_flat2 (shown T) = sum (map (each flat_area T) (t_ids T)).
Proof. reflexivity. Qed.

(** The triangle [i1] and the quadrilateral [i2] are replaced by others of the same outline. *)
Lemma swap_ok T S0 i1 i2 e e' a b c w x y z : flippingq (T, S0) -> i1 <> i2 ->
  flagged S0 i1 = false -> flagged S0 i2 = false -> t_get (m_elems m) i1 = Ok e -> t_get (m_elems m) i2 = Ok e' ->
  e_type e = ET_TRIANGLE -> e_type e' = ET_QUADRILATERAL -> NoDup [a; b; c] -> NoDup [w; x; y; z] ->
  (forall n, In n [a; b; c; w; x; y; z] -> In n (e_nodes e) \/ In n (e_nodes e')) ->
  (forall s t, Z.of_nat (running (cycle [a; b; c]) s t) + Z.of_nat (running (cycle [w; x; y; z]) s t)
             - Z.of_nat (running (cycle [a; b; c]) t s) - Z.of_nat (running (cycle [w; x; y; z]) t s)
             = Z.of_nat (running (cycle (e_nodes e)) s t) + Z.of_nat (running (cycle (e_nodes e')) s t)
             - Z.of_nat (running (cycle (e_nodes e)) t s) - Z.of_nat (running (cycle (e_nodes e')) t s)) ->
  good_shape tol (map pos [a; b; c]) -> good_shape tol (map pos [w; x; y; z]) ->
  (polygon_area2 (map pos [a; b; c]) + polygon_area2 (map pos [w; x; y; z]) == polygon_area2 (map pos (e_nodes e)) + polygon_area2 (map pos (e_nodes e')))%Q ->
  (turnable4 -> forall bd, quality_of quality3 quality4 bd (map pos (e_nodes e)) -> quality_of quality3 quality4 bd (map pos (e_nodes e')) ->
     quality_of quality3 quality4 bd (map pos [a; b; c]) /\ quality_of quality3 quality4 bd (map pos [w; x; y; z])) ->
  exists st', swap_pair (T, S0) i1 i2 a b c w x y z = Ok st' /\ flippingq st'.
Proof.
  intros F Hne Hf1 Hf2 He He' Ee Ee' Nd3 Nd4 Hsub Hnet G3 G4 Har Hqu.
  pose proof (fq_same _ F _ Hf1) as Hs. pose proof (fq_same _ F _ Hf2) as Hs'. cbn [fst snd] in Hs, Hs'. rewrite He in Hs. rewrite He' in Hs'.
  unfold swap_pair. cbn [fst snd]. rewrite Hs. cbn [bind].
  destruct (proj1 (Pm _ _ He) Ee) as [Le _]. destruct (proj2 (Pm _ _ He') Ee') as [Le' _].
  assert (C1 : set_corners e a b c = Ok (set_e_nodes e [a; b; c])).
  { destruct (e_nodes e) as [|u [|v [|t [|]]]] eqn:En; try discriminate. exact (set_corners_ok e _ _ _ a b c En). }
  rewrite C1. cbn [bind]. set (e1 := set_e_nodes e [a; b; c]).
  assert (WT : wf_table T) by (apply (fq_wf _ F)). assert (IdT : t_ids T = t_ids (m_elems m)) by (apply (fq_ids _ F)).
  pose proof (wf_get_in _ _ _ WT Hs) as In1. pose proof (wf_get_in _ _ _ WT Hs') as In2.
  destruct (t_set_wf T i1 e1 WT In1) as [W1 G1].
  assert (Hge' : t_get (t_set T i1 e1) i2 = Ok e').
  { rewrite G1. destruct (Z.eqb_spec i2 i1); [congruence|]. exact Hs'. }
  rewrite Hge'. cbn [bind].
  assert (C2 : set_four e' w x y z = Ok (set_e_nodes e' [w; x; y; z])).
  { unfold set_four. destruct (e_nodes e') as [|u [|v [|t [|s [|]]]]] eqn:En; try discriminate. reflexivity. }
  rewrite C2. cbn [bind]. set (e3 := set_e_nodes e' [w; x; y; z]). set (T1 := t_set T i1 e1) in *.
  destruct (t_set_wf T1 i2 e3 W1 In2) as [W2 G2].
  eexists. split; [reflexivity|].
  assert (GT : forall k, t_get (t_set T1 i2 e3) k = if k =? i2 then Ok e3 else if k =? i1 then Ok e1 else t_get T k).
  { intros k. rewrite G2, G1. reflexivity. }
  assert (GF : forall k, flagged (zinsert i2 true (zinsert i1 true S0)) k = if k =? i2 then true else if k =? i1 then true else flagged S0 k).
  { intros k. unfold flagged. rewrite !zlookup_insert. destruct (k =? i2); [reflexivity|]. now destruct (k =? i1). }
  assert (Cr1 : corners e1 = Some [a; b; c]) by (unfold corners, e1; cbn; now rewrite Ee).
  assert (Cr3 : corners e3 = Some [w; x; y; z]) by (unfold corners, e3; cbn; now rewrite Ee').
  assert (Cr : corners e = Some (e_nodes e)) by (unfold corners; now rewrite Ee).
  assert (Cr' : corners e' = Some (e_nodes e')) by (unfold corners; now rewrite Ee').
  assert (Hcor : forall id g l, t_get (t_set T1 i2 e3) id = Ok g -> corners g = Some l ->
     l = [a; b; c] \/ l = [w; x; y; z] \/ t_get T id = Ok g).
  { intros id g l Hg Hc. rewrite GT in Hg. destruct (id =? i2); [right; left; congruence|]. destruct (id =? i1); [left; congruence|]. auto. }
  assert (Rin : forall n, In n [a; b; c; w; x; y; z] -> In n (t_ids (m_nodes m))).
  { intros n Hn. assert (A := proj1 Rm _ _ He). assert (B := proj1 Rm _ _ He'). rewrite Forall_forall in A, B. destruct (Hsub n Hn); auto. }
  constructor; cbn [fst snd].
  - exact W2.
  - exact IdT.
  - intros id. rewrite GF, GT. destruct (id =? i2); [discriminate|]. destruct (id =? i1); [discriminate|]. apply (fq_same _ F).
  - intros id g Hg. rewrite GT. destruct (Z.eqb_spec id i2) as [->|].
    { exists e3. split; [reflexivity|]. assert (g = e') by congruence. subst g. split; [reflexivity|]. congruence. }
    destruct (Z.eqb_spec id i1) as [->|]; [|now apply (fq_type _ F)].
    exists e1. split; [reflexivity|]. assert (g = e) by congruence. subst g. split; [reflexivity|]. congruence.
  - intros id g Hg. cbn [m_elems] in Hg. rewrite GT in Hg.
    destruct (id =? i2). { injection Hg as <-. cbn. split; [congruence|]. auto. }
    destruct (id =? i1). { injection Hg as <-. cbn. split; [auto|congruence]. }
    exact (fq_proper _ F id g Hg).
  - intros id g Hg. rewrite GT in Hg.
    destruct (id =? i2). { injection Hg as <-. apply Forall_forall. intros n Hn. apply Rin. cbn in Hn |- *. tauto. }
    destruct (id =? i1). { injection Hg as <-. apply Forall_forall. intros n Hn. apply Rin. cbn in Hn |- *. tauto. }
    exact (fq_refs _ F id g Hg).
  - intros s t. rewrite <- (fq_net _ F s t). unfold net_flat. cbn [m_elems fst].
    assert (Hnd : NoDup (t_ids T)) by apply WT. assert (Hnd1 : NoDup (t_ids T1)) by apply W1.
    pose proof (rims_set T1 _ _ e3 s t Hnd1 In2 Hge') as R1. pose proof (rims_set T1 _ _ e3 t s Hnd1 In2 Hge') as R2.
    pose proof (rims_set T _ _ e1 s t Hnd In1 Hs) as R3. pose proof (rims_set T _ _ e1 t s Hnd In1 Hs) as R4. fold T1 in R3, R4.
    assert (E1 : rim e1 = cycle [a; b; c]) by (unfold rim; now rewrite Cr1). assert (E3 : rim e3 = cycle [w; x; y; z]) by (unfold rim; now rewrite Cr3).
    assert (E0 : rim e = cycle (e_nodes e)) by (unfold rim; now rewrite Cr). assert (E2 : rim e' = cycle (e_nodes e')) by (unfold rim; now rewrite Cr').
    rewrite E1 in R3, R4. rewrite E0 in R3, R4. rewrite E3, E2 in R1, R2. specialize (Hnet s t). lia.
  - intros Hu id g l Hg Hc. cbn [m_elems m_nodes] in *. destruct (Hcor _ _ _ Hg Hc) as [->|[->|H]]; [exact G3|exact G4|].
    exact (fq_good _ F Hu id g l H Hc).
  - rewrite <- (fq_area _ F). cbn [fst]. rewrite !total_each.
    assert (Hnd : NoDup (t_ids T)) by apply WT. assert (Hnd1 : NoDup (t_ids T1)) by apply W1.
    pose proof (each_set flat_area T1 i2 e' e3 Hnd1 In2 Hge') as A1. pose proof (each_set flat_area T i1 e e1 Hnd In1 Hs) as A2.
    change (t_ids T1) with (t_ids T) in A1. change (t_ids (t_set T1 i2 e3)) with (t_ids T). fold T1 in A2.
    assert (F1 : flat_area e1 = polygon_area2 (map pos [a; b; c])) by (unfold flat_area; now rewrite Cr1).
    assert (F3 : flat_area e3 = polygon_area2 (map pos [w; x; y; z])) by (unfold flat_area; now rewrite Cr3).
    assert (F0 : flat_area e = polygon_area2 (map pos (e_nodes e))) by (unfold flat_area; now rewrite Cr).
    assert (F2 : flat_area e' = polygon_area2 (map pos (e_nodes e'))) by (unfold flat_area; now rewrite Cr').
    rewrite F3, F2 in A1. rewrite F1, F0 in A2. lra.
  - intros Hr bd Hb. pose proof (fq_quality _ F Hr bd Hb) as Hb1. cbn [fst] in Hb1.
    destruct (Hqu Hr bd (Hb1 _ _ _ Hs Cr) (Hb1 _ _ _ Hs' Cr')) as [Q3 Q4].
    intros id g l Hg Hc. cbn [m_elems m_nodes] in *. destruct (Hcor _ _ _ Hg Hc) as [->|[->|H]]; [exact Q3|exact Q4|].
    exact (Hb1 id g l H Hc).
Qed.

Lemma upright_steep p q r : upright tol p q r = true -> steep tol (cross (vsub q p) (vsub r p)).
Proof.
  unfold upright. replace (Qle_bool 0 tol) with true by (symmetry; now apply Qle_bool_iff).
  rewrite andb_true_iff, !Qlt_bool_iff. exact (fun H => H).
Qed.
Lemma upright4_steep p q r s : upright4 tol p q r s = true -> steep tol (cross (vsub r p) (vsub s q)).
Proof.
  unfold upright4. replace (Qle_bool 0 tol) with true by (symmetry; now apply Qle_bool_iff).
  rewrite andb_true_iff, !Qlt_bool_iff. exact (fun H => H).
Qed.
Lemma left_area p q r : left_turn p q r = true -> (0 < area2 p q r)%Q.
Proof. unfold left_turn. rewrite Qlt_bool_iff. intros H. eapply Qlt_le_trans; [exact H|]. apply Qle_lteq. right. unfold area2, cross, vsub. cbn. ring. Qed.
Lemma convex_good p q r s : upright4 tol p q r s = true -> convex4 p q r s = true -> good_shape tol [p; q; r; s].
Proof.
  intros U C. unfold convex4 in C. apply andb_true_iff in C. destruct C as [C C4]. apply andb_true_iff in C. destruct C as [C C3].
  apply andb_true_iff in C. destruct C as [C1 C2].
  split; [now apply upright4_steep|]. split; [now apply left_area|]. split; [now apply left_area|]. split; now apply left_area.
Qed.

Lemma turned_area l a b c : turned l a b c -> (polygon_area2 (map pos l) == area2 (pos a) (pos b) (pos c))%Q.
Proof. intros [->|[->| ->]]; cbn [map polygon_area2]; unfold area2; ring. Qed.
Lemma turned4_area l a b c d : turned4 l a b c d -> (polygon_area2 (map pos l) == area2 (pos a) (pos b) (pos c) + area2 (pos a) (pos c) (pos d))%Q.
Proof. intros [->|[->|[->| ->]]]; cbn [map polygon_area2]; unfold area2; ring. Qed.
Lemma turned_least l a b c bd : turnable4 -> turned l a b c -> quality_of quality3 quality4 bd (map pos l) -> (bd <= quality3 (pos a) (pos b) (pos c))%Q.
Proof.
  intros [Ht _] [->|[->| ->]]; cbn [map quality_of]; intros H; [exact H| |].
  - now rewrite (Ht (pos c) (pos a) (pos b)) in H.
  - now rewrite (Ht (pos a) (pos b) (pos c)).
Qed.
Lemma turned4_least l a b c d bd : turnable4 -> turned4 l a b c d -> quality_of quality3 quality4 bd (map pos l) -> (bd <= quality4 (pos a) (pos b) (pos c) (pos d))%Q.
Proof.
  intros [_ Ht] [->|[->|[->| ->]]]; cbn [map quality_of]; intros H; [exact H| | |].
  - now rewrite (Ht (pos d) (pos a) (pos b) (pos c)) in H.
  - now rewrite (Ht (pos c) (pos d) (pos a) (pos b)), (Ht (pos d) (pos a) (pos b) (pos c)) in H.
  - now rewrite (Ht (pos a) (pos b) (pos c) (pos d)).
Qed.
Lemma qmin_least b p q : (b < qmin p q -> b <= p /\ b <= q)%Q /\ (b <= p -> b <= q -> b <= qmin p q)%Q.
Proof.
  unfold qmin. destruct (Qlt_bool q p) eqn:E.
  - apply Qlt_bool_iff in E. split; [intros; split; lra|intros; lra].
  - assert (~ (q < p)%Q) by (intros C; apply Qlt_bool_iff in C; congruence). split; [intros; split; lra|intros; lra].
Qed.
Lemma area_self p q : (area2 p q p == 0)%Q. Proof. unfold area2. ring. Qed.

Lemma flipq_step_ok st fid f : flippingq st -> t_get (m_faces m) fid = Ok f ->
  exists st', flipq_step quality3 quality4 tol m st fid = Ok st' /\ flippingq st'.
Proof.
  intros F Hf. destruct st as [T S0]. unfold flipq_step. rewrite Hf. cbn [bind fst snd].
  destruct (f_type f) eqn:Ef; eauto.
  pose proof (Om _ _ Hf) as Hin. destruct (flagged S0 (f_elem f)) eqn:Hb; [eauto|].
  pose proof (fq_same _ F _ Hb) as Hs. cbn [fst] in Hs. destruct (wf_get (m_elems m) _ (proj2 (proj2 Wm)) Hin) as [e He].
  rewrite Hs, He. cbn [bind]. unfold is_triangle at 1. destruct (e_type e) eqn:Ee; cbn [negb]; eauto.
  assert (Cr : corners e = Some (e_nodes e)) by (unfold corners; now rewrite Ee).
  assert (Cn : corners e <> None) by congruence.
  destruct (Lm _ _ _ Hf Ef He Cn) as (n1 & n2 & En & Hside & Hpair). rewrite En. cbn [vec_at].
  change (vec_at [n1; n2] 0) with (Ok n1). change (vec_at [n1; n2] 1) with (Ok n2). cbn [bind].
  destruct (third e n1 n2) as [n3|] eqn:E3; [|eauto].
  destruct (f_haspair f) eqn:Ep; cbn [negb]; [|eauto]. destruct (Hpair eq_refl) as (g & e' & Hg & He' & Hrev). rewrite Hg. cbn [bind].
  destruct (flagged S0 (f_elem g)) eqn:Hb'; [eauto|].
  pose proof (fq_same _ F _ Hb') as Hs'. cbn [fst] in Hs'. rewrite Hs', He'. cbn [bind]. unfold is_quad at 1.
  destruct (e_type e') eqn:Ee'; cbn [negb]; eauto.
  assert (Cr' : corners e' = Some (e_nodes e')) by (unfold corners; now rewrite Ee').
  assert (Cn' : corners e' <> None) by congruence. specialize (Hrev Cn'). unfold rim in Hside, Hrev. rewrite Cr in Hside. rewrite Cr' in Hrev.
  destruct (proj1 (Pm _ _ He) Ee) as [Le Nde]. destruct (proj2 (Pm _ _ He') Ee') as [Le' Nde'].
  destruct (e_nodes e) as [|u [|v [|w [|]]]] eqn:Euvw; try discriminate.
  assert (D : u <> v /\ w <> u /\ w <> v).
  { clear -Nde. repeat match goal with H : NoDup (_ :: _) |- _ => apply NoDup_cons_iff in H; destruct H as [? H] end. cbn in *. intuition congruence. }
  destruct D as (Hd1 & Hd2 & Hd3).
  assert (Hside' : In (n1, n2) (sides_of (e_nodes e))) by (rewrite Euvw; exact Hside).
  destruct (third_corner _ _ _ _ _ _ _ Euvw Hd1 Hd2 Hd3 Hside' E3) as (Tu & N12 & N31 & N32). rewrite Euvw in Tu.
  destruct (e_nodes e') as [|u' [|v' [|w' [|x' [|]]]]] eqn:Eq'; try discriminate.
  destruct (find_side_ok _ _ _ _ _ n1 n2 eq_refl Nde' Hrev) as (j & n4 & n5 & Ej & E4 & E5 & Tu').
  rewrite Ej. cbn [bind]. rewrite E4, E5. cbn [bind].
  assert (Hne : f_elem f <> f_elem g) by (intros E; assert (e = e') by congruence; congruence).
  assert (Hk : forall x, In x (e_nodes e) \/ In x (e_nodes e') -> exists c, t_get (m_nodes m) x = Ok c).
  { intros x Hx. apply wf_get; [apply Wm|]. destruct Rm as [Re _]. pose proof (Re _ _ He) as A. pose proof (Re _ _ He') as B.
    rewrite Forall_forall in A, B. destruct Hx; auto. }
  assert (I1 : (In n1 (e_nodes e) /\ In n2 (e_nodes e) /\ In n3 (e_nodes e)) /\ In n4 (e_nodes e') /\ In n5 (e_nodes e')).
  { rewrite Euvw, Eq'. split; [clear -Tu; destruct Tu as [-> |[-> | ->]]; cbn; tauto|]. clear -Tu'. destruct Tu' as [-> |[-> |[-> | ->]]]; cbn; tauto. }
  destruct I1 as ((I1 & I2 & I3) & I4 & I5).
  assert (Nq : n2 <> n1 /\ n2 <> n5 /\ n2 <> n4 /\ n1 <> n5 /\ n1 <> n4 /\ n5 <> n4).
  { clear -Nde' Tu'. destruct Tu' as [E|[E|[E|E]]]; rewrite E in Nde';
    repeat match goal with H : NoDup (_ :: _) |- _ => apply NoDup_cons_iff in H; destruct H as [? H] end; cbn in *; intuition congruence. }
  destruct Nq as (N21 & N25 & N24 & N15 & N14 & N54).
  destruct (Hk n1 (or_introl I1)) as [p1 P1]. destruct (Hk n2 (or_introl I2)) as [p2 P2].
  destruct (Hk n3 (or_introl I3)) as [p3 P3]. destruct (Hk n4 (or_intror I4)) as [p4 P4]. destruct (Hk n5 (or_intror I5)) as [p5 P5].
  rewrite P1, P2, P3, P4, P5. cbn [bind].
  pose proof (where_get _ _ _ P1) as X1. pose proof (where_get _ _ _ P2) as X2. pose proof (where_get _ _ _ P3) as X3.
  pose proof (where_get _ _ _ P4) as X4. pose proof (where_get _ _ _ P5) as X5.
  pose proof (turned_area _ _ _ _ Tu) as A3. pose proof (turned4_area _ _ _ _ _ Tu') as A4. rewrite X1, X2, X3 in A3. rewrite X1, X2, X4, X5 in A4.
  assert (Hold : turnable4 -> forall bd, quality_of quality3 quality4 bd (map pos (e_nodes e)) -> quality_of quality3 quality4 bd (map pos (e_nodes e')) ->
    (bd <= qmin (quality3 p1 p2 p3) (quality4 p2 p1 p5 p4))%Q).
  { intros Hr bd B1 B2. rewrite Euvw in B1. rewrite Eq' in B2. apply (turned_least _ _ _ _ _ Hr Tu) in B1. apply (turned4_least _ _ _ _ _ _ Hr Tu') in B2.
    rewrite X1, X2, X3 in B1. rewrite X1, X2, X4, X5 in B2. now apply qmin_least. }
  match goal with |- context [if ?c then _ else _] => destruct c eqn:Hgo end;
    [|clear Hgo; match goal with |- context [if ?c then _ else _] => destruct c eqn:Hgo end; [|eauto]].
  - apply andb_true_iff in Hgo. destruct Hgo as [Hgo Cv]. apply andb_true_iff in Hgo. destruct Hgo as [Hgo U4]. apply andb_true_iff in Hgo. destruct Hgo as [Hq U3].
    apply Qlt_bool_iff in Hq. pose proof (convex_good _ _ _ _ U4 Cv) as G4. pose proof (upright_steep _ _ _ U3) as G3.
    assert (N34 : n3 <> n4) by (destruct (upright_distinct tol Htol _ _ _ _ _ _ _ P2 P3 P4 U3) as (_ & _ & D); auto).
    assert (N35 : n3 <> n5).
    { intros E. assert (E35 : p3 = p5) by congruence. rewrite E35 in G4. destruct G4 as (_ & _ & G & _). unfold area2 in G. ring_simplify in G. now apply Qlt_irrefl in G. }
    apply (swap_ok T S0 (f_elem f) (f_elem g) e e'); auto.
    + repeat (constructor; [cbn; intuition congruence|]); constructor.
    + repeat (constructor; [cbn; intuition congruence|]); constructor.
    + intros n Hn. cbn in Hn. repeat destruct Hn as [<-|Hn]; auto. destruct Hn.
    + intros s t. rewrite Euvw, Eq'. rewrite !(turned_running3 _ _ _ _ _ _ Tu), !(turned4_running _ _ _ _ _ _ _ Tu'), !running_tri, !running_quad.
      rewrite !(ind_swap _ _ s t). lia.
    + cbn [map]. rewrite X2, X3, X4. exact G3.
    + cbn [map]. rewrite X1, X3, X4, X5. exact G4.
    + rewrite Euvw, Eq', A3, A4. cbn [map polygon_area2]. rewrite X1, X2, X3, X4, X5. unfold area2. ring.
    + intros Hr bd B1 B2. cbn [map quality_of]. rewrite X1, X2, X3, X4, X5. pose proof (Hold Hr bd B1 B2) as B. apply (proj1 (qmin_least bd _ _)). lra.
  - apply andb_true_iff in Hgo. destruct Hgo as [Hgo Cv]. apply andb_true_iff in Hgo. destruct Hgo as [Hgo U4]. apply andb_true_iff in Hgo. destruct Hgo as [Hq U3].
    apply Qlt_bool_iff in Hq. pose proof (convex_good _ _ _ _ U4 Cv) as G4. pose proof (upright_steep _ _ _ U3) as G3.
    assert (N35 : n3 <> n5) by (destruct (upright_distinct tol Htol _ _ _ _ _ _ _ P1 P5 P3 U3) as (_ & _ & D); auto).
    assert (N34 : n3 <> n4).
    { intros E. assert (E34 : p3 = p4) by congruence. rewrite E34 in G4. destruct G4 as (_ & G & _). unfold area2 in G. ring_simplify in G. now apply Qlt_irrefl in G. }
    apply (swap_ok T S0 (f_elem f) (f_elem g) e e'); auto.
    + repeat (constructor; [cbn; intuition congruence|]); constructor.
    + repeat (constructor; [cbn; intuition congruence|]); constructor.
    + intros n Hn. cbn in Hn. repeat destruct Hn as [<-|Hn]; auto. destruct Hn.
    + intros s t. rewrite Euvw, Eq'. rewrite !(turned_running3 _ _ _ _ _ _ Tu), !(turned4_running _ _ _ _ _ _ _ Tu'), !running_tri, !running_quad.
      rewrite !(ind_swap _ _ s t). lia.
    + cbn [map]. rewrite X1, X3, X5. exact G3.
    + cbn [map]. rewrite X2, X3, X4, X5. exact G4.
    + rewrite Euvw, Eq', A3, A4. cbn [map polygon_area2]. rewrite X1, X2, X3, X4, X5. unfold area2. ring.
    + intros Hr bd B1 B2. cbn [map quality_of]. rewrite X1, X2, X3, X4, X5. pose proof (Hold Hr bd B1 B2) as B. apply and_comm. apply (proj1 (qmin_least bd _ _)). lra.
Qed.

Lemma flipq_all_ok : exists st, flipq_all quality3 quality4 tol m = Ok st /\ flippingq st.
Proof.
  unfold flipq_all. destruct (foldM_invariant (flipq_step quality3 quality4 tol m) (fun _ st => flippingq st) (t_ids (m_faces m))
    (m_elems m, none_flipped (t_ids (m_elems m)))) as (st & E & H); eauto using flippingq_start.
  intros done id rest st El F. destruct (wf_get (m_faces m) id) as [f Hf]; [apply Wm|rewrite El; apply in_elt|]. now apply (flipq_step_ok st id f).
Qed.
End FlipQ.
