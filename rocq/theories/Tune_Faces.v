(** The faces made by generateFaces of a mesh of triangles; the mesh after flipEdges. *)
From Coq Require Import ZArith List Bool QArith Lia Lqa Permutation.
From Verif Require Import Prelude Vec ZMap Mesh_Model HashGrid_Model Face_Model Merge_Model Merge_Spec Mesh_Spec Mesh_Proofs Face_Spec Face_Proofs
  Front_Model Front_Spec Front_Proofs Front_Finish Tune_Model Tune_Spec Tune_Proofs Tune_Relax.
Import ListNotations.
Open Scope Z_scope.

(** ** Two different faces have different centres if there is an upright triangle *)
Lemma spread_ok tol m id p q r : all_upright tol m -> triangle m id p q r -> spread m.
Proof.
  intros Hu Ht. destruct (Hu _ _ _ _ Ht) as (cp & cq & cr & Gp & Gq & Gr & Ar & _). destruct Ht as [fs Ht].
  set (e := Element ET_TRIANGLE [p; q; r] fs) in *.
  destruct (flat_cells_ok e (or_introl eq_refl) eq_refl) as (l & El & Em).
  assert (Hex : forall a b, In (a, b) [(p, q); (q, r); (r, p)] -> exists f, In f l /\ f_nodes f = [a; b]).
  { intros a b Hab. assert (Hin : In (FT_LINE, [a; b]) (map (fun f => (f_type f, f_nodes f)) l)).
    { rewrite Em. apply in_map_iff. exists (a, b). split; [reflexivity|exact Hab]. }
    apply in_map_iff in Hin. destruct Hin as (f & [= _ E] & Hf). eauto. }
  destruct (Hex p q) as (f1 & F1 & N1); [cbn; auto|]. destruct (Hex q r) as (f2 & F2 & N2); [cbn; auto|].
  assert (C1 : centre_of m (f_nodes f1) (mean [cp; cq])) by (exists [cp; cq]; rewrite N1; unfold coords; cbn [map]; rewrite Gp, Gq; auto).
  assert (C2 : centre_of m (f_nodes f2) (mean [cq; cr])) by (exists [cq; cr]; rewrite N2; unfold coords; cbn [map]; rewrite Gq, Gr; auto).
  exists id, e, l, f1, (mean [cp; cq]), id, e, l, f2, (mean [cq; cr]).
  split; [auto|]. split; [auto|]. intros (X & Y & _). unfold mean in X, Y. cbn in X, Y. unfold area2 in Ar.
  assert (Ex : (cx cp == cx cr)%Q) by lra. assert (Ey : (cy cp == cy cr)%Q) by lra. rewrite Ex, Ey in Ar. ring_simplify in Ar. now apply Qlt_irrefl in Ar.
Qed.

Lemma proper_enough m : proper m -> (forall id e, t_get (m_elems m) id = Ok e -> e_type e <> ET_TRIANGLE -> (node_count (e_type e) <= length (e_nodes e))%nat) -> enough m.
Proof.
  intros Pm H id e He. destruct (e_type e) eqn:E; try (rewrite <- E; apply (H id e He); congruence).
  destruct (Pm id e He E) as (p & q & r & En & _). rewrite En. cbn. lia.
Qed.

(** ** Sides and faces *)
Lemma running_in l a b : In (a, b) l -> (1 <= running l a b)%nat.
Proof.
  intros H. unfold running. assert (Hf : In (a, b) (filter (fun d => (fst d =? a) && (snd d =? b))%bool l)).
  { apply filter_In. split; [exact H|]. cbn. now rewrite !Z.eqb_refl. }
  destruct (filter _ l); [destruct Hf|]. cbn. lia.
Qed.

Lemma running_two (T : table element) i j a b : i <> j -> In i (t_ids T) -> In j (t_ids T) -> In (a, b) (element_sides T i) -> In (a, b) (element_sides T j) ->
  (2 <= running (all_sides T) a b)%nat.
Proof.
  intros Hij Hi Hj Hai Haj. unfold all_sides.
  assert (One : forall l k, In k l -> In (a, b) (element_sides T k) -> (1 <= running (flat_map (element_sides T) l) a b)%nat).
  { intros l k Hk Hs. apply running_in. apply in_flat_map. eauto. }
  induction (t_ids T) as [|k l IH]; [destruct Hi|]. cbn [flat_map]. rewrite running_app.
  destruct Hi as [->|Hi], Hj as [->|Hj]; [congruence| | |].
  - pose proof (running_in _ _ _ Hai). pose proof (One l j Hj Haj). lia.
  - pose proof (running_in _ _ _ Haj). pose proof (One l i Hi Hai). lia.
  - specialize (IH Hi Hj). lia.
Qed.

Definition only_triangles (m : mesh) : Prop := forall id e, t_get (m_elems m) id = Ok e -> e_type e = ET_TRIANGLE.

Lemma perm_two (a b : Z) l : Permutation [a; b] l -> l = [a; b] \/ l = [b; a].
Proof. intros H. apply Permutation_length_2_inv in H. exact H. Qed.

Lemma same_sides (T T' : table element) : t_ids T' = t_ids T -> (forall id e, t_get T id = Ok e -> exists e', t_get T' id = Ok e' /\ e_nodes e' = e_nodes e) ->
  wf_table T -> all_sides T' = all_sides T.
Proof.
  intros Hi Hs W. unfold all_sides. rewrite Hi. apply flat_map_same. intros id Hid. destruct (wf_get _ _ W Hid) as [e He].
  destruct (Hs id e He) as (e' & He' & En). unfold element_sides. now rewrite He, He', En.
Qed.

Lemma faces_ok n tol m : 1 <= n <= int_max -> (0 <= tol)%Q -> wf_mesh m -> refs_ok m -> proper m -> only_triangles m -> once m -> spread m ->
  exists m' nb, generateFaces n tol m = Ok (m', nb) /\ m_nodes m' = m_nodes m /\ wf_mesh m' /\ refs_ok m' /\ t_ids (m_elems m') = t_ids (m_elems m) /\
    (forall id p q r, triangle m' id p q r <-> triangle m id p q r) /\
    only_triangles m' /\ proper m' /\ linked m' /\ owned m' /\ fitted m' /\ once m'.
Proof.
  intros Hn Ht Wm Rm Pm Hall Hon Hsp.
  assert (Hen : enough m) by (apply proper_enough; [exact Pm|]; intros id e He C; now destruct (C (Hall id e He))).
  destruct (pairing_ok n tol m Hn Ht Wm Rm Hen Hsp) as (m' & nb & E & En & W' & R' & Ei & Hel & Hli & Hmate & Hun & _ & _ & Hdif).
  exists m', nb. split; [exact E|]. split; [exact En|]. split; [exact W'|]. split; [exact R'|]. split; [exact Ei|].
  assert (Hback : forall id e', t_get (m_elems m') id = Ok e' -> exists e, t_get (m_elems m) id = Ok e /\ e_type e' = e_type e /\ e_nodes e' = e_nodes e).
  { intros id e' He'. pose proof (wf_get_in _ _ _ (proj2 (proj2 W')) He') as Hin. rewrite Ei in Hin. destruct (wf_get _ _ (proj2 (proj2 Wm)) Hin) as [e He].
    destruct (Hel id e He) as (e2 & fs & He2 & A & B & _). assert (e2 = e') by congruence. subst. eauto. }
  assert (Htr : forall id p q r, triangle m' id p q r <-> triangle m id p q r).
  { intros id p q r. split; intros [fs H].
    - destruct (Hback _ _ H) as (e & He & A & B). exists (e_faces e). rewrite He. destruct e. cbn in *. congruence.
    - destruct (Hel _ _ H) as (e' & fs' & He' & A & B & _). exists (e_faces e'). rewrite He'. destruct e'. cbn in *. congruence. }
  split; [exact Htr|].
  assert (Hall' : only_triangles m').
  { intros id e' He'. destruct (Hback _ _ He') as (e & He & A & _). rewrite A. eauto. }
  split; [exact Hall'|].
  assert (Pm' : proper m').
  { intros id e' He' Hty. destruct (Hback _ _ He') as (e & He & A & B). rewrite B. apply (Pm id e He). congruence. }
  split; [exact Pm'|].
  assert (Hsides : all_sides (m_elems m') = all_sides (m_elems m)).
  { apply same_sides; [exact Ei| |apply Wm]. intros id e He. destruct (Hel _ _ He) as (e' & fs & He' & _ & B & _). eauto. }
  (* every face is a side of its element *)
  assert (Hface : forall fid f, t_get (m_faces m') fid = Ok f -> exists a b e, f_nodes f = [a; b] /\ f_type f = FT_LINE /\
    t_get (m_elems m') (f_elem f) = Ok e /\ In (a, b) (sides_of (e_nodes e))).
  { intros fid f Hf. pose proof (wf_get_in _ _ _ (proj1 (proj2 W')) Hf) as Hin. rewrite <- Hli in Hin. apply in_flat_map in Hin.
    destruct Hin as (id & Hid & Hl). unfold faces_listed in Hl. destruct (t_get (m_elems m') id) as [e'| |] eqn:He'; try destruct Hl.
    destruct (Hback _ _ He') as (e & He & A & B). destruct (Hel _ _ He) as (e2 & fs & He2 & _ & _ & Hfs & Hmap). assert (e2 = e') by congruence. subst e2.
    assert (Hd : In (face_data (m_faces m') fid) (map (face_data (m_faces m')) (e_faces e'))) by (apply in_map; exact Hl).
    rewrite Hmap in Hd. apply in_map_iff in Hd. destruct Hd as (f0 & Ef & Hf0). unfold face_data in Ef. rewrite Hf in Ef. cbn in Ef. injection Ef as E1 E2 E3.
    destruct (Pm _ _ He (Hall _ _ He)) as (p & q & r & Enn & _).
    destruct (flat_cells_ok e (or_introl (Hall _ _ He))) as (l & El & Em); [unfold complete; now rewrite Enn, (Hall _ _ He)|].
    rewrite Hfs in El. injection El as <-.
    assert (Hm : In (f_type f0, f_nodes f0) (map (fun f => (f_type f, f_nodes f)) fs)) by (apply in_map_iff; eauto).
    rewrite Em in Hm. apply in_map_iff in Hm. destruct Hm as ([a b] & E4 & Hab). cbn [fst snd] in E4. injection E4 as E5 E6.
    exists a, b, e'. rewrite <- E2, <- E1, <- E5, <- E6, <- E3. split; [reflexivity|]. split; [reflexivity|]. split; [exact He'|].
    rewrite B, Enn. rewrite Enn in Hab. exact Hab. }
  (* every side has a face *)
  assert (Hside : forall id e' a b, t_get (m_elems m') id = Ok e' -> In (a, b) (sides_of (e_nodes e')) -> exists fid f, t_get (m_faces m') fid = Ok f /\ f_nodes f = [a; b] /\ f_elem f = id).
  { intros id e' a b He' Hab. destruct (Hback _ _ He') as (e & He & A & B). destruct (Hel _ _ He) as (e2 & fs & He2 & _ & _ & Hfs & Hmap). assert (e2 = e') by congruence. subst e2.
    destruct (Pm _ _ He (Hall _ _ He)) as (p & q & r & Enn & _).
    destruct (flat_cells_ok e (or_introl (Hall _ _ He))) as (l & El & Em); [unfold complete; now rewrite Enn, (Hall _ _ He)|].
    rewrite Hfs in El. injection El as <-.
    assert (Hm : In (FT_LINE, [a; b]) (map (fun f => (f_type f, f_nodes f)) fs)).
    { rewrite Em. apply in_map_iff. exists (a, b). split; [reflexivity|]. rewrite B, Enn in Hab. rewrite Enn. exact Hab. }
    apply in_map_iff in Hm. destruct Hm as (f0 & E0 & Hf0). injection E0 as E1 E2.
    assert (Hd : In (Ok (f_type f0, f_nodes f0, id)) (map (fun f => Ok (f_type f, f_nodes f, id)) fs)) by (apply in_map_iff; eauto).
    rewrite <- Hmap in Hd. apply in_map_iff in Hd. destruct Hd as (fid & Ef & _). unfold face_data in Ef. destruct (t_get (m_faces m') fid) as [f| |] eqn:Hf; try discriminate.
    cbn in Ef. injection Ef as F1 F2 F3. exists fid, f. split; [exact Hf|]. split; congruence. }
  (* partners run the other way *)
  assert (Hopp : forall fid f, t_get (m_faces m') fid = Ok f -> f_haspair f = true -> forall a b, f_nodes f = [a; b] ->
    exists g, t_get (m_faces m') (f_pair f) = Ok g /\ f_nodes g = [b; a]).
  { intros fid f Hf Hp a b Hab. destruct (Hmate fid (f_pair f)) as (_ & f1 & g & Hf1 & Hg & _ & Hperm); [exists f; auto|].
    assert (f1 = f) by congruence. subst f1. exists g. split; [exact Hg|]. rewrite Hab in Hperm. destruct (perm_two _ _ _ Hperm) as [Hg2|Hg2]; [|exact Hg2].
    exfalso. destruct (Hface _ _ Hf) as (a1 & b1 & e1 & N1 & _ & He1 & S1). destruct (Hface _ _ Hg) as (a2 & b2 & e2 & N2 & _ & He2 & S2).
    assert (a1 = a /\ b1 = b /\ a2 = a /\ b2 = b) as (-> & -> & -> & ->) by (repeat split; congruence).
    assert (Hd : f_elem f <> f_elem g).
    { apply (Hdif) with (a := fid) (b := f_pair f); [|exists f; auto|exact Hf|exact Hg]. intros id e He. destruct (Pm _ _ He (Hall _ _ He)) as (p & q & r & Enn & D1 & D2 & D3).
      rewrite Enn. constructor; [cbn; intuition congruence|]. constructor; [cbn; intuition congruence|]. constructor; [intros []|constructor]. }
    pose proof (running_two (m_elems m') (f_elem f) (f_elem g) a b Hd (wf_get_in _ _ _ (proj2 (proj2 W')) He1) (wf_get_in _ _ _ (proj2 (proj2 W')) He2)) as R2.
    unfold element_sides in R2. rewrite He1, He2 in R2. specialize (R2 S1 S2). rewrite Hsides in R2. specialize (Hon a b). lia. }
  split; [|split; [|split]].
  - intros fid f e Hf _ He _. destruct (Hface _ _ Hf) as (a & b & e1 & N1 & _ & He1 & S1). assert (e1 = e) by congruence. subst e1.
    exists a, b. split; [exact N1|]. split; [exact S1|]. intros Hp. destruct (Hopp _ _ Hf Hp a b N1) as (g & Hg & Ng).
    destruct (Hface _ _ Hg) as (b1 & a1 & e2 & N2 & _ & He2 & S2). assert (b1 = b /\ a1 = a) as (-> & ->) by (split; congruence). exists g, e2. auto.
  - intros fid f Hf. destruct (Hface _ _ Hf) as (a & b & e1 & _ & _ & He1 & _). exact (wf_get_in _ _ _ (proj2 (proj2 W')) He1).
  - assert (Hone : forall a b, (running (all_sides (m_elems m')) b a < running (all_sides (m_elems m')) a b)%nat -> on_border m' a /\ on_border m' b).
    { intros a b Hlt. assert (Hin : In (a, b) (all_sides (m_elems m'))) by (apply running_pos; lia). unfold all_sides in Hin. apply in_flat_map in Hin.
      destruct Hin as (id & Hid & Hs). unfold element_sides in Hs. destruct (t_get (m_elems m') id) as [e'| |] eqn:He'; try destruct Hs.
      destruct (Hside _ _ _ _ He' Hs) as (fid & f & Hf & Nf & _). destruct (f_haspair f) eqn:Hp.
      - exfalso. destruct (Hopp _ _ Hf Hp a b Nf) as (g & Hg & Ng). destruct (Hface _ _ Hg) as (b1 & a1 & e2 & N2 & _ & He2 & S2).
        assert (b1 = b /\ a1 = a) as (-> & ->) by (split; congruence).
        assert (R1 : (1 <= running (all_sides (m_elems m')) b a)%nat).
        { apply running_in. unfold all_sides. apply in_flat_map. exists (f_elem g). split; [exact (wf_get_in _ _ _ (proj2 (proj2 W')) He2)|]. unfold element_sides. now rewrite He2. }
        specialize (Hon a b). rewrite <- Hsides in Hon. lia.
      - split; exists fid, f; rewrite Nf; cbn; auto. }
    intros a b Hnet. unfold net in Hnet. destruct (Nat.lt_ge_cases (running (all_sides (m_elems m')) b a) (running (all_sides (m_elems m')) a b)) as [Hlt|Hge]; [now apply Hone|].
    assert (Hgt : (running (all_sides (m_elems m')) a b < running (all_sides (m_elems m')) b a)%nat) by lia. destruct (Hone b a Hgt). auto.
  - intros a b. rewrite Hsides. apply Hon.
Qed.

(** ** flipEdges *)
Lemma flip_ok n quality tol m id0 p0 q0 r0 : 1 <= n <= int_max -> (0 <= tol)%Q -> wf_mesh m -> refs_ok m -> linked m -> owned m -> proper m -> enough m ->
  all_upright tol m -> triangle m id0 p0 q0 r0 ->
  exists m', flipEdges n quality tol m = Ok m' /\ m_nodes m' = m_nodes m /\ wf_mesh m' /\ refs_ok m' /\ t_ids (m_elems m') = t_ids (m_elems m) /\
    (forall id e, t_get (m_elems m) id = Ok e -> exists e', t_get (m_elems m') id = Ok e' /\ e_type e' = e_type e /\ (e_type e <> ET_TRIANGLE -> e_nodes e' = e_nodes e)) /\
    proper m' /\ all_upright tol m' /\ (forall a b, net m' a b = net m a b) /\ (total_area2 m' == total_area2 m)%Q /\
    ((forall p q r, quality p q r == quality q r p)%Q -> forall b, at_least quality b m -> at_least quality b m') /\
    (only_triangles m -> once m' -> only_triangles m' /\ linked m' /\ owned m' /\ fitted m').
Proof.
  intros Hn Ht Wm Rm Lm Om Pm Hen Hup Htr.
  destruct (flip_all_ok quality tol Ht m Wm Rm Lm Om Pm) as ([T S0] & Ef & F). unfold flipEdges. rewrite Ef. cbn [bind fst snd].
  pose proof (fl_wf _ _ _ _ F) as WT. pose proof (fl_ids _ _ _ _ F) as IT. pose proof (fl_type _ _ _ _ F) as TT. pose proof (fl_proper _ _ _ _ F) as PT.
  pose proof (fl_refs _ _ _ _ F) as RT. pose proof (fl_net _ _ _ _ F) as NT. pose proof (fl_upright _ _ _ _ F Hup) as UT. pose proof (fl_quality _ _ _ _ F) as QT. cbn [fst snd] in *.
  change (Mesh (m_nodes m) (m_faces m) T) with (with_elems m T). set (m1 := with_elems m T) in *.
  assert (W1 : wf_mesh m1) by (split; [apply Wm|split; [apply Wm|exact WT]]).
  assert (R1 : refs_ok m1) by (split; [exact RT|apply Rm]).
  assert (Hb1 : forall id e1, t_get T id = Ok e1 -> exists e, t_get (m_elems m) id = Ok e /\ e_type e1 = e_type e /\ (e_type e <> ET_TRIANGLE -> e_nodes e1 = e_nodes e)).
  { intros id e1 He1. pose proof (wf_get_in _ _ _ WT He1) as Hin. rewrite IT in Hin. destruct (wf_get _ _ (proj2 (proj2 Wm)) Hin) as [e He].
    destruct (TT id e He) as (e2 & He2 & A & B). assert (e2 = e1) by congruence. subst. eauto. }
  assert (En1 : enough m1).
  { apply proper_enough; [exact PT|]. intros id e1 He1 Hty. destruct (Hb1 id e1 He1) as (e & He & A & B). rewrite A in Hty. rewrite A, (B Hty). exact (Hen _ _ He). }
  destruct Htr as [fs0 Htr]. destruct (TT _ _ Htr) as (e0 & He0 & Te0 & _). cbn in Te0. destruct (PT _ _ He0 Te0) as (p1 & q1 & r1 & En0 & _).
  assert (Tr1 : triangle m1 id0 p1 q1 r1) by (exists (e_faces e0); cbn; rewrite He0; destruct e0; cbn in *; congruence).
  pose proof (spread_ok tol m1 _ _ _ _ UT Tr1) as Sp1.
  destruct (pairing_ok n tol m1 Hn Ht W1 R1 En1 Sp1) as (m' & nb & E & Enn & W' & R' & Ei & Hel & _).
  rewrite E. cbn [bind fst]. exists m'. split; [reflexivity|]. split; [exact Enn|]. split; [exact W'|]. split; [exact R'|].
  split; [rewrite Ei; exact IT|].
  assert (Hback : forall id e', t_get (m_elems m') id = Ok e' -> exists e, t_get T id = Ok e /\ e_type e' = e_type e /\ e_nodes e' = e_nodes e).
  { intros id e' He'. pose proof (wf_get_in _ _ _ (proj2 (proj2 W')) He') as Hin. rewrite Ei in Hin. destruct (wf_get _ _ WT Hin) as [e He].
    destruct (Hel id e He) as (e2 & fs & He2 & A & B & _). assert (e2 = e') by congruence. subst. eauto. }
  assert (Hfw : forall id p q r, triangle m' id p q r -> triangle m1 id p q r).
  { intros id p q r [fs H]. destruct (Hback _ _ H) as (e & He & A & B). exists (e_faces e). cbn. rewrite He. destruct e. cbn in *. congruence. }
  assert (Hsides : all_sides (m_elems m') = all_sides T).
  { apply same_sides; [exact Ei| |exact WT]. intros id e He. destruct (Hel _ _ He) as (e' & fs & He' & _ & B & _). eauto. }
  split.
  { intros id e He. destruct (TT id e He) as (e1 & He1 & A & B). destruct (Hel id e1 He1) as (e' & fs & He' & C & D & _). exists e'.
    split; [exact He'|]. split; [congruence|]. intros Hty. rewrite D. auto. }
  split. { intros id e' He' Hty. destruct (Hback _ _ He') as (e & He & A & B). rewrite B. apply (PT id e He). congruence. }
  split. { intros id p q r Htr'. rewrite Enn. exact (UT id p q r (Hfw _ _ _ _ Htr')). }
  assert (Hnet : forall a b, net m' a b = net m a b) by (intros a b; rewrite <- NT; unfold net; now rewrite Hsides).
  split; [exact Hnet|].
  split. { destruct m' as [nd fc el], m as [nd0 fc0 el0]. cbn [m_nodes m_elems] in *. change (m_nodes m1) with nd0 in Enn. subst nd. apply area_net. exact Hnet. }
  split. { intros Hr b Hb id p q r Htr'. rewrite Enn. exact (QT Hr b Hb id p q r (Hfw _ _ _ _ Htr')). }
  intros Hall Hon.
  assert (Hall1 : only_triangles m1) by (intros id e1 He1; destruct (Hb1 id e1 He1) as (e & He & A & _); rewrite A; eauto).
  assert (Hon1 : once m1) by (intros a b; specialize (Hon a b); rewrite Hsides in Hon; exact Hon).
  destruct (faces_ok n tol m1 Hn Ht W1 R1 PT Hall1 Hon1 Sp1) as (m2 & nb2 & E2 & _ & _ & _ & _ & _ & A & _ & B & C & D & _).
  rewrite E in E2. injection E2 as <- <-. auto.
Qed.
