(** The faces made by generateFaces of a mesh of triangles and quadrilaterals; the mesh after flipEdges. *)
From Coq Require Import ZArith List Bool QArith Lia Lqa Permutation.
From Verif Require Import Prelude Vec ZMap Mesh_Model HashGrid_Model Face_Model Merge_Model Merge_Spec Mesh_Spec Mesh_Proofs Face_Spec Face_Proofs
  Front_Model Front_Spec Front_Proofs Front_Finish Tune_Model Tune_Spec Tune_Proofs Tune_Relax Tune_Faces Tet_Model Quad_Model Quad_Spec Quad_Proofs.
Import ListNotations.
Open Scope Z_scope.

Lemma corners_type e l : corners e = Some l -> (e_type e = ET_TRIANGLE \/ e_type e = ET_QUADRILATERAL) /\ l = e_nodes e.
Proof. unfold corners. destruct (e_type e); try discriminate; intros [= <-]; auto. Qed.
Lemma flat_corners e : e_type e = ET_TRIANGLE \/ e_type e = ET_QUADRILATERAL -> corners e = Some (e_nodes e).
Proof. unfold corners. now intros [-> | ->]. Qed.
Lemma flat_rim e : e_type e = ET_TRIANGLE \/ e_type e = ET_QUADRILATERAL -> rim e = cycle (e_nodes e).
Proof. intros H. unfold rim. now rewrite flat_corners. Qed.
Lemma flat_complete m id e : proper_flat m -> t_get (m_elems m) id = Ok e -> e_type e = ET_TRIANGLE \/ e_type e = ET_QUADRILATERAL ->
  complete e /\ NoDup (e_nodes e).
Proof. intros Pm He [E|E]; destruct (Pm _ _ He) as [A B]; [destruct (A E)|destruct (B E)]; unfold complete; rewrite E; auto. Qed.
Lemma corners_like e e' : e_type e' = e_type e -> e_nodes e' = e_nodes e -> corners e' = corners e.
Proof. unfold corners. now intros -> ->. Qed.

(** ** Two different faces have different centres if there is a good element *)
Lemma spread_flat tol m id e : wf_mesh m -> refs_ok m -> proper_flat m -> all_good tol m -> t_get (m_elems m) id = Ok e ->
  e_type e = ET_TRIANGLE \/ e_type e = ET_QUADRILATERAL -> spread m.
Proof.
  intros Wm Rm Pm Hu He Hty. destruct (flat_complete m id e Pm He Hty) as [Hc _].
  destruct (flat_cells_ok e Hty Hc) as (l & El & Em).
  assert (Hex : forall a b, In (a, b) (cycle (e_nodes e)) -> exists f, In f l /\ f_nodes f = [a; b]).
  { intros a b Hab. assert (Hin : In (FT_LINE, [a; b]) (map (fun f => (f_type f, f_nodes f)) l)).
    { rewrite Em. apply in_map_iff. exists (a, b). split; [reflexivity|exact Hab]. }
    apply in_map_iff in Hin. destruct Hin as (f & [= _ E] & Hf). eauto. }
  pose proof (Hu _ _ _ He (flat_corners e Hty)) as Hg.
  assert (Hk : forall n, In n (e_nodes e) -> exists c, t_get (m_nodes m) n = Ok c).
  { intros n Hn. apply wf_get; [apply Wm|]. pose proof (proj1 Rm _ _ He) as A. rewrite Forall_forall in A. auto. }
  assert (H3 : exists p q r cp cq cr, t_get (m_nodes m) p = Ok cp /\ t_get (m_nodes m) q = Ok cq /\ t_get (m_nodes m) r = Ok cr /\
    In (p, q) (cycle (e_nodes e)) /\ In (q, r) (cycle (e_nodes e)) /\ (0 < area2 cp cq cr)%Q).
  { unfold complete in Hc. destruct Hty as [E|E]; rewrite E in Hc; cbn in Hc.
    - destruct (e_nodes e) as [|p [|q [|r [|]]]]; try discriminate.
      destruct (Hk p) as [cp P]; [cbn; auto|]. destruct (Hk q) as [cq Q0]; [cbn; auto|]. destruct (Hk r) as [cr R0]; [cbn; auto|].
      exists p, q, r, cp, cq, cr. split; [exact P|]. split; [exact Q0|]. split; [exact R0|]. split; [cbn; auto|]. split; [cbn; auto|].
      cbn [map good_shape] in Hg. rewrite (where_get _ _ _ P), (where_get _ _ _ Q0), (where_get _ _ _ R0) in Hg. destruct Hg as [Hg _]. unfold cross, vsub in Hg. cbn in Hg. unfold area2. lra.
    - destruct (e_nodes e) as [|p [|q [|r [|s [|]]]]]; try discriminate.
      destruct (Hk p) as [cp P]; [cbn; auto|]. destruct (Hk q) as [cq Q0]; [cbn; auto|]. destruct (Hk r) as [cr R0]; [cbn; auto|].
      exists p, q, r, cp, cq, cr. split; [exact P|]. split; [exact Q0|]. split; [exact R0|]. split; [cbn; auto|]. split; [cbn; auto|].
      cbn [map good_shape] in Hg. rewrite (where_get _ _ _ P), (where_get _ _ _ Q0), (where_get _ _ _ R0) in Hg. apply Hg. }
  destruct H3 as (p & q & r & cp & cq & cr & Gp & Gq & Gr & I1 & I2 & Ar).
  destruct (Hex p q I1) as (f1 & F1 & N1). destruct (Hex q r I2) as (f2 & F2 & N2).
  assert (C1 : centre_of m (f_nodes f1) (mean [cp; cq])) by (exists [cp; cq]; rewrite N1; unfold coords; cbn [map]; rewrite Gp, Gq; auto).
  assert (C2 : centre_of m (f_nodes f2) (mean [cq; cr])) by (exists [cq; cr]; rewrite N2; unfold coords; cbn [map]; rewrite Gq, Gr; auto).
  exists id, e, l, f1, (mean [cp; cq]), id, e, l, f2, (mean [cq; cr]).
  split; [auto|]. split; [auto|]. intros (X & Y & _). unfold mean in X, Y. cbn in X, Y. unfold area2 in Ar.
  assert (Ex : (cx cp == cx cr)%Q) by lra. assert (Ey : (cy cp == cy cr)%Q) by lra. rewrite Ex, Ey in Ar. ring_simplify in Ar. now apply Qlt_irrefl in Ar.
Qed.

Lemma rims_two (T : table element) i j a b : i <> j -> In i (t_ids T) -> In j (t_ids T) -> In (a, b) (element_rim T i) -> In (a, b) (element_rim T j) ->
  (2 <= running (all_rims T) a b)%nat.
Proof.
  intros Hij Hi Hj Hai Haj. unfold all_rims.
  assert (One : forall l k, In k l -> In (a, b) (element_rim T k) -> (1 <= running (flat_map (element_rim T) l) a b)%nat).
  { intros l k Hk Hs. apply running_in. apply in_flat_map. eauto. }
  induction (t_ids T) as [|k l IH]; [destruct Hi|]. cbn [flat_map]. rewrite running_app.
  destruct Hi as [->|Hi], Hj as [->|Hj]; [congruence| | |].
  - pose proof (running_in _ _ _ Hai). pose proof (One l j Hj Haj). lia.
  - pose proof (running_in _ _ _ Haj). pose proof (One l i Hi Hai). lia.
  - specialize (IH Hi Hj). lia.
Qed.

Lemma same_rims (T T' : table element) : t_ids T' = t_ids T ->
  (forall id e, t_get T id = Ok e -> exists e', t_get T' id = Ok e' /\ e_type e' = e_type e /\ e_nodes e' = e_nodes e) ->
  wf_table T -> all_rims T' = all_rims T.
Proof.
  intros Hi Hs W. unfold all_rims. rewrite Hi. apply flat_map_same. intros id Hid. destruct (wf_get _ _ W Hid) as [e He].
  destruct (Hs id e He) as (e' & He' & Et & En). unfold element_rim, rim. now rewrite He, He', (corners_like e e' Et En).
Qed.

Lemma flat_faces_ok n tol m : 1 <= n <= int_max -> (0 <= tol)%Q -> wf_mesh m -> refs_ok m -> proper_flat m -> only_flat m -> once_flat m -> spread m ->
  exists m' nb, generateFaces n tol m = Ok (m', nb) /\ m_nodes m' = m_nodes m /\ wf_mesh m' /\ refs_ok m' /\ t_ids (m_elems m') = t_ids (m_elems m) /\
    (forall id e, t_get (m_elems m) id = Ok e -> exists e', t_get (m_elems m') id = Ok e' /\ e_type e' = e_type e /\ e_nodes e' = e_nodes e) /\
    only_flat m' /\ proper_flat m' /\ linked_flat m' /\ owned m' /\ fitted_flat m' /\ once_flat m' /\
    (forall id e, t_get (m_elems m') id = Ok e -> length (e_faces e) = length (e_nodes e) /\ Forall (fun k => In k (t_ids (m_faces m'))) (e_faces e)) /\
    (forall fid f, t_get (m_faces m') fid = Ok f -> f_type f = FT_LINE).
Proof.
  intros Hn Ht Wm Rm Pm Hall Hon Hsp.
  assert (Hfc : forall id e, t_get (m_elems m) id = Ok e -> complete e /\ NoDup (e_nodes e)) by (intros id e He; apply (flat_complete m id); eauto).
  assert (Hen : enough m) by (intros id e He; destruct (Hfc id e He) as [C _]; rewrite C; lia).
  destruct (pairing_ok n tol m Hn Ht Wm Rm Hen Hsp) as (m' & nb & E & En & W' & R' & Ei & Hel & Hli & Hmate & Hun & _ & _ & Hdif).
  exists m', nb. split; [exact E|]. split; [exact En|]. split; [exact W'|]. split; [exact R'|]. split; [exact Ei|].
  assert (Hback : forall id e', t_get (m_elems m') id = Ok e' -> exists e, t_get (m_elems m) id = Ok e /\ e_type e' = e_type e /\ e_nodes e' = e_nodes e).
  { intros id e' He'. pose proof (wf_get_in _ _ _ (proj2 (proj2 W')) He') as Hin. rewrite Ei in Hin. destruct (wf_get _ _ (proj2 (proj2 Wm)) Hin) as [e He].
    destruct (Hel id e He) as (e2 & fs & He2 & A & B & _). assert (e2 = e') by congruence. subst. eauto. }
  assert (Hfw : forall id e, t_get (m_elems m) id = Ok e -> exists e', t_get (m_elems m') id = Ok e' /\ e_type e' = e_type e /\ e_nodes e' = e_nodes e).
  { intros id e He. destruct (Hel _ _ He) as (e' & fs & He' & A & B & _). eauto. }
  split; [exact Hfw|].
  assert (Hall' : only_flat m').
  { intros id e' He'. destruct (Hback _ _ He') as (e & He & A & _). rewrite A. eauto. }
  split; [exact Hall'|].
  assert (Pm' : proper_flat m').
  { intros id e' He'. destruct (Hback _ _ He') as (e & He & A & B). rewrite A, B. exact (Pm id e He). }
  split; [exact Pm'|].
  assert (Hsides : all_rims (m_elems m') = all_rims (m_elems m)) by (apply same_rims; [exact Ei|exact Hfw|apply Wm]).
  (* every face is a side of its element *)
  assert (Hface : forall fid f, t_get (m_faces m') fid = Ok f -> exists a b e, f_nodes f = [a; b] /\ f_type f = FT_LINE /\
    t_get (m_elems m') (f_elem f) = Ok e /\ In (a, b) (rim e)).
  { intros fid f Hf. pose proof (wf_get_in _ _ _ (proj1 (proj2 W')) Hf) as Hin. rewrite <- Hli in Hin. apply in_flat_map in Hin.
    destruct Hin as (id & Hid & Hl). unfold faces_listed in Hl. destruct (t_get (m_elems m') id) as [e'| |] eqn:He'; try destruct Hl.
    destruct (Hback _ _ He') as (e & He & A & B). destruct (Hel _ _ He) as (e2 & fs & He2 & _ & _ & Hfs & Hmap). assert (e2 = e') by congruence. subst e2.
    assert (Hd : In (face_data (m_faces m') fid) (map (face_data (m_faces m')) (e_faces e'))) by (apply in_map; exact Hl).
    rewrite Hmap in Hd. apply in_map_iff in Hd. destruct Hd as (f0 & Ef & Hf0). unfold face_data in Ef. rewrite Hf in Ef. cbn in Ef. injection Ef as E1 E2 E3.
    destruct (flat_cells_ok e (Hall _ _ He) (proj1 (Hfc _ _ He))) as (l & El & Em).
    rewrite Hfs in El. injection El as <-.
    assert (Hm : In (f_type f0, f_nodes f0) (map (fun f => (f_type f, f_nodes f)) fs)) by (apply in_map_iff; eauto).
    rewrite Em in Hm. apply in_map_iff in Hm. destruct Hm as ([a b] & E4 & Hab). cbn [fst snd] in E4. injection E4 as E5 E6.
    exists a, b, e'. rewrite <- E2, <- E1, <- E5, <- E6, <- E3. split; [reflexivity|]. split; [reflexivity|]. split; [exact He'|].
    rewrite (flat_rim e' (Hall' _ _ He')), B. exact Hab. }
  (* every side has a face *)
  assert (Hside : forall id e' a b, t_get (m_elems m') id = Ok e' -> In (a, b) (rim e') -> exists fid f, t_get (m_faces m') fid = Ok f /\ f_nodes f = [a; b] /\ f_elem f = id).
  { intros id e' a b He' Hab. destruct (Hback _ _ He') as (e & He & A & B). destruct (Hel _ _ He) as (e2 & fs & He2 & _ & _ & Hfs & Hmap). assert (e2 = e') by congruence. subst e2.
    destruct (flat_cells_ok e (Hall _ _ He) (proj1 (Hfc _ _ He))) as (l & El & Em).
    rewrite Hfs in El. injection El as <-.
    assert (Hm : In (FT_LINE, [a; b]) (map (fun f => (f_type f, f_nodes f)) fs)).
    { rewrite Em. apply in_map_iff. exists (a, b). split; [reflexivity|]. rewrite (flat_rim e' (Hall' _ _ He')), B in Hab. exact Hab. }
    apply in_map_iff in Hm. destruct Hm as (f0 & E0 & Hf0). injection E0 as E1 E2.
    assert (Hd : In (Ok (f_type f0, f_nodes f0, id)) (map (fun f => Ok (f_type f, f_nodes f, id)) fs)) by (apply in_map_iff; eauto).
    rewrite <- Hmap in Hd. apply in_map_iff in Hd. destruct Hd as (fid & Ef & _). unfold face_data in Ef. destruct (t_get (m_faces m') fid) as [f| |] eqn:Hf; try discriminate.
    cbn in Ef. injection Ef as F1 F2 F3. exists fid, f. split; [exact Hf|]. split; congruence. }
  (* partners run the other way *)
  assert (Hopp : forall fid f, t_get (m_faces m') fid = Ok f -> f_haspair f = true -> forall a b, f_nodes f = [a; b] ->
    exists g, t_get (m_faces m') (f_pair f) = Ok g /\ f_nodes g = [b; a]).
  { intros fid f Hf Hp a b Hab. destruct (Hmate fid (f_pair f)) as (_ & f1 & g & Hf1 & Hg & _ & Hperm); [exists f; auto|].
    assert (f1 = f) by congruence. subst f1. exists g. split; [exact Hg|]. rewrite Hab in Hperm. destruct (perm_two _ _ _ Hperm) as [Hg2|Hg2]; [|exact Hg2].
    exfalso. destruct (Hface _ _ Hf) as (a1 & b1 & e1 & N1 & _ & He1 & S1). destruct (Hface _ _ Hg) as (a2 & b2 & e2 & N2 & _ & He2 & S2).
    assert (a1 = a /\ b1 = b /\ a2 = a /\ b2 = b) as (-> & -> & -> & ->) by (repeat split; congruence).
    assert (Hd : f_elem f <> f_elem g).
    { apply (Hdif) with (a := fid) (b := f_pair f); [|exists f; auto|exact Hf|exact Hg]. intros id e He. apply (Hfc id e He). }
    pose proof (rims_two (m_elems m') (f_elem f) (f_elem g) a b Hd (wf_get_in _ _ _ (proj2 (proj2 W')) He1) (wf_get_in _ _ _ (proj2 (proj2 W')) He2)) as R2.
    unfold element_rim in R2. rewrite He1, He2 in R2. specialize (R2 S1 S2). rewrite Hsides in R2. specialize (Hon a b). lia. }
  split; [|split; [|split; [|split; [|split]]]].
  - intros fid f e Hf _ He _. destruct (Hface _ _ Hf) as (a & b & e1 & N1 & _ & He1 & S1). assert (e1 = e) by congruence. subst e1.
    exists a, b. split; [exact N1|]. split; [exact S1|]. intros Hp. destruct (Hopp _ _ Hf Hp a b N1) as (g & Hg & Ng).
    destruct (Hface _ _ Hg) as (b1 & a1 & e2 & N2 & _ & He2 & S2). assert (b1 = b /\ a1 = a) as (-> & ->) by (split; congruence). exists g, e2. auto.
  - intros fid f Hf. destruct (Hface _ _ Hf) as (a & b & e1 & _ & _ & He1 & _). exact (wf_get_in _ _ _ (proj2 (proj2 W')) He1).
  - assert (Hone : forall a b, (running (all_rims (m_elems m')) b a < running (all_rims (m_elems m')) a b)%nat -> on_border m' a /\ on_border m' b).
    { intros a b Hlt. assert (Hin : In (a, b) (all_rims (m_elems m'))) by (apply running_pos; lia). unfold all_rims in Hin. apply in_flat_map in Hin.
      destruct Hin as (id & Hid & Hs). unfold element_rim in Hs. destruct (t_get (m_elems m') id) as [e'| |] eqn:He'; try destruct Hs.
      destruct (Hside _ _ _ _ He' Hs) as (fid & f & Hf & Nf & _). destruct (f_haspair f) eqn:Hp.
      - exfalso. destruct (Hopp _ _ Hf Hp a b Nf) as (g & Hg & Ng). destruct (Hface _ _ Hg) as (b1 & a1 & e2 & N2 & _ & He2 & S2).
        assert (b1 = b /\ a1 = a) as (-> & ->) by (split; congruence).
        assert (R1 : (1 <= running (all_rims (m_elems m')) b a)%nat).
        { apply running_in. unfold all_rims. apply in_flat_map. exists (f_elem g). split; [exact (wf_get_in _ _ _ (proj2 (proj2 W')) He2)|]. unfold element_rim. now rewrite He2. }
        specialize (Hon a b). rewrite <- Hsides in Hon. lia.
      - split; exists fid, f; rewrite Nf; cbn; auto. }
    intros a b Hnet. unfold net_flat in Hnet. destruct (Nat.lt_ge_cases (running (all_rims (m_elems m')) b a) (running (all_rims (m_elems m')) a b)) as [Hlt|Hge]; [now apply Hone|].
    assert (Hgt : (running (all_rims (m_elems m')) a b < running (all_rims (m_elems m')) b a)%nat) by lia. destruct (Hone b a Hgt). auto.
  - intros a b. rewrite Hsides. apply Hon.
  - intros id e' He'. destruct (Hback _ _ He') as (e & He & A & B). destruct (Hel _ _ He) as (e2 & fs & He2 & _ & _ & Hfs & Hmap). assert (e2 = e') by congruence. subst e2.
    split.
    + destruct (flat_cells_ok e (Hall _ _ He) (proj1 (Hfc _ _ He))) as (l & El & Em). rewrite Hfs in El. injection El as <-.
      apply (f_equal (@length _)) in Hmap. apply (f_equal (@length _)) in Em. rewrite !map_length in Hmap, Em. rewrite Hmap, Em, B.
      destruct (Hfc _ _ He) as [C _]. unfold complete in C. destruct (Hall _ _ He) as [Ty|Ty]; rewrite Ty in C; cbn in C;
        destruct (e_nodes e) as [|? [|? [|? [|? [|]]]]]; try discriminate; reflexivity.
    + apply Forall_forall. intros k Hk. assert (Hd : In (face_data (m_faces m') k) (map (face_data (m_faces m')) (e_faces e'))) by (apply in_map; exact Hk).
      rewrite Hmap in Hd. apply in_map_iff in Hd. destruct Hd as (f0 & Ef & _). unfold face_data in Ef. destruct (t_get (m_faces m') k) as [f| |] eqn:Hf; try discriminate.
      exact (wf_get_in _ _ _ (proj1 (proj2 W')) Hf).
  - intros fid f Hf. destruct (Hface _ _ Hf) as (_ & _ & _ & _ & A & _). exact A.
Qed.

(** ** flipEdges *)
Lemma flipQuads_ok n quality3 quality4 tol m : 1 <= n <= int_max -> (0 <= tol)%Q -> wf_mesh m -> refs_ok m -> linked_flat m -> owned m -> proper_flat m -> enough m ->
  all_good tol m -> (exists id e, t_get (m_elems m) id = Ok e /\ corners e <> None) ->
  exists m', flipQuads n quality3 quality4 tol m = Ok m' /\ m_nodes m' = m_nodes m /\ wf_mesh m' /\ refs_ok m' /\ t_ids (m_elems m') = t_ids (m_elems m) /\
    (forall id e, t_get (m_elems m) id = Ok e -> exists e', t_get (m_elems m') id = Ok e' /\ e_type e' = e_type e /\ (corners e = None -> e_nodes e' = e_nodes e)) /\
    proper_flat m' /\ all_good tol m' /\ (forall a b, net_flat m' a b = net_flat m a b) /\ (total_flat2 m' == total_flat2 m)%Q /\
    ((forall p q r, quality3 p q r == quality3 q r p)%Q -> (forall p q r s, quality4 p q r s == quality4 q r s p)%Q ->
      forall b, at_least_flat quality3 quality4 b m -> at_least_flat quality3 quality4 b m') /\
    (only_flat m -> once_flat m' -> linked_flat m' /\ owned m' /\ fitted_flat m').
Proof.
  intros Hn Ht Wm Rm Lm Om Pm Hen Hup (id0 & e0 & He0 & Hc0).
  destruct (flipq_all_ok quality3 quality4 tol Ht m Wm Rm Lm Om Pm) as ([T S0] & Ef & F). unfold flipQuads. rewrite Ef. cbn [bind fst snd].
  pose proof (fq_wf _ _ _ _ _ F) as WT. pose proof (fq_ids _ _ _ _ _ F) as IT. pose proof (fq_type _ _ _ _ _ F) as TT. pose proof (fq_proper _ _ _ _ _ F) as PT.
  pose proof (fq_refs _ _ _ _ _ F) as RT. pose proof (fq_net _ _ _ _ _ F) as NT. pose proof (fq_good _ _ _ _ _ F Hup) as UT.
  pose proof (fq_quality _ _ _ _ _ F) as QT. pose proof (fq_area _ _ _ _ _ F) as AT. cbn [fst snd] in *.
  set (m1 := Mesh (m_nodes m) (m_faces m) T) in *.
  assert (W1 : wf_mesh m1) by (split; [apply Wm|split; [apply Wm|exact WT]]).
  assert (R1 : refs_ok m1) by (split; [exact RT|apply Rm]).
  assert (Hb1 : forall id e1, t_get T id = Ok e1 -> exists e, t_get (m_elems m) id = Ok e /\ e_type e1 = e_type e /\ (corners e = None -> e_nodes e1 = e_nodes e)).
  { intros id e1 He1. pose proof (wf_get_in _ _ _ WT He1) as Hin. rewrite IT in Hin. destruct (wf_get _ _ (proj2 (proj2 Wm)) Hin) as [e He].
    destruct (TT id e He) as (e2 & He2 & A & B). assert (e2 = e1) by congruence. subst. eauto. }
  assert (En1 : enough m1).
  { intros id e1 He1. cbn [m1 m_elems] in He1. destruct (Hb1 id e1 He1) as (e & He & A & B). destruct (corners e) as [l|] eqn:Ec.
    - destruct (corners_type _ _ Ec) as [Hty _]. rewrite <- A in Hty. destruct (flat_complete m1 id e1 PT He1 Hty) as [C _]. rewrite C. lia.
    - rewrite A, (B eq_refl). exact (Hen _ _ He). }
  assert (Sp1 : spread m1).
  { destruct (TT _ _ He0) as (e1 & He1 & A & _). apply (spread_flat tol m1 id0 e1 W1 R1 PT UT He1). rewrite A.
    destruct (corners e0) as [l|] eqn:Ec; [|congruence]. exact (proj1 (corners_type _ _ Ec)). }
  destruct (pairing_ok n tol m1 Hn Ht W1 R1 En1 Sp1) as (m' & nb & E & Enn & W' & R' & Ei & Hel & _).
  rewrite E. cbn [bind fst]. exists m'. split; [reflexivity|]. split; [exact Enn|]. split; [exact W'|]. split; [exact R'|].
  split; [rewrite Ei; exact IT|].
  assert (Hback : forall id e', t_get (m_elems m') id = Ok e' -> exists e, t_get T id = Ok e /\ e_type e' = e_type e /\ e_nodes e' = e_nodes e).
  { intros id e' He'. pose proof (wf_get_in _ _ _ (proj2 (proj2 W')) He') as Hin. rewrite Ei in Hin. destruct (wf_get _ _ WT Hin) as [e He].
    destruct (Hel id e He) as (e2 & fs & He2 & A & B & _). assert (e2 = e') by congruence. subst. eauto. }
  assert (Hfw : forall id e, t_get T id = Ok e -> exists e', t_get (m_elems m') id = Ok e' /\ e_type e' = e_type e /\ e_nodes e' = e_nodes e).
  { intros id e He. destruct (Hel _ _ He) as (e' & fs & He' & A & B & _). eauto. }
  assert (Hsides : all_rims (m_elems m') = all_rims T) by (apply same_rims; [exact Ei|exact Hfw|exact WT]).
  assert (Hcor : forall id e' l, t_get (m_elems m') id = Ok e' -> corners e' = Some l -> exists e, t_get T id = Ok e /\ corners e = Some l).
  { intros id e' l He' Hl. destruct (Hback _ _ He') as (e & He & A & B). exists e. split; [exact He|]. now rewrite <- (corners_like e e' A B). }
  split.
  { intros id e He. destruct (TT id e He) as (e1 & He1 & A & B). destruct (Hel id e1 He1) as (e' & fs & He' & C & D & _). exists e'.
    split; [exact He'|]. split; [congruence|]. intros Hty. rewrite D. auto. }
  split. { intros id e' He'. destruct (Hback _ _ He') as (e & He & A & B). rewrite A, B. exact (PT id e He). }
  split. { intros id e' l He' Hl. rewrite Enn. destruct (Hcor _ _ _ He' Hl) as (e & He & Hl'). exact (UT id e l He Hl'). }
  split. { intros a b. rewrite <- NT. unfold net_flat. now rewrite Hsides. }
  split.
  { rewrite <- AT. unfold total_flat2. rewrite Ei, Enn. cbn [m1 m_elems m_nodes]. match goal with |- (?x == ?y)%Q => assert (Exy : x = y); [|now rewrite Exy] end. f_equal. apply map_ext_in. intros id Hid.
    destruct (wf_get _ _ WT Hid) as [e He]. destruct (Hfw _ _ He) as (e' & He' & A & B). now rewrite He, He', (corners_like e e' A B). }
  split. { intros Hr3 Hr4 b Hb id e' l He' Hl. rewrite Enn. destruct (Hcor _ _ _ He' Hl) as (e & He & Hl'). exact (QT (conj Hr3 Hr4) b Hb id e l He Hl'). }
  intros Hall Hon.
  assert (Hall1 : only_flat m1) by (intros id e1 He1; destruct (Hb1 id e1 He1) as (e & He & A & _); rewrite A; eauto).
  assert (Hon1 : once_flat m1) by (intros a b; specialize (Hon a b); rewrite Hsides in Hon; exact Hon).
  destruct (flat_faces_ok n tol m1 Hn Ht W1 R1 PT Hall1 Hon1 Sp1) as (m2 & nb2 & E2 & _ & _ & _ & _ & _ & _ & _ & B & C & D & _).
  rewrite E in E2. injection E2 as <- <-. auto.
Qed.
