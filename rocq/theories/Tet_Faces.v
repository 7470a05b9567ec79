(** The faces made by generateFaces of a mesh of tetrahedra; the mesh after flipEdges23. *)
From Coq Require Import ZArith List Bool QArith Lia Lqa Permutation.
From Verif Require Import Prelude Vec ZMap Mesh_Model HashGrid_Model Face_Model Merge_Model Merge_Spec Mesh_Spec Mesh_Proofs Face_Spec Face_Proofs
  Front_Model Front_Spec Front_Proofs Front_Finish Tune_Model Tune_Spec Tune_Proofs Tune_Relax Tune_Faces Tet_Model Tet_Spec Tet_Walls Tet_Proofs.
Import ListNotations.
Open Scope Z_scope.

Definition corners3 (d : side) : list Z := let '(a, b, c) := d in [a; b; c].
Lemma tet_faces e p q r s : e_type e = ET_TETRAHEDRON -> e_nodes e = [p; q; r; s] ->
  exists l, elem_faces e = Ok l /\ map (fun f => (f_type f, f_nodes f)) l = map (fun d => (FT_TRIANGLE, corners3 d)) (walls_of e).
Proof.
  intros Ht En. exists (mk_faces e). split; [apply elem_faces_ok; rewrite Ht, En; cbn; lia|].
  destruct e as [ty nd fs]. cbn in Ht, En. subst. reflexivity.
Qed.

Lemma spread4 tol m id p q r s : (0 < tol)%Q -> wf_mesh m -> refs_ok m -> all_thick tol m -> tetrahedron m id p q r s -> spread m.
Proof.
  intros Ht Wm Rm Hu Htr. pose proof (Hu _ _ _ _ _ Htr) as Hv. destruct Htr as [fs Htr]. set (e := Element ET_TETRAHEDRON [p; q; r; s] fs) in *.
  assert (Hg : forall n, In n [p; q; r; s] -> t_get (m_nodes m) n = Ok (corner m n)).
  { intros n Hn. pose proof (proj1 Rm _ _ Htr) as Fa. rewrite Forall_forall in Fa. destruct (wf_get (m_nodes m) n (proj1 Wm) (Fa n Hn)) as [c Hc].
    unfold corner, where_. now rewrite Hc. }
  destruct (tet_faces e p q r s eq_refl eq_refl) as (l & El & Em).
  assert (Hex : forall d, In d (walls_of e) -> exists f, In f l /\ f_nodes f = corners3 d).
  { intros d Hd. assert (Hin : In (FT_TRIANGLE, corners3 d) (map (fun f => (f_type f, f_nodes f)) l)) by (rewrite Em; apply in_map_iff; eauto).
    apply in_map_iff in Hin. destruct Hin as (f & [= _ E] & Hf). eauto. }
  destruct (Hex (p, q, r)) as (f1 & F1 & N1); [cbn; auto|]. destruct (Hex (q, s, r)) as (f2 & F2 & N2); [cbn; auto|].
  assert (C1 : centre_of m (f_nodes f1) (mean [corner m p; corner m q; corner m r])).
  { exists [corner m p; corner m q; corner m r]. rewrite N1. unfold coords. cbn [corners3 map]. rewrite !Hg by (cbn; auto). auto. }
  assert (C2 : centre_of m (f_nodes f2) (mean [corner m q; corner m s; corner m r])).
  { exists [corner m q; corner m s; corner m r]. rewrite N2. unfold coords. cbn [corners3 map]. rewrite !Hg by (cbn; auto). auto. }
  exists id, e, l, f1, (mean [corner m p; corner m q; corner m r]), id, e, l, f2, (mean [corner m q; corner m s; corner m r]).
  split; [auto|]. split; [auto|]. intros (X & Y & Z0). unfold mean in X, Y, Z0. cbn in X, Y, Z0.
  assert (Ex : (cx (corner m s) == cx (corner m p))%Q) by lra. assert (Ey : (cy (corner m s) == cy (corner m p))%Q) by lra.
  assert (Ez : (cz (corner m s) == cz (corner m p))%Q) by lra.
  assert (Hz : (volume6 (corner m p) (corner m q) (corner m r) (corner m s) == 0)%Q).
  { unfold volume6, dot, vsub. cbn. rewrite Ex, Ey, Ez. ring. }
  assert (0 < tol * tol * tol)%Q. { apply Qmult_lt_0_compat; [apply Qmult_lt_0_compat|]; exact Ht. }
  lra.
Qed.

Definition only_tets (m : mesh) : Prop := forall id e, t_get (m_elems m) id = Ok e -> e_type e = ET_TETRAHEDRON.

Lemma proper4_enough m : proper4 m -> (forall id e, t_get (m_elems m) id = Ok e -> e_type e <> ET_TETRAHEDRON -> (node_count (e_type e) <= length (e_nodes e))%nat) -> enough m.
Proof.
  intros Pm H id e He. destruct (e_type e) eqn:E; try (rewrite <- E; apply (H id e He); congruence).
  destruct (Pm id e He E) as (p & q & r & s & En & _). rewrite En. cbn. lia.
Qed.

Lemma perm_three (a b c : Z) l : Permutation [a; b; c] l -> exists x y z, l = [x; y; z] /\ (same_side (x, y, z) (a, b, c) = true \/ same_side (x, y, z) (c, b, a) = true).
Proof.
  intros H. pose proof (Permutation_length H) as L. destruct l as [|x [|y [|z [|]]]]; try discriminate. exists x, y, z. split; [reflexivity|].
  rewrite !same_side_iff. destruct (Permutation_in x (Permutation_sym H)) as [->|[->|[->|[]]]]; [now left| | |].
  - apply Permutation_cons_inv in H. apply Permutation_length_2_inv in H. destruct H as [H|H]; injection H as <- <-; tauto.
  - assert (P : Permutation [x; a; c] (x :: [y; z])) by (rewrite <- H; apply perm_swap). apply Permutation_cons_inv in P. apply Permutation_length_2_inv in P.
    destruct P as [P|P]; injection P as <- <-; tauto.
  - assert (P : Permutation [x; a; b] (x :: [y; z])).
    { rewrite <- H. change [a; b; x] with ([a; b] ++ [x]). rewrite Permutation_app_comm. reflexivity. }
    apply Permutation_cons_inv in P. apply Permutation_length_2_inv in P. destruct P as [P|P]; injection P as <- <-; tauto.
Qed.

Lemma same_walls (T T' : table element) : t_ids T' = t_ids T ->
  (forall id e, t_get T id = Ok e -> exists e', t_get T' id = Ok e' /\ e_type e' = e_type e /\ e_nodes e' = e_nodes e) -> wf_table T -> all_walls T' = all_walls T.
Proof.
  intros Hi Hs W. unfold all_walls. rewrite Hi. apply flat_map_same. intros id Hid. destruct (wf_get _ _ W Hid) as [e He].
  destruct (Hs id e He) as (e' & He' & Et & En). unfold element_walls, walls_of. now rewrite He, He', En, Et.
Qed.

Lemma walls_le (T : table element) id e d : NoDup (t_ids T) -> t_get T id = Ok e -> In id (t_ids T) -> (facing (walls_of e) d <= facing (all_walls T) d)%nat.
Proof.
  intros _ He Hid. apply in_split in Hid. destruct Hid as (l1 & l2 & El). unfold all_walls. rewrite El, flat_map_app. cbn [flat_map]. rewrite !facing_app.
  unfold element_walls at 2. rewrite He. lia.
Qed.

Lemma walls_two (T : table element) i j ei ej d : i <> j -> In i (t_ids T) -> In j (t_ids T) -> t_get T i = Ok ei -> t_get T j = Ok ej ->
  (facing (walls_of ei) d + facing (walls_of ej) d <= facing (all_walls T) d)%nat.
Proof.
  intros Hij Hi Hj Ei Ej. unfold all_walls.
  assert (One : forall l k e, In k l -> t_get T k = Ok e -> (facing (walls_of e) d <= facing (flat_map (element_walls T) l) d)%nat).
  { intros l k e Hk He. apply in_split in Hk. destruct Hk as (l1 & l2 & ->). rewrite flat_map_app. cbn [flat_map]. rewrite !facing_app.
    unfold element_walls at 2. rewrite He. lia. }
  induction (t_ids T) as [|k l IH]; [destruct Hi|]. cbn [flat_map]. rewrite facing_app.
  destruct Hi as [->|Hi], Hj as [->|Hj]; [congruence| | |].
  - pose proof (One l j ej Hj Ej). unfold element_walls at 1. rewrite Ei. lia.
  - pose proof (One l i ei Hi Ei). unfold element_walls at 1. rewrite Ej. lia.
  - specialize (IH Hi Hj). lia.
Qed.

Lemma faces4_ok n tol m : 1 <= n <= int_max -> (0 <= tol)%Q -> wf_mesh m -> refs_ok m -> proper4 m -> only_tets m -> once4 m -> spread m ->
  exists m' nb, generateFaces n tol m = Ok (m', nb) /\ m_nodes m' = m_nodes m /\ wf_mesh m' /\ refs_ok m' /\ t_ids (m_elems m') = t_ids (m_elems m) /\
    (forall id p q r s, tetrahedron m' id p q r s <-> tetrahedron m id p q r s) /\
    only_tets m' /\ proper4 m' /\ linked4 m' /\ owned m' /\ fitted4 m' /\ once4 m' /\
    listed4 m' /\
    all_walls (m_elems m') = all_walls (m_elems m).
Proof.
  intros Hn Ht Wm Rm Pm Hall Hon Hsp.
  assert (Hen : enough m) by (apply proper4_enough; [exact Pm|]; intros id e He C; now destruct (C (Hall id e He))).
  destruct (pairing_ok n tol m Hn Ht Wm Rm Hen Hsp) as (m' & nb & E & En & W' & R' & Ei & Hel & Hli & Hmate & Hun & _ & _ & Hdif).
  exists m', nb. split; [exact E|]. split; [exact En|]. split; [exact W'|]. split; [exact R'|]. split; [exact Ei|].
  assert (Hback : forall id e', t_get (m_elems m') id = Ok e' -> exists e, t_get (m_elems m) id = Ok e /\ e_type e' = e_type e /\ e_nodes e' = e_nodes e).
  { intros id e' He'. pose proof (wf_get_in _ _ _ (proj2 (proj2 W')) He') as Hin. rewrite Ei in Hin. destruct (wf_get _ _ (proj2 (proj2 Wm)) Hin) as [e He].
    destruct (Hel id e He) as (e2 & fs & He2 & A & B & _). assert (e2 = e') by congruence. subst. eauto. }
  assert (Htr : forall id p q r s, tetrahedron m' id p q r s <-> tetrahedron m id p q r s).
  { intros id p q r s. split; intros [fs H].
    - destruct (Hback _ _ H) as (e & He & A & B). exists (e_faces e). rewrite He. destruct e. cbn in *. congruence.
    - destruct (Hel _ _ H) as (e' & fs' & He' & A & B & _). exists (e_faces e'). rewrite He'. destruct e'. cbn in *. congruence. }
  split; [exact Htr|].
  assert (Hall' : only_tets m') by (intros id e' He'; destruct (Hback _ _ He') as (e & He & A & _); rewrite A; eauto).
  split; [exact Hall'|].
  assert (Pm' : proper4 m').
  { intros id e' He' Hty. destruct (Hback _ _ He') as (e & He & A & B). rewrite B. apply (Pm id e He). congruence. }
  split; [exact Pm'|].
  assert (Hwalls : all_walls (m_elems m') = all_walls (m_elems m)).
  { apply same_walls; [exact Ei| |apply Wm]. intros id e He. destruct (Hel _ _ He) as (e' & fs & He' & A & B & _). eauto. }
  assert (Hwe : forall e e', e_type e' = e_type e -> e_nodes e' = e_nodes e -> walls_of e' = walls_of e) by (intros e e' A B; unfold walls_of; now rewrite A, B).
  (* every face is a wall of its element *)
  assert (Hlist : forall id e' fid, t_get (m_elems m') id = Ok e' -> In fid (e_faces e') -> exists f d, t_get (m_faces m') fid = Ok f /\ f_elem f = id /\
    f_nodes f = corners3 d /\ f_type f = FT_TRIANGLE /\ In d (walls_of e')).
  { intros id e' fid He' Hl. destruct (Hback _ _ He') as (e & He & A & B). destruct (Hel _ _ He) as (e2 & fs & He2 & _ & _ & Hfs & Hmap). assert (e2 = e') by congruence. subst e2.
    assert (Hd : In (face_data (m_faces m') fid) (map (face_data (m_faces m')) (e_faces e'))) by (apply in_map; exact Hl).
    rewrite Hmap in Hd. apply in_map_iff in Hd. destruct Hd as (f0 & Ef & Hf0). unfold face_data in Ef.
    destruct (t_get (m_faces m') fid) as [f| |] eqn:Hf; cbn in Ef; try discriminate. injection Ef as E1 E2 E3.
    destruct (Pm _ _ He (Hall _ _ He)) as (p & q & r & s & Enn & _). destruct (tet_faces e p q r s (Hall _ _ He) Enn) as (l & El & Em).
    rewrite Hfs in El. injection El as <-.
    assert (Hm : In (f_type f0, f_nodes f0) (map (fun f => (f_type f, f_nodes f)) fs)) by (apply in_map_iff; eauto).
    rewrite Em in Hm. apply in_map_iff in Hm. destruct Hm as (d & E4 & Hd). injection E4 as E5 E6.
    exists f, d. split; [reflexivity|]. split; [congruence|]. split; [congruence|]. split; [congruence|]. now rewrite (Hwe e e' A B). }
  assert (Hface : forall fid f, t_get (m_faces m') fid = Ok f -> exists a b c e, f_nodes f = [a; b; c] /\ f_type f = FT_TRIANGLE /\
    t_get (m_elems m') (f_elem f) = Ok e /\ (1 <= facing (walls_of e) (a, b, c))%nat).
  { intros fid f Hf. pose proof (wf_get_in _ _ _ (proj1 (proj2 W')) Hf) as Hin. rewrite <- Hli in Hin. apply in_flat_map in Hin.
    destruct Hin as (id & Hid & Hl). unfold faces_listed in Hl. destruct (t_get (m_elems m') id) as [e'| |] eqn:He'; try destruct Hl.
    destruct (Hlist _ _ _ He' Hl) as (f1 & [[a b] c] & Hf1 & A & B & C & D). assert (f1 = f) by congruence. subst f1.
    exists a, b, c, e'. split; [exact B|]. split; [exact C|]. split; [congruence|]. apply facing_in. exists (a, b, c). split; [exact D|apply same_side_refl]. }
  (* every wall has a face *)
  assert (Hside : forall id e' d, t_get (m_elems m') id = Ok e' -> In d (walls_of e') -> exists fid f, t_get (m_faces m') fid = Ok f /\ f_nodes f = corners3 d /\ f_elem f = id).
  { intros id e' d He' Hd. destruct (Hback _ _ He') as (e & He & A & B). destruct (Hel _ _ He) as (e2 & fs & He2 & _ & _ & Hfs & Hmap). assert (e2 = e') by congruence. subst e2.
    destruct (Pm _ _ He (Hall _ _ He)) as (p & q & r & s & Enn & _). destruct (tet_faces e p q r s (Hall _ _ He) Enn) as (l & El & Em).
    rewrite Hfs in El. injection El as <-.
    assert (Hm : In (FT_TRIANGLE, corners3 d) (map (fun f => (f_type f, f_nodes f)) fs)).
    { rewrite Em. apply in_map_iff. exists d. split; [reflexivity|]. now rewrite <- (Hwe e e' A B). }
    apply in_map_iff in Hm. destruct Hm as (f0 & E0 & Hf0). injection E0 as E1 E2.
    assert (Hdd : In (Ok (f_type f0, f_nodes f0, id)) (map (fun f => Ok (f_type f, f_nodes f, id)) fs)) by (apply in_map_iff; eauto).
    rewrite <- Hmap in Hdd. apply in_map_iff in Hdd. destruct Hdd as (fid & Ef & _). unfold face_data in Ef. destruct (t_get (m_faces m') fid) as [f| |] eqn:Hf; try discriminate.
    cbn in Ef. injection Ef as F1 F2 F3. exists fid, f. split; [exact Hf|]. split; congruence. }
  (* partners face the other way *)
  assert (Hopp : forall fid f, t_get (m_faces m') fid = Ok f -> f_haspair f = true -> forall a b c, f_nodes f = [a; b; c] ->
    exists g e2, t_get (m_faces m') (f_pair f) = Ok g /\ t_get (m_elems m') (f_elem g) = Ok e2 /\ (1 <= facing (walls_of e2) (c, b, a))%nat).
  { intros fid f Hf Hp a b c Hab. destruct (Hmate fid (f_pair f)) as (_ & f1 & g & Hf1 & Hg & _ & Hperm); [exists f; auto|].
    assert (f1 = f) by congruence. subst f1. rewrite Hab in Hperm. destruct (perm_three _ _ _ _ Hperm) as (x & y & z & Eg & Hs).
    destruct (Hface _ _ Hf) as (a1 & b1 & c1 & e1 & N1 & _ & He1 & S1). destruct (Hface _ _ Hg) as (a2 & b2 & c2 & e2 & N2 & _ & He2 & S2).
    assert (a1 = a /\ b1 = b /\ c1 = c /\ a2 = x /\ b2 = y /\ c2 = z) as (-> & -> & -> & -> & -> & ->) by (repeat split; congruence).
    exists g, e2. split; [exact Hg|]. split; [exact He2|]. destruct Hs as [Hs|Hs].
    - exfalso. rewrite (facing_same _ _ _ Hs) in S2.
      assert (Hd : f_elem f <> f_elem g).
      { apply (Hdif) with (a := fid) (b := f_pair f); [|exists f; auto|exact Hf|exact Hg]. intros id e He. destruct (Pm _ _ He (Hall _ _ He)) as (p & q & r & s & Enn & Hnd).
        now rewrite Enn. }
      pose proof (walls_two (m_elems m') (f_elem f) (f_elem g) e1 e2 (a, b, c) Hd (wf_get_in _ _ _ (proj2 (proj2 W')) He1) (wf_get_in _ _ _ (proj2 (proj2 W')) He2) He1 He2) as R2.
      rewrite Hwalls in R2. specialize (Hon (a, b, c)). lia.
    - now rewrite (facing_same _ _ _ Hs) in S2. }
  split; [|split; [|split; [|split; [|split]]]].
  - intros fid f e Hf _ He _. destruct (Hface _ _ Hf) as (a & b & c & e1 & N1 & _ & He1 & S1). assert (e1 = e) by congruence. subst e1.
    exists a, b, c. split; [exact N1|]. split; [exact S1|]. intros Hp. destruct (Hopp _ _ Hf Hp a b c N1) as (g & e2 & Hg & He2 & S2). exists g, e2. auto.
  - intros fid f Hf. destruct (Hface _ _ Hf) as (a & b & c & e1 & _ & _ & He1 & _). exact (wf_get_in _ _ _ (proj2 (proj2 W')) He1).
  - assert (Hone : forall a b c, (facing (all_walls (m_elems m')) (c, b, a) < facing (all_walls (m_elems m')) (a, b, c))%nat -> on_border m' a /\ on_border m' b /\ on_border m' c).
    { intros a b c Hlt. assert (Hin : (1 <= facing (all_walls (m_elems m')) (a, b, c))%nat) by lia. apply facing_in in Hin. destruct Hin as ([[x y] z] & Hin & Hs).
      unfold all_walls in Hin. apply in_flat_map in Hin.
      destruct Hin as (id & Hid & Hd). unfold element_walls in Hd. destruct (t_get (m_elems m') id) as [e'| |] eqn:He'; try destruct Hd.
      destruct (Hside _ _ _ He' Hd) as (fid & f & Hf & Nf & _). cbn [corners3] in Nf. destruct (f_haspair f) eqn:Hp.
      - exfalso. destruct (Hopp _ _ Hf Hp x y z Nf) as (g & e2 & Hg & He2 & S2).
        assert (S3 : same_side (z, y, x) (c, b, a) = true).
        { change (z, y, x) with (turned_over (x, y, z)). rewrite <- same_side_over. exact Hs. }
        rewrite (facing_same _ _ _ S3) in S2.
        pose proof (walls_le (m_elems m') (f_elem g) e2 (c, b, a) (proj1 (proj2 (proj2 W'))) He2 (wf_get_in _ _ _ (proj2 (proj2 W')) He2)) as R1.
        specialize (Hon (a, b, c)). rewrite <- Hwalls in Hon. lia.
      - assert (Hb : forall k, In k [x; y; z] -> on_border m' k) by (intros k Hk; exists fid, f; rewrite Nf; auto).
        apply same_side_iff in Hs. destruct Hs as [(<- & <- & <-)|[(<- & <- & <-)|(<- & <- & <-)]]; repeat split; apply Hb; cbn; auto. }
    intros a b c Hnet. unfold net4 in Hnet. cbn [turned_over] in Hnet.
    destruct (Nat.lt_ge_cases (facing (all_walls (m_elems m')) (c, b, a)) (facing (all_walls (m_elems m')) (a, b, c))) as [Hlt|Hge]; [now apply Hone|].
    assert (Hgt : (facing (all_walls (m_elems m')) (a, b, c) < facing (all_walls (m_elems m')) (c, b, a))%nat) by lia. destruct (Hone c b a Hgt) as (A & B & C). auto.
  - intros d. rewrite Hwalls. apply Hon.
  - intros id e fid He Hin. destruct (Hlist _ _ _ He Hin) as (f1 & d & Hf1 & A & _). eauto.
  - exact Hwalls.
Qed.

(** What a change of elements, followed by generateFaces, leaves as it was. *)
Lemma refresh_ok n quality tol m T id1 p1 q1 r1 s1 : 1 <= n <= int_max -> (0 < tol)%Q -> wf_mesh m -> refs_ok m ->
  wf_table T -> proper4 (Mesh (m_nodes m) (m_faces m) T) -> (forall id e, t_get T id = Ok e -> Forall (fun n => In n (t_ids (m_nodes m))) (e_nodes e)) ->
  (forall d, net4 (Mesh (m_nodes m) (m_faces m) T) d = net4 m d) -> all_thick tol (Mesh (m_nodes m) (m_faces m) T) ->
  (even_quality quality -> forall b, at_least4 quality b m -> at_least4 quality b (Mesh (m_nodes m) (m_faces m) T)) ->
  enough (Mesh (m_nodes m) (m_faces m) T) -> tetrahedron (Mesh (m_nodes m) (m_faces m) T) id1 p1 q1 r1 s1 ->
  exists m' nb, generateFaces n tol (Mesh (m_nodes m) (m_faces m) T) = Ok (m', nb) /\ m_nodes m' = m_nodes m /\ wf_mesh m' /\ refs_ok m' /\ t_ids (m_elems m') = t_ids T /\
    (forall id e, t_get T id = Ok e -> exists e', t_get (m_elems m') id = Ok e' /\ e_type e' = e_type e /\ e_nodes e' = e_nodes e) /\
    proper4 m' /\ all_thick tol m' /\ (forall d, net4 m' d = net4 m d) /\ (total_volume6 m' == total_volume6 m)%Q /\
    (even_quality quality -> forall b, at_least4 quality b m -> at_least4 quality b m') /\
    (only_tets (Mesh (m_nodes m) (m_faces m) T) -> once4 m' -> only_tets m' /\ linked4 m' /\ owned m' /\ fitted4 m' /\ listed4 m').
Proof.
  intros Hn Ht Wm Rm WT P1 RT NT Th1 QT En1 Tr1. set (m1 := Mesh (m_nodes m) (m_faces m) T) in *.
  assert (W1 : wf_mesh m1) by (split; [apply Wm|split; [apply Wm|exact WT]]).
  assert (R1 : refs_ok m1) by (split; [exact RT|apply Rm]).
  pose proof (spread4 tol m1 _ _ _ _ _ Ht W1 R1 Th1 Tr1) as Sp1.
  assert (Ht' : (0 <= tol)%Q) by lra.
  destruct (pairing_ok n tol m1 Hn Ht' W1 R1 En1 Sp1) as (m' & nb & E & Enn & W' & R' & Ei & Hel & _).
  exists m', nb. split; [exact E|]. split; [exact Enn|]. split; [exact W'|]. split; [exact R'|]. split; [exact Ei|].
  assert (Hel' : forall id e, t_get T id = Ok e -> exists e', t_get (m_elems m') id = Ok e' /\ e_type e' = e_type e /\ e_nodes e' = e_nodes e).
  { intros id e He. destruct (Hel id e He) as (e' & fs & He' & A & B & _). eauto. }
  split; [exact Hel'|].
  assert (Hback : forall id e', t_get (m_elems m') id = Ok e' -> exists e, t_get T id = Ok e /\ e_type e' = e_type e /\ e_nodes e' = e_nodes e).
  { intros id e' He'. pose proof (wf_get_in _ _ _ (proj2 (proj2 W')) He') as Hin. rewrite Ei in Hin. destruct (wf_get _ _ WT Hin) as [e He].
    destruct (Hel' id e He) as (e2 & He2 & A & B). assert (e2 = e') by congruence. subst. eauto. }
  assert (Hfw : forall id p q r s, tetrahedron m' id p q r s -> tetrahedron m1 id p q r s).
  { intros id p q r s [fs H]. destruct (Hback _ _ H) as (e & He & A & B). exists (e_faces e). cbn. rewrite He. destruct e. cbn in *. congruence. }
  assert (Hwalls : all_walls (m_elems m') = all_walls T) by (apply same_walls; [exact Ei|exact Hel'|exact WT]).
  split. { intros id e' He' Hty. destruct (Hback _ _ He') as (e & He & A & B). rewrite B. apply (P1 id e He). congruence. }
  assert (Hc : forall k, corner m' k = corner m1 k) by (intros k; unfold corner; now rewrite Enn).
  split. { intros id p q r s Htr'. rewrite !Hc. exact (Th1 id p q r s (Hfw _ _ _ _ _ Htr')). }
  assert (Hnet : forall d, net4 m' d = net4 m d) by (intros d; rewrite <- NT; unfold net4; now rewrite Hwalls).
  split; [exact Hnet|].
  split. { destruct m' as [nd fc el], m as [nd0 fc0 el0]. cbn [m_nodes m_elems] in *. change (m_nodes m1) with nd0 in Enn. subst nd. apply volume_net. exact Hnet. }
  split. { intros Hr b Hb id p q r s Htr'. rewrite !Hc. exact (QT Hr b Hb id p q r s (Hfw _ _ _ _ _ Htr')). }
  intros Hall Hon. assert (Hon1 : once4 m1) by (intros d; specialize (Hon d); rewrite Hwalls in Hon; exact Hon).
  destruct (faces4_ok n tol m1 Hn Ht' W1 R1 P1 Hall Hon1 Sp1) as (m2 & nb2 & E2 & _ & _ & _ & _ & _ & A & _ & B & D & F & _ & G & _).
  rewrite E in E2. injection E2 as <- <-. auto 6.
Qed.

Lemma flip23_ok n quality tol m id0 p0 q0 r0 s0 : 1 <= n <= int_max -> (0 < tol)%Q -> wf_mesh m -> refs_ok m -> linked4 m -> owned m -> proper4 m -> enough m ->
  all_thick tol m -> tetrahedron m id0 p0 q0 r0 s0 ->
  exists m', flipEdges23 n quality tol m = Ok m' /\ m_nodes m' = m_nodes m /\ wf_mesh m' /\ refs_ok m' /\
    (exists l, t_ids (m_elems m') = t_ids (m_elems m) ++ l) /\
    (forall id e, t_get (m_elems m) id = Ok e -> exists e', t_get (m_elems m') id = Ok e' /\ e_type e' = e_type e /\ (e_type e <> ET_TETRAHEDRON -> e_nodes e' = e_nodes e)) /\
    (forall id e, t_get (m_elems m') id = Ok e -> ~ In id (t_ids (m_elems m)) -> e_type e = ET_TETRAHEDRON) /\
    proper4 m' /\ all_thick tol m' /\ (forall d, net4 m' d = net4 m d) /\ (total_volume6 m' == total_volume6 m)%Q /\
    (even_quality quality -> forall b, at_least4 quality b m -> at_least4 quality b m') /\
    (only_tets m -> once4 m' -> only_tets m' /\ linked4 m' /\ owned m' /\ fitted4 m' /\ listed4 m').
Proof.
  intros Hn Ht Wm Rm Lm Om Pm Hen Hth Htr. assert (Ht' : (0 <= tol)%Q) by lra.
  destruct (flip23_all_ok quality tol Ht' m Wm Rm Lm Om Pm) as ([T S0] & Ef & F). unfold flipEdges23. rewrite Ef. cbn [bind fst snd].
  pose proof (fl3_ch _ _ _ _ F) as C. pose proof (fl3_ids _ _ _ _ F) as IT. pose proof (fl3_new _ _ _ _ F) as NT. cbn [fst snd] in *.
  assert (Hb1 : forall id e1, t_get T id = Ok e1 -> (exists e, t_get (m_elems m) id = Ok e /\ e_type e1 = e_type e /\ (e_type e <> ET_TETRAHEDRON -> e_nodes e1 = e_nodes e)) \/
    (~ In id (t_ids (m_elems m)) /\ e_type e1 = ET_TETRAHEDRON)).
  { intros id e1 He1. destruct (in_dec Z.eq_dec id (t_ids (m_elems m))) as [Hi|Hi]; [left|right; eauto].
    destruct (wf_get _ _ (proj2 (proj2 Wm)) Hi) as [e He]. destruct (ch_type _ _ _ _ C id e He) as (e2 & He2 & A & B). assert (e2 = e1) by congruence. subst. eauto. }
  assert (En1 : enough (Mesh (m_nodes m) (m_faces m) T)).
  { apply proper4_enough; [apply C|]. intros id e1 He1 Hty. destruct (Hb1 id e1 He1) as [(e & He & A & B)|[_ A]]; [|contradiction].
    rewrite A in Hty. rewrite A, (B Hty). exact (Hen _ _ He). }
  destruct Htr as [fs0 Htr]. destruct (ch_type _ _ _ _ C _ _ Htr) as (e0 & He0 & Te0 & _). cbn in Te0. destruct (ch_proper _ _ _ _ C _ _ He0 Te0) as (p1 & q1 & r1 & s1 & En0 & _).
  assert (Tr1 : tetrahedron (Mesh (m_nodes m) (m_faces m) T) id0 p1 q1 r1 s1) by (exists (e_faces e0); cbn; rewrite He0; destruct e0; cbn in *; congruence).
  destruct (refresh_ok n quality tol m T _ _ _ _ _ Hn Ht Wm Rm (ch_wf _ _ _ _ C) (ch_proper _ _ _ _ C) (ch_refs _ _ _ _ C) (ch_net _ _ _ _ C) (ch_thick _ _ _ _ C Hth) (ch_quality _ _ _ _ C) En1 Tr1) as (m' & nb & E & Enn & W' & R' & Ei & Hel & P' & Th' & Nt & Vol & Ql & Hlast).
  rewrite E. cbn [bind fst]. exists m'. split; [reflexivity|]. split; [exact Enn|]. split; [exact W'|]. split; [exact R'|].
  split. { destruct IT as [l IT]. exists l. now rewrite Ei. }
  split. { intros id e He. destruct (ch_type _ _ _ _ C id e He) as (e1 & He1 & A & B). destruct (Hel id e1 He1) as (e' & He' & X & Y). exists e'.
    split; [exact He'|]. split; [congruence|]. intros Hty. rewrite Y. auto. }
  split. { intros id e' He' Hni. pose proof (wf_get_in _ _ _ (proj2 (proj2 W')) He') as Hin. rewrite Ei in Hin. destruct (wf_get _ _ (ch_wf _ _ _ _ C) Hin) as [e He].
    destruct (Hel id e He) as (e2 & He2 & A & _). assert (e2 = e') by congruence. subst. rewrite A. eauto. }
  split; [exact P'|]. split; [exact Th'|]. split; [exact Nt|]. split; [exact Vol|]. split; [exact Ql|].
  intros Hall Hon. apply Hlast; [|exact Hon]. intros id e1 He1. destruct (Hb1 id e1 He1) as [(e & He & A & _)|[_ A]]; [rewrite A; eauto|exact A].
Qed.
