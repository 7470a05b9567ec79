(** C104: improving a tetrahedral mesh by replacing three tetrahedra around an edge with two at a face. *)
From Coq Require Import ZArith List Bool QArith Lia Lqa Sorted.
From Verif Require Import Prelude Vec ZMap Mesh_Model HashGrid_Model Face_Model Query_Model Merge_Model Merge_Spec Mesh_Spec Mesh_Proofs Mesh_Check Face_Spec Face_Proofs
  Front_Model Front_Spec Front_Proofs Front_Finish Tune_Model Tune_Spec Tune_Proofs Tune_Relax Tune_Faces Tet_Model Tet_Spec Tet_Walls Tet_Proofs Tet_Faces Tet_Relax
  Tet_Ring Tet_Edge Tet_Props.
Import ListNotations.
Open Scope Z_scope.

(** On a mesh of tetrahedra (with ids in ascending order, as the mesh gives them) prepared by generateFaces, in which no tetrahedron has two
    different inner edges that belong to exactly three tetrahedra, replacing three tetrahedra by two succeeds. It changes no node; it
    removes elements, but adds none; a tetrahedron without such an edge keeps its nodes. All are tetrahedra with four different corners and
    at least the volume of the cube of the tolerance; inside stays inside and boundary stays boundary with the same sense; the volume stays
    the same; and the worst quality does not get worse. If again no two tetrahedra lie at the same side of three nodes, the new faces are as
    those needed before. *)
Theorem C104_flip : forall n quality tol m, 1 <= n <= int_max -> (0 < tol)%Q -> wf_mesh m -> refs_ok m -> linked4 m -> listed4 m -> fitted4 m -> proper4 m ->
  (forall id e, t_get (m_elems m) id = Ok e -> e_type e = ET_TETRAHEDRON) -> all_thick tol m -> StronglySorted Z.lt (t_ids (m_elems m)) ->
  t_ids (m_elems m) <> [] -> apart m ->
  exists m', flipEdges32 n quality tol m = Ok m' /\
    m_nodes m' = m_nodes m /\ wf_mesh m' /\ refs_ok m' /\
    (exists keep, t_ids (m_elems m') = filter keep (t_ids (m_elems m))) /\
    (forall id e, t_get (m_elems m) id = Ok e -> (forall a b, a <> b -> three_at m a b -> ~ having m a b id) ->
       exists e', t_get (m_elems m') id = Ok e' /\ e_nodes e' = e_nodes e) /\
    (forall id e, t_get (m_elems m') id = Ok e -> e_type e = ET_TETRAHEDRON) /\
    proper4 m' /\ all_thick tol m' /\
    (forall d, net4 m' d = net4 m d) /\ (total_volume6 m' == total_volume6 m)%Q /\
    ((forall p q r s, quality p q r s == quality q r p s /\ quality p q r s == quality q s r p)%Q -> forall b, at_least4 quality b m -> at_least4 quality b m') /\
    (once4 m' -> linked4 m' /\ owned m' /\ fitted4 m' /\ listed4 m').
Proof.
  intros n quality tol m Hn Ht Wm Rm Lm Im Fm Pm Am Hth Sm Hne Dm. exact (flip32_ok quality tol Ht m Wm Rm Lm Im Pm Am Fm Hth Sm Dm n Hn Hne).
Qed.
Print Assumptions C104_flip.

(** ** Concrete cases *)
(** Two pyramids on both sides of a triangle, cut in six around an inner node; eight tetrahedra, one of them, [8], very flat: its opposite edges 0-2
    and 1-3 each belong to it and to two others. *)
Definition twin : mesh := Mesh (table4 [(0, Coord 4 0 0); (1, Coord (-2) 3 0); (2, Coord (-2) (-3) 0); (3, Coord 0 0 4); (4, Coord 0 0 (-8)); (5, Coord 0 0 (-4))]) t_empty
  (table4 [(6, tet4 1 0 5 3); (7, tet4 2 1 5 3); (8, tet4 0 2 5 3); (9, tet4 0 1 5 4); (10, tet4 1 2 5 4); (11, tet4 2 0 5 4)]).
Definition sliver : mesh :=
  Mesh (table4 [(0, Coord 8 0 1); (1, Coord 0 8 (-1)); (2, Coord (-24) 0 1); (3, Coord 0 (-24) (-1)); (4, Coord 16 16 24); (5, Coord 16 16 (-24))]) t_empty
  (table4 [(6, tet4 3 4 2 0); (7, tet4 4 1 2 0); (8, tet4 1 3 2 0); (9, tet4 2 5 3 1); (10, tet4 5 0 3 1); (11, tet4 4 5 1 0); (12, tet4 4 5 2 1); (13, tet4 4 5 0 3)]).

(** The elements that have both nodes, computed. *)
Definition both_in (m : mesh) (a b : Z) : list Z :=
  filter (fun id => match t_get (m_elems m) id with Ok e => existsb (Z.eqb a) (e_nodes e) && existsb (Z.eqb b) (e_nodes e) | _ => false end) (t_ids (m_elems m)).
Lemma both_in_ok m a b id : wf_mesh m -> In id (both_in m a b) <-> having m a b id.
Proof.
  intros Wm. unfold both_in, having. rewrite filter_In. split.
  - intros [_ H]. destruct (t_get (m_elems m) id) as [e| |]; try discriminate. exists e. apply andb_true_iff in H. destruct H as [A B].
    apply existsb_exists in A. apply existsb_exists in B. destruct A as (x & A & A'), B as (y & B & B'). apply Z.eqb_eq in A', B'. subst. auto.
  - intros (e & He & A & B). split; [exact (wf_get_in _ _ _ (proj2 (proj2 Wm)) He)|]. rewrite He. apply andb_true_iff.
    split; apply existsb_exists; [exists a|exists b]; (split; [assumption|apply Z.eqb_refl]).
Qed.
Lemma three_both m m' a b : wf_mesh m -> (forall x, having m' a b x <-> having m a b x) -> three_at m' a b -> length (both_in m a b) = 3%nat.
Proof.
  intros Wm Hs (_ & i & j & k & N & H).
  assert (N2 : NoDup (both_in m a b)) by (apply NoDup_filter; exact (proj1 (proj2 (proj2 Wm)))).
  assert (E : forall x, In x (both_in m a b) <-> In x [i; j; k]) by (intros x; rewrite (both_in_ok m a b x Wm), <- Hs; apply H).
  change 3%nat with (length [i; j; k]). apply Nat.le_antisymm.
  - apply (NoDup_incl_length N2). intros x. apply E.
  - apply (NoDup_incl_length N). intros x. apply E.
Qed.
(** Such a mesh, with its faces, meets what C104_flip asks for, except that tetrahedra may have two edges of three. *)
Lemma prepared m : ready4 m -> let m' := with_faces4 m in wf_mesh m' /\ refs_ok m' /\ linked4 m' /\ listed4 m' /\ fitted4 m' /\ proper4 m' /\
  (forall id e, t_get (m_elems m') id = Ok e -> e_type e = ET_TETRAHEDRON) /\ all_thick (1 # 1000) m' /\ t_ids (m_elems m') = t_ids (m_elems m) /\
  (forall a b id, having m' a b id <-> having m a b id) /\ (total_volume6 m' == total_volume6 m)%Q.
Proof.
  intros (Wm & Rm & Hall & Pm & Hth & Hon & Hne).
  destruct (C103_faces 1 (1 # 1000) m) as (m' & nb & E & A & B & C & D & F & G & H & I & J & K & L); try assumption; [split; [lia|discriminate]|reflexivity|].
  unfold with_faces4. rewrite E. cbn [fst]. cbn zeta.
  assert (T : forall id e, t_get (m_elems m) id = Ok e -> exists e', t_get (m_elems m') id = Ok e' /\ e_nodes e' = e_nodes e /\ e_type e' = ET_TETRAHEDRON).
  { intros id e He. destruct (Pm _ _ He (Hall _ _ He)) as (p & q & r & s & En & _).
    destruct (proj2 (F id p q r s)) as [fs H']; [exists (e_faces e); rewrite He; pose proof (Hall _ _ He); destruct e; cbn in *; congruence|].
    eexists. split; [exact H'|]. split; [cbn; now rewrite En|reflexivity]. }
  assert (T' : forall id e', t_get (m_elems m') id = Ok e' -> exists e, t_get (m_elems m) id = Ok e /\ e_nodes e' = e_nodes e).
  { intros id e' He. pose proof (wf_get_in _ _ _ (proj2 (proj2 B)) He) as Hin. rewrite D in Hin. destruct (wf_get _ _ (proj2 (proj2 Wm)) Hin) as [e He0].
    destruct (T id e He0) as (e2 & X & Y & _). exists e. split; [exact He0|congruence]. }
  repeat (split; [assumption|]). split.
  { intros id p q r s Ht. unfold corner. rewrite A. apply (Hth id). now apply F. }
  split; [exact D|]. split.
  { intros a b id. split; intros (e & He & X & Y).
    - destruct (T' id e He) as (e0 & He0 & En). exists e0. rewrite <- En. auto.
    - destruct (T id e He) as (e0 & He0 & En & _). exists e0. rewrite En. auto. }
  unfold total_volume6, corner. rewrite A, D. erewrite map_ext_in; [reflexivity|]. intros id Hid. cbn beta.
  destruct (wf_get _ _ (proj2 (proj2 Wm)) Hid) as [e He]. destruct (T id e He) as (e' & He' & En & Et). rewrite He, He'. pose proof (Hall _ _ He) as Et0.
  destruct e, e'. cbn in *. now subst.
Qed.
Lemma twin_edges a b : a <> b -> length (both_in twin a b) = 3%nat -> In (a, b) [(5, 3); (3, 5); (5, 4); (4, 5)].
Proof.
  intros N L. assert (Hx : forall x y, length (both_in twin x y) = 3%nat -> In x [0; 1; 2; 3; 4; 5] /\ In y [0; 1; 2; 3; 4; 5]).
  { intros x y Hl. assert (W : wf_mesh twin) by now apply wf_meshb_ok. destruct (both_in twin x y) as [|id l] eqn:E; [discriminate|].
    assert (I : In id (both_in twin x y)) by (rewrite E; now left). apply (both_in_ok twin x y id W) in I. destruct I as (e & He & A & B).
    assert (R : refs_ok twin) by now apply refs_okb_ok. pose proof (proj1 R id e He) as F. rewrite Forall_forall in F. split; [exact (F x A)|exact (F y B)]. }
  destruct (Hx a b L) as [A B]. clear Hx.
  assert (C : forallb (fun x => forallb (fun y => (x =? y) || negb (Nat.eqb (length (both_in twin x y)) 3) ||
    existsb (fun e => (fst e =? x) && (snd e =? y)) [(5, 3); (3, 5); (5, 4); (4, 5)]) [0; 1; 2; 3; 4; 5]) [0; 1; 2; 3; 4; 5] = true) by (vm_compute; reflexivity).
  rewrite forallb_forall in C. specialize (C a A). rewrite forallb_forall in C. specialize (C b B).
  apply orb_true_iff in C. destruct C as [C|C].
  - apply orb_true_iff in C. destruct C as [C|C]; [now apply Z.eqb_eq in C|]. rewrite L in C. discriminate.
  - apply existsb_exists in C. destruct C as ([x y] & I & C). cbn [fst snd] in C. apply andb_true_iff in C. destruct C as [C1 C2]. apply Z.eqb_eq in C1, C2. now subst.
Qed.
Lemma twin_ends id : ~ having twin 3 4 id.
Proof.
  intros H. apply both_in_ok in H; [|now apply wf_meshb_ok]. assert (E : both_in twin 3 4 = []) by (vm_compute; reflexivity). now rewrite E in H.
Qed.
Lemma twin_apart : ready4 twin -> apart (with_faces4 twin).
Proof.
  intros Hr id a b c d Hab Hcd Ha Hc Ia Ic. destruct (prepared twin Hr) as (_ & _ & _ & _ & _ & _ & _ & _ & _ & Hh & _).
  pose proof (twin_edges a b Hab (three_both twin _ a b (proj1 Hr) (Hh a b) Ha)) as La.
  pose proof (twin_edges c d Hcd (three_both twin _ c d (proj1 Hr) (Hh c d) Hc)) as Lc.
  pose proof (proj1 (Hh a b id) Ia) as Ia'. pose proof (proj1 (Hh c d id) Ic) as Ic'. clear Ha Hc Hh Hr Ia Ic. rename Ia' into Ia, Ic' into Ic. destruct Ia as (e & He & A & B). destruct Ic as (e' & He' & C & D). assert (e' = e) by congruence. subst e'.
  assert (N : ~ (In 3 (e_nodes e) /\ In 4 (e_nodes e))) by (intros [X Y]; apply (twin_ends id); exists e; auto). clear He He'.
  cbn [In] in La, Lc. repeat (destruct La as [[= <- <-]|La]); try contradiction; repeat (destruct Lc as [[= <- <-]|Lc]); try contradiction; tauto.
Qed.

Example C104_case : ready4 twin /\ StronglySorted Z.lt (t_ids (m_elems (with_faces4 twin))) /\ apart (with_faces4 twin) /\
  elements4 (flipEdges32 1 shape4 (1 # 1000) (with_faces4 twin)) = Some [[1; 0; 2; 3]; [1; 0; 5; 2]; [0; 1; 5; 4]; [1; 2; 5; 4]; [2; 0; 5; 4]].
Proof.
  assert (R : ready4 twin) by ready4_tac. split; [exact R|].
  split. { destruct (prepared twin R) as (_ & _ & _ & _ & _ & _ & _ & _ & -> & _). cbn. repeat constructor. }
  split; [exact (twin_apart R)|]. vm_compute. reflexivity.
Qed.

Definition volume_left (r : outcome mesh) : option Q := match r with Ok m => Some (Qred (total_volume6 m)) | _ => None end.
Lemma volume_left_ok r v : volume_left r = Some v -> exists m, r = Ok m /\ (total_volume6 m == v)%Q.
Proof.
  unfold volume_left. destruct r as [m| |]; try discriminate. intros [= <-]. exists m. split; [reflexivity|]. now rewrite Qred_correct.
Qed.
(** If a tetrahedron has two such edges the result may have a hole: which elements have an edge is found out before the first flip, and only the element
    visited, not the other two, is tested for having been flipped. In this mesh, 8 and two others are replaced, and then what has become of 8 is
    overwritten by the flip of the elements at the opposite edge, and deleted. *)
Theorem C104_hole_refuted : exists m m', ready4 m /\ StronglySorted Z.lt (t_ids (m_elems m)) /\
  (forall p q r s, shape4 p q r s == shape4 q r p s /\ shape4 p q r s == shape4 q s r p)%Q /\
  flipEdges32 1 shape4 (1 # 1000) (with_faces4 m) = Ok m' /\ (total_volume6 m == 64512 /\ total_volume6 m' == 61184)%Q.
Proof.
  assert (A : volume_left (flipEdges32 1 shape4 (1 # 1000) (with_faces4 sliver)) = Some 61184%Q) by (vm_compute; reflexivity).
  destruct (volume_left_ok _ _ A) as (m' & E & V). exists sliver, m'. split; [ready4_tac|]. split; [cbn; repeat constructor|].
  split; [exact shape4_even|]. split; [exact E|]. split; [vm_compute; reflexivity|exact V].
Qed.
Print Assumptions C104_hole_refuted.
