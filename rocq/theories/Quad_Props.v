(** C105: improving a mesh of quadrilaterals and triangles by exchanging a triangle and a quadrilateral for others of the same outline, and by moving nodes. *)
From Coq Require Import ZArith List Bool QArith Lia Lqa.
From Verif Require Import Prelude Vec ZMap Mesh_Model HashGrid_Model Face_Model Query_Model Merge_Model Merge_Spec Mesh_Spec Mesh_Proofs Mesh_Check Face_Spec Face_Proofs
  Front_Model Front_Spec Front_Proofs Front_Finish Tune_Model Tune_Spec Tune_Proofs Tune_Relax Tune_Faces Tune_Props Tet_Model
  Quad_Model Quad_Spec Quad_Proofs Quad_Faces Quad_Relax.
Import ListNotations.
Open Scope Z_scope.

(** generateFaces prepares a mesh of good triangles and quadrilaterals, no two of which run the same way along a side, for both operations. *)
Theorem C105_faces : forall n tol m, 1 <= n <= int_max -> (0 <= tol)%Q -> wf_mesh m -> refs_ok m ->
  only_flat m -> proper_flat m -> all_good tol m -> once_flat m -> t_ids (m_elems m) <> [] ->
  exists m' nb, generateFaces n tol m = Ok (m', nb) /\ m_nodes m' = m_nodes m /\ wf_mesh m' /\ refs_ok m' /\
    t_ids (m_elems m') = t_ids (m_elems m) /\
    (forall id e, t_get (m_elems m) id = Ok e -> exists e', t_get (m_elems m') id = Ok e' /\ e_type e' = e_type e /\ e_nodes e' = e_nodes e) /\
    only_flat m' /\ proper_flat m' /\ linked_flat m' /\ owned m' /\ fitted_flat m' /\ listed_flat m'.
Proof.
  intros n tol m Hn Ht Wm Rm Hall Pm Hup Hon Hne.
  destruct (t_ids (m_elems m)) as [|id l] eqn:El; [contradiction|]. destruct (wf_get (m_elems m) id (proj2 (proj2 Wm))) as [e He]; [rewrite El; now left|].
  destruct (flat_faces_ok n tol m Hn Ht Wm Rm Pm Hall Hon (spread_flat tol m id e Wm Rm Pm Hup He (Hall _ _ He)))
    as (m' & nb & E & A & B & C & D & F & G & H & I & J & K & _ & L & M).
  exists m', nb. rewrite El in D. split; [exact E|]. split; [exact A|]. split; [exact B|]. split; [exact C|]. split; [exact D|]. split; [exact F|]. split; [exact G|].
  split; [exact H|]. split; [exact I|]. split; [exact J|]. split; [exact K|]. exact (conj L M).
Qed.
Print Assumptions C105_faces.

(** flipEdges succeeds; it changes neither nodes nor element ids and types nor the elements that are neither triangles nor quadrilaterals; triangles and
    quadrilaterals keep different corners, the sense, the steepness and (quadrilaterals) the convexity; inside stays inside and boundary stays boundary with
    the same sense; the area stays the same; and the worst quality does not get worse (for qualities that do not depend on the corner one begins with).
    If again no two sides run the same way between the same nodes, the new faces are as those needed before. *)
Theorem C105_flip : forall n quality3 quality4 tol m, 1 <= n <= int_max -> (0 <= tol)%Q -> wf_mesh m -> refs_ok m ->
  linked_flat m -> owned m -> proper_flat m -> enough m -> all_good tol m -> (exists id e, t_get (m_elems m) id = Ok e /\ corners e <> None) ->
  exists m', flipQuads n quality3 quality4 tol m = Ok m' /\
    m_nodes m' = m_nodes m /\ wf_mesh m' /\ refs_ok m' /\ t_ids (m_elems m') = t_ids (m_elems m) /\
    (forall id e, t_get (m_elems m) id = Ok e -> exists e', t_get (m_elems m') id = Ok e' /\ e_type e' = e_type e /\
       (corners e = None -> e_nodes e' = e_nodes e)) /\
    proper_flat m' /\ all_good tol m' /\
    (forall a b, net_flat m' a b = net_flat m a b) /\ (total_flat2 m' == total_flat2 m)%Q /\
    ((forall p q r, quality3 p q r == quality3 q r p)%Q -> (forall p q r s, quality4 p q r s == quality4 q r s p)%Q ->
       forall b, at_least_flat quality3 quality4 b m -> at_least_flat quality3 quality4 b m') /\
    (only_flat m -> once_flat m' -> linked_flat m' /\ owned m' /\ fitted_flat m').
Proof. exact flipQuads_ok. Qed.
Print Assumptions C105_flip.

(** relaxNodes ends without failure on such a mesh and changes nothing but positions; a node at which no side with a partner begins keeps its
    place; and no node leaves a half space that contains all nodes. *)
Theorem C105_relax : forall quality3 tol m, wf_mesh m -> refs_ok m -> only_flat m -> proper_flat m -> linked_flat m -> owned m -> listed_flat m ->
  exists m', relaxQuads quality3 tol m = Ok m' /\
    m_elems m' = m_elems m /\ m_faces m' = m_faces m /\ t_ids (m_nodes m') = t_ids (m_nodes m) /\ wf_mesh m' /\
    (forall n, ~ begins_inside m n -> t_get (m_nodes m') n = t_get (m_nodes m) n) /\
    (forall a b c d, (forall n p, t_get (m_nodes m) n = Ok p -> (a * cx p + b * cy p + c * cz p <= d)%Q) ->
       forall n p, t_get (m_nodes m') n = Ok p -> (a * cx p + b * cy p + c * cz p <= d)%Q).
Proof.
  intros quality3 tol m Wm Rm Am Pm Lm Om [Fm Fl].
  assert (Mm : forall fid f, t_get (m_faces m) fid = Ok f -> f_haspair f = true -> In (f_pair f) (t_ids (m_faces m))).
  { intros fid f Hf Hp. destruct (wf_get _ _ (proj2 (proj2 Wm)) (Om _ _ Hf)) as [e He].
    destruct (Lm _ _ _ Hf (Fl _ _ Hf) He) as (a & b & _ & _ & H); [rewrite (flat_corners e (Am _ _ He)); discriminate|].
    destruct (H Hp) as (g & _ & Hg & _). exact (wf_get_in _ _ _ (proj1 (proj2 Wm)) Hg). }
  destruct (relaxQuads_ok quality3 tol m Wm Rm Am Pm Om Fm Mm) as (t & E & L). exists (Mesh t (m_faces m) (m_elems m)).
  split; [exact E|]. split; [reflexivity|]. split; [reflexivity|]. split; [exact (rq_ids _ _ L)|].
  split; [split; [exact (rq_wf _ _ L)|apply Wm]|]. split; [exact (rq_stay _ _ L)|]. exact (rq_below _ _ L).
Qed.
Print Assumptions C105_relax.

(** ** Concrete cases *)
(** Measures of shape that do not depend on the first corner: twice the area by the sum of the squares of the sides. *)
Definition shape4 (p q r s : coord) : Q :=
  Qred ((area2 p q r + area2 p r s) / (norm2 (vsub q p) + norm2 (vsub r q) + norm2 (vsub s r) + norm2 (vsub p s)))%Q.
Definition quad (a b c d : Z) : element := Element ET_QUADRILATERAL [a; b; c; d] [].
(** A triangle and a quadrilateral forming a pentagon; two triangles and a quadrilateral around an inner node, twice, the lists differing in the corner the
    quadrilateral begins with; and a region where an inner node is pulled over. *)
Definition pentagon : mesh := Mesh (table_of [(1, Coord 4 2 0); (2, Coord 2 1 0); (3, Coord 3 1 0); (4, Coord 0 2 0); (5, Coord 1 4 0)]) t_empty
  (table_of [(7, tri 1 2 3); (8, quad 2 1 5 4)]).
Definition inner_nodes : table coord := table_of [(0, Coord 2 (-2) 0); (2, Coord 9 1 0); (4, Coord 4 5 0); (6, Coord 2 7 0); (8, Coord 10 6 0)].
Definition around : mesh := Mesh inner_nodes t_empty (table_of [(0, tri 0 4 6); (1, tri 0 2 4); (2, quad 8 6 4 2)]).
Definition around' : mesh := Mesh inner_nodes t_empty (table_of [(0, tri 0 4 6); (1, tri 0 2 4); (2, quad 2 8 6 4)]).
Definition pulled : mesh :=
  Mesh (table_of [(0, Coord 0 0 0); (2, Coord 9 2 0); (4, Coord 3 2 0); (5, Coord 7 3 0); (6, Coord 2 8 0); (8, Coord 8 10 0)]) t_empty
    (table_of [(0, quad 5 4 0 2); (1, tri 8 6 4); (2, tri 8 4 5); (3, tri 6 0 4)]).

(** What C105_faces asks for. *)
Definition ready4 (m : mesh) : Prop := wf_mesh m /\ refs_ok m /\ only_flat m /\ proper_flat m /\ all_good (1 # 1000) m /\ once_flat m /\ t_ids (m_elems m) <> [].
Lemma good_all tol m : Forall (fun p => forall l, corners (snd p) = Some l -> good_shape tol (map (where_ (m_nodes m)) l)) (t_map (m_elems m)) -> all_good tol m.
Proof. intros H id e l He. exact (elems_forall (m_elems m) (fun e => forall l, corners e = Some l -> good_shape tol (map (where_ (m_nodes m)) l)) H id e He l). Qed.
Ltac good_case := cbn [map good_shape]; repeat (match goal with |- _ /\ _ => split | |- steep _ _ => split end); reflexivity.
Ltac ready4_tac := split; [now apply wf_meshb_ok|split; [now apply refs_okb_ok|split;
  [unfold only_flat; each; auto|split;
  [unfold proper_flat; each; split; intros ?; try discriminate; (split; [reflexivity|now apply nodupb_ok])|split;
  [apply good_all; repeat (apply Forall_cons; [cbn [snd]; intros ? [= <-]; good_case|]); apply Forall_nil|split;
  [intros a b; apply running_once; vm_compute; repeat constructor; cbn; intuition discriminate|discriminate]]]]]].

Example C105_case : ready4 pentagon /\ ready4 around /\ (forall p q r, shape p q r == shape q r p)%Q /\ (forall p q r s, shape4 p q r s == shape4 q r s p)%Q /\
  elements_of (flipQuads 1 shape shape4 (1 # 1000) (with_faces pentagon)) = Some [[1; 5; 3]; [3; 5; 4; 2]] /\
  place (relaxQuads shape (1 # 1000) (with_faces around)) 4 = Some (17 # 4, 11 # 4)%Q.
Proof.
  split; [ready4_tac|]. split; [ready4_tac|]. split; [exact (proj1 (proj2 (proj2 C97_case)))|]. split.
  { intros p q r s. unfold shape4. rewrite !Qred_correct. unfold area2, norm2, dot, vsub. cbn.
    apply Qmult_comp; [ring|]. apply Qinv_comp. ring. }
  split; vm_compute; reflexivity.
Qed.

Lemma pulled_ready : ready4 pulled. Proof. ready4_tac. Qed.

(** Moving a node can turn a quadrilateral over at a corner: only the triangle of the first three nodes of each element is looked at. *)
Theorem C105_dent_refuted : exists m m' id a b c d, ready4 m /\ relaxQuads shape (1 # 1000) (with_faces m) = Ok m' /\
  (exists e, t_get (m_elems m') id = Ok e /\ e_type e = ET_QUADRILATERAL /\ e_nodes e = [a; b; c; d]) /\
  (area2 (where_ (m_nodes m') d) (where_ (m_nodes m') a) (where_ (m_nodes m') b) < 0)%Q.
Proof.
  exists pulled. destruct (relaxQuads shape (1 # 1000) (with_faces pulled)) as [m'| |] eqn:E; [|vm_compute in E; discriminate|vm_compute in E; discriminate].
  exists m', 0, 5, 4, 0, 2. split; [exact pulled_ready|]. split; [reflexivity|].
  assert (A : match relaxQuads shape (1 # 1000) (with_faces pulled) with
    Ok m => match t_get (m_elems m) 0 with Ok e => Some (e_type e, e_nodes e) | _ => None end | _ => None end = Some (ET_QUADRILATERAL, [5; 4; 0; 2]))
    by (vm_compute; reflexivity).
  assert (B : match relaxQuads shape (1 # 1000) (with_faces pulled) with
    Ok m => Qlt_bool (area2 (where_ (m_nodes m) 2) (where_ (m_nodes m) 5) (where_ (m_nodes m) 4)) 0 | _ => false end = true) by (vm_compute; reflexivity).
  rewrite E in A, B. split; [|now apply Qlt_bool_iff].
  clear E B. destruct (t_get (m_elems m') 0) as [e| |]; [|discriminate A|discriminate A]. exists e. injection A as A1 A2. auto.
Qed.
Print Assumptions C105_dent_refuted.

(** Whether a node is moved depends on the corner with which the list of corners of a quadrilateral begins: the face after a face is counted modulo three. *)
Theorem C105_start_refuted : exists m m', ready4 m /\ ready4 m' /\ m_nodes m' = m_nodes m /\
  (forall id e, t_get (m_elems m) id = Ok e -> exists e' k, t_get (m_elems m') id = Ok e' /\ e_type e' = e_type e /\ e_nodes e' = skipn k (e_nodes e) ++ firstn k (e_nodes e)) /\
  (exists r, relaxQuads shape (1 # 1000) (with_faces m) = Ok r /\ t_get (m_nodes r) 4 <> t_get (m_nodes m) 4) /\
  (exists r', relaxQuads shape (1 # 1000) (with_faces m') = Ok r' /\ m_nodes r' = m_nodes m').
Proof.
  exists around, around'. split; [ready4_tac|]. split; [ready4_tac|]. split; [reflexivity|]. split; [|split].
  - intros id e H. apply zat_Ok, zlookup_in in H. cbn in H.
    destruct H as [[= <- <-]|[[= <- <-]|[[= <- <-]|[]]]]; [exists (tri 0 4 6), 0%nat|exists (tri 0 2 4), 0%nat|exists (quad 2 8 6 4), 3%nat];
      (split; [reflexivity|split; reflexivity]).
  - destruct (relaxQuads shape (1 # 1000) (with_faces around)) as [r| |] eqn:E; [|vm_compute in E; discriminate|vm_compute in E; discriminate].
    exists r. split; [reflexivity|].
    assert (A : place (relaxQuads shape (1 # 1000) (with_faces around)) 4 = Some (17 # 4, 11 # 4)%Q) by (vm_compute; reflexivity).
    rewrite E in A. clear E. cbn [place] in A. intros C. rewrite C in A. vm_compute in A. discriminate.
  - eexists. split; [vm_compute; reflexivity|]. reflexivity.
Qed.
Print Assumptions C105_start_refuted.
