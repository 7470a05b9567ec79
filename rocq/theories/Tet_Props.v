(** C103: improving a tetrahedral mesh by replacing two tetrahedra at a face with three around an edge, and by moving nodes. *)
From Coq Require Import ZArith List Bool QArith Lia Lqa.
From Verif Require Import Prelude Vec ZMap Mesh_Model HashGrid_Model Face_Model Query_Model Merge_Model Merge_Spec Mesh_Spec Mesh_Proofs Mesh_Check Face_Spec Face_Proofs
  Front_Model Front_Spec Front_Proofs Front_Finish Tune_Model Tune_Spec Tune_Proofs Tune_Relax Tune_Faces Tet_Model Tet_Spec Tet_Walls Tet_Proofs Tet_Faces Tet_Relax.
Import ListNotations.
Open Scope Z_scope.

(** generateFaces prepares a mesh of tetrahedra of positive volume, no two of which lie at the same side of three nodes, for all the operations. *)
Theorem C103_faces : forall n tol m, 1 <= n <= int_max -> (0 < tol)%Q -> wf_mesh m -> refs_ok m ->
  (forall id e, t_get (m_elems m) id = Ok e -> e_type e = ET_TETRAHEDRON) -> proper4 m -> all_thick tol m -> once4 m -> t_ids (m_elems m) <> [] ->
  exists m' nb, generateFaces n tol m = Ok (m', nb) /\ m_nodes m' = m_nodes m /\ wf_mesh m' /\ refs_ok m' /\ t_ids (m_elems m') = t_ids (m_elems m) /\
    (forall id p q r s, tetrahedron m' id p q r s <-> tetrahedron m id p q r s) /\ (forall id e, t_get (m_elems m') id = Ok e -> e_type e = ET_TETRAHEDRON) /\ proper4 m' /\ linked4 m' /\ owned m' /\ fitted4 m' /\ listed4 m'.
Proof.
  intros n tol m Hn Ht Wm Rm Hall Pm Hth Hon Hne.
  destruct (t_ids (m_elems m)) as [|id l] eqn:El; [contradiction|]. destruct (wf_get (m_elems m) id (proj2 (proj2 Wm))) as [e He]; [rewrite El; now left|].
  destruct (Pm _ _ He (Hall _ _ He)) as (p & q & r & s & En & _).
  assert (Htr : tetrahedron m id p q r s) by (exists (e_faces e); rewrite He; pose proof (Hall _ _ He); destruct e; cbn in *; congruence).
  assert (Ht' : (0 <= tol)%Q) by lra.
  destruct (faces4_ok n tol m Hn Ht' Wm Rm Pm Hall Hon (spread4 tol m _ _ _ _ _ Ht Wm Rm Hth Htr)) as (m' & nb & E & A & B & C & X & D & Y & F & G & H & I & _ & J & _).
  rewrite El in X. exists m', nb. exact (conj E (conj A (conj B (conj C (conj X (conj D (conj Y (conj F (conj G (conj H (conj I J))))))))))).
Qed.
Print Assumptions C103_faces.

(** Replacing two tetrahedra by three succeeds. It changes no node, keeps all elements with their ids and types, and leaves the elements that
    are no tetrahedra as they are; what it adds are tetrahedra. All tetrahedra keep four different corners and at least the volume of
    the cube of the tolerance; inside stays inside and boundary stays boundary with the same sense; the volume stays the same;
    and the worst quality does not get worse (for a quality that does not depend on the order of the corners, the sense kept).
    If again no two tetrahedra lie at the same side of three nodes, the new faces are as those needed before. *)
Theorem C103_flip : forall n quality tol m, 1 <= n <= int_max -> (0 < tol)%Q -> wf_mesh m -> refs_ok m -> linked4 m -> owned m -> proper4 m -> enough m ->
  all_thick tol m -> (exists id p q r s, tetrahedron m id p q r s) ->
  exists m', flipEdges23 n quality tol m = Ok m' /\
    m_nodes m' = m_nodes m /\ wf_mesh m' /\ refs_ok m' /\
    (exists l, t_ids (m_elems m') = t_ids (m_elems m) ++ l) /\
    (forall id e, t_get (m_elems m) id = Ok e -> exists e', t_get (m_elems m') id = Ok e' /\ e_type e' = e_type e /\
       (e_type e <> ET_TETRAHEDRON -> e_nodes e' = e_nodes e)) /\
    (forall id e, t_get (m_elems m') id = Ok e -> ~ In id (t_ids (m_elems m)) -> e_type e = ET_TETRAHEDRON) /\
    proper4 m' /\ all_thick tol m' /\
    (forall d, net4 m' d = net4 m d) /\ (total_volume6 m' == total_volume6 m)%Q /\
    ((forall p q r s, quality p q r s == quality q r p s /\ quality p q r s == quality q s r p)%Q -> forall b, at_least4 quality b m -> at_least4 quality b m') /\
    ((forall id e, t_get (m_elems m) id = Ok e -> e_type e = ET_TETRAHEDRON) -> once4 m' -> linked4 m' /\ owned m' /\ fitted4 m' /\ listed4 m').
Proof.
  intros n quality tol m Hn Ht Wm Rm Lm Om Pm Hen Hth (id & p & q & r & s & Htr).
  destruct (flip23_ok n quality tol m id p q r s Hn Ht Wm Rm Lm Om Pm Hen Hth Htr) as (m' & E & A & B & C & D & F & G & H & I & J & K & L & M).
  exists m'. repeat (split; [assumption|]). intros Hall Hon. destruct (M Hall Hon) as (_ & X). exact X.
Qed.
Print Assumptions C103_flip.

(** Moving nodes succeeds and changes nothing but positions; nodes of faces without partner keep theirs; tetrahedra keep at least the volume of
    the cube of the tolerance; the worst quality (if at most 1) does not get worse; and the volume stays the same. *)
Theorem C103_relax : forall quality factor tol m, wf_mesh m -> refs_ok m -> proper4 m ->
  exists m', relaxTets quality factor tol m = Ok m' /\
    m_elems m' = m_elems m /\ m_faces m' = m_faces m /\ t_ids (m_nodes m') = t_ids (m_nodes m) /\ wf_mesh m' /\
    (forall n, on_border m n -> t_get (m_nodes m') n = t_get (m_nodes m) n) /\
    (all_thick tol m -> all_thick tol m') /\
    (forall b, (b <= 1)%Q -> at_least4 quality b m -> at_least4 quality b m') /\
    (fitted4 m -> (total_volume6 m' == total_volume6 m)%Q).
Proof.
  intros quality factor tol m Wm Rm Pm. destruct (relax4_ok quality factor tol m Wm Rm Pm) as (t & E & W & I & A & B & C & D).
  exists (moved4 m t). split; [exact E|]. split; [reflexivity|]. split; [reflexivity|]. split; [exact I|]. split; [split; [exact W|apply Wm]|]. auto.
Qed.
Print Assumptions C103_relax.

(** ** Concrete cases *)
(** A measure of shape that does not depend on size: square of the volume by the third power of the sum of the squares of the edges. *)
Definition shape4 (p q r s : coord) : Q :=
  let v := volume6 p q r s in
  let k := (norm2 (vsub q p) + norm2 (vsub r p) + norm2 (vsub s p) + norm2 (vsub r q) + norm2 (vsub s q) + norm2 (vsub s r))%Q in
  Qred (v * v / (k * k * k))%Q.
Definition table4 {A} (l : list (Z * A)) : table A := fold_left (fun t x => t_add t (fst x) (snd x)) l t_empty.
Definition tet4 (a b c d : Z) : element := Element ET_TETRAHEDRON [a; b; c; d] [].
Definition elements4 (r : outcome mesh) : option (list (list Z)) := match r with Ok m => Some (map (fun x => e_nodes (snd x)) (t_map (m_elems m))) | _ => None end.
Definition place4 (r : outcome mesh) (n : Z) : option (Q * Q * Q) :=
  match r with Ok m => match t_get (m_nodes m) n with Ok c => Some (Qred (cx c), Qred (cy c), Qred (cz c)) | _ => None end | _ => None end.
Definition with_faces4 (m : mesh) : mesh := match generateFaces 1 (1 # 1000) m with Ok r => fst r | _ => m end.
(** Two flat tetrahedra on both sides of a triangle; a tetrahedron cut in four around an inner node, and the same with a node of no element. *)
Definition lens : mesh := Mesh (table4 [(0, Coord 4 0 0); (1, Coord (-2) 3 0); (2, Coord (-2) (-3) 0); (3, Coord 0 0 1); (4, Coord 0 0 (-1))]) t_empty
  (table4 [(5, tet4 0 2 1 3); (6, tet4 0 1 2 4)]).
Definition star4 (dx : Q) (more : list (Z * coord)) : mesh :=
  Mesh (table4 ([(0, Coord dx 0 0); (1, Coord (dx + 4) 0 0); (2, Coord dx 4 0); (3, Coord dx 0 4); (4, Coord (dx + 1) 1 (1 # 2))] ++ more)) t_empty
  (table4 [(5, tet4 0 2 1 4); (6, tet4 0 1 3 4); (7, tet4 0 3 2 4); (8, tet4 1 2 3 4)]).

Lemma facing_once l : NoDup l -> (forall a b, In a l -> In b l -> same_side a b = true -> a = b) -> forall d, (facing l d <= 1)%nat.
Proof.
  intros H Hs d. unfold facing. assert (N : NoDup (filter (fun d' => same_side d' d) l)) by now apply NoDup_filter.
  assert (F : forall x, In x (filter (fun d' => same_side d' d) l) -> In x l /\ same_side x d = true) by (intros x Hx; now apply filter_In in Hx).
  destruct (filter _ l) as [|x [|y r]]; cbn; try lia. exfalso. apply NoDup_cons_iff in N. destruct N as [N _]. apply N. left.
  destruct (F x) as [X1 X2]; [now left|]. destruct (F y) as [Y1 Y2]; [right; now left|]. apply Hs; [exact Y1|exact X1|].
  rewrite same_side_sym in X2. now rewrite (same_side_trans _ _ _ Y2).
Qed.
Definition distinct_sides (l : list side) : bool :=
  (fix go l := match l with [] => true | x :: r => negb (existsb (same_side x) r) && go r end) l.
Lemma distinct_sides_ok l : distinct_sides l = true -> forall d, (facing l d <= 1)%nat.
Proof.
  induction l as [|x r IH]; intros H d; [cbn; lia|]. cbn in H. apply andb_true_iff in H. destruct H as [H1 H2]. specialize (IH H2 d).
  apply Nat2Z.inj_le. rewrite facing_cons. unfold ind4. destruct (same_side x d) eqn:E; [|lia].
  destruct (facing r d) eqn:E2; [lia|]. exfalso. assert (1 <= facing r d)%nat as H3 by lia. apply facing_in in H3. destruct H3 as (y & Hy & Sy).
  apply negb_true_iff in H1. assert (existsb (same_side x) r = true); [|congruence]. apply existsb_exists. exists y. split; [exact Hy|].
  rewrite (same_side_trans _ _ y E), same_side_sym. exact Sy.
Qed.

(** What C103_faces asks for. *)
Definition ready4 (m : mesh) : Prop := wf_mesh m /\ refs_ok m /\ (forall id e, t_get (m_elems m) id = Ok e -> e_type e = ET_TETRAHEDRON) /\ proper4 m /\
  all_thick (1 # 1000) m /\ once4 m /\ t_ids (m_elems m) <> [].
Ltac each4 := apply elems_forall; cbn; repeat (apply Forall_cons; cbn); try apply Forall_nil.
Ltac ready4_tac := split; [now apply wf_meshb_ok|split; [now apply refs_okb_ok|split; [each4; reflexivity|split;
  [intros id e He _; revert id e He; each4; (do 4 eexists; split; [reflexivity|apply nodup4; repeat split; discriminate])|split;
  [intros id p q r s [fs H]; apply zat_Ok, zlookup_in in H; cbn in H; repeat (destruct H as [[= <- <- <- <- <- <-]|H]; [vm_compute; discriminate|]); destruct H|split;
  [unfold once4; apply distinct_sides_ok; reflexivity|discriminate]]]]]].

Lemma shape4_even p q r s : (shape4 p q r s == shape4 q r p s /\ shape4 p q r s == shape4 q s r p)%Q.
Proof.
  unfold shape4. rewrite !Qred_correct. unfold volume6, norm2, dot, cross, vsub. cbn [cx cy cz].
  split; (apply Qmult_comp; [ring|]; apply Qinv_comp; ring).
Qed.

Lemma place4_ok r n a b c : place4 r n = Some (a, b, c) -> exists m p, r = Ok m /\ t_get (m_nodes m) n = Ok p /\ (cx p == a /\ cy p == b /\ cz p == c)%Q.
Proof.
  unfold place4. destruct r as [m| |]; try discriminate. destruct (t_get (m_nodes m) n) as [p| |] eqn:E; try discriminate. intros [= <- <- <-].
  exists m, p. split; [reflexivity|]. split; [exact E|]. rewrite !Qred_correct. split; [reflexivity|]. split; reflexivity.
Qed.
Lemma star_moves : place4 (relaxTets shape4 (1 # 10) (1 # 1000) (with_faces4 (star4 0 []))) 4 = Some (565 # 576, 2849 # 2880, 3109 # 5760)%Q.
Proof. vm_compute. reflexivity. Qed.

Example C103_case : ready4 lens /\ ready4 (star4 0 []) /\ (forall p q r s, shape4 p q r s == shape4 q r p s /\ shape4 p q r s == shape4 q s r p)%Q /\
  elements4 (flipEdges23 1 shape4 (1 # 1000) (with_faces4 lens)) = Some [[0; 2; 4; 3]; [2; 1; 4; 3]; [0; 1; 3; 4]] /\
  place4 (relaxTets shape4 (1 # 10) (1 # 1000) (with_faces4 (star4 0 []))) 4 = Some (565 # 576, 2849 # 2880, 3109 # 5760)%Q.
Proof.
  split; [ready4_tac|]. split; [ready4_tac|]. split; [exact shape4_even|]. split; [vm_compute; reflexivity|]. exact star_moves.
Qed.

(** A node of no element is moved towards the origin, though nothing is improved by that. *)
Theorem C103_unused_node_refuted : exists m m' n, ready4 m /\ (forall id p q r s, tetrahedron m id p q r s -> ~ In n [p; q; r; s]) /\
  t_get (m_nodes m) n = Ok (Coord 1 1 1) /\ relaxTets shape4 (1 # 10) (1 # 1000) (with_faces4 m) = Ok m' /\
  exists c, t_get (m_nodes m') n = Ok c /\ (cx c == 9 # 10 /\ cy c == 9 # 10 /\ cz c == 9 # 10)%Q.
Proof.
  assert (A : place4 (relaxTets shape4 (1 # 10) (1 # 1000) (with_faces4 (star4 0 [(9, Coord 1 1 1)]))) 9 = Some (9 # 10, 9 # 10, 9 # 10)%Q) by (vm_compute; reflexivity).
  destruct (place4_ok _ _ _ _ _ A) as (m' & c & E & Hc & Hp). exists (star4 0 [(9, Coord 1 1 1)]), m', 9. split; [ready4_tac|].
  split. { intros id p q r s [fs H]. apply zat_Ok, zlookup_in in H. cbn in H. repeat (destruct H as [[= <- <- <- <- <- <-]|H]; [cbn; intuition discriminate|]). destruct H. }
  split; [reflexivity|]. split; [exact E|]. exists c. auto.
Qed.
Print Assumptions C103_unused_node_refuted.

(** The result depends on where the mesh lies: the inner node of this mesh moves, but if the same mesh lies elsewhere it does not (the centre is
    computed wrongly: for each tetrahedron the whole sum, not only what this one adds, is divided by four and multiplied by the volume). *)
Theorem C103_elsewhere_refuted : exists d m1 m2, ready4 (star4 0 []) /\ ready4 (star4 d []) /\
  relaxTets shape4 (1 # 10) (1 # 1000) (with_faces4 (star4 0 [])) = Ok m1 /\ relaxTets shape4 (1 # 10) (1 # 1000) (with_faces4 (star4 d [])) = Ok m2 /\
  exists c1 c2, t_get (m_nodes m1) 4 = Ok c1 /\ t_get (m_nodes m2) 4 = Ok c2 /\ ~ (cy c1 == 1)%Q /\ (cx c2 == d + 1 /\ cy c2 == 1 /\ cz c2 == 1 # 2)%Q.
Proof.
  destruct (place4_ok _ _ _ _ _ star_moves) as (m1 & c1 & E1 & Hc1 & _ & Hy & _).
  assert (B : place4 (relaxTets shape4 (1 # 10) (1 # 1000) (with_faces4 (star4 100 []))) 4 = Some (101, 1, 1 # 2)%Q) by (vm_compute; reflexivity).
  destruct (place4_ok _ _ _ _ _ B) as (m2 & c2 & E2 & Hc2 & Hp2). exists 100%Q, m1, m2. split; [ready4_tac|]. split; [ready4_tac|].
  split; [exact E1|]. split; [exact E2|]. exists c1, c2. split; [exact Hc1|]. split; [exact Hc2|]. split; [rewrite Hy; discriminate|exact Hp2].
Qed.
Print Assumptions C103_elsewhere_refuted.
