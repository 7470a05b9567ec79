(** C97: improving a triangulation by flipping edges and moving nodes. *)
From Coq Require Import ZArith List Bool QArith Lia Lqa.
From Verif Require Import Prelude Vec ZMap Mesh_Model HashGrid_Model Face_Model Query_Model Merge_Model Merge_Spec Mesh_Spec Mesh_Proofs Mesh_Check Face_Spec Face_Proofs
  Front_Model Front_Spec Front_Proofs Front_Finish Tune_Model Tune_Spec Tune_Proofs Tune_Relax Tune_Faces.
Import ListNotations.
Open Scope Z_scope.

(** generateFaces prepares a mesh of counter-clockwise triangles, no two of which run the same way along a side, for both operations. *)
Theorem C97_faces : forall n tol m, 1 <= n <= int_max -> (0 <= tol)%Q -> wf_mesh m -> refs_ok m ->
  (forall id e, t_get (m_elems m) id = Ok e -> e_type e = ET_TRIANGLE) -> proper m -> all_upright tol m -> once m -> t_ids (m_elems m) <> [] ->
  exists m' nb, generateFaces n tol m = Ok (m', nb) /\ m_nodes m' = m_nodes m /\ wf_mesh m' /\ refs_ok m' /\
    (forall id p q r, triangle m' id p q r <-> triangle m id p q r) /\ proper m' /\ linked m' /\ owned m' /\ fitted m'.
Proof.
  intros n tol m Hn Ht Wm Rm Hall Pm Hup Hon Hne.
  destruct (t_ids (m_elems m)) as [|id l] eqn:El; [contradiction|]. destruct (wf_get (m_elems m) id (proj2 (proj2 Wm))) as [e He]; [rewrite El; now left|].
  destruct (Pm _ _ He (Hall _ _ He)) as (p & q & r & En & _).
  assert (Htr : triangle m id p q r) by (exists (e_faces e); rewrite He; pose proof (Hall _ _ He); destruct e; cbn in *; congruence).
  destruct (faces_ok n tol m Hn Ht Wm Rm Pm Hall Hon (spread_ok tol m _ _ _ _ Hup Htr)) as (m' & nb & E & A & B & C & _ & D & _ & F & G & H & I & _).
  exists m', nb. auto 12.
Qed.
Print Assumptions C97_faces.

(** Flipping edges succeeds; it changes neither nodes nor element ids and types nor the elements that are no triangles; the triangles
    stay upright with three different corners; inside stays inside and boundary stays boundary with the same sense; the area stays
    the same; and the worst quality does not get worse (for a quality that does not depend on the corner one begins with).
    If again no two sides run the same way between the same nodes, the new faces are as those needed before. *)
Theorem C97_flip : forall n quality tol m, 1 <= n <= int_max -> (0 <= tol)%Q -> wf_mesh m -> refs_ok m -> linked m -> owned m -> proper m -> enough m ->
  all_upright tol m -> (exists id p q r, triangle m id p q r) ->
  exists m', flipEdges n quality tol m = Ok m' /\
    m_nodes m' = m_nodes m /\ wf_mesh m' /\ refs_ok m' /\ t_ids (m_elems m') = t_ids (m_elems m) /\
    (forall id e, t_get (m_elems m) id = Ok e -> exists e', t_get (m_elems m') id = Ok e' /\ e_type e' = e_type e /\
       (e_type e <> ET_TRIANGLE -> e_nodes e' = e_nodes e)) /\
    proper m' /\ all_upright tol m' /\
    (forall a b, net m' a b = net m a b) /\ (total_area2 m' == total_area2 m)%Q /\
    ((forall p q r, quality p q r == quality q r p)%Q -> forall b, at_least quality b m -> at_least quality b m') /\
    ((forall id e, t_get (m_elems m) id = Ok e -> e_type e = ET_TRIANGLE) -> once m' -> linked m' /\ owned m' /\ fitted m').
Proof.
  intros n quality tol m Hn Ht Wm Rm Lm Om Pm Hen Hup (id & p & q & r & Htr).
  destruct (flip_ok n quality tol m id p q r Hn Ht Wm Rm Lm Om Pm Hen Hup Htr) as (m' & E & A & B & C & D & F & G & H & I & J & K & L).
  exists m'. repeat (split; [assumption|]). intros Hall Hon. destruct (L Hall Hon) as (_ & X & Y & Z0). auto.
Qed.
Print Assumptions C97_flip.

(** Moving nodes succeeds and changes nothing but positions; nodes of faces without partner and nodes of no triangle keep theirs; no node
    leaves a half space that contains all nodes; upright triangles stay upright; the sum of all qualities does not decrease, and it
    increases if anything moves; and the area stays the same. *)
Theorem C97_relax : forall quality tol m, (0 <= tol)%Q -> wf_mesh m -> refs_ok m -> proper m ->
  exists m', relaxNodes quality tol m = Ok m' /\
    m_elems m' = m_elems m /\ m_faces m' = m_faces m /\ t_ids (m_nodes m') = t_ids (m_nodes m) /\ wf_mesh m' /\
    (forall n, on_border m n -> t_get (m_nodes m') n = t_get (m_nodes m) n) /\
    (forall n, (forall id p q r, triangle m id p q r -> n <> p /\ n <> q /\ n <> r) -> t_get (m_nodes m') n = t_get (m_nodes m) n) /\
    (forall a b c d, (forall n p, t_get (m_nodes m) n = Ok p -> (a * cx p + b * cy p + c * cz p <= d)%Q) ->
       forall n p, t_get (m_nodes m') n = Ok p -> (a * cx p + b * cy p + c * cz p <= d)%Q) /\
    (all_upright tol m -> all_upright tol m') /\
    (total_quality quality m <= total_quality quality m')%Q /\
    (m_nodes m' = m_nodes m \/ (total_quality quality m < total_quality quality m')%Q) /\
    (fitted m -> (total_area2 m' == total_area2 m)%Q).
Proof.
  intros quality tol m Ht Wm Rm Pm. destruct (relax_ok quality tol Ht m Wm Rm Pm) as (fixed & t & Eb & Er & L & Hb).
  exists (with_nodes m t). split; [exact Er|]. cbn [with_nodes m_elems m_faces m_nodes].
  split; [reflexivity|]. split; [reflexivity|]. split; [exact (rl_ids _ _ _ _ _ L)|].
  split; [split; [exact (rl_wf _ _ _ _ _ L)|apply Wm]|].
  assert (Hfix : forall n, on_border m n -> t_get t n = t_get (m_nodes m) n).
  { intros n Hn. assert (Hin : In n (t_ids (m_nodes m))).
    { destruct Hn as (fid & f & Hf & _ & Hi). pose proof (proj2 Rm _ _ Hf) as Fa. rewrite Forall_forall in Fa. auto. }
    destruct (Hb n Hin) as [[A _]|[_ A]]; [|contradiction]. now apply (rl_fixed _ _ _ _ _ L). }
  split; [exact Hfix|]. split; [exact (rl_alone _ _ _ _ _ L)|]. split; [exact (rl_below _ _ _ _ _ L)|]. split; [exact (rl_upright _ _ _ _ _ L)|].
  split; [exact (rl_quality _ _ _ _ _ L)|]. split; [exact (rl_better _ _ _ _ _ L)|].
  intros Hfit. set (keep := fun n => match zat fixed n with Ok false => false | _ => true end).
  replace (total_area2 m) with (total_area2 (Mesh (m_nodes m) (m_faces m) (m_elems m))) by (now destruct m).
  unfold with_nodes. apply (area_moved (m_elems m) (m_nodes m) t keep).
  - intros n Hk. destruct (in_dec Z.eq_dec n (t_ids (m_nodes m))) as [Hin|Hni].
    + destruct (Hb n Hin) as [[A B]|[A B]]; [|unfold keep in Hk; now rewrite A in Hk]. unfold where_. now rewrite (Hfix n B).
    + assert (N : forall (u : table coord), wf_table u -> ~ In n (t_ids u) -> where_ u n = vzero).
      { intros u Wu Hu. unfold where_. destruct (t_get u n) eqn:E; try reflexivity. exfalso. apply Hu. exact (wf_get_in _ _ _ Wu E). }
      rewrite (N t (rl_wf _ _ _ _ _ L)) by (rewrite (rl_ids _ _ _ _ _ L); exact Hni). now rewrite (N (m_nodes m) (proj1 Wm) Hni).
  - intros a b Hab Hk. destruct (Z.eq_dec (net m a b) 0) as [E|E]; [unfold net in E; lia|]. exfalso. destruct (Hfit a b E) as [Ha Hb'].
    assert (K : forall n, on_border m n -> keep n = true).
    { intros n Hn. unfold keep. assert (Hin : In n (t_ids (m_nodes m))).
      { destruct Hn as (fid & f & Hf & _ & Hi). pose proof (proj2 Rm _ _ Hf) as Fa. rewrite Forall_forall in Fa. auto. }
      destruct (Hb n Hin) as [[A _]|[_ A]]; [now rewrite A|contradiction]. }
    rewrite (K a Ha), (K b Hb') in Hk. discriminate.
Qed.
Print Assumptions C97_relax.

(** ** Concrete cases *)
(** A measure of shape that does not depend on the first corner: area by the sum of the squares of the sides. *)
Definition shape (p q r : coord) : Q := Qred (area2 p q r / (norm2 (vsub q p) + norm2 (vsub r q) + norm2 (vsub p r)))%Q.
Definition table_of {A} (l : list (Z * A)) : table A := fold_left (fun t x => t_add t (fst x) (snd x)) l t_empty.
Definition tri (a b c : Z) : element := Element ET_TRIANGLE [a; b; c] [].
Definition elements_of (r : outcome mesh) : option (list (list Z)) := match r with Ok m => Some (map (fun x => e_nodes (snd x)) (t_map (m_elems m))) | _ => None end.
Definition place (r : outcome mesh) (n : Z) : option (Q * Q) :=
  match r with Ok m => match t_get (m_nodes m) n with Ok c => Some (Qred (cx c), Qred (cy c)) | _ => None end | _ => None end.
Definition with_faces (m : mesh) : mesh := match generateFaces 1 (1 # 1000) m with Ok r => fst r | _ => m end.
(** Two flat triangles on both sides of their long side; a square cut in four around a node near a corner. *)
Definition kite : mesh := Mesh (table_of [(0, Coord 0 0 0); (1, Coord 4 0 0); (2, Coord 2 1 0); (3, Coord 2 (-1) 0)]) t_empty (table_of [(5, tri 0 1 2); (6, tri 1 0 3)]).
Definition quarters : mesh := Mesh (table_of [(0, Coord 0 0 0); (1, Coord 4 0 0); (2, Coord 4 4 0); (3, Coord 0 4 0); (4, Coord 1 1 0)]) t_empty
  (table_of [(5, tri 0 1 4); (6, tri 1 2 4); (7, tri 2 3 4); (8, tri 3 0 4)]).

Lemma running_once l : NoDup l -> forall a b, (running l a b <= 1)%nat.
Proof.
  intros H a b. unfold running. assert (N : NoDup (filter (fun d => (fst d =? a) && (snd d =? b))%bool l)) by now apply NoDup_filter.
  assert (E : forall d, In d (filter (fun d => (fst d =? a) && (snd d =? b))%bool l) -> d = (a, b)).
  { intros [x y] Hd. apply filter_In in Hd. destruct Hd as [_ Hd]. cbn in Hd. apply andb_true_iff in Hd. destruct Hd as [A B]. apply Z.eqb_eq in A, B. congruence. }
  destruct (filter _ l) as [|x [|y r]]; cbn; try lia. exfalso. apply NoDup_cons_iff in N. destruct N as [N _]. apply N. left.
  rewrite (E x (or_introl eq_refl)), (E y (or_intror (or_introl eq_refl))). reflexivity.
Qed.

(** What C97_faces asks for. *)
Definition ready (m : mesh) : Prop := wf_mesh m /\ refs_ok m /\ (forall id e, t_get (m_elems m) id = Ok e -> e_type e = ET_TRIANGLE) /\ proper m /\
  all_upright (1 # 1000) m /\ once m /\ t_ids (m_elems m) <> [].

Ltac upright_case := do 3 eexists; split; [reflexivity|]; split; [reflexivity|]; split; [reflexivity|]; split; reflexivity.
Ltac each := apply elems_forall; cbn; repeat (apply Forall_cons; cbn); try apply Forall_nil.
Ltac ready_tac := split; [now apply wf_meshb_ok|split; [now apply refs_okb_ok|split; [each; reflexivity|split;
  [intros id e He _; revert id e He; each; (do 3 eexists; split; [reflexivity|split; [|split]; discriminate])|split;
  [intros id p q r [fs H]; apply zat_Ok, zlookup_in in H; cbn in H; repeat (destruct H as [[= <- <- <- <- <-]|H]; [upright_case|]); destruct H|split;
  [intros a b; apply running_once; vm_compute; repeat constructor; cbn; intuition discriminate|discriminate]]]]]].

Example C97_case : ready kite /\ ready quarters /\ (forall p q r, shape p q r == shape q r p)%Q /\
  elements_of (flipEdges 1 shape (1 # 1000) (with_faces kite)) = Some [[2; 3; 1]; [3; 2; 0]] /\
  place (relaxNodes shape (1 # 1000) (with_faces quarters)) 4 = Some (9 # 5, 9 # 5)%Q /\
  place (relaxNodes shape (1 # 1000) (with_faces quarters)) 2 = Some (4, 4)%Q.
Proof.
  split; [ready_tac|]. split; [ready_tac|]. split.
  { intros p q r. unfold shape. rewrite !Qred_correct. unfold area2, norm2, dot, vsub. cbn.
    apply Qmult_comp; [ring|]. apply Qinv_comp. ring. }
  split; [vm_compute; reflexivity|]. split; vm_compute; reflexivity.
Qed.

Definition slice : mesh := Mesh (table_of [(0, Coord 0 0 0); (1, Coord 4 0 0); (2, Coord 0 1 0)]) t_empty (table_of [(5, tri 0 1 2)]).
(** On a mesh whose faces were never generated nothing is recognised as boundary: corners of the region move and area is lost. *)
Theorem C97_without_faces_refuted : exists m m', ready m /\ relaxNodes shape (1 # 1000) m = Ok m' /\ ~ (total_area2 m' == total_area2 m)%Q.
Proof.
  exists slice. destruct (relaxNodes shape (1 # 1000) slice) as [m'| |] eqn:E; [|vm_compute in E; discriminate|vm_compute in E; discriminate].
  exists m'. split; [ready_tac|]. split; [reflexivity|].
  assert (A : match relaxNodes shape (1 # 1000) slice with Ok m => Qred (total_area2 m) | _ => 0%Q end = 4 # 3) by (vm_compute; reflexivity).
  rewrite E in A. rewrite <- (Qred_correct (total_area2 m')), A. vm_compute. discriminate.
Qed.
Print Assumptions C97_without_faces_refuted.
