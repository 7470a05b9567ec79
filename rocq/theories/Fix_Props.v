(** Properties of fixed boundaries. *)
From Coq Require Import ZArith List Lia Bool QArith Lqa Permutation.
From Verif Require Import Prelude Vec Box_Model Box_Spec ZMap Mesh_Model Mesh_Spec Mesh_Proofs Mesh_Check HashGrid_Model
  Merge_Model Merge_Spec Merge_Proofs Face_Model Face_Spec Face_Proofs Fix_Model Fix_Spec Fix_Proofs.
Import ListNotations.
Open Scope Z_scope.

(** Two faces have different centres and all edges are within the box of these centres, up to the tolerance. Then
    exactly the faces that lie on an edge lose their pair; nothing else changes. *)
Theorem C112_fixed : forall n m edges tol,
  1 <= n <= int_max -> (0 <= tol)%Q -> wf_mesh m -> refs_ok m -> wf_mesh edges -> refs_ok edges ->
  (exists a b c d, centre_at m a c /\ centre_at m b d /\ ~ c =v= d) ->
  (forall e q, centroid_of edges e q -> reached m tol q) ->
  exists m', applyFixedBoundary n m edges tol = Ok m' /\
    m_nodes m' = m_nodes m /\ m_elems m' = m_elems m /\
    t_ids (m_faces m') = t_ids (m_faces m) /\ (forall id, t_index (m_faces m') id = t_index (m_faces m) id) /\
    (forall id, face_data (m_faces m') id = face_data (m_faces m) id) /\
    (forall id, unpaired (m_faces m') id <-> unpaired (m_faces m) id \/ on_edge m edges tol id) /\
    (forall a b, has_pair (m_faces m') a b <-> has_pair (m_faces m) a b /\ ~ on_edge m edges tol a) /\
    (forall id f, t_get (m_faces m) id = Ok f -> exists f', t_get (m_faces m') id = Ok f' /\ f_pair f' = f_pair f).
Proof.
  intros n m edges tol Hn Ht W R We Re Hc Hr.
  destruct (fixed_ok n m edges tol Hn Ht W R We Re Hc Hr) as (t & E & (Wt & I & X & _ & H)).
  exists (Mesh (m_nodes m) t (m_elems m)). split; [exact E|]. cbn [m_nodes m_elems m_faces].
  split; [reflexivity|]. split; [reflexivity|]. split; [exact I|].
  split; [intros id; unfold t_index; now rewrite X|].
  assert (B : forall id f', t_get t id = Ok f' -> exists f, t_get (m_faces m) id = Ok f).
  { intros id f' Hf. apply (wf_get (m_faces m) id (proj1 (proj2 W))). rewrite <- I. eapply wf_get_in; eauto. }
  split; [|split; [|split]].
  - intros id. unfold face_data. destruct (t_get (m_faces m) id) as [f| |] eqn:Ef.
    + destruct (H id f Ef) as [[_ ->]|[_ ->]]; reflexivity.
    + destruct (t_get t id) as [f'| |] eqn:Ef'; [|reflexivity|unfold t_get, zat in Ef'; destruct (zlookup id (t_map t)); discriminate].
      destruct (B _ _ Ef'). congruence.
    + unfold t_get, zat in Ef. destruct (zlookup id (t_map (m_faces m))); discriminate.
  - intros id. split.
    + intros (f' & Ef' & P). destruct (B _ _ Ef') as [f Ef]. destruct (H id f Ef) as [[Hp _]|[_ G]]; [now right|].
      left. exists f. split; [exact Ef|]. congruence.
    + intros [(f & Ef & P)|O].
      * destruct (H id f Ef) as [[_ G]|[_ G]]; eexists; (split; [exact G|]); [reflexivity|exact P].
      * pose proof O as (e & c & q & (f & Ef & _) & _).
        destruct (H id f Ef) as [[_ G]|[N _]]; [|contradiction]. eexists; (split; [exact G|reflexivity]).
  - intros a b. split.
    + intros (f' & Ef' & P & Q). destruct (B _ _ Ef') as [f Ef]. destruct (H a f Ef) as [[_ G]|[N G]].
      * rewrite G in Ef'. injection Ef' as <-. discriminate.
      * split; [|exact N]. exists f. assert (f = f') by congruence. subst. auto.
    + intros ((f & Ef & P & Q) & N). destruct (H a f Ef) as [[O _]|[_ G]]; [contradiction|]. exists f. auto.
  - intros id f Ef. destruct (H id f Ef) as [[_ G]|[_ G]]; eexists; (split; [exact G|reflexivity]).
Qed.
Print Assumptions C112_fixed.

(** In particular every face whose nodes are at the places of the nodes of an edge, in any order, loses its pair. *)
Theorem C112_edges : forall n m edges tol m' id f e el cs ds,
  1 <= n <= int_max -> (0 <= tol)%Q -> wf_mesh m -> refs_ok m -> wf_mesh edges -> refs_ok edges ->
  (exists a b c d, centre_at m a c /\ centre_at m b d /\ ~ c =v= d) ->
  (forall e q, centroid_of edges e q -> reached m tol q) ->
  applyFixedBoundary n m edges tol = Ok m' ->
  t_get (m_faces m) id = Ok f -> t_get (m_elems edges) e = Ok el ->
  coords m (f_nodes f) = map Ok cs -> coords edges (e_nodes el) = map Ok ds -> Permutation cs ds ->
  unpaired (m_faces m') id.
Proof.
  intros n m edges tol m' id f e el cs ds Hn Ht W R We Re Hc Hr E Hf He Hcs Hds P.
  destruct (C112_fixed n m edges tol Hn Ht W R We Re Hc Hr) as (m1 & E1 & _ & _ & _ & _ & _ & U & _).
  rewrite E in E1. injection E1 as <-. apply U. right.
  exists e, (match cs with [] => vzero | _ => mean cs end), (match ds with [] => vzero | _ => mean ds end).
  split; [exists f; split; [exact Hf|]; exists cs; auto|].
  split; [exists el, ds; auto|].
  apply norm_le_zero; [|exact Ht].
  assert (G : (match cs with [] => vzero | _ => mean cs end) =v= (match ds with [] => vzero | _ => mean ds end)).
  { destruct cs as [|c cs].
    - apply Permutation_nil in P. now subst.
    - destruct ds as [|d ds]; [apply Permutation_sym, Permutation_nil in P; discriminate|]. now apply mean_perm. }
  destruct G as (A & B & C). unfold veq, vsub; cbn. rewrite A, B, C. repeat split; ring.
Qed.
Print Assumptions C112_edges.

(** A square of two triangles, with its faces: the diagonal is faces 2 and 3. *)
Definition cut_square : mesh :=
  Mesh (t_add (t_add (t_add (t_add t_empty 0 (Coord 0 0 0)) 1 (Coord 4 0 0)) 2 (Coord 4 4 0)) 3 (Coord 0 4 0))
    (fold_left (fun t x => t_add t (fst x) (snd x))
      [(0, Face FT_LINE [0; 1] false 0 0); (1, Face FT_LINE [1; 2] false 0 0); (2, Face FT_LINE [2; 0] true 3 0);
       (3, Face FT_LINE [0; 2] true 2 1); (4, Face FT_LINE [2; 3] false 0 1); (5, Face FT_LINE [3; 0] false 0 1)] t_empty)
    (t_add (t_add t_empty 0 (Element ET_TRIANGLE [0; 1; 2] [0; 1; 2])) 1 (Element ET_TRIANGLE [0; 2; 3] [3; 4; 5])).
(** One edge between two points. *)
Definition one_edge (p q : coord) : mesh :=
  Mesh (t_add (t_add t_empty 10 p) 11 q) t_empty (t_add t_empty 0 (Element ET_BEAM [10; 11] [])).

(** Which faces have a pair afterwards. *)
Definition pairs_left (r : outcome mesh) : option (list bool) :=
  match r with Ok m => Some (map (fun x => f_haspair (snd x)) (t_map (m_faces m))) | _ => None end.

Lemma centre_cut id f cs : t_get (m_faces cut_square) id = Ok f -> coords cut_square (f_nodes f) = map Ok cs -> cs <> [] ->
  centre_at cut_square id (mean cs).
Proof. intros H E N. exists f. split; [exact H|]. exists cs. split; [exact E|]. now destruct cs. Qed.

(** The edge along the diagonal takes the pair away from both sides of it. *)
Example C112_case :
  wf_mesh cut_square /\ refs_ok cut_square /\ wf_mesh (one_edge (Coord 4 4 0) (Coord 0 0 0)) /\ refs_ok (one_edge (Coord 4 4 0) (Coord 0 0 0)) /\
  (exists a b c d, centre_at cut_square a c /\ centre_at cut_square b d /\ ~ c =v= d) /\
  (forall e q, centroid_of (one_edge (Coord 4 4 0) (Coord 0 0 0)) e q -> reached cut_square (1#1000) q) /\
  pairs_left (Ok cut_square) = Some [false; false; true; true; false; false] /\
  pairs_left (applyFixedBoundary 2 cut_square (one_edge (Coord 4 4 0) (Coord 0 0 0)) (1#1000)) = Some [false; false; false; false; false; false] /\
  pairs_left (applyFixedBoundary 2 cut_square (one_edge (Coord 4 4 0) (Coord 4 0 0)) (1#1000)) = Some [false; false; true; true; false; false].
Proof.
  pose proof (centre_cut 0 _ [Coord 0 0 0; Coord 4 0 0] eq_refl eq_refl ltac:(discriminate)) as C0.
  pose proof (centre_cut 1 _ [Coord 4 0 0; Coord 4 4 0] eq_refl eq_refl ltac:(discriminate)) as C1.
  pose proof (centre_cut 4 _ [Coord 4 4 0; Coord 0 4 0] eq_refl eq_refl ltac:(discriminate)) as C4.
  pose proof (centre_cut 5 _ [Coord 0 4 0; Coord 0 0 0] eq_refl eq_refl ltac:(discriminate)) as C5.
  split; [apply wf_meshb_ok; reflexivity|]. split; [apply refs_okb_ok; reflexivity|].
  split; [apply wf_meshb_ok; reflexivity|]. split; [apply refs_okb_ok; reflexivity|].
  split; [do 4 eexists; split; [exact C0|split; [exact C1|intros (A & _); discriminate A]]|].
  split.
  - intros e q (el & ds & He & Hd & ->). unfold t_get, zat in He. cbn in He. destruct (e =? 0); [|discriminate].
    injection He as <-. cbn in Hd. destruct ds as [|d1 [|d2 [|]]]; try discriminate. injection Hd as <- <-.
    exists (mean [Coord 4 4 0; Coord 0 0 0]).
    do 6 eexists.
    split; [split; intros H; discriminate H|]. split; [split; intros H; discriminate H|]. split; [split; intros H; discriminate H|].
    split; [exists 5; exact C5|]. split; [exists 1; exact C1|]. split; [exists 0; exact C0|]. split; [exists 4; exact C4|].
    split; [exists 0; exact C0|]. split; [exists 1; exact C1|].
    split; [split; intros H; discriminate H|]. split; split; intros H; discriminate H.
  - split; [reflexivity|]. split; vm_compute; reflexivity.
Qed.

(** Only centres are compared: an edge across the diagonal, which is no face of the mesh, also takes the pair away from it. *)
Theorem C112_centre_refuted :
  pairs_left (Ok cut_square) = Some [false; false; true; true; false; false] /\
  pairs_left (applyFixedBoundary 2 cut_square (one_edge (Coord 4 0 0) (Coord 0 4 0)) (1#1000)) = Some [false; false; false; false; false; false].
Proof. split; [reflexivity|vm_compute; reflexivity]. Qed.
Print Assumptions C112_centre_refuted.

(** An edge far away from the surface has no defined outcome: the number of its cell does not fit an int. *)
Theorem C112_far_refuted :
  applyFixedBoundary 2 cut_square (one_edge (Coord 10000000000 0 0) (Coord 10000000001 0 0)) (1#1000) = UB.
Proof. vm_compute; reflexivity. Qed.
Print Assumptions C112_far_refuted.
