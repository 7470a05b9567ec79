(** Properties C07, C08, C09: mesh clean-up. *)
From Coq Require Import ZArith List Bool QArith Sorted.
From Verif Require Import Prelude Vec ZMap Mesh_Model Mesh_Spec Mesh_Check HashGrid_Model Merge_Model Merge_Spec Merge_Proofs.
Import ListNotations.
Open Scope Z_scope.

(** ** C07: mergeNodes, node ids enumerated in increasing order, not all nodes in one place.
    [rep a] is the node that replaces [a]. *)
Theorem C07_merge_nodes : forall n tol m,
  1 <= n <= int_max -> (0 <= tol)%Q -> wf_mesh m -> refs_ok m ->
  StronglySorted Z.lt (t_ids (m_nodes m)) ->
  (exists a b ca cb, t_get (m_nodes m) a = Ok ca /\ t_get (m_nodes m) b = Ok cb /\ ~ (ca =v= cb)) ->
  exists m' rep, mergeNodes n tol m = Ok m' /\
    wf_mesh m' /\ refs_ok m' /\ indexed (m_nodes m') /\ indexed (m_faces m') /\ indexed (m_elems m') /\
    (forall a, In a (t_ids (m_nodes m)) -> In (rep a) (t_ids (m_nodes m')) /\ close m tol (rep a) a) /\
    kept (m_nodes m) (m_nodes m') (fun a _ => rep a = a) /\
    (forall a b, In a (t_ids (m_nodes m')) -> In b (t_ids (m_nodes m')) -> a <> b -> ~ close m tol a b) /\
    kept_as (m_faces m) (m_faces m') (fun _ _ => True)
      (fun f => Face (f_type f) (map rep (f_nodes f)) (f_haspair f) (f_pair f) (f_elem f)) /\
    kept_as (m_elems m) (m_elems m') (fun _ e => NoDup (map rep (e_nodes e)))
      (fun e => Element (e_type e) (map rep (e_nodes e)) (e_faces e)).
Proof. exact merge_nodes_ok. Qed.
Print Assumptions C07_merge_nodes.

Example C07_case : wf_mesh near_mesh /\ refs_ok near_mesh /\ StronglySorted Z.lt (t_ids (m_nodes near_mesh)) /\
  (exists a b ca cb, t_get (m_nodes near_mesh) a = Ok ca /\ t_get (m_nodes near_mesh) b = Ok cb /\ ~ (ca =v= cb)).
Proof. exact near_mesh_ok. Qed.

(** Without the order of ids an element can be left referring to a deleted node (5). *)
Theorem C07_unordered_ids_refuted : exists m m' e, wf_mesh m /\ refs_ok m /\ mergeNodes 2 1 m = Ok m' /\
  t_get (m_elems m') 0 = Ok e /\ In 5 (e_nodes e) /\ t_get (m_nodes m') 5 = Throw.
Proof. exact chain_dangling. Qed.
Print Assumptions C07_unordered_ids_refuted.

(** ** C08: mergeElements removes every element that has another one within the tolerance. *)
Theorem C08_merge_elements : forall n tol m,
  1 <= n <= int_max -> (0 <= tol)%Q -> wf_mesh m -> refs_ok m ->
  (exists a b ca cb, centroid_of m a ca /\ centroid_of m b cb /\ ~ (ca =v= cb)) ->
  exists m', mergeElements n tol m = Ok m' /\ m_nodes m' = m_nodes m /\ m_faces m' = m_faces m /\
    wf_table (m_elems m') /\
    kept (m_elems m) (m_elems m')
      (fun a _ => forall b, In b (t_ids (m_elems m)) -> b <> a -> ~ close_elems m tol a b) /\
    (forall id, In id (t_ids (m_elems m')) -> t_index (m_elems m') id = t_index (m_elems m) id).
Proof. exact merge_elements_ok. Qed.
Print Assumptions C08_merge_elements.

Example C08_case : wf_mesh twin_mesh /\ refs_ok twin_mesh /\
  (exists a b ca cb, centroid_of twin_mesh a ca /\ centroid_of twin_mesh b cb /\ ~ (ca =v= cb)).
Proof. exact twin_mesh_ok. Qed.

(** Neither of the two equal triangles 4 and 6 survives, and the position of 9 is out of date. *)
Theorem C08_keeps_one_refuted : exists m', mergeElements 2 0 twin_mesh = Ok m' /\
  t_ids (m_elems twin_mesh) = [4; 6; 9] /\ t_ids (m_elems m') = [9] /\ t_index (m_elems m') 9 = Ok 2.
Proof. exact twins_gone. Qed.
Print Assumptions C08_keeps_one_refuted.

(** ** C09 *)
Theorem C09_remove_invalid_elements : forall m, wf_table (m_elems m) ->
  exists m', removeInvalidElements m = Ok m' /\ m_nodes m' = m_nodes m /\ m_faces m' = m_faces m /\
    wf_table (m_elems m') /\ kept (m_elems m) (m_elems m') (fun _ e => NoDup (e_nodes e)) /\
    (forall id, In id (t_ids (m_elems m')) -> t_index (m_elems m') id = t_index (m_elems m) id).
Proof. exact removeInvalid_ok. Qed.
Print Assumptions C09_remove_invalid_elements.

Theorem C09_remove_dangling_nodes : forall m, wf_mesh m ->
  exists m', removeDanglingNodes m = Ok m' /\ m_faces m' = m_faces m /\ m_elems m' = m_elems m /\
    wf_table (m_nodes m') /\ kept (m_nodes m) (m_nodes m') (fun n _ => used m n) /\
    (forall id, In id (t_ids (m_nodes m')) -> t_index (m_nodes m') id = t_index (m_nodes m) id).
Proof. exact removeDangling_ok. Qed.
Print Assumptions C09_remove_dangling_nodes.

(** Hence references that were valid stay valid. *)
Theorem C09_references_stay_valid : forall m m1 m2, wf_mesh m -> refs_ok m ->
  removeInvalidElements m = Ok m1 -> removeDanglingNodes m1 = Ok m2 -> wf_mesh m2 /\ refs_ok m2.
Proof. exact cleanup_refs. Qed.
Print Assumptions C09_references_stay_valid.

Example C09_case : wf_mesh messy_mesh /\ refs_ok messy_mesh /\
  exists m1 m2, removeInvalidElements messy_mesh = Ok m1 /\ removeDanglingNodes m1 = Ok m2 /\
    t_ids (m_elems m1) = [6] /\ t_ids (m_nodes m2) = [2; 3; 8].
Proof. exact messy_ok. Qed.
