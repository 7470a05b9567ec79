(** Properties C01-C06 of the mesh container.  Each theorem is closed by a lemma of Mesh_Proofs.v;
    beside it stands a concrete instance of its hypotheses. *)
From Coq Require Import ZArith List Lia Bool QArith.
From Verif Require Import Prelude Vec ZMap Mesh_Model Mesh_Spec Mesh_Proofs.
Import ListNotations.
Open Scope Z_scope.

(** ** C01: insertion *)

Theorem C01_insertion : forall (A : Type) (ps : list (Z * A)),
  NoDup (map fst ps) ->
  exists t,
    run (map (fun p => Add (fst p) (snd p)) ps) = Ok t /\
    t_size t = zlen ps /\
    (forall n id v, nth_error ps n = Some (id, v) ->
       t_id t (Z.of_nat n) = Ok id /\ t_index t id = Ok (Z.of_nat n) /\ t_get t id = Ok v) /\
    (forall i id, t_id t i = Ok id -> t_index t id = Ok i) /\
    (forall id i, t_index t id = Ok i -> t_id t i = Ok id) /\
    (forall i, i < 0 \/ zlen ps <= i -> t_id t i = Throw) /\
    (forall id, ~ In id (map fst ps) -> t_get t id = Throw /\ t_index t id = Throw).
Proof. exact insertion_ok. Qed.
Print Assumptions C01_insertion.

Example C01_case : NoDup (map fst [(7, true); (3, false); (5, true)]).
Proof. repeat constructor; cbn; intuition discriminate. Qed.

(** Adding an id twice is outside the hypothesis, and rightly so: the id is then enumerated twice,
    and after one removal an enumerated id has no value. *)
Theorem C01_duplicate_id_refuted : exists (ops : list (op Z)) t,
  run ops = Ok t /\ t_id t 0 = Ok 4 /\ t_get t 4 = Throw.
Proof. exact duplicate_id_witness. Qed.
Print Assumptions C01_duplicate_id_refuted.

(** ** C02: removal *)

Theorem C02_removal : forall (A : Type) (ops : list (op A)),
  valid ops ->
  exists t,
    run ops = Ok t /\
    t_size t = zlen (live (ledger ops)) /\
    (forall p e, nth_error (live (ledger ops)) p = Some e ->
       t_id t (Z.of_nat p) = Ok (en_id e) /\ t_get t (en_id e) = Ok (en_val e)) /\
    (forall id, ~ present (ledger ops) id -> t_get t id = Throw /\ t_index t id = Throw) /\
    (forall n p id v,
       nth_error (ledger ops) n = Some (Entry id v true) -> t_id t (Z.of_nat p) = Ok id ->
       t_index t id = Ok (Z.of_nat n) /\ (p <= n)%nat /\
       (p = n <-> forall k e, (k < n)%nat -> nth_error (ledger ops) k = Some e -> en_live e = true)) /\
    (forall id, ~ present (ledger ops) id -> t_remove t id = UB).
Proof. exact removal_ok. Qed.
Print Assumptions C02_removal.

Example C02_case : valid [Add 7 true; Add 3 false; Remove 7; Add 9 true; Add 7 false; Remove 3].
Proof. cbn. unfold present. cbn. intuition discriminate. Qed.

(** The index returned for a surviving node can lie beyond the number of nodes. *)
Theorem C02_stale_index_refuted : exists (ops : list (op bool)) t,
  valid ops /\ run ops = Ok t /\ t_size t = 1 /\ t_id t 0 = Ok 3 /\ t_index t 3 = Ok 1.
Proof. exact stale_index_witness. Qed.
Print Assumptions C02_stale_index_refuted.

(** ** C03: fresh ids, for every history whatsoever *)

Theorem C03_next_id_fresh : forall (A : Type) (ops : list (op A)) t,
  run ops = Ok t ->
  t_get t (t_next t) = Throw /\
  (forall id v, t_get t id = Ok v -> id < t_next t) /\
  ((forall id, t_get t id = Throw) -> t_next t = 0) /\
  (forall v id, id <> t_next t -> t_get (t_add t (t_next t) v) id = t_get t id).
Proof. exact next_id_ok. Qed.
Print Assumptions C03_next_id_fresh.

Example C03_case : exists t, run [Add 7 true; Add 3 false; Remove 7; Add 3 true] = Ok t /\ t_next t = 4.
Proof. eexists. split; reflexivity. Qed.

(** ** C04: copy *)

(** Every mesh obtained by histories of insertions and removals is well formed in the sense used
    below. *)
Theorem C04_reachable_wf : forall (A : Type) (ops : list (op A)) t,
  valid ops -> run ops = Ok t -> wf_table t.
Proof. exact run_wf. Qed.
Print Assumptions C04_reachable_wf.

Theorem C04_copy : forall m, wf_mesh m ->
  exists m', mesh_copy m = Ok m' /\ wf_mesh m' /\
    (t_ids (m_nodes m') = t_ids (m_nodes m) /\ (forall id, t_get (m_nodes m') id = t_get (m_nodes m) id)) /\
    (t_ids (m_faces m') = t_ids (m_faces m) /\ (forall id, t_get (m_faces m') id = t_get (m_faces m) id)) /\
    (t_ids (m_elems m') = t_ids (m_elems m) /\ (forall id, t_get (m_elems m') id = t_get (m_elems m) id)) /\
    indexed (m_nodes m') /\ indexed (m_faces m') /\ indexed (m_elems m').
Proof. exact mesh_copy_ok. Qed.
Print Assumptions C04_copy.

Example C04_case : wf_mesh sample /\ refs_ok sample /\ face_refs_ok sample /\ ~ indexed (m_nodes sample).
Proof. exact sample_ok. Qed.

(** ** C05: addMesh *)

Theorem C05_addMesh : forall a b,
  wf_mesh a -> wf_mesh b -> refs_ok b ->
  exists c, addMesh a b = Ok c /\ wf_mesh c /\
    (t_size (m_nodes c) = t_size (m_nodes a) + t_size (m_nodes b) /\
     t_size (m_faces c) = t_size (m_faces a) + t_size (m_faces b) /\
     t_size (m_elems c) = t_size (m_elems a) + t_size (m_elems b)) /\
    ((forall id, In id (t_ids (m_nodes a)) -> t_get (m_nodes c) id = t_get (m_nodes a) id) /\
     (forall id, In id (t_ids (m_faces a)) -> t_get (m_faces c) id = t_get (m_faces a) id) /\
     (forall id, In id (t_ids (m_elems a)) -> t_get (m_elems c) id = t_get (m_elems a) id)) /\
    (forall n, (n < length (t_ids (m_nodes a)))%nat -> at_pos (m_nodes c) n = at_pos (m_nodes a) n) /\
    (forall n, (n < length (t_ids (m_nodes b)))%nat ->
       at_pos (m_nodes c) (length (t_ids (m_nodes a)) + n) = at_pos (m_nodes b) n) /\
    (forall n e, at_pos (m_elems b) n = Ok e ->
       exists e', at_pos (m_elems c) (length (t_ids (m_elems a)) + n) = Ok e' /\
         e_type e' = e_type e /\ e_faces e' = e_faces e /\
         coords c (e_nodes e') = coords b (e_nodes e)) /\
    (forall n f, at_pos (m_faces b) n = Ok f ->
       exists f', at_pos (m_faces c) (length (t_ids (m_faces a)) + n) = Ok f' /\
         f_type f' = f_type f /\ f_haspair f' = f_haspair f /\ f_pair f' = f_pair f /\
         coords c (f_nodes f') = coords b (f_nodes f)) /\
    (compact (m_nodes a) -> compact (m_nodes c)) /\ (compact (m_elems a) -> compact (m_elems c)).
Proof. exact addMesh_ok. Qed.
Print Assumptions C05_addMesh.

Example C05_case : wf_mesh sample /\ refs_ok sample /\
  exists c, addMesh sample sample = Ok c /\ t_ids (m_nodes c) = [5; 9; 10; 11] /\
            t_get (m_elems c) 8 = Ok (Element ET_BEAM [11; 10] [4]).
Proof. split; [apply sample_ok|]. split; [apply sample_ok|]. eexists. split; [reflexivity|]. split; reflexivity. Qed.

(** The face ids stored in the appended elements still name faces of the first mesh. *)
Theorem C05_face_links_refuted : exists a b c n e e' f f',
  wf_mesh a /\ wf_mesh b /\ refs_ok b /\ face_refs_ok b /\ addMesh a b = Ok c /\
  at_pos (m_elems b) n = Ok e /\ at_pos (m_elems c) (length (t_ids (m_elems a)) + n) = Ok e' /\
  map (t_get (m_faces b)) (e_faces e) = [Ok f] /\ map (t_get (m_faces c)) (e_faces e') = [Ok f'] /\
  coords c (f_nodes f') <> coords b (f_nodes f).
Proof. exact addMesh_face_links. Qed.
Print Assumptions C05_face_links_refuted.

(** ** C06: renumber *)

Theorem C06_renumber : forall m,
  wf_mesh m -> refs_ok m -> face_refs_ok m ->
  exists m', renumber m = Ok m' /\ wf_mesh m' /\
    (t_ids (m_nodes m') = zrange (length (t_ids (m_nodes m))) /\
     t_ids (m_faces m') = zrange (length (t_ids (m_faces m))) /\
     t_ids (m_elems m') = zrange (length (t_ids (m_elems m)))) /\
    (indexed (m_nodes m') /\ indexed (m_faces m') /\ indexed (m_elems m')) /\
    (forall n, (n < length (t_ids (m_nodes m)))%nat -> at_pos (m_nodes m') n = at_pos (m_nodes m) n) /\
    (forall n e, at_pos (m_elems m) n = Ok e ->
       exists e', at_pos (m_elems m') n = Ok e' /\ e_type e' = e_type e /\
         coords m' (e_nodes e') = coords m (e_nodes e) /\
         map (t_id (m_faces m)) (e_faces e') = map Ok (e_faces e)) /\
    (forall n f, at_pos (m_faces m) n = Ok f ->
       exists f', at_pos (m_faces m') n = Ok f' /\ f_type f' = f_type f /\
         f_haspair f' = f_haspair f /\ f_pair f' = f_pair f /\ f_elem f' = f_elem f /\
         coords m' (f_nodes f') = coords m (f_nodes f)).
Proof. exact renumber_ok. Qed.
Print Assumptions C06_renumber.

Example C06_case : wf_mesh sample /\ refs_ok sample /\ face_refs_ok sample.
Proof. repeat split; apply sample_ok. Qed.

(** Pair links survive as numbers, not as links: before, the partner of face at position 0 is the
    face at position 1; afterwards the link names no face at all. *)
Theorem C06_pair_links_refuted : exists m m' f f' g,
  wf_mesh m /\ refs_ok m /\ face_refs_ok m /\ renumber m = Ok m' /\
  at_pos (m_faces m) 0 = Ok f /\ f_haspair f = true /\ t_get (m_faces m) (f_pair f) = Ok g /\
  at_pos (m_faces m') 0 = Ok f' /\ f_haspair f' = true /\ t_get (m_faces m') (f_pair f') = Throw.
Proof. exact renumber_pair_links. Qed.
Print Assumptions C06_pair_links_refuted.

(** Counters are not reset either: a node added after renumber() gets an index that is not its
    position. *)
Theorem C06_add_after_renumber_refuted : exists m m',
  wf_mesh m /\ refs_ok m /\ face_refs_ok m /\ renumber m = Ok m' /\
  exists v, ~ indexed (t_add (m_nodes m') (t_next (m_nodes m')) v).
Proof. exact add_after_renumber. Qed.
Print Assumptions C06_add_after_renumber_refuted.
