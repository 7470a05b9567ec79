(** Properties C10 and C24: bounding boxes. *)
From Coq Require Import ZArith List Bool QArith Lqa.
From Verif Require Import Prelude Vec ZMap Mesh_Model Mesh_Spec Mesh_Proofs Box_Model Box_Spec Box_Proofs.
Import ListNotations.
Open Scope Q_scope.

(** ** C24: bounding box algebra *)

Theorem C24_least_box : forall cs,
  cs <> [] -> (forall c, In c cs -> finite c) ->
  tight (box_add_all cs) cs /\
  (forall lo hi, (forall c, In c cs -> in_box lo hi c) ->
     in_box lo hi (b_min (box_add_all cs)) /\ in_box lo hi (b_max (box_add_all cs))).
Proof. exact (fun cs Hne Hf => conj (box_tight cs Hne Hf) (fun lo hi H => tight_least _ cs lo hi (box_tight cs Hne Hf) H)). Qed.
Print Assumptions C24_least_box.

Theorem C24_order_independent : forall cs cs',
  cs <> [] -> (forall c, In c cs -> finite c) -> (forall c, In c cs <-> In c cs') ->
  b_min (box_add_all cs) =v= b_min (box_add_all cs') /\ b_max (box_add_all cs) =v= b_max (box_add_all cs').
Proof. exact box_order. Qed.
Print Assumptions C24_order_independent.

Theorem C24_shrink_undoes_grow : forall b a,
  b_min (box_shrink (box_grow b a) a) =v= b_min b /\ b_max (box_shrink (box_grow b a) a) =v= b_max b.
Proof. exact shrink_grow. Qed.
Print Assumptions C24_shrink_undoes_grow.

Theorem C24_contains : forall b c tol, box_contains b c tol = true <-> in_box_tol b tol c.
Proof. exact contains_iff. Qed.
Print Assumptions C24_contains.

Theorem C24_contains_box : forall b b' tol,
  proper b' -> (box_contains_box b b' tol = true <-> forall p, in_box (b_min b') (b_max b') p -> in_box_tol b tol p).
Proof. exact contains_box_iff. Qed.
Print Assumptions C24_contains_box.

Theorem C24_intersects : forall a b tol,
  proper a -> proper b -> 0 <= tol ->
  (box_intersects a b tol = true <-> exists p, in_box_tol a tol p /\ in_box (b_min b) (b_max b) p).
Proof. exact intersects_iff. Qed.
Print Assumptions C24_intersects.

Example C24_case :
  let cs := [Coord 1 2 3; Coord (-1) 5 3; Coord 0 0 7] in
  cs <> [] /\ (forall c, In c cs -> finite c) /\
  box_contains (box_add_all cs) (Coord 0 4 5) 0 = true /\
  box_intersects (box_add_all cs) (box_of (Coord 1 5 7) (Coord 2 6 8)) 0 = true.
Proof.
  split; [discriminate|]. split; [|split; reflexivity].
  intros c [<-|[<-|[<-|[]]]]; unfold finite, in_box; cbn -[real_max Qle];
    unfold Qle; vm_compute; repeat split; discriminate.
Qed.

(** grow does not move the stored centre, but nothing keeps it the midpoint of a box whose corners
    were grown by different amounts: center() is only the midpoint because growth is symmetric. *)
Theorem C24_grow_keeps_midpoint : forall lo hi a,
  b_center (box_grow (box_of lo hi) a) =v= centre (b_min (box_grow (box_of lo hi) a)) (b_max (box_grow (box_of lo hi) a)).
Proof. exact grow_midpoint. Qed.
Print Assumptions C24_grow_keeps_midpoint.

(** ** C10: the mesh bounding box *)

Theorem C10_mesh_box : forall m,
  wf_table (m_nodes m) -> t_ids (m_nodes m) <> [] ->
  (forall id c, t_get (m_nodes m) id = Ok c -> finite c) ->
  exists b cs, mesh_box m = Ok b /\ map (t_get (m_nodes m)) (t_ids (m_nodes m)) = map Ok cs /\ tight b cs.
Proof. exact mesh_box_ok. Qed.
Print Assumptions C10_mesh_box.

Theorem C10_element_box : forall m id e,
  wf_mesh m -> refs_ok m -> t_get (m_elems m) id = Ok e -> e_nodes e <> [] ->
  (forall id c, t_get (m_nodes m) id = Ok c -> finite c) ->
  exists b cs, elem_box m id = Ok b /\ coords m (e_nodes e) = map Ok cs /\ tight b cs.
Proof. exact elem_box_ok. Qed.
Print Assumptions C10_element_box.

Example C10_case :
  wf_mesh sample /\ refs_ok sample /\ t_ids (m_nodes sample) <> [] /\
  (forall id c, t_get (m_nodes sample) id = Ok c -> finite c) /\
  t_get (m_elems sample) 6 = Ok (Element ET_BEAM [9; 5]%Z [4]%Z).
Proof.
  split; [apply sample_ok|]. split; [apply sample_ok|]. split; [discriminate|]. split; [|reflexivity].
  intros id c Hg; unfold t_get, zat in Hg; cbn in Hg.
  repeat (destruct (_ =? _)%Z in Hg; [injection Hg as <-; unfold finite, in_box; cbn -[real_max Qle];
    unfold Qle; vm_compute; repeat split; discriminate|]). discriminate.
Qed.
