(** Proofs about relaxNodes of meshes of quadrilaterals and triangles. *)
From Coq Require Import ZArith List Bool QArith Lia Lqa.
From Verif Require Import Prelude Vec ZMap Mesh_Model HashGrid_Model Face_Model Query_Model Merge_Model Mesh_Spec Mesh_Proofs Face_Spec Face_Proofs
  Front_Model Front_Spec Front_Proofs Front_Finish Tune_Model Tune_Spec Tune_Proofs Tune_Relax Tet_Model Quad_Model Quad_Spec Quad_Proofs Quad_Faces.
Import ListNotations.
Open Scope Z_scope.

Section RelaxQ.
Variable quality3 : coord -> coord -> coord -> Q.
Variable tol : Q.
Variable m : mesh.
Hypothesis Wm : wf_mesh m.
Hypothesis Rm : refs_ok m.
Hypothesis Am : only_flat m.
Hypothesis Pm : proper_flat m.
Hypothesis Om : owned m.
Hypothesis Fm : forall id e, t_get (m_elems m) id = Ok e -> length (e_faces e) = length (e_nodes e) /\ Forall (fun k => In k (t_ids (m_faces m))) (e_faces e).
Hypothesis Mm : forall fid f, t_get (m_faces m) fid = Ok f -> f_haspair f = true -> In (f_pair f) (t_ids (m_faces m)).

Lemma flat_length id e : t_get (m_elems m) id = Ok e -> (3 <= length (e_nodes e))%nat.
Proof. intros He. destruct (flat_complete m id e Pm He (Am _ _ He)) as [C _]. unfold complete in C. destruct (Am _ _ He) as [E|E]; rewrite E in C; cbn in C; lia. Qed.
Lemma flat_true id e : t_get (m_elems m) id = Ok e -> is_flat e = true.
Proof. intros He. unfold is_flat, is_triangle, is_quad. destruct (Am _ _ He) as [-> | ->]; reflexivity. Qed.

Lemma at_ok {A} (l : list A) k : 0 <= k < zlen l -> exists x, vec_at l k = Ok x /\ In x l.
Proof.
  intros [H1 H2]. unfold zlen in H2. unfold vec_at. destruct (Z.ltb_spec k 0); [lia|].
  destruct (nth_error l (Z.to_nat k)) as [x|] eqn:E; [|apply nth_error_None in E; lia]. exists x. split; [reflexivity|]. exact (nth_error_In _ _ E).
Qed.

Lemma face_after_ok id e fid first : t_get (m_elems m) id = Ok e -> In first (t_ids (m_faces m)) ->
  exists x, face_after (e_faces e) fid first = Ok x /\ In x (t_ids (m_faces m)).
Proof.
  intros He Hf. destruct (Fm _ _ He) as [L Fa]. rewrite Forall_forall in Fa. unfold face_after. destruct (find _ _) as [k|]; [|eauto].
  pose proof (flat_length _ _ He) as L3. destruct (at_ok (e_faces e) ((k + 1) mod 3)) as (x & E & Hx); [|rewrite E; eauto].
  unfold zlen. pose proof (Z.mod_pos_bound (k + 1) 3). lia.
Qed.

(** The loop around a node ends well; all it collects exists; and if the first face has no partner it collects nothing. *)
Lemma walk_ok : forall fuel first next ns es, In first (t_ids (m_faces m)) -> In next (t_ids (m_faces m)) ->
  (forall x, In x ns -> In x (t_ids (m_nodes m))) -> (forall x, In x es -> In x (t_ids (m_elems m))) ->
  exists w, walk fuel m first next ns es = Ok w /\ forall ns' es', w = Some (ns', es') ->
    (forall x, In x ns' -> In x (t_ids (m_nodes m))) /\ (forall x, In x es' -> In x (t_ids (m_elems m))) /\
    (ns' <> [] -> exists f, t_get (m_faces m) next = Ok f /\ f_haspair f = true).
Proof.
  induction fuel as [|k IH]; intros first next ns es Hfi Hne Hns Hes; cbn [walk].
  - exists None. split; [reflexivity|discriminate].
  - destruct (wf_get _ _ (proj1 (proj2 Wm)) Hne) as [f Hf]. rewrite Hf. cbn [bind]. destruct (f_haspair f) eqn:Hp; cbn [negb].
    + destruct (wf_get _ _ (proj1 (proj2 Wm)) (Mm _ _ Hf Hp)) as [g Hg]. rewrite Hg. cbn [bind].
      pose proof (Om _ _ Hg) as Hel. destruct (wf_get _ _ (proj2 (proj2 Wm)) Hel) as [e He]. rewrite He. cbn [bind]. rewrite (flat_true _ _ He). cbn [negb].
      destruct (face_after_ok _ _ (f_pair f) first He Hfi) as (x & Ex & Hx). rewrite Ex. cbn [bind].
      destruct k as [|k]; [exists None; split; [reflexivity|discriminate]|].
      assert (Hns' : forall x, In x (fold_left note_new (f_nodes g) ns) -> In x (t_ids (m_nodes m))).
      { intros y Hy. apply note_all_in in Hy. destruct Hy as [Hy|Hy]; [auto|]. pose proof (proj2 Rm _ _ Hg) as Fa. rewrite Forall_forall in Fa. auto. }
      assert (Hes' : forall x, In x (es ++ [f_elem g]) -> In x (t_ids (m_elems m))).
      { intros y Hy. apply in_app_iff in Hy. destruct Hy as [Hy|[<-|[]]]; auto. }
      cbv zeta. destruct (x =? first).
      * eexists. split; [reflexivity|]. intros ns' es' [= <- <-]. split; [exact Hns'|]. split; [exact Hes'|]. eauto.
      * destruct (IH first x _ _ Hfi Hx Hns' Hes') as (w & Ew & Hw). exists w. split; [exact Ew|]. intros ns' es' E. destruct (Hw ns' es' E) as (A & B & _).
        split; [exact A|]. split; [exact B|]. eauto.
    + eexists. split; [reflexivity|]. intros ns' es' [= <- <-]. split; [intros x []|]. split; [intros x []|]. congruence.
Qed.

Lemma weighq_ok t n p : wf_table t -> t_ids t = t_ids (m_nodes m) -> forall els st,
  (forall el, In el els -> In el (t_ids (m_elems m))) -> exists st', foldM (weighq quality3 tol (m_elems m) t n p) els st = Ok st'.
Proof.
  intros Wt It. induction els as [|el els IH]; intros st Hk; [exists st; reflexivity|].
  cbn [foldM]. assert (Hone : exists st1, weighq quality3 tol (m_elems m) t n p st el = Ok st1).
  { unfold weighq. destruct (negb (snd st)); [eauto|]. destruct (wf_get _ _ (proj2 (proj2 Wm)) (Hk el (or_introl eq_refl))) as [e He]. rewrite He. cbn [bind].
    pose proof (flat_length _ _ He) as L3. pose proof (proj1 Rm _ _ He) as Fa. rewrite Forall_forall in Fa.
    assert (G : forall k, 0 <= k < 3 -> exists a c, vec_at (e_nodes e) k = Ok a /\ t_get t a = Ok c).
    { intros k Hkk. destruct (at_ok (e_nodes e) k) as (a & Ea & Ia); [unfold zlen; lia|]. destruct (wf_get t a Wt) as [c Hc]; [rewrite It; auto|]. eauto. }
    destruct (G 0) as (a & pa & Ea & Ga); [lia|]. destruct (G 1) as (b & pb & Eb & Gb); [lia|]. destruct (G 2) as (c & pc & Ec & Gc); [lia|].
    rewrite Ea, Eb, Ec. cbn [bind]. rewrite Ga, Gb, Gc. cbn [bind]. eauto. }
  destruct Hone as [st1 E1]. rewrite E1. cbn [bind]. apply IH. intros k Hin. apply Hk. now right.
Qed.

(** The node [n] may move: some element has a side beginning at [n] that has a partner. *)
Definition movable (n : Z) : Prop := exists id e j fid f, t_get (m_elems m) id = Ok e /\ vec_at (e_nodes e) j = Ok n /\ vec_at (e_faces e) j = Ok fid /\
  t_get (m_faces m) fid = Ok f /\ f_haspair f = true.
Record relaxing (t : table coord) : Prop := Relaxing {
  rq_wf : wf_table t;
  rq_ids : t_ids t = t_ids (m_nodes m);
  rq_stay : forall n, ~ movable n -> t_get t n = t_get (m_nodes m) n;
  rq_below : forall a b c d, below a b c d (m_nodes m) -> below a b c d t
}.

Lemma relaxq_corner_ok t stop id e j : relaxing t -> t_get (m_elems m) id = Ok e -> 0 <= j < zlen (e_nodes e) ->
  exists t' stop', relaxq_corner quality3 tol m e (t, stop) j = Ok (t', stop') /\ relaxing t'.
Proof.
  intros L He Hj. unfold relaxq_corner. cbn [fst snd]. destruct stop; [eauto|].
  destruct (at_ok (e_nodes e) j Hj) as (n & En & In_). destruct (Fm _ _ He) as [Lf Fa]. rewrite Forall_forall in Fa.
  destruct (at_ok (e_faces e) j) as (fid & Ef & Hfid); [unfold zlen in *; lia|]. rewrite En, Ef. cbn [bind]. apply Fa in Hfid.
  pose proof (proj1 Rm _ _ He) as Fn. rewrite Forall_forall in Fn. pose proof (Fn _ In_) as Hn.
  destruct (wf_get t n (rq_wf _ L)) as [c Hc]; [now rewrite (rq_ids _ L)|]. rewrite Hc. cbn [bind].
  destruct (walk_ok 1001 fid fid [n] [] Hfid Hfid) as (w & Ew & Hw); [intros x [<-|[]]; exact Hn|intros x []|].
  rewrite Ew. cbn [bind]. destruct w as [[ns es]|]; [|eauto].
  destruct (Hw ns es eq_refl) as (Hns & Hes & Hpair). destruct (1 <? zlen ns) eqn:El; [|eauto].
  assert (Hne : ns <> []) by (intros ->; discriminate).
  assert (Hk : forall x, In x ns -> exists p, t_get t x = Ok p) by (intros x Hx; apply (wf_get t x (rq_wf _ L)); rewrite (rq_ids _ L); auto).
  destruct (mean_below 0 0 0 0 t ns) as (p & Ep & _); [intros k q _; unfold height; lra|exact Hne|exact Hk|].
  rewrite Ep. cbn [bind]. destruct (weighq_ok t n p (rq_wf _ L) (rq_ids _ L) es (0%Q, 0%Q, true) Hes) as [r Er]. rewrite Er. cbn [bind].
  exists (if snd r && Qlt_bool (fst (fst r)) (snd (fst r)) then t_set t n p else t), false. split; [reflexivity|].
  destruct (snd r && Qlt_bool (fst (fst r)) (snd (fst r)))%bool; [|exact L].
  destruct (t_set_wf t n p (rq_wf _ L)) as [W1 G1]; [now rewrite (rq_ids _ L)|].
  constructor.
  - exact W1.
  - exact (rq_ids _ L).
  - intros k Hkm. rewrite G1. destruct (Z.eqb_spec k n) as [->|]; [|now apply (rq_stay _ L)]. exfalso. apply Hkm.
    destruct (Hpair Hne) as (f & Hf & Hp). exists id, e, j, fid, f. auto.
  - intros a b c0 d Hb k q. rewrite G1. destruct (k =? n); [|exact (rq_below _ L a b c0 d Hb k q)]. intros [= <-].
    destruct (mean_below a b c0 d t ns (rq_below _ L _ _ _ _ Hb) Hne Hk) as (p' & Ep' & H'). assert (p' = p) by congruence. now subst p'.
Qed.

Lemma relaxQuads_ok : exists t, relaxQuads quality3 tol m = Ok (Mesh t (m_faces m) (m_elems m)) /\ relaxing t.
Proof.
  unfold relaxQuads.
  match goal with |- context [foldM ?F ?l ?s] => destruct (foldM_invariant F (fun _ st => relaxing (fst st)) l s) as (st & E & H) end.
  - constructor; [apply Wm|reflexivity|reflexivity|auto].
  - intros done id rest st El L. destruct (wf_get (m_elems m) id (proj2 (proj2 Wm))) as [e He]; [rewrite El; apply in_elt|]. rewrite He. cbn [bind].
    rewrite (flat_true _ _ He). cbn [negb].
    destruct (foldM_invariant (relaxq_corner quality3 tol m e) (fun _ st => relaxing (fst st)) (zrange (length (e_nodes e))) st L) as (st' & E' & H').
    + intros done' j rest' [t0 s0] El' L'. cbn [fst] in L'.
      assert (Hj : In j (zrange (length (e_nodes e)))) by (rewrite El'; apply in_elt). apply zrange_in in Hj.
      destruct (relaxq_corner_ok t0 s0 id e j L' He) as (t' & s' & E1 & L1); [unfold zlen; lia|]. exists (t', s'). auto.
    + eauto.
  - rewrite E. cbn [bind]. eauto.
Qed.
End RelaxQ.
