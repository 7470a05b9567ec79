(** Properties of collapsing naked edges. *)
From Coq Require Import ZArith List Lia Bool QArith Reals Qreals Lra Relation_Operators.
From Verif Require Import Prelude Vec ZMap Mesh_Model Mesh_Spec Mesh_Proofs Mesh_Check Merge_Proofs Face_Model Face_Proofs Clean_Model Clean_Props
  Naked_Model Naked_Spec Naked_Proofs.
Import ListNotations.
Open Scope Z_scope.

(** Nodes move only: each to the place another node had, which can be reached from it along naked edges in their
    direction; nodes where no naked edge begins stay. *)
Theorem C113_places : forall tol m, wf_mesh m -> refs_ok m -> lines_ok m ->
  exists m', collapseNakedEdges tol m = Ok m' /\ wf_mesh m' /\ refs_ok m' /\
    m_faces m' = m_faces m /\ m_elems m' = m_elems m /\ t_ids (m_nodes m') = t_ids (m_nodes m) /\
    (forall n, t_index (m_nodes m') n = t_index (m_nodes m) n) /\
    (forall n c, t_get (m_nodes m') n = Ok c -> exists k, leads m n k /\ t_get (m_nodes m) k = Ok c) /\
    (forall n, (forall b, ~ naked_edge m n b) -> t_get (m_nodes m') n = t_get (m_nodes m) n).
Proof.
  intros tol m W R L. destruct (naked_list m W R L) as (ids & mn & E & ND & Hi & Hl).
  unfold collapseNakedEdges. rewrite E. cbn [bind fst snd].
  assert (Done : forall t, moved m t -> wf_mesh (Mesh t (m_faces m) (m_elems m)) /\ refs_ok (Mesh t (m_faces m) (m_elems m))).
  { intros t (Wt & I & _). destruct W as (_ & Wf & We). split; [split; [exact Wt|split; [exact Wf|exact We]]|].
    unfold refs_ok. cbn [m_nodes m_elems m_faces]. rewrite I. exact R. }
  assert (G : exists t, match mn with None => Ok m | Some x => nodes <- foldM (collapse_step (m_faces m) x tol) ids (m_nodes m) ;; Ok (Mesh nodes (m_faces m) (m_elems m)) end
     = Ok (Mesh t (m_faces m) (m_elems m)) /\ moved m t).
  { destruct mn as [x|].
    - destruct (moved_all m ids x tol W R) as (t & Et & M); [intros id; apply Hi|]. rewrite Et. cbn [bind]. eauto.
    - exists (m_nodes m). split; [now destruct m|now apply moved_start]. }
  destruct G as (t & Et & M). rewrite Et. eexists. split; [reflexivity|]. destruct (Done t M) as [W' R'].
  destruct M as (_ & I & X & _ & M & U). cbn [m_nodes m_faces m_elems].
  split; [exact W'|]. split; [exact R'|]. split; [reflexivity|]. split; [reflexivity|]. split; [exact I|].
  split; [intros n; unfold t_index; now rewrite X|]. split; [exact M|exact U].
Qed.
Print Assumptions C113_places.

(** With the tolerance 0, which is the default, nothing is changed: no edge is shorter than the shortest. *)
Theorem C113_zero : forall tol m, (tol <= 0)%Q -> wf_mesh m -> refs_ok m -> lines_ok m -> collapseNakedEdges tol m = Ok m.
Proof.
  intros tol m Ht W R L. destruct (naked_list m W R L) as (ids & mn & E & ND & Hi & Hl).
  unfold collapseNakedEdges. rewrite E. cbn [bind fst snd]. destruct mn as [x|]; [|reflexivity].
  destruct Hl as [(i0 & a0 & b0 & p0 & q0 & _ & _ & _ & _ & X0) Le].
  destruct (foldM_invariant (collapse_step (m_faces m) x tol) (fun _ t => t = m_nodes m) ids (m_nodes m)) as (t & Et & ->).
  - reflexivity.
  - intros done id rest t Ei ->. assert (I : In id ids) by (rewrite Ei; apply in_elt).
    destruct (proj1 (Hi id) I) as (a & b & N).
    destruct (moved_step m (m_nodes m) x tol id a b W R N (moved_start m W)) as (p & q & Hp & Hq & Es & _).
    eexists. split; [exact Es|].
    destruct (root_less (norm2 (vsub q p)) x tol) eqn:RL; [|reflexivity]. exfalso.
    apply root_less_spec in RL; [|apply norm2_nonneg|rewrite X0; apply norm2_nonneg].
    pose proof (Le id a b p q I N Hp Hq) as Lq. apply Qle_Rle in Lq. apply sqrt_le_1_alt in Lq.
    apply Qle_Rle in Ht. rewrite RMicromega.Q2R_0 in Ht. lra.
  - rewrite Et. cbn [bind]. now destruct m.
Qed.
Print Assumptions C113_zero.

(** With [l] the least length plus the tolerance: if no two naked edges shorter than [l] share a node, and the others are at
    least 3 [l] long, then the first node of each edge shorter than [l] moves to the second, and no other node moves. *)
Theorem C113_apart : forall tol m ll l, wf_mesh m -> refs_ok m -> lines_ok m ->
  least_length m ll -> l = (ll + Q2R tol)%R ->
  (forall id id' a b a' b' n, short m l id a b -> short m l id' a' b' -> (n = a \/ n = b) -> (n = a' \/ n = b') -> id = id') ->
  (forall id a b k, naked m id a b -> length_is m a b k -> (k < l \/ 3 * l <= k)%R) ->
  exists m', collapseNakedEdges tol m = Ok m' /\
    (forall id a b, short m l id a b -> t_get (m_nodes m') a = t_get (m_nodes m) b /\ t_get (m_nodes m') b = t_get (m_nodes m) b) /\
    (forall n, (forall id b, ~ short m l id n b) -> t_get (m_nodes m') n = t_get (m_nodes m) n) /\
    (forall a b, naked_edge m a b -> (length_is m a b ll /\ (0 < tol)%Q) -> length_is m' a b 0).
Proof.
  intros tol m ll l W R L Hll El Ap Gap. destruct (naked_list m W R L) as (ids & mn & E & ND & Hi & Hl).
  unfold collapseNakedEdges. rewrite E. cbn [bind fst snd]. destruct mn as [x|].
  2:{ exfalso. destruct Hll as [(a & b & [id N] & _) _]. cbn in Hl. subst ids. destruct (proj2 (Hi id)). eauto. }
  assert (Hx : (0 <= x)%Q) by (destruct Hl as [(? & ? & ? & p & q & _ & _ & _ & _ & ->) _]; apply norm2_nonneg).
  rewrite (least_unique m ll _ Hll (least_is m ids x Hi Hl)) in El.
  destruct (apart_all m ids x tol l W R ND (fun id => proj1 (Hi id)) Hx El Ap Gap) as (t & Et & M & P).
  rewrite Et. cbn [bind]. eexists. split; [reflexivity|]. cbn [m_nodes].
  assert (Sh : forall id a b, short m l id a b -> t_get t a = t_get (m_nodes m) b /\ t_get t b = t_get (m_nodes m) b).
  { intros id a b S. assert (I : In id ids) by (apply Hi; exists a, b; exact (proj1 S)).
    destruct (naked_refs m id a b R (proj1 W) (proj1 S)) as [[p Hp] [q Hq]].
    destruct (P a p Hp) as [P1 _]. rewrite (P1 id b q I S Hq). split; [congruence|].
    destruct (P b q Hq) as [Q1 Q2]. destruct (Z.eq_dec b a) as [->|Ne].
    - rewrite (Q1 id a q I S Hq). congruence.
    - rewrite Q2; [congruence|]. intros i k Ii Si.
      assert (i = id) by (eapply (Ap i id b k a b b); eauto). subst i.
      destruct (naked_det m id b k a b (proj1 Si) (proj1 S)) as [? _]. congruence. }
  split; [exact Sh|]. split.
  - intros n No. destruct (t_get (m_nodes m) n) as [c| |] eqn:Hc.
    + destruct (P n c Hc) as [_ P2]. apply P2. intros i k _. apply No.
    + destruct M as (Wt & I & _). unfold t_get, zat in *. destruct (zlookup n (t_map t)) eqn:Z0; [|reflexivity]. exfalso.
      assert (Hin : In n (t_ids t)) by (apply (proj2 (proj2 Wt)); congruence). rewrite I in Hin.
      apply (proj2 (proj2 (proj1 W))) in Hin. destruct (zlookup n (t_map (m_nodes m))); congruence.
    + unfold t_get, zat in Hc. destruct (zlookup n (t_map (m_nodes m))); discriminate.
  - intros a b [id N] [Hlen Ht]. assert (S : short m l id a b).
    { split; [exact N|]. exists ll. split; [exact Hlen|]. apply Qlt_Rlt in Ht. rewrite RMicromega.Q2R_0 in Ht.
      rewrite El, (least_unique m ll _ Hll (least_is m ids x Hi Hl)). lra. }
    destruct (Sh id a b S) as [Ha Hb]. destruct (naked_refs m id a b R (proj1 W) N) as [_ [q Hq]].
    exists q, q. cbn [m_nodes]. rewrite Ha, Hb. split; [exact Hq|]. split; [exact Hq|]. symmetry. now apply dist_same.
Qed.
Print Assumptions C113_apart.

(** A long rectangle whose short side [2;3] is one tenth long; its sides are naked. *)
Definition sliver : mesh :=
  Mesh (mk_table [(0, Coord 0 0 0); (1, Coord 4 0 0); (2, Coord 4 3 0); (3, Coord 4 (31#10) 0)])
    (mk_table [(0, Face FT_LINE [0; 1] false 0 0); (1, Face FT_LINE [1; 2] false 0 0); (2, Face FT_LINE [2; 3] false 0 0); (3, Face FT_LINE [3; 0] false 0 0)])
    (mk_table [(0, Element ET_QUADRILATERAL [0; 1; 2; 3] [0; 1; 2; 3])]).

(** The places of the nodes. *)
Definition places (r : outcome mesh) : option (list (Q * Q)) :=
  match r with Ok m => Some (map (fun x => (cx (snd x), cy (snd x))) (t_map (m_nodes m))) | _ => None end.

Lemma dist_root p q r : (norm2 (vsub q p) == r * r)%Q -> (0 <= r)%Q -> dist p q = Q2R r.
Proof.
  intros E H. unfold dist. rewrite (Qeq_eqR _ _ E), Q2R_mult. apply sqrt_square. now apply sqrt_Q_pos.
Qed.

Lemma sliver_naked id a b : naked sliver id a b -> (id = 0 /\ a = 0 /\ b = 1) \/ (id = 1 /\ a = 1 /\ b = 2) \/ (id = 2 /\ a = 2 /\ b = 3) \/ (id = 3 /\ a = 3 /\ b = 0).
Proof.
  intros (f & Hf & _ & _ & En). unfold t_get, zat in Hf. cbn in Hf.
  destruct (Z.eqb_spec id 0) as [->|]; [injection Hf as <-; injection En as <- <-; auto 9|].
  destruct (Z.eqb_spec id 1) as [->|]; [injection Hf as <-; injection En as <- <-; auto 9|].
  destruct (Z.eqb_spec id 2) as [->|]; [injection Hf as <-; injection En as <- <-; auto 9|].
  destruct (Z.eqb_spec id 3) as [->|]; [injection Hf as <-; injection En as <- <-; auto 9|discriminate].
Qed.

Example C113_case :
  wf_mesh sliver /\ refs_ok sliver /\ lines_ok sliver /\ least_length sliver (Q2R (1#10)) /\
  (forall id id' a b a' b' n, short sliver (Q2R (1#10) + Q2R (1#100)) id a b -> short sliver (Q2R (1#10) + Q2R (1#100)) id' a' b' ->
     (n = a \/ n = b) -> (n = a' \/ n = b') -> id = id') /\
  (forall id a b k, naked sliver id a b -> length_is sliver a b k -> (k < Q2R (1#10) + Q2R (1#100) \/ 3 * (Q2R (1#10) + Q2R (1#100)) <= k)%R) /\
  places (collapseNakedEdges (1#100) sliver) = Some [(0, 0); (4, 0); (4, 31#10); (4, 31#10)]%Q.
Proof.
  assert (L01 : dist (Coord 0 0 0) (Coord 4 0 0) = Q2R 4) by (apply dist_root; [reflexivity|discriminate]).
  assert (L12 : dist (Coord 4 0 0) (Coord 4 3 0) = Q2R 3) by (apply dist_root; [reflexivity|discriminate]).
  assert (L23 : dist (Coord 4 3 0) (Coord 4 (31#10) 0) = Q2R (1#10)) by (apply dist_root; [reflexivity|discriminate]).
  assert (L30 : (Q2R 4 <= dist (Coord 4 (31#10) 0) (Coord 0 0 0))%R).
  { rewrite <- L01. unfold dist. apply sqrt_le_1_alt, Qle_Rle. discriminate. }
  assert (Len : forall a b k, length_is sliver a b k -> (a = 0 /\ b = 1 -> k = Q2R 4) /\ (a = 1 /\ b = 2 -> k = Q2R 3) /\
    (a = 2 /\ b = 3 -> k = Q2R (1#10)) /\ (a = 3 /\ b = 0 -> (Q2R 4 <= k)%R)).
  { intros a b k (p & q & Hp & Hq & ->).
    split; [|split; [|split]]; intros [-> ->]; cbn in Hp, Hq; injection Hp as <-; injection Hq as <-; assumption. }
  assert (N4 : Q2R 4 = 4%R) by (unfold Q2R; cbn; lra). assert (N3 : Q2R 3 = 3%R) by (unfold Q2R; cbn; lra).
  assert (N1 : Q2R (1#10) = (1/10)%R) by (unfold Q2R; cbn; lra). assert (N0 : Q2R (1#100) = (1/100)%R) by (unfold Q2R; cbn; lra).
  assert (Only : forall id a b, short sliver (Q2R (1#10) + Q2R (1#100)) id a b -> id = 2).
  { intros id a b [N (k & Hk & Lt)]. destruct (Len a b k Hk) as (K1 & K2 & K3 & K4).
    destruct (sliver_naked id a b N) as [(-> & Ha & Hb)|[(-> & Ha & Hb)|[(-> & Ha & Hb)|(-> & Ha & Hb)]]]; [exfalso|exfalso|reflexivity|exfalso].
    - rewrite (K1 (conj Ha Hb)) in Lt. lra.
    - rewrite (K2 (conj Ha Hb)) in Lt. lra.
    - specialize (K4 (conj Ha Hb)). lra. }
  split; [apply wf_meshb_ok; reflexivity|]. split; [apply refs_okb_ok; reflexivity|].
  split.
  { intros id f Hf _. unfold t_get, zat in Hf. cbn in Hf.
    destruct (id =? 0); [injection Hf as <-; cbn; eauto|]. destruct (id =? 1); [injection Hf as <-; cbn; eauto|].
    destruct (id =? 2); [injection Hf as <-; cbn; eauto|]. destruct (id =? 3); [injection Hf as <-; cbn; eauto|discriminate]. }
  split; [|split; [|split]].
  - split.
    + exists 2, 3. split.
      * exists 2. eexists. split; [reflexivity|]. split; [reflexivity|]. split; reflexivity.
      * exists (Coord 4 3 0), (Coord 4 (31#10) 0). split; [reflexivity|]. split; [reflexivity|]. now symmetry.
    + intros a b k [id N] Hk. destruct (Len a b k Hk) as (K1 & K2 & K3 & K4).
      destruct (sliver_naked id a b N) as [(-> & Ha & Hb)|[(-> & Ha & Hb)|[(-> & Ha & Hb)|(-> & Ha & Hb)]]].
      * rewrite (K1 (conj Ha Hb)). lra.
      * rewrite (K2 (conj Ha Hb)). lra.
      * rewrite (K3 (conj Ha Hb)). lra.
      * specialize (K4 (conj Ha Hb)). lra.
  - intros id id' a b a' b' n S S' _ _. rewrite (Only _ _ _ S), (Only _ _ _ S'). reflexivity.
  - intros id a b k N Hk. destruct (Len a b k Hk) as (K1 & K2 & K3 & K4).
    destruct (sliver_naked id a b N) as [(-> & Ha & Hb)|[(-> & Ha & Hb)|[(-> & Ha & Hb)|(-> & Ha & Hb)]]].
    + rewrite (K1 (conj Ha Hb)). lra.
    + rewrite (K2 (conj Ha Hb)). lra.
    + rewrite (K3 (conj Ha Hb)). lra.
    + specialize (K4 (conj Ha Hb)). lra.
  - vm_compute. reflexivity.
Qed.

(** Short edges that share nodes are opened again by moving their second node: a triangle all of whose sides are
    within the tolerance keeps two of them, of length 5. *)
Theorem C113_chain_refuted :
  let m := Mesh (mk_table [(0, Coord 0 0 0); (1, Coord 4 0 0); (2, Coord 0 3 0)])
    (mk_table [(0, Face FT_LINE [0; 1] false 0 0); (1, Face FT_LINE [1; 2] false 0 0); (2, Face FT_LINE [2; 0] false 0 0)])
    (mk_table [(0, Element ET_TRIANGLE [0; 1; 2] [0; 1; 2])]) in
  wf_mesh m /\ refs_ok m /\ places (collapseNakedEdges 10 m) = Some [(4, 0); (0, 3); (4, 0)]%Q.
Proof.
  cbv zeta. split; [apply wf_meshb_ok; reflexivity|]. split; [apply refs_okb_ok; reflexivity|]. vm_compute. reflexivity.
Qed.
Print Assumptions C113_chain_refuted.
