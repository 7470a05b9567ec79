(** Properties of segments, vertex lists and line lists (C25-C29, C58, C59). *)
From Coq Require Import QArith Qabs ZArith List Lia Lqa Bool Permutation.
From Verif Require Import Prelude Vec Seg_Model Seg_Spec Seg_Proofs Seg_Lists.
Import ListNotations.
Open Scope Q_scope.

(** ** C25 *)

(** A segment that is not parallel to the plane (within tol) and has a point on the inner side: the
    clipped segment is exactly the inner part. *)
Theorem C25_clip_exact : forall s h tol, consistent s -> 0 <= tol ->
  tol < Qabs (dot (p_normal h) (vsub (s_end s) (s_start s))) ->
  (exists p, on s p /\ inside h p) ->
  forall p, on (clip s h tol) p <-> on s p /\ inside h p.
Proof. exact clip_exact. Qed.
Print Assumptions C25_clip_exact.

(** A segment without inner point is clipped to the zero-length segment at its start point. *)
Theorem C25_clip_outside : forall s h tol, consistent s -> 0 <= tol ->
  (forall p, on s p -> ~ inside h p) -> forall p, on (clip s h tol) p <-> p =v= s_start s.
Proof. exact clip_empty. Qed.
Print Assumptions C25_clip_outside.

(** For every plane, parallel or not: the result is part of the segment; its points are on the inner
    side up to tol, except for the zero-length result; and no point deeper than tol inside is lost. *)
Theorem C25_clip_always : forall s h tol, consistent s -> 0 <= tol ->
  (forall p, on (clip s h tol) p -> on s p) /\
  (forall p, on (clip s h tol) p -> dot (p_normal h) p <= p_d h + tol \/
     (p =v= s_start s /\ forall q, on (clip s h tol) q <-> q =v= s_start s)) /\
  (forall p, on s p -> dot (p_normal h) p < p_d h - tol -> on (clip s h tol) p).
Proof.
  exact (fun s h tol Hc Ht => conj (fun p => clip_contained s h tol p Hc Ht)
    (conj (fun p => clip_side s h tol p Hc Ht) (fun p => clip_loses_only_near s h tol p Hc Ht))).
Qed.
Print Assumptions C25_clip_always.

Example C25_case :
  let s := line_of (Coord (-1) 2 0) (Coord 3 4 0) in let h := Plane (Coord 1 0 0) 1 in
  consistent s /\ (1 # 10) < Qabs (dot (p_normal h) (vsub (s_end s) (s_start s))) /\
  (exists p, on s p /\ inside h p) /\
  s_start (clip s h (1 # 10)) =v= Coord (-1) 2 0 /\ s_end (clip s h (1 # 10)) =v= Coord 1 3 0.
Proof.
  cbv zeta. split; [apply line_of_consistent|]. split; [reflexivity|]. split.
  - exists (Coord (-1) 2 0). split; [apply on_start|]. unfold inside. cbn. unfold dot. cbn. lra.
  - split; repeat split; reflexivity.
Qed.
Example C25_case_outside :
  let s := line_of (Coord 2 2 0) (Coord 3 4 0) in let h := Plane (Coord 1 0 0) 1 in
  forall p, on s p -> ~ inside h p.
Proof.
  cbv zeta. intros p (t & H0 & H1 & Hp). unfold inside. rewrite Hp. unfold dot, at_param. cbn. lra.
Qed.

(** ** C26 *)

(** With zero tolerance the answer is the nearest point of the segment. *)
Theorem C26_nearest_point : forall s p q d2, consistent s -> dist_point s p 0 = Some (q, d2) ->
  on s q /\ d2 == norm2 (vsub p q) /\ (forall x, on s x -> norm2 (vsub p q) <= norm2 (vsub p x)).
Proof. exact dist_point_exact. Qed.
Print Assumptions C26_nearest_point.

(** With a tolerance the answer may leave the segment by tol (relative to its length) at each end, and
    is never farther than any point of the segment. *)
Theorem C26_nearest_point_tolerance : forall s p tol q d2, consistent s -> 0 <= tol -> dist_point s p tol = Some (q, d2) ->
  d2 == norm2 (vsub p q) /\
  (exists t, - tol <= t /\ t <= 1 + tol /\ q =v= at_param s t) /\
  (forall x, on s x -> norm2 (vsub p q) <= norm2 (vsub p x)).
Proof. exact dist_point_some. Qed.
Print Assumptions C26_nearest_point_tolerance.

(** It fails exactly on segments no longer than the tolerance. *)
Theorem C26_fails_iff_short : forall s p tol, consistent s ->
  (dist_point s p tol = None <-> norm2 (vsub (s_end s) (s_start s)) <= tol * tol).
Proof. exact dist_point_answers. Qed.
Print Assumptions C26_fails_iff_short.

Example C26_case :
  let s := line_of (Coord 0 0 0) (Coord 4 0 0) in
  exists q d2, dist_point s (Coord 1 2 2) 0 = Some (q, d2) /\ q =v= Coord 1 0 0 /\ d2 == 8.
Proof. eexists _, _. split; [reflexivity|]. split; repeat split; reflexivity. Qed.
Example C26_case_end :
  let s := line_of (Coord 0 0 0) (Coord 4 0 0) in
  exists q d2, dist_point s (Coord 7 4 0) 0 = Some (q, d2) /\ q =v= Coord 4 0 0 /\ d2 == 25.
Proof. eexists _, _. split; [reflexivity|]. split; repeat split; reflexivity. Qed.

(** ** C27 *)

(** Any history of calls whose last setter is setEndPoint, possibly followed by inversions, leaves the
    direction equal to end minus start. *)
Theorem C27_consistent_after_end : forall s cs p k, consistent (calls s (cs ++ SetEnd p :: repeat Invert k)).
Proof. exact calls_end_last. Qed.
Print Assumptions C27_consistent_after_end.

(** invert() swaps the end points of a consistent segment and keeps it consistent. *)
Theorem C27_invert_swaps : forall s, consistent s ->
  s_start (line_invert s) =v= s_end s /\ s_end (line_invert s) =v= s_start s /\ consistent (line_invert s).
Proof. exact (fun s H => conj (proj1 (invert_swaps s H)) (conj (proj2 (invert_swaps s H)) (invert_consistent s H))). Qed.
Print Assumptions C27_invert_swaps.

(** setStartPoint on a consistent segment leaves it consistent only if the point does not move. *)
Theorem C27_start_last_stale : forall s p, consistent s -> (consistent (set_start s p) <-> p =v= s_start s).
Proof. exact set_start_stale. Qed.
Print Assumptions C27_start_last_stale.

(** What goes wrong: after moving the start, invert() yields end points that are off by the move. *)
Theorem C27_stale_invert : forall s p, consistent s ->
  s_start (line_invert (set_start s p)) =v= vadd (s_end s) (vsub p (s_start s)) /\
  s_end (line_invert (set_start s p)) =v= s_start s.
Proof. exact stale_invert. Qed.
Print Assumptions C27_stale_invert.

(** The order of the two setters does not matter: false. *)
Theorem C27_setter_order_refuted : exists p q,
  s_start (calls line_default [SetEnd q; SetStart p]) =v= p /\
  s_end (calls line_default [SetEnd q; SetStart p]) =v= q /\
  ~ mid_point (calls line_default [SetEnd q; SetStart p]) 1 =v= q /\
  mid_point (calls line_default [SetStart p; SetEnd q]) 1 =v= q.
Proof.
  exists (Coord 1 0 0), (Coord 3 0 0). split; [repeat split; reflexivity|]. split; [repeat split; reflexivity|].
  split; [|repeat split; reflexivity]. intros (H & _ & _). vm_compute in H. discriminate.
Qed.
Print Assumptions C27_setter_order_refuted.

Example C27_case : consistent (calls line_default [SetEnd (Coord 1 1 1); SetStart (Coord 2 0 0); SetEnd (Coord 5 0 1); Invert]).
Proof. exact (C27_consistent_after_end line_default [SetEnd (Coord 1 1 1); SetStart (Coord 2 0 0)] (Coord 5 0 1) 1). Qed.

(** ** C28 *)

Theorem C28_invert_involutive : forall l, vl_invert (vl_invert l) = l.
Proof. exact (@rev_involutive coord). Qed.
Print Assumptions C28_invert_involutive.

(** removeDuplicates only deletes (order kept); afterwards no two neighbours are equal; every vertex
    of the input is still represented; a list without equal neighbours is unchanged. *)
Theorem C28_remove_duplicates : forall l,
  sublist l (vl_remove_duplicates l) /\
  (forall k a b, nth_error (vl_remove_duplicates l) k = Some a -> nth_error (vl_remove_duplicates l) (S k) = Some b -> ~ a =v= b) /\
  (forall v, In v l -> exists u, In u (vl_remove_duplicates l) /\ u =v= v) /\
  ((forall k a b, nth_error l k = Some a -> nth_error l (S k) = Some b -> ~ a =v= b) -> vl_remove_duplicates l = l).
Proof.
  exact (fun l => conj (remove_duplicates_sub l) (conj (remove_duplicates_distinct l)
    (conj (remove_duplicates_keeps l) (remove_duplicates_fix l)))).
Qed.
Print Assumptions C28_remove_duplicates.

(** removeCollinear keeps the first and the last vertex and exactly those interior vertices at which
    the original polyline turns, in order; a single vertex makes it write out of range. *)
Theorem C28_remove_collinear : forall turns l, (2 <= length l)%nat ->
  vl_remove_collinear turns l =
  Ok (firstn 1 l ++
      map (fun i => nth i l vzero)
        (filter (fun i => turns (vsub (nth (i + 1) l vzero) (nth i l vzero)) (vsub (nth i l vzero) (nth (i - 1) l vzero)))
           (seq 1 (length l - 2))) ++ [last l vzero]).
Proof. exact remove_collinear_spec. Qed.
Print Assumptions C28_remove_collinear.

Theorem C28_remove_collinear_single_refuted : forall turns v, vl_remove_collinear turns [v] = UB.
Proof. exact remove_collinear_single. Qed.
Print Assumptions C28_remove_collinear_single_refuted.

(** A vertex just inserted is the one read back, and removing it restores the list. setVertex changes
    that vertex only. *)
Theorem C28_insert_remove : forall l i v l', (zlen l < 2 ^ 62)%Z -> vl_insert l i v = Ok l' ->
  vl_vertex l' i = Ok v /\ vl_remove l' i = Ok l.
Proof. exact (fun l i v l' Hb H => conj (insert_vertex l i v l' Hb H) (insert_remove l i v l' H)). Qed.
Print Assumptions C28_insert_remove.

Theorem C28_set_vertex : forall l i v l', vl_set l i v = Ok l' ->
  vl_vertex l' i = Ok v /\ length l' = length l /\
  (forall k, wrap_index l k <> wrap_index l i -> vl_vertex l' k = vl_vertex l k).
Proof. exact set_vertex. Qed.
Print Assumptions C28_set_vertex.

Definition zigzag : list coord :=
  [Coord 0 0 0; Coord 0 0 0; Coord 1 0 0; Coord (4 # 2) 0 0; Coord 2 0 0; Coord 2 1 0; Coord 2 0 0].
Example C28_case :
  length (vl_remove_duplicates zigzag) = 5%nat /\
  vl_remove_collinear (fun u v => negb (Qle_bool (norm2 (cross u v)) 0)) (vl_remove_duplicates zigzag)
    = Ok [Coord 0 0 0; Coord (4 # 2) 0 0; Coord 2 0 0] /\
  (exists l', vl_insert zigzag 2 (Coord 9 9 9) = Ok l' /\ length l' = 8%nat).
Proof. split; [reflexivity|]. split; [reflexivity|]. eexists. split; reflexivity. Qed.

(** ** C29 *)

(** sort() keeps the collection of undirected lines and the first line; and wherever some later line
    still comes near the end of line i, line i+1 starts there. *)
Theorem C29_sort : forall tol l, Forall consistent l ->
  same_lines l (line_sort tol l) /\
  nth_error (line_sort tol l) 0 = nth_error l 0 /\
  (forall i k, (i < k)%nat -> touches tol (line_sort tol l) i k -> follows tol (line_sort tol l) i).
Proof. exact line_sort_spec. Qed.
Print Assumptions C29_sort.

(** If the lines, in some order and orientation m beginning with the first line as given, form a simple
    path, sort() produces exactly m. *)
Theorem C29_sort_path : forall tol l m a b, Forall consistent l -> same_lines l m ->
  nth_error l 0 = Some a -> nth_error m 0 = Some b -> same_directed a b -> simple_path tol m ->
  Forall2 same_directed (line_sort tol l) m.
Proof. exact path_sorted. Qed.
Print Assumptions C29_sort_path.

(** sort() never extends a path backwards: a list that could be chained may stay unchained. *)
Theorem C29_sort_chains_refuted : exists l m, Forall consistent l /\ Permutation l m /\ chained 0 m /\
  ~ chained 0 (line_sort 0 l).
Proof.
  exists [line_of (Coord 1 0 0) (Coord 2 0 0); line_of (Coord 0 0 0) (Coord 1 0 0)],
         [line_of (Coord 0 0 0) (Coord 1 0 0); line_of (Coord 1 0 0) (Coord 2 0 0)].
  split; [repeat constructor; apply line_of_consistent|]. split; [apply perm_swap|]. split.
  - intros [|i] Hi; cbn in Hi; [|lia]. eexists _, _. split; [reflexivity|split; [reflexivity|]]. split; vm_compute; discriminate.
  - intros H. destruct (H 0%nat) as (a & b & Ha & Hb & Hn); [vm_compute; lia|]. vm_compute in Ha, Hb.
    injection Ha as <-. injection Hb as <-. destruct Hn as [_ Hn]. vm_compute in Hn. now apply Hn.
Qed.
Print Assumptions C29_sort_chains_refuted.

(** invert() on the list reverses the order and every line; doing it twice restores the list. *)
Theorem C29_invert : forall l, Forall consistent l ->
  length (lines_invert l) = length l /\
  (forall i s r, nth_error l i = Some s -> nth_error (lines_invert l) (length l - 1 - i) = Some r ->
     s_start r =v= s_end s /\ s_end r =v= s_start s) /\
  Forall2 same_directed (lines_invert (lines_invert l)) l.
Proof. exact lines_invert_spec. Qed.
Print Assumptions C29_invert.

Definition path_lines : list segment :=
  [line_of (Coord 0 0 0) (Coord 1 0 0); line_of (Coord 1 1 0) (Coord 0 1 0); line_of (Coord 1 1 0) (Coord 1 0 0); line_of (Coord 0 0 0) (Coord 0 1 0)].
Definition path_order : list segment :=
  [line_of (Coord 0 0 0) (Coord 1 0 0); line_of (Coord 1 0 0) (Coord 1 1 0); line_of (Coord 1 1 0) (Coord 0 1 0); line_of (Coord 0 1 0) (Coord 0 0 0)].
Example C29_case : Forall consistent path_lines /\ same_lines path_lines path_order /\ simple_path (1 # 8) path_order /\
  Forall2 same_directed (line_sort (1 # 8) path_lines) path_order.
Proof.
  assert (Hc : Forall consistent path_lines) by (repeat constructor; apply line_of_consistent).
  assert (Hs : same_lines path_lines path_order).
  { exists [nth 0 path_lines line_default; nth 2 path_lines line_default; nth 1 path_lines line_default; nth 3 path_lines line_default].
    split; [apply perm_skip, perm_swap|]. constructor; [left; repeat split; reflexivity|].
    constructor; [right; repeat split; reflexivity|]. constructor; [left; repeat split; reflexivity|].
    constructor; [right; repeat split; reflexivity|constructor]. }
  assert (Hp : simple_path (1 # 8) path_order).
  { split.
    - intros i Hi. cbn in Hi. destruct i as [|[|[|i]]]; [| | |lia]; eexists _, _; (split; [reflexivity|split; [reflexivity|]]); split; vm_compute; discriminate.
    - intros i k a b Ha Hb Hik Hn.
      assert (Hk : (k < 4)%nat) by (change 4%nat with (length path_order); apply nth_error_Some; congruence).
      destruct i as [|[|[|i]]]; [| | |lia]; (destruct k as [|[|[|[|k]]]]; [lia| | | |lia]); try lia;
        injection Ha as <-; injection Hb as <-;
        (split; [try reflexivity; exfalso; destruct Hn as [[_ Hn]|[_ Hn]]; vm_compute in Hn; now apply Hn
                |intros [_ Hm]; vm_compute in Hm; now apply Hm]). }
  split; [exact Hc|]. split; [exact Hs|]. split; [exact Hp|].
  eapply C29_sort_path; [exact Hc|exact Hs|reflexivity|reflexivity|split; reflexivity|exact Hp].
Qed.

(** ** C58 *)

(** distance(line) minimises over the first segment and the unbounded line through the second one. *)
Theorem C58_segment_to_line : forall s r tol p1 p2 d2, consistent s -> consistent r -> 0 <= tol ->
  dist_line s r tol = Some (p1, p2, d2) ->
  d2 == norm2 (vsub p2 p1) /\
  (exists t, - tol <= t /\ t <= 1 + tol /\ p1 =v= at_param s t) /\
  on_line r p2 /\
  (forall x y, on s x -> on_line r y -> norm2 (vsub p2 p1) <= norm2 (vsub y x)).
Proof. exact dist_line_some. Qed.
Print Assumptions C58_segment_to_line.

(** It fails exactly when the squared area spanned by the directions is at most tol. *)
Theorem C58_fails_iff_parallel : forall s r tol, consistent s -> consistent r -> 0 <= tol ->
  (dist_line s r tol = None <->
   norm2 (cross (vsub (s_end s) (s_start s)) (vsub (s_end r) (s_start r))) <= tol).
Proof. exact dist_line_answers. Qed.
Print Assumptions C58_fails_iff_parallel.

(** The returned distance is the distance between the two segments: false; the second point may lie
    off the second segment, and then the value is strictly smaller than every true distance. *)
Theorem C58_segment_to_segment_refuted : exists s r p1 p2 d2, consistent s /\ consistent r /\
  dist_line s r 0 = Some (p1, p2, d2) /\ ~ on r p2 /\
  (forall x y, on s x -> on r y -> d2 < norm2 (vsub y x)).
Proof.
  exists (line_of (Coord 0 0 0) (Coord 1 0 0)), (line_of (Coord (1 # 2) 1 0) (Coord (1 # 2) 2 0)).
  eexists _, _, _. split; [apply line_of_consistent|]. split; [apply line_of_consistent|]. split; [reflexivity|]. split.
  - intros (t & H0 & H1 & (_ & H & _)).
    match type of H with ?a == _ => assert (E : a == 0) by reflexivity; rewrite E in H end. cbn in H. lra.
  - intros x y (t & H0 & H1 & (Hx & Hy & Hz)) (u & H2 & H3 & (Gx & Gy & Gz)). cbn in Hx, Hy, Hz, Gx, Gy, Gz.
    unfold norm2, dot. cbn [vsub cx cy cz]. rewrite Hx, Hy, Hz, Gx, Gy, Gz.
    match goal with |- ?a < _ => assert (E : a == 0) by reflexivity; rewrite E end.
    nra.
Qed.
Print Assumptions C58_segment_to_segment_refuted.

Example C58_case :
  exists p1 p2 d2, dist_line (line_of (Coord 0 0 0) (Coord 1 0 0)) (line_of (Coord 3 (-1) 2) (Coord 3 1 2)) 0 = Some (p1, p2, d2) /\
    p1 =v= Coord 1 0 0 /\ p2 =v= Coord 3 0 2 /\ d2 == 8.
Proof. eexists _, _, _. split; [reflexivity|]. split; [repeat split; reflexivity|split; [repeat split; reflexivity|reflexivity]]. Qed.

(** ** C59 *)

(** intersects(plane), unit normal, segment not parallel within tol^2: a reported point is on the plane
    and on the segment (extended by tol at each end), and a segment that meets the plane is reported. *)
Theorem C59_plane_intersection : forall s h tol, consistent s -> 0 <= tol -> norm2 (p_normal h) == 1 ->
  tol * tol < Qabs (dot (p_normal h) (vsub (s_end s) (s_start s))) ->
  (forall p v, cut_plane s h tol = Some (p, v) ->
     dot (p_normal h) p == p_d h /\ exists t, - tol <= t /\ t <= 1 + tol /\ p =v= at_param s t) /\
  (cut_plane s h tol = None -> forall p, on s p -> ~ dot (p_normal h) p == p_d h).
Proof. exact cut_plane_spec. Qed.
Print Assumptions C59_plane_intersection.

(** Without the unit-normal hypothesis the reported point can miss the plane that clip() cuts with. *)
Theorem C59_normal_length_refuted : exists s h p v, consistent s /\ cut_plane s h 0 = Some (p, v) /\
  ~ dot (p_normal h) p == p_d h /\ dot (p_normal h) (s_end (clip s h 0)) == p_d h.
Proof.
  exists (line_of (Coord 0 0 0) (Coord 4 0 0)), (Plane (Coord 2 0 0) 2). eexists _, _.
  split; [apply line_of_consistent|]. split; [reflexivity|]. split; [vm_compute; discriminate|reflexivity].
Qed.
Print Assumptions C59_normal_length_refuted.

Example C59_case :
  let s := line_of (Coord (-1) 2 0) (Coord 3 4 0) in let h := Plane (Coord (3 # 5) (4 # 5) 0) 2 in
  norm2 (p_normal h) == 1 /\ (1 # 100) < Qabs (dot (p_normal h) (vsub (s_end s) (s_start s))) /\
  exists p, cut_plane s h (1 # 10) = Some (p, false) /\ dot (p_normal h) p == 2.
Proof. cbv zeta. split; [reflexivity|]. split; [reflexivity|]. eexists. split; reflexivity. Qed.
