(** Properties C35, C36, C65, C66, C67: constructive solid geometry. *)
From Coq Require Import QArith Qabs ZArith List Bool Lia Lqa Setoid.
From Verif Require Import Prelude Vec Seg_Model Seg_Spec Face_Spec Grid_Spec Poly_Model Csg_Model Csg_Spec Csg_Hull Csg_Split Csg_Proofs Csg_Bool Csg_Cube.
Import ListNotations.
Open Scope Q_scope.

(** ** C35: splitting *)
(** Every part lies in the polygon, keeps its normal, and its points are on its side of the plane. *)
Theorem C35_sides : forall h tol q r p, 0 <= tol -> points r p ->
  (In r (s_front (split h tol q)) -> pn r = pn q /\ points q p /\ p_d h - tol <= dot (p_normal h) p) /\
  (In r (s_back (split h tol q)) -> pn r = pn q /\ points q p /\ dot (p_normal h) p <= p_d h + tol).
Proof.
  intros h tol q r p Ht Hp. split; intros Hr.
  - pose proof (split_parts h tol q r Ht (in_front_parts _ _ _ _ Hr)) as P. split; [apply P|]. split; [exact (part_points _ _ _ P Hp)|].
    pose proof (split_front h tol q r Ht Hr p Hp) as V. unfold val in V. lra.
  - pose proof (split_parts h tol q r Ht (in_back_parts _ _ _ _ Hr)) as P. split; [apply P|]. split; [exact (part_points _ _ _ P Hp)|].
    pose proof (split_back h tol q r Ht Hr p Hp) as V. unfold val in V. lra.
Qed.
Print Assumptions C35_sides.

(** Polygons that do not span are passed on unchanged: coplanar ones to the list chosen by their normal,
    the others to the list of their side. *)
Theorem C35_unchanged : forall h tol q, 0 <= tol ->
  ((forall v, In v (pv q) -> p_d h - tol <= dot (p_normal h) v <= p_d h + tol) ->
     split h tol q = if Qlt_le_dec 0 (dot (p_normal h) (pn q)) then ([q], [], [], []) else ([], [q], [], [])) /\
  ((forall v, In v (pv q) -> p_d h - tol <= dot (p_normal h) v) -> (exists v, In v (pv q) /\ p_d h + tol < dot (p_normal h) v) ->
     split h tol q = ([], [], [q], [])) /\
  ((forall v, In v (pv q) -> dot (p_normal h) v <= p_d h + tol) -> (exists v, In v (pv q) /\ dot (p_normal h) v < p_d h - tol) ->
     split h tol q = ([], [], [], [q])).
Proof.
  intros h tol q Ht.
  destruct (split_cases h tol q Ht) as [[A D]|[((w & Hw & X) & A & E)|[((w & Hw & X) & A & E)|(u & w & Hu & Hw & X & Y & E)]]]; unfold val in *.
  - split; [|split].
    + intros _. destruct (Qlt_le_dec _ _) as [L|L]; destruct D as [[D E]|[D E]]; try exact E; lra.
    + intros _ (v & Hv & L). specialize (A v Hv). lra.
    + intros _ (v & Hv & L). specialize (A v Hv). lra.
  - split; [|split]; [intros H; specialize (H w Hw); lra|intros _ _; exact E|intros H; specialize (H w Hw); lra].
  - split; [|split]; [intros H; specialize (H w Hw); lra|intros H; specialize (H w Hw); lra|intros _ _; exact E].
  - split; [|split]; [intros H; specialize (H w Hw); lra|intros H; specialize (H w Hw); lra|intros H; specialize (H u Hu); lra].
Qed.
Print Assumptions C35_unchanged.

(** Nothing is lost: with tolerance 0 every point of a flat convex polygon is in a part on its side, and the
    parts are flat and convex again. *)
Theorem C35_exact : forall h q, convex_poly q ->
  (forall r, In r (all_parts (split h 0 q)) -> convex_poly r) /\
  (forall p, points q p <-> exists r, In r (all_parts (split h 0 q)) /\ points r p) /\
  (forall p, points q p -> p_d h < dot (p_normal h) p -> exists r, In r (s_front (split h 0 q)) /\ points r p) /\
  (forall p, points q p -> dot (p_normal h) p < p_d h -> exists r, In r (s_back (split h 0 q)) /\ points r p).
Proof.
  intros h q C. assert (Z : 0 <= 0) by lra. split; [|split; [|split]].
  - intros r Hr. apply (split_parts h 0 q r Z Hr). exact C.
  - intros p. split; [now apply split_cover|]. intros (r & Hr & Hp). exact (part_points _ _ _ (split_parts h 0 q r Z Hr) Hp).
  - intros p Hp V. apply split_cover_front; [exact C|exact Hp|unfold val; lra].
  - intros p Hp V. apply split_cover_back; [exact C|exact Hp|unfold val; lra].
Qed.
Print Assumptions C35_exact.

Definition unit_cube : list poly := csg_cube (Coord 0 0 0) (Coord 1 1 1).
Definition moved_cube : list poly := csg_cube (Coord 1 1 1) (Coord 1 1 1).
Lemma unit_body : convex_body unit_cube. Proof. apply cube_convex_body; reflexivity. Qed.
Lemma moved_body : convex_body moved_cube. Proof. apply cube_convex_body; reflexivity. Qed.
Definition top_face : poly := nth 5 unit_cube (Poly [] vzero).

Example C35_case : convex_poly top_face /\
  map (fun q => map (fun v => (Qred (cx v), Qred (cy v))) (pv q)) (s_front (split (Plane (Coord 1 0 0) (1#2)) 0 top_face)) =
    [[(1 # 2, - (1)); (1, - (1)); (1, 1); (1 # 2, 1); (1 # 2, - (1))]].
Proof.
  split; [|vm_compute; reflexivity]. destruct unit_body as (_ & _ & C & _). rewrite Forall_forall in C. apply C.
  apply nth_In. cbn. lia.
Qed.

(** ** C36: inversion and traversal *)
Theorem C36_invert_twice : forall t, invert (invert t) = t.
Proof. exact invert_twice. Qed.
Print Assumptions C36_invert_twice.

(** Inversion exchanges inside and outside: a point on no plane of the tree is inside the inverted tree
    exactly if it was not inside. *)
Theorem C36_invert_complement : forall t p, t <> Null -> planes_set t -> ~ on_some_plane t p ->
  (inside_open (invert t) p <-> ~ inside_open t p) /\ (outside_open t p <-> ~ inside_open t p).
Proof.
  intros t p N S O. rewrite invert_inside. destruct (in_or_out t p N S O) as [[A B]|[A B]]; tauto.
Qed.
Print Assumptions C36_invert_complement.

Theorem C36_all_polygons : forall t, fst (all_polygons t) = stored t.
Proof. exact all_polygons_stored. Qed.
Print Assumptions C36_all_polygons.

Definition tree_of (ps : list poly) : bsp := match bsp_of 0 ps with Ok t => t | _ => Null end.
Lemma ok_inj : forall {A} (x y : A), Ok x = Ok y -> x = y. Proof. intros A x y E. now injection E. Qed.
Lemma unit_tree : bsp_of 0 unit_cube = Ok (tree_of unit_cube). Proof. vm_compute. reflexivity. Qed.
Lemma unit_tree_spec : forall p, (within unit_cube p -> inside_open (tree_of unit_cube) p) /\ (beyond unit_cube p -> outside_open (tree_of unit_cube) p).
Proof.
  destruct (body_tree unit_cube unit_body) as (t & E' & H). rewrite unit_tree in E'. apply ok_inj in E'. intros p. rewrite E'. destruct (H p) as (A & B & _). tauto.
Qed.

Example C36_case : tree_of unit_cube <> Null /\ planes_set (tree_of unit_cube) /\ ~ on_some_plane (tree_of unit_cube) (Coord 0 0 0) /\
  length (stored (tree_of unit_cube)) = 6%nat.
Proof.
  split; [vm_compute; discriminate|]. split; [vm_compute; repeat split; discriminate|]. split; [vm_compute; intuition discriminate|vm_compute; reflexivity].
Qed.

(** The polygons of the subtrees are stored in the root; a second call returns them again. *)
Theorem C36_second_call_refuted : ~ (forall t, fst (all_polygons (snd (all_polygons t))) = fst (all_polygons t)).
Proof.
  intros H. specialize (H (tree_of unit_cube)). apply (f_equal (@length poly)) in H. revert H. vm_compute. discriminate.
Qed.
Print Assumptions C36_second_call_refuted.

(** ** C65: clipping polygons to a solid *)
(** Defined for every tree whose planes are set; what remains lies in the polygons and outside the solid. *)
Theorem C65_clip_sound : forall tol rcf t ps, 0 <= tol -> t <> Null -> planes_set t ->
  exists out, Csg_Model.clip tol rcf t ps = Ok out /\
    forall r, In r out -> exists q, In q ps /\ pn r = pn q /\ (convex_poly q -> convex_poly r) /\
      forall p, points r p -> points q p /\ outside_closed tol t p.
Proof.
  intros tol rcf t ps Ht N S. destruct (clip_defined tol rcf t S ps) as [out E]. exists out. split; [exact E|].
  intros r Hr. destruct (clip_sound tol rcf t Ht ps out E r Hr) as (q & Hq & P & O). exists q. split; [exact Hq|].
  split; [apply P|]. split; [apply P|]. intros p Hp. split; [exact (part_points _ _ _ P Hp)|now apply O].
Qed.
Print Assumptions C65_clip_sound.

(** With tolerance 0, no point outside the solid is lost. *)
Theorem C65_clip_complete : forall rcf t ps out q p, Csg_Model.clip 0 rcf t ps = Ok out -> In q ps -> convex_poly q -> points q p ->
  outside_open t p -> exists r, In r out /\ pn r = pn q /\ points r p.
Proof.
  intros rcf t ps out q p E Hq C Hp O. destruct (clip_complete rcf t ps out E q p Hq C Hp O) as (r & Hr & P & Rp).
  exists r. split; [exact Hr|]. split; [apply P|exact Rp].
Qed.
Print Assumptions C65_clip_complete.

(** Hence no point kept is strictly inside. *)
Theorem C65_kept_not_inside : forall t p, outside_closed 0 t p -> ~ inside_open t p.
Proof. exact closed_not_inside. Qed.
Print Assumptions C65_kept_not_inside.

Example C65_case : exists out, Csg_Model.clip 0 false (tree_of unit_cube) moved_cube = Ok out /\ length out = 12%nat /\
  outside_open (tree_of unit_cube) (Coord 2 (1#2) (1#2)) /\ inside_open (tree_of unit_cube) (Coord (1#2) (1#2) 0).
Proof.
  eexists. split; [vm_compute; reflexivity|]. split; [vm_compute; reflexivity|].
  split.
  - refine (proj2 (unit_tree_spec _) _). exists (nth 1 unit_cube (Poly [] vzero)). split; [apply nth_In; cbn; lia|vm_compute; reflexivity].
  - refine (proj1 (unit_tree_spec _) _). apply cube_within; cbn; lra.
Qed.

(** A node without polygons has no plane: clipping to the empty solid reads an indeterminate number. *)
Theorem C65_empty_solid_refuted : bsp_of 0 [] = Ok fresh /\ forall tol rcf q ps, Csg_Model.clip tol rcf fresh (q :: ps) = UB.
Proof. split; [reflexivity|]. reflexivity. Qed.
Print Assumptions C65_empty_solid_refuted.

(** ** C66: building *)
(** Building ends for flat polygons; every node has its plane; each stored polygon is part of a given one,
    and (with tolerance 0) every point of every convex polygon given is stored. *)
Theorem C66_build : forall tol ps, 0 <= tol -> ps <> [] -> Forall usable ps ->
  exists t, bsp_of tol ps = Ok t /\ t <> Null /\ planes_set t /\
    (forall r, In r (stored t) -> exists q, In q ps /\ pn r = pn q /\ forall p, points r p -> points q p) /\
    (tol = 0 -> forall q p, In q ps -> convex_poly q -> points q p -> exists r, In r (stored t) /\ pn r = pn q /\ points r p).
Proof.
  intros tol ps Ht N U. destruct (bsp_of_spec tol ps Ht N U) as (t & E & Nt & S & F & C). exists t. split; [exact E|]. split; [exact Nt|]. split; [exact S|]. split.
  - intros r Hr. destruct (F r Hr) as (q & Hq & P). exists q. split; [exact Hq|]. split; [apply P|]. intros p. now apply part_points.
  - intros T q p Hq Cq Hp. destruct (C T q p Hq Cq Hp) as (r & Hr & P & Rp). exists r. split; [exact Hr|]. split; [apply P|exact Rp].
Qed.
Print Assumptions C66_build.

(** The tree of a convex body is that body. *)
Theorem C66_convex_body : forall ps, convex_body ps -> exists t, bsp_of 0 ps = Ok t /\
  forall p, (inside_open t p <-> within ps p) /\ (outside_open t p <-> beyond ps p).
Proof. intros ps C. destruct (body_tree ps C) as (t & E & H). exists t. split; [exact E|]. intros p. destruct (H p) as (A & B & _). tauto. Qed.
Print Assumptions C66_convex_body.

(** The cube is such a body. *)
Theorem C66_cube : forall c r, 0 < cx r -> 0 < cy r -> 0 < cz r -> convex_body (csg_cube c r) /\
  forall p, within (csg_cube c r) p <->
    (cx c - cx r < cx p < cx c + cx r) /\ (cy c - cy r < cy p < cy c + cy r) /\ (cz c - cz r < cz p < cz c + cz r).
Proof. intros c r X Y Z. split; [now apply cube_convex_body|]. intros p. now apply cube_within. Qed.
Print Assumptions C66_cube.

Example C66_case : convex_body unit_cube /\ Forall usable unit_cube /\ within unit_cube (Coord 0 (1#2) 0) /\ beyond unit_cube (Coord 0 3 0).
Proof.
  split; [exact unit_body|]. split; [apply unit_body|]. split; [apply cube_within; cbn; lra|].
  exists (nth 3 unit_cube (Poly [] vzero)). split; [apply nth_In; cbn; lia|vm_compute; reflexivity].
Qed.

(** A polygon that is not flat (normal by calculateNormal) is handed to the front child again and again. *)
Definition warped : poly := let vs := [Coord 0 0 0; Coord 1 0 0; Coord 1 1 0; Coord 0 1 1; Coord 0 0 0] in Poly vs (pg_normal_any vs).
Theorem C66_warped_refuted : forall fuel, build (1#100) fuel fresh [warped] = UB.
Proof.
  induction fuel as [|fuel IH]; [reflexivity|].
  assert (E : build (1#100) (S fuel) fresh [warped] = (f' <- build (1#100) fuel fresh [warped] ;; Ok (Node (Some (Plane (pn warped) (dot (pn warped) (Coord 0 0 0)))) [] f' Null)))
    by reflexivity.
  rewrite E, IH. reflexivity.
Qed.
Print Assumptions C66_warped_refuted.

(** Building again on the same tree replaces its root plane: the solid is lost. *)
Definition far : poly := Poly [Coord (-5) 0 0; Coord (-5) 1 0; Coord (-5) 1 1; Coord (-5) 0 0] (Coord 1 0 0).
Theorem C66_second_build_refuted : exists t t', bsp_of 0 unit_cube = Ok t /\ build 0 2 t [far] = Ok t' /\
  inside_open t (Coord 0 0 0) /\ outside_open t' (Coord 0 0 0).
Proof.
  assert (H : match build 0 2 (tree_of unit_cube) [far] with Ok t' => outside_open t' (Coord 0 0 0) | _ => False end)
    by (vm_compute; left; split; [reflexivity|left; reflexivity]).
  exists (tree_of unit_cube). destruct (build 0 2 (tree_of unit_cube) [far]) as [t'| |]; [|contradiction|contradiction].
  exists t'. split; [exact unit_tree|]. split; [reflexivity|]. split; [|exact H].
  refine (proj1 (unit_tree_spec _) _). apply cube_within; cbn; lra.
Qed.
Print Assumptions C66_second_build_refuted.

(** ** C67: boolean operations *)
(** For all sets of flat polygons. The result of add() consists of parts of the first set outside the solid
    of the second and of parts of the second outside the solid of the first. *)
Theorem C67_add_sound : forall tol A B, 0 <= tol -> A <> [] -> B <> [] -> Forall usable A -> Forall usable B ->
  exists ta tb R, bsp_of tol A = Ok ta /\ bsp_of tol B = Ok tb /\ csg_add tol A B = Ok R /\
  forall r p, In r R -> points r p ->
     (exists q, In q A /\ pn r = pn q /\ points q p /\ outside_closed tol tb p) \/
     (exists q, In q B /\ pn r = pn q /\ points q p /\ outside_closed tol ta p).
Proof.
  intros tol A B Ht NA NB UA UB. destruct (add_spec tol A B Ht NA NB UA UB) as (ta & tb & R & Ea & Eb & ER & S & _).
  exists ta, tb, R. split; [exact Ea|]. split; [exact Eb|]. split; [exact ER|]. intros r p Hr Hp.
  destruct (S r Hr) as [(q & Hq & P & O)|(q & Hq & P & O)]; [left|right]; exists q; (split; [exact Hq|]); (split; [apply P|]); (split; [exact (part_points _ _ _ P Hp)|now apply O]).
Qed.
Print Assumptions C67_add_sound.

Theorem C67_subtract_sound : forall tol A B, 0 <= tol -> A <> [] -> B <> [] -> Forall usable A -> Forall usable B ->
  exists ta tb R, bsp_of tol A = Ok ta /\ bsp_of tol B = Ok tb /\ csg_subtract tol A B = Ok R /\
  forall r p, In r R -> points r p ->
     (exists q, In q A /\ pn r = pn q /\ points q p /\ outside_closed tol tb p) \/
     (exists q, In q B /\ pn r = vopp (pn q) /\ points q p /\ inside_closed tol ta p).
Proof.
  intros tol A B Ht NA NB UA UB. destruct (subtract_spec tol A B Ht NA NB UA UB) as (ta & tb & R & Ea & Eb & ER & S & _).
  exists ta, tb, R. split; [exact Ea|]. split; [exact Eb|]. split; [exact ER|]. intros r p Hr Hp.
  destruct (S r Hr) as [(q & Hq & P & O)|(q & Hq & P & O)]; [left|right]; exists q; (split; [exact Hq|]); (split; [apply P|]).
  - split; [exact (part_points _ _ _ P Hp)|now apply O].
  - split; [apply points_invert; exact (part_points _ _ _ P Hp)|now apply O].
Qed.
Print Assumptions C67_subtract_sound.

Theorem C67_intersect_sound : forall tol A B, 0 <= tol -> A <> [] -> B <> [] -> Forall usable A -> Forall usable B ->
  exists ta tb R, bsp_of tol A = Ok ta /\ bsp_of tol B = Ok tb /\ csg_intersect tol A B = Ok R /\
  forall r p, In r R -> points r p ->
     (exists q, In q A /\ pn r = pn q /\ points q p /\ inside_closed tol tb p) \/
     (exists q, In q B /\ pn r = pn q /\ points q p /\ inside_closed tol ta p).
Proof.
  intros tol A B Ht NA NB UA UB. destruct (intersect_spec tol A B Ht NA NB UA UB) as (ta & tb & R & Ea & Eb & ER & S & _).
  exists ta, tb, R. split; [exact Ea|]. split; [exact Eb|]. split; [exact ER|]. intros r p Hr Hp.
  destruct (S r Hr) as [(q & Hq & P & O)|(q & Hq & P & O)]; [left|right]; exists q; (split; [exact Hq|]); (split; [apply P|]); (split; [exact (part_points _ _ _ P Hp)|now apply O]).
Qed.
Print Assumptions C67_intersect_sound.

(** For convex bodies and tolerance 0, in terms of the bodies alone: the surface of the union. *)
Theorem C67_add_bodies : forall A B, convex_body A -> convex_body B -> exists R, csg_add 0 A B = Ok R /\
  (forall r p, In r R -> points r p ->
     (exists q, In q A /\ pn r = pn q /\ points q p /\ ~ within B p) \/
     (exists q, In q B /\ pn r = pn q /\ points q p /\ ~ within A p)) /\
  (forall q p, In q A -> points q p -> beyond B p -> exists r, In r R /\ pn r = pn q /\ points r p) /\
  (forall q p, In q B -> points q p -> beyond A p -> exists r, In r R /\ pn r = pn q /\ points r p).
Proof. exact add_bodies. Qed.
Print Assumptions C67_add_bodies.

(** The surface of the difference: that of A outside B, and that of B inside A turned inside out. *)
Theorem C67_subtract_bodies : forall A B, convex_body A -> convex_body B -> exists R, csg_subtract 0 A B = Ok R /\
  (forall r p, In r R -> points r p ->
     (exists q, In q A /\ pn r = pn q /\ points q p /\ ~ within B p) \/
     (exists q, In q B /\ pn r = vopp (pn q) /\ points q p /\ ~ beyond A p)) /\
  (forall q p, In q A -> points q p -> beyond B p -> exists r, In r R /\ pn r = pn q /\ points r p) /\
  (forall q p, In q B -> points q p -> within A p -> exists r, In r R /\ pn r = vopp (pn q) /\ points r p).
Proof. exact subtract_bodies. Qed.
Print Assumptions C67_subtract_bodies.

(** The surface of the intersection. *)
Theorem C67_intersect_bodies : forall A B, convex_body A -> convex_body B -> exists R, csg_intersect 0 A B = Ok R /\
  (forall r p, In r R -> points r p ->
     (exists q, In q A /\ pn r = pn q /\ points q p /\ ~ beyond B p) \/
     (exists q, In q B /\ pn r = pn q /\ points q p /\ ~ beyond A p)) /\
  (forall q p, In q A -> points q p -> within B p -> exists r, In r R /\ pn r = pn q /\ points r p) /\
  (forall q p, In q B -> points q p -> within A p -> exists r, In r R /\ pn r = pn q /\ points r p).
Proof. exact intersect_bodies. Qed.
Print Assumptions C67_intersect_bodies.

Definition count (x : outcome (list poly)) : nat := match x with Ok l => length l | _ => 0%nat end.
Example C67_case : convex_body unit_cube /\ convex_body moved_cube /\
  count (csg_add 0 unit_cube moved_cube) = 24%nat /\ count (csg_subtract 0 unit_cube moved_cube) = 15%nat /\ count (csg_intersect 0 unit_cube moved_cube) = 6%nat.
Proof. split; [exact unit_body|]. split; [exact moved_body|]. split; [vm_compute; reflexivity|]. split; vm_compute; reflexivity. Qed.

(** With an empty operand the result is undefined. *)
Theorem C67_empty_refuted : csg_add 0 unit_cube [] = UB /\ csg_add 0 [] unit_cube = UB /\ csg_subtract 0 unit_cube [] = UB /\ csg_intersect 0 unit_cube [] = UB.
Proof. split; [vm_compute; reflexivity|]. split; [vm_compute; reflexivity|]. split; vm_compute; reflexivity. Qed.
Print Assumptions C67_empty_refuted.
