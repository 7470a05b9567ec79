(** C106: flipping edges of a triangulated surface (CStlUtils::flipEdges). *)
From Coq Require Import ZArith List Bool QArith Reals Qreals Lia Lra.
From Verif Require Import Prelude Vec ZMap Mesh_Proofs HashGrid_Model Surf_Model Surf_Spec Surf_Proofs Split_Props Remesh_Model Remesh_Spec Remesh_Proofs.
Import ListNotations.
Open Scope Z_scope.
Ltac Zify.zify_post_hook ::= Z.div_mod_to_equations.

(** For all surfaces whose facets are correctly linked, all angles and whatever normals are remembered: the surface keeps its facets' numbers, its vertices and its boundary (a closed surface stays
    closed); every facet is as before or has been exchanged together with one neighbour, with which it lies nearly in one plane if the remembered normals were right; the worst quality of all facets
    does not decrease. The links stay what they were. *)
Theorem C106_flip : forall swap tiny memo s, glued s ->
  exists s' memo', flip_edges swap tiny memo s = Ok (s', memo') /\ u_ids s' = u_ids s /\ well_stored s' /\
    (forall x y, net s' x y = net s x y) /\
    (forall p, vertex_of s' p <-> vertex_of s p) /\
    (forall id, In id (u_ids s) -> facet s' id = facet s id \/ exists a b, (id = a \/ id = b) /\ exchanged s s' a b /\ (right memo s -> nearly_flat swap tiny s a b)) /\
    (forall q, (forall id, In id (u_ids s) -> (q <= quality (facet s id))%R) -> forall id, In id (u_ids s') -> (q <= quality (facet s' id))%R) /\
    (forall id k, across s' id k = across s id k /\ apart s' id k = apart s id k).
Proof.
  intros swap tiny memo s G. destruct (flip_all_ok swap tiny memo s G) as (st & R & F). exists (f_surf st), (f_memo st). unfold flip_edges. rewrite R. cbn [bind]. split; [reflexivity|].
  assert (C : forall id, In id (u_ids s) -> facet (f_surf st) id = facet s id \/ exists a b, (id = a \/ id = b) /\ exchanged s (f_surf st) a b /\ flat_if swap tiny memo s a b).
  { intros id _. destruct (in_dec Z.eq_dec id (f_done st)) as [D|D]; [right|left; now apply (fl_same _ _ _ _ st F)]. destruct (fl_pairs _ _ _ _ st F id D) as (a & b & E & _ & _ & X & Y). exists a, b. auto. }
  split; [apply (fl_ids _ _ _ _ st F)|]. split; [apply (fl_well _ _ _ _ st F)|]. split; [apply (fl_net _ _ _ _ st F)|]. split; [|split; [exact C|split]].
  - intros p. symmetry. apply exchanged_vertex; [apply (fl_ids _ _ _ _ st F)|]. intros id I. destruct (C id I) as [H|(a & b & H1 & H2 & _)]; [now left|right; now exists a, b].
  - intros q H id I. rewrite (fl_ids _ _ _ _ st F) in I. destruct (C id I) as [E|(a & b & E & (_ & Ia & Ib & _ & Q) & _)]; [rewrite E; now apply H|].
    assert (Qa := H a Ia). assert (Qb := H b Ib). revert Q. unfold Rmin. destruct (Rle_dec (quality (facet s a)) _), (Rle_dec (quality (facet (f_surf st) a)) _); destruct E as [->| ->]; lra.
  - intros id k. assert (L := fl_links _ _ _ _ st F id k). unfold link in L. injection L as L1 L2. auto.
Qed.
Print Assumptions C106_flip.

(** ** Two facets with a common edge from [a] to [b] *)
Definition two (a b c d : coord) : surf := u_add (u_add u_empty 0 (SFacet (a, b, c) (1, -1, -1) (2, -1, -1))) 1 (SFacet (b, a, d) (0, -1, -1) (2, -1, -1)).
Lemma two_well a b c d : well_stored (two a b c d).
Proof. unfold two. repeat (apply well_add; [| |lia]); try apply well_empty; cbn; lia. Qed.
Lemma two_glued a b c d : glued (two a b c d).
Proof.
  apply gluedb_spec; [apply two_well|]. assert (Q : forall p, Qsame p p = true) by (intros p; apply Qsame_spec; reflexivity). unfold gluedb. cbn. now rewrite !Q.
Qed.
Lemma normal_angle_same n : normal_angle n n = if Qeq_bool (norm2 n) 0 then acos 0 else 0%R.
Proof.
  unfold normal_angle. destruct (Qeq_bool (norm2 n) 0) eqn:E; [reflexivity|]. cbn [orb]. assert (H : (0 < Q2R (norm2 n))%R). { apply Qeq_bool_neq in E. rewrite <- Q2R_0. apply Qlt_Rlt. destruct (Qle_lt_or_eq _ _ (norm2_nonneg n)) as [H|H]; [exact H|]. symmetry in H. contradiction. }
  rewrite sqrt_square by lra. fold (norm2 n). replace (Q2R (norm2 n) / Q2R (norm2 n))%R with 1%R by (field; lra). rewrite Rmax_left by lra. rewrite Rmin_left by lra. apply acos_1.
Qed.
Lemma acos_0 : (0 <= acos 0 < 5 / 2)%R.
Proof. assert (B := acos_bound 0). split; [lra|]. rewrite acos_asin by lra. rewrite asin_0. assert (P := PI_4). lra. Qed.
Lemma two_flip swap tiny a b c d : let f := SFacet (a, b, c) (1, -1, -1) (2, -1, -1) in let g := SFacet (b, a, d) (0, -1, -1) (2, -1, -1) in
  let f' := SFacet (a, d, c) (1, -1, -1) (2, -1, -1) in let g' := SFacet (b, c, d) (0, -1, -1) (2, -1, -1) in
  (Rabs (normal_angle (raw_normal f) (raw_normal g)) < swap)%R -> (0 < half_length (raw_normal f) + half_length (raw_normal g))%R ->
  (Rmin (quality f) (quality g) < Rmin (quality f') (quality g'))%R ->
  flip_edges swap tiny zempty (two a b c d) = Ok (u_put (u_put (two a b c d) 0 f') 1 g', zinsert 1 (raw_normal g) (zinsert 0 (raw_normal f) zempty)).
Proof.
  intros f g f' g' Ha Hp Hq. unfold flip_edges. change (u_ids (two a b c d)) with [0; 1]. cbn [foldM].
  assert (S0 : flip_facet swap tiny (FState (two a b c d) zempty []) 0 = Ok (FState (u_put (u_put (two a b c d) 0 f') 1 g') (zinsert 1 (raw_normal g) (zinsert 0 (raw_normal f) zempty)) [0; 1])).
  { unfold flip_facet. change (u_get (f_surf (FState (two a b c d) zempty [])) 0) with (Ok f). cbn [bind f_done f_surf f_memo is_done existsb]. change (recall (zlookup 0 zempty) f) with (raw_normal f). cbn [foldM].
    assert (E0 : flip_edge swap tiny 0 (FState (two a b c d) (zinsert 0 (raw_normal f) zempty) []) 0 = Ok (FState (u_put (u_put (two a b c d) 0 f') 1 g') (zinsert 1 (raw_normal g) (zinsert 0 (raw_normal f) zempty)) [0; 1])).
    { unfold flip_edge. cbn [f_surf f_done f_memo is_done existsb]. change (u_get (two a b c d) 0) with (Ok f). cbn [bind]. change (tget (sf_nb f) 0) with 1. change (tget (sf_vn f) 0) with 2. cbn [Z.eqb]. change (u_get (two a b c d) 1) with (Ok g). cbn [bind]. change ((2 <? 0) || (2 <? 2)) with false. cbn iota zeta.
      change (recall (zlookup 0 (zinsert 0 (raw_normal f) zempty)) f) with (raw_normal f). change (recall (zlookup 1 (zinsert 0 (raw_normal f) zempty)) g) with (raw_normal g). change (tget (sf_v g) 2) with d. change (tget (sf_v f) 0) with a. change (tget (sf_v f) 1) with b. change (tget (sf_v f) 2) with c.
      destruct (Rlt_dec _ swap) as [_|X]; [|contradiction]. unfold flip_pair. cbn [swapped Z.eqb fst snd]. change (SFacet (a, d, c) (sf_nb f) (sf_vn f)) with f'. change (SFacet (b, c, d) (sf_nb g) (sf_vn g)) with g'. cbv zeta. cbn [recall f_surf f_memo f_done].
      destruct (Rlt_dec (Rmin (quality f) (quality g)) _) as [_|X]; [|contradiction]. rewrite !normal_angle_same. assert (A0 := acos_0).
      assert (B : forall n, (Rabs (if Qeq_bool (norm2 n) 0 then acos 0 else 0) < 5 / 2)%R) by (intros n; destruct (Qeq_bool _ _); [rewrite Rabs_pos_eq; lra|rewrite Rabs_R0; lra]).
      match goal with |- context [Rlt_dec (Rabs ?x) (5 / 2)] => destruct (Rlt_dec (Rabs x) (5 / 2)) as [_|X]; [|exfalso; apply X; destruct (Rlt_dec _ _); [apply B|rewrite Rabs_R0; lra]] end.
      match goal with |- context [Rlt_dec (Rabs ?x) (5 / 2)] => destruct (Rlt_dec (Rabs x) (5 / 2)) as [_|X]; [|exfalso; apply X; apply B] end.
      match goal with |- context [Rlt_dec (Rabs ?x) (?y * (1 / 100))] => destruct (Rlt_dec (Rabs x) (y * (1 / 100))) as [_|X]; [|exfalso; apply X; replace x with 0%R by lra; rewrite Rabs_R0; lra] end. reflexivity. }
    rewrite E0. reflexivity. }
  rewrite S0. reflexivity.
Qed.
(** The same for facets with the same normal. *)
Lemma two_flat swap tiny a b c d n : let f := SFacet (a, b, c) (1, -1, -1) (2, -1, -1) in let g := SFacet (b, a, d) (0, -1, -1) (2, -1, -1) in
  let f' := SFacet (a, d, c) (1, -1, -1) (2, -1, -1) in let g' := SFacet (b, c, d) (0, -1, -1) (2, -1, -1) in
  (0 < swap)%R -> raw_normal f = n -> raw_normal g = n -> Qeq_bool (norm2 n) 0 = false -> (Rmin (quality f) (quality g) < Rmin (quality f') (quality g'))%R ->
  flip_edges swap tiny zempty (two a b c d) = Ok (u_put (u_put (two a b c d) 0 f') 1 g', zinsert 1 n (zinsert 0 n zempty)).
Proof.
  intros f g f' g' Hs Ef Eg Hn Hq. assert (E := two_flip swap tiny a b c d). cbv zeta in E. fold f g f' g' in E. rewrite Ef, Eg, normal_angle_same, Hn, Rabs_R0 in E. apply E; [exact Hs| |exact Hq].
  assert (H : (0 < half_length n)%R); [|lra]. unfold half_length, len. assert (H : (0 < sqrt (Q2R (norm2 n)))%R); [|lra]. apply sqrt_lt_R0. apply Qeq_bool_neq in Hn. rewrite <- Q2R_0. apply Qlt_Rlt. destruct (Qle_lt_or_eq _ _ (norm2_nonneg n)) as [H|H]; [exact H|]. symmetry in H. contradiction.
Qed.
(** Quality from the lengths of the sides and the area. *)
Lemma quality_sides f x y z A : (1 <= x)%R -> (1 <= y)%R -> (1 <= z)%R -> (1 <= A)%R -> (x <= 100)%R -> (y <= 100)%R -> (z <= 100)%R ->
  edge f 0 = x -> edge f 1 = y -> edge f 2 = z -> tri_area (tget (sf_v f) 0) (tget (sf_v f) 1) (tget (sf_v f) 2) = A -> (quality f * (x * y * z * (x + y + z)) = 16 * (A * A))%R.
Proof.
  intros Hx Hy Hz HA Bx By Bz E0 E1 E2 EA. assert (Ep : (Q2R real_eps < 1 / 10000000)%R) by (unfold Q2R; cbn; lra). assert (E := eps_R). assert (H := C91_quality f). cbv zeta in H. rewrite EA, E0, E1, E2 in H. apply H.
  - intros k. assert (M : edge f k = x \/ edge f k = y \/ edge f k = z). { rewrite <- E0, <- E1, <- E2. unfold edge. set (t := sf_v f). destruct (tget_cases k) as [M|[M|M]]; [left|right; left|right; right]; [rewrite (tget_mod t k 0), (tget_mod t (k + 1) (0 + 1)) by lia|rewrite (tget_mod t k 1), (tget_mod t (k + 1) (1 + 1)) by lia|rewrite (tget_mod t k 2), (tget_mod t (k + 1) (2 + 1)) by lia]; reflexivity. }
    destruct M as [M|[M|M]]; rewrite M; nra.
  - assert (x * y * z <= 100 * 100 * 100)%R. { assert (x * y <= 100 * 100)%R by nra. assert (0 <= x * y)%R by nra. nra. } assert (0 <= x * y * z)%R by (assert (0 <= x * y)%R by nra; nra). assert (Q2R real_eps * (x * y * z) <= 1 / 10000000 * (100 * 100 * 100))%R by nra. assert (2 * 1 * 3 <= 2 * A * (x + y + z))%R by nra. lra.
Qed.
Lemma sqrt_is (q : Q) (r : R) : (0 <= r)%R -> Q2R q = (r * r)%R -> sqrt (Q2R q) = r.
Proof. intros Hr ->. now apply sqrt_square. Qed.
Ltac side_is := apply sqrt_is; [lra|unfold Q2R; cbn; lra].
Ltac area_is r := unfold tri_area; match goal with |- (?x / 2)%R = _ => replace x with r by (symmetry; side_is) end; lra.
Ltac quality_is x y z A := eapply (quality_sides _ x y z A); [lra|lra|lra|lra|lra|lra|lra|side_is|side_is|side_is|area_is (2 * A)%R].
Definition pt (x y : Z) : coord := Coord (inject_Z x) (inject_Z y) 0.

(** Two thin facets side by side become two good ones. *)
Example C106_case : let s := two (pt 0 0) (pt 70 0) (pt 35 12) (pt 35 (-12)) in
  glued s /\ right zempty s /\ (forall id, In id (u_ids s) -> (quality (facet s id) < 1 / 4)%R) /\
  forall swap tiny, (0 < swap)%R -> exists s' memo', flip_edges swap tiny zempty s = Ok (s', memo') /\ (forall id, In id (u_ids s') -> (3 / 4 < quality (facet s' id))%R) /\
    triangle_is s' 0 (pt 0 0) (pt 35 (-12)) (pt 35 12).
Proof.
  cbv zeta. set (s := two (pt 0 0) (pt 70 0) (pt 35 12) (pt 35 (-12))). split; [apply two_glued|]. split; [intros id n H; discriminate H|].
  assert (Q0 : (quality (facet s 0) * (70 * 37 * 37 * (70 + 37 + 37)) = 16 * (420 * 420))%R) by quality_is 70%R 37%R 37%R 420%R.
  assert (Q1 : (quality (facet s 1) * (70 * 37 * 37 * (70 + 37 + 37)) = 16 * (420 * 420))%R) by quality_is 70%R 37%R 37%R 420%R.
  split; [intros id I; cbn in I; destruct I as [<-|[<-|[]]]; lra|]. intros swap tiny Hs.
  assert (E := two_flat swap tiny (pt 0 0) (pt 70 0) (pt 35 12) (pt 35 (-12))). cbv zeta in E.
  set (f' := SFacet (pt 0 0, pt 35 (-12), pt 35 12) (1, -1, -1) (2, -1, -1)) in *. set (g' := SFacet (pt 70 0, pt 35 12, pt 35 (-12)) (0, -1, -1) (2, -1, -1)) in *.
  assert (Q0' : (quality f' * (37 * 24 * 37 * (37 + 24 + 37)) = 16 * (420 * 420))%R) by quality_is 37%R 24%R 37%R 420%R.
  assert (Q1' : (quality g' * (37 * 24 * 37 * (37 + 24 + 37)) = 16 * (420 * 420))%R) by quality_is 37%R 24%R 37%R 420%R.
  eexists. eexists. split; [apply (E (Coord 0 0 840)); [exact Hs|vm_compute; reflexivity|vm_compute; reflexivity|reflexivity|]|].
  - change (SFacet (pt 0 0, pt 70 0, pt 35 12) (1, -1, -1) (2, -1, -1)) with (facet s 0). change (SFacet (pt 70 0, pt 0 0, pt 35 (-12)) (0, -1, -1) (2, -1, -1)) with (facet s 1). unfold Rmin. destruct (Rle_dec _ _), (Rle_dec _ _); lra.
  - split; [intros id I; cbn in I; destruct I as [<-|[<-|[]]]; [match goal with |- context [facet ?u 0] => change (facet u 0) with f' end|match goal with |- context [facet ?u 1] => change (facet u 1) with g' end]; lra|]. exists 0. split; [reflexivity|]. split; reflexivity.
Qed.
(** After a call the links of the facets are no longer right, nor are the remembered normals: the connectivity has to be generated again before the surface is used further. *)
Theorem C106_links_refuted : exists s, glued s /\ right zempty s /\
  forall swap tiny, (0 < swap)%R -> exists s' memo', flip_edges swap tiny zempty s = Ok (s', memo') /\ ~ glued s' /\ ~ right memo' s'.
Proof.
  set (s := two (pt 0 0) (pt 0 26) (pt (-12) (-9)) (pt 12 (-9))). exists s. split; [apply two_glued|]. split; [intros id n H; discriminate H|].
  assert (Q0 : (quality (facet s 0) * (26 * 37 * 15 * (26 + 37 + 15)) = 16 * (156 * 156))%R) by quality_is 26%R 37%R 15%R 156%R.
  assert (Q1 : (quality (facet s 1) * (26 * 15 * 37 * (26 + 15 + 37)) = 16 * (156 * 156))%R) by quality_is 26%R 15%R 37%R 156%R.
  intros swap tiny Hs. assert (E := two_flat swap tiny (pt 0 0) (pt 0 26) (pt (-12) (-9)) (pt 12 (-9)) (Coord 0 0 312)). cbv zeta in E.
  set (f' := SFacet (pt 0 0, pt 12 (-9), pt (-12) (-9)) (1, -1, -1) (2, -1, -1)) in *. set (g' := SFacet (pt 0 26, pt (-12) (-9), pt 12 (-9)) (0, -1, -1) (2, -1, -1)) in *.
  assert (Q0' : (quality f' * (15 * 24 * 15 * (15 + 24 + 15)) = 16 * (108 * 108))%R) by quality_is 15%R 24%R 15%R 108%R.
  assert (Q1' : (quality g' * (37 * 24 * 37 * (37 + 24 + 37)) = 16 * (420 * 420))%R) by quality_is 37%R 24%R 37%R 420%R.
  eexists. eexists. split; [apply E; [exact Hs|vm_compute; reflexivity|vm_compute; reflexivity|reflexivity|]|].
  - change (SFacet (pt 0 0, pt 0 26, pt (-12) (-9)) (1, -1, -1) (2, -1, -1)) with (facet s 0). change (SFacet (pt 0 26, pt 0 0, pt 12 (-9)) (0, -1, -1) (2, -1, -1)) with (facet s 1). unfold Rmin. destruct (Rle_dec _ _), (Rle_dec _ _); lra.
  - split.
    + intros [_ H]. destruct (H 0 0 (or_introl eq_refl)) as [[A _]|(nb & l & (_ & _ & A & B & _) & (C & _))]; [discriminate A|]. rewrite <- A in C. change (apart _ 0 0) with 2 in B.
      match type of C with corner ?u (across _ 0 0) l =v= _ => change (across u 0 0) with 1 in C; rewrite (corner_mod u 1 l 0) in C by lia end. destruct C as (C & _). discriminate C.
    + intros H. assert (X := H 0 (Coord 0 0 312) eq_refl). apply (f_equal cz) in X. vm_compute in X. discriminate X.
Qed.
Print Assumptions C106_links_refuted.
(** A facet can be turned over: the new facets are copies which remember the normals and areas of the old ones, so that the tests of the change of normals and of the total area always pass.
    Here two facets in a plane, both looking up, form a quadrilateral which is not convex; afterwards one looks down and the total area has grown from 312 to 528. *)
Theorem C106_fold_refuted : exists s, glued s /\ right zempty s /\ (forall id k, In id (u_ids s) -> cz (corner s id k) = 0%Q) /\ (forall id, In id (u_ids s) -> (0 < cz (raw_normal (facet s id)))%Q) /\
  total tri_area s = 312%R /\
  forall swap tiny, (0 < swap)%R -> exists s' memo', flip_edges swap tiny zempty s = Ok (s', memo') /\ (cz (raw_normal (facet s' 0)) < 0)%Q /\ total tri_area s' = 528%R.
Proof.
  set (s := two (pt 0 0) (pt 0 26) (pt (-12) (-9)) (pt 12 (-9))). exists s. split; [apply two_glued|]. split; [intros id n H; discriminate H|].
  split; [intros id k I; cbn in I; destruct I as [<-|[<-|[]]]; unfold corner; destruct (tget_cases k) as [M|[M|M]]; (rewrite (tget_mod _ k 0) by lia) + (rewrite (tget_mod _ k 1) by lia) + (rewrite (tget_mod _ k 2) by lia); reflexivity|].
  split; [intros id I; cbn in I; destruct I as [<-|[<-|[]]]; reflexivity|].
  split. { unfold total. change (u_ids s) with [0; 1]. cbn [map fold_right]. assert (A0 : tri_area (corner s 0 0) (corner s 0 1) (corner s 0 2) = 156%R) by area_is 312%R. assert (A1 : tri_area (corner s 1 0) (corner s 1 1) (corner s 1 2) = 156%R) by area_is 312%R. rewrite A0, A1. lra. }
  assert (Q0 : (quality (facet s 0) * (26 * 37 * 15 * (26 + 37 + 15)) = 16 * (156 * 156))%R) by quality_is 26%R 37%R 15%R 156%R.
  assert (Q1 : (quality (facet s 1) * (26 * 15 * 37 * (26 + 15 + 37)) = 16 * (156 * 156))%R) by quality_is 26%R 15%R 37%R 156%R.
  intros swap tiny Hs. assert (E := two_flat swap tiny (pt 0 0) (pt 0 26) (pt (-12) (-9)) (pt 12 (-9)) (Coord 0 0 312)). cbv zeta in E.
  set (f' := SFacet (pt 0 0, pt 12 (-9), pt (-12) (-9)) (1, -1, -1) (2, -1, -1)) in *. set (g' := SFacet (pt 0 26, pt (-12) (-9), pt 12 (-9)) (0, -1, -1) (2, -1, -1)) in *.
  assert (Q0' : (quality f' * (15 * 24 * 15 * (15 + 24 + 15)) = 16 * (108 * 108))%R) by quality_is 15%R 24%R 15%R 108%R.
  assert (Q1' : (quality g' * (37 * 24 * 37 * (37 + 24 + 37)) = 16 * (420 * 420))%R) by quality_is 37%R 24%R 37%R 420%R.
  eexists. eexists. split; [apply E; [exact Hs|vm_compute; reflexivity|vm_compute; reflexivity|reflexivity|]|].
  - change (SFacet (pt 0 0, pt 0 26, pt (-12) (-9)) (1, -1, -1) (2, -1, -1)) with (facet s 0). change (SFacet (pt 0 26, pt 0 0, pt 12 (-9)) (0, -1, -1) (2, -1, -1)) with (facet s 1). unfold Rmin. destruct (Rle_dec _ _), (Rle_dec _ _); lra.
  - split; [reflexivity|]. set (u := u_put (u_put _ 0 f') 1 g'). unfold total. change (u_ids u) with [0; 1]. cbn [map fold_right].
    assert (A0 : tri_area (corner u 0 0) (corner u 0 1) (corner u 0 2) = 108%R) by area_is 216%R. assert (A1 : tri_area (corner u 1 0) (corner u 1 1) (corner u 1 2) = 420%R) by area_is 840%R. rewrite A0, A1. lra.
Qed.
Print Assumptions C106_fold_refuted.
