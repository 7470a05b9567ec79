(** Properties of polygons and polyhedra (C30, C32, C33, C60, C61). *)
From Coq Require Import QArith Qabs ZArith List Lia Lqa Bool.
From Verif Require Import Prelude Vec Seg_Model Seg_Spec Seg_Proofs Face_Spec Grid_Model Grid_Spec Poly_Model Poly_Spec Poly_Proofs Poly_Tri Poly_Clip Poly_Hedra.
Import ListNotations.
Open Scope Q_scope.

(** ** C30 *)

(** n - 2 triangles over the corners, in the order of the polygon, adding up to its vector area. The bound
    on the angle holds for every arc cosine. *)
Theorem C30_triangulation : forall angle corners, (forall u v, angle u v < 6284 # 1000) -> (3 <= length corners)%nat ->
  let ts := triangulate angle (closed_polyline corners) in
  length ts = (length corners - 2)%nat /\
  (forall t, In t ts -> exists i j k, (i < length corners)%nat /\ (j < length corners)%nat /\ (k < length corners)%nat /\
     ((i < j < k)%nat \/ (j < k < i)%nat \/ (k < i < j)%nat) /\
     t = [nth i corners vzero; nth j corners vzero; nth k corners vzero]) /\
  vsum (map area_vector ts) =v= area_vector corners.
Proof. exact triangulate_spec. Qed.
Print Assumptions C30_triangulation.

(** In a convex polygon every triangle is turned like the polygon, so that the areas themselves add up. *)
Theorem C30_convex : forall angle corners n, (forall u v, angle u v < 6284 # 1000) -> (3 <= length corners)%nat ->
  convex n corners -> forall t, In t (triangulate angle (closed_polyline corners)) -> 0 < dot n (area_vector t).
Proof. exact triangulate_convex. Qed.
Print Assumptions C30_convex.

Definition by_cosine (u v : coord) : Q := 1 - cosine2 u v.
Definition square : list coord := [Coord 0 0 0; Coord 2 0 0; Coord 2 2 0; Coord 0 2 0].
Definition dart : list coord := [Coord 0 0 0; Coord 2 1 0; Coord 4 0 0; Coord 2 10 0].

Lemma by_cosine_small u v : by_cosine u v < 6284 # 1000.
Proof.
  unfold by_cosine, cosine2. set (d := norm2 u * norm2 v).
  assert (C : dot u v * dot u v <= d).
  { assert (L : d - dot u v * dot u v == norm2 (cross u v)) by (unfold d, norm2, dot; cbn [cross cx cy cz]; ring).
    assert (P : 0 <= norm2 (cross u v)) by (unfold norm2, dot; nra). lra. }
  assert (Hd : 0 <= d) by nra. clearbody d. set (x := dot u v) in *. clearbody x.
  destruct (Qlt_le_dec 0 d) as [D|D].
  - assert (A : - d <= x * Qabs x).
    { apply Qabs_case; intros; nra. }
    assert (B : -(1) <= x * Qabs x / d) by (apply Qle_shift_div_l; [exact D|lra]). lra.
  - assert (E : d == 0) by lra. rewrite E. unfold Qdiv. cbn [Qinv]. change (/ 0) with 0. lra.
Qed.

Example C30_case : (forall u v, by_cosine u v < 6284 # 1000) /\ convex (Coord 0 0 1) square /\
  triangulate by_cosine (closed_polyline square) =
    [[Coord 0 0 0; Coord 2 0 0; Coord 0 2 0]; [Coord 2 0 0; Coord 2 2 0; Coord 0 2 0]].
Proof.
  split; [exact by_cosine_small|]. split; [|vm_compute; reflexivity].
  intros i j k H K. cbn [length square] in K.
  assert (In (i, j, k) [(0, 1, 2); (0, 1, 3); (0, 2, 3); (1, 2, 3)]%nat) as I.
  { assert (I3 : (i < 4 /\ j < 4)%nat) by lia.
    do 4 (destruct i as [|i]; [do 4 (destruct j as [|j]; [do 4 (destruct k as [|k]; [try lia; cbn; tauto|]); lia|]); lia|]). lia. }
  destruct I as [E|[E|[E|[E|[]]]]]; injection E as <- <- <-; vm_compute; reflexivity.
Qed.

(** Without convexity the triangles may overlap: in this simple (not self-crossing) polygon with area 18
    the areas of the two triangles add up to 22. *)
Theorem C30_nonconvex_refuted : exists angle corners, orders_like_angle angle /\
  (forall v, In v corners -> cz v == 0) /\
  qsum (map (fun t => Qabs (cz (area_vector t))) (triangulate angle (closed_polyline corners))) == 22 /\
  Qabs (cz (area_vector corners)) == 18.
Proof.
  exists by_cosine, dart. split; [|split; [|split]].
  - intros u v u' v'. unfold by_cosine. split; lra.
  - intros v [<-|[<-|[<-|[<-|[]]]]]; reflexivity.
  - vm_compute. reflexivity.
  - vm_compute. reflexivity.
Qed.
Print Assumptions C30_nonconvex_refuted.

(** ** C32 *)

(** Closed polyhedron, planar faces: the volume is the enclosed volume seen from any point r. *)
Theorem C32_volume : forall pos faces r, NoDup (map fst faces) -> (4 <= length faces)%nat ->
  closed_surface (map snd faces) ->
  (forall f, In f faces -> planar (map pos (snd f)) /\ visible (map pos (snd f))) ->
  ph_volume (build pos faces) == enclosed r (map (map pos) (map snd faces)).
Proof. exact build_volume. Qed.
Print Assumptions C32_volume.

Theorem C32_translation : forall pos faces t, NoDup (map fst faces) -> (4 <= length faces)%nat ->
  closed_surface (map snd faces) ->
  (forall f, In f faces -> planar (map pos (snd f)) /\ visible (map pos (snd f))) ->
  ph_volume (build (fun i => vadd (pos i) t) faces) == ph_volume (build pos faces).
Proof. exact volume_translate. Qed.
Print Assumptions C32_translation.

Theorem C32_tetrahedron : forall a b c d, wide a b c -> wide b a d -> wide d a c -> wide d c b ->
  ph_volume (ph_of_tet [a; b; c; d]) == geo_tet_volume [a; b; c; d].
Proof. exact tet_volume_wide. Qed.
Print Assumptions C32_tetrahedron.

Theorem C32_parallelepiped : forall o u v w, Forall (wide_face (cell_vertex (corners o u v w))) hex_faces ->
  ph_volume (ph_of_hex (corners o u v w)) == geo_hex_volume (corners o u v w).
Proof. exact hex_volume_ok. Qed.
Print Assumptions C32_parallelepiped.

Theorem C32_prism : forall o u v w, Forall (wide_face (cell_vertex (prism_corners o u v w))) prism_faces ->
  ph_volume (ph_of_prism (prism_corners o u v w)) == geo_prism_volume (prism_corners o u v w).
Proof. exact prism_volume_ok. Qed.
Print Assumptions C32_prism.

Definition ex : coord := Coord 1 0 0.
Definition ey : coord := Coord 0 1 0.
Definition ez : coord := Coord 0 0 1.
Example C32_case :
  closed_surface tet_faces /\ wide vzero ex ey /\ wide ex vzero ez /\ wide ez vzero ey /\ wide ez ey ex /\
  ph_volume (ph_of_tet [vzero; ex; ey; ez]) == - (1 # 6) /\
  Forall (wide_face (cell_vertex (corners vzero ey ex ez))) hex_faces /\ ph_volume (ph_of_hex (corners vzero ey ex ez)) == 1 /\
  Forall (wide_face (cell_vertex (prism_corners vzero ey ex ez))) prism_faces /\ ph_volume (ph_of_prism (prism_corners vzero ey ex ez)) == 1 # 2.
Proof.
  split; [exact tet_closed|].
  repeat match goal with |- _ /\ _ => split | |- Forall _ _ => unfold hex_faces, prism_faces; repeat (constructor; [vm_compute; reflexivity|]); constructor end;
    vm_compute; reflexivity.
Qed.

(** Faces that are too small are not seen: a tetrahedron with edges of 10^-8 has volume 0. *)
Definition tiny : Q := 1 # 100000000.
Theorem C32_tiny_refuted : exists a b c d,
  ph_volume (ph_of_tet [a; b; c; d]) == 0 /\ ~ geo_tet_volume [a; b; c; d] == 0.
Proof.
  exists vzero, (vscale tiny ex), (vscale tiny ey), (vscale tiny ez). split; vm_compute; [reflexivity|discriminate].
Qed.
Print Assumptions C32_tiny_refuted.

(** Adding a polygon a second time under the same id counts it twice. *)
Theorem C32_same_id_refuted : exists p id vs, ph_polygon p id = vs /\
  ~ ph_volume (ph_add p id vs) == ph_volume p.
Proof.
  exists (ph_of_tet [vzero; ex; ey; ez]), 3%Z, (ph_polygon (ph_of_tet [vzero; ex; ey; ez]) 3). split; [reflexivity|]. vm_compute. discriminate.
Qed.
Print Assumptions C32_same_id_refuted.

(** ** C33 *)

(** cut() returns the inner part twice. *)
Theorem C33_cut_same : forall p newp id h tol, exists part,
  fst (ph_cut p newp id h tol) = (part, part) /\ part = fst (ph_clip p newp id h tol).
Proof. exact cut_same. Qed.
Print Assumptions C33_cut_same.

(** The cube of volume 1 cut at a quarter of its height gives two parts of volume 1/4 each; the two clips
    give 1/4 and 3/4. *)
Definition cube : polyhedron := ph_of_hex (corners vzero ey ex ez).
Theorem C33_cut_refuted : exists p id h tol, 
  ph_volume p == 1 /\ ph_volume (fst (fst (ph_cut p [] id h tol))) == 1 # 4 /\
  ph_volume (snd (fst (ph_cut p [] id h tol))) == 1 # 4 /\
  ph_volume (fst (ph_clip p [] id h tol)) == 1 # 4 /\
  ph_volume (fst (ph_clip p [] id (plane_invert h) tol)) == 3 # 4.
Proof.
  exists cube, 99%Z, (Plane ez (1 # 4)), 0. repeat match goal with |- _ /\ _ => split end; vm_compute; reflexivity.
Qed.
Print Assumptions C33_cut_refuted.

(** Cells numbered as the face routines of the mesh expect have inward faces here (negative volume), but
    the face closing a clip is always turned outward: the volumes of the parts are then wrong. *)
Theorem C33_clip_inward_refuted : exists p id h tol,
  ph_volume p == - (1) /\
  ph_volume (fst (ph_clip p [] id h tol)) == - (1 # 12) /\
  ph_volume (fst (ph_clip p [] id (plane_invert h) tol)) == - (1 # 4).
Proof.
  exists (ph_of_hex (corners vzero ex ey ez)), 99%Z, (Plane ez (1 # 4)), 0.
  repeat match goal with |- _ /\ _ => split end; vm_compute; reflexivity.
Qed.
Print Assumptions C33_clip_inward_refuted.

(** ** C60 *)

(** Planar polygon with a corner that is not too small: area() times normal() is the vector area. *)
Theorem C60_polygon_measure : forall vs, planar vs -> visible vs -> pg_vector vs =v= area_vector vs.
Proof. exact polygon_measure. Qed.
Print Assumptions C60_polygon_measure.

(** Otherwise the area is zero. *)
Theorem C60_polygon_unseen : forall vs, ~ visible vs -> pg_vector vs = vzero.
Proof. exact polygon_unseen. Qed.
Print Assumptions C60_polygon_unseen.

Example C60_case : planar (closed_polyline square) /\ visible (closed_polyline square) /\
  pg_vector (closed_polyline square) =v= Coord 0 0 4.
Proof.
  split; [|split].
  - exists (Coord 0 0 1), 0. split; [intros (_ & _ & Z); cbn in Z; discriminate|].
    intros v Hv. cbn in Hv. repeat (destruct Hv as [<-|Hv]; [vm_compute; reflexivity|]). easy.
  - exists [], (Coord 0 0 0), (Coord 2 0 0), (Coord 2 2 0), [Coord 0 2 0; Coord 0 0 0]. split; [reflexivity|]. vm_compute. reflexivity.
  - repeat split; vm_compute; reflexivity.
Qed.

(** The area is negative when the first corner is reflex. *)
Theorem C60_area_positive_refuted : exists corners, planar corners /\ visible corners /\
  pg_area_ratio (closed_polyline corners) < 0.
Proof.
  exists dart. split; [|split].
  - exists (Coord 0 0 1), 0. split; [intros (_ & _ & Z); cbn in Z; discriminate|].
    intros v Hv. cbn in Hv. repeat (destruct Hv as [<-|Hv]; [vm_compute; reflexivity|]). easy.
  - exists [], (Coord 0 0 0), (Coord 2 1 0), (Coord 4 0 0), [Coord 2 10 0]. split; [reflexivity|]. vm_compute. reflexivity.
  - vm_compute. reflexivity.
Qed.
Print Assumptions C60_area_positive_refuted.

(** A polygon whose corners all span less than the machine epsilon has area 0, whatever its extent: a
    square with sides of 10^-8. *)
Theorem C60_tiny_refuted : exists corners, planar corners /\
  pg_vector (closed_polyline corners) = vzero /\ ~ area_vector corners =v= vzero.
Proof.
  exists (map (vscale (tiny * (1 # 2))) square). split; [|split].
  - exists (Coord 0 0 1), 0. split; [intros (_ & _ & Z); cbn in Z; discriminate|].
    intros v Hv. cbn in Hv. repeat (destruct Hv as [<-|Hv]; [vm_compute; reflexivity|]). easy.
  - vm_compute. reflexivity.
  - intros (_ & _ & Z). vm_compute in Z. discriminate.
Qed.
Print Assumptions C60_tiny_refuted.

(** ** C61 *)

(** Every vertex of the clipped polygon is on the inner side and on an edge of the polygon. *)
Theorem C61_clip_sound : forall vs h tol p, In p (pg_clip vs h tol) ->
  inside h p /\ exists pre a b post, vs = pre ++ a :: b :: post /\ on (line_of a b) p.
Proof. exact polygon_clip_sound. Qed.
Print Assumptions C61_clip_sound.

(** Every vertex strictly inside remains. *)
Theorem C61_clip_keeps : forall vs h pre a b post, vs = pre ++ a :: b :: post -> ~ a =v= b -> dot (p_normal h) a < p_d h ->
  exists p, In p (pg_clip vs h 0) /\ p =v= a.
Proof. exact polygon_clip_keeps. Qed.
Print Assumptions C61_clip_keeps.

(** The vector areas of the parts on both sides add up, for every planar polygon, convex or not, unless
    it lies in the clipping plane. *)
Theorem C61_clip_areas : forall corners h, planar corners -> (exists v, In v corners /\ ~ dot (p_normal h) v == p_d h) ->
  vadd (area_vector (pg_clip (closed_polyline corners) h 0)) (area_vector (pg_clip (closed_polyline corners) (plane_invert h) 0))
  =v= area_vector corners.
Proof. exact polygon_clip_areas. Qed.
Print Assumptions C61_clip_areas.

Example C61_case : let h := Plane ey (1 # 2) in
  (exists v, In v dart /\ ~ dot (p_normal h) v == p_d h) /\
  area_vector (pg_clip (closed_polyline dart) h 0) =v= Coord 0 0 (9 # 20) /\
  area_vector (pg_clip (closed_polyline dart) (plane_invert h) 0) =v= Coord 0 0 (351 # 20).
Proof.
  split; [|split].
  - exists (Coord 2 10 0). split; [right; right; right; left; reflexivity|]. vm_compute. discriminate.
  - repeat split; vm_compute; reflexivity.
  - repeat split; vm_compute; reflexivity.
Qed.

(** A polygon in the clipping plane counts as inside for both sides. *)
Theorem C61_in_plane_refuted : exists corners h, planar corners /\
  ~ vadd (area_vector (pg_clip (closed_polyline corners) h 0)) (area_vector (pg_clip (closed_polyline corners) (plane_invert h) 0))
    =v= area_vector corners.
Proof.
  exists square, (Plane ez 0). split.
  - exists (Coord 0 0 1), 0. split; [intros (_ & _ & Z); cbn in Z; discriminate|].
    intros v Hv. cbn in Hv. repeat (destruct Hv as [<-|Hv]; [vm_compute; reflexivity|]). easy.
  - intros (_ & _ & Z). vm_compute in Z. discriminate.
Qed.
Print Assumptions C61_in_plane_refuted.
