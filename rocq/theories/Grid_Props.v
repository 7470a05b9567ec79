(** Properties of structured meshes: C15 - C18, C57. *)
From Coq Require Import ZArith List Bool QArith Qabs Qround Lia Lqa Permutation.
From Verif Require Import Prelude Vec ZMap Mesh_Model Mesh_Spec Mesh_Check Merge_Spec Face_Model Face_Spec Grid_Model Grid_Spec
  Grid_Proofs Grid_Mesh Grid_Fill.
Import ListNotations.
Open Scope Z_scope.

(** ** C15 *)
Theorem C15_hexahedron : forall p0 p1 p2 p3 p4 p5 p6 p7 nu nv nw split, 1 <= nu -> 1 <= nv -> 1 <= nw ->
  exists m, generate_hex [p0; p1; p2; p3; p4; p5; p6; p7] nu nv nw split = Ok m /\ wf_mesh m /\ refs_ok m /\ t_size (m_faces m) = 0 /\
    t_ids (m_nodes m) = zrange (Z.to_nat ((nu + 1) * (nv + 1) * (nw + 1))) /\
    t_ids (m_elems m) = zrange (Z.to_nat ((if split then 6 else 1) * (nu * nv * nw))) /\
    proper m (if split then ET_TETRAHEDRON else ET_HEXAHEDRON) /\
    forall i j k, 0 <= i <= nu -> 0 <= j <= nv -> 0 <= k <= nw ->
      exists c, t_get (m_nodes m) (point_id nu nv i j k) = Ok c /\
        c =v= at_fractions p0 (vsub p1 p0) (vsub p3 p0) (vsub p4 p0) (frac i nu) (frac j nv) (frac k nw).
Proof. exact hex_generated. Qed.
Print Assumptions C15_hexahedron.

Theorem C15_quadrilateral : forall p0 p1 p2 p3 nu nv split, 1 <= nu -> 1 <= nv ->
  exists m, generate_quad [p0; p1; p2; p3] nu nv split = Ok m /\ wf_mesh m /\ refs_ok m /\ t_size (m_faces m) = 0 /\
    t_ids (m_nodes m) = zrange (Z.to_nat ((nu + 1) * (nv + 1))) /\
    t_ids (m_elems m) = zrange (Z.to_nat ((if split then 2 else 1) * (nu * nv))) /\
    proper m (if split then ET_TRIANGLE else ET_QUADRILATERAL) /\
    forall i j, 0 <= i <= nu -> 0 <= j <= nv ->
      exists c, t_get (m_nodes m) (point_id nu nv i j 0) = Ok c /\
        c =v= at_fractions p0 (vsub p1 p0) (vsub p3 p0) vzero (frac i nu) (frac j nv) 0.
Proof. exact quad_generated. Qed.
Print Assumptions C15_quadrilateral.

Theorem C15_line : forall a vec nu, 1 <= nu ->
  let m := generate_line a vec nu in
  wf_mesh m /\ refs_ok m /\ t_size (m_faces m) = 0 /\
  t_ids (m_nodes m) = zrange (Z.to_nat (nu + 1)) /\ t_ids (m_elems m) = zrange (Z.to_nat nu) /\ proper m ET_BEAM /\
  (forall i, 0 <= i <= nu -> exists c, t_get (m_nodes m) i = Ok c /\ c =v= vadd a (vscale (frac i nu) vec)) /\
  (forall i, 0 <= i < nu -> t_get (m_elems m) i = Ok (Element ET_BEAM [i; i + 1] [])).
Proof. exact line_generated. Qed.
Print Assumptions C15_line.

Definition brick : list coord := corners (Coord 1 2 3) (Coord 2 0 0) (Coord 0 3 0) (Coord 0 0 5).
Definition plate : list coord := [Coord 0 0 1; Coord 2 0 1; Coord 3 2 1; Coord 1 2 1].

Example C15_case : exists m, generate_hex brick 2 3 1 true = Ok m /\ t_size (m_nodes m) = 24 /\ t_size (m_elems m) = 36.
Proof. eexists. split; [reflexivity|]. split; vm_compute; reflexivity. Qed.
Example C15_quad_case : exists m, generate_quad plate 2 3 true = Ok m /\ t_size (m_nodes m) = 12 /\ t_size (m_elems m) = 12.
Proof. eexists. split; [reflexivity|]. split; vm_compute; reflexivity. Qed.
Example C15_line_case : t_size (m_nodes (generate_line (Coord 1 1 1) (Coord 1 2 0) 4)) = 5.
Proof. vm_compute. reflexivity. Qed.

(** ** C16: plain grids *)
Theorem C16_hexahedra_conforming : forall p0 p1 p2 p3 p4 p5 p6 p7 nu nv nw n tol, 1 <= nu -> 1 <= nv -> 1 <= nw ->
  ~ (p1 =v= p0 /\ p3 =v= p0 /\ p4 =v= p0) -> 1 <= n <= int_max -> (0 <= tol)%Q ->
  exists m m' nb bm, generate_hex [p0; p1; p2; p3; p4; p5; p6; p7] nu nv nw false = Ok m /\
    generateFaces n tol m = Ok (m', nb) /\ m_nodes m' = m_nodes m /\
    conforming (m_faces m') (on_box_side nu nv nw) /\
    nb = 2 * (nu * nv + nv * nw + nu * nw) /\
    extractBoundary n tol m = Ok (bm, m') /\ t_ids (m_elems bm) = zrange (Z.to_nat nb) /\
    closed_surface (polygons (m_elems bm)).
Proof. exact (fun p0 p1 p2 p3 p4 p5 p6 p7 nu nv nw => hex_conforming p0 p1 p2 p3 p4 p5 p6 p7 nu nv nw false). Qed.
Print Assumptions C16_hexahedra_conforming.

Theorem C16_quadrilaterals_conforming : forall p0 p1 p2 p3 nu nv n tol, 1 <= nu -> 1 <= nv ->
  ~ (p1 =v= p0 /\ p3 =v= p0) -> 1 <= n <= int_max -> (0 <= tol)%Q ->
  exists m m' nb bm, generate_quad [p0; p1; p2; p3] nu nv false = Ok m /\
    generateFaces n tol m = Ok (m', nb) /\ m_nodes m' = m_nodes m /\
    conforming (m_faces m') (on_plane_side nu nv) /\ opposed_edges (m_faces m') /\
    nb = 2 * (nu + nv) /\
    extractBoundary n tol m = Ok (bm, m') /\ t_ids (m_elems bm) = zrange (Z.to_nat nb) /\
    exists ends, polygons (m_elems bm) = map (fun p => [fst p; snd p]) ends /\
      forall x, count_occ Z.eq_dec (map fst ends) x = count_occ Z.eq_dec (map snd ends) x.
Proof. exact (fun p0 p1 p2 p3 nu nv => quad_conforming p0 p1 p2 p3 nu nv false). Qed.
Print Assumptions C16_quadrilaterals_conforming.

Theorem C16_line_conforming : forall a vec nu n tol, 1 <= nu -> ~ vec =v= vzero -> 1 <= n <= int_max -> (0 <= tol)%Q ->
  exists m' nb, generateFaces n tol (generate_line a vec nu) = Ok (m', nb) /\
    conforming (m_faces m') (on_line_end nu) /\ nb = 2.
Proof. exact line_conforming. Qed.
Print Assumptions C16_line_conforming.

Example C16_case : exists m m', generate_hex brick 2 1 2 false = Ok m /\ generateFaces 4 0 m = Ok (m', 16) /\
  has_pair (m_faces m') 4 11 /\ unpaired (m_faces m') 0.
Proof.
  eexists. destruct (generate_hex brick 2 1 2 false) as [m| |] eqn:E; try discriminate. vm_compute in E. injection E as <-.
  eexists. split; [reflexivity|]. split; [vm_compute; reflexivity|].
  split; eexists; (split; [vm_compute; reflexivity|]); [split; reflexivity|reflexivity].
Qed.

(** ** C17 *)
Theorem C17_hexahedra_fill : forall vs o u v w nu nv nw split, parallelepiped vs o u v w -> 1 <= nu -> 1 <= nv -> 1 <= nw ->
  exists m, generate_hex vs nu nv nw split = Ok m /\
    nodes_at m [point_id nu nv 0 0 0; point_id nu nv nu 0 0; point_id nu nv nu nv 0; point_id nu nv 0 nv 0;
                point_id nu nv 0 0 nw; point_id nu nv nu 0 nw; point_id nu nv nu nv nw; point_id nu nv 0 nv nw] vs /\
    (forall id, In id (t_ids (m_elems m)) ->
       (vol split (elem_coords m id) == geo_hex_volume vs / inject_Z ((if split then 6 else 1) * (nu * nv * nw)))%Q) /\
    (qsum (map (fun id => vol split (elem_coords m id)) (t_ids (m_elems m))) == geo_hex_volume vs)%Q /\
    (geo_hex_volume vs == dot w (cross v u))%Q /\
    (forall p, in_hull vs p <-> exists id, In id (t_ids (m_elems m)) /\ in_hull (elem_coords m id) p).
Proof. exact hexahedra_fill. Qed.
Print Assumptions C17_hexahedra_fill.

Theorem C17_quadrilaterals_fill : forall vs o u v nu nv split, parallelogram vs o u v -> 1 <= nu -> 1 <= nv ->
  exists m, generate_quad vs nu nv split = Ok m /\
    nodes_at m [point_id nu nv 0 0 0; point_id nu nv nu 0 0; point_id nu nv nu nv 0; point_id nu nv 0 nv 0] vs /\
    (forall id, In id (t_ids (m_elems m)) ->
       area split (elem_coords m id) =v= vscale (1 / inject_Z ((if split then 2 else 1) * (nu * nv))) (geo_quad_normal vs)) /\
    vsum (map (fun id => area split (elem_coords m id)) (t_ids (m_elems m))) =v= geo_quad_normal vs /\
    geo_quad_normal vs =v= vscale 2 (cross u v) /\
    (forall p, in_hull vs p <-> exists id, In id (t_ids (m_elems m)) /\ in_hull (elem_coords m id) p).
Proof. exact quadrilaterals_fill. Qed.
Print Assumptions C17_quadrilaterals_fill.

Theorem C17_beams_fill : forall a vec nu, 1 <= nu ->
  let m := generate_line a vec nu in
  nodes_at m [0; nu] [a; vadd a vec] /\
  (forall id, In id (t_ids (m_elems m)) -> length_vector (elem_coords m id) =v= vscale (1 / inject_Z nu) vec) /\
  vsum (map (fun id => length_vector (elem_coords m id)) (t_ids (m_elems m))) =v= vec /\
  (forall p, in_hull [a; vadd a vec] p <-> exists id, In id (t_ids (m_elems m)) /\ in_hull (elem_coords m id) p).
Proof. exact line_fill. Qed.
Print Assumptions C17_beams_fill.

(** The restriction to parallelepipeds is needed: four of the eight corners are ignored. *)
Definition frustum : list coord :=
  [Coord 0 0 0; Coord 1 0 0; Coord 3 3 0; Coord 0 1 0; Coord 0 0 1; Coord 1 0 1; Coord 3 3 1; Coord 0 1 1].
Theorem C17_general_hexahedron_refuted : exists m, generate_hex frustum 1 1 1 false = Ok m /\
  ~ in_hull (elem_coords m 0) (nth 6 frustum vzero) /\ t_ids (m_elems m) = [0].
Proof.
  eexists. split; [reflexivity|]. split; [|reflexivity]. intros H.
  apply (hull_in_box vzero (Coord 1 0 0) (Coord 0 1 0) (Coord 0 0 1)) in H.
  - destruct H as (a & b & c & [_ Ha] & _ & _ & (E & _ & _)). cbn -[Qmult Qplus] in E. lra.
  - vm_compute elem_coords. repeat constructor.
    + exists 0%Q, 0%Q, 0%Q. unfold unit01. repeat split; try lra; vm_compute; reflexivity.
    + exists 1%Q, 0%Q, 0%Q. unfold unit01. repeat split; try lra; vm_compute; reflexivity.
    + exists 1%Q, 1%Q, 0%Q. unfold unit01. repeat split; try lra; vm_compute; reflexivity.
    + exists 0%Q, 1%Q, 0%Q. unfold unit01. repeat split; try lra; vm_compute; reflexivity.
    + exists 0%Q, 0%Q, 1%Q. unfold unit01. repeat split; try lra; vm_compute; reflexivity.
    + exists 1%Q, 0%Q, 1%Q. unfold unit01. repeat split; try lra; vm_compute; reflexivity.
    + exists 1%Q, 1%Q, 1%Q. unfold unit01. repeat split; try lra; vm_compute; reflexivity.
    + exists 0%Q, 1%Q, 1%Q. unfold unit01. repeat split; try lra; vm_compute; reflexivity.
Qed.
Print Assumptions C17_general_hexahedron_refuted.

Example C17_case : parallelepiped brick (Coord 1 2 3) (Coord 2 0 0) (Coord 0 3 0) (Coord 0 0 5) /\ (geo_hex_volume brick == -30)%Q.
Proof. split; [unfold parallelepiped, brick; repeat constructor; reflexivity|vm_compute; reflexivity]. Qed.
Example C17_quad_case : parallelogram plate (Coord 0 0 1) (Coord 2 0 0) (Coord 1 2 0) /\ geo_quad_normal plate =v= Coord 0 0 8.
Proof. split; [unfold parallelogram, plate; repeat constructor; vm_compute; reflexivity|vm_compute; auto]. Qed.

(** ** C18: split grids *)
Theorem C18_tetrahedra_conforming : forall p0 p1 p2 p3 p4 p5 p6 p7 nu nv nw n tol, 1 <= nu -> 1 <= nv -> 1 <= nw ->
  ~ (p1 =v= p0 /\ p3 =v= p0 /\ p4 =v= p0) -> 1 <= n <= int_max -> (0 <= tol)%Q ->
  exists m m' nb bm, generate_hex [p0; p1; p2; p3; p4; p5; p6; p7] nu nv nw true = Ok m /\
    generateFaces n tol m = Ok (m', nb) /\ m_nodes m' = m_nodes m /\
    conforming (m_faces m') (on_box_side nu nv nw) /\
    nb = 4 * (nu * nv + nv * nw + nu * nw) /\
    extractBoundary n tol m = Ok (bm, m') /\ t_ids (m_elems bm) = zrange (Z.to_nat nb) /\
    closed_surface (polygons (m_elems bm)).
Proof. exact (fun p0 p1 p2 p3 p4 p5 p6 p7 nu nv nw => hex_conforming p0 p1 p2 p3 p4 p5 p6 p7 nu nv nw true). Qed.
Print Assumptions C18_tetrahedra_conforming.

Theorem C18_triangles_conforming : forall p0 p1 p2 p3 nu nv n tol, 1 <= nu -> 1 <= nv ->
  ~ (p1 =v= p0 /\ p3 =v= p0) -> 1 <= n <= int_max -> (0 <= tol)%Q ->
  exists m m' nb bm, generate_quad [p0; p1; p2; p3] nu nv true = Ok m /\
    generateFaces n tol m = Ok (m', nb) /\ m_nodes m' = m_nodes m /\
    conforming (m_faces m') (on_plane_side nu nv) /\ opposed_edges (m_faces m') /\
    nb = 2 * (nu + nv) /\
    extractBoundary n tol m = Ok (bm, m') /\ t_ids (m_elems bm) = zrange (Z.to_nat nb) /\
    exists ends, polygons (m_elems bm) = map (fun p => [fst p; snd p]) ends /\
      forall x, count_occ Z.eq_dec (map fst ends) x = count_occ Z.eq_dec (map snd ends) x.
Proof. exact (fun p0 p1 p2 p3 nu nv => quad_conforming p0 p1 p2 p3 nu nv true). Qed.
Print Assumptions C18_triangles_conforming.

Example C18_case : ~ (nth 1 brick vzero =v= nth 0 brick vzero /\ nth 3 brick vzero =v= nth 0 brick vzero /\ nth 4 brick vzero =v= nth 0 brick vzero) /\
  exists m m', generate_hex brick 2 1 1 true = Ok m /\ generateFaces 4 0 m = Ok (m', 20).
Proof.
  split; [intros ((H & _ & _) & _); vm_compute in H; discriminate|].
  eexists. destruct (generate_hex brick 2 1 1 true) as [m| |] eqn:E; try discriminate. vm_compute in E. injection E as <-.
  eexists. split; [reflexivity|vm_compute; reflexivity].
Qed.

(** ** C57: boxes with a prescribed cell size *)
Theorem C57_box : forall lo hi h split, boxed lo hi h ->
  let nu := whole (cx hi - cx lo) h in let nv := whole (cy hi - cy lo) h in let nw := whole (cz hi - cz lo) h in
  nu <= int_max -> nv <= int_max -> nw <= int_max ->
  exists m, generate_box lo hi h split = Ok m /\ wf_mesh m /\ refs_ok m /\
    t_ids (m_nodes m) = zrange (Z.to_nat ((nu + 1) * (nv + 1) * (nw + 1))) /\
    t_ids (m_elems m) = zrange (Z.to_nat ((if split then 6 else 1) * (nu * nv * nw))) /\
    proper m (if split then ET_TETRAHEDRON else ET_HEXAHEDRON) /\
    (forall i j k, 0 <= i <= nu -> 0 <= j <= nv -> 0 <= k <= nw ->
      exists c, t_get (m_nodes m) (point_id nu nv i j k) = Ok c /\
        c =v= Coord (cx lo + h * inject_Z i) (cy lo + h * inject_Z j) (cz lo + h * inject_Z k)) /\
    (forall id, In id (t_ids (m_elems m)) ->
       (vol split (elem_coords m id) == - (h * h * h) / (if split then 6 else 1))%Q) /\
    (forall n c, t_get (m_nodes m) n = Ok c ->
       (cx lo <= cx c <= cx hi)%Q /\ (cy lo <= cy c <= cy hi)%Q /\ (cz lo <= cz c <= cz hi)%Q) /\
    (forall p, 1 <= nu -> 1 <= nv -> 1 <= nw ->
       (cx lo <= cx p <= cx hi - h)%Q -> (cy lo <= cy p <= cy hi - h)%Q -> (cz lo <= cz p <= cz hi - h)%Q ->
       exists id, In id (t_ids (m_elems m)) /\ in_hull (elem_coords m id) p).
Proof. exact box_ok. Qed.
Print Assumptions C57_box.

Theorem C57_box_conforming : forall lo hi h split n tol, boxed lo hi h ->
  let nu := whole (cx hi - cx lo) h in let nv := whole (cy hi - cy lo) h in let nw := whole (cz hi - cz lo) h in
  1 <= nu <= int_max -> 1 <= nv <= int_max -> 1 <= nw <= int_max -> 1 <= n <= int_max -> (0 <= tol)%Q ->
  exists m m' nb bm, generate_box lo hi h split = Ok m /\ generateFaces n tol m = Ok (m', nb) /\
    conforming (m_faces m') (on_box_side nu nv nw) /\
    nb = (if split then 4 else 2) * (nu * nv + nv * nw + nu * nw) /\
    extractBoundary n tol m = Ok (bm, m') /\ closed_surface (polygons (m_elems bm)).
Proof. exact box_conforming. Qed.
Print Assumptions C57_box_conforming.

(** The cells need not fill the box: a unit box with cell size 3/10 is filled to 729/1000. *)
Theorem C57_fills_box_refuted : exists m, boxed vzero (Coord 1 1 1) (3 # 10) /\
  generate_box vzero (Coord 1 1 1) (3 # 10) false = Ok m /\
  (qsum (map (fun id => vol false (elem_coords m id)) (t_ids (m_elems m))) == - (729 # 1000))%Q.
Proof.
  eexists. split; [unfold boxed; cbn; lra|]. split; [vm_compute; reflexivity|]. vm_compute. reflexivity.
Qed.
Print Assumptions C57_fills_box_refuted.

Example C57_case : boxed (Coord (-1) 0 2) (Coord 4 1 9) (1 # 2) /\ whole (4 - -1) (1 # 2) = 10.
Proof. split; [unfold boxed; cbn; lra|vm_compute; reflexivity]. Qed.
