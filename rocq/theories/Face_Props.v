(** Properties C11 to C14: faces of elements, inversion, face pairing, boundary extraction. *)
From Coq Require Import ZArith List Bool QArith Permutation Floats.SpecFloat.
From Verif Require Import Prelude Vec ZMap Mesh_Model Mesh_Spec Mesh_Check HashGrid_Model Merge_Spec
  Face_Model Face_Spec Face_Proofs Face_Float.
Import ListNotations.
Open Scope Z_scope.

(** ** C11 *)
Theorem C11_closed_cells : forall e, solid (e_type e) -> (node_count (e_type e) <= length (e_nodes e))%nat ->
  exists fs, elem_faces e = Ok fs /\
    length fs = (match e_type e with ET_TETRAHEDRON => 4 | ET_TRIANGULAR_PRISM => 5 | _ => 6 end)%nat /\
    (forall f, In f fs -> incl (f_nodes f) (e_nodes e) /\ length (f_nodes f) = face_size (f_type f)) /\
    closed_surface (map f_nodes fs) /\
    (NoDup (e_nodes e) -> forall p, (edge_count (map f_nodes fs) p <= 1)%nat) /\
    (complete e -> forall n, In n (e_nodes e) -> exists f, In f fs /\ In n (f_nodes f)).
Proof. exact cells_ok. Qed.
Print Assumptions C11_closed_cells.

Theorem C11_flat_cells : forall e, e_type e = ET_TRIANGLE \/ e_type e = ET_QUADRILATERAL -> complete e ->
  exists fs, elem_faces e = Ok fs /\
    map (fun f => (f_type f, f_nodes f)) fs = map (fun p => (FT_LINE, [fst p; snd p])) (cycle (e_nodes e)).
Proof. exact flat_cells_ok. Qed.
Print Assumptions C11_flat_cells.

(** With too few nodes the element is read past its end. *)
Theorem C11_short_element_refuted : forall e, (length (e_nodes e) < node_count (e_type e))%nat ->
  face_table (e_type e) <> [] -> elem_faces e = UB.
Proof. exact short_elem_UB. Qed.
Print Assumptions C11_short_element_refuted.

(** Repeated node ids are allowed. *)
Example C11_case : let e := Element ET_HEXAHEDRON [5; 9; 9; 7; 1; 0; 0; -3] [4] in
  solid (e_type e) /\ (node_count (e_type e) <= length (e_nodes e))%nat.
Proof. split; [right; right; reflexivity|repeat constructor]. Qed.

Example C11_flat_case : let e := Element ET_QUADRILATERAL [5; 9; 8; 7] [] in
  (e_type e = ET_TRIANGLE \/ e_type e = ET_QUADRILATERAL) /\ complete e.
Proof. split; [right|]; reflexivity. Qed.

Example C11_short_case : let e := Element ET_TETRAHEDRON [5; 9; 8] [] in
  (length (e_nodes e) < node_count (e_type e))%nat /\ face_table (e_type e) <> [].
Proof. split; [repeat constructor|discriminate]. Qed.

(** ** C12 *)
Theorem C12_invert_element : forall e, complete e ->
  exists e', elem_invert e = Ok e' /\ elem_invert e' = Ok e /\ e_type e' = e_type e /\ e_faces e' = e_faces e /\
    Permutation (e_nodes e') (e_nodes e) /\
    forall P : Z -> coord,
      (e_type e = ET_BEAM -> length_vector (map P (e_nodes e')) =v= vopp (length_vector (map P (e_nodes e)))) /\
      (e_type e = ET_TRIANGLE \/ e_type e = ET_QUADRILATERAL ->
         area_vector (map P (e_nodes e')) =v= vopp (area_vector (map P (e_nodes e)))) /\
      (e_type e = ET_TETRAHEDRON -> (tet_volume (map P (e_nodes e')) == - tet_volume (map P (e_nodes e)))%Q) /\
      (e_type e = ET_TRIANGULAR_PRISM \/ e_type e = ET_HEXAHEDRON -> e' = e).
Proof. exact invert_elem_ok. Qed.
Print Assumptions C12_invert_element.

Theorem C12_invert_mesh_twice : forall m, wf_mesh m -> (forall id e, t_get (m_elems m) id = Ok e -> complete e) ->
  exists m1 m2, mesh_invert m = Ok m1 /\ mesh_invert m1 = Ok m2 /\ m_nodes m2 = m_nodes m /\
    t_ids (m_elems m2) = t_ids (m_elems m) /\
    (forall id, t_get (m_elems m2) id = t_get (m_elems m) id).
Proof. exact mesh_invert_twice. Qed.
Print Assumptions C12_invert_mesh_twice.

Example C12_case : complete (Element ET_TETRAHEDRON [4; 7; 1; 9] []) /\
  elem_invert (Element ET_TETRAHEDRON [4; 7; 1; 9] []) = Ok (Element ET_TETRAHEDRON [4; 1; 7; 9] []).
Proof. split; reflexivity. Qed.

Example C12_mesh_case : wf_mesh two_tets /\ (forall id e, t_get (m_elems two_tets) id = Ok e -> complete e).
Proof. split; [apply two_tets_ok|]. apply elems_forall. repeat constructor. Qed.

(** ** C13 *)
Theorem C13_face_pairing : forall n tol m,
  1 <= n <= int_max -> (0 <= tol)%Q -> wf_mesh m -> refs_ok m -> enough m -> spread m ->
  exists m' nb, generateFaces n tol m = Ok (m', nb) /\
    m_nodes m' = m_nodes m /\ wf_mesh m' /\ refs_ok m' /\ t_ids (m_elems m') = t_ids (m_elems m) /\
    (forall id e, t_get (m_elems m) id = Ok e ->
       exists e' fs, t_get (m_elems m') id = Ok e' /\ e_type e' = e_type e /\ e_nodes e' = e_nodes e /\
         elem_faces e = Ok fs /\
         map (face_data (m_faces m')) (e_faces e') = map (fun f => Ok (f_type f, f_nodes f, id)) fs) /\
    flat_map (faces_listed (m_elems m')) (t_ids (m_elems m')) = t_ids (m_faces m') /\
    (forall a b, has_pair (m_faces m') a b -> mates (m_faces m') a b) /\
    (forall a, In a (t_ids (m_faces m')) -> (unpaired (m_faces m') a <-> forall b, ~ mates (m_faces m') a b)) /\
    (exists l, NoDup l /\ (forall a, In a l <-> unpaired (m_faces m') a) /\ nb = zlen l) /\
    (at_most_two (m_faces m') -> forall a b, has_pair (m_faces m') a b -> has_pair (m_faces m') b a) /\
    ((forall id e, t_get (m_elems m) id = Ok e -> NoDup (e_nodes e)) ->
     forall a b f g, has_pair (m_faces m') a b -> t_get (m_faces m') a = Ok f -> t_get (m_faces m') b = Ok g ->
       f_elem f <> f_elem g).
Proof. exact pairing_ok. Qed.
Print Assumptions C13_face_pairing.

Example C13_case : wf_mesh two_tets /\ refs_ok two_tets /\ enough two_tets /\ spread two_tets /\
  (forall id e, t_get (m_elems two_tets) id = Ok e -> solid (e_type e) /\ NoDup (e_nodes e)) /\
  exists bm m', extractBoundary 2 0 two_tets = Ok (bm, m') /\ at_most_two (m_faces m') /\ opposed (m_faces m') /\
    has_pair (m_faces m') 0 4 /\ polygons (m_elems bm) = [[3; 4; 9]; [2; 4; 3]; [2; 9; 4]; [2; 1; 9]; [3; 1; 2]; [3; 9; 1]].
Proof. exact two_tets_ok. Qed.

(** Three triangles on one edge: face 3 is paired with 0, but 0 with 6. *)
Theorem C13_three_faces_refuted : exists m' nb, wf_mesh fan /\ refs_ok fan /\ generateFaces 2 0 fan = Ok (m', nb) /\
  has_pair (m_faces m') 3 0 /\ has_pair (m_faces m') 0 6.
Proof. exact fan_asymmetric. Qed.
Print Assumptions C13_three_faces_refuted.

(** In binary64 the centres of one face seen from its two cells can be apart, so that the search with
    the default tolerance 0 misses the pair: x coordinates 0.1, 0.2, 0.3. *)
Theorem C13_rounding_refuted :
  fwithin (fcentre [f01; f02; f03]) (fcentre [f03; f02; f01]) (S754_zero false) = false.
Proof. exact rounding_breaks_pairing. Qed.
Print Assumptions C13_rounding_refuted.

(** ** C14 *)
Theorem C14_boundary : forall n tol m,
  1 <= n <= int_max -> (0 <= tol)%Q -> wf_mesh m -> refs_ok m -> enough m -> spread m ->
  exists bm m' nb, extractBoundary n tol m = Ok (bm, m') /\ generateFaces n tol m = Ok (m', nb) /\
    wf_mesh bm /\ refs_ok bm /\
    t_ids (m_elems bm) = zrange (Z.to_nat nb) /\
    (exists l, NoDup l /\ (forall a, In a l <-> unpaired (m_faces m') a) /\
       Forall2 (fun id a => exists f, t_get (m_faces m') a = Ok f /\
                  t_get (m_elems bm) id = Ok (Element (skin_type (f_type f)) (f_nodes f) []))
               (t_ids (m_elems bm)) l) /\
    t_ids (m_nodes bm) = t_ids (m_nodes m) /\
    (forall id, In id (t_ids (m_nodes m)) -> t_get (m_nodes bm) id = t_get (m_nodes m) id).
Proof. exact boundary_ok. Qed.
Print Assumptions C14_boundary.

Theorem C14_watertight : forall n tol m bm m',
  1 <= n <= int_max -> (0 <= tol)%Q -> wf_mesh m -> refs_ok m -> enough m -> spread m ->
  (forall id e, t_get (m_elems m) id = Ok e -> solid (e_type e)) ->
  extractBoundary n tol m = Ok (bm, m') -> at_most_two (m_faces m') -> opposed (m_faces m') ->
  closed_surface (polygons (m_elems bm)).
Proof. exact watertight_ok. Qed.
Print Assumptions C14_watertight.

Example C14_case : exists bm m', extractBoundary 2 0 two_tets = Ok (bm, m') /\
  at_most_two (m_faces m') /\ opposed (m_faces m') /\ length (polygons (m_elems bm)) = 6%nat.
Proof.
  destruct two_tets_ok as (_ & _ & _ & _ & _ & bm & m' & E & H1 & H2 & _ & H3). exists bm, m'. rewrite H3. auto.
Qed.

(** Plane meshes: at every node as many boundary edges start as end. *)
Theorem C14_boundary_loops : forall n tol m bm m',
  1 <= n <= int_max -> (0 <= tol)%Q -> wf_mesh m -> refs_ok m -> spread m ->
  (forall id e, t_get (m_elems m) id = Ok e -> (e_type e = ET_TRIANGLE \/ e_type e = ET_QUADRILATERAL) /\ complete e) ->
  extractBoundary n tol m = Ok (bm, m') -> at_most_two (m_faces m') -> opposed_edges (m_faces m') ->
  exists ends, polygons (m_elems bm) = map (fun p => [fst p; snd p]) ends /\
    forall x, count_occ Z.eq_dec (map fst ends) x = count_occ Z.eq_dec (map snd ends) x.
Proof. exact loops_ok. Qed.
Print Assumptions C14_boundary_loops.

Example C14_loops_case : wf_mesh tri_quad /\ refs_ok tri_quad /\ spread tri_quad /\
  (forall id e, t_get (m_elems tri_quad) id = Ok e -> (e_type e = ET_TRIANGLE \/ e_type e = ET_QUADRILATERAL) /\ complete e) /\
  exists bm m', extractBoundary 2 0 tri_quad = Ok (bm, m') /\ at_most_two (m_faces m') /\ opposed_edges (m_faces m') /\
    polygons (m_elems bm) = [[0; 1]; [2; 3]; [3; 0]; [1; 8]; [8; 2]].
Proof. exact tri_quad_ok. Qed.
