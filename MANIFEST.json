{
 "claims": [
  {
   "property": "C01",
   "status": "proved",
   "theorems": [
    "C01_insertion",
    "C01_duplicate_id_refuted"
   ],
   "note": "Stated for one table; nodes, faces and elements use the same code."
  },
  {
   "property": "C02",
   "status": "proved",
   "theorems": [
    "C02_removal",
    "C02_stale_index_refuted"
   ],
   "note": "The stale-index boundary is part of the statement; witness in C02_stale_index_refuted."
  },
  {
   "property": "C03",
   "status": "proved",
   "theorems": [
    "C03_next_id_fresh"
   ],
   "note": "Holds for every history, including repeated ids."
  },
  {
   "property": "C04",
   "status": "proved",
   "theorems": [
    "C04_reachable_wf",
    "C04_copy"
   ],
   "note": ""
  },
  {
   "property": "C05",
   "status": "proved",
   "theorems": [
    "C05_addMesh",
    "C05_face_links_refuted"
   ],
   "note": "Face ids kept in appended elements are not remapped: C05_face_links_refuted."
  },
  {
   "property": "C06",
   "status": "proved",
   "theorems": [
    "C06_renumber",
    "C06_pair_links_refuted",
    "C06_add_after_renumber_refuted"
   ],
   "note": "Pair links and counters are not rewritten: the two _refuted theorems."
  },
  {
   "property": "C07",
   "status": "proved",
   "theorems": [
    "C07_merge_nodes",
    "C07_unordered_ids_refuted"
   ],
   "note": "The hash grid used inside is the modelled one. All nodes in one place: see C19_single_point_refuted."
  },
  {
   "property": "C08",
   "status": "proved",
   "theorems": [
    "C08_merge_elements",
    "C08_keeps_one_refuted"
   ],
   "note": "The statement describes what the code does; the desired behaviour is refuted by C08_keeps_one_refuted."
  },
  {
   "property": "C09",
   "status": "proved",
   "theorems": [
    "C09_remove_invalid_elements",
    "C09_remove_dangling_nodes",
    "C09_references_stay_valid"
   ],
   "note": ""
  },
  {
   "property": "C10",
   "status": "proved",
   "theorems": [
    "C10_mesh_box",
    "C10_element_box"
   ],
   "note": "Coordinates within the range of double, as the box starts at +/- max()."
  },
  {
   "property": "C11",
   "status": "proved",
   "theorems": [
    "C11_closed_cells",
    "C11_flat_cells",
    "C11_short_element_refuted"
   ],
   "note": "Also: face counts and sizes, every edge used at most once per direction when the ids differ, every node covered; too few nodes is undefined behaviour (C11_short_element_refuted)."
  },
  {
   "property": "C12",
   "status": "proved",
   "theorems": [
    "C12_invert_element",
    "C12_invert_mesh_twice"
   ],
   "note": "For elements with exactly the number of nodes of their type; mesh-wide invert() twice restores every element."
  },
  {
   "property": "C13",
   "status": "proved",
   "theorems": [
    "C13_face_pairing",
    "C13_three_faces_refuted",
    "C13_rounding_refuted"
   ],
   "note": "Exact rational coordinates; requires two faces with different centres (otherwise the search grid divides by zero). Refutations: three coincident faces; binary64 rounding with the default tolerance 0."
  },
  {
   "property": "C14",
   "status": "proved",
   "theorems": [
    "C14_boundary",
    "C14_watertight",
    "C14_boundary_loops"
   ],
   "note": "C14_boundary: the boundary mesh is exactly the unpaired faces; C14_watertight: closed surface; C14_boundary_loops: the plane analogue."
  },
  {
   "property": "C15",
   "status": "proved",
   "theorems": [
    "C15_hexahedron",
    "C15_quadrilateral",
    "C15_line"
   ],
   "note": "All three generators: counts, ids, connectivity, and the exact position of every node."
  },
  {
   "property": "C16",
   "status": "proved",
   "theorems": [
    "C16_hexahedra_conforming",
    "C16_quadrilaterals_conforming",
    "C16_line_conforming"
   ],
   "note": "C16_hexahedra_conforming: conforming, boundary count, closed boundary; 2D and 1D analogues."
  },
  {
   "property": "C17",
   "status": "proved",
   "theorems": [
    "C17_hexahedra_fill",
    "C17_quadrilaterals_fill",
    "C17_beams_fill",
    "C17_general_hexahedron_refuted"
   ],
   "note": "Equal cell volumes, exact sum, corners reproduced, and a point lies in the body iff it lies in a cell; C17_general_hexahedron_refuted: four corners are ignored, so the restriction to parallelepipeds is needed."
  },
  {
   "property": "C18",
   "status": "proved",
   "theorems": [
    "C18_tetrahedra_conforming",
    "C18_triangles_conforming"
   ],
   "note": "All faces of the tetrahedra (also across cells) pair up with opposite orientation; triangles likewise."
  },
  {
   "property": "C19",
   "status": "proved",
   "theorems": [
    "C19_search_exact",
    "C19_single_point_refuted",
    "C19_far_query_refuted",
    "C19_rebuild_refuted"
   ],
   "note": "The cell count per axis is arbitrary, so the cube root is not modelled. The three limits are witnessed by the _refuted theorems."
  },
  {
   "property": "C20",
   "status": "proved",
   "theorems": [
    "C20_counting_sort"
   ],
   "note": "For any assignment of points to cells; C19 uses it with the real one."
  },
  {
   "property": "C21",
   "status": "proved",
   "theorems": [
    "C21_search_exact",
    "C21_reset",
    "C21_overflow_refuted",
    "C21_minus_one_refuted",
    "C21_tolerance_refuted"
   ],
   "note": "C21_search_exact (boxes outside the setup box included), C21_reset; the limits are C21_overflow_refuted, C21_minus_one_refuted, C21_tolerance_refuted."
  },
  {
   "property": "C22",
   "status": "proved",
   "theorems": [
    "C22_remove_by_ordinal",
    "C22_history",
    "C22_defined",
    "C22_remove_by_id_refuted",
    "C22_reuse_refuted"
   ],
   "note": "C22_remove_by_ordinal, C22_history (any interleaving), C22_defined; C22_remove_by_id_refuted and C22_reuse_refuted show removal by id is not what happens."
  },
  {
   "property": "C23",
   "status": "proved",
   "theorems": [
    "C23_sound",
    "C23_small_sets",
    "C23_neighbour_refuted",
    "C23_stored_point_refuted",
    "C23_sparse_octant_refuted",
    "C23_build_ends_refuted",
    "C23_reset_refuted",
    "C23_rebuild_refuted"
   ],
   "note": "Soundness for all sets, exactness for small sets and tolerances; the failures claimed in the text are the _refuted theorems, C23_build_ends_refuted for every recursion depth."
  },
  {
   "property": "C24",
   "status": "proved",
   "theorems": [
    "C24_least_box",
    "C24_order_independent",
    "C24_shrink_undoes_grow",
    "C24_contains",
    "C24_contains_box",
    "C24_intersects",
    "C24_grow_keeps_midpoint"
   ],
   "note": ""
  },
  {
   "property": "C25",
   "status": "proved",
   "theorems": [
    "C25_clip_exact",
    "C25_clip_outside",
    "C25_clip_always"
   ],
   "note": "Exact inner part for non-parallel segments, zero-length result outside, tolerance bounds in the parallel case."
  },
  {
   "property": "C26",
   "status": "proved",
   "theorems": [
    "C26_nearest_point",
    "C26_nearest_point_tolerance",
    "C26_fails_iff_short"
   ],
   "note": "Nearest point, tolerance version, failure exactly on short segments. Squared distances; the square root is not modelled."
  },
  {
   "property": "C27",
   "status": "proved",
   "theorems": [
    "C27_consistent_after_end",
    "C27_invert_swaps",
    "C27_start_last_stale",
    "C27_stale_invert",
    "C27_setter_order_refuted"
   ],
   "note": "Call-order invariant, inversion, exact effect of a stale direction; setter order refuted by a witness."
  },
  {
   "property": "C28",
   "status": "proved",
   "theorems": [
    "C28_invert_involutive",
    "C28_remove_duplicates",
    "C28_remove_collinear",
    "C28_remove_collinear_single_refuted",
    "C28_insert_remove",
    "C28_set_vertex"
   ],
   "note": "removeCollinear is proved for an arbitrary angle test; out-of-range write on a single vertex shown."
  },
  {
   "property": "C29",
   "status": "proved",
   "theorems": [
    "C29_sort",
    "C29_sort_path",
    "C29_sort_chains_refuted",
    "C29_invert"
   ],
   "note": "Multiset and first line kept, local chaining, simple paths sorted completely; backward extension refuted."
  },
  {
   "property": "C30",
   "status": "proved",
   "theorems": [
    "C30_triangulation",
    "C30_convex",
    "C30_nonconvex_refuted"
   ],
   "note": "Vector areas for all polygons, orientation for convex ones; overlap for non-convex ones refuted by a dart. The arc cosine is an arbitrary function with values below 6.284."
  },
  {
   "property": "C31",
   "status": "proved",
   "theorems": [
    "C31_hexahedron",
    "C31_tiling",
    "C31_quadrilateral",
    "C31_tetrahedron_swaps",
    "C31_tetrahedron_translation",
    "C31_tetrahedron_flat",
    "C31_tetrahedron_value",
    "C31_general_hexahedron_refuted"
   ],
   "note": "Includes the tiling of the parallelepiped by the six tetrahedra; additivity refuted for general hexahedra."
  },
  {
   "property": "C32",
   "status": "proved",
   "theorems": [
    "C32_volume",
    "C32_translation",
    "C32_tetrahedron",
    "C32_parallelepiped",
    "C32_prism",
    "C32_tiny_refuted",
    "C32_same_id_refuted"
   ],
   "note": "Exact rational arithmetic; the limits are the two refuted theorems."
  },
  {
   "property": "C33",
   "status": "proved",
   "theorems": [
    "C33_cut_same",
    "C33_cut_refuted",
    "C33_clip_inward_refuted",
    "C33_fraction_clip",
    "C33_fraction_ends",
    "C33_fraction_other_empty",
    "C33_fraction_cut_refuted"
   ],
   "note": "The desired property (complementary parts) is false: C33_cut_same and C33_fraction_other_empty show what both cuts return instead, with refutations of the volumes. That the iteration comes to an end within the iterations allowed is not claimed. Exact arithmetic."
  },
  {
   "property": "C34",
   "status": "proved",
   "theorems": [
    "C34_sphere",
    "C34_flat"
   ],
   "note": "Squared radius (the square root is not modelled)."
  },
  {
   "property": "C35",
   "status": "proved",
   "theorems": [
    "C35_sides",
    "C35_unchanged",
    "C35_exact"
   ],
   "note": "Model: Csg_Model.split over Q. Exactness (C35_exact) is for tolerance 0 and convex polygons; the sides hold for every tolerance and polygon."
  },
  {
   "property": "C36",
   "status": "proved",
   "theorems": [
    "C36_invert_twice",
    "C36_invert_complement",
    "C36_all_polygons",
    "C36_second_call_refuted"
   ],
   "note": "Null pointers modelled as the tree Null. C36_second_call_refuted is the accumulation defect."
  },
  {
   "property": "C37",
   "status": "proved",
   "theorems": [
    "C37_binary_round_trip",
    "C37_ascii_round_trip",
    "C37_no_zero_byte_refuted",
    "C37_taken_for_text_refuted"
   ],
   "note": "binary and text round trips; two refutations of the unconditional claim"
  },
  {
   "property": "C38",
   "status": "proved",
   "theorems": [
    "C38_short_binary_ignored",
    "C38_short_text_ignored",
    "C38_round_trip_refuted"
   ],
   "note": "for all such files"
  },
  {
   "property": "C39",
   "status": "proved",
   "theorems": [
    "C39_saves",
    "C39_round_trip",
    "C39_points_refuted",
    "C39_data_refuted",
    "C39_values",
    "C39_precision_refuted"
   ],
   "note": "Round trip for every mesh history, token level (numbers are words with a number of digits; what is read back is a parameter). Lost point elements, precision and data ids are the _refuted theorems."
  },
  {
   "property": "C40",
   "status": "proved",
   "theorems": [
    "C40_cells",
    "C40_corners",
    "C40_types",
    "C40_values",
    "C40_quadrilateral_refuted",
    "C40_removed_refuted",
    "C40_digits"
   ],
   "note": "Counts, corner positions and digits for every mesh; quadrilaterals and removed nodes are the _refuted theorems."
  },
  {
   "property": "C41",
   "status": "proved",
   "theorems": [
    "C41_equivalence",
    "C41_solve",
    "C41_sources",
    "C41_source_after_elimination_refuted",
    "C41_second_elimination_refuted"
   ],
   "note": "Includes the effect of sources on the right-hand side; use after elimination refuted."
  },
  {
   "property": "C42",
   "status": "proved",
   "theorems": [
    "C42_penalty",
    "C42_error",
    "C42_solve",
    "C42_other_methods"
   ],
   "note": "Exact error formula; solve overwrites."
  },
  {
   "property": "C43",
   "status": "proved",
   "theorems": [
    "C43_sum",
    "C43_scale",
    "C43_rows",
    "C43_common_solution",
    "C43_assign",
    "C43_assign_refuted",
    "C43_real"
   ],
   "note": "Operators of SleSystem over Q; assignment accumulates (refuted as replacement)."
  },
  {
   "property": "C44",
   "status": "proved",
   "theorems": [
    "C44_shape",
    "C44_inner",
    "C44_ends",
    "C44_exact",
    "C44_dirichlet",
    "C44_linear_profile_refuted",
    "C44_one_node_refuted",
    "C44_divergence",
    "C44_divergence_refuted"
   ],
   "note": "Generic FDM operators over Q for n >= 2; three refuted expectations beside."
  },
  {
   "property": "C45",
   "status": "proved",
   "theorems": [
    "C45_balance",
    "C45_constants",
    "C45_conservation",
    "C45_dissipation"
   ],
   "note": "Geometry (areas, volumes, distances) is a parameter: norms are irrational. matching/positive are facts about the geometry of the mesh."
  },
  {
   "property": "C46",
   "status": "proved",
   "theorems": [
    "C46_beam_laplacian",
    "C46_beam_mass",
    "C46_triangle_laplacian",
    "C46_triangle_mass",
    "C46_thickness_refuted",
    "C46_tetrahedron_laplacian",
    "C46_tetrahedron_mass",
    "C46_inverted_tetrahedron_refuted",
    "C46_quadrilateral",
    "C46_quadrilateral_mirror_refuted",
    "C46_hexahedron",
    "C46_parallelepiped",
    "C46_mesh_order_refuted",
    "C46_prism",
    "C46_prism_volume_refuted"
   ],
   "note": "Over the reals. Refuted beyond the statement: thickness, inverted tetrahedra, mirrored quadrilaterals, hexahedra in mesh order, prism volume."
  },
  {
   "property": "C47",
   "status": "proved",
   "theorems": [
    "C47_triangle",
    "C47_tetrahedron_rigid",
    "C47_tetrahedron_energy",
    "C47_tetrahedron_negative_energy_refuted",
    "C47_tetrahedron_symmetry_refuted",
    "C47_inverted_tetrahedron_refuted"
   ],
   "note": "Refuted: symmetry of tetrahedra, energy beyond the bound, inverted tetrahedra."
  },
  {
   "property": "C48",
   "status": "proved",
   "theorems": [
    "C48_moments",
    "C48_collision",
    "C48_opposite",
    "C48_step"
   ],
   "note": "D2Q9 tables, equilibrium, collision, streaming and macroscopic update over Q"
  },
  {
   "property": "C49",
   "status": "proved",
   "theorems": [
    "C49_rest",
    "C49_frame_flags_ignored",
    "C49_mass_refuted"
   ],
   "note": "holds from init(); the mass loss of closed cavities is C49_mass_refuted"
  },
  {
   "property": "C50",
   "status": "proved",
   "theorems": [
    "C50_in_domain",
    "C50_motion",
    "C50_direction_refuted",
    "C50_rest_refuted",
    "C50_period_refuted"
   ],
   "note": "In the domain whatever the speed; y and z velocity exchanged, jump at the lower side and lost overshoot are shown as refutations. Reals (standard library axioms)."
  },
  {
   "property": "C51",
   "status": "proved",
   "theorems": [
    "C51_kernels",
    "C51_normalised",
    "C51_one_dimension_refuted",
    "C51_cubic_spline_refuted",
    "C51_gradient",
    "C51_convex_gradient_refuted",
    "C51_laplacian_sign",
    "C51_convex_laplacian_refuted"
   ],
   "note": "All five kernels; integrals with Coquelicot is_RInt of the radial profile (surface factor of the dimension). Gaussian is truncated and not normalised here: its integral is not treated. Reals (standard library axioms)."
  },
  {
   "property": "C52",
   "status": "proved",
   "theorems": [
    "C52_bisection",
    "C52_error",
    "C52_no_sign_change"
   ],
   "note": "function an arbitrary Q -> Q"
  },
  {
   "property": "C53",
   "status": "proved",
   "theorems": [
    "C53_brent",
    "C53_no_sign_change",
    "C53_end_root_refuted"
   ],
   "note": "function an arbitrary Q -> Q; std::numeric_limits::max() a parameter; the missed end root is C53_end_root_refuted"
  },
  {
   "property": "C54",
   "status": "proved",
   "theorems": [
    "C54_control_volumes"
   ],
   "note": "Hypothesis cells_ok is what C13 proves of generateFaces."
  },
  {
   "property": "C55",
   "status": "proved",
   "theorems": [
    "C55_fraction_bounded",
    "C55_mixture_between",
    "C55_conserved",
    "C55_uniform",
    "C55_beta_bounded",
    "C55_correction_bounded",
    "C55_correction_idle",
    "C55_courant_nonneg",
    "C55_inflow_refuted",
    "C55_upwind_refuted"
   ],
   "note": "Fractions, mixture values, weights and conservation before clamping for every flux and weight; sign errors at inlets and of the donor choice are the _refuted theorems."
  },
  {
   "property": "C56",
   "status": "proved",
   "theorems": [
    "C56_beam",
    "C56_quadrilateral",
    "C56_hexahedron",
    "C56_affine",
    "C56_triangle",
    "C56_triangle_7",
    "C56_triangle_area_refuted",
    "C56_beam_3_refuted",
    "C56_quadrilateral_8_refuted",
    "C56_hexahedron_27_refuted",
    "C56_prism_refuted",
    "C56_other_counts",
    "C56_bem"
   ],
   "note": "All rules of the tables; polynomials as lists of monomials; bounds of 1e-9 relative to the coefficients where the printed constants are rounded."
  },
  {
   "property": "C57",
   "status": "proved",
   "theorems": [
    "C57_box",
    "C57_box_conforming",
    "C57_fills_box_refuted"
   ],
   "note": "C57_box, C57_box_conforming; C57_fills_box_refuted shows the unmeshed rim. Counts are limited to the range of int, as in the code."
  },
  {
   "property": "C58",
   "status": "proved",
   "theorems": [
    "C58_segment_to_line",
    "C58_fails_iff_parallel",
    "C58_segment_to_segment_refuted"
   ],
   "note": "Optimal over segment x line; true segment distance refuted."
  },
  {
   "property": "C59",
   "status": "proved",
   "theorems": [
    "C59_plane_intersection",
    "C59_normal_length_refuted"
   ],
   "note": "Exact for unit normals; refuted for other normals."
  },
  {
   "property": "C60",
   "status": "proved",
   "theorems": [
    "C60_polygon_measure",
    "C60_polygon_unseen",
    "C60_area_positive_refuted",
    "C60_tiny_refuted"
   ],
   "note": "area() carries a square root factor that cancels in normal()*area(); its sign is that of pg_area_ratio."
  },
  {
   "property": "C61",
   "status": "proved",
   "theorems": [
    "C61_clip_sound",
    "C61_clip_keeps",
    "C61_clip_areas",
    "C61_in_plane_refuted"
   ],
   "note": "Area clause with the default tolerance 0."
  },
  {
   "property": "C62",
   "status": "proved",
   "theorems": [
    "C62_contains",
    "C62_contains_never",
    "C62_orientation_refuted"
   ],
   "note": ""
  },
  {
   "property": "C63",
   "status": "proved",
   "theorems": [
    "C63_circle",
    "C63_circle_defined",
    "C63_axis_parallel_refuted",
    "C63_space_refuted"
   ],
   "note": "Zero tolerance. Non-finite results are UB in the model."
  },
  {
   "property": "C64",
   "status": "proved",
   "theorems": [
    "C64_sphere_box",
    "C64_centre_refuted"
   ],
   "note": "Positive clause for centre 0, negative clause by witness."
  },
  {
   "property": "C65",
   "status": "proved",
   "theorems": [
    "C65_clip_sound",
    "C65_clip_complete",
    "C65_kept_not_inside",
    "C65_empty_solid_refuted"
   ],
   "note": "Inside/outside defined on the tree from its planes (Csg_Spec). C65_empty_solid_refuted: plane of an empty node is uninitialised."
  },
  {
   "property": "C66",
   "status": "proved",
   "theorems": [
    "C66_build",
    "C66_convex_body",
    "C66_cube",
    "C66_warped_refuted",
    "C66_second_build_refuted"
   ],
   "note": "Termination by a fuel bound length ps + 1; C66_warped_refuted shows no fuel suffices for a non-flat quadrilateral; C66_second_build_refuted."
  },
  {
   "property": "C67",
   "status": "proved",
   "theorems": [
    "C67_add_sound",
    "C67_subtract_sound",
    "C67_intersect_sound",
    "C67_add_bodies",
    "C67_subtract_bodies",
    "C67_intersect_bodies",
    "C67_empty_refuted"
   ],
   "note": "General version in terms of the two BSP trees for every tolerance; convex-body version purely geometric for tolerance 0. Rational arithmetic."
  },
  {
   "property": "C68",
   "status": "proved",
   "theorems": [
    "C68_declared",
    "C68_penalty_elimination",
    "C68_rows_refuted",
    "C68_undeclared_refuted"
   ],
   "note": "Refuted for row scaling by a vector; scaled field stays MT_UNKNOWN."
  },
  {
   "property": "C69",
   "status": "proved",
   "theorems": [
    "C69_unique",
    "C69_bounds",
    "C69_all_steps",
    "C69_step_exists"
   ],
   "note": "Existence, uniqueness, bounds for one and all steps, exact arithmetic."
  },
  {
   "property": "C70",
   "status": "proved",
   "theorems": [
    "C70_step",
    "C70_bounds",
    "C70_all_steps",
    "C70_step_exists",
    "C70_old_value_refuted"
   ],
   "note": "Exact arithmetic and exact linear solver. C70_old_value_refuted: the loss of the old value next to prescribed faces."
  },
  {
   "property": "C71",
   "status": "proved",
   "theorems": [
    "C71_balance",
    "C71_uniform",
    "C71_boundary_sign_refuted"
   ],
   "note": "Inner balance proved; C71_boundary_sign_refuted shows the boundary part of the statement (wrong sign) on a two-element mesh."
  },
  {
   "property": "C72",
   "status": "proved",
   "theorems": [
    "C72_constant",
    "C72_evaluate",
    "C72_constant_refuted",
    "C72_variables_refuted"
   ],
   "note": "expression language a parameter; _refuted theorems give the surprising cases"
  },
  {
   "property": "C73",
   "status": "proved",
   "theorems": [
    "C73_density",
    "C73_maximum_principle",
    "C73_prescribed",
    "C73_uniform",
    "C73_time_step_refuted"
   ],
   "note": "Neighbour lists are parameters (any lists that contain the particle and existing particles). Reals (standard library axioms)."
  },
  {
   "property": "C74",
   "status": "proved",
   "theorems": [
    "C74_laplacian",
    "C74_linear_fields",
    "C74_ddt",
    "C74_implicit_step",
    "C74_ids_from_one_refuted",
    "C74_prism_storage_refuted"
   ],
   "note": "Assembly loops over the C46 element matrices with default element parameters; nodes and elements in the id tables of Mesh_Model."
  },
  {
   "property": "C75",
   "status": "proved",
   "theorems": [
    "C75_ambient_equilibrium",
    "C75_sign_refuted"
   ],
   "note": "Sign refuted on a beam. Radiative overloads do not compile or recurse, and are not modelled."
  },
  {
   "property": "C76",
   "status": "proved",
   "theorems": [
    "C76_source",
    "C76_refinement_refuted"
   ],
   "note": "Refinement refuted."
  },
  {
   "property": "C77",
   "status": "proved",
   "theorems": [
    "C77_mass_error",
    "C77_mass_conserved",
    "C77_pressure_compatible",
    "C77_rest",
    "C77_through_flow_refuted",
    "C77_hydrostatic_refuted",
    "C77_velocity_refuted",
    "C77_pressure_level"
   ],
   "note": "Closed cells: zero mass error for every state, mesh and momentum solver given an exact pressure solve; compatibility of the pressure system; rest preserved for any number of steps. Failures with inlets, gravity and moving lids are the _refuted theorems."
  },
  {
   "property": "C78",
   "status": "proved",
   "theorems": [
    "C78_rows",
    "C78_ids_refuted"
   ],
   "note": "Nodal fields; element-centred output is not modelled."
  },
  {
   "property": "C79",
   "status": "proved",
   "theorems": [
    "C79_steady1",
    "C79_steady2",
    "C79_steady3",
    "C79_hot_side",
    "C79_range_refuted"
   ],
   "note": "Over the real numbers. The range is refuted by C79_range_refuted."
  },
  {
   "property": "C80",
   "status": "proved",
   "theorems": [
    "C80_fin",
    "C80_no_convection_refuted",
    "C80_radiation_refuted"
   ],
   "note": "Positive h*P, k*A, length. Without convection and with radiation: refuted."
  },
  {
   "property": "C81",
   "status": "proved",
   "theorems": [
    "C81_transient1",
    "C81_transient2",
    "C81_transient3",
    "C81_initial3_refuted"
   ],
   "note": "Initial value of the cube: refuted by C81_initial3_refuted."
  },
  {
   "property": "C82",
   "status": "proved",
   "theorems": [
    "C82_burgers"
   ],
   "note": "Over the real numbers; the limit of the difference quotient."
  },
  {
   "property": "C83",
   "status": "proved",
   "theorems": [
    "C83_sharing_node",
    "C83_sharing_two",
    "C83_next_ids_ascend",
    "C83_descending_ids_refuted"
   ],
   "note": "Theorems for all meshes; sharing of two nodes needs ascending ids, refuted otherwise."
  },
  {
   "property": "C84",
   "status": "proved",
   "theorems": [
    "C84_extrude",
    "C84_layers",
    "C84_flat",
    "C84_sides",
    "C84_hexahedron_refuted"
   ],
   "note": "Normalisation is an arbitrary function in the main theorem; the volume theorem assumes only its scale invariance and idempotence. Quadrilaterals: refutation of the hexahedron's node order."
  },
  {
   "property": "C85",
   "status": "proved",
   "theorems": [
    "C85_open",
    "C85_crossing",
    "C85_crossing_refuted"
   ],
   "note": "checkOpen settled for generated faces; checkIntersections characterised for triangle meshes with the geometric tests as parameters, incompleteness refuted."
  },
  {
   "property": "C86",
   "status": "proved",
   "theorems": [
    "C86_plane",
    "C86_only_rigid",
    "C86_unique",
    "C86_space",
    "C86_symmetry_refuted",
    "C86_shell_refuted",
    "C86_quadrilateral_refuted"
   ],
   "note": "Plane triangles: full statement; tetrahedra: kernel, balance and coded energy, symmetry refuted. Over R (standard library axioms)."
  },
  {
   "property": "C87",
   "status": "proved",
   "theorems": [
    "C87_cylinder"
   ],
   "note": "real arithmetic; the polygons as handed to the boolean, before any operation; degenerate input (equal ends, fewer than three slices) outside the claim"
  },
  {
   "property": "C88",
   "status": "proved",
   "theorems": [
    "C88_sphere",
    "C88_one_stack_refuted"
   ],
   "note": "real arithmetic; one stack refuted"
  },
  {
   "property": "C89",
   "status": "proved",
   "theorems": [
    "C89_storage",
    "C89_append",
    "C89_same_id_refuted"
   ],
   "note": "by representation: the file stores a list of facets; refuted for ids in use"
  },
  {
   "property": "C91",
   "status": "proved",
   "theorems": [
    "C91_split",
    "C91_quality",
    "C91_ids_refuted",
    "C91_size_refuted",
    "C91_boundary_refuted"
   ],
   "note": "Proved in exact coordinates with real lengths and angles for all linked surfaces; the three refutations show what the code does not guarantee (size bound, boundary edges, ids not counted from 0)."
  },
  {
   "property": "C90",
   "status": "proved",
   "theorems": [
    "C90_connectivity",
    "C90_glued",
    "C90_crossing_refuted"
   ],
   "note": "Edges are compared by their middles only, which C90_crossing_refuted turns into a wrong link. Coordinates are rationals."
  },
  {
   "property": "C92",
   "status": "proved",
   "theorems": [
    "C92_mesh",
    "C92_welded",
    "C92_orientation_refuted",
    "C92_fan_refuted",
    "C92_round_trip"
   ],
   "note": "C92_orientation_refuted and C92_fan_refuted show that the conditions on orientation and on the number of corners at a point are needed."
  },
  {
   "property": "C93",
   "status": "proved",
   "theorems": [
    "C93_orientation",
    "C93_connected",
    "C93_outward_refuted"
   ],
   "note": "Edges match exactly (rationals). setOrientation(bool) is refuted: it overwrites the first facet and ignores its argument."
  },
  {
   "property": "C94",
   "status": "proved",
   "theorems": [
    "C94_remembered",
    "C94_forced",
    "C94_kept",
    "C94_reset",
    "C94_contains",
    "C94_reset_refuted",
    "C94_empty_reset_refuted",
    "C94_contains_refuted"
   ],
   "note": "Roots are not taken: normals before normalisation, surface area as the list of face normals. Polygons: centroid only. The faults of reset() and of contains() after vertices have been moved are shown as _refuted theorems."
  },
  {
   "property": "C95",
   "status": "proved",
   "theorems": [
    "C95_statistics",
    "C95_edges",
    "C95_invalid",
    "C95_clean",
    "C95_areas",
    "C95_distinct",
    "C95_ghosts_refuted",
    "C95_duplicate_refuted",
    "C95_concentric_refuted"
   ],
   "note": "Outline flags (angles) are not modelled. Three faults are shown as _refuted theorems: stale neighbours after removal, throwing on duplicates, loss of a concentric facet."
  },
  {
   "property": "C96",
   "status": "proved",
   "theorems": [
    "C96_boundary",
    "C96_upright",
    "C96_area",
    "C96_open",
    "C96_leftover_refuted",
    "C96_other_elements_refuted"
   ],
   "note": "All geometric tests (tree search, distances, angles, quality, intersections, place of a new node) are oracles over which the theorems quantify; an unfinished run (fuel) is not claimed anything about. The area statement has as hypothesis that no two sides run the same way between the same nodes, which can be checked on the returned mesh. Stale interior points and beams behind other elements are refutations."
  },
  {
   "property": "C97",
   "status": "proved",
   "theorems": [
    "C97_faces",
    "C97_flip",
    "C97_relax",
    "C97_without_faces_refuted"
   ],
   "note": "C97_faces: faces generated on a mesh of upright triangles make it ready. C97_flip, C97_relax: what flipping and moving keep and improve. C97_without_faces_refuted: on a mesh without faces moving nodes loses area. The quality measure is an arbitrary function (for flipping: the same from every corner)."
  },
  {
   "property": "C98",
   "status": "proved",
   "theorems": [
    "C98_range",
    "C98_uniform",
    "C98_conserved",
    "C98_with_flow",
    "C98_uniform_refuted",
    "C98_order_refuted"
   ],
   "note": "C98_range, C98_uniform, C98_conserved, C98_with_flow: exactly one solution, ranges, conservation of heat, with the flow solver between walls. C98_uniform_refuted: the boundary term is divided by the volume. C98_order_refuted: averaging overwrites the conductivity of the cell while its faces are visited. The flux balance is C77's."
  },
  {
   "property": "C99",
   "status": "proved",
   "theorems": [
    "C99_triangle",
    "C99_tetrahedron",
    "C99_gradient",
    "C99_uniform_stream2",
    "C99_uniform_stream3",
    "C99_balance2",
    "C99_balance3",
    "C99_tetrahedron_refuted",
    "C99_stabilisation_refuted",
    "C99_gravity_refuted",
    "C99_density_refuted",
    "C99_plane_refuted"
   ],
   "note": "Element matrices exact on linear fields, assembled gradient, uniform streams kept by a step (well-posedness of the velocity and pressure systems is a hypothesis; the storage system is proved well posed). Refuted: tetrahedra (entry with the velocity of the wrong corner), sign of the stabilisation, gravity, density, planes other than z = 0 and clockwise triangles."
  },
  {
   "property": "C100",
   "status": "proved",
   "theorems": [
    "C100_collapse",
    "C100_nothing_short",
    "C100_area_refuted",
    "C100_overturn_refuted"
   ],
   "note": "Exact rationals; lengths are compared by their squares. The numbers of cells of the two hash grids are arbitrary between 1 and the largest integer. Only meshes all of whose elements are triangles are considered."
  },
  {
   "property": "C101",
   "status": "proved",
   "theorems": [
    "C101_hull",
    "C101_tilted",
    "C101_set",
    "C101_repeated_refuted",
    "C101_vertical_refuted",
    "C101_in_line_refuted"
   ],
   "note": "both passes over the sorted vertices keep a chain without left turns; removed vertices lie below it for every linear function; repeated points, vertical planes and a start in line are refuted with examples"
  },
  {
   "property": "C102",
   "status": "proved",
   "theorems": [
    "C102_search",
    "C102_build_again_refuted",
    "C102_far_refuted",
    "C102_one_place_refuted"
   ],
   "note": "on C19 (the grid search is exact) with the second selection by distance; limits refuted with examples"
  },
  {
   "property": "C103",
   "status": "proved",
   "theorems": [
    "C103_faces",
    "C103_flip",
    "C103_relax",
    "C103_unused_node_refuted",
    "C103_elsewhere_refuted"
   ],
   "note": "Two refutations: a node of no element is moved; the result depends on the position of the mesh. That flipping leaves no two tetrahedra at the same side of three nodes is a hypothesis of the last part (a valid mesh stays valid geometrically; not proved)."
  },
  {
   "property": "C104",
   "status": "proved",
   "theorems": [
    "C104_flip",
    "C104_hole_refuted"
   ],
   "note": "Also shown: with two such edges at one tetrahedron flipEdges32 can leave a hole (C104_hole_refuted)."
  },
  {
   "property": "C105",
   "status": "proved",
   "theorems": [
    "C105_faces",
    "C105_flip",
    "C105_relax",
    "C105_dent_refuted",
    "C105_start_refuted"
   ],
   "note": "flipEdges and relaxNodes of the quadrilateral mesher for all meshes prepared by generateFaces; C105_dent_refuted and C105_start_refuted show what relaxNodes does not guarantee"
  },
  {
   "property": "C106",
   "status": "proved",
   "theorems": [
    "C106_flip",
    "C106_links_refuted",
    "C106_fold_refuted"
   ],
   "note": "flipEdges of STL surfaces for every connected surface, angle and memory of normals; C106_fold_refuted: tests of normals and area compare remembered values, so facets can be turned over; C106_links_refuted: neighbours and normals are not updated"
  },
  {
   "property": "C107",
   "status": "proved",
   "theorems": [
    "C107_relax",
    "C107_fold_refuted",
    "C107_numbers_refuted"
   ],
   "note": "relaxVertices of STL surfaces numbered from 0; C107_fold_refuted: remembered normals make the test pass always; C107_numbers_refuted: with other ids the surface is torn"
  },
  {
   "property": "C108",
   "status": "proved",
   "theorems": [
    "C108_triangle",
    "C108_quadrilateral",
    "C108_tetrahedron",
    "C108_prism",
    "C108_other",
    "C108_mesh",
    "C108_small_refuted",
    "C108_flat_prism_refuted",
    "C108_reflex_refuted",
    "C108_forgotten_refuted"
   ],
   "note": "Qualities as functions of exact coordinates with real values; not-a-number is represented. Inequalities proved for all shapes with the cases of equality; the places where the ratings mislead are the _refuted theorems."
  },
  {
   "property": "C109",
   "status": "proved",
   "theorems": [
    "C109_faces",
    "C109_triangles",
    "C109_quadrilateral_refuted",
    "C109_numbers_refuted",
    "C109_boundary_refuted"
   ],
   "note": "remesh on meshes of triangles: termination, repeatability, boundary, area, places of nodes and progress; findings on quadrilateral neighbours, element ids and boundary sides"
  },
  {
   "property": "C110",
   "status": "proved",
   "theorems": [
    "C110_beams",
    "C110_once",
    "C110_zero_refuted"
   ],
   "note": "remesh on meshes of beams: termination, equal division, rounding, ids, counts, idempotence on short beams; size 0 undefined"
  },
  {
   "property": "C111",
   "status": "proved",
   "theorems": [
    "C111_apart",
    "C111_latest",
    "C111_presence",
    "C111_throws",
    "C111_values",
    "C111_added",
    "C111_dofs_refuted",
    "C111_asking_refuted",
    "C111_size_refuted"
   ],
   "note": "all calls on fields; counterexamples for missing number of unknowns, asking for conditions of sides, changing the size"
  },
  {
   "property": "C112",
   "status": "proved",
   "theorems": [
    "C112_fixed",
    "C112_edges",
    "C112_centre_refuted",
    "C112_far_refuted"
   ],
   "note": "counterexamples for edges that only share the centre and for edges far away"
  },
  {
   "property": "C113",
   "status": "proved",
   "theorems": [
    "C113_places",
    "C113_zero",
    "C113_apart",
    "C113_chain_refuted"
   ],
   "note": "counterexample for short edges that share nodes"
  },
  {
   "property": "C114",
   "status": "proved",
   "theorems": [
    "C114_complete",
    "C114_sound",
    "C114_vertex",
    "C114_never_edge",
    "C114_distance",
    "C114_zero",
    "C114_edge_refuted",
    "C114_plane_refuted",
    "C114_side_refuted"
   ],
   "note": "Proved over the reals for triangles with area; three findings (no edge answers, no height test, distance to sides) as refuted theorems."
  },
  {
   "property": "C115",
   "status": "proved",
   "theorems": [
    "C115_line_complete",
    "C115_line_sound",
    "C115_crossing",
    "C115_inside",
    "C115_apart",
    "C115_before_refuted",
    "C115_opposite_refuted"
   ],
   "note": "Proved over the reals; two findings (normal not calculated for lines, opposite orientation in one plane) as refuted theorems."
  },
  {
   "property": "C116",
   "status": "proved",
   "theorems": [
    "C116_elements",
    "C116_faces",
    "C116_removed",
    "C116_rebuilt",
    "C116_again_refuted"
   ],
   "note": "counterexample for centroids calculated again after removeElement"
  },
  {
   "property": "C117",
   "status": "proved",
   "theorems": [
    "C117_contains",
    "C117_sound",
    "C117_meet",
    "C117_start_refuted",
    "C117_turned_refuted",
    "C117_chain",
    "C117_overlap",
    "C117_point_refuted",
    "C117_straight",
    "C117_apart_refuted"
   ],
   "note": "Proved over the reals; findings: a line does not contain its start, a line that begins on another does not meet it, for lines upon each other with a common end the point handed back can be off the second line, and parallel lines that stay apart can be said to meet."
  }
 ]
}
