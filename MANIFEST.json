{
 "claims": [
  {
   "property": "C01",
   "status": "partial",
   "theorems": [
    "cache_transparent",
    "cache_fifo",
    "cache_runs_on_misses_only",
    "cache_size_zero_fails",
    "cache_reentrant_transparent",
    "cache_strict_bound_refuted",
    "cache_reentrant_bound"
   ],
   "note": "Transparency, FIFO content and the bound are proved for non-recursive functions, transparency also for recursive ones. The strict size bound is refuted when the cached function calls itself; the weaker bound (size plus depth of recursion) is proved."
  },
  {
   "property": "C02",
   "status": "partial",
   "theorems": [
    "engine_cache_refuted",
    "engine_cache_orientation_refuted",
    "engine_cache_transparent_partial"
   ],
   "note": "Refuted: mesh equality ignores face order and orientation. Proved when equal keys imply identical evaluations."
  },
  {
   "property": "C03",
   "status": "partial",
   "theorems": [
    "symbolic_mul",
    "symbolic_div",
    "symbolic_float_zero",
    "symbolic_float_inf",
    "limit_value_is_limit",
    "symbolic_float_mixed_refuted",
    "symbolic_hash_refuted",
    "symbolic_array_sign_refuted"
   ],
   "note": "Products, quotients and conversions are those of coefficient*eps^order. Refuted for mixed symbols, hashing, and signs of arrays."
  },
  {
   "property": "C04",
   "status": "partial",
   "theorems": [
    "depth_resolution",
    "depth_errors",
    "depth_positive_partial",
    "depth_default_infinite",
    "depth_positive_sea_bottom_partial",
    "depth_positive_refuted"
   ],
   "note": "The resolution and its errors are proved for all arguments. Positivity of the depth is proved when water_depth is given or defaulted, and with sea_bottom when a body has a panel at or under z=0; refuted otherwise (depth zero accepted through sea_bottom without body)."
  },
  {
   "property": "C05",
   "status": "proved",
   "theorems": [
    "freq_consistent",
    "freq_unique",
    "freq_round_trip",
    "freq_limits",
    "freq_at_most_one",
    "freq_default"
   ],
   "note": "The root finder is an oracle assumed exact (Proofs_RootFinder shows that an exact one exists)."
  },
  {
   "property": "C06",
   "status": "proved",
   "theorems": [
    "encounter_without_speed",
    "encounter_with_speed"
   ],
   "note": "Root finder assumed exact."
  },
  {
   "property": "C07",
   "status": "partial",
   "theorems": [
    "problem_accepted_iff",
    "problem_body_immersed",
    "problem_given_boundary_condition",
    "problem_wrong_boundary_condition",
    "diffraction_boundary_condition",
    "radiation_boundary_condition",
    "problem_empty_body_refuted",
    "radiation_limit_with_lid_refuted"
   ],
   "note": "Acceptance is characterised and boundary conditions are computed. Refuted: a body emptied by the automatic clipping is accepted; limit frequencies with a lid raise TypeError."
  },
  {
   "property": "C08",
   "status": "partial",
   "theorems": [
    "equal_problems_refuted",
    "equal_radiation_problems_partial",
    "order_refuted",
    "order_strict_weak_partial"
   ],
   "note": "Refuted for the wave direction and for bodies sharing a name. Proved for radiation problems without speed and for lists where names identify bodies."
  },
  {
   "property": "C09",
   "status": "partial",
   "theorems": [
    "solve_all_each_alone_partial",
    "solve_all_checks_do_not_matter",
    "cached_engine_transparent",
    "solve_all_generic_refuted",
    "solve_all_empty_refuted",
    "solve_all_bodyless_refuted"
   ],
   "note": "Proved for lists of diffraction and radiation problems with bodies, when the state of the engine and linear solver is transparent (proved for the cached engine when equal keys have equal matrices). Refuted: problems of the base class, an empty list with several jobs, and problems without body make the whole call raise."
  },
  {
   "property": "C10",
   "status": "partial",
   "theorems": [
    "solve_all_input_order_refuted",
    "solve_all_sorted_order",
    "solve_all_input_order_partial"
   ],
   "note": "Refuted: results follow the sorted problems. Proved for lists without inversion."
  },
  {
   "property": "C11",
   "status": "partial",
   "theorems": [
    "potential_independent_of_chunks",
    "potential_same_for_two_chunk_sizes",
    "potential_errors",
    "negative_chunk_size_refuted"
   ],
   "note": "Every simple mesh, every collection of sources, every positive chunk size, basic engine. A collection of meshes as target is merged before the extraction, which moves its corners by up to 1e-8: not covered. Refuted for negative chunk sizes: no value is computed."
  },
  {
   "property": "C12",
   "status": "partial",
   "theorems": [
    "full_matrix_faithful",
    "represented_matrix_exists_and_is_unique",
    "no_toeplitz_faithful",
    "scaling_faithful_partial",
    "scaling_low_rank_refuted",
    "negation_faithful",
    "entrywise_operation_faithful_partial",
    "sum_of_different_structures_refuted",
    "product_with_array_faithful_partial",
    "product_of_block_matrices_partial",
    "product_of_nested_matrices_refuted",
    "real_vector_refuted",
    "full_like_faithful",
    "identity_like_faithful_partial"
   ],
   "note": "Proved for every nesting with the same structure on both sides. Refuted: sums of different structures with the same number of blocks leave entries unset; low-rank blocks cannot be scaled; nested block matrices cannot be multiplied; complex plain block matrices refuse real vectors."
  },
  {
   "property": "C13",
   "status": "proved",
   "theorems": [
    "every_position_gets_its_block",
    "stored_block_positions",
    "toeplitz_even_number_refused"
   ],
   "note": ""
  },
  {
   "property": "C14",
   "status": "partial",
   "theorems": [
    "fast_product_exact_partial",
    "fast_product_single_block_refuted",
    "fast_product_mixed_blocks_refuted"
   ],
   "note": "Proved for every nesting whose stored blocks have the same structure at each level (or some array), over any commutative ring with principal roots of unity, instantiated on the complex numbers. Refuted for symmetric Toeplitz matrices of one block and for blocks of different structures."
  },
  {
   "property": "C15",
   "status": "partial",
   "theorems": [
    "left_product_plain_partial",
    "left_product_real_vector_partial",
    "left_product_conjugates_refuted",
    "left_product_nested_refuted"
   ],
   "note": "Refuted: structured matrices multiply the conjugate of the vector, and nested circulant matrices are wrong even for real vectors. Proved for plain nestings, and for real vectors with one level of structure."
  },
  {
   "property": "C16",
   "status": "partial",
   "theorems": [
    "direct_solver_solution_partial",
    "direct_solver_succeeds_partial",
    "direct_solver_low_rank_refuted",
    "direct_solver_wrong_length"
   ],
   "note": "Proved for every nesting of circulant, 2x2 symmetric and other structures whose stored blocks have the same nesting and contain no low-rank block; the array solver is an oracle assumed exact (Gauss elimination is shown to be one). Low-rank matrices are refused by the solver."
  },
  {
   "property": "C17",
   "status": "partial",
   "theorems": [
    "lu_cache_transparent_partial",
    "lu_solution_partial",
    "lu_cache_after_failure_refuted",
    "lu_cache_after_mutation_refuted"
   ],
   "note": "Refuted: after a failed decomposition, the next call with the same matrix uses the decomposition of the previous matrix; in-place modifications are not seen. Proved for all other histories."
  },
  {
   "property": "C18",
   "status": "partial",
   "theorems": [
    "low_rank_operations_partial",
    "low_rank_complex_division_refuted",
    "low_rank_sum_refuted",
    "low_rank_joined_sum_partial",
    "recompress_refuted",
    "recompress_fails_refuted",
    "truncated_svd_partial",
    "aca_rank_bound",
    "aca_interpolates_partial",
    "aca_tolerance_partial",
    "aca_one_face_refuted",
    "aca_pivots"
   ],
   "note": "Proved: operations on low-rank matrices and their joined sums represent the same operations on full matrices; the adaptive cross approximation interpolates the rows and columns it used, has at most the maximal rank and stops at the tolerance it reports. Refuted: sums after recompression, recompression itself, division by complex numbers, approximation of a single row."
  },
  {
   "property": "C19",
   "status": "partial",
   "theorems": [
    "cut_matrix_faithful_partial",
    "cut_matrix_refuted",
    "cut_matrix_wrong_column_refuted"
   ],
   "note": "Refuted for unequal partitions: columns are taken at the offsets of the rows. Proved when the offsets agree."
  },
  {
   "property": "C20",
   "status": "partial",
   "theorems": [
    "basic_engine_is_dense",
    "hierarchical_engine_is_dense",
    "hierarchical_engine_exact_without_aca",
    "built_meshes_are_regular",
    "quarter_meshes_are_regular",
    "opposite_axes_refuted",
    "symmetric_meshes_give_evaluated_matrices",
    "symmetric_meshes_give_evaluated_hierarchical_matrices"
   ],
   "note": "For every nesting of symmetries whose parts are images of the first one at every depth, every number of slices and every Green function invariant under the symmetries on the faces of the meshes; the last two theorems discharge this hypothesis for the Green function of Delhommeau. The result of the adaptive cross approximation is an oracle that satisfies a relation. Refuted: two meshes around the same line with axes of opposite directions. The preconditioner engine is not modelled."
  },
  {
   "property": "C21",
   "status": "proved",
   "theorems": [
    "new_mesh_accepts_valid",
    "extract_faces_keeps_geometry",
    "extract_faces_bad_index",
    "extract_one_face_keeps_geometry",
    "sliced_by_plane_shares_faces",
    "extract_lid_shares_faces",
    "remove_unused_vertices_keeps_faces",
    "remove_degenerated_faces_by_area"
   ],
   "note": "Extraction with negative and repeated indices, slices, lids, removal of unused vertices and degenerated faces."
  },
  {
   "property": "C22",
   "status": "partial",
   "theorems": [
    "merge_duplicates_keeps_geometry_partial",
    "merge_leaves_close_vertices_refuted",
    "merge_empty_mesh_refuted"
   ],
   "note": "The whole statement is proved for meshes with at least one vertex. Refuted: merging a mesh without vertices raises; with a positive tolerance some remaining vertices may be closer than the tolerance."
  },
  {
   "property": "C23",
   "status": "partial",
   "theorems": [
    "heal_triangles_partial",
    "heal_changes_area_refuted",
    "triangulate_keeps_surface",
    "flip_normals_partial",
    "normal_follows_orientation"
   ],
   "note": "Rotation of the corners, orientation and area vectors are proved for all meshes; the properties of the faces (area, center) are kept for triangles and planar convex quadrangles. Refuted: healing or flipping changes the area of a quadrangle that is not planar."
  },
  {
   "property": "C24",
   "status": "partial",
   "theorems": [
    "collection_is_concatenation",
    "every_face_in_a_part",
    "submesh_containing_face_locates",
    "collection_extract_one_face",
    "collection_extract_one_face_beyond",
    "collection_negative_index_refuted",
    "empty_collection_fails",
    "merged_keeps_faces",
    "collection_extract_faces",
    "paths_lead_to_leaves",
    "prune_keeps_faces",
    "collection_center_of_nodes_partial",
    "collection_center_empty_part_refuted"
   ],
   "note": "Every nesting of collections. Refuted: negative indices (counted from the end of the first part) and the center of nodes when a part is empty. A collection with no part at all raises ValueError."
  },
  {
   "property": "C25",
   "status": "partial",
   "theorems": [
    "translate_is_rigid",
    "rotate_is_rigid",
    "rotation_group",
    "rotation_direction",
    "mirror_is_reflection_partial",
    "mirror_wrong_plane_refuted",
    "degenerate_center_refuted",
    "align_vectors_partial",
    "align_not_unit_refuted"
   ],
   "note": "Refuted: mirroring through a plane whose normal points towards the origin uses the opposite plane; faces without area; aligning vectors that are not unit. The rest is proved."
  },
  {
   "property": "C26",
   "status": "partial",
   "theorems": [
    "copy_of_symmetric_mesh",
    "copy_depth_irrelevant",
    "constructors_build_symmetric_meshes",
    "translate_keeps_symmetry_partial",
    "translate_then_copy_refuted",
    "rotate_keeps_symmetry_partial",
    "rotate_then_copy_refuted",
    "tilt_then_copy_refuted",
    "mirror_keeps_symmetry_partial",
    "mirror_axial_then_copy_refuted",
    "mirror_integer_translation_refuted",
    "join_keeps_parts",
    "join_is_symmetric",
    "mesh_of_revolution"
   ],
   "note": "Proved for every nesting of symmetric meshes under the stated conditions on planes and axes; the remaining cases are refuted by witnesses. Clipping of the parts: see C27."
  },
  {
   "property": "C27",
   "status": "partial",
   "theorems": [
    "face_is_cut_exactly",
    "clip_keeps_part_below_partial",
    "clip_small_face_refuted",
    "clip_aligned_corners_refuted",
    "clip_at_tolerance_refuted",
    "collection_clip_is_clip_of_parts"
   ],
   "note": "All sides of all corners of triangles and strictly convex planar quadrangles; all meshes whose vertices are on the plane or farther than the tolerance; all nestings of collections. The pieces are exact; the mesh is made of them up to the merging of vertices (1e-8). Refuted: small faces are removed although they are below the plane; aligned corners on the plane and vertices at the tolerance raise."
  },
  {
   "property": "C28",
   "status": "partial",
   "theorems": [
    "body_clip_aligns_dofs_partial",
    "body_clip_misaligned_refuted",
    "body_clip_wrong_dof",
    "body_clip_follows_panels"
   ],
   "note": "Proved when no small face is removed; refuted otherwise: the rows of the removed faces are kept, so that the following rows belong to the wrong faces."
  },
  {
   "property": "C29",
   "status": "proved",
   "theorems": [
    "components_partition_faces"
   ],
   "note": "For every valid mesh without cached properties; the loops end and the internal check never fails."
  },
  {
   "property": "C30",
   "status": "partial",
   "theorems": [
    "closed_surface_normals_partial",
    "closed_surface_volumes_partial",
    "closed_surface_volume_invariant_partial",
    "center_of_buoyancy_translates_partial",
    "center_of_buoyancy_refuted",
    "immersed_hull_partial",
    "closed_warped_surface_refuted",
    "closed_tiny_triangle_refuted",
    "surface_integral_wrong_length"
   ],
   "note": "Every mesh or collection made of triangles and planar convex quadrangles with an area that is not negligible; also rotations, reflections and hulls open at the free surface. Refuted: quadrangles that are not planar, triangles with an area less than 5e-13, and the position of the center of buoyancy."
  },
  {
   "property": "C31",
   "status": "partial",
   "theorems": [
    "translation_dof_is_constant",
    "named_translation_dofs",
    "rotation_dof_is_rotation_velocity",
    "rigid_dofs_and_their_center",
    "rotation_dofs_of_moved_bodies",
    "translated_rotation_center",
    "rotated_center_refuted",
    "unnamed_dof_refuted",
    "kept_dofs",
    "keeping_dofs_succeeds"
   ],
   "note": "Every body and every axis. Refuted: the rotation centre cannot be inferred after a rotation or a reflection, and an unnamed dof may overwrite another dof."
  },
  {
   "property": "C32",
   "status": "partial",
   "theorems": [
    "joined_bodies_partial",
    "join_associative_partial",
    "joined_same_name_refuted",
    "joined_inertia_refuted",
    "joined_collision_with_inertia"
   ],
   "note": "Every number of bodies with meshes that need no healing, distinct names of dofs in the assembly and a total mass that is not zero. Refuted: bodies with the same name, and inertia matrices of bodies whose dofs were selected in another order."
  },
  {
   "property": "C33",
   "status": "partial",
   "theorems": [
    "regular_array_of_meshes",
    "regular_array_partial",
    "array_of_joined_body_refuted"
   ],
   "note": "Proved for every size of array and every mesh (with or without symmetries) that needs no healing, and dofs with distinct names without double underscore. Refuted for the bodies obtained by joining others, whose dofs have a double underscore in their names: the copies overwrite the dofs of each other."
  },
  {
   "property": "C34",
   "status": "proved",
   "theorems": [
    "coefficients_recombine",
    "coefficients_limits",
    "integrate_pressure_formula",
    "force_linear_in_pressure",
    "force_linear_in_dof"
   ],
   "note": ""
  },
  {
   "property": "C35",
   "status": "partial",
   "theorems": [
    "rao_solves_equation_of_motion_partial",
    "rao_exists_partial",
    "impedance_relates_velocities",
    "rao_not_symmetric_refuted",
    "rao_errors"
   ],
   "note": "Proved for every dataset with symmetric matrices and every exact solver of linear systems. Refuted otherwise: the transposed system is solved."
  },
  {
   "property": "C36",
   "status": "partial",
   "theorems": [
    "airy_velocity_is_gradient_partial",
    "airy_laplace",
    "airy_divergence_free_partial",
    "airy_free_surface_partial",
    "airy_sea_bottom",
    "airy_sea_bottom_deep_partial",
    "airy_unit_amplitude",
    "airy_surface_pressure",
    "airy_reversed_refuted"
   ],
   "note": "Proved when the encounter direction is not reversed and the depth is not approximated by infinity. Refuted when the body overtakes the waves."
  },
  {
   "property": "C37",
   "status": "proved",
   "theorems": [
    "test_matrix_problems",
    "test_matrix_accepted",
    "test_matrix_refused"
   ],
   "note": "The problems are exactly those described by the test matrix, each once, for all ranges of values. The coordinates of the dataset are given as lists."
  },
  {
   "property": "C38",
   "status": "partial",
   "theorems": [
    "dataset_values_partial",
    "dataset_records",
    "dataset_accepted",
    "dataset_frequencies",
    "problems_travel",
    "dataset_broadcast_refuted",
    "dataset_direction_refuted"
   ],
   "note": "Selection in the assembled dataset gives the value of the first result of the class agreeing on the dimensions of its array, nan if there is none; at the coordinates of a result all its parameters are compared. Accepted and refused lists of results are characterised. Refuted in general: a parameter with a single value among the radiation results is not compared, so that these results are found at the other values brought by the diffraction results; the encounter direction does not depend on gravity and depth. Not modelled: Kochin and hydrostatic datasets, attributes, the alignment of the extra coordinates."
  },
  {
   "property": "C39",
   "status": "partial",
   "theorems": [
    "complex_round_trip_partial",
    "separated_values",
    "complex_round_trip_refuted",
    "single_precision_refuted"
   ],
   "note": "Proved for every dataset with finite imaginary parts. Refuted for an infinite imaginary part (1j*inf has a nan real part) and complex64 variables are not separated."
  },
  {
   "property": "C40",
   "status": "partial",
   "theorems": [
    "nem_files",
    "hst_files",
    "mar_files_partial",
    "mar_files_no_faces_refuted",
    "mar_files_large_coordinate_refuted",
    "nat_files_partial",
    "nat_files_few_faces_refuted",
    "nat_files_many_faces_refuted",
    "pnl_files_partial",
    "pnl_files_single_vertex_refuted",
    "gdf_files_partial",
    "gdf_files_few_faces_refuted",
    "gdf_symmetric_files_partial"
   ],
   "note": "Proved character by character for six formats, NEM without condition. Refuted: MAR without faces or with a coordinate of a billion; NAT and GDF with less than four faces; NAT with a hundred thousand faces or more; PNL with a single vertex. Formats other than these six are not modelled."
  },
  {
   "property": "C41",
   "status": "partial",
   "theorems": [
    "writing_keeps_mesh_partial",
    "stl_keeps_mesh_refuted",
    "stl_second_export_refuted"
   ],
   "note": "Proved for the six text formats, and for STL with triangles only. Refuted for STL and any mesh with a quadrangle: the quadrangle is replaced by one of its halves in the mesh of the caller, and a second export gives a shorter file. The formats VTK and Tecplot are not modelled."
  },
  {
   "property": "C42",
   "status": "partial",
   "theorems": [
    "properties_never_stale_partial",
    "quadrature_never_stale_partial",
    "accesses_do_not_matter_partial",
    "transformations_use_right_properties",
    "write_vertex_refuted",
    "assign_method_refuted",
    "column_refuted"
   ],
   "note": "Every program made of method calls on any number of mesh objects (copies, extractions, exceptions included). Refuted for the other statements: writing in the array of vertices, assigning quadrature_method after its first use, extraction with a column of indices (connected components). Not modelled: assigning vertices with a wrong number of columns (the exception leaves the old properties), heal_normals."
  },
  {
   "property": "C43",
   "status": "partial",
   "theorems": [
    "whole_mesh_current_partial",
    "whole_mesh_current_refuted",
    "estimate_current_partial",
    "estimate_current_refuted"
   ],
   "note": "Proved for every history of constructions, transformations in place, clips (including those that remove the lid), copies and joins. Refuted when the mesh or the lid is assigned after mesh_including_lid was read (building a problem reads it). The estimate of the irregular frequency is proved only when the body is not modified in place after a first estimate, and refuted otherwise."
  },
  {
   "property": "C44",
   "status": "proved",
   "theorems": [
    "free_surface_is_the_grid",
    "free_surface_area_is_covered",
    "rectangle_is_the_grid",
    "rectangle_errors",
    "rectangle_single_strip"
   ],
   "note": "Free surface: every range and resolution. Rectangles: every size, centre, resolution, unit normal and symmetry option, the cells being at least 1e-6 large (below, healing removes or merges them), with any correct sort and any enumeration of sets in the healing; the rectangle is healed, translated and rotated as in the code. A free surface with increasing ranges has its normals downwards."
  },
  {
   "property": "C45",
   "status": "proved",
   "theorems": [
    "rectangle_radius_at_most",
    "rectangle_radius_reached"
   ],
   "note": "Every size, resolution, centre, unit normal, symmetry option and radius not smaller than 2e-6."
  },
  {
   "property": "C46",
   "status": "proved",
   "theorems": [
    "values_determined",
    "airy_waves_at_points",
    "airy_elevation_at_points",
    "airy_waves_wrong_points",
    "flow_at_points",
    "elevation_at_points",
    "flow_wrong_points",
    "flow_without_sources"
   ],
   "note": "One point, a list of points or a grid of coordinates of any shape; every Green function (an oracle) and every source distribution. One point gives an array of one value, and velocities of shape (1, 3), while the documentation says (3,). The errors of the Green function that do not depend on the points are not raised."
  },
  {
   "property": "C47",
   "status": "proved",
   "theorems": [
    "assembly_any_schedule",
    "assembly_schedules_agree",
    "assembly_finishes",
    "assembly_permuted_faces",
    "evaluate_outcomes",
    "evaluate_finishes",
    "evaluate_limits_in_finite_depth"
   ],
   "note": "Every number of threads, every interleaving of their statements, every distribution of the columns and every initial content of the memory. The integrals over a panel are oracles that depend on their arguments only; numbers are exact, so the order of additions inside one entry does not matter. Floating point rounding is not modelled."
  },
  {
   "property": "C48",
   "status": "partial",
   "theorems": [
    "single_body_import_partial",
    "all_bodies_refuted",
    "wide_matrices_refuted",
    "other_codes_refuted"
   ],
   "note": "Proved for one body computed by WAMIT. Refuted: with several bodies, only the rows of the last one are returned, and none if the matrices have six columns per body; the data of any other code raise an exception."
  },
  {
   "property": "C49",
   "status": "proved",
   "theorems": [
    "quadrature_area",
    "triangles_convex",
    "parallelograms_convex",
    "quadrature_face_area",
    "scheme_area",
    "quadrature_moment",
    "quadrature_default",
    "quadrature_unknown",
    "quadrature_warped_refuted"
   ],
   "note": "Every valid mesh and each built-in scheme, for all planar convex faces; also any scheme exact to degree one. The restriction to planar faces is shown to be needed."
  },
  {
   "property": "C50",
   "status": "proved",
   "theorems": [
    "inertia_is_symmetric",
    "inertia_of_translations",
    "inertia_coefficients"
   ],
   "note": "Every mesh, mass, centre and output type. The coefficients are those of a body of uniform density up to the quadrature with one point by face. The order of the labels of the merged output type is simplified."
  },
  {
   "property": "C51",
   "status": "proved",
   "theorems": [
    "solve_indirect_equations",
    "solve_direct_equations",
    "solve_speed_equations",
    "solve_speed_zero_encounter",
    "solve_errors"
   ],
   "note": "For any engine and any exact linear solver; finite frequencies."
  },
  {
   "property": "C52",
   "status": "partial",
   "theorems": [
    "stiffness_of_floating_body",
    "stiffness_symmetry_refuted",
    "stiffness_coefficients",
    "stiffness_matrix_coefficients"
   ],
   "note": "Proved for bodies in equilibrium and rigid dofs; refuted for other bodies."
  },
  {
   "property": "C53",
   "status": "partial",
   "theorems": [
    "heal_normals_reverses_faces",
    "heal_normals_consistent",
    "heal_normals_all_or_none",
    "heal_normals_outwards_partial",
    "heal_normals_parts_refuted",
    "heal_normals_no_face"
   ],
   "note": "Every mesh, every enumeration order of the Python sets. Outward is stated as a non negative volume of the watertight surface, for triangles and planar convex quadrangles. Refuted for several closed surfaces in the same mesh: only the total volume is tested, so that one of them may stay inside out. The mesh has no cached property."
  },
  {
   "property": "C54",
   "status": "partial",
   "theorems": [
    "rectangle_symmetry_same_panels_partial",
    "rectangle_symmetry_same_panels_refuted",
    "rectangle_normal_direction_refuted"
   ],
   "note": "Proved for the default normal. Refuted for a horizontal normal: the width and the height are exchanged by the symmetric variants. A normal that is not a unit vector gives panels with another direction."
  },
  {
   "property": "C55",
   "status": "partial",
   "theorems": [
    "surface_pressure_elevation_partial",
    "surface_pressure_elevation_difference",
    "surface_pressure_elevation_refuted"
   ],
   "note": "Proved without forward speed. Refuted with forward speed: the term of the speed has opposite signs in the two functions, and the difference is twice this term."
  },
  {
   "property": "C56",
   "status": "partial",
   "theorems": [
    "flow_on_mesh_partial",
    "velocity_on_own_mesh",
    "airy_waves_on_mesh",
    "velocity_on_mesh_refuted"
   ],
   "note": "Proved for every mesh other than the mesh object that supports the sources, and on it for the potential and without forward speed for the pressure and the elevation. Refuted for the velocity on that object: the jump of the velocity is added, which is the physical value on the hull."
  },
  {
   "property": "C57",
   "status": "partial",
   "theorems": [
    "evaluate_limits_partial",
    "infinite_frequency_refuted",
    "normalisation_error"
   ],
   "note": "Proved for the settings high_freq and low_freq, and for low_freq_with_rankine_part except at infinite frequency. Refuted there: zero times the infinite wavenumber is nan, and the call always raises RuntimeError. The factor is - 1 / (4 pi) up to a relative error between 2e-13 and 3e-13, because of the digits of pi in the Fortran code."
  },
  {
   "property": "C58",
   "status": "partial",
   "theorems": [
    "early_dot_product_consistent",
    "early_dot_product_of_points_refuted"
   ],
   "note": "Proved for the normal vectors given to the assembly. Refuted for a list of points with the adjoint double layer: there is no normal vector and the result is silently zero."
  },
  {
   "property": "C59",
   "status": "partial",
   "theorems": [
    "other_bodies_unchanged_partial",
    "undisturbed_bodies_unchanged",
    "other_bodies_unchanged_refuted"
   ],
   "note": "Proved when no mesh object is given to two bodies. Refuted when two bodies are built from the same mesh object. Only the mesh and the lid are in this model, not the dofs."
  },
  {
   "property": "C60",
   "status": "partial",
   "theorems": [
    "single_body_import_partial",
    "frequencies_refuted",
    "units_refuted",
    "imported_waves"
   ],
   "note": "Proved for one body computed by WAMIT with ascending frequencies. Refuted when the frequencies are not sorted, and for the data of another code that follow those of WAMIT. The wavenumbers, wavelengths and periods are right in every import that succeeds, for any root finder (the secant method is an argument)."
  },
  {
   "property": "C61",
   "status": "partial",
   "theorems": [
    "green_function_respects_symmetries",
    "evaluate_is_green_function",
    "unbounded_fluid_respects_isometries",
    "unbounded_fluid_diagonal_refuted"
   ],
   "note": "Proved for every tabulation and exponential decomposition (arguments), every frequency, depth, setting and symmetric quadrature, for planar faces. Without free surface it is proved for two different faces; refuted for the diagonal: a face within 1e-8 of the level z = 0 gets another coefficient although there is no free surface."
  },
  {
   "property": "C62",
   "status": "partial",
   "theorems": [
    "sea_bottom_condition_partial",
    "sea_bottom_condition_refuted"
   ],
   "note": "Proved for the settings low_freq and high_freq, every tabulation and exponential decomposition; with the newer computation of the finite depth the image of the panel by the free surface has to be far from the point. Refuted with low_freq_with_rankine_part, that adds a term of the infinite depth."
  },
  {
   "property": "C63",
   "status": "partial",
   "theorems": [
    "free_surface_condition_partial",
    "free_surface_condition_up_to_quadrature",
    "free_surface_at_limits"
   ],
   "note": "In infinite depth, for every tabulation: exact with low_freq_with_rankine_part and for the panels seen as a point; otherwise the exact defect is given, the difference between two integrations of the Rankine term. At the zero and infinite frequencies the conditions are exact."
  },
  {
   "property": "C64",
   "status": "partial",
   "theorems": [
    "rankine_gradient_partial",
    "reflected_rankine_gradient_partial",
    "velocity_is_gradient_partial",
    "rankine_gradient_refuted"
   ],
   "note": "Proved, with the derivatives of real analysis, for the Rankine parts, that is without free surface and at the limits of the frequency, at the points that are not near the plane of the panel or the planes through its sides. Refuted within 1e-5 of a plane through a side. Missing: the derivatives of the tabulated wave part."
  },
  {
   "property": "C65",
   "status": "partial",
   "theorems": [
    "scaling_partial",
    "small_panel_refuted"
   ],
   "note": "Proved for all the settings and depths, every tabulation and exponential decomposition, when the fixed distances of the code do not separate the two units. Refuted for panels smaller than 1e-5, whose potential at their center is zero."
  },
  {
   "property": "C66",
   "status": "partial",
   "theorems": [
    "tabulation_is_defined",
    "tabulation_at_nodes",
    "tabulation_of_polynomials",
    "tabulation_uses_neighbours",
    "integration_is_simpson",
    "simpson_exact_on_cubics",
    "asymptotic_singularities",
    "one_point_refuted",
    "two_coordinates_refuted",
    "free_surface_index_refuted"
   ],
   "note": "Proved for both shapes and all the sizes from three, every number of points from two and every approximation of the exponential integral. Refuted for grids of two coordinates, that are read outside of the arrays, for a single integration point, and for z = 0, whose logarithm is converted to an integer. Missing: the error of the interpolation."
  },
  {
   "property": "C67",
   "status": "partial",
   "theorems": [
    "cached_tables_are_right",
    "constructions_succeed",
    "saved_table_is_read",
    "versions_do_not_share",
    "killed_while_saving_refuted",
    "simultaneous_constructions_refuted"
   ],
   "note": "The tables are right for every interleaving, with processes killed and files removed, given that the writing of the floating point numbers is injective and without separators. The constructions do not fail when they are made one at a time. Refuted otherwise: a process killed while it writes leaves a file that makes all the later constructions fail, and a second process fails when it reads a file being written."
  },
  {
   "property": "C68",
   "status": "partial",
   "theorems": [
    "fill_dataset_radiation",
    "fill_dataset_diffraction",
    "fill_dataset_succeeds",
    "fill_dataset_progress_bar_refuted",
    "fill_dataset_failure_refuted"
   ],
   "note": "Values and success proved for every test matrix, engine with a transparent cache, method and number of jobs. Refuted: the documented option progress_bar is refused after the computation, and the damping of a failed resolution is recorded as zero at the zero frequency. Missing: the options mesh and hydrostatics, the attributes."
  },
  {
   "property": "C69",
   "status": "partial",
   "theorems": [
    "kochin_values",
    "kochin_reference_point",
    "kochin_superposition",
    "kochin_dataset",
    "kochin_failure_refuted",
    "kochin_direct_refuted",
    "kochin_lid_refuted",
    "kochin_limit_refuted"
   ],
   "note": "The formula, the phases, the linearity and the records are proved. Refuted: with angles in the test matrix the whole call fails when a resolution fails, with the direct method, with a lid, or with the frequencies zero and infinity."
  },
  {
   "property": "C70",
   "status": "partial",
   "theorems": [
    "box_is_its_sides",
    "box_is_closed",
    "box_errors_raised",
    "box_single_strip",
    "box_radius_at_most",
    "box_radius_reached",
    "box_radius_symmetric_refuted",
    "box_is_its_sides_refuted"
   ],
   "note": "Every size, centre, resolution, set of missing sides and symmetry, the edges of the panels being at least 1e-6 long and no panel having less than 1e-5 times the area of another, with any correct sort and any enumeration of sets. Under reflection the right and back sides are the images of the left and front ones, as documented. Refuted without the condition on the areas: the panels of the ends of a 1000 x 1 x 0.001 box are removed by the healing. Refuted for a radius with reflection symmetries: an even resolution can be replaced by an odd one, which is refused."
  },
  {
   "property": "C71",
   "status": "proved",
   "theorems": [
    "nemoh_problems",
    "nemoh_cut",
    "nemoh_no_body",
    "nemoh_missing_body",
    "nemoh_unknown_unit"
   ],
   "note": "For every content of the file and every constructor of problems. The lines of degrees of freedom of an unknown kind are skipped silently, and the vector of a rotation is normalised when that of a translation is not: both are part of the statement. A rotation around a null vector, nan in the code, is outside of the hypotheses."
  },
  {
   "property": "C72",
   "status": "partial",
   "theorems": [
    "nemoh_export_import_partial",
    "nemoh_written_sizes",
    "nemoh_motion_refuted",
    "nemoh_blank_name_refuted",
    "nemoh_name_ID_refuted",
    "nemoh_no_frequency"
   ],
   "note": "The water, mesh and frequencies are read back for the names made of one word, given numbers that are written without loss. Refuted: the degree of freedom is always heave whatever the exported problem, a name with a blank is cut by the reader, and the mesh of a body called ID is overwritten by the file ID.dat."
  },
  {
   "property": "C73",
   "status": "partial",
   "theorems": [
    "lid_position_value",
    "waterline_of_immersed_part",
    "irregular_frequency_without_lid",
    "irregular_frequency_with_lid",
    "lid_position_removes_partial",
    "lid_position_two_waterlines_refuted"
   ],
   "note": "The values of the position and of the estimates are proved for every immersed mesh whose waterlines are not reduced to segments. The position removes the irregular frequencies when all the waterlines have the same dimensions. Refuted in general: the position is the deepest one over the waterlines instead of the shallowest one. The case where the argument of arctanh is exactly 1 (position at minus infinity) is outside of the hypotheses."
  },
  {
   "property": "C74",
   "status": "partial",
   "theorems": [
    "generated_lid_panels",
    "generated_lid_limits",
    "lid_above_keel_refuted"
   ],
   "note": "The panels of the lid are characterised for every hull whose panels are, seen from above, triangles, convex quadrangles or vertical. That it covers the inside is refuted: the points of the grid above the common side of two panels are counted twice, and no panel is put around the keel of a symmetric hull."
  },
  {
   "property": "C75",
   "status": "partial",
   "theorems": [
    "preconditioned_system_is_equivalent",
    "preconditioned_gmres_solves",
    "preconditioned_engine_solves",
    "preconditioned_system_is_equivalent_refuted"
   ],
   "note": "For every tree of clusters of meshes without symmetries, every Green function, and exact LU and GMRES, when the diagonal blocks and the coarse matrix are invertible and the coefficients of no diagonal block add up to zero. The last condition is needed: when they do, other vectors satisfy the preconditioned equation of a nonsingular system (refuted without it)."
  },
  {
   "property": "C76",
   "status": "partial",
   "theorems": [
    "single_mesh_is_refused",
    "three_parts_are_refused",
    "symmetric_mesh_is_solved_refuted"
   ],
   "note": "Single meshes and collections of three or more meshes at one level raise an exception. Refuted for meshes with a plane of symmetry: the diagonal blocks are not removed from the matrix, no exception is raised and the preconditioned equation has other solutions."
  },
  {
   "property": "C77",
   "status": "partial",
   "theorems": [
    "cluster_is_join_partial",
    "cluster_mesh_is_clustered",
    "cluster_needs_two_bodies",
    "cluster_needs_volumes"
   ],
   "note": "For every linkage matrix that merges each node once and every list of two bodies or more whose meshes need no healing and have no symmetry, with distinct names of dofs in the assembly and positive masses."
  },
  {
   "property": "C78",
   "status": "proved",
   "theorems": [
    "stiffness_and_metacentric_heights"
   ],
   "note": "For every successful computation of the hydrostatics (no hypothesis on the mesh)."
  },
  {
   "property": "C79",
   "status": "partial",
   "theorems": [
    "metacentres_of_translated_hull_partial",
    "metacentric_radius_moves_refuted"
   ],
   "note": "Refuted: the radius and height change by the transport term of the second moment of the waterplane, proved for every hull open at the free surface; they are unchanged along the axis only."
  },
  {
   "property": "C80",
   "status": "partial",
   "theorems": [
    "hydrostatics_of_immersed_part",
    "hydrostatics_inertia_partial",
    "hydrostatics_inertia_refuted",
    "hydrostatics_refused",
    "hydrostatics_without_dofs",
    "body_clip_follows_panels"
   ],
   "note": "All but the inertia: without a given mass, the mass in the inertia matrix is that of the volume of the whole mesh, refuted for a body partly out of the water and proved when both volumes are equal."
  },
  {
   "property": "C81",
   "status": "partial",
   "theorems": [
    "sliced_body_keeps_panels",
    "sliced_dofs_partial",
    "sliced_rotation_refuted",
    "sliced_mass_refuted"
   ],
   "note": "Panels, sides, name and lid are proved. The dofs are proved when all their rows are equal and refuted otherwise: the arrays are not reordered with the panels (witness: a pitch rotation). The mass and the center of mass are lost (refuted)."
  },
  {
   "property": "C82",
   "status": "partial",
   "theorems": [
    "minced_body_partial",
    "minced_in_no_slice",
    "minced_in_one_slice"
   ],
   "note": "For bodies without lid."
  },
  {
   "property": "C83",
   "status": "proved",
   "theorems": [
    "cylinder_is_its_panels",
    "cylinder_is_closed",
    "cylinder_errors_raised",
    "cylinder_radius_resolution"
   ],
   "note": "For at least three panels around the axis, nodes at least 1e-6 apart, and panels that are at least 1e-12 large and not 1e5 times smaller than the others."
  },
  {
   "property": "C84",
   "status": "proved",
   "theorems": [
    "profile_is_its_panels",
    "profile_is_closed",
    "sphere_is_its_panels",
    "sphere_is_closed",
    "sphere_errors_raised",
    "sphere_radius_resolution"
   ],
   "note": "For at least three meridians, at least two strips for a sphere, nodes at least 1e-6 apart, and panels that are at least 1e-12 large and (spheres) not 1e5 times smaller than the others. Profiles are turned around the vertical axis through the origin."
  },
  {
   "property": "C85",
   "status": "partial",
   "theorems": [
    "sphere_radius_at_most",
    "cylinder_radius_partial",
    "cylinder_radius_refuted"
   ],
   "note": "Proved for spheres. For cylinders the radius of a panel is at most 4/3 of the maximal radius, and the property is refuted: with the resolution (1, 12, 1), length and radius 1, the maximal radius 0.61 does not change the resolution although the triangles of the ends have a radius above 0.64."
  },
  {
   "property": "C86",
   "status": "partial",
   "theorems": [
    "warnings_are_right",
    "resolution_warning_is_right",
    "resolution_warning_errors",
    "displayed_radius_refuted",
    "displayed_radius_partial",
    "lid_advice_refuted"
   ],
   "note": "When the warnings appear, their counts and their ranges are proved. Two parts of the messages are refuted: the displayed radius is that of the hull even when only the lid has large panels, and a lid is advised for a body that has one when another body has none. The range of frequencies assumes that they are finite."
  },
  {
   "property": "C87",
   "status": "proved",
   "theorems": [
    "matrices_of_radiation",
    "matrices_labels",
    "matrices_of_one_dof",
    "matrices_of_diffraction",
    "matrices_absent"
   ],
   "note": "The results of a class have the same density, gravity, body, depth and speed. The order of the labels is that of the coordinates of the dataset, an oracle that keeps all the labels."
  },
  {
   "property": "C88",
   "status": "partial",
   "theorems": [
    "hydrostatics_values",
    "hydrostatics_missing_partial",
    "hydrostatics_absent",
    "hydrostatics_refused",
    "hydrostatics_missing_refuted",
    "hydrostatics_same_name_refuted"
   ],
   "note": "The coefficients of bodies with different names are proved to be found. Refuted: when one body only has an inertia matrix, it is given for the other bodies too; bodies with the same name replace each other. One body alone with an inertia and another alone with a stiffness are refused by an error. The matrices have each dof once."
  },
  {
   "property": "C89",
   "status": "partial",
   "theorems": [
    "tecplot_files_partial",
    "tecplot_several_conditions_refused",
    "tecplot_other_frequency_refused",
    "tecplot_several_excitations_refused",
    "tecplot_other_frequency_excitation_refused",
    "hydrostatics_files",
    "hydrostatics_files_stop"
   ],
   "note": "Proved for results of one density, gravity, body, depth, speed and radiation direction, given by their pulsations. The other datasets are proved to be refused by an error, so the full property is false of them: with several such conditions, a file that stops before its first coefficient is left on the disk. The formats of the numbers are any functions giving words."
  },
  {
   "property": "C90",
   "status": "partial",
   "theorems": [
    "dispersion_roots_partial",
    "dispersion_roots_refused",
    "hams_long_waves_refuted",
    "hams_deep_water",
    "hams_finite_depth",
    "fingreen_size_refuted"
   ],
   "note": "Proved when k h tanh(k h) is between 1e-9 times the number of roots and 1e9. Refuted for long waves in shallow water, where the search raises an error, and for another number of roots than 200, the size that the Fortran code announces whatever the array. The rest of the evaluation, which is that of the default Green function, is not repeated; the Fortran routines of HAMS themselves are not modelled."
  },
  {
   "property": "C91",
   "status": "partial",
   "theorems": [
    "timers_exact",
    "timers_share",
    "timers_restarted_refuted",
    "solver_timers_exact",
    "solver_parts_partial",
    "solver_parts_refuted",
    "summary_rows",
    "solve_times"
   ],
   "note": "Refuted for a timer that is started again before it is stopped, which the solver never does, and for the parts of the total once the potential is evaluated at points: this time is counted in the Green function and not in the total. The parallel resolutions, whose timers are in other processes, are not modelled."
  },
  {
   "property": "C92",
   "status": "proved",
   "theorems": [
    "prony_tolerance",
    "prony_gives_up",
    "prony_exact",
    "prony_converges",
    "prony_between_points_refuted"
   ],
   "note": "The least squares, the roots of polynomials and the fit are arguments; they are exact in prony_exact and prony_converges and arbitrary in the other theorems. prony_between_points_refuted shows that the tolerance says nothing between the points of the grid. The errors of floats, to which the roots of polynomials are sensitive, are not modelled."
  },
  {
   "property": "C93",
   "status": "partial",
   "theorems": [
    "ff_defined_partial",
    "ff_defined_refuted",
    "green_decomposition_python",
    "green_decomposition_refuted",
    "green_decomposition_others"
   ],
   "note": "The function is defined for the wavenumbers above 0.1 or below 0.05, and has a pole in the interval for each wavenumber above 0.05 and up to 0.1. When no size is suitable, the method python ends with an error about a variable that is not set. The Fortran routine lisc, which is the default method, is an argument."
  }
 ]
}