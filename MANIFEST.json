{
 "claims": [
  {
   "property": "C01",
   "status": "proved",
   "theorems": [
    "C01_group_cores_partition",
    "C01_group_cores_rejects",
    "C01_group_cores_agree"
   ],
   "note": ""
  },
  {
   "property": "C02",
   "status": "proved",
   "theorems": [
    "C02_tree_total",
    "C02_tree_send_matched",
    "C02_tree_recv_matched",
    "C02_tree_reduction",
    "C02_tree_terminates",
    "C02_tree_reduction_rendezvous"
   ],
   "note": ""
  },
  {
   "property": "C03",
   "status": "proved",
   "theorems": [
    "C03_chaining_in_rank_order",
    "C03_chaining_terminates",
    "C03_chaining_total"
   ],
   "note": ""
  },
  {
   "property": "C04",
   "status": "proved",
   "theorems": [
    "C04_dispatching_exactly_once",
    "C04_dispatching_terminates"
   ],
   "note": ""
  },
  {
   "property": "C05",
   "status": "partial",
   "theorems": [
    "C05_dispatching_any_task_refuted"
   ],
   "note": "Refuted: a task equal to the stop message is swallowed and the master waits for ever."
  },
  {
   "property": "C06",
   "status": "proved",
   "theorems": [
    "C06_check_same_iff",
    "C06_check_same_report"
   ],
   "note": ""
  },
  {
   "property": "C07",
   "status": "proved",
   "theorems": [
    "C07_gathering_accepted_iff",
    "C07_gathering_rejected",
    "C07_replace_last_value",
    "C07_add_sum"
   ],
   "note": ""
  },
  {
   "property": "C08",
   "status": "proved",
   "theorems": [
    "C08_assemble_distribute",
    "C08_add_distribute"
   ],
   "note": ""
  },
  {
   "property": "C09",
   "status": "partial",
   "theorems": [
    "C09_array_and_csr",
    "C09_csc_is_transposed",
    "C09_every_format_refuted"
   ],
   "note": "Proved for array and csr output; csc output is the transpose (C09_csc_is_transposed), so the property as stated is refuted."
  },
  {
   "property": "C10",
   "status": "proved",
   "theorems": [
    "C10_silly_local_vectors",
    "C10_silly_covers",
    "C10_silly_injective"
   ],
   "note": ""
  },
  {
   "property": "C11",
   "status": "partial",
   "theorems": [
    "C11_sequent_renumbers",
    "C11_sequent_any_numbering_refuted"
   ],
   "note": "Proved for numberings met in increasing order of elements, as the forms produce them; refuted for arbitrary gap-free numberings (two dofs collide)."
  },
  {
   "property": "C12",
   "status": "proved",
   "theorems": [
    "C12_chain_find_is_search",
    "C12_find_is_search"
   ],
   "note": ""
  },
  {
   "property": "C13",
   "status": "partial",
   "theorems": [
    "C13_chain_cache_equal_lengths",
    "C13_chain_cache_refuted"
   ],
   "note": "Proved for stamps of one length; refuted in general (concatenated stamps collide)."
  },
  {
   "property": "C14",
   "status": "proved",
   "theorems": [
    "C14_cache_transparent",
    "C14_other_element"
   ],
   "note": ""
  },
  {
   "property": "C15",
   "status": "partial",
   "theorems": [
    "C15_operators",
    "C15_ambiguous_keys_refuted",
    "C15_customized_operand_refuted"
   ],
   "note": "Proved for sound keys of one length per object and uncustomized operands; refuted for ambiguous concatenations and for customized operands."
  },
  {
   "property": "C16",
   "status": "partial",
   "theorems": [
    "C16_vector_sum_refuted",
    "C16_vector_sum_keyed_refuted",
    "C16_vector_sum_partial"
   ],
   "note": "Refuted (the second operand's key is ignored); C16_vector_sum_partial proves the combinations for which the sum is right."
  },
  {
   "property": "C17",
   "status": "proved",
   "theorems": [
    "C17_customizations",
    "C17_clear_restores",
    "C17_vector_customizations"
   ],
   "note": ""
  },
  {
   "property": "C18",
   "status": "proved",
   "theorems": [
    "C18_assembly",
    "C18_regather_refuted"
   ],
   "note": "The property as stated is proved. Extra: changing the gathering matrices while the sparsity is locked is refuted."
  },
  {
   "property": "C19",
   "status": "proved",
   "theorems": [
    "C19_vector_assembly"
   ],
   "note": ""
  },
  {
   "property": "C20",
   "status": "partial",
   "theorems": [
    "C20_clear_global_row",
    "C20_set_assembled_entry",
    "C20_identify_global_row",
    "C20_capped_search_refuted",
    "C20_repeated_dof_refuted"
   ],
   "note": "Proved for gatherings without repeated dofs per element and an uncapped search; refuted for a row shared by more elements than the default search limit and for elements having a dof twice."
  },
  {
   "property": "C21",
   "status": "partial",
   "theorems": [
    "C21_set_assembled_vector_entry",
    "C21_any_order_refuted"
   ],
   "note": "Proved for cores storing their elements in increasing order; for another order the method fails an assertion."
  },
  {
   "property": "C22",
   "status": "proved",
   "theorems": [
    "C22_set_unknown",
    "C22_set_unknown_raises"
   ],
   "note": ""
  },
  {
   "property": "C23",
   "status": "proved",
   "theorems": [
    "C23_block_matrix",
    "C23_block_matrix_defined",
    "C23_concatenated_vector"
   ],
   "note": ""
  },
  {
   "property": "C24",
   "status": "proved",
   "theorems": [
    "C24_split_partition",
    "C24_transfer",
    "C24_mixed_storage_refuted"
   ],
   "note": "The property as stated is proved. Extra: sending a csc matrix to a core holding a csr one is refuted."
  },
  {
   "property": "C25",
   "status": "proved",
   "theorems": [
    "C25_matrix_product",
    "C25_matrix_product_defined"
   ],
   "note": ""
  },
  {
   "property": "C26",
   "status": "partial",
   "theorems": [
    "C26_matrix_vector",
    "C26_matrix_full_vector",
    "C26_csc_refuted"
   ],
   "note": "Proved for csr storage and for full vectors; refuted for csc storage."
  },
  {
   "property": "C27",
   "status": "partial",
   "theorems": [
    "C27_row_claim",
    "C27_column_claim_is_csc",
    "C27_column_claim_refuted"
   ],
   "note": "Proved for rows; the column check accepts every csc matrix (refuted)."
  },
  {
   "property": "C28",
   "status": "partial",
   "theorems": [
    "C28_gather_distributed",
    "C28_master_part_refuted",
    "C28_repeated_index_refuted"
   ],
   "note": "Proved for the master as target and parts without repeated indices; refuted for other target cores and repeated indices."
  },
  {
   "property": "C29",
   "status": "partial",
   "theorems": [
    "C29_stop",
    "C29_forced",
    "C29_large_tol",
    "C29_info_zero_refuted"
   ],
   "note": "Iteration bounds proved; the clause on info == 0 is refuted."
  },
  {
   "property": "C30",
   "status": "partial",
   "theorems": [
    "C30_iterates",
    "C30_residual",
    "C30_recursion",
    "C30_shadow_refuted"
   ],
   "note": "Residual clause proved; the shadow residual clause is refuted (aliasing of the receive buffer)."
  },
  {
   "property": "C31",
   "status": "proved",
   "theorems": [
    "C31_augmentation"
   ],
   "note": ""
  },
  {
   "property": "C32",
   "status": "proved",
   "theorems": [
    "C32_schur"
   ],
   "note": ""
  },
  {
   "property": "C33",
   "status": "proved",
   "theorems": [
    "C33_newton",
    "C33_info_zero",
    "C33_forced"
   ],
   "note": ""
  },
  {
   "property": "C34",
   "status": "proved",
   "theorems": [
    "C34_resume",
    "C34_varying_dt_refuted"
   ],
   "note": "The property as stated is proved. Extra: refuted for iterators whose dt varies."
  },
  {
   "property": "C35",
   "status": "partial",
   "theorems": [
    "C35_shut_down",
    "C35_reason_refuted",
    "C35_resumed_refuted"
   ],
   "note": "Stopping after a plain shut down proved; reason strings and resumed runs refuted."
  },
  {
   "property": "C36",
   "status": "partial",
   "theorems": [
    "C36_steps",
    "C36_least",
    "C36_both",
    "C36_sound",
    "C36_accepts_refuted",
    "C36_least_refuted"
   ],
   "note": "Proved in exact arithmetic; refuted in binary64."
  },
  {
   "property": "C37",
   "status": "partial",
   "theorems": [
    "C37_crashes",
    "C37_complete",
    "C37_once",
    "C37_order",
    "C37_only",
    "C37_results",
    "C37_slaves",
    "C37_doubles",
    "C37_outputs",
    "C37_integers",
    "C37_integers_refuted",
    "C37_torn",
    "C37_torn_last",
    "C37_torn_refuted",
    "C37_header_refuted",
    "C37_header_last_refuted",
    "C37_names",
    "C37_shapes",
    "C37_kwargs_refuted",
    "C37_used_refuted",
    "C37_read_file",
    "C37_read_file_refuted"
   ],
   "note": "Proved for runners stopped between two rows (the statement), for values whose texts are read back (proved for doubles and integers up to 2^53 with Flocq: C37_doubles, C37_integers). Equal triples given twice are computed once. Runners stopped within a row or the header, changed keyword arguments and runners used twice: the C37_..._refuted theorems."
  },
  {
   "property": "C38",
   "status": "proved",
   "theorems": [
    "C38_hms",
    "C38_dhms",
    "C38_dhmsm",
    "C38_text",
    "C38_float_ms_refuted"
   ],
   "note": "The property as stated (and more: rational, negative times, milliseconds) is proved in exact arithmetic. Extra: the millisecond field is refuted in binary64."
  },
  {
   "property": "C39",
   "status": "partial",
   "theorems": [
    "C39_pieces",
    "C39_rejects_refuted"
   ],
   "note": "Pieces proved; rejecting wrong counts is refuted."
  },
  {
   "property": "C40",
   "status": "partial",
   "theorems": [
    "C40_first",
    "C40_value",
    "C40_arrays_refuted"
   ],
   "note": "Proved when the text determines the value; refuted for long numpy arrays."
  },
  {
   "property": "C41",
   "status": "partial",
   "theorems": [
    "C41_accepts",
    "C41_result",
    "C41_idempotent",
    "C41_idempotent_refuted"
   ],
   "note": "Proved except that idempotence needs a result of at most 64 characters; refuted otherwise."
  },
  {
   "property": "C42",
   "status": "partial",
   "theorems": [
    "C42_fill",
    "C42_default",
    "C42_integers_refuted"
   ],
   "note": "Proved up to the conversion to the argument type; refuted for integer arguments."
  },
  {
   "property": "C43",
   "status": "proved",
   "theorems": [
    "C43_none",
    "C43_point"
   ],
   "note": ""
  },
  {
   "property": "C44",
   "status": "proved",
   "theorems": [
    "C44_sides",
    "C44_partials"
   ],
   "note": ""
  },
  {
   "property": "C45",
   "status": "proved",
   "theorems": [
    "C45_forms3",
    "C45_forms2",
    "C45_counts",
    "C45_cells"
   ],
   "note": ""
  },
  {
   "property": "C46",
   "status": "proved",
   "theorems": [
    "C46_grad_curl",
    "C46_curl_div"
   ],
   "note": ""
  },
  {
   "property": "C47",
   "status": "proved",
   "theorems": [
    "C47_inner",
    "C47_outer"
   ],
   "note": ""
  },
  {
   "property": "C48",
   "status": "proved",
   "theorems": [
    "C48_3d",
    "C48_2d"
   ],
   "note": ""
  },
  {
   "property": "C49",
   "status": "proved",
   "theorems": [
    "C49_trace",
    "C49_selective",
    "C49_sides",
    "C49_cochain",
    "C49_outer2d"
   ],
   "note": "The 3D property as stated is proved; C49_outer2d adds the exact content of the 2D outer 1-trace matrix (whose signs are not the outward ones on U, D)."
  },
  {
   "property": "C50",
   "status": "proved",
   "theorems": [
    "C50_local_gathering"
   ],
   "note": ""
  },
  {
   "property": "C51",
   "status": "partial",
   "theorems": [
    "C51_internal",
    "C51_lowest_degree_refuted"
   ],
   "note": "Proved for 0- and 1-forms and for 2-forms of every degree except (1,1,1), where the call raises (refuted)."
  },
  {
   "property": "C52",
   "status": "proved",
   "theorems": [
    "C52_nodes",
    "C52_kronecker",
    "C52_polynomial",
    "C52_unity",
    "C52_interpolates"
   ],
   "note": "Exact arithmetic, over every ordered field."
  },
  {
   "property": "C53",
   "status": "proved",
   "theorems": [
    "C53_derivative",
    "C53_commutes",
    "C53_histopolation"
   ],
   "note": "Exact arithmetic, over every ordered field; the integral of a polynomial is defined by the power rule."
  },
  {
   "property": "C54",
   "status": "partial",
   "theorems": [
    "C54_fresh",
    "C54_stale_refuted"
   ],
   "note": "Proved while evaluated arrays are not modified; refuted with in-place modification, for every basis."
  },
  {
   "property": "C55",
   "status": "partial",
   "theorems": [
    "C55_refine",
    "C55_refine_refuted"
   ],
   "note": "Refuted; C55_refine says exactly when it is right."
  },
  {
   "property": "C56",
   "status": "proved",
   "theorems": [
    "C56_partition",
    "C56_automatic"
   ],
   "note": ""
  },
  {
   "property": "C57",
   "status": "proved",
   "theorems": [
    "C57_numbering"
   ],
   "note": ""
  },
  {
   "property": "C58",
   "status": "partial",
   "theorems": [
    "C58_symmetric",
    "C58_where",
    "C58_layouts",
    "C58_periodic_layout_refuted"
   ],
   "note": "Symmetry proved for all meshes. The position statement needs equal layouts of periodic sides, which the code does not check (refuted without)."
  },
  {
   "property": "C59",
   "status": "proved",
   "theorems": [
    "C59_trace",
    "C59_cores",
    "C59_mesh"
   ],
   "note": ""
  },
  {
   "property": "C60",
   "status": "proved",
   "theorems": [
    "C60_edge_types",
    "C60_edge_dofs",
    "C60_box_edges",
    "C60_types",
    "C60_trace_dofs",
    "C60_mesh_dofs"
   ],
   "note": "Trace and edge elements, their type counts and the numbering of hybrid trace forms and edge forms, for any element map; and for meshes of one region in terms of the box."
  },
  {
   "property": "C61",
   "status": "proved",
   "theorems": [
    "C61_box",
    "C61_mesh",
    "C61_elements",
    "C61_hybrid"
   ],
   "note": "Boxes of elements in 2D and 3D, periodic or not; meshes of one region as made by the mesh model, on any number of cores, with the number of dofs; node and edge elements."
  },
  {
   "property": "C62",
   "status": "partial",
   "theorems": [
    "C62_success",
    "C62_sound",
    "C62_conforming",
    "C62_raises_refuted",
    "C62_twice_refuted"
   ],
   "note": "Refuted: a KeyError (C62_raises_refuted) and dofs numbered twice (C62_twice_refuted). The exact conditions for success and for conformity are proved for all element maps."
  },
  {
   "property": "C63",
   "status": "partial",
   "theorems": [
    "C63_restriction",
    "C63_mesh",
    "C63_box",
    "C63_lowest_refuted"
   ],
   "note": "Proved (C63_restriction) for every total, consecutive, element-wise incremental form numbering; C63_mesh and C63_box show that the naive numbering and the trace elements of meshes meet the hypotheses. False for 2-trace-forms of degree (1,1,1): internal_local_dofs raises (C63_lowest_refuted)."
  },
  {
   "property": "C64",
   "status": "partial",
   "theorems": [
    "C64_shared",
    "C64_whole",
    "C64_round_trip_refuted",
    "C64_full",
    "C64_set_full"
   ],
   "note": "Proved for non-hybrid forms (C64_shared) and, through a locally full vector, for all forms (C64_full). False for hybrid and volume forms with zero entries: exact result in C64_whole, witness in C64_round_trip_refuted."
  },
  {
   "property": "C65",
   "status": "partial",
   "theorems": [
    "C65_round_trip",
    "C65_one",
    "C65_individuals",
    "C65_one_mesh",
    "C65_single_refuted",
    "C65_shared_refuted",
    "C65_warm",
    "C65_text_refuted",
    "C65_identity_refuted",
    "C65_kind_refuted",
    "C65_dual_name",
    "C65_dual_name_refuted",
    "C65_cochain",
    "C65_old_mesh",
    "C65_old_form",
    "C65_file_name",
    "C65_file_name_refuted"
   ],
   "note": "Proved for objects with parameters dictionaries of their own and a text that tells parameters apart (C65_round_trip, C65_individuals, C65_cochain). False as stated: one-element lists, objects saved together with their duals or twice, parameters with equal texts, edge 1-forms and local traces, names of duals, file names with dots (the ..._refuted theorems)."
  },
  {
   "property": "C66",
   "status": "partial",
   "theorems": [
    "C66_requests",
    "C66_dofs",
    "C66_hybrid",
    "C66_faces",
    "C66_box",
    "C66_corner_refuted",
    "C66_names_refuted",
    "C66_values",
    "C66_rows",
    "C66_off_diagonal",
    "C66_partners_refuted",
    "C66_solution",
    "C66_condition",
    "C66_constant",
    "C66_cache",
    "C66_cache_refuted",
    "C66_deleted_refuted"
   ],
   "note": "Proved for conditions prescribed at all places of a dof; this is proved for hybrid forms, for 2-forms on every mesh, for all forms on meshes of one region, and refuted for 1-forms at re-entrant corners and 0-forms beside another boundary (C66_corner_refuted, C66_names_refuted). The cache is right if no address of a list is used twice (C66_cache); it is refuted for lists whose addresses are used again after their deletion. Off the diagonal every row dof must have one partner (C66_partners_refuted without)."
  },
  {
   "property": "C67",
   "status": "partial",
   "theorems": [
    "C67_round_trip",
    "C67_slices",
    "C67_none",
    "C67_chain_silly",
    "C67_chain",
    "C67_sequent_refuted"
   ],
   "note": "Proved for chain_method 'silly' and for the distribution with any chained matrix. False for 'sequent', whose vector is assembled by addition (C67_sequent_refuted)."
  },
  {
   "property": "C68",
   "status": "proved",
   "theorems": [
    "C68_gmres",
    "C68_lgmres"
   ],
   "note": ""
  },
  {
   "property": "C69",
   "status": "partial",
   "theorems": [
    "C69_fixed_solution",
    "C69_first_step_refuted"
   ],
   "note": "Final value proved; the first linearization clause is refuted."
  },
  {
   "property": "C70",
   "status": "proved",
   "theorems": [
    "C70_rows",
    "C70_solutions"
   ],
   "note": ""
  },
  {
   "property": "C71",
   "status": "proved",
   "theorems": [
    "C71_closest"
   ],
   "note": ""
  },
  {
   "property": "C73",
   "status": "partial",
   "theorems": [
    "C73_last",
    "C73_earlier_refuted"
   ],
   "note": "Proved while the object is not called again; refuted otherwise."
  },
  {
   "property": "C74",
   "status": "proved",
   "theorems": [
    "C74_rows"
   ],
   "note": ""
  },
  {
   "property": "C75",
   "status": "proved",
   "theorems": [
    "C75_filename"
   ],
   "note": ""
  },
  {
   "property": "C76",
   "status": "proved",
   "theorems": [
    "C76_edge_matrices",
    "C76_edge_dofs0",
    "C76_edge_dofs1"
   ],
   "note": ""
  },
  {
   "property": "C77",
   "status": "proved",
   "theorems": [
    "C77_connection"
   ],
   "note": ""
  },
  {
   "property": "C78",
   "status": "partial",
   "theorems": [
    "C78_gauss",
    "C78_gauss2d_refuted"
   ],
   "note": "Proved in 3D; in 2D refuted (the outer 1-trace has the signs of the sides U and D reversed)."
  },
  {
   "property": "C79",
   "status": "proved",
   "theorems": [
    "C79_slave"
   ],
   "note": ""
  },
  {
   "property": "C80",
   "status": "partial",
   "theorems": [
    "C80_mutual",
    "C80_boundary",
    "C80_corners",
    "C80_crack_refuted"
   ],
   "note": "Mutual map proved for all inputs. That attached sides have the same corners is proved without cracks and refuted with them."
  },
  {
   "property": "C81",
   "status": "proved",
   "theorems": [
    "C81_optimized"
   ],
   "note": ""
  },
  {
   "property": "C82",
   "status": "proved",
   "theorems": [
    "C82_tiled",
    "C82_spacing"
   ],
   "note": ""
  },
  {
   "property": "C83",
   "status": "partial",
   "theorems": [
    "C83_edges",
    "C83_nodes",
    "C83_box",
    "C83_lost_refuted"
   ],
   "note": "Records proved right for every node (edge) at no more than 8 (4) places, which holds for all of them in a mesh of one region; the general claim is refuted by eight regions around a line."
  },
  {
   "property": "C84",
   "status": "proved",
   "theorems": [
    "C84_regrouped",
    "C84_keys"
   ],
   "note": "For 3D meshes and every pair of numberings and distributions."
  },
  {
   "property": "C85",
   "status": "proved",
   "theorems": [
    "C85_faces",
    "C85_jacobian",
    "C85_determinant",
    "C85_plane_sides",
    "C85_box",
    "C85_crazy",
    "C85_crazy_positive",
    "C85_crazy_bijection",
    "C85_crazy_plane",
    "C85_crazy_plane_boundary",
    "C85_edges",
    "C85_arcs",
    "C85_plane_region"
   ],
   "note": "Over the reals, pointwise; rounding is not modelled. The check that four corners lie in one plane, 'free' and 'customized' edges of plane regions are not modelled (customized sides of 3D regions are the general sides of the theorems)."
  },
  {
   "property": "C86",
   "status": "partial",
   "theorems": [
    "C86_consistency_check_refuted",
    "C86_consistency_check_passes",
    "C86_crazy_folds",
    "C86_crazy_valid_refuted",
    "C86_volume_box",
    "C86_volume_refuted"
   ],
   "note": "Proved: sides that fit pass the check; the volume of a box. Refuted: a side passing the check for every number of samples the code draws although the map misses a side (C86_consistency_check_refuted); the 3D crazy map with c = 0.3 is not one-to-one (C86_crazy_valid_refuted; for any 2 pi |c| > sqrt 3, C86_crazy_folds); the volume of a wedge is 3/2, computed 1 by any rule exact for linear functions (C86_volume_refuted). The random check of side derivatives by finite differences is not modelled."
  },
  {
   "property": "C87",
   "status": "proved",
   "theorems": [
    "C87_chain_rule",
    "C87_orthogonal",
    "C87_inverse",
    "C87_neighbours",
    "C87_side",
    "C87_side_inverse",
    "C87_neighbour_normal"
   ],
   "note": "Over the reals, pointwise; rounding and the caching of values by metric type are not part of this claim. Neighbours within a region; between regions the maps of the regions have to agree on the common side."
  },
  {
   "property": "C88",
   "status": "partial",
   "theorems": [
    "C88_tangential",
    "C88_intrinsic_partial",
    "C88_same_from_both_elements_refuted"
   ],
   "note": "Proved: the components along the side are right and the weights are the products of reconstructed values (C88_tangential); for elements orthogonal to the side, and only for those, the value lies in the side and the weights are the area times the inverse metric of the side (C88_intrinsic_partial). Refuted: two regions with a common side, one sheared: values and weights from the two elements differ (C88_same_from_both_elements_refuted)."
  },
  {
   "property": "C89",
   "status": "partial",
   "theorems": [
    "C89_cache",
    "C89_elements_partial",
    "C89_close",
    "C89_elements_refuted",
    "C89_sides_partial",
    "C89_sides_refuted"
   ],
   "note": "Proved: the cache is right for all access sequences exactly if equal marks mean equal values (C89_cache); they do for lengths that are multiples of 1/1000 and, within one region, sides that are multiples of 1/100000 (C89_elements_partial, C89_sides_partial); in general lengths agree up to 0.001001 (C89_close). Refuted for small elements (C89_elements_refuted: Jacobians 1 and 27) and for sides of regions of different sizes (C89_sides_refuted). Lengths are real numbers; doubles are not modelled."
  },
  {
   "property": "C90",
   "status": "partial",
   "theorems": [
    "C90_constant_iff",
    "C90_constant_refuted",
    "C90_constant_plane"
   ],
   "note": "3D: right exactly if the region has area one along the side (C90_constant_iff); refuted for Cuboid() with its defaults, factor 4 (C90_constant_refuted). 2D: half the length up to 3e-5, 0 for edges up to 4e-5 (C90_constant_plane)."
  },
  {
   "property": "C91",
   "status": "proved",
   "theorems": [
    "C91_nodes",
    "C91_edges",
    "C91_faces",
    "C91_volumes"
   ],
   "note": "Exact arithmetic; the quadrature rules, the map, its Jacobian matrix and the field are arbitrary arguments. One element; the dictionary over elements and the cache of Jacobian matrices by mark (C89) are outside."
  },
  {
   "property": "C92",
   "status": "proved",
   "theorems": [
    "C92_gradient"
   ],
   "note": "Exactness of the one-dimensional rules is a hypothesis about the pulled-back field (true for Gauss rules and polynomials of low degree). Derivatives are required at all points of the parameter space."
  },
  {
   "property": "C93",
   "status": "proved",
   "theorems": [
    "C93_curl"
   ],
   "note": "As C92; the Jacobian matrix must be differentiable with symmetric second derivatives of the map."
  },
  {
   "property": "C94",
   "status": "proved",
   "theorems": [
    "C94_divergence"
   ],
   "note": "As C93."
  },
  {
   "property": "C95",
   "status": "proved",
   "theorems": [
    "C95_nodes",
    "C95_inner",
    "C95_outer",
    "C95_faces",
    "C95_gradient",
    "C95_rotated_gradient",
    "C95_rotation",
    "C95_divergence"
   ],
   "note": "Exact arithmetic, one element; exactness and agreement of the rules are hypotheses about the pulled-back field."
  },
  {
   "property": "C96",
   "status": "proved",
   "theorems": [
    "C96_jacobian",
    "C96_inverse",
    "C96_inverse_determinant",
    "C96_metric_matrix",
    "C96_metric",
    "C96_inverse_metric_matrix"
   ],
   "note": "Exact arithmetic; vectorized.py and the value caches of the elements collection are outside."
  },
  {
   "property": "C97",
   "status": "proved",
   "theorems": [
    "C97_nodes",
    "C97_edges",
    "C97_faces",
    "C97_volumes",
    "C97_matrix0",
    "C97_matrix1",
    "C97_matrix2",
    "C97_matrix3"
   ],
   "note": "Exact arithmetic, one element; time and the choice of regions are outside."
  },
  {
   "property": "C98",
   "status": "proved",
   "theorems": [
    "C98_nodes",
    "C98_edges",
    "C98_faces",
    "C98_volumes"
   ],
   "note": "Exactness of the rules is a hypothesis, for the code's polynomials it is C102."
  },
  {
   "property": "C99",
   "status": "proved",
   "theorems": [
    "C99_nodes",
    "C99_edges",
    "C99_faces",
    "C99_volumes",
    "C99_symmetric_nodes",
    "C99_symmetric_edges",
    "C99_symmetric_faces",
    "C99_symmetric_volumes",
    "C99_definite_nodes",
    "C99_definite_edges",
    "C99_definite_faces",
    "C99_definite_volumes"
   ],
   "note": "Exact arithmetic; sparse matrices are dense lists; caches are C89."
  },
  {
   "property": "C100",
   "status": "proved",
   "theorems": [
    "C100_reference",
    "C100_element"
   ],
   "note": "As C99."
  },
  {
   "property": "C101",
   "status": "proved",
   "theorems": [
    "C101_gradient",
    "C101_curl",
    "C101_divergence"
   ],
   "note": "Points inside the element; the field is given as a differentiable function of physical coordinates."
  },
  {
   "property": "C102",
   "status": "proved",
   "theorems": [
    "C102_basis",
    "C102_separates",
    "C102_exact"
   ],
   "note": "R is made a realFieldType with classical choice from the standard library."
  },
  {
   "property": "C103",
   "status": "partial",
   "theorems": [
    "C103_constant_partial",
    "C103_order_refuted",
    "C103_shape",
    "C103_2M1",
    "C103_2M0",
    "C103_2M0_refuted"
   ],
   "note": "Holds where the determinant is constant on the points; elsewhere false (C103_order_refuted), and '2-M-0' of cross_product_1__ip_1 is false on every element type (C103_2M0_refuted)."
  },
  {
   "property": "C104",
   "status": "proved",
   "theorems": [
    "C104_array",
    "C104_vector",
    "C104_inner_curl"
   ],
   "note": "The array of curl(u x B) only for orthogonal elements (the code raises otherwise) with constant determinant; its intermediate 1-form and agreement of the rules are hypotheses."
  },
  {
   "property": "C105",
   "status": "partial",
   "theorems": [
    "C105_eliminate",
    "C105_evaluate",
    "C105_evaluate_twice",
    "C105_evaluate_vector",
    "C105_evaluate_more",
    "C105_repeated_refuted",
    "C105_reduce",
    "C105_derivative"
   ],
   "note": "All operations for pairwise different forms, eliminate and reduce_to_vector for all. With a form occurring twice evaluate eliminates its first axis only (C105_repeated_refuted); derivative_contribution_to is coded for three axes only."
  },
  {
   "property": "C106",
   "status": "partial",
   "theorems": [
    "C106_residual",
    "C106_jacobian",
    "C106_zero_rhs",
    "C106_zero_rhs_refuted"
   ],
   "note": "Residual and Jacobian proved; the claim on right hand sides 0 is false: the constructor accepts them and every evaluation raises (C106_zero_rhs, C106_zero_rhs_refuted)."
  },
  {
   "property": "C107",
   "status": "partial",
   "theorems": [
    "C107_residual",
    "C107_converged",
    "C107_linear",
    "C107_fixed",
    "C107_prescribed_refuted"
   ],
   "note": "Proved except for runs that stop in the first iteration with prescribed initial values: there the equations are evaluated before the values are written, and info 0 with correction 0 can be returned at a vector that is no solution (C107_prescribed_refuted)."
  },
  {
   "property": "C108",
   "status": "proved",
   "theorems": [
    "C108_local_numbering",
    "C108_edges"
   ],
   "note": ""
  },
  {
   "property": "C109",
   "status": "proved",
   "theorems": [
    "C109_incidence"
   ],
   "note": ""
  },
  {
   "property": "C110",
   "status": "proved",
   "theorems": [
    "C110_element_map",
    "C110_failure",
    "C110_three_cells_refuted",
    "C110_duplicate_refuted"
   ],
   "note": "Stated for triangles that do not overlap. The constructor does not check this: three cells on one edge, or a cell given twice, can be accepted with marks that do not answer each other (C110_three_cells_refuted, C110_duplicate_refuted)."
  },
  {
   "property": "C111",
   "status": "proved",
   "theorems": [
    "C111_numbering"
   ],
   "note": ""
  },
  {
   "property": "C112",
   "status": "proved",
   "theorems": [
    "C112_numbering1",
    "C112_numbering2"
   ],
   "note": ""
  },
  {
   "property": "C113",
   "status": "proved",
   "theorems": [
    "C113_coboundary",
    "C113_conservation",
    "C113_exact"
   ],
   "note": ""
  },
  {
   "property": "C114",
   "status": "proved",
   "theorems": [
    "C114_sides",
    "C114_inside",
    "C114_onto",
    "C114_one_to_one",
    "C114_jacobian",
    "C114_determinant",
    "C114_inverse",
    "C114_singular_refuted"
   ],
   "note": "C114_singular_refuted: on the collapsed side (s = -1) no inverse Jacobian matrix exists, so reconstruction of 1- and 2-forms must not be evaluated there; the code divides by zero."
  },
  {
   "property": "C115",
   "status": "proved",
   "theorems": [
    "C115_nodes",
    "C115_edges",
    "C115_faces",
    "C115_length",
    "C115_gradients",
    "C115_rotation_divergence"
   ],
   "note": "Quadrature exactness for the functions at hand is a hypothesis (integrates_along2, agree_along2)."
  },
  {
   "property": "C116",
   "status": "proved",
   "theorems": [
    "C116_nodes",
    "C116_edges",
    "C116_two_rules_refuted"
   ],
   "note": "C116_two_rules_refuted: with a user chosen quad_degree that differs in the two directions the values at a shared dof differ."
  },
  {
   "property": "C117",
   "status": "proved",
   "theorems": [
    "C117_nodes",
    "C117_vertex",
    "C117_at_nodes",
    "C117_edges",
    "C117_faces",
    "C117_matrices"
   ],
   "note": ""
  },
  {
   "property": "C118",
   "status": "proved",
   "theorems": [
    "C118_nodes",
    "C118_edges",
    "C118_faces"
   ],
   "note": "Quadrature exactness for the basis is a hypothesis (exact_for)."
  },
  {
   "property": "C119",
   "status": "proved",
   "theorems": [
    "C119_gradients",
    "C119_rotation_divergence"
   ],
   "note": ""
  },
  {
   "property": "C120",
   "status": "proved",
   "theorems": [
    "C120_inner0",
    "C120_inner1",
    "C120_inner2",
    "C120_symmetric",
    "C120_positive",
    "C120_energies",
    "C120_L2"
   ],
   "note": "compute_Ln_norm takes an nth root of the energy; for odd n and values of both signs that is the root of a sum with cancellation (see findings)."
  },
  {
   "property": "C121",
   "status": "proved",
   "theorems": [
    "C121_basis",
    "C121_values",
    "C121_traces"
   ],
   "note": "Symmetry of the basis (mirrored) is a hypothesis of C121_values and C121_traces; C121_basis derives it from symmetric nodes (the Lobatto nodes the code uses are given by a routine outside the model)."
  },
  {
   "property": "C122",
   "status": "proved",
   "theorems": [
    "C122_error",
    "C122_partial3",
    "C122_partial2",
    "C122_cubic",
    "C122_check",
    "C122_check_sound"
   ],
   "note": "Rounding errors of floats are not modelled; with them the step 1e-6 adds an error of about 1e-10 times the size of the field."
  },
  {
   "property": "C123",
   "status": "proved",
   "theorems": [
    "C123_gradient",
    "C123_time",
    "C123_time_vector",
    "C123_divergence",
    "C123_curl",
    "C123_convection",
    "C123_convection_scalar",
    "C123_accepted_gradient",
    "C123_accepted_divergence",
    "C123_accepted_curl",
    "C123_curl_gradient",
    "C123_time_gradient"
   ],
   "note": ""
  },
  {
   "property": "C124",
   "status": "partial",
   "theorems": [
    "C124_composition_refuted"
   ],
   "note": "Refuted: only gradients and time derivatives can be differentiated again in 3D."
  },
  {
   "property": "C125",
   "status": "proved",
   "theorems": [
    "C125_gradient",
    "C125_time",
    "C125_time_vector",
    "C125_curl",
    "C125_divergence",
    "C125_rot",
    "C125_convection",
    "C125_convection_scalar",
    "C125_rot_gradient",
    "C125_divergence_curl",
    "C125_rot_curl"
   ],
   "note": ""
  },
  {
   "property": "C126",
   "status": "proved",
   "theorems": [
    "C126_dot",
    "C126_determinant",
    "C126_orthogonal",
    "C126_antisymmetric",
    "C126_lagrange",
    "C126_triple",
    "C126_linear",
    "C126_plane"
   ],
   "note": ""
  },
  {
   "property": "C127",
   "status": "proved",
   "theorems": [
    "C127_navier_stokes",
    "C127_vorticity",
    "C127_total_pressure",
    "C127_curl_of_vorticity",
    "C127_solenoidal_curl",
    "C127_densities",
    "C127_stokes"
   ],
   "note": "For flows with numerical derivatives the equations hold up to the error of C122."
  },
  {
   "property": "C128",
   "status": "proved",
   "theorems": [
    "C128_momentum",
    "C128_as1_refuted",
    "C128_as2",
    "C128_sin_cos",
    "C128_as3",
    "C128_as1_magnetic",
    "C128_vorticity",
    "C128_electric",
    "C128_reynolds",
    "C128_induction",
    "C128_numbers"
   ],
   "note": "That every MHD solution satisfies the documented momentum equation is refuted by AS1 (C128_as1_refuted)."
  },
  {
   "property": "C129",
   "status": "proved",
   "theorems": [
    "C129_navier_stokes",
    "C129_incompressible",
    "C129_euler",
    "C129_made",
    "C129_palinstrophy",
    "C129_taylor_green"
   ],
   "note": ""
  },
  {
   "property": "C130",
   "status": "proved",
   "theorems": [
    "C130_poisson",
    "C130_poisson_case",
    "C130_wave",
    "C130_wave_case",
    "C130_schroedinger",
    "C130_schroedinger_case",
    "C130_stokes_case",
    "C130_laplace",
    "C130_laplace_case",
    "C130_stokes2",
    "C130_stokes2_case"
   ],
   "note": ""
  },
  {
   "property": "C131",
   "status": "proved",
   "theorems": [
    "C131_dissipation",
    "C131_conservation",
    "C131_taylor_green",
    "C131_solenoidal"
   ],
   "note": "TGV1 needs L <> 0."
  },
  {
   "property": "C132",
   "status": "partial",
   "theorems": [
    "C132_dipole_partial",
    "C132_dipole_derivatives",
    "C132_dipole_refuted",
    "C132_outline_partial",
    "C132_outline_refuted",
    "C132_channel_partial",
    "C132_wall_refuted",
    "C132_lengths_refuted"
   ],
   "note": "Refuted in four places; the theorems named _partial say what holds instead."
  },
  {
   "property": "C133",
   "status": "proved",
   "theorems": [
    "C133_last",
    "C133_default",
    "C133_error",
    "C133_shear_continuous",
    "C133_shear_periodic",
    "C133_shear_solenoidal",
    "C133_shear_value"
   ],
   "note": "Conversion of the values to the type of the inputs is not modelled."
  },
  {
   "property": "C134",
   "status": "proved",
   "theorems": [
    "C134_trace",
    "C134_flux",
    "C134_scalar",
    "C134_matrix",
    "C134_shared"
   ],
   "note": "For one trace element with its one or two elements."
  },
  {
   "property": "C135",
   "status": "proved",
   "theorems": [
    "C135_trace",
    "C135_normal",
    "C135_matrix"
   ],
   "note": ""
  },
  {
   "property": "C136",
   "status": "proved",
   "theorems": [
    "C136_nodes",
    "C136_faces",
    "C136_trace",
    "C136_normal"
   ],
   "note": ""
  },
  {
   "property": "C137",
   "status": "proved",
   "theorems": [
    "C137_nodes",
    "C137_faces",
    "C137_symmetric",
    "C137_positive",
    "C137_round0",
    "C137_round0_normal",
    "C137_round2",
    "C137_round2_flux"
   ],
   "note": "The caches by metric type are those of C89."
  },
  {
   "property": "C138",
   "status": "proved",
   "theorems": [
    "C138_accepts",
    "C138_set_get",
    "C138_get_set",
    "C138_full",
    "C138_distributed_refuted"
   ],
   "note": "C138_distributed_refuted shows that setting a dual trace form from a distributed vector fails. One core; the inverse mass matrices are given."
  },
  {
   "property": "C139",
   "status": "proved",
   "theorems": [
    "C139_accepts",
    "C139_weak",
    "C139_unique",
    "C139_ones",
    "C139_sum",
    "C139_twice"
   ],
   "note": "The weak forms for k = 2 are proved for the cochains (C139); as integrals only k = 1 and 3 (C140)."
  },
  {
   "property": "C140",
   "status": "proved",
   "theorems": [
    "C140_primes",
    "C140_gradient",
    "C140_divergence",
    "C140_shared",
    "C140_sides"
   ],
   "note": "Equal string marks are assumed to mean equal Jacobian matrices (C89)."
  },
  {
   "property": "C141",
   "status": "proved",
   "theorems": [
    "C141_meshes",
    "C141_accepts",
    "C141_from_traces",
    "C141_hybrid",
    "C141_from_elements",
    "C141_there_and_back",
    "C141_only_single_valued",
    "C141_back_and_there",
    "C141_changed_refuted",
    "C141_rejected_refuted",
    "C141_foreign_refuted",
    "C141_partial_refuted",
    "C141_disagree_refuted"
   ],
   "note": "Proved with the hypotheses named in the statement (vectors that agree, sides that agree); the theorems ..._refuted show that the setters check none of them and that a rejected assignment changes whether.full."
  },
  {
   "property": "C142",
   "status": "proved",
   "theorems": [
    "C142_nodes",
    "C142_edges",
    "C142_faces",
    "C142_matrices",
    "C142_vectorized",
    "C142_any_order_refuted"
   ],
   "note": "Jacobian matrices are regular on the grid; elements marked orthogonal have diagonal ones. The vectorized branch is right for local cochains stored in element order; C142_any_order_refuted shows that another order gives wrong values."
  },
  {
   "property": "C143",
   "status": "proved",
   "theorems": [
    "C143_nodes",
    "C143_inner",
    "C143_outer",
    "C143_faces"
   ],
   "note": "For bases and rules as in the 3D case: nodal functions, edge functions with the right integrals, rules exact for them."
  },
  {
   "property": "C144",
   "status": "proved",
   "theorems": [
    "C144_inner",
    "C144_symmetric",
    "C144_positive",
    "C144_wedge",
    "C144_same_orientation_refuted",
    "C144_energies",
    "C144_vectorized_energies",
    "C144_L2",
    "C144_odd_norm_refuted"
   ],
   "note": "Two parts of the claim are negative and shown by ..._refuted: wedge of 1-forms of the same orientation, and odd powers."
  },
  {
   "property": "C145",
   "status": "proved",
   "theorems": [
    "C145_gradient",
    "C145_rotated_gradient",
    "C145_rotation",
    "C145_divergence"
   ],
   "note": "Derivatives inside the reference square; maps with Jacobian matrix and, for 1-forms, equal mixed derivatives."
  },
  {
   "property": "C146",
   "status": "proved",
   "theorems": [
    "C146_structured2",
    "C146_triangles",
    "C146_structured3",
    "C146_cores",
    "C146_even",
    "C146_zero2",
    "C146_zero_triangles",
    "C146_zero3",
    "C146_discretized2",
    "C146_discretized3",
    "C146_odd_zero_refuted",
    "C146_odd_number_refuted"
   ],
   "note": "Elements have regular Jacobian matrices at the points of the rule. Exact zero error for discretized fields is for 2D and 3D structured meshes. Two ..._refuted theorems show what fails for odd n. Quadrature only: integrals of the fields are as good as the rule."
  },
  {
   "property": "C147",
   "status": "proved",
   "theorems": [
    "C147_infinity",
    "C147_no_elements",
    "C147_nodes",
    "C147_more_nodes_refuted",
    "C147_upon_constants",
    "C147_upon_exact",
    "C147_upon_refuted",
    "C147_H",
    "C147_H_zero"
   ],
   "note": "The behaviour of upon=True is proved for the branch with the exact field in place of the missing attribute; C147_upon_refuted shows that the code as it is never returns. Real numbers instead of floats."
  },
  {
   "property": "C148",
   "status": "proved",
   "theorems": [
    "C148_combine",
    "C148_triangles",
    "C148_multiple",
    "C148_named",
    "C148_product_names",
    "C148_refused",
    "C148_missing",
    "C148_commutative",
    "C148_associative",
    "C148_difference",
    "C148_difference_2d",
    "C148_distributive",
    "C148_order_refuted",
    "C148_orientation_refuted",
    "C148_hybrid_refuted"
   ],
   "note": "Three ..._refuted theorems show that options are not compared. Real numbers instead of floats; the copy of the remaining private attributes of a form is not modelled."
  },
  {
   "property": "C149",
   "status": "proved",
   "theorems": [
    "C149_linear",
    "C149_multiple"
   ],
   "note": "About the specification of fields used in C146; the reconstruction functions meet it by earlier properties."
  },
  {
   "property": "C150",
   "status": "proved",
   "theorems": [
    "C150_integral",
    "C150_triangle",
    "C150_matrices",
    "C150_skew",
    "C150_metric_free"
   ],
   "note": "Elements regular at the points of the rule. Real numbers instead of floats. The special products by element matrices: the wrapper EWC_SparseMatrix is C05 and others."
  },
  {
   "property": "C151",
   "status": "proved",
   "theorems": [
    "C151_mass0",
    "C151_mass1",
    "C151_mass2",
    "C151_lattice",
    "C151_fine_refuted",
    "C151_cross",
    "C151_mixed_refuted"
   ],
   "note": "The two ..._refuted theorems are on meshes built by make_mesh, with P1 and a rule of one point. '%.4f' is modelled as rounding half to even of exact reals, with the sign of the number; -0.0 is 0.0. The store is a dictionary by key without eviction."
  },
  {
   "property": "C152",
   "status": "proved",
   "theorems": [
    "C152_zero_forms",
    "C152_inner_products",
    "C152_kept"
   ],
   "note": "The model reads whether.hybrid where to.py reads the attribute IS_hybrid that forms do not have. The inverse of the mass matrix is any inverse. Inner products and projections are those of the quadrature rule."
  },
  {
   "property": "C153",
   "status": "proved",
   "theorems": [
    "C153_tensor",
    "C153_split",
    "C153_split_only",
    "C153_symmetric",
    "C153_Q_value",
    "C153_Q_right",
    "C153_never_positive",
    "C153_lambda2",
    "C153_trace",
    "C153_diagonal",
    "C153_Q_refuted",
    "C153_lambda2_refuted"
   ],
   "note": "Proved: the gradient tensor, its splitting, the order of eigenvalues, and what Q is. The criteria themselves fail: C153_Q_refuted and C153_lambda2_refuted show solid body rotation; C153_trace is what the matrix products would give. Eigenvalues are given, np.linalg.eig is not modelled."
  },
  {
   "property": "C154",
   "status": "partial",
   "theorems": [
    "C154_to_sides",
    "C154_from_sides",
    "C154_back",
    "C154_on_side",
    "C154_full",
    "C154_full_refuted",
    "C154_sides_refuted",
    "C154_set_globe",
    "C154_get_globe"
   ],
   "note": "Proved but for the flag of the setter by sides: C154_full_refuted; and values of sides that disagree: C154_sides_refuted. The globe setter is modelled for one core with a full vector; other kinds of vectors and the sum over cores are not."
  },
  {
   "property": "C155",
   "status": "partial",
   "theorems": [
    "C155_forms",
    "C155_once",
    "C155_cover",
    "C155_side_numbers",
    "C155_side_places",
    "C155_boundary",
    "C155_raises_refuted",
    "C155_wrong_refuted",
    "C155_ends_refuted"
   ],
   "note": "Proved for programs that use one of the two functions of a form; C155_raises_refuted, C155_wrong_refuted and C155_ends_refuted show what mixing gives. The wrong answer needs sides with two dofs; 2-forms of degrees (1, 2, 1) have such sides."
  },
  {
   "property": "C156",
   "status": "proved",
   "theorems": [
    "C156_quadratic",
    "C156_triangles_quads",
    "C156_requests"
   ],
   "note": "Data on the master core, where they are built; other cores hold None. Boundary names are assumed alphanumeric, as in C110. The numbering of triangle_and_quad_data is that of numbering0 line by line, so the model uses it."
  },
  {
   "property": "C157",
   "status": "proved",
   "theorems": [
    "C157_area",
    "C157_domain",
    "C157_angles",
    "C157_no_angles",
    "C157_quality"
   ],
   "note": "Over the reals. With floats the argument of a root or an arc cosine of a nearly flat triangle can be out of range by rounding. That the areas of elements that do not overlap add up to that of their union is not part of it."
  },
  {
   "property": "C158",
   "status": "partial",
   "theorems": [
    "C158_parallel",
    "C158_classify",
    "C158_convex",
    "C158_same_data",
    "C158_orthogonal_refuted",
    "C158_same_orthogonal_refuted"
   ],
   "note": "Proved but for regions taken for orthogonal: C158_orthogonal_refuted and C158_same_orthogonal_refuted; C158_classify bounds how far they are from it. Over the reals: with floats lengths and angles that are compared with == can differ by rounding. Sides that are points are excluded. Marks are modelled by their data, not by the rounded text."
  },
  {
   "property": "C159",
   "status": "partial",
   "theorems": [
    "C159_classify",
    "C159_jacobian",
    "C159_element",
    "C159_element_types",
    "C159_same_lengths",
    "C159_total_refuted"
   ],
   "note": "Proved but for the last sentence: C159_total_refuted. Over the reals; with floats the coordinates are compared with ==. Marks are modelled by their lengths, not by the rounded text (see C89). That the four corners of each side lie in a plane is checked by plane.py and not modelled, so the theorems hold without it."
  }
 ]
}