{
 "claims": [
  {
   "property": "C01",
   "status": "proved",
   "theorems": [
    "subit_iterates_all",
    "subit_zero_extent_refuted"
   ],
   "note": "All ranks, first extent may be zero. subit_zero_extent_refuted shows that beyond the stated domain (zero extent in a later dimension) the loop does not end."
  },
  {
   "property": "C02",
   "status": "proved",
   "theorems": [
    "subit_fixed_iterates",
    "subit_all_fixed_throws"
   ],
   "note": ""
  },
  {
   "property": "C03",
   "status": "partial",
   "theorems": [
    "broadcast_iterates",
    "broadcast_incompatible_throws",
    "broadcast_empty_operand_refuted"
   ],
   "note": "Proved for shapes without zero extents; refuted for an empty operand against a singleton."
  },
  {
   "property": "C04",
   "status": "partial",
   "theorems": [
    "lin2sub_row_order",
    "lin2sub2_row_order",
    "lin2sub2_col_order",
    "lin2sub_col_order_refuted",
    "lin2sub2_single_row_col_order_refuted",
    "lin2sub_col_order",
    "lin2sub_empty"
   ],
   "note": "Row order proved; column order proved in two dimensions with at least two rows; the general column-order conversion is refuted: lin2sub_col_order says exactly what it computes (the last subscript is always zero, the linear index does come back)."
  },
  {
   "property": "C14",
   "status": "partial",
   "theorems": [
    "table_refines_map",
    "table_set_registered_refuted",
    "table_overwrite_index_refuted",
    "table_unequal",
    "overwrite_index"
   ],
   "note": "Refinement proved for every sequence of registering, overwriting, refreshing and looking up; refuted for set on a registered pair and for the unchecked index overload."
  },
  {
   "property": "C15",
   "status": "proved",
   "theorems": [
    "pair_keys_injective",
    "sort_decodes_keys",
    "cell_keys"
   ],
   "note": "32-bit arithmetic of sort included; size_t is unbounded in the model."
  },
  {
   "property": "C16",
   "status": "proved",
   "theorems": [
    "sort_any_schedule",
    "sort_serial_is_a_schedule"
   ],
   "note": "For tables reached without set(); the assignment solver is an arbitrary function of the pair."
  },
  {
   "property": "C17",
   "status": "partial",
   "theorems": [
    "status_readers",
    "status_flag_setters",
    "status_addvisit",
    "status_addvisit_max",
    "status_set_visits_partial",
    "status_set_visits_refuted",
    "status_make"
   ],
   "note": "Everything but the value of visits(v), which is refuted."
  },
  {
   "property": "C61",
   "status": "partial",
   "theorems": [
    "sorted_tables_compare_equal_refuted"
   ],
   "note": "The statement is false of the code."
  },
  {
   "property": "C62",
   "status": "partial",
   "theorems": [
    "sort_without_data_refuted"
   ],
   "note": "The statement is false of the code: division by zero for every grid."
  },
  {
   "property": "C24",
   "status": "proved",
   "theorems": [
    "motion_group",
    "motion_equality",
    "vector_action",
    "axial_cross",
    "singular_inverse",
    "identity_tests"
   ],
   "note": "Translations are integers over an arbitrary common denominator; comparison tolerances are exact equality."
  },
  {
   "property": "C30",
   "status": "partial",
   "theorems": [
    "isometry_correct",
    "reported_order",
    "reported_order_refuted"
   ],
   "note": "For every integer matrix of finite order the value is the signed order of the rotation part; the reported order is the order of the operation except for -1 and -3, where it is refuted."
  },
  {
   "property": "C34",
   "status": "proved",
   "theorems": [
    "multiply_arrays_correct",
    "matrix_algebra",
    "matrix_inverse_unimodular",
    "matrix_inverse_singular",
    "matrix_inverse_exact_iff",
    "transpose_correct",
    "transpose_inplace_refuted",
    "adjoint_one",
    "adjoint_two",
    "vector_matrix"
   ],
   "note": "transpose_inplace_refuted is about a size outside the statement."
  },
  {
   "property": "C26",
   "status": "partial",
   "theorems": [
    "sym_generate_basic_partial",
    "sym_generate_closed_partial",
    "sym_generate_refuted",
    "ps_generate_basic_partial",
    "ps_generate_closed_partial",
    "ps_generate_refuted"
   ],
   "note": "Contains identity and generators, only products of generators, no repeats; closed when each generator permutes with the group of the preceding ones; refuted in general (threefold and twofold axis of the tetrahedral group)."
  },
  {
   "property": "C27",
   "status": "partial",
   "theorems": [
    "sym_generators_partial",
    "sym_generators_refuted",
    "ps_generators_partial",
    "ps_generators_refuted",
    "proper_outside"
   ],
   "note": "The products of the generators found are exactly the closed set; that generate() rebuilds it is refuted (groups 23 and -6m2)."
  },
  {
   "property": "C28",
   "status": "proved",
   "theorems": [
    "sym_eq_set",
    "sym_eq_repeated_refuted"
   ],
   "note": "sym_eq_repeated_refuted is beyond the statement."
  },
  {
   "property": "C29",
   "status": "proved",
   "theorems": [
    "get_inverse_correct",
    "get_inverse_group",
    "find_index_correct"
   ],
   "note": ""
  },
  {
   "property": "C63",
   "status": "proved",
   "theorems": [
    "permute_correct"
   ],
   "note": ""
  },
  {
   "property": "C64",
   "status": "partial",
   "theorems": [
    "ps_add_inversion_partial",
    "ps_add_inversion_refuted",
    "ps_has_inversion",
    "tabulated_point_inversion",
    "tabulated_point_inversion_refuted"
   ],
   "note": "Refuted for -6m2 stored in a certain order, which an unstable sort may leave; holds for all tabulated groups if the sort is stable."
  },
  {
   "property": "C65",
   "status": "proved",
   "theorems": [
    "motion_order_correct",
    "motion_order_refuted"
   ],
   "note": "motion_order_refuted is beyond the statement (order 12)."
  },
  {
   "property": "C05",
   "status": "partial",
   "theorems": [
    "storage_safe",
    "storage_exact_partial",
    "storage_convert_refuted",
    "storage_convert_shared_refuted",
    "storage_resize_refuted"
   ],
   "note": "Safety for all operations; released exactly once except after an assignment from another element type or a failed resize, which leak."
  },
  {
   "property": "C06",
   "status": "partial",
   "theorems": [
    "drop_safe",
    "drop_last_partial",
    "drop_leak_refuted"
   ],
   "note": "Never released twice or used after release; overlapping destructors may leak."
  },
  {
   "property": "C07",
   "status": "proved",
   "theorems": [
    "views_correct",
    "views_fit"
   ],
   "note": ""
  },
  {
   "property": "C08",
   "status": "proved",
   "theorems": [
    "resize_correct",
    "resize_mixed_throws",
    "resize_offset_throws",
    "append_rows",
    "append_columns",
    "append_throws",
    "cat_correct",
    "resize_view_refuted"
   ],
   "note": "resize_view_refuted: views with an offset raise an error instead."
  },
  {
   "property": "C09",
   "status": "proved",
   "theorems": [
    "permute2_correct",
    "is_permutation_correct",
    "row_search",
    "row_search_rejects"
   ],
   "note": ""
  },
  {
   "property": "C10",
   "status": "partial",
   "theorems": [
    "permutation_vector_partial",
    "permutation_vector_refuted",
    "permutation_vector_errors"
   ],
   "note": "Correct when no row repeats."
  },
  {
   "property": "C11",
   "status": "partial",
   "theorems": [
    "is_unique_correct",
    "unique_idx_correct",
    "unique_partial",
    "unique_column_refuted"
   ],
   "note": "unique() is correct for arrays with packed row-ordered strides; for column-ordered ones it writes out of bounds."
  },
  {
   "property": "C12",
   "status": "partial",
   "theorems": [
    "contiguous_meaning",
    "contiguous_copy_correct",
    "row_ordered_copy_partial",
    "row_ordered_copy_refuted"
   ],
   "note": "Column-ordered arrays stay column ordered."
  },
  {
   "property": "C13",
   "status": "partial",
   "theorems": [
    "queries_partial",
    "queries_refuted"
   ],
   "note": "Holds for contiguous arrays only."
  },
  {
   "property": "C66",
   "status": "proved",
   "theorems": [
    "extract_correct"
   ],
   "note": ""
  },
  {
   "property": "C67",
   "status": "partial",
   "theorems": [
    "elementwise_partial",
    "elementwise_refuted"
   ],
   "note": "Holds for packed arrays; views with gaps write out of bounds."
  },
  {
   "property": "C23",
   "status": "partial",
   "theorems": [
    "apply_permutation_correct",
    "apply_inverse_partial",
    "apply_inverse_refuted"
   ],
   "note": "apply_permutation is correct for every permutation; apply_inverse_permutation writes indices into the objects."
  },
  {
   "property": "C47",
   "status": "partial",
   "theorems": [
    "workers_partial",
    "workers_single",
    "workers_escape",
    "workers_refuted"
   ],
   "note": "Holds when all exceptions derive from std::exception, or there is only one."
  },
  {
   "property": "C52",
   "status": "proved",
   "theorems": [
    "neighbours_correct",
    "neighbours_prime_correct",
    "neighbours_negative",
    "neighbours4_correct"
   ],
   "note": ""
  },
  {
   "property": "C55",
   "status": "proved",
   "theorems": [
    "gamma_key_correct",
    "gamma_table_correct",
    "gamma_table_throws"
   ],
   "note": "Vectors compared exactly; number of atoms times operations below 2^32."
  },
  {
   "property": "C57",
   "status": "partial",
   "theorems": [
    "gcd_correct",
    "binomial_partial",
    "binomial_three",
    "binomial_throws",
    "binomial_refuted"
   ],
   "note": "Exact while the numerator fits 64 bits; a wrapped product may go unnoticed, 30 choose 15 being wrong."
  },
  {
   "property": "C58",
   "status": "partial",
   "theorems": [
    "add_if_missing_correct",
    "add_between_correct",
    "all_present_correct",
    "invert_lists_correct",
    "unordered_list_correct",
    "unique_list_correct",
    "unique_list_refuted",
    "same_cycle_partial",
    "same_cycle_refuted"
   ],
   "note": "Two empty lists are not recognised as rotations of each other; removing repetitions from an empty list is undefined."
  },
  {
   "property": "C60",
   "status": "partial",
   "theorems": [
    "add_text_never",
    "add_text_refuted"
   ],
   "note": "No text ends normally: it either never ends or raises an error."
  },
  {
   "property": "C42",
   "status": "partial",
   "theorems": [
    "cube_weights_inside",
    "cube_weights_outside_partial",
    "cube_weights_outside_refuted",
    "cube_weights_required_refuted"
   ],
   "note": "Exact for inside points; points outside are rejected only when a product of distances exceeds the volume, and never as the trellis calls it."
  },
  {
   "property": "C43",
   "status": "partial",
   "theorems": [
    "tetrahedra_weights_inside",
    "tetrahedra_weights_outside",
    "tetrahedra_required_refuted",
    "leaf_contains_correct"
   ],
   "note": "Proved for exact arithmetic; outside points are rejected unless the caller states that the node should contain them."
  },
  {
   "property": "C44",
   "status": "partial",
   "theorems": [
    "numbering_is_a_bijection",
    "bin_brackets_coordinate",
    "bin_of_last_knot_refuted"
   ],
   "note": "A coordinate equal to the last knot is put in a bin that does not exist."
  },
  {
   "property": "C45",
   "status": "partial",
   "theorems": [
    "lookup_below_upper_knots_is_safe",
    "neighbours_are_the_adjacent_usable_nodes",
    "lookup_on_upper_knot_refuted"
   ],
   "note": "Safe below the upper knots; on an upper face without usable node the node list is read out of bounds."
  },
  {
   "property": "C46",
   "status": "proved",
   "theorems": [
    "interpolation_any_schedule",
    "interpolation_finishes",
    "interpolation_errors"
   ],
   "note": "Proved for the trellis; the differing one-thread version of the nest is C51."
  },
  {
   "property": "C51",
   "status": "partial",
   "theorems": [
    "nest_serial_agrees_partial",
    "nest_serial_shape_refuted",
    "nest_serial_fewer_refuted",
    "nest_serial_missing_refuted"
   ],
   "note": "Agrees when vectors have as many numbers as values and every point is found."
  },
  {
   "property": "C56",
   "status": "partial",
   "theorems": [
    "container_keeps_nodes",
    "container_wrong_kind_refuted"
   ],
   "note": "Replacing a node by one of another kind overwrites another node (assertions disabled)."
  },
  {
   "property": "C68",
   "status": "partial",
   "theorems": [
    "lookup_finds_usable_node",
    "lookup_in_separated_nodes_refuted"
   ],
   "note": "Holds unless the usable nodes around the point are separated by unusable ones."
  },
  {
   "property": "C69",
   "status": "proved",
   "theorems": [
    "container_reads_back"
   ],
   "note": ""
  },
  {
   "property": "C70",
   "status": "proved",
   "theorems": [
    "nested_search_correct",
    "nested_search_inside"
   ],
   "note": "Exact arithmetic."
  },
  {
   "property": "C71",
   "status": "proved",
   "theorems": [
    "interpolated_values",
    "interpolated_vectors"
   ],
   "note": ""
  },
  {
   "property": "C31",
   "status": "partial",
   "theorems": [
    "number_lookup_partial",
    "number_lookup_refuted",
    "number_choice_lookup",
    "hall_symbol_lookup",
    "hall_symbol_unique_partial",
    "hall_symbol_refuted",
    "hall_number_outside",
    "unknown_name"
   ],
   "note": "Group 230 cannot be found by number; three Hall symbols occur twice."
  },
  {
   "property": "C35",
   "status": "partial",
   "theorems": [
    "to_primitive_and_back",
    "from_primitive_and_back",
    "primitive_scalar_product",
    "primitive_same_position",
    "integer_real_round_trip",
    "integer_reciprocal_round_trip",
    "integer_round_trip_refuted",
    "other_unit"
   ],
   "note": "Exact for rational coordinates; vectors with integer elements are truncated unless the result is integral."
  },
  {
   "property": "C48",
   "status": "partial",
   "theorems": [
    "settings_round_trip_partial",
    "settings_round_trip_refuted",
    "empty_columns_refuted",
    "settings_chosen",
    "settings_loaded",
    "counts_accepted",
    "shapes_rejected",
    "settings_comparison",
    "load_iff"
   ],
   "note": "Holds for the default vector cost function only."
  },
  {
   "property": "C72",
   "status": "proved",
   "theorems": [
    "name_lookup"
   ],
   "note": ""
  },
  {
   "property": "C73",
   "status": "partial",
   "theorems": [
    "table_centring_partial",
    "table_centring_refuted"
   ],
   "note": "Forty B-centred entries are tabulated as primitive."
  },
  {
   "property": "C49",
   "status": "partial",
   "theorems": [
    "vectors_alike_partial",
    "scalar_products_partial",
    "vectors_alike_refuted"
   ],
   "note": "Alike for twofold axes only; pseudovectors, not vectors, keep their scalar products with reciprocal-space vectors. Refuted by a threefold rotation."
  },
  {
   "property": "C50",
   "status": "partial",
   "theorems": [
    "gamma_matrices_refused",
    "gamma_matrices_refuted",
    "gamma_matrices_partial"
   ],
   "note": "The statement is false for every N: refused unless three divides N, and then most blocks are lost."
  },
  {
   "property": "C74",
   "status": "proved",
   "theorems": [
    "gamma_vectors_correct"
   ],
   "note": "Numbers are an arbitrary commutative ring; for data without matrices."
  },
  {
   "property": "C75",
   "status": "proved",
   "theorems": [
    "rotate_real",
    "rotate_reciprocal",
    "rotate_axial",
    "rotate_errors"
   ],
   "note": "Numbers are an arbitrary commutative ring."
  },
  {
   "property": "C40",
   "status": "partial",
   "theorems": [
    "faces_compare",
    "faces_compare_refuted"
   ],
   "note": "Exact characterisation; a list with an empty face does not compare equal to itself."
  },
  {
   "property": "C41",
   "status": "partial",
   "theorems": [
    "edges_outcome",
    "edges_outcome_refuted"
   ],
   "note": "Out-of-bounds writes exactly when there are more than F+V-2 edges."
  },
  {
   "property": "C38",
   "status": "proved",
   "theorems": [
    "dangling_faces",
    "dangling_faces_unchanged"
   ],
   "note": "Also maximal: nothing is removed that could have stayed."
  },
  {
   "property": "C39",
   "status": "partial",
   "theorems": [
    "purge_points",
    "faceless_points",
    "marked_points",
    "marked_points_sorted",
    "marked_points_none",
    "duplicate_points",
    "duplicate_points_refuted",
    "remove_points_long"
   ],
   "note": "Duplicate removal is right when equality is an equivalence; false for comparison within a tolerance. Reordering around a polygon is an arbitrary permutation. remove_middle_colinear_points is not modelled."
  },
  {
   "property": "C18",
   "status": "proved",
   "theorems": [
    "munkres_optimal",
    "munkres_reuse"
   ],
   "note": "For integer costs of any sign; the number of steps is bounded by 2N^2+3N+4."
  },
  {
   "property": "C19",
   "status": "partial",
   "theorems": [
    "munkres_success",
    "munkres_all_zero",
    "munkres_success_refuted"
   ],
   "note": "Success exactly when some cost is not zero; every all-zero matrix is reported as a failure."
  },
  {
   "property": "C22",
   "status": "partial",
   "theorems": [
    "smp_matching",
    "smp_stable_partial",
    "smp_stable_refuted"
   ],
   "note": "Always a complete one-to-one matching, without throwing; stable when all columns rank the rows alike; refuted in general since the ranking of the wrong column is consulted (line 135)."
  },
  {
   "property": "C76",
   "status": "proved",
   "theorems": [
    "stored_permutation"
   ],
   "note": "The composition loop shared by the three solvers."
  },
  {
   "property": "C20",
   "status": "proved",
   "theorems": [
    "lapjv_inverse",
    "lapjv_returns"
   ],
   "note": "For any numbers and rounding without overflow, provided the row reduction ends; for exact numbers it always ends and the reported cost is that of the assignment."
  },
  {
   "property": "C21",
   "status": "partial",
   "theorems": [
    "lapjv_cheapest_partial",
    "lapjv_cheapest_refuted"
   ],
   "note": "The result is within (N-1)/10000 times the sum of all costs of the cheapest one, for non-negative costs; refuted as an exact statement: cost 9 returned where 0 is possible."
  },
  {
   "property": "C77",
   "status": "partial",
   "theorems": [
    "lapjv_inverse",
    "lapjv_nan_refuted"
   ],
   "note": "In range for ordinary numbers; refuted for a 3x3 matrix of not-a-number, where colsol[-1] is read."
  },
  {
   "property": "C53",
   "status": "proved",
   "theorems": [
    "moveinto_correct",
    "moveinto_defined"
   ],
   "note": "For exact numbers, any rounding function and any face products; UB only for a zone without faces."
  },
  {
   "property": "C54",
   "status": "proved",
   "theorems": [
    "ir_moveinto_correct"
   ],
   "note": "For any list of operations that holds the identity; the result is in the wedge, too."
  },
  {
   "property": "C78",
   "status": "partial",
   "theorems": [
    "wedge_move_correct",
    "wedge_move_refuted",
    "wedge_move_kept"
   ],
   "note": "Right for points with an image in the wedge; for others the untouched output is tested and, being zero, accepted."
  },
  {
   "property": "C79",
   "status": "partial",
   "theorems": [
    "moveinto_unshifted_partial",
    "moveinto_centred_refuted"
   ],
   "note": "Such a zone only ever applies the rounding of the primitive components; refuted: an error for (9/20, 9/20, -9/20), which is in the body-centred conventional zone."
  },
  {
   "property": "C25",
   "status": "partial",
   "theorems": [
    "motion_text_round_trip_partial",
    "motion_text_negative_refuted",
    "motion_text_in_bounds_partial",
    "motion_text_in_bounds_refuted"
   ],
   "note": "The round trip holds for all integer rotations and non-negative translations with reduced numerator below 256; refuted for a negative one (written as 1/-2). Reading is in bounds with at most two separators; refuted for x,y,z;x,y,z. Larger numerators, written as decimals, are not covered."
  },
  {
   "property": "C36",
   "status": "proved",
   "theorems": [
    "vertex_numbering",
    "vertex_count"
   ],
   "note": ""
  },
  {
   "property": "C37",
   "status": "partial",
   "theorems": [
    "extra_points_numbered_partial",
    "extra_points_numbered_refuted",
    "extra_points_kept_refuted",
    "extra_points_budget"
   ],
   "note": "Holds for every interleaving as long as at most one worker meets points that are not yet in the list; refuted for two workers that add a point each: a number leads to the other's point, or a point is lost."
  },
  {
   "property": "C80",
   "status": "partial",
   "theorems": [
    "vertex_set_requests_partial",
    "vertex_set_requests_refuted"
   ],
   "note": "Holds for two or more lattice points; refuted for one: no row is allocated, and doubling zero rows leaves none."
  },
  {
   "property": "C32",
   "status": "proved",
   "theorems": [
    "tabulated_groups"
   ],
   "note": "All 530 entries, by computation with a generator of products proved equal to the model of generate."
  },
  {
   "property": "C33",
   "status": "partial",
   "theorems": [
    "hall_text_partial",
    "hall_text_refuted"
   ],
   "note": "Holds for every accepted text without a change of basis; refuted for entry 440 of the table, whose change of basis is not written."
  },
  {
   "property": "C81",
   "status": "proved",
   "theorems": [
    "tabulated_centring"
   ],
   "note": "All 530 entries."
  },
  {
   "property": "C82",
   "status": "partial",
   "theorems": [
    "hall_check",
    "seitz_check",
    "repeated_primes_refuted",
    "three_primes_refuted"
   ],
   "note": "The check accepts exactly the stated symbols; refuted: two primes are decoded as one, three as the zero matrix."
  },
  {
   "property": "C83",
   "status": "proved",
   "theorems": [
    "seitz_rotation"
   ],
   "note": ""
  },
  {
   "property": "C84",
   "status": "partial",
   "theorems": [
    "seitz_translation_partial",
    "seitz_translation_single",
    "seitz_translation_refuted"
   ],
   "note": "Holds for the axes that have a character; refuted for the unnamed axis a-b of a twofold screw after a threefold axis."
  },
  {
   "property": "C85",
   "status": "proved",
   "theorems": [
    "unique_rotations",
    "firsts_meaning"
   ],
   "note": ""
  },
  {
   "property": "C86",
   "status": "proved",
   "theorems": [
    "tabulated_point_groups"
   ],
   "note": "All 530 entries, any reordering in place of the sort."
  },
  {
   "property": "C87",
   "status": "partial",
   "theorems": [
    "add_inversion_partial",
    "tabulated_inversion",
    "inversion_group_refuted",
    "inversion_keeps_refuted"
   ],
   "note": "The result holds the motions and their inverted copies for all tabulated groups, and nothing else for every group; refuted: for P 4w these do not form a group, and for the group 23 in a certain order motions are lost."
  },
  {
   "property": "C88",
   "status": "proved",
   "theorems": [
    "point_to_space"
   ],
   "note": "All 530 entries, any reordering in place of the sort."
  },
  {
   "property": "C59",
   "status": "proved",
   "theorems": [
    "hull_planes",
    "hull_throws",
    "hull_flat"
   ],
   "note": "Exact arithmetic, integer coordinates."
  },
  {
   "property": "C89",
   "status": "proved",
   "theorems": [
    "hull_polygons"
   ],
   "note": "Exact arithmetic, integer coordinates."
  },
  {
   "property": "C90",
   "status": "partial",
   "theorems": [
    "hull_polygons",
    "hull_duplicate_refuted",
    "hull_colinear_refuted",
    "hull_interior_refuted",
    "hull_reflex_refuted"
   ],
   "note": "Holds for points in convex position (hull_polygons); refuted: with a repeated point an extreme point is lost, with a point on an edge or in a face a face is missing or not convex."
  },
  {
   "property": "C91",
   "status": "partial",
   "theorems": [
    "hull_flat_unchecked",
    "hull_flat_refuted"
   ],
   "note": "Refuted: every list of different points in one plane leads to a read outside of an empty array."
  },
  {
   "property": "C92",
   "status": "proved",
   "theorems": [
    "cut_by_plane"
   ],
   "note": "Exact rational arithmetic, no tolerances."
  },
  {
   "property": "C93",
   "status": "proved",
   "theorems": [
    "cut_by_planes"
   ],
   "note": "Exact rational arithmetic, no tolerances."
  },
  {
   "property": "C94",
   "status": "proved",
   "theorems": [
    "intersection_of_polyhedra"
   ],
   "note": "Exact rational arithmetic, no tolerances."
  },
  {
   "property": "C95",
   "status": "partial",
   "theorems": [
    "contains_inside",
    "contains_nothing_refuted"
   ],
   "note": "Right for all polyhedra with faces; refuted: the intersection of polyhedra that do not meet reads the smallest of no numbers."
  },
  {
   "property": "C96",
   "status": "proved",
   "theorems": [
    "volume_of_convex"
   ],
   "note": "Exact rational arithmetic."
  },
  {
   "property": "C97",
   "status": "proved",
   "theorems": [
    "centroid_of_convex"
   ],
   "note": "Exact rational arithmetic."
  },
  {
   "property": "C98",
   "status": "proved",
   "theorems": [
    "circumsphere_of_convex"
   ],
   "note": "Exact rational arithmetic; the model returns the square of the radius."
  },
  {
   "property": "C99",
   "status": "proved",
   "theorems": [
    "mirror_of_convex",
    "translate_convex",
    "translate_volume",
    "centre_at_origin"
   ],
   "note": "Exact rational arithmetic."
  },
  {
   "property": "C100",
   "status": "partial",
   "theorems": [
    "divide_partial",
    "divide_refuted"
   ],
   "note": "Refuted: the vertices are moved to the centroid but the plane is not; divide_partial says what is computed."
  },
  {
   "property": "C101",
   "status": "proved",
   "theorems": [
    "intersects_convex"
   ],
   "note": "Exact rational arithmetic; the tolerance for small volumes is zero."
  },
  {
   "property": "C102",
   "status": "proved",
   "theorems": [
    "volume_of_set"
   ],
   "note": "Exact rational arithmetic."
  },
  {
   "property": "C103",
   "status": "proved",
   "theorems": [
    "search_exact",
    "search_wide",
    "search_narrow"
   ],
   "note": "Exact rational arithmetic; everything in the xyz frame."
  },
  {
   "property": "C104",
   "status": "proved",
   "theorems": [
    "construct_ends"
   ],
   "note": "Exact rational arithmetic; volumes compared without tolerance."
  },
  {
   "property": "C105",
   "status": "partial",
   "theorems": [
    "construct_wide_partial",
    "construct_obtuse_partial",
    "construct_refuted"
   ],
   "note": "Right when the search starts wide enough, and for every basis that has no acute angles together with the opposite of its sum. Refuted: for (1,0,0), (3,1,0), (0,0,1) the first two searches have the volume 2, and the loop stops with twice the zone."
  },
  {
   "property": "C106",
   "status": "proved",
   "theorems": [
    "volume_of_parts"
   ],
   "note": "Exact rational arithmetic."
  },
  {
   "property": "C107",
   "status": "proved",
   "theorems": [
    "volume_of_tiles"
   ],
   "note": "Exact rational arithmetic."
  },
  {
   "property": "C108",
   "status": "proved",
   "theorems": [
    "apply_exact"
   ],
   "note": "Exact rational arithmetic; the normals are not divided by their lengths."
  },
  {
   "property": "C109",
   "status": "partial",
   "theorems": [
    "check_ir_partial",
    "check_ir_inversion_partial",
    "check_ir_refuted"
   ],
   "note": "Right for parts that planes through the origin cut from the zone, and for groups without inversion. Refuted for other parts: rotation_order(-1) is 1, so higher(1) leaves out the inversion together with the identity, and for the group {1,-1} a slab of half the zone that is its own inverse passes."
  },
  {
   "property": "C110",
   "status": "proved",
   "theorems": [
    "triclinic_zone"
   ],
   "note": "Exact rational arithmetic; wedge_brute_force is an arbitrary function, which is not called."
  },
  {
   "property": "C111",
   "status": "proved",
   "theorems": [
    "face_points_exact"
   ],
   "note": "Exact rational arithmetic."
  },
  {
   "property": "C112",
   "status": "proved",
   "theorems": [
    "moveinto_first_zone"
   ],
   "note": "Exact rational arithmetic; primitive lattices."
  },
  {
   "property": "C113",
   "status": "partial",
   "theorems": [
    "moveinto_ends_partial",
    "moveinto_orthogonal_partial",
    "moveinto_stuck_refuted"
   ],
   "note": "Proved: for points that no lattice vector brings to the plane of a face the loop ends in the zone after enough steps, and for right angled lattices moveinto always succeeds. Refuted: for the basis (1,0,0), (0,3,0), (-1,0,5) and the components (1/4,1/2,1/2), a point of the first zone, the loop goes back and forth between opposite faces and moveinto throws."
  },
  {
   "property": "C114",
   "status": "proved",
   "theorems": [
    "search_irreducible",
    "search_irreducible_partial",
    "search_defined",
    "irreducible_is_wedge"
   ],
   "note": "Exact rational arithmetic. Which normals the attempts find is arbitrary. The first zone is symmetric about the origin. Of the hull of a part and the image of its mirror image, which is a parameter, it is assumed that it is convex and within each convex polyhedron that has both; search_irreducible_partial assumes nothing of it and leaves such parts out."
  },
  {
   "property": "C115",
   "status": "proved",
   "theorems": [
    "wedge_normals_exact"
   ],
   "note": "Exact rational arithmetic; normals are not divided by their lengths."
  },
  {
   "property": "C116",
   "status": "partial",
   "theorems": [
    "search_finds",
    "search_finds_refuted"
   ],
   "note": "Proved: an attempt whose normals delimit an irreducible part succeeds. Refuted: a candidate of twice the volume is divided by the first face normal that leaves the right volume, even if the images of that half overlap, and the other face normals are not tried; whether the unmodelled selection of normals leads to such a candidate is not claimed."
  },
  {
   "property": "C117",
   "status": "proved",
   "theorems": [
    "group_keeps_zone"
   ],
   "note": "Exact rational arithmetic; the polyhedron is one that has the points of the first zone, C105."
  },
  {
   "property": "C118",
   "status": "partial",
   "theorems": [
    "join_face_to_face",
    "join_undefined_refuted",
    "join_volume_refuted",
    "join_nothing"
   ],
   "note": "Proved if faces with three corners in common have all in common. Refuted otherwise: std::is_permutation with three iterators reads behind the end of the second face if it has fewer corners than the first, and if it has more, it takes the first of them for all, so that a triangle and a larger quadrilateral both go and the volume is wrong. Two polyhedra without faces are undefined behaviour, faces.size()-1 is huge. Exact rational arithmetic."
  },
  {
   "property": "C119",
   "status": "partial",
   "theorems": [
    "basis_types",
    "equivalent_to_exact",
    "closest_to_exact",
    "closest_to_other_refuted",
    "closest_to_none_refuted"
   ],
   "note": "Proved for types that have an atom. Refuted otherwise: closest_to returns the first atom, which has another type, with difference zero, and for an empty basis it dereferences the end of an empty vector. Exact rational arithmetic with the tolerances as parameters."
  },
  {
   "property": "C120",
   "status": "partial",
   "theorems": [
    "snap_to_exact",
    "snap_to_partial",
    "snap_to_refuted"
   ],
   "note": "Proved: what the result tells, and that atoms are corrected which are each the only one of their type and near a place that all operations keep. Refuted: two atoms of one type related by an inversion, one of them off by 1/1000, are left as they are and the result is false, because only operations that bring an atom next to itself are averaged. Missing: several atoms of one type at special positions of which only some operations keep each."
  },
  {
   "property": "C121",
   "status": "proved",
   "theorems": [
    "cosines_and_sines",
    "angle_unit_guessed"
   ],
   "note": "Real numbers, exact; uses the axioms of the standard library's reals."
  },
  {
   "property": "C122",
   "status": "proved",
   "theorems": [
    "dual_lattice_parameters"
   ],
   "note": "Real numbers, exact; uses the axioms of the standard library's reals."
  },
  {
   "property": "C123",
   "status": "proved",
   "theorems": [
    "vectors_from_parameters",
    "parameters_come_back",
    "impossible_parameters_throw"
   ],
   "note": "Real numbers, exact; uses the axioms of the standard library's reals. Without snapping to symmetry."
  },
  {
   "property": "C124",
   "status": "partial",
   "theorems": [
    "vectors_from_matrix",
    "to_and_from_xyz",
    "metric_tensor",
    "metric_of_dual",
    "volume_of_dual",
    "lengths_of_vectors",
    "angles_of_vectors",
    "singular_matrix_refuted"
   ],
   "note": "Proved for independent vectors. Refuted otherwise: a singular matrix is accepted and the reciprocal vectors are zero. Real numbers, exact; uses the axioms of the standard library's reals."
  },
  {
   "property": "C125",
   "status": "partial",
   "theorems": [
    "orientation_rotation",
    "orientation_up_partial",
    "orientation_flat_partial",
    "orientation_refuted",
    "reassembled_vectors",
    "reassembled_same"
   ],
   "note": "Always a rotation. Right if the first vector has a positive z component or is along x, apart from cases where the second vector needs a half turn. Refuted: (3,4,0) is not turned to the x axis. Real numbers, exact; uses the axioms of the standard library's reals."
  },
  {
   "property": "C126",
   "status": "partial",
   "theorems": [
    "snap_lengths",
    "snap_vectors_partial",
    "snap_nothing",
    "snap_off_refuted",
    "snap_changes_refuted",
    "snap_throws_refuted",
    "snap_turns_refuted"
   ],
   "note": "Lengths of linked vectors become equal and right ones stay; if the parameters found are possible and the orientation is found (C125), the new vectors have them and keep their directions. Refuted: angles are not made right, lattices with the symmetry are changed or refused in unusual bases, and lattices with the first vector in the xy plane are turned. Real numbers, exact; uses the axioms of the standard library's reals."
  },
  {
   "property": "C127",
   "status": "partial",
   "theorems": [
    "array_arithmetic",
    "array_arithmetic_incompatible",
    "array_arithmetic_empty_refuted",
    "in_place_array",
    "in_place_with_itself",
    "in_place_array_rejected",
    "in_place_own_row_refuted",
    "in_place_scalar",
    "in_place_own_element_refuted",
    "in_place_own_last_element",
    "array_with_scalar",
    "scalar_with_array",
    "scalar_minus_array_refuted",
    "array_with_list",
    "array_with_list_length_refuted"
   ],
   "note": "Proved for non-empty arrays. Refuted: an array without rows and a single row (undefined behaviour); scalar minus array (gives array minus scalar); in place with a row or an element of the array itself (read after it was changed); one value per column with a wrong number of values (only asserted)."
  },
  {
   "property": "C128",
   "status": "partial",
   "theorems": [
    "approx_scalar",
    "approx_reflexive",
    "approx_symmetric",
    "approx_between",
    "approx_vector",
    "approx_equal",
    "approx_default_tolerance",
    "approx_transitive_refuted",
    "approx_symmetric_refuted",
    "approx_integer_tolerance_refuted"
   ],
   "note": "Rational numbers, exact. Refuted: not transitive; not symmetric for float against double; arrays of integers honour a tolerance that single integers ignore."
  },
  {
   "property": "C129",
   "status": "partial",
   "theorems": [
    "comparison_scalar",
    "comparison_vector",
    "comparison_order",
    "all_elements_compare",
    "all_elements_one_side",
    "any_element_compares",
    "one_side_tolerance_refuted"
   ],
   "note": "Rational numbers, exact; whole arrays contiguous (otherwise see C13). Refuted: asking for all elements to lie on one side drops the given tolerances."
  },
  {
   "property": "C130",
   "status": "partial",
   "theorems": [
    "lattice_vectors_xyz",
    "star_method_same_vectors",
    "star_method_twice",
    "star_function_same_vectors_refuted",
    "star_function_two_pi",
    "lattice_cross_products",
    "lattice_cross_method",
    "lattice_scalar_products",
    "lattice_scalar_product_of_different_lattices",
    "lattice_scalar_product_method",
    "lattice_lengths",
    "lattice_sums",
    "lattice_negative",
    "lattice_join",
    "lattice_mixed_units_refuted",
    "lattice_misfit_rows_refuted"
   ],
   "note": "Proved for the methods and for functions of fitting operands. Refuted: the function star (not the method) gives vectors 2 pi times as long; sums and cross products of a real and a reciprocal vector are computed from the bare coordinates, this is only asserted; numbers of vectors that do not fit are only asserted, the scalar product leaves some out or throws, the cross product reads beyond the array. Real numbers, exact; uses the axioms of the standard library's reals."
  },
  {
   "property": "C131",
   "status": "proved",
   "theorems": [
    "nest_construction",
    "nest_construction_found",
    "nest_leaves_small",
    "nest_levels",
    "nest_collected"
   ],
   "note": "Exact arithmetic; TetGen, the circumscribed spheres and the power that scales the volumes are parameters with the stated assumptions."
  },
  {
   "property": "C132",
   "status": "partial",
   "theorems": [
    "layers_construction",
    "layers_small",
    "layers_connected",
    "layers_found",
    "layers_outside",
    "layers_locate_refuted",
    "layer_neighbours",
    "layers_neighbours_at",
    "layer_keys_joined",
    "layer_statistics"
   ],
   "note": "Refuted for points outside when there are two layers or more: the connections are read out of bounds (layers_outside, layers_locate_refuted). Everything else is proved, in exact arithmetic; TetGen, the spheres and the power that scales the volumes are parameters with the stated assumptions, and layers_neighbours_at assumes that a vertex in a tetrahedron is its corner."
  },
  {
   "property": "C133",
   "status": "partial",
   "theorems": [
    "compare_elements",
    "find_elements",
    "compare_arrays",
    "compare_broadcast",
    "arrays_alike",
    "compare_rows",
    "compare_rows_vector",
    "search_rows",
    "compare_shapes",
    "compare_each",
    "match_by_turns",
    "match_by_operator",
    "compare_part_refuted",
    "compare_broadcast_refuted",
    "compare_each_refuted",
    "match_by_operator_refuted"
   ],
   "note": "Proved for rows whatever the strides, for elements of contiguous arrays, for a single row against an array stored by rows, for each_is of a single column, and for match with an operator when the elements of a row are adjacent. Refuted otherwise: views of part of an array, a row against an array stored by columns, each_is of several columns, and match of rows of an array stored by columns. The divisions are left out of match."
  },
  {
   "property": "C134",
   "status": "partial",
   "theorems": [
    "cuts_found",
    "cuts_cover",
    "two_fold_plane_refuted",
    "mirror_plane_refuted"
   ],
   "note": "cuts_found: all of the first sentence, without restriction on the lattice. cuts_cover: the planes of one operation leave enough of space, for operations with entries -1, 0 and 1 that keep lengths, if a two-fold axis along (1,0,-1) of the reciprocal lattice is along [1,0,-1] of the direct lattice, except for mirrors, where the plane may instead contain the normal of the mirror. Refuted without these two restrictions. Exact arithmetic; normals are not scaled to unit length."
  },
  {
   "property": "C135",
   "status": "partial",
   "theorems": [
    "axis_found",
    "axis_far_refuted",
    "perpendicular_vectors",
    "no_perpendicular",
    "perpendicular_direct_refuted"
   ],
   "note": "Axis: proved for entries -1, 0 and 1, all 3^9 matrices are checked by computation. Refuted for larger entries: a two-fold axis that is not in the table is reported as three zeros. perpendicular_vectors: proved for the product of the components, for every operation with an axis (73 axes by computation, all integer vectors). Refuted for vectors of the lattice: in an oblique basis the vectors with these components are not perpendicular to the axis."
  },
  {
   "property": "C136",
   "status": "partial",
   "theorems": [
    "pointgroup_number",
    "pointgroup_none",
    "pointgroup_basis",
    "tabulated_classes",
    "pointsymmetry_single",
    "pointsymmetry_refuted"
   ],
   "note": "pointgroup_number and pointgroup_basis for all lists and bases; tabulated_classes for all 530 entries by computation. Refuted: the collection of the different operations reads beyond the operations collected as soon as two of the operations given are different."
  },
  {
   "property": "C137",
   "status": "partial",
   "theorems": [
    "dot_exact",
    "dot_unequal",
    "mat_vec_exact",
    "vec_mat_exact",
    "mat_mat_exact",
    "lu_one",
    "lu_refuted"
   ],
   "note": "The products are proved for all sizes. Refuted for the decomposition: for every matrix with at least two rows an element beyond the end of the array is read, since the number of elements is used for the number of rows."
  },
  {
   "property": "C138",
   "status": "partial",
   "theorems": [
    "points_grouped",
    "points_lost_refuted"
   ],
   "note": "Proved for rotations and for the improper operations whose power at the reported order is the identity. Refuted for the others (three-fold rotoinversions, the inversion): the opposite of a point is counted as found after as many turns as the reported order, which is the order of the rotation part, but is placed at no number of turns below it, and is in no group."
  },
  {
   "property": "C139",
   "status": "proved",
   "theorems": [
    "special_points_found"
   ],
   "note": "All lists of points and faces. The condition on the number of edges is the one under which listing the edges succeeds (C41)."
  },
  {
   "property": "C140",
   "status": "partial",
   "theorems": [
    "settings_value",
    "settings_object",
    "settings_object_refuted"
   ],
   "note": "The result has the values given last, for all chains; so has the object if nothing is called on the result of setting the real space tolerance. Refuted otherwise: that setter returns a copy, and what is set after it is set on the copy only."
  },
  {
   "property": "C141",
   "status": "proved",
   "theorems": [
    "wedge_search_irreducible",
    "first_zone_wedge",
    "wedge_search_whole",
    "one_axis_flag",
    "attempts_differ"
   ],
   "note": "The hull of two polyhedra is a parameter, of which it is assumed that it is convex and within each convex polyhedron that has both; the first zone is symmetric about the origin. That nothing is undefined is only claimed with an inversion, and there nothing is assumed of the hull. Sorting is by any permutation. That the search succeeds for every lattice is not claimed."
  },
  {
   "property": "C142",
   "status": "partial",
   "theorems": [
    "count_elements",
    "count_elements_refuted"
   ],
   "note": "Proved for arrays without gaps. Refuted for a view of some columns: an element outside the view is found and counted, and one inside it is not."
  }
 ]
}