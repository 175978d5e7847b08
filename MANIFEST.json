{
 "claims": [
  {
   "property": "C01",
   "status": "proved",
   "theorems": [
    "C01_index_table_bijection"
   ],
   "note": "For every type of hashable objects whose == is an equivalence."
  },
  {
   "property": "C02",
   "status": "proved",
   "theorems": [
    "C02_constructor_accepts_iff",
    "C02_type_error_position",
    "C02_value_error_position",
    "C02_empty_collection",
    "C02_no_other_error",
    "C02_query_index_errors",
    "C02_query_object_errors"
   ],
   "note": "Also shows that an empty iterable raises UnboundLocalError (undocumented)."
  },
  {
   "property": "C03",
   "status": "proved",
   "theorems": [
    "C03_order",
    "C03_transitive",
    "C03_hash",
    "C03_site_versus_state",
    "C03_site_constructor_rejects",
    "C03_state_constructor"
   ],
   "note": "numpy scalar coordinates are not modelled."
  },
  {
   "property": "C04",
   "status": "proved",
   "theorems": [
    "C04_precision",
    "C04_cell",
    "C04_total",
    "C04_cell_any_precision",
    "C04_mathematical_cell",
    "C04_one_step_apart",
    "C04_equality_is_quantised_equality",
    "C04_quantisation_monotone",
    "C04_separated_coordinates_distinct",
    "C04_integer_coordinates",
    "C04_ints_never_confused",
    "C04_large_integers_refuted",
    "C04_adjacent_grid_points_distinct_refuted",
    "C04_nearby_coordinates_same_site_refuted",
    "C04_cell_around_zero_refuted"
   ],
   "note": "Cells with the exact binary64 rounding margin (C04_cell, C04_cell_any_precision, C04_mathematical_cell, C04_one_step_apart), totality, monotonicity and exactness of integers; the naive reading without the margin is refuted by concrete witnesses: SiteID((0.0002,)) == SiteID((0.0003,)), SiteID((0.1+0.7,)) != SiteID((0.8,))."
  },
  {
   "property": "C05",
   "status": "proved",
   "theorems": [
    "C05_total_order",
    "C05_transitive",
    "C05_creators_first"
   ],
   "note": ""
  },
  {
   "property": "C06",
   "status": "proved",
   "theorems": [
    "C06_derive_number",
    "C06_dagger_involution",
    "C06_dagger_reverses_order",
    "C06_conjugate_of",
    "C06_same_state",
    "C06_derive",
    "C06_derive_nothing",
    "C06_precision_change_refuted"
   ],
   "note": "For operators built at the current precision; after set_float_point_precision a witness breaks x.dagger().dagger()==x."
  },
  {
   "property": "C07",
   "status": "proved",
   "theorems": [
    "C07_constructor",
    "C07_equality",
    "C07_number_operator",
    "C07_number_order"
   ],
   "note": ""
  },
  {
   "property": "C08",
   "status": "proved",
   "theorems": [
    "C08_product_structure",
    "C08_product_of_numbers",
    "C08_foreign_operand",
    "C08_product_matrix",
    "C08_full_space_matrix_exists"
   ],
   "note": "Any sorted basis on which both factors have a matrix; existence on the full Fock space of n<=64 states. Coefficients are exact Gaussian rationals."
  },
  {
   "property": "C09",
   "status": "proved",
   "theorems": [
    "C09_dagger_of_term",
    "C09_dagger_matrix",
    "C09_dagger_full_space",
    "C09_dagger_aoc",
    "C09_dagger_number"
   ],
   "note": ""
  },
  {
   "property": "C10",
   "status": "proved",
   "theorems": [
    "C10_normal_ordered_permutation",
    "C10_same_operator",
    "C10_failure"
   ],
   "note": ""
  },
  {
   "property": "C11",
   "status": "proved",
   "theorems": [
    "C11_swap_count",
    "C11_stable",
    "C11_idempotent"
   ],
   "note": ""
  },
  {
   "property": "C12",
   "status": "proved",
   "theorems": [
    "C12_errors",
    "C12_constructor",
    "C12_ladder_factories",
    "C12_check_compatibility",
    "C12_classification_sound",
    "C12_CPFactory",
    "C12_HoppingFactory",
    "C12_PairingFactory",
    "C12_HubbardFactory",
    "C12_CoulombFactory"
   ],
   "note": ""
  },
  {
   "property": "C13",
   "status": "proved",
   "theorems": [
    "C13_hopping_is_general",
    "C13_number_is_general",
    "C13_coulomb_is_general",
    "C13_number_left_bases_refuted",
    "C13_coulomb_left_bases_refuted",
    "C13_hopping_equal_states_refuted"
   ],
   "note": "Hopping for all bases; number/Coulomb when left_bases is not given; the wrong matrices with a different left_bases, and a hopping tag on equal states, are exhibited."
  },
  {
   "property": "C14",
   "status": "proved",
   "theorems": [
    "C14_anticommutation"
   ],
   "note": "n<=64 (uint64 kets)."
  },
  {
   "property": "C15",
   "status": "proved",
   "theorems": [
    "C15_base_vectors",
    "C15_sector_to_sector",
    "C15_charge_conserved",
    "C15_full_space"
   ],
   "note": "Sectors are the complete p-particle sets of n<=64 states; an empty target sector with a non-empty source makes scipy raise ValueError."
  },
  {
   "property": "C16",
   "status": "proved",
   "theorems": [
    "C16_coordinate_form",
    "C16_zero_coefficient_refuted"
   ],
   "note": "For non-zero coefficients; with coefficient 0 the coordinate form lists explicit zeros (witness)."
  },
  {
   "property": "C17",
   "status": "proved",
   "theorems": [
    "C17_coefficient_persists",
    "C17_each_call",
    "C17_scaled_by_coefficient",
    "C17_spin_coefficient_persists",
    "C17_spin_each_call",
    "C17_spin_scaled"
   ],
   "note": "ParticleTerm and SpinInteraction histories."
  },
  {
   "property": "C18",
   "status": "proved",
   "theorems": [
    "C18_general_matrix_elements",
    "C18_one_entry_per_column",
    "C18_failures"
   ],
   "note": "Entries are identified with the Fock-space matrix elements; failures characterised completely."
  },
  {
   "property": "C19",
   "status": "proved",
   "theorems": [
    "C19_base_vectors",
    "C19_unsorted",
    "C19_full_space",
    "C19_sector"
   ],
   "note": "For collections without repeated states; also as arrays for the full space and the particle-number sectors."
  },
  {
   "property": "C20",
   "status": "proved",
   "theorems": [
    "C20_hilbert_space",
    "C20_simple_space",
    "C20_simple_int",
    "C20_container"
   ],
   "note": ""
  },
  {
   "property": "C21",
   "status": "proved",
   "theorems": [
    "C21_accepted",
    "C21_rejected",
    "C21_overlap",
    "C21_simple_space",
    "C21_repeated_states_refuted",
    "C21_float_number_refuted"
   ],
   "note": "Refutations included: repeated states inside a collection are accepted (ket 2 from states (0,0)), a float particle number passes the constructor, a non-number raises TypeError instead of ValueError."
  },
  {
   "property": "C22",
   "status": "proved",
   "theorems": [
    "C22_array_exact",
    "C22_below_64"
   ],
   "note": ""
  },
  {
   "property": "C23",
   "status": "proved",
   "theorems": [
    "C23_constructor",
    "C23_matrix_function",
    "C23_matrix_function_errors",
    "C23_matrix_repr"
   ],
   "note": ""
  },
  {
   "property": "C24",
   "status": "proved",
   "theorems": [
    "C24_algebra",
    "C24_different_sites_commute",
    "C24_dagger",
    "C24_predicates"
   ],
   "note": ""
  },
  {
   "property": "C25",
   "status": "proved",
   "theorems": [
    "C25_matrix_function",
    "C25_product_of_matrices",
    "C25_rejects",
    "C25_out_of_range"
   ],
   "note": "Exact arithmetic; all operator lists."
  },
  {
   "property": "C26",
   "status": "proved",
   "theorems": [
    "C26_constructor",
    "C26_constructor_matrix",
    "C26_product",
    "C26_foreign_operand",
    "C26_dagger_matrix",
    "C26_dagger_involution"
   ],
   "note": "dagger for operators built at the current precision."
  },
  {
   "property": "C27",
   "status": "proved",
   "theorems": [
    "C27_operator_terms",
    "C27_interaction",
    "C27_operator",
    "C27_site_ordered_table",
    "C27_full_space",
    "C27_sign_needed"
   ],
   "note": "For every table order, with the ordering sign; the sign is shown to be necessary by a witness (all up states first, S+_0 S-_1 gives -1)."
  },
  {
   "property": "C28",
   "status": "proved",
   "theorems": [
    "C28_errors",
    "C28_two_spin",
    "C28_ising",
    "C28_heisenberg",
    "C28_rejects"
   ],
   "note": ""
  },
  {
   "property": "C29",
   "status": "proved",
   "theorems": [
    "C29_total_spin",
    "C29_algebra",
    "C29_rejects"
   ],
   "note": ""
  },
  {
   "property": "C50",
   "status": "proved",
   "theorems": [
    "C50_order",
    "C50_transitive"
   ],
   "note": ""
  },
  {
   "property": "C30",
   "status": "proved",
   "theorems": [
    "C30_weights",
    "C30_columns",
    "C30_total_spin_columns",
    "C30_expectation_value",
    "C30_zero_ket_is_nan",
    "C30_shape_mismatch",
    "C30_linear",
    "C30_scale_invariant",
    "C30_eigenvector",
    "C30_hermitian_real",
    "C30_total_spin_averages",
    "C30_total_spin_real",
    "C30_consistent"
   ],
   "note": "Exact complex arithmetic, one-dimensional kets."
  },
  {
   "property": "C31",
   "status": "proved",
   "theorems": [
    "C31_constructor",
    "C31_dual"
   ],
   "note": "Constructor outcome (AssertionError/ValueError/LinAlgError/success) characterised; reciprocal vectors dual, in the span and unique. Exact reals; linear independence decides success."
  },
  {
   "property": "C32",
   "status": "proved",
   "theorems": [
    "C32_fold_inexact",
    "C32_inverse",
    "C32_answers",
    "C32_fold",
    "C32_fold_translated"
   ],
   "note": "Inverse for every accepted lattice, every precision and every KD-tree tie-breaking; fold=True for small translations and for all translations of reduced cells (C34 gives the general limits)."
  },
  {
   "property": "C33",
   "status": "proved",
   "theorems": [
    "C33_no_vectors",
    "C33_sound",
    "C33_total"
   ],
   "note": "Soundness for every lattice, site and fuel; termination for every accepted lattice."
  },
  {
   "property": "C34",
   "status": "proved",
   "theorems": [
    "C34_skewed_refuted",
    "C34_equivalent_refuted",
    "C34_inexact_small",
    "C34_inexact",
    "C34_inexact_refuted",
    "C34_small",
    "C34_steady",
    "C34_reduced",
    "C34_orthogonal"
   ],
   "note": "Small translations always; all translations for reduced (incl. 1D, orthogonal, triangular) cells; refuted for a skewed cell and for cells with equivalent points."
  },
  {
   "property": "C35",
   "status": "proved",
   "theorems": [
    "C35_precision",
    "C35_products",
    "C35_perturbed",
    "C35_history_refuted",
    "C35_cluster_refuted",
    "C35_tiny_refuted",
    "C35_sound",
    "C35_total",
    "C35_wide",
    "C35_recomputed",
    "C35_single",
    "C35_chain"
   ],
   "note": "Every history: value is a rounded lattice distance, monotone, stable; right whenever the list is rebuilt (reduced, compact, resolved cells) and for a chain after every history; refuted in general (history dependence for a rectangular one-point cell, cluster distances shadowing shorter ones, IndexError for tiny vectors)."
  },
  {
   "property": "C36",
   "status": "proved",
   "theorems": [
    "C36_chain",
    "C36_rounding_refuted",
    "C36_onsite",
    "C36_history",
    "C36_nice",
    "C36_bonds",
    "C36_exact",
    "C36_total",
    "C36_nearest",
    "C36_nearest_lowered",
    "C36_unstable"
   ],
   "note": "bonds: whatever is returned after any history lies in the length window, is listed at most once (never with its opposite), intra-cluster bonds are complete, inter-cluster bonds complete in nice cells; exactly the bonds of the nth rounded distance under the stated separation conditions; total on nice separated cells; chain end to end. Refuted in general: C36_rounding_refuted (lattice constant 1/3 returns no nearest-neighbour bond)."
  },
  {
   "property": "C37",
   "status": "proved",
   "theorems": [
    "C37_chain",
    "C37_exact",
    "C37_cached",
    "C37_second",
    "C37_generator",
    "C37_errors",
    "C37_cells",
    "C37_suitable",
    "C37_precision_refuted",
    "C37_large",
    "C37_far",
    "C37_spacing",
    "C37_nearest",
    "C37_nearest_default",
    "C37_nearest_refuted",
    "C37_nice",
    "C37_decompose",
    "C37_distances",
    "C37_bonds",
    "C37_square",
    "C37_third_refuted",
    "C37_distance_refuted"
   ],
   "note": "lattice_generator for every known name and all multiplicities, precision >= 1 (tolerance <= 0.1): accepted, scaled vectors, points listed row by row, no equivalent points, tiles the cell lattice; exceptions; geometry of the cells; the hypotheses of C34-C36 hold for all chain/square/cubic clusters. With precision 0 the honeycomb cell is rejected (C37_precision_refuted)."
  },
  {
   "property": "C38",
   "status": "proved",
   "theorems": [
    "C38_float",
    "C38_min_num_refuted",
    "C38_default_refuted",
    "C38_rounding",
    "C38_kpath",
    "C38_density",
    "C38_errors",
    "C38_identical"
   ],
   "note": "One model over abstract scalar operations, instantiated with exact reals (full claim) and with IEEE doubles (anchors exact, at least min_num-1 points per leg, refutation of min_num). nan/inf coordinates are outside the float theorem."
  },
  {
   "property": "C39",
   "status": "proved",
   "theorems": [
    "C39_length_symmetric",
    "C39_around",
    "C39_length_rounding",
    "C39_length_decimals",
    "C39_constructor",
    "C39_directional_equality",
    "C39_undirected_equality",
    "C39_never_equal",
    "C39_hash_and_equivalence",
    "C39_same_point",
    "C39_flip",
    "C39_opposite",
    "C39_undirected_raises",
    "C39_displacement",
    "C39_length",
    "C39_azimuth",
    "C39_flip_precision_refuted",
    "C39_distinct_points_refuted",
    "C39_rounding",
    "C39_shapes"
   ],
   "note": "Equality of directed/undirected bonds up to the quantised endpoints, hash, flip, oppositeTo, displacement, length, azimuth (float coordinates and int64 in the identity, displacement rounded; length and azimuth exact reals); refuted: flip after a precision change, distinct points sharing a cell, int64 overflow"
  },
  {
   "property": "C40",
   "status": "proved",
   "theorems": [
    "C40_point_shape",
    "C40_constructor",
    "C40_location",
    "C40_location_vertical",
    "C40_on_exact",
    "C40_symmetric",
    "C40_same_side",
    "C40_coordinate",
    "C40_points",
    "C40_near_horizontal_refuted",
    "C40_rounding_coordinate",
    "C40_rounding",
    "C40_rounding_flat",
    "C40_default",
    "C40_rounding_refuted",
    "C40_nan",
    "C40_rounding_points"
   ],
   "note": "Exact reals with tolerances; lines whose coordinate differences are 0 or larger than the tolerance; refuted for a line horizontal only within the tolerance"
  },
  {
   "property": "C41",
   "status": "proved",
   "theorems": [
    "C41_rounding_corner",
    "C41_rounding_boundary",
    "C41_rounding_vertical_refuted",
    "C41_rounding",
    "C41_constructor",
    "C41_answers_exclusive",
    "C41_convex_exact",
    "C41_corner",
    "C41_inside_sound",
    "C41_clear_points",
    "C41_boundary_sound",
    "C41_vertical_edge_refuted",
    "C41_nonconvex_refuted"
   ],
   "note": "Exact reals. Constructor errors, exclusivity, exactness for convex polygons with tolerance 0, soundness with tolerance, CORNER characterised for every polygon; vertical-edge and non-convex behaviour refuted by witnesses."
  },
  {
   "property": "C42",
   "status": "proved",
   "theorems": [
    "C42_rounding_apply",
    "C42_rounding_orthogonal",
    "C42_rounding_constants",
    "C42_rounding_any_axis",
    "C42_rounding_xyz",
    "C42_rounding_euler",
    "C42_rounding_spherical",
    "C42_rounding_cartesian",
    "C42_rounding_errors",
    "C42_turn",
    "C42_xyz",
    "C42_general_spherical",
    "C42_general_cartesian",
    "C42_general_near_z",
    "C42_near_z_refuted",
    "C42_general_errors",
    "C42_euler",
    "C42_orthogonal",
    "C42_axis_fixed",
    "C42_angles_add",
    "C42_degrees",
    "C42_constants_xyz",
    "C42_constants_111",
    "C42_set_threshold"
   ],
   "note": "Exact reals. Every function is shown to be the counterclockwise turn (Rodrigues) about its axis; orthogonality, determinant, fixed axis, additivity, degrees, all named constants; the threshold branch near the z axis is bounded and refuted by a witness."
  },
  {
   "property": "C43",
   "status": "proved",
   "theorems": [
    "C43_zero_vector",
    "C43_krylov_representation",
    "C43_default_threshold",
    "C43_set_threshold"
   ],
   "note": "exact arithmetic over C; square matrix and vectors of one dimension n; threshold >= 0 as set_threshold enforces; rounding, in-place dtype effects and logging not modelled"
  },
  {
   "property": "C44",
   "status": "proved",
   "theorems": [
    "C44_per_key",
    "C44_zero_vector"
   ],
   "note": "dictionary as association list in insertion order"
  },
  {
   "property": "C45",
   "status": "proved",
   "theorems": [
    "C45_exact_single_value",
    "C45_exact_single_errors",
    "C45_never_singular",
    "C45_lehmann",
    "C45_spectral_weight",
    "C45_exact_multiple",
    "C45_exact_multiple_returns",
    "C45_lanczos_multiple",
    "C45_lanczos_multiple_returns",
    "C45_rgf_single",
    "C45_rgf_exact_multiple",
    "C45_rgf_lanczos_multiple"
   ],
   "note": "exact complex arithmetic; operators are abstract keys with decidable equality and a dagger; np.linalg.solve modelled by Gaussian elimination; square shapes"
  },
  {
   "property": "C46",
   "status": "proved",
   "theorems": [
    "C46_lanczos_equals_exact",
    "C46_full_krylov_space",
    "C46_moments"
   ],
   "note": "exact arithmetic; invariance stated for the span of v0..H^(d-1)v0; moments theorem for the truncated case"
  },
  {
   "property": "C47",
   "status": "proved",
   "theorems": [
    "C47_invalid_arguments",
    "C47_permutation_repeat",
    "C47_permutation_exact",
    "C47_permutation_value",
    "C47_combination_exact",
    "C47_combination_repeat_exact",
    "C47_combination_small",
    "C47_combination_error_bound",
    "C47_combination_repeat_error_bound",
    "C47_combination_overflow",
    "C47_refuted"
   ],
   "note": "exact results characterised and proved where the quotients fit in 53 bits; correctly rounded value for Permutation in general, error bound for Combination; wrong values beyond (Combination(24,1)=23) refuted by computation"
  },
  {
   "property": "C48",
   "status": "proved",
   "theorems": [
    "C48_stdout_restored",
    "C48_logs_closed",
    "C48_behaves_like",
    "C48_log_contents",
    "C48_files_invariant",
    "C48_bad_threads",
    "C48_threads_after",
    "C48_reentrant_refuted",
    "C48_same_second_refuted",
    "C48_threads_restored_refuted"
   ],
   "note": "for every properly nested program: stdout restored, logs closed, exceptions unchanged, log contents; re-entering an active instance, two logs in the same second, and restoring the thread number are refuted"
  },
  {
   "property": "C49",
   "status": "proved",
   "theorems": [
    "C49_hex",
    "C49_component",
    "C49_strings",
    "C49_mixed",
    "C49_tuple_refused",
    "C49_wellformed",
    "C49_codes_in_range",
    "C49_invalid_rejected",
    "C49_accepts_iff_valid",
    "C49_only_ValueError",
    "C49_unknown_scheme",
    "C49_always_resets",
    "C49_ignored",
    "C49_color_print",
    "C49_refuted"
   ],
   "note": "Valid colours give a well-formed SGR sequence closed by a reset; the documented invalid ones raise ValueError; malformed hex strings such as #-1-1-1, booleans and floats as components are accepted (refutations)"
  },
  {
   "property": "C51",
   "status": "proved",
   "theorems": [
    "C51_special",
    "C51_errors",
    "C51_shape"
   ],
   "note": "Exact-real model of the cluster table; every name and alias is shown to be accepted (precision >= 1), to have the documented number of sites, pairwise inequivalent, and to tile the (possibly displaced) square, triangular or honeycomb lattice."
  },
  {
   "property": "C52",
   "status": "proved",
   "theorems": [
    "C52_BS",
    "C52_instance",
    "C52_gamma",
    "C52_square",
    "C52_hexagon_60",
    "C52_hexagon_120",
    "C52_square_constants",
    "C52_hexagon_constants",
    "C52_chain_constants",
    "C52_cubic_constants",
    "C52_other_constants"
   ],
   "note": "exact reals instead of binary64"
  },
  {
   "property": "C53",
   "status": "proved",
   "theorems": [
    "C53_sites",
    "C53_sites_errors",
    "C53_bonds",
    "C53_show",
    "C53_zone",
    "C53_bisectors"
   ],
   "note": "Exact real arithmetic; matplotlib's rendering is not modelled, the data handed to it is."
  },
  {
   "property": "C55",
   "status": "proved",
   "theorems": [
    "C55_bound",
    "C55_expansion",
    "C55_sum_rule",
    "C55_reflection",
    "C55_signs",
    "C55_retarded_causal",
    "C55_retarded_sum_rule",
    "C55_lanczos_bound",
    "C55_lanczos_error",
    "C55_lanczos_retarded_causal"
   ],
   "note": "exact complex arithmetic (np.linalg.solve as exact elimination), like C45/C46"
  },
  {
   "property": "C56",
   "status": "proved",
   "theorems": [
    "C56_heisenberg_su2",
    "C56_ising",
    "C56_sz_sectors",
    "C56_selected_charge",
    "C56_selected_sectors",
    "C56_spin_sectors",
    "C56_selection_exists",
    "C56_pairing",
    "C56_spin_flip"
   ],
   "note": "Closed under the global context; refutation example: an Ising x bond alone does not conserve the number of down spins."
  },
  {
   "property": "C54",
   "status": "proved",
   "theorems": [
    "C54_term_lines",
    "C54_swap_error",
    "C54_state_latex",
    "C54_latex_total",
    "C54_aoc_latex",
    "C54_numop_latex",
    "C54_term_latex",
    "C54_coordinate_latex",
    "C54_integer_latex",
    "C54_spin_latex",
    "C54_interaction_latex",
    "C54_repr",
    "C54_repr_equal",
    "C54_repr_evaluates",
    "C54_latex_forms",
    "C54_term_str",
    "C54_assumptions_satisfiable",
    "C54_default_hides_orbit"
   ],
   "note": "Texts of floats (repr, round) and of coefficients are parameters with stated hypotheses, met by a concrete instance; refuted for the default suppress_orbit=True."
  },
  {
   "property": "C57",
   "status": "proved",
   "theorems": [
    "C57_factories",
    "C57_sectors",
    "C57_single_basis",
    "C57_multiple",
    "C57_lanczos",
    "C57_unique",
    "C57_mode",
    "C57_ring",
    "C57_program_runs"
   ],
   "note": "Exact complex arithmetic; the eigenvector is any exact normalised eigenvector (numpy/scipy eigensolvers are not modelled); concrete two-site case given."
  },
  {
   "property": "C58",
   "status": "proved",
   "theorems": [
    "C58_ground_state",
    "C58_eigenstate",
    "C58_lehmann",
    "C58_levels",
    "C58_exact",
    "C58_sectors",
    "C58_retarded",
    "C58_fermions",
    "C58_demo",
    "C58_lanczos_full",
    "C58_lanczos_truncated_refuted"
   ],
   "note": "Complete for the exact solvers and for full Krylov spaces; positivity of the matrix of truncated Lanczos values is refuted by C58_lanczos_truncated_refuted. eigh/eigsh themselves are not modelled: existence of eigenbasis and ground state is proved, their computation is not."
  },
  {
   "property": "C59",
   "status": "proved",
   "theorems": [
    "C59_nearest",
    "C59_tight_binding",
    "C59_bloch",
    "C59_inverse",
    "C59_step",
    "C59_hopping_hermitian",
    "C59_free",
    "C59_cluster",
    "C59_cluster_lanczos",
    "C59_dictionary",
    "C59_array",
    "C59_program",
    "C59_runs"
   ],
   "note": "the Krylov spaces are full (a truncated one can give negative k-space spectra: C58_lanczos_truncated_refuted); exact arithmetic; operator objects by their equality, dagger, site and derive"
  },
  {
   "property": "C60",
   "status": "proved",
   "theorems": [
    "C60_simple_space",
    "C60_hilbert_space",
    "C60_lines",
    "C60_table_str",
    "C60_table_collision_refuted",
    "C60_bond_repr",
    "C60_cluster_names"
   ],
   "note": "float particle numbers excluded from the round trip; numpy 1.x texts of scalars; Python's float texts abstract (assumed faithful, as in C54)"
  },
  {
   "property": "C61",
   "status": "proved",
   "theorems": [
    "C61_bonds",
    "C61_nearest",
    "C61_matrix",
    "C61_no_bonds",
    "C61_ring",
    "C61_one_site_refuted",
    "C61_program",
    "C61_lanczos",
    "C61_lanczos_short_refuted",
    "C61_weights",
    "C61_uniform",
    "C61_demo",
    "C61_ferromagnet",
    "C61_spin_waves"
   ],
   "note": "eigh/eigsh not modelled: GS and GE are universally quantified; the unrestricted rotation invariance is refuted for one-site clusters (C61_one_site_refuted) and the unrestricted Lanczos agreement by C61_lanczos_short_refuted."
  },
  {
   "property": "C62",
   "status": "proved",
   "theorems": [
    "C62_show",
    "C62_show_rest",
    "C62_bz",
    "C62_bz_reduced",
    "C62_bz_scale_refuted",
    "C62_bz_skew_refuted",
    "C62_bz_errors",
    "C62_octahedron"
   ],
   "note": "The unrestricted claim that the drawn lines contain the zone boundary is refuted (C62_bz_scale_refuted, C62_bz_skew_refuted); the exact condition is proved."
  },
  {
   "property": "C63",
   "status": "proved",
   "theorems": [
    "C63_line_points",
    "C63_line",
    "C63_line_same",
    "C63_line_text",
    "C63_line_text_refuted",
    "C63_line_repr",
    "C63_line_tol_refuted",
    "C63_bond",
    "C63_bond_equal_refuted",
    "C63_lattice",
    "C63_lattice_text"
   ],
   "note": "numpy's texts of arrays and Python's text of a float are parameters; the unrestricted claims are refuted (C63_line_text_refuted, C63_line_tol_refuted, C63_bond_equal_refuted) beside the proved ones."
  }
 ]
}