# What `Print Assumptions` lists for each theorem

Generated by `tools/gen_assumptions.py` from the built files. Every axiom is one of the standard library.

## Closed under the global context (no axioms)

215 theorems: `C01_index_table_bijection`, `C02_constructor_accepts_iff`, `C02_empty_collection`, `C02_no_other_error`, `C02_query_index_errors`, `C02_query_object_errors`, `C02_type_error_position`, `C02_value_error_position`, `C03_hash`, `C03_order`, `C03_site_constructor_rejects`, `C03_site_versus_state`, `C03_state_constructor`, `C03_transitive`, `C04_adjacent_grid_points_distinct_refuted`, `C04_cell_around_zero_refuted`, `C04_equality_is_quantised_equality`, `C04_ints_never_confused`, `C04_large_integers_refuted`, `C04_nearby_coordinates_same_site_refuted`, `C04_precision`, `C05_creators_first`, `C05_total_order`, `C05_transitive`, `C06_conjugate_of`, `C06_dagger_involution`, `C06_dagger_reverses_order`, `C06_derive`, `C06_derive_nothing`, `C06_derive_number`, `C06_precision_change_refuted`, `C06_same_state`, `C07_constructor`, `C07_equality`, `C07_number_operator`, `C07_number_order`, `C08_foreign_operand`, `C08_full_space_matrix_exists`, `C08_product_matrix`, `C08_product_of_numbers`, `C08_product_structure`, `C09_dagger_aoc`, `C09_dagger_full_space`, `C09_dagger_matrix`, `C09_dagger_number`, `C09_dagger_of_term`, `C10_failure`, `C10_normal_ordered_permutation`, `C10_same_operator`, `C11_idempotent`, `C11_stable`, `C11_swap_count`, `C12_CPFactory`, `C12_CoulombFactory`, `C12_HoppingFactory`, `C12_HubbardFactory`, `C12_PairingFactory`, `C12_check_compatibility`, `C12_classification_sound`, `C12_constructor`, `C12_errors`, `C12_ladder_factories`, `C13_coulomb_is_general`, `C13_coulomb_left_bases_refuted`, `C13_hopping_equal_states_refuted`, `C13_hopping_is_general`, `C13_number_is_general`, `C13_number_left_bases_refuted`, `C14_anticommutation`, `C15_base_vectors`, `C15_charge_conserved`, `C15_full_space`, `C15_sector_to_sector`, `C16_coordinate_form`, `C16_zero_coefficient_refuted`, `C17_coefficient_persists`, `C17_each_call`, `C17_scaled_by_coefficient`, `C17_spin_coefficient_persists`, `C17_spin_each_call`, `C17_spin_scaled`, `C18_failures`, `C18_general_matrix_elements`, `C18_one_entry_per_column`, `C19_base_vectors`, `C19_full_space`, `C19_sector`, `C19_unsorted`, `C20_container`, `C20_hilbert_space`, `C20_simple_int`, `C20_simple_space`, `C21_accepted`, `C21_float_number_refuted`, `C21_overlap`, `C21_rejected`, `C21_repeated_states_refuted`, `C21_simple_space`, `C22_array_exact`, `C22_below_64`, `C23_constructor`, `C23_matrix_function`, `C23_matrix_function_errors`, `C23_matrix_repr`, `C24_algebra`, `C24_dagger`, `C24_different_sites_commute`, `C24_predicates`, `C25_matrix_function`, `C25_out_of_range`, `C25_product_of_matrices`, `C25_rejects`, `C26_constructor`, `C26_constructor_matrix`, `C26_dagger_involution`, `C26_dagger_matrix`, `C26_foreign_operand`, `C26_product`, `C27_full_space`, `C27_interaction`, `C27_operator`, `C27_operator_terms`, `C27_sign_needed`, `C27_site_ordered_table`, `C28_errors`, `C28_heisenberg`, `C28_ising`, `C28_rejects`, `C28_two_spin`, `C29_algebra`, `C29_rejects`, `C29_total_spin`, `C35_precision`, `C38_default_refuted`, `C38_errors`, `C38_min_num_refuted`, `C39_distinct_points_refuted`, `C39_flip`, `C39_flip_precision_refuted`, `C39_hash_and_equivalence`, `C39_length_symmetric`, `C39_never_equal`, `C39_shapes`, `C40_nan`, `C47_invalid_arguments`, `C47_permutation_repeat`, `C47_refuted`, `C48_bad_threads`, `C48_behaves_like`, `C48_files_invariant`, `C48_log_contents`, `C48_logs_closed`, `C48_reentrant_refuted`, `C48_same_second_refuted`, `C48_stdout_restored`, `C48_threads_after`, `C48_threads_restored_refuted`, `C49_accepts_iff_valid`, `C49_always_resets`, `C49_codes_in_range`, `C49_color_print`, `C49_component`, `C49_hex`, `C49_ignored`, `C49_invalid_rejected`, `C49_mixed`, `C49_only_ValueError`, `C49_refuted`, `C49_strings`, `C49_tuple_refused`, `C49_unknown_scheme`, `C49_wellformed`, `C50_order`, `C50_transitive`, `C54_aoc_latex`, `C54_assumptions_satisfiable`, `C54_coordinate_latex`, `C54_default_hides_orbit`, `C54_integer_latex`, `C54_interaction_latex`, `C54_latex_forms`, `C54_latex_total`, `C54_numop_latex`, `C54_repr`, `C54_repr_equal`, `C54_repr_evaluates`, `C54_spin_latex`, `C54_state_latex`, `C54_swap_error`, `C54_term_latex`, `C54_term_lines`, `C54_term_str`, `C56_heisenberg_su2`, `C56_ising`, `C56_pairing`, `C56_selected_charge`, `C56_selected_sectors`, `C56_selection_exists`, `C56_spin_flip`, `C56_spin_sectors`, `C56_sz_sectors`, `C57_factories`, `C57_program_runs`, `C60_bond_repr`, `C60_hilbert_space`, `C60_lines`, `C60_simple_space`, `C60_table_collision_refuted`, `C60_table_str`, `C61_no_bonds`, `C61_one_site_refuted`, `C63_lattice`, `C63_lattice_text`, `C63_line_points`, `C63_line_repr`

## `ClassicalDedekindReals.sig_forall_dec`

1 theorems: `C59_array`

## `ClassicalDedekindReals.sig_forall_dec`, `FunctionalExtensionality.functional_extensionality_dep`

41 theorems: `C30_columns`, `C30_eigenvector`, `C30_expectation_value`, `C30_hermitian_real`, `C30_linear`, `C30_shape_mismatch`, `C30_weights`, `C30_zero_ket_is_nan`, `C40_constructor`, `C40_coordinate`, `C40_location`, `C40_location_vertical`, `C40_near_horizontal_refuted`, `C40_on_exact`, `C40_point_shape`, `C40_points`, `C40_rounding_refuted`, `C40_same_side`, `C40_symmetric`, `C41_answers_exclusive`, `C41_rounding_vertical_refuted`, `C42_rounding_orthogonal`, `C42_set_threshold`, `C43_set_threshold`, `C45_exact_multiple`, `C45_exact_multiple_returns`, `C45_lanczos_multiple`, `C45_lanczos_multiple_returns`, `C45_never_singular`, `C45_rgf_exact_multiple`, `C45_rgf_lanczos_multiple`, `C45_rgf_single`, `C57_unique`, `C58_levels`, `C59_dictionary`, `C62_show_rest`, `C63_line`, `C63_line_same`, `C63_line_text`, `C63_line_text_refuted`, `C63_line_tol_refuted`

## `ClassicalDedekindReals.sig_forall_dec`, `ClassicalDedekindReals.sig_not_dec`, `FunctionalExtensionality.functional_extensionality_dep`

113 theorems: `C30_consistent`, `C30_scale_invariant`, `C30_total_spin_averages`, `C30_total_spin_columns`, `C30_total_spin_real`, `C31_dual`, `C32_answers`, `C32_fold`, `C32_inverse`, `C33_no_vectors`, `C33_sound`, `C34_inexact_small`, `C34_small`, `C35_chain`, `C35_products`, `C35_recomputed`, `C35_single`, `C35_sound`, `C35_total`, `C35_wide`, `C36_bonds`, `C36_exact`, `C36_history`, `C36_nice`, `C36_onsite`, `C37_cells`, `C37_errors`, `C37_nearest_default`, `C38_density`, `C38_identical`, `C38_kpath`, `C41_boundary_sound`, `C41_clear_points`, `C41_constructor`, `C41_convex_exact`, `C41_corner`, `C41_inside_sound`, `C41_nonconvex_refuted`, `C41_vertical_edge_refuted`, `C42_angles_add`, `C42_axis_fixed`, `C42_constants_111`, `C42_constants_xyz`, `C42_degrees`, `C42_euler`, `C42_general_cartesian`, `C42_general_errors`, `C42_general_near_z`, `C42_general_spherical`, `C42_near_z_refuted`, `C42_orthogonal`, `C42_rounding_apply`, `C42_turn`, `C42_xyz`, `C43_default_threshold`, `C43_krylov_representation`, `C43_zero_vector`, `C44_per_key`, `C44_zero_vector`, `C45_exact_single_errors`, `C45_exact_single_value`, `C45_lehmann`, `C45_spectral_weight`, `C46_full_krylov_space`, `C46_lanczos_equals_exact`, `C46_moments`, `C51_errors`, `C52_BS`, `C52_chain_constants`, `C52_cubic_constants`, `C52_gamma`, `C52_hexagon_120`, `C52_hexagon_60`, `C52_hexagon_constants`, `C52_instance`, `C52_other_constants`, `C52_square`, `C52_square_constants`, `C53_bisectors`, `C53_bonds`, `C53_show`, `C53_sites`, `C53_sites_errors`, `C53_zone`, `C55_bound`, `C55_expansion`, `C55_lanczos_bound`, `C55_lanczos_error`, `C55_lanczos_retarded_causal`, `C55_reflection`, `C55_retarded_causal`, `C55_retarded_sum_rule`, `C55_signs`, `C55_sum_rule`, `C57_lanczos`, `C57_mode`, `C57_multiple`, `C57_ring`, `C57_sectors`, `C57_single_basis`, `C58_lanczos_truncated_refuted`, `C59_free`, `C59_hopping_hermitian`, `C59_inverse`, `C60_cluster_names`, `C61_ferromagnet`, `C61_lanczos_short_refuted`, `C61_uniform`, `C62_bz`, `C62_bz_errors`, `C62_bz_reduced`, `C62_bz_skew_refuted`, `C62_octahedron`

## `ClassicalDedekindReals.sig_forall_dec`, `ClassicalDedekindReals.sig_not_dec`, `Classical_Prop.classic`, `FunctionalExtensionality.functional_extensionality_dep`

118 theorems: `C04_cell`, `C04_cell_any_precision`, `C04_integer_coordinates`, `C04_mathematical_cell`, `C04_one_step_apart`, `C04_quantisation_monotone`, `C04_separated_coordinates_distinct`, `C04_total`, `C31_constructor`, `C32_fold_inexact`, `C32_fold_translated`, `C33_total`, `C34_equivalent_refuted`, `C34_inexact`, `C34_inexact_refuted`, `C34_orthogonal`, `C34_reduced`, `C34_skewed_refuted`, `C34_steady`, `C35_cluster_refuted`, `C35_history_refuted`, `C35_perturbed`, `C35_tiny_refuted`, `C36_chain`, `C36_nearest`, `C36_nearest_lowered`, `C36_rounding_refuted`, `C36_total`, `C36_unstable`, `C37_bonds`, `C37_cached`, `C37_chain`, `C37_decompose`, `C37_distance_refuted`, `C37_distances`, `C37_exact`, `C37_far`, `C37_generator`, `C37_large`, `C37_nearest`, `C37_nearest_refuted`, `C37_nice`, `C37_precision_refuted`, `C37_second`, `C37_spacing`, `C37_square`, `C37_suitable`, `C37_third_refuted`, `C38_float`, `C38_rounding`, `C39_around`, `C39_azimuth`, `C39_constructor`, `C39_directional_equality`, `C39_displacement`, `C39_length`, `C39_length_decimals`, `C39_length_rounding`, `C39_opposite`, `C39_rounding`, `C39_same_point`, `C39_undirected_equality`, `C39_undirected_raises`, `C40_default`, `C40_rounding`, `C40_rounding_coordinate`, `C40_rounding_flat`, `C40_rounding_points`, `C41_rounding`, `C41_rounding_boundary`, `C41_rounding_corner`, `C42_rounding_any_axis`, `C42_rounding_cartesian`, `C42_rounding_constants`, `C42_rounding_errors`, `C42_rounding_euler`, `C42_rounding_spherical`, `C42_rounding_xyz`, `C47_combination_error_bound`, `C47_combination_exact`, `C47_combination_overflow`, `C47_combination_repeat_error_bound`, `C47_combination_repeat_exact`, `C47_combination_small`, `C47_permutation_exact`, `C47_permutation_value`, `C51_shape`, `C51_special`, `C58_demo`, `C58_eigenstate`, `C58_exact`, `C58_fermions`, `C58_ground_state`, `C58_lanczos_full`, `C58_lehmann`, `C58_retarded`, `C58_sectors`, `C59_bloch`, `C59_cluster`, `C59_cluster_lanczos`, `C59_nearest`, `C59_program`, `C59_runs`, `C59_step`, `C59_tight_binding`, `C61_bonds`, `C61_demo`, `C61_lanczos`, `C61_matrix`, `C61_nearest`, `C61_program`, `C61_ring`, `C61_spin_waves`, `C61_weights`, `C62_bz_scale_refuted`, `C62_show`, `C63_bond`, `C63_bond_equal_refuted`
