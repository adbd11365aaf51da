# What `Print Assumptions` lists

Generated by `tools/assumptions.py`; 648 theorems.

## Closed under the global context

C01_retain_keeps_listed_in_order, C02_retain_match_order, C03_retain_failures, C04_append, C04_append_not_atomic, C04_extend, C04_merge, C04_merge_default_keys, C04_merge_history, C04_not_dict, C04_sum, C05_execute, C05_execute_missing, C06_pmatch_found, C06_pmatch_missing, C06_type_right_iff_undotted, C07_parse_list_join, C07_parse_list_separators, C07_parse_list_tokens, C08_concat, C08_range, C08_single, C08_step, C08_too_many, C101_band, C101_failures, C104_collisions, C104_every_name, C104_given, C104_kappa, C104_name, C104_never_the_input, C105_all, C105_columns, C105_idempotent, C105_nothing_written, C105_short_row, C106_extend, C106_missing, C106_padding, C106_raw, C106_rectangular, C10_console_collision_refuted, C10_one_handler_per_destination, C10_one_handler_per_name, C111_method_names, C113_bare, C113_default, C113_headers, C113_headers_row, C113_ragged, C113_reload, C114_file, C118_settings, C119_arguments, C119_command, C119_help, C119_unique, C11_blanks_around_colon, C11_split_without_loose_colon, C120_dimensions, C120_shape, C121_degree, C121_methods, C121_squeezed, C121_unknown, C123_all, C123_bad, C123_columns, C123_missing, C12_each_step_once, C12_ends, C12_maximal_intervals, C12_pattern, C12_refused, C132_delete, C132_dot, C132_items, C132_method, C132_missing, C132_never_attribute_error, C132_property, C132_same, C134_errors, C134_special, C134_underscores, C134_zero_sign, C135_cut, C135_cut_load, C135_extend, C135_finished, C135_left_behind, C135_old_lost, C135_reached, C135_refine, C135_removed, C135_rerun, C135_same_attempt, C135_tables, C20_vinterp_needs_kernel, C45_all_texts, C45_identifiers, C45_roundtrip, C46_names, C47_accepts, C47_association, C47_plain, C48_columns, C48_every_line, C48_line, C48_split_class, C48_split_white, C49_plain_columns_filtered_apart, C49_refused, C49_rows_stay_aligned, C50_elements, C50_every_text, C53_refused, C53_replace, C54_dict_first, C84_free_electrons, C85_construct, C85_first_offence, C85_no_mechanism, C94_reads, C94_tail_ignored, C94_variable_iff, C96_missing, C96_read_back, C96_rewritten, C98_exhaustive, C98_leading_tabs, C98_lines_exhaustive, C99_exhaustive

## `ClassicalDedekindReals.sig_forall_dec`

C103_pairs, C103_solved, C103_solved_mismatch, C107_weights, C117_result, C118_failures, C118_files, C118_quiet, C120_failure, C120_incompatible, C120_masked, C120_result, C125_solve, C125_solve_fails, C125_solve_mismatch, C125_solve_refused, C126_scattering, C135_kappa, C135_simulation, C20_array_scale, C20_mapping_matrix, C34_entries, C60_clear_recompile, C64_no_hall, C84_required, C85_scattering, C95_bad_entry, C95_built, C95_components, C95_debye, C95_ends, C95_failures, C95_loops, C95_succeeds, C95_values, C98_cta, C99_lfa, C99_not_inline

## `ClassicalDedekindReals.sig_forall_dec`, `FunctionalExtensionality.functional_extensionality_dep`

C100_dataset, C100_heat_default, C100_heat_list, C100_heat_model, C100_missing, C102_empty_types, C102_guessed, C102_missing, C102_one_type, C102_refused, C102_refused_guessed, C102_types, C102_types_needed, C103_compiled, C103_no_entry, C103_no_hall, C103_overrides, C103_uncompiled, C107_digits, C107_mean, C107_mixture, C107_unreadable, C108_again, C108_all_or_nothing, C108_bad_range, C108_linear_needs_value, C108_range, C108_result, C108_unknown_method, C110_beyond, C110_series, C112_L_is_K, C112_constant, C116_gap, C116_missing, C116_result, C116_unread, C121_failure, C121_failure_in_order, C121_in_order, C121_no_result, C121_refused, C121_result, C122_refused, C122_result, C122_single, C124_empty, C124_leg, C124_leg_refused, C124_not_combined, C124_pair, C124_pair_refused, C124_pair_simulate, C124_paired, C124_simulate, C124_simulate_best, C124_simulate_refused, C125_Kbip, C125_band, C125_multi, C125_multi_no_hall, C125_multi_refused, C125_no_hall, C125_refused, C127_kappa, C127_kappa_fails, C127_kappa_n, C127_kappa_refused, C133_numbers, C134_again, C134_collapse, C134_distinct, C134_errors_of_rounding, C134_files, C134_fixed, C134_fixed_text, C134_order, C134_reads, C134_scientific, C134_scientific_text, C134_small, C134_unique, C134_word, C135_cut_fixed, C135_cut_scientific, C135_interp, C135_interp_after_kill, C135_modelling, C13_between, C13_equal_inputs, C13_errors, C13_nothing, C13_weighted_mean, C141_classes, C15_smoothstep_values, C17_cases, C17_inside, C17_outside, C17_straight_line_data, C18_errors, C18_order_irrelevant, C18_sorted_data, C20_mapping_reproduces_data, C20_matrix_solved, C20_reproduces_data, C20_values_differ, C23_guard, C23_increasing, C24_interval, C26_power_max, C31_ends, C32_additive, C32_clamped, C32_fields, C32_grid_points, C32_positive, C34_matrix_roundtrip, C34_seq_roundtrip, C34_symmetric_part, C39_bounds, C39_equal_widths, C39_lengths, C39_order_irrelevant, C39_weights, C39_width_scaling, C39_widths_argument, C41_scan_currents, C41_scan_float_temperatures, C41_scan_integer_temperatures, C42_figure_of_merit, C46_charge, C46_concentration_mobility, C46_conductivity_resistivity, C46_missing, C46_original, C46_unequal_lengths, C50_lone_point, C50_raise_unknown, C50_reads, C50_skip_unknown, C51_exponent_lost, C51_roundtrip, C51_sign_lost, C52_natom, C52_weight_ave, C52_weight_errors, C54_dict_later, C54_fractions_sum_to_one, C54_other_refused, C54_sites, C55_automatic_names, C55_from_compounds, C55_refused, C55_scaled, C56_formula, C56_origin_style, C56_undetermined, C57_equal_sites_merged, C57_omit_one_false, C57_roundtrip, C58_romberg_weights, C60_compile_transparent, C60_getitem, C60_levels, C60_missing_argument, C60_stale_sign, C61_arguments_ignored, C61_solve, C61_solve_compiled, C62_hall, C62_mobility, C62_power_factor, C62_thermal, C64_additive, C64_compile_transparent, C64_missing_level, C64_shared_band_refuted, C64_stale_subbands, C65_compile_transparent, C65_decomposition, C65_one_kind, C66_cases, C66_guess, C67_append, C67_append_after_compile, C67_explicit_types, C67_guessed_types, C67_length_mismatch, C67_one_type, C68_extend, C68_self_extend_diverges, C70_Kstar, C73_constants, C76_outside, C77_assignment, C77_bad_constraint, C77_bad_initial, C77_existing_tag, C77_unfinished, C77_within_bounds, C78_assignment_is_shallow, C78_container_follows, C78_direct_write, C79_direct, C79_ordered_step, C79_unordered_is_stale, C79_well_founded, C80_bad_step, C80_last_evaluation_stays, C80_refused_or_empty, C81_grain_boundary, C83_exponents_si, C88_checks, C88_frequency, C88_mean_free_path, C89_gruneisen_range, C94_constant, C94_section, C94_section_fails, C94_variable, C97_area, C97_points, C98_zem

## `ClassicalDedekindReals.sig_forall_dec`, `ClassicalDedekindReals.sig_not_dec`, `FunctionalExtensionality.functional_extensionality_dep`

C109_all_or_nothing, C109_bad_columns, C109_default_fails, C109_method, C110_empty, C110_no_data, C110_used, C111_all_or_nothing, C111_bad_method, C111_missing, C111_result, C112_relations, C112_result, C114_failures, C114_given_efficiency, C114_temperatures, C115_command, C115_couple, C115_leg, C115_order, C115_rejected, C124_single_leg, C124_single_pair, C124_single_poly, C125_classes, C126_models, C126_rate, C126_rate_refused, C126_refused, C126_spectral, C126_velocities, C126_velocities_refused, C127_cumulative, C127_cumulative_refused, C127_mfp, C127_mfp_refused, C127_single_kappa, C135_cutoff, C135_engout, C135_format, C135_format_after_kill, C135_ztdev, C16_gradients, C19_kinds, C19_laws, C19_triangle, C19_values, C21_pn_symmetry, C21_profile, C21_values, C22_carnot, C23_guard_band, C23_inverse, C24_result, C25_heat, C25_outputs, C25_scaling, C27_yita_max, C28_constant_properties, C29_ZTengMax, C30_PFengMax, C33_defaults, C33_simulate_after_build, C33_weights, C35_RCRt, C35_compose, C35_identity, C35_inverse, C36_invariants, C37_axis_names, C37_axis_scaling, C37_axis_vector, C37_combined, C38_bounds, C38_projection, C38_rotated, C40_last_only, C40_raises, C40_rows, C43_constant_properties, C43_modification, C43_weights, C44_pair_is_sum, C69_kane_vs_parabolic, C70_hall_consistent, C75_kane_dos_ignores, C75_kane_line, C75_parabolic_dos, C75_symmetry, C76_linear_in_gap, C76_models, C81_nanoparticles, C81_point_defect, C82_nanoparticles, C84_nanoparticles, C86_entries, C87_first_mechanisms, C87_order, C89_gruneisen, C90_documented, C97_only_by_name, C97_rows, C97_unit, C97_unit_meaning, C97_whole

## `ClassicalDedekindReals.sig_forall_dec`, `ClassicalDedekindReals.sig_not_dec`, `Classical_Prop.classic`, `FunctionalExtensionality.functional_extensionality_dep`

C09_constants, C09_infinite_end, C09_large_starts, C09_never_terminates, C09_never_terminates_2_53, C09_terminates_exactly, C109_factor, C109_result, C125_single, C125_single_Kbip, C125_single_classes, C125_single_multi, C126_single_models, C126_single_rate, C126_single_scattering, C126_single_spectral, C127_single_cumulative, C127_single_mfp, C128_positive_definite, C128_prediction, C128_refused, C128_reproduces, C129_array, C129_array_lengths, C129_mapping, C129_vinterp, C130_bands, C130_constant, C130_converges, C131_bands, C131_branch, C131_two_counts, C133_constructor, C133_debye, C133_debye_constructor, C133_fit, C133_later, C133_mechanism, C133_stale, C133_step, C136_conductivity, C136_mobility, C136_optimum, C136_power_factor, C137_no_offset, C137_optimum, C137_shape, C138_determines, C138_level, C138_limits, C138_methods, C139_concentration, C139_conductivity, C139_levels, C140_both_kinds, C140_classes, C140_one_kind, C141_linear, C141_linear_level, C141_sign, C142_bands, C142_order, C143_heat, C143_mean, C14_fermidirac, C14_inverse, C15_smoothstep_inverse, C16_kernels, C31_ST_wrong_unless_equal, C31_polynomial_integrals, C58_every_order, C58_every_order_linear, C58_every_order_only_positive_energies, C58_every_order_positive, C58_linear, C58_only_positive_energies, C58_positive, C58_positive_sum, C59_range, C59_substitution, C59_weight_is_window, C63_positive, C63_single, C69_Eg, C69_linear_idos, C69_skb_idos, C69_spb_idos, C70_parameters, C71_parameters, C71_reduced_level, C72_keys, C72_no_temperature, C72_reproduces, C72_unconverged, C73_kane_fit, C73_lorenz, C73_lorenz_from_seebeck, C73_mobility, C73_power_factor, C73_seebeck, C74_below, C74_keys, C74_number, C75_dos_counts_states, C75_dos_is_derivative, C81_coefficients_positive, C81_dislocations, C81_stacking_faults_and_cahill, C81_three_phonon, C82_dislocations, C82_point_defect_boundary_fault, C82_three_phonon, C83_coefficient_si, C83_rate_below_limit, C83_reduction_factor, C84_zero_is_absent, C86_factor, C86_matthiessen, C87_adding_lowers, C87_kinetic_limit, C87_rises_with_temperature, C87_scaling, C89_debye_temperature, C89_mean, C89_mean_of_arrays, C90_below_pure, C90_disorder, C90_falls, C90_outside, C90_symmetric, C91_binary, C91_documented, C91_mass_disorder, C91_missing_mass, C91_multiplicities, C91_ratios, C91_refused, C91_renormalised, C91_used_as_given, C92_documented_sign, C92_entropy, C93_bipolar, C93_bipolar_documented, C93_coefficients, C93_power_law, C93_slack_documented, C93_slack_laws, C93_slack_names
