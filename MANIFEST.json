{
 "claims": [
  {
   "property": "C01",
   "status": "proved",
   "theorems": [
    "C01_retain_keeps_listed_in_order"
   ],
   "note": ""
  },
  {
   "property": "C02",
   "status": "proved",
   "theorems": [
    "C02_retain_match_order"
   ],
   "note": ""
  },
  {
   "property": "C03",
   "status": "proved",
   "theorems": [
    "C03_retain_failures"
   ],
   "note": ""
  },
  {
   "property": "C04",
   "status": "proved",
   "theorems": [
    "C04_merge",
    "C04_merge_default_keys",
    "C04_append",
    "C04_extend",
    "C04_append_not_atomic",
    "C04_merge_history",
    "C04_sum",
    "C04_not_dict"
   ],
   "note": ""
  },
  {
   "property": "C05",
   "status": "proved",
   "theorems": [
    "C05_execute",
    "C05_execute_missing"
   ],
   "note": ""
  },
  {
   "property": "C06",
   "status": "proved",
   "theorems": [
    "C06_pmatch_found",
    "C06_pmatch_missing",
    "C06_type_right_iff_undotted"
   ],
   "note": ""
  },
  {
   "property": "C07",
   "status": "proved",
   "theorems": [
    "C07_parse_list_tokens",
    "C07_parse_list_join",
    "C07_parse_list_separators"
   ],
   "note": ""
  },
  {
   "property": "C08",
   "status": "proved",
   "theorems": [
    "C08_range",
    "C08_step",
    "C08_too_many",
    "C08_single",
    "C08_concat"
   ],
   "note": ""
  },
  {
   "property": "C09",
   "status": "proved",
   "theorems": [
    "C09_constants",
    "C09_terminates_exactly",
    "C09_large_starts",
    "C09_infinite_end",
    "C09_never_terminates",
    "C09_never_terminates_2_53"
   ],
   "note": ""
  },
  {
   "property": "C10",
   "status": "proved",
   "theorems": [
    "C10_one_handler_per_name",
    "C10_one_handler_per_destination",
    "C10_console_collision_refuted"
   ],
   "note": ""
  },
  {
   "property": "C11",
   "status": "proved",
   "theorems": [
    "C11_blanks_around_colon",
    "C11_split_without_loose_colon"
   ],
   "note": ""
  },
  {
   "property": "C12",
   "status": "proved",
   "theorems": [
    "C12_maximal_intervals",
    "C12_each_step_once",
    "C12_ends",
    "C12_refused",
    "C12_pattern"
   ],
   "note": ""
  },
  {
   "property": "C13",
   "status": "proved",
   "theorems": [
    "C13_weighted_mean",
    "C13_between",
    "C13_equal_inputs",
    "C13_errors",
    "C13_nothing"
   ],
   "note": ""
  },
  {
   "property": "C14",
   "status": "proved",
   "theorems": [
    "C14_fermidirac",
    "C14_inverse"
   ],
   "note": ""
  },
  {
   "property": "C15",
   "status": "proved",
   "theorems": [
    "C15_smoothstep_values",
    "C15_smoothstep_inverse"
   ],
   "note": ""
  },
  {
   "property": "C16",
   "status": "proved",
   "theorems": [
    "C16_kernels",
    "C16_gradients"
   ],
   "note": ""
  },
  {
   "property": "C17",
   "status": "proved",
   "theorems": [
    "C17_inside",
    "C17_outside",
    "C17_straight_line_data",
    "C17_cases"
   ],
   "note": ""
  },
  {
   "property": "C18",
   "status": "proved",
   "theorems": [
    "C18_order_irrelevant",
    "C18_errors",
    "C18_sorted_data"
   ],
   "note": ""
  },
  {
   "property": "C19",
   "status": "proved",
   "theorems": [
    "C19_values",
    "C19_laws",
    "C19_triangle",
    "C19_kinds"
   ],
   "note": ""
  },
  {
   "property": "C20",
   "status": "proved",
   "theorems": [
    "C20_reproduces_data",
    "C20_mapping_reproduces_data",
    "C20_matrix_solved",
    "C20_mapping_matrix",
    "C20_values_differ",
    "C20_vinterp_needs_kernel",
    "C20_array_scale"
   ],
   "note": ""
  },
  {
   "property": "C21",
   "status": "proved",
   "theorems": [
    "C21_profile",
    "C21_values",
    "C21_pn_symmetry"
   ],
   "note": ""
  },
  {
   "property": "C22",
   "status": "proved",
   "theorems": [
    "C22_carnot"
   ],
   "note": ""
  },
  {
   "property": "C23",
   "status": "proved",
   "theorems": [
    "C23_inverse",
    "C23_guard",
    "C23_increasing",
    "C23_guard_band"
   ],
   "note": ""
  },
  {
   "property": "C24",
   "status": "proved",
   "theorems": [
    "C24_interval",
    "C24_result"
   ],
   "note": ""
  },
  {
   "property": "C25",
   "status": "proved",
   "theorems": [
    "C25_outputs",
    "C25_scaling",
    "C25_heat"
   ],
   "note": ""
  },
  {
   "property": "C26",
   "status": "proved",
   "theorems": [
    "C26_power_max"
   ],
   "note": ""
  },
  {
   "property": "C27",
   "status": "proved",
   "theorems": [
    "C27_yita_max"
   ],
   "note": ""
  },
  {
   "property": "C28",
   "status": "proved",
   "theorems": [
    "C28_constant_properties"
   ],
   "note": ""
  },
  {
   "property": "C29",
   "status": "proved",
   "theorems": [
    "C29_ZTengMax"
   ],
   "note": ""
  },
  {
   "property": "C30",
   "status": "proved",
   "theorems": [
    "C30_PFengMax"
   ],
   "note": ""
  },
  {
   "property": "C31",
   "status": "proved",
   "theorems": [
    "C31_polynomial_integrals",
    "C31_ST_wrong_unless_equal",
    "C31_ends"
   ],
   "note": ""
  },
  {
   "property": "C32",
   "status": "proved",
   "theorems": [
    "C32_grid_points",
    "C32_additive",
    "C32_positive",
    "C32_clamped",
    "C32_fields"
   ],
   "note": ""
  },
  {
   "property": "C33",
   "status": "proved",
   "theorems": [
    "C33_simulate_after_build",
    "C33_weights",
    "C33_defaults"
   ],
   "note": ""
  },
  {
   "property": "C34",
   "status": "proved",
   "theorems": [
    "C34_seq_roundtrip",
    "C34_matrix_roundtrip",
    "C34_symmetric_part",
    "C34_entries"
   ],
   "note": ""
  },
  {
   "property": "C35",
   "status": "proved",
   "theorems": [
    "C35_RCRt",
    "C35_compose",
    "C35_identity",
    "C35_inverse"
   ],
   "note": ""
  },
  {
   "property": "C36",
   "status": "proved",
   "theorems": [
    "C36_invariants"
   ],
   "note": ""
  },
  {
   "property": "C37",
   "status": "proved",
   "theorems": [
    "C37_axis_vector",
    "C37_axis_scaling",
    "C37_axis_names",
    "C37_combined"
   ],
   "note": ""
  },
  {
   "property": "C38",
   "status": "proved",
   "theorems": [
    "C38_projection",
    "C38_rotated",
    "C38_bounds"
   ],
   "note": ""
  },
  {
   "property": "C39",
   "status": "proved",
   "theorems": [
    "C39_bounds",
    "C39_order_irrelevant",
    "C39_width_scaling",
    "C39_weights",
    "C39_widths_argument",
    "C39_equal_widths",
    "C39_lengths"
   ],
   "note": ""
  },
  {
   "property": "C40",
   "status": "proved",
   "theorems": [
    "C40_rows",
    "C40_last_only",
    "C40_raises"
   ],
   "note": ""
  },
  {
   "property": "C41",
   "status": "proved",
   "theorems": [
    "C41_scan_float_temperatures",
    "C41_scan_integer_temperatures",
    "C41_scan_currents"
   ],
   "note": ""
  },
  {
   "property": "C42",
   "status": "proved",
   "theorems": [
    "C42_figure_of_merit"
   ],
   "note": ""
  },
  {
   "property": "C43",
   "status": "proved",
   "theorems": [
    "C43_modification",
    "C43_weights",
    "C43_constant_properties"
   ],
   "note": ""
  },
  {
   "property": "C44",
   "status": "proved",
   "theorems": [
    "C44_pair_is_sum"
   ],
   "note": ""
  },
  {
   "property": "C45",
   "status": "proved",
   "theorems": [
    "C45_identifiers",
    "C45_all_texts",
    "C45_roundtrip"
   ],
   "note": ""
  },
  {
   "property": "C46",
   "status": "proved",
   "theorems": [
    "C46_names",
    "C46_charge",
    "C46_original",
    "C46_conductivity_resistivity",
    "C46_concentration_mobility",
    "C46_missing",
    "C46_unequal_lengths"
   ],
   "note": ""
  },
  {
   "property": "C47",
   "status": "proved",
   "theorems": [
    "C47_accepts",
    "C47_association",
    "C47_plain"
   ],
   "note": ""
  },
  {
   "property": "C48",
   "status": "proved",
   "theorems": [
    "C48_line",
    "C48_every_line",
    "C48_split_white",
    "C48_split_class",
    "C48_columns"
   ],
   "note": ""
  },
  {
   "property": "C49",
   "status": "proved",
   "theorems": [
    "C49_plain_columns_filtered_apart",
    "C49_rows_stay_aligned",
    "C49_refused"
   ],
   "note": ""
  },
  {
   "property": "C50",
   "status": "proved",
   "theorems": [
    "C50_reads",
    "C50_every_text",
    "C50_lone_point",
    "C50_elements",
    "C50_raise_unknown",
    "C50_skip_unknown"
   ],
   "note": ""
  },
  {
   "property": "C51",
   "status": "proved",
   "theorems": [
    "C51_roundtrip",
    "C51_exponent_lost",
    "C51_sign_lost"
   ],
   "note": ""
  },
  {
   "property": "C52",
   "status": "proved",
   "theorems": [
    "C52_natom",
    "C52_weight_ave",
    "C52_weight_errors"
   ],
   "note": ""
  },
  {
   "property": "C53",
   "status": "proved",
   "theorems": [
    "C53_replace",
    "C53_refused"
   ],
   "note": ""
  },
  {
   "property": "C54",
   "status": "proved",
   "theorems": [
    "C54_sites",
    "C54_fractions_sum_to_one",
    "C54_dict_first",
    "C54_dict_later",
    "C54_other_refused"
   ],
   "note": ""
  },
  {
   "property": "C55",
   "status": "proved",
   "theorems": [
    "C55_from_compounds",
    "C55_scaled",
    "C55_automatic_names",
    "C55_refused"
   ],
   "note": ""
  },
  {
   "property": "C56",
   "status": "proved",
   "theorems": [
    "C56_formula",
    "C56_undetermined",
    "C56_origin_style"
   ],
   "note": ""
  },
  {
   "property": "C57",
   "status": "proved",
   "theorems": [
    "C57_roundtrip",
    "C57_omit_one_false",
    "C57_equal_sites_merged"
   ],
   "note": ""
  },
  {
   "property": "C58",
   "status": "proved",
   "theorems": [
    "C58_positive_sum",
    "C58_linear",
    "C58_only_positive_energies",
    "C58_positive",
    "C58_every_order",
    "C58_every_order_linear",
    "C58_every_order_only_positive_energies",
    "C58_every_order_positive",
    "C58_romberg_weights"
   ],
   "note": ""
  },
  {
   "property": "C59",
   "status": "proved",
   "theorems": [
    "C59_weight_is_window",
    "C59_substitution",
    "C59_range"
   ],
   "note": ""
  },
  {
   "property": "C60",
   "status": "proved",
   "theorems": [
    "C60_compile_transparent",
    "C60_levels",
    "C60_getitem",
    "C60_missing_argument",
    "C60_clear_recompile",
    "C60_stale_sign"
   ],
   "note": ""
  },
  {
   "property": "C61",
   "status": "proved",
   "theorems": [
    "C61_arguments_ignored",
    "C61_solve_compiled",
    "C61_solve"
   ],
   "note": ""
  },
  {
   "property": "C62",
   "status": "proved",
   "theorems": [
    "C62_power_factor",
    "C62_thermal",
    "C62_mobility",
    "C62_hall"
   ],
   "note": ""
  },
  {
   "property": "C63",
   "status": "proved",
   "theorems": [
    "C63_positive",
    "C63_single"
   ],
   "note": ""
  },
  {
   "property": "C64",
   "status": "proved",
   "theorems": [
    "C64_additive",
    "C64_compile_transparent",
    "C64_shared_band_refuted",
    "C64_stale_subbands",
    "C64_missing_level",
    "C64_no_hall"
   ],
   "note": ""
  },
  {
   "property": "C65",
   "status": "proved",
   "theorems": [
    "C65_decomposition",
    "C65_one_kind",
    "C65_compile_transparent"
   ],
   "note": ""
  },
  {
   "property": "C66",
   "status": "proved",
   "theorems": [
    "C66_guess",
    "C66_cases"
   ],
   "note": ""
  },
  {
   "property": "C67",
   "status": "proved",
   "theorems": [
    "C67_append",
    "C67_explicit_types",
    "C67_one_type",
    "C67_guessed_types",
    "C67_length_mismatch",
    "C67_append_after_compile"
   ],
   "note": ""
  },
  {
   "property": "C68",
   "status": "proved",
   "theorems": [
    "C68_extend",
    "C68_self_extend_diverges"
   ],
   "note": ""
  },
  {
   "property": "C69",
   "status": "proved",
   "theorems": [
    "C69_spb_idos",
    "C69_skb_idos",
    "C69_linear_idos",
    "C69_kane_vs_parabolic",
    "C69_Eg"
   ],
   "note": ""
  },
  {
   "property": "C70",
   "status": "proved",
   "theorems": [
    "C70_hall_consistent",
    "C70_Kstar",
    "C70_parameters"
   ],
   "note": ""
  },
  {
   "property": "C71",
   "status": "proved",
   "theorems": [
    "C71_parameters",
    "C71_reduced_level"
   ],
   "note": ""
  },
  {
   "property": "C72",
   "status": "proved",
   "theorems": [
    "C72_reproduces",
    "C72_keys",
    "C72_no_temperature",
    "C72_unconverged"
   ],
   "note": ""
  },
  {
   "property": "C73",
   "status": "proved",
   "theorems": [
    "C73_seebeck",
    "C73_mobility",
    "C73_lorenz",
    "C73_lorenz_from_seebeck",
    "C73_kane_fit",
    "C73_power_factor",
    "C73_constants"
   ],
   "note": ""
  },
  {
   "property": "C74",
   "status": "proved",
   "theorems": [
    "C74_number",
    "C74_below",
    "C74_keys"
   ],
   "note": ""
  },
  {
   "property": "C75",
   "status": "proved",
   "theorems": [
    "C75_kane_line",
    "C75_symmetry",
    "C75_parabolic_dos",
    "C75_kane_dos_ignores",
    "C75_dos_is_derivative",
    "C75_dos_counts_states"
   ],
   "note": ""
  },
  {
   "property": "C76",
   "status": "proved",
   "theorems": [
    "C76_outside",
    "C76_models",
    "C76_linear_in_gap"
   ],
   "note": ""
  },
  {
   "property": "C77",
   "status": "proved",
   "theorems": [
    "C77_within_bounds",
    "C77_assignment",
    "C77_existing_tag",
    "C77_bad_initial",
    "C77_unfinished",
    "C77_bad_constraint"
   ],
   "note": ""
  },
  {
   "property": "C78",
   "status": "proved",
   "theorems": [
    "C78_container_follows",
    "C78_assignment_is_shallow",
    "C78_direct_write"
   ],
   "note": ""
  },
  {
   "property": "C79",
   "status": "proved",
   "theorems": [
    "C79_well_founded",
    "C79_direct",
    "C79_ordered_step",
    "C79_unordered_is_stale"
   ],
   "note": ""
  },
  {
   "property": "C80",
   "status": "proved",
   "theorems": [
    "C80_last_evaluation_stays",
    "C80_refused_or_empty",
    "C80_bad_step"
   ],
   "note": ""
  },
  {
   "property": "C81",
   "status": "proved",
   "theorems": [
    "C81_three_phonon",
    "C81_coefficients_positive",
    "C81_point_defect",
    "C81_grain_boundary",
    "C81_nanoparticles",
    "C81_dislocations",
    "C81_stacking_faults_and_cahill"
   ],
   "note": ""
  },
  {
   "property": "C82",
   "status": "proved",
   "theorems": [
    "C82_three_phonon",
    "C82_point_defect_boundary_fault",
    "C82_dislocations",
    "C82_nanoparticles"
   ],
   "note": ""
  },
  {
   "property": "C83",
   "status": "proved",
   "theorems": [
    "C83_reduction_factor",
    "C83_rate_below_limit",
    "C83_coefficient_si",
    "C83_exponents_si"
   ],
   "note": ""
  },
  {
   "property": "C84",
   "status": "proved",
   "theorems": [
    "C84_required",
    "C84_nanoparticles",
    "C84_free_electrons",
    "C84_zero_is_absent"
   ],
   "note": ""
  },
  {
   "property": "C85",
   "status": "proved",
   "theorems": [
    "C85_construct",
    "C85_first_offence",
    "C85_no_mechanism",
    "C85_scattering"
   ],
   "note": ""
  },
  {
   "property": "C86",
   "status": "proved",
   "theorems": [
    "C86_entries",
    "C86_factor",
    "C86_matthiessen"
   ],
   "note": ""
  },
  {
   "property": "C87",
   "status": "proved",
   "theorems": [
    "C87_adding_lowers",
    "C87_first_mechanisms",
    "C87_order",
    "C87_scaling",
    "C87_rises_with_temperature",
    "C87_kinetic_limit"
   ],
   "note": ""
  },
  {
   "property": "C88",
   "status": "proved",
   "theorems": [
    "C88_frequency",
    "C88_mean_free_path",
    "C88_checks"
   ],
   "note": ""
  },
  {
   "property": "C89",
   "status": "proved",
   "theorems": [
    "C89_debye_temperature",
    "C89_gruneisen",
    "C89_gruneisen_range",
    "C89_mean",
    "C89_mean_of_arrays"
   ],
   "note": ""
  },
  {
   "property": "C90",
   "status": "proved",
   "theorems": [
    "C90_documented",
    "C90_below_pure",
    "C90_symmetric",
    "C90_outside",
    "C90_falls",
    "C90_disorder"
   ],
   "note": ""
  },
  {
   "property": "C91",
   "status": "proved",
   "theorems": [
    "C91_documented",
    "C91_renormalised",
    "C91_used_as_given",
    "C91_multiplicities",
    "C91_mass_disorder",
    "C91_ratios",
    "C91_binary",
    "C91_refused",
    "C91_missing_mass"
   ],
   "note": ""
  },
  {
   "property": "C92",
   "status": "proved",
   "theorems": [
    "C92_entropy",
    "C92_documented_sign"
   ],
   "note": ""
  },
  {
   "property": "C93",
   "status": "proved",
   "theorems": [
    "C93_slack_documented",
    "C93_slack_names",
    "C93_coefficients",
    "C93_slack_laws",
    "C93_bipolar",
    "C93_bipolar_documented",
    "C93_power_law"
   ],
   "note": ""
  },
  {
   "property": "C94",
   "status": "proved",
   "theorems": [
    "C94_reads",
    "C94_tail_ignored",
    "C94_variable_iff",
    "C94_variable",
    "C94_constant",
    "C94_section",
    "C94_section_fails"
   ],
   "note": ""
  },
  {
   "property": "C95",
   "status": "proved",
   "theorems": [
    "C95_built",
    "C95_values",
    "C95_components",
    "C95_failures",
    "C95_bad_entry",
    "C95_succeeds",
    "C95_debye",
    "C95_ends",
    "C95_loops"
   ],
   "note": ""
  },
  {
   "property": "C96",
   "status": "proved",
   "theorems": [
    "C96_rewritten",
    "C96_missing",
    "C96_read_back"
   ],
   "note": ""
  },
  {
   "property": "C97",
   "status": "proved",
   "theorems": [
    "C97_points",
    "C97_rows",
    "C97_only_by_name",
    "C97_whole",
    "C97_unit",
    "C97_unit_meaning",
    "C97_area"
   ],
   "note": ""
  },
  {
   "property": "C98",
   "status": "proved",
   "theorems": [
    "C98_cta",
    "C98_zem",
    "C98_exhaustive",
    "C98_lines_exhaustive",
    "C98_leading_tabs"
   ],
   "note": ""
  },
  {
   "property": "C99",
   "status": "proved",
   "theorems": [
    "C99_lfa",
    "C99_exhaustive",
    "C99_not_inline"
   ],
   "note": ""
  },
  {
   "property": "C100",
   "status": "proved",
   "theorems": [
    "C100_heat_default",
    "C100_heat_model",
    "C100_heat_list",
    "C100_dataset",
    "C100_missing"
   ],
   "note": ""
  },
  {
   "property": "C101",
   "status": "proved",
   "theorems": [
    "C101_band",
    "C101_failures"
   ],
   "note": ""
  },
  {
   "property": "C102",
   "status": "proved",
   "theorems": [
    "C102_missing",
    "C102_types_needed",
    "C102_one_type",
    "C102_types",
    "C102_empty_types",
    "C102_guessed",
    "C102_refused",
    "C102_refused_guessed"
   ],
   "note": ""
  },
  {
   "property": "C103",
   "status": "proved",
   "theorems": [
    "C103_overrides",
    "C103_no_entry",
    "C103_uncompiled",
    "C103_pairs",
    "C103_solved",
    "C103_solved_mismatch",
    "C103_compiled",
    "C103_no_hall"
   ],
   "note": ""
  },
  {
   "property": "C104",
   "status": "proved",
   "theorems": [
    "C104_given",
    "C104_name",
    "C104_every_name",
    "C104_never_the_input",
    "C104_collisions",
    "C104_kappa"
   ],
   "note": ""
  },
  {
   "property": "C105",
   "status": "proved",
   "theorems": [
    "C105_all",
    "C105_idempotent",
    "C105_columns",
    "C105_short_row",
    "C105_nothing_written"
   ],
   "note": ""
  },
  {
   "property": "C106",
   "status": "proved",
   "theorems": [
    "C106_missing",
    "C106_extend",
    "C106_raw",
    "C106_padding",
    "C106_rectangular"
   ],
   "note": ""
  },
  {
   "property": "C107",
   "status": "proved",
   "theorems": [
    "C107_weights",
    "C107_unreadable",
    "C107_mixture",
    "C107_mean",
    "C107_digits"
   ],
   "note": ""
  },
  {
   "property": "C108",
   "status": "proved",
   "theorems": [
    "C108_result",
    "C108_all_or_nothing",
    "C108_linear_needs_value",
    "C108_unknown_method",
    "C108_range",
    "C108_bad_range",
    "C108_again"
   ],
   "note": ""
  },
  {
   "property": "C109",
   "status": "proved",
   "theorems": [
    "C109_result",
    "C109_all_or_nothing",
    "C109_method",
    "C109_default_fails",
    "C109_factor",
    "C109_bad_columns"
   ],
   "note": ""
  },
  {
   "property": "C110",
   "status": "proved",
   "theorems": [
    "C110_series",
    "C110_beyond",
    "C110_empty",
    "C110_used",
    "C110_no_data"
   ],
   "note": ""
  },
  {
   "property": "C111",
   "status": "proved",
   "theorems": [
    "C111_result",
    "C111_all_or_nothing",
    "C111_bad_method",
    "C111_method_names",
    "C111_missing"
   ],
   "note": ""
  },
  {
   "property": "C112",
   "status": "proved",
   "theorems": [
    "C112_result",
    "C112_relations",
    "C112_constant",
    "C112_L_is_K"
   ],
   "note": ""
  },
  {
   "property": "C113",
   "status": "proved",
   "theorems": [
    "C113_default",
    "C113_bare",
    "C113_headers",
    "C113_reload",
    "C113_headers_row",
    "C113_ragged"
   ],
   "note": ""
  },
  {
   "property": "C114",
   "status": "proved",
   "theorems": [
    "C114_temperatures",
    "C114_given_efficiency",
    "C114_failures",
    "C114_file"
   ],
   "note": ""
  },
  {
   "property": "C115",
   "status": "proved",
   "theorems": [
    "C115_leg",
    "C115_couple",
    "C115_order",
    "C115_rejected",
    "C115_command"
   ],
   "note": ""
  },
  {
   "property": "C116",
   "status": "proved",
   "theorems": [
    "C116_gap",
    "C116_missing",
    "C116_unread",
    "C116_result"
   ],
   "note": ""
  },
  {
   "property": "C117",
   "status": "proved",
   "theorems": [
    "C117_result"
   ],
   "note": ""
  },
  {
   "property": "C118",
   "status": "proved",
   "theorems": [
    "C118_settings",
    "C118_failures",
    "C118_files",
    "C118_quiet"
   ],
   "note": ""
  },
  {
   "property": "C119",
   "status": "proved",
   "theorems": [
    "C119_command",
    "C119_help",
    "C119_unique",
    "C119_arguments"
   ],
   "note": ""
  },
  {
   "property": "C120",
   "status": "proved",
   "theorems": [
    "C120_shape",
    "C120_dimensions",
    "C120_result",
    "C120_failure",
    "C120_incompatible",
    "C120_masked"
   ],
   "note": ""
  },
  {
   "property": "C121",
   "status": "proved",
   "theorems": [
    "C121_methods",
    "C121_unknown",
    "C121_degree",
    "C121_result",
    "C121_in_order",
    "C121_no_result",
    "C121_failure",
    "C121_failure_in_order",
    "C121_refused",
    "C121_squeezed"
   ],
   "note": ""
  },
  {
   "property": "C122",
   "status": "proved",
   "theorems": [
    "C122_result",
    "C122_single",
    "C122_refused"
   ],
   "note": ""
  },
  {
   "property": "C123",
   "status": "proved",
   "theorems": [
    "C123_columns",
    "C123_bad",
    "C123_missing",
    "C123_all"
   ],
   "note": ""
  },
  {
   "property": "C124",
   "status": "proved",
   "theorems": [
    "C124_leg",
    "C124_leg_refused",
    "C124_empty",
    "C124_simulate",
    "C124_simulate_best",
    "C124_simulate_refused",
    "C124_paired",
    "C124_not_combined",
    "C124_pair",
    "C124_pair_refused",
    "C124_pair_simulate",
    "C124_single_leg",
    "C124_single_poly",
    "C124_single_pair"
   ],
   "note": ""
  },
  {
   "property": "C125",
   "status": "proved",
   "theorems": [
    "C125_band",
    "C125_no_hall",
    "C125_refused",
    "C125_multi",
    "C125_multi_no_hall",
    "C125_multi_refused",
    "C125_Kbip",
    "C125_classes",
    "C125_solve",
    "C125_solve_fails",
    "C125_solve_refused",
    "C125_solve_mismatch",
    "C125_single",
    "C125_single_classes",
    "C125_single_multi",
    "C125_single_Kbip"
   ],
   "note": ""
  },
  {
   "property": "C126",
   "status": "proved",
   "theorems": [
    "C126_rate",
    "C126_rate_refused",
    "C126_scattering",
    "C126_spectral",
    "C126_refused",
    "C126_velocities",
    "C126_velocities_refused",
    "C126_models",
    "C126_single_rate",
    "C126_single_scattering",
    "C126_single_spectral",
    "C126_single_models"
   ],
   "note": ""
  },
  {
   "property": "C127",
   "status": "proved",
   "theorems": [
    "C127_cumulative",
    "C127_cumulative_refused",
    "C127_mfp",
    "C127_mfp_refused",
    "C127_single_cumulative",
    "C127_single_mfp",
    "C127_kappa_n",
    "C127_kappa_fails",
    "C127_kappa_refused",
    "C127_kappa",
    "C127_single_kappa"
   ],
   "note": ""
  },
  {
   "property": "C128",
   "status": "proved",
   "theorems": [
    "C128_prediction",
    "C128_reproduces",
    "C128_positive_definite",
    "C128_refused"
   ],
   "note": ""
  },
  {
   "property": "C129",
   "status": "proved",
   "theorems": [
    "C129_vinterp",
    "C129_mapping",
    "C129_array",
    "C129_array_lengths"
   ],
   "note": ""
  },
  {
   "property": "C130",
   "status": "proved",
   "theorems": [
    "C130_converges",
    "C130_bands",
    "C130_constant"
   ],
   "note": ""
  },
  {
   "property": "C131",
   "status": "proved",
   "theorems": [
    "C131_two_counts",
    "C131_bands",
    "C131_branch"
   ],
   "note": ""
  },
  {
   "property": "C132",
   "status": "proved",
   "theorems": [
    "C132_items",
    "C132_dot",
    "C132_same",
    "C132_missing",
    "C132_delete",
    "C132_method",
    "C132_property",
    "C132_never_attribute_error"
   ],
   "note": ""
  },
  {
   "property": "C133",
   "status": "proved",
   "theorems": [
    "C133_constructor",
    "C133_numbers",
    "C133_mechanism",
    "C133_debye",
    "C133_debye_constructor",
    "C133_later",
    "C133_step",
    "C133_fit",
    "C133_stale"
   ],
   "note": ""
  },
  {
   "property": "C134",
   "status": "proved",
   "theorems": [
    "C134_fixed_text",
    "C134_scientific_text",
    "C134_special",
    "C134_reads",
    "C134_underscores",
    "C134_errors",
    "C134_fixed",
    "C134_scientific",
    "C134_errors_of_rounding",
    "C134_order",
    "C134_unique",
    "C134_again",
    "C134_word",
    "C134_files",
    "C134_small",
    "C134_distinct",
    "C134_collapse",
    "C134_zero_sign"
   ],
   "note": ""
  },
  {
   "property": "C135",
   "status": "proved",
   "theorems": [
    "C135_cut_fixed",
    "C135_cut_scientific",
    "C135_left_behind",
    "C135_reached",
    "C135_old_lost",
    "C135_finished",
    "C135_rerun",
    "C135_same_attempt",
    "C135_refine",
    "C135_extend",
    "C135_cutoff",
    "C135_ztdev",
    "C135_engout",
    "C135_simulation",
    "C135_modelling",
    "C135_kappa",
    "C135_interp",
    "C135_format",
    "C135_interp_after_kill",
    "C135_format_after_kill",
    "C135_removed",
    "C135_tables",
    "C135_cut",
    "C135_cut_load"
   ],
   "note": ""
  },
  {
   "property": "C136",
   "status": "proved",
   "theorems": [
    "C136_conductivity",
    "C136_power_factor",
    "C136_optimum",
    "C136_mobility"
   ],
   "note": ""
  },
  {
   "property": "C137",
   "status": "proved",
   "theorems": [
    "C137_shape",
    "C137_optimum",
    "C137_no_offset"
   ],
   "note": ""
  },
  {
   "property": "C138",
   "status": "proved",
   "theorems": [
    "C138_methods",
    "C138_level",
    "C138_determines",
    "C138_limits"
   ],
   "note": ""
  },
  {
   "property": "C139",
   "status": "proved",
   "theorems": [
    "C139_levels",
    "C139_concentration",
    "C139_conductivity"
   ],
   "note": ""
  },
  {
   "property": "C140",
   "status": "proved",
   "theorems": [
    "C140_one_kind",
    "C140_both_kinds",
    "C140_classes"
   ],
   "note": ""
  },
  {
   "property": "C141",
   "status": "proved",
   "theorems": [
    "C141_sign",
    "C141_classes",
    "C141_linear",
    "C141_linear_level"
   ],
   "note": ""
  },
  {
   "property": "C142",
   "status": "proved",
   "theorems": [
    "C142_order",
    "C142_bands"
   ],
   "note": ""
  },
  {
   "property": "C143",
   "status": "proved",
   "theorems": [
    "C143_mean",
    "C143_heat"
   ],
   "note": ""
  }
 ]
}