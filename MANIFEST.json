{
 "claims": [
  {
   "property": "C01",
   "status": "proved",
   "theorems": [
    "C01_tasks_partition"
   ],
   "note": ""
  },
  {
   "property": "C02",
   "status": "proved",
   "theorems": [
    "C02_balance",
    "C02_size_is_task_count",
    "C02_sizes_sum"
   ],
   "note": ""
  },
  {
   "property": "C03",
   "status": "proved",
   "theorems": [
    "C03_scatter_map_gather"
   ],
   "note": ""
  },
  {
   "property": "C04",
   "status": "proved",
   "theorems": [
    "C04_allreduce_serial"
   ],
   "note": ""
  },
  {
   "property": "C05",
   "status": "proved",
   "theorems": [
    "C05_terminates",
    "C05_fuel_irrelevant",
    "C05_result_unused"
   ],
   "note": ""
  },
  {
   "property": "C06",
   "status": "proved",
   "theorems": [
    "C06_vn_grid",
    "C06_wn_grid",
    "C06_vn_antisymmetric",
    "C06_wn_antisymmetric",
    "C06_vn_pos",
    "C06_wn_pos",
    "C06_vn_of_array",
    "C06_wn_of_array",
    "C06_of_positive_array"
   ],
   "note": ""
  },
  {
   "property": "C07",
   "status": "proved",
   "theorems": [
    "C07_freq_shift",
    "C07_known_notations",
    "C07_unknown_notation"
   ],
   "note": ""
  },
  {
   "property": "C08",
   "status": "proved",
   "theorems": [
    "C08_completion",
    "C08_symmetric",
    "C08_positive_half",
    "C08_recover"
   ],
   "note": ""
  },
  {
   "property": "C09",
   "status": "proved",
   "theorems": [
    "C09_completion",
    "C09_recover",
    "C09_completion_two_axes"
   ],
   "note": ""
  },
  {
   "property": "C10",
   "status": "proved",
   "theorems": [
    "C10_cut_v",
    "C10_cut_v_pos",
    "C10_cut_v_pos_default",
    "C10_cut_v_two_axes",
    "C10_cut_w",
    "C10_cuts_compose",
    "C10_default_is_identity",
    "C10_cut_larger_than_grid_finding"
   ],
   "note": ""
  },
  {
   "property": "C11",
   "status": "proved",
   "theorems": [
    "C11_shell",
    "C11_core_and_shell_rebuild",
    "C11_core_and_shell_rebuild_window",
    "C11_concatenate_then_split",
    "C11_append_shell",
    "C11_append_then_cut",
    "C11_default_shell_drops_negative_finding"
   ],
   "note": ""
  },
  {
   "property": "C12",
   "status": "proved",
   "theorems": [
    "C12_w_to_vmvp"
   ],
   "note": ""
  },
  {
   "property": "C13",
   "status": "proved",
   "theorems": [
    "C13_slices_core",
    "C13_slices_shell",
    "C13_cut_with_shift",
    "C13_cut_with_shift_default"
   ],
   "note": ""
  },
  {
   "property": "C14",
   "status": "proved",
   "theorems": [
    "C14_add_bosonic",
    "C14_add_bosonic_comm"
   ],
   "note": ""
  },
  {
   "property": "C15",
   "status": "proved",
   "theorems": [
    "C15_ph2pp"
   ],
   "note": ""
  },
  {
   "property": "C16",
   "status": "proved",
   "theorems": [
    "C16_ph2pp_wc_ok",
    "C16_ph2pp_wc_fails"
   ],
   "note": ""
  },
  {
   "property": "C17",
   "status": "proved",
   "theorems": [
    "C17_fold_unfold",
    "C17_grid_exists",
    "C17_unknown_symmetry_raises"
   ],
   "note": ""
  },
  {
   "property": "C18",
   "status": "proved",
   "theorems": [
    "C18_unfold_fold",
    "C18_unfold_invariant",
    "C18_x_y_inv_refuted",
    "C18_order_matters_refuted"
   ],
   "note": ""
  },
  {
   "property": "C19",
   "status": "proved",
   "theorems": [
    "C19_k_mean",
    "C19_counts"
   ],
   "note": ""
  },
  {
   "property": "C20",
   "status": "proved",
   "theorems": [
    "C20_shift_value",
    "C20_shift_compose",
    "C20_shift_period",
    "C20_shift_pi",
    "C20_shift_pi_involution",
    "C20_shift_by_q"
   ],
   "note": ""
  },
  {
   "property": "C21",
   "status": "proved",
   "theorems": [
    "C21_chi_solves_bse",
    "C21_gamma_solves_bse",
    "C21_roundtrip_gamma",
    "C21_roundtrip_chi"
   ],
   "note": ""
  },
  {
   "property": "C22",
   "status": "proved",
   "theorems": [
    "C22_roundtrip",
    "C22_is_full_vertex",
    "C22_vertex_from_gamma"
   ],
   "note": ""
  },
  {
   "property": "C23",
   "status": "proved",
   "theorems": [
    "C23_recovers_core_vertex",
    "C23_reproduces_core_chi"
   ],
   "note": ""
  },
  {
   "property": "C24",
   "status": "proved",
   "theorems": [
    "C24_physical_susceptibility",
    "C24_three_leg_vertex"
   ],
   "note": ""
  },
  {
   "property": "C25",
   "status": "proved",
   "theorems": [
    "C25_vertex_reconstruction",
    "C25_f_dc_same_legs"
   ],
   "note": ""
  },
  {
   "property": "C26",
   "status": "proved",
   "theorems": [
    "C26_asymptotic_correction"
   ],
   "note": ""
  },
  {
   "property": "C27",
   "status": "proved",
   "theorems": [
    "C27_gchir_from_g2",
    "C27_roundtrip_g2",
    "C27_roundtrip_chi",
    "C27_too_short_g_finding",
    "C27_symmetrize_v_vp"
   ],
   "note": ""
  },
  {
   "property": "C28",
   "status": "proved",
   "theorems": [
    "C28_nonneg_frequencies_survive",
    "C28_refuted"
   ],
   "note": "The intended property is false of the code for w<0 (C28_refuted); proved: exact behaviour for every w."
  },
  {
   "property": "C29",
   "status": "proved",
   "theorems": [
    "C29_pairing_vertex_roundtrip",
    "C29_loaded_vertex_hermitian"
   ],
   "note": ""
  },
  {
   "property": "C30",
   "status": "proved",
   "theorems": [
    "C30_reshape_chi",
    "C30_box_is_large_enough"
   ],
   "note": ""
  },
  {
   "property": "C31",
   "status": "proved",
   "theorems": [
    "C31_bubble_definition",
    "C31_conjugation",
    "C31_full_range_shortcut",
    "C31_summed_bubble",
    "C31_summed_bubble_shortcut",
    "C31_bubble_matrix",
    "C31_center_odd_shifted_finding",
    "C31_center_shortcut_refuted",
    "C31_gapped_grid_finding"
   ],
   "note": ""
  },
  {
   "property": "C32",
   "status": "proved",
   "theorems": [
    "C32_lattice_bubble",
    "C32_lattice_shortcut",
    "C32_summed_lattice_bubble",
    "C32_summed_lattice_shortcut",
    "C32_q_average_is_local",
    "C32_periodic_in_q",
    "C32_translation",
    "C32_crossing"
   ],
   "note": ""
  },
  {
   "property": "C33",
   "status": "proved",
   "theorems": [
    "C33_stitching",
    "C33_dmft_outside",
    "C33_dmft_data_lost"
   ],
   "note": ""
  },
  {
   "property": "C34",
   "status": "proved",
   "theorems": [
    "C34_lattice_sde",
    "C34_additive",
    "C34_linear_in_kernel",
    "C34_any_distribution"
   ],
   "note": ""
  },
  {
   "property": "C35",
   "status": "proved",
   "theorems": [
    "C35_use_lambda_shifts_inverse",
    "C35_single_ok",
    "C35_single_converges",
    "C35_lambda_unique",
    "C35_spch",
    "C35_spch_sum_rules",
    "C35_sp",
    "C35_sp_sum_rule",
    "C35_none",
    "C35_unknown_raises",
    "C35_exhaustion_silent_refuted"
   ],
   "note": ""
  },
  {
   "property": "C36",
   "status": "proved",
   "theorems": [
    "C36_symmetrize_value",
    "C36_symmetrize_parity",
    "C36_symmetrize_idempotent",
    "C36_parts_add_up",
    "C36_channels",
    "C36_only_matching_parity"
   ],
   "note": ""
  },
  {
   "property": "C37",
   "status": "proved",
   "theorems": [
    "C37_search_ends",
    "C37_search_result",
    "C37_get_eig",
    "C37_exact_eigenvector",
    "C37_returned_pair",
    "C37_second_search_degenerate_finding"
   ],
   "note": ""
  },
  {
   "property": "C38",
   "status": "proved",
   "theorems": [
    "C38_band_encode",
    "C38_band_encode_range",
    "C38_band_decode_encode",
    "C38_band_encode_decode",
    "C38_general_decode",
    "C38_general_encode"
   ],
   "note": ""
  },
  {
   "property": "C39",
   "status": "proved",
   "theorems": [
    "C39_square_dispersion",
    "C39_square_on_mesh",
    "C39_nematic_on_mesh",
    "C39_emery",
    "C39_ek_3d",
    "C39_ek_3d_z_finding"
   ],
   "note": ""
  },
  {
   "property": "C40",
   "status": "proved",
   "theorems": [
    "C40_light_vertex_is_derivative",
    "C40_light_vertex_on_mesh",
    "C40_square",
    "C40_square_vertex",
    "C40_square_vertex_odd"
   ],
   "note": ""
  },
  {
   "property": "C41",
   "status": "proved",
   "theorems": [
    "C41_thiele_interpolates",
    "C41_numerator_denominator",
    "C41_padeThiele_is_C",
    "C41_padeThiele_interpolates",
    "C41_recursive_coefficients",
    "C41_matrix_pade_interpolates",
    "C41_coefficient_list_too_short_finding"
   ],
   "note": ""
  },
  {
   "property": "C42",
   "status": "proved",
   "theorems": [
    "C42_set_from_lfp",
    "C42_too_large_refused",
    "C42_default_asympt",
    "C42_default_asympt_refuted",
    "C42_pairing_window_fits",
    "C42_optics",
    "C42_optics_refused",
    "C42_optics_vertex_window",
    "C42_optics_bubble_window",
    "C42_optics_vertex_nonempty",
    "C42_optics_vertex_nonempty_refuted"
   ],
   "note": ""
  },
  {
   "property": "C43",
   "status": "proved",
   "theorems": [
    "C43_path_on_mesh",
    "C43_corner_visited",
    "C43_coordinates_isotropic",
    "C43_anisotropic_wrong_refuted",
    "C43_anisotropic_raises_refuted",
    "C43_cind_off_by_one_finding"
   ],
   "note": ""
  },
  {
   "property": "C44",
   "status": "proved",
   "theorems": [
    "C44_symmetrize_raises_refuted"
   ],
   "note": ""
  },
  {
   "property": "C45",
   "status": "proved",
   "theorems": [
    "C45_gram_schmidt",
    "C45_gram_schmidt_span",
    "C45_gram_schmidt_refuted"
   ],
   "note": ""
  },
  {
   "property": "C46",
   "status": "proved",
   "theorems": [
    "C46_centered_window",
    "C46_default_sums_all",
    "C46_wn_sum"
   ],
   "note": ""
  },
  {
   "property": "C47",
   "status": "proved",
   "theorems": [
    "C47_lookup",
    "C47_w0",
    "C47_below_range_wraps_refuted",
    "C47_above_range_raises"
   ],
   "note": ""
  },
  {
   "property": "C48",
   "status": "proved",
   "theorems": [
    "C48_representatives"
   ],
   "note": ""
  },
  {
   "property": "C49",
   "status": "proved",
   "theorems": [
    "C49_masks"
   ],
   "note": ""
  },
  {
   "property": "C50",
   "status": "proved",
   "theorems": [
    "C50_find_q",
    "C50_find_q_nearest",
    "C50_no_wraparound_finding"
   ],
   "note": ""
  },
  {
   "property": "C51",
   "status": "proved",
   "theorems": [
    "C51_lam_tilde",
    "C51_chir_tilde"
   ],
   "note": ""
  },
  {
   "property": "C52",
   "status": "proved",
   "theorems": [
    "C52_from_chi_or_gamma",
    "C52_urange_is_core_plus_bubble"
   ],
   "note": ""
  },
  {
   "property": "C53",
   "status": "proved",
   "theorems": [
    "C53_vrg_from_lambda_or_aux"
   ],
   "note": ""
  },
  {
   "property": "C54",
   "status": "proved",
   "theorems": [
    "C54_from_vrg",
    "C54_urange_is_one_formula",
    "C54_total_self_energy",
    "C54_from_full_vertex",
    "C54_routes_agree"
   ],
   "note": ""
  },
  {
   "property": "C55",
   "status": "proved",
   "theorems": [
    "C55_consistent_with_ur_over_beta2",
    "C55_code_inserts_u_refuted"
   ],
   "note": ""
  },
  {
   "property": "C56",
   "status": "proved",
   "theorems": [
    "C56_no_schedule_fails",
    "C56_schedule_independent",
    "C56_other_files_untouched",
    "C56_distinct_files",
    "C56_fair_schedules_complete",
    "C56_crash_points"
   ],
   "note": ""
  },
  {
   "property": "C57",
   "status": "proved",
   "theorems": [
    "C57_optics_vertex_roundtrip",
    "C57_refuted"
   ],
   "note": "The intended property is false of the code for w<0 (C57_refuted); proved: exact behaviour for every w."
  },
  {
   "property": "C58",
   "status": "proved",
   "theorems": [
    "C58_rerun_is_refused"
   ],
   "note": ""
  },
  {
   "property": "C59",
   "status": "proved",
   "theorems": [
    "C59_orbit_average",
    "C59_orbit_invariant",
    "C59_groups_are_orbits",
    "C59_one_band_su2",
    "C59_check_sym_accepts",
    "C59_check_sym_refuted",
    "C59_other_bands_dropped_finding"
   ],
   "note": ""
  },
  {
   "property": "C60",
   "status": "proved",
   "theorems": [
    "C60_band_average",
    "C60_equivalent_bands_equal",
    "C60_symmetric_data_fixed"
   ],
   "note": ""
  },
  {
   "property": "C61",
   "status": "proved",
   "theorems": [
    "C61_named_symmetry",
    "C61_other_name_refused",
    "C61_named_symmetry_known",
    "C61_unknown_never_a_grid",
    "C61_list_of_known_refused_finding",
    "C61_unknown_tuple_passes_check_finding"
   ],
   "note": ""
  },
  {
   "property": "C62",
   "status": "proved",
   "theorems": [
    "C62_fft_kernel",
    "C62_returned_parities"
   ],
   "note": ""
  },
  {
   "property": "C63",
   "status": "proved",
   "theorems": [
    "C63_start_gap_pauli",
    "C63_start_gap_exists",
    "C63_start_gap_form",
    "C63_odd_window_raises",
    "C63_p_wave_annihilated_finding",
    "C63_p_wave_result_finding"
   ],
   "note": ""
  },
  {
   "property": "C64",
   "status": "proved",
   "theorems": [
    "C64_hermitian",
    "C64_diagonal_real",
    "C64_models_hermitian",
    "C64_periodic",
    "C64_mesh_inversions",
    "C64_mesh_swap",
    "C64_nematic_breaks_swap",
    "C64_mesh_sum",
    "C64_square_mean_zero",
    "C64_emery_mean"
   ],
   "note": ""
  },
  {
   "property": "C65",
   "status": "proved",
   "theorems": [
    "C65_hr_roundtrip",
    "C65_fused_columns_finding",
    "C65_create_orbs_finding"
   ],
   "note": ""
  },
  {
   "property": "C66",
   "status": "proved",
   "theorems": [
    "C66_sigma_const",
    "C66_frequencies",
    "C66_get_siw",
    "C66_constructor",
    "C66_fit_exact",
    "C66_estimate_range",
    "C66_estimate_value",
    "C66_estimate_finding",
    "C66_short_data_refuted",
    "C66_default_core_short_refuted",
    "C66_moments"
   ],
   "note": ""
  },
  {
   "property": "C67",
   "status": "proved",
   "theorems": [
    "C67_greens_function",
    "C67_causal"
   ],
   "note": ""
  },
  {
   "property": "C68",
   "status": "proved",
   "theorems": [
    "C68_primitive_refuted",
    "C68_atomic_limit",
    "C68_fallback",
    "C68_half_filling",
    "C68_mu_roundtrip",
    "C68_failed_search",
    "C68_update_mu",
    "C68_reported_filling_refuted"
   ],
   "note": ""
  },
  {
   "property": "C69",
   "status": "proved",
   "theorems": [
    "C69_spectral_function",
    "C69_filling",
    "C69_filling_window",
    "C69_reported_filling"
   ],
   "note": ""
  },
  {
   "property": "C70",
   "status": "proved",
   "theorems": [
    "C70_energies",
    "C70_hartree"
   ],
   "note": ""
  },
  {
   "property": "C71",
   "status": "proved",
   "theorems": [
    "C71_irreducible_bubble",
    "C71_bubble_symmetric"
   ],
   "note": ""
  },
  {
   "property": "C72",
   "status": "proved",
   "theorems": [
    "C72_f_diag",
    "C72_unknown_channel"
   ],
   "note": ""
  },
  {
   "property": "C73",
   "status": "proved",
   "theorems": [
    "C73_local_correction_is_the_tail",
    "C73_q_correction_is_the_tail",
    "C73_q_bubble_error",
    "C73_local_bubble_error",
    "C73_correction_vanishes",
    "C73_q_average_is_local",
    "C73_mean_energy_finding",
    "C73_q_single_frequency_finding"
   ],
   "note": ""
  },
  {
   "property": "C74",
   "status": "proved",
   "theorems": [
    "C74_full",
    "C74_full_with_shell",
    "C74_channel",
    "C74_channel_core",
    "C74_double_counting",
    "C74_weighted_irreducible_sum_refuted"
   ],
   "note": ""
  },
  {
   "property": "C75",
   "status": "proved",
   "theorems": [
    "C75_dga_self_energy"
   ],
   "note": ""
  },
  {
   "property": "C76",
   "status": "proved",
   "theorems": [
    "C76_point_symmetry",
    "C76_conjugation"
   ],
   "note": ""
  },
  {
   "property": "C77",
   "status": "proved",
   "theorems": [
    "C77_bethe_salpeter",
    "C77_ladder",
    "C77_divergence_raises"
   ],
   "note": ""
  },
  {
   "property": "C78",
   "status": "proved",
   "theorems": [
    "C78_ladder_vertex",
    "C78_channels",
    "C78_asymmetric_vertex_finding"
   ],
   "note": ""
  },
  {
   "property": "C79",
   "status": "proved",
   "theorems": [
    "C79_dc_kernel"
   ],
   "note": ""
  },
  {
   "property": "C80",
   "status": "proved",
   "theorems": [
    "C80_local_limit"
   ],
   "note": ""
  },
  {
   "property": "C81",
   "status": "proved",
   "theorems": [
    "C81_kernel_invariant",
    "C81_chi_asympt",
    "C81_tilde"
   ],
   "note": ""
  },
  {
   "property": "C82",
   "status": "proved",
   "theorems": [
    "C82_bubble",
    "C82_all_frequencies",
    "C82_directions_commute",
    "C82_static_real",
    "C82_no_transverse_response",
    "C82_equivalent_directions",
    "C82_small_box_raises",
    "C82_wrap_finding"
   ],
   "note": ""
  },
  {
   "property": "C83",
   "status": "proved",
   "theorems": [
    "C83_vertex",
    "C83_all_cond_frequencies",
    "C83_any_distribution",
    "C83_local_vertex_vanishes",
    "C83_documented_formula_finding",
    "C83_total"
   ],
   "note": ""
  },
  {
   "property": "C84",
   "status": "proved",
   "theorems": [
    "C84_pairing_vertex",
    "C84_hermitian",
    "C84_exact_when_hermitian"
   ],
   "note": ""
  },
  {
   "property": "C85",
   "status": "proved",
   "theorems": [
    "C85_optics_vertex_nonneg",
    "C85_refuted"
   ],
   "note": ""
  },
  {
   "property": "C86",
   "status": "proved",
   "theorems": [
    "C86_uniform",
    "C86_any_grid",
    "C86_nonuniform_refuted",
    "C86_even_mesh_finding",
    "C86_wmax_checked",
    "C86_conductivity_nonnegative",
    "C86_fermi",
    "C86_sigma",
    "C86_sigma_zero",
    "C86_end_to_end"
   ],
   "note": ""
  },
  {
   "property": "C87",
   "status": "proved",
   "theorems": [
    "C87_mesh",
    "C87_zero_in_the_middle",
    "C87_errors",
    "C87_tan_mesh_not_uniform"
   ],
   "note": ""
  },
  {
   "property": "C88",
   "status": "proved",
   "theorems": [
    "C88_fermionic",
    "C88_bosonic",
    "C88_real_array",
    "C88_fermionic_consequences",
    "C88_bosonic_consequences",
    "C88_kkt",
    "C88_kkt_kinds_exchanged",
    "C88_kkt_consequences",
    "C88_round_trip",
    "C88_errors",
    "C88_filling",
    "C88_filling_refuted"
   ],
   "note": ""
  },
  {
   "property": "C89",
   "status": "proved",
   "theorems": [
    "C89_least_squares",
    "C89_range",
    "C89_total_and_window",
    "C89_exact",
    "C89_weight_refuted",
    "C89_on_indices",
    "C89_poly_fit",
    "C89_single_momentum_finding",
    "C89_value_and_slope",
    "C89_errors"
   ],
   "note": ""
  },
  {
   "property": "C90",
   "status": "proved",
   "theorems": [
    "C90_unsupported",
    "C90_settings",
    "C90_bosonic_rules",
    "C90_preblur",
    "C90_mesh",
    "C90_window_fermionic",
    "C90_window_bosonic",
    "C90_model",
    "C90_bosonic_model_refuted",
    "C90_independent",
    "C90_ranks",
    "C90_failed_rank_finding",
    "C90_idle_root_finding",
    "C90_local_mesh_finding"
   ],
   "note": ""
  },
  {
   "property": "C91",
   "status": "proved",
   "theorems": [
    "C91_round_trip",
    "C91_header",
    "C91_squeeze_finding",
    "C91_short",
    "C91_unreadable",
    "C91_version_finding",
    "C91_save_hk"
   ],
   "note": ""
  },
  {
   "property": "C92",
   "status": "proved",
   "theorems": [
    "C92_order",
    "C92_maximum",
    "C92_correlation_length",
    "C92_symmetry",
    "C92_identifiable",
    "C92_recovered",
    "C92_fallback",
    "C92_kz_finding"
   ],
   "note": ""
  },
  {
   "property": "C93",
   "status": "proved",
   "theorems": [
    "C93_one_particle",
    "C93_with_vertex",
    "C93_paramagnet",
    "C93_loaders_agree",
    "C93_loaders_differ_finding",
    "C93_chi",
    "C93_chi_even",
    "C93_chi_filling_finding",
    "C93_build",
    "C93_restart",
    "C93_magn_box_finding",
    "C93_build_empty",
    "C93_input_types",
    "C93_terminates",
    "C93_names",
    "C93_read_full",
    "C93_read_iw",
    "C93_read_iw_missing",
    "C93_read_g2",
    "C93_read_g2_finding",
    "C93_gap_finding",
    "C93_no_channel_finding",
    "C93_symmetrize_roundtrip"
   ],
   "note": ""
  },
  {
   "property": "C94",
   "status": "proved",
   "theorems": [
    "C94_plan",
    "C94_pick_mirror",
    "C94_pick_nonneg",
    "C94_pick_pairs",
    "C94_acPade_dispatch",
    "C94_acPade_thiele",
    "C94_acPade_recovers",
    "C94_pade_recovers",
    "C94_physical",
    "C94_none_or_one",
    "C94_distances",
    "C94_mask",
    "C94_two_continuations_finding",
    "C94_solver",
    "C94_jacobian",
    "C94_nonlinear_start"
   ],
   "note": ""
  },
  {
   "property": "C95",
   "status": "proved",
   "theorems": [
    "C95_local_run",
    "C95_singular_raises",
    "C95_chir_uasympt_finding",
    "C95_uasympt_q_finding"
   ],
   "note": ""
  },
  {
   "property": "C96",
   "status": "proved",
   "theorems": [
    "C96_folders",
    "C96_terminates",
    "C96_io_root",
    "C96_polyfit_refuted",
    "C96_io_refuted",
    "C96_two_runs_refuted"
   ],
   "note": ""
  },
  {
   "property": "C97",
   "status": "proved",
   "theorems": [
    "C97_accepted",
    "C97_documented",
    "C97_objects",
    "C97_derived",
    "C97_processes",
    "C97_no_lattice",
    "C97_empty_section",
    "C97_ranks",
    "C97_misspelt_key_finding",
    "C97_unread_sections",
    "C97_default_box_finding",
    "C97_gap0_finding",
    "C97_round_trip",
    "C97_box_is_C42"
   ],
   "note": ""
  },
  {
   "property": "C98",
   "status": "proved",
   "theorems": [
    "C98_saved",
    "C98_symmetric",
    "C98_ranks",
    "C98_all_requested",
    "C98_completes",
    "C98_prefix",
    "C98_sections_independent",
    "C98_other_grid_refuted"
   ],
   "note": ""
  },
  {
   "property": "C99",
   "status": "proved",
   "theorems": [
    "C99_contents",
    "C99_complete",
    "C99_untouched",
    "C99_other_ranks",
    "C99_raises",
    "C99_lines",
    "C99_times",
    "C99_rounding",
    "C99_readable",
    "C99_memory"
   ],
   "note": ""
  },
  {
   "property": "C100",
   "status": "proved",
   "theorems": [
    "C100_load_after_save",
    "C100_load_after_clean",
    "C100_load_untouched",
    "C100_no_error",
    "C100_no_folder",
    "C100_one_entry_refuted",
    "C100_interrupted_refuted"
   ],
   "note": ""
  },
  {
   "property": "C101",
   "status": "proved",
   "theorems": [
    "C101_no_error",
    "C101_no_deadlock",
    "C101_terminates",
    "C101_can_finish",
    "C101_final_files",
    "C101_rank_files",
    "C101_unfit_refuted"
   ],
   "note": ""
  },
  {
   "property": "C102",
   "status": "proved",
   "theorems": [
    "C102_widths",
    "C102_other_files",
    "C102_mesh_file",
    "C102_optimum",
    "C102_two_runs",
    "C102_too_few_refuted",
    "C102_default_n_fit",
    "C102_estimates",
    "C102_filling",
    "C102_filling_refuted"
   ],
   "note": ""
  },
  {
   "property": "C103",
   "status": "proved",
   "theorems": [
    "C103_shift_even",
    "C103_axes",
    "C103_extent",
    "C103_shift_odd_refuted",
    "C103_plane",
    "C103_plane_on_mesh",
    "C103_plane_refused",
    "C103_plane_negative_refuted",
    "C103_plane_shifted_finding",
    "C103_zeros",
    "C103_no_zeros",
    "C103_zeros_boundary_refuted",
    "C103_contour",
    "C103_no_contour_refuted",
    "C103_checks",
    "C103_checks_small_refuted",
    "C103_checks_half",
    "C103_add_q"
   ],
   "note": ""
  },
  {
   "property": "C104",
   "status": "proved",
   "theorems": [
    "C104_consistent",
    "C104_frequencies",
    "C104_kept",
    "C104_last_wins",
    "C104_energies",
    "C104_other_range",
    "C104_negative_refuted",
    "C104_construction"
   ],
   "note": ""
  },
  {
   "property": "C105",
   "status": "proved",
   "theorems": [
    "C105_weights",
    "C105_jacobian",
    "C105_jacobian_injective",
    "C105_optimum",
    "C105_unique_root",
    "C105_gap",
    "C105_reported",
    "C105_optimizer",
    "C105_alpha_monotone",
    "C105_kept_finding",
    "C105_direction_refuted",
    "C105_maximum_refuted"
   ],
   "note": ""
  },
  {
   "property": "C106",
   "status": "proved",
   "theorems": [
    "C106_step",
    "C106_ends",
    "C106_result",
    "C106_root_kept",
    "C106_maxent",
    "C106_linalg_refuted",
    "C106_no_variables",
    "C106_used"
   ],
   "note": ""
  },
  {
   "property": "C107",
   "status": "proved",
   "theorems": [
    "C107_tried",
    "C107_divisor_refuted",
    "C107_choice",
    "C107_improves",
    "C107_historic_refuted",
    "C107_overwritten_finding",
    "C107_bryan",
    "C107_bryan_refuted",
    "C107_dispatch"
   ],
   "note": ""
  },
  {
   "property": "C108",
   "status": "proved",
   "theorems": [
    "C108_freq_fermionic",
    "C108_time_fermionic",
    "C108_freq_bosonic",
    "C108_repeated_zeros_refuted",
    "C108_time_bosonic",
    "C108_first_column_refuted",
    "C108_symmetric",
    "C108_kinds",
    "C108_blur",
    "C108_misfit",
    "C108_covariance",
    "C108_errors_finding"
   ],
   "note": ""
  },
  {
   "property": "C109",
   "status": "proved",
   "theorems": [
    "C109_general",
    "C109_what_is_computed",
    "C109_swapped_refuted",
    "C109_negative_finding",
    "C109_linear",
    "C109_kinds"
   ],
   "note": ""
  },
  {
   "property": "C110",
   "status": "proved",
   "theorems": [
    "C110_modes",
    "C110_time_fermionic",
    "C110_time_bosonic",
    "C110_phsym_refuted",
    "C110_model_finding",
    "C110_list_finding",
    "C110_imaginary_refuted",
    "C110_frequencies",
    "C110_methods",
    "C110_partial"
   ],
   "note": ""
  },
  {
   "property": "C111",
   "status": "proved",
   "theorems": [
    "C111_names",
    "C111_corners",
    "C111_negative_finding",
    "C111_labels_and_ticks",
    "C111_tick_position_refuted",
    "C111_values",
    "C111_crossing",
    "C111_crossing_found",
    "C111_looked_at",
    "C111_last_point_refuted",
    "C111_beyond_pi_refuted",
    "C111_beyond_pi_distance_refuted"
   ],
   "note": ""
  },
  {
   "property": "C112",
   "status": "proved",
   "theorems": [
    "C112_curvature",
    "C112_matrix",
    "C112_trace",
    "C112_trace_antitone",
    "C112_criterion",
    "C112_probability",
    "C112_slope_finding",
    "C112_fallback",
    "C112_classic",
    "C112_prediction",
    "C112_independent",
    "C112_result",
    "C112_classic_refuted",
    "C112_default_refuted",
    "C112_bryan",
    "C112_bryan_off_refuted"
   ],
   "note": ""
  },
  {
   "property": "C113",
   "status": "proved",
   "theorems": [
    "C113_array",
    "C113_array_monotone",
    "C113_array_nan",
    "C113_array_refuted",
    "C113_lint",
    "C113_unit",
    "C113_main",
    "C113_no_root",
    "C113_unit_correct",
    "C113_files_refuted",
    "C113_lint_refuted",
    "C113_mpi_refuted",
    "C113_warning_finding",
    "C113_config",
    "C113_config_failure",
    "C113_config_works",
    "C113_config_same",
    "C113_config_refuted",
    "C113_dga_main_arguments",
    "C113_sym1b_arguments",
    "C113_arguments_refuted"
   ],
   "note": ""
  },
  {
   "property": "C114",
   "status": "proved",
   "theorems": [
    "C114_cut",
    "C114_damped",
    "C114_causal_refuted",
    "C114_dyson",
    "C114_shapes",
    "C114_spectrum",
    "C114_filling",
    "C114_filling_bounds",
    "C114_filling_local",
    "C114_shift",
    "C114_objective",
    "C114_mu",
    "C114_saved",
    "C114_lda_filling_finding",
    "C114_lda_refuted",
    "C114_axis_refuted",
    "C114_gamma_finding",
    "C114_plane_refuted",
    "C114_panel",
    "C114_transposed_refuted",
    "C114_panel_works",
    "C114_no_line_finding",
    "C114_rectangular_refuted",
    "C114_quasi",
    "C114_cuts"
   ],
   "note": ""
  },
  {
   "property": "C115",
   "status": "proved",
   "theorems": [
    "C115_colours",
    "C115_scale",
    "C115_colours_order",
    "C115_zero_finding",
    "C115_kxky",
    "C115_extrap",
    "C115_fs",
    "C115_fs_even",
    "C115_odd_refuted",
    "C115_qdp_finding",
    "C115_window_finding",
    "C115_no_shift",
    "C115_no_shift_refuted",
    "C115_dispersion",
    "C115_dispersion_refuted",
    "C115_frame"
   ],
   "note": ""
  },
  {
   "property": "C116",
   "status": "proved",
   "theorems": [
    "C116_gloc",
    "C116_messages",
    "C116_silent_refuted",
    "C116_window_finding",
    "C116_empty_finding",
    "C116_estimates",
    "C116_fcond_refuted",
    "C116_mu_finding",
    "C116_giwk",
    "C116_giwk_refuted"
   ],
   "note": ""
  },
  {
   "property": "C117",
   "status": "proved",
   "theorems": [
    "C117_oz_panels",
    "C117_oz_titles",
    "C117_oz_diagonal_refuted",
    "C117_oz_last",
    "C117_oz_all_qz_refuted",
    "C117_sigma",
    "C117_sigma_odd",
    "C117_sigma_log_finding",
    "C117_along",
    "C117_along_default",
    "C117_along_window",
    "C117_along_raises"
   ],
   "note": ""
  },
  {
   "property": "C118",
   "status": "proved",
   "theorems": [
    "C118_panels",
    "C118_tail",
    "C118_visible",
    "C118_range_finding",
    "C118_static_finding",
    "C118_even_raises",
    "C118_no_data"
   ],
   "note": ""
  },
  {
   "property": "C119",
   "status": "proved",
   "theorems": [
    "C119_figure",
    "C119_outside",
    "C119_g2",
    "C119_small_box_refuted",
    "C119_gchi",
    "C119_gamma"
   ],
   "note": ""
  }
 ]
}