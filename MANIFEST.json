{
 "claims": [
  {
   "property": "C01",
   "status": "proved",
   "theorems": [
    "C01_prbs_least_period",
    "C01_prbs_visits_every_state",
    "C01_prbs_zero_seed"
   ],
   "note": ""
  },
  {
   "property": "C02",
   "status": "proved",
   "theorems": [
    "C02_prbs_gen_recurrence",
    "C02_prbs_gen_any_polynomial",
    "C02_tiling_any_polynomial_refuted"
   ],
   "note": ""
  },
  {
   "property": "C03",
   "status": "proved",
   "theorems": [
    "C03_prbs_resume"
   ],
   "note": ""
  },
  {
   "property": "C04",
   "status": "proved",
   "theorems": [
    "C04_prbs_iterator",
    "C04_mismatch"
   ],
   "note": ""
  },
  {
   "property": "C05",
   "status": "proved",
   "theorems": [
    "C05_prbs_balance",
    "C05_prbs_autocorrelation"
   ],
   "note": ""
  },
  {
   "property": "C06",
   "status": "proved",
   "theorems": [
    "C06_bits_roundtrip",
    "C06_symbols_roundtrip",
    "C06_single_symbol_refuted"
   ],
   "note": ""
  },
  {
   "property": "C07",
   "status": "proved",
   "theorems": [
    "C07_symbol_values",
    "C07_rejects_non_powers",
    "C07_rejects_every_non_power_refuted"
   ],
   "note": ""
  },
  {
   "property": "C08",
   "status": "proved",
   "theorems": [
    "C08_map_demap",
    "C08_demap_noise_margin",
    "C08_mapping_indices",
    "C08_standard_levels",
    "C08_mapping_custom_levels"
   ],
   "note": ""
  },
  {
   "property": "C09",
   "status": "proved",
   "theorems": [
    "C09_full_scale_unit_power",
    "C09_full_scale_roundtrip",
    "C09_full_scale_noise_margin",
    "C09_full_scale_roundtrip_binary64",
    "C09_full_scale_accuracy"
   ],
   "note": ""
  },
  {
   "property": "C10",
   "status": "proved",
   "theorems": [
    "C10_demapping_effect_on_argument",
    "C10_demapping_repeatable_refuted",
    "C10_demapping_plain_repeatable"
   ],
   "note": ""
  },
  {
   "property": "C11",
   "status": "proved",
   "theorems": [
    "C11_gray_level_vec"
   ],
   "note": ""
  },
  {
   "property": "C12",
   "status": "proved",
   "theorems": [
    "C12_gray_roundtrip",
    "C12_gray_pam3_exact",
    "C12_gray_roundtrip_pam3_refuted"
   ],
   "note": ""
  },
  {
   "property": "C13",
   "status": "proved",
   "theorems": [
    "C13_differential_recurrence",
    "C13_differential_roundtrip_1d",
    "C13_differential_roundtrip_nd",
    "C13_differential_roundtrip_2d_refuted",
    "C13_differential_rotation_insensitive",
    "C13_differential_decode_empty"
   ],
   "note": ""
  },
  {
   "property": "C14",
   "status": "proved",
   "theorems": [
    "C14_manchester_roundtrip",
    "C14_manchester_line",
    "C14_manchester_single_error",
    "C14_manchester_odd_length"
   ],
   "note": ""
  },
  {
   "property": "C15",
   "status": "proved",
   "theorems": [
    "C15_bipolar_encoding",
    "C15_bipolar_roundtrip",
    "C15_bipolar_roundtrip_detect",
    "C15_bipolar_detect_exact",
    "C15_bipolar_single_error_flagged",
    "C15_bipolar_flag_sign_refuted",
    "C15_bipolar_every_error_flagged_refuted"
   ],
   "note": ""
  },
  {
   "property": "C16",
   "status": "proved",
   "theorems": [
    "C16_mlt3_level",
    "C16_mlt3_step",
    "C16_mlt3_roundtrip",
    "C16_mlt3_empty"
   ],
   "note": ""
  },
  {
   "property": "C17",
   "status": "proved",
   "theorems": [
    "C17_diff_manchester_line",
    "C17_diff_manchester_roundtrip",
    "C17_diff_manchester_docstring_refuted"
   ],
   "note": ""
  },
  {
   "property": "C18",
   "status": "proved",
   "theorems": [
    "C18_coding_linear_blocks",
    "C18_coding_linear_xor",
    "C18_coding_linear_bad_generator"
   ],
   "note": ""
  },
  {
   "property": "C19",
   "status": "proved",
   "theorems": [
    "C19_decoding_linear_nearest"
   ],
   "note": ""
  },
  {
   "property": "C20",
   "status": "proved",
   "theorems": [
    "C20_decoding_linear_corrects"
   ],
   "note": ""
  },
  {
   "property": "C21",
   "status": "proved",
   "theorems": [
    "C21_error_prob_overwrites_input",
    "C21_input_preserved_refuted",
    "C21_second_call_reports_no_error"
   ],
   "note": ""
  },
  {
   "property": "C22",
   "status": "proved",
   "theorems": [
    "C22_coding_conv_parity",
    "C22_coding_conv_is_trellis_walk",
    "C22_validity",
    "C22_trellis_ignores_taps_refuted",
    "C22_initial_state_refuted",
    "C22_use_feedback_one_tap_refuted"
   ],
   "note": ""
  },
  {
   "property": "C23",
   "status": "proved",
   "theorems": [
    "C23_coding_conv_linear",
    "C23_coding_conv_causal"
   ],
   "note": ""
  },
  {
   "property": "C24",
   "status": "proved",
   "theorems": [
    "C24_feedback_float_exactness_refuted"
   ],
   "note": ""
  },
  {
   "property": "C25",
   "status": "proved",
   "theorems": [
    "C25_decoding_conv_ml_nearest",
    "C25_decoding_conv_ml_corrects"
   ],
   "note": ""
  },
  {
   "property": "C26",
   "status": "proved",
   "theorems": [
    "C26_viterbi_recovers",
    "C26_parallel_transitions_refuted"
   ],
   "note": ""
  },
  {
   "property": "C27",
   "status": "proved",
   "theorems": [
    "C27_viterbi_is_ml_refuted",
    "C27_viterbi_short_pattern"
   ],
   "note": ""
  },
  {
   "property": "C28",
   "status": "proved",
   "theorems": [
    "C28_check_binary_accepts",
    "C28_check_binary_raises_ValueError",
    "C28_check_binary_bits",
    "C28_accepts_only_bits_refuted",
    "C28_manchester_of_pm1_refuted"
   ],
   "note": ""
  },
  {
   "property": "C29",
   "status": "proved",
   "theorems": [
    "C29_slicer_nearest",
    "C29_nearest_unique",
    "C29_slicer_fixes_levels",
    "C29_slicer_idempotent",
    "C29_slicer_monotone",
    "C29_slicer_flattens",
    "C29_shape_preserved_refuted",
    "C29_plain_list_raises",
    "C29_no_levels_raises"
   ],
   "note": ""
  },
  {
   "property": "C30",
   "status": "proved",
   "theorems": [
    "C30_quantize_value",
    "C30_quantize_error",
    "C30_negative_frac_bits_refuted",
    "C30_other_type_raises",
    "C30_default_type_refuted"
   ],
   "note": ""
  },
  {
   "property": "C31",
   "status": "proved",
   "theorems": [
    "C31_buffer_frames",
    "C31_buffer_flatten",
    "C31_buffer_errors"
   ],
   "note": ""
  },
  {
   "property": "C32",
   "status": "proved",
   "theorems": [
    "C32_buffer_clip",
    "C32_clip_removes_incomplete_row_refuted",
    "C32_clip_keeps_complete_rows_refuted"
   ],
   "note": ""
  },
  {
   "property": "C33",
   "status": "proved",
   "theorems": [
    "C33_upsample",
    "C33_zoh",
    "C33_concatenation"
   ],
   "note": ""
  },
  {
   "property": "C34",
   "status": "proved",
   "theorems": [
    "C34_get_bin_perm",
    "C34_bin2uint_value",
    "C34_uint2bin_bin2uint",
    "C34_bin2uint_uint2bin",
    "C34_hamming"
   ],
   "note": ""
  },
  {
   "property": "C35",
   "status": "proved",
   "theorems": [
    "C35_lock_binary_argmax",
    "C35_lock_binary_nearest",
    "C35_lock_binary_prefix",
    "C35_lock_binary_empty"
   ],
   "note": ""
  },
  {
   "property": "C36",
   "status": "proved",
   "theorems": [
    "C36_lock_rotation",
    "C36_lock_argmax",
    "C36_lock_short_refuted"
   ],
   "note": ""
  },
  {
   "property": "C37",
   "status": "proved",
   "theorems": [
    "C37_checker_init_lock",
    "C37_checker_finds_errors",
    "C37_checker_clean"
   ],
   "note": ""
  },
  {
   "property": "C38",
   "status": "proved",
   "theorems": [
    "C38_econ_finds_errors",
    "C38_econ_clean",
    "C38_econ_general",
    "C38_econ_skipped_refuted",
    "C38_econ_dead_input_refuted"
   ],
   "note": ""
  },
  {
   "property": "C39",
   "status": "proved",
   "theorems": [
    "C39_filter_equation",
    "C39_filtertii_equation",
    "C39_filters_agree",
    "C39_tii_single_refuted"
   ],
   "note": ""
  },
  {
   "property": "C40",
   "status": "proved",
   "theorems": [
    "C40_filter_chunks",
    "C40_tii_chunks",
    "C40_ffedfe_chunks",
    "C40_any_chunking",
    "C40_wrong_memory",
    "C40_integer_chunks_refuted"
   ],
   "note": ""
  },
  {
   "property": "C41",
   "status": "proved",
   "theorems": [
    "C41_ffe_dfe_equation",
    "C41_ffe_only",
    "C41_single_tap",
    "C41_empty_input_refuted",
    "C41_empty_dfe_refuted"
   ],
   "note": ""
  },
  {
   "property": "C42",
   "status": "proved",
   "theorems": [
    "C42_streaming",
    "C42_streaming_osr1",
    "C42_streaming_one_tap",
    "C42_streaming_ffe",
    "C42_short_chunk_refuted",
    "C42_wrong_memory_refuted",
    "C42_lost_decision_refuted"
   ],
   "note": ""
  },
  {
   "property": "C43",
   "status": "proved",
   "theorems": [
    "C43_ffedfe_filters_agree"
   ],
   "note": ""
  },
  {
   "property": "C44",
   "status": "proved",
   "theorems": [
    "C44_matched_dfe"
   ],
   "note": ""
  },
  {
   "property": "C45",
   "status": "proved",
   "theorems": [
    "C45_gradients",
    "C45_equaliser_gradients",
    "C45_derivative_determined",
    "C45_reference",
    "C45_negative_dfe"
   ],
   "note": ""
  },
  {
   "property": "C46",
   "status": "proved",
   "theorems": [
    "C46_error_term",
    "C46_gradients",
    "C46_unscaled_refuted",
    "C46_no_levels"
   ],
   "note": ""
  },
  {
   "property": "C47",
   "status": "proved",
   "theorems": [
    "C47_step",
    "C47_symmetry",
    "C47_direction",
    "C47_lengths",
    "C47_amplitude_refuted"
   ],
   "note": ""
  },
  {
   "property": "C48",
   "status": "proved",
   "theorems": [
    "C48_sum_one",
    "C48_integer_delay",
    "C48_exact_on_polynomials",
    "C48_oversample",
    "C48_order21_refuted",
    "C48_order0"
   ],
   "note": ""
  },
  {
   "property": "C49",
   "status": "proved",
   "theorems": [
    "C49_samples_kept",
    "C49_errors",
    "C49_zero_delay",
    "C49_integer_delay",
    "C49_interpolation",
    "C49_rcos_refuted"
   ],
   "note": ""
  },
  {
   "property": "C50",
   "status": "proved",
   "theorems": [
    "C50_pulse_zeros",
    "C50_no_isi"
   ],
   "note": ""
  },
  {
   "property": "C51",
   "status": "proved",
   "theorems": [
    "C51_rect",
    "C51_errors"
   ],
   "note": ""
  },
  {
   "property": "C52",
   "status": "proved",
   "theorems": [
    "C52_pulse_streaming",
    "C52_pulse_linear",
    "C52_channel",
    "C52_channel_linear",
    "C52_channel_memory",
    "C52_tuple_refuted"
   ],
   "note": ""
  },
  {
   "property": "C53",
   "status": "proved",
   "theorems": [
    "C53_transfer_function",
    "C53_dc_gain",
    "C53_stable",
    "C53_bounded_output",
    "C53_step_settles",
    "C53_streaming",
    "C53_stable_refuted",
    "C53_dc_gain_refuted",
    "C53_hertz_refuted",
    "C53_refusals"
   ],
   "note": ""
  },
  {
   "property": "C54",
   "status": "proved",
   "theorems": [
    "C54_prbs_optimal",
    "C54_prbs_flat",
    "C54_prbs_feedback_refuted",
    "C54_optimal",
    "C54_exact",
    "C54_mirrored_refuted",
    "C54_normalised",
    "C54_peak_refuted",
    "C54_normalise_without_dfe_refuted",
    "C54_regularisation",
    "C54_ridge",
    "C54_synchronised_refuted",
    "C54_advanced",
    "C54_mse_refuted"
   ],
   "note": ""
  },
  {
   "property": "C55",
   "status": "proved",
   "theorems": [
    "C55_reference",
    "C55_estimate",
    "C55_reproduced",
    "C55_nrz_channel",
    "C55_scaling",
    "C55_flag_unused",
    "C55_refusals",
    "C55_true_channel",
    "C55_flat",
    "C55_true_channel_refuted",
    "C55_pn_inv_refuted"
   ],
   "note": ""
  },
  {
   "property": "C56",
   "status": "proved",
   "theorems": [
    "C56_bins",
    "C56_conserved",
    "C56_clip_refuted",
    "C56_streaming",
    "C56_log",
    "C56_axis",
    "C56_axis_refuted",
    "C56_interpolated",
    "C56_phase_refuted",
    "C56_refusals",
    "C56_zero_scale_refuted"
   ],
   "note": ""
  },
  {
   "property": "C57",
   "status": "proved",
   "theorems": [
    "C57_noise_power",
    "C57_channel_noise"
   ],
   "note": ""
  },
  {
   "property": "C58",
   "status": "proved",
   "theorems": [
    "C58_plain",
    "C58_bin_diff",
    "C58_manchester",
    "C58_bipolar",
    "C58_mlt3",
    "C58_diff_manchester",
    "C58_linear",
    "C58_conv",
    "C58_bin_diff_mlt3",
    "C58_code_pair_refuted",
    "C58_two_level_both",
    "C58_two_level_single_refuted",
    "C58_pam4_single_refuted",
    "C58_pam4_both_refuted",
    "C58_shipped_refuted",
    "C58_shipped_without_gray",
    "C58_fractional_bits_raise"
   ],
   "note": ""
  },
  {
   "property": "C59",
   "status": "proved",
   "theorems": [
    "C59_phase_history",
    "C59_phase_frozen",
    "C59_clock_step",
    "C59_delayed_samples",
    "C59_gain_step",
    "C59_gain_direction",
    "C59_tap_step",
    "C59_never_done_refuted",
    "C59_never_done_new_refuted",
    "C59_adaptation_stays_on_refuted",
    "C59_missing_gradient_refuted"
   ],
   "note": ""
  },
  {
   "property": "C60",
   "status": "proved",
   "theorems": [
    "C60_init",
    "C60_history",
    "C60_chunk_errors",
    "C60_clean_chunk",
    "C60_exact_count",
    "C60_never_over",
    "C60_short_chunk_refuted"
   ],
   "note": ""
  },
  {
   "property": "C61",
   "status": "proved",
   "theorems": [
    "C61_unknown_mode",
    "C61_phase_noise_mode_refuted",
    "C61_calibration",
    "C61_window",
    "C61_nfft",
    "C61_works",
    "C61_default_refuted",
    "C61_default_long",
    "C61_amplified",
    "C61_shifted",
    "C61_single_side_band",
    "C61_total_power",
    "C61_tone",
    "C61_tone_power_refuted",
    "C61_constant_signal",
    "C61_default_window"
   ],
   "note": ""
  },
  {
   "property": "C62",
   "status": "proved",
   "theorems": [
    "C62_rcos_continuous",
    "C62_rrc"
   ],
   "note": ""
  },
  {
   "property": "C63",
   "status": "proved",
   "theorems": [
    "C63_ols",
    "C63_ols_unique",
    "C63_ridge_offset",
    "C63_ridge_documented_refuted",
    "C63_ridge_manual",
    "C63_ridge_manual_same_refuted",
    "C63_lasso_documented_refuted",
    "C63_refusals",
    "C63_ols_manual",
    "C63_ols_manual_same_refuted"
   ],
   "note": ""
  },
  {
   "property": "C64",
   "status": "proved",
   "theorems": [
    "C64_source_continues",
    "C64_default_seed",
    "C64_source_counts_clean"
   ],
   "note": ""
  },
  {
   "property": "C65",
   "status": "proved",
   "theorems": [
    "C65_settings",
    "C65_settings_sized",
    "C65_any_chunking",
    "C65_short_chunk_refuted",
    "C65_default_delays",
    "C65_equation",
    "C65_new_taps"
   ],
   "note": ""
  },
  {
   "property": "C66",
   "status": "proved",
   "theorems": [
    "C66_conversion",
    "C66_conversion_error",
    "C66_chunks",
    "C66_lost_samples_refuted"
   ],
   "note": ""
  },
  {
   "property": "C67",
   "status": "proved",
   "theorems": [
    "C67_levels",
    "C67_demapping_scale",
    "C67_example_scale_refuted",
    "C67_default_levels",
    "C67_default_scale",
    "C67_default_amplitude_refuted"
   ],
   "note": ""
  },
  {
   "property": "C68",
   "status": "proved",
   "theorems": [
    "C68_chunk",
    "C68_history"
   ],
   "note": ""
  },
  {
   "property": "C69",
   "status": "proved",
   "theorems": [
    "C69_init",
    "C69_call",
    "C69_any_chunking",
    "C69_noise",
    "C69_iir_ignored_refuted",
    "C69_iir_raises_refuted",
    "C69_unknown_type"
   ],
   "note": ""
  },
  {
   "property": "C70",
   "status": "proved",
   "theorems": [
    "C70_memory",
    "C70_any_chunking",
    "C70_matched"
   ],
   "note": ""
  },
  {
   "property": "C71",
   "status": "proved",
   "theorems": [
    "C71_link",
    "C71_error_free",
    "C71_noise",
    "C71_default_phase_refuted"
   ],
   "note": ""
  },
  {
   "property": "C72",
   "status": "proved",
   "theorems": [
    "C72_path",
    "C72_reached_refuted",
    "C72_errors",
    "C72_accuracy",
    "C72_descent",
    "C72_terminates",
    "C72_default_step_refuted",
    "C72_sparse_refuted",
    "C72_documented_refuted",
    "C72_sklearn_refuted"
   ],
   "note": ""
  },
  {
   "property": "C73",
   "status": "proved",
   "theorems": [
    "C73_spline",
    "C73_value",
    "C73_no_jitter",
    "C73_defined",
    "C73_short_refuted",
    "C73_whole_samples",
    "C73_cubic",
    "C73_small",
    "C73_ends_refuted",
    "C73_streaming_refuted"
   ],
   "note": ""
  },
  {
   "property": "C74",
   "status": "proved",
   "theorems": [
    "C74_nearest",
    "C74_correct",
    "C74_level_fixed",
    "C74_saturates",
    "C74_monotone",
    "C74_nonfinite",
    "C74_exact_refuted",
    "C74_saturation_refuted",
    "C74_raises",
    "C74_quantize",
    "C74_quantize_infinity_refuted",
    "C74_demap",
    "C74_demap_exact_refuted"
   ],
   "note": ""
  },
  {
   "property": "C75",
   "status": "proved",
   "theorems": [
    "C75_link",
    "C75_whole_chunks",
    "C75_blocks",
    "C75_manchester_half_refuted",
    "C75_bipolar",
    "C75_differential",
    "C75_differential_refuted",
    "C75_mlt3",
    "C75_mlt3_refuted"
   ],
   "note": ""
  },
  {
   "property": "C76",
   "status": "proved",
   "theorems": [
    "C76_dot",
    "C76_equation",
    "C76_decisions",
    "C76_matched",
    "C76_streaming",
    "C76_order_refuted"
   ],
   "note": ""
  },
  {
   "property": "C77",
   "status": "proved",
   "theorems": [
    "C77_no_jitter",
    "C77_pulse",
    "C77_awgn",
    "C77_isi",
    "C77_own_draws",
    "C77_isi_own_draws_refuted",
    "C77_short",
    "C77_small",
    "C77_link",
    "C77_error_free",
    "C77_jitter"
   ],
   "note": ""
  },
  {
   "property": "C78",
   "status": "proved",
   "theorems": [
    "C78_response",
    "C78_link",
    "C78_error_free",
    "C78_locked",
    "C78_noise",
    "C78_start_refuted"
   ],
   "note": ""
  },
  {
   "property": "C79",
   "status": "proved",
   "theorems": [
    "C79_independent",
    "C79_package",
    "C79_created",
    "C79_goes_through",
    "C79_private",
    "C79_private_goes_through",
    "C79_common",
    "C79_sharing_refuted",
    "C79_integer_refuted"
   ],
   "note": ""
  },
  {
   "property": "C80",
   "status": "proved",
   "theorems": [
    "C80_same_result",
    "C80_pattern",
    "C80_analog",
    "C80_listening",
    "C80_always",
    "C80_last_bits",
    "C80_whole",
    "C80_between",
    "C80_stuck",
    "C80_attempt",
    "C80_attempt_receiver",
    "C80_attempt_stays_refuted",
    "C80_records",
    "C80_recorded_pattern",
    "C80_never_returns_refuted",
    "C80_package_refuted",
    "C80_attribute_error_refuted"
   ],
   "note": ""
  },
  {
   "property": "C81",
   "status": "proved",
   "theorems": [
    "C81_returns",
    "C81_shape",
    "C81_bits",
    "C81_minus_one_refuted"
   ],
   "note": ""
  },
  {
   "property": "C82",
   "status": "proved",
   "theorems": [
    "C82_call",
    "C82_history",
    "C82_settings",
    "C82_codes",
    "C82_conv_carries",
    "C82_levels",
    "C82_shipped",
    "C82_converge_refuted",
    "C82_shipped_converge_refuted",
    "C82_shipped_symbols_refuted",
    "C82_shipped_first_refuted"
   ],
   "note": ""
  },
  {
   "property": "C83",
   "status": "proved",
   "theorems": [
    "C83_traceback",
    "C83_paths",
    "C83_corrects",
    "C83_uncorrected",
    "C83_forgetting",
    "C83_single_refuted",
    "C83_shipped_refuted"
   ],
   "note": ""
  },
  {
   "property": "C84",
   "status": "proved",
   "theorems": [
    "C84_gray",
    "C84_differential",
    "C84_differential_single",
    "C84_manchester",
    "C84_diff_manchester",
    "C84_bipolar",
    "C84_mlt3",
    "C84_linear",
    "C84_dfe_recovers",
    "C84_dfe_immune",
    "C84_dfe_settles_refuted"
   ],
   "note": ""
  },
  {
   "property": "C85",
   "status": "proved",
   "theorems": [
    "C85_levels",
    "C85_tx",
    "C85_clean",
    "C85_margin",
    "C85_counts",
    "C85_gray_counts",
    "C85_readme_refuted",
    "C85_runs_refuted"
   ],
   "note": ""
  },
  {
   "property": "C86",
   "status": "proved",
   "theorems": [
    "C86_agree",
    "C86_channel",
    "C86_reference",
    "C86_reference_ridge",
    "C86_equaliser",
    "C86_equaliser_ridge",
    "C86_raises",
    "C86_factor",
    "C86_overlap_refuted",
    "C86_ridge_feedback_refuted"
   ],
   "note": ""
  },
  {
   "property": "C87",
   "status": "proved",
   "theorems": [
    "C87_pattern",
    "C87_search",
    "C87_symbol_rate",
    "C87_exact",
    "C87_feedback",
    "C87_lost_refuted"
   ],
   "note": ""
  },
  {
   "property": "C88",
   "status": "proved",
   "theorems": [
    "C88_ladder",
    "C88_band",
    "C88_demap",
    "C88_demap_fs",
    "C88_inside",
    "C88_above",
    "C88_below_refuted"
   ],
   "note": ""
  },
  {
   "property": "C89",
   "status": "proved",
   "theorems": [
    "C89_line",
    "C89_step",
    "C89_length",
    "C89_lock",
    "C89_run",
    "C89_dither",
    "C89_period_refuted"
   ],
   "note": ""
  },
  {
   "property": "C90",
   "status": "proved",
   "theorems": [
    "C90_pass",
    "C90_ffe",
    "C90_ffe_decisions",
    "C90_dfe",
    "C90_loop",
    "C90_dfe_loop",
    "C90_large_refuted",
    "C90_stop_refuted"
   ],
   "note": ""
  },
  {
   "property": "C91",
   "status": "proved",
   "theorems": [
    "C91_ffe",
    "C91_dfe"
   ],
   "note": ""
  }
 ]
}