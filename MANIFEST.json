{
 "claims": [
  {
   "property": "C01",
   "status": "proved",
   "theorems": [
    "C01_get_exact"
   ],
   "note": "Proved for every input in the quantifier."
  },
  {
   "property": "C02",
   "status": "proved",
   "theorems": [
    "C02_assign_exact"
   ],
   "note": "Proved for every input in the quantifier."
  },
  {
   "property": "C03",
   "status": "proved",
   "theorems": [
    "C03_get_wrapped_modulo"
   ],
   "note": "Proved for every input in the quantifier."
  },
  {
   "property": "C04",
   "status": "proved",
   "theorems": [
    "C04_sub_slice_alias"
   ],
   "note": "Proved for every input in the quantifier."
  },
  {
   "property": "C05",
   "status": "proved",
   "theorems": [
    "C05_sub_slice_acceptance",
    "C05_whole_slice_refused"
   ],
   "note": "Proved for every input in the quantifier."
  },
  {
   "property": "C06",
   "status": "proved",
   "theorems": [
    "C06_sub_slice_overflow_checked",
    "C06_sub_slice_in_bounds_refuted"
   ],
   "note": "Holds as stated, including the documented defect, which is what C06_sub_slice_in_bounds_refuted proves."
  },
  {
   "property": "C07",
   "status": "proved",
   "theorems": [
    "C07_lerp_in_bounds"
   ],
   "note": "Proved for every input in the quantifier."
  },
  {
   "property": "C08",
   "status": "proved",
   "theorems": [
    "C08_lerp_last_sample_refuted"
   ],
   "note": "Holds as stated, including the documented defect, which is what C08_lerp_last_sample_refuted proves."
  },
  {
   "property": "C09",
   "status": "proved",
   "theorems": [
    "C09_lerp_neighbours",
    "C09_lerp_outside"
   ],
   "note": "Proved for every input in the quantifier."
  },
  {
   "property": "C10",
   "status": "proved",
   "theorems": [
    "C10_lerp_wrapped_in_bounds",
    "C10_lerp_wrapped_neighbours",
    "C10_integer_position"
   ],
   "note": "Proved for every input in the quantifier."
  },
  {
   "property": "C11",
   "status": "proved",
   "theorems": [
    "C11_four_samples"
   ],
   "note": "Proved for every input in the quantifier."
  },
  {
   "property": "C12",
   "status": "proved",
   "theorems": [
    "C12_four_samples_overflow_refuted"
   ],
   "note": "Holds as stated, including the documented defect, which is what C12_four_samples_overflow_refuted proves."
  },
  {
   "property": "C13",
   "status": "proved",
   "theorems": [
    "C13_lagrange_wrapped_shifted_refuted",
    "C13_even_window_refuted",
    "C13_delay_tap_refuted"
   ],
   "note": "Holds as stated, including the documented defect, which is what C13_lagrange_wrapped_shifted_refuted, C13_even_window_refuted, C13_delay_tap_refuted proves."
  },
  {
   "property": "C14",
   "status": "proved",
   "theorems": [
    "C14_lagrange_wrapped_in_bounds",
    "C14_lagrange_wrapped_panics"
   ],
   "note": "Proved for every input in the quantifier."
  },
  {
   "property": "C15",
   "status": "proved",
   "theorems": [
    "C15_four_point_integer_refuted",
    "C15_four_point_ramp_refuted"
   ],
   "note": "Holds as stated, including the documented defect, which is what C15_four_point_integer_refuted, C15_four_point_ramp_refuted proves."
  },
  {
   "property": "C16",
   "status": "proved",
   "theorems": [
    "C16_any_history",
    "C16_panic_only_when"
   ],
   "note": "Proved for every input in the quantifier."
  },
  {
   "property": "C17",
   "status": "proved",
   "theorems": [
    "C17_delay_line_fifo"
   ],
   "note": "Proved for every input in the quantifier."
  },
  {
   "property": "C18",
   "status": "proved",
   "theorems": [
    "C18_delay_line_taps",
    "C18_tap_written_k_ago"
   ],
   "note": "Proved for every input in the quantifier."
  },
  {
   "property": "C19",
   "status": "proved",
   "theorems": [
    "C19_delay_line_confined",
    "C19_lerp_tap_confined"
   ],
   "note": "Proved for every input in the quantifier."
  },
  {
   "property": "C20",
   "status": "proved",
   "theorems": [
    "C20_change_buffer_refuted"
   ],
   "note": "Holds as stated, including the documented defect, which is what C20_change_buffer_refuted proves."
  },
  {
   "property": "C21",
   "status": "proved",
   "theorems": [
    "C21_empty_delay_line_refuted"
   ],
   "note": "Holds as stated, including the documented defect, which is what C21_empty_delay_line_refuted proves."
  },
  {
   "property": "C22",
   "status": "proved",
   "theorems": [
    "C22_comb_recurrence"
   ],
   "note": "Proved for every input in the quantifier."
  },
  {
   "property": "C23",
   "status": "proved",
   "theorems": [
    "C23_comb_bounded"
   ],
   "note": "Proved for every input in the quantifier."
  },
  {
   "property": "C24",
   "status": "proved",
   "theorems": [
    "C24_all_pass_recurrence"
   ],
   "note": "Proved for every input in the quantifier."
  },
  {
   "property": "C25",
   "status": "proved",
   "theorems": [
    "C25_all_pass_bounded"
   ],
   "note": "Proved for every input in the quantifier."
  },
  {
   "property": "C26",
   "status": "proved",
   "theorems": [
    "C26_all_pass_transfer",
    "C26_all_pass_dc_gain",
    "C26_all_pass_energy_refuted"
   ],
   "note": "Holds as stated, including the documented defect, which is what C26_all_pass_energy_refuted proves."
  },
  {
   "property": "C27",
   "status": "proved",
   "theorems": [
    "C27_biquad_recurrence"
   ],
   "note": "Proved for every input in the quantifier."
  },
  {
   "property": "C28",
   "status": "proved",
   "theorems": [
    "C28_biquad_linear",
    "C28_biquad_time_invariant"
   ],
   "note": "Proved for every input in the quantifier."
  },
  {
   "property": "C29",
   "status": "proved",
   "theorems": [
    "C29_biquad_poisoned",
    "C29_fresh_is_silent"
   ],
   "note": "Proved for every input in the quantifier."
  },
  {
   "property": "C30",
   "status": "proved",
   "theorems": [
    "C30_designs_stable",
    "C30_zero_cut_refuted",
    "C30_low_shelf_minus_zero_refuted",
    "C30_minus_zero_cut_refuted"
   ],
   "note": "Holds as stated, including the documented defect, which is what C30_zero_cut_refuted, C30_low_shelf_minus_zero_refuted, C30_minus_zero_cut_refuted proves."
  },
  {
   "property": "C31",
   "status": "proved",
   "theorems": [
    "C31_lowpass_gain",
    "C31_highpass_gain"
   ],
   "note": "Proved for every input in the quantifier."
  },
  {
   "property": "C32",
   "status": "proved",
   "theorems": [
    "C32_allpass_lossless"
   ],
   "note": "Proved for every input in the quantifier."
  },
  {
   "property": "C33",
   "status": "proved",
   "theorems": [
    "C33_notch"
   ],
   "note": "Proved for every input in the quantifier."
  },
  {
   "property": "C34",
   "status": "proved",
   "theorems": [
    "C34_bell_gain",
    "C34_bell_inverse"
   ],
   "note": "Proved for every input in the quantifier."
  },
  {
   "property": "C35",
   "status": "proved",
   "theorems": [
    "C35_low_shelf_gain",
    "C35_low_shelf_inverse"
   ],
   "note": "Proved for every input in the quantifier."
  },
  {
   "property": "C36",
   "status": "proved",
   "theorems": [
    "C36_sin_i16_exact"
   ],
   "note": "Proved for every input in the quantifier."
  },
  {
   "property": "C37",
   "status": "proved",
   "theorems": [
    "C37_sin_i16_accuracy",
    "C37_sin_i16_odd",
    "C37_sin_i16_near_monotone"
   ],
   "note": "The accuracy and near-monotone theorems rest on a kernel computation over all i16 phases (complete for the domain) joined to proved Taylor bounds; oddness is by induction."
  },
  {
   "property": "C38",
   "status": "proved",
   "theorems": [
    "C38_sine_table",
    "C38_table_4096_short_refuted",
    "C38_lookup_sin_total",
    "C38_table_long_refuted"
   ],
   "note": "Holds as stated, including the documented defect, which is what C38_table_4096_short_refuted, C38_table_long_refuted proves."
  },
  {
   "property": "C39",
   "status": "proved",
   "theorems": [
    "C39_phase_history",
    "C39_phase_closed_form",
    "C39_shift_only_offsets",
    "C39_frequency_continuity"
   ],
   "note": "Proved for every input in the quantifier."
  },
  {
   "property": "C40",
   "status": "proved",
   "theorems": [
    "C40_normalized_range"
   ],
   "note": "Proved for every input in the quantifier."
  },
  {
   "property": "C41",
   "status": "proved",
   "theorems": [
    "C41_frozen",
    "C41_saturates"
   ],
   "note": "Proved for every input in the quantifier."
  },
  {
   "property": "C42",
   "status": "proved",
   "theorems": [
    "C42_frequency_accuracy"
   ],
   "note": "Proved for every input in the quantifier."
  },
  {
   "property": "C43",
   "status": "proved",
   "theorems": [
    "C43_set_freq_answers",
    "C43_set_freq_no_effect_refuted"
   ],
   "note": "Holds as stated, including the documented defect, which is what C43_set_freq_no_effect_refuted proves."
  },
  {
   "property": "C44",
   "status": "proved",
   "theorems": [
    "C44_sawtooth",
    "C44_triangle",
    "C44_exact_symmetric"
   ],
   "note": "Proved for every input in the quantifier."
  },
  {
   "property": "C45",
   "status": "proved",
   "theorems": [
    "C45_rectangle_refuted"
   ],
   "note": "Holds as stated, including the documented defect, which is what C45_rectangle_refuted proves."
  },
  {
   "property": "C46",
   "status": "proved",
   "theorems": [
    "C46_fixed_point_sin_range",
    "C46_sine_oscillator"
   ],
   "note": "Proved for every input in the quantifier."
  },
  {
   "property": "C47",
   "status": "proved",
   "theorems": [
    "C47_wavetable_reads",
    "C47_wavetable_over_read_refuted",
    "C47_foreign_sample_refuted"
   ],
   "note": "In-bounds condition for every table; the over-read is proved for tables of at most 2^24 samples, as the property states."
  },
  {
   "property": "C48",
   "status": "proved",
   "theorems": [
    "C48_output_range"
   ],
   "note": "Proved for every input in the quantifier."
  },
  {
   "property": "C49",
   "status": "proved",
   "theorems": [
    "C49_decay_nan_forever_refuted",
    "C49_release_nan_forever_refuted"
   ],
   "note": "Holds as stated, including the documented defect, which is what C49_decay_nan_forever_refuted, C49_release_nan_forever_refuted proves."
  },
  {
   "property": "C50",
   "status": "proved",
   "theorems": [
    "C50_stage_order"
   ],
   "note": "Proved for every input in the quantifier."
  },
  {
   "property": "C51",
   "status": "proved",
   "theorems": [
    "C51_held_note",
    "C51_released_note",
    "C51_fresh_note"
   ],
   "note": "Proved for every input in the quantifier."
  },
  {
   "property": "C52",
   "status": "proved",
   "theorems": [
    "C52_monotone_stages"
   ],
   "note": "Proved for every input in the quantifier."
  },
  {
   "property": "C53",
   "status": "proved",
   "theorems": [
    "C53_setter_panics",
    "C53_rate_floor",
    "C53_rate_accuracy"
   ],
   "note": "Proved for every input in the quantifier."
  },
  {
   "property": "C54",
   "status": "proved",
   "theorems": [
    "C54_restart_from_zero",
    "C54_retrigger_jumps",
    "C54_release_from_level",
    "C54_stale_release_level_refuted"
   ],
   "note": "Holds as stated, including the documented defect, which is what C54_stale_release_level_refuted proves."
  },
  {
   "property": "C55",
   "status": "proved",
   "theorems": [
    "C55_sample_rate_inert"
   ],
   "note": "Proved for every input in the quantifier."
  },
  {
   "property": "C56",
   "status": "proved",
   "theorems": [
    "C56_float_word_float",
    "C56_word_float_word"
   ],
   "note": "Proved for every input in the quantifier."
  },
  {
   "property": "C57",
   "status": "proved",
   "theorems": [
    "C57_split_join",
    "C57_split_meaning",
    "C57_join_split_iff",
    "C57_oversized_mantissa"
   ],
   "note": "Proved for every input in the quantifier."
  },
  {
   "property": "C58",
   "status": "proved",
   "theorems": [
    "C58_exact_truncation",
    "C58_consequences",
    "C58_refusals_and_identity",
    "C58_unchecked_overshift"
   ],
   "note": "Proved for every input in the quantifier."
  },
  {
   "property": "C59",
   "status": "proved",
   "theorems": [
    "C59_clears_low_mantissa_bits",
    "C59_finite_values",
    "C59_idempotent",
    "C59_special_values"
   ],
   "note": "Proved for every input in the quantifier."
  },
  {
   "property": "C60",
   "status": "proved",
   "theorems": [
    "C60_lerp_endpoints"
   ],
   "note": "Proved for every input in the quantifier."
  },
  {
   "property": "C61",
   "status": "proved",
   "theorems": [
    "C61_lerp_accuracy",
    "C61_lerp_overshoot_refuted"
   ],
   "note": "Holds as stated, including the documented defect, which is what C61_lerp_overshoot_refuted proves."
  },
  {
   "property": "C62",
   "status": "proved",
   "theorems": [
    "C62_lerp_validation"
   ],
   "note": "Proved for every input in the quantifier."
  },
  {
   "property": "C63",
   "status": "proved",
   "theorems": [
    "C63_lagrange_nodes",
    "C63_lagrange_reproduces",
    "C63_lagrange_is_polynomial",
    "C63_four_points_same"
   ],
   "note": "Proved for every input in the quantifier."
  },
  {
   "property": "C64",
   "status": "proved",
   "theorems": [
    "C64_lagrange_precondition",
    "C64_lagrange_outcome"
   ],
   "note": "Proved for every input in the quantifier."
  },
  {
   "property": "C65",
   "status": "proved",
   "theorems": [
    "C65_pan_range_check",
    "C65_nan_amount"
   ],
   "note": "Proved for every input in the quantifier."
  },
  {
   "property": "C66",
   "status": "proved",
   "theorems": [
    "C66_mono_pan_bounded",
    "C66_mono_pan_mirror",
    "C66_mono_pan_monotone",
    "C66_mono_pan_ends"
   ],
   "note": "Proved for every input in the quantifier."
  },
  {
   "property": "C67",
   "status": "proved",
   "theorems": [
    "C67_constant_sum",
    "C67_crossfade_convex",
    "C67_constant_power"
   ],
   "note": "Proved for every input in the quantifier."
  },
  {
   "property": "C68",
   "status": "proved",
   "theorems": [
    "C68_decibel_validation",
    "C68_never_nan_refuted"
   ],
   "note": "Holds as stated, including the documented defect, which is what C68_never_nan_refuted proves."
  },
  {
   "property": "C69",
   "status": "proved",
   "theorems": [
    "C69_decibel_round_trip"
   ],
   "note": "Proved for every input in the quantifier."
  },
  {
   "property": "C70",
   "status": "proved",
   "theorems": [
    "C70_digital_clip",
    "C70_digital_clip_properties"
   ],
   "note": "Proved for every input in the quantifier."
  },
  {
   "property": "C71",
   "status": "proved",
   "theorems": [
    "C71_unfinished_clippers_refuted"
   ],
   "note": "Holds as stated, including the documented defect, which is what C71_unfinished_clippers_refuted proves."
  },
  {
   "property": "C72",
   "status": "proved",
   "theorems": [
    "C72_conversions_inverse",
    "C72_conversions_monotone",
    "C72_round_trip_accuracy"
   ],
   "note": "Proved for every input in the quantifier."
  },
  {
   "property": "C73",
   "status": "proved",
   "theorems": [
    "C73_too_few_nodes",
    "C73_odd_nodes_twice_refuted",
    "C73_affine_five_thirds_refuted",
    "C73_constant_odd_refuted",
    "C73_sum_start"
   ],
   "note": "Holds as stated, including the documented defect, which is what C73_odd_nodes_twice_refuted, C73_affine_five_thirds_refuted, C73_constant_odd_refuted proves."
  },
  {
   "property": "C74",
   "status": "proved",
   "theorems": [
    "C74_tanh_exact",
    "C74_tanh_bounded",
    "C74_tanh_monotone_refuted",
    "C74_tanh_f32_accuracy",
    "C74_tanh_f32_nan_refuted"
   ],
   "note": "Holds as stated, including the documented defect, which is what C74_tanh_monotone_refuted, C74_tanh_f32_nan_refuted proves."
  },
  {
   "property": "C75",
   "status": "proved",
   "theorems": [
    "C75_cosh_even",
    "C75_sinh_odd",
    "C75_sinc_envelope"
   ],
   "note": "Proved for every input in the quantifier."
  },
  {
   "property": "C76",
   "status": "proved",
   "theorems": [
    "C76_fast_tan_shape",
    "C76_fast_tan_accuracy"
   ],
   "note": "Proved for every input in the quantifier."
  },
  {
   "property": "C77",
   "status": "proved",
   "theorems": [
    "C77_zero_outside",
    "C77_over_read_refuted",
    "C77_interpolates",
    "C77_symmetry"
   ],
   "note": "Holds as stated, including the documented defect, which is what C77_over_read_refuted proves."
  },
  {
   "property": "C78",
   "status": "proved",
   "theorems": [
    "C78_allpass_phase"
   ],
   "note": "Proved for every input in the quantifier."
  },
  {
   "property": "C79",
   "status": "proved",
   "theorems": [
    "C79_cutoff_gain"
   ],
   "note": "Proved for every input in the quantifier."
  },
  {
   "property": "C80",
   "status": "proved",
   "theorems": [
    "C80_fixed_point_sin_accuracy",
    "C80_fixed_point_cos_accuracy",
    "C80_fixed_point_sin_nonfinite"
   ],
   "note": "Proved for every input in the quantifier."
  },
  {
   "property": "C81",
   "status": "proved",
   "theorems": [
    "C81_sinc_accuracy",
    "C81_sinc_near_zero_refuted"
   ],
   "note": "Holds as stated, including the documented defect, which is what C81_sinc_near_zero_refuted proves."
  },
  {
   "property": "C82",
   "status": "proved",
   "theorems": [
    "C82_parameters_in_force"
   ],
   "note": "Proved for every input in the quantifier."
  },
  {
   "property": "C83",
   "status": "proved",
   "theorems": [
    "C83_attack_curve",
    "C83_decay_curve",
    "C83_release_curve",
    "C83_attack_in_seconds"
   ],
   "note": "Proved for every input in the quantifier."
  },
  {
   "property": "C84",
   "status": "proved",
   "theorems": [
    "C84_raw_slice_same_samples",
    "C84_delay_line_raw_view",
    "C84_comb_all_pass_raw_view",
    "C84_raw_store_seen"
   ],
   "note": "Proved for every input in the quantifier."
  },
  {
   "property": "C85",
   "status": "proved",
   "theorems": [
    "C85_lagrange_tap_f32",
    "C85_constant_line_refuted",
    "C85_fractional_tap",
    "C85_whole_tap",
    "C85_lagrange_tap_shifted_refuted"
   ],
   "note": "Holds as stated, including the documented defect, which is what C85_constant_line_refuted, C85_lagrange_tap_shifted_refuted proves."
  },
  {
   "property": "C86",
   "status": "proved",
   "theorems": [
    "C86_stereo_gains",
    "C86_louder_side",
    "C86_mono_sum",
    "C86_crossfade"
   ],
   "note": "Proved for every input in the quantifier."
  },
  {
   "property": "C87",
   "status": "proved",
   "theorems": [
    "C87_phase_shift_turns",
    "C87_phase_shift_wrap_refuted",
    "C87_functional_history",
    "C87_wavetable_history"
   ],
   "note": "Holds as stated, including the documented defect, which is what C87_phase_shift_wrap_refuted proves."
  },
  {
   "property": "C88",
   "status": "proved",
   "theorems": [
    "C88_hyperbolic_exact",
    "C88_hyperbolic_f32",
    "C88_tanh_near_zero"
   ],
   "note": "Proved for every input in the quantifier."
  },
  {
   "property": "C89",
   "status": "proved",
   "theorems": [
    "C89_si_total",
    "C89_si_five_thirds_refuted",
    "C89_si_small_arguments_refuted"
   ],
   "note": "Holds as stated, including the documented defect, which is what C89_si_five_thirds_refuted, C89_si_small_arguments_refuted proves."
  },
  {
   "property": "C90",
   "status": "proved",
   "theorems": [
    "C90_lookup_sin_curve_refuted",
    "C90_lookup_sin_never_above",
    "C90_lookup_sin_near_zero_refuted"
   ],
   "note": "Holds as stated, including the documented defect, which is what C90_lookup_sin_curve_refuted, C90_lookup_sin_near_zero_refuted proves."
  },
  {
   "property": "C91",
   "status": "proved",
   "theorems": [
    "C91_table_refuted",
    "C91_lookup_curve_refuted",
    "C91_level_refuted"
   ],
   "note": "Holds as stated, including the documented defect, which is what C91_table_refuted, C91_lookup_curve_refuted, C91_level_refuted proves."
  },
  {
   "property": "C92",
   "status": "proved",
   "theorems": [
    "C92_gain_is_unique",
    "C92_response",
    "C92_monotone",
    "C92_amplifies_iff_resonant",
    "C92_unit_shelf_refuted"
   ],
   "note": "Holds as stated, including the documented defect, which is what C92_unit_shelf_refuted proves."
  },
  {
   "property": "C93",
   "status": "proved",
   "theorems": [
    "C93_comb_tracks",
    "C93_comb_settles",
    "C93_comb_diverges"
   ],
   "note": "Proved for every input in the quantifier."
  },
  {
   "property": "C94",
   "status": "proved",
   "theorems": [
    "C94_all_pass_tracks",
    "C94_all_pass_settles"
   ],
   "note": "Proved for every input in the quantifier."
  },
  {
   "property": "C95",
   "status": "proved",
   "theorems": [
    "C95_biquad_tracks",
    "C95_ringing"
   ],
   "note": "Proved for every input in the quantifier."
  },
  {
   "property": "C96",
   "status": "proved",
   "theorems": [
    "C96_rounded_coefficients",
    "C96_rounded_designs_stable",
    "C96_lowpass_dc_gain",
    "C96_low_cutoff_refuted"
   ],
   "note": "Holds as stated, including the documented defect, which is what C96_low_cutoff_refuted proves."
  },
  {
   "property": "C97",
   "status": "proved",
   "theorems": [
    "C97_fast_tan_f32",
    "C97_setup_accuracy",
    "C97_designs_accurate",
    "C97_low_cutoff_refuted"
   ],
   "note": "Holds as stated, including the documented defect, which is what C97_low_cutoff_refuted proves."
  },
  {
   "property": "C98",
   "status": "proved",
   "theorems": [
    "C98_comb_response",
    "C98_comb_gain_is_unique",
    "C98_all_pass_gain_is_unique",
    "C98_comb_gain_range",
    "C98_comb_peaks",
    "C98_comb_peaks_fall",
    "C98_all_pass_response",
    "C98_all_pass_range",
    "C98_all_pass_flat_refuted"
   ],
   "note": "Holds as stated, including the documented defect, which is what C98_all_pass_flat_refuted proves."
  },
  {
   "property": "C99",
   "status": "proved",
   "theorems": [
    "C99_lagrange_accuracy",
    "C99_lagrange_at_nodes",
    "C99_four_points_same",
    "C99_four_points_accuracy",
    "C99_lagrange_wrapped_accuracy",
    "C99_whole_position_refuted"
   ],
   "note": "Holds as stated, including the documented defect, which is what C99_whole_position_refuted proves."
  },
  {
   "property": "C100",
   "status": "proved",
   "theorems": [
    "C100_decibels_accuracy",
    "C100_volt_ratio_accuracy",
    "C100_round_trip_f32",
    "C100_order_kept"
   ],
   "note": "Proved for every input in the quantifier."
  },
  {
   "property": "C101",
   "status": "proved",
   "theorems": [
    "C101_bell_accuracy",
    "C101_low_shelf_accuracy"
   ],
   "note": "Proved for every input in the quantifier."
  },
  {
   "property": "C102",
   "status": "proved",
   "theorems": [
    "C102_any_schedule",
    "C102_equal_buffers_safe"
   ],
   "note": "Proved for every input in the quantifier."
  },
  {
   "property": "C103",
   "status": "proved",
   "theorems": [
    "C103_units_independent"
   ],
   "note": "Proved for every input in the quantifier."
  },
  {
   "property": "C104",
   "status": "proved",
   "theorems": [
    "C104_programs_are_calls",
    "C104_threads_race_free",
    "C104_threads_finish",
    "C104_shared_slice_race_refuted",
    "C104_lost_update_refuted"
   ],
   "note": "Holds as stated, including the documented defect, which is what C104_shared_slice_race_refuted, C104_lost_update_refuted proves."
  },
  {
   "property": "C105",
   "status": "proved",
   "theorems": [
    "C105_alive_slice_reads",
    "C105_made_slice_reads",
    "C105_dropped_buffer_refuted"
   ],
   "note": "Holds as stated, including the documented defect, which is what C105_dropped_buffer_refuted proves."
  },
  {
   "property": "C106",
   "status": "proved",
   "theorems": [
    "C106_soft_is_instance",
    "C106_functional_any_accumulator",
    "C106_wavetable_any_accumulator",
    "C106_wavetable_outside_refuted"
   ],
   "note": "Holds as stated, including the documented defect, which is what C106_wavetable_outside_refuted proves."
  },
  {
   "property": "C107",
   "status": "proved",
   "theorems": [
    "C107_filter_follows",
    "C107_design_error",
    "C107_designs_follow",
    "C107_bell_follows",
    "C107_low_shelf_follows"
   ],
   "note": "Proved for every input in the quantifier."
  },
  {
   "property": "C108",
   "status": "proved",
   "theorems": [
    "C108_copied_line_refuted",
    "C108_read_head",
    "C108_copied_units_refuted"
   ],
   "note": "Holds as stated, including the documented defect, which is what C108_copied_line_refuted, C108_copied_units_refuted proves."
  },
  {
   "property": "C109",
   "status": "proved",
   "theorems": [
    "C109_line_runs_on_refuted",
    "C109_comb_runs_on_refuted",
    "C109_all_pass_runs_on_refuted",
    "C109_taps_frozen_refuted"
   ],
   "note": "Holds as stated, including the documented defect, which is what C109_line_runs_on_refuted, C109_comb_runs_on_refuted, C109_all_pass_runs_on_refuted, C109_taps_frozen_refuted proves."
  },
  {
   "property": "C110",
   "status": "proved",
   "theorems": [
    "C110_peak",
    "C110_held_gain",
    "C110_f32_held",
    "C110_held_settings_bounded",
    "C110_coefficients_in_force",
    "C110_small_feedback_bounded",
    "C110_alternating_unbounded_refuted",
    "C110_near_quarter_bounded",
    "C110_alternating_bounded",
    "C110_audio_rate_overflow_refuted",
    "C110_f32_tracks",
    "C110_f32_small_feedback"
   ],
   "note": "Holds as stated, including the documented defect, which is what C110_alternating_unbounded_refuted, C110_audio_rate_overflow_refuted proves."
  },
  {
   "property": "C111",
   "status": "proved",
   "theorems": [
    "C111_network_is_composition",
    "C111_network_bounded",
    "C111_shared_buffer_refuted",
    "C111_network_tracks",
    "C111_superposition",
    "C111_time_invariant",
    "C111_order_irrelevant"
   ],
   "note": "Holds as stated, including the documented defect, which is what C111_shared_buffer_refuted proves."
  },
  {
   "property": "C112",
   "status": "proved",
   "theorems": [
    "C112_voice_bounded",
    "C112_instrument_bounded",
    "C112_idle_silent",
    "C112_note_ends"
   ],
   "note": "Proved for every input in the quantifier."
  },
  {
   "property": "C113",
   "status": "proved",
   "theorems": [
    "C113_comb_circulates",
    "C113_allpass_silent",
    "C113_comb_hum_refuted",
    "C113_biquad_hum_refuted",
    "C113_biquad_quiet",
    "C113_click_refuted",
    "C113_comb_quiet"
   ],
   "note": "Holds as stated, including the documented defect, which is what C113_comb_hum_refuted, C113_biquad_hum_refuted, C113_click_refuted proves."
  },
  {
   "property": "C114",
   "status": "proved",
   "theorems": [
    "C114_network_fades",
    "C114_network_quiet",
    "C114_note_fades"
   ],
   "note": "Proved for every input in the quantifier."
  },
  {
   "property": "C115",
   "status": "proved",
   "theorems": [
    "C115_live_is_composition",
    "C115_still_network",
    "C115_live_bounded"
   ],
   "note": "Proved for every input in the quantifier."
  },
  {
   "property": "C116",
   "status": "proved",
   "theorems": [
    "C116_comb_decay",
    "C116_no_faster",
    "C116_rate",
    "C116_sixty_db",
    "C116_f32_comb_decay"
   ],
   "note": "Proved for every input in the quantifier."
  },
  {
   "property": "C117",
   "status": "proved",
   "theorems": [
    "C117_ring_down",
    "C117_energy",
    "C117_resonant",
    "C117_designs",
    "C117_level",
    "C117_f32_ring_down"
   ],
   "note": "Proved for every input in the quantifier."
  },
  {
   "property": "C118",
   "status": "proved",
   "theorems": [
    "C118_network_falls",
    "C118_stable_networks_fall",
    "C118_stable_runs_fall",
    "C118_f32_network_falls"
   ],
   "note": "Proved for every input in the quantifier."
  },
  {
   "property": "C119",
   "status": "proved",
   "theorems": [
    "C119_live_tracks",
    "C119_live_tracks_inputs",
    "C119_still_accuracy"
   ],
   "note": "Proved for every input in the quantifier."
  },
  {
   "property": "C120",
   "status": "proved",
   "theorems": [
    "C120_live_falls",
    "C120_limited_moves_fall",
    "C120_limited_runs_fall",
    "C120_still_falls",
    "C120_f32_live_falls"
   ],
   "note": "Proved for every input in the quantifier. One rate for all histories is proved for biquads with |a1| + |a2| <= s^2 < 1; other coefficient schedules enter C120_live_falls through a gain of their own."
  },
  {
   "property": "C121",
   "status": "proved",
   "theorems": [
    "C121_calls_commute",
    "C121_last_call_counts",
    "C121_causal",
    "C121_superposition",
    "C121_later_start",
    "C121_silent_adjustment",
    "C121_order_matters_refuted"
   ],
   "note": "Proved for every input in the quantifier. C121_order_matters_refuted is no defect of the code: it shows that C111_order_irrelevant does not extend to networks whose settings are moved."
  },
  {
   "property": "C122",
   "status": "proved",
   "theorems": [
    "C122_play_is_chain",
    "C122_play_bounded",
    "C122_note_falls",
    "C122_untouched_silent"
   ],
   "note": "Proved for every input in the quantifier."
  }
 ]
}