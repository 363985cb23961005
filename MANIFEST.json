{"claims": [
{"property": "C01", "status": "proved", "theorems": ["C01_ordinates_sorted_union"], "note": ""},
{"property": "C02", "status": "proved", "theorems": ["C02_unknown_keyword_rejected"], "note": ""},
{"property": "C03", "status": "proved", "theorems": ["C03_registering_again_merges"], "note": ""},
{"property": "C04", "status": "proved", "theorems": ["C04_design_ring_never_modified"], "note": ""},
{"property": "C05", "status": "proved", "theorems": ["C05_support_registry_sorted_union"], "note": ""},
{"property": "C06", "status": "proved", "theorems": ["C06_support_wipes_other_sigmas", "C06_support_sigmas_stored", "C06_finding_section_sigma_lost"], "note": ""},
{"property": "C07", "status": "proved", "theorems": ["C07_bad_input_rejected", "C07_single_value_for_all"], "note": ""},
{"property": "C08", "status": "proved", "theorems": ["C08_readback", "C08_readback_within"], "note": ""},
{"property": "C09", "status": "proved", "theorems": ["C09_limit_respected", "C09_limit_invariant", "C09_finding_dipole_component_unlimited"], "note": ""},
{"property": "C10", "status": "proved", "theorems": ["C10_only_addressed_change"], "note": ""},
{"property": "C11", "status": "proved", "theorems": ["C11_add_and_subtract", "C11_finding_clipped_does_not_return", "C11_finding_rounding"], "note": ""},
{"property": "C12", "status": "proved", "theorems": ["C12_meaning", "C12_only_addressed_change", "C12_idempotent", "C12_meaning_with_compensation"], "note": ""},
{"property": "C13", "status": "proved", "theorems": ["C13_meaning", "C13_actual_value", "C13_only_addressed_change", "C13_finding_rel_compounds", "C13_finding_two_halves_make_a_quarter"], "note": ""},
{"property": "C14", "status": "proved", "theorems": ["C14_magnets_last_value_only", "C14_cavities_last_value_only", "C14_correctors_accumulate", "C14_difference"], "note": ""},
{"property": "C15", "status": "proved", "theorems": ["C15_corrector_integers_truncated", "C15_finding_adding_integer_zero", "C15_magnet_cavity_integers_rejected", "C15_abs_within_limits"], "note": ""},
{"property": "C16", "status": "proved", "theorems": ["C16_skew_limit_respected", "C16_not_clipped", "C16_finding_negative_limit"], "note": ""},
{"property": "C17", "status": "proved", "theorems": ["C17_field", "C17_order_and_kick", "C17_finding_broadcast"], "note": ""},
{"property": "C18", "status": "proved", "theorems": ["C18_twice", "C18_order_irrelevant", "C18_two_lists", "C18_finding_shared_child"], "note": ""},
{"property": "C19", "status": "proved", "theorems": ["C19_registration_keywords", "C19_registration_records_the_field", "C19_fresh_magnet_keeps_its_field"], "note": ""},
{"property": "C20", "status": "proved", "theorems": ["C20_raises", "C20_any_list", "C20_apply_errors"], "note": ""},
{"property": "C21", "status": "proved", "theorems": ["C21_registered_parts", "C21_children_mirror_master", "C21_setpoints_untouched"], "note": ""},
{"property": "C22", "status": "proved", "theorems": ["C22_field_of_corrector", "C22_thick_horizontal", "C22_thick_vertical", "C22_thin"], "note": ""},
{"property": "C23", "status": "proved", "theorems": ["C23_dipole_field_any", "C23_dipole_field", "C23_finding_without_flag", "C23_equal_calibration"], "note": ""},
{"property": "C24", "status": "proved", "theorems": ["C24_corrector_follows_gradient", "C24_closed_scan_restores"], "note": ""},
{"property": "C25", "status": "proved", "theorems": ["C25_padded_sum", "C25_unique", "C25_commutative", "C25_associative", "C25_unit", "C25_rejects"], "note": ""},
{"property": "C26", "status": "proved", "theorems": ["C26_randnc", "C26_bound", "C26_never_returns", "C26_returns", "C26_negative_shape"], "note": ""},
{"property": "C27", "status": "proved", "theorems": ["C27_errors_bounded", "C27_finding_noise_with_cut", "C27_reachable", "C27_injection_bounded"], "note": ""},
{"property": "C28", "status": "proved", "theorems": ["C28_unset_injection", "C28_first_particle", "C28_errors_zero", "C28_injection", "C28_geometry"], "note": ""},
{"property": "C29", "status": "proved", "theorems": ["C29_abs", "C29_rel", "C29_mode", "C29_succeeds", "C29_finding_no_drift"], "note": ""},
{"property": "C30", "status": "proved", "theorems": ["C30_support_stage", "C30_angles", "C30_consistent", "C30_finding_second_application"], "note": ""},
{"property": "C31", "status": "proved", "theorems": ["C31_end_uses_start_sigma", "C31_end_value_irrelevant"], "note": ""},
{"property": "C32", "status": "proved", "theorems": ["C32_three_types", "C32_single", "C32_nested", "C32_rolls", "C32_magnets", "C32_bpms", "C32_finding_wrap_around", "C32_finding_zero_length"], "note": ""},
{"property": "C33", "status": "proved", "theorems": ["C33_rotation", "C33_product", "C33_single_axis", "C33_identity"], "note": ""},
{"property": "C34", "status": "proved", "theorems": ["C34_transverse", "C34_zero", "C34_straight"], "note": ""},
{"property": "C35", "status": "proved", "theorems": ["C35_copy", "C35_finding_design_lattice"], "note": ""},
{"property": "C36", "status": "proved", "theorems": ["C36_model_lattice", "C36_machine_unchanged", "C36_finding_setpoints_erased"], "note": ""},
{"property": "C37", "status": "proved", "theorems": ["C37_shot"], "note": ""},
{"property": "C38", "status": "proved", "theorems": ["C38_between", "C38_reading", "C38_positive", "C38_pseudo_orbit", "C38_errors", "C38_single_shot", "C38_finding_error_not_of_mean", "C38_all_elements", "C38_trajectories"], "note": ""},
{"property": "C39", "status": "proved", "theorems": ["C39_order"], "note": ""},
{"property": "C40", "status": "proved", "theorems": ["C40_requested"], "note": ""},
{"property": "C41", "status": "proved", "theorems": ["C41_transmission", "C41_antitone"], "note": ""},
{"property": "C42", "status": "proved", "theorems": ["C42_track_mode"], "note": ""},
{"property": "C43", "status": "proved", "theorems": ["C43_bunch", "C43_finding_covariance", "C43_finding_correlation_lost"], "note": ""},
{"property": "C44", "status": "proved", "theorems": ["C44_success", "C44_no_beam", "C44_only_these_correctors", "C44_wiggling"], "note": ""},
{"property": "C45", "status": "proved", "theorems": ["C45_balance", "C45_correct", "C45_wrong_shapes", "C45_wrong_shapes_dispersion", "C45_two_turns_required", "C45_only_these_correctors"], "note": ""},
{"property": "C46", "status": "proved", "theorems": ["C46_success", "C46_only_these_correctors", "C46_finding_setback"], "note": ""},
{"property": "C47", "status": "proved", "theorems": ["C47_finding_planes", "C47_criterion", "C47_finding_constant_history"], "note": ""},
{"property": "C48", "status": "proved", "theorems": ["C48_within_turn", "C48_past_turn", "C48_finding_negative_index", "C48_finding_no_beam"], "note": ""},
{"property": "C49", "status": "proved", "theorems": ["C49_annulus", "C49_module_constants"], "note": ""},
{"property": "C50", "status": "proved", "theorems": ["C50_folded", "C50_unique", "C50_reported"], "note": ""},
{"property": "C51", "status": "proved", "theorems": ["C51_frequency", "C51_phase", "C51_refused", "C51_frequency_failure", "C51_phase_failure", "C51_signal"], "note": ""},
{"property": "C52", "status": "proved", "theorems": ["C52_success", "C52_only_quadrupoles", "C52_finding_no_transmission"], "note": ""},
{"property": "C53", "status": "proved", "theorems": ["C53_inside", "C53_odd_size_in_range", "C53_on_the_spiral", "C53_starts_at_centre", "C53_finding_even_size"], "note": ""},
{"property": "C54", "status": "proved", "theorems": ["C54_applied", "C54_only_accepted", "C54_returns", "C54_wrong_shape", "C54_finding_unknown_error"], "note": ""},
{"property": "C55", "status": "proved", "theorems": ["C55_near_magnet", "C55_no_size", "C55_only_flagged", "C55_nothing_given"], "note": ""},
{"property": "C56", "status": "proved", "theorems": ["C56_scaling"], "note": ""},
{"property": "C57", "status": "proved", "theorems": ["C57_response", "C57_exact_for_linear_optics", "C57_lattice_restored", "C57_finding_unknown_mode", "C57_dispersion", "C57_dispersion_linear", "C57_dispersion_refused", "C57_finding_unknown_mode_dispersion"], "note": ""},
{"property": "C58", "status": "proved", "theorems": ["C58_penrose", "C58_damping", "C58_truncated", "C58_finding_too_many", "C58_regularised", "C58_least_squares"], "note": ""},
{"property": "C59", "status": "proved", "theorems": ["C59_weights", "C59_no_weights", "C59_between", "C59_balance", "C59_plain_mean", "C59_equivariant", "C59_finding_empty", "C59_sample_size", "C59_sample_size_equal", "C59_sample_size_unweighted", "C59_unbias", "C59_error_translation", "C59_error_unweighted", "C59_error_weighted", "C59_rms", "C59_rms_above_mean", "C59_rms_scale"], "note": ""},
{"property": "C60", "status": "proved", "theorems": ["C60_mask", "C60_selected", "C60_wrong_length", "C60_gain_slices", "C60_gain_model", "C60_objective", "C60_objective_zero", "C60_step", "C60_minimises", "C60_exact", "C60_finding_cancel", "C60_quad_slices", "C60_finding_ideal", "C60_objective_refused", "C60_objective_matrix", "C60_objective_diagonal", "C60_objective_shape", "C60_shapes_compared"], "note": ""},
{"property": "C61", "status": "proved", "theorems": ["C61_restored", "C61_columns"], "note": ""},
{"property": "C62", "status": "proved", "theorems": ["C62_two_steps", "C62_finding_more_steps", "C62_scan"], "note": ""},
{"property": "C63", "status": "proved", "theorems": ["C63_halves", "C63_limit_found", "C63_ends", "C63_finding_never_bracketed", "C63_finding_both_at_upper", "C63_finding_always_scaled", "C63_scaled", "C63_finding_scaled_from_zero", "C63_finding_default_bounds", "C63_area", "C63_area_closed", "C63_finding_dynamic_never_returns", "C63_bounds_sorted", "C63_bounds_either_way", "C63_finding_momentum_never_returns", "C63_momentum_no_orbit", "C63_finding_momentum_pair", "C63_momentum_halves", "C63_finding_momentum_accumulates", "C63_finding_momentum_turns", "C63_incremented", "C63_finding_launch_on_orbit", "C63_finding_energy_coordinate", "C63_finding_check_index"], "note": ""},
{"property": "C64", "status": "proved", "theorems": ["C64_switch", "C64_on_off"], "note": ""},
{"property": "C65", "status": "proved", "theorems": ["C65_never_succeeds", "C65_type_error"], "note": ""},
{"property": "C66", "status": "proved", "theorems": ["C66_merit", "C66_goal_length", "C66_last_trial", "C66_gap", "C66_only_sextupoles"], "note": ""},
{"property": "C67", "status": "proved", "theorems": ["C67_restored", "C67_refused", "C67_measured"], "note": ""},
{"property": "C68", "status": "proved", "theorems": ["C68_centre", "C68_finding_no_centre", "C68_alignment", "C68_responding_machine"], "note": ""},
{"property": "C69", "status": "proved", "theorems": ["C69_individual", "C69_families", "C69_equally_spaced", "C69_finding_spacing"], "note": ""},
{"property": "C70", "status": "proved", "theorems": ["C70_finding_never_returns", "C70_unknown_mode", "C70_finding_left_kicked", "C70_finding_lost_beam", "C70_single_step", "C70_finding_default", "C70_finding_lost_at_first", "C70_unknown_mode_call", "C70_orbit_mode", "C70_fixed_offset"], "note": ""},
{"property": "C71", "status": "proved", "theorems": ["C71_drift", "C71_drift_exact", "C71_drift_needs_two_turns", "C71_deviations", "C71_merit", "C71_finding_cancel", "C71_trajectory"], "note": ""},
{"property": "C72", "status": "proved", "theorems": ["C72_finding_never_succeeds", "C72_finding_type_error", "C72_finding_steps_fail", "C72_injection", "C72_finding_scales_multiply", "C72_finding_ten_steps", "C72_circumference"], "note": ""},
{"property": "C73", "status": "proved", "theorems": ["C73_step_argument", "C73_finding_default_structure", "C73_lattice", "C73_lattice_ideal", "C73_gains", "C73_gain_exact", "C73_mean_one", "C73_rolls", "C73_finding_diagnostics", "C73_finding_measurement", "C73_finding_measurement_response", "C73_finding_structures", "C73_structure"], "note": ""},
{"property": "C74", "status": "proved", "theorems": ["C74_finding_never_returns", "C74_finding_outcomes", "C74_finding_left_behind"], "note": ""},
{"property": "C75", "status": "proved", "theorems": ["C75_each_step", "C75_convergence", "C75_exact", "C75_finding_perfect_orbit"], "note": ""},
{"property": "C76", "status": "proved", "theorems": ["C76_rejected", "C76_same_machine", "C76_correctors", "C76_magnets"], "note": ""},
{"property": "C77", "status": "proved", "theorems": ["C77_finding_energy", "C77_phase", "C77_phase_effect"], "note": ""},
{"property": "C78", "status": "proved", "theorems": ["C78_same_matrix", "C78_first_turn", "C78_stitch", "C78_balance", "C78_run"], "note": ""},
{"property": "C79", "status": "proved", "theorems": ["C79_systematic", "C79_systematic_rejected", "C79_finding_other_column", "C79_effect", "C79_random", "C79_random_rejected", "C79_matlab_systematic", "C79_matlab_random", "C79_matlab_rejected", "C79_finding_caller", "C79_shared_fresh", "C79_finding_shared"], "note": ""},
{"property": "C80", "status": "proved", "theorems": ["C80_not_implemented", "C80_transformation"], "note": ""},
{"property": "C81", "status": "proved", "theorems": ["C81_bba", "C81_fit", "C81_pseudo", "C81_pseudo_only"], "note": ""},
{"property": "C82", "status": "proved", "theorems": ["C82_only_what_was_asked", "C82_errors_are_never_touched", "C82_limits", "C82_skew_limits", "C82_finding_order_zero"], "note": ""},
{"property": "C83", "status": "proved", "theorems": ["C83_accepts", "C83_warnings", "C83_girder_required", "C83_finding_split_magnets", "C83_scalar_calibration", "C83_combined_function", "C83_never_twice", "C83_registered_accepted"], "note": ""},
{"property": "C84", "status": "proved", "theorems": ["C84_words", "C84_read", "C84_finding_not_unique", "C84_size", "C84_not_numbers", "C84_finding_first_column", "C84_used", "C84_finding_type", "C84_finding_matlab", "C84_ords", "C84_ords_total"], "note": ""},
{"property": "C85", "status": "proved", "theorems": ["C85_mean", "C85_unique", "C85_nearest", "C85_periodic", "C85_shift", "C85_between", "C85_constant", "C85_finding_cancelling", "C85_angle", "C85_error", "C85_error_range", "C85_error_agreeing", "C85_missing", "C85_nothing_missing", "C85_finding_missing_counted", "C85_finding_rms", "C85_finding_rms_nan", "C85_answers"], "note": ""},
{"property": "C86", "status": "proved", "theorems": ["C86_transformation", "C86_crossings_compose", "C86_no_field"], "note": ""},
{"property": "C87", "status": "proved", "theorems": ["C87_lines", "C87_part", "C87_whole", "C87_displacements"], "note": ""},
{"property": "C88", "status": "proved", "theorems": ["C88_points", "C88_synchronous", "C88_refused"], "note": ""},
{"property": "C89", "status": "proved", "theorems": ["C89_once", "C89_again", "C89_modules", "C89_debug_over", "C89_finding_level", "C89_debug_during", "C89_name", "C89_handler"], "note": ""},
{"property": "C90", "status": "proved", "theorems": ["C90_strengths", "C90_finding_none", "C90_range", "C90_apertures", "C90_synoptic"], "note": ""},
{"property": "C91", "status": "proved", "theorems": ["C91_response_columns", "C91_dispersion_column", "C91_finding_blind", "C91_finding_full", "C91_finding_no_cavities"], "note": ""},
{"property": "C92", "status": "proved", "theorems": ["C92_beta_beat", "C92_beat_size"], "note": ""},
{"property": "C93", "status": "proved", "theorems": ["C93_straight_parts", "C93_step", "C93_bend_parts", "C93_parts_carry", "C93_machine"], "note": ""},
{"property": "C94", "status": "proved", "theorems": ["C94_call_returns", "C94_histories_return", "C94_registration", "C94_errors", "C94_cavities"], "note": ""},
{"property": "C95", "status": "proved", "theorems": ["C95_bpms", "C95_bpms_return", "C95_cavities", "C95_cavities_return", "C95_finding_failed_registration", "C95_reads_the_beam", "C95_registered_reads_the_beam", "C95_cavities_as_designed"], "note": ""},
{"property": "C96", "status": "proved", "theorems": ["C96_first_turn", "C96_stitch", "C96_balance", "C96_correct", "C96_matlab_balance", "C96_matlab_run"], "note": ""},
{"property": "C97", "status": "proved", "theorems": ["C97_fields_follow", "C97_magnets", "C97_cavities", "C97_updating", "C97_errors", "C97_errors_in_order", "C97_finding_left_behind"], "note": ""},
{"property": "C98", "status": "proved", "theorems": ["C98_returns", "C98_marks", "C98_finding_order", "C98_histogram", "C98_finding_no_histogram", "C98_finding_single", "C98_distances"], "note": ""},
{"property": "C99", "status": "proved", "theorems": ["C99_transmission", "C99_only_drawn", "C99_drawing_returns", "C99_cells", "C99_finding_axes"], "note": ""},
{"property": "C100", "status": "proved", "theorems": ["C100_progress", "C100_finding_first_lost", "C100_progress_shown", "C100_phase", "C100_frequency", "C100_phase_returned", "C100_frequency_returned"], "note": ""},
{"property": "C101", "status": "proved", "theorems": ["C101_plane", "C101_polar", "C101_centred", "C101_ellipse", "C101_finding_high", "C101_finding_auto_never"], "note": ""},
{"property": "C102", "status": "proved", "theorems": ["C102_setting", "C102_largest", "C102_finding_unreached"], "note": ""},
{"property": "C103", "status": "proved", "theorems": ["C103_only_drawn", "C103_drawing_returns", "C103_marks", "C103_pseudo_orbit", "C103_frame", "C103_all_elements", "C103_all_elements_returns", "C103_finding_limits"], "note": ""},
{"property": "C104", "status": "proved", "theorems": ["C104_drift", "C104_drift_returns", "C104_trajectory", "C104_trajectory_returns", "C104_finding_mirror"], "note": ""},
{"property": "C105", "status": "proved", "theorems": ["C105_correctors", "C105_drawn", "C105_finding_failed", "C105_finding_next", "C105_finding_matlab", "C105_matlab", "C105_font", "C105_finding_no_correctors", "C105_finding_bba", "C105_names"], "note": ""},
{"property": "C106", "status": "proved", "theorems": ["C106_marks", "C106_rows", "C106_steps", "C106_lines", "C106_finding_needs", "C106_finding_refusals", "C106_finding_longitudinal"], "note": ""},
{"property": "C107", "status": "proved", "theorems": ["C107_finding_never", "C107_finding_table", "C107_finding_element"], "note": ""},
{"property": "C108", "status": "proved", "theorems": ["C108_points", "C108_orbit", "C108_no_orbit", "C108_finding_one_place", "C108_finding_refusals", "C108_finding_matlab"], "note": ""},
{"property": "C109", "status": "proved", "theorems": ["C109_shows", "C109_reading", "C109_reading_all", "C109_without", "C109_returns", "C109_session", "C109_flag_unseen", "C109_finding_stuck"], "note": ""},
{"property": "C110", "status": "proved", "theorems": ["C110_course", "C110_finding_two_kicks"], "note": ""}
]}
