{"claims": [
  {"property": "C01", "status": "proved", "theorems": ["C01_volume_in_unit_interval"], "note": "Real arithmetic; numpy rounding is not modelled."},
  {"property": "C02", "status": "proved", "theorems": ["C02_volume_by_cases", "C02_volume_monotone"], "note": "Also gives the three cases as equalities."},
  {"property": "C03", "status": "proved", "theorems": ["C03_constructor_accepts_exactly", "C03_constructor_rejects_with_ValueError", "C03_constructor_result", "C03_no_IndexError_after_construction"], "note": "Success exactly when every list has one entry per phase; ValueError otherwise."},
  {"property": "C04", "status": "proved", "theorems": ["C04_reassigned_fractions_refuted", "C04_more_phases_always_fail"], "note": "Violated by the code: witness, and the failure for every larger number of phases."},
  {"property": "C05", "status": "proved", "theorems": ["C05_surface_query_refuted"], "note": "Violated by the code: AttributeError for every CCD and non-zero charge."},
  {"property": "C06", "status": "proved", "theorems": ["C06_full_at_time_zero", "C06_fill_fraction_range", "C06_fill_fraction_decreases", "C06_fill_of_time", "C06_time_of_fill"], "note": ""},
  {"property": "C07", "status": "proved", "theorems": ["C07_release_bounds", "C07_release_composes", "C07_release_is_drop_of_fill"], "note": ""},
  {"property": "C08", "status": "proved", "theorems": ["C08_fill_probabilities", "C08_rate_equation", "C08_two_dwell_times", "C08_instant_capture"], "note": ""},
  {"property": "C09", "status": "proved", "theorems": ["C09_count_is_integral_of_occupancy", "C09_count_bounds"], "note": ""},
  {"property": "C10", "status": "proved", "theorems": ["C10_split_changes_nothing"], "note": ""},
  {"property": "C11", "status": "proved", "theorems": ["C11_collapse_changes_nothing"], "note": ""},
  {"property": "C12", "status": "proved", "theorems": ["C12_index_above_cloud"], "note": ""},
  {"property": "C13", "status": "proved", "theorems": ["C13_instant_capture_with_enough_electrons"], "note": "Per-depth occupancy after capture; one group of instant-capture traps."},
  {"property": "C14", "status": "proved", "theorems": ["C14_instant_capture_limited_by_supply"], "note": "The hypothesis that some trap above the cloud is not full excludes a state no history reaches."},
  {"property": "C15", "status": "proved", "theorems": ["C15_release_is_exponential_decay"], "note": ""},
  {"property": "C16", "status": "proved", "theorems": ["C16_every_call_balances", "C16_package_count_is_stored_electrons", "C16_every_call_balances_tracking_time"], "note": "For the managers that store fill fractions the balance holds for every array with one value per species and a free level; for the time-recording manager, for arrays of positive volumes followed by free levels. Without a free level it fails (C23)."},
  {"property": "C17", "status": "proved", "theorems": ["C17_any_history_follows_the_trap_model"], "note": "Every history of at most max_n_transfers calls, against the mathematical trap model of Spec.v."},
  {"property": "C18", "status": "proved", "theorems": ["C18_slow_capture_follows_the_rate_equation", "C18_orderly_histories"], "note": "Stated on occupancy profiles for one call and for histories from empty traps. What happens outside the two conditions is C19 and C20."},
  {"property": "C19", "status": "proved", "theorems": ["C19_slow_capture_takes_the_recomputed_cloud", "C19_slow_capture_with_any_supply", "C19_histories_with_any_supply", "C19_slow_capture_within_supply_refuted"], "note": "The claim is violated: C19_slow_capture_within_supply_refuted gives a reachable witness; the other theorems say what is taken and in what state the traps are left instead, for every state and history in which the recomputed cloud stays inside the levels."},
  {"property": "C20", "status": "proved", "theorems": ["C20_outgrown_levels_leave_a_negative_volume", "C20_volumes_stay_nonnegative_refuted"], "note": "The claim is violated: a reachable witness, and the universal condition under which a negative volume appears."},
  {"property": "C21", "status": "proved", "theorems": ["C21_notch_then_capture", "C21_notch_is_harmless_refuted"], "note": "The claim is violated, for the instant-capture manager: the exact values returned with and without the first cloud, for every CCD, and a witness."},
  {"property": "C22", "status": "proved", "theorems": ["C22_one_call_recording_times", "C22_histories_recording_times", "C22_any_falling_curve"], "note": "One call, histories from empty traps, and arbitrary falling curves."},
  {"property": "C23", "status": "proved", "theorems": ["C23_missing_charge_fits_in_the_traps_refuted", "C23_overfull_array_is_overwritten", "C23_balance_after_any_history_refuted"], "note": "The claim is violated: for the manager class, by a history of three calls on a manager sized for one transfer, and for whole images read out by add_cti with traps kept between columns."},
  {"property": "C24", "status": "proved", "theorems": ["C24_managers_share_the_densities", "C24_densities_add_up", "C24_empty_groups_fail"], "note": "Every traps argument with non-empty groups; empty groups give IndexError."},
  {"property": "C25", "status": "proved", "theorems": ["C25_restore_brings_back_the_save", "C25_save_then_restore", "C25_restore_without_save"], "note": "For every history of save, restore, empty and arbitrary changes since construction; also the account of the electrons."},
  {"property": "C26", "status": "proved", "theorems": ["C26_clock_sequence_releases_to_nearest_clouds", "C26_standard_sequence", "C26_steps_and_phases"], "note": "Also for trap pumping sequences: releases go exactly to the nearest charge clouds."},
  {"property": "C27", "status": "proved", "theorems": ["C27_every_pixel_gets_its_transfers", "C27_C30_whole_time_window", "C27_first_transfer_counted_once"], "note": "Real arithmetic. Every window of rows, not only ranges."},
  {"property": "C28", "status": "proved", "theorems": ["C28_express_0_computes_every_transfer"], "note": "With no time window or one that contains the whole readout."},
  {"property": "C29", "status": "proved", "theorems": ["C29_every_express_works_refuted", "C29_only_failing_express"], "note": "Violated by the code: IndexError at express = n_pixels - 1 with the default ROE; shown to be the only failing value."},
  {"property": "C30", "status": "proved", "theorems": ["C27_C30_whole_time_window", "C30_time_window_keeps_the_overlap", "C30_time_windows_partition"], "note": "Entry by entry, for every partition of the readout."},
  {"property": "C31", "status": "proved", "theorems": ["C31_injection_columns_equal", "C31_time_window_truncates_injection_refuted", "C31_integer_dtype_refuted"], "note": "Two violations proved: truncation by the default time window, NameError with integer dtype."},
  {"property": "C32", "status": "proved", "theorems": ["C32_pumping_columns_sum_to_n_pumps", "C32_float_multipliers_positive", "C32_integer_multipliers", "C32_integer_pumps_refuted", "C32_two_pixels_refuted", "C32_one_pixel_saves_every_pass", "C32_no_pumps_refuted"], "note": "Violations proved: a negative integer multiplier, IndexError for two pixels, ZeroDivisionError for no pumps."},
  {"property": "C33", "status": "proved", "theorems": ["C33_one_save_per_pass", "C33_saved_just_before_next_pass", "C33_pass_from_first_pixel_refuted", "C33_single_pixel_refuted", "C33_empty_first_never_saves"], "note": "Violations proved: a pass that starts with the first pixel, and a single-pixel window."},
  {"property": "C34", "status": "proved", "theorems": ["C34_shape_is_preserved", "C34_pixels_outside_windows_are_unchanged"], "note": "For every kind of number (also floating point), trap and setting for which the call returns."},
  {"property": "C35", "status": "proved", "theorems": ["C35_no_pixel_becomes_negative", "C35_no_negative_pixels", "C35_no_negative_pixels_real"], "note": "For every kind of number; with floating-point numbers 'no pixel compares less than zero'."},
  {"property": "C36", "status": "proved", "theorems": ["C36_charge_is_not_created", "C36_charge_balance"], "note": "Both directions, every express value that computes all transfers (0 or at least the number of transfers); per column, the exact balance."},
  {"property": "C37", "status": "proved", "theorems": ["C37_groups_create_charge_refuted"], "note": "Violated by the code: witness with two groups, 1 electron becomes 525/512."},
  {"property": "C38", "status": "proved", "theorems": ["C38_add_cti_returns", "C38_injection_returns"], "note": "Both directions and every express value except the one refuted in C29; a second theorem for charge injection. Real arithmetic."},
  {"property": "C39", "status": "proved", "theorems": ["C39_row_minus_one_refuted", "C39_injection_row_minus_one_refuted", "C39_pumping_row_minus_one_refuted"], "note": "Violated by the code for every image: standard readout, charge injection, and trap pumping of row 0."},
  {"property": "C40", "status": "proved", "theorems": ["C40_columns_are_independent"], "note": "For every kind of number, trap and setting for which the call returns."},
  {"property": "C41", "status": "proved", "theorems": ["C41_rows_depend_on_earlier_rows_only"], "note": "Instant-capture traps, any number of groups and phases."},
  {"property": "C42", "status": "proved", "theorems": ["C42_no_time_or_no_share", "C42_no_traps", "C42_no_density_or_no_charge"], "note": "Both directions."},
  {"property": "C43", "status": "proved", "theorems": ["C43_readout_model", "C43_textbook_model", "C43_injection_model"], "note": "Any number of phases (readout model) and the textbook form for one phase; also charge injection."},
  {"property": "C44", "status": "proved", "theorems": ["C44_iterations", "C44_errors", "C44_fixed_points", "C44_stays", "C44_no_traps"], "note": "Every image with at least one pixel, any traps, CCD and ROE (including charge injection, whose ROE object is mutated). No convergence claim."},
  {"property": "C45", "status": "proved", "theorems": ["C45_serial_is_transposed_parallel", "C45_injection_differs_refuted", "C45_serial_readout_of_the_rows_in_time", "C45_time_window_alone_selects_rows"], "note": "Equality including the errors for standard ROEs; violated for charge injection (witness). With a time window only the rows that reach the register within it are read out serially."},
  {"property": "C46", "status": "proved", "theorems": ["C46_calls_are_independent", "C46_injection_remembers_refuted"], "note": "Violated for charge injection (witness); proved for the other ROEs."},
  {"property": "C47", "status": "proved", "theorems": ["C47_hst_model", "C47_density_grows", "C47_hst_readout"], "note": "Also: growing density, and the readout with this model."},
  {"property": "C48", "status": "proved", "theorems": ["C48_settings_are_not_recorded_refuted", "C48_settings_fail_refuted", "C48_kinds_of_failure"], "note": "Violated claim: stated and proved as refutations."},
  {"property": "C49", "status": "proved", "theorems": ["C49_saving_creates_charge_refuted"], "note": "Violated by the code: witness, 1 electron becomes more than 1."},
  {"property": "C50", "status": "proved", "theorems": ["C50_injection_window_fails_refuted"], "note": "Violated by the code for every image."},
  {"property": "C51", "status": "proved", "theorems": ["C51_warm_traps_release_slowly_refuted"], "note": "Violated claim: stated and proved as a refutation."},
  {"property": "C52", "status": "proved", "theorems": ["C52_one_draw_for_each_column_and_species", "C52_kind_of_trap_is_lost", "C52_realisations_keep_the_species_refuted", "C52_every_column_has_all_traps", "C52_no_rows"], "note": "The random generator is an arbitrary function of column, species and mean. The claims that a realisation keeps the kind of trap and that a column sees only its own traps are refuted."},
  {"property": "C53", "status": "proved", "theorems": ["C53_phase_of_a_ccd", "C53_no_such_phase", "C53_bloom_level_is_a_number_refuted"], "note": "Proved for every number type; the claim that the blooming level is a number is refuted for every CCD built with the default."},
  {"property": "C54", "status": "proved", "theorems": ["C54_time_found_is_accurate", "C54_times_to_fractions_and_back", "C54_fractions_to_times_and_back", "C54_full_array_is_not_converted", "C54_every_level_in_use_is_converted_refuted"], "note": "Round trips for traps with a single timescale over the reals; for a continuum the solver is an arbitrary function, and its result is within 1e-7 whenever the assertion of the code passes. The claim that every level in use is converted is refuted."},
  {"property": "C55", "status": "proved", "theorems": ["C55_ellipticity_bounds", "C55_proportional_to_density", "C55_slow_species", "C55_most_harmful_lifetime"], "note": "Modelled over the real numbers (the class Num has no arc tangent)."},
  {"property": "C56", "status": "proved", "theorems": ["C56_log_normal_is_a_distribution", "C56_fill_fraction", "C56_released_is_the_drop", "C56_old_traps_release_no_faster", "C56_released_from_electrons_refuted", "C56_log_normal_traps_fade", "C56_times_are_recovered", "C56_constructor"], "note": "scipy's quad is the exact improper integral and fsolve an arbitrary function; modelled over the real numbers. The agreement of the two release functions is refuted for every log-normal continuum. C56_times_are_recovered assumes a root finder that solves equations with one solution."},
  {"property": "C57", "status": "proved", "theorems": ["C57_assignment_is_construction", "C57_more_steps_fail_refuted", "C57_rejected_assignment_has_no_effect_refuted", "C57_odd_numbers_of_steps_are_refused"], "note": "The claim of a user is violated in the code: proved for every object and image (suffix _refuted), with the exact condition under which an assignment is harmless."},
  {"property": "C58", "status": "proved", "theorems": ["C58_too_many_ccd_phases_refuted"], "note": "Violated in the code: proved that no such call returns (out-of-bounds read), for every setting (suffix _refuted)."},
  {"property": "C59", "status": "proved", "theorems": ["C59_processed_pixels_are_not_negative", "C59_negative_images_keep_their_charge_refuted"], "note": "Non-negativity proved for all images, traps and settings of calls that return; the expectation about charge is refuted for every image of negative total (suffix _refuted)."},
  {"property": "C60", "status": "proved", "theorems": ["C60_express_model", "C60_even_passes", "C60_express_creates_no_charge_refuted"], "note": "Expectation that the approximation creates no charge is refuted: one electron becomes 61/64 + 434007/8388608 > 1."},
  {"property": "C61", "status": "proved", "theorems": ["C61_only_the_mixture_matters", "C61_order_of_species"], "note": "Instant-capture traps; equality is exact over the reals."},
  {"property": "C62", "status": "proved", "theorems": ["C62_successive_time_windows"], "note": "The documented exception for express other than 0 is excluded."},
  {"property": "C63", "status": "proved", "theorems": ["C63_assigned_densities", "C63_electrons_scale_with_the_densities", "C63_wrong_number_is_a_ValueError_refuted", "C63_wrong_number_is_an_error", "C63_ellipticity_of_all_managers"], "note": "The claim that a wrong number of densities raises ValueError is refuted."},
  {"property": "C64", "status": "proved", "theorems": ["C64_readout_by_manager_histories"], "note": "One phase and one trap group; express 0 or large enough that every transfer is computed."},
  {"property": "C65", "status": "proved", "theorems": ["C65_readout_past_slow_traps"], "note": "Traps emptied between columns; the hypothesis that the described readout is defined says that every recomputed cloud stays inside the levels (otherwise C20). Capture timescale 0 (the default of Trap) is included."},
  {"property": "C66", "status": "proved", "theorems": ["C66_readout_past_traps_recording_times"], "note": "Traps emptied between columns. The TypeError is the code's own (C22)."},
  {"property": "C67", "status": "proved", "theorems": ["C67_readout_of_any_image"], "note": "One phase, one group of instant-capture traps, no notch, traps emptied between columns, every transfer computed."},
  {"property": "C68", "status": "proved", "theorems": ["C68_more_charge_in_more_charge_out", "C68_differences_do_not_grow", "C68_different_images_stay_different", "C68_any_well_refuted"], "note": "Same readouts as C67. The condition on the wells (mild) is explicit; without it the claims are refuted (suffix _refuted)."},
  {"property": "C69", "status": "proved", "theorems": ["C69_correction_recovers_the_image"], "note": "Same readouts as C67, under the condition of C68; exact reals, so rounding is not covered."},
  {"property": "C70", "status": "proved", "theorems": ["C70_correction_settles_refuted"], "note": "Violated in the code: the estimates of remove_cti are unbounded for a concrete image (suffix _refuted)."},
  {"property": "C71", "status": "proved", "theorems": ["C71_pumping_model", "C71_two_pixels", "C71_no_density_or_no_charge"], "note": "Conditions of pumping_setting: instant capture, plain wells, one pixel in the window, which has a neighbour on the readout side unless the sequence has two steps."},
  {"property": "C72", "status": "proved", "theorems": ["C72_pumping_changes_neighbours_only"], "note": "Setting of C71."},
  {"property": "C73", "status": "proved", "theorems": ["C73_pumping_charge_balance", "C73_pumping_creates_no_charge", "C73_express_pumping_creates_charge_refuted"], "note": "Setting of C71 with one trap group. Violated with express=1 (suffix _refuted)."},
  {"property": "C74", "status": "proved", "theorems": ["C74_integer_images_are_read_out", "C74_float_images", "C74_integer_images_are_corrected_refuted", "C74_integer_images_without_traps"], "note": "Violated by remove_cti for all integer images (suffix _refuted). Integers are unbounded in the model."},
  {"property": "C75", "status": "proved", "theorems": ["C75_one_roe_is_two_calls", "C75_sharing_makes_no_difference", "C75_sharing_injection_makes_no_difference_refuted"], "note": "Violated for charge injection without a number of transfers (suffix _refuted)."},
  {"property": "C76", "status": "proved", "theorems": ["C76_fractions_multiply_densities", "C76_units_do_not_matter_refuted"], "note": "The documented claim is violated (suffix _refuted); what the fractions do is proved for all inputs."},
  {"property": "C77", "status": "proved", "theorems": ["C77_plain_lists", "C77_mixed_lists_fail"], "note": "Lists of depth one and two."},
  {"property": "C78", "status": "proved", "theorems": ["C78_phases_from_the_start", "C78_phases_from_the_end", "C78_no_such_phase"], "note": ""},
  {"property": "C79", "status": "proved", "theorems": ["C79_units_do_not_matter", "C79_units_of_a_correction_do_not_matter"], "note": "Exact numbers; for managers that record times the unit of charge only."},
  {"property": "C80", "status": "proved", "theorems": ["C80_surface_flag_has_no_effect", "C80_blooming_level_has_no_effect", "C80_surface_traps_need_blooming_refuted"], "note": "The documented claim is violated (suffix _refuted); the absence of any effect is proved for all inputs."},
  {"property": "C81", "status": "proved", "theorems": ["C81_only_the_species_matter", "C81_only_the_species_matter_to_a_correction", "C81_the_order_of_classes_does_not_matter_refuted"], "note": "Exact numbers. For groups that mix classes the claim is violated (suffix _refuted)."},
  {"property": "C82", "status": "proved", "theorems": ["C82_the_order_of_groups_does_not_matter", "C82_the_order_of_groups_does_not_matter_to_a_correction"], "note": "Exact numbers."},
  {"property": "C83", "status": "proved", "theorems": ["C83_unchecked_accesses_stay_inside", "C83_correction_stays_inside", "C83_real_wells_need_charge", "C83_first_pixel_stays_inside_refuted", "C83_slow_traps_stay_inside_refuted", "C83_columns_outside_stay_inside_refuted"], "note": "For every type of numbers. Violated for slow traps and for the first pixel with release in both directions (suffix _refuted)."},
  {"property": "C84", "status": "proved", "theorems": ["C84_without_negative_numbers", "C84_negative_express_is_refused", "C84_negative_express_is_a_ValueError", "C84_negative_offset_is_refused", "C84_window_before_the_image_is_refused", "C84_negative_express_pumps_once", "C84_negative_express_integer_pumps", "C84_pumping_refuses_negative_express_refuted", "C84_negative_express_needs_a_special_pump", "C84_last_row_by_minus_one_refuted", "C84_negative_offset_in_injection"], "note": "A second model (SignedModel.v) for integers of any sign, proved equal to the first where both apply. Violations carry the suffix _refuted."},
  {"property": "C85", "status": "proved", "theorems": ["C85_shared_objects_do_not_matter", "C85_assigned_densities", "C85_last_assignment_wins", "C85_shared_densities_are_read_back_refuted", "C85_wrong_number_is_a_ValueError_refuted"], "note": "A heap of trap objects (AliasModel.v). Violated for densities assigned to shared objects (suffix _refuted)."},
  {"property": "C86", "status": "proved", "theorems": ["C86_volume_exists_exactly", "C86_negative_power_refuted", "C86_power_zero", "C86_deep_notch_refuted"], "note": "Violated expectations carry the suffix _refuted."},
  {"property": "C87", "status": "proved", "theorems": ["C87_rounding_creates_no_charge_refuted", "C87_without_rounding", "C87_traps_hold_no_negative_charge_refuted"], "note": "Violated (suffix _refuted), in IEEE double arithmetic (DoubleNum.v)."},
  {"property": "C88", "status": "proved", "theorems": ["C88_nan_after_charge_is_an_IndexError", "C88_nan_images_are_read_out_refuted", "C88_nan_is_like_no_charge_refuted"], "note": "IEEE double arithmetic. Violated expectations carry the suffix _refuted."},
  {"property": "C89", "status": "proved", "theorems": ["C89_double_wells_need_charge", "C89_double_accesses_stay_inside", "C89_double_correction_stays_inside"], "note": "IEEE double arithmetic."},
  {"property": "C90", "status": "proved", "theorems": ["C90_other_keywords_stay", "C90_described_objects_are_recorded", "C90_both_directions_are_recorded_refuted", "C90_parallel_settings_are_recorded_refuted", "C90_a_failed_call_changes_nothing_refuted", "C90_exceptions"], "note": "Violated expectations carry the suffix _refuted."},
  {"property": "C91", "status": "proved", "theorems": ["C91_without_negative_numbers", "C91_negative_transfers_are_refused", "C91_negative_pumps_are_refused"], "note": ""},
  {"property": "C92", "status": "proved", "theorems": ["C92_change_is_limited"], "note": "Example C92_example: the limit is attained."},
  {"property": "C93", "status": "proved", "theorems": ["C93_exponential_trails", "C93_timescale_from_the_trail"], "note": ""},
  {"property": "C94", "status": "proved", "theorems": ["C94_first_row_agrees", "C94_zero_capture_is_instant_capture_refuted"], "note": "Violated by the code: C94_zero_capture_is_instant_capture_refuted gives the image. C94_first_row_agrees is what does hold."},
  {"property": "C95", "status": "proved", "theorems": ["C95_traps_that_cannot_capture_do_nothing", "C95_frozen_traps_do_nothing_refuted"], "note": "Holds for finite release timescales (C95_traps_that_cannot_capture_do_nothing). With both timescales infinite it is violated in double arithmetic: C95_frozen_traps_do_nothing_refuted gives the image."},
  {"property": "C96", "status": "proved", "theorems": ["C96_visits", "C96_at_most_express_times", "C96_work", "C96_runtime_grows_as_the_root_refuted"], "note": "The documented growth O(express^0.5) is violated: C96_work gives the count, C96_runtime_grows_as_the_root_refuted the refutation. Time is measured as the number of pixel transfers computed."},
  {"property": "C97", "status": "proved", "theorems": ["C97_rows_before_a_window_count_as_empty", "C97_window_of_the_whole_readout", "C97_a_window_of_the_result_refuted"], "note": "Parallel clocking with the standard readout electronics. C97_a_window_of_the_result_refuted shows the edge effect that the documentation warns of."},
  {"property": "C98", "status": "proved", "theorems": ["C98_an_offset_is_blank_rows", "C98_an_offset_is_blank_rows_for_every_express_refuted"], "note": "Violated for rows <= express < rows + offset: C98_an_offset_is_blank_rows_for_every_express_refuted."},
  {"property": "C99", "status": "proved", "theorems": ["C99_later_columns_do_not_matter", "C99_emptying_does_not_matter_to_the_first_column", "C99_the_first_column", "C99_each_pixel_keeps_its_own_traps_refuted", "C99_the_trail_goes_on_refuted", "C99_kept_traps_create_no_charge_refuted"], "note": "Violated after the first column: see the three refuted theorems. C99_the_first_column is for one phase and one group of instant traps. Whether the traps are emptied makes no difference to the first column, for every kind of trap and mode."},
  {"property": "C100", "status": "proved", "theorems": ["C100_more_charge_in_more_charge_out", "C100_differences_do_not_grow", "C100_different_images_stay_different"], "note": "Extends C68 to several phases and both directions, with a floor of zero. C68_any_well_refuted shows that a condition on the wells is needed."},
  {"property": "C101", "status": "proved", "theorems": ["C101_correction_recovers_the_image"], "note": "Extends C69 to several phases and both directions. The rate depends on the image. Pixels with less charge are not covered: their estimates may become negative (C70)."},
  {"property": "C102", "status": "proved", "theorems": ["C102_more_charge_in_more_charge_out", "C102_differences_grow_at_most_by_a_factor", "C102_different_images_stay_different", "C102_covers_every_transfer_computed", "C102_without_the_factor_refuted"], "note": "Extends C100 to every express value and dtype; C102_covers_every_transfer_computed shows that the condition is that of C100 when every transfer is computed. Time windows are not covered. Wells that keep the order in every single transfer are not enough: a refutation with express 1 is proved."},
  {"property": "C103", "status": "proved", "theorems": ["C103_correction_recovers_the_image"], "note": "Extends C101 to every express value and dtype. The rate depends on the image. Pixels with less charge are not covered: their estimates may become negative (C70)."},
  {"property": "C104", "status": "proved", "theorems": ["C104_more_charge_in_more_charge_out", "C104_differences_grow_at_most_by_a_factor", "C104_different_images_stay_different", "C104_no_pixel_changes_by_more_than_the_traps_it_passes"], "note": "Extends C102 to charge injection with dtype float in either or both directions. Time windows, and the integer dtype of charge injection, are not covered."},
  {"property": "C105", "status": "proved", "theorems": ["C105_correction_recovers_the_image"], "note": "Extends C103 to charge injection. The rate depends on the image."},
  {"property": "C106", "status": "proved", "theorems": ["C106_more_charge_in_more_charge_out", "C106_differences_grow_at_most_by_a_factor", "C106_different_images_stay_different", "C106_no_pixel_changes_by_more_than_the_traps_it_passes"], "note": "Extends C102 and C104 to windows and time windows. Windows must be increasing lists of rows inside the image; charge injection takes no window (C50)."},
  {"property": "C107", "status": "proved", "theorems": ["C107_correction_recovers_the_image"], "note": "Extends C103 and C105 to windows and time windows. Pixels outside the windows need some charge, but no particular amount. The rate depends on the image."},
  {"property": "C108", "status": "proved", "theorems": ["C108_more_charge_in_more_charge_out", "C108_differences_grow_at_most_by_a_factor", "C108_different_images_stay_different", "C108_no_pixel_changes_by_more_than_the_traps_it_passes", "C108_little_charge_is_told_apart_refuted"], "note": "Covers the powers below one of real CCDs (for example 0.478 and 0.8 in the repository's examples), which C102-C107 exclude. One clocking step and one group of traps; C68 refutes the same without a condition on the wells. Without the charge the images cannot be told apart: a refutation is proved."},
  {"property": "C109", "status": "proved", "theorems": ["C109_correction_recovers_the_image"], "note": "As C103, C105 and C107, for wells of any power. C110 gives a rate that is the same for all images."},
  {"property": "C110", "status": "proved", "theorems": ["C110_every_image_is_the_readout_of_one_image", "C110_every_image_is_the_readout_of_one_image_past_any_wells"], "note": "Subsumes the recovery in C101, C103, C105, C107 and C109: the image need not come from a readout, and C and r do not depend on it. For less charge C70 refutes convergence."},
  {"property": "C111", "status": "proved", "theorems": ["C111_noise_is_amplified_by_a_bounded_factor", "C111_noise_is_amplified_by_a_bounded_factor_past_any_wells"], "note": "The factor depends on the size of the image and on the settings only."},
  {"property": "C112", "status": "proved", "theorems": ["C112_slow_change_is_limited", "C112_change_past_recorded_times_is_limited"], "note": "Traps emptied between columns, every transfer computed. The example attains the limit with a log-normal continuum. Capture timescale 0 (the default of Trap) is included."},
  {"property": "C113", "status": "proved", "theorems": ["C113_recorded_times_create_no_charge"], "note": "Traps emptied between columns, every transfer computed. Slow traps have no such law: for them no such statement is made here (see C19 and C65)."},
  {"property": "C114", "status": "proved", "theorems": ["C114_continua_flatten", "C114_more_charge_in_more_charge_out", "C114_differences_grow_at_most_by_a_factor", "C114_different_images_stay_different", "C114_no_pixel_changes_by_more_than_the_traps_it_passes"], "note": "Traps emptied between columns, every transfer computed in the directions whose traps record times; a time window only with instant capture in the parallel direction. The log-normal continuum is proved to satisfy the condition on the filling curve."},
  {"property": "C115", "status": "proved", "theorems": ["C115_every_image_is_the_readout_of_one_image", "C115_correction_recovers_the_image", "C115_noise_is_amplified_by_a_bounded_factor"], "note": "Same settings as C114. Uniqueness is among images that keep their charge above the traps."},
  {"property": "C116", "status": "proved", "theorems": ["C116_first_packet_in_closed_form", "C116_more_traps_take_more_from_the_first_packet", "C116_first_packet_tells_the_density", "C116_more_traps_leave_less_charge_refuted"], "note": "Parallel direction only, every transfer computed. The claim about the whole image is refuted by a witness: C116_more_traps_leave_less_charge_refuted."},
  {"property": "C117", "status": "proved", "theorems": ["C117_first_packet_as_in_the_detector", "C117_row_behind_meets_its_own_pixel_last", "C117_row_behind_loses_charge", "C117_clouds_meet_empty_traps_in_their_own_pixel_refuted"], "note": "The claim is violated: C117_clouds_meet_empty_traps_in_their_own_pixel_refuted gives a witness, and the other theorems say what is read out instead, for every image with a lone bright pixel. Parallel direction, single clocking step."},
  {"property": "C118", "status": "proved", "theorems": ["C118_more_charge_in_more_charge_out", "C118_differences_grow_at_most_by_a_factor", "C118_different_images_stay_different", "C118_no_pixel_changes_by_more_than_the_traps_it_passes", "C118_description_past_slow_traps_is_complete"], "note": "Slow traps with one clocking step and every transfer computed, in wells without a notch in which an electron more reaches less than one trap more; the hypothesis on the charge of each pixel is any_above. Capture timescale 0 (the default of Trap) is included."},
  {"property": "C119", "status": "proved", "theorems": ["C119_every_image_is_the_readout_of_one_image", "C119_correction_recovers_the_image", "C119_noise_is_amplified_by_a_bounded_factor"], "note": "Same settings as C118, with twice or three times the charge of the traps. Capture timescale 0 (the default of Trap) is included."},
  {"property": "C120", "status": "proved", "theorems": ["C120_more_charge_in_more_charge_out", "C120_differences_grow_at_most_by_a_factor", "C120_different_images_stay_different", "C120_no_pixel_changes_by_more_than_the_traps_it_passes"], "note": "Slow traps and traps that record times with one clocking step and every transfer computed, no notch. Capture timescale 0 (the default of Trap) is included."},
  {"property": "C121", "status": "proved", "theorems": ["C121_correction_recovers_the_image"], "note": "Same settings as C120; the hypothesis on the charge of each pixel is mild_enough. Capture timescale 0 (the default of Trap) is included."},
  {"property": "C122", "status": "proved", "theorems": ["C122_readout_changes_little_with_the_settings"], "note": "Instant-capture traps in parallel direction, one clocking step, every transfer computed, no notch."},
  {"property": "C123", "status": "proved", "theorems": ["C123_correction_with_settings_a_little_wrong", "C123_iterations_make_up_for_wrong_settings_refuted"], "note": "Same settings as C122; the charge that every pixel needs is the floor of the wells plus, for each pixel passed, twice the traps of the correction and once the true traps."},
  {"property": "C124", "status": "proved", "theorems": ["C124_injection_by_manager_histories", "C124_injection_past_slow_traps", "C124_injection_past_traps_that_record_times"], "note": "One phase, one group of traps, float dtype, no parallel time window. Capture timescale 0 (the default of Trap) is included."},
  {"property": "C125", "status": "proved", "theorems": ["C125_more_charge_in_more_charge_out", "C125_differences_grow_at_most_by_a_factor", "C125_different_images_stay_different", "C125_no_pixel_changes_by_more_than_the_traps_it_passes"], "note": "Time windows only with instant traps in the parallel direction. Capture timescale 0 (the default of Trap) is included."},
  {"property": "C126", "status": "proved", "theorems": ["C126_correction_recovers_the_image"], "note": "Every pixel has more than twice what the traps it passes can take or give. Capture timescale 0 (the default of Trap) is included."},
  {"property": "C127", "status": "proved", "theorems": ["C127_no_corner_gains_charge", "C127_no_end_of_a_column_gains_charge", "C127_no_corner_gains_charge_refuted"], "note": "Proved where an electron more reaches less than one trap more; refuted without that condition. Capture timescale 0 (the default of Trap) is included."},
  {"property": "C128", "status": "proved", "theorems": ["C128_readout_past_all_kinds_of_traps", "C128_injection_past_all_kinds_of_traps"], "note": "No notch; traps are emptied between columns and for the first transfers. Capture timescale 0 (the default of Trap) is included."},
  {"property": "C129", "status": "proved", "theorems": ["C129_more_charge_in_more_charge_out", "C129_differences_grow_at_most_by_a_factor", "C129_different_images_stay_different", "C129_no_pixel_changes_by_more_than_the_traps_it_passes"], "note": "Well fill powers of at least one, for every phase. Capture timescale 0 (the default of Trap) is included."},
  {"property": "C130", "status": "proved", "theorems": ["C130_correction_recovers_the_image"], "note": "Every pixel has more than twice what the traps it passes can take or give. Capture timescale 0 (the default of Trap) is included."},
  {"property": "C131", "status": "proved", "theorems": ["C131_no_corner_gains_charge", "C131_no_corner_gains_charge_refuted"], "note": "With express the claim is false, and the refutation is proved beside it. Capture timescale 0 (the default of Trap) is included."},
  {"property": "C132", "status": "proved", "theorems": ["C132_correction_with_the_hst_model", "C132_noise_with_the_hst_model"], "note": "Express is not one less than the number of rows (which never works, C29).  The call is that of examples/correct_HST_ACS_image.py; the loading and plotting of the frame are not modelled, and the frame of the example is fainter than the theorem asks for. (C135 covers it.)"},
  {"property": "C133", "status": "proved", "theorems": ["C133_no_pixel_becomes_brighter_than_the_brightest", "C133_dense_groups_refuted", "C133_dense_slow_traps_refuted", "C133_express_refuted"], "note": "C133_no_pixel_becomes_brighter_than_the_brightest covers single-step clocking, with several kinds of traps when few enough (mild_phase) and one group of any number of instant traps when all transfers are computed. The three refutations show that each restriction (one group, slow traps few enough, express) is needed. Clocking in several steps is not covered."},
  {"property": "C134", "status": "proved", "theorems": ["C134_no_pixel_changes_by_more_than_the_traps_it_reaches", "C134_more_charge_in_more_charge_out", "C134_every_image_is_the_readout_of_one_image", "C134_noise_is_amplified_by_a_bounded_factor"], "note": "Parallel readout only, without windows or notch, with a single phase. Well powers of at least one are covered by C110 and C111 without a floor."},
  {"property": "C135", "status": "proved", "theorems": ["C135_correction_of_the_hst_frame", "C135_noise_in_the_hst_frame", "C135_loss_in_the_hst_frame"], "note": "The loading and plotting of the frame, and masked pixels, are not modelled. Express 1 lets one transfer stand for 2048, for which 200 electrons are too few; after 2018 the constants of the proof (200 and 4900 electrons) no longer fit the range."},
  {"property": "C136", "status": "proved", "theorems": ["C136_the_grouping_of_traps_does_not_matter_refuted"], "note": "The claim is violated: the theorem ends in _refuted and gives the two different images for every density from above 0 to 1."},
  {"property": "C137", "status": "proved", "theorems": ["C137_whole_times_are_the_range", "C137_a_window_ends_one_transfer_past_its_last_time", "C137_successive_windows_add_up", "C137_windows_that_share_an_end_add_up_refuted", "C137_a_window_adds_no_transfers_refuted", "C137_a_range_adds_no_transfers_refuted", "C137_readout_between_two_times", "C137_charge_injection_between_two_times", "C137_serial_rows_between_two_times", "C137_no_row_is_read_out_before_it_arrives_refuted", "C137_the_split_of_the_test_refuted"], "note": "Two of the claims are violated: the theorems that end in _refuted say which transfers are made twice or added, and give the images of one pixel. The others are proved for all times."},
  {"property": "C138", "status": "proved", "theorems": ["C138_readout_changes_little_with_the_settings"], "note": "Instant traps, traps of the class Trap and traps that record times, in any combination of the two directions. For the class Trap, the ratio of capture to emission is not larger for any species of one setting than for the same species of the other."},
  {"property": "C139", "status": "proved", "theorems": ["C139_short_capture_timescales_are_almost_none"], "note": "With an explicit constant."},
  {"property": "C140", "status": "proved", "theorems": ["C140_errors_of_the_image_stay_small", "C140_correction_with_almost_the_right_settings"], "note": "The first theorem covers all calls of C120, windows included; the second the pairs of settings of C138."},
  {"property": "C141", "status": "proved", "theorems": ["C141_a_narrow_continuum_releases_like_one_lifetime", "C141_a_narrow_continuum_gives_back_like_one_lifetime", "C141_times_of_a_narrow_continuum", "C141_narrow_continua_act_like_single_lifetimes"], "note": "The integral over lifetimes is exact (scipy's quadrature is idealised). C138 and C140 now also compare instant traps with traps that record times, so that a correction that assumes single lifetimes, of an image read out past narrow continua, is off by at most a multiple of sigma."},
  {"property": "C142", "status": "proved", "theorems": ["C142_brighter_or_fainter_images_lead_to_the_same_in_proportion", "C142_corrections_of_fainter_images_are_in_proportion", "C142_other_fill_powers_refuted", "C142_full_wells_refuted"], "note": "At exact reals. The two refutations give one pixel passed once over empty instant traps: with fill power 2, and with a full well."},
  {"property": "C143", "status": "proved", "theorems": ["C143_linear_wells_have_a_charge_transfer_efficiency", "C143_full_wells_lose_the_same_in_every_pixel", "C143_distant_packets_are_lost", "C143_brighter_packets_keep_a_larger_share", "C143_fainter_packets_keep_a_larger_share_in_steep_wells", "C143_overfull_packets_keep_the_same_share_refuted"], "note": "At exact reals, for the first charge in its column, as in C116. The refutation compares one electron with two in wells for one."},
  {"property": "C144", "status": "proved", "theorems": ["C144_both_directions_are_clocked_in_turn", "C144_first_pixel_in_closed_form", "C144_efficiencies_multiply", "C144_the_order_of_the_directions_does_not_matter_refuted", "C144_corrections_in_turn_refuted"], "note": "The split is proved in any arithmetic, doubles included; the closed forms and the two refutations at exact reals."},
  {"property": "C145", "status": "proved", "theorems": ["C145_correction_of_the_first_charge", "C145_first_charge_comes_back"], "note": "At exact reals. The first charge must fit into the wells of both directions."},
  {"property": "C146", "status": "proved", "theorems": ["C146_corrections_never_overshoot_the_first_charge", "C146_the_first_charge_comes_back", "C146_steep_wells_refuted"], "note": "At exact reals; the pixels behind the first charge are arbitrary. Unlike C69 and C109 it needs no minimum of charge."},
  {"property": "C147", "status": "proved", "theorems": ["C147_assigning_full_well_depth", "C147_assigning_well_fill_power", "C147_assigning_well_notch_depth", "C147_assigning_well_bloom_level", "C147_changed_is_built_anew", "C147_default_blooming_level_follows_the_full_well_refuted", "C147_assigning_fractions_of_traps", "C147_every_phase_has_a_well_after_assigning_fractions_refuted"], "note": "Values are compared as lists; a list that is assigned and later changed in place is not modelled here."},
  {"property": "C148", "status": "proved", "theorems": ["C148_charge_in_front_shields_charge_behind", "C148_outputs_of_parts_add_up_to_no_more", "C148_every_pixel_keeps_what_the_first_would", "C148_every_pixel_keeps_what_the_first_would_in_both_directions", "C148_every_pixel_keeps_the_share_of_the_first", "C148_outputs_of_parts_add_up_refuted", "C148_every_pixel_keeps_what_the_first_would_refuted", "C148_extra_charge_comes_out_in_part", "C148_every_pixel_keeps_the_share_in_both_directions"], "note": "At exact reals; the pixels in front may even be negative."}
]}
