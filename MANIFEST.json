{"claims": [
  {"property": "C01", "status": "proved", "theorems": ["C01_or_is_union", "C01_or_rejects_inverted"], "note": ""},
  {"property": "C02", "status": "proved", "theorems": ["C02_and_is_intersection", "C02_and_keeps_nonempty"], "note": ""},
  {"property": "C03", "status": "proved", "theorems": ["C03_and_range_is_intersection", "C03_and_range_commutes", "C03_and_range_keeps_nonempty"], "note": ""},
  {"property": "C04", "status": "proved", "theorems": ["C04_bounds_is_hull", "C04_is_empty"], "note": ""},
  {"property": "C05", "status": "proved", "theorems": ["C05_push_appends", "C05_push_history"], "note": ""},
  {"property": "C06", "status": "proved", "theorems": ["C06_distance_is_motion", "C06_distance_returns"], "note": ""},
  {"property": "C07", "status": "proved", "theorems": ["C07_iter_enumerates", "C07_iter_outside_panics", "C07_iter_corner"], "note": ""},
  {"property": "C08", "status": "proved", "theorems": ["C08_find_root"], "note": ""},
  {"property": "C09", "status": "proved", "theorems": ["C09_find_roots", "C09_roots_floor_ceil"], "note": ""},
  {"property": "C10", "status": "proved", "theorems": ["C10_split_acc"], "note": ""},
  {"property": "C11", "status": "proved", "theorems": ["C11_planned_path_expands"], "note": ""},
  {"property": "C12", "status": "proved", "theorems": ["C12_reaches_target"], "note": ""},
  {"property": "C13", "status": "proved", "theorems": ["C13_acceleration_limit"], "note": ""},
  {"property": "C14", "status": "proved", "theorems": ["C14_speed_limit"], "note": ""},
  {"property": "C15", "status": "proved", "theorems": ["C15_axes_arrive_together", "C15_common_duration_least"], "note": ""},
  {"property": "C16", "status": "proved", "theorems": ["C16_durations_achievable"], "note": ""},
  {"property": "C17", "status": "proved", "theorems": ["C17_duration_bound", "C17_change_bound", "C17_not_shortest_refuted"], "note": ""},
  {"property": "C18", "status": "proved", "theorems": ["C18_near_optimal", "C18_optimal", "C18_one_tick_lost"], "note": ""},
  {"property": "C19", "status": "proved", "theorems": ["C19_distance", "C19_distance_any_duration"], "note": ""},
  {"property": "C20", "status": "proved", "theorems": ["C20_mirror_durations", "C20_mirror_time"], "note": ""},
  {"property": "C21", "status": "proved", "theorems": ["C21_checked_or_panic", "C21_lengths", "C21_plans", "C21_sequences", "C21_overflow_refuted", "C21_stored"], "note": "Arithmetic of the planner checked operation by operation; C21_overflow_refuted shows that the unrestricted claim is false."},
  {"property": "C22", "status": "proved", "theorems": ["C22_stream_reproduces_state", "C22_stream_reproduces_position"], "note": ""},
  {"property": "C23", "status": "proved", "theorems": ["C23_deltas"], "note": ""},
  {"property": "C24", "status": "proved", "theorems": ["C24_synchronised"], "note": ""},
  {"property": "C25", "status": "proved", "theorems": ["C25_goto_arrives"], "note": ""},
  {"property": "C26", "status": "proved", "theorems": ["C26_laser_off_during_goto"], "note": ""},
  {"property": "C27", "status": "proved", "theorems": ["C27_flush_stops", "C27_flush_again_changes_nothing", "C27_flushed_at_rest"], "note": ""},
  {"property": "C28", "status": "proved", "theorems": ["C28_reset_forgets"], "note": ""},
  {"property": "C29", "status": "proved", "theorems": ["C29_speed_reaches_velocity", "C29_speed_desynchronises", "C29_long_ramp_lost"], "note": ""},
  {"property": "C30", "status": "proved", "theorems": ["C30_above_maximum_rejected", "C30_below_minimum_accepted"], "note": ""},
  {"property": "C31", "status": "proved", "theorems": ["C31_exactly_once_in_order"], "note": ""},
  {"property": "C32", "status": "proved", "theorems": ["C32_retry_same_line"], "note": ""},
  {"property": "C33", "status": "proved", "theorems": ["C33_error_aborts"], "note": ""},
  {"property": "C34", "status": "proved", "theorems": ["C34_wire_decodes", "C34_wire_injective", "C34_send_cmds_writes_wire", "C34_numbers"], "note": ""},
  {"property": "C35", "status": "proved", "theorems": ["C35_reply_framing", "C35_reply_found", "C35_never_returns"], "note": ""},
  {"property": "C36", "status": "proved", "theorems": ["C36_speed_limit"], "note": ""},
  {"property": "C37", "status": "proved", "theorems": ["C37_exceeds_limit", "C37_bound"], "note": ""},
  {"property": "C38", "status": "proved", "theorems": ["C38_ticks", "C38_count", "C38_count_special", "C38_succeeds", "C38_far_curve_panics"], "note": ""},
  {"property": "C39", "status": "proved", "theorems": ["C39_laser"], "note": ""},
  {"property": "C40", "status": "proved", "theorems": ["C40_goto_dropped", "C40_goto_dropped_pending", "C40_goto_followed"], "note": ""},
  {"property": "C41", "status": "proved", "theorems": ["C41_all_drawn", "C41_counts", "C41_moves_only", "C41_no_ellipse"], "note": ""},
  {"property": "C42", "status": "proved", "theorems": ["C42_dark_span"], "note": ""},
  {"property": "C43", "status": "proved", "theorems": ["C43_exposure", "C43_place"], "note": ""},
  {"property": "C44", "status": "proved", "theorems": ["C44_absolute"], "note": ""},
  {"property": "C45", "status": "proved", "theorems": ["C45_transform", "C45_points"], "note": ""},
  {"property": "C46", "status": "proved", "theorems": ["C46_groups", "C46_unknown", "C46_close", "C46_nothing_dropped"], "note": ""},
  {"property": "C47", "status": "proved", "theorems": ["C47_cubic", "C47_quadratic", "C47_straight"], "note": ""},
  {"property": "C48", "status": "proved", "theorems": ["C48_longest", "C48_none", "C48_valid"], "note": ""},
  {"property": "C49", "status": "proved", "theorems": ["C49_compact", "C49_list", "C49_outcome"], "note": ""},
  {"property": "C50", "status": "proved", "theorems": ["C50_complete", "C50_consumed", "C50_total", "C50_unambiguous"], "note": ""},
  {"property": "C51", "status": "proved", "theorems": ["C51_compose", "C51_product", "C51_unambiguous"], "note": ""},
  {"property": "C52", "status": "proved", "theorems": ["C52_longest", "C52_dropped", "C52_error"], "note": ""},
  {"property": "C53", "status": "proved", "theorems": ["C53_placed", "C53_independent", "C53_alone", "C53_truncated", "C53_origin"], "note": ""},
  {"property": "C54", "status": "proved", "theorems": ["C54_pruned", "C54_nothing", "C54_layer"], "note": ""},
  {"property": "C55", "status": "proved", "theorems": ["C55_assoc", "C55_identity", "C55_action", "C55_named", "C55_no_translation", "C55_faithful"], "note": ""},
  {"property": "C56", "status": "proved", "theorems": ["C56_pivot_fixed", "C56_rigid", "C56_orientation", "C56_composed"], "note": ""},
  {"property": "C57", "status": "proved", "theorems": ["C57_recompose", "C57_recompose_tiny", "C57_second_branch_wrong", "C57_second_branch"], "note": ""},
  {"property": "C58", "status": "proved", "theorems": ["C58_line", "C58_arc_scaled", "C58_arc_rotation_ignored", "C58_cubic"], "note": ""},
  {"property": "C59", "status": "proved", "theorems": ["C59_line", "C59_circle"], "note": ""},
  {"property": "C60", "status": "proved", "theorems": ["C60_split", "C60_ends", "C60_same_curve"], "note": ""},
  {"property": "C61", "status": "proved", "theorems": ["C61_value", "C61_bernstein", "C61_speed", "C61_direction"], "note": ""},
  {"property": "C62", "status": "proved", "theorems": ["C62_concat", "C62_empty"], "note": ""},
  {"property": "C63", "status": "proved", "theorems": ["C63_polyval", "C63_polymul", "C63_polyadd", "C63_polyoffset", "C63_polyder", "C63_polyint", "C63_polyweight"], "note": ""},
  {"property": "C64", "status": "proved", "theorems": ["C64_table", "C64_eval_int", "C64_covers"], "note": "Exact real arithmetic; same restriction on powf as C71."},
  {"property": "C65", "status": "proved", "theorems": ["C65_quadrature", "C65_inside", "C65_swapped", "C65_degree_sharp", "C65_orders", "C65_nodes"], "note": ""},
  {"property": "C66", "status": "proved", "theorems": ["C66_diff_sign", "C66_diff_sign_angles", "C66_doc_comment_wrong", "C66_diff_sign_near", "C66_rotate_90", "C66_angle_cos"], "note": ""},
  {"property": "C67", "status": "proved", "theorems": ["C67_ends_with_ok", "C67_fuel_irrelevant"], "note": ""},
  {"property": "C68", "status": "proved", "theorems": ["C68_taylor_coefficients", "C68_constant_panics"], "note": ""},
  {"property": "C69", "status": "proved", "theorems": ["C69_find_param"], "note": ""},
  {"property": "C70", "status": "proved", "theorems": ["C70_exact_table"], "note": ""},
  {"property": "C71", "status": "proved", "theorems": ["C71_bezier_curve"], "note": "Exact real arithmetic; the model of powf is faithful where the squared speed at the Taylor centres is positive."},
  {"property": "C72", "status": "proved", "theorems": ["C72_start_direction"], "note": ""},
  {"property": "C73", "status": "proved", "theorems": ["C73_stream_speed_limit", "C73_stream_acc_limit", "C73_condition_needed"], "note": ""},
  {"property": "C74", "status": "proved", "theorems": ["C74_session", "C74_speed_limit", "C74_exceeds_limit"], "note": ""},
  {"property": "C75", "status": "proved", "theorems": ["C75_laser", "C75_marks", "C75_complete", "C75_home", "C75_speed_limit"], "note": ""},
  {"property": "C76", "status": "proved", "theorems": ["C76_scan", "C76_too_fast", "C76_main", "C76_negative_axis", "C76_no_lines", "C76_blank", "C76_collapsed", "C76_y_acceleration", "C76_weight"], "note": ""},
  {"property": "C77", "status": "proved", "theorems": ["C77_determined", "C77_circle"], "note": ""},
  {"property": "C78", "status": "proved", "theorems": ["C78_image"], "note": ""},
  {"property": "C79", "status": "proved", "theorems": ["C79_displacement", "C79_circle_rotation", "C79_tall", "C79_mirrored"], "note": ""},
  {"property": "C80", "status": "proved", "theorems": ["C80_length", "C80_view_box", "C80_view_box_only"], "note": ""},
  {"property": "C81", "status": "proved", "theorems": ["C81_curve", "C81_drawing", "C81_joined"], "note": ""},
  {"property": "C82", "status": "proved", "theorems": ["C82_program", "C82_weight", "C82_limits", "C82_last_error_only", "C82_speed_unchecked", "C82_bad_limits", "C82_zero_ticks_per_second"], "note": ""},
  {"property": "C83", "status": "proved", "theorems": ["C83_length", "C83_position", "C83_ends", "C83_pure", "C83_order", "C83_terminates", "C83_unmeasured"], "note": ""},
  {"property": "C84", "status": "proved", "theorems": ["C84_repeated", "C84_move"], "note": ""},
  {"property": "C85", "status": "proved", "theorems": ["C85_count", "C85_circle", "C85_ellipse"], "note": ""},
  {"property": "C86", "status": "proved", "theorems": ["C86_control", "C86_unused"], "note": ""},
  {"property": "C87", "status": "proved", "theorems": ["C87_value", "C87_polynom_value", "C87_deriv", "C87_deriv_refuted"], "note": ""},
  {"property": "C88", "status": "proved", "theorems": ["C88_sound", "C88_zero"], "note": ""},
  {"property": "C89", "status": "proved", "theorems": ["C89_complete"], "note": ""},
  {"property": "C90", "status": "proved", "theorems": ["C90_linear_end_refuted", "C90_double_refuted", "C90_endless_refuted"], "note": ""},
  {"property": "C91", "status": "proved", "theorems": ["C91_display", "C91_drawn", "C91_fields", "C91_split"], "note": ""},
  {"property": "C92", "status": "proved", "theorems": ["C92_plot", "C92_animate"], "note": ""},
  {"property": "C93", "status": "proved", "theorems": ["C93_intersection", "C93_intersection_when", "C93_order_refuted", "C93_incenter", "C93_fit_circle"], "note": ""},
  {"property": "C94", "status": "proved", "theorems": ["C94_eval", "C94_extend"], "note": ""},
  {"property": "C95", "status": "proved", "theorems": ["C95_read", "C95_order", "C95_ranges", "C95_write", "C95_unchecked_refuted"], "note": ""},
  {"property": "C96", "status": "proved", "theorems": ["C96_upper", "C96_near_best", "C96_tight", "C96_stored", "C96_axes"], "note": ""},
  {"property": "C97", "status": "proved", "theorems": ["C97_reaches", "C97_optimal", "C97_negative_refuted", "C97_ticks"], "note": ""},
  {"property": "C98", "status": "proved", "theorems": ["C98_main", "C98_arguments"], "note": ""},
  {"property": "C99", "status": "proved", "theorems": ["C99_plan", "C99_durations", "C99_axes", "C99_upper"], "note": ""},
  {"property": "C100", "status": "proved", "theorems": ["C100_rounding"], "note": ""},
  {"property": "C101", "status": "proved", "theorems": ["C101_ends", "C101_parameter", "C101_bracket", "C101_bezier", "C101_line"], "note": ""},
  {"property": "C102", "status": "proved", "theorems": ["C102_plan", "C102_unique"], "note": ""},
  {"property": "C103", "status": "proved", "theorems": ["C103_laser"], "note": ""},
  {"property": "C104", "status": "proved", "theorems": ["C104_path"], "note": ""},
  {"property": "C105", "status": "proved", "theorems": ["C105_steps", "C105_speeds", "C105_refused", "C105_back", "C105_stands"], "note": ""},
  {"property": "C106", "status": "proved", "theorems": ["C106_number", "C106_none", "C106_text", "C106_consumed"], "note": ""},
  {"property": "C107", "status": "proved", "theorems": ["C107_text"], "note": ""},
  {"property": "C108", "status": "proved", "theorems": ["C108_document", "C108_readable"], "note": ""},
  {"property": "C109", "status": "proved", "theorems": ["C109_transform"], "note": ""},
  {"property": "C110", "status": "proved", "theorems": ["C110_tangent", "C110_still", "C110_cusp"], "note": ""},
  {"property": "C111", "status": "proved", "theorems": ["C111_document"], "note": ""},
  {"property": "C112", "status": "proved", "theorems": ["C112_program"], "note": ""},
  {"property": "C113", "status": "proved", "theorems": ["C113_covered"], "note": ""},
  {"property": "C114", "status": "proved", "theorems": ["C114_program"], "note": ""},
  {"property": "C115", "status": "proved", "theorems": ["C115_speeds", "C115_integers", "C115_refused", "C115_sent", "C115_no_device", "C115_commands", "C115_burned", "C115_left_on"], "note": ""},
  {"property": "C116", "status": "proved", "theorems": ["C116_refused", "C116_burned"], "note": ""},
  {"property": "C117", "status": "proved", "theorems": ["C117_negative", "C117_zero", "C117_not_finite"], "note": ""},
  {"property": "C118", "status": "proved", "theorems": ["C118_circle", "C118_laser", "C118_covered"], "note": ""},
  {"property": "C119", "status": "proved", "theorems": ["C119_segment", "C119_drawn"], "note": ""},
  {"property": "C120", "status": "proved", "theorems": ["C120_half_circle", "C120_rotated", "C120_inches"], "note": ""},
  {"property": "C121", "status": "proved", "theorems": ["C121_arc", "C121_path", "C121_text"], "note": ""},
  {"property": "C122", "status": "proved", "theorems": ["C122_text", "C122_covered"], "note": ""},
  {"property": "C123", "status": "proved", "theorems": ["C123_calls", "C123_all"], "note": ""},
  {"property": "C124", "status": "proved", "theorems": ["C124_empty", "C124_returns", "C124_goal", "C124_stay", "C124_check", "C124_extend", "C124_test", "C124_nearly", "C124_mirror"], "note": ""},
  {"property": "C125", "status": "proved", "theorems": ["C125_parts", "C125_place", "C125_even", "C125_program", "C125_covered"], "note": ""},
  {"property": "C126", "status": "proved", "theorems": ["C126_text", "C126_document"], "note": ""},
  {"property": "C127", "status": "proved", "theorems": ["C127_div_rem_away", "C127_idiv", "C127_check_idiv", "C127_find_root", "C127_find_root_check", "C127_find_root_test", "C127_max_acceleration", "C127_test_max_acceleration", "C127_adjust_curve_mid", "C127_test_adjust_curve_mid", "C127_path_distance", "C127_test_path_distance", "C127_acc_sequence", "C127_test_acc_sequence", "C127_shortest", "C127_shortest_storable", "C127_test_shortest", "C127_one_representation", "C127_check_and", "C127_tests"], "note": ""},
  {"property": "C128", "status": "proved", "theorems": ["C128_wide", "C128_tall", "C128_undrawable"], "note": ""},
  {"property": "C129", "status": "proved", "theorems": ["C129_drawn", "C129_any", "C129_fresh"], "note": ""},
  {"property": "C130", "status": "proved", "theorems": ["C130_main", "C130_any", "C130_program"], "note": ""},
  {"property": "C131", "status": "proved", "theorems": ["C131_document"], "note": ""},
  {"property": "C132", "status": "proved", "theorems": ["C132_burned", "C132_covered"], "note": ""},
  {"property": "C133", "status": "proved", "theorems": ["C133_raster", "C133_image"], "note": "sufficient conditions; the one on the scan speed is also necessary for images that are not white (C76_too_fast)"},
  {"property": "C134", "status": "proved", "theorems": ["C134_no_device", "C134_sent", "C134_exposed"], "note": "sufficient conditions, those of C133"},
  {"property": "C135", "status": "proved", "theorems": ["C135_no_device", "C135_sent"], "note": "documents of lines and moves, with the sufficient conditions of C131; the streams of documents with curves are not known to be planned to the end"}
]}
