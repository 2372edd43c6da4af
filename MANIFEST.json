{"claims": [
{"property": "C01", "status": "proved", "theorems": ["C01_orientation_rigid", "C01_ypr_rigid", "C01_infinite_tilt_nan"], "note": ""},
{"property": "C02", "status": "proved", "theorems": ["C02_space_camera_round_trip", "C02_ypr_round_trip"], "note": ""},
{"property": "C03", "status": "proved", "theorems": ["C03_optical_axis", "C03_image_axes", "C03_roll_turns_image", "C03_documented_directions"], "note": ""},
{"property": "C04", "status": "proved", "theorems": ["C04_wrap_heading", "C04_congruent_headings"], "note": ""},
{"property": "C05", "status": "proved", "theorems": ["C05_ypr_same_family", "C05_docstring_yaw_sign_refuted"], "note": "The statement as worded is proved; the docstring's yaw = -heading is refuted."},
{"property": "C06", "status": "proved", "theorems": ["C06_rect_image_of_ray", "C06_rect_ray_of_image", "C06_rect_nan_iff"], "note": ""},
{"property": "C07", "status": "proved", "theorems": ["C07_cyl_image_of_ray", "C07_cyl_ray_of_image", "C07_cyl_side_points_nan", "C07_cyl_round_trip_refuted"], "note": "Round trips for |z| >= 1e-10; the excluded 90-degree directions are shown to fail (\u2026_side_points_nan, \u2026_refuted)."},
{"property": "C08", "status": "proved", "theorems": ["C08_equi_image_of_ray", "C08_equi_ray_of_image", "C08_equi_side_points_wrong", "C08_equi_round_trip_refuted"], "note": "Round trips for |z| >= 1e-10; the excluded 90-degree directions are shown to fail (\u2026_side_points_wrong, \u2026_refuted)."},
{"property": "C09", "status": "proved", "theorems": ["C09_scale_invariant", "C09_normed_ray_unit", "C09_centre_ray"], "note": ""},
{"property": "C10", "status": "proved", "theorems": ["C10_focal_of_fov", "C10_fov_of_focal", "C10_image_of_fov", "C10_fov_is_ray_angle"], "note": ""},
{"property": "C11", "status": "proved", "theorems": ["C11_ray_starts_at_camera", "C11_axis_constraint", "C11_parallel_ray", "C11_distance_constraint"], "note": "Stated for a camera without lens; with lens see C18."},
{"property": "C12", "status": "proved", "theorems": ["C12_recover_point", "C12_recover_point_distance"], "note": "Stated for a camera without lens; with lens see C18."},
{"property": "C13", "status": "proved", "theorems": ["C13_mesh_first", "C13_precedence", "C13_X_beats_Z"], "note": ""},
{"property": "C14", "status": "proved", "theorems": ["C14_imageFromSpace", "C14_getRay", "C14_spaceFromImage", "C14_distance", "C14_distances", "C14_planes", "C14_getObjectHeight", "C14_getObjectLength", "C14_grid_refuted", "C14_getClosestPointFromLine", "C14_getBearing", "C14_getDistance", "C14_moveDistance", "C14_moveDistance_transposed", "C14_gpsFromSpace", "C14_spaceFromGPS_point", "C14_spaceFromGPS", "C14_two_points", "C14_flat_raises", "C14_moveDistance_refuted", "C14_two_points_refuted", "C14_ray_intersect_triangle", "C14_no_triangles", "C14_one_triangle", "C14_single_ray", "C14_origins_refuted", "C14_mesh", "C14_intersectionOfTwoLines", "C14_intersection_array", "C14_distanceOfTwoLines", "C14_lines_mixed_raise", "C14_spaceFromImages", "C14_discanteBetweenRays"], "note": "Row-wise for all N for every listed function except the refuted cases named in the statement."},
{"property": "C15", "status": "proved", "theorems": ["C15_object_height", "C15_straight_ahead_nan", "C15_object_height_refuted"], "note": "Heights for x, y different from the camera position; the excluded case is proved to be nan (C15_straight_ahead_nan)."},
{"property": "C16", "status": "proved", "theorems": ["C16_object_length"], "note": ""},
{"property": "C17", "status": "proved", "theorems": ["C17_chord", "C17_zero", "C17_increasing", "C17_below", "C17_row", "C17_columns", "C17_geometry", "C17_nearest", "C17_level", "C17_skyline", "C17_half", "C17_skyline_row", "C17_too_high", "C17_skyline_refuted", "C17_elevation"], "note": ""},
{"property": "C18", "status": "proved", "theorems": ["C18_radial", "C18_undistort_distort", "C18_distort_undistort", "C18_centre_nan", "C18_centre_fixed_refuted", "C18_no_distortion", "C18_recover_point_with_lens"], "note": ""},
{"property": "C19", "status": "proved", "theorems": ["C19_zero_coefficients", "C19_abc_fixed_circle", "C19_brown_monotone", "C19_brown_outwards", "C19_zero_coefficients_undistort"], "note": ""},
{"property": "C20", "status": "proved", "theorems": ["C20_exact_at_samples", "C20_decreasing_samples_dropped", "C20_exact_at_kept", "C20_fallback_identity", "C20_round_trip_refuted", "C20_brown_round_trip_at_samples"], "note": ""},
{"property": "C21", "status": "proved", "theorems": ["C21_nearest_hit", "C21_empty_mesh_raises", "C21_nearest_plane", "C21_degenerate_triangle_hit", "C21_edge_on_missed", "C21_no_hit_nan_refuted", "C21_degenerate_never_hit_refuted", "C21_edge_on_refuted"], "note": ""},
{"property": "C22", "status": "proved", "theorems": ["C22_midpoint_of_shortest_segment", "C22_intersection", "C22_parallel_nan", "C22_batch_rows"], "note": ""},
{"property": "C23", "status": "proved", "theorems": ["C23_distance_of_lines", "C23_batch_rows", "C23_short_direction_refuted"], "note": ""},
{"property": "C24", "status": "proved", "theorems": ["C24_distance", "C24_distance_zero_nan", "C24_distance_array", "C24_distance_batch", "C24_distance_batch_refuted", "C24_distance_points", "C24_foot_of_perpendicular", "C24_direction_overwritten", "C24_zero_direction_nan"], "note": ""},
{"property": "C25", "status": "proved", "theorems": ["C25_triangle_area", "C25_triangle_area_zero_iff", "C25_triangle_area_invariant", "C25_quadrilateral_area", "C25_quadrilateral_renumbering"], "note": ""},
{"property": "C26", "status": "proved", "theorems": ["C26_two_triangles_per_segment", "C26_mesh_in_wall", "C26_total_area", "C26_gap", "C26_covers_wall_refuted"], "note": ""},
{"property": "C27", "status": "proved", "theorems": ["C27_batch", "C27_triangulation", "C27_collinear_nan", "C27_ray_distance_zero", "C27_ray_distance_refuted"], "note": ""},
{"property": "C28", "status": "proved", "theorems": ["C28_names", "C28_names_unambiguous", "C28_cameras", "C28_shared", "C28_load_refuted"], "note": ""},
{"property": "C29", "status": "proved", "theorems": ["C29_rotate", "C29_rotate_image", "C29_rotate_returns", "C29_rotate_ypr_raises", "C29_scale", "C29_scale_image", "C29_scale_returns", "C29_scale_refuted", "C29_rotate_ypr_refuted"], "note": ""},
{"property": "C30", "status": "proved", "theorems": ["C30_distance", "C30_heights", "C30_metric"], "note": ""},
{"property": "C31", "status": "proved", "theorems": ["C31_destination", "C31_distance", "C31_height", "C31_bearing_meaning", "C31_bearing"], "note": ""},
{"property": "C32", "status": "proved", "theorems": ["C32_round_trip", "C32_camera", "C32_origin_height", "C32_batch", "C32_flat_batch_raises", "C32_camera_refuted", "C32_two_points_refuted"], "note": ""},
{"property": "C33", "status": "proved", "theorems": ["C33_default_format", "C33_minutes_format", "C33_degrees_format", "C33_width", "C33_text"], "note": ""},
{"property": "C34", "status": "proved", "theorems": ["C34_seconds", "C34_minutes", "C34_rounded_degrees_refuted"], "note": "Proved for every format whose numbers before the last are %d; false for rounded leading numbers (C34_rounded_degrees_refuted)."},
{"property": "C35", "status": "proved", "theorems": ["C35_parse_sign", "C35_whole_degrees_refuted", "C35_letter", "C35_no_placeholder", "C35_too_many"], "note": "C35_whole_degrees_refuted: without a letter, %d degrees lose the sign of coordinates between -1 and 0."},
{"property": "C36", "status": "proved", "theorems": ["C36_frozen_refuted", "C36_read_your_write", "C36_uncertain", "C36_none", "C36_focal_length", "C36_others_unchanged", "C36_unknown_name", "C36_aliases"], "note": ""},
{"property": "C37", "status": "proved", "theorems": ["C37_two_lenses_refuted", "C37_two_projections_refuted", "C37_frozen_refuted", "C37_current_values", "C37_orientation"], "note": ""},
{"property": "C38", "status": "proved", "theorems": ["C38_focal_refuted", "C38_heading_refuted", "C38_set_default", "C38_others_unchanged", "C38_user_value_wins"], "note": ""},
{"property": "C39", "status": "proved", "theorems": ["C39_focal_refuted", "C39_heading_refuted", "C39_sample", "C39_sample_angle", "C39_sample_only", "C39_focal_follows", "C39_set_to_mean", "C39_callback_order"], "note": ""},
{"property": "C40", "status": "proved", "theorems": ["C40_heading_refuted", "C40_order_refuted", "C40_user_set_not_offered", "C40_new_orientation", "C40_fitted_offered", "C40_set_fit", "C40_set_fit_focal", "C40_callback_order", "C40_callbacks_once", "C40_types", "C40_types_camera"], "note": ""},
{"property": "C41", "status": "proved", "theorems": ["C41_load", "C41_same_camera", "C41_load_returns", "C41_load_camera", "C41_focal_refuted", "C41_ypr_refuted"], "note": ""},
{"property": "C42", "status": "proved", "theorems": ["C42_lists", "C42_array_stuck", "C42_tuple", "C42_array_refuted", "C42_unchanged", "C42_default_scaling", "C42_repaired", "C42_camera_refuted", "C42_height_refuted", "C42_hidden_refuted", "C42_list_refuted", "C42_lens_refuted"], "note": "Proved for histories without parameter changes (any mix of calls, extents, scalings, images); refuted for changes of camera parameters, lens, Z, hide_backpoints, and for an extent list changed in place."},
{"property": "C43", "status": "proved", "theorems": ["C43_size", "C43_crop", "C43_identity", "C43_undistorted", "C43_top_view", "C43_guessed_extent", "C43_zero_lens_refuted", "C43_guess_refuted", "C43_undistorted_single", "C43_top_view_single", "C43_single_refuted"], "note": "Positions exactly halfway between two pixels and float32 rounding of the map are not covered. Refuted: lens with zero coefficients; the guessed extent of the top view."},
{"property": "C44", "status": "proved", "theorems": ["C44_accepts", "C44_size_and_centre", "C44_focal_px", "C44_sensor", "C44_focal_mm", "C44_view", "C44_view_and_focal_refuted", "C44_tuple_refuted", "C44_zero_refuted"], "note": "Refuted parts: C44_view_and_focal_refuted, C44_tuple_refuted, C44_zero_refuted."},
{"property": "C45", "status": "proved", "theorems": ["C45_ensure", "C45_ensure_many", "C45_parse", "C45_inner_dots_refuted", "C45_errors"], "note": "'...' in the middle of a format switches off the checks before it (C45_inner_dots_refuted)."},
{"property": "C46", "status": "proved", "theorems": ["C46_method", "C46_length", "C46_acceptance", "C46_recorded", "C46_evaluated", "C46_recorded_refuted", "C46_support", "C46_ranges", "C46_support_refuted", "C46_ranges_refuted", "C46_tuning"], "note": "Ranges hold for burn-in below 200 iterations and are refuted from 200 on; with a prior trace the recorded prior row need not belong to the recorded probability (refuted); the support clause needs a log probability that never is +infinity (refuted otherwise)."},
{"property": "C47", "status": "proved", "theorems": ["C47_fit", "C47_parameters", "C47_failed", "C47_start", "C47_last_try_refuted"], "note": "The 1000th random start is evaluated but still raises (C47_last_try_refuted), and the parameters are not put back."},
{"property": "C48", "status": "proved", "theorems": ["C48_log_probability", "C48_order", "C48_group", "C48_additional", "C48_raw", "C48_plots"], "note": ""},
{"property": "C49", "status": "proved", "theorems": ["C49_found", "C49_not_found", "C49_line_endings", "C49_download", "C49_once", "C49_exif_database", "C49_exif_resolution", "C49_failed_download_refuted", "C49_error_page_refuted", "C49_maker_refuted", "C49_no_database_refuted", "C49_unit_refuted"], "note": "Refuted parts: a failed download or a server error page disables the database for good; sensor_from_database=False always raises; the resolution unit is ignored; a model tag without a space matches a maker."},
{"property": "C50", "status": "proved", "theorems": ["C50_slice", "C50_whole_image", "C50_on_ground", "C50_value", "C50_value_slice", "C50_one_column", "C50_nadir", "C50_counted", "C50_rows_fall", "C50_roll_refuted"], "note": ""},
{"property": "C51", "status": "proved", "theorems": ["C51_border", "C51_neighbours", "C51_resolution", "C51_cone_distance", "C51_cone_ground", "C51_space_refuted", "C51_outline"], "note": "The docstring's claim of space coordinates is refuted (C51_space_refuted)."},
{"property": "C52", "status": "proved", "theorems": ["C52_cube", "C52_rect", "C52_grid", "C52_objects", "C52_added_array", "C52_new_scene", "C52_class_list"], "note": ""},
{"property": "C53", "status": "proved", "theorems": ["C53_position", "C53_returns", "C53_not_a_position", "C53_forms_agree", "C53_elevation_refuted"], "note": "The elevation given beside a two-element sequence is ignored (refuted); the other forms are proved."},
{"property": "C54", "status": "proved", "theorems": ["C54_epipolar_distance", "C54_error_zero", "C54_panorama_refuted"], "note": ""},
{"property": "C55", "status": "proved", "theorems": ["C55_imageFromSpace", "C55_getRay", "C55_spaceFromImage", "C55_imageFromSpace_value", "C55_getRay_value", "C55_spaceFromImage_value", "C55_imageFromCamera", "C55_imageFromCamera_refuted", "C55_getClosestPointFromLine_refuted"], "note": "The Camera methods keep all arrays; imageFromCamera and getClosestPointFromLine write to their argument, exactly characterised."},
{"property": "C56", "status": "proved", "theorems": ["C56_no_raise", "C56_histories", "C56_none_refuted"], "note": ""},
{"property": "C57", "status": "proved", "theorems": ["C57_frozen_for_ever", "C57_never_frozen", "C57_assigned_size", "C57_stale_size", "C57_assigned_size_refuted"], "note": "C57_assigned_size_refuted and C57_stale_size: false after construction from a field of view."},
{"property": "C58", "status": "proved", "theorems": ["C58_uncertainties", "C58_uncertainties_raise", "C58_reach", "C58_reach_refuted", "C58_horizon_forms", "C58_size_forms", "C58_variations_refuted", "C58_counts", "C58_counts_refuted", "C58_correspondence_counts", "C58_correspondence_weighted", "C58_size_counts", "C58_normal", "C58_height", "C58_length", "C58_parameter", "C58_height_true_camera", "C58_length_true_camera", "C58_horizon", "C58_baseline", "C58_baseline_refuted", "C58_correspondence_true_cameras", "C58_correspondence_refuted", "C58_landmark", "C58_landmark_best", "C58_landmark_true_camera", "C58_landmark_refuted", "C58_skyline_refuted"], "note": "The normal log density and the sums of the terms with nan as impossible. Proved for all cameras: the bound of every term and when it is reached, and that the true camera reaches it (heights, lengths, landmarks with equal uncertainties, correspondences with visible samples). Exact value of the landmark term for any uncertainties. Refuted: landmarks with different uncertainties per axis, correspondences of cameras in front of each other, baseline of cameras at different elevations."},
{"property": "C59", "status": "proved", "theorems": ["C59_landmark_forms", "C59_landmark_counts", "C59_gps_from_image", "C59_there_and_back", "C59_displacement", "C59_there_and_back_refuted", "C59_batch", "C59_two_points", "C59_landmarks", "C59_two_landmarks_refuted", "C59_two_points_refuted"], "note": "Every clause is proved; the clauses that are false of the code are stated as exceptions and refuted (C59_there_and_back_refuted, C59_two_points_refuted, C59_two_landmarks_refuted)."},
{"property": "C60", "status": "proved", "theorems": ["C60_poses", "C60_relative", "C60_relative_only_if", "C60_mirrored", "C60_pixels_refuted"], "note": "What the function sets is characterised exactly and the intended claim is refuted: C60_relative (iff), C60_relative_only_if, C60_mirrored, C60_pixels_refuted."},
{"property": "C61", "status": "proved", "theorems": ["C61_fridge", "C61_recorded", "C61_blind", "C61_fit_parameter", "C61_distribution", "C61_normal_prior", "C61_sampler_refuted", "C61_additional_refuted"], "note": "The claims about what the sampler sees and about additional parameters are refuted (C61_sampler_refuted, C61_additional_refuted); C61_fridge states what happens for every sampler. bayesianfridge, pandas and scipy are not modelled beyond the interface."},
{"property": "C62", "status": "proved", "theorems": ["C62_crossings", "C62_clip", "C62_raises", "C62_line", "C62_epipole", "C62_cross", "C62_zero", "C62_diagonal_refuted"], "note": "C62_diagonal_refuted: plotEpilines raises AttributeError for a line through two corners. The epipolar statements assume a rectilinear camera without distortion in general position."},
{"property": "C63", "status": "proved", "theorems": ["C63_one_parameter", "C63_no_additional", "C63_raises", "C63_priors", "C63_distribution", "C63_left_refuted", "C63_fit_refuted"], "note": "Proved for one given parameter; refuted: sampling with several parameters and an additional one (raises), the state after sampling, fitting of additional parameters."},
{"property": "C64", "status": "proved", "theorems": ["C64_head", "C64_head_hits", "C64_back", "C64_back_hits", "C64_back_refuted", "C64_landmark", "C64_lines", "C64_lines_refuted"], "note": "Heights, lengths, landmarks and lines; refutations: C64_back_refuted (front and back equal), C64_lines_refuted (points in a grid)."},
{"property": "C65", "status": "proved", "theorems": ["C65_matrix", "C65_image", "C65_hidden", "C65_double", "C65_round_trip", "C65_ground", "C65_sky", "C65_exact", "C65_horizon_refuted"], "note": "Standard model of rounding without overflow and underflow; rectilinear projection, no lens. C65_horizon_refuted: no rounding decides all pixels near the horizon rightly."},
{"property": "C66", "status": "proved", "theorems": ["C66_unbounded", "C66_bounded", "C66_defined", "C66_chain", "C66_bounded_refuted", "C66_tuned_refuted"], "note": "Without prior trace. C66_bounded_refuted, C66_tuned_refuted: with ranges the samples do not follow the given probability."},
{"property": "C67", "status": "proved", "theorems": ["C67_sample", "C67_mean", "C67_values", "C67_label", "C67_cut_refuted"], "note": "Traces without additional parameters in C67_sample and C67_mean; C67_cut_refuted: a cut trace raises."},
{"property": "C68", "status": "proved", "theorems": ["C68_line", "C68_interval", "C68_raises", "C68_summary", "C68_summary_log", "C68_plot", "C68_rejected_refuted"], "note": "C68_rejected_refuted: a trace in which every proposal was rejected raises."},
{"property": "C69", "status": "proved", "theorems": ["C69_position", "C69_batch", "C69_numbers", "C69_round_trip", "C69_height_raises", "C69_heights_refuted", "C69_dropped_refuted", "C69_unreadable_refuted"], "note": "C69_heights_refuted, C69_dropped_refuted, C69_unreadable_refuted are the failures: heights for a list raise, a height or longitude beside a single coordinate text is dropped, unreadable text gives None."},
{"property": "C70", "status": "proved", "theorems": ["C70_edge", "C70_picture", "C70_cube", "C70_rect", "C70_views", "C70_render", "C70_behind_refuted", "C70_panorama_refuted", "C70_seam_refuted", "C70_no_camera_refuted"], "note": "C70_behind_refuted, C70_panorama_refuted, C70_seam_refuted, C70_no_camera_refuted are the limits: partly visible edges, cylindrical cameras, scenes without a camera, float image sizes."},
{"property": "C71", "status": "proved", "theorems": ["C71_project", "C71_undistort", "C71_applied", "C71_results", "C71_pattern", "C71_axis_refuted", "C71_tangential_refuted"], "note": "C71_axis_refuted and C71_tangential_refuted are the limits: the optical axis itself, and results with tangential coefficients, which the flags of fitCalibration exclude."},
{"property": "C72", "status": "proved", "theorems": ["C72_used", "C72_points", "C72_processed", "C72_shown", "C72_size", "C72_corrected_size", "C72_selected", "C72_flags", "C72_same_name_refuted", "C72_failed_refuted", "C72_race_refuted", "C72_parallel_refuted", "C72_mixed_refuted", "C72_size_refuted", "C72_stale_refuted", "C72_stale_map_refuted"], "note": "C72_points assumes that files with a common corner file show the same corners; C72_shown that no calibration arrives while a picture loads; C72_size that none was loaded. The refuted theorems show that these are needed."},
{"property": "C73", "status": "proved", "theorems": ["C73_zoom", "C73_drag", "C73_fit", "C73_center", "C73_translate", "C73_repaint", "C73_release", "C73_offset", "C73_kept", "C73_extend", "C73_small", "C73_map", "C73_tilted_refuted", "C73_quarter_refuted", "C73_lost_refuted", "C73_small_refuted", "C73_map_refuted"], "note": "Rotations by other than quarter turns (half turns for centerOn, none for mapToOrigin and fitSmallDimensionInView) are excluded; the refuted theorems show why."},
{"property": "C74", "status": "proved", "theorems": ["C74_shown", "C74_range", "C74_reach", "C74_switch", "C74_back", "C74_reset", "C74_reclick_refuted"], "note": "C74_reclick_refuted: clicking the selected label again replaces the angles by those of the hidden sliders."},
{"property": "C75", "status": "proved", "theorems": ["C75_distance", "C75_worst", "C75_heights", "C75_bearing", "C75_space", "C75_double", "C75_same", "C75_symmetric", "C75_antipode_refuted"], "note": "C75_antipode_refuted: for opposite places a cosine off by one unit in the last place makes getDistance return nan instead of half the circumference."},
{"property": "C76", "status": "proved", "theorems": ["C76_shown", "C76_once", "C76_untouched", "C76_stale_only", "C76_repaired", "C76_stale_refuted"], "note": "C76_stale_refuted: last_emited_value is not updated by setValue, so a focal length typed, overwritten by the lock and typed again is shown but the camera keeps the old one."},
{"property": "C77", "status": "proved", "theorems": ["C77_shown", "C77_lens", "C77_sizes", "C77_classes", "C77_not_finite", "C77_prints", "C77_assigned", "C77_focal_refuted", "C77_sensor_refuted"], "note": "C77_focal_refuted: two cameras whose second focal lengths differ by a factor two print the same text. C77_sensor_refuted: a camera without a sensor prints one, of another shape than its pictures."},
{"property": "C78", "status": "proved", "theorems": ["C78_length", "C78_length_term", "C78_elevation", "C78_height", "C78_elevation_height", "C78_heading_refuted", "C78_horizon", "C78_tilt", "C78_same_horizon", "C78_scale", "C78_scale_term"], "note": "C78_heading_refuted: two cameras that differ only in heading by 45 degrees measure the height between the same two pixels as 25/4 and as less than 5."},
{"property": "C79", "status": "proved", "theorems": ["C79_segment", "C79_ground_segment", "C79_ground_order", "C79_size", "C79_vanishing", "C79_level_lines", "C79_curved_refuted"], "note": "C79_curved_refuted: for the other two projections the middle of three points of a straight line is not on the line through the images of the other two."},
{"property": "C80", "status": "proved", "theorems": ["C80_image", "C80_double", "C80_ground", "C80_sky", "C80_round_trip", "C80_plane", "C80_seam_refuted"], "note": "C80_seam_refuted: without the condition on the seam the column can be wrong by more than half a turn."},
{"property": "C81", "status": "proved", "theorems": ["C81_pixel", "C81_row", "C81_tilt", "C81_heading", "C81_elevation", "C81_position", "C81_disparity", "C81_range", "C81_approach", "C81_bounded_refuted"], "note": "C81_bounded_refuted: no bound on the ground holds for all pixels, as the error of one row grows without limit towards the horizon."},
{"property": "C82", "status": "proved", "theorems": ["C82_every_motion", "C82_every_motion_ypr", "C82_same_camera", "C82_unique"], "note": "Includes the gimbal lock of cameras that look straight down or up."},
{"property": "C83", "status": "proved", "theorems": ["C83_two_landmarks", "C83_four_landmarks", "C83_ground_landmarks", "C83_three_refuted", "C83_focal_refuted"], "note": "C83_three_refuted and C83_focal_refuted show what the landmarks do not determine. The lens is left out (plain cameras)."},
{"property": "C84", "status": "proved", "theorems": ["C84_origin", "C84_never_short", "C84_stretch", "C84_local", "C84_factor_refuted"], "note": "Origins without height, as Camera.spaceFromGPS uses; C32_origin_height shows what a height does. C84_factor_refuted shows that the radius is needed."},
{"property": "C85", "status": "proved", "theorems": ["C85_no_parallax", "C85_parallax", "C85_reproject", "C85_zoom", "C85_pan", "C85_scroll", "C85_roll", "C85_tilt", "C85_scroll_refuted"], "note": "Undistorted cameras (plain). C85_scroll_refuted shows that the camera has to look level."},
{"property": "C86", "status": "proved", "theorems": ["C86_load", "C86_load_returns", "C86_camera", "C86_orientation_other_names", "C86_lens_file_refuted", "C86_bare_lens_refuted"], "note": "The JSON text is not modelled: the file is the list of names and values. focallength_px is not saved (see C41_focal_refuted)."},
{"property": "C87", "status": "proved", "theorems": ["C87_pixel", "C87_ray", "C87_inexact", "C87_recover", "C87_recover_distance", "C87_constraint", "C87_distance", "C87_height", "C87_length", "C87_triangulation", "C87_ray_distance", "C87_horizon", "C87_centre_refuted"], "note": "The spline of scipy is an oracle: that the inverse is exact at a pixel is a hypothesis (it holds at the sampled radii, C20), and C87_inexact says what an inexact one costs."},
{"property": "C88", "status": "proved", "theorems": ["C88_brown", "C88_abc", "C88_undistort", "C88_double", "C88_continuous", "C88_image", "C88_identity_refuted"], "note": "Pixels at exactly the centre are excluded: the code divides by the radius there (C18, C87_centre_refuted). The accuracy of scipy's spline inverse is a hypothesis of C88_undistort."},
{"property": "C89", "status": "proved", "theorems": ["C89_distinct", "C89_brown_distinct", "C89_fold", "C89_centre_line", "C89_symmetric", "C89_row", "C89_bent", "C89_brown_shape", "C89_stretch", "C89_zoom", "C89_resize", "C89_abc_zoom_refuted"], "note": ""},
{"property": "C90", "status": "proved", "theorems": ["C90_bounded", "C90_bounded_refuted", "C90_answers", "C90_number", "C90_walk", "C90_path", "C90_units", "C90_metropolis", "C90_normal", "C90_normal_answers", "C90_normal_unlimited"], "note": "Sampler abstract; scipy's and numpy's argument checks as in their sources."},
{"property": "C91", "status": "proved", "theorems": ["C91_solver", "C91_triangulation", "C91_lines", "C91_double", "C91_parallel_refuted"], "note": "np.linalg.inv enters through the residual of its result, as in C65; np.linalg.solve through backward stability, proved for elimination with row interchanges. Overflow and underflow are left out."},
{"property": "C92", "status": "proved", "theorems": ["C92_plane", "C92_hit", "C92_miss", "C92_mesh", "C92_planes", "C92_level", "C92_double", "C92_ridge_refuted"], "note": "Overflow and underflow are left out; directions and corners are taken as they are stored. Triangles seen edge-on or at their border are excluded by hypotheses, and C92_ridge_refuted shows that the border must be."},
{"property": "C93", "status": "proved", "theorems": ["C93_height", "C93_length", "C93_double", "C93_ahead_refuted"], "note": "One object at a time; overflow and underflow are left out; the pixels are taken as they are stored. Objects near the planes through the camera are excluded by hypotheses, and C93_ahead_refuted shows that they must be."},
{"property": "C94", "status": "proved", "theorems": ["C94_single", "C94_pair", "C94_no_degree", "C94_words_first", "C94_longitude_first_refuted", "C94_wrong_letter_refuted", "C94_mixed_refuted", "C94_mixed_single_refuted", "C94_documented_refuted", "C94_small_letter_refuted"], "note": "Two coordinates of different forms are refuted by examples (C94_mixed_refuted, C94_mixed_single_refuted). Digits of other scripts, which Python's \\d accepts, are not modelled."},
{"property": "C95", "status": "proved", "theorems": ["C95_tuple", "C95_same", "C95_top_view", "C95_undistorted", "C95_no_lens", "C95_row_refuted", "C95_list_refuted"], "note": "C95_row_refuted: the plotted undistorted image is drawn one pixel too high. matplotlib's placement of an image in its extent is taken as its documentation says. An extent given as a tuple (AttributeError in line 1360) is not modelled."},
{"property": "C96", "status": "proved", "theorems": ["C96_direction", "C96_compass", "C96_shown", "C96_level", "C96_plumb", "C96_heights_to_scale", "C96_circle", "C96_range", "C96_horizon_ratio", "C96_gps", "C96_full_turn", "C96_less_than_a_turn", "C96_straight_refuted", "C96_equirectangular_scale_refuted", "C96_plumb_refuted", "C96_gps_refuted"], "note": "C96_gps_refuted: gps_lat and gps_lon are the origin of the space coordinates; for a camera with another pos_x_m or pos_y_m the column of a landmark is not its bearing from there. Points within 1e-10 m of the plane of the lens and exactly behind a panorama camera are excluded (C07, C08)."},
{"property": "C97", "status": "proved", "theorems": ["C97_move", "C97_ground", "C97_space", "C97_double", "C97_there_and_back", "C97_pole_refuted"], "note": "The accuracy asked of the operations is that of C75 (gdouble_accurate shows that correctly rounded double precision has it); overflow, underflow and the sign of zero are not part of this model. gpsFromSpace of the origin itself is left out: arctan2(0, 0) is not constrained by the accuracy."},
{"property": "C98", "status": "proved", "theorems": ["C98_corrected", "C98_one_to_one", "C98_two_landmarks", "C98_ground_landmarks", "C98_four_landmarks", "C98_no_parallax", "C98_parallax", "C98_compass", "C98_straight", "C98_lens_or_zoom", "C98_lens_not_zoom", "C98_one_radius_refuted", "C98_forgotten_refuted"], "note": "The pixels are those at which the interpolated inverse of the lens is exact (C20: at least at the sample radii); C87_inexact bounds what happens elsewhere. The centre of the lens is left out, its pixel is nan (C18)."},
{"property": "C99", "status": "proved", "theorems": ["C99_columns", "C99_rows", "C99_frame", "C99_pyramid", "C99_panorama", "C99_zoom", "C99_tilted", "C99_ground", "C99_ground_ahead", "C99_footprint", "C99_horizon", "C99_level", "C99_off_centre_refuted", "C99_bearing_refuted"], "note": "Points within 1e-10 m of the plane of the lens have nan pixels (C06) and are left out by the hypothesis on the depth. The vertical angle of a rectilinear camera is measured in the upright plane of the axis, that of panoramas in the upright plane of the point."}
]}
