{
 "claims": [
  {
   "property": "C01",
   "status": "proved",
   "theorems": [
    "C01_window"
   ],
   "note": ""
  },
  {
   "property": "C02",
   "status": "proved",
   "theorems": [
    "C02_reported_once"
   ],
   "note": ""
  },
  {
   "property": "C03",
   "status": "proved",
   "theorems": [
    "C03_cadence",
    "C03_consecutive"
   ],
   "note": ""
  },
  {
   "property": "C04",
   "status": "proved",
   "theorems": [
    "C04_no_frame_lost",
    "C04_lost_when_disabled"
   ],
   "note": ""
  },
  {
   "property": "C05",
   "status": "proved",
   "theorems": [
    "C05_accepted",
    "C05_rejected"
   ],
   "note": ""
  },
  {
   "property": "C06",
   "status": "proved",
   "theorems": [
    "C06_pose_table",
    "C06_pose_table_domain"
   ],
   "note": "poses are an arbitrary group"
  },
  {
   "property": "C07",
   "status": "proved",
   "theorems": [
    "C07_prediction",
    "C27_tracked_frames_reach_observers",
    "C65_no_abnormal_outcome"
   ],
   "note": ""
  },
  {
   "property": "C08",
   "status": "proved",
   "theorems": [
    "C08_repeated_motion",
    "C08_screw",
    "C08_simple_refuted",
    "C08_rotation",
    "C08_translation",
    "C08_base",
    "C08_few_frames",
    "C08_same_number_refuted"
   ],
   "note": "Unit quaternions and vectors over R with Sophus exponential and logarithm in exact arithmetic (the small-angle series branches are replaced by the exact formulas)."
  },
  {
   "property": "C09",
   "status": "proved",
   "theorems": [
    "C09_budget"
   ],
   "note": "point choice and bundle adjustment enter through contracts"
  },
  {
   "property": "C10",
   "status": "proved",
   "theorems": [
    "C10_activation",
    "C10_positions"
   ],
   "note": ""
  },
  {
   "property": "C11",
   "status": "proved",
   "theorems": [
    "C11_distance_exact",
    "C11_reduction_total"
   ],
   "note": "Seeds must fall inside the reduced grid (always so when the reduction factor divides both sides). Termination: result is Ok for every fuel from an explicit bound on."
  },
  {
   "property": "C12",
   "status": "proved",
   "theorems": [
    "C12_choose_farthest_first",
    "C12_choose_any_candidates",
    "C12_only_in_image_refuted",
    "C12_negative_request_refuted"
   ],
   "note": "Quantified over every nth_element meeting the standard postcondition."
  },
  {
   "property": "C13",
   "status": "proved",
   "theorems": [
    "C13_build_safe",
    "C13_build_refuted",
    "C13_choose_refuted",
    "C12_choose_farthest_first"
   ],
   "note": "Safety when the factor divides both sides; query safety is the Ok result of C12_choose_farthest_first; both violations have witnesses."
  },
  {
   "property": "C14",
   "status": "proved",
   "theorems": [
    "C14_clp2_least_power",
    "C14_clp2_zero",
    "C14_clp2_wraps"
   ],
   "note": "32-bit arithmetic modelled exactly."
  },
  {
   "property": "C15",
   "status": "proved",
   "theorems": [
    "C15_selection",
    "C15_inside",
    "C15_all_genuine_refuted"
   ],
   "note": "For every maximum position minMaxLoc may pick and every shuffle. Exact arithmetic for means and thresholds."
  },
  {
   "property": "C16",
   "status": "proved",
   "theorems": [
    "C15_selection",
    "C16_stuck_after_uniform_image",
    "C16_block_zero_diverges"
   ],
   "note": "Termination is the Ok result of C15_selection; block size in exact arithmetic."
  },
  {
   "property": "C17",
   "status": "proved",
   "theorems": [
    "C17_incremental_file",
    "C17_between_updates",
    "C17_update_local",
    "C17_counter_overflow"
   ],
   "note": "Number printing is a parameter with contract fmt_ok (non-empty, no space or newline)."
  },
  {
   "property": "C18",
   "status": "proved",
   "theorems": [
    "C18_one_shot_export",
    "C18_short_colors"
   ],
   "note": "Number printing is a parameter with contract fmt_ok."
  },
  {
   "property": "C19",
   "status": "proved",
   "theorems": [
    "C19_increasing",
    "C19_increasing_any_flush",
    "C19_lbo_two_refuted",
    "C19_last_one_refuted"
   ],
   "note": "Positive statement with its exact boundary; the excluded settings are refuted by concrete runs."
  },
  {
   "property": "C20",
   "status": "proved",
   "theorems": [
    "C20_complete_if_large",
    "C20_lost_if_small",
    "C20_shutdown_undefined"
   ],
   "note": "The infinite-to-int conversion is a parameter; UB for the faithful reading."
  },
  {
   "property": "C21",
   "status": "proved",
   "theorems": [
    "C21_cloud"
   ],
   "note": "Per-point position and colour computation is a parameter of the theorem."
  },
  {
   "property": "C22",
   "status": "proved",
   "theorems": [
    "C22_round_trip"
   ],
   "note": "Text form of doubles is a parameter with contract codec_ok; images are re-read from the dataset and not modelled."
  },
  {
   "property": "C23",
   "status": "proved",
   "theorems": [
    "C23_reuse",
    "C23_exact_iff_no_stale"
   ],
   "note": ""
  },
  {
   "property": "C24",
   "status": "proved",
   "theorems": [
    "C24_order_free"
   ],
   "note": "For arbitrary directory contents."
  },
  {
   "property": "C25",
   "status": "proved",
   "theorems": [
    "C25_same_files",
    "C25_forgotten"
   ],
   "note": ""
  },
  {
   "property": "C26",
   "status": "proved",
   "theorems": [
    "C26_one_observer",
    "C26_no_observer",
    "C26_once_per_observer",
    "C26_zero_gap_refuted",
    "C26_poses"
   ],
   "note": ""
  },
  {
   "property": "C27",
   "status": "proved",
   "theorems": [
    "C27_tracked_frames_reach_observers",
    "C27_only_registered",
    "C27_restored_missing"
   ],
   "note": ""
  },
  {
   "property": "C28",
   "status": "proved",
   "theorems": [
    "C28_history",
    "C28_defined",
    "C28_flip_joined_refuted",
    "C28_collinear_refuted",
    "C28_diagonal_refuted",
    "C28_equal_refuted"
   ],
   "note": ""
  },
  {
   "property": "C29",
   "status": "proved",
   "theorems": [
    "C29_index",
    "C29_dropped_refuted",
    "C29_wrong_vertex_refuted",
    "C29_past_array_refuted"
   ],
   "note": "The general statement is proved for any geometric predicates; the last two theorems are calls of the constructor showing both outcomes."
  },
  {
   "property": "C30",
   "status": "proved",
   "theorems": [
    "C30_sizes"
   ],
   "note": "Same histories as C28."
  },
  {
   "property": "C31",
   "status": "proved",
   "theorems": [
    "C31_empty_circle",
    "C31_circle_exists",
    "C31_order",
    "C31_symmetric",
    "C31_flip"
   ],
   "note": "Exact real arithmetic (no rounding)."
  },
  {
   "property": "C32",
   "status": "proved",
   "theorems": [
    "C32_inside",
    "C32_degenerate_refuted"
   ],
   "note": "Exact real arithmetic (no rounding)."
  },
  {
   "property": "C33",
   "status": "proved",
   "theorems": [
    "C33_sound",
    "C33_found",
    "C33_second_segment",
    "C33_missed_refuted",
    "C33_first_segment_refuted"
   ],
   "note": "Exact real arithmetic (no rounding)."
  },
  {
   "property": "C34",
   "status": "proved",
   "theorems": [
    "C34_polyline",
    "C34_total",
    "C34_lipschitz",
    "C34_short"
   ],
   "note": "Exact real arithmetic (no rounding). Finite position."
  },
  {
   "property": "C35",
   "status": "proved",
   "theorems": [
    "C35_product",
    "C35_product_refuted",
    "C35_inverse_left",
    "C35_inverse_right",
    "C35_inverse_refuted",
    "C35_associative_refuted",
    "C35_unit"
   ],
   "note": "exact boundary of every law; over the reals"
  },
  {
   "property": "C36",
   "status": "proved",
   "theorems": [
    "C36_lift",
    "C36_pinhole",
    "C36_polynomial",
    "C36_radius",
    "C36_radius_tight",
    "C36_field_of_view"
   ],
   "note": "Real arithmetic."
  },
  {
   "property": "C37",
   "status": "proved",
   "theorems": [
    "C37_sizes",
    "C37_projection",
    "C37_lifting",
    "C37_half_pixel_refuted"
   ],
   "note": "The half-pixel disagreement between images and cameras is proved on a ramp."
  },
  {
   "property": "C38",
   "status": "proved",
   "theorems": [
    "C38_exact",
    "C38_line",
    "C38_wider_border",
    "C38_border_refuted",
    "C38_selector_refuted"
   ],
   "note": "The border used by the code is one pixel too small; shown for a fresh selector with default settings."
  },
  {
   "property": "C39",
   "status": "proved",
   "theorems": [
    "C39_sizes",
    "C39_levels",
    "C39_mean_of_four",
    "C39_between",
    "C39_constant",
    "C39_darkening",
    "C39_darkening_tight"
   ],
   "note": "All byte images and pyramid heights."
  },
  {
   "property": "C40",
   "status": "proved",
   "theorems": [
    "C40_weighted_mean",
    "C40_between",
    "C40_border_refuted"
   ],
   "note": "Real arithmetic (float rounding not modelled); cv::integral by its definition; the refuted theorem is the exception named in the statement."
  },
  {
   "property": "C41",
   "status": "proved",
   "theorems": [
    "C41_failure",
    "C41_early",
    "C41_oob",
    "C41_life",
    "C41_flag",
    "C41_flag_new",
    "C41_flag_refuted"
   ],
   "note": ""
  },
  {
   "property": "C42",
   "status": "proved",
   "theorems": [
    "C42_retrace",
    "C42_life",
    "C42_rate",
    "C42_restored_refuted"
   ],
   "note": "guarantee within one life; refuted across save/restore"
  },
  {
   "property": "C43",
   "status": "proved",
   "theorems": [
    "C43_position",
    "C43_near",
    "C43_energy",
    "C43_defined",
    "C43_flat_refuted",
    "C43_depth",
    "C43_optimum_refuted",
    "C43_far_refuted",
    "C43_level_refuted"
   ],
   "note": "guarantee relative to the middle of the neighbours; refuted relative to the discrete optimum"
  },
  {
   "property": "C44",
   "status": "proved",
   "theorems": [
    "C44_doubled",
    "C44_limited",
    "C44_terminates",
    "C44_bound",
    "C44_interval_refuted"
   ],
   "note": ""
  },
  {
   "property": "C45",
   "status": "proved",
   "theorems": [
    "C45_found",
    "C45_sector",
    "C45_none",
    "C45_repeat",
    "C45_history",
    "C45_forgets_refuted"
   ],
   "note": "Real arithmetic; the 3x3 solver is an oracle exact for independent columns; sectors are copied rays keyed by an integer standing for the triangle pointer."
  },
  {
   "property": "C46",
   "status": "proved",
   "theorems": [
    "C46_point",
    "C46_corner",
    "C46_order",
    "C46_length",
    "C46_bounded",
    "C46_query",
    "C46_nearer_refuted",
    "C46_planar",
    "C46_planar_range",
    "C46_planar_none",
    "C46_has_depth_refuted"
   ],
   "note": "Real arithmetic; last column of Q is an oracle: a non-zero vector orthogonal to the three columns. For the planar terrain the enclosing triangle is an input."
  },
  {
   "property": "C47",
   "status": "proved",
   "theorems": [
    "C47_similarity",
    "C47_centers",
    "C47_static_refuted"
   ],
   "note": "Exact real arithmetic."
  },
  {
   "property": "C48",
   "status": "proved",
   "theorems": [
    "C48_best_consensus",
    "C48_inliers",
    "C48_iterations",
    "C48_stopping_rule",
    "C48_few",
    "C48_none_refuted",
    "C48_precise",
    "C48_precise_again"
   ],
   "note": "Random draws, five-point solver, essential decomposition, inlier tests and refinement are oracles; the stopping formula is verified in real arithmetic."
  },
  {
   "property": "C49",
   "status": "proved",
   "theorems": [
    "C49_partition",
    "C49_defined"
   ],
   "note": "Distances compared in exact arithmetic."
  },
  {
   "property": "C50",
   "status": "proved",
   "theorems": [
    "C50_accepts",
    "C50_on_sphere",
    "C50_zero_update",
    "C50_tangent",
    "C50_reaches",
    "C50_antipode_refuted",
    "C50_center_refuted",
    "C50_inside_refuted"
   ],
   "note": "Real arithmetic; the refuted theorems are the exceptions named in the statement."
  },
  {
   "property": "C51",
   "status": "proved",
   "theorems": [
    "C51_even",
    "C51_odd_refuted"
   ],
   "note": "Claim and its boundary."
  },
  {
   "property": "C52",
   "status": "proved",
   "theorems": [
    "C52_order_statistics",
    "C52_index",
    "C52_any_order",
    "C52_ordered",
    "C52_defined",
    "C52_colour",
    "C52_colour_ends",
    "C52_equal_bounds_refuted"
   ],
   "note": "Products part*size and nth_element are oracles; colours computed in exact arithmetic extended with infinities and NaN."
  },
  {
   "property": "C53",
   "status": "proved",
   "theorems": [
    "C53_named",
    "C53_nested",
    "C53_empty_refuted"
   ],
   "note": "Claim and its boundary, for all strings."
  },
  {
   "property": "C54",
   "status": "proved",
   "theorems": [
    "C54_flag_reaches",
    "C54_nothing_else",
    "C54_unflagged",
    "C54_injective",
    "C54_no_flags",
    "C54_impr_factor_ignored",
    "C54_impr_factor_refuted"
   ],
   "note": "All flags, all values; the one ineffective flag is proved ineffective."
  },
  {
   "property": "C55",
   "status": "proved",
   "theorems": [
    "C55_initialisation"
   ],
   "note": ""
  },
  {
   "property": "C56",
   "status": "proved",
   "theorems": [
    "C56_failed_init"
   ],
   "note": ""
  },
  {
   "property": "C57",
   "status": "proved",
   "theorems": [
    "C57_frames",
    "C57_first",
    "C57_scale",
    "C57_fixed_motion",
    "C57_fixed_rotation",
    "C57_fixed_light",
    "C57_marking",
    "C57_others",
    "C57_never",
    "C57_negative_refuted",
    "C57_lost_refuted",
    "C57_address_refuted"
   ],
   "note": "Solver contract: constant blocks stay, bounds hold unless nothing changed, the parameterised translation moves by SphericalPlus steps. Residual values are finite reals."
  },
  {
   "property": "C58",
   "status": "proved",
   "theorems": [
    "C58_no_newline",
    "C58_frame",
    "C58_newline_refuted",
    "C58_empty_refuted",
    "C58_short_line_refuted",
    "C58_endless_refuted"
   ],
   "note": "Files are modelled as words and a flag for trailing blanks; stream states as in the C++ standard."
  },
  {
   "property": "C59",
   "status": "proved",
   "theorems": [
    "C59_levels",
    "C59_more_refuted",
    "C59_one_refuted",
    "C59_none",
    "C59_frame",
    "C59_frame_refuted"
   ],
   "note": "The Ceres solver and the reprojection test are universally quantified; OpenCV sizes and pyramid construction from the pyramid model."
  },
  {
   "property": "C60",
   "status": "proved",
   "theorems": [
    "C60_exact",
    "C60_closest"
   ],
   "note": "Exact real arithmetic (no rounding). The QR solver is any function meeting the least-squares contract (an instance is given)."
  },
  {
   "property": "C61",
   "status": "proved",
   "theorems": [
    "C61_scale",
    "C61_defined",
    "C61_injective",
    "C61_surjective",
    "C61_circles"
   ],
   "note": "Real arithmetic."
  },
  {
   "property": "C62",
   "status": "proved",
   "theorems": [
    "C62_first",
    "C62_second",
    "C62_none",
    "C62_both",
    "C62_band_refuted",
    "C62_missed_refuted",
    "C62_opposite_refuted"
   ],
   "note": "Real arithmetic; the QR solve is an oracle meeting the least-squares contract; the refuted theorems are the exceptions named in the statement."
  },
  {
   "property": "C63",
   "status": "proved",
   "theorems": [
    "C63_one_side_fits",
    "C63_both_sides_refuted"
   ],
   "note": ""
  },
  {
   "property": "C64",
   "status": "proved",
   "theorems": [
    "C15_selection",
    "C64_distinct_refuted"
   ],
   "note": "Distinctness per layer is the NoDup clause of C15_selection."
  },
  {
   "property": "C65",
   "status": "proved",
   "theorems": [
    "C65_no_abnormal_outcome"
   ],
   "note": ""
  },
  {
   "property": "C66",
   "status": "proved",
   "theorems": [
    "C66_restored_continues",
    "C66_fresh_snapshot_refuted"
   ],
   "note": ""
  },
  {
   "property": "C67",
   "status": "proved",
   "theorems": [
    "C67_trace_after_track",
    "C67_tracking_fit",
    "C67_trace_after_track_refuted",
    "C67_optimisation_off"
   ],
   "note": "over the reals"
  },
  {
   "property": "C68",
   "status": "proved",
   "theorems": [
    "C68_residual",
    "C68_common_gain",
    "C68_keyframe_light"
   ],
   "note": "over the reals"
  },
  {
   "property": "C69",
   "status": "proved",
   "theorems": [
    "C69_match",
    "C69_coarse_motion",
    "C69_defined",
    "C69_no_match",
    "C69_all_still_refuted"
   ],
   "note": "Same oracles as C48; keypoint conversion is a parameter."
  },
  {
   "property": "C70",
   "status": "proved",
   "theorems": [
    "C70_directory",
    "C70_no_directory_refuted",
    "C70_files",
    "C70_long_name_refuted",
    "C70_camera",
    "C70_depths",
    "C70_short_depths_refuted"
   ],
   "note": "File system is an oracle."
  },
  {
   "property": "C71",
   "status": "proved",
   "theorems": [
    "C71_convex",
    "C71_close",
    "C71_strip",
    "C71_segment_accepted",
    "C71_accepted_near"
   ],
   "note": "Exact real arithmetic (no rounding)."
  },
  {
   "property": "C72",
   "status": "proved",
   "theorems": [
    "C72_error",
    "C72_factor",
    "C72_axis"
   ],
   "note": "The least-squares solve is an arbitrary function."
  },
  {
   "property": "C73",
   "status": "proved",
   "theorems": [
    "C73_accepted",
    "C73_exact",
    "C73_missed_refuted"
   ],
   "note": "The drawn radii are arbitrary; std::sort is taken to sort."
  },
  {
   "property": "C74",
   "status": "proved",
   "theorems": [
    "C74_accepted"
   ],
   "note": ""
  },
  {
   "property": "C75",
   "status": "proved",
   "theorems": [
    "C75_problem",
    "C75_bounds",
    "C75_nonfinite",
    "C75_defined"
   ],
   "note": "As C57. Loss functions, weights and drawing are not modelled."
  },
  {
   "property": "C76",
   "status": "proved",
   "theorems": [
    "C76_weighted",
    "C76_range",
    "C76_flat",
    "C76_border_refuted"
   ],
   "note": "Real arithmetic for the weight; the border case is proved to be undefined."
  },
  {
   "property": "C77",
   "status": "proved",
   "theorems": [
    "C77_constant",
    "C77_bounds",
    "C77_outside_refuted"
   ],
   "note": "Contract of the solver: constant blocks stay, bounds hold unless nothing changes; infeasible start changes nothing."
  },
  {
   "property": "C78",
   "status": "proved",
   "theorems": [
    "C78_general_position",
    "C78_every_stage",
    "C78_flips_end"
   ],
   "note": "Exact rational arithmetic; the random walk is bounded by fuel and may run out of it."
  },
  {
   "property": "C79",
   "status": "proved",
   "theorems": [
    "C79_lines",
    "C79_static_refuted",
    "C79_short_refuted",
    "C79_restored_refuted"
   ],
   "note": "Poses in real arithmetic; the list of written poses stands for the text of the files."
  },
  {
   "property": "C80",
   "status": "proved",
   "theorems": [
    "C80_same_lines",
    "C80_crossed_refuted"
   ],
   "note": "v is the value the undefined conversion of INF to int delivers in TrajectoryWriter (C20)."
  },
  {
   "property": "C81",
   "status": "proved",
   "theorems": [
    "C81_cloud",
    "C81_exact_estimate",
    "C81_early_end_refuted",
    "C81_restored_refuted"
   ],
   "note": "dbl_of: the doubles a vector of reals is stored as."
  },
  {
   "property": "C82",
   "status": "proved",
   "theorems": [
    "C82_listing",
    "C82_defined",
    "C82_unknown_refuted",
    "C82_outlier_refuted"
   ],
   "note": "Camera map and unmap are parameters; poses and depths real numbers."
  },
  {
   "property": "C83",
   "status": "proved",
   "theorems": [
    "C83_reference",
    "C83_own",
    "C83_last",
    "C83_hidden_refuted",
    "C83_border_refuted"
   ],
   "note": "Builds on the depth pyramid model of C40."
  },
  {
   "property": "C84",
   "status": "proved",
   "theorems": [
    "C84_coarse",
    "C84_initial",
    "C84_restored_refuted"
   ],
   "note": "Deviations 0 (infinite weights) are excluded in the statement about weights."
  },
  {
   "property": "C85",
   "status": "proved",
   "theorems": [
    "C85_spherical",
    "C85_deviation_refuted",
    "C85_no_hit_refuted",
    "C85_plain",
    "C85_plain_refuted",
    "C85_plain_border_refuted"
   ],
   "note": "Stereo matcher, pixel selector and terrains are parameters."
  },
  {
   "property": "C86",
   "status": "proved",
   "theorems": [
    "C86_activate",
    "C86_deactivate",
    "C86_unknown_refuted",
    "C86_state_refuted"
   ],
   "note": "exp and log are exact; depths that are not positive are outside the statement."
  },
  {
   "property": "C87",
   "status": "proved",
   "theorems": [
    "C87_every_stage",
    "C87_tests",
    "C87_delaunay"
   ],
   "note": "Exact rational arithmetic; general position hypothesis as in C78; for runs that return (the random search may not end, see C78). Points on a common circle are allowed."
  },
  {
   "property": "C88",
   "status": "proved",
   "theorems": [
    "C88_unique"
   ],
   "note": "Same setting as C87."
  },
  {
   "property": "C89",
   "status": "proved",
   "theorems": [
    "C89_can_end",
    "C89_constructor",
    "C89_always_refuted"
   ],
   "note": "The probability itself is not formalised: the theorem gives, from every edge of every stage, a finishing sequence of draws of bounded length."
  },
  {
   "property": "C90",
   "status": "proved",
   "theorems": [
    "C90_file",
    "C90_tag",
    "C90_short",
    "C90_garbage",
    "C90_last_refuted"
   ],
   "note": "Words are integers, decimal numbers or other text; numbers outside the range of double and locale are not modelled."
  },
  {
   "property": "C91",
   "status": "proved",
   "theorems": [
    "C91_defined",
    "C91_shown",
    "C91_pixel",
    "C91_black",
    "C91_outside_refuted",
    "C91_radius",
    "C91_rect"
   ],
   "note": "Projections are real numbers; the inverse of the camera matrix is a parameter."
  },
  {
   "property": "C92",
   "status": "proved",
   "theorems": [
    "C92_point",
    "C92_jacobian",
    "C92_speed",
    "C92_axis",
    "C92_axis_refuted"
   ],
   "note": "Dual numbers of ceres::Jet over the reals; a division by zero gives derivatives that are not finite."
  },
  {
   "property": "C93",
   "status": "proved",
   "theorems": [
    "C93_bounds",
    "C93_constant",
    "C93_blocked_refuted",
    "C93_total",
    "C93_guess",
    "C93_stale_refuted",
    "C93_restored",
    "C93_restored_keyframe",
    "C93_restored_refuted"
   ],
   "note": "Without gradient weighting; what the tracker holds for each frame (base image, points, depths) is arbitrary."
  },
  {
   "property": "C94",
   "status": "proved",
   "theorems": [
    "C94_last",
    "C94_alive",
    "C94_base",
    "C94_released_refuted",
    "C94_own_base"
   ],
   "note": "Over the model of C01-C07. Keyframes and frames are identified by their numbers, which never repeat in a run (C05); std::map nodes do not move."
  },
  {
   "property": "C95",
   "status": "proved",
   "theorems": [
    "C95_step",
    "C95_bad_request_refuted",
    "C95_points",
    "C95_total",
    "C95_count",
    "C95_exact",
    "C95_over_refuted",
    "C95_world"
   ],
   "note": "Real arithmetic in place of doubles for the step, the rays and the poses. Reading the files is an oracle (C70)."
  },
  {
   "property": "C96",
   "status": "proved",
   "theorems": [
    "C96_answer",
    "C96_inside",
    "C96_outside",
    "C96_range",
    "C96_point",
    "C96_repeat_refuted",
    "C96_unique",
    "C96_can_end",
    "C96_has_depth"
   ],
   "note": "Composes the construction (C78, C87, C88), the search and the interpolation (C46). Exact rational arithmetic in the geometric tests, real arithmetic in the interpolation, solver contract affine_solver. Ending of the search is not promised (C89): the theorems speak of queries that end, and C96_can_end gives draws that end."
  },
  {
   "property": "C97",
   "status": "proved",
   "theorems": [
    "C97_output",
    "C97_ends",
    "C97_gone_refuted",
    "C97_no_directory_refuted",
    "C97_gt_only",
    "C97_once",
    "C97_interpolation_refuted"
   ],
   "note": "Content of images is abstract: which frame and level they show. The _refuted theorems are the exceptions named in the statement."
  },
  {
   "property": "C98",
   "status": "proved",
   "theorems": [
    "C98_gauge",
    "C98_visible",
    "C98_gain",
    "C98_pinned",
    "C98_gain_pinned",
    "C98_zero",
    "C98_loss",
    "C98_tracking",
    "C98_sphere",
    "C98_blind"
   ],
   "note": "Exact real arithmetic; images are arbitrary functions of position; quaternions of length one."
  },
  {
   "property": "C99",
   "status": "proved",
   "theorems": [
    "C99_over_image",
    "C99_over_image_refuted",
    "C99_new_image",
    "C99_wide_refuted",
    "C99_tall_refuted",
    "C99_flat_refuted",
    "C99_once",
    "C99_curved_twice_refuted"
   ],
   "note": "exact rational arithmetic; draw(img) places points exactly only when the corner of the box is a pixel (C99_over_image_refuted), draw(w,h) is right for square boxes only (C99_wide_refuted, C99_tall_refuted, C99_flat_refuted), drawCurved draws each edge twice (C99_curved_twice_refuted)"
  },
  {
   "property": "C100",
   "status": "proved",
   "theorems": [
    "C100_filled",
    "C100_covered",
    "C100_half_space",
    "C100_hull_refuted"
   ],
   "note": "the reading that the name suggests (fill what is uncovered; test for the convex hull) is refuted by C100_covered and C100_hull_refuted; real arithmetic; contract of the solver: least squares, one coefficient for three equal columns"
  },
  {
   "property": "C101",
   "status": "proved",
   "theorems": [
    "C101_once",
    "C101_segments",
    "C101_great_circle",
    "C101_opposite_refuted"
   ],
   "note": "real arithmetic; the camera and the conversion to pixels are an arbitrary function of the ray"
  },
  {
   "property": "C102",
   "status": "proved",
   "theorems": [
    "C102_rigid",
    "C102_all",
    "C102_front",
    "C102_recovered"
   ],
   "note": "Real arithmetic. Oracles with contracts: singular value decomposition, conversion of a rotation matrix to a quaternion, least-squares solver (one unknown 0 for dependent columns)."
  },
  {
   "property": "C103",
   "status": "proved",
   "theorems": [
    "C103_exact",
    "C103_inliers",
    "C103_either",
    "C103_both_refuted",
    "C103_epipole_refuted",
    "C103_residual",
    "C103_residual_value",
    "C103_residual_epipole",
    "C103_residual_exact"
   ],
   "note": "Real arithmetic; the projection of the camera is any function."
  },
  {
   "property": "C104",
   "status": "proved",
   "theorems": [
    "C104_coarse",
    "C104_precise",
    "C104_outliers",
    "C104_depths_later_refuted",
    "C104_depths_first_refuted"
   ],
   "note": "Real arithmetic. Contracts: decomposition on the matrices that occur, conversion to quaternions, least-squares solver, five-point solver finding the essential matrix for exact samples and no wrong matrix with as many inliers; refinement leaves a motion with zero residuals alone."
  },
  {
   "property": "C105",
   "status": "proved",
   "theorems": [
    "C105_defined",
    "C105_short_refuted",
    "C105_shows",
    "C105_best",
    "C105_harmless",
    "C105_overdrawn_refuted"
   ],
   "note": "Positions are exact rationals at most 10^9 in size; normalize() is an oracle with coordinates between -1 and 1; cv::line, resizing and windows are not modelled. C105_overdrawn_refuted: the claim that the black stroke stays on top is false."
  },
  {
   "property": "C106",
   "status": "proved",
   "theorems": [
    "C106_insert",
    "C106_insert_sizes",
    "C106_frame",
    "C106_frame_life",
    "C106_frame_refuted",
    "C106_dense",
    "C106_dense_type",
    "C106_dense_refuted",
    "C106_drawer",
    "C106_drawer_missing"
   ],
   "note": "Figures are listed, their rasterisation is OpenCV's. The terrain of drawDensePlainDepths is an arbitrary query (C96 is about Terrain itself). C106_frame_refuted, C106_dense_refuted: definedness fails for equal bounds."
  },
  {
   "property": "C107",
   "status": "proved",
   "theorems": [
    "C107_schedule",
    "C107_ends",
    "C107_division_refuted",
    "C107_needs",
    "C107_count",
    "C107_bound",
    "C107_row", "C107_exact",
    "C107_still",
    "C107_same_noise",
    "C107_uniform_stuck",
    "C107_file"
   ],
   "note": "Real arithmetic; reader, tracing and random draws are oracles, the selector is that of PixelSelectorModel. A step of a task is a whole frame or one append; data races inside OpenCV or the reader are outside the model. C107_division_refuted: independence of the division is false."
  },
  {
   "property": "C108",
   "status": "proved",
   "theorems": [
    "C108_shown",
    "C108_order",
    "C108_listing",
    "C108_unreadable",
    "C108_skip_refuted",
    "C108_first",
    "C108_points",
    "C108_alike",
    "C108_dim_stuck",
    "C108_no_directory",
    "C108_arguments"
   ],
   "note": "imread with conversion to grey, opendir/readdir, minMaxLoc, shuffle and magnitude are oracles with contracts; windows and drawn circles are not modelled. C108_skip_refuted: unreadable files are not skipped."
  },
  {
   "property": "C109",
   "status": "proved",
   "theorems": [
    "C109_counts",
    "C109_defined",
    "C109_sums",
    "C109_run",
    "C109_run_points",
    "C109_defined_by",
    "C109_level",
    "C109_one_level_refuted",
    "C109_one_level_ready_refuted",
    "C109_no_level_refuted",
    "C109_negative"
   ],
   "note": "On the model of traceOn of C41-C44 (its geometry an oracle); overflow of int counts is not modelled. The refuted theorems show that pyramids of one or no level do not work."
  },
  {
   "property": "C110",
   "status": "proved",
   "theorems": [
    "C110_exact",
    "C110_snapshot",
    "C110_same_text",
    "C110_writing",
    "C110_reading",
    "C110_coordinate",
    "C110_plain",
    "C110_sixteen_refuted",
    "C110_fifteen_refuted",
    "C110_six_refuted"
   ],
   "note": "The general format of the C++ streams is modelled digit by digit with correct rounding (ties to even) and reading as correct rounding; that the library does exactly this is trusted, and NaN has neither sign nor payload."
  },
  {
   "property": "C111",
   "status": "proved",
   "theorems": [
    "C111_dots",
    "C111_separate",
    "C111_null",
    "C111_left",
    "C111_one",
    "C111_again_refuted"
   ],
   "note": "In real arithmetic with the contracts of the solvers of C45 and C46; a sector is its key in the map, so that pointers to erased sectors are only compared. A dot is its pixel and depth; its colour and shape are not part of the statement."
  }
 ]
}
