{
 "claims": [
  {
   "property": "C01",
   "status": "proved",
   "theorems": [
    "C01_indexes_mirror",
    "C01_every_operation_keeps_consistency",
    "C01_any_matches_refuted"
   ],
   "note": "Every history from the empty database, and every single operation from any consistent one. Caller-made matches and landmark maps must be unambiguous; the _refuted theorem shows what happens otherwise."
  },
  {
   "property": "C02",
   "status": "proved",
   "theorems": [
    "C02_links_exact",
    "C02_remove_view_releases",
    "C02_remove_reconstruction_releases",
    "C02_any_frames_refuted"
   ],
   "note": "Every history; removal of views and reconstructions. add_reconstruction needs free frames; the _refuted theorem shows a frame in two reconstructions otherwise."
  },
  {
   "property": "C03",
   "status": "proved",
   "theorems": [
    "C03_operations_complete",
    "C03_registered_view_is_added",
    "C03_merge_completes_iff",
    "C03_two_features_refuted"
   ],
   "note": "All operations complete when their keys are live and frames have three or more features. Removing views and reconstructions: C02_*; splitting: C09_*. Frames with fewer than three features panic (_refuted)."
  },
  {
   "property": "C04",
   "status": "partial",
   "theorems": [
    "C04_optimisation_completes_partial",
    "C04_dropped_view_refuted"
   ],
   "note": "Proved for at most one iteration or updates that drop no view. False in general: the edge list is computed once, so an iteration after a view was dropped reads a missing key (_refuted)."
  },
  {
   "property": "C05",
   "status": "proved",
   "theorems": [
    "C05_constraints_live",
    "C05_constraints_of_a_view"
   ],
   "note": ""
  },
  {
   "property": "C06",
   "status": "proved",
   "theorems": [
    "C06_exact_poses_are_fixed",
    "C06_edges_are_relative_poses"
   ],
   "note": "Real isometries, every rate, round count and order of views; the pose update is the one of the code with exact trigonometry, nearest-rotation oracle fixed at the identity."
  },
  {
   "property": "C07",
   "status": "proved",
   "theorems": [
    "C07_normalisation",
    "C07_only_gauge_changes",
    "C07_mean_distance",
    "C07_distance"
   ],
   "note": "Real isometries; triangulation of landmarks is an oracle. Normalisation is a change of gauge; the mean is positive when accepted."
  },
  {
   "property": "C08",
   "status": "proved",
   "theorems": [
    "C08_merge_keeps_views_and_tracks",
    "C08_relative_poses_kept"
   ],
   "note": ""
  },
  {
   "property": "C09",
   "status": "proved",
   "theorems": [
    "C09_filter_observations",
    "C09_filter_landmarks",
    "C09_split_observation",
    "C09_split_landmark"
   ],
   "note": ""
  },
  {
   "property": "C10",
   "status": "proved",
   "theorems": [
    "C10_registration_terminates",
    "C10_empty_window_refuted"
   ],
   "note": "For every positive initial window; with an initial window of 0 the loop never ends (_refuted)."
  },
  {
   "property": "C11",
   "status": "proved",
   "theorems": [
    "C11_candidates",
    "C11_feed_positions"
   ],
   "note": ""
  },
  {
   "property": "C12",
   "status": "proved",
   "theorems": [
    "C12_matches_are_mutual_and_one_to_one",
    "C12_matching_total_and_in_range",
    "C12_matching_swaps",
    "C12_exact_index_margin"
   ],
   "note": ""
  },
  {
   "property": "C13",
   "status": "partial",
   "theorems": [
    "C13_total",
    "C13_value_partial",
    "C13_last_window_refuted",
    "C13_stored_pixel",
    "C13_stored_pixel_u8",
    "C13_constant_u8",
    "C13_catmull_rom",
    "C13_affine_partial",
    "C13_affine_u8_error",
    "C13_affine_u8_refuted",
    "C13_f32_memory_safe",
    "C13_f32_nan_refuted",
    "C13_f32_value",
    "C13_f32_stored_pixel",
    "C13_f32_huge_refuted"
   ],
   "note": "Memory safety proved for all 32-bit float coordinates but NaN (refuted for NaN); the default is also returned for windows touching the last row or column, and eight-bit affine images are off by up to 17/8 (both refuted as stated, bounds proved). Stored pixels proved in floats too."
  },
  {
   "property": "C14",
   "status": "proved",
   "theorems": [
    "C14_file",
    "C14_counts",
    "C14_faces",
    "C14_vertices",
    "C14_pyramid"
   ],
   "note": "The exact vertex and face lists; the text writer of ply-rs and the cast of indices to i32 are not modelled."
  },
  {
   "property": "C15",
   "status": "partial",
   "theorems": [
    "C15_reordering_permutes_partial",
    "C15_result_is_permutation",
    "C15_single_step_refuted",
    "C15_process_time_refuted"
   ],
   "note": "Permutation proved for every step count except 1; for 1 the reordering underflows (panic with overflow checks, endless loop without), so the full statement is refuted."
  },
  {
   "property": "C16",
   "status": "partial",
   "theorems": [
    "C16_steps_sum_partial",
    "C16_returns_partial",
    "C16_step_count_unique",
    "C16_tiny_time_refuted"
   ],
   "note": "Over exact reals. Sum, positivity and least step count proved for every returned list; a cycle time below the slack yields no steps at all, so the literal statement is refuted for tiny times."
  },
  {
   "property": "C17",
   "status": "partial",
   "theorems": [
    "C17_horizontal",
    "C17_vertical",
    "C17_separable",
    "C17_even_kernel_panics",
    "C17_reach_refuted",
    "C17_float_horizontal",
    "C17_float_vertical",
    "C17_float_separable"
   ],
   "note": "Over the reals the vectorised horizontal, vertical and separable filters are proved equal to correlation with replicated borders for every size and odd kernel; even kernels panic. With floats zero padding of vector lanes lets an infinite pixel outside the kernel's reach produce NaN (refuted witness). For finite pixels and kernels the results in binary32 are proved finite and within (n + 20) / 2^25 of the sum of absolute weights times the largest pixel (C17_float_*; products and sums rounded separately)."
  },
  {
   "property": "C18",
   "status": "partial",
   "theorems": [
    "C18_blur_is_gaussian",
    "C18_range",
    "C18_constant",
    "C18_mirror",
    "C18_flip",
    "C18_nonpositive_radius_panics",
    "C18_float_range",
    "C18_float_constant",
    "C18_float_constant_refuted"
   ],
   "note": "Exact over the reals with the mathematical exp, pi, ceil: the kernel is the normalised sampled Gaussian of radius ceil(2r); a radius of 0 or less panics. In binary32 the pixels are proved finite, nonnegative for nonnegative images, and within (4 r + 24) / 2^20 of the range, relative to the largest pixel, for any exponential with values in [0, 1] (C18_float_range, C18_float_constant); constants are not kept exactly (_refuted)."
  },
  {
   "property": "C19",
   "status": "proved",
   "theorems": [
    "C19_step",
    "C19_brightness",
    "C19_maximum_principle",
    "C19_constant",
    "C19_quarter_is_the_limit",
    "C19_empty_panics",
    "C19_float_step",
    "C19_float_maximum_principle",
    "C19_float_brightness",
    "C19_float_constant"
   ],
   "note": "Exact value at every pixel; the bound 1/4 is sharp. In binary32 one step is finite and within a rounding bound of the exact one, so are its range and brightness; constant images are kept exactly."
  },
  {
   "property": "C20",
   "status": "partial",
   "theorems": [
    "C20_conductivity",
    "C20_fraction_partial",
    "C20_flat",
    "C20_decreasing",
    "C20_float_partial",
    "C20_fraction_refuted",
    "C20_flat_image_contrast"
   ],
   "note": "Proved for every non-zero contrast factor over the reals, and in binary32/binary64 for contrast factors between 2^-63 and 2^63; false for the factor 0, which the estimator returns for every constant image (float witness, and a theorem for all constant images)."
  },
  {
   "property": "C21",
   "status": "proved",
   "theorems": [
    "C21_percentile",
    "C21_whole",
    "C21_any_percentile",
    "C21_thin_panics"
   ],
   "note": "Real arithmetic. For percentiles up to 1 the fallback is unreachable; sides of 2 or less panic."
  },
  {
   "property": "C22",
   "status": "proved",
   "theorems": [
    "C22_selection",
    "C22_kept",
    "C22_returns",
    "C22_small_images_panic"
   ],
   "note": "Selection for any arithmetic and every sort that sorts; no panic over the reals for sides of at least 40 pixels. Images with a side below 40 have no levels and panic (proved). All detected keypoints have descriptors only if their pattern lies inside; otherwise fewer than the limit may be returned although more exist (the filtering happens after truncation)."
  },
  {
   "property": "C23",
   "status": "partial",
   "theorems": [
    "C23_descriptor",
    "C23_sizes",
    "C23_full_sizes",
    "C23_small_patterns_refuted",
    "C23_zero_pattern_panics"
   ],
   "note": "For any arithmetic. With pattern sizes 1 to 3 there are fewer cells than values, so comparisons read values left from a coarser grid (_refuted); size 0 panics."
  },
  {
   "property": "C24",
   "status": "proved",
   "theorems": [
    "C24_sound",
    "C24_complete",
    "C24_none",
    "C24_returns",
    "C24_refinement",
    "C24_window",
    "C24_detected",
    "C24_inside",
    "C24_pipeline",
    "C24_room"
   ],
   "note": "Real arithmetic. Soundness, completeness up to rivals, refinement and orientation, for every list of levels and for those the pipeline builds. The duplicate checks compare corner and centre coordinates as the code does (see rivals)."
  },
  {
   "property": "C25",
   "status": "proved",
   "theorems": [
    "C25_half_size",
    "C25_range",
    "C25_constant",
    "C25_mean",
    "C25_odd_sizes_ignore_pixels",
    "C25_thin_panics",
    "C25_float_range",
    "C25_float_half_size"
   ],
   "note": "For odd sizes the mean is not kept (witness); a side of 1 panics. In binary32 the range and constants are kept exactly and the error is bounded."
  },
  {
   "property": "C26",
   "status": "partial",
   "theorems": [
    "C26_schedule",
    "C26_assumed_size",
    "C26_scale_space_sizes",
    "C26_terminates",
    "C26_default_terminates",
    "C26_small_base_refuted"
   ],
   "note": "Real arithmetic. Complete for every schedule returned; a schedule is returned when consecutive times differ by at least 1/5, in particular by default; a small positive base scale makes the step computation panic or loop (_refuted)."
  },
  {
   "property": "C27",
   "status": "partial",
   "theorems": [
    "C27_canonical_form",
    "C27_multiples_partial",
    "C27_multiples_refuted",
    "C27_point_from_point",
    "C27_from_point_point",
    "C27_origin_refuted"
   ],
   "note": "Real arithmetic. Everything proved except the negative multiples of points at infinity, where the claim is false (_refuted); the origin yields NaN in floating point (_refuted)."
  },
  {
   "property": "C28",
   "status": "proved",
   "theorems": [
    "C28_rigid_action",
    "C28_canonical",
    "C28_identity",
    "C28_composition",
    "C28_inverse",
    "C28_infinity",
    "C28_scale",
    "C28_from_camera_poses"
   ],
   "note": "Real arithmetic, rigid poses, points not mapped to the optical centre (which has no bearing)."
  },
  {
   "property": "C29",
   "status": "partial",
   "theorems": [
    "C29_hat_vee",
    "C29_bracket",
    "C29_exp_rotation",
    "C29_exp_rodrigues",
    "C29_exp_one_parameter",
    "C29_log_exp_partial",
    "C29_log_exp_refuted",
    "C29_exp_log_partial",
    "C29_exp_log_refuted",
    "C29_log_no_nan"
   ],
   "note": "Algebraic part and the exponential proved completely; log inverts exp away from 0 and pi by the code's threshold, and exp inverts log on every rotation whose logarithm is above the threshold. Within the threshold of pi the logarithm is 0 (_refuted, both ways round)."
  },
  {
   "property": "C30",
   "status": "partial",
   "theorems": [
    "C30_new_no_nan",
    "C30_addition",
    "C30_sum_any_order",
    "C30_sum_scale_and_split",
    "C30_isometry",
    "C30_inverse_partial",
    "C30_inverse_refuted",
    "C30_pose_numbers",
    "C30_six_numbers",
    "C30_pose_numbers_round_trip_partial",
    "C30_rotations"
   ],
   "note": "All claims proved except inverse, which undoes the transformation exactly when the rotation fixes the translation (proved iff, and _refuted). The conversion of poses to six numbers and back is exact where C29 is."
  },
  {
   "property": "C31",
   "status": "partial",
   "theorems": [
    "C31_input",
    "C31_agree",
    "C31_self_partial",
    "C31_self_pure_rotation",
    "C31_self_refuted",
    "C31_rotation_input",
    "C31_rotation_self_partial",
    "C31_rotation_self_refuted"
   ],
   "note": "Input Jacobian and translation columns proved; rotation columns right in the spatial rows, and the homogeneous row is the translation instead of 0 (_refuted). Jacobians of a rotation alone: the one for the input proved; the one for the rotation has the opposite sign to its documentation (_partial, _refuted)."
  },
  {
   "property": "C32",
   "status": "partial",
   "theorems": [
    "C32_world_residual",
    "C32_camera_residual_partial",
    "C32_camera_perfect_match",
    "C32_camera_finite_refuted"
   ],
   "note": "World residual proved. Camera residual in range, zero on perfect matches away from the baseline and only there; at an epipole it is NaN (_refuted)."
  },
  {
   "property": "C33",
   "status": "proved",
   "theorems": [
    "C33_pixel_round_trip",
    "C33_bearing_round_trip",
    "C33_bearings_are_unit_and_in_front",
    "C33_behind_the_camera",
    "C33_matrix_of_calibrated",
    "C33_matrix_of_uncalibrated",
    "C33_setters",
    "C33_across_the_axis_refuted",
    "C33_float_bearing",
    "C33_float_round_trip"
   ],
   "note": "Exact over the reals; in binary64 the round trip is proved up to a relative error of 2^-49 for all practical sizes. A bearing with depth exactly zero is projected to infinity (_refuted)."
  },
  {
   "property": "C34",
   "status": "partial",
   "theorems": [
    "C34_pixel_round_trip_partial",
    "C34_bearing_round_trip_partial",
    "C34_bearings_are_unit_and_in_front",
    "C34_principal_point_refuted",
    "C34_no_distortion_refuted",
    "C34_cancellation_refuted"
   ],
   "note": "Real arithmetic; proved for k1 r^2 in (-1, 1] without 0. At the principal point and for k1 = 0 the code divides 0 by 0 and returns NaN (_refuted). A tiny k1 cancels all digits on the way back in binary64: a pixel moves by more than 15 (_refuted)."
  },
  {
   "property": "C35",
   "status": "partial",
   "theorems": [
    "C35_from_sensor",
    "C35_from_sensor_square",
    "C35_centred_partial",
    "C35_centred_refuted"
   ],
   "note": "Pixel sizes proved. intrinsics_centered uses the pixel size where the pixel count is needed and does not convert the focal length (_refuted; the _partial theorem says exactly when it is right)."
  },
  {
   "property": "C36",
   "status": "partial",
   "theorems": [
    "C36_residual_of_correspondence_partial",
    "C36_residual_at_infinity_partial",
    "C36_zero_residual_means_meeting_rays",
    "C36_essential_constraints",
    "C36_residual_ignores_length",
    "C36_beside_the_camera_refuted"
   ],
   "note": "Real arithmetic; the residual divides by depth, so points at depth zero in a camera are excluded, and yield NaN (_refuted)."
  },
  {
   "property": "C37",
   "status": "proved",
   "theorems": [
    "C37_four_poses",
    "C37_exactly_four",
    "C37_two_rotations",
    "C37_recondition",
    "C37_no_decomposition"
   ],
   "note": "Real arithmetic; nalgebra's SVD is an oracle whose correctness is a premise. The four poses are exactly the poses with the given essential matrix up to scale."
  },
  {
   "property": "C38",
   "status": "partial",
   "theorems": [
    "C38_angular_l1_exact_partial",
    "C38_angular_l_infinity_exact_partial",
    "C38_relative_dlt_exact_partial",
    "C38_relative_linear_exact_partial",
    "C38_wide_angle_refuted",
    "C38_mean_mean_exact_partial",
    "C38_mean_mean_refuted"
   ],
   "note": "Real arithmetic, correct decompositions as premises. Every relative triangulator is exact when the two rays to the point are at most 90 degrees apart and returns None otherwise, so the full claim is refuted for cameras facing each other. The averaging triangulator is exact only for equal distances (_refuted otherwise)."
  },
  {
   "property": "C39",
   "status": "partial",
   "theorems": [
    "C39_linear_exact_partial",
    "C39_refined_exact_partial",
    "C39_design_positive",
    "C39_design_kernel",
    "C39_few_views",
    "C39_nan_eigenvalues",
    "C39_origin_in_the_way_refuted",
    "C39_world_origin_refuted",
    "C39_infinity_refuted"
   ],
   "note": "Real arithmetic, correct eigensolver as a premise. Exact for points that every ray leads towards as seen from the world origin; the others, the origin itself and points at infinity are refuted."
  },
  {
   "property": "C40",
   "status": "partial",
   "theorems": [
    "C40_angular_l1_partial",
    "C40_angular_l_infinity_partial",
    "C40_relative_dlt_partial",
    "C40_linear_partial",
    "C40_mean_mean_partial",
    "C40_angular_refuted",
    "C40_linear_refuted"
   ],
   "note": "The point is in front of the first camera for the relative triangulators; that it is in front of the others is refuted, and so is that valid points are kept (C38, C39 _refuted)."
  },
  {
   "property": "C41",
   "status": "partial",
   "theorems": [
    "C41_loss_range",
    "C41_loss_zero",
    "C41_loss_value",
    "C41_loss_opposed",
    "C41_loss_exact_partial",
    "C41_loss_symmetric",
    "C41_loss_scale",
    "C41_loss_wide_angle_refuted",
    "C41_loss_orientation_refuted",
    "C41_loss_epipole",
    "C41_point_gradient_orthogonal",
    "C41_point_gradient_zero",
    "C41_point_gradient_moves_to_the_ray",
    "C41_world_gradient_zero",
    "C41_world_gradient_parts",
    "C41_rotation_gradient_zero",
    "C41_three_view_perfect"
   ],
   "note": "Everything proved except that the loss has the correct orientation: it is 1 for some exact data and 0 for some rays meeting behind a camera (_refuted)."
  },
  {
   "property": "C42",
   "status": "partial",
   "theorems": [
    "C42_no_iterations",
    "C42_no_landmarks",
    "C42_single_view_perfect",
    "C42_three_view_perfect",
    "C42_single_view_l1_run",
    "C42_single_view_l2_run",
    "C42_single_view_gradients",
    "C42_three_view_l1_run",
    "C42_three_view_l2_run",
    "C42_three_view_adaptive_run",
    "C42_rigid",
    "C42_weiszfeld_step_bounded",
    "C42_mean_step_bounded",
    "C42_shortened_step_bounded",
    "C42_finite_refuted",
    "C42_adaptive_at_rest",
    "C42_mapping_single_view",
    "C42_mapping_three_view"
   ],
   "note": "Everything proved over exact reals with the steps and stopping rule fully specified; finiteness of the result is refuted in binary64 when all landmarks are at infinity."
  },
  {
   "property": "C43",
   "status": "partial",
   "theorems": [
    "C43_rows",
    "C43_multiple_of_the_essential_matrix_partial",
    "C43_true_pose_is_returned_partial",
    "C43_any_eigensystem",
    "C43_at_most_four",
    "C43_first_eight",
    "C43_sideways_refuted"
   ],
   "note": "Proved over exact reals with the eigensolver and SVD as oracles; with a bearing at right angles to the axis the binary64 design row is NaN (refuted)."
  },
  {
   "property": "C44",
   "status": "partial",
   "theorems": [
    "C44_o1",
    "C44_o2",
    "C44_constraints",
    "C44_solutions_are_essential",
    "C44_null_space",
    "C44_at_most_forty",
    "C44_too_few_panics",
    "C44_failure_refuted"
   ],
   "note": "Polynomial identities, null space and counts proved for all inputs; \"none when the null space cannot be computed\" is refuted: the code goes on with a zero basis and returns forty poses. Fewer than five matches panic."
  },
  {
   "property": "C45",
   "status": "partial",
   "theorems": [
    "C45_quadratic_roots_partial",
    "C45_no_real_roots",
    "C45_quadratic_roots_refuted",
    "C45_refinement_never_worse",
    "C45_refinement_is_newton",
    "C45_refinement_keeps_solutions",
    "C45_laws_mean_congruence",
    "C45_pose_from_depths",
    "C45_cubic",
    "C45_cone",
    "C45_eigenvectors",
    "C45_depths",
    "C45_exactly_the_poses_partial",
    "C45_cubic_root_turning_partial",
    "C45_cubic_root_monotone_partial",
    "C45_cubic_root_refuted",
    "C45_sharpest_root_refuted",
    "C45_unsolvable_refuted",
    "C45_at_most_four",
    "C45_points_at_infinity",
    "C45_collinear",
    "C45_rigid",
    "C45_estimate"
   ],
   "note": "Over the reals: the solver returns exactly the aligning poses for a regular sample and an exact cubic root; the Newton iteration of the code is bounded separately (nearly flat cubics left out). Refuted: root2real with a zero root, cube_root for equal turning points (both NaN in binary64), the documented choice of the sharpest root, and soundness when the eigenvalues have the same sign (depths with residual above 7)."
  },
  {
   "property": "C46",
   "status": "proved",
   "theorems": [
    "C46_response",
    "C46_responses",
    "C46_scharr",
    "C46_simple_scharr",
    "C46_constant",
    "C46_ramp",
    "C46_size_zero_panics"
   ],
   "note": "Real arithmetic. Derivative filters on constants and ramps; the response is the determinant of the filtered second derivatives times the fourth power of the integer scale, for a single level and for the whole scale space."
  },
  {
   "property": "C47",
   "status": "proved",
   "theorems": [
    "C47_reprojection_error",
    "C47_average_error"
   ],
   "note": "Real arithmetic; every triangulator."
  },
  {
   "property": "C48",
   "status": "partial",
   "theorems": [
    "C48_three_view_pairwise",
    "C48_three_view_inconsistent_refuted",
    "C48_three_view_mirrored",
    "C48_three_view_rotations"
   ],
   "note": "Perfect data give the identity (C41_three_view_perfect), but so do all rays that meet in pairs (proved), so the claim is refuted: the translations are negated before triangulating and every point in front is dropped. For rays meeting in pairs after mirroring the cameras, the gradient is given exactly."
  },
  {
   "property": "C49",
   "status": "proved",
   "theorems": [
    "C49_refinement_error"
   ],
   "note": "Real arithmetic; any tolerance and number of iterations."
  },
  {
   "property": "C50",
   "status": "partial",
   "theorems": [
    "C50_action_matrix",
    "C50_what_is_returned_partial",
    "C50_recovery_refuted"
   ],
   "note": "Refuted: the code reads rows 5 to 8 of the eigenvector instead of 6 to 9. The partial theorem says exactly which candidate is returned on exact data and when it happens to be right."
  },
  {
   "property": "C51",
   "status": "proved",
   "theorems": [
    "C51_brightness"
   ],
   "note": "Real arithmetic."
  },
  {
   "property": "C52",
   "status": "proved",
   "theorems": [
    "C52_levels",
    "C52_cycle",
    "C52_single_step_refuted",
    "C52_default_contracts"
   ],
   "note": "Real arithmetic. The contraction of a cycle needs the cycle time to be within what its step count covers without the 1e-8 slack of the code; this is shown for all levels of the default settings. The contrast factor must not be zero (see C20 and C21 for flat images)."
  },
  {
   "property": "C53",
   "status": "proved",
   "theorems": [
    "C53_registered_from_clear_matches"
   ],
   "note": "The nearest-neighbour index and the pose estimator are arbitrary; the margin must be positive (with margin 0 two landmarks at equal distance are both taken as best)."
  },
  {
   "property": "C54",
   "status": "proved",
   "theorems": [
    "C54_new_reconstruction",
    "C54_initialisation"
   ],
   "note": "Matches must be one to one, as the callers' are (see C01_any_matches_refuted)."
  },
  {
   "property": "C55",
   "status": "proved",
   "theorems": [
    "C55_add_view",
    "C55_remove_view",
    "C55_merge_landmarks"
   ],
   "note": "For admissible matches, as registration produces them (C53, C03)."
  },
  {
   "property": "C56",
   "status": "partial",
   "theorems": [
    "C56_no_trace_refuted",
    "C56_rejected_frame_partial",
    "C56_rejected_merge_partial"
   ],
   "note": "False as stated (C56_no_trace_refuted): landmarks joined for the rejected frame's sake stay joined. Proved: that is all that is left."
  },
  {
   "property": "C57",
   "status": "proved",
   "theorems": [
    "C57_merge_shared_views"
   ],
   "note": "The triangulator's comparison is an arbitrary oracle, asked in the database as it is at that moment."
  },
  {
   "property": "C58",
   "status": "proved",
   "theorems": [
    "C58_rounds"
   ],
   "note": "The update rule is an arbitrary oracle (C42 and the pose theorems treat the real one); the order in which it sees the demands is unspecified, as it comes from a hash map."
  },
  {
   "property": "C59",
   "status": "partial",
   "theorems": [
    "C59_angular_l1_best_partial",
    "C59_angular_l_infinity_best_partial",
    "C59_angular_l1_directions_partial",
    "C59_angular_l_infinity_directions_partial",
    "C59_angular_l1_at_infinity_partial",
    "C59_angular_l_infinity_at_infinity_partial",
    "C59_equal_rays",
    "C59_behind_refuted"
   ],
   "note": "Real arithmetic, no premise on the noise. Proved for every result that is a finite point in front of the second bearing, against all points and all directions; for a result behind it (possible by C40) the claim is false (_refuted). Results at infinity are best too unless the planes of the two bearings are at right angles; in binary64 equal corrected rays give nothing."
  },
  {
   "property": "C60",
   "status": "proved",
   "theorems": [
    "C60_robust",
    "C60_any_order",
    "C60_gauge",
    "C60_gauge_pairs"
   ],
   "note": "Real arithmetic; frames without the consulted views or features do not occur (C01)."
  },
  {
   "property": "C61",
   "status": "proved",
   "theorems": [
    "C61_filter_observations",
    "C61_filter_landmarks"
   ],
   "note": "Real arithmetic; the triangulator is arbitrary. The point is triangulated from the observations before the filter; the observations left need not agree with a point triangulated from them alone."
  },
  {
   "property": "C62",
   "status": "proved",
   "theorems": [
    "C62_loss",
    "C62_duplicates"
   ],
   "note": "Real arithmetic; cosine and arc sine are the real functions. Losses of duplicates are those at the moment of the decision, when at most other observations of the two landmarks have been split off."
  },
  {
   "property": "C63",
   "status": "proved",
   "theorems": [
    "C63_rigid",
    "C63_contract"
   ],
   "note": "for every history whose operations use the numerical model with consensus processes returning rigid poses and inliers in range, and whose caller-given poses are rigid; real arithmetic; the orthonormalisation used by the exponential map is an oracle returning rotations (C20). C63_contract: the numerical model meets the contract env_ok of the history theorems."
  },
  {
   "property": "C64",
   "status": "proved",
   "theorems": [
    "C64_registration"
   ],
   "note": "for the numerical model over the reals; the two consensus processes, the triangulator and the nearest-neighbour index are oracles."
  },
  {
   "property": "C65",
   "status": "proved",
   "theorems": [
    "C65_triangulator",
    "C65_filter",
    "C65_registration"
   ],
   "note": "premises: exact triangulator (proved for the linear one given a correct eigenvalue decomposition), pose estimator answering noise-free data with the right pose and all data as inliers, positive thresholds, rays pairwise at most 90 degrees apart (wider ones are rejected by the code, C41)."
  },
  {
   "property": "C66",
   "status": "proved",
   "theorems": [
    "C66_start",
    "C66_exact",
    "C66_progress",
    "C66_scale_refuted"
   ],
   "note": "real arithmetic; the matcher's index, the consensus processes and the triangulator are oracles. C66_start: any oracles. C66_exact and C66_progress: exact triangulator, consensus answering the true pose up to the length of its translation with all matches as inliers, positive thresholds, rays at most 90 degrees apart. C66_progress also needs 32 common matches under wide enough angles, enough pairs of them far apart, and enough of them usable for comparing the translation lengths. The code's comment that the latter does not depend on the translations is false (C66_scale_refuted: it passes 1.0 where the comment says 2.0)."
  },
  {
   "property": "C67",
   "status": "proved",
   "theorems": [
    "C67_demanded",
    "C67_refused"
   ],
   "note": "real arithmetic, any triangulator and bearings; the views' poses are rigid (C63) and every offered landmark is observed by all three views (which the caller guarantees, C05). The translations shrink to zero only if the optimiser returns two zero translations (a NaN in floating point)."
  },
  {
   "property": "C68",
   "status": "proved",
   "theorems": [
    "C68_truth"
   ],
   "note": "real arithmetic. Operations: all but merging landmarks or reconstructions on the caller's word and starting a reconstruction from given poses; a new frame is compared with at most one reconstruction (one_place), so that no merge is attempted. Truthful external routines are spelled out in SfmTruthSpec.v (truthful): exact triangulator, consensus answering true poses only, matches showing the same point. C68_row runs the whole mapping of four frames from the empty database."
  },
  {
   "property": "C69",
   "status": "partial",
   "theorems": [
    "C69_moved_poses",
    "C69_poses_and_tracks",
    "C69_one_unit",
    "C69_units_refuted"
   ],
   "note": "False as stated (C69_units_refuted): the merge moves the source rigidly and does not adjust its unit of length, so a moved camera is at its true place exactly if the units agree or it is in the place of the common frame's camera (C69_moved_poses, iff). With one unit, poses and tracks of the result are true whatever the external routines answer (C69_poses_and_tracks), and the result is a correct map, constraints included, if the numerical code makes the constraints (C69_one_unit)."
  },
  {
   "property": "C70",
   "status": "proved",
   "theorems": [
    "C70_brightness",
    "C70_contrast"
   ],
   "note": "Exact real arithmetic. Patterns of size 1 to 3 compare values that were never written, so the claim is not made for them."
  },
  {
   "property": "C71",
   "status": "proved",
   "theorems": [
    "C71_eight_bits",
    "C71_sixteen_bits",
    "C71_transparency",
    "C71_depth"
   ],
   "note": ""
  },
  {
   "property": "C72",
   "status": "proved",
   "theorems": [
    "C72_features",
    "C72_returns",
    "C72_others_panic"
   ],
   "note": ""
  },
  {
   "property": "C73",
   "status": "proved",
   "theorems": [
    "C73_constraints_selected"
   ],
   "note": "The pose optimiser and the sort are oracles; that the sort is by decreasing number of landmarks is a premise of the last part only. The theorem asks for a minimum of at least one common landmark, since views without common landmarks are never candidates."
  },
  {
   "property": "C74",
   "status": "proved",
   "theorems": [
    "C74_exported",
    "C74_missing",
    "C74_truth"
   ],
   "note": "The triangulator is an oracle and the colour is a projection of the feature; creating the file and writing the vertex and face lists to it are not modelled (the lists are, see C14)."
  },
  {
   "property": "C75",
   "status": "partial",
   "theorems": [
    "C75_session",
    "C75_resumed",
    "C75_truth",
    "C75_cosine_option_ignored",
    "C75_cosine_option_refuted"
   ],
   "note": "Proved except for the last sentence: the option export_maximum_cosine_distance has no effect (C75_cosine_option_ignored) and its documented meaning is refuted (C75_cosine_option_refuted). C75_truth assumes that no frame connects two reconstructions (merging, see C69) and truthful external routines."
  },
  {
   "property": "C76",
   "status": "partial",
   "theorems": [
    "C76_matches",
    "C76_few_features_panic",
    "C76_features_in_picture",
    "C76_chapter4",
    "C76_chapter5",
    "C76_line_end_refuted",
    "C76_crosses"
   ],
   "note": "Exact arithmetic for the positions. In binary64 chapter 5 recovers positions from bearings, and a line can end in the neighbouring pixel (C76_line_end_refuted). Rasterising is not modelled: a line or cross is its ends and colour. Pictures of at most 2000 by 1000 pixels for chapter 5, where the distortion model is inverted exactly; a feature exactly at the principal point is excluded there (the inverse divides by zero)."
  },
  {
   "property": "C77",
   "status": "partial",
   "theorems": [
    "C77_program",
    "C77_other_images_panic",
    "C77_two_view_settings_ignored",
    "C77_settings"
   ],
   "note": "Exact arithmetic; external routines are oracles with contracts. Not every setting has an effect: two_view_optimization_maximum_matches and two_view_patience are ignored (C77_two_view_settings_ignored). Images with fewer than three features can end the program (C03_two_features_refuted)."
  },
  {
   "property": "C78",
   "status": "proved",
   "theorems": [
    "C78_settings_file",
    "C78_other_entries",
    "C78_program",
    "C78_given_settings_refuted"
   ],
   "note": "In any arithmetic. The JSON syntax itself and a file holding an array are not modelled. The stated property is proved; the stronger one, that a well-formed entry always takes effect, is refuted: one wrong entry discards the whole file without an error (C78_given_settings_refuted)."
  },
  {
   "property": "C79",
   "status": "proved",
   "theorems": [
    "C79_parallel_extraction"
   ],
   "note": "In any arithmetic. A step is one access to the images of a level; the thread pool is replaced by arbitrary interleaving and arbitrary division of the parallel iterators. Panics and exhausted fuel of the model's loops are not told apart."
  },
  {
   "property": "C80",
   "status": "partial",
   "theorems": [
    "C80_history",
    "C80_untouched",
    "C80_interrupted",
    "C80_interrupted_refuted",
    "C80_unopened_refuted"
   ],
   "note": "Proved for every history of runs that are not stopped while they write the file; the effect of an interruption at any byte is proved too. That a saved map survives every interruption is false of the code (File::create empties the file first) and refuted."
  },
  {
   "property": "C81",
   "status": "proved",
   "theorems": [
    "C81_scale_space",
    "C81_responses",
    "C81_maxima",
    "C81_odd_side_refuted",
    "C81_kept",
    "C81_ties_refuted"
   ],
   "note": "Up to the maxima that detection considers, and the keypoints kept if no maximum rivals another; of equally strong maxima near to each other the first is kept, which is not symmetric (C81_ties_refuted). Sides read backwards need lengths that halve evenly; otherwise refuted for halving."
  },
  {
   "property": "C82",
   "status": "partial",
   "theorems": [
    "C82_verdict",
    "C82_any_order",
    "C82_point",
    "C82_view_ignored",
    "C82_truth",
    "C82_robust_partial",
    "C82_robust_refuted"
   ],
   "note": "Everything proved except that the minimum number of observations is demanded: the code does not ask for it (_refuted: a landmark passes which is robust neither with the view nor without it)."
  },
  {
   "property": "C83",
   "status": "partial",
   "theorems": [
    "C83_reports",
    "C83_silent",
    "C83_half_partial",
    "C83_mirror_refuted"
   ],
   "note": "The reports are characterised exactly and are absent after any history; silence implies one half of the mirror only (_partial), not the other (_refuted)."
  }
 ]
}