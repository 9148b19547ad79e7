{
 "claims": [
  {
   "property": "C01",
   "status": "proved",
   "theorems": [
    "C01_delta_codec_roundtrip",
    "C01_bad_precision_rejected",
    "C01_large_dimension_rejected",
    "C01_input_preserved_refuted"
   ],
   "note": "Round trip for all admissible images; C01_input_preserved_refuted records that compress overwrites the caller's array."
  },
  {
   "property": "C02",
   "status": "proved",
   "theorems": [
    "C02_rle_roundtrip",
    "C02_rle_bijection"
   ],
   "note": ""
  },
  {
   "property": "C03",
   "status": "proved",
   "theorems": [
    "C03_error_at_most_half_precision",
    "C03_quantised_image_lossless"
   ],
   "note": ""
  },
  {
   "property": "C04",
   "status": "proved",
   "theorems": [
    "C04_combine_extract_identity",
    "C04_tile_content",
    "C04_tile_count",
    "C04_small_image_rejected",
    "C04_indivisible_tiles_rejected"
   ],
   "note": ""
  },
  {
   "property": "C05",
   "status": "proved",
   "theorems": [
    "C05_hungarian_maximum_weight",
    "C05_hungarian_labels_certify",
    "C05_empty_graph_rejected",
    "C05_all_int32_weights_refuted",
    "C05_overflow_is_int32_range"
   ],
   "note": ""
  },
  {
   "property": "C06",
   "status": "proved",
   "theorems": [
    "C06_hungarian_matcher_optimal",
    "C06_matches_have_same_type",
    "C06_unknown_type_fatal"
   ],
   "note": ""
  },
  {
   "property": "C07",
   "status": "proved",
   "theorems": [
    "C07_score_first_valid",
    "C07_unmatched_only_if_taken",
    "C07_full_subsets_greedy",
    "C07_subset_best_iou_refuted",
    "C07_nonempty_outputs_refuted"
   ],
   "note": ""
  },
  {
   "property": "C08",
   "status": "proved",
   "theorems": [
    "C08_sequence_one_to_one",
    "C08_frame_correspondences",
    "C08_hungarian_admissible",
    "C08_score_first_admissible",
    "C08_duplicate_ground_truth_fatal",
    "C08_hash_order_independence_refuted"
   ],
   "note": "Holds for every hash iteration order and any matcher meeting its contract; both library matchers are shown to meet it. Measurement details are not modelled."
  },
  {
   "property": "C09",
   "status": "proved",
   "theorems": [
    "C09_frame_accounting",
    "C09_totals_add_up"
   ],
   "note": "Exact per-frame change of every counter and of the cost, plus the identity objects = matches + misses over all histories."
  },
  {
   "property": "C10",
   "status": "proved",
   "theorems": [
    "C10_merge_is_sum",
    "C10_merge_order",
    "C10_merge_grouping",
    "C10_merge_defined"
   ],
   "note": "Counters and cost equal sums over scenes; order and grouping independent; refused exactly on disagreeing breakdowns or cutoffs. Exact arithmetic."
  },
  {
   "property": "C11",
   "status": "proved",
   "theorems": [
    "C11_classification",
    "C11_accounting",
    "C11_weighted_sums",
    "C11_reported_counts",
    "C11_heading_rejected_uncounted",
    "C11_level_monotone"
   ],
   "note": "All prediction and ground truth lists, any matching satisfying the matcher contract; exact rational heading accuracy."
  },
  {
   "property": "C12",
   "status": "proved",
   "theorems": [
    "C12_merge_is_sum",
    "C12_merge_order",
    "C12_merge_defined",
    "C12_unset_neutral",
    "C12_details_grouping_refuted",
    "C12_empty_right_refuted"
   ],
   "note": "Sums, order independence and the exact domain of merging; grouping loses details and an empty right operand is fatal (refuted theorems)."
  },
  {
   "property": "C13",
   "status": "proved",
   "theorems": [
    "C13_plausible_preserved",
    "C13_unit_interval",
    "C13_exact"
   ],
   "note": "Exact rational arithmetic; sample values of the mAP are covered by C14."
  },
  {
   "property": "C14",
   "status": "proved",
   "theorems": [
    "C14_value",
    "C14_levels_exist",
    "C14_order_independent",
    "C14_unit_interval",
    "C14_monotone",
    "C14_perfect_precision"
   ],
   "note": "Exact rational arithmetic: the value equals the trapezoid area under the precision envelope with the inserted recall levels, is order independent, lies in the unit interval and is monotone."
  },
  {
   "property": "C15",
   "status": "proved",
   "theorems": [
    "C15_count",
    "C15_uniform",
    "C15_quantiles",
    "C15_clamp",
    "C15_ascending",
    "C15_ascending_refuted",
    "C15_detection"
   ],
   "note": "All score lists and counts, exact rational arithmetic; includes the counterexample for scores above 1."
  },
  {
   "property": "C16",
   "status": "proved",
   "theorems": [
    "C16_value",
    "C16_symmetric",
    "C16_periodic",
    "C16_extremes"
   ],
   "note": "Exact rational arithmetic, for every positive constant in place of M_PI: accuracy is one minus the circular distance over pi; symmetry, period, extremes."
  },
  {
   "property": "C17",
   "status": "proved",
   "theorems": [
    "C17_create",
    "C17_value",
    "C17_bounds",
    "C17_mean_bounds",
    "C17_absent",
    "C17_no_classes"
   ],
   "note": "All histories of updates and resets; exact rational IoU, unbounded counters."
  },
  {
   "property": "C18",
   "status": "proved",
   "theorems": [
    "C18_rejected",
    "C18_accepted",
    "C18_order",
    "C18_merge",
    "C18_merge_large_refuted"
   ],
   "note": "All histories and splits below 2^31 points; the narrowing of larger merged counts is refuted by a witness."
  },
  {
   "property": "C19",
   "status": "proved",
   "theorems": [
    "C19_shard",
    "C19_names_distinct",
    "C19_total",
    "C19_camera_total_refuted"
   ],
   "note": "All objects and generators; distances compared by exact squares, the bearing is an input in degrees. The camera generator stopping on unsupported cameras is stated as the exact condition and by a witness."
  },
  {
   "property": "C20",
   "status": "proved",
   "theorems": [
    "C20_agree",
    "C20_distinct",
    "C20_motion"
   ],
   "note": "All configurations; error kinds differ between the languages, success and names agree. Names are distinct for distinct generators and levels."
  },
  {
   "property": "C21",
   "status": "proved",
   "theorems": [
    "C21_interpolated_area",
    "C21_ranking_exists",
    "C21_mean_over_truths",
    "C21_unit_interval",
    "C21_order_independent",
    "C21_ties_pessimistic",
    "C21_all_reported_ranges"
   ],
   "note": "see MotionProperties.v; hypot, rotation and polygon intersection are parameters, floats are rationals"
  },
  {
   "property": "C22",
   "status": "proved",
   "theorems": [
    "C22_one_true_positive",
    "C22_tie_order",
    "C22_miss_rate",
    "C22_more_predictions"
   ],
   "note": "see MotionProperties.v; hypot, rotation and polygon intersection are parameters, floats are rationals"
  },
  {
   "property": "C23",
   "status": "proved",
   "theorems": [
    "C23_minimum",
    "C23_defined",
    "C23_average",
    "C23_joint",
    "C23_more_predictions"
   ],
   "note": "see MotionProperties.v; hypot, rotation and polygon intersection are parameters, floats are rationals"
  },
  {
   "property": "C24",
   "status": "proved",
   "theorems": [
    "C24_accepted",
    "C24_validation_crash",
    "C24_no_crash",
    "C24_accepted_is_safe_refuted",
    "C24_other_tracks_checked_refuted"
   ],
   "note": "exact acceptance condition, crash freedom, and two refuting witnesses (step equal to the number of steps; short unpredicted track)"
  },
  {
   "property": "C25",
   "status": "proved",
   "theorems": [
    "C25_accepted",
    "C25_no_repetition_refuted"
   ],
   "note": "exact acceptance condition; refuting witness for repeated objects"
  },
  {
   "property": "C26",
   "status": "proved",
   "theorems": [
    "C26_encode_then_decode",
    "C26_decode_then_encode",
    "C26_instance_at_divisor_is_next_class"
   ],
   "note": "see PanopticProperties.v; images are flat pixel lists, PNG coding is the identity on uint16, skimage relabel_sequential is modelled from its documentation"
  },
  {
   "property": "C27",
   "status": "proved",
   "theorems": [
    "C27_lookup_exactly_mentioned",
    "C27_distinct_objects_distinct_instances",
    "C27_sequential_instances_are_consecutive",
    "C27_decoding_succeeds",
    "C27_pixels",
    "C27_pixel_recovered",
    "C27_automatic_divisor",
    "C27_automatic_divisor_keeps_classes_refuted",
    "C27_explicit_divisor_is_checked_refuted",
    "C27_large_global_ids_stay_apart_refuted",
    "C27_global_id_zero_stays_apart_refuted",
    "C27_unmapped_instance_stays_apart_refuted"
   ],
   "note": "see PanopticProperties.v; images are flat pixel lists, PNG coding is the identity on uint16, skimage relabel_sequential is modelled from its documentation"
  },
  {
   "property": "C28",
   "status": "proved",
   "theorems": [
    "C28_round_trip",
    "C28_round_trip_iff",
    "C28_dataset_components_unshadowed",
    "C28_columns_are_the_schema",
    "C28_dataset_columns_distinct",
    "C28_components_share_only_keys",
    "C28_nested_names_are_separate_refuted",
    "C28_none_comes_back_refuted",
    "C28_missing_key_is_readable_refuted",
    "C28_column_names"
   ],
   "note": "see ComponentProperties.v; the column types are not modelled; all 24 component classes of v2/perception are listed in ComponentModel.v"
  },
  {
   "property": "C29",
   "status": "proved",
   "theorems": [
    "C29_validate_joint_scene_exact",
    "C29_validate_scenario_rollouts_exact",
    "C29_sim_agent_ids_exact",
    "C29_evaluation_ids_exact",
    "C29_each_agent_once_refuted",
    "C29_generated_sizes_refuted",
    "C29_evaluated_agents_simulated_refuted"
   ],
   "note": "Exact acceptance sets with exception types for both validators, exact sets of required and evaluated ids; three refuted expectations with witnesses."
  },
  {
   "property": "C30",
   "status": "proved",
   "theorems": [
    "C30_gather_by_id_exact"
   ],
   "note": "Exact success condition and complete result for every table and id list."
  },
  {
   "property": "C31",
   "status": "proved",
   "theorems": [
    "C31_log_to_joint_scene_exact",
    "C31_wrong_duration_rejected",
    "C31_joint_scene_to_trajectories",
    "C31_log_round_trip",
    "C31_sizes_kept_refuted",
    "C31_generated_scene_to_trajectories",
    "C31_repeated_agent_fails_later",
    "C31_slice_time"
   ],
   "note": "Exact success condition of the log conversion, acceptance by the validator, object by object result of both conversions; float rounding to float32 happens before the model."
  },
  {
   "property": "C32",
   "status": "proved",
   "theorems": [
    "C32_validity_exact",
    "C32_validity_lengths",
    "C32_feature_lengths",
    "C32_length_kept_refuted",
    "C32_features_total",
    "C32_linear_speed",
    "C32_linear_acceleration",
    "C32_angular_speed",
    "C32_angular_acceleration",
    "C32_uniform_turn",
    "C32_nan_exactly_on_borders",
    "C32_valid_is_number",
    "C32_valid_steps_only",
    "C32_displacement_zero",
    "C32_displacement_translated"
   ],
   "note": "Validity masks characterised exactly; features characterised by value, including wrapped headings; NaN exactly on borders; valid features depend on valid inputs only. Exact rationals; norm and pi are parameters. One-step trajectories get two steps of features (refuted length preservation)."
  },
  {
   "property": "C33",
   "status": "proved",
   "theorems": [
    "C33_timeseries",
    "C33_scenario_level",
    "C33_only_usable_inputs",
    "C33_shape_mismatch_rejected",
    "C33_likelihood_unique",
    "C33_rollout_order_irrelevant",
    "C33_likelihood_bounds",
    "C33_histogram_is_a_distribution"
   ],
   "note": "All four comparison modes (per object / all objects, per step / all steps) and the scenario level variant; histogram, bernoulli and kernel estimators characterised independently; bounds, simplex, order independence. Likelihoods as exact rationals instead of float logarithms; the Gaussian is a parameter; NaN samples excluded."
  },
  {
   "property": "C34",
   "status": "proved",
   "theorems": [
    "C34_metametric_value",
    "C34_metametric_nan",
    "C34_every_metric_counts",
    "C34_metametric_bounds",
    "C34_challenge_weights",
    "C34_bucket_errors",
    "C34_bucket_bounds",
    "C34_buckets_and_metametric",
    "C34_average_with_validity",
    "C34_aggregate_value",
    "C34_aggregate_errors",
    "C34_mean_of_every_field_refuted",
    "C34_order_irrelevant_refuted",
    "C34_aggregate_order",
    "C34_metametric_commutes_with_mean",
    "C34_indication",
    "C34_rate_value",
    "C34_traffic_light_rate_vehicles_only_refuted",
    "C34_scenario_message",
    "C34_scenario_scores_in_unit",
    "C34_counted_likelihoods",
    "C34_min_ade"
   ],
   "note": "Metametric, buckets, masked averages, aggregation, indications and rates; refuted: mean of every field, order independence of the aggregation, traffic light rate restricted to vehicles. exp is a parameter; the log-likelihoods are inputs (see C33)."
  },
  {
   "property": "C35",
   "status": "proved",
   "theorems": [
    "C35_defined",
    "C35_round_trip",
    "C35_order",
    "C35_pixels",
    "C35_nearest",
    "C35_image_defined",
    "C35_features_of_one_point_refuted"
   ],
   "note": "Encoding, decoding and scattering of range_image_utils in exact arithmetic; float rounding not modelled. The refuted theorem shows that a pixel can mix features of two points."
  },
  {
   "property": "C36",
   "status": "proved",
   "theorems": [
    "C36_inside",
    "C36_refused",
    "C36_nearest_column",
    "C36_monotone",
    "C36_folding",
    "C36_round_trip",
    "C36_row",
    "C36_row_round_trip",
    "C36_pixel",
    "C36_every_azimuth_refuted"
   ],
   "note": "atan2 and matrix inversion are not modelled: azimuth, inclination and correction are inputs."
  },
  {
   "property": "C37",
   "status": "proved",
   "theorems": [
    "C37_query_exact",
    "C37_query_symmetric",
    "C37_out_of_range",
    "C37_integer_sound",
    "C37_integer_complete_refuted",
    "C37_intersection_area",
    "C37_inside",
    "C37_distance",
    "C37_union",
    "C37_init",
    "C37_xywh",
    "C37_translate"
   ],
   "note": "Exact arithmetic for float and double boxes; the refuted theorem shows the integer instance missing an overlap."
  },
  {
   "property": "C38",
   "status": "proved",
   "theorems": [
    "C38_axis_aligned_value",
    "C38_axis_aligned_laws",
    "C38_rotated_2d",
    "C38_rotated_3d",
    "C38_unknown_type",
    "C38_batch"
   ],
   "note": "Axis aligned case complete. For rotated boxes the polygon intersection area is a parameter under a stated contract; C70 proves the contract for boxes without contact and shows that the code breaks its symmetry for a box with common edge lines."
  },
  {
   "property": "C39",
   "status": "proved",
   "theorems": [
    "C39_results_canonical",
    "C39_unique_representation",
    "C39_from_double",
    "C39_from_int",
    "C39_from_int_min_refuted",
    "C39_add",
    "C39_sub",
    "C39_mul",
    "C39_neg_abs",
    "C39_add_special",
    "C39_sub_special",
    "C39_mul_special",
    "C39_equality",
    "C39_less",
    "C39_less_equal",
    "C39_order_total",
    "C39_fmax",
    "C39_fmin",
    "C39_fdim"
   ],
   "note": "Exact results within limits, special values, order, unique canonical form. The smallest int is refuted. BIGNUMs are mathematical integers."
  },
  {
   "property": "C40",
   "status": "proved",
   "theorems": [
    "C40_rounding_unique",
    "C40_round_to_power",
    "C40_round_to_bits",
    "C40_ceil",
    "C40_floor",
    "C40_trunc",
    "C40_round",
    "C40_rint",
    "C40_to_integer",
    "C40_llrint",
    "C40_llround",
    "C40_ldexp",
    "C40_ldexp_refuted",
    "C40_scalbln",
    "C40_frexp",
    "C40_frexp_refuted",
    "C40_logb",
    "C40_to_double_short",
    "C40_to_double",
    "C40_to_double_special",
    "C40_to_double_subnormal_refuted"
   ],
   "note": "All rounding modes against an independent specification shown unique; ldexp, frexp boundaries proved in both directions; conversion to double correct for at most 53 bits or exponent at least -1021, refuted by double rounding below."
  },
  {
   "property": "C41",
   "status": "proved",
   "theorems": [
    "C41_rejects_invalid",
    "C41_outcome",
    "C41_shapes",
    "C41_agents",
    "C41_roads",
    "C41_lights",
    "C41_kept_tracks",
    "C41_agent_counters",
    "C41_other_counters",
    "C41_few_slots_refuted",
    "C41_empty_polygon_refuted",
    "C41_required_track_refuted",
    "C41_late_lights_refuted",
    "C41_padding_count_refuted",
    "C41_road_sample"
   ],
   "note": "Whole conversion: outcome, names and sizes of all tensors, contents row by row, kept tracks, counters. Platform parameters: C library functions, std::sort (by its contract), hash set order. Doubles are rationals (coordinates may be NaN); conversion to float is exact binary32 rounding without overflow."
  },
  {
   "property": "C42",
   "status": "proved",
   "theorems": [
    "C42_modeled_order",
    "C42_context_order",
    "C42_context_order_nan_refuted",
    "C42_context_meaning",
    "C42_deterministic",
    "C42_deterministic_refuted",
    "C42_negative_limit_refuted"
   ],
   "note": "Comparator laws on all tracks; refuted with NaN coordinates."
  },
  {
   "property": "C43",
   "status": "proved",
   "theorems": [
    "C43_process_succeeds",
    "C43_process_value",
    "C43_process_mismatch",
    "C43_score_succeeds",
    "C43_score_value",
    "C43_padding_irrelevant",
    "C43_order_irrelevant",
    "C43_region_label",
    "C43_score_bounds",
    "C43_total_bounds",
    "C43_thresholds",
    "C43_speed_scale_range",
    "C43_speed_scale_low",
    "C43_speed_scale_high",
    "C43_speed_scale_mono",
    "C43_closer_scores_higher_refuted"
   ],
   "note": "The norm and the power function are parameters with the stated laws; numbers are rationals. C43_closer_scores_higher_refuted records that the floor outside can exceed the label inside."
  },
  {
   "property": "C44",
   "status": "proved",
   "theorems": [
    "C44_history",
    "C44_update_outcome",
    "C44_updates_merge",
    "C44_result_clears",
    "C44_failed_result_keeps",
    "C44_rejected_predictions",
    "C44_rejected_groundtruths_refuted",
    "C44_rows",
    "C44_speed_alignment",
    "C44_speed_alignment_refuted",
    "C44_other_keys_ignored"
   ],
   "note": "The metrics op is a parameter. The _refuted theorems record the predictions kept by a rejected update and the misaligned optional speeds."
  },
  {
   "property": "C45",
   "status": "proved",
   "theorems": [
    "C45_shapes",
    "C45_succeeds",
    "C45_content",
    "C45_resolved",
    "C45_unresolved_refuted",
    "C45_repeated_scenario_refuted",
    "C45_interest_refuted",
    "C45_large_ids_fail"
   ],
   "note": "Values, success boundary and defects; floats as rationals, ids assumed to fit 32 bits, undefined reads are IndexError."
  },
  {
   "property": "C46",
   "status": "proved",
   "theorems": [
    "C46_grouping_succeeds",
    "C46_grouping_lossless",
    "C46_sequences_succeed",
    "C46_sequences_lossless",
    "C46_detection_frames",
    "C46_tracking_sequences",
    "C46_box_kinds"
   ],
   "note": "Values and success boundary for both groupings, and the frame alignment of the detection and tracking ops."
  },
  {
   "property": "C47",
   "status": "proved",
   "theorems": [
    "C47_cache_transparent",
    "C47_late_function_change_refuted"
   ],
   "note": ""
  },
  {
   "property": "C48",
   "status": "proved",
   "theorems": [
    "C48_best_mota",
    "C48_reported_mota_is_best_refuted"
   ],
   "note": "Includes the refutation that a negative best MOTA is reported."
  },
  {
   "property": "C49",
   "status": "proved",
   "theorems": [
    "C49_collected_iff",
    "C49_tracking",
    "C49_given_cutoffs",
    "C49_all_predictions_refuted"
   ],
   "note": "The exact condition under which the code collects all scores is proved in both directions; the unconditional claim is refuted by witnesses."
  },
  {
   "property": "C50",
   "status": "proved",
   "theorems": [
    "C50_wrap",
    "C50_integral",
    "C50_integral_limit_refuted",
    "C50_bound"
   ],
   "note": "Exact rationals for floating point; every integer width for integral types."
  },
  {
   "property": "C51",
   "status": "proved",
   "theorems": [
    "C51_subsets",
    "C51_velocity_own",
    "C51_camera_own",
    "C51_camera_own_refuted"
   ],
   "note": "All configurations and object lists; the exact condition for camera shards is proved and the unconditional claim refuted."
  },
  {
   "property": "C52",
   "status": "proved",
   "theorems": [
    "C52_order_independent"
   ],
   "note": "see MotionProperties.v; hypot, rotation and polygon intersection are parameters, floats are rationals"
  },
  {
   "property": "C53",
   "status": "proved",
   "theorems": [
    "C53_empty_cuts",
    "C53_all_evaluated_refuted"
   ],
   "note": "see MotionProperties.v; hypot, rotation and polygon intersection are parameters, floats are rationals"
  },
  {
   "property": "C54",
   "status": "proved",
   "theorems": [
    "C54_conversion",
    "C54_validation",
    "C54_converted_valid"
   ],
   "note": "see MotionProperties.v; hypot, rotation and polygon intersection are parameters, floats are rationals"
  },
  {
   "property": "C55",
   "status": "proved",
   "theorems": [
    "C55_most_confident"
   ],
   "note": "see MotionProperties.v; hypot, rotation and polygon intersection are parameters, floats are rationals"
  },
  {
   "property": "C56",
   "status": "proved",
   "theorems": [
    "C56_untracked_becomes_instance_zero",
    "C56_one_update_per_frame"
   ],
   "note": "see PanopticProperties.v; images are flat pixel lists, PNG coding is the identity on uint16, skimage relabel_sequential is modelled from its documentation"
  },
  {
   "property": "C57",
   "status": "proved",
   "theorems": [
    "C57_loads_a_prefix_of_one_sequence",
    "C57_loaded_frames_share_the_sequence_refuted"
   ],
   "note": "see PanopticProperties.v; images are flat pixel lists, PNG coding is the identity on uint16, skimage relabel_sequential is modelled from its documentation"
  },
  {
   "property": "C58",
   "status": "proved",
   "theorems": [
    "C58_saved_label_decodes_to_the_original",
    "C58_automatic_divisor_recovers_the_label_refuted",
    "C58_classes_survive_a_large_divisor_refuted"
   ],
   "note": "see PanopticProperties.v; images are flat pixel lists, PNG coding is the identity on uint16, skimage relabel_sequential is modelled from its documentation"
  },
  {
   "property": "C59",
   "status": "proved",
   "theorems": [
    "C59_pixels",
    "C59_flat",
    "C59_outside_rejected_refuted",
    "C59_depth_image"
   ],
   "note": "The refuted theorem shows a column index equal to the width accepted."
  },
  {
   "property": "C60",
   "status": "proved",
   "theorems": [
    "C60_crop_defined",
    "C60_crop_pixels",
    "C60_same_width",
    "C60_inclinations",
    "C60_inclination_order"
   ],
   "note": "Exact arithmetic."
  },
  {
   "property": "C61",
   "status": "proved",
   "theorems": [
    "C61_affinity",
    "C61_affinity_perfect",
    "C61_affinity_lateral",
    "C61_affinity_monotone",
    "C61_zero_tolerance_refuted",
    "C61_range_aligned",
    "C61_range_aligned_near_refuted",
    "C61_further_only",
    "C61_any_closer_only",
    "C61_between_only",
    "C61_center_aligned",
    "C61_center_aligned_refuted",
    "C61_let_iou"
   ],
   "note": "Square roots are inputs; refuted theorems record zero tolerance, predictions within a millimetre of the sensor and the height under centre alignment."
  },
  {
   "property": "C62",
   "status": "proved",
   "theorems": [
    "C62_conversion",
    "C62_ids",
    "C62_ids_distinct",
    "C62_ids_refuted",
    "C62_relative",
    "C62_times",
    "C62_times_order",
    "C62_times_refuted"
   ],
   "note": "binary32 rounding proved nearest; overflow to infinity not modelled."
  },
  {
   "property": "C63",
   "status": "proved",
   "theorems": [
    "C63_text",
    "C63_decades",
    "C63_exact",
    "C63_error",
    "C63_nearest_refuted",
    "C63_exponent_digits_refuted",
    "C63_same_precision_unique",
    "C63_nan_text",
    "C63_unique",
    "C63_integers",
    "C63_special"
   ],
   "note": "The logarithm in NumSignificantDigitsForPrec is exact in the model. The _refuted theorems record the rounding of 6 to 9 after an even digit and the unpadded exponent."
  },
  {
   "property": "C64",
   "status": "proved",
   "theorems": [
    "C64_boundary",
    "C64_outside",
    "C64_inside",
    "C64_repeated_vertex",
    "C64_repeated_vertex_refuted"
   ],
   "note": "over the reals; a repeated consecutive vertex makes every point count as outside (refuting witness)"
  },
  {
   "property": "C65",
   "status": "proved",
   "theorems": [
    "C65_sum",
    "C65_corners"
   ],
   "note": "for all pairs of rectangles of positive size; over the reals"
  },
  {
   "property": "C66",
   "status": "proved",
   "theorems": [
    "C66_pair",
    "C66_total",
    "C66_collision",
    "C66_distance",
    "C66_invalid",
    "C66_capsule_refuted"
   ],
   "note": "over the reals; factor 1 (capsules) loses the sign of the distance: crossing boxes count as apart (refuting witness)"
  },
  {
   "property": "C67",
   "status": "proved",
   "theorems": [
    "C67_total",
    "C67_no_edges",
    "C67_box",
    "C67_point",
    "C67_loop",
    "C67_offroad",
    "C67_padding_refuted",
    "C67_free_end_refuted"
   ],
   "note": "Real numbers instead of floats. The sign at collinear reversing corners (spikes) is not stated. Padding and free end behaviour refuted by witnesses."
  },
  {
   "property": "C68",
   "status": "proved",
   "theorems": [
    "C68_total",
    "C68_short",
    "C68_ends",
    "C68_value",
    "C68_irreflexive",
    "C68_heading_refuted",
    "C68_invalid_refuted"
   ],
   "note": "Real numbers, exact arithmetic. Hypotheses: step of at least 0.1 s, places and sizes within ten thousand kilometres, positive width of the evaluated box. Two _refuted theorems state defects of the code: headings compared without wrapping, speeds from invalid neighbours."
  },
  {
   "property": "C69",
   "status": "proved",
   "theorems": [
    "C69_total",
    "C69_errors",
    "C69_one_step",
    "C69_value",
    "C69_straight",
    "C69_lane",
    "C69_nearest_refuted",
    "C69_other_lane_refuted",
    "C69_padding_refuted",
    "C69_unlisted_refuted"
   ],
   "note": "Exact fractions. Coordinates within a million kilometres, two steps or more. Four _refuted theorems state defects: wrong sign in the distance to a segment (missed and spurious), segment from the end of a padded lane to the origin, stop point at the origin for a signal not listed."
  },
  {
   "property": "C70",
   "status": "proved",
   "theorems": [
    "C70_segment",
    "C70_inside",
    "C70_maybe",
    "C70_vertices",
    "C70_found",
    "C70_apart",
    "C70_self",
    "C70_area",
    "C70_area_of_points",
    "C70_symmetric",
    "C70_bounds",
    "C70_box",
    "C70_iou_range",
    "C70_iou_area",
    "C70_iou_common",
    "C70_iou_apart",
    "C70_iou_small",
    "C70_iou_self",
    "C70_iou_symmetric",
    "C70_contact_refuted"
   ],
   "note": "Real numbers. Contact between a corner and the other boundary is excluded where completeness is claimed; a _refuted theorem shows that the code misses a contained box there."
  },
  {
   "property": "C71",
   "status": "proved",
   "theorems": [
    "C71_value",
    "C71_bounds",
    "C71_order",
    "C71_zero",
    "C71_perfect",
    "C71_rows",
    "C71_out_of_range",
    "C71_heading_refuted"
   ],
   "note": "Known gap stated by C71_heading_refuted. Sample weights and dropping of categories are not modelled."
  },
  {
   "property": "C72",
   "status": "proved",
   "theorems": [
    "C72_one_to_one",
    "C72_passes",
    "C72_shows",
    "C72_displacement",
    "C72_minimal_refuted",
    "C72_hidden_refuted"
   ],
   "note": "Known gaps stated by C72_minimal_refuted and C72_hidden_refuted. scipy's solver is a parameter with its contract as hypothesis."
  },
  {
   "property": "C73",
   "status": "proved",
   "theorems": [
    "C73_within_3d",
    "C73_within_2d",
    "C73_count",
    "C73_hull",
    "C73_corners",
    "C73_from_above"
   ],
   "note": "Over real numbers."
  },
  {
   "property": "C74",
   "status": "proved",
   "theorems": [
    "C74_point",
    "C74_singular",
    "C74_same",
    "C74_chain",
    "C74_back",
    "C74_distance",
    "C74_box",
    "C74_box_within",
    "C74_box_corners",
    "C74_not_level_refuted",
    "C74_rotation",
    "C74_proper",
    "C74_yaw"
   ],
   "note": "Known gap stated by C74_not_level_refuted. Over real numbers."
  },
  {
   "property": "C75",
   "status": "proved",
   "theorems": [
    "C75_join",
    "C75_no_common_key",
    "C75_columns",
    "C75_one_row_per_record",
    "C75_no_cross_product",
    "C75_groups_by_default_refuted",
    "C75_outer_keeps_all_refuted"
   ],
   "note": "Join described by a one to one correspondence between output rows and pairs of records (or single records); grouping described by classes of row positions. Sorting of groups and outer joins is an arbitrary reordering; dtypes and clashing renamed columns are not modelled. Refuted: automatic grouping by default, and completeness of outer joins of a grouped table with null keys."
  },
  {
   "property": "C76",
   "status": "proved",
   "theorems": [
    "C76_tensors",
    "C76_subset",
    "C76_subset_of_tensors",
    "C76_pose_keypoints",
    "C76_pose_boxes",
    "C76_boxes_aligned_refuted",
    "C76_box_conversion",
    "C76_box_size_refuted"
   ],
   "note": "Locations are an abstract type, tensors are lists, one sample at a time. Refuted: alignment of boxes when only some poses have one, and the size of a converted box."
  },
  {
   "property": "C77",
   "status": "proved",
   "theorems": [
    "C77_group",
    "C77_camera_is_dict_refuted"
   ],
   "note": "Ids and camera names are numbers. Refuted: the camera labels of an object are always a dictionary."
  },
  {
   "property": "C78",
   "status": "proved",
   "theorems": [
    "C78_value",
    "C78_range",
    "C78_perfect",
    "C78_closer",
    "C78_missing_place",
    "C78_surrogate",
    "C78_units",
    "C78_missing_counts_refuted",
    "C78_flat_box_refuted",
    "C78_turned_box_refuted",
    "C78_unlabelled_missing_refuted"
   ],
   "note": "OksModel.v models the similarity of one object over the reals; the defects are refuted by witness."
  },
  {
   "property": "C79",
   "status": "proved",
   "theorems": [
    "C79_position_error",
    "C79_correct_keypoints",
    "C79_correct_range",
    "C79_order",
    "C79_no_box",
    "C79_precision",
    "C79_precision_range",
    "C79_average",
    "C79_average_one_batch",
    "C79_average_refuted",
    "C79_weighted",
    "C79_weighted_batches_refuted",
    "C79_object_weights_refuted"
   ],
   "note": "Position error, correct keypoints and precision are modelled as running means over batches; metric names are not modelled, results are keyed by threshold."
  },
  {
   "property": "C80",
   "status": "proved",
   "theorems": [
    "C80_accepts",
    "C80_refuses",
    "C80_partition",
    "C80_occupancy",
    "C80_chain",
    "C80_flow",
    "C80_flow_mean",
    "C80_flow_bounds",
    "C80_flow_mean_refuted",
    "C80_lookup",
    "C80_view",
    "C80_trails"
   ],
   "note": "Occupancy is modelled one cell at a time, with real numbers. C80_flow_mean_refuted shows the component-wise average of axis-aligned flows faster than each of them."
  },
  {
   "property": "C81",
   "status": "proved",
   "theorems": [
    "C81_occupancy",
    "C81_refuses",
    "C81_split",
    "C81_disjoint",
    "C81_moved",
    "C81_ahead",
    "C81_observed_now_refuted",
    "C81_roadgraph"
   ],
   "note": "Exact for real coordinates; rounding to the nearest cell, halves to even, as tf.round. C81_observed_now_refuted: the documentation says observed agents are valid at the current step, the code takes any past or present step."
  },
  {
   "property": "C82",
   "status": "proved",
   "theorems": [
    "C82_flow",
    "C82_back",
    "C82_none"
   ],
   "note": "Contributions are keyed by agent and sample, so each counts once."
  },
  {
   "property": "C83",
   "status": "proved",
   "theorems": [
    "C83_covered",
    "C83_covered_refuted"
   ],
   "note": "Sufficient condition proved for all headings; C83_covered_refuted is a bus of 18 m with the default configuration."
  },
  {
   "property": "C84",
   "status": "proved",
   "theorems": [
    "C84_iou_range",
    "C84_iou_symmetric",
    "C84_iou_one",
    "C84_iou_zero",
    "C84_iou_counts",
    "C84_iou_value",
    "C84_iou_monotone",
    "C84_iou_exact_refuted",
    "C84_epe",
    "C84_epe_zero",
    "C84_epe_blind",
    "C84_epe_all_cells_refuted"
   ],
   "note": "Over real numbers. C84_iou_exact_refuted and C84_epe_all_cells_refuted are the defects."
  },
  {
   "property": "C85",
   "status": "proved",
   "theorems": [
    "C85_averages",
    "C85_range",
    "C85_perfect",
    "C85_available_refuted",
    "C85_diluted_refuted"
   ],
   "note": "The loop is proved for any warped grids; C85_available_refuted shows that compute_occupancy_flow_metrics itself always raises with a waypoint, since _flow_warp is disabled in this version."
  },
  {
   "property": "C86",
   "status": "proved",
   "theorems": [
    "C86_pixel_of_a_direction",
    "C86_undistortion_rests_on_preimages",
    "C86_undistortion_accuracy",
    "C86_plain_lens_inverse",
    "C86_global_projection",
    "C86_global_op",
    "C86_global_round_trip",
    "C86_global_round_trip_back",
    "C86_undistortion_refuted"
   ],
   "note": "The refuted clause (undistortion that does not come back) is C86_undistortion_refuted; real numbers, no rounding."
  },
  {
   "property": "C87",
   "status": "proved",
   "theorems": [
    "C87_pixel_times",
    "C87_unknown_direction_ends",
    "C87_world_at_the_time_of_the_pixel",
    "C87_plain_lens_caught",
    "C87_equation",
    "C87_level_turn",
    "C87_angular_velocity_refuted"
   ],
   "note": "The documented frame of the angular velocity is refuted by C87_angular_velocity_refuted; the rest holds with the vehicle frame."
  },
  {
   "property": "C88",
   "status": "proved",
   "theorems": [
    "C88_reported_pixel",
    "C88_steady_depth_exact",
    "C88_slope",
    "C88_valid_pixel_refuted",
    "C88_outputs_assigned_refuted",
    "C88_turned_back",
    "C88_turning_round_trip_refuted"
   ],
   "note": "Positive clauses for a vehicle that does not turn; the code defects are C88_valid_pixel_refuted, C88_outputs_assigned_refuted and C88_turning_round_trip_refuted."
  },
  {
   "property": "C89",
   "status": "proved",
   "theorems": [
    "C89_points",
    "C89_moving_points",
    "C89_mounting",
    "C89_distance",
    "C89_level",
    "C89_still",
    "C89_no_frame_pose",
    "C89_pixel_pose",
    "C89_uniform_rows",
    "C89_hits",
    "C89_gathered"
   ],
   "note": "see DESIGN.md; numbers are real, rounding is not modelled"
  },
  {
   "property": "C90",
   "status": "proved",
   "theorems": [
    "C90_defined",
    "C90_content",
    "C90_round_trip",
    "C90_singular",
    "C90_seam_refuted"
   ],
   "note": "The exact failure condition is proved and a witness of the failure is in C90_seam_refuted."
  },
  {
   "property": "C91",
   "status": "proved",
   "theorems": [
    "C91_parse_defined",
    "C91_parse_content",
    "C91_cartesian",
    "C91_point_clouds",
    "C91_dictionary",
    "C91_topless",
    "C91_side_lidars_refuted"
   ],
   "note": "The failure of frames without top lidar is in C91_topless and C91_side_lidars_refuted."
  },
  {
   "property": "C92",
   "status": "proved",
   "theorems": [
    "C92_image",
    "C92_points",
    "C92_same_clouds",
    "C92_frame_pose",
    "C92_laser",
    "C92_motion_side",
    "C92_motion_top",
    "C92_motion_top_unlisted",
    "C92_motion_top_refuted"
   ],
   "note": "The failure of top lidars without listed inclinations is in C92_motion_top_unlisted and C92_motion_top_refuted."
  },
  {
   "property": "C93",
   "status": "proved",
   "theorems": [
    "C93_lidar",
    "C93_tokens",
    "C93_any_order",
    "C93_twice",
    "C93_codebook"
   ],
   "note": "see DESIGN.md; numbers are real, rounding is not modelled"
  },
  {
   "property": "C94",
   "status": "proved",
   "theorems": [
    "C94_exact",
    "C94_zero_components",
    "C94_inside",
    "C94_flagged_near",
    "C94_clear_hit",
    "C94_distance",
    "C94_face_ray_refuted",
    "C94_outside_flagged_refuted",
    "C94_still_ray_refuted",
    "C94_missed_positive_refuted",
    "C94_face_origin_refuted"
   ],
   "note": "Real arithmetic; exact for slanted rays, exact boundary for zero components, documented promises refuted by witnesses."
  },
  {
   "property": "C95",
   "status": "proved",
   "theorems": [
    "C95_rotation",
    "C95_box_coordinates",
    "C95_turned_box",
    "C95_frames"
   ],
   "note": "Real arithmetic; the turned box theorem assumes a direction without zero components in box coordinates."
  },
  {
   "property": "C96",
   "status": "proved",
   "theorems": [
    "C96_nearest_step",
    "C96_stable",
    "C96_bad_step",
    "C96_buckets",
    "C96_zero_component_refuted"
   ],
   "note": "Real arithmetic; a zero step is an error in the model."
  },
  {
   "property": "C97",
   "status": "proved",
   "theorems": [
    "C97_encode",
    "C97_decode",
    "C97_round_trip",
    "C97_codes_stable",
    "C97_least_misfit",
    "C97_shift",
    "C97_drift_refuted"
   ],
   "note": "Real arithmetic; the drift of repeated coding is a refuted expectation."
  },
  {
   "property": "C98",
   "status": "proved",
   "theorems": [
    "C98_round_trip",
    "C98_errors"
   ],
   "note": "Real arithmetic; keys are opaque."
  },
  {
   "property": "C99",
   "status": "proved",
   "theorems": [
    "C99_least_distance",
    "C99_side",
    "C99_line_distance",
    "C99_far_colinear_refuted",
    "C99_close_left_refuted"
   ],
   "note": "Real arithmetic; the area tolerance is refuted as a distance."
  },
  {
   "property": "C100",
   "status": "proved",
   "theorems": [
    "C100_exact",
    "C100_common_point",
    "C100_parallel",
    "C100_symmetric",
    "C100_coincide",
    "C100_coincide_symmetric",
    "C100_coincide_parallel",
    "C100_coincide_near",
    "C100_might",
    "C100_might_necessary",
    "C100_tiny_cross_refuted",
    "C100_might_misses_refuted"
   ],
   "note": "Real arithmetic; exact conditions and two refuted expectations."
  },
  {
   "property": "C101",
   "status": "proved",
   "theorems": [
    "C101_histories",
    "C101_values",
    "C101_direction",
    "C101_heading",
    "C101_heading_history_refuted",
    "C101_still_heading_refuted",
    "C101_negative_length_refuted"
   ],
   "note": "Real arithmetic, one thread; the dependence of heading on earlier reads is refuted independence."
  },
  {
   "property": "C102",
   "status": "proved",
   "theorems": [
    "C102_sample",
    "C102_points"
   ],
   "note": "Real arithmetic."
  },
  {
   "property": "C103",
   "status": "proved",
   "theorems": [
    "C103_accumulates",
    "C103_split",
    "C103_update",
    "C103_detection_layout",
    "C103_tracking_layout",
    "C103_motion_layout",
    "C103_detection_fed",
    "C103_tracking_fed",
    "C103_motion_fed",
    "C103_fed_exists",
    "C103_unknown_box",
    "C103_width_refuted",
    "C103_calls_refuted"
   ],
   "note": "The value theorems cover all histories in which batches have the declared widths; the exact condition for one update, and the refuted width check and separation of calls, are included."
  },
  {
   "property": "C104",
   "status": "proved",
   "theorems": [
    "C104_detection",
    "C104_tracking",
    "C104_motion",
    "C104_names",
    "C104_config",
    "C104_repeated_refuted",
    "C104_filter_refuted"
   ],
   "note": "Exact condition for the update to be run once, with the refuted cases of repeated breakdowns and of a filter that keeps nothing."
  },
  {
   "property": "C105",
   "status": "proved",
   "theorems": [
    "C105_detection",
    "C105_tracking",
    "C105_motion"
   ],
   "note": "Both directions, for every key."
  },
  {
   "property": "C106",
   "status": "proved",
   "theorems": [
    "C106_recall",
    "C106_at_one",
    "C106_perfect_refuted"
   ],
   "note": "Includes the refuted expectation at precision 1."
  },
  {
   "property": "C107",
   "status": "proved",
   "theorems": [
    "C107_shapes",
    "C107_sizes",
    "C107_ids",
    "C107_distinct",
    "C107_ids_refuted"
   ],
   "note": "Exact acceptance and exact condition for distinct default ids; the documented shapes with other numbers of agents are refuted."
  },
  {
   "property": "C108",
   "status": "proved",
   "theorems": [
    "C108_match",
    "C108_ids"
   ],
   "note": "Overlap and affinity functions are parameters with values in [0, 1]; rational arithmetic."
  },
  {
   "property": "C109",
   "status": "proved",
   "theorems": [
    "C109_bad_shapes",
    "C109_matchers",
    "C109_disabled",
    "C109_score_first_refuted"
   ],
   "note": "Boundary stated exactly; C109_score_first_refuted shows the defect of the code."
  },
  {
   "property": "C110",
   "status": "proved",
   "theorems": [
    "C110_frames",
    "C110_complete"
   ],
   "note": "Starts after parsing the files; ends with the arguments of the metrics computation."
  },
  {
   "property": "C111",
   "status": "proved",
   "theorems": [
    "C111_frames",
    "C111_bad_camera"
   ],
   "note": "Starts after parsing the files; ends with the arguments of the metrics computation."
  },
  {
   "property": "C112",
   "status": "proved",
   "theorems": [
    "C112_sequences",
    "C112_cameras_refuted"
   ],
   "note": "C112_cameras_refuted shows the difference from the detection tool."
  },
  {
   "property": "C113",
   "status": "proved",
   "theorems": [
    "C113_wire_round_trip",
    "C113_objects",
    "C113_submission",
    "C113_submission_lost",
    "C113_submission_refuted"
   ],
   "note": "Wire format with varint, fixed and length delimited fields; groups are not modelled. Whether the bytes of one Object or Polygon2dProto parse is a parameter. C113_submission_refuted is a defect of the code: the submission of a method called MyNet is read as an empty list of objects."
  },
  {
   "property": "C114",
   "status": "proved",
   "theorems": [
    "C114_input",
    "C114_input_line_feed",
    "C114_input_refuted",
    "C114_accepted",
    "C114_shards",
    "C114_shard_unique",
    "C114_usable",
    "C114_nan_score_refuted",
    "C114_float_score_refuted",
    "C114_balance_refuted"
   ],
   "note": "Floating point numbers are NaN or rational. Refuted parts are defects of the code: valid files whose last byte is 10 are refused, NaN scores pass, the float nearest to 0.03 is below the threshold, and positions restart in every file so that the shards need not be balanced."
  },
  {
   "property": "C115",
   "status": "proved",
   "theorems": [
    "C115_sound",
    "C115_complete",
    "C115_identical",
    "C115_order_refuted",
    "C115_missing_refuted"
   ],
   "note": "Scores and overlaps are rationals; the overlap is a parameter. C115_order_refuted and C115_missing_refuted are defects of the code: the same detections in another order can be refused, and frames without latency detections are accepted whatever the submission has there."
  },
  {
   "property": "C116",
   "status": "proved",
   "theorems": [
    "C116_objects",
    "C116_camera",
    "C116_fields",
    "C116_columns_refuted",
    "C116_checks_agree",
    "C116_checks_refuted"
   ],
   "note": "Floating point numbers are NaN or rational. C116_columns_refuted and C116_checks_refuted are defects of the code: boxes with another number of columns are dropped without an error, and the checks are not those of create_submission.cc although a comment says so."
  },
  {
   "property": "C117",
   "status": "proved",
   "theorems": [
    "C117_outcome",
    "C117_decided",
    "C117_success",
    "C117_classes",
    "C117_order",
    "C117_last_wins",
    "C117_unlabelled",
    "C117_missing_prediction",
    "C117_missing_compared",
    "C117_instances",
    "C117_channels",
    "C117_instances_refuted",
    "C117_missing_prediction_refuted",
    "C117_unset_refuted"
   ],
   "note": "All frames, labels and orders. The three defects (instance ids counted as classes, missing prediction with returns of different size, unset second return) are the _refuted theorems."
  },
  {
   "property": "C118",
   "status": "proved",
   "theorems": [
    "C118_decided",
    "C118_rows",
    "C118_types",
    "C118_count",
    "C118_order",
    "C118_traversal",
    "C118_input",
    "C118_read",
    "C118_merged_refuted",
    "C118_nothing_refuted"
   ],
   "note": "All configurations, scenarios and orders. The two defects (configurations of the same step mixed, nothing measured reported as zero) are the _refuted theorems."
  },
  {
   "property": "C119",
   "status": "proved",
   "theorems": [
    "C119_lidar_box",
    "C119_lidar_box_exists",
    "C119_lidar_box_one",
    "C119_lidar_box_error",
    "C119_lidar_box_stops",
    "C119_synced_box",
    "C119_synced_box_error",
    "C119_camera_box",
    "C119_camera_box_error",
    "C119_projected_box",
    "C119_projected_box_error",
    "C119_projected_id",
    "C119_projected_keys",
    "C119_association",
    "C119_association_total",
    "C119_association_joins",
    "C119_lidar_keys",
    "C119_camera_keys",
    "C119_errors",
    "C119_back",
    "C119_missing_refuted",
    "C119_zero_refuted",
    "C119_separator_refuted",
    "C119_camera_refuted",
    "C119_long_id_refuted",
    "C119_rear_refuted",
    "C119_dangling_refuted"
   ],
   "note": "The claim is proved as stated; its unmet parts (documented error, separator, camera of the label, length of ids, rear cameras, missing numbers, associations without box) are the refuted theorems."
  },
  {
   "property": "C120",
   "status": "proved",
   "theorems": [
    "C120_camera_keypoints",
    "C120_camera_keypoints_error",
    "C120_lidar_keypoints",
    "C120_lidar_keypoints_error",
    "C120_lidar",
    "C120_projection",
    "C120_segmentation",
    "C120_pose",
    "C120_lidar_keys",
    "C120_one_laser",
    "C120_camera_segmentation",
    "C120_intrinsic",
    "C120_intrinsic_error",
    "C120_inclination",
    "C120_counts",
    "C120_spatial_refuted",
    "C120_position_refuted",
    "C120_empty_refuted",
    "C120_second_pose_refuted"
   ],
   "note": "The claim is proved as stated; the dropped positions and poses, the zero position and the empty list are the refuted theorems."
  },
  {
   "property": "C121",
   "status": "proved",
   "theorems": [
    "C121_readable",
    "C121_refused",
    "C121_contents",
    "C121_coverage",
    "C121_sdc",
    "C121_sdc_count",
    "C121_kept_room",
    "C121_kept_modeled",
    "C121_kept_first",
    "C121_dropped",
    "C121_default_refuted",
    "C121_shift_refuted"
   ],
   "note": "Reading accepts a converted example iff the task sizes were used; contents, coverage, self-driving car fields of a batch, when the car has a row; default configuration and shifted batch refutations. The tf.io parser is modelled by the shape and kind test it documents."
  },
  {
   "property": "C122",
   "status": "proved",
   "theorems": [
    "C122_estimate",
    "C122_nearest",
    "C122_frames",
    "C122_detection",
    "C122_tracking",
    "C122_seen",
    "C122_class",
    "C122_empty_first_frame",
    "C122_overwritten_refuted",
    "C122_unestimated_refuted",
    "C122_first_only_refuted"
   ],
   "note": "Nearest ground truth speed with ties, frames, exactly when estimation happens in detection and tracking, velocity class; declared speeds overwritten, missing speeds left and first frame defects refuted. Finite coordinates; the sum of squares is exact, the root is arbitrary."
  },
  {
   "property": "C123",
   "status": "proved",
   "theorems": [
    "C123_equal",
    "C123_strict",
    "C123_order",
    "C123_self",
    "C123_symmetric",
    "C123_monotone",
    "C123_kind_refuted",
    "C123_relative_refuted",
    "C123_transitive_refuted",
    "C123_self_refuted"
   ],
   "note": "Exact characterization of the comparison with the empty float list exception; order, self, exchange and monotonicity; four refutations. Numbers are rational or special and the tolerance is computed exactly."
  },
  {
   "property": "C124",
   "status": "proved",
   "theorems": [
    "C124_latest",
    "C124_types",
    "C124_shows",
    "C124_outcome",
    "C124_default",
    "C124_default_error",
    "C124_laser",
    "C124_traces",
    "C124_skeletons",
    "C124_sizes",
    "C124_colors",
    "C124_factors",
    "C124_pixels",
    "C124_moved",
    "C124_follows",
    "C124_inside",
    "C124_last",
    "C124_empty_refuted",
    "C124_unspecified_refuted",
    "C124_missing_color_refuted",
    "C124_whole_refuted",
    "C124_outside_refuted"
   ],
   "note": "Dots, lines, outcome and crops are characterized exactly; cut last row and column, negative slice ends and undrawable empty wireframes are stated as refutations."
  },
  {
   "property": "C125",
   "status": "proved",
   "theorems": [
    "C125_blend",
    "C125_power",
    "C125_power_range",
    "C125_power_order",
    "C125_occupancy",
    "C125_ideal_range",
    "C125_ideal_top",
    "C125_exact",
    "C125_close",
    "C125_shape",
    "C125_error",
    "C125_direction",
    "C125_relative",
    "C125_fixed",
    "C125_scale",
    "C125_rgb",
    "C125_circle",
    "C125_circle_range",
    "C125_flow_outcome",
    "C125_flow_error",
    "C125_flow_sizes",
    "C125_flow",
    "C125_flow_range",
    "C125_readable",
    "C125_white_refuted",
    "C125_half_refuted",
    "C125_zero_refuted"
   ],
   "note": "Pixels of occupancy and flow images are characterized, with range, scale and readability; off-white background, dark half likely vehicles and zero saturation are stated as refutations."
  },
  {
   "property": "C126",
   "status": "proved",
   "theorems": [
    "C126_color",
    "C126_dash",
    "C126_outcome",
    "C126_drawn",
    "C126_unique",
    "C126_grouped",
    "C126_marked",
    "C126_stop_sign_refuted",
    "C126_double_yellow_refuted",
    "C126_lane_width_refuted",
    "C126_same_id_refuted"
   ],
   "note": "Outcome, traces and markers are characterized; never matched enumeration tests, the missing line type and joined ids are stated as refutations."
  },
  {
   "property": "C127",
   "status": "proved",
   "theorems": [
    "C127_color",
    "C127_box",
    "C127_bad_color",
    "C127_center",
    "C127_objects",
    "C127_objects_fail",
    "C127_removed",
    "C127_one_pass_refuted",
    "C127_frame",
    "C127_map",
    "C127_map_fails",
    "C127_empty_line_refuted",
    "C127_animation"
   ],
   "note": "Rectangles cover exactly the oriented boxes, palette, outcome, map lines, removal loops and any sequence of frames; empty lines refuted by a witness. The plotting library is represented by the lines and rectangles handed to it."
  },
  {
   "property": "C128",
   "status": "proved",
   "theorems": [
    "C128_layout",
    "C128_world_to_image",
    "C128_moving_points",
    "C128_image_to_world",
    "C128_at_rest",
    "C128_shape",
    "C128_shape_moving",
    "C128_shapes_checked",
    "C128_unknown_direction",
    "C128_failures",
    "C128_there_and_back",
    "C128_velocity_width_refuted"
   ],
   "note": "Layout both ways, rows, shapes, failures and the way to the world and back at the level of tensors; unchecked velocities refuted by a witness. Float and double are one; reads outside of memory are errors in the model."
  },
  {
   "property": "C129",
   "status": "proved",
   "theorems": [
    "C129_agents",
    "C129_own_rows",
    "C129_displacement",
    "C129_displacement_diluted",
    "C129_displacement_mean_refuted",
    "C129_log_displacement",
    "C129_nearest",
    "C129_road",
    "C129_table",
    "C129_refused",
    "C129_accepted",
    "C129_rollouts",
    "C129_rollouts_outcome",
    "C129_no_rollouts",
    "C129_generated"
   ],
   "note": "Over real numbers. The kinematic extractor, the red light extractor and the order of a Python set are parameters. The mean of the displacement over the simulated steps is refuted by C129_displacement_mean_refuted; the true value is C129_displacement."
  },
  {
   "property": "C130",
   "status": "proved",
   "theorems": [
    "C130_map_rows",
    "C130_empty_map",
    "C130_default_map",
    "C130_same_color_refuted",
    "C130_semantic_pixels",
    "C130_unknown_class",
    "C130_narrow_semantic_refuted",
    "C130_panoptic_pixels",
    "C130_narrow_panoptic_refuted",
    "C130_sizes",
    "C130_instances_apart",
    "C130_clipped_iff",
    "C130_clip_refuted",
    "C130_small_type_refuted"
   ],
   "note": "The color map, semantic and panoptic coloring are exact per pixel; wrap around instead of clipping, the loss of an axis for images one pixel wide, shared default colors and narrow label types are shown as refutations."
  },
  {
   "property": "C131",
   "status": "proved",
   "theorems": [
    "C131_config",
    "C131_formatted",
    "C131_distinct",
    "C131_keys",
    "C131_order",
    "C131_values",
    "C131_all",
    "C131_lost_refuted",
    "C131_unweighted",
    "C131_stray",
    "C131_checked_refuted",
    "C131_object_weights",
    "C131_point_weights",
    "C131_defaults",
    "C131_defaults_weighted",
    "C131_sides",
    "C131_scales"
   ],
   "note": "Exact: acceptance of configurations, names of the results in order, their values, when one is lost, when batches are accepted. Defects stated as refutations: thresholds that share a formatted name, unchecked subsets, weights that are not restricted."
  },
  {
   "property": "C132",
   "status": "proved",
   "theorems": [
    "C132_checked",
    "C132_outcome",
    "C132_unique",
    "C132_no_model",
    "C132_success",
    "C132_aborted",
    "C132_crash_files",
    "C132_crash_frames",
    "C132_rerun",
    "C132_stale_refuted",
    "C132_fields_refuted"
   ],
   "note": "Exact: acceptance of outputs, outcome, files after success, error and crash at every effect, second runs. Refuted: no stale latencies after an error, input fields written as given."
  },
  {
   "property": "C133",
   "status": "proved",
   "theorems": [
    "C133_outcome",
    "C133_steps",
    "C133_occupancy",
    "C133_flow",
    "C133_chain",
    "C133_visualization"
   ],
   "note": "Exact outcome, values of every waypoint and trails in terms of the states of the scene; values at a cell inside the grid; numbers are real numbers."
  },
  {
   "property": "C134",
   "status": "proved",
   "theorems": [
    "C134_ends",
    "C134_between",
    "C134_moved",
    "C134_turned",
    "C134_still",
    "C134_still_refuted",
    "C134_return",
    "C134_apart",
    "C134_sound",
    "C134_exact",
    "C134_contact_refuted",
    "C134_single",
    "C134_single_refuted"
   ],
   "note": "Headings, invariance under moving and turning, and the overlap verdict are exact over reals; the parked car, the single position and the contact cases are refuted by witness."
  },
  {
   "property": "C135",
   "status": "proved",
   "theorems": [
    "C135_made",
    "C135_ring_refuted",
    "C135_convex",
    "C135_clockwise",
    "C135_clockwise_refuted",
    "C135_small",
    "C135_spiral_refuted",
    "C135_moved",
    "C135_rigid",
    "C135_inside",
    "C135_empty"
   ],
   "note": "Construction, bounding boxes, movements and the acceptance of convex and clockwise polygons are exact over reals; the ring, clockwise and spiral cases are refuted by witness."
  },
  {
   "property": "C136",
   "status": "proved",
   "theorems": [
    "C136_stack",
    "C136_keypoints_outcome",
    "C136_keypoints",
    "C136_boxes_refused",
    "C136_boxes",
    "C136_corners",
    "C136_observe_outcome",
    "C136_observed",
    "C136_precision",
    "C136_recall",
    "C136_fail",
    "C136_order",
    "C136_range",
    "C136_swap",
    "C136_only_visible"
   ],
   "note": "All shapes, headings and weights (none, one, per object, per keypoint) are covered over exact fractions; broadcasting of weights with dimensions of one is left out."
  },
  {
   "property": "C137",
   "status": "proved",
   "theorems": [
    "C137_accepted",
    "C137_range",
    "C137_area",
    "C137_area_unique",
    "C137_zero",
    "C137_one",
    "C137_blind",
    "C137_order",
    "C137_levels",
    "C137_rank_refuted",
    "C137_perfect",
    "C137_metrics_range",
    "C137_metrics_perfect"
   ],
   "note": "In exact real numbers; thresholds are exact fractions. The library metric is modelled from its documented behaviour for the arguments given. The claim that the value depends only on the ranking is refuted by a witness."
  },
  {
   "property": "C138",
   "status": "proved",
   "theorems": [
    "C138_series",
    "C138_events",
    "C138_total",
    "C138_published",
    "C138_challenge_smooth",
    "C138_challenge",
    "C138_no_vehicle",
    "C138_short",
    "C138_valid_enough_refuted"
   ],
   "note": "The scores are composed end to end from EstimatorModel, KinematicModel and MetametricModel; likelihoods are exact fractions, logarithms and means real numbers; features are never NaN and rounding is not modelled."
  },
  {
   "property": "C139",
   "status": "proved",
   "theorems": [
    "C139_schema",
    "C139_dataset_names",
    "C139_dataset_schema",
    "C139_dataset_agree",
    "C139_dataset_repeated",
    "C139_repeated_refuted",
    "C139_documented",
    "C139_rows"
   ],
   "note": "What values an Arrow type holds is a parameter of the theorem about rows; the dataset classes are transcribed with their types."
  },
  {
   "property": "C140",
   "status": "proved",
   "theorems": [
    "C140_cloud",
    "C140_reads",
    "C140_world",
    "C140_same_pose",
    "C140_distance",
    "C140_heads",
    "C140_centers",
    "C140_labels",
    "C140_labels_unknown",
    "C140_report",
    "C140_report_lengths",
    "C140_tensorflow_run",
    "C140_tensorflow_pixels",
    "C140_tensorflow_refuted",
    "C140_pytorch_boxes",
    "C140_pytorch_run",
    "C140_pytorch_refuted",
    "C140_features",
    "C140_features_squashed",
    "C140_saved_pixels",
    "C140_initialised",
    "C140_not_initialised",
    "C140_lidar_fields"
   ],
   "note": "Networks are arguments and numbers are real. The swapped image size of the TensorFlow 2D example and the lost detections of the PyTorch one are proved as exact boundaries with refuting witnesses."
  },
  {
   "property": "C141",
   "status": "proved",
   "theorems": [
    "C141_exists",
    "C141_accepted",
    "C141_value",
    "C141_same",
    "C141_noise_refuted"
   ],
   "note": "The random noise is an argument and numbers are real. The intent that rollouts differ is proved as an exact boundary with a refuting witness."
  },
  {
   "property": "C142",
   "status": "proved",
   "theorems": [
    "C142_exists",
    "C142_accepted",
    "C142_value",
    "C142_private",
    "C142_private_refuted",
    "C142_around_refuted",
    "C142_written"
   ],
   "note": "Full statement proved for the model; the random numbers are arguments and numbers are real. The refutations record that the vehicle of the log is taken to be the first track."
  },
  {
   "property": "C143",
   "status": "proved",
   "theorems": [
    "C143_kind",
    "C143_no_kind",
    "C143_prediction_kind",
    "C143_match",
    "C143_no_match",
    "C143_box",
    "C143_reported",
    "C143_challenge"
   ],
   "note": "Kinds, buckets, matches, boxes and reported numbers of the motion metrics, all exact. The report is stated for a single prediction at a single step."
  },
  {
   "property": "C144",
   "status": "proved",
   "theorems": [
    "C144_cameras",
    "C144_cameras_error",
    "C144_paired",
    "C144_files",
    "C144_paired_refuted",
    "C144_files_refuted",
    "C144_distance",
    "C144_lengths",
    "C144_single",
    "C144_single_refuted",
    "C144_ade",
    "C144_ade_files",
    "C144_mean",
    "C144_label",
    "C144_no_label",
    "C144_speed",
    "C144_speed_refuted"
   ],
   "note": "Exact values and errors; witnesses for calibrations of another camera, empty files, lengths that are broadcast silently and initial speeds of another frame."
  },
  {
   "property": "C145",
   "status": "proved",
   "theorems": [
    "C145_labels",
    "C145_indices",
    "C145_aligned",
    "C145_dummy",
    "C145_dummy_accepts",
    "C145_validation",
    "C145_validation_refuted",
    "C145_test_frames",
    "C145_test_frames_refuted"
   ],
   "note": "Exact labels, indices, dummy label images and submitted frames of the tutorial. Refuted: a frame whose top laser is not first is left out of the validation submission, and no test frame is ever submitted because a tuple is compared with lists."
  },
  {
   "property": "C146",
   "status": "proved",
   "theorems": [
    "C146_subsample",
    "C146_subsample_error",
    "C146_targets",
    "C146_target_times",
    "C146_sample_valid",
    "C146_batches",
    "C146_epochs",
    "C146_progress",
    "C146_images",
    "C146_images_accepts",
    "C146_animation_refuted",
    "C146_loss_counted",
    "C146_loss_zero",
    "C146_loss_refuted",
    "C146_epochs_refuted",
    "C146_progress_refuted",
    "C146_viewport",
    "C146_viewport_exists"
   ],
   "note": "Exact targets, loss, metric contents per epoch, viewport, images. Refuted: loss as a mean over counted entries, metric of a single epoch, number of samples printed, animation of all images."
  },
  {
   "property": "C147",
   "status": "proved",
   "theorems": [
    "C147_labels_read",
    "C147_order",
    "C147_order_accepts",
    "C147_front",
    "C147_padding",
    "C147_submission",
    "C147_front_refuted",
    "C147_context_refuted",
    "C147_dummy"
   ],
   "note": "Exact labels read, camera order, padding and submission entries. Refuted: the label called front is that of the front left camera; an entry may carry the name of another sequence."
  },
  {
   "property": "C148",
   "status": "proved",
   "theorems": [
    "C148_files",
    "C148_no_files",
    "C148_objects",
    "C148_ids",
    "C148_evaluation",
    "C148_evaluation_error",
    "C148_frames_refuted",
    "C148_missing_box_refuted",
    "C148_values",
    "C148_values_accepts"
   ],
   "note": "Exact objects, files, evaluation rows and values. Refuted: frames are told apart by segment; objects without camera-synced box are left out."
  },
  {
   "property": "C149",
   "status": "proved",
   "theorems": [
    "C149_observed_images",
    "C149_occluded_images_refuted",
    "C149_slices",
    "C149_flow_loss",
    "C149_loss",
    "C149_still_prediction_is_free",
    "C149_flow_reference_refuted",
    "C149_submission",
    "C149_submission_accepts"
   ],
   "note": "Closed under the global context. The flow loss is called with prediction and truth swapped and is doubled; the occluded animation shows observed images. zlib, the network and float rounding are not modelled; the cross-entropy of a cell is any function."
  },
  {
   "property": "C150",
   "status": "proved",
   "theorems": [
    "C150_keypoints",
    "C150_keypoints_distinct",
    "C150_submission",
    "C150_count",
    "C150_grid",
    "C150_ray_mask",
    "C150_frames_shown",
    "C150_mask",
    "C150_single_image_refuted",
    "C150_ray_mask_refuted"
   ],
   "note": "Closed under the global context. Defects: grid_imshow fails for a single image, _compute_ray_mask reads global variables. Files, archives, figures and float rounding are not modelled; the ray and box test is any function."
  },
  {
   "property": "C151",
   "status": "proved",
   "theorems": [
    "C151_loaded",
    "C151_lidar",
    "C151_lidar_aligned",
    "C151_projected",
    "C151_maps",
    "C151_maps_accepts",
    "C151_colour_refuted"
   ],
   "note": "Closed under the global context. Defect: the maps tutorial colours points by range under the name intensity. Reading files, drawing and float rounding are not modelled; the extraction of points and the norm are any functions."
  }
 ]
}