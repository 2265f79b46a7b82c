{
 "claims": [
  {
   "property": "C01",
   "status": "proved",
   "theorems": [
    "C01_inverse_undoes_points_and_directions",
    "C01_inverse_composes_to_unit"
   ],
   "note": "Exact real arithmetic, every affine transform with non-zero determinant."
  },
  {
   "property": "C02",
   "status": "proved",
   "theorems": [
    "C02_before_after",
    "C02_composeLR_applies_left_to_right"
   ],
   "note": "Exact real arithmetic; composeLR over every list by induction."
  },
  {
   "property": "C03",
   "status": "proved",
   "theorems": [
    "C03_rotation_fixes_its_axis",
    "C03_rotation_preserves_distance",
    "C03_rotation_preserves_orientation",
    "C03_rotation_turns_by_angle",
    "C03_rotations_add_up",
    "C03_yaw_pitch_roll",
    "C03_yawPitchRoll_rolls_first"
   ],
   "note": "Exact real arithmetic; Rotate/Yaw/Pitch/Roll/YawPitchRoll."
  },
  {
   "property": "C04",
   "status": "proved",
   "theorems": [
    "C04_translate",
    "C04_scale",
    "C04_withOrigin",
    "C04_mapBaseTo"
   ],
   "note": "Exact real arithmetic; WithOrigin acts on displacements from o."
  },
  {
   "property": "C05",
   "status": "proved",
   "theorems": [
    "C05_halton_strictly_inside_unit_interval",
    "C05_halton_never_repeats"
   ],
   "note": "Exact real arithmetic for every base and index; binary64 is covered by C07/C08."
  },
  {
   "property": "C06",
   "status": "proved",
   "theorems": [
    "C06_halton_stratified"
   ],
   "note": "Exact real arithmetic; proved for every window of b^k consecutive indices, alignment is not needed."
  },
  {
   "property": "C07",
   "status": "proved",
   "theorems": [
    "C07_float_quotient_is_exact",
    "C07_loop_walks_the_digits_and_stops",
    "C07_halton_finite_in_binary64"
   ],
   "note": "IEEE binary64 (Flocq)."
  },
  {
   "property": "C08",
   "status": "proved",
   "theorems": [
    "C08_frac_in_unit_interval",
    "C08_generate2_in_unit_square"
   ],
   "note": "IEEE binary64 (Flocq); infinite input of Frac excluded (Inf-Inf is NaN)."
  },
  {
   "property": "C09",
   "status": "proved",
   "theorems": [
    "C09_cosineSphere_unit_and_above_surface",
    "C09_tangent_frame_orthonormal"
   ],
   "note": "Exact real arithmetic."
  },
  {
   "property": "C10",
   "status": "proved",
   "theorems": [
    "C10_uniformDisk_polar"
   ],
   "note": "Exact real arithmetic."
  },
  {
   "property": "C11",
   "status": "proved",
   "theorems": [
    "C11_tiles_partition_the_image"
   ],
   "note": "Integers; every image and tile size."
  },
  {
   "property": "C12",
   "status": "proved",
   "theorems": [
    "C12_queueing_tiles_never_blocks"
   ],
   "note": "Integers; a full channel would show up as NoFuel in the model."
  },
  {
   "property": "C13",
   "status": "proved",
   "theorems": [
    "C13_scenes_render_without_races_or_gaps",
    "C13_every_schedule_renders_the_same_image",
    "C13_two_renderings_agree",
    "C13_rendering_completes"
   ],
   "note": "IEEE binary64, image sides up to 2^53, every number of workers and every interleaving of single loads and stores; image functions whose colour does not depend on the time-seeded generator. Go memory-model effects beyond interleaving are excluded by the race-freedom part. A second theorem covers whole scenes that use the time-seeded generator: no races, no deadlock, no gaps."
  },
  {
   "property": "C14",
   "status": "proved",
   "theorems": [
    "C14_image_is_the_mean_of_all_passes",
    "C14_splitting_calls_does_not_matter"
   ],
   "note": "Mean in exact real arithmetic; splitting bit for bit in binary64."
  },
  {
   "property": "C15",
   "status": "partial",
   "theorems": [
    "C15_nan_samples_ignored_refuted",
    "C15_sum_over_valid_samples_divided_by_all_partial"
   ],
   "note": "REFUTED: NaN samples are left out of the sum but counted in the divisor, so they darken the pixel (witness: one NaN and one white sample give 1/2). The exact formula is proved as the partial theorem."
  },
  {
   "property": "C16",
   "status": "partial",
   "theorems": [
    "C16_positions_differ_between_passes_refuted",
    "C16_sampled_point_partial",
    "C16_positions_exist_partial"
   ],
   "note": "REFUTED: Ctx.Init never advances the AA sequence, every pass samples the same point; proved for all inputs. The point is the pixel centre shifted by PixelSize/6."
  },
  {
   "property": "C17",
   "status": "partial",
   "theorems": [
    "C17_portrait_leaves_unit_window_refuted",
    "C17_camera_window_partial",
    "C17_no_panic_in_binary64"
   ],
   "note": "REFUTED for portrait images (v exceeds 1); absence of panics, u range, pitch, orientation and centre proved for all sizes, the v range for h <= w."
  },
  {
   "property": "C18",
   "status": "proved",
   "theorems": [
    "C18_stddev_is_unbiased_sample_deviation"
   ],
   "note": "Exact real arithmetic."
  },
  {
   "property": "C19",
   "status": "partial",
   "theorems": [
    "C19_landscape_jitter_leaves_pixel_refuted",
    "C19_jitter_inside_pixel_partial",
    "C19_actual_sample_leaves_pixel_refuted"
   ],
   "note": "REFUTED for landscape images; proved for w <= h."
  },
  {
   "property": "C20",
   "status": "proved",
   "theorems": [
    "C20_frontmost_hit_wins",
    "C20_flat_scenes_show_the_frontmost_surface",
    "C20_nothing_hit_is_black"
   ],
   "note": "IEEE binary64, every object list; NaN and negative distances included. The evaluation theorems cover flat materials and the empty view end to end."
  },
  {
   "property": "C21",
   "status": "proved",
   "theorems": [
    "C21_opaque_objects_in_between_block",
    "C21_otherwise_every_filter_in_between_applies_once",
    "C21_order_of_objects_does_not_matter",
    "C21_lights_never_occlude"
   ],
   "note": "Any number type; order independence in exact real arithmetic."
  },
  {
   "property": "C22",
   "status": "proved",
   "theorems": [
    "C22_terminates_within_the_depth_limit",
    "C22_every_scene_terminates",
    "C22_depth_is_restored",
    "C22_black_at_the_limit",
    "C22_more_fuel_changes_nothing"
   ],
   "note": "Any number type; [watched] is the evaluator with a check at the start of every nested evaluation. Termination of whole scenes in binary64 for all constructors except height fields (whose root search may loop, C43) and textures that return."
  },
  {
   "property": "C23",
   "status": "proved",
   "theorems": [
    "C23_rays_in_use_are_never_handed_out",
    "C23_evaluation_returns_all_its_rays",
    "C23_image_samples_return_all_their_rays",
    "C23_new_rays_are_zero_and_unused",
    "C23_scenes_of_constructed_objects_qualify"
   ],
   "note": "Any number type. The ray pool is a free list: sync.Pool may also drop rays, which only makes fewer rays reusable."
  },
  {
   "property": "C24",
   "status": "proved",
   "theorems": [
    "C24_intersecting_restores_the_ray",
    "C24_csg_puts_the_ray_back"
   ],
   "note": "Any number type (so also bit for bit in binary64), every object the constructors of package objects can build, every reordering done by sort.Slice."
  },
  {
   "property": "C25",
   "status": "proved",
   "theorems": [
    "C25_box_test_is_exact"
   ],
   "note": "Reals extended with infinities and NaN (unsigned zero); axis-parallel rays included."
  },
  {
   "property": "C26",
   "status": "partial",
   "theorems": [
    "C26_surface_start_is_pruned_refuted",
    "C26_interior_start_is_never_pruned"
   ],
   "note": "REFUTED: whenever the ray starts on the surface and enters the interior with no zero direction component, the reported distance is 0 and the box is pruned. Rays that start in the interior are proved never to be pruned."
  },
  {
   "property": "C27",
   "status": "proved",
   "theorems": [
    "C27_hull_box_is_tight_and_rejects_nan"
   ],
   "note": "IEEE binary64 (proved for every number type with the order laws)."
  },
  {
   "property": "C28",
   "status": "proved",
   "theorems": [
    "C28_transformed_bounds_enclose",
    "C28_transformed_bounds_are_tight"
   ],
   "note": "Reals extended with infinities and NaN; no rounding."
  },
  {
   "property": "C29",
   "status": "partial",
   "theorems": [
    "C29_unbounded_objects_cannot_be_transformed_refuted",
    "C29_bounded_objects_can_be_transformed"
   ],
   "note": "REFUTED: in binary64 every object with infinite bounds (Not, Backdrop) panics in Transformed for every transform, also the identity (0*Inf is NaN). Objects with finite bounds are proved to be transformable in exact arithmetic."
  },
  {
   "property": "C30",
   "status": "proved",
   "theorems": [
    "C30_inside_of_transformed",
    "C30_transformed_is_seen_where_the_transform_puts_it",
    "C30_transforming_twice_is_transforming_by_the_composition"
   ],
   "note": "Exact arithmetic with infinities and NaN; the ray must not start on a face plane of the box (see C26). Composition of two transforms holds in every number type."
  },
  {
   "property": "C31",
   "status": "proved",
   "theorems": [
    "C31_solids_are_point_sets",
    "C31_boolean_laws",
    "C31_a_tree_is_the_union_of_its_members"
   ],
   "note": "Any number type."
  },
  {
   "property": "C32",
   "status": "proved",
   "theorems": [
    "C32_intersection_hits",
    "C32_union_hits",
    "C32_restriction_hits",
    "C32_difference_hits"
   ],
   "note": "Exact real arithmetic; operands need to leave the ray unchanged (C24)."
  },
  {
   "property": "C33",
   "status": "proved",
   "theorems": [
    "C33_balls_report_their_crossings",
    "C33_boxes_report_their_crossings",
    "C33_a_ball_cut_with_a_box",
    "C33_intersection_finds_the_first_valid_crossing",
    "C33_union_finds_the_first_valid_crossing"
   ],
   "note": "Exact real arithmetic; operands described by their crossings. Balls and boxes are shown to have such crossings (boxes for rays along no coordinate plane), and the case of a ball cut with a box is spelled out."
  },
  {
   "property": "C34",
   "status": "proved",
   "theorems": [
    "C34_cylinder_along_any_axis",
    "C34_quadric_hits",
    "C34_normal_is_the_gradient",
    "C34_quadric_inside",
    "C34_sphere_hits",
    "C34_sphere_inside",
    "C34_cylinder_hits",
    "C34_degenerate_rays_miss"
   ],
   "note": "Exact real arithmetic, including cylinders along any axis; the degenerate case (quadratic term vanishes) is proved to miss always."
  },
  {
   "property": "C35",
   "status": "proved",
   "theorems": [
    "C35_box_of_a_given_size",
    "C35_box_hits"
   ],
   "note": "Reals extended with infinities and NaN. Near an edge the normal may be that of the neighbouring face: the code tolerates 1e-8."
  },
  {
   "property": "C36",
   "status": "partial",
   "theorems": [
    "C36_moderate_boxes_do_not_crash",
    "C36_rendering_a_box_crashes_refuted",
    "C36_exact_arithmetic_does_not_crash"
   ],
   "note": "REFUTED: absolute tolerance 1e-8 in box.normal; a box 1e8 away panics. In exact arithmetic it never panics. True part in binary64: with box corners and ray start within 2^20, direction components within 2 and one of them at least 2^-900 in magnitude, it never panics (rounding error analysis)."
  },
  {
   "property": "C37",
   "status": "proved",
   "theorems": [
    "C37_triangle_hits",
    "C37_weights_are_unique"
   ],
   "note": "Exact real arithmetic."
  },
  {
   "property": "C38",
   "status": "proved",
   "theorems": [
    "C38_tree_keeps_every_object",
    "C38_the_empty_tree_panics"
   ],
   "note": "IEEE binary64 bounds without NaN; every behaviour of sort.Slice that returns a permutation. The empty list panics."
  },
  {
   "property": "C39",
   "status": "proved",
   "theorems": [
    "C39_tree_is_brute_force",
    "C39_tree_is_exact",
    "C39_nested_trees_are_exact"
   ],
   "note": "IEEE binary64 for any tree whose boxes are hit whenever a member is, and hits below 9e99; plus, in exact arithmetic, the statement starting from the list of objects. Nested trees, whose members may answer a miss by a hit at 9e99 (C40), are covered in exact arithmetic. The miss case is C40."
  },
  {
   "property": "C40",
   "status": "partial",
   "theorems": [
    "C40_missed_leaf_reports_a_hit_refuted",
    "C40_ball_witness_refuted",
    "C40_missed_inner_tree_reports_a_miss"
   ],
   "note": "REFUTED: a tree with at most 7 members whose box is crossed but whose members are missed reports a hit at 9e99 with zero normal and no material. Trees with more members are proved to report a miss."
  },
  {
   "property": "C41",
   "status": "partial",
   "theorems": [
    "C41_tree_bounds_do_not_enclose_refuted",
    "C41_bounds_enclose_when_exact_in_single_precision"
   ],
   "note": "REFUTED: bounds are rounded to float32 to nearest, so the box can shrink; witness box [0.1,1]: the tree misses a ray that hits the box. Proved for bounds that are exact in single precision."
  },
  {
   "property": "C42",
   "status": "proved",
   "theorems": [
    "C42_parametric_surfaces_have_no_gaps",
    "C42_parametric_is_that_mesh"
   ],
   "note": "Any number type."
  },
  {
   "property": "C43",
   "status": "partial",
   "theorems": [
    "C43_bisection_brackets_the_surface",
    "C43_same_sign_is_a_miss",
    "C43_from_below_the_near_end_is_returned",
    "C43_bisection_in_double_precision",
    "C43_far_rays_never_end_refuted"
   ],
   "note": "REFUTED in double precision: a ray from 2^40 above a height field loops for ever. Bracketing proved in exact arithmetic, and in binary64 for parameters up to 2^30 (at most 131 steps). When the near end is below the surface the near end itself is returned (proved)."
  },
  {
   "property": "C44",
   "status": "proved",
   "theorems": [
    "C44_pinhole_camera_rays",
    "C44_pinhole_directions",
    "C44_other_fields_of_view_panic"
   ],
   "note": "Exact real arithmetic."
  },
  {
   "property": "C45",
   "status": "partial",
   "theorems": [
    "C45_focus_is_not_at_the_focus_distance_refuted",
    "C45_rays_of_a_pixel_meet_in_one_point"
   ],
   "note": "REFUTED: the common point lies at focal length times focus distance, so the plane of focus is at the configured distance only for one field of view. That all rays of a pixel meet in one point is proved."
  },
  {
   "property": "C46",
   "status": "proved",
   "theorems": [
    "C46_environment_rays",
    "C46_every_direction_is_seen_exactly_once"
   ],
   "note": "Exact real arithmetic."
  },
  {
   "property": "C47",
   "status": "proved",
   "theorems": [
    "C47_moving_a_camera_moves_its_rays",
    "C47_turning_is_rigid"
   ],
   "note": "Exact real arithmetic; any base camera."
  },
  {
   "property": "C48",
   "status": "proved",
   "theorems": [
    "C48_mirror_reflection"
   ],
   "note": "Exact real arithmetic."
  },
  {
   "property": "C49",
   "status": "proved",
   "theorems": [
    "C49_fresnel_reflectance_is_a_fraction",
    "C49_fresnel_formula_and_reciprocity"
   ],
   "note": "Exact real arithmetic (division by zero is 0 there; in floats grazing incidence with equal indices gives NaN)."
  },
  {
   "property": "C50",
   "status": "proved",
   "theorems": [
    "C50_transmitted_ray_obeys_snell"
   ],
   "note": "Exact real arithmetic."
  },
  {
   "property": "C51",
   "status": "proved",
   "theorems": [
    "C51_surfaces_never_create_energy"
   ],
   "note": "Exact real arithmetic; scenes without lights."
  },
  {
   "property": "C52",
   "status": "proved",
   "theorems": [
    "C52_point_light_inverse_square_law"
   ],
   "note": "Exact real arithmetic."
  },
  {
   "property": "C53",
   "status": "proved",
   "theorems": [
    "C53_rectangle_light_samples",
    "C53_disk_light_samples"
   ],
   "note": "Exact real arithmetic."
  },
  {
   "property": "C54",
   "status": "proved",
   "theorems": [
    "C54_fog_length_is_never_negative",
    "C54_division_by_zero",
    "C54_exponential_fog_never_panics",
    "C54_fog_blends"
   ],
   "note": "No-panic in binary64 for all inputs including NaN and infinities; blending in exact arithmetic."
  },
  {
   "property": "C55",
   "status": "partial",
   "theorems": [
    "C55_horizontal_rays_see_no_fog_refuted",
    "C55_fog_interval_is_the_part_below_the_ceiling_partial",
    "C55_fog_interval_ends_in_order_partial"
   ],
   "note": "REFUTED: a horizontal ray below the ceiling gets fog length 0. Proved for all other rays with infinities."
  },
  {
   "property": "C56",
   "status": "proved",
   "theorems": [
    "C56_scattering_position_is_the_exact_quantile"
   ],
   "note": "Exact real arithmetic."
  },
  {
   "property": "C57",
   "status": "proved",
   "theorems": [
    "C57_gamma_is_monotone_and_in_range",
    "C57_channels_fit_16_bits",
    "C57_channels_are_the_scaled_encoding",
    "C57_both_encoders_use_the_same_channels"
   ],
   "note": "Range in binary64 for every input and any Pow; the rest in exact real arithmetic."
  },
  {
   "property": "C58",
   "status": "partial",
   "theorems": [
    "C58_bright_colors_do_not_round_trip_refuted",
    "C58_round_trip_partial"
   ],
   "note": "REFUTED: the encoder's constant is 1.055 c^(1/2.4) without subtracting 0.055, clipped to 1, so bright colors do not decode to themselves (0.99 becomes 1). Exact below 0.0031308; above, the decoded value is between c and c + 12/1055."
  },
  {
   "property": "C59",
   "status": "proved",
   "theorems": [
    "C59_ascii_decodes_to_the_image"
   ],
   "note": "Binary64 pixels, any Pow."
  },
  {
   "property": "C60",
   "status": "proved",
   "theorems": [
    "C60_binary_decodes_to_the_image"
   ],
   "note": "Binary64 pixels, any Pow."
  },
  {
   "property": "C61",
   "status": "partial",
   "theorems": [
    "C61_binary_encoder_drops_errors_refuted",
    "C61_ascii_encoder_reports_every_failure",
    "C61_binary_encoder_partial"
   ],
   "note": "REFUTED for Encode48BE, which drops the errors of Write for pixel data (any pixel color, a writer failing after the header). EncodeAscii16 is proved to report every failure."
  },
  {
   "property": "C62",
   "status": "proved",
   "theorems": [
    "C62_pixels_are_independent",
    "C62_copies_share_nothing",
    "C62_negative_sizes_stop_the_program"
   ],
   "note": "Any pixel type. Copy is stated for images with at least one pixel."
  },
  {
   "property": "C63",
   "status": "proved",
   "theorems": [
    "C63_convolution_adds_the_weighted_sum",
    "C63_light_away_from_the_border_is_conserved"
   ],
   "note": "Exact real arithmetic; any kernel size."
  },
  {
   "property": "C64",
   "status": "partial",
   "theorems": [
    "C64_small_stars_give_NaN_refuted",
    "C64_zero_radii_change_nothing",
    "C64_the_input_is_left_alone",
    "C64_finite_pixels_if_the_kernel_sum_is_not_zero_partial",
    "C64_kernel_sums_are_positive_except_for_small_stars"
   ],
   "note": "REFUTED: a star bloom with a radius below 4 pixels has an all-zero kernel and turns the image into NaN. For kernels with non-zero sum finite input gives finite output (no overflow modelled), the sums of all other kernels are proved positive, and the input is never changed."
  },
  {
   "property": "C65",
   "status": "partial",
   "theorems": [
    "C65_infinite_coordinates_panic_refuted",
    "C65_finite_coordinates_never_panic",
    "C65_value_is_between_the_neighbours",
    "C65_lookup_is_periodic",
    "C65_stored_colour_at_pixels"
   ],
   "note": "REFUTED for infinite coordinates, which index out of range. Finite coordinates never panic in binary64; values, periodicity and stored colors in exact real arithmetic. Coordinate 1 shows column 0, so the last column and row are never shown exactly."
  },
  {
   "property": "C66",
   "status": "proved",
   "theorems": [
    "C66_nearest_never_panics_on_the_unit_square",
    "C66_nearest_is_the_closest_pixel"
   ],
   "note": "Binary64, sizes up to 2^52; closeness in exact real arithmetic."
  },
  {
   "property": "C67",
   "status": "proved",
   "theorems": [
    "C67_checkers_alternate",
    "C67_the_cell_decides"
   ],
   "note": "Exact real arithmetic."
  },
  {
   "property": "C68",
   "status": "partial",
   "theorems": [
    "C68_defaults_can_be_unusable_refuted",
    "C68_defaults_partial",
    "C68_idempotent_without_debug_backdrop_partial",
    "C68_defaults_never_panic"
   ],
   "note": "REFUTED: width 1 without a height gives height 0; and with debug normals, a backdrop gets another material when defaults are applied twice. Everything else is proved, for sizes up to 2^52 and non-negative fields."
  },
  {
   "property": "C69",
   "status": "partial",
   "theorems": [
    "C69_no_channel_is_closed_twice",
    "C69_two_bakes_on_one_sampler_refuted",
    "C69_bakes_in_progress_partial"
   ],
   "note": "REFUTED: bake, cancel, bake of the same view: the second bake samples on the sampler that the first one is still using. No channel is closed twice in any interleaving; the number of simultaneous bakes is at most one more than the number of cancel requests, so without cancels at most one."
  },
  {
   "property": "C70",
   "status": "proved",
   "theorems": [
    "C70_passes_accumulate_per_view",
    "C70_every_request_is_answered"
   ],
   "note": "Sequential requests; views compared by equality (Go's == also equates 0 and -0). What the passes compute is C13-C15 and C73."
  },
  {
   "property": "C71",
   "status": "partial",
   "theorems": [
    "C71_at_most_one_bake_in_flight",
    "C71_accepted_bakes_are_current",
    "C71_displayed_images_are_current_partial",
    "C71_displayed_images_are_current_refuted"
   ],
   "note": "REFUTED: in a window less than eight pixels high the preview is empty, and the bake of the previous view is repainted. At most one bake in flight, and that no bake is accepted for another view, are proved for all event sequences; that every displayed image belongs to the current view is proved when previews are not empty."
  },
  {
   "property": "C72",
   "status": "partial",
   "theorems": [
    "C72_pitch_stays_within_a_quarter_turn",
    "C72_modes_stay_in_range",
    "C72_divisors",
    "C72_divisors_decrease_until_the_view_changes_partial",
    "C72_divisor_increases_at_closing_refuted"
   ],
   "note": "REFUTED only in the last part: closing the window resets the resolution without a change of view, so one more coarse bake may be requested. Pitch (float64, finite mouse coordinates, any Pi >= 0), modes, divisor values are proved for all event sequences, the decrease of divisors for all without a closing of the window."
  },
  {
   "property": "C73",
   "status": "proved",
   "theorems": [
    "C73_passes_are_counted_up",
    "C73_final_image_is_the_mean_of_all_passes"
   ],
   "note": "The camera, sampler and encoders are parameters. The mean of all passes is proved in exact arithmetic for deterministic image functions."
  },
  {
   "property": "C74",
   "status": "partial",
   "theorems": [
    "C74_ppm_files_are_emptied_first_refuted",
    "C74_failed_encodings_leave_files_alone",
    "C74_save_results_partial"
   ],
   "note": "REFUTED for savePPM, which empties the file before encoding: on a full disk the old file is lost. savef is proved to leave everything alone when encoding fails."
  },
  {
   "property": "C75",
   "status": "proved",
   "theorems": [
    "C75_ply_files_round_trip",
    "C75_words_and_numerals"
   ],
   "note": "Exact characterisation of the accepted texts, in both directions; strconv.ParseFloat is a parameter, and memory for the declared numbers must be available."
  },
  {
   "property": "C76",
   "status": "partial",
   "theorems": [
    "C76_unterminated_last_line_refuted",
    "C76_appending_changes_nothing"
   ],
   "note": "REFUTED: an unterminated last line is dropped, so a file whose last face lacks the newline is rejected. Proved: appending a newline, or anything else, to an accepted file changes nothing."
  },
  {
   "property": "C77",
   "status": "proved",
   "theorems": [
    "C77_obj_files",
    "C77_one_bad_line_is_an_error",
    "C77_indices_below_1_are_rejected",
    "C77_final_newline_is_optional"
   ],
   "note": "Exact characterisation of the accepted texts, in both directions, including the 64 KiB limit on lines; strconv.ParseFloat (32 bits) is a parameter. Comments need a space after the number sign. Files may or may not end in a newline."
  },
  {
   "property": "C78",
   "status": "partial",
   "theorems": [
    "C78_crash_and_dangling_indices_refuted",
    "C78_malformed_input_is_an_error",
    "C78_obj_indices_not_negative"
   ],
   "note": "REFUTED: a declared vertex count of 11000000000000 is passed to make and ends the process when memory runs out, which recover cannot intercept; and indices of faces are not compared with the number of vertices by either parser. Proved: no text crashes the OBJ parser, nor the PLY parser if there is memory; all malformed texts are errors. Out-of-range indices make the mesh constructor panic (C94)."
  },
  {
   "property": "C79",
   "status": "partial",
   "theorems": [
    "C79_deep_scenes_are_not_reproducible_refuted",
    "C79_shallow_scenes_are_reproducible",
    "C79_rendering_is_reproducible_refuted",
    "C79_reproducible_without_deep_recursion_partial"
   ],
   "note": "REFUTED: an image function using the level-3 generator renders differently under different generator states (seeded from the clock in NewCtx). The second refutation renders a real scene at recursion depth 3. Reproducibility proved for image functions that do not use it, and for all scenes up to recursion depth 2 without a lens, bit for bit."
  },
  {
   "property": "C80",
   "status": "partial",
   "theorems": [
    "C80_negative_depth_never_stops_refuted",
    "C80_other_depths_stop_partial"
   ],
   "note": "REFUTED: with RecursionDepth -1 a mirror never stops recursing (for every ray and random sequence). Depths >= the current one are proved to stop."
  },
  {
   "property": "C81",
   "status": "proved",
   "theorems": [
    "C81_isometric_camera_rays",
    "C81_isometric_frames_are_right_handed"
   ],
   "note": "Exact real arithmetic."
  },
  {
   "property": "C82",
   "status": "proved",
   "theorems": [
    "C82_evaluation_is_the_light_along_the_ray",
    "C82_contexts_of_the_sampler_qualify",
    "C82_balls_and_backdrops_qualify"
   ],
   "note": "Exact real arithmetic. As there is no infinite real number, +Inf in the code is an arbitrary positive number beyond which nothing is seen. Scenes with media are covered by C54-C56 only."
  },
  {
   "property": "C83",
   "status": "proved",
   "theorems": [
    "C83_direct_light_is_lambertian",
    "C83_unshadowed_point_light"
   ],
   "note": "Exact real arithmetic; area lights via C53."
  },
  {
   "property": "C84",
   "status": "proved",
   "theorems": [
    "C84_sunlight"
   ],
   "note": "Exact real arithmetic; targets on the near side of the disk."
  },
  {
   "property": "C85",
   "status": "partial",
   "theorems": [
    "C85_phantom_hit_panics_refuted",
    "C85_sound_scenes_never_panic_partial"
   ],
   "note": "REFUTED: see C40, the hit has no material and shading it dereferences nil. Scenes of objects whose hits have normals and materials are proved not to panic (exact arithmetic)."
  },
  {
   "property": "C86",
   "status": "proved",
   "theorems": [
    "C86_loading_flips_the_picture"
   ],
   "note": "image.Decode is not modelled; its result is an arbitrary function."
  },
  {
   "property": "C87",
   "status": "proved",
   "theorems": [
    "C87_fisheye_is_equidistant"
   ],
   "note": "Exact real arithmetic. Directions below the horizon see the same picture as those above."
  },
  {
   "property": "C88",
   "status": "partial",
   "theorems": [
    "C88_lost_images_are_reported_refuted",
    "C88_ppm_files_partial"
   ],
   "note": "REFUTED: the error of the deferred Flush is dropped, so up to 4096 bytes can be missing from a file that was reported as saved (always the case for small images on a full disk)."
  },
  {
   "property": "C90",
   "status": "proved",
   "theorems": [
    "C90_frames_go_to_their_own_files"
   ],
   "note": "PNG and JPEG encoders are parameters. Creating the directory is not modelled."
  },
  {
   "property": "C93",
   "status": "proved",
   "theorems": [
    "C93_views_move_the_camera_of_the_scene"
   ],
   "note": "Exact real arithmetic."
  },
  {
   "property": "C89",
   "status": "partial",
   "theorems": [
    "C89_responses_show_another_view_refuted",
    "C89_own_view_without_cancels_partial"
   ],
   "note": "REFUTED: after a cancel and a bake of another view, the first bake returns the image of the other view (with no samples in it). Without cancel requests the own view is proved for every interleaving."
  },
  {
   "property": "C91",
   "status": "partial",
   "theorems": [
    "C91_cancelled_bakes_go_on_refuted",
    "C91_cancel_admits_the_next_bake_partial"
   ],
   "note": "REFUTED: SampleWithCancel ignores its channel; the cancelled bake runs to the end and returns its image. Proved: cancels never fail, and the next bake is accepted."
  },
  {
   "property": "C96",
   "status": "partial",
   "theorems": [
    "C96_one_bad_request_blocks_the_server_refuted",
    "C96_renderable_views_are_never_refused_partial"
   ],
   "note": "REFUTED: the panic happens after s.cancel is set and leaves it set, so every later bake is answered with 'already baking' until someone sends a cancel request. Renderable views are never refused in sequential use."
  },
  {
   "property": "C92",
   "status": "partial",
   "theorems": [
    "C92_viewer_survives_partial",
    "C92_viewer_survives_refuted"
   ],
   "note": "REFUTED: about two thousand steps of zooming out in the isometric view make the field of view infinite, which encoding/json refuses and fetchHTTP answers with a panic; also a second dead event. Proved for up to 2^27 events with coordinates up to 2^20, at most 1000 wheel turns and one closing, for any sin and cos with values in [-1,1] and Pi in [0,4]."
  },
  {
   "property": "C97",
   "status": "proved",
   "theorems": [
    "C97_left_alone_the_full_picture_appears"
   ],
   "note": "In four turns of the loop for every reachable state; the view must be encodable as JSON (see C92)."
  },
  {
   "property": "C94",
   "status": "proved",
   "theorems": [
    "C94_ply_file_shows_its_faces",
    "C94_obj_file_shows_its_faces",
    "C94_ply_file_failures",
    "C94_obj_file_failures"
   ],
   "note": "What is shown: exact real arithmetic, boxes of the tree as exact. Failures: every number type of the model."
  },
  {
   "property": "C95",
   "status": "proved",
   "theorems": [
    "C95_mesh_hits",
    "C95_parallelogram_hits",
    "C95_rectangle_hits",
    "C95_disk_hits",
    "C95_triangle_hits"
   ],
   "note": "Exact real arithmetic; bounding boxes of the tree are taken as exact (the code rounds them to float32). The reported distance when nothing is hit is C40."
  },
  {
   "property": "C98",
   "status": "proved",
   "theorems": [
    "C98_bounds_contain_the_solid",
    "C98_primitives_contain_their_points",
    "C98_hits_lie_in_the_bounds"
   ],
   "note": "Points: IEEE binary64. Hits: exact real arithmetic, for objects assembled from quadrics and boxes."
  },
  {
   "property": "C99",
   "status": "proved",
   "theorems": [
    "C99_wrappers_change_only_the_looks"
   ],
   "note": "For every number type of the model, IEEE binary64 included."
  },
  {
   "property": "C100",
   "status": "partial",
   "theorems": [
    "C100_two_sided_triangle_has_nan_normals_refuted",
    "C100_cancelling_normals_are_nan_refuted",
    "C100_shading_normals",
    "C100_faces_on_one_side_have_unit_normals_on_that_side",
    "C100_bad_triangles_do_not_spoil_their_neighbours"
   ],
   "note": "REFUTED: a triangle listed with both orientations is hit with a NaN normal (binary64), and generally so whenever the face normals at a corner cancel. Proved: the normal is the unit vector of the sum otherwise, degenerate faces contribute nothing, and faces on one side of a plane give a unit normal on that side."
  },
  {
   "property": "C101",
   "status": "proved",
   "theorems": [
    "C101_centers",
    "C101_centers_of_unbounded_boxes",
    "C101_with_center",
    "C101_with_center_bottom",
    "C101_scale_about_the_center",
    "C101_rotate_about_the_center",
    "C101_and_not_and_remove"
   ],
   "note": "Exact real arithmetic; objects are those reached from a finite box by any sequence of invertible affine maps."
  },
  {
   "property": "C102",
   "status": "partial",
   "theorems": [
    "C102_scale_to_size_exceeds_the_size_refuted",
    "C102_scale_to_size_sets_the_width"
   ],
   "note": "REFUTED: only the width is looked at. A box of 1 x 2 x 1 scaled to size 1 stays 2 high, and a flat object in the yz plane panics. Proved: the width becomes the given size, all sides by the same factor, and the centre stays."
  },
  {
   "property": "C103",
   "status": "proved",
   "theorems": [
    "C103_rigid_motions_do_not_inflate_boxes"
   ],
   "note": "Exact real arithmetic."
  },
  {
   "property": "C104",
   "status": "proved",
   "theorems": [
    "C104_a_sample_depends_on_sequences_and_generator_only",
    "C104_a_shallow_sample_uses_no_generator"
   ],
   "note": "Any number type, so bit for bit in binary64."
  },
  {
   "property": "C105",
   "status": "proved",
   "theorems": [
    "C105_pixels_are_means_of_the_light_along_camera_rays",
    "C105_rendering_completes",
    "C105_cameras_qualify"
   ],
   "note": "Exact real arithmetic; a panic inside a worker ends the process and is modelled as a black sample in sceneFunc, which the theorem excludes by showing that the light is defined. Objects are those proved exact (sound_object), no media."
  },
  {
   "property": "C106",
   "status": "proved",
   "theorems": [
    "C106_pixels_are_no_brighter_than_the_emitters"
   ],
   "note": "Exact real arithmetic."
  },
  {
   "property": "C107",
   "status": "proved",
   "theorems": [
    "C107_the_first_two_surfaces_get_even_numbers_jointly",
    "C107_every_pixel_has_its_numbers",
    "C107_coprime_bases_fill_the_square_evenly",
    "C107_every_cell_gets_its_share"
   ],
   "note": "Exact real arithmetic (the float64 values are within the bounds of C08 and C11). Beyond the second surface the code uses the pseudo-random generator."
  },
  {
   "property": "C108",
   "status": "proved",
   "theorems": [
    "C108_pixels_tend_to_the_integral",
    "C108_samples_are_a_function_of_the_numbers",
    "C108_continuous_functions_have_iterated_integrals"
   ],
   "note": "Exact real arithmetic. The integral is that of Darboux over the unit cube; for continuous functions it is the iterated Riemann integral. The limit is in the number of passes; the position of the sample within the pixel is the same in all passes (C16)."
  },
  {
   "property": "C109",
   "status": "proved",
   "theorems": [
    "C109_scattered_directions_follow_the_cosine_law",
    "C109_disk_points_are_uniform"
   ],
   "note": "Exact real arithmetic; integrals are those of Coquelicot."
  },
  {
   "property": "C110",
   "status": "proved",
   "theorems": [
    "C110_matte_surfaces_tend_to_the_cosine_average",
    "C110_balls_under_the_sky"
   ],
   "note": "Exact real arithmetic; recursion depth 2, the light at the second surface (the sky) being emitted. The offset by which scattered rays are lifted off the surface is taken into account."
  },
  {
   "property": "C111",
   "status": "partial",
   "theorems": [
    "C111_at_most_one_rendering_runs",
    "C111_the_latest_version_is_rendered_partial",
    "C111_the_latest_version_is_rendered_refuted"
   ],
   "note": "REFUTED: a version saved with the same modification time as the one being compiled (same tick of the file system's clock) is never rendered. At most one rendering runs, always; the latest version is rendered whenever its modification time differs from the earlier ones."
  },
  {
   "property": "C112",
   "status": "partial",
   "theorems": [
    "C112_watching_goes_on_partial",
    "C112_watching_goes_on_refuted",
    "C112_failed_start_crashes_refuted",
    "C112_nothing_happens_after_the_end"
   ],
   "note": "REFUTED: a failing os.Stat, e.g. while an editor replaces the file, ends the watcher and leaves the rendering running; a failing Start dereferences the nil cmd.Process. As long as the file exists and processes can be started it goes on."
  },
  {
   "property": "C113",
   "status": "partial",
   "theorems": [
    "C113_number_of_points_partial",
    "C113_number_of_points_refuted"
   ],
   "note": "REFUTED: the upper limit is s*(i+n) instead of i+s*n, so with a stride and a first index more points are printed. At least n points are printed, exactly n if i = 0 or s = 1, and they are the right ones."
  },
  {
   "property": "C114",
   "status": "partial",
   "theorems": [
    "C114_spheres_do_not_meet_their_own_rays",
    "C114_spheres_do_not_shadow_themselves",
    "C114_distant_spheres_do_not_shadow_themselves_refuted"
   ],
   "note": "REFUTED without bounds: a sphere of diameter 1 seen from a distance of 264644 shadows itself, since the error of the hit point exceeds the offset of 8e-7. Within 256 of the origin and for diameters from 1 to 512 no sphere does, whatever the ray, light or scattered direction (up to 2^-20 below the tangent plane). The normal is the one used when the surface is seen from outside."
  },
  {
   "property": "C115",
   "status": "partial",
   "theorems": [
    "C115_normalised_vectors_have_length_one",
    "C115_all_vectors_can_be_normalised_refuted"
   ],
   "note": "REFUTED at extremes: (2^-600,0,0) becomes infinite, (2^600,2^600,2^600) becomes zero. With components up to 2^400, one of them at least 2^-400, the squared length is within 100 ulp/2 of 1 and each component within 8 of the exact one."
  },
  {
   "property": "C116",
   "status": "proved",
   "theorems": [
    "C116_gaussian_bloom_is_a_bell_curve_of_the_distance",
    "C116_airy_bloom_is_made_of_rings_of_each_wavelength",
    "C116_star_bloom_has_eight_rays_of_the_radius"
   ],
   "note": "Exact real arithmetic; J1 is a parameter. Stars of fewer than four pixels give NaN (C64)."
  },
  {
   "property": "C117",
   "status": "proved",
   "theorems": [
    "C117_FrontT_is_the_nearest_ahead",
    "C117_Frontmost_is_the_nearest_ahead"
   ],
   "note": "IEEE binary64, NaN and infinities included."
  },
  {
   "property": "C118",
   "status": "partial",
   "theorems": [
    "C118_normalised_rays_are_accepted",
    "C118_rays_of_length_one_are_accepted",
    "C118_rays_of_other_lengths_are_rejected",
    "C118_accepted_rays_have_length_one_refuted",
    "C118_hits_with_NaN_are_rejected",
    "C118_hits_with_numbers_are_accepted",
    "C118_rejected_hits_contain_NaN_refuted"
   ],
   "note": "REFUTED at NaN and infinities: CheckRay accepts a direction of NaNs, CheckHit panics on infinities of opposite signs. Proved in binary64: normalised rays are accepted, finite directions are accepted or rejected by length with the tolerance 1e-9 (rejection for components up to 2^400), every hit with a NaN is rejected, hits with numbers up to 2^990 are accepted. The calls of both are commented out in scene.go."
  },
  {
   "property": "C119",
   "status": "proved",
   "theorems": [
    "C119_trees_cut_the_longest_extent_in_halves",
    "C119_insertion_sort_sorts"
   ],
   "note": "IEEE binary64. sort.Slice is any function that returns a sorted permutation (insertion sort is one)."
  },
  {
   "property": "C120",
   "status": "proved",
   "theorems": [
    "C120_fog_veils_the_light_of_surfaces",
    "C120_there_is_one_part_below_the_ceiling"
   ],
   "note": "Exact real arithmetic. The far distance is any positive number. Horizontal rays see no fog (C55). A light sends no light to the very point where it is (1/0 = 0 in the real numbers); transformed lights carry true inverses; Fog has positive density."
  },
  {
   "property": "C121",
   "status": "proved",
   "theorems": [
    "C121_fog_samples_tend_to_the_scattered_light",
    "C121_pixels_tend_to_dimmed_light_plus_scattered_light",
    "C121_a_lamp_in_the_fog"
   ],
   "note": "Exact real arithmetic; integrals are those of Coquelicot. One Fog in the scene; the surface shows the same colour in all passes."
  },
  {
   "property": "C122",
   "status": "proved",
   "theorems": [
    "C122_grid_lines",
    "C122_pan_moves_the_picture",
    "C122_scale_stretches_the_picture"
   ],
   "note": "Exact real arithmetic."
  },
  {
   "property": "C123",
   "status": "partial",
   "theorems": [
    "C123_keys_move_along_the_picture_partial",
    "C123_forward_goes_sideways_refuted",
    "C123_steps",
    "C123_other_keys",
    "C123_wheel"
   ],
   "note": "REFUTED for scenes whose own camera is turned (C123_forward_goes_sideways_refuted): api/view.go turns the scene's camera further, cmd/bruteray-view/main.go moves as if it had looked along -Z; with a camera turned by 90 degrees the key Up moves sideways. The true part, for cameras that were only translated, is C123_keys_move_along_the_picture_partial, C123_steps, C123_other_keys and C123_wheel. Exact real arithmetic."
  },
  {
   "property": "C124",
   "status": "proved",
   "theorems": [
    "C124_the_picture_follows_the_mouse",
    "C124_dragging_sideways_turns_about_the_vertical",
    "C124_dragging_upwards_tilts",
    "C124_never_upside_down",
    "C124_axis_keys",
    "C124_zoom",
    "C124_pictures_along_an_axis_stand_still",
    "C124_pictures_along_an_axis_have_a_size",
    "C124_normals_cycle"
   ],
   "note": "Exact real arithmetic; mouse coordinates are not rounded to float32. C72 has the limit of the pitch in double precision."
  },
  {
   "property": "C125",
   "status": "proved",
   "theorems": [
    "C125_rectangle_light_looks_bright_from_below",
    "C125_disk_light_looks_bright_from_below"
   ],
   "note": "Exact arithmetic with infinities; to32 is the identity. Rays parallel to the lamp or inside a plane through a border are excluded."
  },
  {
   "property": "C126",
   "status": "partial",
   "theorems": [
    "C126_flat_lamps_shine",
    "C126_moved_lamps_shine_partial",
    "C126_lamps_can_be_moved",
    "C126_point_lights_cannot_be_moved_refuted",
    "C126_stretched_lamps_are_too_dark_refuted"
   ],
   "note": "REFUTED for point lights, which cannot be transformed (C126_point_lights_cannot_be_moved_refuted), and for scaling that differs between directions (C126_stretched_lamps_are_too_dark_refuted; the comment in transformed.go excludes it). The true part, for area lights and similarity transformations, is C126_flat_lamps_shine, C126_moved_lamps_shine_partial and C126_lamps_can_be_moved. Exact real arithmetic."
  },
  {
   "property": "C127",
   "status": "proved",
   "theorems": [
    "C127_the_window_is_up_to_date",
    "C127_exposed_windows_are_redrawn"
   ],
   "note": "For every number type, rounding and trigonometry. A picture is represented by the request it answers; drawing itself is not modelled."
  },
  {
   "property": "C128",
   "status": "proved",
   "theorems": [
    "C128_lit_surfaces_tend_to_the_direct_light_plus_the_cosine_average",
    "C128_balls_under_a_rectangle_light",
    "C128_balls_under_a_disk_light",
    "C128_light_below_the_middle_of_a_disk",
    "C128_balls_under_the_sky_and_a_point_light"
   ],
   "note": "Exact real arithmetic, recursion depth 2. Lamp points and the shaded point are the offset ones of the code (Tiny above the lamp and the surface). ninf stands for +Inf: at most 9e99 for area lights (their mesh reports misses of a box at 9e99), at least 1e99 under a sky. The ball is the only object besides lamp and sky, so nothing else casts shadows; the general form leaves the direct light as a hypothesis."
  },
  {
   "property": "C129",
   "status": "partial",
   "theorems": [
    "C129_rectangles_have_pinholes_refuted",
    "C129_triangles_are_closed_off_their_edges",
    "C129_triangles_end_at_their_edges"
   ],
   "note": "REFUTED for rectangles (C129_rectangles_have_pinholes_refuted): a vertical ray through the middle half of a unit square at (0.1, 0.2, 0.3) misses both triangles where they meet, and the mesh reports a surface beyond 1e98 instead (C40). The true part: with a margin of 2^(3i-31) in barycentric weights (C129_triangles_are_closed_off_their_edges, C129_triangles_end_at_their_edges) hits and misses are right, with rounding errors of 2^(k+i-42) in the distance and four margins in texture coordinates. The shading normal in double precision is not covered."
  },
  {
   "property": "C130",
   "status": "partial",
   "theorems": [
    "C130_Diff_is_proportional_to_the_mean_deviation",
    "C130_passed_tests_bound_every_pixel",
    "C130_without_tolerance_pictures_must_be_equal",
    "C130_Diff_exceeds_one_refuted",
    "C130_Diff_ignores_what_lies_outside_the_first_picture_refuted",
    "C130_rmsError_shrinks_with_the_size",
    "C130_rmsError_is_not_the_rms_error_refuted"
   ],
   "note": "REFUTED: the value for a black and a white pixel is 64.25, not 1 (C130_Diff_exceeds_one_refuted), as channels of 16 bit are divided by 255 and the width stands for the height; what lies outside of the first picture is ignored (C130_Diff_ignores_what_lies_outside_the_first_picture_refuted); rmsError divides by N instead of sqrt N (C130_rmsError_is_not_the_rms_error_refuted). The true part: Diff is a known multiple of the mean deviation, and the other theorems of C130. Exact real arithmetic except C130_without_tolerance_pictures_must_be_equal (binary64)."
  },
  {
   "property": "C131",
   "status": "partial",
   "theorems": [
    "C131_test_spheres_are_spheres",
    "C131_test_spheres_are_missed_from_their_surface_refuted",
    "C131_test_sheets_are_horizontal_planes",
    "C131_rays_inside_a_test_sheet_hit_at_NaN_refuted",
    "C131_test_lights_do_not_shadow_themselves",
    "C131_test_checkers_are_squares",
    "C131_a_test_checker_is_twice_as_wide_refuted",
    "C131_test_normals_show_the_cosine"
   ],
   "note": "REFUTED for rays that start on the test sphere (C131_test_spheres_are_missed_from_their_surface_refuted), rays inside a sheet in binary64, which hit at NaN (C131_rays_inside_a_test_sheet_hit_at_NaN_refuted), and checkers beyond -5000 (C131_a_test_checker_is_twice_as_wide_refuted). The other theorems of C131 are the true parts, in exact real arithmetic."
  },
  {
   "property": "C132",
   "status": "partial",
   "theorems": [
    "C132_high_floors_catch_their_own_rays_refuted",
    "C132_points_are_lifted_off_the_floor",
    "C132_floors_do_not_shade_themselves",
    "C132_low_floors_let_their_rays_go"
   ],
   "note": "REFUTED for high floors (C132_high_floors_catch_their_own_rays_refuted): the box of a 10 x 10 floor at height 70.3 is rounded to float32 and lies above the lifted point, so scattered rays that leave the floor cross the box and get the phantom hit of C40 with the floor's material. The true part: the starting points of shadow rays (lifted once) and scattered rays (lifted twice) are 7.9e-7 to 1.66e-6 off the floor; neither triangle is ever hit again, so the only possible report is the phantom beyond 1e98, which casts no shadow; low floors (height at most 16 for shadow rays, 32 for scattered rays) report a miss for directions with no component below 2^-500."
  },
  {
   "property": "C133",
   "status": "proved",
   "theorems": [
    "C133_scattered_directions",
    "C133_grazing_directions",
    "C133_inexact_sines_make_nan",
    "C133_balls_let_scattered_rays_go",
    "C133_floors_let_scattered_rays_go"
   ],
   "note": "Sine and cosine are parameters: fair_trig asks that the squares add up to 1 within 2^-40 (any angle), sharp_trig that they add up to at most (1 + 2^-53)^2, which correctly rounded results satisfy. With fair_trig v is at most 1 - 2^-30; with sharp_trig every v below 1. C133_inexact_sines_make_nan shows that some such condition is needed: with a sum of 1 + 2^-50 the direction is NaN for v = 1 - 2^-53. Go's own sine and cosine are not modelled. Balls are hit from outside."
  },
  {
   "property": "C134",
   "status": "proved",
   "theorems": [
    "C134_camera_rays_have_length_one",
    "C134_camera_rays_pass_the_check"
   ],
   "note": "Sine and cosine are parameters: accurate_trig asks that the squares add up to 1 within 2^-50 and that the sine of pi and the cosine of pi/2 are small. Camera parameters between 2^-100 and 2^100 (the focus distance may be 0), image positions up to 4; isometric cameras of any size. The bound is 6100 * 2^-53 per rotation."
  },
  {
   "property": "C135",
   "status": "partial",
   "theorems": [
    "C135_quarter_turns_are_exact",
    "C135_rotated_base_vectors",
    "C135_three_quarter_turns_are_exact_refuted"
   ],
   "note": "REFUTED for three quarters of a turn: util.Sin and util.Cos make exceptions for pi, -pi, pi/2 and -pi/2 only, so a yaw by 3*pi/2 is as inexact as math.Cos (C135_three_quarter_turns_are_exact_refuted exhibits a sine and cosine with the accuracy assumed here; Go's give -1.8e-16 as well). True: the turns by 0, +-90 and +-180 degrees are exact for every direction, and at any angle the base vectors go exactly to the computed sine and cosine."
  },
  {
   "property": "C136",
   "status": "partial",
   "theorems": [
    "C136_descending_rays_hit_the_surface",
    "C136_rays_outside_the_box_miss",
    "C136_ascending_rays_start_at_the_box",
    "C136_inside_is_below_the_surface",
    "C136_bad_heights_are_reported",
    "C136_rays_through_the_surface_hit_it_refuted"
   ],
   "note": "REFUTED: bisection looks at the ends of the ray's stretch inside the box only, so a ray that goes through a ridge and leaves above the surface misses it (C136_rays_through_the_surface_hit_it_refuted). The true part: rays that enter above and leave below hit the surface (C136_descending_rays_hit_the_surface); rays that enter below it hit the side of the box (C136_ascending_rays_start_at_the_box). Exact arithmetic with infinities; starting points off the planes of the bounding box."
  },
  {
   "property": "C137",
   "status": "proved",
   "theorems": [
    "C137_mirrors_keep_length",
    "C137_mirror_chains_keep_length",
    "C137_mirror_chains_are_accepted",
    "C137_glass_keeps_length",
    "C137_glass_rays_are_accepted"
   ],
   "note": "reflect and refract are the functions the materials call (C48, C50); the normal is normalised by LightField, as in the statement. The bounds are 2000 * 2^-53 per reflection and 150000 * 2^-53 for refraction. Where total reflection happens the ray is a mirror ray."
  },
  {
   "property": "C138",
   "status": "partial",
   "theorems": [
    "C138_glass_shares_the_light",
    "C138_coatings_share_the_light",
    "C138_grazing_rays_share_the_light_refuted"
   ],
   "note": "REFUTED for exactly grazing rays between equal indices, where both shares are 0/0 (C138_grazing_rays_share_the_light_refuted). True for every ray whose cosine with the normal is at least 2^-1000. Coatings (materials.Fresnel) are covered for bodies at least as dense as the outside; below 1 the root of a negative number is taken."
  },
  {
   "property": "C139",
   "status": "proved",
   "theorems": [
    "C139_glowing_scenes_have_no_bad_colours",
    "C139_pixels_stay_in_range"
   ],
   "note": "Holds whatever the objects report (also NaN distances), since a surface only passes on colours that other rays returned. A run that stops with a panic counts as a black sample in the model of the sampler; in Go it ends the program. Lamps and glass are excluded: a lamp's light is divided by a squared distance, and glass returns NaN for exactly grazing rays (C138)."
  },
  {
   "property": "C140",
   "status": "proved",
   "theorems": [
    "C140_exposure_is_exact",
    "C140_exposure_can_be_undone",
    "C140_exposures_add",
    "C140_one_more_doubles",
    "C140_white_is_neutral",
    "C140_named_colours",
    "C140_lights_and_filters"
   ],
   "note": "math.Pow(2, n) is assumed exact for |n| <= 1000, which Go's implementation (Frexp, repeated squaring, Ldexp) is. Out of range results are excluded (roomy: the result of a nonzero channel is between 2^-1000 and 2^1000)."
  },
  {
   "property": "C141",
   "status": "proved",
   "theorems": [
    "C141_lamplit_scenes_have_no_bad_colours",
    "C141_balls_under_lamps",
    "C141_pixels_under_lamps_stay_in_range"
   ],
   "note": "The bound 2^(k+60+depth) is generous; the point is that it is finite and does not depend on the number of rays. The sum of squares of math.Sin and math.Cos is assumed to be within the range that correct rounding gives, and the random numbers stay below 1, as Go's do. Thick fog, area lights and glass are excluded (glass: C138). Isometric cameras start their rays 4096 units away and are excluded from the theorem on pixels. A run that stops with a panic counts as a black sample in the model of the sampler."
  },
  {
   "property": "C142",
   "status": "partial",
   "theorems": [
    "C142_curve_has_a_step_refuted",
    "C142_slope_partial",
    "C142_slope_at_the_joint"
   ],
   "note": "REFUTED at one point: LinearToSRGB subtracts 0.05 where the sRGB standard has 0.055, so the curve jumps by 0.005 at c = 0.0031308 and has no slope there (C142_curve_has_a_step_refuted). C142_slope_partial proves the rest, C142_slope_at_the_joint that the value at the joint is the slope from the left. SRGBSlope is only called from commented-out code."
  },
  {
   "property": "C143",
   "status": "partial",
   "theorems": [
    "C143_gray_of_gray_refuted",
    "C143_gray_of_gray_is_near",
    "C143_gray_stays_in_range",
    "C143_gray_is_the_mean",
    "C143_max_is_the_brightest_channel"
   ],
   "note": "REFUTED for Gray(v).Gray() == v: (v+v+v)/3 differs from v by one bit for about a sixth of all v. The companion theorems give the error bound, the range, the mean in exact arithmetic, and Max."
  },
  {
   "property": "C144",
   "status": "proved",
   "theorems": [
    "C144_image_is_the_mean_up_to_rounding"
   ],
   "note": "IEEE binary64, all schedules of the worker goroutines (sampleCall). NaN samples cannot occur here as samples are at most 2^900 in magnitude."
  },
  {
   "property": "C145",
   "status": "partial",
   "theorems": [
    "C145_uniform_picture_refuted",
    "C145_after_one_pass_refuted",
    "C145_variance_up_to_rounding_partial",
    "C145_noisy_pixels_partial"
   ],
   "note": "REFUTED: after one pass every pixel is NaN (0 * Inf; C145_after_one_pass_refuted), and a picture that is 0.7 in all of five passes has deviation NaN, as n * sum of squares - square of sum is rounded to a negative number (C145_uniform_picture_refuted). True for two passes and more: the variance is a number within an error proportional to the sum of the squares (C145_variance_up_to_rounding_partial), so where the true variance exceeds this error the deviation is a positive number with the right square (C145_noisy_pixels_partial)."
  },
  {
   "property": "C146",
   "status": "proved",
   "theorems": [
    "C146_lookups_interpolate_up_to_rounding"
   ],
   "note": "IEEE binary64. Infinite and NaN coordinates are in C65. A position is compared with the requested one up to whole periods (near_position)."
  },
  {
   "property": "C147",
   "status": "proved",
   "theorems": [
    "C147_pixel_positions_are_accurate",
    "C147_pixels_stay_in_order",
    "C147_pixels_stay_in_the_window"
   ],
   "note": "IEEE binary64; the exact statement is C17 (portrait pictures leave the window there, too)."
  },
  {
   "property": "C148",
   "status": "proved",
   "theorems": [
    "C148_boxes_do_not_meet_their_own_rays",
    "C148_boxes_do_not_shadow_themselves"
   ],
   "note": "Rays from inside the box, whose normal the scene flips to point inwards, are outside the statement. Larger coordinates are left out: box.normal may panic there (C36)."
  },
  {
   "property": "C149",
   "status": "proved",
   "theorems": [
    "C149_capped_cylinders_are_solid",
    "C149_capped_cylinder_hits"
   ],
   "note": "Exact real arithmetic. Within 1e-7 of the rim the tolerance of box.normal may choose a side normal of the box, so nothing is claimed about the normal there. That no nearer crossing is missed is C151."
  },
  {
   "property": "C150",
   "status": "proved",
   "theorems": [
    "C150_isnan_is_having_no_length"
   ],
   "note": "For the version with one component NaN, both directions matter: no square or sum of squares of numbers is NaN, and no NaN is lost."
  },
  {
   "property": "C151",
   "status": "partial",
   "theorems": [
    "C151_rays_through_a_capped_cylinder_hit_it_refuted",
    "C151_rays_through_a_capped_cylinder_hit_it"
   ],
   "note": "REFUTED: looked at straight along the x axis, a tin 2 wide and 6 high is not there, since the point where the mantle is hit is on the border of the box and Inside is strict. True part, in exact arithmetic: away from those four lines and the rims every such ray hits, no later than the solid begins."
  },
  {
   "property": "C152",
   "status": "proved",
   "theorems": [
    "C152_inside_is_membership",
    "C152_rays_see_the_surface",
    "C152_nothing_is_passed_unseen",
    "C152_coinciding_surfaces_are_not_seen"
   ],
   "note": "Exact arithmetic. Only balls and boxes are transformed, not solids cut out of them. CsgSpec.v defines solids as sets of points and their surfaces; build (CsgTrees.v) makes the corresponding object. C152_coinciding_surfaces_are_not_seen shows that the condition on common surface points is needed; compare C151."
  },
  {
   "property": "C153",
   "status": "partial",
   "theorems": [
    "C153_solids_of_many_parts_are_seen_refuted",
    "C153_solids_of_few_parts_are_seen"
   ],
   "note": "REFUTED by 51 slices of a beam, of which only the last is kept: the time-to-live of 100 steps runs out and the ray misses, in double precision, with all surfaces half a unit apart. True part: up to 49 boxes and the one they are cut with (C153_solids_of_few_parts_are_seen, exact arithmetic; C152 for other shapes)."
  },
  {
   "property": "C154",
   "status": "partial",
   "theorems": [
    "C154_frac_is_below_one_refuted",
    "C154_frac_is_close_to_the_fractional_part"
   ],
   "note": "REFUTED by x = -2^-60, for which x - floor(x) rounds to 1. True part: the result is finite, within [0,1] and within 2^-53 of the exact fractional part for every finite argument (C154_frac_is_close_to_the_fractional_part); C08 proves < 1 for arguments that are not negative, as in the sequences; texture coordinates (texture/assets.go, interpolation.go) can be negative."
  }
 ]
}