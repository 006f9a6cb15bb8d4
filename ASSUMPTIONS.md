# Print Assumptions for every theorem of MANIFEST.json

Generated by tools/assumptions.py from the compiled files. All axioms are of Coq's standard library.

## Closed under the global context (no axioms) — 18 theorems

C37_ignores_case_and_spaces, C37_strings, C37_integers, C37_alias, C38_documented_names_partial, C38_documented_names_refuted, C38_strings_give_valid_ellipsoids, C38_integers_partial, C38_etrs89_flattening_refuted, C39_no_arrays_or_tuples, C39_idempotent, C39_keeps_structure, C39_characterised, C39_in_place, C42_same_object, C75_shows_public_attributes, C75_repr_is_pure, C75_dict_attribute_refuted

## `ClassicalDedekindReals.sig_forall_dec` — 1 theorems

C74_local_Pvector

## `ClassicalDedekindReals.sig_forall_dec`, `FunctionalExtensionality.functional_extensionality_dep` — 30 theorems

C33_slicewise_product, C33_associative, C33_mismatch_refused_partial, C33_slices_refused, C33_column_times_matrix_refuted, C35_finite_entries, C35_nonfinite_entries, C35_symmetric, C35_reflexive, C35_monotone, C36_allclose_is_conjunction, C36_allclose_finite, C40_unique, C40_correction_is_quadratic, C44_ecef_arithmetic, C44_nvector_arithmetic, C57_add_sub_componentwise, C57_neg_componentwise, C57_mul_div_componentwise, C57_mul_nvector_refused, C57_add_commutative, C57_sub_is_add_neg, C58_explicit_parameters, C58_named_ellipsoid, C58_single_parameter_refuted, C93_scalar_inferred, C107_componentwise, C107_sub_is_add_neg, C107_neg_twice, C107_vector_laws

## `ClassicalDedekindReals.sig_forall_dec`, `ClassicalDedekindReals.sig_not_dec`, `FunctionalExtensionality.functional_extensionality_dep` — 70 theorems

C01_unit_normalises, C01_unit_nan_for_zero, C01_unit_columnwise, C02_unit_idempotent, C02_unit_scale_invariant, C03_lat_lon2n_E, C03_default_axes, C03_scalar_latitude_vector_longitude_refuted, C06_position_on_ellipsoid_normal, C06_depth_zero_is_on_the_ellipsoid, C09_delta_triangle_laws, C11_sphere_n2p, C14_euclidean_is_chord, C15_unit_normal, C15_swap, C16_intersection_partial, C16_perpendicular_refuted, C17_undefined_intersection, C18_columns_refuted, C18_three_columns_refuted, C20_pole_refuted, C20_columns_refuted, C23_reverse, C23_pole_refuted, C25_interpolate, C26_order_irrelevant, C26_zero_sum, C27_xyz2R_product, C27_zyx2R_product, C27_shapes_refused, C30_north_east_down, C32_nvector_from_R_EN, C34_one_argument, C34_several_arguments, C34_inverse, C50_base_angle, C50_unique, C52_inverse, C52_direct, C53_inverse_pointwise, C53_direct_pointwise, C53_scalar, C53_exception, C53_empty, C53_incompatible, C56_columns_are_unit_or_nan, C56_smoothing_window_is_odd, C56_smoothing_applied, C56_linear_interpolation, C56_chord_is_never_zero, C56_interpolate_method, C59_position_ignores_length, C59_north_east_down_ignores_length, C70_unit_in_place, C74_degrees_in_degrees_out, C74_degrees_scalar, C74_frame_factories, C93_default_frame, C96_three_points_refuted, C96_three_points_partial, C101_great_circle_normal, C101_intersect, C101_interpolate, C101_mean_position, C101_mean_of_cancelling_positions_refuted, C102_n_EB_E2p_EB_E, C102_delta_E, C102_n_E2R_EN, C102_direct_problem, C102_longitude_shift

## `ClassicalDedekindReals.sig_forall_dec`, `ClassicalDedekindReals.sig_not_dec`, `Classical_Prop.classic`, `FunctionalExtensionality.functional_extensionality_dep` — 299 theorems

C04_latlon_roundtrip, C05_nvector_roundtrip, C07_depth_roundtrip, C07_any_flattening, C08_position_roundtrip, C10_delta_recovers_B, C11_sphere_p2n, C12_distance_is_radius_times_angle, C12_metric, C13_pairwise_distances_refuted, C13_one_to_many_partial, C14_metric, C19_distance_to_great_circle, C19_euclidean_distance_to_plane, C19_reverse, C19_empty_method, C20_closest_point_partial, C21_on_great_circle, C21_accepts_circle, C22_decision, C22_segment_partial, C22_accepts_segment, C22_long_segment_refuted, C22_columns_refuted, C23_direct_partial, C23_default_axes, C24_azimuth_roundtrip_partial, C24_pole_refuted, C26_mean_is_unit_sum, C28_angles_xyz_roundtrip, C28_angles_zyx_roundtrip, C29_xyz_matrix_roundtrip_partial, C29_zyx_matrix_roundtrip_partial, C29_gimbal_lock_refuted, C31_wander_azimuth_frame, C31_zero_wander_is_N, C32_nvector_from_R_EL, C40_nthroot, C41_symmetric_partial, C41_frame_N_and_B_refuted, C41_not_transitive, C42_copies_are_equal, C42_not_equal, C42_no_AttributeError, C42_different_kinds, C42_incompatible_shapes_raise, C43_equality_criterion, C43_whole_turns, C43_distinct, C44_change_frame, C44_delta, C44_distance_and_azimuth, C45_delta_E, C45_antisymmetric, C45_triangle, C45_self, C46_change_frame_isometry, C46_north_east_down_components, C47_delta_L_is_rotated_delta_N, C47_zero_wander, C48_conversions_preserve_position, C48_geo_nvector_geo, C48_geo_ecef_geo, C48_scalar_stays_scalar, C49_spherical_coordinates, C49_zero_vector, C49_wide_frame_refuted, C51_great_circle_displacement_partial, C51_axes_E_refuted, C52_displace, C52_distance_and_azimuth, C52_constructors, C53_displace_pointwise, C53_displace_scalar, C53_distance_and_azimuth_pointwise, C54_euclidean, C54_great_circle_partial, C54_given_radius, C54_scalar_radius_refuted, C54_many_starts_refuted, C54_ellipsoidal, C54_ellipsoidal_converts, C55_closest_point_partial, C55_long_segment_refuted, C59_warning_iff_first_length_off, C59_lat_lon_ignores_length, C60_tiny_is_absorbed, C60_unit_divides_by_the_norm, C60_never_divides_by_zero, C61_great_circle_distance_and_azimuths, C61_sphere_courses, C61_many_points_refuted, C61_empty_method, C62_nonzero_vectors_recognised, C62_tiny_vectors_taken_for_zero_refuted, C63_great_circle, C63_euclidean, C63_empty_method, C64_on_great_circle, C65_great_circle_path, C65_segment_partial, C65_ellipsoid_partial, C65_azimuth_wrap_refuted, C66_interpolate, C66_speed_not_constant, C67_intersection_partial, C67_undefined, C67_perpendicular_refuted, C68_closest_point_partial, C68_pole_refuted, C69_mean, C71_interpolate_refuses, C71_intersect_mixed_frames_refuted, C72_only_unit_changes_an_object, C72_points_stay_in_place, C72_frames_keep_their_orientation, C72_pvectors_stay, C72_body_frame_shares_the_nvector, C72_level_frames_own_their_nvector, C73_delta_in_any_frame_leads_to_B, C73_delta_to_leads_to_B, C74_azimuth_and_elevation_in_degrees, C74_latlon_deg_in_range, C74_path_accessors, C76_norm_accuracy, C76_unit_accuracy, C77_great_circle_symmetric, C77_euclidean_symmetric, C77_zero_distance, C78_angle_accuracy, C78_great_circle_accuracy, C78_earth, C78_of_any_vectors, C79_accuracy, C79_round_trip, C79_odd, C79_monotone, C79_range, C80_base_angle, C80_pi_is_reached, C81_n_vector, C81_distance_from_radians, C81_distance_from_degrees, C81_earth, C82_euclidean_accuracy, C83_symmetric, C83_reflexive, C83_decision, C84_elevation_in_domain, C84_elevation_is_a_number, C84_axis_length_is_exact, C85_sine_accuracy, C85_pole_nan_refuted, C85_distance_accuracy, C85_earth, C86_own_points_on_circle, C86_default_tolerance_refuted, C87_conversions, C87_differences, C87_ecef_arithmetic, C87_change_frame, C87_paths, C87_new_frames, C87_nvector_arithmetic, C87_nvector_sum_refuted, C87_path_interpolate, C87_path_intersect, C87_path_closest, C87_mean, C87_displace, C88_accuracy, C88_round_trip_radians, C88_round_trip_degrees, C88_range, C88_near_pole, C88_poles, C89_accuracy, C89_from_degrees, C89_wgs84, C90_round_trip_nvector, C90_round_trip_degrees, C90_accuracy, C90_wgs84, C90_near, C91_accuracy, C91_orthonormal, C91_pole, C91_from_degrees, C92_zero, C92_antisymmetric, C92_from_degrees, C92_wgs84, C92_length, C92_azimuth, C93_default_ellipsoid, C93_default_radius, C93_default_tolerances, C93_diff_positions, C94_accuracy, C94_degrees, C94_there, C95_nvector, C95_distance, C95_degrees, C95_displace, C96_cross_track_partial, C96_cross_track_pairs_refuted, C96_on_circle_partial, C96_closest_point_on_path_refuted, C97_interpolate, C97_quarter_turn, C97_mean, C97_mean_cap, C98_closest_point, C98_intersect, C98_quarter_turn, C99_huge_vectors_vanish_refuted, C99_infinite_vectors, C99_nan_vectors, C99_ordinary_vectors, C99_tiny_vectors, C100_distance_of_mirror_images, C100_chord_of_mirror_images, C100_n_vector_of_mirror_images, C100_ecef_of_mirror_images, C100_delta_of_mirror_images, C100_cross_track_of_mirror_images, C100_cross_track_of_reversed_path, C100_closest_point_of_reversed_path, C100_distance_from_degrees, C101_great_circle_distance, C101_cross_track_distance, C101_closest_point, C102_p_EB_E2n_EB_E, C102_azimuth, C102_delta_N_any_B, C102_delta_N_of_geo_points, C103_xyz_round_trip, C103_zyx_round_trip, C103_matrices, C103_degrees, C103_near_rotation, C104_body_axes, C104_wander_axes, C104_delta_body, C104_delta_wander, C104_wgs84, C104_target, C104_seen_and_placed, C105_azimuth_a, C105_azimuth_b, C105_distance, C106_track_distance, C106_cross_track, C106_cross_track_earth, C106_on_great_circle, C108_interpolate, C108_intersect, C108_closest_point, C109_angle_decision, C109_reflexive, C109_not_symmetric, C109_symmetric_partial, C109_full_turn, C109_decision, C110_symmetric, C110_reflexive, C110_decision, C110_frame, C111_accuracy, C111_near_vertical, C111_from_degrees, C112_ends_between, C112_no_length, C112_between, C112_on_path, C112_point_path, C112_default_tolerance_refuted, C113_azimuth_deg, C113_elevation_deg, C113_distance_and_azimuth, C114_foot_on_circle, C114_closest_on_path, C115_last_column, C115_round_trip, C115_from_degrees, C116_closest_on_path, C116_interpolate, C116_intersect, C116_closest_on_circle, C116_earth, C117_azimuth, C117_sphere, C117_round_trip, C117_wgs84, C118_accuracy_partial, C118_large_refuted, C119_chord, C119_cross_track
