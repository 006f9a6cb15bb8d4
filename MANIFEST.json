{
 "claims": [
  {
   "property": "C01",
   "status": "proved",
   "theorems": [
    "C01_unit_normalises",
    "C01_unit_nan_for_zero",
    "C01_unit_columnwise"
   ],
   "note": ""
  },
  {
   "property": "C02",
   "status": "proved",
   "theorems": [
    "C02_unit_idempotent",
    "C02_unit_scale_invariant"
   ],
   "note": ""
  },
  {
   "property": "C03",
   "status": "partial",
   "theorems": [
    "C03_lat_lon2n_E",
    "C03_default_axes",
    "C03_scalar_latitude_vector_longitude_refuted"
   ],
   "note": "Proved for latitude of length n and longitude scalar or of length n (n >= 1), any orthogonal R_Ee. For a scalar latitude with a longitude vector the code raises ValueError (C03_scalar_latitude_vector_longitude_refuted), so the full documented domain does not hold."
  },
  {
   "property": "C04",
   "status": "proved",
   "theorems": [
    "C04_latlon_roundtrip"
   ],
   "note": ""
  },
  {
   "property": "C05",
   "status": "proved",
   "theorems": [
    "C05_nvector_roundtrip"
   ],
   "note": ""
  },
  {
   "property": "C06",
   "status": "proved",
   "theorems": [
    "C06_position_on_ellipsoid_normal",
    "C06_depth_zero_is_on_the_ellipsoid"
   ],
   "note": ""
  },
  {
   "property": "C07",
   "status": "proved",
   "theorems": [
    "C07_depth_roundtrip",
    "C07_any_flattening"
   ],
   "note": "C07_depth_roundtrip: uniform depth bound for e^2 <= 1/2 (f <= 0.29; every real ellipsoid). C07_any_flattening: every 0 <= f < 1, pointwise condition."
  },
  {
   "property": "C08",
   "status": "proved",
   "theorems": [
    "C08_position_roundtrip"
   ],
   "note": ""
  },
  {
   "property": "C09",
   "status": "proved",
   "theorems": [
    "C09_delta_triangle_laws"
   ],
   "note": ""
  },
  {
   "property": "C10",
   "status": "proved",
   "theorems": [
    "C10_delta_recovers_B"
   ],
   "note": "For ellipsoids with e^2 = f(2-f) <= 1/2 (f <= 0.29; every real ellipsoid)."
  },
  {
   "property": "C11",
   "status": "proved",
   "theorems": [
    "C11_sphere_n2p",
    "C11_sphere_p2n"
   ],
   "note": ""
  },
  {
   "property": "C12",
   "status": "proved",
   "theorems": [
    "C12_distance_is_radius_times_angle",
    "C12_metric"
   ],
   "note": ""
  },
  {
   "property": "C13",
   "status": "partial",
   "theorems": [
    "C13_pairwise_distances_refuted",
    "C13_one_to_many_partial"
   ],
   "note": "The claim is false of the code: for A of n >= 2 columns C13_pairwise_distances_refuted proves that n*n numbers come back. Proved instead: one A against n positions B."
  },
  {
   "property": "C14",
   "status": "proved",
   "theorems": [
    "C14_euclidean_is_chord",
    "C14_metric"
   ],
   "note": ""
  },
  {
   "property": "C15",
   "status": "proved",
   "theorems": [
    "C15_unit_normal",
    "C15_swap"
   ],
   "note": ""
  },
  {
   "property": "C16",
   "status": "partial",
   "theorems": [
    "C16_intersection_partial",
    "C16_perpendicular_refuted"
   ],
   "note": "Proved whenever the crossing line is not perpendicular to A1. In exactly the complementary case C16_perpendicular_refuted proves that the zero vector is returned, so nothing is missing except what is false."
  },
  {
   "property": "C17",
   "status": "proved",
   "theorems": [
    "C17_undefined_intersection"
   ],
   "note": ""
  },
  {
   "property": "C18",
   "status": "partial",
   "theorems": [
    "C18_columns_refuted",
    "C18_three_columns_refuted"
   ],
   "note": "False of the code: for 2 or more than 3 columns it raises ValueError (proved for every number of columns), and for exactly 3 the components are mixed up (witness)."
  },
  {
   "property": "C19",
   "status": "proved",
   "theorems": [
    "C19_distance_to_great_circle",
    "C19_euclidean_distance_to_plane",
    "C19_reverse",
    "C19_empty_method"
   ],
   "note": ""
  },
  {
   "property": "C20",
   "status": "partial",
   "theorems": [
    "C20_closest_point_partial",
    "C20_pole_refuted",
    "C20_columns_refuted"
   ],
   "note": "Proved for every B that is not a pole of the circle. At the poles C20_pole_refuted proves for every circle that the result is not on it; for k >= 2, k <> 3 columns C20_columns_refuted proves ValueError."
  },
  {
   "property": "C21",
   "status": "proved",
   "theorems": [
    "C21_on_great_circle",
    "C21_accepts_circle"
   ],
   "note": ""
  },
  {
   "property": "C22",
   "status": "partial",
   "theorems": [
    "C22_decision",
    "C22_segment_partial",
    "C22_accepts_segment",
    "C22_long_segment_refuted",
    "C22_columns_refuted"
   ],
   "note": "C22_decision states exactly what is decided; the segment reading is proved for paths < 120 degrees, completeness for all; for every path >= 120 degrees C22_long_segment_refuted gives an accepted point off the segment; several paths raise ValueError (C22_columns_refuted)."
  },
  {
   "property": "C23",
   "status": "partial",
   "theorems": [
    "C23_direct_partial",
    "C23_default_axes",
    "C23_reverse",
    "C23_pole_refuted"
   ],
   "note": "Proved off the poles for every orthonormal axes and at the poles when the first axis is not inclined towards the pole (the default axes). For axes 'E' at the pole C23_pole_refuted proves the result is not a unit vector."
  },
  {
   "property": "C24",
   "status": "partial",
   "theorems": [
    "C24_azimuth_roundtrip_partial",
    "C24_pole_refuted"
   ],
   "note": "Proved off the poles. At the North pole (default axes) C24_pole_refuted proves the azimuth comes back a quarter turn off."
  },
  {
   "property": "C25",
   "status": "proved",
   "theorems": [
    "C25_interpolate"
   ],
   "note": ""
  },
  {
   "property": "C26",
   "status": "proved",
   "theorems": [
    "C26_mean_is_unit_sum",
    "C26_order_irrelevant",
    "C26_zero_sum"
   ],
   "note": ""
  },
  {
   "property": "C27",
   "status": "proved",
   "theorems": [
    "C27_xyz2R_product",
    "C27_zyx2R_product",
    "C27_shapes_refused"
   ],
   "note": ""
  },
  {
   "property": "C28",
   "status": "proved",
   "theorems": [
    "C28_angles_xyz_roundtrip",
    "C28_angles_zyx_roundtrip"
   ],
   "note": ""
  },
  {
   "property": "C29",
   "status": "partial",
   "theorems": [
    "C29_xyz_matrix_roundtrip_partial",
    "C29_zyx_matrix_roundtrip_partial",
    "C29_gimbal_lock_refuted"
   ],
   "note": "Proved for every rotation not in gimbal lock (middle angle +-90 degrees with the entry exactly +-1); in gimbal lock C29_gimbal_lock_refuted gives a one-parameter family that comes back changed."
  },
  {
   "property": "C30",
   "status": "proved",
   "theorems": [
    "C30_north_east_down"
   ],
   "note": ""
  },
  {
   "property": "C31",
   "status": "proved",
   "theorems": [
    "C31_wander_azimuth_frame",
    "C31_zero_wander_is_N"
   ],
   "note": ""
  },
  {
   "property": "C32",
   "status": "proved",
   "theorems": [
    "C32_nvector_from_R_EN",
    "C32_nvector_from_R_EL"
   ],
   "note": ""
  },
  {
   "property": "C33",
   "status": "partial",
   "theorems": [
    "C33_slicewise_product",
    "C33_associative",
    "C33_mismatch_refused_partial",
    "C33_slices_refused",
    "C33_column_times_matrix_refuted"
   ],
   "note": "Everything except 'mismatched inner dimensions raise': proved when neither inner dimension is 1; a column times a matrix is accepted and multiplied by the column sums (C33_column_times_matrix_refuted)."
  },
  {
   "property": "C34",
   "status": "proved",
   "theorems": [
    "C34_one_argument",
    "C34_several_arguments",
    "C34_inverse"
   ],
   "note": ""
  },
  {
   "property": "C35",
   "status": "proved",
   "theorems": [
    "C35_finite_entries",
    "C35_nonfinite_entries",
    "C35_symmetric",
    "C35_reflexive",
    "C35_monotone"
   ],
   "note": ""
  },
  {
   "property": "C36",
   "status": "proved",
   "theorems": [
    "C36_allclose_is_conjunction",
    "C36_allclose_finite"
   ],
   "note": ""
  },
  {
   "property": "C37",
   "status": "proved",
   "theorems": [
    "C37_ignores_case_and_spaces",
    "C37_strings",
    "C37_integers",
    "C37_alias"
   ],
   "note": ""
  },
  {
   "property": "C38",
   "status": "partial",
   "theorems": [
    "C38_documented_names_partial",
    "C38_documented_names_refuted",
    "C38_strings_give_valid_ellipsoids",
    "C38_integers_partial",
    "C38_etrs89_flattening_refuted"
   ],
   "note": "Names: all documented ones except five (11, 13, 17, 18, 19) are accepted, these five raise KeyError (C38_documented_names_refuted). Integer 19 has f = 298.26 (C38_etrs89_flattening_refuted)."
  },
  {
   "property": "C39",
   "status": "proved",
   "theorems": [
    "C39_no_arrays_or_tuples",
    "C39_idempotent",
    "C39_keeps_structure",
    "C39_characterised",
    "C39_in_place"
   ],
   "note": ""
  },
  {
   "property": "C40",
   "status": "proved",
   "theorems": [
    "C40_nthroot",
    "C40_unique",
    "C40_correction_is_quadratic"
   ],
   "note": ""
  },
  {
   "property": "C41",
   "status": "partial",
   "theorems": [
    "C41_symmetric_partial",
    "C41_frame_N_and_B_refuted",
    "C41_not_transitive"
   ],
   "note": "Symmetry proved for all pairs of objects except a FrameB compared with a FrameN/FrameL; for that pair C41_frame_N_and_B_refuted proves asymmetry."
  },
  {
   "property": "C42",
   "status": "proved",
   "theorems": [
    "C42_same_object",
    "C42_copies_are_equal",
    "C42_not_equal",
    "C42_no_AttributeError",
    "C42_different_kinds",
    "C42_incompatible_shapes_raise"
   ],
   "note": ""
  },
  {
   "property": "C43",
   "status": "proved",
   "theorems": [
    "C43_equality_criterion",
    "C43_whole_turns",
    "C43_distinct"
   ],
   "note": ""
  },
  {
   "property": "C44",
   "status": "proved",
   "theorems": [
    "C44_ecef_arithmetic",
    "C44_nvector_arithmetic",
    "C44_change_frame",
    "C44_delta",
    "C44_distance_and_azimuth"
   ],
   "note": ""
  },
  {
   "property": "C45",
   "status": "proved",
   "theorems": [
    "C45_delta_E",
    "C45_antisymmetric",
    "C45_triangle",
    "C45_self"
   ],
   "note": ""
  },
  {
   "property": "C46",
   "status": "proved",
   "theorems": [
    "C46_change_frame_isometry",
    "C46_north_east_down_components"
   ],
   "note": ""
  },
  {
   "property": "C47",
   "status": "proved",
   "theorems": [
    "C47_delta_L_is_rotated_delta_N",
    "C47_zero_wander"
   ],
   "note": ""
  },
  {
   "property": "C48",
   "status": "proved",
   "theorems": [
    "C48_conversions_preserve_position",
    "C48_geo_nvector_geo",
    "C48_geo_ecef_geo",
    "C48_scalar_stays_scalar"
   ],
   "note": ""
  },
  {
   "property": "C49",
   "status": "partial",
   "theorems": [
    "C49_spherical_coordinates",
    "C49_zero_vector",
    "C49_wide_frame_refuted"
   ],
   "note": "Proved for all widths with a consistent scalar flag; C49_wide_frame_refuted: changing a scalar vector to a frame at several positions keeps the flag and only the first is reported."
  },
  {
   "property": "C50",
   "status": "proved",
   "theorems": [
    "C50_base_angle",
    "C50_unique"
   ],
   "note": ""
  },
  {
   "property": "C51",
   "status": "partial",
   "theorems": [
    "C51_great_circle_displacement_partial",
    "C51_axes_E_refuted"
   ],
   "note": "Proved for frames whose z axis points to the North pole (axes 'e', the default). C51_axes_E_refuted: for axes 'E' the displacement goes the wrong way, R_Ee is not passed on."
  },
  {
   "property": "C52",
   "status": "proved",
   "theorems": [
    "C52_inverse",
    "C52_direct",
    "C52_displace",
    "C52_distance_and_azimuth",
    "C52_constructors"
   ],
   "note": ""
  },
  {
   "property": "C53",
   "status": "proved",
   "theorems": [
    "C53_inverse_pointwise",
    "C53_direct_pointwise",
    "C53_scalar",
    "C53_exception",
    "C53_empty",
    "C53_displace_pointwise",
    "C53_displace_scalar",
    "C53_distance_and_azimuth_pointwise",
    "C53_incompatible"
   ],
   "note": ""
  },
  {
   "property": "C54",
   "status": "partial",
   "theorems": [
    "C54_euclidean",
    "C54_great_circle_partial",
    "C54_given_radius",
    "C54_scalar_radius_refuted",
    "C54_many_starts_refuted",
    "C54_ellipsoidal",
    "C54_ellipsoidal_converts"
   ],
   "note": "All methods proved for one starting position; two findings: a scalar radius returns only the first distance, two or more starting positions raise ValueError."
  },
  {
   "property": "C55",
   "status": "partial",
   "theorems": [
    "C55_closest_point_partial",
    "C55_long_segment_refuted"
   ],
   "note": "Proved for segments < 120 degrees and query points that are not poles of the circle; for longer segments refuted (C55_long_segment_refuted), for poles see C68_pole_refuted."
  },
  {
   "property": "C56",
   "status": "proved",
   "theorems": [
    "C56_columns_are_unit_or_nan",
    "C56_smoothing_window_is_odd",
    "C56_smoothing_applied",
    "C56_linear_interpolation",
    "C56_chord_is_never_zero",
    "C56_interpolate_method"
   ],
   "note": ""
  },
  {
   "property": "C57",
   "status": "proved",
   "theorems": [
    "C57_add_sub_componentwise",
    "C57_neg_componentwise",
    "C57_mul_div_componentwise",
    "C57_mul_nvector_refused",
    "C57_add_commutative",
    "C57_sub_is_add_neg"
   ],
   "note": ""
  },
  {
   "property": "C58",
   "status": "partial",
   "theorems": [
    "C58_explicit_parameters",
    "C58_named_ellipsoid",
    "C58_single_parameter_refuted"
   ],
   "note": "Explicit (a, f) and names proved; FrameE(a=x) alone is false of the code: x is silently ignored."
  },
  {
   "property": "C59",
   "status": "proved",
   "theorems": [
    "C59_warning_iff_first_length_off",
    "C59_position_ignores_length",
    "C59_north_east_down_ignores_length",
    "C59_lat_lon_ignores_length"
   ],
   "note": ""
  },
  {
   "property": "C60",
   "status": "proved",
   "theorems": [
    "C60_tiny_is_absorbed",
    "C60_unit_divides_by_the_norm",
    "C60_never_divides_by_zero"
   ],
   "note": ""
  },
  {
   "property": "C61",
   "status": "partial",
   "theorems": [
    "C61_great_circle_distance_and_azimuths",
    "C61_sphere_courses",
    "C61_many_points_refuted",
    "C61_empty_method"
   ],
   "note": "Proved for a single starting point; for n >= 2 starting points C61_many_points_refuted proves ValueError."
  },
  {
   "property": "C62",
   "status": "partial",
   "theorems": [
    "C62_nonzero_vectors_recognised",
    "C62_tiny_vectors_taken_for_zero_refuted"
   ],
   "note": "The bound is exact up to a factor of 2: magnitudes >= 2^-537 are recognised, magnitudes <= 2^-538 are taken for zero."
  },
  {
   "property": "C63",
   "status": "proved",
   "theorems": [
    "C63_great_circle",
    "C63_euclidean",
    "C63_empty_method"
   ],
   "note": ""
  },
  {
   "property": "C64",
   "status": "proved",
   "theorems": [
    "C64_on_great_circle"
   ],
   "note": ""
  },
  {
   "property": "C65",
   "status": "partial",
   "theorems": [
    "C65_great_circle_path",
    "C65_segment_partial",
    "C65_ellipsoid_partial",
    "C65_azimuth_wrap_refuted"
   ],
   "note": "Great circle: exact decision for all tolerances; segment reading for segments < 120 degrees (false above, see C22). Ellipsoid: exact decision relative to what the geodesic solver returns; C65_azimuth_wrap_refuted shows azimuths on both sides of +-180 are not identified."
  },
  {
   "property": "C66",
   "status": "proved",
   "theorems": [
    "C66_interpolate",
    "C66_speed_not_constant"
   ],
   "note": ""
  },
  {
   "property": "C67",
   "status": "partial",
   "theorems": [
    "C67_intersection_partial",
    "C67_undefined",
    "C67_perpendicular_refuted"
   ],
   "note": "Proved unless the crossing points are 90 degrees from A; then the zero vector is returned (C67_perpendicular_refuted). Undefined crossings: NaN with a warning (C67_undefined)."
  },
  {
   "property": "C68",
   "status": "partial",
   "theorems": [
    "C68_closest_point_partial",
    "C68_pole_refuted"
   ],
   "note": "Proved for query points that are not poles of the great circle; for poles C68_pole_refuted."
  },
  {
   "property": "C69",
   "status": "proved",
   "theorems": [
    "C69_mean"
   ],
   "note": ""
  },
  {
   "property": "C70",
   "status": "proved",
   "theorems": [
    "C70_unit_in_place"
   ],
   "note": ""
  },
  {
   "property": "C71",
   "status": "partial",
   "theorems": [
    "C71_interpolate_refuses",
    "C71_intersect_mixed_frames_refuted"
   ],
   "note": "interpolate refuses, intersect does not (C71_intersect_mixed_frames_refuted)."
  },
  {
   "property": "C72",
   "status": "proved",
   "theorems": [
    "C72_only_unit_changes_an_object",
    "C72_points_stay_in_place",
    "C72_frames_keep_their_orientation",
    "C72_pvectors_stay",
    "C72_body_frame_shares_the_nvector",
    "C72_level_frames_own_their_nvector"
   ],
   "note": ""
  },
  {
   "property": "C73",
   "status": "proved",
   "theorems": [
    "C73_delta_in_any_frame_leads_to_B",
    "C73_delta_to_leads_to_B"
   ],
   "note": ""
  },
  {
   "property": "C74",
   "status": "proved",
   "theorems": [
    "C74_degrees_in_degrees_out",
    "C74_degrees_scalar",
    "C74_azimuth_and_elevation_in_degrees",
    "C74_latlon_deg_in_range",
    "C74_frame_factories",
    "C74_local_Pvector",
    "C74_path_accessors"
   ],
   "note": ""
  },
  {
   "property": "C75",
   "status": "partial",
   "theorems": [
    "C75_shows_public_attributes",
    "C75_repr_is_pure",
    "C75_dict_attribute_refuted"
   ],
   "note": "Display and purity proved for all objects; purity for attributes containing dicts is false (C75_dict_attribute_refuted)."
  },
  {
   "property": "C76",
   "status": "proved",
   "theorems": [
    "C76_norm_accuracy",
    "C76_unit_accuracy"
   ],
   "note": ""
  },
  {
   "property": "C77",
   "status": "proved",
   "theorems": [
    "C77_great_circle_symmetric",
    "C77_euclidean_symmetric",
    "C77_zero_distance"
   ],
   "note": ""
  },
  {
   "property": "C78",
   "status": "proved",
   "theorems": [
    "C78_angle_accuracy",
    "C78_great_circle_accuracy",
    "C78_earth",
    "C78_of_any_vectors"
   ],
   "note": ""
  },
  {
   "property": "C79",
   "status": "proved",
   "theorems": [
    "C79_accuracy",
    "C79_round_trip",
    "C79_odd",
    "C79_monotone",
    "C79_range"
   ],
   "note": ""
  },
  {
   "property": "C80",
   "status": "proved",
   "theorems": [
    "C80_base_angle",
    "C80_pi_is_reached"
   ],
   "note": ""
  },
  {
   "property": "C81",
   "status": "proved",
   "theorems": [
    "C81_n_vector",
    "C81_distance_from_radians",
    "C81_distance_from_degrees",
    "C81_earth"
   ],
   "note": ""
  },
  {
   "property": "C82",
   "status": "proved",
   "theorems": [
    "C82_euclidean_accuracy"
   ],
   "note": ""
  },
  {
   "property": "C83",
   "status": "proved",
   "theorems": [
    "C83_symmetric",
    "C83_reflexive",
    "C83_decision"
   ],
   "note": ""
  },
  {
   "property": "C84",
   "status": "proved",
   "theorems": [
    "C84_elevation_in_domain",
    "C84_elevation_is_a_number",
    "C84_axis_length_is_exact"
   ],
   "note": ""
  },
  {
   "property": "C85",
   "status": "partial",
   "theorems": [
    "C85_sine_accuracy",
    "C85_pole_nan_refuted",
    "C85_distance_accuracy",
    "C85_earth"
   ],
   "note": "Accuracy proved for all points off the poles of the great circle; at a pole the distance can be NaN (C85_pole_nan_refuted)."
  },
  {
   "property": "C86",
   "status": "partial",
   "theorems": [
    "C86_own_points_on_circle",
    "C86_default_tolerance_refuted"
   ],
   "note": "Proved for sufficient tolerances (C86_own_points_on_circle); false with the default tolerance for short paths (C86_default_tolerance_refuted)."
  },
  {
   "property": "C87",
   "status": "partial",
   "theorems": [
    "C87_conversions",
    "C87_differences",
    "C87_ecef_arithmetic",
    "C87_change_frame",
    "C87_paths",
    "C87_new_frames",
    "C87_nvector_arithmetic",
    "C87_nvector_sum_refuted",
    "C87_path_interpolate",
    "C87_path_intersect",
    "C87_path_closest",
    "C87_mean",
    "C87_displace"
   ],
   "note": "All classes of calls proved; only Nvector arithmetic, which reads the stored (possibly unnormalised) vector, is sensitive to an earlier in-place unit() (C87_nvector_sum_refuted)."
  },
  {
   "property": "C88",
   "status": "proved",
   "theorems": [
    "C88_accuracy",
    "C88_round_trip_radians",
    "C88_round_trip_degrees",
    "C88_range",
    "C88_near_pole",
    "C88_poles"
   ],
   "note": ""
  },
  {
   "property": "C89",
   "status": "proved",
   "theorems": [
    "C89_accuracy",
    "C89_from_degrees",
    "C89_wgs84"
   ],
   "note": ""
  },
  {
   "property": "C90",
   "status": "proved",
   "theorems": [
    "C90_round_trip_nvector",
    "C90_round_trip_degrees",
    "C90_accuracy",
    "C90_wgs84",
    "C90_near"
   ],
   "note": ""
  },
  {
   "property": "C91",
   "status": "proved",
   "theorems": [
    "C91_accuracy",
    "C91_orthonormal",
    "C91_pole",
    "C91_from_degrees"
   ],
   "note": ""
  },
  {
   "property": "C92",
   "status": "proved",
   "theorems": [
    "C92_zero",
    "C92_antisymmetric",
    "C92_from_degrees",
    "C92_wgs84",
    "C92_length",
    "C92_azimuth"
   ],
   "note": ""
  },
  {
   "property": "C93",
   "status": "proved",
   "theorems": [
    "C93_default_frame",
    "C93_default_ellipsoid",
    "C93_default_radius",
    "C93_default_tolerances",
    "C93_scalar_inferred",
    "C93_diff_positions"
   ],
   "note": ""
  },
  {
   "property": "C94",
   "status": "proved",
   "theorems": [
    "C94_accuracy",
    "C94_degrees",
    "C94_there"
   ],
   "note": ""
  },
  {
   "property": "C95",
   "status": "proved",
   "theorems": [
    "C95_nvector",
    "C95_distance",
    "C95_degrees",
    "C95_displace"
   ],
   "note": ""
  },
  {
   "property": "C96",
   "status": "partial",
   "theorems": [
    "C96_cross_track_partial",
    "C96_cross_track_pairs_refuted",
    "C96_on_circle_partial",
    "C96_three_points_refuted",
    "C96_three_points_partial",
    "C96_closest_point_on_path_refuted"
   ],
   "note": "What the functions compute for every n and m is proved (C96_*_partial, entry i*m+j belongs to path i and position j, which is the documented answer when n = 1 or m = 1); the documented pairing for n = m > 1 and several positions in the closest-point functions are refuted (C96_*_refuted)."
  },
  {
   "property": "C97",
   "status": "proved",
   "theorems": [
    "C97_interpolate",
    "C97_quarter_turn",
    "C97_mean",
    "C97_mean_cap"
   ],
   "note": ""
  },
  {
   "property": "C98",
   "status": "proved",
   "theorems": [
    "C98_closest_point",
    "C98_intersect",
    "C98_quarter_turn"
   ],
   "note": ""
  },
  {
   "property": "C99",
   "status": "partial",
   "theorems": [
    "C99_huge_vectors_vanish_refuted",
    "C99_infinite_vectors",
    "C99_nan_vectors",
    "C99_ordinary_vectors",
    "C99_tiny_vectors"
   ],
   "note": "C76 and C62 cover the ordinary and tiny vectors. The first sentence is refuted for every finite column with a component >= 2^512 (C99_huge_vectors_vanish_refuted); the infinite and NaN cases are proved."
  },
  {
   "property": "C100",
   "status": "proved",
   "theorems": [
    "C100_distance_of_mirror_images",
    "C100_chord_of_mirror_images",
    "C100_n_vector_of_mirror_images",
    "C100_ecef_of_mirror_images",
    "C100_delta_of_mirror_images",
    "C100_cross_track_of_mirror_images",
    "C100_cross_track_of_reversed_path",
    "C100_closest_point_of_reversed_path",
    "C100_distance_from_degrees"
   ],
   "note": ""
  },
  {
   "property": "C101",
   "status": "partial",
   "theorems": [
    "C101_great_circle_distance",
    "C101_cross_track_distance",
    "C101_great_circle_normal",
    "C101_intersect",
    "C101_closest_point",
    "C101_interpolate",
    "C101_mean_position",
    "C101_mean_of_cancelling_positions_refuted"
   ],
   "note": "Exact real arithmetic. The mean of positions that cancel is the exception, and the unrestricted claim is refuted (C101_mean_of_cancelling_positions_refuted); closest_point is proved for a query that is not a pole of the circle (C20_pole_refuted: the answer there is (1,0,0) or so, whatever the circle)."
  },
  {
   "property": "C102",
   "status": "proved",
   "theorems": [
    "C102_n_EB_E2p_EB_E",
    "C102_p_EB_E2n_EB_E",
    "C102_delta_E",
    "C102_n_E2R_EN",
    "C102_azimuth",
    "C102_direct_problem",
    "C102_longitude_shift",
    "C102_delta_N_any_B",
    "C102_delta_N_of_geo_points"
   ],
   "note": ""
  },
  {
   "property": "C103",
   "status": "proved",
   "theorems": [
    "C103_xyz_round_trip",
    "C103_zyx_round_trip",
    "C103_matrices",
    "C103_degrees",
    "C103_near_rotation"
   ],
   "note": ""
  },
  {
   "property": "C104",
   "status": "proved",
   "theorems": [
    "C104_body_axes",
    "C104_wander_axes",
    "C104_delta_body",
    "C104_delta_wander",
    "C104_wgs84",
    "C104_target",
    "C104_seen_and_placed"
   ],
   "note": "sine, cosine, arctan2 and power are within one unit in the last place; the sums of products of mdot are in any order. Yaw between 180 and 229 degrees is covered by the lemma in radians (|yaw| <= 4) only."
  },
  {
   "property": "C105",
   "status": "proved",
   "theorems": [
    "C105_azimuth_a",
    "C105_azimuth_b",
    "C105_distance"
   ],
   "note": ""
  },
  {
   "property": "C106",
   "status": "proved",
   "theorems": [
    "C106_track_distance",
    "C106_cross_track",
    "C106_cross_track_earth",
    "C106_on_great_circle"
   ],
   "note": ""
  },
  {
   "property": "C107",
   "status": "proved",
   "theorems": [
    "C107_componentwise",
    "C107_sub_is_add_neg",
    "C107_neg_twice",
    "C107_vector_laws"
   ],
   "note": ""
  },
  {
   "property": "C108",
   "status": "proved",
   "theorems": [
    "C108_interpolate",
    "C108_intersect",
    "C108_closest_point"
   ],
   "note": ""
  },
  {
   "property": "C109",
   "status": "partial",
   "theorems": [
    "C109_angle_decision",
    "C109_reflexive",
    "C109_not_symmetric",
    "C109_symmetric_partial",
    "C109_full_turn",
    "C109_decision"
   ],
   "note": "Symmetry is refuted: GeoPoint(0, 1.01e-14) == GeoPoint(0, 0) is False and GeoPoint(0, 0) == GeoPoint(0, 1.01e-14) is True (C109_not_symmetric), because a difference just below 0 is rounded when it is folded by % (2*pi). C109_symmetric_partial proves symmetry outside the band of (1.4 d + 13) u around the tolerance; everything else in the statement is proved."
  },
  {
   "property": "C110",
   "status": "proved",
   "theorems": [
    "C110_symmetric",
    "C110_reflexive",
    "C110_decision",
    "C110_frame"
   ],
   "note": ""
  },
  {
   "property": "C111",
   "status": "proved",
   "theorems": [
    "C111_accuracy",
    "C111_near_vertical",
    "C111_from_degrees"
   ],
   "note": ""
  },
  {
   "property": "C112",
   "status": "partial",
   "theorems": [
    "C112_ends_between",
    "C112_no_length",
    "C112_between",
    "C112_on_path",
    "C112_point_path",
    "C112_default_tolerance_refuted"
   ],
   "note": "The claim that the ends of a path are on the path is refuted for the default tolerance (C112_default_tolerance_refuted) and for zero-length paths (C112_no_length, C112_point_path); everything else is proved."
  },
  {
   "property": "C113",
   "status": "proved",
   "theorems": [
    "C113_azimuth_deg",
    "C113_elevation_deg",
    "C113_distance_and_azimuth"
   ],
   "note": ""
  },
  {
   "property": "C114",
   "status": "proved",
   "theorems": [
    "C114_foot_on_circle",
    "C114_closest_on_path"
   ],
   "note": ""
  },
  {
   "property": "C115",
   "status": "proved",
   "theorems": [
    "C115_last_column",
    "C115_round_trip",
    "C115_from_degrees"
   ],
   "note": ""
  },
  {
   "property": "C116",
   "status": "proved",
   "theorems": [
    "C116_closest_on_path",
    "C116_interpolate",
    "C116_intersect",
    "C116_closest_on_circle",
    "C116_earth"
   ],
   "note": ""
  },
  {
   "property": "C117",
   "status": "proved",
   "theorems": [
    "C117_azimuth",
    "C117_sphere",
    "C117_round_trip",
    "C117_wgs84"
   ],
   "note": ""
  },
  {
   "property": "C118",
   "status": "partial",
   "theorems": [
    "C118_accuracy_partial",
    "C118_large_refuted"
   ],
   "note": "False of the code from 2^52 on: the Newton correction is then skipped (_EPS * np.abs(x) < 1 fails) and the exponent 1. / 3 alone decides; C118_large_refuted proves the root of 2^900 at least 70 u too small, for every pow allowed. Proved instead: 1.7 u for all x with 2^-400 <= x < 2^52 (C118_accuracy_partial). Not covered: x below 2^-400, and n other than 3, which the library does not use."
  },
  {
   "property": "C119",
   "status": "proved",
   "theorems": [
    "C119_chord",
    "C119_cross_track"
   ],
   "note": ""
  }
 ]
}