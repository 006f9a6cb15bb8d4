{
 "C03": {
  "status": "partial",
  "note": "Proved for latitude of length n and longitude scalar or of length n (n >= 1), any orthogonal R_Ee. For a scalar latitude with a longitude vector the code raises ValueError (C03_scalar_latitude_vector_longitude_refuted), so the full documented domain does not hold."
 },
 "C07": {
  "note": "C07_depth_roundtrip: uniform depth bound for e^2 <= 1/2 (f <= 0.29; every real ellipsoid). C07_any_flattening: every 0 <= f < 1, pointwise condition."
 },
 "C10": {
  "note": "For ellipsoids with e^2 = f(2-f) <= 1/2 (f <= 0.29; every real ellipsoid)."
 },
 "C13": {
  "note": "The claim is false of the code: for A of n >= 2 columns C13_pairwise_distances_refuted proves that n*n numbers come back. Proved instead: one A against n positions B."
 },
 "C16": {
  "note": "Proved whenever the crossing line is not perpendicular to A1. In exactly the complementary case C16_perpendicular_refuted proves that the zero vector is returned, so nothing is missing except what is false."
 },
 "C18": {
  "note": "False of the code: for 2 or more than 3 columns it raises ValueError (proved for every number of columns), and for exactly 3 the components are mixed up (witness)."
 },
 "C20": {
  "note": "Proved for every B that is not a pole of the circle. At the poles C20_pole_refuted proves for every circle that the result is not on it; for k >= 2, k <> 3 columns C20_columns_refuted proves ValueError."
 },
 "C22": {
  "note": "C22_decision states exactly what is decided; the segment reading is proved for paths < 120 degrees, completeness for all; for every path >= 120 degrees C22_long_segment_refuted gives an accepted point off the segment; several paths raise ValueError (C22_columns_refuted)."
 },
 "C23": {
  "note": "Proved off the poles for every orthonormal axes and at the poles when the first axis is not inclined towards the pole (the default axes). For axes 'E' at the pole C23_pole_refuted proves the result is not a unit vector."
 },
 "C24": {
  "note": "Proved off the poles. At the North pole (default axes) C24_pole_refuted proves the azimuth comes back a quarter turn off."
 },
 "C29": {
  "note": "Proved for every rotation not in gimbal lock (middle angle +-90 degrees with the entry exactly +-1); in gimbal lock C29_gimbal_lock_refuted gives a one-parameter family that comes back changed."
 },
 "C33": {
  "note": "Everything except 'mismatched inner dimensions raise': proved when neither inner dimension is 1; a column times a matrix is accepted and multiplied by the column sums (C33_column_times_matrix_refuted)."
 },
 "C38": {
  "note": "Names: all documented ones except five (11, 13, 17, 18, 19) are accepted, these five raise KeyError (C38_documented_names_refuted). Integer 19 has f = 298.26 (C38_etrs89_flattening_refuted)."
 },
 "C41": {
  "note": "Symmetry proved for all pairs of objects except a FrameB compared with a FrameN/FrameL; for that pair C41_frame_N_and_B_refuted proves asymmetry."
 },
 "C49": {
  "note": "Proved for all widths with a consistent scalar flag; C49_wide_frame_refuted: changing a scalar vector to a frame at several positions keeps the flag and only the first is reported."
 },
 "C51": {
  "note": "Proved for frames whose z axis points to the North pole (axes 'e', the default). C51_axes_E_refuted: for axes 'E' the displacement goes the wrong way, R_Ee is not passed on."
 },
 "C54": {
  "note": "All methods proved for one starting position; two findings: a scalar radius returns only the first distance, two or more starting positions raise ValueError."
 },
 "C55": {
  "note": "Proved for segments < 120 degrees and query points that are not poles of the circle; for longer segments refuted (C55_long_segment_refuted), for poles see C68_pole_refuted."
 },
 "C58": {
  "note": "Explicit (a, f) and names proved; FrameE(a=x) alone is false of the code: x is silently ignored."
 },
 "C61": {
  "note": "Proved for a single starting point; for n >= 2 starting points C61_many_points_refuted proves ValueError."
 },
 "C62": {
  "note": "The bound is exact up to a factor of 2: magnitudes >= 2^-537 are recognised, magnitudes <= 2^-538 are taken for zero."
 },
 "C65": {
  "note": "Great circle: exact decision for all tolerances; segment reading for segments < 120 degrees (false above, see C22). Ellipsoid: exact decision relative to what the geodesic solver returns; C65_azimuth_wrap_refuted shows azimuths on both sides of +-180 are not identified."
 },
 "C67": {
  "note": "Proved unless the crossing points are 90 degrees from A; then the zero vector is returned (C67_perpendicular_refuted). Undefined crossings: NaN with a warning (C67_undefined)."
 },
 "C68": {
  "note": "Proved for query points that are not poles of the great circle; for poles C68_pole_refuted."
 },
 "C71": {
  "note": "interpolate refuses, intersect does not (C71_intersect_mixed_frames_refuted)."
 },
 "C75": {
  "note": "Display and purity proved for all objects; purity for attributes containing dicts is false (C75_dict_attribute_refuted)."
 },
 "C85": {
  "note": "Accuracy proved for all points off the poles of the great circle; at a pole the distance can be NaN (C85_pole_nan_refuted).",
  "status": "partial"
 },
 "C86": {
  "note": "Proved for sufficient tolerances (C86_own_points_on_circle); false with the default tolerance for short paths (C86_default_tolerance_refuted)."
 },
 "C87": {
  "note": "All classes of calls proved; only Nvector arithmetic, which reads the stored (possibly unnormalised) vector, is sensitive to an earlier in-place unit() (C87_nvector_sum_refuted)."
 },
 "C96": {
  "status": "partial",
  "note": "What the functions compute for every n and m is proved (C96_*_partial, entry i*m+j belongs to path i and position j, which is the documented answer when n = 1 or m = 1); the documented pairing for n = m > 1 and several positions in the closest-point functions are refuted (C96_*_refuted)."
 },
 "C99": {
  "status": "partial",
  "note": "C76 and C62 cover the ordinary and tiny vectors. The first sentence is refuted for every finite column with a component >= 2^512 (C99_huge_vectors_vanish_refuted); the infinite and NaN cases are proved."
 },
 "C101": {
  "status": "partial",
  "note": "Exact real arithmetic. The mean of positions that cancel is the exception, and the unrestricted claim is refuted (C101_mean_of_cancelling_positions_refuted); closest_point is proved for a query that is not a pole of the circle (C20_pole_refuted: the answer there is (1,0,0) or so, whatever the circle)."
 },
 "C104": {
  "note": "sine, cosine, arctan2 and power are within one unit in the last place; the sums of products of mdot are in any order. Yaw between 180 and 229 degrees is covered by the lemma in radians (|yaw| <= 4) only."
 },
 "C109": {
  "status": "partial",
  "note": "Symmetry is refuted: GeoPoint(0, 1.01e-14) == GeoPoint(0, 0) is False and GeoPoint(0, 0) == GeoPoint(0, 1.01e-14) is True (C109_not_symmetric), because a difference just below 0 is rounded when it is folded by % (2*pi). C109_symmetric_partial proves symmetry outside the band of (1.4 d + 13) u around the tolerance; everything else in the statement is proved."
 },
 "C112": {
  "status": "partial",
  "note": "The claim that the ends of a path are on the path is refuted for the default tolerance (C112_default_tolerance_refuted) and for zero-length paths (C112_no_length, C112_point_path); everything else is proved."
 },
 "C118": {
  "status": "partial",
  "note": "False of the code from 2^52 on: the Newton correction is then skipped (_EPS * np.abs(x) < 1 fails) and the exponent 1. / 3 alone decides; C118_large_refuted proves the root of 2^900 at least 70 u too small, for every pow allowed. Proved instead: 1.7 u for all x with 2^-400 <= x < 2^52 (C118_accuracy_partial). Not covered: x below 2^-400, and n other than 3, which the library does not use."
 }
}