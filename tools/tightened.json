{
 "o32": [
  "C53_displace_pointwise",
  "C53_displace_scalar",
  "C53_distance_and_azimuth_pointwise"
 ],
 "o54": [
  "C53_displace_pointwise",
  "C53_displace_scalar"
 ],
 "r01": [
  "C75_shows_public_attributes"
 ],
 "q01": [
  "C93_default_frame",
  "C93_default_ellipsoid"
 ],
 "q02": [
  "C93_scalar_inferred"
 ],
 "q19": [
  "C93_diff_positions"
 ],
 "q38": [
  "C93_default_tolerances"
 ],
 "q53": [
  "C56_smoothing_applied"
 ],
 "t14": [
  "C98_quarter_turn"
 ],
 "t16": [
  "C99_tiny_vectors"
 ],
 "a1_095": [
  "C53_incompatible"
 ],
 "w12": [
  "C116_closest_on_path"
 ],
 "w16": [
  "C116_closest_on_path"
 ]
}