# Formal model of pbrod/Nvector in Rocq (Coq 8.16.1)

The plan was written before the proofs (git history); this file is regenerated by `tools/mkdesign.py`
(`tools/design_head.md` plus a table built from `properties.jsonl`, `MANIFEST.json` and the sources).

## 1. Layers

| file (rocq/theories) | content |
|---|---|
| `Num.v`      | scalars `num`: exact reals plus `-0`, `±inf`, `NaN`, with numpy's operation tables |
| `Nd.v`       | n-dimensional arrays (shape + index function), broadcasting, `dot`, `einsum`, `cross`, `norm`, `vstack`, `squeeze`, boolean masks, ... |
| `Py.v`       | Python effects: exceptions as values, warnings as a log |
| `MUtil.v`, `MRotation.v`, `MCore.v` | the functional API, one definition per Python function, each citing file and lines |
| `MInterp.v`  | `scipy.interpolate.interp1d(kind='linear')` as used by `interp_nvectors` |
| `MObjects.v`, `MAccess.v`, `MRepr.v` | the object API (GeoPoint, Nvector, ECEFvector, Pvector, GeoPath, FrameE/N/L/B) |
| `MHeap.v`    | a Python heap with aliasing and nested containers (`array_to_list_dict` mutates in place) |
| `MHist.v`    | a store of objects and a step function over method calls, for histories with sharing |
| `Spec*.v`    | independent specification: vectors of R^3, angle, great circles, rotations, ellipsoid, paths; nothing from the model |
| `L*.v`       | lemmas |
| `P*.v`       | property theorems over the exact model, with examples that meet their hypotheses |
| `F*.v`       | IEEE binary64 (Flocq) models of `unit`, the norms and the distances, with rounding, overflow, NaN: C60, C62, C76- |

Theorems of property Cnn are named `Cnn_*`; the suffix `_partial` marks a theorem that proves only part of the property,
the suffix `_refuted` a theorem that proves the property (as a user would read the documentation) false of the code.

## 2. What is modelled

* `util.py`: `array_to_list_dict`, `isclose`, `allclose`, `_check_length_deviation`, `deg`, `rad`, `mdot`, `nthroot`,
  `get_ellipsoid` with both tables, `unit`. All functions.
* `rotation.py`: `E_rotation`, `R2xyz`, `R2zyx`, `R_EL2n_E`, `R_EN2n_E`, `_atleast_3d`, `xyz2R`, `zyx2R`, `n_E2lat_lon`,
  `n_E2R_EN`, `n_E_and_wa2R_EL`. All functions.
* `core.py`: all functions.
* `objects.py`: all classes and methods, `delta_E/N/L`, `_base_angle`, `_check_frames`, `_default_frame`. (`__radd__`, `__rsub__`,
  `__truediv__`, `__itruediv__` and the deprecated aliases are the same functions.) `__repr__` is modelled as the sequence of
  (name, displayed value) pairs and its effect on the heap, not as characters.

## 3. What is not modelled

* `plot.py`, `_examples*.py`, `_info*.py`, `_images.py`, `_common.py` (docstring decorators), `license.py`, `tests/`.
* Rounding: in `M*.v`/`P*.v` finite arithmetic is exact. Only `F*.v` rounds, and only for the functions named there.
  So P-theorems speak about the algorithms, not about the last digits; statements about signed zeros, NaN and infinities are
  nevertheless about what numpy does, because the exact results 0, -0, inf, nan of IEEE arithmetic are in `num`.
* External libraries are modelled from their documentation: numpy broadcasting, `einsum`, `dot`, `cross`, `norm`, `arctan2`
  (with signed zeros), `mod`, `sign`, `isclose`, `squeeze`, `vstack`, fancy assignment with a mask; scipy `interp1d` linear.
  Non-linear `interp1d` kinds and `savgol_filter` are universally quantified functions (theorems state what is needed of them);
  so is `karney.geodesic` (the solver behind `FrameE.inverse/direct`): theorems about ellipsoid methods say how its answers
  are used, and which property of the solver they need.
* Python machinery: attribute lookup by `hasattr`/duck typing is modelled as the class distinction; the recursion limit,
  memory errors, threads (the package has no shared mutable state), dtype other than float64 and subclassing by users are not.
* Where the model does not cover a shape it answers the exception `NotModelled`; no theorem claims that of Python.

## 4. Trusted base

* Coq's kernel (8.16.1), the definitions in `Num.v`, `Nd.v`, `Py.v`, `M*.v` (transcription of the code and of numpy), the
  specifications `Spec*.v`, and for `F*.v` Flocq's definition of binary64 (`BinarySingleNaN`).
* Axioms: only Coq's standard library: `ClassicalDedekindReals.sig_forall_dec`, `ClassicalDedekindReals.sig_not_dec`,
  `FunctionalExtensionality.functional_extensionality_dep` (the real numbers of the standard library rest on these three)
  and `Classical_Prop.classic` (through the standard library's trigonometry and Flocq). `ASSUMPTIONS.md` gives the output of
  `Print Assumptions` for every theorem in the manifest.
* No axioms of our own, no `Admitted`, no functors, no kernel switches. `Section` variables are discharged.

## 5. How the proofs go

* Arrays: every function of the functional API is first characterised column by column (`L*.v`: "the result has this shape and
  column j is this vector of R^3"), for every number of columns; then the geometry is done in R^3 against `Spec*.v`.
* Angles: `arctan2` is characterised by (sin, cos); angles by `acos` of the normalised dot product; the triangle inequality by Cauchy-Schwarz.
* Ellipsoid: `n_EB_E2p_EB_E` is shown to be the point with the given normal and height; `p_EB_E2n_EB_E` by verifying that
  `_compute_k` is the positive root of Vermeille's quartic and that this root is unique (monotonicity).
* Objects: a frame is read as a rotation at a position, a point of any class as a position in space; each method is specified by
  what it does to positions. Equality (`==`) is characterised as a tolerance relation.
* Heaps and histories: induction over the object graph / over the list of calls, with a frame invariant (everything allocated
  before is unchanged unless `unit()` was called on it).
* Binary64: standard model of rounding errors (rel. u = 2^-53, abs. eta = 2^-1075), propagated through norm, quotient, cross
  product and arctan2; equalities "bit for bit" by case analysis on IEEE values.

## 6. Findings (each proved, see the `_refuted` theorems)

| property | finding |
|---|---|
| C03 | scalar latitude with several longitudes raises ValueError |
| C13 | `great_circle_distance` of n pairs returns n*n numbers (`dot(A.T, B)`) |
| C16, C67 | `intersect` returns the zero vector when the crossing is exactly 90 degrees from A1 |
| C18 | `intersect` of paths with several columns raises ValueError; with exactly 3 columns the components are mixed up |
| C20, C55, C68 | closest point for a pole of the great circle is not on the circle; several columns raise ValueError |
| C96 | `cross_track_distance`/`on_great_circle` with n paths and n positions return n*n answers; `closest_point_on_great_circle` with exactly three positions mixes up their signs; `GeoPath.closest_point_on_path` raises for 2 or more positions |
| C22, C55, C65 | `on_great_circle_path` accepts points off the segment for every path of 120 degrees or more |
| C23, C24 | direct and inverse problem at the poles are wrong (axes 'E': not a unit vector; default axes: azimuth a quarter turn off) |
| C29 | `R2xyz`/`R2zyx` do not invert in gimbal lock |
| C33 | `mdot` accepts a column times a matrix of mismatched dimensions |
| C38 | five documented ellipsoid names raise KeyError; ETRS89 has flattening 1/298.26 instead of 1/298.257222101 |
| C41 | `FrameB == FrameN` and `FrameN == FrameB` differ |
| C49 | a scalar vector changed to a frame at several positions reports only the first component |
| C51 | `displace(method='greatcircle')` goes the wrong way for axes 'E' (`R_Ee` not passed on) |
| C54, C61 | a scalar radius yields only the first distance; several starting positions raise ValueError |
| C58 | `FrameE(a=x)` without `f` silently ignores x |
| C62 | vectors shorter than about 2^-538 are taken for zero by `unit` (underflow) |
| C99 | vectors with a component of 2^512 (1.3e154) or more come back from `unit` as the zero vector (overflow) |
| C65 | azimuths on both sides of +-180 degrees are not identified by `on_path(method='ellipsoid')` |
| C66 | interpolation between two positions has no constant speed (it is along the chord) |
| C71 | `GeoPath.intersect` does not check frames |
| C85 | in double precision `cross_track_distance` of a pole of the great circle can be NaN (sine above 1) |
| C86 | in double precision, with the default `atol` of 1e-8 m, `on_great_circle` denies that the end points of a short path are on it |
| C87 | the sum of two Nvectors changes when `unit()` (in place) was called on one of them earlier |
| C98 | in double precision a crossing a quarter turn from A1 can come back as the zero vector |
| C101 | the mean of positions that cancel is not carried along by a change of axes |
| C109 | in double precision `GeoPoint == GeoPoint` depends on the order near the tolerance |
| C111 | `elevation` loses half the digits close to the vertical (arcsin of z over length) |
| C112 | no position, not even A, is `on_path` of a path from A to A (0/0); with the default `atol` the ends of a 190 m path are not on the path |
| C118 | `nthroot(x, 3)` is not accurate to machine precision from 2^52 on: the Newton correction is skipped there, and the root of 2^900 is at least 70 u too small |
| C75 | `repr` of an object with a dict attribute converts the user's arrays in place |

## 7. Testing the theorems against wrong programs

`seeded/LOG.jsonl` records every seeded bug: the definition edited (in a scratch copy), the edit, the claim it breaks, the
theorems that no longer check, and the theorems that were tightened. `tools/mutate.py` is the runner.

## 8. Properties

* **C01** unit() normalises every nonzero column and maps zero columns as documented — proved. Code: util.py:unit. Theorems (PUnit.v): `C01_unit_normalises`, `C01_unit_nan_for_zero`, `C01_unit_columnwise`.
* **C02** unit() is idempotent and insensitive to positive scaling — proved. Code: util.py:unit. Theorems (PUnit.v): `C02_unit_idempotent`, `C02_unit_scale_invariant`.
* **C03** lat_lon2n_E always yields unit n-vectors with the documented axes — partial. Code: core.py:lat_lon2n_E, rotation.py:E_rotation. Theorems (PUnit.v): `C03_lat_lon2n_E`, `C03_default_axes`, `C03_scalar_latitude_vector_longitude_refuted`. Note: Proved for latitude of length n and longitude scalar or of length n (n >= 1), any orthogonal R_Ee. For a scalar latitude with a longitude vector the code raises ValueError (C03_scalar_latitude_vector_longitude_refuted), so the full documented domain does not hold.
* **C04** latitude/longitude -> n-vector -> latitude/longitude is the identity — proved. Code: rotation.py:n_E2lat_lon, core.py:lat_lon2n_E. Theorems (PUnit.v): `C04_latlon_roundtrip`.
* **C05** n-vector -> latitude/longitude -> n-vector is normalisation — proved. Code: rotation.py:n_E2lat_lon, core.py:lat_lon2n_E. Theorems (PUnit.v): `C05_nvector_roundtrip`.
* **C06** n_EB_E2p_EB_E places B on the ellipsoid normal — proved. Code: core.py:n_EB_E2p_EB_E. Theorems (PEcef.v): `C06_position_on_ellipsoid_normal`, `C06_depth_zero_is_on_the_ellipsoid`.
* **C07** n-vector/depth -> ECEF -> n-vector/depth is exact — proved. Code: core.py:p_EB_E2n_EB_E, core.py:_equation23, core.py:_compute_k, core.py:n_EB_E2p_EB_E. Theorems (PEcef.v, PEcef2.v): `C07_depth_roundtrip`, `C07_any_flattening`. Note: C07_depth_roundtrip: uniform depth bound for e^2 <= 1/2 (f <= 0.29; every real ellipsoid). C07_any_flattening: every 0 <= f < 1, pointwise condition.
* **C08** ECEF -> n-vector/depth -> ECEF is exact — proved. Code: core.py:p_EB_E2n_EB_E, core.py:_equation23, core.py:_compute_k, core.py:n_EB_E2p_EB_E. Theorems (PEcef.v): `C08_position_roundtrip`.
* **C09** delta vectors obey the vector-triangle laws — proved. Code: core.py:n_EA_E_and_n_EB_E2p_AB_E. Theorems (PEcef.v): `C09_delta_triangle_laws`.
* **C10** position from A plus delta recovers B — proved. Code: core.py:n_EA_E_and_p_AB_E2n_EB_E, core.py:n_EA_E_and_n_EB_E2p_AB_E. Theorems (PEcef.v): `C10_delta_recovers_B`. Note: For ellipsoids with e^2 = f(2-f) <= 1/2 (f <= 0.29; every real ellipsoid).
* **C11** f == 0 means a sphere of radius a — proved. Code: core.py:n_EB_E2p_EB_E, core.py:p_EB_E2n_EB_E. Theorems (PEcef.v): `C11_sphere_n2p`, `C11_sphere_p2n`.
* **C12** great_circle_distance is radius times the angle and is a metric — proved. Code: core.py:great_circle_distance. Theorems (PDist.v): `C12_distance_is_radius_times_angle`, `C12_metric`.
* **C13** great_circle_distance on two 3 x n arrays returns n distances — partial. Code: core.py:great_circle_distance. Theorems (PDist.v): `C13_pairwise_distances_refuted`, `C13_one_to_many_partial`. Note: The claim is false of the code: for A of n >= 2 columns C13_pairwise_distances_refuted proves that n*n numbers come back. Proved instead: one A against n positions B.
* **C14** euclidean_distance is the chord length — proved. Code: core.py:euclidean_distance, core.py:great_circle_distance. Theorems (PDist.v): `C14_euclidean_is_chord`, `C14_metric`.
* **C15** great_circle_normal is the unit normal of the plane of the path — proved. Code: core.py:great_circle_normal. Theorems (PCircle.v): `C15_unit_normal`, `C15_swap`.
* **C16** intersect returns a point on both great circles, on A1's side — partial. Code: core.py:intersect. Theorems (PCircle.v): `C16_intersection_partial`, `C16_perpendicular_refuted`. Note: Proved whenever the crossing line is not perpendicular to A1. In exactly the complementary case C16_perpendicular_refuted proves that the zero vector is returned, so nothing is missing except what is false.
* **C17** intersect reports undefined intersections as NaN with a warning — proved. Code: core.py:intersect. Theorems (PCircle.v): `C17_undefined_intersection`.
* **C18** intersect works for paths with n > 1 columns — partial. Code: core.py:intersect. Theorems (PCircle.v): `C18_columns_refuted`, `C18_three_columns_refuted`. Note: False of the code: for 2 or more than 3 columns it raises ValueError (proved for every number of columns), and for exactly 3 the components are mixed up (witness).
* **C19** cross_track_distance is the signed angular distance to the great circle — proved. Code: core.py:cross_track_distance, core.py:_great_circle_cross_track_distance, core.py:_euclidean_cross_track_distance. Theorems (PTrack.v): `C19_distance_to_great_circle`, `C19_euclidean_distance_to_plane`, `C19_reverse`, `C19_empty_method`.
* **C20** closest_point_on_great_circle minimises the distance — partial. Code: core.py:closest_point_on_great_circle. Theorems (PTrack.v): `C20_closest_point_partial`, `C20_pole_refuted`, `C20_columns_refuted`. Note: Proved for every B that is not a pole of the circle. At the poles C20_pole_refuted proves for every circle that the result is not on it; for k >= 2, k <> 3 columns C20_columns_refuted proves ValueError.
* **C21** on_great_circle decides |cross track| <= atol — proved. Code: core.py:on_great_circle. Theorems (PTrack.v): `C21_on_great_circle`, `C21_accepts_circle`.
* **C22** on_great_circle_path decides membership of the segment — partial. Code: core.py:on_great_circle_path. Theorems (PArc.v): `C22_decision`, `C22_segment_partial`, `C22_accepts_segment`, `C22_long_segment_refuted`, `C22_columns_refuted`. Note: C22_decision states exactly what is decided; the segment reading is proved for paths < 120 degrees, completeness for all; for every path >= 120 degrees C22_long_segment_refuted gives an accepted point off the segment; several paths raise ValueError (C22_columns_refuted).
* **C23** direct problem: B is at the requested distance — partial. Code: core.py:n_EA_E_distance_and_azimuth2n_EB_E. Theorems (PDirect.v): `C23_direct_partial`, `C23_default_axes`, `C23_reverse`, `C23_pole_refuted`. Note: Proved off the poles for every orthonormal axes and at the poles when the first axis is not inclined towards the pole (the default axes). For axes 'E' at the pole C23_pole_refuted proves the result is not a unit vector.
* **C24** inverse azimuth of the direct problem — partial. Code: core.py:n_EA_E_and_n_EB_E2azimuth, core.py:n_EA_E_distance_and_azimuth2n_EB_E. Theorems (PDirect.v): `C24_azimuth_roundtrip_partial`, `C24_pole_refuted`. Note: Proved off the poles. At the North pole (default axes) C24_pole_refuted proves the azimuth comes back a quarter turn off.
* **C25** interpolate stays on the great circle and hits the endpoints — proved. Code: core.py:interpolate. Theorems (PDirect.v): `C25_interpolate`.
* **C26** mean_horizontal_position is a unit vector independent of the order of the positions — proved. Code: core.py:mean_horizontal_position. Theorems (PDirect.v): `C26_mean_is_unit_sum`, `C26_order_irrelevant`, `C26_zero_sum`.
* **C27** xyz2R and zyx2R are products of elementary rotations — proved. Code: rotation.py:xyz2R, rotation.py:zyx2R, rotation.py:_atleast_3d. Theorems (PRot.v): `C27_xyz2R_product`, `C27_zyx2R_product`, `C27_shapes_refused`.
* **C28** Euler angle round trip: angles -> matrix -> angles — proved. Code: rotation.py:R2xyz, rotation.py:R2zyx, rotation.py:xyz2R, rotation.py:zyx2R. Theorems (PRot.v): `C28_angles_xyz_roundtrip`, `C28_angles_zyx_roundtrip`.
* **C29** Euler angle round trip: rotation matrix -> angles -> matrix — partial. Code: rotation.py:R2xyz, rotation.py:R2zyx. Theorems (PRot.v): `C29_xyz_matrix_roundtrip_partial`, `C29_zyx_matrix_roundtrip_partial`, `C29_gimbal_lock_refuted`. Note: Proved for every rotation not in gimbal lock (middle angle +-90 degrees with the entry exactly +-1); in gimbal lock C29_gimbal_lock_refuted gives a one-parameter family that comes back changed.
* **C30** n_E2R_EN is the North-East-Down rotation everywhere — proved. Code: rotation.py:n_E2R_EN. Theorems (PFrame.v): `C30_north_east_down`.
* **C31** n_E_and_wa2R_EL is a local level frame rotated by the wander azimuth — proved. Code: rotation.py:n_E_and_wa2R_EL, rotation.py:n_E2R_EN. Theorems (PFrame.v): `C31_wander_azimuth_frame`, `C31_zero_wander_is_N`.
* **C32** n-vector is recovered from R_EN and R_EL — proved. Code: rotation.py:R_EN2n_E, rotation.py:R_EL2n_E. Theorems (PFrame.v): `C32_nvector_from_R_EN`, `C32_nvector_from_R_EL`.
* **C33** mdot multiplies slice by slice with broadcasting — partial. Code: util.py:mdot. Theorems (PMdot.v): `C33_slicewise_product`, `C33_associative`, `C33_mismatch_refused_partial`, `C33_slices_refused`, `C33_column_times_matrix_refuted`. Note: Everything except 'mismatched inner dimensions raise': proved when neither inner dimension is 1; a column times a matrix is accepted and multiplied by the column sums (C33_column_times_matrix_refuted).
* **C34** deg and rad are inverse — proved. Code: util.py:deg, util.py:rad. Theorems (PUtil.v): `C34_one_argument`, `C34_several_arguments`, `C34_inverse`.
* **C35** isclose is a symmetric relative/absolute tolerance test — proved. Code: util.py:isclose. Theorems (PUtil.v): `C35_finite_entries`, `C35_nonfinite_entries`, `C35_symmetric`, `C35_reflexive`, `C35_monotone`.
* **C36** allclose is the conjunction of isclose — proved. Code: util.py:allclose. Theorems (PUtil.v): `C36_allclose_is_conjunction`, `C36_allclose_finite`.
* **C37** get_ellipsoid lookup ignores case and spaces — proved. Code: util.py:get_ellipsoid, util.py:ELLIPSOID, util.py:ELLIPSOID_IX. Theorems (PEllipsoid.v): `C37_ignores_case_and_spaces`, `C37_strings`, `C37_integers`, `C37_alias`.
* **C38** every documented ellipsoid name resolves, to a valid ellipsoid — partial. Code: util.py:get_ellipsoid, util.py:ELLIPSOID. Theorems (PEllipsoid.v): `C38_documented_names_partial`, `C38_documented_names_refuted`, `C38_strings_give_valid_ellipsoids`, `C38_integers_partial`, `C38_etrs89_flattening_refuted`. Note: Names: all documented ones except five (11, 13, 17, 18, 19) are accepted, these five raise KeyError (C38_documented_names_refuted). Integer 19 has f = 298.26 (C38_etrs89_flattening_refuted).
* **C39** array_to_list_dict removes arrays and tuples and keeps the structure — proved. Code: util.py:array_to_list_dict. Theorems (PHeap.v): `C39_no_arrays_or_tuples`, `C39_idempotent`, `C39_keeps_structure`, `C39_characterised`, `C39_in_place`.
* **C40** nthroot returns the real n-th root — proved. Code: util.py:nthroot. Theorems (PUtil.v): `C40_nthroot`, `C40_unique`, `C40_correction_is_quadratic`.
* **C41** == on library objects is symmetric — partial. Code: objects.py:_Common.__eq__, objects.py:GeoPoint._is_equal_to, objects.py:Nvector._is_equal_to, objects.py:Pvector._is_equal_to, objects.py:FrameE._is_equal_to, objects.py:FrameN._is_equal_to, objects.py:FrameB._is_equal_to. Theorems (PEq.v, PEq2.v): `C41_symmetric_partial`, `C41_frame_N_and_B_refuted`, `C41_not_transitive`. Note: Symmetry proved for all pairs of objects except a FrameB compared with a FrameN/FrameL; for that pair C41_frame_N_and_B_refuted proves asymmetry.
* **C42** == is reflexive, != is its negation and foreign objects are unequal — proved. Code: objects.py:_Common.__eq__, objects.py:_Common.__ne__. Theorems (PEq2.v): `C42_same_object`, `C42_copies_are_equal`, `C42_not_equal`, `C42_no_AttributeError`, `C42_different_kinds`, `C42_incompatible_shapes_raise`.
* **C43** GeoPoint equality ignores whole turns — proved. Code: objects.py:GeoPoint._is_equal_to. Theorems (PEq2.v): `C43_equality_criterion`, `C43_whole_turns`, `C43_distinct`.
* **C44** operations across unequal frames are refused — proved. Code: objects.py:_check_frames, objects.py:ECEFvector.change_frame, objects.py:delta_E. Theorems (PObj.v): `C44_ecef_arithmetic`, `C44_nvector_arithmetic`, `C44_change_frame`, `C44_delta`, `C44_distance_and_azimuth`.
* **C45** delta_E obeys the vector-triangle laws at object level — proved. Code: objects.py:delta_E, objects.py:ECEFvector.__sub__. Theorems (PObj.v): `C45_delta_E`, `C45_antisymmetric`, `C45_triangle`, `C45_self`.
* **C46** changing to a local frame is an isometry and is undone by to_ecef_vector — proved. Code: objects.py:ECEFvector.change_frame, objects.py:Pvector.to_ecef_vector, objects.py:FrameN.R_EN, objects.py:FrameL.R_EN, objects.py:FrameB.R_EN. Theorems (PObj.v): `C46_change_frame_isometry`, `C46_north_east_down_components`.
* **C47** delta_N and delta_L agree — proved. Code: objects.py:delta_N, objects.py:delta_L. Theorems (PObj.v): `C47_delta_L_is_rotated_delta_N`, `C47_zero_wander`.
* **C48** object conversions round trip — proved. Code: objects.py:GeoPoint.to_nvector, objects.py:Nvector.to_geo_point, objects.py:Nvector.to_ecef_vector, objects.py:ECEFvector.to_nvector, objects.py:GeoPoint.scalar, objects.py:Nvector.scalar, objects.py:Pvector.to_nvector. Theorems (PObj2.v): `C48_conversions_preserve_position`, `C48_geo_nvector_geo`, `C48_geo_ecef_geo`, `C48_scalar_stays_scalar`.
* **C49** azimuth, elevation and length are spherical coordinates of a Pvector — partial. Code: objects.py:Pvector.azimuth, objects.py:Pvector.elevation, objects.py:Pvector.length. Theorems (PObj2.v): `C49_spherical_coordinates`, `C49_zero_vector`, `C49_wide_frame_refuted`. Note: Proved for all widths with a consistent scalar flag; C49_wide_frame_refuted: changing a scalar vector to a frame at several positions keeps the flag and only the first is reported.
* **C50** _base_angle reduces angles to [-pi, pi) — proved. Code: objects.py:_base_angle. Theorems (PObj2.v): `C50_base_angle`, `C50_unique`.
* **C51** GeoPoint.displace on the great circle follows the azimuth in every frame — partial. Code: objects.py:GeoPoint._displace_great_circle, objects.py:GeoPoint.displace. Theorems (PGreat.v): `C51_great_circle_displacement_partial`, `C51_axes_E_refuted`. Note: Proved for frames whose z axis points to the North pole (axes 'e', the default). C51_axes_E_refuted: for axes 'E' the displacement goes the wrong way, R_Ee is not passed on.
* **C52** the degrees flag only changes units — proved. Code: objects.py:FrameE.inverse, objects.py:FrameE.direct, objects.py:GeoPoint.displace, objects.py:GeoPoint.distance_and_azimuth. Theorems (PGeod.v): `C52_inverse`, `C52_direct`, `C52_displace`, `C52_distance_and_azimuth`, `C52_constructors`.
* **C53** FrameE.inverse/direct solve pointwise at the given depth — proved. Code: objects.py:FrameE.inverse, objects.py:FrameE.direct, objects.py:FrameE._inverse, objects.py:FrameE._direct, objects.py:FrameE._outmask, objects.py:GeoPoint._displace_ellipsoid, objects.py:GeoPoint._distance_and_azimuth_ellipsoid. Theorems (PGeod.v, PGeod2.v, PGeod3.v): `C53_inverse_pointwise`, `C53_direct_pointwise`, `C53_scalar`, `C53_exception`, `C53_empty`, `C53_displace_pointwise`, `C53_displace_scalar`, `C53_distance_and_azimuth_pointwise`, `C53_incompatible`.
* **C54** GeoPath.track_distance dispatches on the method and uses the mean radius — partial. Code: objects.py:GeoPath.track_distance, objects.py:GeoPath._get_average_radius. Theorems (PPath.v): `C54_euclidean`, `C54_great_circle_partial`, `C54_given_radius`, `C54_scalar_radius_refuted`, `C54_many_starts_refuted`, `C54_ellipsoidal`, `C54_ellipsoidal_converts`. Note: All methods proved for one starting position; two findings: a scalar radius returns only the first distance, two or more starting positions raise ValueError.
* **C55** closest_point_on_path returns the closest point of the segment — partial. Code: objects.py:GeoPath.closest_point_on_path, objects.py:GeoPath._closest_point_on_path. Theorems (PClosest.v): `C55_closest_point_partial`, `C55_long_segment_refuted`. Note: Proved for segments < 120 degrees and query points that are not poles of the circle; for longer segments refuted (C55_long_segment_refuted), for poles see C68_pole_refuted.
* **C56** interpolated trajectories are unit n-vectors — proved. Code: core.py:interp_nvectors, core.py:_interp_vectors, objects.py:Nvector.interpolate. Theorems (PInterp.v): `C56_columns_are_unit_or_nan`, `C56_smoothing_window_is_odd`, `C56_smoothing_applied`, `C56_linear_interpolation`, `C56_chord_is_never_zero`, `C56_interpolate_method`.
* **C57** Nvector arithmetic is componentwise linear — proved. Code: objects.py:Nvector.__add__, objects.py:Nvector.__sub__, objects.py:Nvector.__neg__, objects.py:Nvector.__mul__, objects.py:Nvector.__div__. Theorems (POps.v): `C57_add_sub_componentwise`, `C57_neg_componentwise`, `C57_mul_div_componentwise`, `C57_mul_nvector_refused`, `C57_add_commutative`, `C57_sub_is_add_neg`.
* **C58** FrameE uses the ellipsoid it was given — partial. Code: objects.py:FrameE.__init__. Theorems (POps.v): `C58_explicit_parameters`, `C58_named_ellipsoid`, `C58_single_parameter_refuted`. Note: Explicit (a, f) and names proved; FrameE(a=x) alone is false of the code: x is silently ignored.
* **C59** length deviations are reported by a warning and do not change results — proved. Code: util.py:_check_length_deviation, core.py:n_EB_E2p_EB_E. Theorems (PScale.v): `C59_warning_iff_first_length_off`, `C59_position_ignores_length`, `C59_north_east_down_ignores_length`, `C59_lat_lon_ignores_length`.
* **C60** the regularising _TINY in unit() never changes a double result — proved. Code: util.py:unit. Theorems (FTiny.v): `C60_tiny_is_absorbed`, `C60_unit_divides_by_the_norm`, `C60_never_divides_by_zero`.
* **C61** distance_and_azimuth on the great circle — partial. Code: objects.py:GeoPoint.distance_and_azimuth, objects.py:GeoPoint._distance_and_azimuth_greatcircle. Theorems (PGreat.v): `C61_great_circle_distance_and_azimuths`, `C61_sphere_courses`, `C61_many_points_refuted`, `C61_empty_method`. Note: Proved for a single starting point; for n >= 2 starting points C61_many_points_refuted proves ValueError.
* **C62** unit() replaces only the zero vector — partial. Code: util.py:unit. Theorems (FZero.v): `C62_nonzero_vectors_recognised`, `C62_tiny_vectors_taken_for_zero_refuted`. Note: The bound is exact up to a factor of 2: magnitudes >= 2^-537 are recognised, magnitudes <= 2^-538 are taken for zero.
* **C63** GeoPath.cross_track_distance dispatches on the method and scales with the radius — proved. Code: objects.py:GeoPath.cross_track_distance. Theorems (PPath2.v): `C63_great_circle`, `C63_euclidean`, `C63_empty_method`.
* **C64** on_great_circle is exactly 'cross track distance within atol' — proved. Code: objects.py:GeoPath.on_great_circle. Theorems (PPath2.v): `C64_on_great_circle`.
* **C65** on_path recognises points of the segment — partial. Code: objects.py:GeoPath.on_path, objects.py:GeoPath._on_great_circle_path, objects.py:GeoPath._on_ellipsoid_path. Theorems (PPath2.v): `C65_great_circle_path`, `C65_segment_partial`, `C65_ellipsoid_partial`, `C65_azimuth_wrap_refuted`. Note: Great circle: exact decision for all tolerances; segment reading for segments < 120 degrees (false above, see C22). Ellipsoid: exact decision relative to what the geodesic solver returns; C65_azimuth_wrap_refuted shows azimuths on both sides of +-180 are not identified.
* **C66** GeoPath.interpolate runs along the path from A to B — proved. Code: objects.py:GeoPath.interpolate. Theorems (PPath3.v): `C66_interpolate`, `C66_speed_not_constant`.
* **C67** GeoPath.intersect returns the crossing of the two great circles — partial. Code: objects.py:GeoPath.intersect, core.py:intersect. Theorems (PPath3.v): `C67_intersection_partial`, `C67_undefined`, `C67_perpendicular_refuted`. Note: Proved unless the crossing points are 90 degrees from A; then the zero vector is returned (C67_perpendicular_refuted). Undefined crossings: NaN with a warning (C67_undefined).
* **C68** GeoPath.closest_point_on_great_circle returns the closest point — partial. Code: objects.py:GeoPath.closest_point_on_great_circle, objects.py:GeoPath._closest_point_on_great_circle. Theorems (PPath3.v): `C68_closest_point_partial`, `C68_pole_refuted`. Note: Proved for query points that are not poles of the great circle; for poles C68_pole_refuted.
* **C69** Nvector.mean is the mean position — proved. Code: objects.py:Nvector.mean. Theorems (PPath3.v): `C69_mean`.
* **C70** Nvector.unit normalises without moving the positions — proved. Code: objects.py:Nvector.unit. Theorems (PPath3.v): `C70_unit_in_place`.
* **C71** GeoPath methods refuse ends in different frames — partial. Code: objects.py:GeoPath.interpolate, objects.py:GeoPath.intersect. Theorems (PPath3.v): `C71_interpolate_refuses`, `C71_intersect_mixed_frames_refuted`. Note: interpolate refuses, intersect does not (C71_intersect_mixed_frames_refuted).
* **C72** No history of method calls moves a point or turns a frame — proved. Code: objects.py:Nvector.unit, objects.py:FrameN.__init__, objects.py:FrameB.__init__, objects.py:Nvector.to_nvector. Theorems (PHist.v): `C72_only_unit_changes_an_object`, `C72_points_stay_in_place`, `C72_frames_keep_their_orientation`, `C72_pvectors_stay`, `C72_body_frame_shares_the_nvector`, `C72_level_frames_own_their_nvector`.
* **C73** A plus delta(A,B) is B, through any local frame — proved. Code: objects.py:delta_E, objects.py:delta_N, objects.py:delta_L, objects.py:_Common, objects.py:ECEFvector.change_frame, objects.py:Pvector.to_ecef_vector. Theorems (PAccess.v): `C73_delta_in_any_frame_leads_to_B`, `C73_delta_to_leads_to_B`.
* **C74** Accessors in degrees, factories and path views agree with the objects — proved. Code: objects.py:GeoPoint.__init__, objects.py:GeoPoint.latlon_deg, objects.py:GeoPoint.latitude_deg, objects.py:GeoPoint.longitude_deg, objects.py:Pvector.azimuth_deg, objects.py:Pvector.elevation_deg, objects.py:GeoPath.positionA, objects.py:GeoPath.positionB, objects.py:GeoPath.nvector_normals, objects.py:FrameE.GeoPoint, objects.py:FrameE.Nvector, objects.py:FrameE.ECEFvector, objects.py:_LocalFrame.Pvector, objects.py:GeoPath.geo_points, objects.py:GeoPath.ecef_vectors, objects.py:GeoPath.nvectors. Theorems (PAccess.v): `C74_degrees_in_degrees_out`, `C74_degrees_scalar`, `C74_azimuth_and_elevation_in_degrees`, `C74_latlon_deg_in_range`, `C74_frame_factories`, `C74_local_Pvector`, `C74_path_accessors`.
* **C75** repr() shows the public attributes and leaves the object alone — partial. Code: objects.py:_Common.__repr__, util.py:array_to_list_dict. Theorems (PRepr.v): `C75_shows_public_attributes`, `C75_repr_is_pure`, `C75_dict_attribute_refuted`. Note: Display and purity proved for all objects; purity for attributes containing dicts is false (C75_dict_attribute_refuted).
* **C76** unit() is accurate in double precision — proved. Code: util.py:unit. Theorems (FUnit.v): `C76_norm_accuracy`, `C76_unit_accuracy`.
* **C77** Distances are exactly symmetric and exactly zero in double precision — proved. Code: core.py:great_circle_distance, core.py:euclidean_distance. Theorems (FDist.v): `C77_great_circle_symmetric`, `C77_euclidean_symmetric`, `C77_zero_distance`.
* **C78** great_circle_distance is well conditioned for all angles — proved. Code: core.py:great_circle_distance, util.py:unit. Theorems (FGreat.v): `C78_angle_accuracy`, `C78_great_circle_accuracy`, `C78_earth`, `C78_of_any_vectors`.
* **C79** deg and rad are accurate, odd, monotone and keep the ranges in double precision — proved. Code: util.py:deg, util.py:rad. Theorems (FAngle.v): `C79_accuracy`, `C79_round_trip`, `C79_odd`, `C79_monotone`, `C79_range`.
* **C80** Azimuths are reduced to [-pi, pi] in double precision — proved. Code: objects.py:_base_angle, objects.py:GeoPoint.displace, objects.py:GeoPoint.distance_and_azimuth. Theorems (FMod.v): `C80_base_angle`, `C80_pi_is_reached`.
* **C81** From degrees to metres: great circle distances are right to 40 nanometres — proved. Code: core.py:lat_lon2n_E, util.py:rad, core.py:great_circle_distance. Theorems (FLatLon.v): `C81_n_vector`, `C81_distance_from_radians`, `C81_distance_from_degrees`, `C81_earth`.
* **C82** euclidean_distance has a small relative error, however close the positions — proved. Code: core.py:euclidean_distance. Theorems (FClose.v): `C82_euclidean_accuracy`.
* **C83** isclose is symmetric, reflexive and right to 3 units of roundoff in double precision — proved. Code: util.py:isclose. Theorems (FClose.v): `C83_symmetric`, `C83_reflexive`, `C83_decision`.
* **C84** Elevations are numbers in double precision — proved. Code: objects.py:Pvector.elevation, objects.py:Pvector.length. Theorems (FNan.v): `C84_elevation_in_domain`, `C84_elevation_is_a_number`, `C84_axis_length_is_exact`.
* **C85** cross_track_distance is accurate in double precision away from the poles of the great circle — partial. Code: core.py:cross_track_distance, core.py:great_circle_normal, util.py:unit. Theorems (FTrack.v): `C85_sine_accuracy`, `C85_pole_nan_refuted`, `C85_distance_accuracy`, `C85_earth`. Note: Accuracy proved for all points off the poles of the great circle; at a pole the distance can be NaN (C85_pole_nan_refuted).
* **C86** The points that define a path are on its great circle — partial. Code: core.py:on_great_circle, core.py:cross_track_distance, objects.py:GeoPath.on_great_circle. Theorems (FOnCircle.v): `C86_own_points_on_circle`, `C86_default_tolerance_refuted`. Note: Proved for sufficient tolerances (C86_own_points_on_circle); false with the default tolerance for short paths (C86_default_tolerance_refuted).
* **C87** What a method answers does not depend on earlier calls — partial. Code: objects.py:GeoPoint, objects.py:Nvector, objects.py:ECEFvector, objects.py:Pvector, objects.py:FrameN, objects.py:FrameL, objects.py:FrameB, objects.py:GeoPath, objects.py:Nvector.unit, objects.py:delta_E, objects.py:delta_N, objects.py:delta_L. Theorems (PHist2.v, PHist3.v): `C87_conversions`, `C87_differences`, `C87_ecef_arithmetic`, `C87_change_frame`, `C87_paths`, `C87_new_frames`, `C87_nvector_arithmetic`, `C87_nvector_sum_refuted`, `C87_path_interpolate`, `C87_path_intersect`, `C87_path_closest`, `C87_mean`, `C87_displace`. Note: All classes of calls proved; only Nvector arithmetic, which reads the stored (possibly unnormalised) vector, is sensitive to an earlier in-place unit() (C87_nvector_sum_refuted).
* **C88** Latitude and longitude survive the trip through an n-vector — proved. Code: rotation.py:n_E2lat_lon, core.py:lat_lon2n_E, objects.py:GeoPoint.to_nvector, objects.py:Nvector.to_geo_point, util.py:rad, util.py:deg. Theorems (FInv.v, FInv2.v, FInv3.v): `C88_accuracy`, `C88_round_trip_radians`, `C88_round_trip_degrees`, `C88_range`, `C88_near_pole`, `C88_poles`.
* **C89** n-vector and depth to ECEF coordinates: 33 nanometres from degrees — proved. Code: core.py:n_EB_E2p_EB_E, util.py:unit, objects.py:GeoPoint.to_ecef_vector, objects.py:Nvector.to_ecef_vector. Theorems (FEcef.v, FEcef2.v): `C89_accuracy`, `C89_from_degrees`, `C89_wgs84`.
* **C90** ECEF coordinates to n-vector and depth: 12 nanometres — proved. Code: core.py:p_EB_E2n_EB_E, core.py:_compute_k, core.py:_equation23, util.py:nthroot, objects.py:ECEFvector.to_nvector. Theorems (FGeod10.v, FGeod6.v, FGeod7.v, FGeod9.v): `C90_round_trip_nvector`, `C90_round_trip_degrees`, `C90_accuracy`, `C90_wgs84`, `C90_near`.
* **C91** The North, East and Down axes are accurate and orthonormal in double precision, poles included — proved. Code: rotation.py:n_E2R_EN, objects.py:FrameN.R_EN, util.py:unit. Theorems (FNed2.v, FNed3.v): `C91_accuracy`, `C91_orthonormal`, `C91_pole`, `C91_from_degrees`.
* **C92** The vector from A to B in metres north, east and down: 0.22 micrometres from degrees — proved. Code: objects.py:delta_E, objects.py:delta_N, objects.py:GeoPoint.delta_to, objects.py:ECEFvector.change_frame, objects.py:Pvector.length, objects.py:Pvector.azimuth, core.py:n_EA_E_and_n_EB_E2p_AB_E. Theorems (FDelta.v, FDelta2.v, FDelta3.v): `C92_zero`, `C92_antisymmetric`, `C92_from_degrees`, `C92_wgs84`, `C92_length`, `C92_azimuth`.
* **C93** What arguments left out stand for — proved. Code: objects.py:_default_frame, objects.py:FrameE, objects.py:ECEFvector, objects.py:Pvector, objects.py:GeoPath.on_path, objects.py:GeoPath.on_great_circle, objects.py:diff_positions, core.py:n_EB_E2p_EB_E, core.py:p_EB_E2n_EB_E, core.py:great_circle_distance, core.py:euclidean_distance. Theorems (PDefault.v): `C93_default_frame`, `C93_default_ellipsoid`, `C93_default_radius`, `C93_default_tolerances`, `C93_scalar_inferred`, `C93_diff_positions`.
* **C94** From A by a vector to B: 0.26 micrometres from degrees, and there along the computed vector in 0.53 micrometres — proved. Code: core.py:n_EA_E_and_p_AB_E2n_EB_E, objects.py:Pvector.to_ecef_vector, objects.py:ECEFvector.__add__, objects.py:Pvector.to_geo_point, objects.py:ECEFvector.to_geo_point. Theorems (FMove.v, FMove3.v): `C94_accuracy`, `C94_degrees`, `C94_there`.
* **C95** Along a great circle by a distance in a direction: 0.23 micrometres from degrees and metres — proved. Code: core.py:n_EA_E_distance_and_azimuth2n_EB_E, objects.py:GeoPoint._displace_great_circle, objects.py:GeoPoint.displace. Theorems (FWay4.v, FWay5.v): `C95_nvector`, `C95_distance`, `C95_degrees`, `C95_displace`.
* **C96** Several paths or several positions in one call — partial. Code: core.py:cross_track_distance, core.py:on_great_circle, core.py:closest_point_on_great_circle, objects.py:GeoPath.closest_point_on_path, objects.py:GeoPath.closest_point_on_great_circle. Theorems (PMany.v, PMany2.v): `C96_cross_track_partial`, `C96_cross_track_pairs_refuted`, `C96_on_circle_partial`, `C96_three_points_refuted`, `C96_three_points_partial`, `C96_closest_point_on_path_refuted`. Note: What the functions compute for every n and m is proved (C96_*_partial, entry i*m+j belongs to path i and position j, which is the documented answer when n = 1 or m = 1); the documented pairing for n = m > 1 and several positions in the closest-point functions are refuted (C96_*_refuted).
* **C97** Interpolated and mean positions: a few units of roundoff, whatever the order of the additions — proved. Code: core.py:interpolate, objects.py:GeoPath.interpolate, core.py:mean_horizontal_position, objects.py:Nvector.mean. Theorems (FInterp.v, FMean.v): `C97_interpolate`, `C97_quarter_turn`, `C97_mean`, `C97_mean_cap`.
* **C98** Closest point of a great circle and crossing of two great circles: error bound in binary64 — proved. Code: core.py:closest_point_on_great_circle, core.py:intersect, objects.py:GeoPath.closest_point_on_great_circle, objects.py:GeoPath.intersect. Theorems (FPoint2.v, FPoint3.v): `C98_closest_point`, `C98_intersect`, `C98_quarter_turn`.
* **C99** unit() on huge, infinite and NaN vectors — partial. Code: util.py:unit. Theorems (FHuge.v, FHuge2.v): `C99_huge_vectors_vanish_refuted`, `C99_infinite_vectors`, `C99_nan_vectors`, `C99_ordinary_vectors`, `C99_tiny_vectors`. Note: C76 and C62 cover the ordinary and tiny vectors. The first sentence is refuted for every finite column with a component >= 2^512 (C99_huge_vectors_vanish_refuted); the infinite and NaN cases are proved.
* **C100** Mirror images and reversed paths: exactly the same numbers — proved. Code: core.py:great_circle_distance, core.py:euclidean_distance, core.py:lat_lon2n_E, core.py:n_EB_E2p_EB_E, core.py:n_EA_E_and_n_EB_E2p_AB_E, core.py:cross_track_distance, core.py:closest_point_on_great_circle. Theorems (FMirror2.v, FMirror3.v): `C100_distance_of_mirror_images`, `C100_chord_of_mirror_images`, `C100_n_vector_of_mirror_images`, `C100_ecef_of_mirror_images`, `C100_delta_of_mirror_images`, `C100_cross_track_of_mirror_images`, `C100_cross_track_of_reversed_path`, `C100_closest_point_of_reversed_path`, `C100_distance_from_degrees`.
* **C101** Turning the whole globe turns the answers — partial. Code: core.py:great_circle_distance, core.py:cross_track_distance, core.py:great_circle_normal, core.py:intersect, core.py:closest_point_on_great_circle, core.py:interpolate, core.py:mean_horizontal_position. Theorems (PRotate.v): `C101_great_circle_distance`, `C101_cross_track_distance`, `C101_great_circle_normal`, `C101_intersect`, `C101_closest_point`, `C101_interpolate`, `C101_mean_position`, `C101_mean_of_cancelling_positions_refuted`. Note: Exact real arithmetic. The mean of positions that cancel is the exception, and the unrestricted claim is refuted (C101_mean_of_cancelling_positions_refuted); closest_point is proved for a query that is not a pole of the circle (C20_pole_refuted: the answer there is (1,0,0) or so, whatever the circle).
* **C102** Shifting all longitudes changes nothing but the longitudes — proved. Code: core.py:lat_lon2n_E, core.py:n_EB_E2p_EB_E, core.py:p_EB_E2n_EB_E, core.py:n_EA_E_and_n_EB_E2p_AB_E, rotation.py:n_E2R_EN, core.py:n_EA_E_and_n_EB_E2azimuth, core.py:n_EA_E_distance_and_azimuth2n_EB_E, objects.py:delta_N. Theorems (PRotate2.v, PRotate3.v): `C102_n_EB_E2p_EB_E`, `C102_p_EB_E2n_EB_E`, `C102_delta_E`, `C102_n_E2R_EN`, `C102_azimuth`, `C102_direct_problem`, `C102_longitude_shift`, `C102_delta_N_any_B`, `C102_delta_N_of_geo_points`.
* **C103** Euler angles survive the trip through a rotation matrix in double precision, next to gimbal lock too — proved. Code: rotation.py:xyz2R, rotation.py:zyx2R, rotation.py:R2xyz, rotation.py:R2zyx. Theorems (FEuler.v, FEuler2.v, FEuler3.v): `C103_xyz_round_trip`, `C103_zyx_round_trip`, `C103_matrices`, `C103_degrees`, `C103_near_rotation`.
* **C104** Body and wander frames in double precision — proved. Code: objects.py:FrameB.R_EN, objects.py:FrameL.R_EN, objects.py:delta_L, objects.py:ECEFvector.change_frame, objects.py:Pvector.to_ecef_vector, rotation.py:n_E_and_wa2R_EL. Theorems (FBody2.v, FBody3.v, FBody4.v): `C104_body_axes`, `C104_wander_axes`, `C104_delta_body`, `C104_delta_wander`, `C104_wgs84`, `C104_target`, `C104_seen_and_placed`. Note: sine, cosine, arctan2 and power are within one unit in the last place; the sums of products of mdot are in any order. Yaw between 180 and 229 degrees is covered by the lemma in radians (|yaw| <= 4) only.
* **C105** GeoPoint.distance_and_azimuth along the great circle in double precision — proved. Code: objects.py:GeoPoint._distance_and_azimuth_greatcircle, objects.py:delta_N, objects.py:_base_angle, core.py:great_circle_distance. Theorems (FCourse.v): `C105_azimuth_a`, `C105_azimuth_b`, `C105_distance`.
* **C106** GeoPath distances and on_great_circle in double precision, from positions in degrees — proved. Code: objects.py:GeoPath.cross_track_distance, objects.py:GeoPath.track_distance, objects.py:GeoPath.on_great_circle, objects.py:GeoPath._get_average_radius, core.py:cross_track_distance. Theorems (FGeoPath.v): `C106_track_distance`, `C106_cross_track`, `C106_cross_track_earth`, `C106_on_great_circle`.
* **C107** ECEFvector arithmetic is vector arithmetic — proved. Code: objects.py:ECEFvector.__add__, objects.py:ECEFvector.__sub__, objects.py:ECEFvector.__neg__, objects.py:ECEFvector.__init__. Theorems (PEcefOps.v): `C107_componentwise`, `C107_sub_is_add_neg`, `C107_neg_twice`, `C107_vector_laws`.
* **C108** GeoPath.interpolate, intersect and closest_point_on_great_circle in double precision, from positions in degrees — proved. Code: objects.py:GeoPath.interpolate, objects.py:GeoPath.intersect, objects.py:GeoPath._closest_point_on_great_circle, objects.py:GeoPath.closest_point_on_great_circle, core.py:lat_lon2n_E. Theorems (FGeoPath2.v, FGeoPath3.v): `C108_interpolate`, `C108_intersect`, `C108_closest_point`.
* **C109** GeoPoint == GeoPoint in double precision — partial. Code: objects.py:GeoPoint._is_equal_to, objects.py:_Common.__eq__, util.py:allclose, util.py:isclose. Theorems (FEqual.v): `C109_angle_decision`, `C109_reflexive`, `C109_not_symmetric`, `C109_symmetric_partial`, `C109_full_turn`, `C109_decision`. Note: Symmetry is refuted: GeoPoint(0, 1.01e-14) == GeoPoint(0, 0) is False and GeoPoint(0, 0) == GeoPoint(0, 1.01e-14) is True (C109_not_symmetric), because a difference just below 0 is rounded when it is folded by % (2*pi). C109_symmetric_partial proves symmetry outside the band of (1.4 d + 13) u around the tolerance; everything else in the statement is proved.
* **C110** Nvector, ECEFvector, Pvector and FrameE == in double precision — proved. Code: objects.py:Nvector._is_equal_to, objects.py:Pvector._is_equal_to, objects.py:FrameE._is_equal_to, objects.py:_Common.__eq__, objects.py:_check_frames, util.py:allclose, util.py:isclose. Theorems (FEqual2.v): `C110_symmetric`, `C110_reflexive`, `C110_decision`, `C110_frame`.
* **C111** Elevation in double precision: relative error away from the vertical, half the digits close to it — proved. Code: objects.py:Pvector.elevation, objects.py:Pvector.elevation_deg, objects.py:Pvector.length, objects.py:GeoPoint.delta_to, objects.py:delta_N. Theorems (FElev.v): `C111_accuracy`, `C111_near_vertical`, `C111_from_degrees`.
* **C112** On the path or not, in double precision: on_great_circle_path and GeoPath.on_path — partial. Code: core.py:on_great_circle_path, core.py:on_great_circle, objects.py:GeoPath._on_great_circle_path, objects.py:GeoPath.on_path, util.py:isclose. Theorems (FOnPath.v): `C112_ends_between`, `C112_no_length`, `C112_between`, `C112_on_path`, `C112_point_path`, `C112_default_tolerance_refuted`. Note: The claim that the ends of a path are on the path is refuted for the default tolerance (C112_default_tolerance_refuted) and for zero-length paths (C112_no_length, C112_point_path); everything else is proved.
* **C113** Angles that come out in degrees are as good as those in radians — proved. Code: objects.py:Pvector.azimuth_deg, objects.py:Pvector.elevation_deg, objects.py:GeoPoint._distance_and_azimuth_greatcircle, objects.py:GeoPoint.distance_and_azimuth, util.py:deg. Theorems (FDegOut.v): `C113_azimuth_deg`, `C113_elevation_deg`, `C113_distance_and_azimuth`.
* **C114** closest_point_on_path returns the closest point of the path, in double precision — proved. Code: objects.py:GeoPath.closest_point_on_path, objects.py:GeoPath._closest_point_on_path, objects.py:GeoPath._closest_point_on_great_circle, core.py:closest_point_on_great_circle, core.py:on_great_circle_path, objects.py:GeoPath._on_great_circle_path. Theorems (FNearest.v, FNearest2.v): `C114_foot_on_circle`, `C114_closest_on_path`.
* **C115** The n-vector comes back from the rotation matrix, in double precision — proved. Code: rotation.py:R_EL2n_E, rotation.py:R_EN2n_E, rotation.py:n_E2R_EN, rotation.py:n_E_and_wa2R_EL, util.py:mdot. Theorems (FLastCol.v): `C115_last_column`, `C115_round_trip`, `C115_from_degrees`.
* **C116** From degrees to degrees: closest, interpolated and crossing positions of a GeoPath — proved. Code: objects.py:GeoPath.closest_point_on_path, objects.py:GeoPath._closest_point_on_path, objects.py:GeoPath.closest_point_on_great_circle, objects.py:GeoPath.intersect, objects.py:GeoPath.interpolate, objects.py:Nvector.to_geo_point, objects.py:GeoPoint.latitude_deg, objects.py:GeoPoint.longitude_deg. Theorems (FNearest3.v): `C116_closest_on_path`, `C116_interpolate`, `C116_intersect`, `C116_closest_on_circle`, `C116_earth`.
* **C117** Azimuth from A to B in double precision, and the azimuth back from the direct problem — proved. Code: core.py:n_EA_E_and_n_EB_E2azimuth, core.py:n_EA_E_distance_and_azimuth2n_EB_E, core.py:n_EA_E_and_n_EB_E2p_AB_E, rotation.py:n_E2R_EN. Theorems (FBearing.v): `C117_azimuth`, `C117_sphere`, `C117_round_trip`, `C117_wgs84`.
* **C118** The cube root in double precision — partial. Code: util.py:nthroot. Theorems (FRoot.v): `C118_accuracy_partial`, `C118_large_refuted`. Note: False of the code from 2^52 on: the Newton correction is then skipped (_EPS * np.abs(x) < 1 fails) and the exponent 1. / 3 alone decides; C118_large_refuted proves the root of 2^900 at least 70 u too small, for every pow allowed. Proved instead: 1.7 u for all x with 2^-400 <= x < 2^52 (C118_accuracy_partial). Not covered: x below 2^-400, and n other than 3, which the library does not use.
* **C119** Euclidean track and cross track distance of a GeoPath, from degrees, in double precision — proved. Code: objects.py:GeoPath.track_distance, objects.py:GeoPath.cross_track_distance, objects.py:GeoPath._get_average_radius, core.py:euclidean_distance, core.py:cross_track_distance, core.py:_euclidean_cross_track_distance. Theorems (FChord.v): `C119_chord`, `C119_cross_track`.
