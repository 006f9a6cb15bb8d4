{"id": "C01", "title": "unit() normalises every nonzero column and maps zero columns as documented", "statement": "unit(v) on a 3 x m array returns a 3 x m array in which every column that was nonzero has Euclidean length exactly 1 and points in the same direction as the input column, every zero column becomes [1,0,0] (default) or all-NaN (norm_zero_vector=nan), and each output column depends only on the corresponding input column.", "quantifier": "every m, every 3 x m array of finite numbers, every column index, both documented zero-vector modes", "why_tests_cant": "direction and length must hold for all real vectors and all array widths; tests sample a few columns", "anchors": ["src/nvector/util.py:unit"]}
{"id": "C02", "title": "unit() is idempotent and insensitive to positive scaling", "statement": "unit(unit(v)) == unit(v) and unit(c*v) == unit(v) for every c > 0.", "quantifier": "every 3 x m array, every positive scale factor", "why_tests_cant": "a law over all inputs", "anchors": ["src/nvector/util.py:unit"]}
{"id": "C03", "title": "lat_lon2n_E always yields unit n-vectors with the documented axes", "statement": "lat_lon2n_E(lat, lon, R_Ee) returns columns of length exactly 1 for every latitude/longitude and every orthogonal R_Ee; in the default axes the components are (cos lat cos lon, cos lat sin lon, sin lat).", "quantifier": "all real latitudes and longitudes, all array lengths, all orthogonal R_Ee", "why_tests_cant": "continuous domain", "anchors": ["src/nvector/core.py:lat_lon2n_E", "src/nvector/rotation.py:E_rotation"]}
{"id": "C04", "title": "latitude/longitude -> n-vector -> latitude/longitude is the identity", "statement": "n_E2lat_lon(lat_lon2n_E(lat, lon)) returns (lat, lon) for -pi/2 < lat < pi/2 and -pi < lon < pi, and the latitude is still recovered at the poles.", "quantifier": "all latitudes and longitudes in range, all array lengths, every orthogonal R_Ee", "why_tests_cant": "round trip over a continuum, incl. boundary behaviour", "anchors": ["src/nvector/rotation.py:n_E2lat_lon", "src/nvector/core.py:lat_lon2n_E"]}
{"id": "C05", "title": "n-vector -> latitude/longitude -> n-vector is normalisation", "statement": "n_E2lat_lon returns latitude in [-pi/2, pi/2] and longitude in [-pi, pi]; feeding them to lat_lon2n_E gives back unit(n) for every nonzero n, the poles and the antimeridian included, and neither angle depends on the length of n.", "quantifier": "all nonzero n-vectors, all array widths, every orthogonal R_Ee", "why_tests_cant": "must hold at singular points and for all directions", "anchors": ["src/nvector/rotation.py:n_E2lat_lon", "src/nvector/core.py:lat_lon2n_E"]}
{"id": "C06", "title": "n_EB_E2p_EB_E places B on the ellipsoid normal", "statement": "With depth 0 the returned p lies on the ellipsoid with semi-axes a and a(1-f), the outward normal of the ellipsoid at p is parallel to n, and for depth d the returned p is the surface point minus d times the unit n.", "quantifier": "all nonzero n-vectors, all depths, all a > 0, all 0 <= f < 1, all orthogonal R_Ee, all array widths", "why_tests_cant": "exactness claim over a continuum of ellipsoids and positions", "anchors": ["src/nvector/core.py:n_EB_E2p_EB_E"]}
{"id": "C07", "title": "n-vector/depth -> ECEF -> n-vector/depth is exact", "statement": "p_EB_E2n_EB_E(n_EB_E2p_EB_E(n, depth)) returns (n, depth) for every unit n and every depth smaller than a(1-2e^2), e^2 = f(2-f) <= 1/2 (f <= 0.29); and for every flattening wherever the position is clear of the core around the Earth's centre and the normal has not crossed the plane of the equator.", "quantifier": "all unit n-vectors, all depths in range, all a > 0, all 0 <= f < 1, all orthogonal R_Ee", "why_tests_cant": "closed-form quartic root must be the right one everywhere", "anchors": ["src/nvector/core.py:p_EB_E2n_EB_E", "src/nvector/core.py:_equation23", "src/nvector/core.py:_compute_k", "src/nvector/core.py:n_EB_E2p_EB_E"]}
{"id": "C08", "title": "ECEF -> n-vector/depth -> ECEF is exact", "statement": "n_EB_E2p_EB_E applied to the output of p_EB_E2n_EB_E(p) returns p for every p outside the central core (R_yz^2 + (1-e^2) R_x^2 > e^4 a^2); the returned n-vector has length 1.", "quantifier": "all Cartesian positions outside the core, all a > 0, all 0 <= f < 1, all orthogonal R_Ee, all array widths", "why_tests_cant": "same as C07, in the other direction", "anchors": ["src/nvector/core.py:p_EB_E2n_EB_E", "src/nvector/core.py:_equation23", "src/nvector/core.py:_compute_k", "src/nvector/core.py:n_EB_E2p_EB_E"]}
{"id": "C09", "title": "delta vectors obey the vector-triangle laws", "statement": "n_EA_E_and_n_EB_E2p_AB_E(A,B) = -(\u2026)(B,A), is 0 for A = B at equal depth, and p_AB + p_BC = p_AC.", "quantifier": "all pairs/triples of n-vectors and depths, all ellipsoids, all widths", "why_tests_cant": "algebraic law over all inputs", "anchors": ["src/nvector/core.py:n_EA_E_and_n_EB_E2p_AB_E"]}
{"id": "C10", "title": "position from A plus delta recovers B", "statement": "n_EA_E_and_p_AB_E2n_EB_E(n_A, n_EA_E_and_n_EB_E2p_AB_E(n_A, n_B, z_A, z_B), z_A) returns (n_B, z_B) when z_B < a(1-2e^2), e^2 <= 1/2.", "quantifier": "all unit n-vectors, depths, ellipsoids, orthogonal R_Ee", "why_tests_cant": "composition of two exact conversions", "anchors": ["src/nvector/core.py:n_EA_E_and_p_AB_E2n_EB_E", "src/nvector/core.py:n_EA_E_and_n_EB_E2p_AB_E"]}
{"id": "C11", "title": "f == 0 means a sphere of radius a", "statement": "With f = 0, n_EB_E2p_EB_E returns (a - depth) * unit(n) and p_EB_E2n_EB_E returns (p/|p|, a - |p|) for every p != 0.", "quantifier": "all inputs with f = 0", "why_tests_cant": "documented special case over a continuum", "anchors": ["src/nvector/core.py:n_EB_E2p_EB_E", "src/nvector/core.py:p_EB_E2n_EB_E"]}
{"id": "C12", "title": "great_circle_distance is radius times the angle and is a metric", "statement": "great_circle_distance(A,B,R) equals R times the angle between A and B for all nonzero vectors; it is symmetric, lies in [0, pi R], is 0 iff A and B point the same way, and satisfies the triangle inequality on unit vectors.", "quantifier": "all n-vectors, all radii, B of any width m", "why_tests_cant": "metric laws quantify over all triples", "anchors": ["src/nvector/core.py:great_circle_distance"]}
{"id": "C13", "title": "great_circle_distance on two 3 x n arrays returns n distances", "statement": "For A and B both 3 x n the result has length n and its i-th entry is the distance between column i of A and column i of B.", "quantifier": "every n", "why_tests_cant": "must hold for every n; the suite only uses n = 1", "anchors": ["src/nvector/core.py:great_circle_distance"]}
{"id": "C14", "title": "euclidean_distance is the chord length", "statement": "euclidean_distance(A,B,R) = R |B - A|; for unit vectors it equals 2 R sin(theta/2), where R theta is the great circle distance, hence never exceeds it; symmetric, zero iff equal, triangle inequality; vectorises columnwise with broadcasting.", "quantifier": "all n-vectors, radii >= 0, widths", "why_tests_cant": "relation between two functions over all inputs", "anchors": ["src/nvector/core.py:euclidean_distance", "src/nvector/core.py:great_circle_distance"]}
{"id": "C15", "title": "great_circle_normal is the unit normal of the plane of the path", "statement": "great_circle_normal(A,B) has length 1 and is orthogonal to A and B whenever A x B != 0, changes sign when A and B are swapped, and is NaN when A and B are parallel.", "quantifier": "all pairs of vectors, all widths", "why_tests_cant": "all inputs incl. degenerate", "anchors": ["src/nvector/core.py:great_circle_normal"]}
{"id": "C16", "title": "intersect returns a point on both great circles, on A1's side", "statement": "If the two great circles are distinct, intersect(path_a, path_b) is a unit vector lying on both great circles whose dot product with A1 is >= 0.", "quantifier": "all pairs of 3 x 1 paths with distinct great circles", "why_tests_cant": "every pair of paths; special positions matter", "anchors": ["src/nvector/core.py:intersect"]}
{"id": "C17", "title": "intersect reports undefined intersections as NaN with a warning", "statement": "If the two great circles coincide or a path is degenerate, intersect returns all-NaN and emits the 'Paths are Equal' warning; otherwise no warning is emitted.", "quantifier": "all pairs of 3 x 1 paths", "why_tests_cant": "iff over all inputs", "anchors": ["src/nvector/core.py:intersect"]}
{"id": "C18", "title": "intersect works for paths with n > 1 columns", "statement": "For path_a of shape 2 x 3 x n and path_b of shape 2 x 3 x m (n = m or one of them 1), intersect returns a 3 x max(n,m) array with the columnwise intersections.", "quantifier": "every n, m", "why_tests_cant": "documented shape contract for every width", "anchors": ["src/nvector/core.py:intersect"]}
{"id": "C19", "title": "cross_track_distance is the signed angular distance to the great circle", "statement": "For unit B and a non-degenerate path, R times arcsin of minus the component of B along the path normal; its absolute value is the minimum great circle distance from B to any point of the great circle, it is 0 iff B is on the great circle, and it changes sign when the path is reversed; 'euclidean' gives R times the plane distance.", "quantifier": "all paths, all unit B of any width m, all radii >= 0", "why_tests_cant": "minimum over a continuum", "anchors": ["src/nvector/core.py:cross_track_distance", "src/nvector/core.py:_great_circle_cross_track_distance", "src/nvector/core.py:_euclidean_cross_track_distance"]}
{"id": "C20", "title": "closest_point_on_great_circle minimises the distance", "statement": "The returned C is a unit vector on the great circle of the path, in the same hemisphere as B, and no point of the great circle is closer to B; great_circle_distance(B,C) = |cross_track_distance|.", "quantifier": "all non-degenerate paths, all unit B", "why_tests_cant": "optimality over a continuum", "anchors": ["src/nvector/core.py:closest_point_on_great_circle"]}
{"id": "C21", "title": "on_great_circle decides |cross track| <= atol", "statement": "on_great_circle(path,B) is True iff the great-circle cross track distance is at most atol in absolute value; every point of the great circle is accepted and a point at angular distance phi from the plane is accepted iff R*phi <= atol.", "quantifier": "all paths, positions, radii, tolerances", "why_tests_cant": "iff over a continuum", "anchors": ["src/nvector/core.py:on_great_circle"]}
{"id": "C22", "title": "on_great_circle_path decides membership of the segment", "statement": "on_great_circle_path(path,B,atol=0) is True iff B is on the shorter great circle arc between A1 and A2.", "quantifier": "all non-degenerate paths (unit A1, A2), all unit B", "why_tests_cant": "iff over all paths, including long ones", "anchors": ["src/nvector/core.py:on_great_circle_path"]}
{"id": "C23", "title": "direct problem: B is at the requested distance", "statement": "n_EA_E_distance_and_azimuth2n_EB_E(A,d,az) is a unit vector; its great circle distance from A is d for 0 <= d <= pi; d = 0 returns A and d and -d with azimuth az+pi give the same point.", "quantifier": "all unit A (poles included), all distances and azimuths, every documented R_Ee", "why_tests_cant": "continuum incl. poles and both axis choices", "anchors": ["src/nvector/core.py:n_EA_E_distance_and_azimuth2n_EB_E"]}
{"id": "C24", "title": "inverse azimuth of the direct problem", "statement": "On a sphere (f=0) n_EA_E_and_n_EB_E2azimuth(A, n_EA_E_distance_and_azimuth2n_EB_E(A,d,az)) = az for 0 < d < pi, az in (-pi, pi).", "quantifier": "all unit A, d, az, a > 0", "why_tests_cant": "two functions must agree everywhere", "anchors": ["src/nvector/core.py:n_EA_E_and_n_EB_E2azimuth", "src/nvector/core.py:n_EA_E_distance_and_azimuth2n_EB_E"]}
{"id": "C25", "title": "interpolate stays on the great circle and hits the endpoints", "statement": "interpolate((A,B),0) = unit(A), interpolate((A,B),1) = unit(B); every interpolated point is a unit vector in the plane of A and B, for 0<=t<=1 it is a nonnegative combination of A and B, and it is NaN exactly when A + t(B-A) = 0.", "quantifier": "all pairs, all real t, all widths", "why_tests_cant": "continuum", "anchors": ["src/nvector/core.py:interpolate"]}
{"id": "C26", "title": "mean_horizontal_position is a unit vector independent of the order of the positions", "statement": "The mean of n positions is the unit vector along the sum of the columns (when the sum is nonzero), does not depend on the order of the columns, and maximises the sum of the cosines of the angles to the positions.", "quantifier": "every n, every 3 x n array, every permutation", "why_tests_cant": "every n and every permutation", "anchors": ["src/nvector/core.py:mean_horizontal_position"]}
{"id": "C27", "title": "xyz2R and zyx2R are products of elementary rotations", "statement": "xyz2R(x,y,z) = Rx(x) Ry(y) Rz(z), zyx2R(z,y,x) = Rz(z) Ry(y) Rx(x); both are orthogonal with determinant 1, for scalars and for arrays of any length.", "quantifier": "all angles, all array lengths n >= 1", "why_tests_cant": "all angles", "anchors": ["src/nvector/rotation.py:xyz2R", "src/nvector/rotation.py:zyx2R", "src/nvector/rotation.py:_atleast_3d"]}
{"id": "C28", "title": "Euler angle round trip: angles -> matrix -> angles", "statement": "R2xyz(xyz2R(x,y,z)) = (x,y,z) and R2zyx(zyx2R(z,y,x)) = (z,y,x) for |y| < pi/2, |x|,|z| < pi.", "quantifier": "all angles in range", "why_tests_cant": "continuum", "anchors": ["src/nvector/rotation.py:R2xyz", "src/nvector/rotation.py:R2zyx", "src/nvector/rotation.py:xyz2R", "src/nvector/rotation.py:zyx2R"]}
{"id": "C29", "title": "Euler angle round trip: rotation matrix -> angles -> matrix", "statement": "xyz2R(R2xyz(R)) = R and zyx2R(R2zyx(R)) = R for every rotation matrix R.", "quantifier": "all rotation matrices", "why_tests_cant": "includes the gimbal lock set, which sampling misses", "anchors": ["src/nvector/rotation.py:R2xyz", "src/nvector/rotation.py:R2zyx"]}
{"id": "C30", "title": "n_E2R_EN is the North-East-Down rotation everywhere", "statement": "For every nonzero n and rotation R_Ee the result is a rotation matrix (orthogonal, det 1), its third column is -unit(n), its second column is orthogonal to the Earth axis, and its first column has a nonnegative component along the Earth axis; poles included.", "quantifier": "all nonzero n, all rotations R_Ee, all widths", "why_tests_cant": "singular points", "anchors": ["src/nvector/rotation.py:n_E2R_EN"]}
{"id": "C31", "title": "n_E_and_wa2R_EL is a local level frame rotated by the wander azimuth", "statement": "The result is a rotation with third column -unit(n); away from the poles it equals n_E2R_EN(n) times a rotation by the wander azimuth about the down axis, so wander azimuth 0 gives N = L.", "quantifier": "all nonzero n, all wander azimuths, all rotations R_Ee", "why_tests_cant": "two implementations must agree everywhere", "anchors": ["src/nvector/rotation.py:n_E_and_wa2R_EL", "src/nvector/rotation.py:n_E2R_EN"]}
{"id": "C32", "title": "n-vector is recovered from R_EN and R_EL", "statement": "R_EN2n_E(n_E2R_EN(n)) = unit(n) and R_EL2n_E(n_E_and_wa2R_EL(n,wa)) = unit(n).", "quantifier": "all nonzero n, all wander azimuths, all widths", "why_tests_cant": "round trip over a continuum", "anchors": ["src/nvector/rotation.py:R_EN2n_E", "src/nvector/rotation.py:R_EL2n_E"]}
{"id": "C33", "title": "mdot multiplies slice by slice with broadcasting", "statement": "mdot(a,b)[:,:,s] is the matrix product of slice s of a and slice s of b, for equal numbers of slices or when either has no slice axis or a single slice; it is associative; mismatched inner dimensions raise ValueError.", "quantifier": "all matrix sizes, all numbers of slices", "why_tests_cant": "all shapes", "anchors": ["src/nvector/util.py:mdot"]}
{"id": "C34", "title": "deg and rad are inverse", "statement": "deg(rad(x)) = x and rad(deg(x)) = x; with one argument the value itself is returned, with k != 1 arguments a k-tuple of elementwise conversions.", "quantifier": "all reals, all numbers of arguments, all shapes", "why_tests_cant": "all inputs and arities", "anchors": ["src/nvector/util.py:deg", "src/nvector/util.py:rad"]}
{"id": "C35", "title": "isclose is a symmetric relative/absolute tolerance test", "statement": "For finite entries isclose is |a-b| <= max(atol, rtol*max(|a|,|b|)); it is reflexive, symmetric in a and b, monotone in rtol and atol; NaN is close only to NaN and only with equal_nan; infinities are close iff equal.", "quantifier": "all values including NaN and infinities, all tolerances >= 0, all broadcastable shapes", "why_tests_cant": "all inputs", "anchors": ["src/nvector/util.py:isclose"]}
{"id": "C36", "title": "allclose is the conjunction of isclose", "statement": "allclose(a,b) is True iff every broadcast element pair is close; it raises ValueError when the shapes cannot be broadcast.", "quantifier": "all arrays", "why_tests_cant": "all shapes", "anchors": ["src/nvector/util.py:allclose"]}
{"id": "C37", "title": "get_ellipsoid lookup ignores case and spaces", "statement": "get_ellipsoid(s) depends only on s with spaces removed and lowercased; integer ids 1..19 always succeed; everything else raises KeyError.", "quantifier": "all strings, all integers", "why_tests_cant": "infinite key space", "anchors": ["src/nvector/util.py:get_ellipsoid", "src/nvector/util.py:ELLIPSOID", "src/nvector/util.py:ELLIPSOID_IX"]}
{"id": "C38", "title": "every documented ellipsoid name resolves, to a valid ellipsoid", "statement": "Every name listed as valid in get_ellipsoid's docstring is accepted, and every ellipsoid returned has a > 0 and 0 < f < 1.", "quantifier": "all names listed, all strings accepted", "why_tests_cant": "a claim about every accepted key", "anchors": ["src/nvector/util.py:get_ellipsoid", "src/nvector/util.py:ELLIPSOID"]}
{"id": "C39", "title": "array_to_list_dict removes arrays and tuples and keeps the structure", "statement": "The result of array_to_list_dict contains no array or tuple in any dict/list position, is unchanged by a second application, and has the same keys, lengths and leaves; the dict passed in is itself updated to the result.", "quantifier": "all finitely nested values", "why_tests_cant": "unbounded nesting", "anchors": ["src/nvector/util.py:array_to_list_dict"]}
{"id": "C40", "title": "nthroot returns the real n-th root", "statement": "For x >= 0 and n >= 1, nthroot(x,n) is the nonnegative y with y^n = x; elementwise on arrays.", "quantifier": "all x >= 0, n >= 1", "why_tests_cant": "continuum", "anchors": ["src/nvector/util.py:nthroot"]}
{"id": "C41", "title": "== on library objects is symmetric", "statement": "x == y iff y == x for any two library objects (points and frames).", "quantifier": "all pairs of library objects", "why_tests_cant": "all pairs of classes and values", "anchors": ["src/nvector/objects.py:_Common.__eq__", "src/nvector/objects.py:GeoPoint._is_equal_to", "src/nvector/objects.py:Nvector._is_equal_to", "src/nvector/objects.py:Pvector._is_equal_to", "src/nvector/objects.py:FrameE._is_equal_to", "src/nvector/objects.py:FrameN._is_equal_to", "src/nvector/objects.py:FrameB._is_equal_to"]}
{"id": "C42", "title": "== is reflexive, != is its negation and foreign objects are unequal", "statement": "x == x for every object; copies with finite fields are equal; x != y iff not x == y; comparing objects of unrelated classes gives False, never an exception from a missing attribute (arrays that do not broadcast raise ValueError).", "quantifier": "all objects", "why_tests_cant": "all pairs of classes and values", "anchors": ["src/nvector/objects.py:_Common.__eq__", "src/nvector/objects.py:_Common.__ne__"]}
{"id": "C43", "title": "GeoPoint equality ignores whole turns", "statement": "Two GeoPoints whose latitude and longitude differ by multiples of 2 pi and with equal depth and frame are ==; GeoPoints whose angles differ (mod 2 pi) by more than 1e-12 are not.", "quantifier": "all angles, all integers of turns", "why_tests_cant": "all turns", "anchors": ["src/nvector/objects.py:GeoPoint._is_equal_to"]}
{"id": "C44", "title": "operations across unequal frames are refused", "statement": "ECEFvector +,-, Nvector +,-, change_frame, delta_E, delta_N, delta_L and distance_and_azimuth raise ValueError exactly when the frames are unequal (shapes being compatible), and never return a number for mixed frames.", "quantifier": "all pairs of objects and frames", "why_tests_cant": "all pairs", "anchors": ["src/nvector/objects.py:_check_frames", "src/nvector/objects.py:ECEFvector.change_frame", "src/nvector/objects.py:delta_E"]}
{"id": "C45", "title": "delta_E obeys the vector-triangle laws at object level", "statement": "delta_E(a,b) = -delta_E(b,a), delta_E(a,b) + delta_E(b,c) = delta_E(a,c), for points of any of the classes GeoPoint, Nvector, ECEFvector in one frame.", "quantifier": "all points, all class combinations, all widths", "why_tests_cant": "all combinations", "anchors": ["src/nvector/objects.py:delta_E", "src/nvector/objects.py:ECEFvector.__sub__"]}
{"id": "C46", "title": "changing to a local frame is an isometry and is undone by to_ecef_vector", "statement": "For FrameN, FrameL and FrameB, v.change_frame(F).to_ecef_vector() equals v and change_frame preserves length.", "quantifier": "all vectors, all frames N/L/B at all positions, all orientations", "why_tests_cant": "all frames and vectors", "anchors": ["src/nvector/objects.py:ECEFvector.change_frame", "src/nvector/objects.py:Pvector.to_ecef_vector", "src/nvector/objects.py:FrameN.R_EN", "src/nvector/objects.py:FrameL.R_EN", "src/nvector/objects.py:FrameB.R_EN"]}
{"id": "C47", "title": "delta_N and delta_L agree", "statement": "delta_L(a,b,wander_azimuth=0) = delta_N(a,b) away from the poles, and for wander azimuth w delta_L is delta_N rotated by w about the vertical; the down components always agree.", "quantifier": "all points, all wander azimuths", "why_tests_cant": "all positions", "anchors": ["src/nvector/objects.py:delta_N", "src/nvector/objects.py:delta_L"]}
{"id": "C48", "title": "object conversions round trip", "statement": "GeoPoint -> Nvector -> GeoPoint and GeoPoint -> ECEFvector -> GeoPoint return the same latitude, longitude, depth and frame (non-polar, in range), and a scalar point stays scalar.", "quantifier": "all GeoPoints in range, all frames", "why_tests_cant": "all points", "anchors": ["src/nvector/objects.py:GeoPoint.to_nvector", "src/nvector/objects.py:Nvector.to_geo_point", "src/nvector/objects.py:Nvector.to_ecef_vector", "src/nvector/objects.py:ECEFvector.to_nvector", "src/nvector/objects.py:GeoPoint.scalar", "src/nvector/objects.py:Nvector.scalar", "src/nvector/objects.py:Pvector.to_nvector"]}
{"id": "C49", "title": "azimuth, elevation and length are spherical coordinates of a Pvector", "statement": "For every Pvector p != 0: p = length * (cos el cos az, cos el sin az, sin el), azimuth in [-pi,pi], elevation in [-pi/2,pi/2].", "quantifier": "all Pvectors", "why_tests_cant": "continuum", "anchors": ["src/nvector/objects.py:Pvector.azimuth", "src/nvector/objects.py:Pvector.elevation", "src/nvector/objects.py:Pvector.length"]}
{"id": "C50", "title": "_base_angle reduces angles to [-pi, pi)", "statement": "The azimuths at B returned by the great circle methods are in [-pi, pi) and congruent mod 2 pi to the unreduced angle.", "quantifier": "all angles", "why_tests_cant": "all reals", "anchors": ["src/nvector/objects.py:_base_angle"]}
{"id": "C51", "title": "GeoPoint.displace on the great circle follows the azimuth in every frame", "statement": "For any frame axes, displacing a point by distance s and azimuth az with method='greatcircle' gives a point at great circle distance s (radius |p_A|) in direction az from A, with unchanged depth.", "quantifier": "all points, distances, azimuths, both axes conventions", "why_tests_cant": "all frames", "anchors": ["src/nvector/objects.py:GeoPoint._displace_great_circle", "src/nvector/objects.py:GeoPoint.displace"]}
{"id": "C52", "title": "the degrees flag only changes units", "statement": "inverse, direct, displace and distance_and_azimuth called with degrees=True on angles in degrees return the same points and distances as with degrees=False on the same angles in radians, and the returned azimuths are the same angles.", "quantifier": "all inputs, any geodesic solver", "why_tests_cant": "all inputs", "anchors": ["src/nvector/objects.py:FrameE.inverse", "src/nvector/objects.py:FrameE.direct", "src/nvector/objects.py:GeoPoint.displace", "src/nvector/objects.py:GeoPoint.distance_and_azimuth"]}
{"id": "C53", "title": "FrameE.inverse/direct solve pointwise at the given depth", "statement": "For arrays of any length the i-th result is the solver's result for the i-th inputs on the ellipsoid with semi-major axis a - z_i; scalar inputs give scalar outputs; long_unroll selects the LONG_UNROLL mask. Arguments whose lengths do not match (different, neither of them 1) raise ValueError.", "quantifier": "all lengths n >= 1, any solver", "why_tests_cant": "all lengths", "anchors": ["src/nvector/objects.py:FrameE.inverse", "src/nvector/objects.py:FrameE.direct", "src/nvector/objects.py:FrameE._inverse", "src/nvector/objects.py:FrameE._direct", "src/nvector/objects.py:FrameE._outmask", "src/nvector/objects.py:GeoPoint._displace_ellipsoid", "src/nvector/objects.py:GeoPoint._distance_and_azimuth_ellipsoid"]}
{"id": "C54", "title": "GeoPath.track_distance dispatches on the method and uses the mean radius", "statement": "track_distance returns the ellipsoidal distance for 'ex*'/'el*', R|A-B| for 'eu*' and the great circle distance for anything else, with R the mean of the lengths of the two ECEF vectors when not given.", "quantifier": "all method strings, all scalar paths", "why_tests_cant": "all strings", "anchors": ["src/nvector/objects.py:GeoPath.track_distance", "src/nvector/objects.py:GeoPath._get_average_radius"]}
{"id": "C55", "title": "closest_point_on_path returns the closest point of the segment", "statement": "The returned point is on the segment between A and B and no point of the segment is closer to the query point.", "quantifier": "all paths, all query points", "why_tests_cant": "optimality over a continuum", "anchors": ["src/nvector/objects.py:GeoPath.closest_point_on_path", "src/nvector/objects.py:GeoPath._closest_point_on_path"]}
{"id": "C56", "title": "interpolated trajectories are unit n-vectors", "statement": "interp_nvectors returns a 3 x m array whose columns are unit vectors or NaN; with kind='linear' and no smoothing a node time returns the (normalised) node vector, an in-range time returns a point on the arc between neighbouring nodes, and out-of-range times return NaN; the smoothing window passed to the filter is always odd and at least window_length.", "quantifier": "all node counts, all times, all window lengths", "why_tests_cant": "all lengths", "anchors": ["src/nvector/core.py:interp_nvectors", "src/nvector/core.py:_interp_vectors", "src/nvector/objects.py:Nvector.interpolate"]}
{"id": "C57", "title": "Nvector arithmetic is componentwise linear", "statement": "+, -, unary -, * and / by scalars on Nvectors act componentwise on normal and z, + is commutative, a - b = a + (-b); multiplying by an Nvector raises NotImplementedError.", "quantifier": "all Nvectors, all scalars", "why_tests_cant": "algebraic laws", "anchors": ["src/nvector/objects.py:Nvector.__add__", "src/nvector/objects.py:Nvector.__sub__", "src/nvector/objects.py:Nvector.__neg__", "src/nvector/objects.py:Nvector.__mul__", "src/nvector/objects.py:Nvector.__div__"]}
{"id": "C58", "title": "FrameE uses the ellipsoid it was given", "statement": "FrameE(a,f) has exactly those parameters; FrameE(name=s) has those of get_ellipsoid(s); FrameE(a=x) uses x as semi-major axis.", "quantifier": "all parameters", "why_tests_cant": "all combinations of optional arguments", "anchors": ["src/nvector/objects.py:FrameE.__init__"]}
{"id": "C59", "title": "length deviations are reported by a warning and do not change results", "statement": "The 'n-vector should have unit length' warning is emitted iff the first column's length differs from 1 by more than 0.1, and n_EB_E2p_EB_E, n_E2R_EN and n_E2lat_lon return the same result for c*n as for n, c > 0.", "quantifier": "all n-vectors, all scale factors, all widths", "why_tests_cant": "all inputs", "anchors": ["src/nvector/util.py:_check_length_deviation", "src/nvector/core.py:n_EB_E2p_EB_E"]}
{"id": "C60", "title": "the regularising _TINY in unit() never changes a double result", "statement": "In IEEE binary64 arithmetic, for every vector of doubles the computed norm is either 0 or so large that adding the smallest normal number leaves it unchanged, so unit() divides by exactly the computed norm.", "quantifier": "all triples of binary64 numbers", "why_tests_cant": "2^192 inputs", "anchors": ["src/nvector/util.py:unit"]}
{"id": "C61", "title": "distance_and_azimuth on the great circle", "statement": "With method='greatcircle' the distance is the angle between the outward normals times the mean distance of the two positions from the Earth's centre; azimuth_a is the azimuth at A of the straight line to B, azimuth_b that of the line from A at B (for a sphere these are the courses of the great circle); azimuth_b is in [-pi, pi); scalar points give scalars; also for arrays of points.", "quantifier": "all pairs of points, every class of the second point, all widths, every frame", "why_tests_cant": "all positions and array lengths", "anchors": ["src/nvector/objects.py:GeoPoint.distance_and_azimuth", "src/nvector/objects.py:GeoPoint._distance_and_azimuth_greatcircle"]}
{"id": "C62", "title": "unit() replaces only the zero vector", "statement": "In IEEE binary64 arithmetic a column is replaced by the value for zero vectors only if it is the zero vector: any column with a component of magnitude at least 2^-537 is divided by its computed norm. (Smaller non-zero columns are taken for zero: their squares underflow.)", "quantifier": "all triples of binary64 numbers", "why_tests_cant": "2^192 inputs", "anchors": ["src/nvector/util.py:unit"]}
{"id": "C63", "title": "GeoPath.cross_track_distance dispatches on the method and scales with the radius", "statement": "With method 'greatcircle' the result is R times the signed angle between the position and the path's great circle, with 'euclidean' R times the signed distance from the unit n-vector to the plane of the great circle, R being the given radius or the mean distance of the path's ends from the Earth's centre; every method not starting with 'e' or 'E' means great circle, and an empty method string raises IndexError.", "quantifier": "all paths, all positions (vector of any length), all radii, all method strings", "why_tests_cant": "all positions and strings", "anchors": ["src/nvector/objects.py:GeoPath.cross_track_distance"]}
{"id": "C64", "title": "on_great_circle is exactly 'cross track distance within atol'", "statement": "on_great_circle(point, atol) answers True for a position iff its great circle cross track distance is at most atol in magnitude.", "quantifier": "all paths, positions, tolerances, widths", "why_tests_cant": "all positions", "anchors": ["src/nvector/objects.py:GeoPath.on_great_circle"]}
{"id": "C65", "title": "on_path recognises points of the segment", "statement": "on_path(point, method='greatcircle') answers True iff the point's depth is the mean depth of the path's ends (within rtol, atol), it is within atol of the great circle, and it is no further from either end than the ends are from each other; for points of the great circle this is: it lies on the segment from A to B; for the ellipsoid: True iff the azimuth from A to the point is that from A to B and it is no further than B.", "quantifier": "all paths, positions, tolerances", "why_tests_cant": "all positions", "anchors": ["src/nvector/objects.py:GeoPath.on_path", "src/nvector/objects.py:GeoPath._on_great_circle_path", "src/nvector/objects.py:GeoPath._on_ellipsoid_path"]}
{"id": "C66", "title": "GeoPath.interpolate runs along the path from A to B", "statement": "interpolate(t) is an Nvector in the path's frame whose n-vector is a unit vector on the great circle of the path: A at t = 0, B at t = 1, equidistant from A and B at t = 1/2, on the segment for 0 <= t <= 1, and moving away from A strictly with t; the depth is the linear interpolation of the depths; NaN exactly half way between antipodes. The speed is not constant.", "quantifier": "all paths, all times, any number of times", "why_tests_cant": "continuum of times", "anchors": ["src/nvector/objects.py:GeoPath.interpolate"]}
{"id": "C67", "title": "GeoPath.intersect returns the crossing of the two great circles", "statement": "For two paths on different great circles the result is the one of the two common points that is nearer to A, at the mean of the four depths, in the frame of the first path; for coinciding or undetermined great circles it is NaN with a warning.", "quantifier": "all pairs of paths", "why_tests_cant": "all positions", "anchors": ["src/nvector/objects.py:GeoPath.intersect", "src/nvector/core.py:intersect"]}
{"id": "C68", "title": "GeoPath.closest_point_on_great_circle returns the closest point", "statement": "The result is a GeoPoint on the great circle of the path at the mean depth of the path's ends, no point of the great circle is closer (as angle) to the query point, and it is the only closest one.", "quantifier": "all paths and query points, all classes of points", "why_tests_cant": "optimality over a continuum", "anchors": ["src/nvector/objects.py:GeoPath.closest_point_on_great_circle", "src/nvector/objects.py:GeoPath._closest_point_on_great_circle"]}
{"id": "C69", "title": "Nvector.mean is the mean position", "statement": "mean() returns a single Nvector in the same frame, with the unit n-vector in the direction of the sum of the n-vectors (which maximises the sum of the cosines of the angles to all positions) and the mean of the depths, whether the depth is given once or per position.", "quantifier": "all Nvectors of any length", "why_tests_cant": "all lengths", "anchors": ["src/nvector/objects.py:Nvector.mean"]}
{"id": "C70", "title": "Nvector.unit normalises without moving the positions", "statement": "unit() gives the stored n-vectors length 1, keeps depth and frame, keeps the represented positions, and doing it again changes nothing.", "quantifier": "all Nvectors with nonzero n-vectors", "why_tests_cant": "all Nvectors", "anchors": ["src/nvector/objects.py:Nvector.unit"]}
{"id": "C71", "title": "GeoPath methods refuse ends in different frames", "statement": "A method of GeoPath that combines points of different frames raises ValueError (true of interpolate; intersect does not check).", "quantifier": "all pairs of frames", "why_tests_cant": "all frames", "anchors": ["src/nvector/objects.py:GeoPath.interpolate", "src/nvector/objects.py:GeoPath.intersect"]}
{"id": "C72", "title": "No history of method calls moves a point or turns a frame", "statement": "After any sequence of constructor and method calls (conversions, unit(), mean(), arithmetic, delta_*, displace, path methods) on any objects sharing parts with each other, every object that existed before is unchanged unless unit() was called on that very object; every point still stands for the same position; every frame has the same orientation; every Pvector decomposed in a frame means the same ECEF vector. FrameB and to_nvector() share the Nvector they were given, FrameN and FrameL own their Nvector, so later unit() calls on the given one cannot reach it.", "quantifier": "all stores of objects with any sharing, all finite histories of calls, failing calls included", "why_tests_cant": "unbounded histories with aliasing", "anchors": ["src/nvector/objects.py:Nvector.unit", "src/nvector/objects.py:FrameN.__init__", "src/nvector/objects.py:FrameB.__init__", "src/nvector/objects.py:Nvector.to_nvector"]}
{"id": "C73", "title": "A plus delta(A,B) is B, through any local frame", "statement": "delta_E/delta_N/delta_L/delta_to of A and B, changed to any local frame (N, L or B, placed anywhere), converted back to ECEF and added to A's ECEF vector, is the position of B; converting the sum to a GeoPoint or an n-vector gives B's position.", "quantifier": "all points of all classes, all frames, all widths", "why_tests_cant": "all points and frames", "anchors": ["src/nvector/objects.py:delta_E", "src/nvector/objects.py:delta_N", "src/nvector/objects.py:delta_L", "src/nvector/objects.py:_Common", "src/nvector/objects.py:ECEFvector.change_frame", "src/nvector/objects.py:Pvector.to_ecef_vector"]}
{"id": "C74", "title": "Accessors in degrees, factories and path views agree with the objects", "statement": "A GeoPoint constructed with degrees=True reports exactly the given degrees by latlon_deg; degrees computed from an n-vector are in [-90,90] and [-180,180] and denote the n-vector's direction; azimuth_deg/elevation_deg are in range and denote the direction of the vector; objects made by frame.GeoPoint/Nvector/ECEFvector/Pvector are in that frame whatever frame= keyword is passed (a positional frame raises TypeError); GeoPath's geo_points/ecef_vectors/nvectors/nvector_normals stand for the same two positions; positionA/positionB are the same objects with a DeprecationWarning.", "quantifier": "all objects, all arrays, all widths", "why_tests_cant": "all inputs", "anchors": ["src/nvector/objects.py:GeoPoint.__init__", "src/nvector/objects.py:GeoPoint.latlon_deg", "src/nvector/objects.py:GeoPoint.latitude_deg", "src/nvector/objects.py:GeoPoint.longitude_deg", "src/nvector/objects.py:Pvector.azimuth_deg", "src/nvector/objects.py:Pvector.elevation_deg", "src/nvector/objects.py:GeoPath.positionA", "src/nvector/objects.py:GeoPath.positionB", "src/nvector/objects.py:GeoPath.nvector_normals", "src/nvector/objects.py:FrameE.GeoPoint", "src/nvector/objects.py:FrameE.Nvector", "src/nvector/objects.py:FrameE.ECEFvector", "src/nvector/objects.py:_LocalFrame.Pvector", "src/nvector/objects.py:GeoPath.geo_points", "src/nvector/objects.py:GeoPath.ecef_vectors", "src/nvector/objects.py:GeoPath.nvectors"]}
{"id": "C75", "title": "repr() shows the public attributes and leaves the object alone", "statement": "repr(obj) lists every attribute whose name does not start with an underscore, in order, arrays and tuples as lists; no object that existed before is changed by looking at it. (The second half fails for objects on which the user put a dict: arrays inside it are replaced by lists.)", "quantifier": "all objects with any attributes, nested and shared containers", "why_tests_cant": "all object graphs", "anchors": ["src/nvector/objects.py:_Common.__repr__", "src/nvector/util.py:array_to_list_dict"]}
{"id": "C76", "title": "unit() is accurate in double precision", "statement": "For three doubles none above 2^400 and one above 2^-400 in magnitude, the norm computed in IEEE binary64 is within 3 units of roundoff (u = 2^-53) of the true length and unit() returns finite components each within 5u (relative) of those of the true unit vector; the length of the result is 1 within 6u.", "quantifier": "all finite doubles of that range", "why_tests_cant": "2^192 inputs", "anchors": ["src/nvector/util.py:unit"]}
{"id": "C77", "title": "Distances are exactly symmetric and exactly zero in double precision", "statement": "In IEEE binary64, great_circle_distance(a,b) = great_circle_distance(b,a) and euclidean_distance(a,b) = euclidean_distance(b,a) bit for bit, for all doubles including NaN and infinities and for any arctan2; the distance of a position from itself is exactly 0.", "quantifier": "all vectors of doubles, all radii, any arctan2, any dot product treating its factors alike", "why_tests_cant": "all doubles", "anchors": ["src/nvector/core.py:great_circle_distance", "src/nvector/core.py:euclidean_distance"]}
{"id": "C78", "title": "great_circle_distance is well conditioned for all angles", "statement": "For all positions, coinciding and antipodal ones included, the distance computed in IEEE binary64 is within 22u*R (u = 2^-53) of the true great circle distance, 16 nanometres on the Earth, if the arctan2 of the C library is good to one unit in the last place; within 33u*R when the positions are given as vectors of any ordinary length that unit() normalises first.", "quantifier": "all pairs of unit n-vectors as unit() returns them, all radii up to 2^1000", "why_tests_cant": "the claim 'well conditioned for all angles' ranges over all pairs of positions", "anchors": ["src/nvector/core.py:great_circle_distance", "src/nvector/util.py:unit"]}
{"id": "C79", "title": "deg and rad are accurate, odd, monotone and keep the ranges in double precision", "statement": "In IEEE binary64 rad(x) and deg(x) are within 2.1u (relative, u = 2^-53) of x*pi/180 and x*180/pi; deg(rad(x)) and rad(deg(x)) are within 2.25u of x; both are odd bit for bit and monotone; latitudes in [-90,90] and longitudes in [-180,180] degrees convert exactly into [-np.pi/2,np.pi/2] and [-np.pi,np.pi] and back.", "quantifier": "all finite doubles up to 2^1000 in magnitude (oddness: all doubles)", "why_tests_cant": "2^64 inputs", "anchors": ["src/nvector/util.py:deg", "src/nvector/util.py:rad"]}
{"id": "C80", "title": "Azimuths are reduced to [-pi, pi] in double precision", "statement": "In IEEE binary64 the reduction of azimuths (used for azimuth_b of displace and distance_and_azimuth) returns a finite number between -np.pi and np.pi for every angle, equal to the angle up to full turns within (1.4|x| + 17)u; +np.pi itself can be returned.", "quantifier": "all doubles up to 2^1000 in magnitude", "why_tests_cant": "2^64 inputs; the remainder is exact only because of a representability argument", "anchors": ["src/nvector/objects.py:_base_angle", "src/nvector/objects.py:GeoPoint.displace", "src/nvector/objects.py:GeoPoint.distance_and_azimuth"]}
{"id": "C81", "title": "From degrees to metres: great circle distances are right to 40 nanometres", "statement": "For every two positions given in degrees (latitude in [-90,90], longitude in [-180,180]), converting with rad and lat_lon2n_E and calling great_circle_distance in IEEE binary64 gives the true great circle distance of these positions within 56u*R (40 nm on the Earth), if sin, cos and arctan2 of the C library are good to one unit in the last place. The n-vectors are unit within 5.2u and point in the right direction within 5.3u.", "quantifier": "all pairs of positions in double precision, all radii up to 2^1000", "why_tests_cant": "2^256 inputs", "anchors": ["src/nvector/core.py:lat_lon2n_E", "src/nvector/util.py:rad", "src/nvector/core.py:great_circle_distance"]}
{"id": "C82", "title": "euclidean_distance has a small relative error, however close the positions", "statement": "In IEEE binary64 euclidean_distance(a, b, radius) is within 5.1u (relative) of the length of b - a times the radius, plus a term below 2^-398 times the radius: there is no cancellation for close positions.", "quantifier": "all vectors of finite doubles up to 2^398, all radii up to 2^600", "why_tests_cant": "all doubles", "anchors": ["src/nvector/core.py:euclidean_distance"]}
{"id": "C83", "title": "isclose is symmetric, reflexive and right to 3 units of roundoff in double precision", "statement": "In IEEE binary64 isclose(a,b) = isclose(b,a) for all doubles, NaN and infinities included, and all tolerances; with nonnegative tolerances isclose(a,a) is True except for NaN, where it is equal_nan; for finite a, b the answer is the one of exact arithmetic unless |a-b| is within 3u (relative) of the tolerance.", "quantifier": "all doubles, all tolerances", "why_tests_cant": "2^256 inputs", "anchors": ["src/nvector/util.py:isclose"]}
{"id": "C84", "title": "Elevations are numbers in double precision", "statement": "In IEEE binary64 the argument z/length that Pvector.elevation hands to arcsin lies in [-1, 1] for every vector with components up to 2^400 (one above 2^-400), so that the elevation is never NaN; the length of a vector along an axis is exact, and straight up or down the argument is exactly 1 or -1.", "quantifier": "all finite doubles of that range, any arcsin", "why_tests_cant": "a single rounding in the wrong direction would give NaN: 2^192 inputs", "anchors": ["src/nvector/objects.py:Pvector.elevation", "src/nvector/objects.py:Pvector.length"]}
{"id": "C85", "title": "cross_track_distance is accurate in double precision away from the poles of the great circle", "statement": "In IEEE binary64 the sine computed by cross_track_distance is within (10 + 9/s)u of the true one, s being the sine of the angle between the path's points, and the distance of a point off the poles of the great circle is correspondingly accurate: one micrometre on the Earth for paths over 100 km and points up to 4900 km from the circle. (At a pole of the great circle the computed sine can exceed 1 and the distance is NaN.)", "quantifier": "all unit n-vectors as unit() returns them with s >= 10u, all radii up to 2^1000, any arcsin good to one unit in the last place", "why_tests_cant": "2^576 inputs", "anchors": ["src/nvector/core.py:cross_track_distance", "src/nvector/core.py:great_circle_normal", "src/nvector/util.py:unit"]}
{"id": "C86", "title": "The points that define a path are on its great circle", "statement": "on_great_circle(path, path[0]) and on_great_circle(path, path[1]) are True. In IEEE binary64 this holds when atol is at least 12u(1 + 1/s)*radius, s being the sine of the angle between the points; with the default atol of 1e-8 m it fails for short paths (a few kilometres and less).", "quantifier": "all paths of unit n-vectors as unit() returns them with s >= 20u, all radii", "why_tests_cant": "the answer depends on accumulated rounding errors", "anchors": ["src/nvector/core.py:on_great_circle", "src/nvector/core.py:cross_track_distance", "src/nvector/objects.py:GeoPath.on_great_circle"]}
{"id": "C87", "title": "What a method answers does not depend on earlier calls", "statement": "After any sequence of earlier method calls (conversions, frames, paths, arithmetic, in-place unit(), failed calls): to_nvector/to_ecef_vector/to_geo_point return a point at exactly the position the object had when it was created; delta_E, delta_N and delta_L return the difference of the original positions, delta_N/delta_L in a new frame of the right class at the first point with an Nvector of its own; sums, differences and negatives of ECEFvectors are those of the original components; change_frame gives the same components as on untouched objects and refers to the very frame object given; new frames are at the original position; a path still joins the same two objects at the same two positions, and its interpolate, intersect and closest-point methods answer for these positions; mean and displace answer from the stored data. No call alters an object that existed before it (except unit() on itself). The one exception, which is refuted: + on Nvectors adds the stored n-vectors, so calling unit() on an operand changes even the direction of a later sum.", "quantifier": "every history of calls, every store of objects, every point class, every number of positions, every frame", "why_tests_cant": "a test exercises a few call sequences; the claim is about all of them, including failing calls and shared objects", "anchors": ["src/nvector/objects.py:GeoPoint", "src/nvector/objects.py:Nvector", "src/nvector/objects.py:ECEFvector", "src/nvector/objects.py:Pvector", "src/nvector/objects.py:FrameN", "src/nvector/objects.py:FrameL", "src/nvector/objects.py:FrameB", "src/nvector/objects.py:GeoPath", "src/nvector/objects.py:Nvector.unit", "src/nvector/objects.py:delta_E", "src/nvector/objects.py:delta_N", "src/nvector/objects.py:delta_L"]}
{"id": "C88", "title": "Latitude and longitude survive the trip through an n-vector", "statement": "n_E2lat_lon in IEEE binary64 returns a latitude with a relative error of at most 5.1u and a longitude good to one unit in the last place for every n-vector of length within 0.1 of 1 (the lengths the function accepts without a warning) off the exact poles; GeoPoint(lat, lon).to_nvector().to_geo_point() returns the latitude within 1.4e-13 degrees and the longitude (modulo 360) within 1.7e-13 degrees, for every latitude including +-90; the result is always within +-90 and +-180; latitudes of exactly +-90 come back exactly.", "quantifier": "all latitudes in [-90, 90] and longitudes in [-180, 180], all n-vectors of length within 0.1 of 1, any sin, cos, arctan2 good to one unit in the last place (correctly rounded arctan2 for the range and the poles)", "why_tests_cant": "2^128 inputs; the cancellation near the poles and the antimeridian is where tests are thin", "anchors": ["src/nvector/rotation.py:n_E2lat_lon", "src/nvector/core.py:lat_lon2n_E", "src/nvector/objects.py:GeoPoint.to_nvector", "src/nvector/objects.py:Nvector.to_geo_point", "src/nvector/util.py:rad", "src/nvector/util.py:deg"]}
{"id": "C89", "title": "n-vector and depth to ECEF coordinates: 33 nanometres from degrees", "statement": "n_EB_E2p_EB_E in IEEE binary64 returns a point within 25u*a + 8u*|depth| (u = 2^-53, 18 nm on the Earth's surface) of the true one: the point of the ellipsoid whose normal is the n-vector, moved depth metres against it. GeoPoint(lat, lon, z, degrees=True).to_ecef_vector() on WGS-84 is within 33 nm of the point at that latitude, longitude and depth, for every latitude and longitude and every depth or height up to 1000 km.", "quantifier": "all n-vectors (of any length between 2^-400 and 2^400, not only units), all semi-major axes from 2^-100 to 2^300, all flattenings from 0 to 1/2, all depths up to 2^300; for degrees: any sin and cos good to one unit in the last place", "why_tests_cant": "2^384 inputs: the error bound must hold at every one", "anchors": ["src/nvector/core.py:n_EB_E2p_EB_E", "src/nvector/util.py:unit", "src/nvector/objects.py:GeoPoint.to_ecef_vector", "src/nvector/objects.py:Nvector.to_ecef_vector"]}
{"id": "C90", "title": "ECEF coordinates to n-vector and depth: 12 nanometres", "statement": "p_EB_E2n_EB_E in IEEE binary64, given a point that lies exactly d metres below the ellipsoid along the normal N, returns an n-vector of unit length within an angle of 10.5u of N and a depth within 14u*a + 12u*|d| of d (u = 2^-53): on WGS-84 and up to 1000 km from the surface, 8 nm of surface position and 12 nm of depth. A point within eps of such a position gives an n-vector off by a further 1.01*eps/(a(1-f)^2 - d - eps) at most and a depth off by a further 1.01*eps. GeoPoint(lat, lon, z, degrees=True).to_ecef_vector().to_geo_point() on WGS-84 returns a latitude and longitude within 66 nm of surface position and a depth within 45 nm of the given ones, for every latitude and longitude and all depths and heights up to 1000 km.", "quantifier": "all finite points, all depths from half the semi-major axis below the surface to 2^19 semi-major axes above it, all semi-major axes from 2^-100 to 2^100, the sphere and all flattenings from 2^-100 to 1/200, any C library pow (and sin, cos, arctan2 for the round trip) good to one unit in the last place", "why_tests_cant": "2^192 points; the quartic's solution subtracts nearly equal numbers near the poles and the equator", "anchors": ["src/nvector/core.py:p_EB_E2n_EB_E", "src/nvector/core.py:_compute_k", "src/nvector/core.py:_equation23", "src/nvector/util.py:nthroot", "src/nvector/objects.py:ECEFvector.to_nvector"]}
{"id": "C91", "title": "The North, East and Down axes are accurate and orthonormal in double precision, poles included", "statement": "n_E2R_EN in IEEE binary64 returns axes that are the true north, east and down directions of the n-vector to a relative error of 23u, 16u and 5u in every component (u = 2^-53), for every n-vector of any length that is not within 2^-300 of a pole, and are orthonormal to 47u; exactly at a pole north is (-1,0,0) or (1,0,0), east is (0,1,0). FrameN(GeoPoint(lat, lon, degrees=True)).R_EN is within 65u, 44u and 27u of the directions at that latitude and longitude for all latitudes in [-90, 90], so that at the poles, too, the longitude decides what is north.", "quantifier": "all n-vectors of length 2^-400 to 2^400, all latitudes and longitudes, any sin and cos good to one unit in the last place", "why_tests_cant": "east is the normalised cross product of nearly parallel vectors near the poles: the claim is about all of the 2^192 n-vectors", "anchors": ["src/nvector/rotation.py:n_E2R_EN", "src/nvector/objects.py:FrameN.R_EN", "src/nvector/util.py:unit"]}
{"id": "C92", "title": "The vector from A to B in metres north, east and down: 0.22 micrometres from degrees", "statement": "In IEEE binary64 delta_E of a point with itself is exactly the zero vector and delta_E(B, A) is exactly minus delta_E(A, B). For points given as latitude, longitude and depth, A.delta_to(B).pvector is the true vector from A to B in A's north, east and down directions with an error of at most 66 nm plus 1.03e-14 of its length on WGS-84, never more than 0.22 micrometres; its length is right to 0.23 micrometres and its azimuth to 0.22 micrometres at the horizontal distance.", "quantifier": "all pairs of latitudes and longitudes and depths or heights up to 1000 km (for other ellipsoids: all depths up to 2^300), any sin, cos and arctan2 good to one unit in the last place, any summation order inside einsum", "why_tests_cant": "2^384 pairs of points", "anchors": ["src/nvector/objects.py:delta_E", "src/nvector/objects.py:delta_N", "src/nvector/objects.py:GeoPoint.delta_to", "src/nvector/objects.py:ECEFvector.change_frame", "src/nvector/objects.py:Pvector.length", "src/nvector/objects.py:Pvector.azimuth", "src/nvector/core.py:n_EA_E_and_n_EB_E2p_AB_E"]}
{"id": "C93", "title": "What arguments left out stand for", "statement": "A GeoPoint, Nvector or ECEFvector made without a frame, FrameE() itself, and the core functions called without a and f all use the same ellipsoid, a = 6378137 m and f = 1/298.257223563, with the z-axis to the North pole; depth left out is 0. Distances without a radius are for 6371009 m. on_path(point) and on_great_circle(point) accept 1e-8 m of distance from the great circle, and on_path 1e-6 relative (or 1e-8 m) of depth. ECEFvector and Pvector made without the scalar flag are scalar exactly when they hold one vector. diff_positions gives what delta_E gives, with one more DeprecationWarning.", "quantifier": "all inputs, any number of positions, every path", "why_tests_cant": "the defaults are repeated in a dozen signatures and two layers; agreement for all inputs is what users rely on", "anchors": ["src/nvector/objects.py:_default_frame", "src/nvector/objects.py:FrameE", "src/nvector/objects.py:ECEFvector", "src/nvector/objects.py:Pvector", "src/nvector/objects.py:GeoPath.on_path", "src/nvector/objects.py:GeoPath.on_great_circle", "src/nvector/objects.py:diff_positions", "src/nvector/core.py:n_EB_E2p_EB_E", "src/nvector/core.py:p_EB_E2n_EB_E", "src/nvector/core.py:great_circle_distance", "src/nvector/core.py:euclidean_distance"]}
{"id": "C94", "title": "From A by a vector to B: 0.26 micrometres from degrees, and there along the computed vector in 0.53 micrometres", "statement": "In IEEE binary64, adding a vector given in metres north, east and down of A to A and reading the result as a GeoPoint gives the latitude, longitude and depth of the point the vector leads to, on WGS-84 within 67 nm plus 1.3e-14 of its length along the surface (never more than 0.26 micrometres) and 47 nm plus 1.1e-14 of its length in depth. With the vector A.delta_to(B) computed by the library the answer is B, within 0.53 micrometres along the surface and 0.44 micrometres in depth. n_EA_E_and_p_AB_E2n_EB_E meets the corresponding bound for every near-spherical ellipsoid.", "quantifier": "all latitudes and longitudes, depths and heights up to 1000 km, every finite vector between such points, any sin, cos, arctan2 good to one unit in the last place, any power function good to one unit in the last place, any summation order inside einsum", "why_tests_cant": "2^384 pairs of points", "anchors": ["src/nvector/core.py:n_EA_E_and_p_AB_E2n_EB_E", "src/nvector/objects.py:Pvector.to_ecef_vector", "src/nvector/objects.py:ECEFvector.__add__", "src/nvector/objects.py:Pvector.to_geo_point", "src/nvector/objects.py:ECEFvector.to_geo_point"]}
{"id": "C95", "title": "Along a great circle by a distance in a direction: 0.23 micrometres from degrees and metres", "statement": "In IEEE binary64, n_EA_E_distance_and_azimuth2n_EB_E from a (nearly) unit n-vector that is not a pole gives the point at that arc length along the great circle leaving A at that azimuth clockwise from north, as a vector within 42 units of roundoff (4.7e-15) and so in direction within 42.1; the angle from A to the answer is the distance asked for within 42.1 units. From latitude, longitude and azimuth in degrees and an arc length, the answer's latitude and longitude in degrees are the destination within 80.1 units (57 nm on the Earth), also at the poles, where the longitude given says which way north is. GeoPoint.displace with method 'greatcircle', which divides the distance in metres by A's distance from the Earth's centre, is on WGS-84 right within 57 nm plus 8.4e-15 of the distance.", "quantifier": "all latitudes, longitudes and azimuths up to half a turn, distances up to 20000 km, depths or heights up to 1000 km, any sin, cos, arctan2 good to one unit in the last place", "why_tests_cant": "2^256 starting points, distances and azimuths", "anchors": ["src/nvector/core.py:n_EA_E_distance_and_azimuth2n_EB_E", "src/nvector/objects.py:GeoPoint._displace_great_circle", "src/nvector/objects.py:GeoPoint.displace"]}
{"id": "C96", "title": "Several paths or several positions in one call", "statement": "The path functions document arrays: n paths and m positions where one of n, m is 1 or they are equal, answered by max(n, m) results, each the one that its path and position alone give. cross_track_distance and on_great_circle do give, for n paths and one position and for one path and m positions, exactly the separate answers in order; but for n paths and n positions, n > 1, they give n*n answers, every path against every position. closest_point_on_great_circle raises ValueError for more than one position, except that for exactly three positions it returns, with wrong coordinates unless all three lie on the same side of all three answers. GeoPath.closest_point_on_path raises ValueError for every query of two or more positions.", "quantifier": "all numbers of paths and positions, all paths that determine a great circle, all positions, radii, methods and tolerances", "why_tests_cant": "every n and m and every set of positions", "anchors": ["src/nvector/core.py:cross_track_distance", "src/nvector/core.py:on_great_circle", "src/nvector/core.py:closest_point_on_great_circle", "src/nvector/objects.py:GeoPath.closest_point_on_path", "src/nvector/objects.py:GeoPath.closest_point_on_great_circle"]}
{"id": "C97", "title": "Interpolated and mean positions: a few units of roundoff, whatever the order of the additions", "statement": "In IEEE binary64, interpolate(path, t) and GeoPath.interpolate(t) between two unit n-vectors at most a quarter of a turn apart give a unit vector within 10.2 units of roundoff (1.2e-15 rad, 7 nm on the Earth) of the point of the arc between them that divides the chord in the ratio t : 1 - t; in general within 6.11 + 2.01 t |b - a| / |a + t (b - a)| units. mean_horizontal_position and Nvector.mean of n unit n-vectors, with the additions done in any order and any tree of depth d, give a unit vector in the direction of the exact sum within 5.1 + 1.01 d n / |sum| units, so within 5.1 + 2.03 d units when all positions lie within 60 degrees of some point.", "quantifier": "all pairs of unit n-vectors, all fractions in [0, 1], all finite lists of up to 10^9 unit n-vectors, every order and grouping of the additions", "why_tests_cant": "2^448 pairs and fractions, every summation order", "anchors": ["src/nvector/core.py:interpolate", "src/nvector/objects.py:GeoPath.interpolate", "src/nvector/core.py:mean_horizontal_position", "src/nvector/objects.py:Nvector.mean"]}
{"id": "C98", "title": "Closest point of a great circle and crossing of two great circles: error bound in binary64", "statement": "In IEEE binary64, closest_point_on_great_circle(path, position) gives a unit n-vector within (5.2 + (9.1 + 8.1/s)(1 + 1/r)) units of roundoff of the exact point of the path's great circle closest to the position, where s is the sine of the angle between the path's end points and r the cosine of the position's distance from the circle (39.6 units, 28 nm on the Earth, at best); intersect(path_a, path_b) gives a unit n-vector within 5.1 + 4.1 (1 + 1/sa + 1/sb)/t units of the crossing of the two great circles on path_a's first point's side, t being the sine of the angle at which they cross. Where the computed scalar product of the crossing and path_a's first point is zero, the zero vector comes back.", "quantifier": "all unit n-vectors for which the error bound is below about 1e-6 rad; every implementation of the inner product within the stated error", "why_tests_cant": "infinitely many paths, accuracy degrades with the geometry, tests try a handful", "anchors": ["src/nvector/core.py:closest_point_on_great_circle", "src/nvector/core.py:intersect", "src/nvector/objects.py:GeoPath.closest_point_on_great_circle", "src/nvector/objects.py:GeoPath.intersect"]}
{"id": "C99", "title": "unit() on huge, infinite and NaN vectors", "statement": "In IEEE binary64, unit() of every finite nonzero column is a unit vector (false: as soon as one component reaches 2^512, about 1.3e154, the squared length overflows and the zero vector comes back, for every such column). With an infinite component and no NaN the infinite components come back NaN and the finite ones 0; with a NaN component all three come back NaN; whatever norm_zero_vector is. Components of ordinary magnitude (2^-400 to 2^400) come back with a relative error of five units of roundoff and unit length; if all are at most 2^-538 in magnitude, the vector of length norm_zero_vector along the first axis comes back.", "quantifier": "all triples of doubles with a component that is NaN, infinite or at least 2^512 in magnitude, all values of norm_zero_vector", "why_tests_cant": "2^192 triples; the overflow is silent apart from a numpy RuntimeWarning", "anchors": ["src/nvector/util.py:unit"]}
{"id": "C100", "title": "Mirror images and reversed paths: exactly the same numbers", "statement": "In IEEE binary64, bit for bit: mirroring two positions at any coordinate planes (north <-> south, east <-> west) leaves great_circle_distance and euclidean_distance exactly the same (also for NaN, infinite and unnormalised vectors), from degrees as well; the n-vector, the ECEF coordinates and the delta vector of mirror images are the mirror images, up to the sign of zeros; the cross-track distance only changes its sign, for an odd number of mirrored axes; a path run backwards has exactly the negative cross-track distance and exactly the same closest point of its great circle.", "quantifier": "all triples of doubles, all eight mirrorings, all depths, ellipsoid parameters and radii, every inner product, arctan2, sin, cos and arcsin with the stated symmetry", "why_tests_cant": "bit-for-bit equality over all double inputs", "anchors": ["src/nvector/core.py:great_circle_distance", "src/nvector/core.py:euclidean_distance", "src/nvector/core.py:lat_lon2n_E", "src/nvector/core.py:n_EB_E2p_EB_E", "src/nvector/core.py:n_EA_E_and_n_EB_E2p_AB_E", "src/nvector/core.py:cross_track_distance", "src/nvector/core.py:closest_point_on_great_circle"]}
{"id": "C101", "title": "Turning the whole globe turns the answers", "statement": "If every position is replaced by its image under one and the same rotation of space, great_circle_distance and cross_track_distance return the same numbers; great_circle_normal, intersect, closest_point_on_great_circle, interpolate and mean_horizontal_position return the rotated positions (NaN columns and warnings included). No axis of the coordinate system is special to these functions. The one exception: positions whose sum is zero, where the mean is (1,0,0) whatever the rotation.", "quantifier": "all rotations of space, all arrays of positions of any length, all radii and interpolation parameters", "why_tests_cant": "equality of answers over a continuous group of transformations and all inputs", "anchors": ["src/nvector/core.py:great_circle_distance", "src/nvector/core.py:cross_track_distance", "src/nvector/core.py:great_circle_normal", "src/nvector/core.py:intersect", "src/nvector/core.py:closest_point_on_great_circle", "src/nvector/core.py:interpolate", "src/nvector/core.py:mean_horizontal_position"]}
{"id": "C102", "title": "Shifting all longitudes changes nothing but the longitudes", "statement": "Adding the same angle to every longitude turns every n-vector about the polar axis (lat_lon2n_E), and the ellipsoid functions respect every rotation that keeps the poles: n_EB_E2p_EB_E and n_EA_E_and_n_EB_E2p_AB_E return the rotated vectors with the same warnings, p_EB_E2n_EB_E the rotated n-vector and the same depth, n_E2R_EN the rotated local axes, n_EA_E_and_n_EB_E2azimuth the same azimuth (pi and -pi being the same), n_EA_E_distance_and_azimuth2n_EB_E the rotated destination. For objects: delta_N between two GeoPoints has the same North-East-Down components after the shift.", "quantifier": "all rotations that keep the polar axis, all axes matrices R_Ee, all ellipsoids, all arrays of positions with any broadcasting of depths, all positions outside the core (p_EB_E2n_EB_E) and away from the poles (local axes, azimuth)", "why_tests_cant": "equality of answers over a continuous group of transformations and all inputs", "anchors": ["src/nvector/core.py:lat_lon2n_E", "src/nvector/core.py:n_EB_E2p_EB_E", "src/nvector/core.py:p_EB_E2n_EB_E", "src/nvector/core.py:n_EA_E_and_n_EB_E2p_AB_E", "src/nvector/rotation.py:n_E2R_EN", "src/nvector/core.py:n_EA_E_and_n_EB_E2azimuth", "src/nvector/core.py:n_EA_E_distance_and_azimuth2n_EB_E", "src/nvector/objects.py:delta_N"]}
{"id": "C103", "title": "Euler angles survive the trip through a rotation matrix in double precision, next to gimbal lock too", "statement": "In IEEE double precision, with a C library whose sin, cos and arctan2 are good to one unit in the last place: for all angles of at most 4 radians every entry of xyz2R(x, y, z) and zyx2R(z, y, x) is finite and within 10u (u = 2^-53) of the exact product of the elementary rotations, and the columns are orthonormal to 61u. For |x|, |z| up to pi and |y| up to pi/2 (doubles), R2xyz(xyz2R(x, y, z)) and R2zyx(zyx2R(z, y, x)) return x and z to 12u up to whole turns and y to 9u, even when y is the double nearest pi/2, where the exact functions lose x and z; in degrees through rad and deg all come back to 1.7e-13 degrees. Any matrix whose entries are within e <= 0.01 of a rotation gives y to 2e + 9u, and x and z to 1.5 e / cos y + 7u where cos y >= 100 e.", "quantifier": "all doubles x, y, z in range; all double matrices near any rotation; every sin, cos and arctan2 meeting the accuracy requirement", "why_tests_cant": "The error depends on all three angles and grows without bound near gimbal lock unless the relative errors of the entries cancel, which samples cannot show for the doubles closest to pi/2.", "anchors": ["src/nvector/rotation.py:xyz2R", "src/nvector/rotation.py:zyx2R", "src/nvector/rotation.py:R2xyz", "src/nvector/rotation.py:R2zyx"]}
{"id": "C104", "title": "Body and wander frames in double precision", "statement": "In double precision: for a vehicle given in degrees, the axes of FrameB(point, yaw, pitch, roll, degrees=True) are those of the North-East-Down frame turned by yaw about down, pitch about the new second axis and roll about the new first axis, to 1.5e-14; the axes of FrameL(point, wander_azimuth) are North-East-Down turned by the wander azimuth about down, to 6.2e-15. delta_E(A, B).change_frame(frame) and delta_L(A, B, wander) give the components of the vector from A to B in those axes to half (a quarter) of a micrometre anywhere on WGS-84 within 1000 km of the surface. A target given by its vector in the vehicle's own axes (FrameB.Pvector(p).to_ecef_vector() + point.to_ecef_vector()).to_geo_point() is placed to 67 nm plus 3.3e-14 of its distance, and a point seen and placed again comes back to 1.2 micrometres.", "quantifier": "all latitudes and longitudes in degrees including the poles, all yaw, pitch, roll in degrees within +-180, +-90, +-180, all wander azimuths within +-4 rad, all depths within 1000 km, all C libraries within one unit in the last place, all orders of summation", "why_tests_cant": "Each axis is a sum of products of six rounded sines and cosines, and FrameL goes through a latitude and longitude recovered from the n-vector, ill-conditioned next to the poles; tests compare a few examples to 1e-8.", "anchors": ["src/nvector/objects.py:FrameB.R_EN", "src/nvector/objects.py:FrameL.R_EN", "src/nvector/objects.py:delta_L", "src/nvector/objects.py:ECEFvector.change_frame", "src/nvector/objects.py:Pvector.to_ecef_vector", "src/nvector/rotation.py:n_E_and_wa2R_EL"]}
{"id": "C105", "title": "GeoPoint.distance_and_azimuth along the great circle in double precision", "statement": "On WGS-84, for positions given in degrees within 1000 km of the surface, distance_and_azimuth(point, method='greatcircle') returns a distance within 0.2 micrometres of the central angle times the mean distance of the two positions from the Earth's centre; when a position lies more than about 1.3 km from a pole, the azimuth there is, up to whole turns, within e/(h-e) + 5e-15 radians of the direction of the straight line between the positions, where h is the horizontal length of that line and e = 66 nm + (2 + 3/cos(latitude))*1e-14 times its length; the arriving azimuth lies between -pi and pi and points away from the start.", "quantifier": "all pairs of positions in that range, all sine, cosine, arctan2, power and dot-product routines within the stated error bounds", "why_tests_cant": "The azimuths go through a conversion of the position vector back to an n-vector, whose error is magnified near the poles: a bound over all pairs of doubles is a statement about some 2^384 inputs.", "anchors": ["src/nvector/objects.py:GeoPoint._distance_and_azimuth_greatcircle", "src/nvector/objects.py:delta_N", "src/nvector/objects.py:_base_angle", "src/nvector/core.py:great_circle_distance"]}
{"id": "C106", "title": "GeoPath distances and on_great_circle in double precision, from positions in degrees", "statement": "On WGS-84, for a GeoPath between positions given in degrees within 1000 km of the surface: track_distance() is within 0.2 micrometres of the central angle of the ends times their mean distance from the Earth's centre; cross_track_distance(point) is finite and within 6 micrometres of arcsin(sine of the angle off the great circle) times that mean distance, when the ends are at least 1/64 (about 100 km) from coinciding or being opposite and the point is within 44 degrees of the great circle (and, for any separation s >= 1e-12, within (33+75/s)*1.1e-16/sqrt(1-m^2)*7378138 m + 0.07 micrometres, m bounding the sine); on_great_circle(point, atol) returns True whenever that exact distance is at most atol - 7 micrometres and only if it is at most atol + 7 micrometres.", "quantifier": "all pairs of ends and all points in that range, all tolerances up to 10000 km, all sine, cosine, arcsin, arctan2 and dot-product routines within the stated error bounds", "why_tests_cant": "The answer depends on the cancellation in the cross product of the two ends and on the slope of arcsin, for some 2^448 inputs; the constants need a proof of the error of every step.", "anchors": ["src/nvector/objects.py:GeoPath.cross_track_distance", "src/nvector/objects.py:GeoPath.track_distance", "src/nvector/objects.py:GeoPath.on_great_circle", "src/nvector/objects.py:GeoPath._get_average_radius", "src/nvector/core.py:cross_track_distance"]}
{"id": "C107", "title": "ECEFvector arithmetic is vector arithmetic", "statement": "For ECEFvectors of one frame, s + o, s - o and -s are computed componentwise (a single vector is paired with each of many), without a warning; the result carries the frame of s and is scalar exactly when both operands are (for -s, when s is). s - o is s + (-o) for all contents and shapes, exceptions included, and -(-s) is s with signed zeros, infinities and NaN included; sums do not depend on order or grouping, s + o - o holds the vectors of s, and s - s zero vectors.", "quantifier": "all ECEFvectors of any number of columns with any frame; the subtraction and double negation laws for all array shapes and all contents including NaN and infinities", "why_tests_cant": "Laws over all vectors, shapes and flag combinations; a test sees a few triples of vectors.", "anchors": ["src/nvector/objects.py:ECEFvector.__add__", "src/nvector/objects.py:ECEFvector.__sub__", "src/nvector/objects.py:ECEFvector.__neg__", "src/nvector/objects.py:ECEFvector.__init__"]}
{"id": "C108", "title": "GeoPath.interpolate, intersect and closest_point_on_great_circle in double precision, from positions in degrees", "statement": "For positions given in degrees, with u = 2^-53: interpolate(ti), 0 <= ti <= 1, returns a direction within (7 + 50/|P|) u radians of P = (1-ti) A + ti B (A, B the exact directions of the ends), a point of the arc from A to B, hence within 1e-14 radians (0.07 micrometres on the Earth) when the ends are at most a quarter turn apart, and a depth within 1 nm of (1-ti) zA + ti zB for depths up to 1000 km; intersect returns a direction within (5.1 + 136 (1 + 1/sa + 1/sb)/t) u radians of the common point of the two exact great circles on the side of the first end, sa and sb being the sines of the lengths of the paths and t the sine of the angle between the circles; closest_point_on_great_circle returns a direction within (6 + (43 + 271/s)(1 + 1/r)) u radians of the exact closest point, s the sine of the length of the path and r the cosine of the distance of the point from the circle. All results have length 1 up to 6 u.", "quantifier": "all positions in degrees whose geometry is not degenerate (the products in the error bounds at most 5e-8 resp. 1e-7, the crossing not within 1/50000 of a quarter turn from the first end, the point not within 1/50000 of the pole of the circle), all sine, cosine and dot-product routines within the stated error bounds", "why_tests_cant": "Error bounds that grow as the geometry degenerates, over all tuples of doubles.", "anchors": ["src/nvector/objects.py:GeoPath.interpolate", "src/nvector/objects.py:GeoPath.intersect", "src/nvector/objects.py:GeoPath._closest_point_on_great_circle", "src/nvector/objects.py:GeoPath.closest_point_on_great_circle", "src/nvector/core.py:lat_lon2n_E"]}
{"id": "C109", "title": "GeoPoint == GeoPoint in double precision", "statement": "With u = 2^-53, for two GeoPoints in the same frame: if they are == then their latitudes, and their longitudes, differ by a whole number of turns up to 1e-14 + (1.4 d + 13) u radians, d being the difference of the two numbers, and their depths by at most max(1e-14, 1e-12 max|z|) up to 3 roundings; conversely positions within 1e-14 - (1.4 d + 13) u (and the depth tolerance less 3 roundings) are ==. A longitude in degrees within -180..180 is equal, in both orders, to the same longitude with 360 added or subtracted in floating point. A point equals every other point with the same finite numbers, and a point with a NaN or infinite angle equals no other object. == is symmetric.", "quantifier": "all doubles up to 2^1000 in magnitude", "why_tests_cant": "The folding of the difference into one turn, its rounding and the tolerance interact; the answer changes at a boundary no test hits.", "anchors": ["src/nvector/objects.py:GeoPoint._is_equal_to", "src/nvector/objects.py:_Common.__eq__", "src/nvector/util.py:allclose", "src/nvector/util.py:isclose"]}
{"id": "C110", "title": "Nvector, ECEFvector, Pvector and FrameE == in double precision", "statement": "For Nvectors, ECEFvectors, Pvectors and FrameEs of the same shape: x == y gives the same answer as y == x for all doubles (NaN, infinities and both zeros included); a different object with the same numbers is equal exactly if none of the numbers is NaN. Two positions that are == are within 1.001e-12 of their distance from the Earth's centre plus 1.75e-14 of each other (6.4 micrometres at the surface for ECEFvectors, 1e-12 radians for Nvectors), and positions within 0.999e-14 of each other are ==. Two frames that are == have semi-major axes, flattenings and all entries of R_Ee within 1.001 (1e-12 relative + 1e-14), and frames within 0.999 times the larger of 1e-12 relative and 1e-14 are ==; the name of the ellipsoid plays no part. This is also the test that decides whether two objects may be combined (added, subtracted, ...).", "quantifier": "all doubles (symmetry, reflexivity), all doubles up to 2^1000 (decision); any number of positions", "why_tests_cant": "The outcome at the tolerance depends on three roundings; NaN and infinities are special-cased.", "anchors": ["src/nvector/objects.py:Nvector._is_equal_to", "src/nvector/objects.py:Pvector._is_equal_to", "src/nvector/objects.py:FrameE._is_equal_to", "src/nvector/objects.py:_Common.__eq__", "src/nvector/objects.py:_check_frames", "src/nvector/util.py:allclose", "src/nvector/util.py:isclose"]}
{"id": "C111", "title": "Elevation in double precision: relative error away from the vertical, half the digits close to it", "statement": "In IEEE binary64 (u = 2^-53), for a vector with true elevation el, Pvector.elevation is finite and within 11 u |el| / cos(el) of el, and never more than 62 nanoradians off; close to the vertical half of the digits really are lost: the elevation of (2^-27, 0, 1) comes out as 90 degrees, 7.4 nanoradians too much, however good arcsin is. For positions A, B given as latitude, longitude and depth on WGS-84, a distance L >= 1 micrometre apart, A.delta_to(B).elevation is within (0.88 micrometres / L + 2e-15) / cos(el) and within sqrt(3.6 micrometres / L + 4e-15) + 1e-15 radians of the elevation of the straight line to B in A's north, east, down axes.", "quantifier": "all vectors of ordinary doubles; all pairs of latitudes and longitudes, depths or heights up to 1000 km; any sin, cos and arcsin good to one unit in the last place, any summation order inside einsum", "why_tests_cant": "2^192 vectors; the error of arcsin grows without bound towards the vertical and is limited only by the rounding of its argument.", "anchors": ["src/nvector/objects.py:Pvector.elevation", "src/nvector/objects.py:Pvector.elevation_deg", "src/nvector/objects.py:Pvector.length", "src/nvector/objects.py:GeoPoint.delta_to", "src/nvector/objects.py:delta_N"]}
{"id": "C112", "title": "On the path or not, in double precision: on_great_circle_path and GeoPath.on_path", "statement": "In IEEE binary64 (u = 2^-53): the ends A and B of a path pass on_great_circle_path's test of being between A and B exactly whenever the computed |B - A| is finite and nonzero. No position whatever, not even A, is on a path from A to A: on_path answers False for any tolerances. For A, B, C in degrees at least 112 u apart, the test says between only if C is no further from A and from B (straight-line distances on the unit sphere) than they are from each other plus 112 u, and does say so when it is nearer by 108 u. On WGS-84, for paths of at least 1/64 radian and as far from half a turn, and C less than 44 degrees off the great circle, GeoPath.on_path(C, rtol=, atol=) answers True only if C is between to within 112 u, is at most atol + 6 micrometres from the great circle and its depth is within max(atol, rtol max(|zC|, |Z|)) + 1e-9 m of the mean depth Z, and answers True whenever all three hold with the same margins to spare. With the default atol of 1e-8 m the full claim (the ends of a path are on the path) is false: for some path more than 190 m long neither end is, although both are between the ends.", "quantifier": "all doubles for the zero-length statement and the ends; all latitudes and longitudes in degrees, depths up to 1000 km, rtol up to 1, atol up to 1000 km; any sin, cos and arcsin good to one unit in the last place, any usual way to sum a dot product", "why_tests_cant": "2^384 inputs; the answer flips at a boundary which rounding moves, and a zero-length path divides zero by zero.", "anchors": ["src/nvector/core.py:on_great_circle_path", "src/nvector/core.py:on_great_circle", "src/nvector/objects.py:GeoPath._on_great_circle_path", "src/nvector/objects.py:GeoPath.on_path", "src/nvector/util.py:isclose"]}
{"id": "C113", "title": "Angles that come out in degrees are as good as those in radians", "statement": "In IEEE binary64, for positions A, B given in degrees on WGS-84 with depths up to 1000 km: A.delta_to(B).azimuth_deg differs from an azimuth of the straight line to B in degrees by at most 0.22 micrometres at the horizontal distance h, plus 1e-13 degrees; elevation_deg has the error of C111 turned into degrees plus 4.3e-14; and A.distance_and_azimuth(B, degrees=True, method='greatcircle') gives bit by bit the distance given with degrees=False, and azimuths in degrees right to the bound of C105 turned into degrees plus 4e-13, the one at B always between -180 and 180.", "quantifier": "all latitudes and longitudes, depths or heights up to 1000 km, B not straight above or below A; any sin, cos, arctan2, arcsin and cube root good to a few units in the last place, any summation order inside einsum and matmul", "why_tests_cant": "2^384 pairs of positions; the conversion to degrees multiplies the errors and could leave the range.", "anchors": ["src/nvector/objects.py:Pvector.azimuth_deg", "src/nvector/objects.py:Pvector.elevation_deg", "src/nvector/objects.py:GeoPoint._distance_and_azimuth_greatcircle", "src/nvector/objects.py:GeoPoint.distance_and_azimuth", "src/nvector/util.py:deg"]}
{"id": "C114", "title": "closest_point_on_path returns the closest point of the path, in double precision", "statement": "In IEEE binary64, for a path of at most 2 radians (114 degrees) and a position not too near a pole of its great circle: the position GeoPath.closest_point_on_path returns is on the path to within a rounding error, and no position of the path is closer to the given one by more than that error, 4 E + 400 u radians with E = (5.2 + (9.1 + 8.1/sin(length))(1 + 1/sin(distance from the pole))) u and u = 2^-53 (about half a micrometre on the Earth in ordinary cases). A point found inside the path has the mean depth of the ends to 3e-10 m. In particular the point of the great circle that closest_point_on_great_circle computes always passes the library's own on_great_circle test at the default tolerance of 1e-8 m, for every radius up to 9000 km.", "quantifier": "all unit n-vectors of the ends and of the position with sin(length) and sin(distance from the pole) not tiny (their combination as in the theorem), all radii from 1 m to 9000 km, depths up to 1000 km; any dot product, arcsin and arctan2 good to a few units in the last place", "why_tests_cant": "Whether the foot passes the 1e-8 m test depends on the roundings of two cross products, a normalisation and a dot product; there are 2^576 triples of n-vectors.", "anchors": ["src/nvector/objects.py:GeoPath.closest_point_on_path", "src/nvector/objects.py:GeoPath._closest_point_on_path", "src/nvector/objects.py:GeoPath._closest_point_on_great_circle", "src/nvector/core.py:closest_point_on_great_circle", "src/nvector/core.py:on_great_circle_path", "src/nvector/objects.py:GeoPath._on_great_circle_path"]}
{"id": "C115", "title": "The n-vector comes back from the rotation matrix, in double precision", "statement": "In IEEE binary64, R_EL2n_E and R_EN2n_E return exactly minus the last column of the matrix (no rounding error at all), for every matrix of finite entries. Hence R_EN2n_E(n_E2R_EN(n)) is the direction of n with every component right to 5 units of roundoff, for every vector n of ordinary length that is exactly a pole or not absurdly close to one; for positions in degrees R_EN2n_E(FrameN(P).R_EN) is the n-vector of P to 27 units of roundoff and R_EL2n_E(FrameL(P, wander).R_EN) to 55, the latter being the same vector whatever the wander azimuth.", "quantifier": "all matrices of finite doubles; all n-vectors of length between 2^-400 and 2^400; all latitudes, longitudes and wander azimuths up to 4 rad; any sin, cos, arctan2 good to a few units in the last place; einsum adding with or without fused multiply-add", "why_tests_cant": "2^576 matrices; the sum of three products could round, and the wander azimuth enters two of the three columns the sum runs over.", "anchors": ["src/nvector/rotation.py:R_EL2n_E", "src/nvector/rotation.py:R_EN2n_E", "src/nvector/rotation.py:n_E2R_EN", "src/nvector/rotation.py:n_E_and_wa2R_EL", "src/nvector/util.py:mdot"]}
{"id": "C116", "title": "From degrees to degrees: closest, interpolated and crossing positions of a GeoPath", "statement": "In IEEE binary64, for positions given as latitude and longitude in degrees and depth, and read back through latitude_deg and longitude_deg: the position GeoPath.closest_point_on_path returns is within (565 + (38 + 34/s)(1 + 1/r)) u radians of a position of the exact path, and no position of the path is closer to the given one by more than that (s the sine of the length of the path, r the cosine of the distance of the position from the great circle, u = 2^-53); on WGS-84 that is 5.2 micrometres for every path from 100 km to 109 degrees and every position within 60 degrees of its great circle. Its depth is exactly the depth of an end, where the position is that end to 274/10 u, or the mean of the two to 3e-10 m. Likewise closest_point_on_great_circle, intersect and interpolate return latitudes and longitudes in degrees within (31 + (43 + 271/s)(1 + 1/r)) u, (30 + 136 (1 + 1/sa + 1/sb)/t) u and (32 + 50/|P|) u radians of the exact point.", "quantifier": "all ends and positions in degrees with depths up to 1000 km, paths up to 1.9 radians (109 degrees) for closest_point_on_path, geometry not degenerate (as stated in the theorems), any sin, cos, arcsin, arctan2 and dot product good to a few units in the last place", "why_tests_cant": "2^512 inputs; which branch is taken depends on rounding, next to the ends of the path and next to the poles of its great circle.", "anchors": ["src/nvector/objects.py:GeoPath.closest_point_on_path", "src/nvector/objects.py:GeoPath._closest_point_on_path", "src/nvector/objects.py:GeoPath.closest_point_on_great_circle", "src/nvector/objects.py:GeoPath.intersect", "src/nvector/objects.py:GeoPath.interpolate", "src/nvector/objects.py:Nvector.to_geo_point", "src/nvector/objects.py:GeoPoint.latitude_deg", "src/nvector/objects.py:GeoPoint.longitude_deg"]}
{"id": "C117", "title": "Azimuth from A to B in double precision, and the azimuth back from the direct problem", "statement": "In IEEE binary64, n_EA_E_and_n_EB_E2azimuth for positions given in degrees, on every ellipsoid with 0 <= f <= 1/2: the result is finite and within e/(h - e) + 6.3 u radians of a true azimuth of B seen from A, where h is the horizontal distance of B from the vertical at A, e = u (51 a + 35 a/(1-f) + 93 |AB|) and u = 2^-53; on WGS-84 e is 61 nanometres plus 1.04e-14 |AB|. On a sphere (f = 0) it is within e/(sin D - e) + 6.3 u, e = (51 + 92 chord) u, of the direction in which the great circle from A reaches B after the angle D. Sending B from A by n_EA_E_distance_and_azimuth2n_EB_E with distance D and azimuth az and asking for the azimuth again gives az up to whole turns within 278 u/(sin D - 278 u) + 6.3 u.", "quantifier": "all positions in degrees, all ordinary n-vectors (in double precision) off the poles, radii from 2^-100 to 2^300, distances and azimuths with sin D > 278 u; any sin, cos, arctan2 and sum of three products good to a few units in the last place", "why_tests_cant": "2^256 inputs, and the error grows without bound towards coincident and antipodal positions.", "anchors": ["src/nvector/core.py:n_EA_E_and_n_EB_E2azimuth", "src/nvector/core.py:n_EA_E_distance_and_azimuth2n_EB_E", "src/nvector/core.py:n_EA_E_and_n_EB_E2p_AB_E", "src/nvector/rotation.py:n_E2R_EN"]}
{"id": "C118", "title": "The cube root in double precision", "statement": "In IEEE binary64, nthroot(x, 3) returns the cube root of x to machine precision, as its documentation says: within 1.7 u of the exact root (u = 2^-53) for every positive double x.", "quantifier": "all positive doubles; any pow of the C library with an error of at most one unit in the last place", "why_tests_cant": "2^62 inputs, and every pow the error bound allows; the error of the starting value grows with the logarithm of x, so that no sample shows the worst case.", "anchors": ["src/nvector/util.py:nthroot"]}
{"id": "C119", "title": "Euclidean track and cross track distance of a GeoPath, from degrees, in double precision", "statement": "In IEEE binary64 on WGS-84, for positions given in degrees and depths up to 1000 km: GeoPath(A, B).track_distance(method='euclidean') is finite and within 0.13 micrometres of the chord 2 R sin(angle(A, B)/2), R the mean distance of A and B from the centre of the Earth; GeoPath(A, B).cross_track_distance(C, method='euclidean') is finite and within (33 + 75/s) u 7378138 m + 0.04 micrometres of the signed distance of C from the plane of the great circle on the sphere of radius R (s the sine of the angle between A and B, u = 2^-53), for every C, also at the poles of the circle, where the great circle distance loses half the digits.", "quantifier": "all positions in degrees (in double precision), depths up to 1000 km, ends neither coincident nor opposite for the cross track distance; any sin, cos and dot product good to a few units in the last place", "why_tests_cant": "2^448 inputs, and the error grows without bound as the ends of the path come together.", "anchors": ["src/nvector/objects.py:GeoPath.track_distance", "src/nvector/objects.py:GeoPath.cross_track_distance", "src/nvector/objects.py:GeoPath._get_average_radius", "src/nvector/core.py:euclidean_distance", "src/nvector/core.py:cross_track_distance", "src/nvector/core.py:_euclidean_cross_track_distance"]}
