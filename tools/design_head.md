# Formal model of pbrod/Nvector in Rocq (Coq 8.16.1)

The plan was written before the proofs (git history); this file is regenerated by `tools/mkdesign.py`
(`tools/design_head.md` plus a table built from `properties.jsonl`, `MANIFEST.json` and the sources).

## 1. Layers

| file (rocq/theories) | content |
|---|---|
| `Num.v`      | scalars `num`: exact reals plus `-0`, `±inf`, `NaN`, with numpy's operation tables |
| `Nd.v`       | n-dimensional arrays (shape + index function), broadcasting, `dot`, `einsum`, `cross`, `norm`, `vstack`, `squeeze`, boolean masks, ... |
| `Py.v`       | Python effects: exceptions as values, warnings as a log |
| `MUtil.v`, `MRotation.v`, `MCore.v` | the functional API, one definition per Python function, each citing file and lines |
| `MInterp.v`  | `scipy.interpolate.interp1d(kind='linear')` as used by `interp_nvectors` |
| `MObjects.v`, `MAccess.v`, `MRepr.v` | the object API (GeoPoint, Nvector, ECEFvector, Pvector, GeoPath, FrameE/N/L/B) |
| `MHeap.v`    | a Python heap with aliasing and nested containers (`array_to_list_dict` mutates in place) |
| `MHist.v`    | a store of objects and a step function over method calls, for histories with sharing |
| `Spec*.v`    | independent specification: vectors of R^3, angle, great circles, rotations, ellipsoid, paths; nothing from the model |
| `L*.v`       | lemmas |
| `P*.v`       | property theorems over the exact model, with examples that meet their hypotheses |
| `F*.v`       | IEEE binary64 (Flocq) models of `unit`, the norms and the distances, with rounding, overflow, NaN: C60, C62, C76- |

Theorems of property Cnn are named `Cnn_*`; the suffix `_partial` marks a theorem that proves only part of the property,
the suffix `_refuted` a theorem that proves the property (as a user would read the documentation) false of the code.

## 2. What is modelled

* `util.py`: `array_to_list_dict`, `isclose`, `allclose`, `_check_length_deviation`, `deg`, `rad`, `mdot`, `nthroot`,
  `get_ellipsoid` with both tables, `unit`. All functions.
* `rotation.py`: `E_rotation`, `R2xyz`, `R2zyx`, `R_EL2n_E`, `R_EN2n_E`, `_atleast_3d`, `xyz2R`, `zyx2R`, `n_E2lat_lon`,
  `n_E2R_EN`, `n_E_and_wa2R_EL`. All functions.
* `core.py`: all functions.
* `objects.py`: all classes and methods, `delta_E/N/L`, `_base_angle`, `_check_frames`, `_default_frame`. (`__radd__`, `__rsub__`,
  `__truediv__`, `__itruediv__` and the deprecated aliases are the same functions.) `__repr__` is modelled as the sequence of
  (name, displayed value) pairs and its effect on the heap, not as characters.

## 3. What is not modelled

* `plot.py`, `_examples*.py`, `_info*.py`, `_images.py`, `_common.py` (docstring decorators), `license.py`, `tests/`.
* Rounding: in `M*.v`/`P*.v` finite arithmetic is exact. Only `F*.v` rounds, and only for the functions named there.
  So P-theorems speak about the algorithms, not about the last digits; statements about signed zeros, NaN and infinities are
  nevertheless about what numpy does, because the exact results 0, -0, inf, nan of IEEE arithmetic are in `num`.
* External libraries are modelled from their documentation: numpy broadcasting, `einsum`, `dot`, `cross`, `norm`, `arctan2`
  (with signed zeros), `mod`, `sign`, `isclose`, `squeeze`, `vstack`, fancy assignment with a mask; scipy `interp1d` linear.
  Non-linear `interp1d` kinds and `savgol_filter` are universally quantified functions (theorems state what is needed of them);
  so is `karney.geodesic` (the solver behind `FrameE.inverse/direct`): theorems about ellipsoid methods say how its answers
  are used, and which property of the solver they need.
* Python machinery: attribute lookup by `hasattr`/duck typing is modelled as the class distinction; the recursion limit,
  memory errors, threads (the package has no shared mutable state), dtype other than float64 and subclassing by users are not.
* Where the model does not cover a shape it answers the exception `NotModelled`; no theorem claims that of Python.

## 4. Trusted base

* Coq's kernel (8.16.1), the definitions in `Num.v`, `Nd.v`, `Py.v`, `M*.v` (transcription of the code and of numpy), the
  specifications `Spec*.v`, and for `F*.v` Flocq's definition of binary64 (`BinarySingleNaN`).
* Axioms: only Coq's standard library: `ClassicalDedekindReals.sig_forall_dec`, `ClassicalDedekindReals.sig_not_dec`,
  `FunctionalExtensionality.functional_extensionality_dep` (the real numbers of the standard library rest on these three)
  and `Classical_Prop.classic` (through the standard library's trigonometry and Flocq). `ASSUMPTIONS.md` gives the output of
  `Print Assumptions` for every theorem in the manifest.
* No axioms of our own, no `Admitted`, no functors, no kernel switches. `Section` variables are discharged.

## 5. How the proofs go

* Arrays: every function of the functional API is first characterised column by column (`L*.v`: "the result has this shape and
  column j is this vector of R^3"), for every number of columns; then the geometry is done in R^3 against `Spec*.v`.
* Angles: `arctan2` is characterised by (sin, cos); angles by `acos` of the normalised dot product; the triangle inequality by Cauchy-Schwarz.
* Ellipsoid: `n_EB_E2p_EB_E` is shown to be the point with the given normal and height; `p_EB_E2n_EB_E` by verifying that
  `_compute_k` is the positive root of Vermeille's quartic and that this root is unique (monotonicity).
* Objects: a frame is read as a rotation at a position, a point of any class as a position in space; each method is specified by
  what it does to positions. Equality (`==`) is characterised as a tolerance relation.
* Heaps and histories: induction over the object graph / over the list of calls, with a frame invariant (everything allocated
  before is unchanged unless `unit()` was called on it).
* Binary64: standard model of rounding errors (rel. u = 2^-53, abs. eta = 2^-1075), propagated through norm, quotient, cross
  product and arctan2; equalities "bit for bit" by case analysis on IEEE values.

## 6. Findings (each proved, see the `_refuted` theorems)

| property | finding |
|---|---|
| C03 | scalar latitude with several longitudes raises ValueError |
| C13 | `great_circle_distance` of n pairs returns n*n numbers (`dot(A.T, B)`) |
| C16, C67 | `intersect` returns the zero vector when the crossing is exactly 90 degrees from A1 |
| C18 | `intersect` of paths with several columns raises ValueError; with exactly 3 columns the components are mixed up |
| C20, C55, C68 | closest point for a pole of the great circle is not on the circle; several columns raise ValueError |
| C96 | `cross_track_distance`/`on_great_circle` with n paths and n positions return n*n answers; `closest_point_on_great_circle` with exactly three positions mixes up their signs; `GeoPath.closest_point_on_path` raises for 2 or more positions |
| C22, C55, C65 | `on_great_circle_path` accepts points off the segment for every path of 120 degrees or more |
| C23, C24 | direct and inverse problem at the poles are wrong (axes 'E': not a unit vector; default axes: azimuth a quarter turn off) |
| C29 | `R2xyz`/`R2zyx` do not invert in gimbal lock |
| C33 | `mdot` accepts a column times a matrix of mismatched dimensions |
| C38 | five documented ellipsoid names raise KeyError; ETRS89 has flattening 1/298.26 instead of 1/298.257222101 |
| C41 | `FrameB == FrameN` and `FrameN == FrameB` differ |
| C49 | a scalar vector changed to a frame at several positions reports only the first component |
| C51 | `displace(method='greatcircle')` goes the wrong way for axes 'E' (`R_Ee` not passed on) |
| C54, C61 | a scalar radius yields only the first distance; several starting positions raise ValueError |
| C58 | `FrameE(a=x)` without `f` silently ignores x |
| C62 | vectors shorter than about 2^-538 are taken for zero by `unit` (underflow) |
| C99 | vectors with a component of 2^512 (1.3e154) or more come back from `unit` as the zero vector (overflow) |
| C65 | azimuths on both sides of +-180 degrees are not identified by `on_path(method='ellipsoid')` |
| C66 | interpolation between two positions has no constant speed (it is along the chord) |
| C71 | `GeoPath.intersect` does not check frames |
| C85 | in double precision `cross_track_distance` of a pole of the great circle can be NaN (sine above 1) |
| C86 | in double precision, with the default `atol` of 1e-8 m, `on_great_circle` denies that the end points of a short path are on it |
| C87 | the sum of two Nvectors changes when `unit()` (in place) was called on one of them earlier |
| C98 | in double precision a crossing a quarter turn from A1 can come back as the zero vector |
| C101 | the mean of positions that cancel is not carried along by a change of axes |
| C109 | in double precision `GeoPoint == GeoPoint` depends on the order near the tolerance |
| C111 | `elevation` loses half the digits close to the vertical (arcsin of z over length) |
| C112 | no position, not even A, is `on_path` of a path from A to A (0/0); with the default `atol` the ends of a 190 m path are not on the path |
| C118 | `nthroot(x, 3)` is not accurate to machine precision from 2^52 on: the Newton correction is skipped there, and the root of 2^900 is at least 70 u too small |
| C75 | `repr` of an object with a dict attribute converts the user's arrays in place |

## 7. Testing the theorems against wrong programs

`seeded/LOG.jsonl` records every seeded bug: the definition edited (in a scratch copy), the edit, the claim it breaks, the
theorems that no longer check, and the theorems that were tightened. `tools/mutate.py` is the runner.

## 8. Properties

