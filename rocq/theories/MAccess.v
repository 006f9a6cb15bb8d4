(** * Small accessors and factories of objects.py *)
From Coq Require Import String List Arith Reals.
From Verif Require Import Num Py Nd MUtil MRotation MCore MObjects.
Import ListNotations.

(** GeoPoint.latitude_deg 236-239, longitude_deg 241-244, latlon_deg 226-229, latlon 231-234 *)
Definition latitude_deg (g : geoPoint) : arr num := deg1 (g_lat g).
Definition longitude_deg (g : geoPoint) : arr num := deg1 (g_lon g).
Definition latlon_deg (g : geoPoint) : arr num * arr num * arr num := (latitude_deg g, longitude_deg g, g_z g).
Definition latlon (g : geoPoint) : arr num * arr num * arr num := (g_lat g, g_lon g, g_z g).

(** Pvector.azimuth_deg 691-694, elevation_deg 704-707 *)
Definition azimuth_deg (p : arr num) (scalar : bool) : M (arr num) := x <- azimuth_ p scalar ;; ret (deg1 x).
Definition elevation_deg (p : arr num) (scalar : bool) : M (arr num) := x <- elevation_ p scalar ;; ret (deg1 x).

(** FrameE.GeoPoint 1361-1365, FrameE.Nvector 1367-1371, FrameE.ECEFvector 1373-1377.
    [frame_kw] is the value of a keyword argument frame=..., if given ([Some None]: frame=None); it is dropped.
    [frame_pos]: the frame was passed as a positional argument, which Python refuses because the keyword
    frame=self is passed on as well ("got multiple values for argument 'frame'"). *)
Definition frameE_GeoPoint (fr : frameE) (latitude longitude z : arr num) (degrees : bool)
    (frame_kw : option (option frameE)) (frame_pos : bool) : M geoPoint :=
  if frame_pos then raise TypeError else GeoPoint latitude longitude z (Some fr) degrees.
Definition frameE_Nvector (fr : frameE) (normal z : arr num)
    (frame_kw : option (option frameE)) (frame_pos : bool) : M nvector :=
  if frame_pos then raise TypeError else Nvector normal z (Some fr).
Definition frameE_ECEFvector (fr : frameE) (p : arr num) (scalar : option bool)
    (frame_kw : option (option frameE)) (frame_pos : bool) : M ecef :=
  if frame_pos then raise TypeError else ECEFvector p (Some fr) scalar.

(** _LocalFrame.Pvector 1382-1384 *)
Definition local_Pvector (l : local) (p : arr num) : M pvector := Pvector p l None.

(** GeoPath.geo_points 865-868, ecef_vectors 870-873, nvector_normals 875-878 *)
Definition path_geo_points (pa : geoPath) : M (geoPoint * geoPoint) :=
  a <- to_geo_point (gp_a pa) ;; b <- to_geo_point (gp_b pa) ;; ret (a, b).
Definition path_ecef_vectors (pa : geoPath) : M (ecef * ecef) :=
  a <- to_ecef_vector (gp_a pa) ;; b <- to_ecef_vector (gp_b pa) ;; ret (a, b).
Definition path_nvector_normals (pa : geoPath) : M (arr num * arr num) :=
  '(a, b) <- path_nvectors pa ;; ret (n_normal a, n_normal b).

(** GeoPath.positionA 846-851, positionB 853-858: deprecated *)
Definition positionA (pa : geoPath) : M point := warn WDeprecated ;;; ret (gp_a pa).
Definition positionB (pa : geoPath) : M point := warn WDeprecated ;;; ret (gp_b pa).

(** delta_to: delta_N with self as the first position, 106-108 and 286, 577, 681, 804 *)
Definition delta_to (self other : point) : M pvector := delta_N self other.
