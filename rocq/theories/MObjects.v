(** * Model of /repo/src/nvector/objects.py

    Python objects are records; a scalar attribute is a 0-d array.  Objects are
    values: object identity ([self is other], objects.py 144) is an explicit
    argument [same] of the model of [==] (see [py_eq]). *)
From Coq Require Import List Arith Bool Reals String Ascii ZArith QArith Qreals.
From Verif Require Import Num Py Nd MUtil MRotation MCore.
Import ListNotations.
Local Open Scope R_scope.

(** FrameE attributes, objects.py 1210-1213.  [a] and [f] are scalars. *)
Record frameE := MkFrameE { fe_a : num; fe_f : num; fe_name : key; fe_R : arr num }.

(** objects.py 206-210, 465-468, 633-638, 746-747 *)
Record geoPoint := MkGeo { g_lat : arr num; g_lon : arr num; g_z : arr num; g_frame : frameE }.
(** Nvector attributes, objects.py 465-468 *)
Record nvector := MkNv { n_normal : arr num; n_z : arr num; n_frame : frameE }.
(** ECEFvector attributes, objects.py 633-638, 746-747 *)
Record ecef := MkEcef { e_p : arr num; e_frame : frameE; e_scalar : bool }.

(** FrameN (1421-1423), FrameL (1474-1476), FrameB (1516-1522) *)
Inductive local :=
| LocalN (nv : nvector)
| LocalL (nv : nvector) (wander_azimuth : arr num)
| LocalB (nv : nvector) (yaw pitch roll : arr num).

(** Pvector (629-716) relative to a local frame *)
Record pvector := MkPv { p_p : arr num; p_frame : local; p_scalar : bool }.

(** the default z=0, objects.py 206, 465 *)
Definition z0 : arr num := scal (Fin 0).

(** FrameE.__init__, objects.py 1207-1213 *)
Definition FrameE (a f : option num) (name : key) (axes : string) : M frameE :=
  '(a, f) <- match a, f with
             | Some a, Some f => ret (a, f)
             | _, _ => e <- get_ellipsoid name ;;
                       ret (Fin (Q2R (el_a e)), Fin (Q2R (el_f e)))       (* 1208-1209 *)
             end ;;
  R_Ee <- E_rotation axes ;;                                              (* 1213 *)
  ret (MkFrameE a f name R_Ee).

(** _default_frame, objects.py 1545-1548 *)
Definition default_frame (frame : option frameE) : M frameE :=
  match frame with
  | None => FrameE None None (KStr "WGS84") "e"
  | Some f => ret f
  end.

(** GeoPoint.__init__, objects.py 206-210 *)
Definition GeoPoint (latitude longitude z : arr num) (frame : option frameE) (degrees : bool)
  : M geoPoint :=
  let '(latitude, longitude) :=
    if degrees then (rad1 latitude, rad1 longitude) else (latitude, longitude) in  (* 207-208 *)
  '(la, lo, zz) <- broadcast3 latitude longitude z ;;                     (* 209 *)
  fr <- default_frame frame ;;                                            (* 210 *)
  ret (MkGeo la lo zz fr).

(** Nvector.__init__, objects.py 465-468 *)
Definition Nvector (normal z : arr num) (frame : option frameE) : M nvector :=
  fr <- default_frame frame ;; ret (MkNv normal z fr).

(** a.shape[1] *)
Definition shape1 {A} (a : arr A) : M nat :=
  match shape a with _ :: c :: _ => ret c | _ => raise IndexError end.

(** ECEFvector.__init__ 746-747 with Pvector.__init__ 633-638 *)
Definition ECEFvector (p : arr num) (frame : option frameE) (scalar : option bool) : M ecef :=
  fr <- default_frame frame ;;
  s <- match scalar with Some s => ret s | None => c <- shape1 p ;; ret (c =? 1)%nat end ;;
  ret (MkEcef p fr s).

(** Pvector.__init__ 633-638 *)
Definition Pvector (p : arr num) (frame : local) (scalar : option bool) : M pvector :=
  s <- match scalar with Some s => ret s | None => c <- shape1 p ;; ret (c =? 1)%nat end ;;
  ret (MkPv p frame s).

(** Nvector.scalar, 549-551.  [and] short-circuits. *)
Definition nv_scalar (v : nvector) : M bool :=
  if (ndim (n_z v) =? 0)%nat then c <- shape1 (n_normal v) ;; ret (c =? 1)%nat else ret false.

(** GeoPoint.scalar, 246-251 *)
Definition geo_scalar (g : geoPoint) : bool :=
  (ndim (g_z g) =? 0)%nat && (size (g_lat g) =? 1)%nat && (size (g_lon g) =? 1)%nat.

(** ** Conversions *)
(** GeoPoint.to_nvector, 274-284 *)
Definition geo_to_nvector (g : geoPoint) : M nvector :=
  n_vector <- lat_lon2n_E (g_lat g) (g_lon g) (Some (fe_R (g_frame g))) ;;
  Nvector n_vector (g_z g) (Some (g_frame g)).

(** Nvector.to_ecef_vector, 534-546 *)
Definition nv_to_ecef (v : nvector) : M ecef :=
  let fr := n_frame v in
  p <- n_EB_E2p_EB_E (n_normal v) (n_z v) (fe_a fr) (fe_f fr) (Some (fe_R fr)) ;;   (* 544 *)
  s <- nv_scalar v ;;                                                               (* 545 *)
  ECEFvector p (Some fr) (Some s).                                                  (* 546 *)

(** Nvector.to_geo_point, 553-565 *)
Definition nv_to_geo (v : nvector) : M geoPoint :=
  '(latitude, longitude) <- n_E2lat_lon (n_normal v) (Some (fe_R (n_frame v))) ;;   (* 561 *)
  s <- nv_scalar v ;;
  if (s : bool) then
    la <- first latitude ;; lo <- first longitude ;;
    GeoPoint la lo (n_z v) (Some (n_frame v)) false                                 (* 563-564 *)
  else GeoPoint latitude longitude (n_z v) (Some (n_frame v)) false.                (* 565 *)

(** ECEFvector.to_nvector, 788-802 *)
Definition ecef_to_nvector (e : ecef) : M nvector :=
  let fr := e_frame e in
  '(n_EB_E, depth) <- p_EB_E2n_EB_E (e_p e) (fe_a fr) (fe_f fr) (Some (fe_R fr)) ;;
  if e_scalar e then d <- first depth ;; Nvector n_EB_E d (Some fr)
  else Nvector n_EB_E depth (Some fr).

(** GeoPoint.to_ecef_vector 253-261, ECEFvector.to_geo_point 778-786 *)
Definition geo_to_ecef (g : geoPoint) : M ecef := v <- geo_to_nvector g ;; nv_to_ecef v.
(** ECEFvector.to_geo_point, objects.py 778-786 *)
Definition ecef_to_geo (e : ecef) : M geoPoint := v <- ecef_to_nvector e ;; nv_to_geo v.

(** ** Local frames *)
(** the nvector of a local frame, objects.py FrameN, FrameL and FrameB *)
Definition l_nvector (l : local) : nvector :=
  match l with LocalN v => v | LocalL v _ => v | LocalB v _ _ _ => v end.

(** R_EN properties: FrameN 1425-1429, FrameL 1478-1483, FrameB 1524-1530 *)
Definition R_EN (l : local) : M (arr num) :=
  match l with
  | LocalN v => n_E2R_EN (n_normal v) (Some (fe_R (n_frame v)))
  | LocalL v wa => n_E_and_wa2R_EL (n_normal v) wa (Some (fe_R (n_frame v)))
  | LocalB v yaw pitch roll =>
      R_NB <- zyx2R yaw pitch roll ;;                                               (* 1527 *)
      R <- n_E2R_EN (n_normal v) (Some (fe_R (n_frame v))) ;;                       (* 1529 *)
      mdot R R_NB                                                                   (* 1530 *)
  end.

(** Pvector.to_ecef_vector, 645-658 *)
Definition pv_to_ecef (p : pvector) : M ecef :=
  R <- R_EN (p_frame p) ;;
  c <- newaxis1 (p_p p) ;;
  m <- mdot R c ;;
  p_AB_E <- reshape_rows 3 m ;;                                                     (* 657 *)
  ECEFvector p_AB_E (Some (n_frame (l_nvector (p_frame p)))) (Some (p_scalar p)).   (* 658 *)

(** ** Points of any class *)
Inductive point := PGeo (g : geoPoint) | PNv (v : nvector) | PEcef (e : ecef) | PPv (p : pvector).

(** to_nvector: GeoPoint 274, Nvector 567-575, ECEFvector 788, Pvector 660-669 *)
Definition to_nvector (p : point) : M nvector :=
  match p with
  | PGeo g => geo_to_nvector g
  | PNv v => ret v
  | PEcef e => ecef_to_nvector e
  | PPv p => e <- pv_to_ecef p ;; ecef_to_nvector e
  end.

(** to_ecef_vector: GeoPoint 253, Nvector 534, ECEFvector 775-776, Pvector 645 *)
Definition to_ecef_vector (p : point) : M ecef :=
  match p with
  | PGeo g => geo_to_ecef g
  | PNv v => nv_to_ecef v
  | PEcef e => ret e
  | PPv p => pv_to_ecef p
  end.

(** to_geo_point: GeoPoint 263-272, Nvector 553, ECEFvector 778, Pvector 671-679 *)
Definition to_geo_point (p : point) : M geoPoint :=
  match p with
  | PGeo g => ret g
  | PNv v => nv_to_geo v
  | PEcef e => ecef_to_geo e
  | PPv p => e <- pv_to_ecef p ;; ecef_to_geo e
  end.

(** FrameN.__init__ 1421-1423, FrameL.__init__ 1474-1476, FrameB.__init__ 1516-1522 *)
Definition FrameN (p : point) : M local :=
  v <- to_nvector p ;;
  w <- Nvector (n_normal v) z0 (Some (n_frame v)) ;; ret (LocalN w).
(** FrameL.__init__, objects.py 1474-1476 *)
Definition FrameL (p : point) (wander_azimuth : arr num) : M local :=
  v <- to_nvector p ;;
  w <- Nvector (n_normal v) z0 (Some (n_frame v)) ;; ret (LocalL w wander_azimuth).
(** FrameB.__init__, objects.py 1516-1522 *)
Definition FrameB (p : point) (yaw pitch roll : arr num) (degrees : bool) : M local :=
  v <- to_nvector p ;;
  ret (if degrees then LocalB v (rad1 yaw) (rad1 pitch) (rad1 roll) else LocalB v yaw pitch roll).

(** ** Equality *)
(** the default rtol=1e-12 of every _is_equal_to, objects.py 212, 594, 640, 1215, 1431, 1532 *)
Definition rtol12 : num := Fin (/ 10 ^ 12).
(** the default atol of every _is_equal_to, objects.py 212, 594, 640, 1215, 1431, 1532 *)
Definition atol14 : num := Fin (/ 10 ^ 14).
(** allclose with these tolerances, as every _is_equal_to calls it, objects.py 596-597, 641, 1217, 1432, 1533-1535 *)
Definition aclose (a b : arr num) : M bool := allclose a b rtol12 atol14 false.

(** Python's short-circuit [and] *)
Definition and_ (a b : M bool) : M bool :=
  x <- a ;; if (x : bool) then b else ret false.

(** try: ... except AttributeError: return False, objects.py 143-146 *)
Definition catch_attr (m : M bool) : M bool :=
  match m with (w, inr AttributeError) => (w, inl false) | _ => m end.

(** any library object *)
Inductive obj :=
| OGeo (g : geoPoint) | ONv (v : nvector) | OEcef (e : ecef) | OPv (p : pvector)
| OFrameE (f : frameE) | OLocal (l : local).

(** attribute access; a missing attribute is an AttributeError *)
Definition attr_latitude (o : obj) : M (arr num) :=
  match o with OGeo g => ret (g_lat g) | _ => raise AttributeError end.
(** other.longitude, objects.py 221-222 *)
Definition attr_longitude (o : obj) : M (arr num) :=
  match o with OGeo g => ret (g_lon g) | _ => raise AttributeError end.
(** other.z, objects.py 223, 597 *)
Definition attr_z (o : obj) : M (arr num) :=
  match o with OGeo g => ret (g_z g) | ONv v => ret (n_z v) | _ => raise AttributeError end.
(** other.normal, objects.py 596 *)
Definition attr_normal (o : obj) : M (arr num) :=
  match o with ONv v => ret (n_normal v) | _ => raise AttributeError end.
(** other.pvector, objects.py 642 *)
Definition attr_pvector (o : obj) : M (arr num) :=
  match o with OEcef e => ret (e_p e) | OPv p => ret (p_p p) | _ => raise AttributeError end.
(** other.frame, objects.py 224, 598, 643 *)
Definition attr_frame (o : obj) : M obj :=
  match o with
  | OGeo g => ret (OFrameE (g_frame g))
  | ONv v => ret (OFrameE (n_frame v))
  | OEcef e => ret (OFrameE (e_frame e))
  | OPv p => ret (OLocal (p_frame p))
  | _ => raise AttributeError
  end.
(** other.a, objects.py 1216 *)
Definition attr_a (o : obj) : M num :=
  match o with OFrameE f => ret (fe_a f) | _ => raise AttributeError end.
(** other.f, objects.py 1217 *)
Definition attr_f (o : obj) : M num :=
  match o with OFrameE f => ret (fe_f f) | _ => raise AttributeError end.
(** other.R_Ee, objects.py 1218 *)
Definition attr_R_Ee (o : obj) : M (arr num) :=
  match o with OFrameE f => ret (fe_R f) | _ => raise AttributeError end.
(** other.R_EN, objects.py 1432, 1536 *)
Definition attr_R_EN (o : obj) : M (arr num) :=
  match o with OLocal l => R_EN l | _ => raise AttributeError end.
(** other.nvector, objects.py 1433, 1537 *)
Definition attr_nvector (o : obj) : M nvector :=
  match o with OLocal l => ret (l_nvector l) | _ => raise AttributeError end.
(** other.yaw, objects.py 1533 *)
Definition attr_yaw (o : obj) : M (arr num) :=
  match o with OLocal (LocalB _ y _ _) => ret y | _ => raise AttributeError end.
(** other.pitch, objects.py 1534 *)
Definition attr_pitch (o : obj) : M (arr num) :=
  match o with OLocal (LocalB _ _ p _) => ret p | _ => raise AttributeError end.
(** other.roll, objects.py 1535 *)
Definition attr_roll (o : obj) : M (arr num) :=
  match o with OLocal (LocalB _ _ _ r) => ret r | _ => raise AttributeError end.

(** diff, objects.py 213-216, elementwise *)
Definition angle_diff (a b : num) : num :=
  let pi2 := Fin (2 * PI) in
  let delta := nmod (nsub a b) pi2 in
  if nlt (Fin PI) delta then nsub pi2 delta else delta.

(** FrameE._is_equal_to, 1215-1218 (model: [same] = False, see [py_eq]) *)
Definition frameE_is_equal (s : frameE) (o : obj) : M bool :=
  and_ (x <- attr_a o ;; aclose (scal (fe_a s)) (scal x))
    (and_ (x <- attr_f o ;; aclose (scal (fe_f s)) (scal x))
       (x <- attr_R_Ee o ;; aclose (fe_R s) x)).
(** == of two objects of which the left one is a FrameE *)
Definition frameE_eq (s : frameE) (o : obj) : M bool := catch_attr (frameE_is_equal s o).

(** Nvector._is_equal_to, 594-598 *)
Definition nv_is_equal (s : nvector) (o : obj) : M bool :=
  and_ (x <- attr_normal o ;; aclose (n_normal s) x)
    (and_ (x <- attr_z o ;; aclose (n_z s) x)
       (x <- attr_frame o ;; frameE_eq (n_frame s) x)).
(** == of an Nvector, objects.py 142-146, 594-598 *)
Definition nv_eq (s : nvector) (o : obj) : M bool := catch_attr (nv_is_equal s o).

(** GeoPoint._is_equal_to, 212-224 *)
Definition geo_is_equal (s : geoPoint) (o : obj) : M bool :=
  ola <- attr_latitude o ;;
  delta_lat <- map2 angle_diff (g_lat s) ola ;;                                     (* 219 *)
  olo <- attr_longitude o ;;
  delta_lon <- map2 angle_diff (g_lon s) olo ;;                                     (* 220 *)
  and_ (aclose delta_lat z0) (and_ (aclose delta_lon z0)
    (and_ (x <- attr_z o ;; aclose (g_z s) x)
       (x <- attr_frame o ;; frameE_eq (g_frame s) x))).                            (* 221-224 *)

(** FrameN._is_equal_to (also FrameL) 1431-1433, FrameB._is_equal_to 1532-1537 *)
Definition local_is_equal (s : local) (o : obj) : M bool :=
  match s with
  | LocalN v | LocalL v _ =>
      and_ (r <- R_EN s ;; x <- attr_R_EN o ;; aclose r x)
           (x <- attr_nvector o ;; nv_eq v (ONv x))
  | LocalB v yaw pitch roll =>
      and_ (x <- attr_yaw o ;; aclose yaw x)
        (and_ (x <- attr_pitch o ;; aclose pitch x)
           (and_ (x <- attr_roll o ;; aclose roll x)
              (and_ (r <- R_EN s ;; x <- attr_R_EN o ;; aclose r x)
                    (x <- attr_nvector o ;; nv_eq v (ONv x)))))
  end.
(** == of a local frame, objects.py 142-146, 1431-1433, 1532-1537 *)
Definition local_eq (s : local) (o : obj) : M bool := catch_attr (local_is_equal s o).

(** == of any two frames *)
Definition frame_eq (s o : obj) : M bool :=
  match s with
  | OFrameE f => frameE_eq f o
  | OLocal l => local_eq l o
  | _ => raise NotModelled
  end.

(** Pvector._is_equal_to (also ECEFvector), 640-643 *)
Definition pv_is_equal (p : arr num) (fr : obj) (o : obj) : M bool :=
  and_ (x <- attr_pvector o ;; aclose p x) (x <- attr_frame o ;; frame_eq fr x).

(** the _is_equal_to of the class of the object, objects.py 144 *)
Definition is_equal_to (s o : obj) : M bool :=
  match s with
  | OGeo g => geo_is_equal g o
  | ONv v => nv_is_equal v o
  | OEcef e => pv_is_equal (e_p e) (OFrameE (e_frame e)) o
  | OPv p => pv_is_equal (p_p p) (OLocal (p_frame p)) o
  | OFrameE f => frameE_is_equal f o
  | OLocal l => local_is_equal l o
  end.

(** _Common.__eq__, 142-146, [same] is the value of [self is other].
    Simplification: the nested comparisons of frames and nvectors take
    [self is other] to be False (it matters only for objects with NaN fields). *)
Definition py_eq (same : bool) (s o : obj) : M bool :=
  catch_attr (if same then ret true else is_equal_to s o).

(** _Common.__ne__, 148-149 *)
Definition py_ne (same : bool) (s o : obj) : M bool :=
  x <- py_eq same s o ;; ret (negb x).

(** _check_frames, 1540-1542, for the FrameE attributes of two objects *)
Definition check_frames (f g : frameE) : M unit :=
  b <- frameE_eq f (OFrameE g) ;; if (b : bool) then ret tt else raise ValueError.

(** the frame attribute of a point, as used by _check_frames; a Pvector's frame is local *)
Definition check_frames_pt (f : frameE) (p : point) : M unit :=
  b <- frameE_eq f (match p with
                    | PGeo g => OFrameE (g_frame g)
                    | PNv v => OFrameE (n_frame v)
                    | PEcef e => OFrameE (e_frame e)
                    | PPv p => OLocal (p_frame p)
                    end) ;;
  if (b : bool) then ret tt else raise ValueError.

(** ** ECEFvector arithmetic and frame change *)
(** 806-817 *)
Definition ecef_add (s o : ecef) : M ecef :=
  check_frames (e_frame s) (e_frame o) ;;;
  p <- map2 nadd (e_p s) (e_p o) ;;
  ECEFvector p (Some (e_frame s)) (Some (e_scalar s && e_scalar o)).
(** ECEFvector.__sub__, objects.py 811-814 *)
Definition ecef_sub (s o : ecef) : M ecef :=
  check_frames (e_frame s) (e_frame o) ;;;
  p <- map2 nsub (e_p s) (e_p o) ;;
  ECEFvector p (Some (e_frame s)) (Some (e_scalar s && e_scalar o)).
(** ECEFvector.__neg__, objects.py 816-817 *)
Definition ecef_neg (s : ecef) : M ecef :=
  ECEFvector (map1 nneg (e_p s)) (Some (e_frame s)) (Some (e_scalar s)).

(** ECEFvector.change_frame, 749-773 *)
Definition change_frame (s : ecef) (l : local) : M pvector :=
  check_frames (e_frame s) (n_frame (l_nvector l)) ;;;                              (* 770 *)
  R <- R_EN l ;;
  Rt <- swapaxes10 R ;;
  c <- newaxis1 (e_p s) ;;
  m <- mdot Rt c ;;                                                                 (* 772 *)
  r <- reshape_rows 3 m ;;
  Pvector r l (Some (e_scalar s)).                                                  (* 773 *)

(** delta_E 43-78, delta_N 89-103, delta_L 111-128 *)
Definition delta_E (a b : point) : M ecef :=
  p_EA_E <- to_ecef_vector a ;;
  p_EB_E <- to_ecef_vector b ;;
  ecef_sub p_EB_E p_EA_E.
(** In delta_N the left operand delta_E(...) is evaluated before FrameN(point_a). *)
Definition delta_N (a b : point) : M pvector :=
  d <- delta_E a b ;; l <- FrameN a ;; change_frame d l.
(** delta_L, objects.py 111-128 *)
Definition delta_L (a b : point) (wander_azimuth : arr num) : M pvector :=
  l <- FrameL a wander_azimuth ;; d <- delta_E a b ;; change_frame d l.

(** diff_positions, objects.py 81 (np.deprecate) *)
Definition diff_positions (a b : point) : M ecef := warn WDeprecated ;;; delta_E a b.

(** ** Pvector properties 683-716; the scalar case indexes [0] *)
Definition opt_first (scalar : bool) (x : arr num) : M (arr num) :=
  if scalar then first x else ret x.
(** Pvector.length, objects.py 684-689 *)
Definition length_ (p : arr num) (scalar : bool) : M (arr num) :=
  l <- norm0 p ;; opt_first scalar l.                                               (* 684-689 *)
(** Pvector.azimuth, objects.py 696-702 *)
Definition azimuth_ (p : arr num) (scalar : bool) : M (arr num) :=
  y <- row 1 p ;; x <- row 0 p ;;
  t <- map2 narctan2 y x ;; opt_first scalar t.                                     (* 697-702 *)
(** Pvector.elevation, objects.py 704-716 *)
Definition elevation_ (p : arr num) (scalar : bool) : M (arr num) :=
  z <- row 2 p ;;
  l <- length_ p scalar ;;
  q <- map2 ndiv z l ;;
  opt_first scalar (map1 narcsin q).                                                (* 710-715 *)

(** ** _base_angle, 84-86, elementwise *)
Definition base_angle (x : num) : num :=
  nsub (nmod (nadd x (Fin PI)) (Fin (2 * PI))) (Fin PI).

(** ** Nvector methods *)
(** 600-626 *)
Definition nv_add (s o : nvector) : M nvector :=
  check_frames (n_frame s) (n_frame o) ;;;
  n <- map2 nadd (n_normal s) (n_normal o) ;; z <- map2 nadd (n_z s) (n_z o) ;;
  Nvector n z (Some (n_frame s)).
(** Nvector.__sub__, objects.py 604-606 *)
Definition nv_sub (s o : nvector) : M nvector :=
  check_frames (n_frame s) (n_frame o) ;;;
  n <- map2 nsub (n_normal s) (n_normal o) ;; z <- map2 nsub (n_z s) (n_z o) ;;
  Nvector n z (Some (n_frame s)).
(** Nvector.__neg__, objects.py 608-609 *)
Definition nv_neg (s : nvector) : M nvector :=
  Nvector (map1 nneg (n_normal s)) (map1 nneg (n_z s)) (Some (n_frame s)).

(** the second operand of * and /: an Nvector or a number/array *)
Inductive operand := AnNvector (v : nvector) | AScalar (x : arr num).
(** Nvector.__mul__, objects.py 611-616 *)
Definition nv_mul (s : nvector) (o : operand) : M nvector :=
  match o with
  | AScalar x =>
      n <- map2 nmul (n_normal s) x ;; z <- map2 nmul (n_z s) x ;;
      Nvector n z (Some (n_frame s))                                                (* 615 *)
  | AnNvector _ => raise NotImplementedError                                        (* 616 *)
  end.
(** Nvector.__div__, objects.py 618-626 *)
Definition nv_div (s : nvector) (o : operand) : M nvector :=
  match o with
  | AScalar x =>
      n <- map2 ndiv (n_normal s) x ;; z <- map2 ndiv (n_z s) x ;;
      Nvector n z (Some (n_frame s))                                                (* 621 *)
  | AnNvector _ => raise NotImplementedError                                        (* 622 *)
  end.

(** Nvector.mean, 583-588 *)
Definition nv_mean (s : nvector) : M nvector :=
  n <- mean_horizontal_position (n_normal s) ;;
  Nvector n (scal (mean (n_z s))) (Some (n_frame s)).

(** Nvector.unit (in place), 579-581: the new state of the object *)
Definition nv_unit_inplace (s : nvector) : M nvector :=
  n <- nv_unit (n_normal s) (Fin 1) ;; ret (MkNv n (n_z s) (n_frame s)).

(** vectors_i[:3] *)
Definition rows3 {A} (a : arr A) : M (arr A) :=
  match shape a with
  | r :: s => ret (Arr (Nat.min 3 r :: s) (get a))
  | [] => raise IndexError
  end.

(** Nvector.interpolate, 470-532 *)
Definition nv_interpolate savgol interp (s : nvector) (window_length : Z) : M nvector :=
  vectors <- vstack2 (n_normal s) (n_z s) ;;                                        (* 529 *)
  vectors_i <- interp_vectors savgol interp vectors window_length ;;                (* 530 *)
  v3 <- rows3 vectors_i ;;
  normal <- nv_unit v3 NaN ;;                                                       (* 531 *)
  z <- row 3 vectors_i ;;
  Nvector normal z (Some (n_frame s)).                                              (* 532 *)

(** ** Geodesics on the ellipsoid.
    [geo_inverse a f lat1 lon1 lat2 lon2 unroll] and [geo_direct a f lat1 lon1 az s unroll]
    stand for geographiclib's Geodesic(a, f).Inverse / .Direct with the outmask of
    FrameE._outmask (1287-1291); external, universally quantified. *)
Definition solver : Type :=
  num -> num -> num -> num -> num -> num -> bool -> M (num * num * num).

(** [fun(...) for ... in items] then np.transpose and unpacking in three rows
    (1270-1271, 1345-1346); an empty list cannot be unpacked in three *)
Fixpoint mapM {A} (f : nat -> M A) (n : nat) : M (list A) :=
  match n with
  | O => ret []
  | S m => l <- mapM f m ;; x <- f m ;; ret (l ++ [x])
  end.

(** one row of the transposed results, objects.py 1278-1280, 1351-1353 *)
Definition triples (l : list (num * num * num)) (sel : num * num * num -> num) : arr num :=
  vec NaN (map sel l).

(** np.broadcast_arrays of five arrays *)
Definition broadcast5 (a b c d e : arr num)
  : M (arr num * arr num * arr num * arr num * arr num) :=
  match bshape (shape a) (shape b) with
  | None => raise ValueError
  | Some s1 =>
  match bshape s1 (shape c) with
  | None => raise ValueError
  | Some s2 =>
  match bshape s2 (shape d) with
  | None => raise ValueError
  | Some s3 =>
  match bshape s3 (shape e) with
  | None => raise ValueError
  | Some s =>
      ret (broadcast_to a s, broadcast_to b s, broadcast_to c s, broadcast_to d s, broadcast_to e s)
  end end end end.

(** the common part of FrameE.inverse 1267-1280 and FrameE.direct 1340-1353:
    solve pointwise, [post] the three columns, unpack scalars.
    [a1 .. a4] are the broadcast solver inputs in degrees. *)
Definition pointwise (solve : solver) (fr : frameE) (a1 a2 a3 a4 z : arr num) (unroll : bool)
    (post1 post2 post3 : num -> num) : M (arr num * arr num * arr num) :=
  '(b1, b2, b3, b4, bz) <- broadcast5 a1 a2 a3 a4 z ;;
  match shape (atleast_1d b1) with
  | [n] =>
      let g x i := get (atleast_1d x) [i] in
      l <- mapM (fun i => solve (nsub (fe_a fr) (g bz i)) (fe_f fr)
                            (g b1 i) (g b2 i) (g b3 i) (g b4 i) unroll) n ;;
      if (n =? 0)%nat then raise ValueError
      else
        let r1 := map1 post1 (triples l (fun t => fst (fst t))) in
        let r2 := map1 post2 (triples l (fun t => snd (fst t))) in
        let r3 := map1 post3 (triples l snd) in
        if (ndim b1 =? 0)%nat then
          x <- first r1 ;; y <- first r2 ;; w <- first r3 ;; ret (x, y, w)
        else ret (r1, r2, r3)
  | _ => raise NotModelled
  end.

(** FrameE.inverse, 1220-1285: (s_ab, azimuth_a, azimuth_b) *)
Definition inverse (gi : solver) (fr : frameE) (lat_a lon_a lat_b lon_b z : arr num)
    (long_unroll degrees : bool) : M (arr num * arr num * arr num) :=
  if degrees then
    pointwise gi fr lat_a lon_a lat_b lon_b z long_unroll (fun x => x) (fun x => x) (fun x => x)
  else
    pointwise gi fr (deg1 lat_a) (deg1 lon_a) (deg1 lat_b) (deg1 lon_b) z long_unroll
      (fun x => x) deg2rad deg2rad.                                                 (* 1264-1274 *)

(** FrameE.direct, 1293-1359: (lat_b, lon_b, azimuth_b) *)
Definition direct (gd : solver) (fr : frameE) (lat_a lon_a azimuth distance z : arr num)
    (long_unroll degrees : bool) : M (arr num * arr num * arr num) :=
  if degrees then
    pointwise gd fr lat_a lon_a azimuth distance z long_unroll (fun x => x) (fun x => x) (fun x => x)
  else
    pointwise gd fr (deg1 lat_a) (deg1 lon_a) (deg1 azimuth) distance z long_unroll
      deg2rad deg2rad deg2rad.                                                      (* 1337-1348 *)

(** ** GeoPoint methods *)
(** GeoPoint._displace_great_circle, 288-301.  Note that R_Ee is not passed on line 296. *)
Definition displace_great_circle (g : geoPoint) (distance azimuth : arr num) (degrees : bool)
  : M (geoPoint * arr num) :=
  n_a <- geo_to_nvector g ;;                                                        (* 291 *)
  e_a <- nv_to_ecef n_a ;;                                                          (* 292 *)
  radius <- length_ (e_p e_a) (e_scalar e_a) ;;                                     (* 293 *)
  distance_rad <- map2 ndiv distance radius ;;                                      (* 294 *)
  let azimuth_rad := if degrees then rad1 azimuth else azimuth in                   (* 295 *)
  normal_b <- n_EA_E_distance_and_azimuth2n_EB_E (n_normal n_a) distance_rad azimuth_rad None ;; (* 296 *)
  nb <- Nvector normal_b (g_z g) (Some (g_frame g)) ;;
  point_b <- nv_to_geo nb ;;                                                        (* 297 *)
  d <- delta_N (PGeo point_b) (PEcef e_a) ;;
  az <- azimuth_ (p_p d) (p_scalar d) ;;
  let azimuth_b := map1 (fun x => base_angle (nsub x (Fin PI))) az in               (* 298 *)
  ret (point_b, if degrees then deg1 azimuth_b else azimuth_b).                     (* 299-301 *)

(** GeoPoint._displace_ellipsoid, 333-348 *)
Definition displace_ellipsoid (gd : solver) (g : geoPoint) (distance azimuth : arr num)
    (long_unroll degrees : bool) : M (geoPoint * arr num) :=
  let azimuth := if degrees then azimuth else deg1 azimuth in                       (* 338-339 *)
  '(lat_b, lon_b, azimuth_b) <-
     direct gd (g_frame g) (deg1 (g_lat g)) (deg1 (g_lon g)) azimuth distance (g_z g)
       long_unroll true ;;                                                          (* 340-343 *)
  point_b <- GeoPoint lat_b lon_b (g_z g) (Some (g_frame g)) true ;;                (* 345 *)
  ret (point_b, if degrees then azimuth_b else rad1 azimuth_b).                     (* 346-348 *)

(** method[:1] == 'e', 329 *)
Definition starts_with_e (m : string) : bool :=
  match m with String c _ => Ascii.eqb c "e"%char | EmptyString => false end.

(** GeoPoint.displace, 303-331 *)
Definition displace (gd : solver) (g : geoPoint) (distance azimuth : arr num)
    (long_unroll degrees : bool) (method : string) : M (geoPoint * arr num) :=
  if starts_with_e method then displace_ellipsoid gd g distance azimuth long_unroll degrees
  else displace_great_circle g distance azimuth degrees.

(** GeoPoint._distance_and_azimuth_greatcircle, 395-410 *)
Definition daa_great_circle (g : geoPoint) (p : point) (degrees : bool)
  : M (arr num * arr num * arr num) :=
  n_a <- geo_to_nvector g ;; n_b <- to_nvector p ;;                                 (* 396-397 *)
  e_a <- nv_to_ecef n_a ;; e_b <- nv_to_ecef n_b ;;                                 (* 398-399 *)
  la <- length_ (e_p e_a) (e_scalar e_a) ;; lb <- length_ (e_p e_b) (e_scalar e_b) ;;
  s <- map2 nadd la lb ;;
  let radius := map1 (nmul (Fin (/ 2))) s in                                        (* 400 *)
  distance <- great_circle_distance (n_normal n_a) (n_normal n_b) radius ;;         (* 401 *)
  da <- delta_N (PEcef e_a) (PEcef e_b) ;;
  azimuth_a <- azimuth_ (p_p da) (p_scalar da) ;;                                   (* 402 *)
  db <- delta_N (PEcef e_b) (PEcef e_a) ;;
  azb <- azimuth_ (p_p db) (p_scalar db) ;;
  let azimuth_b := map1 (fun x => base_angle (nsub x (Fin PI))) azb in              (* 403 *)
  let '(aa, ab) := if degrees then (deg1 azimuth_a, deg1 azimuth_b)
                   else (azimuth_a, azimuth_b) in                                   (* 405-406 *)
  if (ndim radius =? 0)%nat then d <- first distance ;; ret (d, aa, ab)             (* 408-409 *)
  else ret (distance, aa, ab).

(** GeoPoint._distance_and_azimuth_ellipsoid, 412-421 *)
Definition daa_ellipsoid (gi : solver) (g : geoPoint) (p : point) (long_unroll degrees : bool)
  : M (arr num * arr num * arr num) :=
  gp <- to_geo_point p ;;                                                           (* 413 *)
  s <- map2 nadd (g_z g) (g_z gp) ;;
  let z := map1 (nmul (Fin (/ 2))) s in                                             (* 416 *)
  if degrees then
    inverse gi (g_frame g) (deg1 (g_lat g)) (deg1 (g_lon g)) (deg1 (g_lat gp)) (deg1 (g_lon gp))
      z long_unroll degrees
  else
    inverse gi (g_frame g) (g_lat g) (g_lon g) (g_lat gp) (g_lon gp) z long_unroll degrees.

(** method[0] == 'e', 391: IndexError on the empty string *)
Definition first_is_e (m : string) : M bool :=
  match m with String c _ => ret (Ascii.eqb c "e"%char) | EmptyString => raise IndexError end.

(** GeoPoint.distance_and_azimuth, 350-393 *)
Definition distance_and_azimuth (gi : solver) (g : geoPoint) (p : point)
    (long_unroll degrees : bool) (method : string) : M (arr num * arr num * arr num) :=
  check_frames_pt (g_frame g) p ;;;                                                 (* 390 *)
  e <- first_is_e method ;;
  if (e : bool) then daa_ellipsoid gi g p long_unroll degrees                       (* 391-392 *)
  else daa_great_circle g p degrees.                                                (* 393 *)

(** ** GeoPath, 821-1174 *)
Record geoPath := GeoPath { gp_a : point; gp_b : point }.

(** _get_average_radius, 880-883 *)
Definition average_radius (pa : geoPath) : M (arr num) :=
  p1 <- to_ecef_vector (gp_a pa) ;; p2 <- to_ecef_vector (gp_b pa) ;;
  l1 <- length_ (e_p p1) (e_scalar p1) ;; l2 <- length_ (e_p p2) (e_scalar p2) ;;
  s <- map2 nadd l1 l2 ;;
  ret (map1 (fun x => ndiv x (Fin 2)) s).

(** "if radius is None: radius = self._get_average_radius()", objects.py 907-908, 931-932, 992-993 *)
Definition radius_or_average (pa : geoPath) (radius : option (arr num)) : M (arr num) :=
  match radius with Some r => ret r | None => average_radius pa end.

(** nvectors 860-863, nvector_normals 875-878 *)
Definition path_nvectors (pa : geoPath) : M (nvector * nvector) :=
  a <- to_nvector (gp_a pa) ;; b <- to_nvector (gp_b pa) ;; ret (a, b).

(** GeoPath.cross_track_distance, 885-914 *)
Definition path_cross_track_distance (pa : geoPath) (p : point) (method : string)
    (radius : option (arr num)) : M (arr num) :=
  r <- radius_or_average pa radius ;;                                               (* 907-908 *)
  '(a, b) <- path_nvectors pa ;;                                                    (* 909 *)
  c <- to_nvector p ;;                                                              (* 910 *)
  d <- cross_track_distance (n_normal a, n_normal b) (n_normal c) method r ;;       (* 911 *)
  if (ndim r =? 0)%nat && (size d =? 1)%nat then first d else ret d.                (* 912-914 *)

(** the first two characters of a string *)
Definition prefix2 (m : string) : string := String.substring 0 2 m.
(** method[:2] in {'ex', 'el'}, 927 and 1049 *)
Definition is_exact (m : string) : bool :=
  String.eqb (prefix2 m) "ex" || String.eqb (prefix2 m) "el".

(** GeoPath.track_distance, 916-939 *)
Definition track_distance (gi : solver) (pa : geoPath) (method : string)
    (radius : option (arr num)) : M (arr num) :=
  if is_exact method then
    a <- to_geo_point (gp_a pa) ;; b <- to_geo_point (gp_b pa) ;;                   (* 928 *)
    '(s, _, _) <- distance_and_azimuth gi a (PGeo b) false false "ellipsoid" ;;     (* 929 *)
    ret s                                                                           (* 930 *)
  else
    r <- radius_or_average pa radius ;;                                             (* 931-932 *)
    '(a, b) <- path_nvectors pa ;;                                                  (* 933 *)
    d <- (if String.eqb (prefix2 method) "eu"
          then euclidean_distance (n_normal a) (n_normal b) r
          else great_circle_distance (n_normal a) (n_normal b) r) ;;                (* 935-936 *)
    if (ndim r =? 0)%nat then first d else ret d.                                   (* 937-939 *)

(** GeoPath.intersect, 941-966 *)
Definition point_frame (p : point) : M frameE :=
  match p with
  | PGeo g => ret (g_frame g) | PNv v => ret (n_frame v) | PEcef e => ret (e_frame e)
  | PPv _ => raise NotModelled
  end.
(** GeoPath.intersect, objects.py 941-966 *)
Definition path_intersect (pa pb : geoPath) : M nvector :=
  fr <- point_frame (gp_a pa) ;;                                                    (* 958 *)
  '(a1, a2) <- path_nvectors pa ;; '(b1, b2) <- path_nvectors pb ;;                 (* 959-960 *)
  c <- intersect (n_normal a1, n_normal a2) (n_normal b1, n_normal b2) ;;           (* 963 *)
  s1 <- map2 nadd (n_z a1) (n_z a2) ;; s2 <- map2 nadd s1 (n_z b1) ;;
  s3 <- map2 nadd s2 (n_z b2) ;;
  Nvector c (map1 (fun x => ndiv x (Fin 4)) s3) (Some fr).                          (* 964-966 *)

(** half sum of two depths: (a.z + b.z) * 0.5, 975, 997, 1058 *)
Definition half_sum (a b : arr num) : M (arr num) :=
  s <- map2 nadd a b ;; ret (map1 (fun x => nmul x (Fin (/ 2))) s).

(** default rtol of util.isclose, util.py 106 *)
Definition rtol9 : num := Fin (/ 10 ^ 9).
(** the default atol=1e-8, objects.py 972, 983, 991, 1003 *)
Definition atol8 : num := Fin (/ 10 ^ 8).
(** the default rtol=1e-6, objects.py 972, 1003 *)
Definition rtol6 : num := Fin (/ 10 ^ 6).

(** GeoPath._on_ellipsoid_path, 972-981 *)
Definition on_ellipsoid_path (gi : solver) (pa : geoPath) (p : point) (rtol atol : num)
  : M (arr bool) :=
  a <- to_geo_point (gp_a pa) ;; b <- to_geo_point (gp_b pa) ;;                     (* 973 *)
  c <- to_geo_point p ;;                                                            (* 974 *)
  z <- half_sum (g_z a) (g_z b) ;;                                                  (* 975 *)
  '(dab, azab, _) <- distance_and_azimuth gi a (PGeo b) false false "ellipsoid" ;;  (* 976 *)
  '(dac, azac, _) <- distance_and_azimuth gi a (PGeo c) false false "ellipsoid" ;;  (* 977 *)
  cz <- isclose z (g_z c) rtol atol false ;;
  c0 <- isclose dac z0 rtol9 atol false ;;
  ge <- map2 (fun x y => nle y x) dab dac ;;
  ca <- isclose azac azab rtol atol false ;;
  t1 <- map2 andb ge ca ;; t2 <- map2 orb c0 t1 ;;
  map2 andb cz t2.                                                                  (* 978-981 *)

(** GeoPath.on_great_circle, 983-989 *)
Definition path_on_great_circle (pa : geoPath) (p : point) (atol : num) : M (arr bool) :=
  d <- path_cross_track_distance pa p "greatcircle" None ;;
  isclose (map1 nabs d) z0 rtol9 atol false.

(** GeoPath._on_great_circle_path, 991-1001 *)
Definition path_on_great_circle_path (pa : geoPath) (p : point) (radius : option (arr num))
    (rtol atol : num) : M (arr bool) :=
  r <- radius_or_average pa radius ;;
  '(a, b) <- path_nvectors pa ;;
  c <- to_nvector p ;;
  h <- half_sum (n_z a) (n_z b) ;;
  same_z <- isclose (n_z c) h rtol atol false ;;                                    (* 997 *)
  on <- on_great_circle_path (n_normal a, n_normal b) (n_normal c) r atol ;;
  res <- map2 andb on same_z ;;                                                     (* 998 *)
  if (ndim r =? 0)%nat && (size res =? 1)%nat then first res else ret res.          (* 999-1001 *)

(** GeoPath.on_path, 1003-1051 *)
Definition on_path (gi : solver) (pa : geoPath) (p : point) (method : string) (rtol atol : num)
  : M (arr bool) :=
  if is_exact method then on_ellipsoid_path gi pa p rtol atol
  else path_on_great_circle_path pa p None rtol atol.

(** GeoPath._closest_point_on_great_circle 1054-1060, closest_point_on_great_circle 1062-1101 *)
Definition path_closest_nv (pa : geoPath) (p : point) : M nvector :=
  c <- to_nvector p ;;
  '(a, b) <- path_nvectors pa ;;
  z <- half_sum (n_z a) (n_z b) ;;
  d <- closest_point_on_great_circle (n_normal a, n_normal b) (n_normal c) ;;
  Nvector d z (Some (n_frame c)).
(** GeoPath.closest_point_on_great_circle, objects.py 1062-1101 *)
Definition path_closest_point_on_great_circle (pa : geoPath) (p : point) : M geoPoint :=
  v <- path_closest_nv pa p ;; nv_to_geo v.

(** truth value of an array of at most one element; ValueError otherwise
    (numpy: "truth value of an array with more than one element is ambiguous") *)
Definition truth (a : arr bool) : M bool :=
  if (size a =? 1)%nat then ret (get a (unravel (shape a) 0))
  else if (size a =? 0)%nat then ret false
  else raise ValueError.

(** GeoPath._closest_point_on_path, 1143-1154 *)
Definition closest_point_on_path (gi : solver) (pa : geoPath) (p : point) : M geoPoint :=
  c <- path_closest_nv pa p ;;                                                      (* 1144 *)
  on <- on_path gi pa (PNv c) "greatcircle" rtol6 atol8 ;;
  b <- truth on ;;
  if (b : bool) then nv_to_geo c                                                    (* 1145-1146 *)
  else
    n0 <- to_nvector p ;;                                                           (* 1147 *)
    '(n1, n2) <- path_nvectors pa ;;                                                (* 1148 *)
    r <- average_radius pa ;;                                                       (* 1149 *)
    d1 <- great_circle_distance (n_normal n1) (n_normal n0) r ;;                    (* 1150 *)
    d2 <- great_circle_distance (n_normal n2) (n_normal n0) r ;;                    (* 1151 *)
    lt <- map2 nlt d1 d2 ;;
    t <- truth lt ;;
    if (t : bool) then to_geo_point (gp_a pa) else to_geo_point (gp_b pa).          (* 1152-1154 *)

(** GeoPath.interpolate, 1156-1174 *)
Definition path_interpolate (pa : geoPath) (ti : arr num) : M nvector :=
  '(a, b) <- path_nvectors pa ;;                                                    (* 1171 *)
  d <- nv_sub b a ;;
  m <- nv_mul d (AScalar ti) ;;
  c <- nv_add a m ;;                                                                (* 1172 *)
  n <- nv_unit (n_normal c) NaN ;;                                                  (* 1173 *)
  ret (MkNv n (n_z c) (n_frame c)).
