(** * Model of /repo/src/nvector/core.py *)
From Coq Require Import List Arith Bool Reals String Ascii ZArith.
From Verif Require Import Num Py Nd MUtil MRotation.
Import ListNotations.
Local Open Scope R_scope.

(** core.py 45-72 *)
Definition lat_lon2n_E (latitude longitude : arr num) (R_Ee : option (arr num)) : M (arr num) :=
  R_Ee <- default_R R_Ee ;;                                                    (* 65-66 *)
  r1 <- map2 nmul (map1 nsin longitude) (map1 ncos latitude) ;;
  r2 <- map2 nmul (map1 (fun l => nneg (ncos l)) longitude) (map1 ncos latitude) ;;
  nvec <- vstack3 (map1 nsin latitude) r1 r2 ;;                                (* 68-70 *)
  dot (transpose R_Ee) nvec.                                                   (* 71 *)

(** core.py 75-142; a and f are real scalars, depth any array broadcastable to 3 x n *)
Definition n_EB_E2p_EB_E (n_EB_E depth : arr num) (a f : num) (R_Ee : option (arr num))
  : M (arr num) :=
  R_Ee <- default_R R_Ee ;;                                                    (* 118-119 *)
  check_length_deviation n_EB_E ;;;                                            (* 120 *)
  rot <- dot R_Ee n_EB_E ;;
  n_EB_e <- nv_unit rot (Fin 1) ;;                                             (* 125 *)
  let b := nmul a (nsub (Fin 1) f) in                                          (* 126 *)
  let scale := col3 (Fin 1) (nsub (Fin 1) f) (nsub (Fin 1) f) in               (* 129-131 *)
  scaled <- map2 ndiv n_EB_e scale ;;
  denominator <- norm0_keep scaled ;;                                          (* 132 *)
  t1 <- map2 nmul (map1 (ndiv b) denominator) n_EB_e ;;
  p_EL_e <- map2 ndiv t1 (map1 (fun s => nmul s s) scale) ;;                   (* 138 *)
  t2 <- map2 nmul n_EB_e depth ;;
  t3 <- map2 nsub p_EL_e t2 ;;
  dot (transpose R_Ee) t3.                                                     (* 140 *)

(** core.py 145-147 *)
Definition eccentricity2 (f : num) : num := nmul (nsub (Fin 2) f) f.

(** core.py 150-160, elementwise *)
Definition compute_k (a e_2 q Ryz_2 : num) : num :=
  let e_4 := nmul e_2 e_2 in
  let p := ndiv Ryz_2 (nmul a a) in                                            (* 152 *)
  let r := ndiv (nsub (nadd p q) e_4) (Fin 6) in                               (* 153 *)
  let s := ndiv (nmul (nmul e_4 p) q) (nmul (Fin 4) (npow r 3)) in             (* 154 *)
  let t := nthroot1 3 (nadd (nadd (Fin 1) s) (nsqrt (nmul s (nadd (Fin 2) s)))) in   (* 155 *)
  let u := nmul r (nadd (nadd (Fin 1) t) (ndiv (Fin 1) t)) in                  (* 157 *)
  let v := nsqrt (nadd (nmul u u) (nmul e_4 q)) in                             (* 158 *)
  let w := ndiv (nmul e_2 (nsub (nadd u v) q)) (nmul (Fin 2) v) in             (* 159 *)
  nsub (nsqrt (nadd (nadd u v) (nmul w w))) w.                                 (* 160 *)

(** core.py 163-176, elementwise on the rows of p_EB_E: (x_scale, yz_scale, -height) *)
Definition equation23 (a f px py pz : num) : num * num * num :=
  let Ryz_2 := nadd (nmul py py) (nmul pz pz) in                               (* 165 *)
  let Rx_2 := nmul px px in                                                    (* 166 *)
  let e_2 := eccentricity2 f in                                                (* 167 *)
  let q := nmul (ndiv (nsub (Fin 1) e_2) (nmul a a)) Rx_2 in                   (* 168 *)
  let Ryz := nsqrt Ryz_2 in                                                    (* 169 *)
  let k := compute_k a e_2 q Ryz_2 in                                          (* 170 *)
  let d := ndiv (nmul k Ryz) (nadd k e_2) in                                   (* 171 *)
  let temp0 := nsqrt (nadd (nmul d d) Rx_2) in                                 (* 172 *)
  let height := nmul (ndiv (nsub (nadd k e_2) (Fin 1)) k) temp0 in             (* 173 *)
  let x_scale := ndiv (Fin 1) temp0 in                                         (* 174 *)
  let yz_scale := ndiv (nmul x_scale k) (nadd k e_2) in                        (* 175 *)
  (x_scale, yz_scale, nneg height).                                            (* 176 *)

(** core.py 179-244 *)
Definition p_EB_E2n_EB_E (p_EB_E : arr num) (a f : num) (R_Ee : option (arr num))
  : M (arr num * arr num) :=
  R_Ee <- default_R R_Ee ;;                                                    (* 224-226 *)
  p_EB_e <- dot R_Ee p_EB_E ;;                                                 (* 231 *)
  match shape p_EB_e with
  | [_; n] =>
      p0 <- row 0 p_EB_e ;; p1 <- row 1 p_EB_e ;; p2 <- row 2 p_EB_e ;;
      let eq23 := fun ix => equation23 a f (get p0 ix) (get p1 ix) (get p2 ix) in   (* 234 *)
      let x_scale := Arr [n] (fun ix => fst (fst (eq23 ix))) in
      let yz_scale := Arr [n] (fun ix => snd (fst (eq23 ix))) in
      let depth := Arr [n] (fun ix => snd (eq23 ix)) in
      nx <- map2 nmul x_scale p0 ;;                                            (* 236 *)
      ny <- map2 nmul yz_scale p1 ;;                                           (* 237 *)
      nz <- map2 nmul yz_scale p2 ;;                                           (* 238 *)
      n_EB_e <- vstack3 nx ny nz ;;                                            (* 240 *)
      m <- dot (transpose R_Ee) n_EB_e ;;
      n_EB_E <- nv_unit m (Fin 1) ;;                                           (* 242 *)
      ret (n_EB_E, depth)                                                      (* 244 *)
  | _ => raise NotModelled
  end.

(** core.py 247-298 *)
Definition n_EA_E_and_n_EB_E2p_AB_E (n_EA_E n_EB_E z_EA z_EB : arr num) (a f : num)
    (R_Ee : option (arr num)) : M (arr num) :=
  p_EA_E <- n_EB_E2p_EB_E n_EA_E z_EA a f R_Ee ;;                              (* 295 *)
  p_EB_E <- n_EB_E2p_EB_E n_EB_E z_EB a f R_Ee ;;                              (* 296 *)
  map2 nsub p_EB_E p_EA_E.                                                     (* 297 *)

(** core.py 301-354 *)
Definition n_EA_E_and_p_AB_E2n_EB_E (n_EA_E p_AB_E z_EA : arr num) (a f : num)
    (R_Ee : option (arr num)) : M (arr num * arr num) :=
  R_Ee <- default_R R_Ee ;;                                                    (* 347-348 *)
  p_EA_E <- n_EB_E2p_EB_E n_EA_E z_EA a f (Some R_Ee) ;;                       (* 351 *)
  p_EB_E <- map2 nadd p_EA_E p_AB_E ;;                                         (* 352 *)
  p_EB_E2n_EB_E p_EB_E a f (Some R_Ee).                                        (* 353-354 *)

(** core.py 358-359: the window length handed to the smoothing filter *)
Definition smoothing_window (window_length : Z) : option Z :=
  (if window_length >? 0 then Some (window_length + (window_length + 1) mod 2) else None)%Z.

(** core.py 357-366.  [savgol] (scipy.signal.savgol_filter with axis=1 and the given
    polyorder, mode, cval) and [interp] (scipy.interpolate.interp1d(t, normals, axis=1,
    kind, bounds_error=False)(t_i)) are external and universally quantified. *)
Definition interp_vectors
    (savgol : arr num -> Z -> M (arr num)) (interp : arr num -> M (arr num))
    (nvectors : arr num) (window_length : Z) : M (arr num) :=
  normals <- match smoothing_window window_length with
             | Some w => savgol nvectors w                                     (* 358-361 *)
             | None => ret nvectors                                            (* 363 *)
             end ;;
  normal_i <- interp normals ;;                                                (* 365 *)
  match shape nvectors with
  | r :: _ => reshape_rows r normal_i                                          (* 366 *)
  | [] => raise IndexError
  end.

(** core.py 369-431 *)
Definition interp_nvectors savgol interp (nvectors : arr num) (window_length : Z)
  : M (arr num) :=
  normal_i <- interp_vectors savgol interp nvectors window_length ;;           (* 429 *)
  nv_unit normal_i NaN.                                                        (* 431 *)

(** core.py 434-460 *)
Definition interpolate (path : arr num * arr num) (ti : arr num) : M (arr num) :=
  let '(t0, t1) := path in                                                     (* 457 *)
  d <- map2 nsub t1 t0 ;;
  s <- map2 nmul ti d ;;
  v <- map2 nadd t0 s ;;
  nv_unit v NaN.                                                               (* 458-459 *)

(** core.py 506-516 *)
Definition great_circle_normal (n_EA_E n_EB_E : arr num) : M (arr num) :=
  c <- cross0 n_EA_E n_EB_E ;;
  nv_unit c NaN.                                                               (* 516 *)

(** core.py 463-503 *)
Definition intersect (path_a path_b : arr num * arr num) : M (arr num) :=
  let '(n_EA1_E, n_EA2_E) := path_a in                                         (* 489 *)
  let '(n_EB1_E, n_EB2_E) := path_b in                                         (* 490 *)
  ca <- cross0 n_EA1_E n_EA2_E ;;
  cb <- cross0 n_EB1_E n_EB2_E ;;
  c <- cross0 ca cb ;;
  n_EC_E_tmp <- nv_unit c NaN ;;                                               (* 492-494 *)
  d <- dot (transpose n_EC_E_tmp) n_EA1_E ;;
  n_EC_E <- map2 nmul (map1 nsign d) n_EC_E_tmp ;;                             (* 499 *)
  if any_ (map1 isnan n_EC_E) then warn WPathsEqual ;;; ret n_EC_E             (* 500-503 *)
  else ret n_EC_E.

(** core.py 561: method[0].lower() == 'e' (method[0] raises IndexError on '') *)
Definition method_is_euclidean (method : string) : M bool :=
  match method with
  | EmptyString => raise IndexError
  | String c _ => ret (Ascii.eqb (lower_ascii c) "e"%char)
  end.

(** core.py 519-520 and 523-524, elementwise in sin_theta *)
Definition euclidean_xtd (sin_theta radius : arr num) : M (arr num) :=
  map2 nmul sin_theta radius.
(** _great_circle_cross_track_distance, core.py 523-527 *)
Definition great_circle_xtd (sin_theta radius : arr num) : M (arr num) :=
  map2 nmul (map1 narcsin sin_theta) radius.

(** core.py 529-563 *)
Definition cross_track_distance (path : arr num * arr num) (n_EB_E : arr num)
    (method : string) (radius : arr num) : M (arr num) :=
  c_E <- great_circle_normal (fst path) (snd path) ;;                          (* 559 *)
  d <- dot (transpose c_E) n_EB_E ;;
  let sin_theta := ravel (map1 nneg d) in                                      (* 560 *)
  e <- method_is_euclidean method ;;
  if (e : bool) then euclidean_xtd sin_theta radius                            (* 561-562 *)
  else great_circle_xtd sin_theta radius.                                      (* 563 *)

(** core.py 566-602 *)
Definition on_great_circle (path : arr num * arr num) (n_EB_E radius : arr num) (atol : num)
  : M (arr bool) :=
  d <- cross_track_distance path n_EB_E "greatcircle" radius ;;
  ret (map1 (fun x => nle (nabs x) atol) d).                                   (* 601-602 *)

(** core.py 605-644 *)
Definition on_great_circle_path (path : arr num * arr num) (n_EB_E radius : arr num)
    (atol : num) : M (arr bool) :=
  let '(n_EA1_E, n_EA2_E) := path in                                           (* 640 *)
  d12 <- map2 nsub n_EA2_E n_EA1_E ;;
  scale <- norm0 d12 ;;                                                        (* 641 *)
  dB1 <- map2 nsub n_EB_E n_EA1_E ;;
  nB1 <- norm0 dB1 ;;
  ti1 <- map2 ndiv nB1 scale ;;                                                (* 642 *)
  dB2 <- map2 nsub n_EB_E n_EA2_E ;;
  nB2 <- norm0 dB2 ;;
  ti2 <- map2 ndiv nB2 scale ;;                                                (* 643 *)
  on <- on_great_circle path n_EB_E radius atol ;;
  both <- map2 andb (map1 (fun t => nle t (Fin 1)) ti1) (map1 (fun t => nle t (Fin 1)) ti2) ;;
  map2 andb both on.                                                           (* 644 *)

(** core.py 647-674 *)
Definition closest_point_on_great_circle (path : arr num * arr num) (n_EB_E : arr num)
  : M (arr num) :=
  let '(n_EA1_E, n_EA2_E) := path in                                           (* 669 *)
  c_E <- great_circle_normal n_EA1_E n_EA2_E ;;                                (* 670 *)
  c2 <- cross0 n_EB_E c_E ;;                                                   (* 672 *)
  c3 <- cross0 c_E c2 ;;
  n_EC_E <- nv_unit c3 (Fin 1) ;;                                              (* 673 *)
  d <- dot (transpose n_EC_E) n_EB_E ;;
  map2 nmul n_EC_E (map1 nsign d).                                             (* 674 *)

(** core.py 677-711 *)
Definition great_circle_distance (n_EA_E n_EB_E radius : arr num) : M (arr num) :=
  c <- cross0 n_EA_E n_EB_E ;;
  sin_theta <- norm0 c ;;                                                      (* 700 *)
  cos_theta <- dot (transpose n_EA_E) n_EB_E ;;                                (* 701 *)
  th <- map2 narctan2 sin_theta cos_theta ;;
  let theta := ravel th in                                                     (* 702 *)
  map2 nmul theta radius.                                                      (* 703 *)

(** core.py 714-731 *)
Definition euclidean_distance (n_EA_E n_EB_E radius : arr num) : M (arr num) :=
  d <- map2 nsub n_EB_E n_EA_E ;;
  n <- norm0 d ;;
  map2 nmul (ravel n) radius.                                                  (* 730 *)

(** core.py 734-776 *)
Definition n_EA_E_and_n_EB_E2azimuth (n_EA_E n_EB_E : arr num) (a f : num)
    (R_Ee : option (arr num)) : M (arr num) :=
  R_Ee <- default_R R_Ee ;;                                                    (* 756-757 *)
  p_AB_E <- n_EA_E_and_n_EB_E2p_AB_E n_EA_E n_EB_E (scal (Fin 0)) (scal (Fin 0))
              a f (Some R_Ee) ;;                                               (* 759 *)
  R_EN <- n_E2R_EN n_EA_E (Some R_Ee) ;;                                       (* 762 *)
  Rt <- swapaxes10 R_EN ;;
  pcol <- newaxis1 p_AB_E ;;
  pn <- mdot Rt pcol ;;
  p_AB_N <- reshape_rows 3 pn ;;                                               (* 766 *)
  y <- row 1 p_AB_N ;; x <- row 0 p_AB_N ;;
  map2 narctan2 y x.                                                           (* 776 *)

(** core.py 779-819 *)
Definition n_EA_E_distance_and_azimuth2n_EB_E (n_EA_E distance_rad azimuth : arr num)
    (R_Ee : option (arr num)) : M (arr num) :=
  R_Ee <- default_R R_Ee ;;                                                    (* 808-809 *)
  pole <- dot (transpose R_Ee) (col3 (Fin 1) (Fin 0) (Fin 0)) ;;
  ke <- cross0 pole n_EA_E ;;
  k_east_E <- nv_unit ke (Fin 1) ;;                                            (* 811 *)
  k_north_E <- cross0 n_EA_E k_east_E ;;                                       (* 812 *)
  d1 <- map2 nmul k_north_E (map1 ncos azimuth) ;;
  d2 <- map2 nmul k_east_E (map1 nsin azimuth) ;;
  d_E <- map2 nadd d1 d2 ;;                                                    (* 815 *)
  b1 <- map2 nmul n_EA_E (map1 ncos distance_rad) ;;
  b2 <- map2 nmul d_E (map1 nsin distance_rad) ;;
  map2 nadd b1 b2.                                                             (* 818-819 *)

(** core.py 822-847 *)
Definition mean_horizontal_position (n_EB_E : arr num) : M (arr num) :=
  s <- sum1 n_EB_E ;;
  r <- reshape2 3 1 s ;;
  nv_unit r (Fin 1).                                                           (* 846 *)
