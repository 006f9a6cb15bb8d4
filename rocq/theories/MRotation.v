(** * Model of /repo/src/nvector/rotation.py *)
From Coq Require Import List Arith Bool Reals String.
From Verif Require Import Num Py Nd MUtil.
Import ListNotations.
Local Open Scope R_scope.

(** rotation.py 23-26 *)
Definition R_e : arr num :=
  mat33 (Fin 0) (Fin 0) (Fin 1)
        (Fin 0) (Fin 1) (Fin 0)
        (Fin (-1)) (Fin 0) (Fin 0).
(** E_ROTATION_MATRIX["E"], rotation.py 23-26 *)
Definition R_E : arr num :=
  mat33 (Fin 1) (Fin 0) (Fin 0)
        (Fin 0) (Fin 1) (Fin 0)
        (Fin 0) (Fin 0) (Fin 1).

(** rotation.py 31-83 *)
Definition E_rotation (axes : string) : M (arr num) :=
  if String.eqb axes "e" then ret R_e
  else if String.eqb axes "E" then ret R_E
  else raise KeyError.

(** [if R_Ee is None: R_Ee = E_rotation()], e.g. rotation.py 406-407 *)
Definition default_R (R_Ee : option (arr num)) : M (arr num) :=
  match R_Ee with Some r => ret r | None => E_rotation "e" end.

(** rotation.py 86-137 *)
Definition R2xyz (R_AB : arr num) : M (arr num * arr num * arr num) :=
  r01 <- entry 0 1 R_AB ;; r00 <- entry 0 0 R_AB ;;
  z <- map2 narctan2 (map1 nneg r01) r00 ;;                       (* 125 *)
  r12 <- entry 1 2 R_AB ;; r22 <- entry 2 2 R_AB ;;
  x <- map2 narctan2 (map1 nneg r12) r22 ;;                       (* 126 *)
  sin_y <- entry 0 2 R_AB ;;                                      (* 128 *)
  let sq a := map1 (fun v => nmul v v) a in
  t1 <- map2 nadd (sq r00) (sq r01) ;;
  t2 <- map2 nadd t1 (sq r12) ;;
  t3 <- map2 nadd t2 (sq r22) ;;
  let cos_y := map1 (fun v => nsqrt (ndiv v (Fin 2))) t3 in       (* 133-134 *)
  y <- map2 narctan2 sin_y cos_y ;;                               (* 136 *)
  ret (x, y, z).

(** rotation.py 140-183 *)
Definition R2zyx (R_AB : arr num) : M (arr num * arr num * arr num) :=
  Rt <- swapaxes10 R_AB ;;
  '(x, y, z) <- R2xyz Rt ;;                                       (* 182 *)
  ret (map1 nneg z, map1 nneg y, map1 nneg x).                    (* 183 *)

(** rotation.py 186-207 *)
Definition R_EL2n_E (R_EL : arr num) : M (arr num) :=
  n_E <- mdot R_EL (col3 (Fin 0) (Fin 0) (Fin (-1))) ;;           (* 206 *)
  reshape_rows 3 n_E.                                             (* 207 *)

(** rotation.py 210-230 *)
Definition R_EN2n_E (R_EN : arr num) : M (arr num) := R_EL2n_E R_EN.

(** rotation.py 233-254: atleast_1d, broadcast, then two leading axes *)
Definition lead2 {A} (x : arr A) : arr A :=
  Arr (1%nat :: 1%nat :: shape x) (fun ix => get x (tl (tl ix))).
(** _atleast_3d on three arrays, rotation.py 233-240 *)
Definition atleast_3d3 (x y z : arr num) : M (arr num * arr num * arr num) :=
  '(x, y, z) <- broadcast3 (atleast_1d x) (atleast_1d y) (atleast_1d z) ;;
  ret (lead2 x, lead2 y, lead2 z).

(** entry (i, j) of the matrix on rotation.py 302-304 *)
Definition xyz_entry (i j : nat) (x y z : num) : num :=
  let sx := nsin x in let sy := nsin y in let sz := nsin z in
  let cx := ncos x in let cy := ncos y in let cz := ncos z in
  nth j (nth i
    [[nmul cy cz; nmul (nneg cy) sz; sy];
     [nadd (nmul (nmul sy sx) cz) (nmul cx sz);
      nadd (nmul (nmul (nneg sy) sx) sz) (nmul cx cz); nmul (nneg cy) sx];
     [nadd (nmul (nmul (nneg sy) cx) cz) (nmul sx sz);
      nadd (nmul (nmul sy cx) sz) (nmul sx cz); nmul cy cx]] []) NaN.

(** rotation.py 257-306.  After _atleast_3d the three arrays have one shape, so the
    nine products on lines 302-304 are elementwise. *)
Definition xyz2R (x y z : arr num) : M (arr num) :=
  '(x, y, z) <- atleast_3d3 x y z ;;                              (* 298 *)
  ret (squeeze (array33 (shape x) (fun i j ix =>
         xyz_entry i j (get x ix) (get y ix) (get z ix)))).       (* 299-306 *)

(** entry (i, j) of the matrix on rotation.py 379-381 *)
Definition zyx_entry (i j : nat) (x y z : num) : num :=
  let sx := nsin x in let sy := nsin y in let sz := nsin z in
  let cx := ncos x in let cy := ncos y in let cz := ncos z in
  nth j (nth i
    [[nmul cz cy; nadd (nmul (nneg sz) cx) (nmul (nmul cz sy) sx);
      nadd (nmul sz sx) (nmul (nmul cz sy) cx)];
     [nmul sz cy; nadd (nmul cz cx) (nmul (nmul sz sy) sx);
      nadd (nmul (nneg cz) sx) (nmul (nmul sz sy) cx)];
     [nneg sy; nmul cy sx; nmul cy cx]] []) NaN.

(** rotation.py 309-383 *)
Definition zyx2R (z y x : arr num) : M (arr num) :=
  '(x, y, z) <- atleast_3d3 x y z ;;                              (* 375 *)
  ret (squeeze (array33 (shape x) (fun i j ix =>
         zyx_entry i j (get x ix) (get y ix) (get z ix)))).       (* 376-383 *)

(** rotation.py 386-423 *)
Definition n_E2lat_lon (n_E : arr num) (R_Ee : option (arr num)) : M (arr num * arr num) :=
  R_Ee <- default_R R_Ee ;;                                       (* 406-407 *)
  check_length_deviation n_E ;;;                                  (* 408 *)
  n_E0 <- dot R_Ee n_E ;;                                         (* 409 *)
  n0 <- row 0 n_E0 ;; n1 <- row 1 n_E0 ;; n2 <- row 2 n_E0 ;;
  longitude <- map2 narctan2 n1 (map1 nneg n2) ;;                 (* 412 *)
  e2 <- map2 (fun u v => nadd (nmul u u) (nmul v v)) n1 n2 ;;
  let equatorial_component := map1 nsqrt e2 in                    (* 415 *)
  latitude <- map2 narctan2 n0 equatorial_component ;;            (* 417 *)
  ret (latitude, longitude).

(** rotation.py 426-474 *)
Definition n_E2R_EN (n_E : arr num) (R_Ee : option (arr num)) : M (arr num) :=
  R_Ee <- default_R R_Ee ;;                                       (* 446-447 *)
  check_length_deviation n_E ;;;                                  (* 448 *)
  n_E0 <- dot R_Ee n_E ;;
  n_E <- nv_unit n_E0 (Fin 1) ;;                                  (* 449 *)
  let Nz_E := map1 nneg n_E in                                    (* 453 *)
  Ny_E_direction <- cross0 (col3 (Fin 1) (Fin 0) (Fin 0)) n_E ;;  (* 458 *)
  nrm <- norm0 Ny_E_direction ;;
  let on_poles := fun j => neqb (get nrm [j]) (Fin 0) in          (* 460 *)
  Ny_E <- nv_unit Ny_E_direction (Fin 1) ;;                       (* 461 *)
  Ny_E <- set_cols Ny_E on_poles
            (fun i => nth i [Fin 0; Fin 1; Fin 0] NaN) ;;         (* 462 *)
  Nx_E <- cross0 Ny_E Nz_E ;;                                     (* 465 *)
  x <- newaxis1 Nx_E ;; y <- newaxis1 Ny_E ;; z <- newaxis1 Nz_E ;;
  Nxyz_E <- hstack3 x y z ;;                                      (* 469-471 *)
  Rt <- swapaxes10 R_Ee ;;
  R_EN <- mdot Rt Nxyz_E ;;                                       (* 472 *)
  ret (squeeze R_EN).                                             (* 474 *)

(** rotation.py 477-510 *)
Definition n_E_and_wa2R_EL (n_E : arr num) (wander_azimuth : arr num)
    (R_Ee : option (arr num)) : M (arr num) :=
  R_Ee <- default_R R_Ee ;;                                       (* 504-505 *)
  '(latitude, longitude) <- n_E2lat_lon n_E (Some R_Ee) ;;        (* 506 *)
  R <- xyz2R longitude (map1 nneg latitude) wander_azimuth ;;
  R_EL <- mdot (transpose R_Ee) R ;;                              (* 509 *)
  ret (squeeze R_EL).                                             (* 510 *)
