(** * Calls with arguments left out: the defaults in the signatures *)
From Coq Require Import String List Reals QArith Qreals.
From Verif Require Import Num Py Nd MUtil MRotation MCore MObjects.
Local Open Scope R_scope.

(** the numbers written in the signatures: core.py 76, 180 (a=6378137, f=1.0 / 298.257223563) and 530, 567, 606, 678, 715 (radius=6371009.0) *)
Definition default_a : num := Fin 6378137.
(** the default f = 1.0 / 298.257223563, core.py 76, 180, 248, 302, 734 *)
Definition default_f : num := ndiv (Fin 1) (Fin (298257223563 / 1000000000)).
(** the default radius=6371009.0, core.py 530, 567, 606, 678, 715 *)
Definition default_radius : arr num := scal (Fin 6371009).

(** n_EB_E2p_EB_E(n_EB_E), core.py 76 *)
Definition n_EB_E2p_EB_E_default (n : arr num) : M (arr num) := n_EB_E2p_EB_E n z0 default_a default_f None.
(** p_EB_E2n_EB_E(p_EB_E), core.py 180 *)
Definition p_EB_E2n_EB_E_default (p : arr num) : M (arr num * arr num) := p_EB_E2n_EB_E p default_a default_f None.
(** great_circle_distance(n_EA_E, n_EB_E), core.py 678; euclidean_distance(n_EA_E, n_EB_E), core.py 715 *)
Definition great_circle_distance_default (a b : arr num) : M (arr num) := great_circle_distance a b default_radius.
(** euclidean_distance(a, b), core.py 715 *)
Definition euclidean_distance_default (a b : arr num) : M (arr num) := euclidean_distance a b default_radius.
(** FrameE(), objects.py 1207 *)
Definition FrameE_default : M frameE := FrameE None None (KStr "WGS84") "e".
(** GeoPath.on_path(point), objects.py 1003; GeoPath.on_great_circle(point), objects.py 983 *)
Definition on_path_default (gi : solver) (pa : geoPath) (p : point) : M (arr bool) := on_path gi pa p "greatcircle" rtol6 atol8.
(** GeoPath.on_great_circle(point), objects.py 983 *)
Definition path_on_great_circle_default (pa : geoPath) (p : point) : M (arr bool) := path_on_great_circle pa p atol8.
