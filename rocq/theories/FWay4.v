(** * C95: along a great circle by a distance in a direction: the theorems *)
From Coq Require Import ZArith Reals Lra Lia Bool Psatz.
From Flocq Require Import Core BinarySingleNaN Relative.
From Verif Require Import Spec LVec LTrig LAngle FTiny FZero FBase FRel FRel2 FUnit FPi FAngle FDist FGreat FLatLon FInv FInv2 FEcef FEcef2 FNed FNed2 FNed3 FDelta FDelta2 FDelta3 FGeod10 FMove FWay FWay2 FWay3.
From Verif Require SpecArr SpecGeo.
Local Open Scope R_scope.

Lemma near_unit_near n : near_unit n -> near_v 6 0 n (direction (vec_of n)) /\ vec_of n <> v0 /\ vnorm (vsub (vec_of n) (direction (vec_of n))) <= 6 * u.
Proof.
  destruct n as [[x y] z]. intros (Fx & Fy & Fz & L). rewrite length3_vnorm in L. pose proof u_pos as Pu. pose proof u_tiny as Su. pose proof L as L'. apply Rabs_le_inv in L'. set (N := vnorm (vec_of (x, y, z))) in *.
  assert (P : 0 < N) by lra.
  assert (K : forall t, Rabs (t - / N * t) <= 6 * u * Rabs (/ N * t) + 0).
  { intros t. replace (t - / N * t) with ((N - 1) * (/ N * t)) by (field; lra). rewrite Rabs_mult. rewrite Rplus_0_r. apply Rmult_le_compat_r; [apply Rabs_pos|exact L]. }
  split; [unfold near_v, near, direction; fold N; unfold vec_of, vscale; cbn [Spec.vx Spec.vy Spec.vz]; auto 10|].
  split. - intros E. unfold N in P. rewrite E, vnorm_v0 in P. lra.
  - unfold direction. fold N. replace (vsub (vec_of (x, y, z)) (vscale (/ N) (vec_of (x, y, z)))) with (vscale (1 - / N) (vec_of (x, y, z))).
    2:{ generalize (/ N) (vec_of (x, y, z)). intros. vring. }
    rewrite vnorm_scale. fold N. rewrite <- (Rabs_right N) at 2 by lra. rewrite <- Rabs_mult. replace ((1 - / N) * N) with (N - 1) by (field; lra). exact L.
Qed.

Theorem C95_nvector : forall fsin fcos n D az, good_trig fsin sin -> good_trig fcos cos -> near_unit n ->
  is_finite D = true -> is_finite az = true -> Rabs (B2R D) <= 4 -> Rabs (B2R az) <= 4 ->
  bpow radix2 (-300) <= sqrt (Spec.vx (direction (vec_of n)) ^ 2 + Spec.vy (direction (vec_of n)) ^ 2) ->
  let up := direction (vec_of n) in let N := SpecGeo.north_at SpecArr.Me up in let E := SpecGeo.east_at SpecArr.Me up in
  let B := arc up (tangent N E (B2R az)) (B2R D) in let q := fway fsin fcos n D az in
  finite_vec q /\ vnorm B = 1 /\ vnorm (vsub (vec_of q) B) <= 42 * u /\ angle B (vec_of q) <= 421 / 10 * u.
Proof.
  intros fsin fcos n D az GS GC NU FD FA BD BA HP up N E B q. pose proof u_pos as Pu. pose proof u_tiny as Su. pose proof eta_pos as Pe.
  destruct (near_unit_near n NU) as (NV & NZ & _). pose proof (direction_unit (vec_of n) NZ) as UN. fold up in NV, UN, HP. unfold B, N, E. clearbody up. destruct up as [a b S]. cbn [Spec.vx Spec.vy Spec.vz] in *.
  set (r := sqrt (a ^ 2 + b ^ 2)) in *. pose proof (bpow_gt_0 radix2 (-300)) as P3. assert (Hr : 0 < r) by lra.
  assert (RR : r * r = a * a + b * b). { unfold r. rewrite sqrt_sqrt; [ring|]. nra. }
  assert (Ea : a = r * (a / r)) by (field; lra). assert (Eb : b = r * (b / r)) by (field; lra).
  assert (CS : a / r * (a / r) + b / r * (b / r) = 1). { transitivity ((a * a + b * b) / (r * r)); [field; lra|]. rewrite <- RR. field. lra. }
  assert (US : S * S + r * r = 1). { pose proof (vnorm_sq (V a b S)) as Q. rewrite UN in Q. unfold vdot in Q; cbn [Spec.vx Spec.vy Spec.vz] in Q. rewrite RR. lra. }
  destruct (ned_axes S r (b / r) (a / r) Hr CS) as (EE & EN). rewrite <- Ea, <- Eb in EE, EN. rewrite EE, EN.
  set (c := a / r) in *. set (s := b / r) in *. clearbody c s r. subst a b.
  destruct (way_err fsin fcos n D az S r s c 6 0 (361 / 10) (414 / 10)) as (F & U1 & ER); auto; try lra.
  fold q in F, ER. cbv zeta. split; auto. split; auto. assert (ER' : vnorm (vsub (vec_of q) (arc (V (r * c) (r * s) S) (tangent (V (- (S * c)) (- (S * s)) r) (V (- s) c 0) (B2R az)) (B2R D))) <= 42 * u) by lra.
  split; auto. eapply Rle_trans; [apply (tilt _ _ (42 * u) U1 ER'); lra|]. lra.
Qed.
Print Assumptions C95_nvector.

Lemma arc_angle up t D : vnorm up = 1 -> vnorm t = 1 -> vdot up t = 0 -> Rabs D <= PI -> angle up (arc up t D) = Rabs D.
Proof.
  intros U T O B. assert (D1 : vdot up up = 1) by (rewrite <- vnorm_sq, U; ring). assert (D2 : vdot t t = 1) by (rewrite <- vnorm_sq, T; ring).
  assert (NB : vnorm (arc up t D) = 1).
  { apply vnorm_eq; [lra|]. pose proof (sin2_cos2 D) as A. unfold Rsqr in A. transitivity (cos D * cos D * vdot up up + 2 * (cos D * sin D) * vdot up t + sin D * sin D * vdot t t); [unfold arc; clear; vring|]. rewrite O, D1, D2. lra. }
  assert (C : vdot up (arc up t D) = cos D). { transitivity (cos D * vdot up up + sin D * vdot up t); [unfold arc; clear; vring|]. rewrite O, D1. ring. }
  assert (Zu : up <> v0) by (apply vnorm_inv; auto). assert (Zb : arc up t D <> v0) by (apply vnorm_inv; auto).
  pose proof (dot_angle up (arc up t D) Zu Zb) as DA. rewrite C, U, NB in DA. pose proof (angle_range up (arc up t D)) as AR. pose proof (Rabs_pos D).
  apply cos_inj_0_PI; try lra. transitivity (cos D); [lra|]. unfold Rabs. destruct (Rcase_abs D); [rewrite cos_neg|]; reflexivity.
Qed.

(** the angle travelled is the distance asked for *)
Theorem C95_distance : forall fsin fcos n D az, good_trig fsin sin -> good_trig fcos cos -> near_unit n ->
  is_finite D = true -> is_finite az = true -> Rabs (B2R D) <= PI -> Rabs (B2R az) <= 4 ->
  bpow radix2 (-300) <= sqrt (Spec.vx (direction (vec_of n)) ^ 2 + Spec.vy (direction (vec_of n)) ^ 2) ->
  Rabs (angle (vec_of n) (vec_of (fway fsin fcos n D az)) - Rabs (B2R D)) <= 421 / 10 * u.
Proof.
  intros fsin fcos n D az GS GC NU FD FA BD BA HP. pose proof pi_bounds as PB. rewrite pi64_val in PB. assert (BD4 : Rabs (B2R D) <= 4) by lra.
  pose proof (C95_nvector fsin fcos n D az GS GC NU FD FA BD4 BA HP) as C. cbv zeta in C. destruct C as (_ & U1 & E1 & E2). set (q := vec_of (fway fsin fcos n D az)) in *.
  destruct (near_unit_near n NU) as (_ & NZ & _). pose proof (direction_unit (vec_of n) NZ) as UN. pose proof u_pos as Pu. pose proof u_tiny as Su.
  assert (EA : forall v, v <> v0 -> angle (vec_of n) v = angle (direction (vec_of n)) v).
  { intros v _. unfold direction. rewrite angle_scale_l; auto. apply Rinv_0_lt_compat, vnorm_nz. auto. }
  set (up := direction (vec_of n)) in *. clearbody up. destruct up as [a b S]. cbn [Spec.vx Spec.vy Spec.vz] in *.
  set (r := sqrt (a ^ 2 + b ^ 2)) in *. pose proof (bpow_gt_0 radix2 (-300)) as P3. assert (Hr : 0 < r) by lra.
  assert (RR : r * r = a * a + b * b). { unfold r. rewrite sqrt_sqrt; [ring|]. nra. }
  assert (Ea : a = r * (a / r)) by (field; lra). assert (Eb : b = r * (b / r)) by (field; lra).
  assert (CS : a / r * (a / r) + b / r * (b / r) = 1). { transitivity ((a * a + b * b) / (r * r)); [field; lra|]. rewrite <- RR. field. lra. }
  assert (US : S * S + r * r = 1). { pose proof (vnorm_sq (V a b S)) as Q. rewrite UN in Q. unfold vdot in Q; cbn [Spec.vx Spec.vy Spec.vz] in Q. rewrite RR. lra. }
  destruct (ned_axes S r (b / r) (a / r) Hr CS) as (EE & EN). rewrite <- Ea, <- Eb in EE, EN. rewrite EE, EN in *.
  set (c := a / r) in *. set (s := b / r) in *. clearbody c s r. subst a b. set (T := tangent _ _ _) in *.
  pose proof (sin2_cos2 (B2R az)) as SC. unfold Rsqr in SC.
  assert (T1 : vnorm T = 1).
  { apply vnorm_eq; [lra|]. unfold T, tangent, vdot, vadd, vscale; cbn [Spec.vx Spec.vy Spec.vz]. set (x := cos (B2R az)) in *. set (y := sin (B2R az)) in *. clearbody x y.
    transitivity (x * x * (S * S * (c * c + s * s) + r * r) + y * y * (c * c + s * s)); [ring|]. rewrite CS. replace (S * S * 1 + r * r) with 1 by lra. lra. }
  assert (TO : vdot (V (r * c) (r * s) S) T = 0).
  { unfold T, tangent, vdot, vadd, vscale; cbn [Spec.vx Spec.vy Spec.vz]. set (x := cos (B2R az)) in *. set (y := sin (B2R az)) in *. clearbody x y.
    transitivity (x * (S * r) * (1 - (c * c + s * s))); [ring|]. rewrite CS. ring. }
  pose proof (arc_angle (V (r * c) (r * s) S) T (B2R D) UN T1 TO BD) as AA. set (B := arc _ T _) in *. set (up := V (r * c) (r * s) S) in *.
  assert (ZU : up <> v0) by (apply vnorm_inv; auto). assert (ZB : B <> v0) by (apply vnorm_inv; auto).
  assert (ZQ : q <> v0). { intros E. rewrite E in E1. replace (vsub v0 B) with (vscale (-1) B) in E1 by (unfold v0; clearbody B; vring). rewrite vnorm_scale, U1 in E1. replace (Rabs (-1)) with 1 in E1 by (rewrite Rabs_left; lra). lra. }
  rewrite (EA q ZQ). pose proof (angle_triangle up B q ZU ZB ZQ) as TR1. pose proof (angle_triangle up q B ZU ZQ ZB) as TR2. rewrite (angle_sym q B) in TR2. apply Rabs_le. lra.
Qed.
Print Assumptions C95_distance.

(** ** latitude, longitude and azimuth in degrees *)
(** objects.py 274-289, 291-302, 553-573 and 237-244: GeoPoint.to_nvector, the new n-vector, Nvector.to_geo_point, latitude_deg and longitude_deg *)
Definition fdisplace_rad fsin fcos arctan2 (lat lon D az : float64) : float64 * float64 :=
  let r := fn_E2lat_lon arctan2 (fway fsin fcos (flat_lon2n_E fsin fcos (frad lat) (frad lon)) D (frad az)) in (fdeg (fst r), fdeg (snd r)).
(** objects.py 291-296: the arc length is the distance divided by the distance of A from the centre *)
Definition fdisplace fsin fcos arctan2 (lat lon z distance az a f : float64) : float64 * float64 :=
  fdisplace_rad fsin fcos arctan2 lat lon (fdiv distance (flength (fgeo_point_to_ecef fsin fcos lat lon z a f))) az.
(** the destination in degrees *)
Definition destination_deg (lat lon az D : R) : vec := destination (lat * (PI / 180)) (lon * (PI / 180)) (az * (PI / 180)) D.

Lemma displace_core fsin fcos arctan2 lat lon D az D0 : good_trig fsin sin -> good_trig fcos cos -> good_atan2 arctan2 ->
  is_finite lat = true -> is_finite lon = true -> is_finite az = true -> is_finite D = true -> Rabs (B2R lat) <= 90 -> Rabs (B2R lon) <= 180 -> Rabs (B2R az) <= 180 -> Rabs (B2R D) <= 4 -> Rabs (B2R D - D0) <= 4000 * u ->
  let r := fdisplace_rad fsin fcos arctan2 lat lon D az in
  angle (destination_deg (B2R lat) (B2R lon) (B2R az) D0) (latlon_vec (B2R (fst r) * (PI / 180)) (B2R (snd r) * (PI / 180))) <= 801 / 10 * u + 101 / 100 * Rabs (B2R D - D0).
Proof.
  intros GS GC GA Fa Fo Fz FD Ba Bo Bz BD HD0. pose proof u_pos as Pu. pose proof u_tiny as Su. pose proof eta_pos as Pe. pose proof tiny_consts as TC. pose proof pi_bounds as PB. rewrite pi64_val in PB.
  destruct (rad_moves lat 90 Fa Ba ltac:(lra)) as (F1 & B1 & M1). destruct (rad_moves lon 180 Fo Bo ltac:(lra)) as (F2 & B2 & M2). destruct (rad_moves az 180 Fz Bz ltac:(lra)) as (F3 & B3 & M3).
  pose proof (latlon_comp fsin fcos (frad lat) (frad lon) GS GC F1 F2 B1 B2) as NV. pose proof (cos_rad_pos lat Fa Ba) as CP. set (n := flat_lon2n_E fsin fcos (frad lat) (frad lon)) in *.
  set (la := B2R (frad lat)) in *. set (lo := B2R (frad lon)) in *. set (za := B2R (frad az)) in *.
  assert (SC1 : sin la * sin la + cos la * cos la = 1) by (pose proof (sin2_cos2 la) as X; unfold Rsqr in X; exact X).
  assert (SC2 : cos lo * cos lo + sin lo * sin lo = 1) by (pose proof (sin2_cos2 lo) as X; unfold Rsqr in X; lra).
  assert (EV : latlon_vec la lo = V (cos la * cos lo) (cos la * sin lo) (sin la)) by (unfold latlon_vec; apply vec_eq; cbn [Spec.vx Spec.vy Spec.vz]; ring). rewrite EV in NV.
  destruct (way_err fsin fcos n D (frad az) (sin la) (cos la) (sin lo) (cos lo) (51 / 10) (10 * eta) (329 / 10) (381 / 10)) as (FQ & U1 & ER); auto; try lra.
  assert (EB : arc (V (cos la * cos lo) (cos la * sin lo) (sin la)) (tangent (V (- (sin la * cos lo)) (- (sin la * sin lo)) (cos la)) (V (- sin lo) (cos lo) 0) za) (B2R D) = destination la lo za (B2R D)).
  { unfold destination. rewrite EV. reflexivity. }
  fold za in ER. rewrite EB in ER. set (q := fway fsin fcos n D (frad az)) in *. intros r.
  pose proof (dest_moves (B2R lat * (PI / 180)) (B2R lon * (PI / 180)) (B2R az * (PI / 180)) D0 la lo za (B2R D)) as DM. fold (destination_deg (B2R lat) (B2R lon) (B2R az) D0) in DM.
  set (B := destination_deg (B2R lat) (B2R lon) (B2R az) D0) in *. assert (UB : vnorm B = 1) by apply dest_unit.
  assert (K1 : 22 / 10 * u * (90 * (PI / 180)) <= 3457 / 1000 * u) by nra. assert (K2 : 22 / 10 * u * (180 * (PI / 180)) <= 6913 / 1000 * u) by nra.
  assert (ETA : 4 * eta <= / 1000 * u). { unfold eta, u. change 4 with (bpow radix2 2). apply Rle_trans with (bpow radix2 (-10) * bpow radix2 (-53)); [|apply Rmult_le_compat_r; [apply bpow_ge_0|cbn; lra]]. rewrite <- !bpow_plus. apply bpow_le. lia. }
  set (e := 5541 / 100 * u + Rabs (B2R D - D0)). assert (QB : vnorm (vsub (vec_of q) B) <= e).
  { unfold e. rewrite (sub_via _ _ (destination la lo za (B2R D))). eapply Rle_trans; [apply norm_triangle|]. lra. }
  assert (He : e <= / 1000000) by (unfold e; lra).
  pose proof (tilt B (vec_of q) e UB QB He) as TL. pose proof (norm_perturb B (vsub (vec_of q) B)) as NP. rewrite <- vadd_sub_id, UB in NP.
  assert (AU : about_unit q). { destruct q as [[x y] w]. destruct FQ as (X1 & X2 & X3). repeat split; auto. rewrite length3_vnorm. lra. }
  pose proof (latlon_back_about arctan2 q GA AU) as LB. cbv zeta in LB. unfold r, fdisplace_rad. fold n q. cbv zeta. cbn [fst snd].
  assert (NZ : forall x y, latlon_vec x y <> v0) by (intros; apply vnorm_inv, latlon_unit). assert (ZB : B <> v0) by (apply vnorm_inv; auto).
  assert (ZQ : vec_of q <> v0). { intros X. assert (NP' : Rabs (vnorm (vec_of q) - 1) <= e) by lra. rewrite X, vnorm_v0 in NP'. apply Rabs_le_inv in NP'. lra. }
  eapply Rle_trans; [apply (angle_triangle _ (vec_of q)); auto|]. pose proof (Rabs_pos (B2R D - D0)). unfold e in *. lra.
Qed.

Theorem C95_degrees : forall fsin fcos arctan2 lat lon D az, good_trig fsin sin -> good_trig fcos cos -> good_atan2 arctan2 ->
  is_finite lat = true -> is_finite lon = true -> is_finite az = true -> is_finite D = true -> Rabs (B2R lat) <= 90 -> Rabs (B2R lon) <= 180 -> Rabs (B2R az) <= 180 -> Rabs (B2R D) <= 4 ->
  let r := fdisplace_rad fsin fcos arctan2 lat lon D az in
  angle (destination_deg (B2R lat) (B2R lon) (B2R az) (B2R D)) (latlon_vec (B2R (fst r) * (PI / 180)) (B2R (snd r) * (PI / 180))) <= 801 / 10 * u.
Proof.
  intros fsin fcos arctan2 lat lon D az GS GC GA Fa Fo Fz FD Ba Bo Bz BD. pose proof u_pos as Pu. assert (Z : Rabs (B2R D - B2R D) = 0) by (rewrite Rminus_diag_eq, Rabs_R0; auto).
  pose proof (displace_core fsin fcos arctan2 lat lon D az (B2R D) GS GC GA Fa Fo Fz FD Ba Bo Bz BD ltac:(lra)) as C. cbv zeta in *. lra.
Qed.
Print Assumptions C95_degrees.
