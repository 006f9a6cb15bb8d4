(** * C90: GeoPoint -> ECEFvector -> GeoPoint in binary64 on WGS-84 *)
From Coq Require Import ZArith Reals Lra Lia Bool Psatz.
From Flocq Require Import Core BinarySingleNaN Relative.
From Verif Require Import Spec SpecArr LVec LAngle FTiny FBase FRel FUnit FPi FAngle FDist FGreat FLatLon FInv FInv2 FEcef FEcef2 FGeod FGeod4 FGeod6 FGeod7 FGeod9.
Local Open Scope R_scope.

Theorem C90_round_trip_nvector : forall fsin fcos pow lat lon z, good_trig fsin sin -> good_trig fcos cos -> good_pow pow ->
  is_finite lat = true -> is_finite lon = true -> Rabs (B2R lat) <= 90 -> Rabs (B2R lon) <= 180 -> is_finite z = true -> Rabs (B2R z) <= 1000000 ->
  let '(n, depth) := fp_EB_E2n_EB_E pow (fgeo_point_to_ecef fsin fcos lat lon z wgs84_a wgs84_f) wgs84_a wgs84_f in
  near_unit n /\ angle (latlon_vec (B2R lat * (PI / 180)) (B2R lon * (PI / 180))) (vec_of n) * 6378137 <= 48 / 1000000000 /\
  is_finite depth = true /\ Rabs (B2R depth - B2R z) <= 45 / 1000000000.
Proof.
  intros fsin fcos pow lat lon z GS GC GP Fa Fo Ba Bo Fz Bz. pose proof (Rabs_le_inv _ _ Bz) as Bz'.
  assert (B3 : Rabs (B2R z) <= bpow radix2 300). { eapply Rle_trans; [exact Bz|]. apply Rle_trans with (bpow radix2 20); [cbn; lra|apply bpow_le; lia]. }
  destruct (C89_from_degrees fsin fcos lat lon z wgs84_a wgs84_f GS GC Fa Fo Ba Bo Fz B3 wgs84_usual) as (FV & _).
  destruct (C89_wgs84 fsin fcos lat lon z GS GC Fa Fo Ba Bo Fz Bz) as (s & (OE & SD) & EP).
  set (N := latlon_vec (B2R lat * (PI / 180)) (B2R lon * (PI / 180))) in *. assert (NN : vnorm N = 1) by apply latlon_unit.
  rewrite <- wgs84_a_val in OE, SD.
  pose proof (C90_near pow _ wgs84_a wgs84_f N (B2R z) s (33 / 1000000000) GP wgs84_earth FV NN OE SD EP) as C.
  rewrite wgs84_a_val in C. specialize (C ltac:(lra) ltac:(lra)).
  destruct (fp_EB_E2n_EB_E pow (fgeo_point_to_ecef fsin fcos lat lon z wgs84_a wgs84_f) wgs84_a wgs84_f) as [n depth]. destruct C as (NU & AN & FD & ED). split; auto.
  destruct wgs84_f_val as (_ & FV'). rewrite FV' in AN. rewrite u_val in *. split; [|split; auto; lra].
  assert (R : 5335000 <= 6378137 * ((1 - 966381879065637 / 288230376151711744) * (1 - 966381879065637 / 288230376151711744)) - B2R z - 33 / 1000000000) by lra.
  set (r := 6378137 * ((1 - 966381879065637 / 288230376151711744) * (1 - 966381879065637 / 288230376151711744)) - B2R z - 33 / 1000000000) in *.
  assert (101 / 100 * (33 / 1000000000) / r <= 101 / 100 * (33 / 1000000000) / 5335000) by (apply Rmult_le_compat_l; [lra|apply Rinv_le; lra]). lra.
Qed.
Print Assumptions C90_round_trip_nvector.

(** GeoPoint(lat, lon, z, degrees=True).to_ecef_vector().to_geo_point(), latitude and longitude read in degrees *)
Definition fecef_round_trip fsin fcos pow arctan2 (lat lon z a f : float64) : float64 * float64 * float64 :=
  let '(n, depth) := fp_EB_E2n_EB_E pow (fgeo_point_to_ecef fsin fcos lat lon z a f) a f in
  let r := fn_E2lat_lon arctan2 n in (fdeg (fst r), fdeg (snd r), depth).

Lemma latlon_back_about arctan2 n : good_atan2 arctan2 -> about_unit n ->
  let r := fn_E2lat_lon arctan2 n in
  angle (vec_of n) (latlon_vec (B2R (fdeg (fst r)) * (PI / 180)) (B2R (fdeg (snd r)) * (PI / 180))) <= 246 / 10 * u.
Proof.
  intros GA NU r. destruct (C88_accuracy arctan2 n GA NU) as (la & lo & (HL & Bla & Blo) & F1 & D1 & D2). fold r in F1, D1, D2.
  pose proof u_pos as Pu. pose proof u_small as Su. pose proof eta_pos as Pe. pose proof tiny_consts as TC. pose proof (bpow_gt_0 radix2 (-399)) as P3. pose proof PI_RGT_0 as PP. pose proof pi_bounds as PB. rewrite pi64_val in PB.
  assert (PU : PI <= 315 / 100) by lra.
  assert (Ala : Rabs la <= PI / 2) by (apply Rabs_le; lra). assert (Alo : Rabs lo <= PI) by (apply Rabs_le; lra).
  assert (NZ : forall x y, latlon_vec x y <> v0) by (intros; apply vnorm_inv, latlon_unit).
  assert (NN : vec_of n <> v0). { intros E. destruct n as [[g0 g1] g2]. destruct NU as (_ & _ & _ & LU). rewrite length3_vnorm, E, vnorm_v0 in LU. apply Rabs_le_inv in LU. lra. }
  assert (PN : 0 < vnorm (vec_of n)) by (apply vnorm_nz; auto).
  assert (E1 : Rabs (B2R (fst r) - la) <= 81 / 10 * u). { eapply Rle_trans; [exact D1|]. assert (u * Rabs la <= u * (1575 / 1000)) by (apply Rmult_le_compat_l; lra). lra. }
  assert (M1 : Rabs (B2R (fst r)) <= 16 / 10). { replace (B2R (fst r)) with (la + (B2R (fst r) - la)) by ring. eapply Rle_trans; [apply Rabs_triang|]. lra. }
  destruct (deg_back (fst r) la (81 / 10) F1 E1 ltac:(lra) ltac:(lra)) as (_ & G1).
  assert (CONV : forall t x m, Rabs (B2R (fdeg t) - x * (180 / PI)) <= m * u * (180 / PI) + eta -> Rabs (B2R (fdeg t) * (PI / 180) - x) <= m * u + eta).
  { intros t x m H. replace (B2R (fdeg t) * (PI / 180) - x) with ((B2R (fdeg t) - x * (180 / PI)) * (PI / 180)) by (field; lra). rewrite Rabs_mult, (Rabs_right (PI / 180)) by lra.
    apply Rle_trans with ((m * u * (180 / PI) + eta) * (PI / 180)); [apply Rmult_le_compat_r; lra|]. replace ((m * u * (180 / PI) + eta) * (PI / 180)) with (m * u + eta * (PI / 180)) by (field; lra).
    assert (eta * (PI / 180) <= eta * 1) by (apply Rmult_le_compat_l; lra). lra. }
  apply CONV in G1. assert (H1 : Rabs (B2R (fdeg (fst r)) * (PI / 180) - la) <= 115 / 10 * u). { eapply Rle_trans; [exact G1|]. assert (u * Rabs (B2R (fst r)) <= u * (16 / 10)) by (apply Rmult_le_compat_l; lra). lra. }
  rewrite HL. rewrite angle_scale_l by auto.
  destruct (Req_dec (vx (vec_of n)) 0) as [X0|X0]; [destruct (Req_dec (vy (vec_of n)) 0) as [Y0|Y0]|].
  - set (lo' := B2R (fdeg (snd r)) * (PI / 180)).
    assert (CL : cos la = 0).
    { rewrite HL in X0, Y0. unfold latlon_vec, vscale in X0, Y0. cbn [Spec.vx Spec.vy] in X0, Y0. pose proof (sin2_cos2 lo) as SC. unfold Rsqr in SC.
      apply Rmult_integral in X0, Y0. destruct X0 as [X0|X0]; [lra|]. destruct Y0 as [Y0|Y0]; [lra|].
      replace (cos la) with (cos la * (sin lo * sin lo + cos lo * cos lo)) by (rewrite SC; ring). rewrite Rmult_plus_distr_l. transitivity (sin lo * (sin lo * cos la) + cos lo * (cos lo * cos la)); [ring|]. rewrite X0, Y0. ring. }
    replace (latlon_vec la lo) with (latlon_vec la lo') by (unfold latlon_vec; rewrite CL; apply vec_eq; cbn [Spec.vx Spec.vy Spec.vz]; ring).
    eapply Rle_trans; [apply latlon_moves; [lra|rewrite Rminus_eq_0, Rabs_R0; lra]|]. rewrite Rminus_eq_0, Rabs_R0. lra.
  - destruct (D2 (or_intror Y0)) as (F2 & E2). assert (E2' : Rabs (B2R (snd r) - lo) <= 64 / 10 * u). { eapply Rle_trans; [exact E2|]. assert (u * Rabs lo <= u * (315 / 100)) by (apply Rmult_le_compat_l; lra). lra. }
    assert (M2 : Rabs (B2R (snd r)) <= 316 / 100). { replace (B2R (snd r)) with (lo + (B2R (snd r) - lo)) by ring. eapply Rle_trans; [apply Rabs_triang|]. lra. }
    destruct (deg_back (snd r) lo (64 / 10) F2 E2' ltac:(lra) ltac:(lra)) as (_ & G2). apply CONV in G2.
    assert (H2 : Rabs (B2R (fdeg (snd r)) * (PI / 180) - lo) <= 13 * u + u / 20 + eta). { eapply Rle_trans; [exact G2|]. assert (u * Rabs (B2R (snd r)) <= u * (316 / 100)) by (apply Rmult_le_compat_l; lra). lra. }
    eapply Rle_trans; [apply latlon_moves; lra|]. lra.
  - destruct (D2 (or_introl X0)) as (F2 & E2). assert (E2' : Rabs (B2R (snd r) - lo) <= 64 / 10 * u). { eapply Rle_trans; [exact E2|]. assert (u * Rabs lo <= u * (315 / 100)) by (apply Rmult_le_compat_l; lra). lra. }
    assert (M2 : Rabs (B2R (snd r)) <= 316 / 100). { replace (B2R (snd r)) with (lo + (B2R (snd r) - lo)) by ring. eapply Rle_trans; [apply Rabs_triang|]. lra. }
    destruct (deg_back (snd r) lo (64 / 10) F2 E2' ltac:(lra) ltac:(lra)) as (_ & G2). apply CONV in G2.
    assert (H2 : Rabs (B2R (fdeg (snd r)) * (PI / 180) - lo) <= 13 * u + u / 20 + eta). { eapply Rle_trans; [exact G2|]. assert (u * Rabs (B2R (snd r)) <= u * (316 / 100)) by (apply Rmult_le_compat_l; lra). lra. }
    eapply Rle_trans; [apply latlon_moves; lra|]. lra.
Qed.

Lemma latlon_back arctan2 n : good_atan2 arctan2 -> near_unit n ->
  let r := fn_E2lat_lon arctan2 n in
  angle (vec_of n) (latlon_vec (B2R (fdeg (fst r)) * (PI / 180)) (B2R (fdeg (snd r)) * (PI / 180))) <= 246 / 10 * u.
Proof. intros GA NU. apply latlon_back_about; auto using near_about. Qed.

Theorem C90_round_trip_degrees : forall fsin fcos pow arctan2 lat lon z, good_trig fsin sin -> good_trig fcos cos -> good_pow pow -> good_atan2 arctan2 ->
  is_finite lat = true -> is_finite lon = true -> Rabs (B2R lat) <= 90 -> Rabs (B2R lon) <= 180 -> is_finite z = true -> Rabs (B2R z) <= 1000000 ->
  let '(lat', lon', z') := fecef_round_trip fsin fcos pow arctan2 lat lon z wgs84_a wgs84_f in
  central_angle_deg (B2R lat) (B2R lon) (B2R lat') (B2R lon') * 6378137 <= 66 / 1000000000 /\
  is_finite z' = true /\ Rabs (B2R z' - B2R z) <= 45 / 1000000000.
Proof.
  intros fsin fcos pow arctan2 lat lon z GS GC GP GA Fa Fo Ba Bo Fz Bz. pose proof (C90_round_trip_nvector fsin fcos pow lat lon z GS GC GP Fa Fo Ba Bo Fz Bz) as C.
  unfold fecef_round_trip. destruct (fp_EB_E2n_EB_E pow (fgeo_point_to_ecef fsin fcos lat lon z wgs84_a wgs84_f) wgs84_a wgs84_f) as [n depth]. destruct C as (NU & AN & FD & ED).
  pose proof (latlon_back arctan2 n GA NU) as LB. cbv zeta in LB. set (r := fn_E2lat_lon arctan2 n) in *. split; auto. unfold central_angle_deg.
  assert (NZ : forall x y, latlon_vec x y <> v0) by (intros; apply vnorm_inv, latlon_unit).
  assert (NN : vec_of n <> v0). { intros E. destruct n as [[g0 g1] g2]. destruct NU as (_ & _ & _ & LU). rewrite length3_vnorm, E, vnorm_v0 in LU. apply Rabs_le_inv in LU. pose proof u_small. pose proof u_pos. lra. }
  pose proof (angle_triangle _ (vec_of n) _ (NZ (B2R lat * (PI / 180)) (B2R lon * (PI / 180))) NN (NZ (B2R (fdeg (fst r)) * (PI / 180)) (B2R (fdeg (snd r)) * (PI / 180)))) as TR.
  rewrite u_val in LB. lra.
Qed.
Print Assumptions C90_round_trip_degrees.
