(** * C88: the round trip latitude, longitude -> n-vector -> latitude, longitude in binary64, and the range of the result *)
From Coq Require Import ZArith Reals Lra Lia Bool Psatz.
From Flocq Require Import Core BinarySingleNaN Relative.
From Verif Require Import Spec LVec LAngle FTiny FBase FUnit FPi FAngle FDist FGreat FLatLon FInv.
Local Open Scope R_scope.

(** ** the components of the n-vector have a small relative error each *)
Lemma components fsin fcos lat lon : good_trig fsin sin -> good_trig fcos cos ->
  is_finite lat = true -> is_finite lon = true -> Rabs (B2R lat) <= 4 -> Rabs (B2R lon) <= 4 ->
  let n := vec_of (flat_lon2n_E fsin fcos lat lon) in
  Rabs (vx n - cos (B2R lon) * cos (B2R lat)) <= 51 / 10 * u * Rabs (cos (B2R lon) * cos (B2R lat)) + 10 * eta /\
  Rabs (vy n - sin (B2R lon) * cos (B2R lat)) <= 51 / 10 * u * Rabs (sin (B2R lon) * cos (B2R lat)) + 10 * eta /\
  Rabs (vz n - sin (B2R lat)) <= 2 * u * Rabs (sin (B2R lat)) + 2 * eta.
Proof.
  intros GS GC Fa Fo Ba Bo. cbv zeta.
  destruct (GS lat Fa Ba) as (F1 & D1). destruct (GS lon Fo Bo) as (F2 & D2). destruct (GC lat Fa Ba) as (F3 & D3). destruct (GC lon Fo Bo) as (F4 & D4).
  assert (S1 : forall t, Rabs (sin t) <= 1) by (intros; apply Rabs_le, SIN_bound). assert (C1 : forall t, Rabs (cos t) <= 1) by (intros; apply Rabs_le, COS_bound).
  destruct (mul_trig (fsin lon) (fcos lat) (sin (B2R lon)) (cos (B2R lat))) as (Fy & By & Dy); auto.
  destruct (mul_trig (fneg (fcos lon)) (fcos lat) (- cos (B2R lon)) (cos (B2R lat))) as (Fz & Bz & Dz); auto.
  { unfold fneg. rewrite is_finite_Bopp. auto. } { rewrite Rabs_Ropp. auto. }
  { unfold fneg. rewrite B2R_Bopp. replace (- B2R (fcos lon) - - cos (B2R lon)) with (- (B2R (fcos lon) - cos (B2R lon))) by ring. rewrite !Rabs_Ropp. auto. }
  pose proof (trig_bound _ _ D1 (S1 _)) as Bx.
  assert (Big : 4 <= bpow radix2 1000). { apply Rle_trans with (bpow radix2 2); [cbn; lra|apply bpow_le; lia]. }
  destruct (pick (fsin lat) (fmul (fsin lon) (fcos lat)) (fmul (fneg (fcos lon)) (fcos lat))) as ((G1 & V1) & (G2 & V2) & (G3 & V3)); auto; try lra.
  unfold flat_lon2n_E. set (c1 := fdot3 (fzero, fzero, fneg fone) _) in *. set (c2 := fdot3 (fzero, fone, fzero) _) in *. set (c3 := fdot3 (fone, fzero, fzero) _) in *.
  unfold vec_of; cbn [Spec.vx Spec.vy Spec.vz]. rewrite V1, V2, V3. split; [|split; auto].
  replace (- cos (B2R lon) * cos (B2R lat)) with (- (cos (B2R lon) * cos (B2R lat))) in Dz by ring. rewrite Rabs_Ropp in Dz.
  rewrite <- Rabs_Ropp. match goal with |- Rabs ?a <= _ => match type of Dz with Rabs ?b <= _ => replace a with b by ring end end. exact Dz.
Qed.

(** ** the latitude is a quarter turn less the angle from the North pole *)
Definition north : vec := V 0 0 1.
Lemma angle_north v lat lon : v <> v0 -> has_latlon v lat lon -> angle north v = PI / 2 - lat.
Proof.
  intros Zv (E & Bl & _). assert (P : 0 < vnorm v). { destruct (vnorm_pos v) as [|Z]; auto. elim Zv. rewrite E, <- Z. unfold vscale, v0. f_equal; ring. }
  rewrite E, angle_scale_r by auto. rewrite angle_unit; [|apply vnorm_eq; [lra|unfold vdot, north; cbn [Spec.vx Spec.vy Spec.vz]; ring]|apply latlon_unit].
  unfold vdot, north, latlon_vec; cbn [Spec.vx Spec.vy Spec.vz]. replace (0 * (cos lon * cos lat) + 0 * (sin lon * cos lat) + 1 * sin lat) with (cos (PI / 2 - lat)).
  - apply acos_cos. lra.
  - rewrite cos_shift. ring.
Qed.

(** ** near the poles: the cosine of the largest latitude is not zero *)
Lemma cos_lat_pos lat : Rabs lat <= B2R half_pi64 -> / 100000000000000000 <= cos lat.
Proof.
  intros H. assert (VH : B2R half_pi64 = 7074237752028440 / 4503599627370496) by (unfold half_pi64, f, B2R, F2R; cbn; lra).
  pose proof pi_bounds as PB. rewrite pi64_val in PB. rewrite VH in H. pose proof PI2_1.
  assert (E : cos lat = sin (PI / 2 - Rabs lat)).
  { rewrite sin_shift. unfold Rabs. destruct (Rcase_abs lat); [rewrite cos_neg|]; reflexivity. }
  rewrite E. set (d := PI / 2 - Rabs lat). assert (D0 : 6 / 100000000000000000 <= d <= PI / 2) by (unfold d; pose proof (Rabs_pos lat); lra).
  destruct (Rle_dec d 1) as [D1|D1].
  - assert (C : 1 / 2 <= cos d). { rewrite <- cos_PI3. apply cos_decr_1; lra. } pose proof (abs_angle d ltac:(lra) ltac:(lra)) as A.
    rewrite (Rabs_right d) in A by lra. rewrite Rabs_right in A by (apply Rle_ge, sin_ge_0; lra). nra.
  - assert (S6 : sin (PI / 6) <= sin d) by (apply sin_incr_1; lra). rewrite sin_PI6 in S6. lra.
Qed.

Lemma sin_period_Z x k : sin (x + 2 * IZR k * PI) = sin x.
Proof.
  destruct (Z_le_dec 0 k) as [P|N].
  - rewrite <- (Z2Nat.id k P), <- INR_IZR_INZ. apply sin_period.
  - rewrite <- (sin_period (x + 2 * IZR k * PI) (Z.to_nat (- k))). rewrite INR_IZR_INZ, Z2Nat.id, opp_IZR by lia. f_equal. ring.
Qed.
Lemma cos_period_Z x k : cos (x + 2 * IZR k * PI) = cos x.
Proof.
  destruct (Z_le_dec 0 k) as [P|N].
  - rewrite <- (Z2Nat.id k P), <- INR_IZR_INZ. apply cos_period.
  - rewrite <- (cos_period (x + 2 * IZR k * PI) (Z.to_nat (- k))). rewrite INR_IZR_INZ, Z2Nat.id, opp_IZR by lia. f_equal. ring.
Qed.

(** ** the longitude of a vector whose horizontal components are right to 5.1u *)
Lemma lon_sens c o x y r t : / 100000000000000000 <= c <= 1 -> - PI <= t <= PI -> Rabs o <= PI -> 0 <= r ->
  Rabs (x - cos o * c) <= 51 / 10 * u * Rabs (cos o * c) + 10 * eta -> Rabs (y - sin o * c) <= 51 / 10 * u * Rabs (sin o * c) + 10 * eta ->
  x = r * cos t -> y = r * sin t -> exists k : Z, Rabs (t - o - 2 * IZR k * PI) <= 52 / 10 * u.
Proof.
  intros Pc Bt Bo Pr Dx Dy Ex Ey. pose proof u_pos as Pu. pose proof u_small as Su. pose proof eta_pos as Pe. pose proof PI_RGT_0 as PP.
  assert (Te : 1000 * eta <= u * / 100000000000000000).
  { pose proof (u_val) as U. rewrite U. apply Rle_trans with (1000 * bpow radix2 (-200)); [apply Rmult_le_compat_l; [lra|unfold eta; apply bpow_le; lia]|]. cbn. lra. }
  set (dx := x - cos o * c) in *. set (dy := y - sin o * c) in *.
  assert (exists k : Z, Rabs (t - o - 2 * IZR k * PI) <= PI) as (k & Hk).
  { apply Rabs_le_inv in Bo. destruct (Rlt_dec PI (t - o)); [exists 1%Z; apply Rabs_le; lra|]. destruct (Rlt_dec (t - o) (- PI)); [exists (-1)%Z; apply Rabs_le; lra|]. exists 0%Z; apply Rabs_le; lra. }
  exists k. set (d := t - o - 2 * IZR k * PI) in *.
  assert (Sd : sin d = sin (t - o) /\ cos d = cos (t - o)).
  { unfold d. replace (t - o - 2 * IZR k * PI) with (t - o + 2 * IZR (- k) * PI) by (rewrite opp_IZR; ring). split; [apply sin_period_Z|apply cos_period_Z]. }
  destruct Sd as (Sd & Cd).
  pose proof (sin2_cos2 o) as T. unfold Rsqr in T. pose proof (SIN_bound o) as SB. pose proof (COS_bound o) as CB.
  assert (S : r * sin d = dy * cos o - dx * sin o).
  { rewrite Sd, sin_minus. transitivity (r * sin t * cos o - r * cos t * sin o); [ring|]. rewrite <- Ex, <- Ey. unfold dx, dy. ring. }
  assert (C : r * cos d = c + (dx * cos o + dy * sin o)).
  { rewrite Cd, cos_minus. transitivity (r * cos t * cos o + r * sin t * sin o); [ring|]. rewrite <- Ex, <- Ey. unfold dx, dy.
    transitivity (c * (sin o * sin o + cos o * cos o) + (x * cos o + y * sin o - c * (sin o * sin o + cos o * cos o))); [ring|]. rewrite T at 1. ring. }
  rewrite Rabs_mult, (Rabs_right c) in Dx, Dy by lra.
  set (A := Rabs (cos o)) in *. set (B := Rabs (sin o)) in *.
  assert (PA : 0 <= A <= 1) by (split; [apply Rabs_pos|apply Rabs_le; lra]). assert (PB : 0 <= B <= 1) by (split; [apply Rabs_pos|apply Rabs_le; lra]).
  assert (AB : A * A + B * B = 1). { unfold A, B. rewrite <- !Rabs_mult, !Rabs_right by nra. lra. }
  set (m := 51 / 10 * u * c) in *. assert (Pm : 0 <= m) by (unfold m; apply Rmult_le_pos; lra).
  replace (51 / 10 * u * (A * c)) with (m * A) in Dx by (unfold m; ring). replace (51 / 10 * u * (B * c)) with (m * B) in Dy by (unfold m; ring).
  assert (M1 : Rabs (dy * cos o) <= m * (A * B) + 10 * eta).
  { rewrite Rabs_mult. fold A. assert (Rabs dy * A <= (m * B + 10 * eta) * A) by (apply Rmult_le_compat_r; lra). nra. }
  assert (M2 : Rabs (dx * sin o) <= m * (A * B) + 10 * eta).
  { rewrite Rabs_mult. fold B. assert (Rabs dx * B <= (m * A + 10 * eta) * B) by (apply Rmult_le_compat_r; lra). nra. }
  assert (M3 : Rabs (dx * cos o) <= m * (A * A) + 10 * eta).
  { rewrite Rabs_mult. fold A. assert (Rabs dx * A <= (m * A + 10 * eta) * A) by (apply Rmult_le_compat_r; lra). nra. }
  assert (M4 : Rabs (dy * sin o) <= m * (B * B) + 10 * eta).
  { rewrite Rabs_mult. fold B. assert (Rabs dy * B <= (m * B + 10 * eta) * B) by (apply Rmult_le_compat_r; lra). nra. }
  assert (AB2 : 2 * (A * B) <= 1). { pose proof (Rle_0_sqr (A - B)) as Q. unfold Rsqr in Q. lra. }
  assert (KS : Rabs (r * sin d) <= m + 20 * eta).
  { rewrite S. replace (dy * cos o - dx * sin o) with (dy * cos o + - (dx * sin o)) by ring. eapply Rle_trans; [apply Rabs_triang|]. rewrite Rabs_Ropp.
    assert (m * (2 * (A * B)) <= m * 1) by (apply Rmult_le_compat_l; auto). lra. }
  assert (KC : c - m - 20 * eta <= r * cos d).
  { rewrite C. assert (Rabs (dx * cos o + dy * sin o) <= m + 20 * eta).
    { eapply Rle_trans; [apply Rabs_triang|]. replace m with (m * (A * A + B * B)) by (rewrite AB; ring). lra. }
    apply Rabs_le_inv in H. lra. }
  assert (UC : u * / 100000000000000000 <= u * c) by (apply Rmult_le_compat_l; lra).
  assert (Uc : u * c <= / 1000000000 * c) by (apply Rmult_le_compat_r; lra).
  assert (KS' : Rabs (r * sin d) <= 513 / 100 * (u * c)) by (unfold m in KS; lra).
  assert (KC' : (1 - 513 / 100 * u) * c <= r * cos d) by (unfold m in KC; lra).
  assert (P0 : 0 < cos d). { assert (0 < (1 - 513 / 100 * u) * c) by (apply Rmult_lt_0_compat; lra). apply Rnot_le_lt. intros N. assert (r * cos d <= 0) by nra. lra. }
  pose proof (abs_angle d (Rabs_le_inv _ _ Hk) P0) as AA. rewrite Rabs_mult, (Rabs_right r) in KS' by lra. pose proof (Rabs_pos d) as PD.
  assert (K : Rabs d * ((1 - 513 / 100 * u) * c) <= 513 / 100 * (u * c)).
  { apply Rle_trans with (Rabs d * (r * cos d)); [apply Rmult_le_compat_l; auto|]. replace (Rabs d * (r * cos d)) with (r * (Rabs d * cos d)) by ring.
    eapply Rle_trans; [apply Rmult_le_compat_l; [lra|exact AA]|]. exact KS'. }
  assert (K2 : Rabs d * (1 - 513 / 100 * u) <= 513 / 100 * u) by (apply (Rmult_le_reg_r c); lra).
  apply (Rmult_le_reg_r (1 - 513 / 100 * u)); [lra|]. eapply Rle_trans; [exact K2|]. nra.
Qed.

(** ** the round trip in radians: every latitude, the largest double below a quarter turn included, and every longitude up to a
    full turn *)
Lemma round_trip_core : forall fsin fcos arctan2 lat lon, good_trig fsin sin -> good_trig fcos cos -> good_atan2 arctan2 ->
  is_finite lat = true -> is_finite lon = true -> Rabs (B2R lat) <= B2R half_pi64 -> Rabs (B2R lon) <= B2R pi64 ->
  let answer := fn_E2lat_lon arctan2 (flat_lon2n_E fsin fcos lat lon) in
  is_finite (fst answer) = true /\ Rabs (B2R (fst answer) - B2R lat) <= 14 * u /\
  is_finite (snd answer) = true /\ Rabs (B2R (snd answer)) <= 3142 / 1000 /\ exists k : Z, Rabs (B2R (snd answer) - B2R lon - 2 * IZR k * PI) <= 12 * u.
Proof.
  intros fsin fcos arctan2 lat lon GS GC GA Fa Fo Ba Bo answer. pose proof u_pos as Pu. pose proof u_small as Su. pose proof eta_pos as Pe. pose proof tiny_consts as TC. pose proof (bpow_gt_0 radix2 (-399)) as P3.
  assert (VH : B2R half_pi64 = 7074237752028440 / 4503599627370496) by (unfold half_pi64, f, B2R, F2R; cbn; lra).
  pose proof pi_bounds as PB. pose proof PI_33 as P33. pose proof PI_RGT_0 as PP.
  assert (Ba4 : Rabs (B2R lat) <= 4) by lra. assert (Bo4 : Rabs (B2R lon) <= 4) by (rewrite pi64_val in Bo; lra).
  destruct (C81_n_vector fsin fcos lat lon GS GC Fa Fo Ba4 Bo4) as (NU & NA).
  destruct (components fsin fcos lat lon GS GC Fa Fo Ba4 Bo4) as (Dx & Dy & _).
  pose proof (cos_lat_pos _ Ba) as Pc. pose proof (COS_bound (B2R lat)) as CB.
  destruct (C88_accuracy arctan2 _ GA (near_about _ NU)) as (la & lo & HL & F1 & D1 & LON). fold answer in F1, D1, LON.
  set (n := flat_lon2n_E fsin fcos lat lon) in *.
  assert (Zn : vec_of n <> v0). { destruct n as [[x y] z]. destruct NU as (_ & _ & _ & L). intros E. rewrite length3_vnorm, E, vnorm_v0 in L. apply Rabs_le_inv in L. lra. }
  split; auto. split.
  - assert (HL' : has_latlon (latlon_vec (B2R lat) (B2R lon)) (B2R lat) (B2R lon)).
    { split; [|rewrite pi64_val in *; apply Rabs_le_inv in Ba; apply Rabs_le_inv in Bo; lra]. rewrite latlon_unit. unfold vscale, latlon_vec; cbn [Spec.vx Spec.vy Spec.vz]. f_equal; ring. }
    pose proof (vnorm_inv _ (latlon_unit (B2R lat) (B2R lon))) as Zl.
    pose proof (angle_north _ _ _ Zn HL) as A1. pose proof (angle_north _ _ _ Zl HL') as A2.
    assert (ZN : north <> v0) by (unfold north, v0; intros E; injection E; lra).
    pose proof (angle_triangle north _ (vec_of n) ZN Zl Zn) as T1. pose proof (angle_triangle north _ (latlon_vec (B2R lat) (B2R lon)) ZN Zn Zl) as T2.
    rewrite (angle_sym (vec_of n)) in T2. rewrite A1, A2 in *.
    destruct HL as (_ & Bl & _). assert (L1 : Rabs la <= PI / 2) by (apply Rabs_le; lra).
    assert (u * Rabs la <= u * (PI / 2)) by (apply Rmult_le_compat_l; lra). assert (u * PI <= u * (3142 / 1000)) by (apply Rmult_le_compat_l; [lra|rewrite pi64_val in PB; lra]).
    apply Rabs_le_inv in D1. apply Rabs_le. lra.
  - set (v := vec_of n) in *. destruct HL as (Ev & Bla & Blo).
    assert (Pr : 0 <= vnorm v * cos la). { apply Rmult_le_pos; [apply vnorm_pos|apply cos_ge_0; lra]. }
    assert (Ex : vx v = vnorm v * cos la * cos lo). { rewrite Ev at 1. unfold vscale, latlon_vec; cbn [Spec.vx]. ring. }
    assert (Ey : vy v = vnorm v * cos la * sin lo). { rewrite Ev at 1. unfold vscale, latlon_vec; cbn [Spec.vy]. ring. }
    destruct (lon_sens (cos (B2R lat)) (B2R lon) (vx v) (vy v) (vnorm v * cos la) lo) as (k & Hk); auto; [lra|rewrite pi64_val in *; lra|].
    assert (NZ : vx v <> 0 \/ vy v <> 0).
    { destruct (Req_EM_T (vx v) 0) as [Zx|]; [|auto]. destruct (Req_EM_T (vy v) 0) as [Zy|]; [|auto]. exfalso. rewrite Zx in Dx. rewrite Zy in Dy.
      assert (Te : 1000 * eta <= u * / 100000000000000000).
      { rewrite u_val. apply Rle_trans with (1000 * bpow radix2 (-200)); [apply Rmult_le_compat_l; [lra|unfold eta; apply bpow_le; lia]|]. cbn. lra. }
      rewrite Rminus_0_l, Rabs_Ropp, Rabs_mult, (Rabs_right (cos (B2R lat))) in Dx, Dy by lra.
      set (A := Rabs (cos (B2R lon))) in *. set (B := Rabs (sin (B2R lon))) in *. set (c := cos (B2R lat)) in *.
      assert (AB : A * A + B * B = 1). { unfold A, B. rewrite <- !Rabs_mult, !Rabs_right by nra. pose proof (sin2_cos2 (B2R lon)) as T. unfold Rsqr in T. lra. }
      assert (PA : 0 <= A) by apply Rabs_pos. assert (PBb : 0 <= B) by apply Rabs_pos.
      assert (X : forall a, 0 <= a -> a * c <= 51 / 10 * u * (a * c) + 10 * eta -> a <= / 2).
      { intros a Pa Ha. apply Rnot_lt_le. intros N. assert (u * (a * c) <= / 1000000000 * (a * c)) by (apply Rmult_le_compat_r; [apply Rmult_le_pos; lra|lra]).
        assert (/ 2 * c <= a * c) by (apply Rmult_le_compat_r; lra). assert (u * / 100000000000000000 <= 1 * / 100000000000000000) by (apply Rmult_le_compat_r; lra). lra. }
      pose proof (X A PA Dx). pose proof (X B PBb Dy). nra. }
    destruct (LON NZ) as (F2 & D2). split; auto.
    assert (L1 : Rabs lo <= PI) by (apply Rabs_le; lra). assert (L2 : u * Rabs lo <= u * (3142 / 1000)) by (apply Rmult_le_compat_l; [lra|rewrite pi64_val in PB; lra]).
    split. { replace (B2R (snd answer)) with ((B2R (snd answer) - lo) + lo) by ring. eapply Rle_trans; [apply Rabs_triang|]. rewrite pi64_val in PB. lra. }
    exists k.
    replace (B2R (snd answer) - B2R lon - 2 * IZR k * PI) with ((B2R (snd answer) - lo) + (lo - B2R lon - 2 * IZR k * PI)) by ring.
    eapply Rle_trans; [apply Rabs_triang|].
    lra.
Qed.
Theorem C88_round_trip_radians : forall fsin fcos arctan2 lat lon, good_trig fsin sin -> good_trig fcos cos -> good_atan2 arctan2 ->
  is_finite lat = true -> is_finite lon = true -> Rabs (B2R lat) <= B2R half_pi64 -> Rabs (B2R lon) <= B2R pi64 ->
  let answer := fn_E2lat_lon arctan2 (flat_lon2n_E fsin fcos lat lon) in
  is_finite (fst answer) = true /\ Rabs (B2R (fst answer) - B2R lat) <= 14 * u /\
  is_finite (snd answer) = true /\ exists k : Z, Rabs (B2R (snd answer) - B2R lon - 2 * IZR k * PI) <= 12 * u.
Proof.
  intros fsin fcos arctan2 lat lon GS GC GA Fa Fo Ba Bo. destruct (round_trip_core fsin fcos arctan2 lat lon GS GC GA Fa Fo Ba Bo) as (F1 & D1 & F2 & _ & D2). auto.
Qed.

(** ** the round trip in degrees (GeoPoint.to_nvector().to_geo_point() at depth 0 in degrees): 1.4e-13 degrees in latitude and
    1.7e-13 degrees in longitude *)
Definition fround_trip fsin fcos arctan2 (lat lon : float64) : float64 * float64 :=
  let r := fn_E2lat_lon arctan2 (flat_lon2n_E fsin fcos (frad lat) (frad lon)) in (fdeg (fst r), fdeg (snd r)).

Lemma deg_back x t m : is_finite x = true -> Rabs (B2R x - t) <= m * u -> Rabs (B2R x) <= 4 -> 0 <= m ->
  is_finite (fdeg x) = true /\ Rabs (B2R (fdeg x) - t * (180 / PI)) <= (21 / 10 * Rabs (B2R x) + m) * u * (180 / PI) + eta.
Proof.
  intros Fx D B Pm. pose proof PI_RGT_0 as PP. pose proof u_pos as Pu.
  assert (M : moderate x). { split; auto. apply Rle_trans with (bpow radix2 2); [cbn; lra|apply bpow_le; lia]. }
  destruct (C79_accuracy x M) as (_ & F & _ & DD). split; auto.
  assert (P8 : 0 < 180 / PI) by (apply Rdiv_lt_0_compat; lra). set (q := 180 / PI) in *. clearbody q.
  replace (B2R (fdeg x) - t * q) with ((B2R (fdeg x) - B2R x * q) + (B2R x - t) * q) by ring.
  eapply Rle_trans; [apply Rabs_triang|]. rewrite (Rabs_mult (B2R x - t)), (Rabs_right q) by lra.
  assert (Rabs (B2R x - t) * q <= m * u * q) by (apply Rmult_le_compat_r; lra).
  rewrite Rabs_mult, (Rabs_right q) in DD by lra. pose proof (Rabs_pos (B2R x)). lra.
Qed.

Theorem C88_round_trip_degrees : forall fsin fcos arctan2 lat lon, good_trig fsin sin -> good_trig fcos cos -> good_atan2 arctan2 ->
  is_finite lat = true -> is_finite lon = true -> Rabs (B2R lat) <= 90 -> Rabs (B2R lon) <= 180 ->
  let answer := fround_trip fsin fcos arctan2 lat lon in
  is_finite (fst answer) = true /\ Rabs (B2R (fst answer) - B2R lat) <= 14 / 100000000000000 /\
  is_finite (snd answer) = true /\ exists k : Z, Rabs (B2R (snd answer) - B2R lon - 360 * IZR k) <= 17 / 100000000000000.
Proof.
  intros fsin fcos arctan2 lat lon GS GC GA Fa Fo Ba Bo answer. pose proof u_pos as Pu. pose proof u_small as Su. pose proof u_val as UV. pose proof eta_pos as Pe. pose proof tiny_consts as TC. pose proof (bpow_gt_0 radix2 (-399)) as P3.
  assert (VH : B2R half_pi64 = 7074237752028440 / 4503599627370496) by (unfold half_pi64, f, B2R, F2R; cbn; lra).
  pose proof pi_bounds as PB. rewrite pi64_val in PB. pose proof PI_RGT_0 as PP.
  destruct (rad_moves lat 90 Fa Ba ltac:(lra)) as (Fa' & _ & Da). destruct (rad_moves lon 180 Fo Bo ltac:(lra)) as (Fo' & _ & Do).
  destruct (C79_range lat Fa) as (Ra & _). specialize (Ra Ba). destruct (C79_range lon Fo) as (_ & Ro & _). specialize (Ro Bo).
  destruct (round_trip_core fsin fcos arctan2 _ _ GS GC GA Fa' Fo' Ra Ro) as (F1 & D1 & F2 & B2 & k & D2).
  unfold answer, fround_trip. cbn [fst snd]. set (r := fn_E2lat_lon _ _) in *.
  assert (Uv : / 9007199254740993 <= u <= / 9007199254740991) by (rewrite UV; lra).
  assert (Ka : 22 / 10 * u * (90 * (PI / 180)) + eta <= 4 * u) by nra. assert (Ko : 22 / 10 * u * (180 * (PI / 180)) + eta <= 7 * u) by nra.
  assert (I8 : 0 < 180 / PI <= 573 / 10).
  { split; [apply Rdiv_lt_0_compat; lra|]. apply (Rmult_le_reg_r PI); auto. unfold Rdiv at 1. rewrite Rmult_assoc, Rinv_l by lra. lra. }
  assert (A1 : Rabs (B2R (fst r) - B2R lat * (PI / 180)) <= 175 / 10 * u).
  { replace (B2R (fst r) - B2R lat * (PI / 180)) with ((B2R (fst r) - B2R (frad lat)) + (B2R (frad lat) - B2R lat * (PI / 180))) by ring.
    eapply Rle_trans; [apply Rabs_triang|]. nra. }
  assert (A2 : Rabs (B2R (snd r) - (B2R lon * (PI / 180) + 2 * IZR k * PI)) <= 19 * u).
  { replace (B2R (snd r) - (B2R lon * (PI / 180) + 2 * IZR k * PI)) with ((B2R (snd r) - B2R (frad lon) - 2 * IZR k * PI) + (B2R (frad lon) - B2R lon * (PI / 180))) by ring.
    eapply Rle_trans; [apply Rabs_triang|]. lra. }
  assert (B1 : Rabs (B2R (fst r)) <= 1571 / 1000).
  { replace (B2R (fst r)) with ((B2R (fst r) - B2R (frad lat)) + B2R (frad lat)) by ring. eapply Rle_trans; [apply Rabs_triang|]. lra. }
  split; [|split; [|split]].
  - apply (deg_back _ _ _ F1 A1); lra.
  - destruct (deg_back _ _ _ F1 A1) as (_ & D); try lra.
    replace (B2R lat * (PI / 180) * (180 / PI)) with (B2R lat) in D by (field; lra).
    eapply Rle_trans; [exact D|]. assert ((21 / 10 * Rabs (B2R (fst r)) + 175 / 10) * u <= 21 * u) by (apply Rmult_le_compat_r; lra). nra.
  - apply (deg_back _ _ _ F2 A2); lra.
  - exists k. destruct (deg_back _ _ _ F2 A2) as (_ & D); try lra.
    replace ((B2R lon * (PI / 180) + 2 * IZR k * PI) * (180 / PI)) with (B2R lon + 360 * IZR k) in D by (field; lra).
    replace (B2R (fdeg (snd r)) - B2R lon - 360 * IZR k) with (B2R (fdeg (snd r)) - (B2R lon + 360 * IZR k)) by ring.
    eapply Rle_trans; [exact D|]. assert ((21 / 10 * Rabs (B2R (snd r)) + 19) * u <= 26 * u) by (apply Rmult_le_compat_r; lra). nra.
Qed.
