(** * C105: GeoPoint.distance_and_azimuth on the great circle in binary64 (objects.py 395-410) *)
From Coq Require Import ZArith Reals Lra Lia Bool Psatz.
From Flocq Require Import Core BinarySingleNaN Relative.
From Verif Require Import Spec LVec LAngle LRot FTiny FZero FBase FRel FRel2 FUnit FPi FAngle FMod FDist FGreat FLatLon FInv FInv2 FTrack FPoint FEcef FEcef2 FNed FNed2 FNed3 FDelta FDelta2 FDelta3
  FGeodB FGeod FGeod2 FGeod3 FGeod4 FGeod5 FGeod6 FGeod7 FGeod8 FGeod9 FGeod10 FMove FMove2 FMove3 FEuler FEuler2 FBody FBody2 FBody3 PPath3 FInv3.
Local Open Scope R_scope.

(** ** how far north and east move when the place moves: the more the closer to a pole *)
Lemma place_moves up v c e : vnorm up = 1 -> vnorm v = 1 -> 0 < c -> c <= vnorm (vcross (V 0 0 1) v) -> vnorm (vsub up v) <= e -> e < c ->
  c - e <= vnorm (vcross (V 0 0 1) up) /\
  vnorm (vsub (SpecGeo.east_at SpecArr.Me up) (SpecGeo.east_at SpecArr.Me v)) <= 2 * e / c /\
  vnorm (vsub (SpecGeo.north_at SpecArr.Me up) (SpecGeo.north_at SpecArr.Me v)) <= e + 2 * e / c.
Proof.
  intros Uu Uv Pc Hc De Hec. assert (Pe : 0 <= e) by (eapply Rle_trans; [apply vnorm_pos|exact De]).
  set (z := V 0 0 1) in *. assert (Uz : vnorm z = 1) by (unfold z; apply unit_axes).
  assert (DC : vnorm (vsub (vcross z up) (vcross z v)) <= e).
  { replace (vsub (vcross z up) (vcross z v)) with (vcross z (vsub up v)) by (generalize z up v; intros; vring). eapply Rle_trans; [apply vcross_le|]. rewrite Uz. lra. }
  pose proof (norm_perturb (vcross z v) (vsub (vcross z up) (vcross z v))) as NP. rewrite <- vadd_sub_id in NP. apply Rabs_le_inv in NP.
  assert (H1 : c - e <= vnorm (vcross z up)) by lra. split; auto.
  assert (NZ : vcross z v <> v0) by (intros E; rewrite E, vnorm_v0 in Hc; lra). assert (NU : vcross z up <> v0) by (intros E; rewrite E, vnorm_v0 in H1; lra).
  assert (EA : vnorm (vsub (SpecGeo.east_at SpecArr.Me up) (SpecGeo.east_at SpecArr.Me v)) <= 2 * e / c).
  { unfold SpecGeo.east_at. change (SpecArr.north SpecArr.Me) with z. eapply Rle_trans; [apply direction_perturb; auto|]. unfold Rdiv. apply Rmult_le_compat; [pose proof (vnorm_pos (vsub (vcross z up) (vcross z v))); lra|left; apply Rinv_0_lt_compat; lra|lra|apply Rinv_le; lra]. }
  split; [exact EA|]. unfold SpecGeo.north_at. set (E1 := SpecGeo.east_at SpecArr.Me up) in *. set (E0 := SpecGeo.east_at SpecArr.Me v) in *.
  assert (U0 : vnorm E0 = 1) by (unfold E0, SpecGeo.east_at; apply direction_unit; exact NZ).
  replace (vsub (vcross up E1) (vcross v E0)) with (vadd (vcross (vsub up v) E0) (vcross up (vsub E1 E0))) by (generalize E0 E1 up v; intros; vring).
  eapply Rle_trans; [apply norm_triangle|]. pose proof (vcross_le (vsub up v) E0) as A. pose proof (vcross_le up (vsub E1 E0)) as B. rewrite U0 in A. rewrite Uu in B. lra.
Qed.
Lemma ned_at lat lon : 0 < cos lat -> SpecGeo.east_at SpecArr.Me (latlon_vec lat lon) = east_dir lon /\ SpecGeo.north_at SpecArr.Me (latlon_vec lat lon) = north_dir lat lon /\ vnorm (vcross (V 0 0 1) (latlon_vec lat lon)) = cos lat.
Proof.
  intros Pc. replace (latlon_vec lat lon) with (V (cos lat * cos lon) (cos lat * sin lon) (sin lat)) by (unfold latlon_vec; apply vec_eq; cbn [Spec.vx Spec.vy Spec.vz]; ring).
  destruct (ned_axes (sin lat) (cos lat) (sin lon) (cos lon) Pc (cs lon)) as (E & N). rewrite E, N. split; [reflexivity|split; [reflexivity|]].
  apply vnorm_eq; [lra|]. unfold vcross, vdot; cbn [Spec.vx Spec.vy Spec.vz]. pose proof (cs lon) as C. transitivity (cos lat * cos lat * (cos lon * cos lon + sin lon * sin lon)); [ring|rewrite C; ring].
Qed.

Lemma dot_normal_r' a b : vdot b (direction (vcross a b)) = 0.
Proof. unfold direction. generalize (/ vnorm (vcross a b)); intros k. vring. Qed.
(** the axes at a place [n] that is within [d] units of roundoff of latitude [lat] and longitude [lon] *)
Lemma axes_near n lat lon c d : near_unit n -> 0 < c <= cos lat -> 0 <= d -> 2 * d * u <= c -> / 1000000 <= c -> angle (latlon_vec lat lon) (vec_of n) <= d * u ->
  cols_ok (24 + d + 2 * d / c) (fn_E2R_EN n) (mT (Mt (north_dir lat lon) (east_dir lon) (down_dir lat lon))).
Proof.
  intros NU Hc Pd Hd C6 AN. pose proof u_pos as Pu. pose proof u_tiny as Su. pose proof (near_unit_ordinary n NU) as O.
  assert (NN : vec_of n <> v0). { intros E. destruct n as [[g0 g1] g2]. destruct NU as (_ & _ & _ & LU). rewrite length3_vnorm, E, vnorm_v0 in LU. apply Rabs_le_inv in LU. lra. }
  set (v := latlon_vec lat lon) in *. assert (Uv : vnorm v = 1) by apply latlon_unit. set (up := direction (vec_of n)). assert (Uu : vnorm up = 1) by (apply direction_unit; auto).
  assert (DU : vnorm (vsub up v) <= d * u).
  { replace (vsub up v) with (vneg (vsub v up)) by (generalize up v; intros; vring). rewrite vnorm_neg. eapply Rle_trans; [apply chord_le_angle; auto|]. unfold up. rewrite (PPath3.angle_dir_r v (vec_of n)) by auto. exact AN. }
  destruct (ned_at lat lon ltac:(lra)) as (EE & EN & ER). fold v in EE, EN, ER.
  destruct (place_moves up v c (d * u) Uu Uv ltac:(lra) ltac:(lra) DU ltac:(lra)) as (H1 & HE & HN). rewrite EE in HE. rewrite EN in HN.
  assert (R0 : bpow radix2 (-300) <= sqrt (Spec.vx up ^ 2 + Spec.vy up ^ 2)).
  { replace (sqrt (Spec.vx up ^ 2 + Spec.vy up ^ 2)) with (vnorm (vcross (V 0 0 1) up)) by (unfold vnorm, vcross, vdot; cbn [Spec.vx Spec.vy Spec.vz]; f_equal; ring).
    apply Rle_trans with (bpow radix2 (-30)); [apply bpow_le; lia|]. apply Rle_trans with (c / 2); [cbn; lra|lra]. }
  pose proof (C91_accuracy n O R0) as A. destruct (fn_E2R_EN n) as [[N E] D]. cbv zeta in A. fold up in A. destruct A as (AN' & AE & AD).
  assert (NZ : vcross (V 0 0 1) up <> v0) by (intros X; rewrite X, vnorm_v0 in H1; lra).
  assert (UE : vnorm (SpecGeo.east_at SpecArr.Me up) = 1) by (unfold SpecGeo.east_at; apply direction_unit; exact NZ).
  assert (UN : vnorm (SpecGeo.north_at SpecArr.Me up) = 1).
  { unfold SpecGeo.north_at. apply vnorm_eq; [lra|]. assert (P : vdot up (SpecGeo.east_at SpecArr.Me up) = 0).
    { unfold SpecGeo.east_at. change (SpecArr.north SpecArr.Me) with (V 0 0 1). pose proof (dot_normal_r' (V 0 0 1) up) as X. exact X. }
    pose proof (vnorm_sq (SpecGeo.east_at SpecArr.Me up)) as S1. rewrite UE in S1. pose proof (vnorm_sq up) as S2. rewrite Uu in S2. set (e := SpecGeo.east_at SpecArr.Me up) in *.
    replace (vdot (vcross up e) (vcross up e)) with (vdot up up * vdot e e - vdot up e * vdot up e) by (generalize up e; intros; vring). rewrite P. replace (vdot up up) with 1 by lra. replace (vdot e e) with 1 by lra. ring. }
  pose proof (accurate_vec 23 N _ ltac:(lra) UN AN') as BN. pose proof (accurate_vec 16 E _ ltac:(lra) UE AE) as BE. assert (UD : vnorm (vneg up) = 1) by (rewrite vnorm_neg; auto). pose proof (accurate_vec 5 D _ ltac:(lra) UD AD) as BD.
  pose proof (chain _ _ _ _ _ BN HN) as XN. pose proof (chain _ _ _ _ _ BE HE) as XE.
  assert (DD : vnorm (vsub (vneg up) (down_dir lat lon)) <= d * u).
  { replace (down_dir lat lon) with (vneg v) by (unfold v, down_dir, latlon_vec, vneg; apply vec_eq; cbn [Spec.vx Spec.vy Spec.vz]; ring). replace (vsub (vneg up) (vneg v)) with (vneg (vsub up v)) by (generalize up v; intros; vring). rewrite vnorm_neg. exact DU. }
  pose proof (chain _ _ _ _ _ BD DD) as XD.
  assert (PD : 0 <= 2 * d / c) by (apply Rmult_le_pos; [lra|left; apply Rinv_0_lt_compat; lra]). assert (PDU : 0 <= 2 * d / c * u) by (apply Rmult_le_pos; lra).
  replace (2 * (d * u) / c) with (2 * d / c * u) in * by (field; lra). unfold cols_ok, c0, c1, c2. rewrite mT_mT. cbn [r0 r1 r2].
  split; [split; [apply AN'|split; [apply AE|apply AD]]|]. assert (0 <= d * u) by (apply Rmult_le_pos; lra). clear - XN XE XD PDU H Pu. split; [|split]; lra.
Qed.

(** ** the model *)
(** delta_N(e_a, e_b) of two ECEFvectors: FrameN goes back from the vector to an n-vector first (objects.py 89-103, 788-802, 1364-1380) *)
Definition fdelta_N_ecef mdot pow (eA eB : vec64) (a f : float64) : vec64 :=
  fchange_frame mdot (fn_E2R_EN (fst (fp_EB_E2n_EB_E pow eA a f))) (fsubv eB eA).
(** objects.py 398-400: the length of the two position vectors, averaged *)
Definition fmean_radius (eA eB : vec64) : float64 := fmul fhalf (fadd (flength eA) (flength eB)).
(** GeoPoint._distance_and_azimuth_greatcircle with degrees=False, objects.py 395-410, for scalar positions built from degrees:
    [dot] is the sum in great_circle_distance, [mdot] the one in change_frame *)
Definition fcourse dot mdot fsin fcos pow arctan2 (latA lonA zA latB lonB zB a f : float64) : float64 * float64 * float64 :=
  let nA := flat_lon2n_E fsin fcos (frad latA) (frad lonA) in
  let nB := flat_lon2n_E fsin fcos (frad latB) (frad lonB) in
  let eA := fgeo_point_to_ecef fsin fcos latA lonA zA a f in
  let eB := fgeo_point_to_ecef fsin fcos latB lonB zB a f in
  let distance := fgreat_circle_distance dot arctan2 nA nB (fmean_radius eA eB) in
  let azimuth_a := fazimuth arctan2 (fdelta_N_ecef mdot pow eA eB a f) in
  let azimuth_b := fbase_angle (fsub (fazimuth arctan2 (fdelta_N_ecef mdot pow eB eA a f)) pi64) in
  (distance, azimuth_a, azimuth_b).

Lemma atan2_upper arctan2 : good_atan2 arctan2 -> good_arctan2 arctan2.
Proof.
  intros GA s c t r Fs Fc S Bt Pr Es Ec. destruct (GA s c t r Fs Fc ltac:(lra) Pr ltac:(intros; lra) ltac:(rewrite S; discriminate) Es Ec) as (F & E). split; auto.
  rewrite (Rabs_right t) in E by lra. exact E.
Qed.

(** ** the vector to the other position, in the axes found from the Earth-centred vector *)
Definition seen_err (c L : R) : R := 66 / 1000000000 + (2 + 3 / c) / 100000000000000 * L.
Lemma delta_ecef_err mdot fsin fcos pow latA lonA zA latB lonB zB pA pB c :
  good_mdot mdot -> good_trig fsin sin -> good_trig fcos cos -> good_pow pow -> valid latA lonA zA -> valid latB lonB zB -> Rabs (B2R zA) <= 1000000 -> Rabs (B2R zB) <= 1000000 ->
  position 6378137 (B2R wgs84_f) (B2R latA) (B2R lonA) (B2R zA) pA -> position 6378137 (B2R wgs84_f) (B2R latB) (B2R lonB) (B2R zB) pB ->
  / 5000 <= c <= cos (B2R latA * (PI / 180)) ->
  let p' := fdelta_N_ecef mdot pow (fgeo_point_to_ecef fsin fcos latA lonA zA wgs84_a wgs84_f) (fgeo_point_to_ecef fsin fcos latB lonB zB wgs84_a wgs84_f) wgs84_a wgs84_f in
  finite_vec p' /\ vnorm (vsub (vec_of p') (mulv (ned (B2R latA) (B2R lonA)) (vsub pB pA))) <= seen_err c (vnorm (vsub pB pA)).
Proof.
  intros GD GS GC GP VA VB BA BB HA HB (Hc & Hc') p'. pose proof VA as (Fa & Fo & Ba & Bo & Fz & _). pose proof u_pos as Pu.
  pose proof (C90_round_trip_nvector fsin fcos pow latA lonA zA GS GC GP Fa Fo Ba Bo Fz BA) as RT. unfold p', fdelta_N_ecef. clear p'.
  destruct (fp_EB_E2n_EB_E pow (fgeo_point_to_ecef fsin fcos latA lonA zA wgs84_a wgs84_f) wgs84_a wgs84_f) as [n depth] eqn:EN. destruct RT as (NU & AN & _). cbn [fst].
  assert (CK : cols_ok (92 + 136 / c) (fn_E2R_EN n) (mT (ned (B2R latA) (B2R lonA)))).
  { replace (92 + 136 / c) with (24 + 68 + 2 * 68 / c) by (field; lra). unfold ned. cbv zeta. apply axes_near; auto; try lra; rewrite u_val; try lra. }
  assert (IC : 0 <= / c <= 5000). { split; [left; apply Rinv_0_lt_compat; lra|]. replace 5000 with (/ / 5000) by field. apply Rinv_le; lra. }
  pose proof wgs84_f_val as (_ & Vf). rewrite <- wgs84_a_val in HA, HB.
  destruct (delta_any mdot fsin fcos latA lonA zA latB lonB zB wgs84_a wgs84_f pA pB (fn_E2R_EN n) (mT (ned (B2R latA) (B2R lonA))) (92 + 136 / c) GD GS GC VA VB wgs84_usual HA HB (ned_orthogonal _ _) ltac:(unfold Rdiv; lra) CK) as (FP & EP).
  rewrite mT_mT in EP. split; [exact FP|]. eapply Rle_trans; [exact EP|]. clear EP FP CK. unfold seen_err.
  pose proof (vnorm_pos (vsub pB pA)) as PL. set (L := vnorm (vsub pB pA)) in *. unfold pos_err. rewrite wgs84_a_val, Vf. pose proof tiny_eta as Te. pose proof eta_pos as Pe. assert (ET : eta <= u * / 1000000) by lra.
  unfold Rdiv at 6 7. rewrite u_val in *. set (i := / c) in *. assert (PI' : 0 <= i * L) by (apply Rmult_le_pos; lra). unfold Rdiv in *. fold i. clearbody i L. clear - PI' PL BA BB ET Pe IC. lra.
Qed.

Lemma azimuth_range arctan2 p' q e : good_atan2 arctan2 -> finite_vec p' -> vnorm (vsub (vec_of p') q) <= e -> e < sqrt (Spec.vx q ^ 2 + Spec.vy q ^ 2) ->
  Rabs (B2R (fazimuth arctan2 p')) <= PI + 7 * u.
Proof.
  destruct p' as [[n e'] d]. intros GA (Fn & Fe & Fd) D HB. set (h := sqrt (Spec.vx q ^ 2 + Spec.vy q ^ 2)) in *. unfold fazimuth.
  assert (Eh : h * h = Spec.vx q ^ 2 + Spec.vy q ^ 2) by (apply sqrt_sqrt; nra). assert (Pe : 0 <= e) by (pose proof (vnorm_pos (vsub (vec_of (n, e', d)) q)); lra).
  assert (PZ : 0 < B2R e' * B2R e' + B2R n * B2R n).
  { apply Rnot_le_lt. intros Z. assert (E1 : B2R e' = 0) by nra. assert (E2 : B2R n = 0) by nra.
    pose proof (vnorm_sq (vsub (vec_of (n, e', d)) q)) as S. pose proof (vnorm_pos (vsub (vec_of (n, e', d)) q)) as P. unfold vdot, vsub, vec_of in S; cbn [Spec.vx Spec.vy Spec.vz] in S. rewrite E1, E2 in S.
    unfold vec_of, vsub in P, D; cbn [Spec.vx Spec.vy Spec.vz] in P, D. rewrite E1, E2 in P, D. set (v := vnorm _) in *. assert (v * v <= e * e) by (apply Rmult_le_compat; lra). set (w := B2R d - Spec.vz q) in *.
    assert (h * h <= e * e). { rewrite Eh. pose proof (Rle_0_sqr w) as W. unfold Rsqr in W. lra. } assert (e * e < h * h) by (apply Rmult_le_0_lt_compat; lra). lra. }
  destruct (bsign_val e' Fe) as (S0 & S1). destruct (polar_signed (Bsign e') (B2R e') (B2R n) S0 S1 PZ) as (r & t' & Pr & Bt & T0 & T1 & Ew & En & Er).
  destruct (GA e' n t' r Fe Fn Bt Pr T0 T1 Ew En) as (FA & DA). pose proof u_pos as Pu. pose proof tiny_eta as Te. pose proof eta_pos as Pe'. pose proof PI_33 as P3.
  assert (AT : Rabs t' <= PI) by (apply Rabs_le; lra). assert (u * Rabs t' <= u * (33 / 10)) by (apply Rmult_le_compat_l; lra).
  replace (B2R (arctan2 e' n)) with (t' + (B2R (arctan2 e' n) - t')) by ring. eapply Rle_trans; [apply Rabs_triang|]. lra.
Qed.

Lemma azimuth_opposite q t : azimuth_of q t -> azimuth_of (vneg q) (t - PI).
Proof.
  unfold azimuth_of, vneg; cbn [Spec.vx Spec.vy Spec.vz]. intros (A & B). replace ((- Spec.vx q) ^ 2 + (- Spec.vy q) ^ 2) with (Spec.vx q ^ 2 + Spec.vy q ^ 2) by ring.
  rewrite cos_minus, sin_minus, cos_PI, sin_PI. set (h := sqrt _) in *. split; [rewrite A at 1|rewrite B at 1]; ring.
Qed.
Lemma azimuth_turn q t k : azimuth_of q t -> azimuth_of q (t - 2 * PI * IZR k).
Proof.
  unfold azimuth_of. intros (A & B). cbv zeta in *.
  replace (t - 2 * PI * IZR k) with (t + 2 * IZR (- k) * PI) by (rewrite opp_IZR; ring). rewrite sin_turn, cos_turn. auto.
Qed.

(** ** on WGS-84 within a thousand kilometres of the surface and more than 1.3 km from the poles *)
(** the starting direction: the direction, seen from A, of the straight line to B *)
Theorem C105_azimuth_a : forall dot mdot fsin fcos pow arctan2 latA lonA zA latB lonB zB pA pB c,
  good_mdot mdot -> good_trig fsin sin -> good_trig fcos cos -> good_pow pow -> good_atan2 arctan2 -> valid latA lonA zA -> valid latB lonB zB -> Rabs (B2R zA) <= 1000000 -> Rabs (B2R zB) <= 1000000 ->
  position 6378137 (B2R wgs84_f) (B2R latA) (B2R lonA) (B2R zA) pA -> position 6378137 (B2R wgs84_f) (B2R latB) (B2R lonB) (B2R zB) pB ->
  / 5000 <= c <= cos (B2R latA * (PI / 180)) ->
  let q := mulv (ned (B2R latA) (B2R lonA)) (vsub pB pA) in let h := sqrt (Spec.vx q ^ 2 + Spec.vy q ^ 2) in let e := seen_err c (vnorm (vsub pB pA)) in e < h ->
  let '(_, azimuth_a, _) := fcourse dot mdot fsin fcos pow arctan2 latA lonA zA latB lonB zB wgs84_a wgs84_f in
  is_finite azimuth_a = true /\ exists t, azimuth_of q t /\ Rabs (B2R azimuth_a - t) <= e / (h - e) + 7 / 10000000000000000.
Proof.
  intros dot mdot fsin fcos pow arctan2 latA lonA zA latB lonB zB pA pB c GD GS GC GP GA VA VB BA BB HA HB Hc q h e Hh. unfold fcourse. cbv zeta.
  destruct (delta_ecef_err mdot fsin fcos pow latA lonA zA latB lonB zB pA pB c GD GS GC GP VA VB BA BB HA HB Hc) as (FP & EP). fold q e in EP.
  destruct (azimuth_err arctan2 _ q e GA FP EP Hh) as (F & t & T & D). split; [exact F|]. exists t. split; [exact T|]. fold h in D. eapply Rle_trans; [exact D|]. rewrite u_val. lra.
Qed.
Print Assumptions C105_azimuth_a.

(** the arriving direction: the direction, seen from B, of the straight line from A, prolonged *)
Theorem C105_azimuth_b : forall dot mdot fsin fcos pow arctan2 latA lonA zA latB lonB zB pA pB c,
  good_mdot mdot -> good_trig fsin sin -> good_trig fcos cos -> good_pow pow -> good_atan2 arctan2 -> valid latA lonA zA -> valid latB lonB zB -> Rabs (B2R zA) <= 1000000 -> Rabs (B2R zB) <= 1000000 ->
  position 6378137 (B2R wgs84_f) (B2R latA) (B2R lonA) (B2R zA) pA -> position 6378137 (B2R wgs84_f) (B2R latB) (B2R lonB) (B2R zB) pB ->
  / 5000 <= c <= cos (B2R latB * (PI / 180)) ->
  let q := mulv (ned (B2R latB) (B2R lonB)) (vsub pB pA) in let h := sqrt (Spec.vx q ^ 2 + Spec.vy q ^ 2) in let e := seen_err c (vnorm (vsub pB pA)) in e < h ->
  let '(_, _, azimuth_b) := fcourse dot mdot fsin fcos pow arctan2 latA lonA zA latB lonB zB wgs84_a wgs84_f in
  is_finite azimuth_b = true /\ Rabs (B2R azimuth_b) <= B2R pi64 /\ exists t, azimuth_of q t /\ Rabs (B2R azimuth_b - t) <= e / (h - e) + 5 / 1000000000000000.
Proof.
  intros dot mdot fsin fcos pow arctan2 latA lonA zA latB lonB zB pA pB c GD GS GC GP GA VA VB BA BB HA HB Hc q h e Hh. unfold fcourse. cbv zeta.
  destruct (delta_ecef_err mdot fsin fcos pow latB lonB zB latA lonA zA pB pA c GD GS GC GP VB VA BB BA HB HA Hc) as (FP & EP).
  assert (NB : vsub pA pB = vneg (vsub pB pA)) by vring. assert (MN : forall M v, mulv M (vneg v) = vneg (mulv M v)) by (intros [[? ? ?] [? ? ?] [? ? ?]] [? ? ?]; unfold mulv, vneg, vdot; cbn [r0 r1 r2 Spec.vx Spec.vy Spec.vz]; f_equal; ring).
  rewrite NB, MN, vnorm_neg in EP. fold q e in EP. set (p' := fdelta_N_ecef _ _ _ _ _ _) in *.
  assert (EH : sqrt (Spec.vx (vneg q) ^ 2 + Spec.vy (vneg q) ^ 2) = h) by (unfold h, vneg; cbn [Spec.vx Spec.vy Spec.vz]; f_equal; ring).
  assert (Hh' : e < sqrt (Spec.vx (vneg q) ^ 2 + Spec.vy (vneg q) ^ 2)) by (rewrite EH; exact Hh).
  destruct (azimuth_err arctan2 p' (vneg q) e GA FP EP Hh') as (F & t & T & D). rewrite EH in D. pose proof (azimuth_range arctan2 p' (vneg q) e GA FP EP Hh') as RG. clear EP Hh'.
  set (az := fazimuth arctan2 p') in *. clearbody az. clear p' FP. pose proof u_pos as Pu. pose proof pi_bounds as PB. pose proof PI_33 as P3. pose proof PI_RGT_0 as P0.
  assert (P64 : 0 <= B2R pi64) by (rewrite pi64_val; lra). assert (Big : 16 <= bpow radix2 1000). { apply Rle_trans with (bpow radix2 4); [cbn; lra|apply bpow_le; lia]. } assert (Big' : bpow radix2 1000 <= bpow radix2 1023) by (apply bpow_le; lia).
  assert (U7 : 7 * u <= / 1000) by (rewrite u_val; lra). apply Rabs_le_inv in RG.
  assert (AB : Rabs (B2R az - B2R pi64) <= 67 / 10) by (apply Rabs_le; lra).
  destruct (fsub_val az pi64 F eq_refl ltac:(lra)) as (Fx & Ex). destruct (rnd_err (B2R az - B2R pi64)) as (e1 & h1 & B1 & B2 & E1). rewrite E1 in Ex.
  set (x := fsub az pi64) in *. clearbody x. set (y := B2R az - B2R pi64) in *.
  assert (AE : Rabs (y * e1) <= 67 / 10 * u) by (rewrite Rabs_mult; apply Rmult_le_compat; auto using Rabs_pos).
  pose proof tiny_eta as Te. pose proof eta_pos as Pe. assert (DX : Rabs (B2R x - y) <= 68 / 10 * u). { rewrite Ex. replace (y * (1 + e1) + h1 - y) with (y * e1 + h1) by ring. eapply Rle_trans; [apply Rabs_triang|]. lra. }
  assert (AX : Rabs (B2R x) <= 68 / 10). { replace (B2R x) with (y + (B2R x - y)) by ring. eapply Rle_trans; [apply Rabs_triang|]. lra. }
  destruct (C80_base_angle x ltac:(split; [exact Fx|lra])) as (FB & RB & k & DB). split; [exact FB|]. split; [exact RB|].
  exists (t - PI - 2 * PI * IZR k). split. { replace q with (vneg (vneg q)) by (generalize q; intros; vring). apply azimuth_turn, azimuth_opposite, T. }
  assert (UX : 14 / 10 * Rabs (B2R x) * u <= 14 / 10 * (68 / 10) * u) by (apply Rmult_le_compat_r; lra).
  replace (B2R (fbase_angle x) - (t - PI - 2 * PI * IZR k)) with ((B2R (fbase_angle x) - (B2R x - 2 * PI * IZR k)) + ((B2R x - y) + ((B2R az - t) + (PI - B2R pi64)))) by (unfold y; ring).
  eapply Rle_trans; [apply Rabs_triang|]. eapply Rle_trans; [apply Rplus_le_compat_l, Rabs_triang|]. eapply Rle_trans; [apply Rplus_le_compat_l, Rplus_le_compat_l, Rabs_triang|].
  rewrite (Rabs_right (PI - B2R pi64)) by lra. set (b := e / (h - e)) in *. set (A1 := Rabs (B2R (fbase_angle x) - (B2R x - 2 * PI * IZR k))) in *. set (A2 := Rabs (B2R x - y)) in *. set (A3 := Rabs (B2R az - t)) in *.
  assert (PB' : PI - B2R pi64 <= 13 / 100000000000000000) by lra. clear - DB DX D PB' UX. rewrite u_val in *. lra.
Qed.
Print Assumptions C105_azimuth_b.

(** ** the distance: central angle between the two normals times the mean distance from the Earth's centre, within 0.2 micrometres *)
Lemma length_of_position fsin fcos lat lon z p : good_trig fsin sin -> good_trig fcos cos -> valid lat lon z -> Rabs (B2R z) <= 1000000 -> position 6378137 (B2R wgs84_f) (B2R lat) (B2R lon) (B2R z) p ->
  let L := flength (fgeo_point_to_ecef fsin fcos lat lon z wgs84_a wgs84_f) in
  is_finite L = true /\ 0 <= vnorm p <= 7378137 /\ Rabs (B2R L - vnorm p) <= 36 / 1000000000.
Proof.
  intros GS GC (Fa & Fo & Ba & Bo & Fz & Bz) BZ HP L. pose proof wgs84_f_val as (_ & Vf). pose proof (position_norm 6378137 (B2R wgs84_f) (B2R lat) (B2R lon) (B2R z) p ltac:(lra) ltac:(lra) HP) as NP. pose proof (vnorm_pos p) as PP.
  destruct HP as (s & S & ->). destruct (C89_from_degrees fsin fcos lat lon z wgs84_a wgs84_f GS GC Fa Fo Ba Bo Fz Bz wgs84_usual) as (FV & s' & S' & E). rewrite wgs84_a_val in *.
  rewrite (surface_point_unique 6378137 (B2R wgs84_f) (B2R lat) (B2R lon) s' s ltac:(lra) ltac:(lra) S' S) in E. set (p := vsub s _) in *. set (p' := fgeo_point_to_ecef fsin fcos lat lon z wgs84_a wgs84_f) in *.
  assert (E' : vnorm (vsub (vec_of p') p) <= 329 / 10000000000). { eapply Rle_trans; [exact E|]. rewrite Vf, u_val. lra. }
  assert (NV : vnorm (vec_of p') <= 8000000). { rewrite (via p (vec_of p')). eapply Rle_trans; [apply norm_triangle|]. lra. }
  assert (B4 : 8000000 <= bpow radix2 400). { apply Rle_trans with (bpow radix2 23); [cbn; lra|apply bpow_le; lia]. }
  destruct (length_err p' p _ FV ltac:(lra) E') as (FL & EL). fold L in FL, EL. split; auto. split; [lra|]. eapply Rle_trans; [exact EL|]. assert (BT : bpow radix2 (-399) <= bpow radix2 (-100)) by (apply bpow_le; lia).
  assert (BT' : bpow radix2 (-100) <= / 1000000000000). { change (bpow radix2 (-100)) with (/ 1267650600228229401496703205376). lra. }
  rewrite u_val. lra.
Qed.

Lemma mean_err lA lB PA PB : is_finite lA = true -> is_finite lB = true -> 0 <= PA <= 7378137 -> 0 <= PB <= 7378137 -> Rabs (B2R lA - PA) <= 36 / 1000000000 -> Rabs (B2R lB - PB) <= 36 / 1000000000 ->
  let r := fmul fhalf (fadd lA lB) in is_finite r = true /\ Rabs (B2R r - (PA + PB) / 2) <= 38 / 1000000000.
Proof.
  intros FA FB RA RB DA DB r. apply Rabs_le_inv in DA. apply Rabs_le_inv in DB.
  assert (Big : 32000000 <= bpow radix2 1000). { apply Rle_trans with (bpow radix2 25); [cbn; lra|apply bpow_le; lia]. } assert (Big' : bpow radix2 1000 <= bpow radix2 1023) by (apply bpow_le; lia).
  pose proof u_pos as Pu. pose proof tiny_eta as Te. pose proof eta_pos as Pe. assert (Us : u <= / 1000000000000000) by (rewrite u_val; lra).
  destruct (fadd_val lA lB FA FB) as (Fs & Es). { apply Rabs_le; lra. } destruct (rnd_err (B2R lA + B2R lB)) as (e1 & h1 & B1 & B2 & E1). rewrite E1 in Es. clear E1. apply Rabs_le_inv in B2.
  assert (AE : Rabs ((B2R lA + B2R lB) * e1) <= 14756275 * u) by (rewrite Rabs_mult; apply Rmult_le_compat; auto using Rabs_pos; apply Rabs_le; lra). apply Rabs_le_inv in AE.
  unfold r in *. clear r. set (s := fadd lA lB) in *. clearbody s. assert (Es' : B2R s = B2R lA + B2R lB + (B2R lA + B2R lB) * e1 + h1) by (rewrite Es; ring). clear Es.
  destruct (fmul_val fhalf s eq_refl Fs) as (Fr & Er). { rewrite fhalf_val. apply Rabs_le. lra. } destruct (rnd_err (B2R fhalf * B2R s)) as (e2 & h2 & B3 & B4 & E2). rewrite E2 in Er. clear E2. rewrite fhalf_val in Er. apply Rabs_le_inv in B4.
  set (r := fmul fhalf s) in *. clearbody r. split; [exact Fr|].
  assert (AE2 : Rabs (/ 2 * B2R s * e2) <= 7378138 * u) by (rewrite Rabs_mult; apply Rmult_le_compat; auto using Rabs_pos; apply Rabs_le; lra). apply Rabs_le_inv in AE2.
  assert (Er' : B2R r = / 2 * B2R s + / 2 * B2R s * e2 + h2) by (rewrite Er; ring). clear Er.
  rewrite u_val in *. apply Rabs_le. lra.
Qed.
Lemma course_distance dot fsin fcos arctan2 latA lonA zA latB lonB zB r m : good_trig fsin sin -> good_trig fcos cos -> good_atan2 arctan2 -> good_dot dot -> valid latA lonA zA -> valid latB lonB zB ->
  is_finite r = true -> 0 <= m <= 7378137 -> Rabs (B2R r - m) <= 38 / 1000000000 ->
  Rabs (B2R (fdistance_deg fsin fcos dot arctan2 latA lonA latB lonB r) - central_angle_deg (B2R latA) (B2R lonA) (B2R latB) (B2R lonB) * m) <= 2 / 10000000.
Proof.
  intros GS GC GA GD VA VB Fr Hm DR. assert (BR : Rabs (B2R r) <= 7378138). { apply Rabs_le_inv in DR. apply Rabs_le. lra. }
  assert (Big : 32000000 <= bpow radix2 1000). { apply Rle_trans with (bpow radix2 25); [cbn; lra|apply bpow_le; lia]. } pose proof u_pos as Pu. pose proof tiny_eta as Te. pose proof eta_pos as Pe.
  pose proof VA as (Fa & Fo & Ba & Bo & _). pose proof VB as (Fa' & Fo' & Ba' & Bo' & _).
  pose proof (C81_distance_from_degrees fsin fcos dot arctan2 latA lonA latB lonB r GS GC (atan2_upper _ GA) GD Fa Fo Ba Bo Fa' Fo' Ba' Bo' Fr ltac:(lra)) as D. set (d := fdistance_deg _ _ _ _ _ _ _ _ _) in *. clearbody d.
  assert (CB : 0 <= central_angle_deg (B2R latA) (B2R lonA) (B2R latB) (B2R lonB) <= PI) by (unfold central_angle_deg; apply angle_range).
  set (g := central_angle_deg _ _ _ _) in *. clearbody g. pose proof pi_bounds as PB. rewrite pi64_val in PB.
  replace (B2R d - g * m) with ((B2R d - g * B2R r) + g * (B2R r - m)) by ring. eapply Rle_trans; [apply Rabs_triang|]. rewrite (Rabs_mult g), (Rabs_right g) by lra.
  assert (g * Rabs (B2R r - m) <= 3142 / 1000 * (38 / 1000000000)) by (apply Rmult_le_compat; auto using Rabs_pos; lra). assert (u * Rabs (B2R r) <= u * 7378138) by (apply Rmult_le_compat_l; lra).
  rewrite u_val in *. lra.
Qed.
Theorem C105_distance : forall dot mdot fsin fcos pow arctan2 latA lonA zA latB lonB zB pA pB,
  good_trig fsin sin -> good_trig fcos cos -> good_atan2 arctan2 -> good_dot dot -> valid latA lonA zA -> valid latB lonB zB -> Rabs (B2R zA) <= 1000000 -> Rabs (B2R zB) <= 1000000 ->
  position 6378137 (B2R wgs84_f) (B2R latA) (B2R lonA) (B2R zA) pA -> position 6378137 (B2R wgs84_f) (B2R latB) (B2R lonB) (B2R zB) pB ->
  let '(distance, _, _) := fcourse dot mdot fsin fcos pow arctan2 latA lonA zA latB lonB zB wgs84_a wgs84_f in
  Rabs (B2R distance - central_angle_deg (B2R latA) (B2R lonA) (B2R latB) (B2R lonB) * ((vnorm pA + vnorm pB) / 2)) <= 2 / 10000000.
Proof.
  intros dot mdot fsin fcos pow arctan2 latA lonA zA latB lonB zB pA pB GS GC GA GD VA VB BA BB HA HB. unfold fcourse. cbv zeta.
  destruct (length_of_position fsin fcos latA lonA zA pA GS GC VA BA HA) as (FA & RA & DA). destruct (length_of_position fsin fcos latB lonB zB pB GS GC VB BB HB) as (FB & RB & DB).
  destruct (mean_err _ _ _ _ FA FB RA RB DA DB) as (Fr & DR).
  apply (course_distance dot fsin fcos arctan2 latA lonA zA latB lonB zB _ ((vnorm pA + vnorm pB) / 2) GS GC GA GD VA VB Fr ltac:(lra) DR).
Qed.
Print Assumptions C105_distance.

(** a concrete case: from (0 N, 0 E) to (0 N, 90 E) on the surface *)
Example C105_example : good_mdot dot_seq /\ good_dot dot_seq /\ good_trig (fun x => round64 (sin (B2R x))) sin /\ good_trig (fun x => round64 (cos (B2R x))) cos /\ good_pow ideal_pow /\ good_atan2 ideal_atan2 /\
  valid fzero fzero fzero /\ valid fzero f90 fzero /\ Rabs (B2R fzero) <= 1000000 /\
  let pA := V 6378137 0 0 in let pB := V 0 6378137 0 in
  position 6378137 (B2R wgs84_f) (B2R fzero) (B2R fzero) (B2R fzero) pA /\ position 6378137 (B2R wgs84_f) (B2R fzero) (B2R f90) (B2R fzero) pB /\
  / 5000 <= 1 <= cos (B2R fzero * (PI / 180)) /\
  let q := mulv (ned (B2R fzero) (B2R fzero)) (vsub pB pA) in seen_err 1 (vnorm (vsub pB pA)) < sqrt (Spec.vx q ^ 2 + Spec.vy q ^ 2) /\ azimuth_of q (PI / 2).
Proof.
  assert (B3 : 0 <= bpow radix2 300) by apply bpow_ge_0. assert (V0 : B2R fzero = 0) by reflexivity.
  split; [apply dot_seq_mdot|]. split; [apply good_dot_seq|]. split; [apply good_sin|]. split; [apply good_cos|]. split; [apply ideal_pow_good|]. split; [apply correct_good, ideal_atan2_correct|].
  split; [unfold valid; rewrite V0, Rabs_R0; repeat split; auto; lra|]. split; [unfold valid; replace (B2R f90) with 90 by (unfold f90, f, B2R, F2R; cbn; lra); rewrite V0, Rabs_R0, Rabs_right by lra; repeat split; auto; lra|]. split; [rewrite V0, Rabs_R0; lra|]. cbv zeta.
  assert (Z : 0 * (PI / 180) = 0) by ring. assert (N : 90 * (PI / 180) = PI / 2) by field.
  pose proof wgs84_f_val as (_ & Vf). assert (V90 : B2R f90 = 90) by (unfold f90, f, B2R, F2R; cbn; lra).
  split. { exists (V 6378137 0 0). rewrite V0. unfold surface_point, latlon_vec. rewrite Z, sin_0, cos_0. split; [split|].
    - unfold on_ellipsoid, equatorial, Spec.polar, vdot, vsub, vscale; cbn [Spec.vx Spec.vy Spec.vz]. field. rewrite Vf. lra.
    - exists (/ 6378137). split; [lra|]. unfold ellipsoid_gradient, equatorial, Spec.polar, vdot, vsub, vscale, vadd; cbn [Spec.vx Spec.vy Spec.vz]. apply vec_eq; cbn [Spec.vx Spec.vy Spec.vz]; field; rewrite Vf; lra.
    - unfold vsub, vscale; cbn [Spec.vx Spec.vy Spec.vz]. apply vec_eq; cbn [Spec.vx Spec.vy Spec.vz]; ring. }
  split. { exists (V 0 6378137 0). rewrite V0, V90. unfold surface_point, latlon_vec. rewrite Z, N, sin_0, cos_0, sin_PI2, cos_PI2. split; [split|].
    - unfold on_ellipsoid, equatorial, Spec.polar, vdot, vsub, vscale; cbn [Spec.vx Spec.vy Spec.vz]. field. rewrite Vf. lra.
    - exists (/ 6378137). split; [lra|]. unfold ellipsoid_gradient, equatorial, Spec.polar, vdot, vsub, vscale, vadd; cbn [Spec.vx Spec.vy Spec.vz]. apply vec_eq; cbn [Spec.vx Spec.vy Spec.vz]; field; rewrite Vf; lra.
    - unfold vsub, vscale; cbn [Spec.vx Spec.vy Spec.vz]. apply vec_eq; cbn [Spec.vx Spec.vy Spec.vz]; ring. }
  rewrite V0. unfold ned. cbv zeta. rewrite Z, cos_0. split; [lra|].
  assert (Q : mulv (Mt (north_dir 0 0) (east_dir 0) (down_dir 0 0)) (vsub (V 0 6378137 0) (V 6378137 0 0)) = V 0 6378137 6378137).
  { unfold north_dir, east_dir, down_dir. rewrite sin_0, cos_0. unfold mulv, vsub, vdot; cbn [r0 r1 r2 Spec.vx Spec.vy Spec.vz]. apply vec_eq; cbn [Spec.vx Spec.vy Spec.vz]; ring. }
  rewrite Q. cbn [Spec.vx Spec.vy Spec.vz]. assert (S : sqrt (0 ^ 2 + 6378137 ^ 2) = 6378137) by (replace (0 ^ 2 + 6378137 ^ 2) with (6378137 * 6378137) by ring; apply sqrt_square; lra).
  split.
  - rewrite S. unfold seen_err. assert (NB : vnorm (vsub (V 0 6378137 0) (V 6378137 0 0)) <= 2 * 6378137).
    { rewrite sub_neg. eapply Rle_trans; [apply norm_triangle|]. rewrite vnorm_neg. assert (A1 : vnorm (V 0 6378137 0) = 6378137) by (apply vnorm_eq; [lra|unfold vdot; cbn [Spec.vx Spec.vy Spec.vz]; ring]). assert (A2 : vnorm (V 6378137 0 0) = 6378137) by (apply vnorm_eq; [lra|unfold vdot; cbn [Spec.vx Spec.vy Spec.vz]; ring]). lra. }
    lra.
  - unfold azimuth_of; cbn [Spec.vx Spec.vy Spec.vz]. rewrite S, cos_PI2, sin_PI2. split; ring.
Qed.
