(** * C117: n_EA_E_and_n_EB_E2azimuth in binary64 (core.py 734-776), and the azimuth of the direct problem (core.py 779-819) *)
From Coq Require Import ZArith Reals Lra Lia Bool Psatz Nsatz.
From Flocq Require Import Core BinarySingleNaN Relative.
From Verif Require Import Spec LVec LAngle LRot FTiny FZero FBase FRel FRel2 FUnit FPi FAngle FMod FDist FGreat FLatLon FInv FInv2 FTrack FEcef FEcef2 FNed FNed2 FNed3 FDelta FDelta2 FDelta3 FWay FWay2 FWay3 FWay4 FGeodB FGeod FGeod2 FGeod3 FGeod4 FGeod5 FGeod6 FBody3 PPath3 FInv3.
Local Open Scope R_scope.

(** ** the model *)
(** n_EA_E_and_n_EB_E2azimuth with the default axes, one position each, core.py 756-776: [dot] is the sum of three products inside mdot *)
Definition fn_azimuth (dot : vec64 -> vec64 -> float64) (arctan2 : float64 -> float64 -> float64) (nA nB : vec64) (a f : float64) : float64 :=
  fazimuth arctan2 (fdelta_N dot nA nB fzero fzero a f).
(** the same from positions in degrees, through rad and lat_lon2n_E (util.py 292-321, core.py 45-73) *)
Definition fazimuth_deg_rad dot fsin fcos arctan2 (latA lonA latB lonB a f : float64) : float64 :=
  fn_azimuth dot arctan2 (flat_lon2n_E fsin fcos (frad latA) (frad lonA)) (flat_lon2n_E fsin fcos (frad latB) (frad lonB)) a f.

(** ** any ellipsoid: the azimuth of B seen from A, both on the surface *)
Theorem C117_azimuth : forall dot fsin fcos arctan2 latA lonA latB lonB a f pA pB,
  good_mdot dot -> good_trig fsin sin -> good_trig fcos cos -> good_atan2 arctan2 -> valid_at latA lonA -> valid_at latB lonB -> usual_ellipsoid a f ->
  surface_point (B2R a) (B2R f) (B2R latA) (B2R lonA) pA -> surface_point (B2R a) (B2R f) (B2R latB) (B2R lonB) pB ->
  let q := mulv (ned (B2R latA) (B2R lonA)) (vsub pB pA) in let h := sqrt (Spec.vx q ^ 2 + Spec.vy q ^ 2) in
  let e := u * (51 * B2R a + 35 * (B2R a / (1 - B2R f)) + 93 * vnorm (vsub pB pA)) in e < h ->
  let az := fazimuth_deg_rad dot fsin fcos arctan2 latA lonA latB lonB a f in
  is_finite az = true /\ exists t, azimuth_of q t /\ Rabs (B2R az - t) <= e / (h - e) + 63 / 10 * u.
Proof.
  intros dot fsin fcos arctan2 latA lonA latB lonB a f pA pB GD GS GC GA (FaA & FoA & BaA & BoA) (FaB & FoB & BaB & BoB) HE SA SB q h e Hh az.
  pose proof u_pos as Pu. pose proof HE as (_ & _ & BA & Bf). pose proof (bpow_gt_0 radix2 (-100)) as P1. assert (Z0 : B2R fzero = 0) by reflexivity.
  assert (Z : forall lat lon s, surface_point (B2R a) (B2R f) lat lon s -> position (B2R a) (B2R f) lat lon (B2R fzero) s).
  { intros lat lon s S. exists s. split; auto. rewrite Z0. generalize (latlon_vec (lat * (PI / 180)) (lon * (PI / 180))). intros. clear. vring. }
  assert (BZ : Rabs (B2R fzero) <= bpow radix2 300) by (rewrite Z0, Rabs_R0; apply bpow_ge_0).
  pose proof (C92_from_degrees dot fsin fcos latA lonA fzero latB lonB fzero a f pA pB GD GS GC (conj FaA (conj FoA (conj BaA (conj BoA (conj eq_refl BZ))))) (conj FaB (conj FoB (conj BaB (conj BoB (conj eq_refl BZ))))) HE (Z _ _ _ SA) (Z _ _ _ SB)) as C.
  cbv zeta in C. destruct C as (F & ER). fold q in ER.
  assert (LE : vnorm (vsub (vec_of (fdelta_to_deg dot fsin fcos latA lonA fzero latB lonB fzero a f)) q) <= e).
  { eapply Rle_trans; [exact ER|]. unfold e, pos_err. rewrite Z0, Rabs_R0. pose proof (vnorm_pos (vsub pB pA)) as PP.
    assert (IA : 0 <= B2R a / (1 - B2R f)) by (apply Rmult_le_pos; [lra|apply Rlt_le, Rinv_0_lt_compat; lra]).
    assert (ET : 24 * eta <= u * (/ 2 * B2R a)).
    { apply Rle_trans with (u * (/ 2 * bpow radix2 (-100))); [|apply Rmult_le_compat_l; lra]. unfold eta, u. apply Rle_trans with (bpow radix2 5 * bpow radix2 (-1075)); [apply Rmult_le_compat_r; [apply bpow_ge_0|cbn; lra]|].
      change (/ 2) with (bpow radix2 (-1)). rewrite <- !bpow_plus. apply bpow_le; lia. }
    set (y := B2R a / (1 - B2R f)) in *. set (x := B2R a) in *. set (z := vnorm (vsub pB pA)) in *. assert (0 <= u * x) by (apply Rmult_le_pos; lra). assert (0 <= u * y) by (apply Rmult_le_pos; lra). assert (0 <= u * z) by (apply Rmult_le_pos; lra). clear - H H0 H1 ET. lra. }
  exact (azimuth_err arctan2 _ q e GA F LE Hh).
Qed.
Print Assumptions C117_azimuth.

(** ** on a sphere (f = 0) it is the initial bearing of the great circle *)
Lemma sphere_point a n s : 0 < a -> n <> v0 -> on_ellipsoid a 0 (V 0 0 1) s -> same_direction (ellipsoid_gradient a 0 (V 0 0 1) s) n -> s = vscale a (direction n).
Proof.
  intros Ha Hn O (c & Pc & G). assert (GE : ellipsoid_gradient a 0 (V 0 0 1) s = vscale (/ a ^ 2) s).
  { unfold ellipsoid_gradient, equatorial, Spec.polar. destruct s as [x y z]. unfold vadd, vsub, vscale, vdot; cbn [Spec.vx Spec.vy Spec.vz]. apply vec_eq; cbn [Spec.vx Spec.vy Spec.vz]; field; lra. }
  rewrite GE in G. assert (ES : s = vscale (a ^ 2 * c) n).
  { transitivity (vscale (a ^ 2) (vscale (/ a ^ 2) s)). { rewrite vscale_vscale. replace (a ^ 2 * / a ^ 2) with 1 by (field; lra). clear. vring. } rewrite G, vscale_vscale. reflexivity. }
  assert (PC : 0 < a ^ 2 * c) by (apply Rmult_lt_0_compat; nra).
  assert (N2 : vdot s s = a * a).
  { unfold on_ellipsoid, equatorial, Spec.polar in O. destruct s as [x y z]. unfold vsub, vscale, vdot in *; cbn [Spec.vx Spec.vy Spec.vz] in *.
    transitivity (a ^ 2 * ((0 * x + 0 * y + 1 * z) ^ 2 / (a * (1 - 0)) ^ 2 + ((x - (0 * x + 0 * y + 1 * z) * 0) * (x - (0 * x + 0 * y + 1 * z) * 0) + (y - (0 * x + 0 * y + 1 * z) * 0) * (y - (0 * x + 0 * y + 1 * z) * 0) + (z - (0 * x + 0 * y + 1 * z) * 1) * (z - (0 * x + 0 * y + 1 * z) * 1)) / a ^ 2)); [field; lra|]. rewrite O. ring. }
  assert (N : vnorm s = a) by (apply vnorm_eq; [lra|exact N2]).
  assert (S0 : s <> v0) by (intros E; rewrite E, vnorm_v0 in N; lra).
  rewrite <- (direction_scale (a ^ 2 * c) n PC Hn), <- ES. unfold direction. rewrite N, vscale_vscale. replace (a * / a) with 1 by (field; lra). clear. vring.
Qed.
(** north, east and down at a place off the poles *)
Definition axes_at (up : vec) : mat := Mt (SpecGeo.north_at SpecArr.Me up) (SpecGeo.east_at SpecArr.Me up) (vneg up).
Lemma axes_orthogonal up : vnorm up = 1 -> 0 < sqrt (Spec.vx up ^ 2 + Spec.vy up ^ 2) -> orthogonal (mT (axes_at up)).
Proof.
  intros U Hr. unfold axes_at. destruct up as [a b S]. cbn [Spec.vx Spec.vy] in Hr. set (r := sqrt (a ^ 2 + b ^ 2)) in *.
  assert (RR : r * r = a * a + b * b). { unfold r. rewrite sqrt_sqrt; [ring|]. nra. }
  assert (Ea : a = r * (a / r)) by (field; lra). assert (Eb : b = r * (b / r)) by (field; lra).
  assert (CS : a / r * (a / r) + b / r * (b / r) = 1). { transitivity ((a * a + b * b) / (r * r)); [field; lra|]. rewrite <- RR. field. lra. }
  assert (US : S * S + r * r = 1). { pose proof (vnorm_sq (V a b S)) as Q. rewrite U in Q. unfold vdot in Q; cbn [Spec.vx Spec.vy Spec.vz] in Q. rewrite RR. lra. }
  destruct (ned_axes S r (b / r) (a / r) Hr CS) as (EE & EN). rewrite <- Ea, <- Eb in EE, EN. rewrite EE, EN.
  set (c := a / r) in *. set (s := b / r) in *. clearbody c s r. subst a b. unfold orthogonal, mmul, mT, mI, vneg, vdot; cbn [Spec.vx Spec.vy Spec.vz r0 r1 r2].
  clear - CS US. f_equal; apply vec_eq; cbn [Spec.vx Spec.vy Spec.vz]; nsatz.
Qed.
Lemma units_of_axes up : orthogonal (mT (axes_at up)) ->
  vnorm (SpecGeo.north_at SpecArr.Me up) = 1 /\ vnorm (SpecGeo.east_at SpecArr.Me up) = 1 /\ vnorm (vneg up) = 1 /\
  vdot (SpecGeo.north_at SpecArr.Me up) (SpecGeo.east_at SpecArr.Me up) = 0 /\ vdot (SpecGeo.north_at SpecArr.Me up) up = 0 /\ vdot (SpecGeo.east_at SpecArr.Me up) up = 0.
Proof.
  unfold axes_at, orthogonal. set (n := SpecGeo.north_at SpecArr.Me up). set (e := SpecGeo.east_at SpecArr.Me up). clearbody n e. intros O.
  assert (K : forall v, vdot v v = 1 -> vnorm v = 1) by (intros v Hv; apply vnorm_eq; lra).
  unfold mmul, mT, mI in O. cbn [Spec.vx Spec.vy Spec.vz r0 r1 r2] in O. destruct n as [n0 n1 n2], e as [e0 e1 e2], up as [u0 u1 u2]. unfold vneg, vdot in *; cbn [Spec.vx Spec.vy Spec.vz] in *. injection O as H1 H2 H3 H4 H5 H6 H7 H8 H9.
  repeat split; try (apply K; unfold vdot; cbn [Spec.vx Spec.vy Spec.vz]; assumption); try assumption; lra.
Qed.

Lemma bearing_core dot nA nB a B k : good_mdot dot -> ordinary_vec nA -> ordinary_vec nB -> is_finite a = true -> bpow radix2 (-100) <= B2R a <= bpow radix2 300 ->
  bpow radix2 (-300) <= sqrt (Spec.vx (direction (vec_of nA)) ^ 2 + Spec.vy (direction (vec_of nA)) ^ 2) ->
  vnorm B = 1 -> 0 <= k <= 100 -> vnorm (vsub (direction (vec_of nB)) B) <= k * u ->
  let up := direction (vec_of nA) in let p' := fdelta_N dot nA nB fzero fzero a fzero in
  finite_vec p' /\ vnorm (vsub (vec_of p') (mulv (axes_at up) (vscale (B2R a) (vsub B up)))) <= B2R a * ((51 + k + 92 * vnorm (vsub B up)) * u).
Proof.
  intros GD OA OB Fa BA HP UB Hk DB up p'. pose proof u_pos as Pu. pose proof u_tiny as Su. pose proof (bpow_gt_0 radix2 (-100)) as P1. pose proof (bpow_gt_0 radix2 (-300)) as P3.
  assert (Z0 : B2R fzero = 0) by reflexivity.
  assert (HE : usual_ellipsoid a fzero). { split; auto. split; [reflexivity|]. split; [auto|]. change (B2R fzero) with 0. lra. }
  assert (BZ : Rabs (B2R fzero) <= bpow radix2 300) by (rewrite Z0, Rabs_R0; apply bpow_ge_0).
  assert (NZ : forall n, ordinary_vec n -> vec_of n <> v0).
  { intros n O. destruct n as [[x y] z]. destruct O as (_ & _ & _ & _ & _ & _ & G). pose proof (bpow_gt_0 radix2 (-400)). intros E'. injection E' as Ex Ey Ez. rewrite Ex, Ey, Ez, Rabs_R0 in G. lra. }
  assert (K : forall n, ordinary_vec n -> finite_vec (fn_EB_E2p_EB_E n fzero a fzero) /\ vnorm (vsub (vec_of (fn_EB_E2p_EB_E n fzero a fzero)) (vscale (B2R a) (direction (vec_of n)))) <= 25 * u * B2R a).
  { intros n O. destruct (C89_accuracy n fzero a fzero O HE eq_refl BZ) as (F & s & O' & S & E). split; auto. change (B2R fzero) with 0 in O', S, E. rewrite Rabs_R0 in E.
    rewrite (sphere_point (B2R a) (vec_of n) s ltac:(lra) (NZ n O) O' S) in E. replace (vsub (vscale (B2R a) (direction (vec_of n))) (vscale 0 (direction (vec_of n)))) with (vscale (B2R a) (direction (vec_of n))) in E by (generalize (direction (vec_of n)); intros; clear; vring). lra. }
  destruct (K nA OA) as (FA & EA). destruct (K nB OB) as (FB & EB). fold up in EA. set (d := direction (vec_of nB)) in *.
  unfold p', fdelta_N, fdelta_E. set (qA := fn_EB_E2p_EB_E nA fzero a fzero) in *. set (qB := fn_EB_E2p_EB_E nB fzero a fzero) in *.
  pose proof (direction_unit (vec_of nA) (NZ _ OA)) as UA. fold up in UA. pose proof (direction_unit (vec_of nB) (NZ _ OB)) as UD. fold d in UD.
  set (r := B2R a) in *. assert (B4 : 8 * bpow radix2 300 <= bpow radix2 400). { change 8 with (bpow radix2 3). rewrite <- bpow_plus. apply bpow_le; lia. }
  assert (UR : 25 * u * r <= r) by nra.
  assert (QA : vnorm (vec_of qA) <= 2 * bpow radix2 300). { rewrite (via (vscale r up) (vec_of qA)). eapply Rle_trans; [apply norm_triangle|]. rewrite vnorm_scale, UA, Rabs_right by lra. lra. }
  assert (QB : vnorm (vec_of qB) <= 2 * bpow radix2 300). { rewrite (via (vscale r d) (vec_of qB)). eapply Rle_trans; [apply norm_triangle|]. rewrite vnorm_scale, UD, Rabs_right by lra. lra. }
  pose proof (bpow_gt_0 radix2 300) as P30.
  destruct (sub_err qB qA FB FA ltac:(lra) ltac:(lra)) as (FS & ES). set (q := fsubv qB qA) in *. set (raw := vsub (vec_of qB) (vec_of qA)) in *.
  set (w := vscale r (vsub B up)). set (c := vnorm (vsub B up)).
  assert (NW : vnorm w = r * c). { unfold w. rewrite vnorm_scale, Rabs_right by lra. reflexivity. }
  assert (Pc : 0 <= c) by apply vnorm_pos.
  assert (RAW : vnorm (vsub raw w) <= (50 + k) * u * r).
  { replace (vsub raw w) with (vadd (vsub (vec_of qB) (vscale r d)) (vadd (vneg (vsub (vec_of qA) (vscale r up))) (vscale r (vsub d B)))) by (unfold raw, w; generalize (vec_of qB) (vec_of qA) d up B; intros; clear; vring).
    eapply Rle_trans; [apply norm_triangle|]. pose proof (norm_triangle (vneg (vsub (vec_of qA) (vscale r up))) (vscale r (vsub d B))) as T. rewrite vnorm_neg, vnorm_scale, Rabs_right in T by lra.
    assert (r * vnorm (vsub d B) <= r * (k * u)) by (apply Rmult_le_compat_l; lra). lra. }
  assert (NR : vnorm raw <= r * c + (50 + k) * u * r). { rewrite (via w raw). eapply Rle_trans; [apply norm_triangle|]. lra. }
  pose proof (vnorm_pos raw) as Pr.
  assert (EQ : vnorm (vsub (vec_of q) w) <= u * vnorm raw + (50 + k) * u * r). { rewrite (sub_via w (vec_of q) raw). eapply Rle_trans; [apply norm_triangle|]. fold raw in ES. lra. }
  assert (NQ : vnorm (vec_of q) <= (1 + u) * vnorm raw). { rewrite (via raw (vec_of q)). eapply Rle_trans; [apply norm_triangle|]. fold raw in ES. lra. }
  assert (RQ : vnorm raw <= 4 * bpow radix2 300). { unfold raw. rewrite sub_neg. eapply Rle_trans; [apply norm_triangle|]. rewrite vnorm_neg. lra. }
  assert (BQ : vnorm (vec_of q) <= bpow radix2 400) by nra.
  pose proof (axes_orthogonal up UA ltac:(fold up in HP; lra)) as OX. destruct (units_of_axes up OX) as (Un & Ue & Ud & _).
  pose proof (C91_accuracy nA OA HP) as AC. destruct (fn_E2R_EN nA) as [[Nf Ef] Df]. cbv zeta in AC. fold up in AC. destruct AC as (AN & AE & AD).
  destruct (change_err dot Nf Ef Df _ _ _ q GD (proj1 AN) (proj1 AE) (proj1 AD) FS Un Ue Ud) as (FC & CE).
  { eapply Rle_trans; [apply (accurate_vec 23); auto; lra|]. apply Rmult_le_compat_r; lra. }
  { eapply Rle_trans; [apply (accurate_vec 16); auto; lra|]. apply Rmult_le_compat_r; lra. }
  { eapply Rle_trans; [apply (accurate_vec 5); auto; lra|]. apply Rmult_le_compat_r; lra. }
  { exact BQ. }
  split; auto. fold (axes_at up) in CE.
  pose proof (combine (axes_at up) w (vec_of q) _ _ _ OX EQ CE) as T. eapply Rle_trans; [exact T|].
  assert (ET : 24 * eta <= u * (/ 2 * r)).
  { apply Rle_trans with (u * (/ 2 * bpow radix2 (-100))); [|apply Rmult_le_compat_l; lra]. unfold eta, u. apply Rle_trans with (bpow radix2 5 * bpow radix2 (-1075)); [apply Rmult_le_compat_r; [apply bpow_ge_0|cbn; lra]|].
    change (/ 2) with (bpow radix2 (-1)). rewrite <- !bpow_plus. apply bpow_le; lia. }
  assert (Q90 : 90 * u * vnorm (vec_of q) <= 90 * u * ((1 + u) * vnorm raw)) by (apply Rmult_le_compat_l; lra).
  assert (RC : 0 <= r * c) by (apply Rmult_le_pos; lra).
  assert (KR : (50 + k) * u * r <= 150 * u * r) by (apply Rmult_le_compat_r; [lra|apply Rmult_le_compat_r; lra]).
  assert (S1 : u * vnorm raw <= u * (r * c + 150 * u * r)) by (apply Rmult_le_compat_l; lra).
  assert (S2 : 90 * u * ((1 + u) * vnorm raw) <= 90 * u * ((1 + u) * (r * c + 150 * u * r))) by (apply Rmult_le_compat_l; [lra|apply Rmult_le_compat_l; lra]).
  set (y := u * (r * c)). assert (Py : 0 <= y) by (apply Rmult_le_pos; lra). set (x := u * r). assert (Px : 0 <= x) by (apply Rmult_le_pos; lra).
  replace (u * (r * c + 150 * u * r)) with (y + 150 * u * x) in S1 by (unfold x, y; ring). replace (90 * u * ((1 + u) * (r * c + 150 * u * r))) with (90 * (1 + u) * (y + 150 * u * x)) in S2 by (unfold x, y; ring).
  replace (r * ((51 + k + 92 * c) * u)) with ((51 + k) * x + 92 * y) by (unfold x, y; ring). replace ((50 + k) * u * r) with ((50 + k) * x) by (unfold x; ring). replace (u * (/ 2 * r)) with (/ 2 * x) in ET by (unfold x; ring).
  assert (UX : u * x <= / 1000000000000000 * x) by (apply Rmult_le_compat_r; lra). assert (UY : u * y <= / 1000000000000000 * y) by (apply Rmult_le_compat_r; lra). assert (UUX : u * (u * x) <= / 1000000000000000 * (u * x)) by (apply Rmult_le_compat_r; [apply Rmult_le_pos; lra|lra]).
  assert (0 <= u * x) by (apply Rmult_le_pos; lra).
  clear - ET Q90 S1 S2 Py Px UX UY UUX H. nra.
Qed.

(** a unit vector is reached from [up] by going the angle between them in some direction *)
Lemma horizontal_of up q a : mulv (axes_at up) (vscale a (vsub q up)) = V (a * (vdot (SpecGeo.north_at SpecArr.Me up) q - vdot (SpecGeo.north_at SpecArr.Me up) up)) (a * (vdot (SpecGeo.east_at SpecArr.Me up) q - vdot (SpecGeo.east_at SpecArr.Me up) up)) (a * (vdot up up - vdot up q)).
Proof. unfold axes_at. generalize (SpecGeo.north_at SpecArr.Me up) (SpecGeo.east_at SpecArr.Me up). intros n e. unfold mulv; cbn [r0 r1 r2]. clear. vring. Qed.

(** the azimuth: for unit B within k u of the direction of nB *)
Lemma bearing_err dot arctan2 nA nB a B k : good_mdot dot -> good_atan2 arctan2 -> ordinary_vec nA -> ordinary_vec nB -> is_finite a = true -> bpow radix2 (-100) <= B2R a <= bpow radix2 300 ->
  bpow radix2 (-300) <= sqrt (Spec.vx (direction (vec_of nA)) ^ 2 + Spec.vy (direction (vec_of nA)) ^ 2) ->
  vnorm B = 1 -> 0 <= k <= 100 -> vnorm (vsub (direction (vec_of nB)) B) <= k * u ->
  let up := direction (vec_of nA) in let N := SpecGeo.north_at SpecArr.Me up in let E := SpecGeo.east_at SpecArr.Me up in
  let s := sqrt (vdot N B ^ 2 + vdot E B ^ 2) in let e := (51 + k + 92 * vnorm (vsub B up)) * u in e < s ->
  let az := fn_azimuth dot arctan2 nA nB a fzero in
  is_finite az = true /\ exists t, vdot N B = s * cos t /\ vdot E B = s * sin t /\ Rabs (B2R az - t) <= e / (s - e) + 63 / 10 * u.
Proof.
  intros GD GA OA OB Fa BA HP UB Hk DB up N E s e He az. pose proof u_pos as Pu. pose proof (bpow_gt_0 radix2 (-100)) as P1. pose proof (bpow_gt_0 radix2 (-300)) as P3.
  pose proof (bearing_core dot nA nB a B k GD OA OB Fa BA HP UB Hk DB) as C. cbv zeta in C. fold up in C. destruct C as (F & D).
  assert (NZ : vec_of nA <> v0).
  { destruct nA as [[x y] z]. destruct OA as (_ & _ & _ & _ & _ & _ & G). pose proof (bpow_gt_0 radix2 (-400)). intros E'. injection E' as Ex Ey Ez. rewrite Ex, Ey, Ez, Rabs_R0 in G. lra. }
  pose proof (direction_unit (vec_of nA) NZ) as UA. fold up in UA.
  pose proof (axes_orthogonal up UA ltac:(fold up in HP; lra)) as OX. destruct (units_of_axes up OX) as (_ & _ & _ & _ & ON & OE).
  rewrite horizontal_of in D. fold N E in D, ON, OE. rewrite ON, OE, !Rminus_0_r in D. set (q := V (B2R a * vdot N B) (B2R a * vdot E B) (B2R a * (vdot up up - vdot up B))) in *.
  assert (Hh : sqrt (Spec.vx q ^ 2 + Spec.vy q ^ 2) = B2R a * s).
  { unfold q; cbn [Spec.vx Spec.vy]. replace ((B2R a * vdot N B) ^ 2 + (B2R a * vdot E B) ^ 2) with (B2R a * B2R a * (vdot N B ^ 2 + vdot E B ^ 2)) by ring. rewrite sqrt_mult; [|nra|nra]. rewrite sqrt_square by lra. reflexivity. }
  fold e in D. destruct (azimuth_err arctan2 _ q (B2R a * e) GA F D) as (FA & t & AZ & ER). { rewrite Hh. apply Rmult_lt_compat_l; lra. }
  split; auto. exists t. unfold azimuth_of in AZ. rewrite Hh in AZ, ER. unfold q in AZ; cbn [Spec.vx Spec.vy] in AZ. destruct AZ as (A1 & A2).
  split; [apply (Rmult_eq_reg_l (B2R a)); [lra|apply Rgt_not_eq; lra]|]. split; [apply (Rmult_eq_reg_l (B2R a)); [lra|apply Rgt_not_eq; lra]|].
  replace (B2R a * e / (B2R a * s - B2R a * e)) with (e / (s - e)) in ER by (assert (s - e <> 0) by (apply Rgt_not_eq; lra); assert (B2R a <> 0) by (apply Rgt_not_eq; lra); assert (B2R a * s - B2R a * e <> 0) by (replace (B2R a * s - B2R a * e) with (B2R a * (s - e)) by ring; apply Rmult_integral_contrapositive_currified; auto); field; auto). exact ER.
Qed.

(** on a sphere: the computed azimuth is that in which the great circle through A and B leaves A *)
Theorem C117_sphere : forall dot arctan2 nA nB a, good_mdot dot -> good_atan2 arctan2 -> ordinary_vec nA -> ordinary_vec nB -> is_finite a = true -> bpow radix2 (-100) <= B2R a <= bpow radix2 300 ->
  bpow radix2 (-300) <= sqrt (Spec.vx (direction (vec_of nA)) ^ 2 + Spec.vy (direction (vec_of nA)) ^ 2) ->
  let A := direction (vec_of nA) in let B := direction (vec_of nB) in let D := angle A B in
  let e := (51 + 92 * vnorm (vsub B A)) * u in e < sin D ->
  let az := fn_azimuth dot arctan2 nA nB a fzero in
  is_finite az = true /\ exists t, B = arc A (tangent (SpecGeo.north_at SpecArr.Me A) (SpecGeo.east_at SpecArr.Me A) t) D /\ Rabs (B2R az - t) <= e / (sin D - e) + 63 / 10 * u.
Proof.
  intros dot arctan2 nA nB a GD GA OA OB Fa BA HP A B D e He az. pose proof u_pos as Pu. pose proof (bpow_gt_0 radix2 (-300)) as P3.
  assert (NZ : forall n, ordinary_vec n -> vec_of n <> v0).
  { intros n O. destruct n as [[x y] z]. destruct O as (_ & _ & _ & _ & _ & _ & G). pose proof (bpow_gt_0 radix2 (-400)). intros E'. injection E' as Ex Ey Ez. rewrite Ex, Ey, Ez, Rabs_R0 in G. lra. }
  pose proof (direction_unit (vec_of nA) (NZ _ OA)) as UA. pose proof (direction_unit (vec_of nB) (NZ _ OB)) as UB. fold A in UA. fold B in UB.
  pose proof (axes_orthogonal A UA ltac:(fold A in HP; lra)) as OX. destruct (units_of_axes A OX) as (NN & NE & _ & ONE & ON & OE). set (N := SpecGeo.north_at SpecArr.Me A) in *. set (E := SpecGeo.east_at SpecArr.Me A) in *.
  assert (DR : 0 <= D <= PI) by apply angle_range.
  assert (CD : vdot A B = cos D). { pose proof (dot_angle A B (vnorm_inv A UA) (vnorm_inv B UB)) as DA. fold D in DA. rewrite UA, UB in DA. lra. }
  assert (DEC : mulv (mT (axes_at A)) (mulv (axes_at A) B) = B). { pose proof (orthogonal_inv' _ B OX) as X. rewrite mT_mT in X. exact X. }
  assert (MB : mulv (axes_at A) B = V (vdot N B) (vdot E B) (- vdot A B)). { unfold axes_at. fold N E. unfold mulv; cbn [r0 r1 r2]. clear. vring. }
  assert (SS : vdot N B ^ 2 + vdot E B ^ 2 = sin D * sin D).
  { pose proof (orthogonal_norm _ B (orthogonal_T _ OX)) as X. rewrite mT_mT in X. rewrite MB, UB in X. apply vnorm_unit in X. unfold vdot at 1 in X; cbn [Spec.vx Spec.vy Spec.vz] in X. rewrite CD in X. pose proof (sin2_cos2 D) as T. unfold Rsqr in T. lra. }
  assert (PS : 0 <= sin D) by (apply sin_ge_0; lra).
  assert (HS : sqrt (vdot N B ^ 2 + vdot E B ^ 2) = sin D) by (rewrite SS; apply sqrt_square; auto).
  pose proof (bearing_err dot arctan2 nA nB a B 0 GD GA OA OB Fa BA HP UB ltac:(lra)) as C. cbv zeta in C. fold A B in C. fold N E in C. rewrite HS in C. replace (51 + 0 + 92 * vnorm (vsub B A)) with (51 + 92 * vnorm (vsub B A)) in C by ring. fold e az in C.
  destruct C as (F & t & E1 & E2 & ER); auto. { replace (vsub B B) with v0 by (generalize B; clear; intros; unfold v0; vring). rewrite vnorm_v0. lra. }
  split; auto. exists t. split; auto. rewrite <- DEC at 1. rewrite MB, mulvT_rows. unfold axes_at. fold N E. cbn [Spec.vx Spec.vy Spec.vz r0 r1 r2]. rewrite E1, E2, CD. unfold arc, tangent. generalize N E A (sin D) (cos D) (cos t) (sin t). clear. intros. vring.
Qed.
Print Assumptions C117_sphere.

(** ** the way there and the azimuth back: n_EA_E_distance_and_azimuth2n_EB_E followed by n_EA_E_and_n_EB_E2azimuth on a sphere *)
Theorem C117_round_trip : forall dot fsin fcos arctan2 n D az a, good_mdot dot -> good_trig fsin sin -> good_trig fcos cos -> good_atan2 arctan2 -> near_unit n ->
  is_finite D = true -> is_finite az = true -> 0 <= B2R D <= PI -> Rabs (B2R az) <= 4 -> is_finite a = true -> bpow radix2 (-100) <= B2R a <= bpow radix2 300 ->
  bpow radix2 (-300) <= sqrt (Spec.vx (direction (vec_of n)) ^ 2 + Spec.vy (direction (vec_of n)) ^ 2) ->
  278 * u < sin (B2R D) ->
  let az' := fn_azimuth dot arctan2 n (fway fsin fcos n D az) a fzero in
  is_finite az' = true /\ exists t, cos t = cos (B2R az) /\ sin t = sin (B2R az) /\ Rabs (B2R az' - t) <= 278 * u / (sin (B2R D) - 278 * u) + 63 / 10 * u.
Proof.
  intros dot fsin fcos arctan2 n D az a GD GS GC GA NU FD Fz BD Bz Fa BA HP HS az'. pose proof u_pos as Pu. pose proof u_tiny as Su. pose proof (bpow_gt_0 radix2 (-300)) as P3.
  pose proof pi_bounds as PB. rewrite pi64_val in PB. assert (BD4 : Rabs (B2R D) <= 4) by (rewrite Rabs_right; lra).
  pose proof (C95_nvector fsin fcos n D az GS GC NU FD Fz BD4 Bz HP) as C. cbv zeta in C. destruct (near_unit_near n NU) as (_ & NZ & _). pose proof (direction_unit (vec_of n) NZ) as UA.
  set (A := direction (vec_of n)) in *. pose proof (axes_orthogonal A UA ltac:(lra)) as OX. destruct (units_of_axes A OX) as (NN & NE & _ & ONE & ON & OE). set (N := SpecGeo.north_at SpecArr.Me A) in *. set (E := SpecGeo.east_at SpecArr.Me A) in *.
  set (B := arc A (tangent N E (B2R az)) (B2R D)) in *. set (q := fway fsin fcos n D az) in *. destruct C as (Fq & UB & EB & AB).
  assert (N1 : vdot N N = 1) by (apply vnorm_unit; auto). assert (E1 : vdot E E = 1) by (apply vnorm_unit; auto).
  assert (NB : vdot N B = sin (B2R D) * cos (B2R az)). { transitivity (cos (B2R D) * vdot N A + sin (B2R D) * (cos (B2R az) * vdot N N + sin (B2R az) * vdot N E)); [unfold B, arc, tangent; generalize N E A; clear; intros; vring|]. rewrite ON, N1, ONE. ring. }
  assert (EBv : vdot E B = sin (B2R D) * sin (B2R az)). { transitivity (cos (B2R D) * vdot E A + sin (B2R D) * (cos (B2R az) * vdot N E + sin (B2R az) * vdot E E)); [unfold B, arc, tangent; generalize N E A; clear; intros; vring|]. rewrite OE, E1, ONE. ring. }
  assert (PS : 0 < sin (B2R D)) by lra.
  assert (HH : sqrt (vdot N B ^ 2 + vdot E B ^ 2) = sin (B2R D)).
  { rewrite NB, EBv. replace ((sin (B2R D) * cos (B2R az)) ^ 2 + (sin (B2R D) * sin (B2R az)) ^ 2) with (sin (B2R D) * sin (B2R D) * (sin (B2R az) * sin (B2R az) + cos (B2R az) * cos (B2R az))) by ring. pose proof (sin2_cos2 (B2R az)) as T. unfold Rsqr in T. rewrite T, Rmult_1_r. apply sqrt_square. lra. }
  pose proof (norm_perturb B (vsub (vec_of q) B)) as NP. rewrite <- via, UB in NP. apply Rabs_le_inv in NP.
  assert (NP2 : / 2 <= vnorm (vec_of q) <= 2) by (clear - NP EB Su Pu; lra).
  assert (OQ : ordinary_vec q) by (apply mid_ordinary; auto).
  assert (QZ : vec_of q <> v0). { intros E0. rewrite E0, vnorm_v0 in NP2. lra. }
  assert (DB : vnorm (vsub (direction (vec_of q)) B) <= 43 * u).
  { eapply Rle_trans; [apply chord_le_angle; [apply direction_unit; auto|auto]|]. unfold direction. rewrite angle_scale_l by (apply Rinv_0_lt_compat, vnorm_nz; auto). rewrite angle_sym. lra. }
  assert (CH : vnorm (vsub B A) <= 2). { rewrite sub_neg. eapply Rle_trans; [apply norm_triangle|]. rewrite vnorm_neg. lra. }
  pose proof (vnorm_pos (vsub B A)) as PC.
  pose proof (bearing_err dot arctan2 n q a B 43 GD GA (near_unit_ordinary n NU) OQ Fa BA HP UB ltac:(lra) DB) as C. cbv zeta in C. fold A in C. fold N E in C. rewrite HH in C.
  set (e := (51 + 43 + 92 * vnorm (vsub B A)) * u) in *. assert (LE : e <= 278 * u) by (unfold e; apply Rmult_le_compat_r; lra). assert (0 <= e) by (unfold e; apply Rmult_le_pos; lra).
  destruct C as (F & t & T1 & T2 & ER); [lra|]. fold az' in F, ER. split; auto. exists t. rewrite NB in T1. rewrite EBv in T2.
  split; [apply (Rmult_eq_reg_l (sin (B2R D))); [lra|apply Rgt_not_eq; lra]|]. split; [apply (Rmult_eq_reg_l (sin (B2R D))); [lra|apply Rgt_not_eq; lra]|].
  eapply Rle_trans; [exact ER|]. apply Rplus_le_compat_r. unfold Rdiv. apply Rmult_le_compat; [auto|apply Rlt_le, Rinv_0_lt_compat; lra|lra|apply Rinv_le; lra].
Qed.
Print Assumptions C117_round_trip.

(** ** on the Earth: 61 nanometres and 1.04e-14 of the distance, seen from the horizontal distance *)
Theorem C117_wgs84 : forall dot fsin fcos arctan2 latA lonA latB lonB pA pB,
  good_mdot dot -> good_trig fsin sin -> good_trig fcos cos -> good_atan2 arctan2 -> valid_at latA lonA -> valid_at latB lonB ->
  surface_point 6378137 (B2R wgs84_f) (B2R latA) (B2R lonA) pA -> surface_point 6378137 (B2R wgs84_f) (B2R latB) (B2R lonB) pB ->
  let q := mulv (ned (B2R latA) (B2R lonA)) (vsub pB pA) in let h := sqrt (Spec.vx q ^ 2 + Spec.vy q ^ 2) in
  let e := 61 / 1000000000 + 1 / 96 / 1000000000000 * vnorm (vsub pB pA) in e < h ->
  let az := fazimuth_deg_rad dot fsin fcos arctan2 latA lonA latB lonB wgs84_a wgs84_f in
  is_finite az = true /\ exists t, azimuth_of q t /\ Rabs (B2R az - t) <= e / (h - e) + 7 / 10000000000000000.
Proof.
  intros dot fsin fcos arctan2 latA lonA latB lonB pA pB GD GS GC GA VA VB SA SB q h e Hh az. pose proof u_pos as Pu. rewrite <- wgs84_a_val in SA, SB.
  pose proof (C117_azimuth dot fsin fcos arctan2 latA lonA latB lonB wgs84_a wgs84_f pA pB GD GS GC GA VA VB wgs84_usual SA SB) as C. cbv zeta in C. fold q in C. fold h az in C.
  set (e' := u * (51 * B2R wgs84_a + 35 * (B2R wgs84_a / (1 - B2R wgs84_f)) + 93 * vnorm (vsub pB pA))) in *. pose proof (vnorm_pos (vsub pB pA)) as PP.
  assert (LE : 0 <= e' <= e). { unfold e', e. destruct wgs84_f_val as (_ & ->). rewrite wgs84_a_val, u_val. split; lra. }
  destruct C as (F & t & AZ & ER); [lra|]. split; auto. exists t. split; auto. eapply Rle_trans; [exact ER|]. rewrite u_val. apply Rplus_le_compat; [|lra].
  unfold Rdiv. apply Rmult_le_compat; [lra|apply Rlt_le, Rinv_0_lt_compat; lra|lra|apply Rinv_le; lra].
Qed.
Print Assumptions C117_wgs84.

(** ** what the theorems do not exclude: from (0, 0) in the direction 1 rad by 1 rad, and from (0, 0) to (0, 90 degrees east) *)
Example C117_example : good_mdot dot_seq /\ good_trig (fun x => round64 (sin (B2R x))) sin /\ good_trig (fun x => round64 (cos (B2R x))) cos /\ good_atan2 ideal_atan2 /\
  near_unit (fone, fzero, fzero) /\ ordinary_vec (fone, fzero, fzero) /\ ordinary_vec (fzero, fone, fzero) /\
  bpow radix2 (-300) <= sqrt (Spec.vx (direction (vec_of (fone, fzero, fzero))) ^ 2 + Spec.vy (direction (vec_of (fone, fzero, fzero))) ^ 2) /\
  0 <= B2R fone <= PI /\ 278 * u < sin (B2R fone) /\ bpow radix2 (-100) <= B2R wgs84_a <= bpow radix2 300 /\
  (let A := direction (vec_of (fone, fzero, fzero)) in let B := direction (vec_of (fzero, fone, fzero)) in (51 + 92 * vnorm (vsub B A)) * u < sin (angle A B)).
Proof.
  pose proof u_pos as Pu. pose proof pi_bounds as PB. rewrite pi64_val in PB. pose proof u_tiny as Su.
  assert (X : near_unit (fone, fzero, fzero)) by (repeat (split; [reflexivity|]); unfold length3; rewrite fone_val; cbn [B2R fzero]; replace (1 * 1 + 0 * 0 + 0 * 0) with 1 by ring; rewrite sqrt_1, Rminus_diag_eq by auto; rewrite Rabs_R0; lra).
  assert (Y : near_unit (fzero, fone, fzero)) by (repeat (split; [reflexivity|]); unfold length3; rewrite fone_val; cbn [B2R fzero]; replace (0 * 0 + 1 * 1 + 0 * 0) with 1 by ring; rewrite sqrt_1, Rminus_diag_eq by auto; rewrite Rabs_R0; lra).
  assert (EX : direction (vec_of (fone, fzero, fzero)) = V 1 0 0).
  { assert (E : vec_of (fone, fzero, fzero) = V 1 0 0) by (unfold vec_of; rewrite fone_val; reflexivity). rewrite E. assert (N1 : vnorm (V 1 0 0) = 1) by (apply vnorm_eq; [lra|unfold vdot; cbn [Spec.vx Spec.vy Spec.vz]; ring]). unfold direction. rewrite N1. unfold vscale; cbn [Spec.vx Spec.vy Spec.vz]. apply vec_eq; cbn [Spec.vx Spec.vy Spec.vz]; field. }
  assert (EY : direction (vec_of (fzero, fone, fzero)) = V 0 1 0).
  { assert (E : vec_of (fzero, fone, fzero) = V 0 1 0) by (unfold vec_of; rewrite fone_val; reflexivity). rewrite E. assert (N1 : vnorm (V 0 1 0) = 1) by (apply vnorm_eq; [lra|unfold vdot; cbn [Spec.vx Spec.vy Spec.vz]; ring]). unfold direction. rewrite N1. unfold vscale; cbn [Spec.vx Spec.vy Spec.vz]. apply vec_eq; cbn [Spec.vx Spec.vy Spec.vz]; field. }
  split; [apply dot_seq_mdot|]. split; [apply good_sin|]. split; [apply good_cos|]. split; [apply correct_good, ideal_atan2_correct|]. split; [exact X|]. split; [apply near_unit_ordinary, X|]. split; [apply near_unit_ordinary, Y|].
  cbv zeta. rewrite EX, EY. cbn [Spec.vx Spec.vy].
  split. { replace (1 ^ 2 + 0 ^ 2) with 1 by ring. rewrite sqrt_1. apply Rle_trans with (bpow radix2 0); [apply bpow_le; lia|cbn; lra]. }
  rewrite fone_val. split; [lra|]. split. { apply Rlt_trans with (sin (PI / 6)); [rewrite sin_PI6; lra|apply sin_increasing_1; lra]. }
  split. { destruct wgs84_usual as (_ & _ & B & _). exact B. }
  assert (N1 : vnorm (V 1 0 0) = 1) by (apply vnorm_eq; [lra|unfold vdot; cbn [Spec.vx Spec.vy Spec.vz]; ring]). assert (N2 : vnorm (V 0 1 0) = 1) by (apply vnorm_eq; [lra|unfold vdot; cbn [Spec.vx Spec.vy Spec.vz]; ring]).
  pose proof (dot_angle (V 1 0 0) (V 0 1 0) (vnorm_inv _ N1) (vnorm_inv _ N2)) as DA. rewrite N1, N2 in DA. unfold vdot in DA; cbn [Spec.vx Spec.vy Spec.vz] in DA.
  pose proof (angle_range (V 1 0 0) (V 0 1 0)) as AR. set (D := angle (V 1 0 0) (V 0 1 0)) in *. assert (C0 : cos D = 0) by lra. pose proof (sin2_cos2 D) as T. unfold Rsqr in T. rewrite C0 in T. assert (P0 : 0 <= sin D) by (apply sin_ge_0; lra).
  assert (S1 : / 2 < sin D) by nra. assert (CH : vnorm (vsub (V 0 1 0) (V 1 0 0)) <= 2). { rewrite sub_neg. eapply Rle_trans; [apply norm_triangle|]. rewrite vnorm_neg. lra. }
  assert ((51 + 92 * vnorm (vsub (V 0 1 0) (V 1 0 0))) * u <= 235 * u) by (apply Rmult_le_compat_r; lra). lra.
Qed.
