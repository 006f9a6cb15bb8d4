(** * C106: GeoPath.cross_track_distance, track_distance and on_great_circle in binary64, positions in degrees (objects.py 865-926, 982-991) *)
From Coq Require Import ZArith Reals Lra Lia Bool Psatz.
From Flocq Require Import Core BinarySingleNaN Relative.
From Verif Require Import Spec LVec LAngle LCircle FTiny FZero FBase FRel FRel2 FUnit FPi FAngle FMod FDist FClose FGreat FLatLon FInv FInv2 FTrack FOnCircle FEcef FEcef2 FNed FNed2 FNed3 FDelta FDelta2 FDelta3
  FInterp FPoint FWay FWay2 FWay3 FWay4 FGeodB FGeod FGeod2 FGeod3 FGeod4 FGeod5 FGeod6 FGeod7 FGeod8 FGeod9 FGeod10 FMove FMove2 FMove3 FEuler FEuler2 FBody FBody2 FBody3 PPath3 FInv3 FCourse.
Local Open Scope R_scope.

(** the n-vector of a position in degrees *)
Definition nvec_deg fsin fcos (lat lon : float64) : vec64 := flat_lon2n_E fsin fcos (frad lat) (frad lon).
(** the direction of the position at [lat] degrees north and [lon] degrees east *)
Definition place (lat lon : R) : vec := latlon_vec (lat * (PI / 180)) (lon * (PI / 180)).
Lemma place_unit lat lon : vnorm (place lat lon) = 1. Proof. apply latlon_unit. Qed.
Lemma nvec_near fsin fcos lat lon : good_trig fsin sin -> good_trig fcos cos -> valid_at lat lon ->
  near_unit (nvec_deg fsin fcos lat lon) /\ vec_of (nvec_deg fsin fcos lat lon) <> v0 /\ angle (place (B2R lat) (B2R lon)) (vec_of (nvec_deg fsin fcos lat lon)) <= 163 / 10 * u /\
  vnorm (vsub (direction (vec_of (nvec_deg fsin fcos lat lon))) (place (B2R lat) (B2R lon))) <= 163 / 10 * u.
Proof.
  intros GS GC (Fa & Fo & Ba & Bo). pose proof u_pos as Pu. pose proof u_small as Su. pose proof PI_33 as PU. pose proof PI_RGT_0 as P0. pose proof pi_bounds as PB. rewrite pi64_val in PB.
  pose proof eta_pos as Pe. pose proof tiny_eta as Te.
  destruct (rad_moves lat 90 Fa Ba ltac:(lra)) as (G1 & R1 & D1). destruct (rad_moves lon 180 Fo Bo ltac:(lra)) as (G2 & R2 & D2).
  destruct (C81_n_vector fsin fcos _ _ GS GC G1 G2 R1 R2) as (NU & NA). fold (nvec_deg fsin fcos lat lon) in NU, NA. set (n := nvec_deg fsin fcos lat lon) in *. clearbody n.
  split; auto. destruct (near_unit_near n NU) as (_ & NL & _). split; auto. unfold place.
  set (a1 := B2R lat * (PI / 180)) in *. set (o1 := B2R lon * (PI / 180)) in *.
  assert (M1 : angle (latlon_vec a1 o1) (latlon_vec (B2R (frad lat)) (B2R (frad lon))) <= 110 / 10 * u).
  { eapply Rle_trans; [apply latlon_moves; nra|]. nra. }
  pose proof (fun a b => vnorm_inv _ (latlon_unit a b)) as NZ.
  pose proof (angle_triangle (latlon_vec a1 o1) (latlon_vec (B2R (frad lat)) (B2R (frad lon))) (vec_of n) (NZ _ _) (NZ _ _) NL) as T. split; [lra|].
  set (P := latlon_vec a1 o1) in *. set (N := direction (vec_of n)). replace (vsub N P) with (vneg (vsub P N)) by (generalize P N; intros; vring). rewrite vnorm_neg.
  assert (UN : vnorm N = 1) by (apply direction_unit; auto). assert (UP : vnorm P = 1) by apply latlon_unit. eapply Rle_trans; [apply chord_le_angle; auto|]. unfold N. rewrite angle_dir_r by auto. lra.
Qed.

(** ** moving the ends of a path and the position: how far the sine of the cross track angle moves *)
Lemma cross_dir a b : a <> v0 -> b <> v0 -> vcross (direction a) (direction b) = vscale (/ vnorm a * / vnorm b) (vcross a b).
Proof. intros _ _. unfold direction. generalize (/ vnorm a) (/ vnorm b). intros. vring. Qed.
Lemma dir_scale k v : 0 < k -> v <> v0 -> direction (vscale k v) = direction v.
Proof.
  intros Pk Nv. unfold direction. pose proof (vnorm_nz _ Nv) as P. rewrite vnorm_scale, (Rabs_right k) by lra. rewrite vscale_vscale. f_equal. field. split; lra.
Qed.
Lemma path_moves a' b' a b e : vec_of a' <> v0 -> vec_of b' <> v0 -> near_unit a' -> near_unit b' -> vnorm a = 1 -> vnorm b = 1 -> 0 <= e <= / 1000 ->
  vnorm (vsub (direction (vec_of a')) a) <= e -> vnorm (vsub (direction (vec_of b')) b) <= e -> 2 * e + 20 * u <= / 100 * vnorm (vcross a b) ->
  99 / 100 * vnorm (vcross a b) <= vnorm (vcross (vec_of a') (vec_of b')) /\
  vnorm (vsub (direction (vcross (vec_of a') (vec_of b'))) (direction (vcross a b))) <= 4 * e / vnorm (vcross a b).
Proof.
  intros Na Nb Ua Ub Va Vb He Da Db Hs. pose proof u_pos as Pu. pose proof u_tiny as Su. destruct (near_unit_len a' Ua) as (_ & La). destruct (near_unit_len b' Ub) as (_ & Lb).
  set (s := vnorm (vcross a b)) in *. set (A := direction (vec_of a')) in *. set (B := direction (vec_of b')) in *. assert (UA : vnorm A = 1) by (apply direction_unit; auto). assert (UB : vnorm B = 1) by (apply direction_unit; auto).
  assert (DC : vnorm (vsub (vcross A B) (vcross a b)) <= 2 * e).
  { replace (vsub (vcross A B) (vcross a b)) with (vadd (vcross (vsub A a) B) (vcross a (vsub B b))) by (generalize A B a b; intros; vring). eapply Rle_trans; [apply norm_triangle|].
    pose proof (vcross_le (vsub A a) B) as X1. pose proof (vcross_le a (vsub B b)) as X2. rewrite UB in X1. rewrite Va in X2. lra. }
  pose proof (norm_perturb (vcross a b) (vsub (vcross A B) (vcross a b))) as NP. rewrite <- vadd_sub_id in NP. fold s in NP. apply Rabs_le_inv in NP.
  assert (Ps : 0 < s) by lra. assert (NS : vcross a b <> v0) by (intros E; unfold s in Ps; rewrite E, vnorm_v0 in Ps; lra).
  assert (NAB : vcross A B <> v0) by (intros E; rewrite E in NP, DC; rewrite vnorm_v0 in NP; lra).
  pose proof (cross_dir _ _ Na Nb) as CD. fold A B in CD. pose proof (vnorm_nz _ Na) as Pa. pose proof (vnorm_nz _ Nb) as Pb.
  assert (PK : 0 < / vnorm (vec_of a') * / vnorm (vec_of b')) by (apply Rmult_lt_0_compat; apply Rinv_0_lt_compat; lra).
  assert (NR : vcross (vec_of a') (vec_of b') <> v0). { intros E. rewrite E in CD. rewrite CD in NAB. apply NAB. unfold vscale, v0; cbn [Spec.vx Spec.vy Spec.vz]. f_equal; ring. }
  split.
  - assert (EV : vnorm (vcross (vec_of a') (vec_of b')) = vnorm (vec_of a') * vnorm (vec_of b') * vnorm (vcross A B)). { rewrite CD, vnorm_scale, Rabs_right by lra. field. split; lra. }
    rewrite EV. assert (L1 : 1 - 13 * u <= vnorm (vec_of a') * vnorm (vec_of b')).
    { apply Rle_trans with ((1 - 6 * u) * (1 - 6 * u)); [nra|apply Rmult_le_compat; lra]. }
    assert ((1 - 13 * u) * (s - 2 * e) <= vnorm (vec_of a') * vnorm (vec_of b') * vnorm (vcross A B)) by (apply Rmult_le_compat; lra).
    assert (s <= 1). { unfold s. eapply Rle_trans; [apply vcross_le|]. rewrite Va, Vb. lra. } assert (u * s <= u * 1) by (apply Rmult_le_compat_l; lra). assert (0 <= u * e) by (apply Rmult_le_pos; lra). lra.
  - replace (direction (vcross (vec_of a') (vec_of b'))) with (direction (vcross A B)) by (rewrite CD; apply dir_scale; auto).
    eapply Rle_trans; [apply direction_perturb; auto|]. fold s. unfold Rdiv. apply Rmult_le_compat_r; [left; apply Rinv_0_lt_compat; lra|]. lra.
Qed.
Lemma sine_moves a' b' q' a b q e : vec_of a' <> v0 -> vec_of b' <> v0 -> vec_of q' <> v0 -> near_unit a' -> near_unit b' -> vnorm a = 1 -> vnorm b = 1 -> vnorm q = 1 -> 0 <= e <= / 1000 ->
  vnorm (vsub (direction (vec_of a')) a) <= e -> vnorm (vsub (direction (vec_of b')) b) <= e -> vnorm (vsub (direction (vec_of q')) q) <= e -> 2 * e + 20 * u <= / 100 * vnorm (vcross a b) ->
  Rabs (track_sine (vec_of a') (vec_of b') (vec_of q') - track_sine a b q) <= e + 4 * e / vnorm (vcross a b).
Proof.
  intros Na Nb Nq Ua Ub Va Vb Vq He Da Db Dq Hs. destruct (path_moves a' b' a b e Na Nb Ua Ub Va Vb He Da Db Hs) as (_ & PM). unfold track_sine. pose proof u_pos as Pu.
  assert (NS : vcross a b <> v0) by (intros E; rewrite E, vnorm_v0 in Hs; lra).
  replace (direction q) with q by (unfold direction; rewrite Vq, Rinv_1; symmetry; apply vscale_1).
  set (n' := direction (vcross (vec_of a') (vec_of b'))) in *. set (n := direction (vcross a b)) in *. set (Q := direction (vec_of q')) in *. assert (UQ : vnorm Q = 1) by (apply direction_unit; auto). assert (Un : vnorm n = 1) by (apply direction_unit; auto).
  replace (- vdot n' Q - - vdot n q) with (- (vdot (vsub n' n) Q + vdot n (vsub Q q))) by (generalize n' n Q q; intros; unfold vdot, vsub; cbn [Spec.vx Spec.vy Spec.vz]; ring). rewrite Rabs_Ropp. eapply Rle_trans; [apply Rabs_triang|].
  pose proof (cauchy_schwarz (vsub n' n) Q) as C1. pose proof (cauchy_schwarz n (vsub Q q)) as C2. rewrite UQ in C1. rewrite Un in C2. lra.
Qed.

(** ** the mean radius (objects.py 880-883) *)
Definition fpath_radius (eA eB : vec64) : float64 := fdiv (fadd (flength eA) (flength eB)) ftwo.
Lemma half_err lA lB PA PB : is_finite lA = true -> is_finite lB = true -> 0 <= PA <= 7378137 -> 0 <= PB <= 7378137 -> Rabs (B2R lA - PA) <= 36 / 1000000000 -> Rabs (B2R lB - PB) <= 36 / 1000000000 ->
  let r := fdiv (fadd lA lB) ftwo in is_finite r = true /\ Rabs (B2R r - (PA + PB) / 2) <= 38 / 1000000000.
Proof.
  intros FA FB RA RB DA DB r. apply Rabs_le_inv in DA. apply Rabs_le_inv in DB.
  assert (Big : 32000000 <= bpow radix2 1000). { apply Rle_trans with (bpow radix2 25); [cbn; lra|apply bpow_le; lia]. } assert (Big' : bpow radix2 1000 <= bpow radix2 1023) by (apply bpow_le; lia).
  pose proof u_pos as Pu. pose proof tiny_eta as Te. pose proof eta_pos as Pe. assert (Us : u <= / 1000000000000000) by (rewrite u_val; lra).
  destruct (fadd_val lA lB FA FB) as (Fs & Es). { apply Rabs_le; lra. } destruct (rnd_err (B2R lA + B2R lB)) as (e1 & h1 & B1 & B2 & E1). rewrite E1 in Es. clear E1. apply Rabs_le_inv in B2.
  assert (AE : Rabs ((B2R lA + B2R lB) * e1) <= 14756275 * u) by (rewrite Rabs_mult; apply Rmult_le_compat; auto using Rabs_pos; apply Rabs_le; lra). apply Rabs_le_inv in AE.
  unfold r in *. clear r. set (s := fadd lA lB) in *. clearbody s. assert (Es' : B2R s = B2R lA + B2R lB + (B2R lA + B2R lB) * e1 + h1) by (rewrite Es; ring). clear Es.
  assert (T2 : B2R ftwo = 2) by apply ftwo_val. destruct (fdiv_val s ftwo Fs) as (Fr & Er). { rewrite T2. lra. } { rewrite T2. apply Rabs_le. lra. }
  destruct (rnd_err (B2R s / B2R ftwo)) as (e2 & h2 & B3 & B4 & E2). rewrite E2 in Er. clear E2. rewrite T2 in Er. apply Rabs_le_inv in B4.
  set (r := fdiv s ftwo) in *. clearbody r. split; [exact Fr|].
  assert (AE2 : Rabs (B2R s / 2 * e2) <= 7378138 * u) by (rewrite Rabs_mult; apply Rmult_le_compat; auto using Rabs_pos; apply Rabs_le; lra). apply Rabs_le_inv in AE2.
  assert (Er' : B2R r = B2R s / 2 + B2R s / 2 * e2 + h2) by (rewrite Er; ring). clear Er.
  rewrite u_val in *. apply Rabs_le. lra.
Qed.

(** ** the model: GeoPath(A, B).cross_track_distance(C), .track_distance() and .on_great_circle(C, atol) for scalar GeoPoints in degrees *)
Definition fgeo_radius fsin fcos (latA lonA zA latB lonB zB a f : float64) : float64 :=
  fpath_radius (fgeo_point_to_ecef fsin fcos latA lonA zA a f) (fgeo_point_to_ecef fsin fcos latB lonB zB a f).
(** objects.py 885-916 with radius=None *)
Definition fgeo_cross_track dot fsin fcos arcsin (latA lonA zA latB lonB zB latC lonC a f : float64) : float64 :=
  fcross_track_distance dot arcsin (nvec_deg fsin fcos latA lonA) (nvec_deg fsin fcos latB lonB) (nvec_deg fsin fcos latC lonC) (fgeo_radius fsin fcos latA lonA zA latB lonB zB a f).
(** objects.py 918-945 with method='greatcircle', radius=None *)
Definition fgeo_track dot fsin fcos arctan2 (latA lonA zA latB lonB zB a f : float64) : float64 :=
  fgreat_circle_distance dot arctan2 (nvec_deg fsin fcos latA lonA) (nvec_deg fsin fcos latB lonB) (fgeo_radius fsin fcos latA lonA zA latB lonB zB a f).

Lemma radius_ok fsin fcos latA lonA zA latB lonB zB pA pB : good_trig fsin sin -> good_trig fcos cos -> valid latA lonA zA -> valid latB lonB zB -> Rabs (B2R zA) <= 1000000 -> Rabs (B2R zB) <= 1000000 ->
  position 6378137 (B2R wgs84_f) (B2R latA) (B2R lonA) (B2R zA) pA -> position 6378137 (B2R wgs84_f) (B2R latB) (B2R lonB) (B2R zB) pB ->
  let r := fgeo_radius fsin fcos latA lonA zA latB lonB zB wgs84_a wgs84_f in let R := (vnorm pA + vnorm pB) / 2 in
  is_finite r = true /\ 0 <= R <= 7378137 /\ Rabs (B2R r - R) <= 38 / 1000000000.
Proof.
  intros GS GC VA VB BA BB HA HB. unfold fgeo_radius, fpath_radius. cbv zeta.
  destruct (length_of_position fsin fcos latA lonA zA pA GS GC VA BA HA) as (FA & RA & DA). destruct (length_of_position fsin fcos latB lonB zB pB GS GC VB BB HB) as (FB & RB & DB).
  destruct (half_err _ _ _ _ FA FB RA RB DA DB) as (Fr & DR). split; [exact Fr|]. split; [lra|exact DR].
Qed.

(** the distance along the great circle *)
Theorem C106_track_distance : forall dot fsin fcos arctan2 latA lonA zA latB lonB zB pA pB,
  good_dot dot -> good_trig fsin sin -> good_trig fcos cos -> good_atan2 arctan2 -> valid latA lonA zA -> valid latB lonB zB -> Rabs (B2R zA) <= 1000000 -> Rabs (B2R zB) <= 1000000 ->
  position 6378137 (B2R wgs84_f) (B2R latA) (B2R lonA) (B2R zA) pA -> position 6378137 (B2R wgs84_f) (B2R latB) (B2R lonB) (B2R zB) pB ->
  Rabs (B2R (fgeo_track dot fsin fcos arctan2 latA lonA zA latB lonB zB wgs84_a wgs84_f)
        - angle (place (B2R latA) (B2R lonA)) (place (B2R latB) (B2R lonB)) * ((vnorm pA + vnorm pB) / 2)) <= 2 / 10000000.
Proof.
  intros dot fsin fcos arctan2 latA lonA zA latB lonB zB pA pB GD GS GC GA VA VB BA BB HA HB.
  destruct (radius_ok fsin fcos latA lonA zA latB lonB zB pA pB GS GC VA VB BA BB HA HB) as (Fr & RR & DR). unfold fgeo_track. set (r := fgeo_radius _ _ _ _ _ _ _ _ _ _) in *. clearbody r.
  apply (course_distance dot fsin fcos arctan2 latA lonA zA latB lonB zB r ((vnorm pA + vnorm pB) / 2) GS GC GA GD VA VB Fr RR DR).
Qed.
Print Assumptions C106_track_distance.

(** the distance from the great circle; [s] is the sine of the angle between the ends, [m] bounds the sine of the cross track angle *)
Lemma cross_core dot arcsin a' b' q' a b q r R m : good_dot dot -> good_arcsin arcsin -> near_unit a' -> near_unit b' -> near_unit q' -> vec_of a' <> v0 -> vec_of b' <> v0 -> vec_of q' <> v0 ->
  vnorm a = 1 -> vnorm b = 1 -> vnorm q = 1 -> let e := 163 / 10 * u in
  vnorm (vsub (direction (vec_of a')) a) <= e -> vnorm (vsub (direction (vec_of b')) b) <= e -> vnorm (vsub (direction (vec_of q')) q) <= e ->
  is_finite r = true -> 0 <= R <= 7378137 -> Rabs (B2R r - R) <= 38 / 1000000000 ->
  let s := vnorm (vcross a b) in let err := (33 + 75 / s) * u in / 1000000000000 <= s -> 0 <= m < 1 -> Rabs (track_sine a b q) + err <= m ->
  let d := fcross_track_distance dot arcsin a' b' q' r in
  is_finite d = true /\ Rabs (B2R d - asin (track_sine a b q) * R) <= err / sqrt (1 - m * m) * 7378138 + 7 / 100000000.
Proof.
  intros GD GA Ua Ub Uq Na Nb Nq Va Vb Vq e Da Db Dq Fr RR DR s err Hs Hm Hb d. pose proof u_pos as Pu. pose proof u_tiny as Su. assert (Us : u <= / 9000000000000000) by (rewrite u_val; lra).
  assert (He : 0 <= e <= / 1000) by (unfold e; lra). assert (H2 : 2 * e + 20 * u <= / 100 * s) by (unfold e; lra).
  destruct (path_moves a' b' a b e Na Nb Ua Ub Va Vb He Da Db H2) as (LS & _). pose proof (sine_moves a' b' q' a b q e Na Nb Nq Ua Ub Va Vb Vq He Da Db Dq H2) as SM. fold s in LS, SM.
  set (s' := vnorm (vcross (vec_of a') (vec_of b'))) in *. set (S' := track_sine (vec_of a') (vec_of b') (vec_of q')) in *. set (S := track_sine a b q) in *.
  assert (Ps : 0 < s) by lra. assert (IS : 0 < / s) by (apply Rinv_0_lt_compat; lra). assert (IS' : / s' <= 101 / 100 * / s + / s * / 100).
  { replace (101 / 100 * / s + / s * / 100) with (102 / 100 * / s) by lra. apply (Rmult_le_reg_l s'); [lra|]. rewrite Rinv_r by lra. replace (s' * (102 / 100 * / s)) with (102 / 100 * (s' * / s)) by ring.
    assert (99 / 100 <= s' * / s). { apply (Rmult_le_reg_r s); [lra|]. rewrite Rmult_assoc, Rinv_l by lra. lra. } lra. }
  set (err' := 16 * u + 9 * u / s'). set (mov := e + 4 * e / s) in *.
  assert (P1 : 0 <= u * / s) by (apply Rmult_le_pos; lra).
  assert (E1 : err' <= 16 * u + 93 / 10 * (u * / s)). { unfold err', Rdiv. assert (u * / s' <= u * (101 / 100 * / s + / s * / 100)) by (apply Rmult_le_compat_l; lra). lra. }
  assert (E2 : mov = 163 / 10 * u + 652 / 10 * (u * / s)) by (unfold mov, e; field; lra).
  assert (E3 : err = 33 * u + 75 * (u * / s)) by (unfold err; field; lra).
  assert (BS' : Rabs S' <= Rabs S + mov). { replace S' with (S + (S' - S)) by ring. eapply Rle_trans; [apply Rabs_triang|]. lra. }
  assert (Hs' : 10 * u <= s') by lra. assert (Br : Rabs (B2R r) <= 7378138). { apply Rabs_le_inv in DR. apply Rabs_le. lra. }
  assert (Big : 32000000 <= bpow radix2 1000). { apply Rle_trans with (bpow radix2 25); [cbn; lra|apply bpow_le; lia]. }
  destruct (C85_distance_accuracy dot arcsin a' b' q' r m GD GA Ua Ub Uq Fr ltac:(lra) Hs' Hm) as (Fd & Ed). { fold s' S' err'. lra. }
  fold d s' S' err' in Fd, Ed. split; [exact Fd|]. pose proof (asin_spread S' S m Hm ltac:(lra) ltac:(lra)) as AS.
  set (g := sqrt (1 - m * m)) in *. assert (Pg : 0 < g) by (apply sqrt_lt_R0; nra). assert (IG : 0 < / g) by (apply Rinv_0_lt_compat; lra).
  assert (BA : Rabs (asin S) <= 16 / 10). { pose proof (asin_bound S). pose proof pi_bounds as PB. rewrite pi64_val in PB. apply Rabs_le. lra. }
  replace (B2R d - asin S * R) with ((B2R d - asin S' * B2R r) + ((asin S' - asin S) * B2R r + asin S * (B2R r - R))) by ring.
  eapply Rle_trans; [apply Rabs_triang|]. eapply Rle_trans; [apply Rplus_le_compat_l, Rabs_triang|]. rewrite !Rabs_mult.
  assert (X1 : Rabs (asin S) * Rabs (B2R r - R) <= 16 / 10 * (38 / 1000000000)) by (apply Rmult_le_compat; auto using Rabs_pos).
  assert (X2 : Rabs (asin S' - asin S) * Rabs (B2R r) <= mov / g * 7378138). { apply Rmult_le_compat; auto using Rabs_pos. eapply Rle_trans; [exact AS|]. unfold Rdiv. apply Rmult_le_compat_r; [lra|exact SM]. }
  assert (PE : 0 <= err'). { unfold err', Rdiv. assert (0 <= u * / s') by (apply Rmult_le_pos; [lra|left; apply Rinv_0_lt_compat; lra]). lra. }
  assert (X3 : (err' / g + 6 * u) * Rabs (B2R r) <= (err' / g + 6 * u) * 7378138). { apply Rmult_le_compat_l; [|lra]. assert (0 <= err' / g) by (apply Rmult_le_pos; lra). lra. }
  assert (X4 : (err' + mov) * / g <= err * / g) by (apply Rmult_le_compat_r; lra). pose proof tiny_eta as Te. pose proof eta_pos as Pe. unfold Rdiv in *. clear - Ed X1 X2 X3 X4 Te Pe Us. lra.
Qed.
Theorem C106_cross_track : forall dot fsin fcos arcsin latA lonA zA latB lonB zB latC lonC pA pB m,
  good_dot dot -> good_trig fsin sin -> good_trig fcos cos -> good_arcsin arcsin -> valid latA lonA zA -> valid latB lonB zB -> valid_at latC lonC -> Rabs (B2R zA) <= 1000000 -> Rabs (B2R zB) <= 1000000 ->
  position 6378137 (B2R wgs84_f) (B2R latA) (B2R lonA) (B2R zA) pA -> position 6378137 (B2R wgs84_f) (B2R latB) (B2R lonB) (B2R zB) pB ->
  let A := place (B2R latA) (B2R lonA) in let B := place (B2R latB) (B2R lonB) in let C := place (B2R latC) (B2R lonC) in
  let s := vnorm (vcross A B) in let err := (33 + 75 / s) * u in / 1000000000000 <= s -> 0 <= m < 1 -> Rabs (track_sine A B C) + err <= m ->
  let d := fgeo_cross_track dot fsin fcos arcsin latA lonA zA latB lonB zB latC lonC wgs84_a wgs84_f in
  is_finite d = true /\ Rabs (B2R d - asin (track_sine A B C) * ((vnorm pA + vnorm pB) / 2)) <= err / sqrt (1 - m * m) * 7378138 + 7 / 100000000.
Proof.
  intros dot fsin fcos arcsin latA lonA zA latB lonB zB latC lonC pA pB m GD GS GC GA VA VB VC BA BB HA HB A B C s err Hs Hm Hb d.
  destruct (radius_ok fsin fcos latA lonA zA latB lonB zB pA pB GS GC VA VB BA BB HA HB) as (Fr & RR & DR). unfold d, fgeo_cross_track. clear d. set (r := fgeo_radius _ _ _ _ _ _ _ _ _ _) in *. clearbody r.
  assert (WA : valid_at latA lonA) by (destruct VA as (? & ? & ? & ? & _); repeat split; auto). assert (WB : valid_at latB lonB) by (destruct VB as (? & ? & ? & ? & _); repeat split; auto).
  destruct (nvec_near fsin fcos latA lonA GS GC WA) as (U1 & N1 & _ & D1). destruct (nvec_near fsin fcos latB lonB GS GC WB) as (U2 & N2 & _ & D2). destruct (nvec_near fsin fcos latC lonC GS GC VC) as (U3 & N3 & _ & D3).
  apply (cross_core dot arcsin _ _ _ A B C r _ m GD GA U1 U2 U3 N1 N2 N3 (place_unit _ _) (place_unit _ _) (place_unit _ _) D1 D2 D3 Fr RR DR Hs Hm Hb).
Qed.
Print Assumptions C106_cross_track.

(** a path of at least some 100 km, and as far from half a turn; a position up to 44 degrees (4900 km) from its great circle: 6 micrometres *)
Theorem C106_cross_track_earth : forall dot fsin fcos arcsin latA lonA zA latB lonB zB latC lonC pA pB,
  good_dot dot -> good_trig fsin sin -> good_trig fcos cos -> good_arcsin arcsin -> valid latA lonA zA -> valid latB lonB zB -> valid_at latC lonC -> Rabs (B2R zA) <= 1000000 -> Rabs (B2R zB) <= 1000000 ->
  position 6378137 (B2R wgs84_f) (B2R latA) (B2R lonA) (B2R zA) pA -> position 6378137 (B2R wgs84_f) (B2R latB) (B2R lonB) (B2R zB) pB ->
  let A := place (B2R latA) (B2R lonA) in let B := place (B2R latB) (B2R lonB) in let C := place (B2R latC) (B2R lonC) in
  / 64 <= vnorm (vcross A B) -> Rabs (track_sine A B C) <= 7 / 10 ->
  let d := fgeo_cross_track dot fsin fcos arcsin latA lonA zA latB lonB zB latC lonC wgs84_a wgs84_f in is_finite d = true /\
  Rabs (B2R d - asin (track_sine A B C) * ((vnorm pA + vnorm pB) / 2)) <= 6 / 1000000.
Proof.
  intros dot fsin fcos arcsin latA lonA zA latB lonB zB latC lonC pA pB GD GS GC GA VA VB VC BA BB HA HB A B C Hs Hb d. pose proof u_pos as Pu. assert (Us : u <= / 9000000000000000) by (rewrite u_val; lra).
  set (s := vnorm (vcross A B)) in *. assert (IS : / s <= 64) by (replace 64 with (/ / 64) by field; apply Rinv_le; lra). assert (IS0 : 0 < / s) by (apply Rinv_0_lt_compat; lra).
  assert (US : 0 <= u * / s <= u * 64) by (split; [apply Rmult_le_pos; lra|apply Rmult_le_compat_l; lra]).
  assert (EE : (33 + 75 / s) * u <= 4833 * u) by (unfold Rdiv; lra). assert (PE : 0 <= (33 + 75 / s) * u) by (unfold Rdiv; lra).
  destruct (C106_cross_track dot fsin fcos arcsin latA lonA zA latB lonB zB latC lonC pA pB (70001 / 100000) GD GS GC GA VA VB VC BA BB HA HB) as (FD & E); fold A B C; fold s; try lra.
  fold A B C in E. fold s in E. split; [exact FD|]. eapply Rle_trans; [exact E|]. set (g := sqrt _). assert (G : 714 / 1000 <= g). { unfold g. rewrite <- (sqrt_square (714 / 1000)) by lra. apply sqrt_le_1_alt. lra. }
  assert (IG : / g <= 1000 / 714). { replace (1000 / 714) with (/ (714 / 1000)) by field. apply Rinv_le; lra. } assert (IG0 : 0 < / g) by (apply Rinv_0_lt_compat; lra).
  set (err := (33 + 75 / s) * u) in *. unfold Rdiv at 1. assert (err * / g <= 4833 * u * (1000 / 714)) by (apply Rmult_le_compat; lra). rewrite u_val in *. lra.
Qed.
Print Assumptions C106_cross_track_earth.

(** ** on_great_circle (objects.py 982-988): isclose(|distance|, 0, atol=atol), rtol being 1e-9 *)
Definition frtol : float64 := f 4835703278458517 (-82) eq_refl.
Lemma frtol_val : is_finite frtol = true /\ 0 <= B2R frtol <= / 100 /\ Rabs (B2R frtol - / 1000000000) <= / 10000000000000000000000000.
Proof. split; [reflexivity|]. unfold frtol, f, B2R, F2R; cbn. split; [lra|apply Rabs_le; lra]. Qed.
(** GeoPath.on_great_circle, objects.py 983-989, one point *)
Definition fgeo_on_great_circle dot fsin fcos arcsin (latA lonA zA latB lonB zB latC lonC a f atol : float64) : bool :=
  fisclose frtol atol false (fabs (fgeo_cross_track dot fsin fcos arcsin latA lonA zA latB lonB zB latC lonC a f)) fzero.
Lemma close_to_zero atol d : is_finite d = true -> is_finite atol = true -> Rabs (B2R d) <= 10000000 -> 0 <= B2R atol <= 10000000 ->
  (fisclose frtol atol false (fabs d) fzero = true -> Rabs (B2R d) <= B2R atol + / 100000000) /\
  (Rabs (B2R d) <= B2R atol - / 100000000 -> fisclose frtol atol false (fabs d) fzero = true).
Proof.
  intros Fd Fa Bd Ba. destruct frtol_val as (Fr & Vr & _). pose proof u_pos as Pu. pose proof eta_pos as Pe. pose proof tiny_eta as Te. assert (Us : u <= / 9000000000000000) by (rewrite u_val; lra).
  assert (Big : 32000000 <= bpow radix2 1000). { apply Rle_trans with (bpow radix2 25); [cbn; lra|apply bpow_le; lia]. } assert (V0 : B2R fzero = 0) by reflexivity.
  destruct (C83_decision frtol atol false (fabs d) fzero) as (P & Q); auto; rewrite ?fabs_fin, ?fabs_val, ?V0, ?Rabs_Rabsolu, ?Rabs_R0; auto; try lra.
  rewrite fabs_val, V0, Rabs_Rabsolu, Rabs_R0, Rminus_0_r, Rabs_Rabsolu in P, Q. pose proof (Rabs_pos (B2R d)) as PD. set (x := Rabs (B2R d)) in *. rewrite (Rmax_left x 0) in P, Q by lra.
  set (T := Rmax (B2R atol) (B2R frtol * x)) in *. assert (GT : 0 <= B2R frtol * x <= x / 100). { split; [apply Rmult_le_pos; lra|]. apply Rle_trans with (/ 100 * x); [apply Rmult_le_compat_r; lra|lra]. }
  assert (T1 : B2R atol <= T) by apply Rmax_l. assert (T2 : T <= B2R atol + x / 100). { apply Rmax_lub; lra. } assert (T3 : T = B2R atol \/ T = B2R frtol * x) by (unfold T, Rmax; destruct (Rle_dec (B2R atol) (B2R frtol * x)); auto).
  assert (UT : u * T <= u * 10100000) by (apply Rmult_le_compat_l; lra). split.
  - intros H. apply P in H. destruct T3 as [E|E]; [rewrite E in *|]; lra.
  - intros H. apply Q. lra.
Qed.
Theorem C106_on_great_circle : forall dot fsin fcos arcsin latA lonA zA latB lonB zB latC lonC pA pB atol,
  good_dot dot -> good_trig fsin sin -> good_trig fcos cos -> good_arcsin arcsin -> valid latA lonA zA -> valid latB lonB zB -> valid_at latC lonC -> Rabs (B2R zA) <= 1000000 -> Rabs (B2R zB) <= 1000000 ->
  position 6378137 (B2R wgs84_f) (B2R latA) (B2R lonA) (B2R zA) pA -> position 6378137 (B2R wgs84_f) (B2R latB) (B2R lonB) (B2R zB) pB -> is_finite atol = true -> 0 <= B2R atol <= 10000000 ->
  let A := place (B2R latA) (B2R lonA) in let B := place (B2R latB) (B2R lonB) in let C := place (B2R latC) (B2R lonC) in
  / 64 <= vnorm (vcross A B) -> Rabs (track_sine A B C) <= 7 / 10 ->
  let distance := Rabs (asin (track_sine A B C) * ((vnorm pA + vnorm pB) / 2)) in
  let answer := fgeo_on_great_circle dot fsin fcos arcsin latA lonA zA latB lonB zB latC lonC wgs84_a wgs84_f atol in
  (answer = true -> distance <= B2R atol + 7 / 1000000) /\ (distance <= B2R atol - 7 / 1000000 -> answer = true).
Proof.
  intros dot fsin fcos arcsin latA lonA zA latB lonB zB latC lonC pA pB atol GD GS GC GA VA VB VC BA BB HA HB Ft Bt A B C Hs Hb D answer.
  destruct (radius_ok fsin fcos latA lonA zA latB lonB zB pA pB GS GC VA VB BA BB HA HB) as (_ & RR & _).
  destruct (C106_cross_track_earth dot fsin fcos arcsin latA lonA zA latB lonB zB latC lonC pA pB GD GS GC GA VA VB VC BA BB HA HB Hs Hb) as (Fd & Ed). fold A B C in Ed.
  unfold answer, fgeo_on_great_circle. clear answer. set (d := fgeo_cross_track _ _ _ _ _ _ _ _ _ _ _ _ _ _) in *. clearbody d. set (R := (vnorm pA + vnorm pB) / 2) in *.
  assert (BA' : Rabs (asin (track_sine A B C)) <= 8 / 10).
  { set (S := track_sine A B C) in *. apply Rabs_le_inv in Hb. assert (Q : 7 / 10 <= sin (8 / 10)). { pose proof (sin_bound (8 / 10) 0) as SB. destruct SB as (SB & _); [lra|pose proof PI_RGT_0; pose proof pi_bounds as PB; rewrite pi64_val in PB; lra|]. unfold sin_approx, sin_term in SB. cbn in SB. lra. }
    pose proof pi_bounds as PB. rewrite pi64_val in PB. assert (M : forall x, -1 <= x <= 1 -> x <= sin (8/10) -> asin x <= 8 / 10).
    { intros x Hx Lx. destruct (Rle_dec (asin x) (8/10)) as [L|L]; [exact L|]. exfalso. pose proof (asin_bound x) as AB. assert (sin (8/10) < sin (asin x)) by (apply sin_increasing_1; lra). rewrite sin_asin in H by lra. lra. }
    apply Rabs_le. split; [|apply M; lra]. pose proof (M (- S) ltac:(lra) ltac:(lra)) as X. rewrite asin_opp in X. lra. }
  assert (BD : D <= 8 / 10 * 7378137). { unfold D. rewrite Rabs_mult. apply Rmult_le_compat; auto using Rabs_pos. rewrite Rabs_right; lra. }
  assert (TD : Rabs (Rabs (B2R d) - D) <= 6 / 1000000) by (unfold D; eapply Rle_trans; [apply Rabs_triang_inv2|exact Ed]). apply Rabs_le_inv in TD.
  destruct (close_to_zero atol d Fd Ft ltac:(lra) Bt) as (P & Q). split; intros H; [apply P in H; lra|apply Q; lra].
Qed.
Print Assumptions C106_on_great_circle.

(** a concrete case: the path from (0 N, 0 E) to (0 N, 90 E), which passes through (0 N, 45 E) *)
Definition f45 : float64 := f 6333186975989760 (-47) eq_refl.
Example C106_example : good_dot dot_seq /\ good_trig (fun x => round64 (sin (B2R x))) sin /\ good_trig (fun x => round64 (cos (B2R x))) cos /\ good_arcsin ideal_arcsin /\ good_atan2 ideal_atan2 /\
  valid fzero fzero fzero /\ valid fzero f90 fzero /\ B2R f45 = 45 /\ valid_at fzero f45 /\ Rabs (B2R fzero) <= 1000000 /\ is_finite default_atol = true /\ 0 <= B2R default_atol <= 10000000 /\
  let pA := V 6378137 0 0 in let pB := V 0 6378137 0 in
  position 6378137 (B2R wgs84_f) (B2R fzero) (B2R fzero) (B2R fzero) pA /\ position 6378137 (B2R wgs84_f) (B2R fzero) (B2R f90) (B2R fzero) pB /\
  let A := place (B2R fzero) (B2R fzero) in let B := place (B2R fzero) (B2R f90) in let C := place (B2R fzero) (B2R f45) in
  vnorm (vcross A B) = 1 /\ track_sine A B C = 0.
Proof.
  destruct C105_example as (_ & E1 & E2 & E3 & _ & E4 & E5 & E6 & E7 & E8). cbv zeta in E8. destruct E8 as (E8 & E9 & _).
  assert (V45 : B2R f45 = 45) by (unfold f45, f, B2R, F2R; cbn; lra). assert (V0 : B2R fzero = 0) by reflexivity. assert (V90 : B2R f90 = 90) by (unfold f90, f, B2R, F2R; cbn; lra).
  repeat (split; [first [assumption|apply ideal_arcsin_good|reflexivity]|]). split; [unfold valid_at; rewrite V45, V0, Rabs_R0, Rabs_right by lra; repeat split; auto; lra|]. split; [assumption|]. split; [reflexivity|]. split; [pose proof default_atol_val as DV; apply Rabs_le_inv in DV; lra|].
  cbv zeta. split; [exact E8|]. split; [exact E9|]. rewrite V0, V90, V45. unfold place, latlon_vec. replace (0 * (PI / 180)) with 0 by ring. replace (90 * (PI / 180)) with (PI / 2) by field. rewrite sin_0, cos_0, cos_PI2, sin_PI2.
  match goal with |- vnorm (vcross ?a ?b) = 1 /\ _ => assert (X : vcross a b = V 0 0 1) by (unfold vcross; cbn [Spec.vx Spec.vy Spec.vz]; apply vec_eq; cbn [Spec.vx Spec.vy Spec.vz]; ring) end.
  rewrite X. assert (N1 : vnorm (V 0 0 1) = 1) by (unfold vnorm, vdot; cbn [Spec.vx Spec.vy Spec.vz]; replace (0 * 0 + 0 * 0 + 1 * 1) with 1 by ring; apply sqrt_1). split; [exact N1|].
  unfold track_sine, direction. rewrite X, N1. unfold vdot, vscale; cbn [Spec.vx Spec.vy Spec.vz]. ring.
Qed.
