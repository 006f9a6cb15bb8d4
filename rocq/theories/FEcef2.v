(** * C89: from latitude, longitude and depth to ECEF coordinates in binary64 *)
From Coq Require Import ZArith Reals Lra Lia Bool Psatz.
From Flocq Require Import Core BinarySingleNaN Relative.
From Verif Require Import Spec SpecArr LVec LAngle LEcef PEcef FTiny FBase FRel FUnit FPi FAngle FDist FGreat FLatLon FInv FEcef.
Local Open Scope R_scope.

(** ** the surface point moves by at most a / (1 - f) times the movement of the normal *)
Lemma normalise_lipschitz x y : 1 <= vnorm x -> 1 <= vnorm y -> vnorm (vsub (direction x) (direction y)) <= vnorm (vsub x y).
Proof.
  intros Hx Hy. set (p := vnorm x) in *. set (q := vnorm y) in *.
  assert (Dx : vdot x x = p * p) by (unfold p; rewrite vnorm_sq; auto). assert (Dy : vdot y y = q * q) by (unfold q; rewrite vnorm_sq; auto).
  unfold vnorm at 1 2. apply sqrt_le_1_alt. unfold direction. fold p q.
  assert (E1 : vdot (vsub (vscale (/ p) x) (vscale (/ q) y)) (vsub (vscale (/ p) x) (vscale (/ q) y)) = / p * / p * vdot x x + / q * / q * vdot y y - 2 * (/ p * / q) * vdot x y) by (clear; vring).
  assert (E2 : vdot (vsub x y) (vsub x y) = vdot x x + vdot y y - 2 * vdot x y) by (clear; vring).
  rewrite E1, E2, Dx, Dy. pose proof (cauchy_schwarz x y) as CS. fold p q in CS. apply Rabs_le_inv in CS. set (d := vdot x y) in *.
  replace (/ p * / p * (p * p) + / q * / q * (q * q) - 2 * (/ p * / q) * d) with ((2 * (p * q) - 2 * d) / (p * q)) by (field; lra).
  assert (PQ : 1 <= p * q) by nra. apply (Rmult_le_reg_r (p * q)); [lra|]. unfold Rdiv. rewrite Rmult_assoc, Rinv_l, Rmult_1_r by lra.
  assert (Q0 : 0 <= 2 * (p * q) - 2 * d) by lra. assert (Q1 : 2 * (p * q) - 2 * d <= p * p + q * q - 2 * d) by (pose proof (Rle_0_sqr (p - q)) as SQ; unfold Rsqr in SQ; lra).
  apply Rle_trans with ((2 * (p * q) - 2 * d) * (p * q)); [rewrite <- (Rmult_1_r (2 * (p * q) - 2 * d)) at 1; apply Rmult_le_compat_l; lra|apply Rmult_le_compat_r; lra].
Qed.
Lemma psurf_scaled a f w : f < 1 -> w <> v0 -> psurf a f w = vscale (a * (1 - f)) (scaled (1 - f) (direction (scaled (1 - f) w))).
Proof.
  intros Hf Hw. pose proof (den_pos f w ltac:(lra) Hw) as D. unfold direction. rewrite scaled_norm by auto. unfold psurf, cc, scaled, vscale; cbn [Spec.vx Spec.vy Spec.vz]. apply vec_eq; cbn [Spec.vx Spec.vy Spec.vz]; field; lra.
Qed.
Lemma scaled_lipschitz s x : 0 < s <= 1 -> vnorm (scaled s x) <= / s * vnorm x.
Proof.
  intros Hs. assert (I : 1 <= / s) by (rewrite <- Rinv_1 at 1; apply Rinv_le; lra).
  replace (/ s * vnorm x) with (vnorm (vscale (/ s) (V (Rabs (Spec.vx x)) (Rabs (Spec.vy x)) (Rabs (Spec.vz x))))).
  - apply norm_le_comp; unfold scaled, vscale; cbn [Spec.vx Spec.vy Spec.vz]; unfold Rdiv; rewrite Rabs_mult, (Rabs_right (/ _)) by lra.
    + rewrite Rinv_1, Rmult_1_r. rewrite <- (Rmult_1_l (Rabs (Spec.vx x))) at 1. apply Rmult_le_compat_r; [apply Rabs_pos|lra].
    + lra.
    + lra.
  - rewrite vnorm_scale, (Rabs_right (/ s)) by lra. f_equal. unfold vnorm. f_equal. unfold vdot; cbn [Spec.vx Spec.vy Spec.vz]. rewrite <- !Rabs_mult, !Rabs_right by nra. reflexivity.
Qed.
Lemma psurf_lipschitz a f v w : 0 < a -> 0 <= f <= 1 / 2 -> vnorm v = 1 -> vnorm w = 1 -> vnorm (vsub (psurf a f v) (psurf a f w)) <= a / (1 - f) * vnorm (vsub v w).
Proof.
  intros Pa Hf Nv Nw. rewrite !psurf_scaled by (try apply vnorm_inv; auto; lra). set (s := 1 - f) in *. assert (Hs : 0 < s <= 1) by (unfold s; lra).
  assert (SL : forall x y, vsub (scaled s x) (scaled s y) = scaled s (vsub x y)).
  { intros x y. unfold scaled, vsub; cbn [Spec.vx Spec.vy Spec.vz]. apply vec_eq; cbn [Spec.vx Spec.vy Spec.vz]; field; lra. }
  replace (vsub (vscale (a * s) (scaled s (direction (scaled s v)))) (vscale (a * s) (scaled s (direction (scaled s w)))))
    with (vscale (a * s) (scaled s (vsub (direction (scaled s v)) (direction (scaled s w))))) by (rewrite <- SL; vring).
  assert (PAS : 0 < a * s) by (apply Rmult_lt_0_compat; lra). rewrite vnorm_scale, (Rabs_right (a * s)) by lra.
  assert (I : 0 < / s) by (apply Rinv_0_lt_compat; lra).
  assert (K : vnorm (scaled s (vsub (direction (scaled s v)) (direction (scaled s w)))) <= / s * (/ s * vnorm (vsub v w))).
  { eapply Rle_trans; [apply scaled_lipschitz; auto|]. apply Rmult_le_compat_l; [lra|]. eapply Rle_trans; [apply normalise_lipschitz|].
    - unfold s. rewrite scaled_norm by lra. apply den_bounds; auto.
    - unfold s. rewrite scaled_norm by lra. apply den_bounds; auto.
    - rewrite SL. apply scaled_lipschitz; auto. }
  apply Rle_trans with (a * s * (/ s * (/ s * vnorm (vsub v w)))); [apply Rmult_le_compat_l; lra|]. right. field. lra.
Qed.
Lemma chord_le_angle x y : vnorm x = 1 -> vnorm y = 1 -> vnorm (vsub x y) <= angle x y.
Proof.
  intros Nx Ny. rewrite angle_sym. rewrite chord_angle by auto. pose proof (angle_range y x) as B. pose proof (sin_lt_x (angle y x / 2)) as S.
  destruct (Req_dec (angle y x) 0) as [E|E]; [rewrite E; unfold Rdiv; rewrite Rmult_0_l, sin_0; lra|]. lra.
Qed.

Lemma near_unit_ordinary n : near_unit n -> ordinary_vec n.
Proof.
  destruct n as [[x y] z]. intros H. destruct (comp_bound x y z H) as (Fx & Fy & Fz & Bx & By & Bz & L & _). pose proof u_pos as Pu. pose proof u_tiny as Su.
  assert (B : 2 <= bpow radix2 400). { change 2 with (bpow radix2 1). apply bpow_le; lia. }
  assert (C : bpow radix2 (-400) <= / 4). { change (/ 4) with (bpow radix2 (-2)). apply bpow_le; lia. }
  unfold ordinary_vec, ordinary. repeat (split; [auto; lra|]).
  destruct (Rle_dec (bpow radix2 (-400)) (Rabs (B2R x))) as [|Gx]; auto. destruct (Rle_dec (bpow radix2 (-400)) (Rabs (B2R y))) as [|Gy]; auto.
  destruct (Rle_dec (bpow radix2 (-400)) (Rabs (B2R z))) as [|Gz]; auto. exfalso.
  assert (Q : forall r, ~ bpow radix2 (-400) <= Rabs r -> r * r <= / 16).
  { intros r Hr. apply Rnot_le_lt in Hr. pose proof (Rabs_pos r). replace (r * r) with (Rabs r * Rabs r) by (rewrite <- Rabs_mult; apply Rabs_right; nra). nra. }
  pose proof (Q _ Gx). pose proof (Q _ Gy). pose proof (Q _ Gz). assert (1 / 2 <= (1 - 6 * u) * (1 - 6 * u)) by nra. lra.
Qed.

(** ** GeoPoint(latitude, longitude, z, frame, degrees=True).to_ecef_vector().pvector
    (objects.py 206-210, 253-261, 274-284, 534-546; core.py 65-72; util.py 318-321), one point in a frame with the default axes *)
Definition fgeo_point_to_ecef fsin fcos (lat lon z a f : float64) : vec64 :=
  fn_EB_E2p_EB_E (flat_lon2n_E fsin fcos (frad lat) (frad lon)) z a f.
(** [s] is the point of the ellipsoid at geodetic latitude [lat] and longitude [lon] (in degrees): the normal points that way *)
Definition surface_point (a f lat lon : R) (s : vec) : Prop :=
  on_ellipsoid a f (V 0 0 1) s /\ same_direction (ellipsoid_gradient a f (V 0 0 1) s) (latlon_vec (lat * (PI / 180)) (lon * (PI / 180))).

Theorem C89_from_degrees : forall fsin fcos lat lon z a f, good_trig fsin sin -> good_trig fcos cos ->
  is_finite lat = true -> is_finite lon = true -> Rabs (B2R lat) <= 90 -> Rabs (B2R lon) <= 180 ->
  is_finite z = true -> Rabs (B2R z) <= bpow radix2 300 -> usual_ellipsoid a f ->
  finite_vec (fgeo_point_to_ecef fsin fcos lat lon z a f) /\
  exists s, surface_point (B2R a) (B2R f) (B2R lat) (B2R lon) s /\
    vnorm (vsub (vec_of (fgeo_point_to_ecef fsin fcos lat lon z a f))
                (vsub s (vscale (B2R z) (latlon_vec (B2R lat * (PI / 180)) (B2R lon * (PI / 180))))))
      <= 25 * u * B2R a + 17 * u * (B2R a / (1 - B2R f)) + 25 * u * Rabs (B2R z).
Proof.
  intros fsin fcos lat lon z a f GS GC Fa Fo Ba Bo Fz Bz HE. pose proof u_pos as Pu. pose proof u_small as Su. pose proof PI_33 as PU. pose proof PI_RGT_0 as P0. pose proof pi_bounds as PB. rewrite pi64_val in PB.
  pose proof eta_pos as Pe. pose proof tiny_consts as TC. pose proof (bpow_gt_0 radix2 (-399)) as P3.
  destruct (rad_moves lat 90 Fa Ba ltac:(lra)) as (G1 & R1 & D1). destruct (rad_moves lon 180 Fo Bo ltac:(lra)) as (G2 & R2 & D2).
  destruct (C81_n_vector fsin fcos _ _ GS GC G1 G2 R1 R2) as (NU & NA). unfold fgeo_point_to_ecef. set (n := flat_lon2n_E fsin fcos (frad lat) (frad lon)) in *.
  pose proof (near_unit_ordinary n NU) as O. destruct (position_err n z a f O HE Fz Bz) as (F & E). split; auto.
  assert (NL : vec_of n <> v0).
  { destruct n as [[x y] zz]. destruct O as (_ & _ & _ & _ & _ & _ & G). pose proof (bpow_gt_0 radix2 (-400)). intros E'. injection E' as Ex Ey Ez. rewrite Ex, Ey, Ez, Rabs_R0 in G. lra. }
  destruct HE as (_ & _ & BA & Bf). pose proof (bpow_gt_0 radix2 (-100)) as P1.
  set (a1 := B2R lat * (PI / 180)) in *. set (o1 := B2R lon * (PI / 180)) in *.
  assert (M1 : angle (latlon_vec a1 o1) (latlon_vec (B2R (frad lat)) (B2R (frad lon))) <= 110 / 10 * u).
  { eapply Rle_trans; [apply latlon_moves; nra|]. nra. }
  pose proof (fun a b => vnorm_inv _ (latlon_unit a b)) as NZ. pose proof (latlon_unit a1 o1) as NP. set (P := latlon_vec a1 o1) in *. assert (ZP : P <> v0) by apply NZ.
  pose proof (angle_triangle P (latlon_vec (B2R (frad lat)) (B2R (frad lon))) (vec_of n) ZP (NZ _ _) NL) as T.
  assert (A : angle P (direction (vec_of n)) <= 163 / 10 * u). { unfold direction. rewrite angle_scale_r by (auto; apply Rinv_0_lt_compat, vnorm_nz; auto). lra. }
  set (N := direction (vec_of n)) in *. assert (NN : vnorm N = 1) by (apply direction_unit; auto).
  pose proof (chord_le_angle P N NP NN) as CH. pose proof Me_orthogonal as OM.
  assert (Hw : mulv Me P <> v0) by (apply orthogonal_nz; auto).
  exists (mulv (mT Me) (psurf (B2R a) (B2R f) (mulv Me P))). unfold surface_point. change (V 0 0 1) with (north Me). split; [split; [apply psurf_on_ellipsoid; auto; lra|]|].
  - fold P. eapply same_direction_trans; [apply psurf_normal; auto; lra|]. rewrite orthogonal_inv by auto. exists 1. split; [lra|]. symmetry. apply vscale_1.
  - set (z' := B2R z) in *. set (A' := B2R a) in *. set (fl := B2R f) in *. set (p := vec_of (fn_EB_E2p_EB_E n z a f)) in *.
    set (S1 := psurf A' fl (mulv Me P)). unfold pint in E. set (S2 := psurf A' fl (mulv Me N)) in *.
    assert (L : vnorm (vsub S2 S1) <= A' / (1 - fl) * vnorm (vsub P N)).
    { unfold S1, S2. eapply Rle_trans; [apply psurf_lipschitz; auto; try lra; rewrite orthogonal_norm; auto|]. right. f_equal. rewrite <- mulv_sub, orthogonal_norm by auto.
      replace (vsub N P) with (vneg (vsub P N)) by (clear; vring). apply vnorm_neg. }
    rewrite mulv_sub, mulv_scale, orthogonal_inv in E by auto.
    replace (vsub p (vsub (mulv (mT Me) S1) (vscale z' P))) with
      (vadd (vadd (vsub p (vsub (mulv (mT Me) S2) (vscale z' N))) (vsub (mulv (mT Me) S2) (mulv (mT Me) S1))) (vscale z' (vsub P N))) by (generalize (mulv (mT Me) S1) (mulv (mT Me) S2); clearbody p P N; intros; clear; vring).
    eapply Rle_trans; [apply norm_triangle|]. eapply Rle_trans; [apply Rplus_le_compat_r, norm_triangle|]. rewrite <- mulv_sub, orthogonal_norm by (apply orthogonal_T; auto). rewrite vnorm_scale.
    pose proof (Rabs_pos z') as Pz. assert (PA : 0 <= A' / (1 - fl)) by (apply Rmult_le_pos; [lra|apply Rlt_le, Rinv_0_lt_compat; lra]).
    assert (X1 : A' / (1 - fl) * vnorm (vsub P N) <= A' / (1 - fl) * (163 / 10 * u)) by (apply Rmult_le_compat_l; lra).
    assert (X2 : Rabs z' * vnorm (vsub P N) <= Rabs z' * (163 / 10 * u)) by (apply Rmult_le_compat_l; lra).
    assert (0 <= u * Rabs z') by (apply Rmult_le_pos; lra). assert (0 <= u * (A' / (1 - fl))) by (apply Rmult_le_pos; lra). lra.
Qed.
Print Assumptions C89_from_degrees.

(** ** the WGS-84 ellipsoid of FrameE(): a = 6378137 and f = 1.0 / 298.257223563 (util.py 40, entry 18 of the table) *)
Definition wgs84_a : float64 := f 6848472456101888 (-30) eq_refl.
Definition wgs84_f : float64 := fdiv fone (f 5246996566011272 (-44) eq_refl).
Lemma wgs84_a_val : B2R wgs84_a = 6378137. Proof. unfold wgs84_a, f, B2R, F2R; cbn. lra. Qed.
Lemma wgs84_f_fin : B2SF wgs84_f = SpecFloat.S754_finite false 7731055032525096 (-61). Proof. vm_compute. reflexivity. Qed.
Lemma wgs84_f_val : is_finite wgs84_f = true /\ B2R wgs84_f = 966381879065637 / 288230376151711744.
Proof.
  pose proof wgs84_f_fin as E. destruct wgs84_f as [b|b| |b m e H]; cbn [B2SF] in E; try discriminate. injection E as -> -> ->. split; [reflexivity|].
  unfold B2R, F2R; cbn. lra.
Qed.
Lemma wgs84_usual : usual_ellipsoid wgs84_a wgs84_f.
Proof.
  destruct wgs84_f_val as (F & V). unfold usual_ellipsoid. rewrite wgs84_a_val, V. split; [reflexivity|]. split; auto. split; [|lra]. split.
  - apply Rle_trans with (bpow radix2 0); [apply bpow_le; lia|cbn; lra].
  - apply Rle_trans with (bpow radix2 23); [cbn; lra|apply bpow_le; lia].
Qed.
(** 33 nanometres, for every point on the globe down or up to a thousand kilometres *)
Theorem C89_wgs84 : forall fsin fcos lat lon z, good_trig fsin sin -> good_trig fcos cos ->
  is_finite lat = true -> is_finite lon = true -> Rabs (B2R lat) <= 90 -> Rabs (B2R lon) <= 180 -> is_finite z = true -> Rabs (B2R z) <= 1000000 ->
  exists s, surface_point 6378137 (B2R wgs84_f) (B2R lat) (B2R lon) s /\
    vnorm (vsub (vec_of (fgeo_point_to_ecef fsin fcos lat lon z wgs84_a wgs84_f))
                (vsub s (vscale (B2R z) (latlon_vec (B2R lat * (PI / 180)) (B2R lon * (PI / 180)))))) <= 33 / 1000000000.
Proof.
  intros fsin fcos lat lon z GS GC Fa Fo Ba Bo Fz Bz.
  assert (Bz' : Rabs (B2R z) <= bpow radix2 300). { eapply Rle_trans; [exact Bz|]. apply Rle_trans with (bpow radix2 20); [cbn; lra|apply bpow_le; lia]. }
  destruct (C89_from_degrees fsin fcos lat lon z wgs84_a wgs84_f GS GC Fa Fo Ba Bo Fz Bz' wgs84_usual) as (_ & s & S & E). rewrite wgs84_a_val in *. exists s. split; auto. eapply Rle_trans; [exact E|].
  destruct wgs84_f_val as (_ & ->). rewrite u_val. lra.
Qed.
Print Assumptions C89_wgs84.

(** ** what the theorems do not exclude: the hypotheses hold in an ordinary case *)
Example C89_example : usual_ellipsoid wgs84_a wgs84_f /\ ordinary_vec (fone, fone, fone) /\
  good_trig (fun x => round64 (sin (B2R x))) sin /\ good_trig (fun x => round64 (cos (B2R x))) cos /\ Rabs (B2R fone) <= 1000000.
Proof.
  split; [apply wgs84_usual|]. split; [|split; [apply ideal_trig_good; intros; apply Rabs_le, SIN_bound|split; [apply ideal_trig_good; intros; apply Rabs_le, COS_bound|]]].
  - assert (bpow radix2 0 <= bpow radix2 400) by (apply bpow_le; lia). assert (bpow radix2 (-400) <= bpow radix2 0) by (apply bpow_le; lia). change (bpow radix2 0) with 1 in *.
    unfold ordinary_vec, ordinary. rewrite fone_val, Rabs_R1. repeat (split; [auto; lra|]). auto.
  - rewrite fone_val, Rabs_R1. lra.
Qed.
