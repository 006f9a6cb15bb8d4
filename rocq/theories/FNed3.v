(** * C91: the axes at the poles, and from latitude and longitude in degrees *)
From Coq Require Import ZArith Reals Lra Lia Bool Psatz.
From Flocq Require Import Core BinarySingleNaN Relative.
From Verif Require Import Spec LVec LAngle FTiny FZero FBase FRel FRel2 FUnit FPi FAngle FDist FGreat FLatLon FInv FEcef FEcef2 FNed FNed2.
From Verif Require SpecArr SpecGeo.
Local Open Scope R_scope.

(** ** a pole *)
Lemma tiny_zero (x : float64) : Rabs (B2R x) <= eta -> B2R x = 0.
Proof.
  intros H. destruct (Req_dec (B2R x) 0) as [E|E]; auto. exfalso.
  pose proof (abs_B2R_ge_emin 53 1024 x) as G. destruct x as [b|b| |b m e Hb]; try (apply E; reflexivity).
  specialize (G eq_refl). change (SpecFloat.emin 53 1024) with (-1074)%Z in G. unfold eta in H.
  assert (bpow radix2 (-1075) < bpow radix2 (-1074)) by (apply bpow_lt; lia). lra.
Qed.
Lemma norm_zeros a b c : is_zero_f (norm3 (B754_zero a) (B754_zero b) (B754_zero c)) = true.
Proof. destruct a, b, c; vm_compute; reflexivity. Qed.

Theorem C91_pole : forall x y z, ordinary x y z -> B2R x = 0 -> B2R y = 0 ->
  let '(north, east, down) := fn_E2R_EN (x, y, z) in let S := B2R z / Rabs (B2R z) in
  accurate 5 north (V (- S) 0 0) /\ finite_vec east /\ vec_of east = V 0 1 0 /\ accurate 5 down (V 0 0 (- S)).
Proof.
  intros x y z O X0 Y0. pose proof wee_pos as PW. pose proof wee_small as SW. pose proof u_tiny as Su. pose proof u_pos as Pu. pose proof eta_wee1 as EW. pose proof eta_pos as Pe.
  destruct (rotated_unit (x, y, z) O) as (e0 & e1 & e2 & EU & F0 & F1 & F2 & N0 & N1 & N2). unfold fn_E2R_EN. rewrite EU. clear EU. cbv zeta.
  assert (EN : vnorm (vec_of (x, y, z)) = Rabs (B2R z)). { apply vnorm_eq; [apply Rabs_pos|]. unfold vdot, vec_of; cbn [Spec.vx Spec.vy Spec.vz]. rewrite X0, Y0, <- Rabs_mult, Rabs_right by nra. ring. }
  assert (PZ : 0 < Rabs (B2R z)). { destruct O as (_ & _ & _ & _ & _ & _ & G). pose proof (bpow_gt_0 radix2 (-400)). rewrite X0, Y0, Rabs_R0 in G. lra. }
  assert (W : mulv SpecArr.Me (direction (vec_of (x, y, z))) = V (B2R z / Rabs (B2R z)) 0 0).
  { unfold direction. rewrite EN. unfold mulv, SpecArr.Me, vdot, vscale, vec_of; cbn [Spec.vx Spec.vy Spec.vz r0 r1 r2]. rewrite X0, Y0. apply vec_eq; cbn [Spec.vx Spec.vy Spec.vz]; field; lra. }
  rewrite W in N0, N1, N2. cbn [Spec.vx Spec.vy Spec.vz] in N0, N1, N2. set (S := B2R z / Rabs (B2R z)) in *.
  assert (BS : Rabs S <= 1). { unfold S, Rdiv. rewrite Rabs_mult, Rabs_inv, Rabs_Rabsolu, Rinv_r; lra. }
  assert (Z1 : B2R e1 = 0). { apply tiny_zero. unfold near in N1. rewrite Rminus_0_r, Rabs_R0 in N1. lra. }
  assert (Z2 : B2R e2 = 0). { apply tiny_zero. unfold near in N2. rewrite Rminus_0_r, Rabs_R0 in N2. lra. }
  pose proof (near_abs 5 eta _ _ ltac:(lra) N0) as A0. assert (B0 : Rabs (B2R e0) <= 2) by lra.
  assert (B : 2 <= bpow radix2 1000) by (change 2 with (bpow radix2 1); apply bpow_le; lia).
  destruct (cross_axis e0 e1 e2) as (d0 & d1 & d2 & EC & G0 & G1 & G2 & V0 & V1 & V2); auto; try (rewrite ?Z1, ?Z2, ?Rabs_R0; lra). match goal with |- context [fnorm ?t] => replace t with (d0, d1, d2) by (symmetry; exact EC) end.
  rewrite Z2, Ropp_0 in V1. rewrite Z1 in V2.
  destruct (zero_of_B2R d0 G0 V0) as (b0 & ->). destruct (zero_of_B2R d1 G1 V1) as (b1 & ->). destruct (zero_of_B2R d2 G2 V2) as (b2 & ->).
  unfold fnorm. rewrite norm_zeros. unfold fnegv, fcross.
  assert (FN : forall x : float64, is_finite x = true -> is_finite (fneg x) = true) by (intros; unfold fneg; rewrite is_finite_Bopp; auto).
  assert (VN : forall x : float64, B2R (fneg x) = - B2R x) by (intros; unfold fneg; rewrite B2R_Bopp; auto).
  assert (BN : forall x : float64, Rabs (B2R x) <= 2 -> Rabs (B2R (fneg x)) <= bpow radix2 1000) by (intros; rewrite VN, Rabs_Ropp; lra).
  assert (Q1 : Rabs (B2R e1) <= 2) by (rewrite Z1, Rabs_R0; lra). assert (Q2 : Rabs (B2R e2) <= 2) by (rewrite Z2, Rabs_R0; lra).
  destruct (mul_zero_l (fneg e0) (FN _ F0)) as (H0 & K0). destruct (mul_zero_l (fneg e1) (FN _ F1)) as (H1 & K1). destruct (mul_zero_l (fneg e2) (FN _ F2)) as (H2 & K2).
  destruct (mul_one_l fone (fneg e2) 1 eq_refl fone_val ltac:(auto) (FN _ F2) (BN _ Q2)) as (H3 & K3). destruct (mul_one_l fone (fneg e0) 1 eq_refl fone_val ltac:(auto) (FN _ F0) (BN _ B0)) as (H4 & K4).
  rewrite VN in K3, K4. rewrite Z2 in K3.
  destruct (sub_exact (fmul fone (fneg e2)) (fmul fzero (fneg e1)) 0) as (I0 & J0); auto. { rewrite K3, K1. lra. } { apply generic_format_0. } { rewrite Rabs_R0; lra. }
  destruct (sub_exact (fmul fzero (fneg e0)) (fmul fzero (fneg e2)) 0) as (I1 & J1); auto. { rewrite K0, K2. lra. } { apply generic_format_0. } { rewrite Rabs_R0; lra. }
  destruct (sub_exact (fmul fzero (fneg e1)) (fmul fone (fneg e0)) (B2R e0)) as (I2 & J2); auto. { rewrite K1, K4. lra. } { apply format64. } { lra. }
  assert (N00 : near 5 eta 0 0). { unfold near. rewrite Rminus_0_r, Rabs_R0. lra. }
  assert (B00 : Rabs 0 <= 1) by (rewrite Rabs_R0; lra).
  split; [|split; [|split]].
  - apply (near_accurate 5 5 eta); try lra. replace (V (- S) 0 0) with (V (- Spec.vz (V 0 0 S)) (Spec.vy (V 0 0 S)) (Spec.vx (V 0 0 S))) by reflexivity.
    apply back_near; cbn [Spec.vx Spec.vy Spec.vz]; auto; try lra. unfold near_v. cbn [Spec.vx Spec.vy Spec.vz]. rewrite J0, J1, J2. auto 10.
  - destruct (back_err fzero fone fzero) as (p & q & r & E & Fp & Fq & Fr & _); auto; try (cbn [B2R fzero]; rewrite Rabs_R0; lra). { rewrite fone_val, Rabs_R1; lra. } match goal with |- finite_vec ?b => replace b with (p, q, r) by (symmetry; exact E) end. cbn. auto.
  - destruct (back_err fzero fone fzero) as (p & q & r & E & _ & _ & _ & Vp & Vq & Vr); auto; try (cbn [B2R fzero]; rewrite Rabs_R0; lra). { rewrite fone_val, Rabs_R1; lra. } match goal with |- vec_of ?b = _ => replace b with (p, q, r) by (symmetry; exact E) end. unfold vec_of. rewrite Vp, Vq, Vr, fone_val. cbn [B2R fzero]. rewrite Ropp_0. reflexivity.
  - apply (near_accurate 5 5 eta); try lra. replace (V 0 0 (- S)) with (V (- Spec.vz (V (- S) 0 0)) (Spec.vy (V (- S) 0 0)) (Spec.vx (V (- S) 0 0))) by (cbn; rewrite Ropp_0; reflexivity).
    apply back_near; cbn [Spec.vx Spec.vy Spec.vz]; auto; try lra. { rewrite Rabs_Ropp; auto. } unfold near_v. cbn [Spec.vx Spec.vy Spec.vz]. rewrite !VN, Z1, Z2, Ropp_0. do 3 (split; [auto|]). split; [apply near_opp; auto|auto].
Qed.
Print Assumptions C91_pole.

(** ** from latitude and longitude in radians *)
Lemma latlon_comp fsin fcos lat lon : good_trig fsin sin -> good_trig fcos cos ->
  is_finite lat = true -> is_finite lon = true -> Rabs (B2R lat) <= 4 -> Rabs (B2R lon) <= 4 ->
  near_v (51 / 10) (10 * eta) (flat_lon2n_E fsin fcos lat lon) (latlon_vec (B2R lat) (B2R lon)).
Proof.
  intros GS GC Fa Fo Ba Bo. pose proof u_pos as Pu. pose proof eta_pos as Pe.
  destruct (GS lat Fa Ba) as (F1 & D1). destruct (GS lon Fo Bo) as (F2 & D2). destruct (GC lat Fa Ba) as (F3 & D3). destruct (GC lon Fo Bo) as (F4 & D4).
  assert (S1 : forall t, Rabs (sin t) <= 1) by (intros; apply Rabs_le, SIN_bound). assert (C1 : forall t, Rabs (cos t) <= 1) by (intros; apply Rabs_le, COS_bound).
  destruct (mul_trig (fsin lon) (fcos lat) (sin (B2R lon)) (cos (B2R lat))) as (Fy & By & Dy); auto.
  destruct (mul_trig (fneg (fcos lon)) (fcos lat) (- cos (B2R lon)) (cos (B2R lat))) as (Fz & Bz & Dz); auto.
  { unfold fneg. rewrite is_finite_Bopp. auto. } { rewrite Rabs_Ropp. auto. }
  { unfold fneg. rewrite B2R_Bopp. replace (- B2R (fcos lon) - - cos (B2R lon)) with (- (B2R (fcos lon) - cos (B2R lon))) by ring. rewrite !Rabs_Ropp. auto. }
  pose proof (trig_bound _ _ D1 (S1 _)) as Bx.
  assert (Big : 4 <= bpow radix2 1000). { apply Rle_trans with (bpow radix2 2); [cbn; lra|apply bpow_le; lia]. }
  destruct (pick (fsin lat) (fmul (fsin lon) (fcos lat)) (fmul (fneg (fcos lon)) (fcos lat))) as ((G1 & V1) & (G2 & V2) & (G3 & V3)); auto; try lra.
  unfold flat_lon2n_E. set (c1 := fdot3 (fzero, fzero, fneg fone) _) in *. set (c2 := fdot3 (fzero, fone, fzero) _) in *. set (c3 := fdot3 (fone, fzero, fzero) _) in *.
  unfold near_v, latlon_vec. cbn [Spec.vx Spec.vy Spec.vz]. do 3 (split; [assumption|]). unfold near. split; [|split].
  - rewrite V1. replace (- cos (B2R lon) * cos (B2R lat)) with (- (cos (B2R lon) * cos (B2R lat))) in Dz by ring. rewrite Rabs_Ropp in Dz.
    rewrite <- Rabs_Ropp. match goal with |- Rabs ?a <= _ => match type of Dz with Rabs ?b <= _ => replace a with b by ring end end. exact Dz.
  - rewrite V2. exact Dy.
  - rewrite V3. eapply Rle_trans; [exact D1|]. pose proof (Rabs_pos (sin (B2R lat))). nra.
Qed.

(** North, East and Down at latitude [lat] and longitude [lon] (radians) *)
Definition north_dir (lat lon : R) : vec := V (- (sin lat * cos lon)) (- (sin lat * sin lon)) (cos lat).
Definition east_dir (lon : R) : vec := V (- sin lon) (cos lon) 0.
Definition down_dir (lat lon : R) : vec := V (- (cos lat * cos lon)) (- (cos lat * sin lon)) (- sin lat).

Lemma frame_latlon fsin fcos lat lon : good_trig fsin sin -> good_trig fcos cos ->
  is_finite lat = true -> is_finite lon = true -> Rabs (B2R lat) <= 4 -> Rabs (B2R lon) <= 4 -> bpow radix2 (-300) <= cos (B2R lat) ->
  let '(north, east, down) := fn_E2R_EN (flat_lon2n_E fsin fcos lat lon) in let la := B2R lat in let lo := B2R lon in
  near_v (535 / 10) (6 * wee) north (north_dir la lo) /\ near_v (36) (6 * wee) east (east_dir lo) /\ near_v (155 / 10) (6 * wee) down (down_dir la lo).
Proof.
  intros GS GC Fa Fo Ba Bo HC. pose proof u_pos as Pu. pose proof u_tiny as Su. pose proof eta_pos as Pe. pose proof tiny_eta as Te. pose proof wee_pos as PW. pose proof wee_small as SW. pose proof eta_wee1 as EW.
  destruct (C81_n_vector fsin fcos lat lon GS GC Fa Fo Ba Bo) as (NU & _). pose proof (near_unit_ordinary _ NU) as O.
  pose proof (latlon_comp fsin fcos lat lon GS GC Fa Fo Ba Bo) as LC. set (n := flat_lon2n_E fsin fcos lat lon) in *. clearbody n.
  pose proof (latlon_unit (B2R lat) (B2R lon)) as LU. set (S := sin (B2R lat)). set (r := cos (B2R lat)) in *. set (s := sin (B2R lon)). set (c := cos (B2R lon)).
  assert (CS : c * c + s * s = 1). { pose proof (sin2_cos2 (B2R lon)) as Q. unfold Rsqr in Q. unfold c, s. lra. }
  assert (US : S * S + r * r = 1). { pose proof (sin2_cos2 (B2R lat)) as Q. unfold Rsqr in Q. unfold S, r. lra. }
  destruct (rotated_unit n O) as (e0 & e1 & e2 & EU & F0 & F1 & F2 & N0 & N1 & N2). unfold fn_E2R_EN. rewrite EU. clear EU.
  destruct n as [[x y] z]. unfold near_v, latlon_vec in LC. cbn [Spec.vx Spec.vy Spec.vz] in LC. fold S r s c in LC. destruct LC as (_ & _ & _ & LX & LY & LZ).
  assert (NL : near (511 / 100) 0 (vnorm (vec_of (x, y, z))) 1).
  { unfold latlon_vec in LU. fold S r s c in LU.
    pose proof (near_vec_err (51 / 10) (10 * eta) (vec_of (x, y, z)) (V (c * r) (s * r) S) ltac:(lra) ltac:(lra) LX LY LZ) as E. rewrite LU in E.
    pose proof (norm_perturb (V (c * r) (s * r) S) (vsub (vec_of (x, y, z)) (V (c * r) (s * r) S))) as P. rewrite <- vadd_sub_id, LU in P. unfold near. rewrite Rabs_R1. lra. }
  set (L := vnorm (vec_of (x, y, z))) in *.
  assert (W : mulv SpecArr.Me (direction (vec_of (x, y, z))) = V (B2R z / L) (B2R y / L) (- B2R x / L)).
  { unfold direction, mulv, SpecArr.Me, vdot, vscale. fold L. cbn [Spec.vx Spec.vy Spec.vz r0 r1 r2]. unfold Rdiv. cbn [vec_of Spec.vx Spec.vy Spec.vz]. apply vec_eq; cbn [Spec.vx Spec.vy Spec.vz]; ring. }
  rewrite W in N0, N1, N2. cbn [Spec.vx Spec.vy Spec.vz] in N0, N1, N2.
  assert (K : forall e q Q, near 5 eta e (q / L) -> near (51 / 10) (10 * eta) q Q -> near (1525 / 100) (41 * eta) e Q).
  { intros e q Q A B. destruct (near_div (51 / 10) (511 / 100) (10 * eta) q Q L 1 ltac:(lra) ltac:(lra) ltac:(lra) ltac:(lra) B NL) as (_ & D).
    rewrite Rinv_1, Rabs_R1 in D. replace (Q / 1) with Q in D by field. pose proof (near_trans 5 eta (51 / 10 + 511 / 100 + / 100) (2 * 1 * (10 * eta)) e (q / L) Q ltac:(lra) ltac:(lra) ltac:(lra) A D) as T.
    eapply near_weaken; [| |exact T]; lra. }
  pose proof (K _ _ _ N0 LZ) as M0. pose proof (K _ _ _ N1 LY) as M1. pose proof (K _ _ _ N2 (near_opp _ _ _ _ LX)) as M2. rewrite (Rmult_comm s r) in M1. rewrite (Rmult_comm c r) in M2.
  destruct (frame_err e0 e1 e2 S r s c (1525 / 100) (41 * eta)) as (A & B & C); auto; try lra.
  assert (WK : forall k k' t q Q, k <= k' -> t <= 6 * wee -> near_v k t q Q -> near_v k' (6 * wee) q Q).
  { intros k k' t [[q0 q1] q2] Q Hk Ht (X0 & X1 & X2 & X3 & X4 & X5). unfold near_v. do 3 (split; [assumption|]). split; [|split]; eapply near_weaken; eauto. }
  unfold north_dir, east_dir, down_dir. fold S r s c.
  split; [eapply WK; [| |exact A]; lra|]. split; [eapply WK; [| |exact B]; lra|eapply WK; [| |exact C]; lra].
Qed.

(** ** from degrees *)
Lemma cos_rad_pos lat : is_finite lat = true -> Rabs (B2R lat) <= 90 -> bpow radix2 (-300) <= cos (B2R (frad lat)).
Proof.
  intros F B. destruct (C79_range lat F) as (H & _). pose proof (H B) as A. assert (VH : B2R half_pi64 = 7074237752028440 / 4503599627370496) by (unfold half_pi64, f, B2R, F2R; cbn; lra).
  rewrite VH in A. pose proof pi_bounds as P. rewrite pi64_val in P. set (t := B2R (frad lat)) in *.
  assert (E : cos t = sin (PI / 2 - Rabs t)). { rewrite sin_shift. unfold Rabs. destruct (Rcase_abs t); [rewrite cos_neg|]; reflexivity. }
  rewrite E. set (d := PI / 2 - Rabs t). assert (Hd : 6 / 100000000000000000 <= d <= 2). { unfold d. pose proof (Rabs_pos t). lra. }
  assert (S : d / 3 <= sin d).
  { pose proof (sin_lb_gt_0 d) as _H. clear _H. destruct (Rle_dec d (PI / 3)) as [L|L].
    - pose proof (MVT_cor2 sin cos 0 d ltac:(lra) ltac:(intros; apply derivable_pt_lim_sin)) as (cc & E1 & E2). rewrite sin_0 in E1.
      assert (1 / 2 <= cos cc). { rewrite <- cos_PI3. apply cos_decr_1; lra. } nra.
    - apply Rnot_le_lt in L. assert (sin (PI / 3) <= sin d \/ sin (PI - 2) <= sin d).
      { destruct (Rle_dec d (PI / 2)); [left; apply sin_incr_1; lra|right]. rewrite <- (sin_PI_x d). apply sin_incr_1; lra. }
      assert (Q1 : 2 / 3 <= sin (PI / 3)). { rewrite sin_PI3. assert (17 / 10 <= sqrt 3). { apply Rle_trans with (sqrt (17 / 10 * (17 / 10))); [rewrite sqrt_square; lra|apply sqrt_le_1_alt; lra]. } lra. }
      assert (Q2 : sin (PI / 3) <= sin (PI - 2)) by (apply sin_incr_1; lra). lra. }
  apply Rle_trans with (bpow radix2 (-60)); [apply bpow_le; lia|]. apply Rle_trans with (d / 3); [|exact S]. cbn. lra.
Qed.
Lemma north_moves a o a' o' : Rabs (a' - a) <= PI -> Rabs (o' - o) <= PI -> vnorm (vsub (north_dir a o) (north_dir a' o')) <= Rabs (a' - a) + Rabs (o' - o).
Proof.
  intros A O. assert (E : forall a o, north_dir a o = latlon_vec (a + PI / 2) o).
  { intros x y. unfold north_dir, latlon_vec. rewrite sin_plus, cos_plus, cos_PI2, sin_PI2. apply vec_eq; cbn [Spec.vx Spec.vy Spec.vz]; ring. }
  rewrite !E. eapply Rle_trans; [apply chord_le_angle; apply latlon_unit|]. pose proof (latlon_moves (a + PI / 2) o (a' + PI / 2) o') as M. replace (a' + PI / 2 - (a + PI / 2)) with (a' - a) in M by ring. auto.
Qed.
Lemma east_moves o o' : Rabs (o' - o) <= PI -> vnorm (vsub (east_dir o) (east_dir o')) <= Rabs (o' - o).
Proof.
  intros O. assert (E : forall o, east_dir o = latlon_vec 0 (o + PI / 2)).
  { intros y. unfold east_dir, latlon_vec. rewrite sin_plus, cos_plus, cos_PI2, sin_PI2, sin_0, cos_0. apply vec_eq; cbn [Spec.vx Spec.vy Spec.vz]; ring. }
  rewrite !E. eapply Rle_trans; [apply chord_le_angle; apply latlon_unit|]. pose proof (latlon_moves 0 (o + PI / 2) 0 (o' + PI / 2)) as M. replace (o' + PI / 2 - (o + PI / 2)) with (o' - o) in M by ring.
  rewrite Rminus_0_r, Rabs_R0 in M. pose proof PI_RGT_0. specialize (M ltac:(lra) O). lra.
Qed.
Lemma down_moves a o a' o' : Rabs (a' - a) <= PI -> Rabs (o' - o) <= PI -> vnorm (vsub (down_dir a o) (down_dir a' o')) <= Rabs (a' - a) + Rabs (o' - o).
Proof.
  intros A O. assert (E : forall a o, down_dir a o = vneg (latlon_vec a o)).
  { intros x y. unfold down_dir, latlon_vec, vneg. apply vec_eq; cbn [Spec.vx Spec.vy Spec.vz]; ring. }
  rewrite !E. replace (vsub (vneg (latlon_vec a o)) (vneg (latlon_vec a' o'))) with (vneg (vsub (latlon_vec a o) (latlon_vec a' o'))) by (generalize (latlon_vec a o) (latlon_vec a' o'); intros; vring).
  rewrite vnorm_neg. eapply Rle_trans; [apply chord_le_angle; apply latlon_unit|]. apply latlon_moves; auto.
Qed.
Lemma dirs_unit a o : vnorm (north_dir a o) = 1 /\ vnorm (east_dir o) = 1 /\ vnorm (down_dir a o) = 1.
Proof.
  pose proof (sin2_cos2 a) as A. pose proof (sin2_cos2 o) as B. unfold Rsqr in A, B.
  split; [|split]; apply vnorm_eq; try lra; unfold vdot, north_dir, east_dir, down_dir; cbn [Spec.vx Spec.vy Spec.vz].
  - transitivity (sin a * sin a * (sin o * sin o + cos o * cos o) + cos a * cos a); [ring|rewrite B; lra].
  - lra.
  - transitivity (cos a * cos a * (sin o * sin o + cos o * cos o) + sin a * sin a); [ring|rewrite B; lra].
Qed.

(** the columns of FrameN(GeoPoint(lat, lon, degrees=True)).R_EN (objects.py 206-210, 1421-1429): the directions at this latitude and longitude,
    also close to and at the poles, where the longitude decides what is north *)
Definition fR_EN_deg fsin fcos (lat lon : float64) : vec64 * vec64 * vec64 := fn_E2R_EN (flat_lon2n_E fsin fcos (frad lat) (frad lon)).
Theorem C91_from_degrees : forall fsin fcos lat lon, good_trig fsin sin -> good_trig fcos cos ->
  is_finite lat = true -> is_finite lon = true -> Rabs (B2R lat) <= 90 -> Rabs (B2R lon) <= 180 ->
  let '(north, east, down) := fR_EN_deg fsin fcos lat lon in let la := B2R lat * (PI / 180) in let lo := B2R lon * (PI / 180) in
  (finite_vec north /\ finite_vec east /\ finite_vec down) /\
  vnorm (vsub (vec_of north) (north_dir la lo)) <= 65 * u /\ vnorm (vsub (vec_of east) (east_dir lo)) <= 44 * u /\ vnorm (vsub (vec_of down) (down_dir la lo)) <= 27 * u.
Proof.
  intros fsin fcos lat lon GS GC Fa Fo Ba Bo. pose proof u_pos as Pu. pose proof u_tiny as Su. pose proof PI_33 as PU. pose proof PI_RGT_0 as P0. pose proof eta_pos as Pe. pose proof tiny_eta as Te. pose proof wee_pos as PW. pose proof wee_small as SW.
  destruct (rad_moves lat 90 Fa Ba ltac:(lra)) as (G1 & R1 & D1). destruct (rad_moves lon 180 Fo Bo ltac:(lra)) as (G2 & R2 & D2). pose proof (cos_rad_pos lat Fa Ba) as HC.
  pose proof (frame_latlon fsin fcos (frad lat) (frad lon) GS GC G1 G2 R1 R2 HC) as H. unfold fR_EN_deg. destruct (fn_E2R_EN _) as [[nn ee] dd]. cbv zeta in *.
  set (la := B2R lat * (PI / 180)) in *. set (lo := B2R lon * (PI / 180)) in *. set (la' := B2R (frad lat)) in *. set (lo' := B2R (frad lon)) in *.
  assert (UP : u * PI <= u * (31416 / 10000)). { apply Rmult_le_compat_l; [lra|]. pose proof pi_bounds as P. rewrite pi64_val in P. lra. }
  assert (DA : Rabs (la' - la) <= 352 / 100 * u). { eapply Rle_trans; [exact D1|]. lra. }
  assert (DO : Rabs (lo' - lo) <= 7 * u). { eapply Rle_trans; [exact D2|]. lra. }
  assert (P1 : 1 <= PI) by (pose proof pi_bounds as P; rewrite pi64_val in P; lra).
  destruct H as (HN & HE & HD). destruct (dirs_unit la' lo') as (U1 & U2 & U3).
  assert (K : forall k q Q Q' m, 0 <= k -> vnorm Q = 1 -> near_v k (6 * wee) q Q -> vnorm (vsub Q' Q) <= m -> finite_vec q /\ vnorm (vsub (vec_of q) Q') <= (k + / 1000) * u + m).
  { intros k [[x y] z] Q Q' m Hk N (F1 & F2 & F3 & A & B & C) M. split; [cbn; auto|]. assert (E : vnorm (vsub (vec_of (x, y, z)) Q) <= k * u * vnorm Q + 3 * (6 * wee)).
    { apply near_vec_err; [apply Rmult_le_pos; lra|lra|exact A|exact B|exact C]. }
    rewrite N in E. replace (vsub (vec_of (x, y, z)) Q') with (vadd (vsub (vec_of (x, y, z)) Q) (vneg (vsub Q' Q))) by vring.
    eapply Rle_trans; [apply norm_triangle|]. rewrite vnorm_neg. lra. }
  destruct (K (535 / 10) _ _ _ _ ltac:(lra) U1 HN (north_moves la lo la' lo' ltac:(lra) ltac:(lra))) as (X1 & Y1).
  destruct (K 36 _ _ _ _ ltac:(lra) U2 HE (east_moves lo lo' ltac:(lra))) as (X2 & Y2).
  destruct (K (155 / 10) _ _ _ _ ltac:(lra) U3 HD (down_moves la lo la' lo' ltac:(lra) ltac:(lra))) as (X3 & Y3).
  split; [auto|]. clear - Y1 Y2 Y3 DA DO Pu. split; [|split]; lra.
Qed.
Print Assumptions C91_from_degrees.

(** ** what the theorems do not exclude: the hypotheses hold in an ordinary case *)
Example C91_example : ordinary_vec (fone, fone, fone) /\
  bpow radix2 (-300) <= sqrt (Spec.vx (direction (vec_of (fone, fone, fone))) ^ 2 + Spec.vy (direction (vec_of (fone, fone, fone))) ^ 2) /\
  ordinary fzero fzero fone /\ good_trig (fun x => round64 (sin (B2R x))) sin /\ good_trig (fun x => round64 (cos (B2R x))) cos.
Proof.
  destruct C89_example as (_ & O & GS & GC & _). split; auto. split; [|split; [|auto]].
  - unfold direction, vscale, vec_of, vnorm, vdot; cbn [Spec.vx Spec.vy Spec.vz]. rewrite fone_val. replace (1 * 1 + 1 * 1 + 1 * 1) with 3 by ring.
    assert (S3 : sqrt 3 * sqrt 3 = 3) by (apply sqrt_sqrt; lra). assert (P3 : 0 < sqrt 3) by (apply sqrt_lt_R0; lra).
    apply Rle_trans with (/ 2). { apply Rle_trans with (bpow radix2 (-1)); [apply bpow_le; lia|cbn; lra]. }
    rewrite <- (sqrt_square (/ 2)) by lra. apply sqrt_le_1_alt. replace ((/ sqrt 3 * 1) ^ 2 + (/ sqrt 3 * 1) ^ 2) with (2 / (sqrt 3 * sqrt 3)) by (field; lra). rewrite S3. lra.
  - assert (bpow radix2 0 <= bpow radix2 400) by (apply bpow_le; lia). assert (bpow radix2 (-400) <= bpow radix2 0) by (apply bpow_le; lia). change (bpow radix2 0) with 1 in *.
    unfold ordinary. rewrite fone_val, Rabs_R1. change (B2R fzero) with 0. rewrite Rabs_R0. repeat (split; [auto; lra|]). auto.
Qed.
