(** * C95: the axes inside n_EA_E_distance_and_azimuth2n_EB_E and its result, in binary64 *)
From Coq Require Import ZArith Reals Lra Lia Bool Psatz.
From Flocq Require Import Core BinarySingleNaN Relative.
From Verif Require Import Spec LVec LAngle FTiny FZero FBase FRel FRel2 FUnit FPi FAngle FDist FGreat FLatLon FInv FEcef FEcef2 FNed FNed2 FNed3 FDelta FDelta2 FDelta3 FMove FWay.
From Verif Require SpecArr SpecGeo.
Local Open Scope R_scope.

(** the point reached from the place with outward normal [up] after an arc of D radians along the great circle that starts in the direction
    [az] radians clockwise from North *)
Definition tangent (N E : vec) (az : R) : vec := vadd (vscale (cos az) N) (vscale (sin az) E).
Definition arc (up t : vec) (D : R) : vec := vadd (vscale (cos D) up) (vscale (sin D) t).

Lemma mul_zero_v (o x : float64) : is_finite o = true -> B2R o = 0 -> is_finite x = true -> is_finite (fmul o x) = true /\ B2R (fmul o x) = 0.
Proof.
  intros Fo Zo Fx. destruct (fmul_val o x Fo Fx) as (F & E). { rewrite Zo, Rmult_0_l, Rabs_R0. apply bpow_ge_0. }
  split; auto. rewrite E, Zo, Rmult_0_l. apply round_0; auto with typeclass_instances.
Qed.
Lemma cross_pole x y z : is_finite x = true -> is_finite y = true -> is_finite z = true -> Rabs (B2R x) <= 2 -> Rabs (B2R y) <= 2 -> Rabs (B2R z) <= 2 ->
  exists d0 d1 d2, fcross (fback (fone, fzero, fzero)) (x, y, z) = (d0, d1, d2) /\
    is_finite d0 = true /\ is_finite d1 = true /\ is_finite d2 = true /\ B2R d0 = - B2R y /\ B2R d1 = B2R x /\ B2R d2 = 0.
Proof.
  intros Fx Fy Fz Bx By Bz. assert (B : 2 <= bpow radix2 1000) by (change 2 with (bpow radix2 1); apply bpow_le; lia).
  destruct (back_err fone fzero fzero) as (k0 & k1 & k2 & E & F0 & F1 & F2 & V0 & V1 & V2); auto; try (cbn [B2R fzero]; rewrite Rabs_R0; lra). { rewrite fone_val, Rabs_R1; lra. }
  rewrite fone_val in V2. cbn [B2R fzero] in V0, V1. assert (V0' : B2R k0 = 0) by (rewrite V0; apply Ropp_0). match goal with |- context [fcross ?b _] => replace b with (k0, k1, k2) by (symmetry; exact E) end. unfold fcross.
  destruct (mul_zero_v k1 z F1 V1 Fz) as (G0 & Z0). destruct (mul_one_l k2 y 1 F2 V2 ltac:(auto) Fy ltac:(lra)) as (G1 & W1).
  destruct (mul_one_l k2 x 1 F2 V2 ltac:(auto) Fx ltac:(lra)) as (G2 & W2). destruct (mul_zero_v k0 z F0 V0' Fz) as (G3 & Z3).
  destruct (mul_zero_v k0 y F0 V0' Fy) as (G4 & Z4). destruct (mul_zero_v k1 x F1 V1 Fx) as (G5 & Z5).
  destruct (sub_exact (fmul k1 z) (fmul k2 y) (- B2R y)) as (K0 & E0); auto. { rewrite Z0, W1; lra. } { apply generic_format_opp, format64. } { rewrite Rabs_Ropp; lra. }
  destruct (sub_exact (fmul k2 x) (fmul k0 z) (B2R x)) as (K1 & E1); auto. { rewrite W2, Z3; lra. } { apply format64. } { lra. }
  destruct (sub_exact (fmul k0 y) (fmul k1 x) 0) as (K2 & E2); auto. { rewrite Z4, Z5; lra. } { apply generic_format_0. } { rewrite Rabs_R0; lra. }
  do 3 eexists. split; [reflexivity|]. auto 10.
Qed.

Lemma near_v_vec k t q Q : 0 <= k -> 0 <= t <= 6 * wee -> vnorm Q = 1 -> near_v k t q Q -> finite_vec q /\ vnorm (vsub (vec_of q) Q) <= (k + / 1000) * u.
Proof.
  destruct q as [[q0 q1] q2]. intros Hk Ht U (F0 & F1 & F2 & N0 & N1 & N2). split; [cbn; auto|]. pose proof u_pos as Pu. pose proof wee_small as SW. pose proof wee_pos as PW.
  pose proof (near_vec_err k t (vec_of (q0, q1, q2)) Q ltac:(apply Rmult_le_pos; lra) ltac:(lra) N0 N1 N2) as E. rewrite U in E. lra.
Qed.

Lemma way_axes x y z S r s c k t : S * S + r * r = 1 -> c * c + s * s = 1 -> bpow radix2 (-300) <= r -> 0 <= k <= 20 -> 0 <= t <= 100 * eta ->
  near_v k t (x, y, z) (V (r * c) (r * s) S) ->
  let E := unit64 (fcross (fback (fone, fzero, fzero)) (x, y, z)) in
  near_v (2 * k + 51 / 10) wee E (V (- s) c 0) /\ near_v (3 * k + 72 / 10) (6 * wee) (fcross (x, y, z) E) (V (- (S * c)) (- (S * s)) r).
Proof.
  intros US CS Hr Hk Ht (Fx & Fy & Fz & Nx & Ny & Nz). cbn [Spec.vx Spec.vy Spec.vz] in Nx, Ny, Nz. pose proof u_pos as Pu. pose proof u_tiny as Su. pose proof eta_pos as Pe. pose proof eta_wee1 as EW1. pose proof wee_pos as PW. pose proof wee_small as SW. pose proof tiny_eta as Te.
  pose proof (bpow_gt_0 radix2 (-300)) as P3. assert (Hr1 : r <= 1) by nra. assert (BS : Rabs S <= 1) by (apply Rabs_le; nra). assert (Bs : Rabs s <= 1) by (apply Rabs_le; nra). assert (Bc : Rabs c <= 1) by (apply Rabs_le; nra).
  assert (Brs : Rabs (r * s) <= 1). { rewrite Rabs_mult, (Rabs_right r) by lra. pose proof (Rabs_pos s). nra. } assert (Brc : Rabs (r * c) <= 1). { rewrite Rabs_mult, (Rabs_right r) by lra. pose proof (Rabs_pos c). nra. }
  pose proof (near_abs k t _ _ ltac:(lra) Nx) as Ax. pose proof (near_abs k t _ _ ltac:(lra) Ny) as Ay. pose proof (near_abs k t _ _ ltac:(lra) Nz) as Az.
  destruct (cross_pole x y z) as (d0 & d1 & d2 & EC & G0 & G1 & G2 & V0 & V1 & V2); auto; try lra.
  cbv zeta. match goal with |- context [unit64 ?b] => replace b with (d0, d1, d2) by (symmetry; exact EC) end.
  assert (NE : near_v (2 * k + 51 / 10) wee (unit64 (d0, d1, d2)) (V (- s) c 0)).
  { apply (planar_unit d0 d1 d2 r s c k t); auto; try lra. - rewrite V0. apply near_opp. exact Ny. - rewrite V1. exact Nx. }
  split; auto. destruct (unit64 (d0, d1, d2)) as [[e0 e1] e2]. destruct NE as (F0 & F1 & F2 & N0 & N1 & N2). cbn [Spec.vx Spec.vy Spec.vz] in N0, N1, N2.
  unfold fcross. assert (B0 : Rabs 0 <= 1) by (rewrite Rabs_R0; lra). assert (Bms : Rabs (- s) <= 1) by (rewrite Rabs_Ropp; auto). assert (Hw : 0 <= wee <= wee) by lra. assert (Htw : 0 <= t <= wee) by lra. assert (HK : 0 <= 2 * k + 51 / 10 <= 100) by lra. assert (Hk' : 0 <= k <= 100) by lra.
  destruct (prod_err y e2 k (2 * k + 51 / 10) t wee (r * s) 0 Fy F2 Hk' HK Htw Hw Brs B0 Ny N2) as (H1 & M1). destruct (prod_err z e1 k (2 * k + 51 / 10) t wee S c Fz F1 Hk' HK Htw Hw BS Bc Nz N1) as (H2 & M2).
  destruct (prod_err z e0 k (2 * k + 51 / 10) t wee S (- s) Fz F0 Hk' HK Htw Hw BS Bms Nz N0) as (H3 & M3). destruct (prod_err x e2 k (2 * k + 51 / 10) t wee (r * c) 0 Fx F2 Hk' HK Htw Hw Brc B0 Nx N2) as (H4 & M4).
  destruct (prod_err x e1 k (2 * k + 51 / 10) t wee (r * c) c Fx F1 Hk' HK Htw Hw Brc Bc Nx N1) as (H5 & M5). destruct (prod_err y e0 k (2 * k + 51 / 10) t wee (r * s) (- s) Fy F0 Hk' HK Htw Hw Brs Bms Ny N0) as (H6 & M6).
  assert (P1 : forall a b, Rabs a <= 1 -> Rabs b <= 1 -> Rabs (a * b) <= 1). { intros a b Ha Hb. rewrite Rabs_mult. pose proof (Rabs_pos a). pose proof (Rabs_pos b). nra. }
  set (K := k + (2 * k + 51 / 10) + 1 + / 500) in *. assert (HKK : 0 <= K <= 200) by (unfold K; lra).
  rewrite Rmult_0_r in M1, M4.
  destruct (diff_err (fmul y e2) (fmul z e1) K 0 (S * c) H1 H2 HKK B0 (P1 _ _ BS Bc) ltac:(rewrite Rabs_R0, Rminus_0_l, Rabs_Ropp; lra) M1 M2) as (I0 & J0).
  destruct (diff_err (fmul z e0) (fmul x e2) K (S * - s) 0 H3 H4 HKK (P1 _ _ BS Bms) B0 ltac:(rewrite Rabs_R0, Rminus_0_r; lra) M3 M4) as (I1 & J1).
  assert (ES : Rabs (r * c * c) + Rabs (r * s * - s) = Rabs (r * c * c - r * s * - s)).
  { replace (r * c * c) with (r * (c * c)) by ring. replace (r * s * - s) with (- (r * (s * s))) by ring. rewrite Rabs_Ropp. assert (0 <= r * (c * c)) by (apply Rmult_le_pos; nra). assert (0 <= r * (s * s)) by (apply Rmult_le_pos; nra). rewrite !Rabs_right by lra. ring. }
  destruct (diff_err (fmul x e1) (fmul y e0) K (r * c * c) (r * s * - s) H5 H6 HKK (P1 _ _ Brc Bc) (P1 _ _ Brs Bms) ES M5 M6) as (I2 & J2).
  unfold near_v. cbn [Spec.vx Spec.vy Spec.vz]. do 3 (split; [assumption|]).
  replace (0 - S * c) with (- (S * c)) in J0 by ring. replace (S * - s - 0) with (- (S * s)) in J1 by ring. replace (r * c * c - r * s * - s) with r in J2 by (transitivity (r * (c * c + s * s)); [rewrite CS; ring|ring]).
  split; [|split]; (eapply near_weaken; [| |eassumption]; unfold K; lra).
Qed.

Lemma way_err fsin fcos n D az S r s c k t m1 m2 : good_trig fsin sin -> good_trig fcos cos -> is_finite D = true -> is_finite az = true -> Rabs (B2R D) <= 4 -> Rabs (B2R az) <= 4 ->
  S * S + r * r = 1 -> c * c + s * s = 1 -> bpow radix2 (-300) <= r -> 0 <= k <= 20 -> 0 <= t <= 100 * eta -> near_v k t n (V (r * c) (r * s) S) ->
  0 <= m1 <= 90 -> (3 * k + 1123 / 100) * (3 * k + 1123 / 100) + (2 * k + 913 / 100) * (2 * k + 913 / 100) <= m1 * m1 ->
  0 <= m2 -> (k + 403 / 100) * (k + 403 / 100) + (m1 + 404 / 100) * (m1 + 404 / 100) <= m2 * m2 ->
  let up := V (r * c) (r * s) S in let B := arc up (tangent (V (- (S * c)) (- (S * s)) r) (V (- s) c 0) (B2R az)) (B2R D) in
  finite_vec (fway fsin fcos n D az) /\ vnorm B = 1 /\ vnorm (vsub (vec_of (fway fsin fcos n D az)) B) <= (m2 + / 100) * u.
Proof.
  intros GS GC FD Fz BD Bz US CS Hr Hk Ht Nn Hm1 HM1 Hm2 HM2 up B. pose proof u_pos as Pu. pose proof wee_pos as PW. pose proof eta_wee1 as EW. pose proof eta_pos as Pe.
  destruct n as [[x y] z]. pose proof (way_axes x y z S r s c k t US CS Hr Hk Ht Nn) as (NE & NN). cbv zeta in NE, NN. unfold fway.
  set (E := unit64 _) in *. set (N := fcross (x, y, z) E) in *.
  assert (U : forall v, vdot v v = 1 -> vnorm v = 1). { intros v Hv. apply vnorm_eq; [lra|]. lra. }
  assert (U1 : vnorm up = 1). { apply U. unfold up, vdot; cbn [Spec.vx Spec.vy Spec.vz]. transitivity (r * r * (c * c + s * s) + S * S); [ring|rewrite CS; lra]. }
  assert (U2 : vnorm (V (- s) c 0) = 1). { apply U. unfold vdot; cbn [Spec.vx Spec.vy Spec.vz]. lra. }
  assert (U3 : vnorm (V (- (S * c)) (- (S * s)) r) = 1). { apply U. unfold vdot; cbn [Spec.vx Spec.vy Spec.vz]. transitivity (S * S * (c * c + s * s) + r * r); [ring|rewrite CS; lra]. }
  destruct (near_v_vec k t _ _ ltac:(lra) ltac:(lra) U1 Nn) as (Fn & Dn). destruct (near_v_vec (2 * k + 51 / 10) wee _ _ ltac:(lra) ltac:(lra) U2 NE) as (FE & DE). destruct (near_v_vec (3 * k + 72 / 10) (6 * wee) _ _ ltac:(lra) ltac:(lra) U3 NN) as (FN & DN).
  destruct (GS az Fz Bz) as (F1 & T1). destruct (GC az Fz Bz) as (F2 & T2). destruct (GS D FD BD) as (F3 & T3). destruct (GC D FD BD) as (F4 & T4).
  assert (SC : forall a, cos a * cos a + sin a * sin a = 1). { intros a. pose proof (sin2_cos2 a) as Q. unfold Rsqr in Q. lra. }
  destruct (lin_err N (fcos az) E (fsin az) _ _ (cos (B2R az)) (sin (B2R az)) (3 * k + 72 / 10 + / 1000) (2 * k + 51 / 10 + / 1000) m1 FN FE F2 F1 U3 U2 (SC _) ltac:(lra) ltac:(lra) DN DE T2 T1 ltac:(lra)) as (Fd & Dd).
  { eapply Rle_trans; [|exact HM1]. nra. }
  set (d := flin N (fcos az) E (fsin az)) in *. set (T := vadd _ _) in Dd.
  assert (TA : T = tangent (V (- (S * c)) (- (S * s)) r) (V (- s) c 0) (B2R az)) by reflexivity.
  assert (UT : vnorm T = 1).
  { apply U. unfold T, vdot, vadd, vscale; cbn [Spec.vx Spec.vy Spec.vz]. pose proof (SC (B2R az)) as Q. set (ca := cos (B2R az)) in *. set (sa := sin (B2R az)) in *.
    transitivity (ca * ca * (S * S * (c * c + s * s) + r * r) + sa * sa * (c * c + s * s)); [ring|rewrite CS, !Rmult_1_r, US; lra]. }
  destruct (lin_err (x, y, z) (fcos D) d (fsin D) up T (cos (B2R D)) (sin (B2R D)) (k + / 1000) (m1 + / 100) m2 Fn Fd F4 F3 U1 UT (SC _) ltac:(lra) ltac:(lra) Dn Dd T4 T3 ltac:(lra)) as (Fb & Db).
  { eapply Rle_trans; [|exact HM2]. nra. }
  split; auto. unfold B, arc. rewrite <- TA. split; [|exact Db].
  apply U. assert (OT : vdot up T = 0).
  { unfold up, T, vdot, vadd, vscale; cbn [Spec.vx Spec.vy Spec.vz]. set (ca := cos (B2R az)) in *. set (sa := sin (B2R az)) in *.
    transitivity (ca * (r * S) * (1 - (c * c + s * s))); [ring|rewrite CS; ring]. }
  assert (D1 : vdot up up = 1) by (rewrite <- vnorm_sq, U1; ring). assert (D2 : vdot T T = 1) by (rewrite <- vnorm_sq, UT; ring).
  transitivity (cos (B2R D) * cos (B2R D) * vdot up up + 2 * (cos (B2R D) * sin (B2R D)) * vdot up T + sin (B2R D) * sin (B2R D) * vdot T T).
  { generalize up T. intros; vring. } rewrite D1, D2, OT. pose proof (SC (B2R D)). lra.
Qed.
