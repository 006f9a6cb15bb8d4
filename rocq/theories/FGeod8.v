(** * C90: how the geodetic coordinates of a point move when the point moves *)
From Coq Require Import ZArith Reals Lra Lia Bool Psatz.
From Flocq Require Import Core BinarySingleNaN Relative.
From Verif Require LObj2.
From Verif Require Import Spec SpecArr LVec LAngle LEcef PEcef LVerm FTiny FBase FRel FRel2 FUnit FPi FAngle FDist FGreat FClose FLatLon FInv FEcef FEcef2 FGeodB FGeod FGeod2 FGeod3 FGeod4 FGeod5 FGeod6 FGeod7.
Local Open Scope R_scope.

Lemma angle_chord x y c : vnorm x = 1 -> vnorm y = 1 -> vnorm (vsub y x) <= c -> c <= / 10 -> angle x y <= 1003 / 1000 * c.
Proof.
  intros Nx Ny H Hc. rewrite chord_angle in H by auto. pose proof (angle_range x y) as B. pose proof PI_RGT_0 as PP. set (t := angle x y / 2) in *. assert (Bt : 0 <= t <= PI / 2) by (unfold t; lra).
  pose proof (sin_ge_0 t ltac:(lra) ltac:(lra)) as S0. pose proof (cos_ge_0 t ltac:(lra) ltac:(lra)) as C0. pose proof (sin2_cos2 t) as SC. unfold Rsqr in SC.
  assert (C1 : 998 / 1000 <= cos t) by nra. pose proof (abs_angle t ltac:(lra) ltac:(lra)) as A. rewrite (Rabs_right t), (Rabs_right (sin t)) in A by lra.
  assert (t * (998 / 1000) <= t * cos t) by (apply Rmult_le_compat_l; lra). assert (angle x y = 2 * t) by (unfold t; lra). lra.
Qed.

(** ** the support function of the ellipsoid *)
Section Support.
Variables (a f : R).
Hypothesis Pa : 0 < a.
Hypothesis Hf : 0 <= f <= / 200.
Let s := 1 - f.
Let hs : 0 < s <= 1. Proof. unfold s; lra. Qed.
Lemma scaled_sym x y : vdot (scaled s x) y = vdot x (scaled s y).
Proof. unfold scaled, vdot; cbn [Spec.vx Spec.vy Spec.vz]. field. lra. Qed.
Lemma psurf_dot v w : vnorm v = 1 -> vdot (psurf a f v) w = a * s * (/ den f v * vdot (scaled s v) (scaled s w)).
Proof.
  intros Nv. rewrite psurf_scaled by (try apply vnorm_inv; auto; lra). fold s. unfold direction. replace (vnorm (scaled s v)) with (den f v) by (symmetry; apply scaled_norm; lra).
  replace (vdot (vscale (a * s) (scaled s (vscale (/ den f v) (scaled s v)))) w) with (a * s * vdot (scaled s (vscale (/ den f v) (scaled s v))) w) by (generalize (scaled s (vscale (/ den f v) (scaled s v))); intros; clear; vring).
  rewrite scaled_sym. f_equal. generalize (scaled s v) (scaled s w). intros. clear. vring.
Qed.
Lemma den_upper w : vnorm w = 1 -> 1 <= den f w /\ den f w * s <= 1.
Proof.
  intros N. assert (N0 : w <> v0) by (apply vnorm_inv; auto). destruct (den_bounds f w ltac:(lra) N) as (D1 & _). split; auto.
  pose proof (den_sq f w ltac:(lra) N0) as Q. fold s in Q. assert (U : Spec.vx w * Spec.vx w + rho2 w = 1). { pose proof (vnorm_sq w) as V. rewrite N in V. unfold vdot, rho2 in *. lra. }
  set (D := den f w) in *. assert (E : D * s * (D * s) = Spec.vx w * Spec.vx w * (s * s) + rho2 w). { replace (D * s * (D * s)) with (D * D * (s * s)) by ring. rewrite Q. field. lra. }
  pose proof (rho2_pos w). pose proof (Rle_0_sqr (Spec.vx w)) as X. unfold Rsqr in X. assert (s * s <= 1) by nra. assert (Spec.vx w * Spec.vx w * (s * s) <= Spec.vx w * Spec.vx w * 1) by (apply Rmult_le_compat_l; auto).
  assert (0 <= D * s) by nra. nra.
Qed.
Lemma support_eq w : vnorm w = 1 -> vdot (psurf a f w) w = a * s * den f w.
Proof.
  intros N. rewrite psurf_dot by auto. destruct (den_upper w N) as (D & _). rewrite <- vnorm_sq. replace (vnorm (scaled s w)) with (den f w) by (symmetry; apply scaled_norm; lra). field. lra.
Qed.
Lemma support v w : vnorm v = 1 -> vnorm w = 1 -> vdot (psurf a f v) w <= vdot (psurf a f w) w.
Proof.
  intros Nv Nw. rewrite support_eq, psurf_dot by auto. destruct (den_upper v Nv) as (D & _). apply Rmult_le_compat_l; [nra|].
  pose proof (cauchy_schwarz (scaled s v) (scaled s w)) as C. replace (vnorm (scaled s v)) with (den f v) in C by (symmetry; apply scaled_norm; lra). replace (vnorm (scaled s w)) with (den f w) in C by (symmetry; apply scaled_norm; lra). apply Rabs_le_inv in C.
  apply (Rmult_le_reg_l (den f v)); [lra|]. rewrite <- Rmult_assoc, Rinv_r, Rmult_1_l by lra. lra.
Qed.
Lemma support_range w : vnorm w = 1 -> a * s <= vdot (psurf a f w) w <= a.
Proof.
  intros N. rewrite support_eq by auto. destruct (den_upper w N) as (D1 & D2). split; [rewrite <- (Rmult_1_r (a * s)) at 1; apply Rmult_le_compat_l; nra|].
  replace (a * s * den f w) with (a * (den f w * s)) by ring. rewrite <- (Rmult_1_r a) at 2. apply Rmult_le_compat_l; lra.
Qed.
Lemma strong_mono v w : vnorm v = 1 -> vnorm w = 1 -> a * (s * s) * vdot (vsub w v) (vsub w v) <= vdot (vsub (psurf a f w) (psurf a f v)) (vsub w v).
Proof.
  intros Nv Nw. destruct (den_upper v Nv) as (Q1 & Q2). destruct (den_upper w Nw) as (P1 & P2).
  assert (E : vdot (vsub (psurf a f w) (psurf a f v)) (vsub w v) = vdot (psurf a f w) w - vdot (psurf a f w) v - vdot (psurf a f v) w + vdot (psurf a f v) v) by (generalize (psurf a f w) (psurf a f v); intros; clear; vring).
  rewrite E, !support_eq, !psurf_dot by auto. clear E. replace (vdot (scaled s v) (scaled s w)) with (vdot (scaled s w) (scaled s v)) by (generalize (scaled s v) (scaled s w); intros; clear; vring).
  pose proof (den_sq f v ltac:(lra) (vnorm_inv v Nv)) as Sq. pose proof (den_sq f w ltac:(lra) (vnorm_inv w Nw)) as Sp. fold s in Sq, Sp.
  set (p := den f w) in *. set (q := den f v) in *. set (D := vdot (scaled s w) (scaled s v)).
  pose proof (vnorm_sq v) as Uv. pose proof (vnorm_sq w) as Uw. rewrite Nv in Uv. rewrite Nw in Uw.
  set (K := / (s * s) - 1). assert (PK : 0 <= K). { unfold K. assert (1 <= / (s * s)); [|lra]. rewrite <- Rinv_1 at 1. apply Rinv_le; nra. }
  set (C := Spec.vy w * Spec.vy v + Spec.vz w * Spec.vz v). set (A := rho2 w) in *. set (B := rho2 v) in *.
  assert (HA : p * p = 1 + K * A). { rewrite Sp. unfold A, rho2, K. unfold vdot in Uw. unfold rho2. replace (Spec.vx w * Spec.vx w) with (1 - (Spec.vy w * Spec.vy w + Spec.vz w * Spec.vz w)) by lra. field. lra. }
  assert (HB : q * q = 1 + K * B). { rewrite Sq. unfold B, rho2, K. unfold vdot in Uv. unfold rho2. replace (Spec.vx v * Spec.vx v) with (1 - (Spec.vy v * Spec.vy v + Spec.vz v * Spec.vz v)) by lra. field. lra. }
  assert (HD : D = vdot w v + K * C). { unfold D, scaled, vdot, K, C; cbn [Spec.vx Spec.vy Spec.vz]. field. lra. }
  assert (PA' : 0 <= A) by apply rho2_pos. assert (PB' : 0 <= B) by apply rho2_pos.
  assert (CS : C * C <= A * B). { unfold A, B, C, rho2. pose proof (Rle_0_sqr (Spec.vy w * Spec.vz v - Spec.vz w * Spec.vy v)) as S. unfold Rsqr in S. lra. }
  assert (AM : 2 * C <= A + B). { unfold A, B, C, rho2. pose proof (Rle_0_sqr (Spec.vy w - Spec.vy v)) as S1. pose proof (Rle_0_sqr (Spec.vz w - Spec.vz v)) as S2. unfold Rsqr in *. lra. }
  assert (PQ : 1 + K * C <= p * q).
  { assert (H : (1 + K * C) * (1 + K * C) <= p * q * (p * q)).
    { replace (p * q * (p * q)) with (p * p * (q * q)) by ring. rewrite HA, HB. assert (0 <= K * (A + B - 2 * C)) by (apply Rmult_le_pos; lra). assert (0 <= K * K * (A * B - C * C)) by (apply Rmult_le_pos; [nra|lra]). lra. }
    assert (0 < p * q) by (apply Rmult_lt_0_compat; lra). apply Rnot_lt_le. intros L. assert (p * q * (p * q) < (1 + K * C) * (1 + K * C)) by (apply Rmult_le_0_lt_compat; lra). lra. }
  assert (CH : vdot (vsub w v) (vsub w v) <= 2 * (p * q - D)).
  { replace (vdot (vsub w v) (vsub w v)) with (vdot w w + vdot v v - 2 * vdot w v) by (clear; vring). lra. }
  set (X := vdot (vsub w v) (vsub w v)) in *. assert (PX : 0 <= X). { unfold X. rewrite <- vnorm_sq. pose proof (Rle_0_sqr (vnorm (vsub w v))). auto. }
  replace (a * s * p - a * s * (/ p * D) - a * s * (/ q * D) + a * s * q) with (a * s * ((/ p + / q) * (p * q - D))) by (field; lra).
  rewrite (Rmult_assoc a s). replace (a * (s * s) * X) with (a * (s * (s * X))) by ring. replace (a * (s * ((/ p + / q) * (p * q - D)))) with (a * (s * ((/ p + / q) * (p * q - D)))) by ring.
  apply Rmult_le_compat_l; [lra|]. apply Rmult_le_compat_l; [lra|].
  assert (I : forall t, 1 <= t -> t * s <= 1 -> s <= / t). { intros t T1 T2. apply (Rmult_le_reg_l t); [lra|]. rewrite Rinv_r by lra. lra. }
  pose proof (I p P1 P2). pose proof (I q Q1 Q2).
  apply Rle_trans with (2 * s * (X / 2)); [lra|]. apply Rmult_le_compat; lra.
Qed.

(** ** moving a point by eps *)
Lemma geodetic_moves w d w' d' eps : vnorm w = 1 -> vnorm w' = 1 -> vnorm (vsub (pint a f w' d') (pint a f w d)) <= eps ->
  (a * (s * s) - (d + d') / 2) * vnorm (vsub w' w) <= eps /\
  d' * (1 - vdot (vsub w' w) (vsub w' w) / 2) <= d + eps /\ d * (1 - vdot (vsub w' w) (vsub w' w) / 2) <= d' + eps.
Proof.
  intros Nw Nw' HE. set (g := vsub w' w). set (m := vsub (pint a f w' d') (pint a f w d)) in *. pose proof (vnorm_sq w) as Uw. pose proof (vnorm_sq w') as Uw'. rewrite Nw in Uw. rewrite Nw' in Uw'.
  assert (G2 : vdot g g = 2 - 2 * vdot w' w). { unfold g. replace (vdot (vsub w' w) (vsub w' w)) with (vdot w' w' + vdot w w - 2 * vdot w' w) by (clear; vring). lra. }
  pose proof (support w' w Nw' Nw) as S1. pose proof (support w w' Nw Nw') as S2.
  pose proof (cauchy_schwarz m w) as C1. pose proof (cauchy_schwarz m w') as C2. pose proof (cauchy_schwarz m g) as C3. rewrite Nw, Rmult_1_r in C1. rewrite Nw', Rmult_1_r in C2. apply Rabs_le_inv in C1, C2, C3.
  assert (M1 : vdot m w = vdot (psurf a f w') w - vdot (psurf a f w) w - d' * vdot w' w + d * vdot w w). { unfold m, pint. generalize (psurf a f w') (psurf a f w). intros. clear. vring. }
  assert (M2 : vdot m w' = vdot (psurf a f w') w' - vdot (psurf a f w) w' - d' * vdot w' w' + d * vdot w' w). { unfold m, pint. generalize (psurf a f w') (psurf a f w). intros. clear. vring. }
  assert (HW : vdot w' w = 1 - vdot g g / 2) by lra. rewrite HW in *. rewrite <- Uw, Rmult_1_r in M1. rewrite <- Uw', Rmult_1_r in M2. 
  split; [|split; lra].
  pose proof (strong_mono w w' Nw Nw') as SM. fold g in SM. pose proof (vnorm_sq g) as VG. pose proof (vnorm_pos g) as PG.
  assert (M3 : vdot m g = vdot (vsub (psurf a f w') (psurf a f w)) g - (d + d') / 2 * vdot g g).
  { replace (vdot m g) with (vdot (vsub (psurf a f w') (psurf a f w)) g - (d' * vdot w' w' - d' * vdot w' w - d * vdot w' w + d * vdot w w)). { rewrite HW, <- Uw, <- Uw'. lra. }
    unfold m, pint, g. generalize (psurf a f w') (psurf a f w). intros. clear. vring. }
  destruct (Req_dec (vnorm g) 0) as [Z|Z]; [rewrite Z, Rmult_0_r; pose proof (vnorm_pos m); lra|].
  apply (Rmult_le_reg_r (vnorm g)); [lra|]. rewrite Rmult_assoc, VG. assert (vnorm m * vnorm g <= eps * vnorm g) by (apply Rmult_le_compat_r; auto). lra.
Qed.
End Support.
