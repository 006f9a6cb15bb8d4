(** * C90: the WGS-84 ellipsoid, and a case that meets the hypotheses *)
From Coq Require Import ZArith Reals Lra Lia Bool Psatz.
From Flocq Require Import Core BinarySingleNaN Relative.
From Verif Require Import Spec SpecArr LVec LAngle LEcef PEcef LVerm FTiny FBase FRel FRel2 FUnit FPi FAngle FDist FGreat FClose FLatLon FInv FEcef FEcef2 FGeodB FGeod FGeod2 FGeod3 FGeod4 FGeod5 FGeod6.
Local Open Scope R_scope.

Lemma wgs84_earth : usual_earth wgs84_a wgs84_f.
Proof.
  destruct wgs84_f_val as (F & E). unfold usual_earth. rewrite wgs84_a_val, E. split; [reflexivity|]. split; auto.
  assert (bpow radix2 (-100) <= bpow radix2 (-10)) by (apply bpow_le; lia). assert (bpow radix2 23 <= bpow radix2 100) by (apply bpow_le; lia).
  assert (bpow radix2 (-10) = / 1024) by (cbn; lra). assert (bpow radix2 23 = 8388608) by (cbn; lra). lra.
Qed.

(** 12 nanometres, and an angle that is 8 nanometres on the surface of the Earth *)
Theorem C90_wgs84 : forall pow p N d s, good_pow pow -> finite_vec p -> vnorm N = 1 ->
  on_ellipsoid 6378137 (B2R wgs84_f) (V 0 0 1) s -> same_direction (ellipsoid_gradient 6378137 (B2R wgs84_f) (V 0 0 1) s) N ->
  vec_of p = vsub s (vscale d N) -> Rabs d <= 1000000 ->
  let '(n, depth) := fp_EB_E2n_EB_E pow p wgs84_a wgs84_f in
  near_unit n /\ angle N (vec_of n) * 6378137 <= 8 / 1000000000 /\ is_finite depth = true /\ Rabs (B2R depth - d) <= 12 / 1000000000.
Proof.
  intros pow p N d s G Fp NN OE SD EP Bd. pose proof (Rabs_le_inv _ _ Bd) as Bd'. rewrite <- wgs84_a_val in OE, SD.
  pose proof (C90_accuracy pow p wgs84_a wgs84_f N d s G wgs84_earth Fp NN OE SD EP) as C. rewrite wgs84_a_val in C. specialize (C ltac:(lra)).
  destruct (fp_EB_E2n_EB_E pow p wgs84_a wgs84_f) as [n depth]. destruct C as (NU & AN & FD & ED). split; auto. rewrite u_val in *. split; [lra|]. split; auto. lra.
Qed.
Print Assumptions C90_wgs84.

(** a correctly rounded power function meets the requirement *)
Definition ideal_pow (x y : float64) : float64 := match x with B754_zero _ => fzero | _ => round64 (Rpower (B2R x) (B2R y)) end.
Lemma ideal_pow_good : good_pow ideal_pow.
Proof.
  split.
  - intros x y Fx Fy Px HB. assert (E : ideal_pow x y = round64 (Rpower (B2R x) (B2R y))) by (destruct x; auto; cbn in Px; lra). rewrite E.
    set (t := Rpower (B2R x) (B2R y)) in *. assert (Pt : 0 < t) by (apply exp_pos). pose proof u_pos as Pu.
    destruct (round64_val t) as (F & V). { rewrite Rabs_right by lra. eapply Rle_trans; [apply HB|apply bpow_le; lia]. } split; auto. rewrite V.
    destruct (rnd_err t) as (e & h & He & Hh & ->). replace (t * (1 + e) + h - t) with (t * e + h) by ring. eapply Rle_trans; [apply Rabs_triang|]. rewrite Rabs_mult, (Rabs_right t) by lra.
    assert (t * Rabs e <= t * u) by (apply Rmult_le_compat_l; lra).
    assert (eta <= u * t). { unfold eta, u. apply Rle_trans with (bpow radix2 (-53) * bpow radix2 (-1000)); [rewrite <- bpow_plus; apply bpow_le; lia|apply Rmult_le_compat_l; [apply bpow_ge_0|lra]]. } lra.
  - intros s. cbn. auto.
Qed.
(** a point of the equator of WGS-84, 6378137 m from the centre *)
Example C90_example : good_pow ideal_pow /\ usual_earth wgs84_a wgs84_f /\ finite_vec (wgs84_a, fzero, fzero) /\ vnorm (V 1 0 0) = 1 /\
  on_ellipsoid 6378137 (B2R wgs84_f) (V 0 0 1) (V 6378137 0 0) /\ same_direction (ellipsoid_gradient 6378137 (B2R wgs84_f) (V 0 0 1) (V 6378137 0 0)) (V 1 0 0) /\
  vec_of (wgs84_a, fzero, fzero) = vsub (V 6378137 0 0) (vscale 0 (V 1 0 0)).
Proof.
  split; [apply ideal_pow_good|]. split; [apply wgs84_earth|]. split; [unfold finite_vec; auto|]. destruct wgs84_f_val as (_ & ->).
  split; [unfold vnorm, vdot; cbn [Spec.vx Spec.vy Spec.vz]; transitivity (sqrt 1); [f_equal; ring|apply sqrt_1]|].
  split; [unfold on_ellipsoid, Spec.equatorial, Spec.polar, vsub, vscale, vdot; cbn [Spec.vx Spec.vy Spec.vz]; field|].
  split; [exists (/ 6378137); split; [lra|]; unfold ellipsoid_gradient, Spec.equatorial, Spec.polar, vadd, vsub, vscale, vdot; cbn [Spec.vx Spec.vy Spec.vz]; apply vec_eq; cbn [Spec.vx Spec.vy Spec.vz]; field|].
  unfold vec_of. rewrite wgs84_a_val. unfold vsub, vscale; cbn [Spec.vx Spec.vy Spec.vz B2R fzero]. apply vec_eq; cbn [Spec.vx Spec.vy Spec.vz]; try ring; cbn; ring.
Qed.
