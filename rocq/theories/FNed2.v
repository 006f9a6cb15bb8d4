(** * C91: the local North-East-Down axes in binary64 *)
From Coq Require Import ZArith Reals Lra Lia Bool Psatz.
From Flocq Require Import Core BinarySingleNaN Relative.
From Verif Require Import Spec LVec LAngle FTiny FZero FBase FRel FRel2 FUnit FPi FAngle FDist FGreat FLatLon FInv FEcef FEcef2 FNed.
From Verif Require SpecArr SpecGeo.
Local Open Scope R_scope.

(** every component of the computed vector is within k units of roundoff of the exact one (relative to it; below 2^-690 absolutely) *)
Definition accurate (k : R) (q : vec64) (Q : vec) : Prop :=
  finite_vec q /\
  Rabs (Spec.vx (vec_of q) - Spec.vx Q) <= k * u * Rabs (Spec.vx Q) + bpow radix2 (-690) /\
  Rabs (Spec.vy (vec_of q) - Spec.vy Q) <= k * u * Rabs (Spec.vy Q) + bpow radix2 (-690) /\
  Rabs (Spec.vz (vec_of q) - Spec.vz Q) <= k * u * Rabs (Spec.vz Q) + bpow radix2 (-690).

Lemma near_accurate k k' t q Q : near_v k t q Q -> k <= k' -> t <= 6 * wee -> accurate k' q Q.
Proof.
  destruct q as [[x y] z]. intros (Fx & Fy & Fz & Nx & Ny & Nz) Hk Ht. assert (W : 6 * wee <= bpow radix2 (-690)).
  { unfold wee. change (-690)%Z with (10 + -700)%Z. rewrite bpow_plus. apply Rmult_le_compat_r; [apply bpow_ge_0|cbn; lra]. }
  unfold accurate, finite_vec, vec_of. cbn [Spec.vx Spec.vy Spec.vz]. split; [auto|].
  assert (K : forall x X, near k t x X -> Rabs (x - X) <= k' * u * Rabs X + bpow radix2 (-690)). { intros a A H. apply (near_weaken k k' t); auto. lra. }
  auto.
Qed.

(** ** North and East at the outward normal [up]: the definitions of SpecGeo, the axis of the Earth being the z axis *)
Lemma ned_axes S r s c : 0 < r -> c * c + s * s = 1 ->
  SpecGeo.east_at SpecArr.Me (V (r * c) (r * s) S) = V (- s) c 0 /\ SpecGeo.north_at SpecArr.Me (V (r * c) (r * s) S) = V (- (S * c)) (- (S * s)) r.
Proof.
  intros Hr CS. assert (E : SpecGeo.east_at SpecArr.Me (V (r * c) (r * s) S) = V (- s) c 0).
  { unfold SpecGeo.east_at, SpecArr.north, SpecArr.Me. cbn [r0]. unfold vcross; cbn [Spec.vx Spec.vy Spec.vz].
    assert (N : vnorm (V (0 * S - 1 * (r * s)) (1 * (r * c) - 0 * S) (0 * (r * s) - 0 * (r * c))) = r).
    { apply vnorm_eq; [lra|]. unfold vdot; cbn [Spec.vx Spec.vy Spec.vz]. transitivity (r * r * (c * c + s * s)); [ring|rewrite CS; ring]. }
    unfold direction. rewrite N. unfold vscale; cbn [Spec.vx Spec.vy Spec.vz]. apply vec_eq; cbn [Spec.vx Spec.vy Spec.vz]; field; lra. }
  split; auto. unfold SpecGeo.north_at. rewrite E. unfold vcross; cbn [Spec.vx Spec.vy Spec.vz]. apply vec_eq; cbn [Spec.vx Spec.vy Spec.vz]; try ring.
  transitivity (r * (c * c + s * s)); [ring|rewrite CS; ring].
Qed.

(** ** from an n-vector that is not a pole *)
Theorem C91_accuracy : forall n, ordinary_vec n ->
  bpow radix2 (-300) <= sqrt (Spec.vx (direction (vec_of n)) ^ 2 + Spec.vy (direction (vec_of n)) ^ 2) ->
  let '(north, east, down) := fn_E2R_EN n in let up := direction (vec_of n) in
  accurate 23 north (SpecGeo.north_at SpecArr.Me up) /\ accurate 16 east (SpecGeo.east_at SpecArr.Me up) /\ accurate 5 down (vneg up).
Proof.
  intros n O HP. pose proof u_pos as Pu. pose proof u_tiny as Su. pose proof eta_pos as Pe. pose proof wee_pos as PW.
  assert (NL : vec_of n <> v0).
  { destruct n as [[x y] z]. destruct O as (_ & _ & _ & _ & _ & _ & G). pose proof (bpow_gt_0 radix2 (-400)). intros E'. injection E' as Ex Ey Ez. rewrite Ex, Ey, Ez, Rabs_R0 in G. lra. }
  destruct (rotated_unit n O) as (e0 & e1 & e2 & EU & F0 & F1 & F2 & N0 & N1 & N2). unfold fn_E2R_EN. rewrite EU. clear EU.
  pose proof (direction_unit (vec_of n) NL) as UN. set (up := direction (vec_of n)) in *. destruct up as [a b S] eqn:EUP. cbn [Spec.vx Spec.vy Spec.vz] in *.
  set (r := sqrt (a ^ 2 + b ^ 2)) in *. pose proof (bpow_gt_0 radix2 (-300)) as P3. assert (Hr : 0 < r) by lra.
  assert (RR : r * r = a * a + b * b). { unfold r. rewrite sqrt_sqrt; [ring|]. nra. }
  assert (Ea : a = r * (a / r)) by (field; lra). assert (Eb : b = r * (b / r)) by (field; lra).
  assert (CS : a / r * (a / r) + b / r * (b / r) = 1). { transitivity ((a * a + b * b) / (r * r)); [field; lra|]. rewrite <- RR. field. lra. }
  assert (US : S * S + r * r = 1). { pose proof (vnorm_sq (V a b S)) as Q. rewrite UN in Q. unfold vdot in Q; cbn [Spec.vx Spec.vy Spec.vz] in Q. rewrite RR. lra. }
  assert (W : mulv SpecArr.Me (V a b S) = V S b (- a)). { unfold mulv, SpecArr.Me, vdot; cbn [Spec.vx Spec.vy Spec.vz r0 r1 r2]. apply vec_eq; cbn [Spec.vx Spec.vy Spec.vz]; ring. }
  rewrite W in N0, N1, N2. cbn [Spec.vx Spec.vy Spec.vz] in N0, N1, N2. rewrite Eb in N1. rewrite Ea in N2.
  destruct (frame_err e0 e1 e2 S r (b / r) (a / r) 5 eta) as (A & B & C); auto; try lra.
  destruct (ned_axes S r (b / r) (a / r) Hr CS) as (EE & EN). rewrite <- Ea, <- Eb in EE, EN. rewrite EE, EN.
  split; [eapply near_accurate; [exact A| |]; lra|]. split; [eapply near_accurate; [exact B| |]; lra|].
  rewrite <- Ea, <- Eb in C. apply (near_accurate 5 5 wee); [exact C|lra|lra].
Qed.
Print Assumptions C91_accuracy.

(** ** the computed axes are orthonormal within 51 units of roundoff *)
Lemma abs_vec_norm G : vnorm (V (Rabs (Spec.vx G)) (Rabs (Spec.vy G)) (Rabs (Spec.vz G))) = vnorm G.
Proof. unfold vnorm. f_equal. unfold vdot; cbn [Spec.vx Spec.vy Spec.vz]. rewrite <- !Rabs_mult, !Rabs_right by nra. reflexivity. Qed.
Lemma accurate_vec k q Q : 0 <= k -> vnorm Q = 1 -> accurate k q Q -> vnorm (vsub (vec_of q) Q) <= (k + / 1000) * u.
Proof.
  intros Hk N (F & A & B & C). assert (W : 3 * bpow radix2 (-690) <= / 1000 * u).
  { unfold u. apply Rle_trans with (bpow radix2 2 * bpow radix2 (-690)); [apply Rmult_le_compat_r; [apply bpow_ge_0|cbn; lra]|]. rewrite <- bpow_plus. apply Rle_trans with (bpow radix2 (-10) * bpow radix2 (-53)); [rewrite <- bpow_plus; apply bpow_le; lia|]. apply Rmult_le_compat_r; [apply bpow_ge_0|cbn; lra]. }
  pose proof (near_vec_err k (bpow radix2 (-690)) (vec_of q) Q ltac:(apply Rmult_le_pos; [lra|apply Rlt_le, u_pos]) ltac:(apply bpow_ge_0) A B C) as E. rewrite N in E. lra.
Qed.
Lemma almost_dot k1 k2 q1 q2 Q1 Q2 : 0 <= k1 <= 100 -> 0 <= k2 <= 100 -> vnorm Q1 = 1 -> vnorm Q2 = 1 -> vnorm (vsub q1 Q1) <= k1 * u -> vnorm (vsub q2 Q2) <= k2 * u ->
  Rabs (vdot q1 q2 - vdot Q1 Q2) <= (k1 + k2 + / 1000) * u.
Proof.
  intros H1 H2 U1 U2 D1 D2. pose proof u_pos as Pu. pose proof u_tiny as Su.
  replace (vdot q1 q2 - vdot Q1 Q2) with (vdot (vsub q1 Q1) Q2 + vdot Q1 (vsub q2 Q2) + vdot (vsub q1 Q1) (vsub q2 Q2)) by vring.
  pose proof (cauchy_schwarz (vsub q1 Q1) Q2) as A. pose proof (cauchy_schwarz Q1 (vsub q2 Q2)) as B. pose proof (cauchy_schwarz (vsub q1 Q1) (vsub q2 Q2)) as C. rewrite U2 in A. rewrite U1 in B.
  pose proof (vnorm_pos (vsub q1 Q1)) as P1. pose proof (vnorm_pos (vsub q2 Q2)) as P2.
  assert (M : vnorm (vsub q1 Q1) * vnorm (vsub q2 Q2) <= (100 * u) * (100 * u)) by (apply Rmult_le_compat; nra).
  assert (M2 : 100 * u * (100 * u) <= / 1000 * u) by nra.
  eapply Rle_trans; [apply Rabs_triang|]. eapply Rle_trans; [apply Rplus_le_compat_r, Rabs_triang|]. lra.
Qed.

Theorem C91_orthonormal : forall n, ordinary_vec n ->
  bpow radix2 (-300) <= sqrt (Spec.vx (direction (vec_of n)) ^ 2 + Spec.vy (direction (vec_of n)) ^ 2) ->
  let '(north, east, down) := fn_E2R_EN n in let N := vec_of north in let E := vec_of east in let D := vec_of down in
  Rabs (vdot N N - 1) <= 47 * u /\ Rabs (vdot E E - 1) <= 33 * u /\ Rabs (vdot D D - 1) <= 11 * u /\
  Rabs (vdot N E) <= 40 * u /\ Rabs (vdot N D) <= 29 * u /\ Rabs (vdot E D) <= 22 * u.
Proof.
  intros n O HP. pose proof (C91_accuracy n O HP) as H. destruct (fn_E2R_EN n) as [[nn ee] dd]. cbv zeta in *.
  assert (NL : vec_of n <> v0).
  { destruct n as [[x y] z]. destruct O as (_ & _ & _ & _ & _ & _ & G). pose proof (bpow_gt_0 radix2 (-400)). intros E'. injection E' as Ex Ey Ez. rewrite Ex, Ey, Ez, Rabs_R0 in G. lra. }
  pose proof (direction_unit (vec_of n) NL) as UN. set (up := direction (vec_of n)) in *. destruct up as [a b S] eqn:EUP. cbn [Spec.vx Spec.vy Spec.vz] in *.
  set (r := sqrt (a ^ 2 + b ^ 2)) in *. pose proof (bpow_gt_0 radix2 (-300)) as P3. assert (Hr : 0 < r) by lra.
  assert (RR : r * r = a * a + b * b). { unfold r. rewrite sqrt_sqrt; [ring|]. nra. }
  assert (Ea : a = r * (a / r)) by (field; lra). assert (Eb : b = r * (b / r)) by (field; lra).
  assert (CS : a / r * (a / r) + b / r * (b / r) = 1). { transitivity ((a * a + b * b) / (r * r)); [field; lra|]. rewrite <- RR. field. lra. }
  assert (US : S * S + r * r = 1). { pose proof (vnorm_sq (V a b S)) as Q. rewrite UN in Q. unfold vdot in Q; cbn [Spec.vx Spec.vy Spec.vz] in Q. rewrite RR. lra. }
  destruct (ned_axes S r (b / r) (a / r) Hr CS) as (EE & EN). rewrite <- Ea, <- Eb in EE, EN. rewrite EE, EN in H.
  assert (ED : vneg (V a b S) = V (- (r * (a / r))) (- (r * (b / r))) (- S)) by (rewrite <- Ea, <- Eb; reflexivity). rewrite ED in H.
  set (c := a / r) in *. set (s := b / r) in *. clearbody c s r. destruct H as (HN & HE & HD).
  assert (D1 : vdot (V (- (S * c)) (- (S * s)) r) (V (- (S * c)) (- (S * s)) r) = 1). { unfold vdot; cbn [Spec.vx Spec.vy Spec.vz]. transitivity (S * S * (c * c + s * s) + r * r); [ring|rewrite CS; lra]. }
  assert (D2 : vdot (V (- s) c 0) (V (- s) c 0) = 1). { unfold vdot; cbn [Spec.vx Spec.vy Spec.vz]. lra. }
  assert (D3 : vdot (V (- (r * c)) (- (r * s)) (- S)) (V (- (r * c)) (- (r * s)) (- S)) = 1). { unfold vdot; cbn [Spec.vx Spec.vy Spec.vz]. transitivity (r * r * (c * c + s * s) + S * S); [ring|rewrite CS; lra]. }
  assert (D4 : vdot (V (- (S * c)) (- (S * s)) r) (V (- s) c 0) = 0) by (unfold vdot; cbn [Spec.vx Spec.vy Spec.vz]; ring).
  assert (D5 : vdot (V (- (S * c)) (- (S * s)) r) (V (- (r * c)) (- (r * s)) (- S)) = 0). { unfold vdot; cbn [Spec.vx Spec.vy Spec.vz]. transitivity (S * r * (c * c + s * s) - S * r); [ring|rewrite CS; ring]. }
  assert (D6 : vdot (V (- s) c 0) (V (- (r * c)) (- (r * s)) (- S)) = 0) by (unfold vdot; cbn [Spec.vx Spec.vy Spec.vz]; ring).
  assert (U : forall v, vdot v v = 1 -> vnorm v = 1). { intros v Hv. apply vnorm_eq; [lra|]. lra. }
  pose proof (accurate_vec 23 _ _ ltac:(lra) (U _ D1) HN) as A1. pose proof (accurate_vec 16 _ _ ltac:(lra) (U _ D2) HE) as A2. pose proof (accurate_vec 5 _ _ ltac:(lra) (U _ D3) HD) as A3.
  pose proof u_pos as Pu.
  pose proof (almost_dot (23 + / 1000) (23 + / 1000) _ _ _ _ ltac:(lra) ltac:(lra) (U _ D1) (U _ D1) A1 A1) as R1. rewrite D1 in R1.
  pose proof (almost_dot (16 + / 1000) (16 + / 1000) _ _ _ _ ltac:(lra) ltac:(lra) (U _ D2) (U _ D2) A2 A2) as R2. rewrite D2 in R2.
  pose proof (almost_dot (5 + / 1000) (5 + / 1000) _ _ _ _ ltac:(lra) ltac:(lra) (U _ D3) (U _ D3) A3 A3) as R3. rewrite D3 in R3.
  pose proof (almost_dot (23 + / 1000) (16 + / 1000) _ _ _ _ ltac:(lra) ltac:(lra) (U _ D1) (U _ D2) A1 A2) as R4. rewrite D4, Rminus_0_r in R4.
  pose proof (almost_dot (23 + / 1000) (5 + / 1000) _ _ _ _ ltac:(lra) ltac:(lra) (U _ D1) (U _ D3) A1 A3) as R5. rewrite D5, Rminus_0_r in R5.
  pose proof (almost_dot (16 + / 1000) (5 + / 1000) _ _ _ _ ltac:(lra) ltac:(lra) (U _ D2) (U _ D3) A2 A3) as R6. rewrite D6, Rminus_0_r in R6.
  clear - R1 R2 R3 R4 R5 R6 Pu. repeat split; lra.
Qed.
Print Assumptions C91_orthonormal.
