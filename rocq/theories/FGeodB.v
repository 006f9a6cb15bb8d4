(** * Magnitudes of the intermediate results of _compute_k (core.py 150-161) *)
From Coq Require Import ZArith Reals Lia Lra Bool Psatz.
From Verif Require Import LVerm.
Local Open Scope R_scope.

Section Bounds.
Variables e P Q K t : R.
Hypothesis He : 0 <= e <= / 100.
Hypothesis HP : 0 <= P.
Hypothesis HQ : 0 <= Q.
Hypothesis HK : 12 / 25 <= K.
Hypothesis Quartic : P * K ^ 2 + Q * (K + e) ^ 2 = K ^ 2 * (K + e) ^ 2.
Hypothesis Ht : 0 < t.
Hypothesis Ht3 : t ^ 3 = vxx e P Q.

Lemma gb_sum : K * K <= P + Q <= (K + e) * (K + e).
Proof.
  assert (A : 0 < K * K) by nra. assert (B : K * K <= (K + e) * (K + e)) by nra.
 assert (E : P * (K * K) + Q * ((K + e) * (K + e)) = K * K * ((K + e) * (K + e))) by (rewrite <- !Rsqr_pow2 in Quartic; exact Quartic).
  set (k2 := K * K) in *. set (l2 := (K + e) * (K + e)) in *. clearbody k2 l2. split.
  - apply (Rmult_le_reg_r l2); [lra|]. rewrite <- E. rewrite Rmult_plus_distr_r. apply Rplus_le_compat_r, Rmult_le_compat_l; auto.
  - apply (Rmult_le_reg_r k2); [lra|]. rewrite (Rmult_comm l2), <- E. rewrite Rmult_plus_distr_r. apply Rplus_le_compat_l, Rmult_le_compat_l; auto.
Qed.
Lemma gb_low : 2304 / 10000 <= P + Q.
Proof. pose proof gb_sum. nra. Qed.
Lemma gb_e : e * e <= 435 / 1000000 * (P + Q).
Proof. pose proof gb_low. nra. Qed.
Lemma gb_e' : 0 <= e * e <= / 10000. Proof. nra. Qed.
Lemma gb_outside : e * e < P + Q.
Proof. pose proof gb_low. nra. Qed.
Lemma gb_r : 999565 / 1000000 * (P + Q) / 6 <= vr e P Q <= (P + Q) / 6.
Proof. pose proof gb_e. pose proof gb_e'. unfold vr. lra. Qed.
Lemma gb_s : 0 <= vs e P Q <= 6 / 1000.
Proof.
  split; [apply vs_pos; auto; try lra; apply gb_outside|]. pose proof gb_r as (R1 & R2). pose proof gb_low as L. pose proof gb_e' as E. unfold vs. set (R := vr e P Q) in *. set (m := P + Q) in *.
  assert (PR : 0 < R) by lra. assert (R3 : 0 < R ^ 3) by (apply pow_lt; auto).
  apply (Rmult_le_reg_r (4 * R ^ 3)); [lra|]. unfold Rdiv at 1. rewrite Rmult_assoc, Rinv_l, Rmult_1_r by lra.
  assert (PQ : P * Q <= m * m / 4) by (unfold m; pose proof (Rle_0_sqr (P - Q)) as SQ; unfold Rsqr in SQ; lra). assert (M : 0 <= m * m) by (apply Rmult_le_pos; lra).
  assert (A : e * e * P * Q <= / 10000 * (m * m / 4)). { rewrite Rmult_assoc. apply Rmult_le_compat; try lra. apply Rmult_le_pos; auto. }
  assert (B : 166 / 1000 * m <= R) by lra.
  assert (C : 166 / 1000 * m * (166 / 1000 * m) * (166 / 1000 * m) <= R ^ 3).
  { replace (R ^ 3) with (R * R * R) by ring. assert (0 <= 166 / 1000 * m) by lra. apply Rmult_le_compat; auto; [apply Rmult_le_pos; auto|]. apply Rmult_le_compat; auto. }
  eapply Rle_trans; [exact A|]. apply Rle_trans with (6 / 1000 * (4 * (166 / 1000 * m * (166 / 1000 * m) * (166 / 1000 * m)))); [|lra].
  assert (m * m * (2304 / 10000) <= m * m * m) by (apply Rmult_le_compat_l; auto). lra.
Qed.
Lemma gb_sq : 0 <= sqrt (vs e P Q * (2 + vs e P Q)) <= 11 / 100.
Proof.
  pose proof gb_s. split; [apply sqrt_pos|]. rewrite <- (sqrt_square (11 / 100)) by lra. apply sqrt_le_1_alt. nra.
Qed.
Lemma gb_x : 1 <= vxx e P Q <= 1116 / 1000.
Proof. pose proof gb_s. pose proof gb_sq. unfold vxx. lra. Qed.
Lemma gb_t : 1 <= t <= 1038 / 1000.
Proof.
  pose proof gb_x as X. rewrite <- Ht3 in X. replace (t ^ 3) with (t * t * t) in X by ring. split.
  - destruct (Rle_dec 1 t) as [|N]; auto. exfalso. apply Rnot_le_lt in N. assert (t * t < 1) by nra. nra.
  - destruct (Rle_dec t (1038 / 1000)) as [|N]; auto. exfalso. apply Rnot_le_lt in N. assert (1038 / 1000 * (1038 / 1000) < t * t) by nra. nra.
Qed.
Lemma gb_tt : 3 <= 1 + t + 1 / t <= 30015 / 10000.
Proof.
  pose proof gb_t as T. assert (I : 1 / t = 2 - t + (t - 1) * (t - 1) / t) by (field; lra).
  assert (J : 0 <= (t - 1) * (t - 1) / t <= 15 / 10000).
  { split; [apply Rmult_le_pos; [nra|apply Rlt_le, Rinv_0_lt_compat; lra]|]. apply (Rmult_le_reg_r t); [lra|]. unfold Rdiv at 1. rewrite Rmult_assoc, Rinv_l, Rmult_1_r by lra. nra. }
  lra.
Qed.
Lemma gb_u : 4997 / 10000 * (P + Q) <= vu e P Q t <= 50026 / 100000 * (P + Q).
Proof.
  pose proof gb_tt as T. pose proof gb_r as (R1 & R2). pose proof gb_low as L. unfold vu. set (R := vr e P Q) in *. set (m := P + Q) in *. set (g := 1 + t + 1 / t) in *.
  assert (PR : 0 < R) by lra. split.
  - apply Rle_trans with (R * 3); [lra|]. apply Rmult_le_compat_l; lra.
  - apply Rle_trans with (R * (30015 / 10000)); [apply Rmult_le_compat_l; lra|]. lra.
Qed.
Lemma gb_v : 4997 / 10000 * (P + Q) <= vv e P Q t <= 5007 / 10000 * (P + Q).
Proof.
  pose proof gb_u as (U1 & U2). pose proof gb_e as E. pose proof gb_e' as E'. pose proof gb_low as L. unfold vv. set (U := vu e P Q t) in *. set (m := P + Q) in *.
  assert (EQ : 0 <= e * e * Q <= 435 / 1000000 * (m * m)).
  { split; [apply Rmult_le_pos; lra|]. apply Rle_trans with (435 / 1000000 * m * Q); [apply Rmult_le_compat_r; auto|]. rewrite Rmult_assoc. apply Rmult_le_compat_l; [lra|]. apply Rmult_le_compat_l; unfold m; lra. }
  assert (M : 0 <= m * m) by (apply Rmult_le_pos; lra). split.
  - rewrite <- (sqrt_square (4997 / 10000 * m)) by lra. apply sqrt_le_1_alt. assert (4997 / 10000 * m * (4997 / 10000 * m) <= U * U) by (apply Rmult_le_compat; lra). lra.
  - rewrite <- (sqrt_square (5007 / 10000 * m)) by lra. apply sqrt_le_1_alt. assert (U * U <= 50026 / 100000 * m * (50026 / 100000 * m)) by (apply Rmult_le_compat; lra). lra.
Qed.
Lemma gb_d : Rabs (vu e P Q t + vv e P Q t - Q) <= 10011 / 10000 * (P + Q).
Proof. pose proof gb_u. pose proof gb_v. pose proof gb_low. apply Rabs_le. lra. Qed.
Lemma gb_w : Rabs (vw e P Q t) <= 1002 / 1000 * e.
Proof.
  pose proof gb_d as D. pose proof gb_v as V. pose proof gb_low as L. unfold vw. set (v := vv e P Q t) in *. set (d := vu e P Q t + v - Q) in *. set (m := P + Q) in *.
  unfold Rdiv at 1. rewrite !Rabs_mult, Rabs_inv, (Rabs_right e), (Rabs_right (2 * v)) by lra.
  apply (Rmult_le_reg_r (2 * v)); [lra|]. rewrite Rmult_assoc, Rinv_l, Rmult_1_r by lra.
  replace (1002 / 1000 * e * (2 * v)) with (e * (1002 / 1000 * (2 * v))) by ring. apply Rmult_le_compat_l; lra.
Qed.
Lemma gb_k : vk e P Q t = K.
Proof.
  apply (quartic_unique e P Q); auto; try lra.
  - apply vk_pos; auto; try lra. apply gb_outside.
  - apply vk_quartic; auto; try lra. apply gb_outside.
Qed.
End Bounds.
