(** * The closed-form solution of the ECEF -> geodetic problem (core.py 150-176)
    Everything here is about real numbers. *)
From Coq Require Import Reals Lra Lia.
Local Open Scope R_scope.

Section Verm.
Variables e P Q : R.          (* e = e_2, the squared eccentricity *)
Hypothesis He : 0 <= e.
Hypothesis HP : 0 <= P.
Hypothesis HQ : 0 <= Q.
Hypothesis Hg : e * e < P + Q.

Definition vr : R := (P + Q - e * e) / 6.
Definition vs : R := e * e * P * Q / (4 * vr ^ 3).
Definition vxx : R := 1 + vs + sqrt (vs * (2 + vs)).
Variable t : R.
Hypothesis Ht : 0 < t.
Hypothesis Ht3 : t ^ 3 = vxx.
Definition vu : R := vr * (1 + t + 1 / t).
Definition vv : R := sqrt (vu * vu + e * e * Q).
Definition vw : R := e * (vu + vv - Q) / (2 * vv).
Definition vk : R := sqrt (vu + vv + vw * vw) - vw.

Lemma vr_pos : 0 < vr. Proof. unfold vr; lra. Qed.
Lemma vr3_pos : 0 < 4 * vr ^ 3. Proof. pose proof vr_pos. assert (0 < vr ^ 3) by (apply pow_lt; auto). lra. Qed.
Lemma vs_pos : 0 <= vs.
Proof.
  unfold vs. pose proof vr3_pos. apply Rmult_le_pos; [|left; apply Rinv_0_lt_compat; auto].
  repeat apply Rmult_le_pos; auto.
Qed.
Lemma vss_pos : 0 <= vs * (2 + vs).
Proof. pose proof vs_pos. nra. Qed.
Lemma vxx_ge1 : 1 <= vxx.
Proof. unfold vxx. pose proof vs_pos. pose proof (sqrt_pos (vs * (2 + vs))). lra. Qed.
Lemma vxx_inv : vxx + / vxx = 2 * (1 + vs).
Proof.
  pose proof vxx_ge1. assert (E : / vxx = 1 + vs - sqrt (vs * (2 + vs))).
  { apply Rmult_eq_reg_l with vxx; [|lra]. rewrite Rinv_r by lra. unfold vxx.
    pose proof (sqrt_sqrt _ vss_pos). nra. }
  rewrite E. unfold vxx. ring.
Qed.
Lemma vu_pos : 0 < vu.
Proof.
  unfold vu. pose proof vr_pos. apply Rmult_lt_0_compat; auto.
  assert (0 < 1 / t) by (unfold Rdiv; rewrite Rmult_1_l; apply Rinv_0_lt_compat; auto). lra.
Qed.

(** the resolvent cubic *)
Lemma vu_cubic : 2 * vu ^ 3 = (P + Q - e * e) * vu ^ 2 + e * e * P * Q.
Proof.
  pose proof vr_pos as Hr. pose proof vr3_pos as Hr3.
  set (y := t + 1 / t).
  assert (Y : y ^ 3 - 3 * y = 2 * (1 + vs)).
  { rewrite <- vxx_inv, <- Ht3. unfold y. field. lra. }
  assert (S : 2 * vs * vr ^ 3 = e * e * P * Q / 2).
  { unfold vs. field. lra. }
  assert (U : vu = vr * (1 + y)) by (unfold vu, y; ring).
  assert (H6 : P + Q - e * e = 6 * vr) by (unfold vr; field).
  rewrite H6. replace (e * e * P * Q) with (4 * vs * vr ^ 3) by lra.
  replace (2 * vu ^ 3) with (6 * vr * vu ^ 2 + 2 * vr ^ 3 * (y ^ 3 - 3 * y - 2)) by (rewrite U; ring).
  rewrite Y. ring.
Qed.

Lemma eeQ_pos : 0 <= e * e * Q. Proof. apply Rmult_le_pos; nra. Qed.
Lemma vv_sq : vv * vv = vu * vu + e * e * Q.
Proof. unfold vv. apply sqrt_sqrt. pose proof eeQ_pos. nra. Qed.
Lemma vv_pos : 0 < vv.
Proof. unfold vv. apply sqrt_lt_R0. pose proof eeQ_pos. pose proof vu_pos. nra. Qed.

Lemma vk_root : vk * vk + 2 * vw * vk = vu + vv.
Proof.
  unfold vk. pose proof vu_pos. pose proof vv_pos.
  assert (0 <= vu + vv + vw * vw) by nra.
  pose proof (sqrt_sqrt _ H1). nra.
Qed.
Lemma vk_pos : 0 < vk.
Proof.
  unfold vk. pose proof vu_pos. pose proof vv_pos.
  destruct (Rle_lt_dec 0 vw).
  - assert (vw < sqrt (vu + vv + vw * vw)); [|lra].
    rewrite <- (sqrt_square vw) at 1 by auto. apply sqrt_lt_1; nra.
  - pose proof (sqrt_pos (vu + vv + vw * vw)). lra.
Qed.

Lemma vk_quartic : P * vk ^ 2 + Q * (vk + e) ^ 2 = vk ^ 2 * (vk + e) ^ 2.
Proof.
  pose proof vv_pos as Hv. pose proof vk_root as R. pose proof vv_sq as V2. pose proof vu_cubic as C.
  set (k := vk) in *. set (b := e * (Q - vu) / vv).
  assert (W : 2 * vw = e - b) by (unfold vw, b; field; lra).
  assert (F : k * k + (e - b) * k - (vu + vv) = 0) by (rewrite <- W; lra).
  assert (Bv : b * vv = e * (Q - vu)) by (unfold b; field; lra).
  assert (B2 : b * b = P + Q - 2 * vu).
  { apply Rmult_eq_reg_r with (vv * vv); [|nra].
    replace (b * b * (vv * vv)) with ((b * vv) * (b * vv)) by ring. rewrite Bv, V2. nra. }
  assert (G : (k * k + (e - b) * k - (vu + vv)) * (k * k + e * k - vu + vv + b * k) = 0) by (rewrite F; ring).
  assert (X : (k * k + e * k - vu) * (k * k + e * k - vu) - (vv * vv + 2 * (b * vv) * k + b * b * (k * k)) = 0).
  { rewrite <- G. ring. }
  rewrite Bv, B2, V2 in X. nra.
Qed.
End Verm.

(** uniqueness of the positive root *)
Lemma quartic_unique e P Q k l : 0 <= e -> 0 <= P -> 0 <= Q -> 0 < k -> 0 < l ->
  P * k ^ 2 + Q * (k + e) ^ 2 = k ^ 2 * (k + e) ^ 2 ->
  P * l ^ 2 + Q * (l + e) ^ 2 = l ^ 2 * (l + e) ^ 2 -> k = l.
Proof.
  intros He HP HQ Hk Hl Ek El.
  assert (W : forall a b, 0 < a -> a < b ->
     P * a ^ 2 + Q * (a + e) ^ 2 = a ^ 2 * (a + e) ^ 2 ->
     P * b ^ 2 + Q * (b + e) ^ 2 = b ^ 2 * (b + e) ^ 2 -> False).
  { intros a b Ha Hab Ea Eb.
    assert (Fa : P / (a + e) ^ 2 + Q / a ^ 2 = 1).
    { apply Rmult_eq_reg_r with (a ^ 2 * (a + e) ^ 2); [|apply Rgt_not_eq; apply Rmult_lt_0_compat; apply pow_lt; lra].
      rewrite Rmult_1_l. transitivity (P * a ^ 2 + Q * (a + e) ^ 2); [field; lra|exact Ea]. }
    assert (Fb : P / (b + e) ^ 2 + Q / b ^ 2 = 1).
    { apply Rmult_eq_reg_r with (b ^ 2 * (b + e) ^ 2); [|apply Rgt_not_eq; apply Rmult_lt_0_compat; apply pow_lt; lra].
      rewrite Rmult_1_l. transitivity (P * b ^ 2 + Q * (b + e) ^ 2); [field; lra|exact Eb]. }
    assert (I1 : / (b + e) ^ 2 < / (a + e) ^ 2).
    { apply Rinv_lt_contravar; [apply Rmult_lt_0_compat; apply pow_lt; lra|]. simpl; nra. }
    assert (I2 : / b ^ 2 < / a ^ 2).
    { apply Rinv_lt_contravar; [apply Rmult_lt_0_compat; apply pow_lt; lra|]. simpl; nra. }
    assert (0 < / (a + e) ^ 2) by (apply Rinv_0_lt_compat, pow_lt; lra).
    assert (0 < / a ^ 2) by (apply Rinv_0_lt_compat, pow_lt; lra).
    unfold Rdiv in *.
    destruct (Rle_lt_or_eq_dec 0 P HP) as [LP|LP]; [nra|].
    destruct (Rle_lt_or_eq_dec 0 Q HQ) as [LQ|LQ]; [nra|]. subst. lra. }
  destruct (Rtotal_order k l) as [L|[E|G]]; auto; exfalso; eauto.
Qed.
