(** * C90: _compute_k in binary64, stage by stage (core.py 150-161) *)
From Coq Require Import ZArith Reals Lra Lia Bool Psatz.
From Flocq Require Import Core BinarySingleNaN Relative.
From Verif Require Import LVerm FTiny FBase FRel FRel2 FUnit FDist FGreat FClose FLatLon FGeodB FGeod.
Local Open Scope R_scope.

Definition T1 : R := bpow radix2 (-800).
Definition T2 : R := bpow radix2 (-750).
Definition T3 : R := bpow radix2 (-700).
Definition T4 : R := bpow radix2 (-340).
Lemma bp_times m n k : (m + n <= k)%Z -> bpow radix2 m * bpow radix2 n <= bpow radix2 k.
Proof. intros H. rewrite <- bpow_plus. apply bpow_le; auto. Qed.
Lemma b40 : bpow radix2 42 = 4398046511104. Proof. cbn. lra. Qed.
Lemma consts : 0 < eta /\ 0 < T1 /\ 0 < T2 /\ 0 < T3 /\ 0 < T4 /\ 4398046511104 * eta <= T1 /\ 4398046511104 * T1 <= T2 /\ 4398046511104 * T2 <= T3 /\ T3 <= T4 /\ 4398046511104 * T4 <= u /\ 0 < u /\ u <= / 1000000000000000.
Proof.
  unfold T1, T2, T3, T4, eta, u. repeat split; try apply bpow_gt_0; try (rewrite <- b40; apply bp_times; lia); try (apply bpow_le; lia). cbn; lra.
Qed.
Lemma small_b n r : (0 <= n)%Z -> r <= 1 -> r <= bpow radix2 n.
Proof. intros H1 H2. apply Rle_trans with (bpow radix2 0); [cbn; lra|apply bpow_le; auto]. Qed.
Lemma big_b n r : (42 <= n)%Z -> r <= 4398046511104 -> r <= bpow radix2 n.
Proof. intros H1 H2. apply Rle_trans with (bpow radix2 42); [rewrite b40; auto|apply bpow_le; auto]. Qed.
Lemma low_b n r : (n <= -100)%Z -> / 1000000000 <= r -> bpow radix2 n <= r.
Proof. intros H1 H2. apply Rle_trans with (bpow radix2 (-100)); [apply bpow_le; auto|]. apply Rle_trans with (/ 1000000000); auto. apply Rle_trans with (bpow radix2 (-50)); [apply bpow_le; lia|cbn; lra]. Qed.
Ltac consts := pose proof consts as (Ceta & CT1 & CT2 & CT3 & CT4 & Ce1 & C12 & C23 & C34 & C4u & Cu & Cuu).
Lemma near_of k t x X e : Rabs (x - X) <= e -> e <= k * u * Rabs X + t -> near k t x X.
Proof. unfold near. intros; lra. Qed.
Ltac pos := first [lra | apply Rmult_le_pos; pos | apply Rplus_le_le_0_compat; pos].

(** p, q -> r *)
Lemma st_r (p q e4 : float64) P Q e : is_finite p = true -> is_finite q = true -> is_finite e4 = true ->
  near (504 / 100) T1 (B2R p) P -> near (608 / 100) T1 (B2R q) Q -> near (621 / 100) 0 (B2R e4) (e * e) ->
  0 <= P -> 0 <= Q -> 23 / 100 <= P + Q <= 4398046511104 -> e * e <= 435 / 1000000 * (P + Q) ->
  is_finite (fdiv (fsub (fadd p q) e4) fsix) = true /\ near (912 / 100) 0 (B2R (fdiv (fsub (fadd p q) e4) fsix)) (vr e P Q).
Proof.
  intros Fp Fq Fe Np Nq Ne HP HQ Bm He. consts. pose proof (Rle_0_sqr e) as Pe. unfold Rsqr in Pe.
  destruct (fadd_near_t p q (504 / 100) (608 / 100) T1 T1 P Q) as (F1 & E1); auto; try lra; try (rewrite Rabs_right by lra; apply big_b; [lia|lra]).
  rewrite (Rabs_right P), (Rabs_right Q), (Rabs_right (P + Q)) in E1 by lra.
  assert (N1 : near (709 / 100) 0 (B2R (fadd p q)) (P + Q)).
  { eapply near_of; [exact E1|]. rewrite (Rabs_right (P + Q)) by lra. assert (0 <= u * P) by pos. assert (0 <= u * Q) by pos. assert (u * (23 / 100) <= u * (P + Q)) by (apply Rmult_le_compat_l; lra). lra. }
  destruct (fsub_near_t (fadd p q) e4 (709 / 100) (621 / 100) 0 0 (P + Q) (e * e)) as (F2 & E2); auto; try lra; try (rewrite Rabs_right by lra; apply big_b; [lia|lra]).
  rewrite (Rabs_right (e * e)), (Rabs_right (P + Q)), (Rabs_right (P + Q - e * e)) in E2 by lra.
  assert (N2 : near (81 / 10) 0 (B2R (fsub (fadd p q) e4)) (P + Q - e * e)).
  { eapply near_of; [exact E2|]. rewrite (Rabs_right (P + Q - e * e)) by lra. assert (u * (e * e) <= u * (435 / 1000000 * (P + Q))) by (apply Rmult_le_compat_l; lra). assert (0 <= u * (P + Q)) by pos. lra. }
  destruct (fdiv_near_n (fsub (fadd p q) e4) fsix (81 / 10) 0 (P + Q - e * e) 6) as (F3 & N3); auto; try lra.
  - apply near_const, fsix_val.
  - rewrite Rabs_right by lra. apply big_b; [lia|lra].
  - rewrite Rabs_right by lra. apply low_b; [lia|lra].
  - rewrite Rabs_right by lra. apply low_b; [lia|lra].
  - split; auto. eapply near_weaken; [| |exact N3]; lra.
Qed.
(** e4, p, q, r -> s *)
Lemma st_s pow (e4 p q r : float64) P Q e : good_pow pow -> is_finite e4 = true -> is_finite p = true -> is_finite q = true -> is_finite r = true ->
  near (621 / 100) 0 (B2R e4) (e * e) -> near (504 / 100) T1 (B2R p) P -> near (608 / 100) T1 (B2R q) Q -> near (912 / 100) 0 (B2R r) (vr e P Q) ->
  0 <= P -> 0 <= Q -> P + Q <= 4398046511104 -> e * e <= / 10000 -> 38 / 1000 <= vr e P Q <= 4398046511104 ->
  is_finite (fdiv (fmul (fmul e4 p) q) (fmul ffour (pow r fthree))) = true /\ near (508 / 10) T3 (B2R (fdiv (fmul (fmul e4 p) q) (fmul ffour (pow r fthree)))) (vs e P Q).
Proof.
  intros G Fe Fp Fq Fr Ne Np Nq Nr HP HQ Bm He BR. consts. pose proof (Rle_0_sqr e) as Pe. unfold Rsqr in Pe. set (E := e * e) in *.
  destruct (fmul_near_t e4 p (621 / 100) (504 / 100) 0 T1 E P) as (F1 & N1); auto; try lra; try (rewrite Rabs_right by lra; apply big_b; [lia|lra]).
  rewrite (Rabs_right E), (Rabs_right P) in N1 by lra. assert (EP : 0 <= E * P <= 4398046511104) by (split; [pos|]; apply Rle_trans with (1 * P); [apply Rmult_le_compat_r; lra|lra]).
  assert (N1' : near (1226 / 100) T1 (B2R (fmul e4 p)) (E * P)).
  { eapply near_weaken; [| |exact N1]; [lra|]. assert (E * T1 <= / 10000 * T1) by (apply Rmult_le_compat_r; lra). lra. }
  destruct (fmul_near_t (fmul e4 p) q (1226 / 100) (608 / 100) T1 T1 (E * P) Q) as (F2 & N2); auto; try lra; try (rewrite Rabs_right by lra; apply big_b; [lia|lra]).
  rewrite (Rabs_right (E * P)), (Rabs_right Q) in N2 by lra.
  assert (N2' : near (1935 / 100) (5 * T2) (B2R (fmul (fmul e4 p) q)) (E * P * Q)).
  { eapply near_weaken; [| |exact N2]; [lra|]. assert (E * P * T1 <= 4398046511104 * T1) by (apply Rmult_le_compat_r; lra). assert (Q * T1 <= 4398046511104 * T1) by (apply Rmult_le_compat_r; lra). assert (T1 * T1 <= 1 * T1) by (apply Rmult_le_compat_r; lra). lra. }
  set (R := vr e P Q) in *.
  destruct (pow3_near pow r (912 / 100) R G Fr ltac:(lra)) as (F3 & N3); auto. { split; [apply low_b; [lia|lra]|apply big_b; [lia|lra]]. }
  assert (R2 : 38 / 1000 * (38 / 1000) <= R * R <= 4398046511104 * 4398046511104) by (split; apply Rmult_le_compat; lra).
  assert (R3 : 38 / 1000 * (38 / 1000) * (38 / 1000) <= R * R * R <= 4398046511104 * 4398046511104 * 4398046511104) by (split; apply Rmult_le_compat; lra).
  assert (B3 : R * R * R <= bpow radix2 400). { eapply Rle_trans; [apply R3|]. rewrite <- b40, <- !bpow_plus. apply bpow_le; lia. }
  destruct (fmul_near_n ffour (pow r fthree) 0 (2938 / 100) 4 (R * R * R)) as (F4 & N4); auto; try lra.
  { apply near_const, ffour_val. } { eapply near_weaken; [| |exact N3]; lra. } { rewrite Rabs_right by lra. apply big_b; [lia|lra]. } { rewrite Rabs_right by lra. auto. } { rewrite Rabs_right by lra. apply low_b; [lia|lra]. }
  assert (N4' : near (3039 / 100) 0 (B2R (fmul ffour (pow r fthree))) (4 * (R * R * R))) by (eapply near_weaken; [| |exact N4]; lra).
  assert (EPQ : 0 <= E * P * Q <= 4398046511104 * 4398046511104) by (split; [pos|apply Rmult_le_compat; lra]).
  destruct (fdiv_near_t (fmul (fmul e4 p) q) (fmul ffour (pow r fthree)) (1935 / 100) (3039 / 100) (5 * T2) (E * P * Q) (4 * (R * R * R))) as (F5 & N5); auto; try lra.
  { rewrite Rabs_right by lra. eapply Rle_trans; [apply EPQ|]. rewrite <- b40, <- !bpow_plus. apply bpow_le; lia. }
  { rewrite Rabs_right by lra. apply low_b; [lia|lra]. }
  split; auto. replace (vs e P Q) with (E * P * Q / (4 * (R * R * R))) by (unfold vs, E; fold R; replace (R ^ 3) with (R * R * R) by ring; reflexivity).
  eapply near_weaken; [| |exact N5]; [lra|].
  assert (IV : 0 <= / (4 * (R * R * R)) <= 10000). { split; [apply Rlt_le, Rinv_0_lt_compat; lra|]. replace 10000 with (/ (/ 10000)) by lra. apply Rinv_le; lra. }
  rewrite (Rabs_right (/ _)) by lra. assert (/ (4 * (R * R * R)) * (5 * T2) <= 10000 * (5 * T2)) by (apply Rmult_le_compat_r; lra). lra.
Qed.
(** s -> 1 + s + sqrt (s (2 + s)) *)
Lemma st_x (s : float64) S : is_finite s = true -> 0 <= B2R s -> near (508 / 10) T3 (B2R s) S -> 0 <= S <= 6 / 1000 -> sqrt (S * (2 + S)) <= 11 / 100 ->
  let x := fadd (fadd fone s) (fsqrt (fmul s (fadd ftwo s))) in is_finite x = true /\ near (548 / 100) 0 (B2R x) (1 + S + sqrt (S * (2 + S))).
Proof.
  intros Fs Ps Ns BS BQ x. consts. assert (US : 0 <= u * S <= u * (6 / 1000)) by (split; [pos|apply Rmult_le_compat_l; lra]).
  destruct (fadd_near_t ftwo s 0 (508 / 10) 0 T3 2 S) as (F1 & E1); auto; try lra; try (rewrite Rabs_right by lra; apply big_b; [lia|lra]). { apply near_const, ftwo_val. }
  rewrite (Rabs_right 2), (Rabs_right S), (Rabs_right (2 + S)) in E1 by lra.
  assert (N1 : near (116 / 100) 0 (B2R (fadd ftwo s)) (2 + S)). { eapply near_of; [exact E1|]. rewrite (Rabs_right (2 + S)) by lra. lra. }
  pose proof (near_low (116 / 100) 0 _ (2 + S) ltac:(lra) ltac:(lra) N1) as L1.
  destruct (fmul_near_t s (fadd ftwo s) (508 / 10) (116 / 100) T3 0 S (2 + S)) as (F2 & N2); auto; try lra; try (rewrite Rabs_right by lra; apply big_b; [lia|lra]).
  rewrite (Rabs_right S), (Rabs_right (2 + S)) in N2 by lra.
  assert (SS : 0 <= S * (2 + S)) by pos.
  assert (N2' : near (53) (4 * T3) (B2R (fmul s (fadd ftwo s))) (S * (2 + S))).
  { eapply near_weaken; [| |exact N2]; [lra|]. assert (S * T3 <= 1 * T3) by (apply Rmult_le_compat_r; lra). lra. }
  destruct (fsqrt_near0 (fmul s (fadd ftwo s)) 53 (4 * T3) (S * (2 + S))) as (F3 & P3 & N3); auto; try lra. { apply fmul_nonneg; auto; lra. }
  assert (Sq : sqrt (4 * T3) <= T4).
  { rewrite <- (sqrt_square T4) by lra. apply sqrt_le_1_alt. unfold T3, T4. rewrite <- bpow_plus. change 4 with (bpow radix2 2). apply bp_times; lia. }
  set (sq := sqrt (S * (2 + S))) in *. assert (Psq : 0 <= sq) by (apply sqrt_pos).
  destruct (fadd_near_t fone s 0 (508 / 10) 0 T3 1 S) as (F4 & E4); auto; try lra; try (rewrite Rabs_right by lra; apply big_b; [lia|lra]). { apply near_const, fone_val. }
  rewrite (Rabs_right 1), (Rabs_right S), (Rabs_right (1 + S)) in E4 by lra.
  assert (N4 : near (132 / 100) 0 (B2R (fadd fone s)) (1 + S)). { eapply near_of; [exact E4|]. rewrite (Rabs_right (1 + S)) by lra. lra. }
  destruct (fadd_near_t (fadd fone s) (fsqrt (fmul s (fadd ftwo s))) (132 / 100) (2752 / 100) 0 (3 * T4) (1 + S) sq) as (F5 & E5); auto; try lra; try (rewrite Rabs_right by lra; apply big_b; [lia|lra]).
  { eapply near_weaken; [| |exact N3]; lra. }
  fold x in F5, E5. split; auto. rewrite (Rabs_right (1 + S)), (Rabs_right sq), (Rabs_right (1 + S + sq)) in E5 by lra.
  eapply near_of; [exact E5|]. rewrite (Rabs_right (1 + S + sq)) by lra. assert (0 <= u * sq <= u * (11 / 100)) by (split; [pos|apply Rmult_le_compat_l; lra]). lra.
Qed.
(** r, t -> u *)
Lemma st_u (r t : float64) e P Q T : is_finite r = true -> is_finite t = true -> near (912 / 100) 0 (B2R r) (vr e P Q) -> near 20 0 (B2R t) T -> 38 / 1000 <= vr e P Q <= 4398046511104 ->
  1 <= T <= 1038 / 1000 -> 3 <= 1 + T + 1 / T <= 30015 / 10000 ->
  let w := fmul r (fadd (fadd fone t) (fdiv fone t)) in is_finite w = true /\ near (1273 / 100) 0 (B2R w) (vu e P Q T).
Proof.
  intros Fr Ft Nr Nt BR BT BG w. consts. set (R := vr e P Q) in *. set (y := B2R t) in *.
  assert (D : Rabs (y - T) <= 2076 / 100 * u). { unfold near in Nt. rewrite (Rabs_right T) in Nt by lra. eapply Rle_trans; [exact Nt|]. assert (u * T <= u * (1038 / 1000)) by (apply Rmult_le_compat_l; lra). lra. }
  apply Rabs_le_inv in D as D'. assert (By : 9999 / 10000 <= y <= 10381 / 10000) by lra.
  assert (IY : 96 / 100 <= / y <= 10002 / 10000).
  { split; [apply (Rmult_le_reg_r y)|apply (Rmult_le_reg_r y)]; try lra; rewrite Rinv_l by lra; lra. }
  assert (IT : 96 / 100 <= / T <= 1). { split; apply (Rmult_le_reg_r T); try lra; rewrite Rinv_l by lra; lra. }
  destruct (fadd_near_t fone t 0 0 0 0 1 y) as (F1 & E1); auto; try lra; try (rewrite Rabs_right by lra; apply big_b; [lia|lra]). { apply near_const, fone_val. } { apply near_exact. }
  rewrite (Rabs_right 1), (Rabs_right y), (Rabs_right (1 + y)) in E1 by lra.
  assert (N1 : near (1002 / 1000) 0 (B2R (fadd fone t)) (1 + y)). { eapply near_of; [exact E1|]. rewrite (Rabs_right (1 + y)) by lra. assert (0 <= u * y) by pos. lra. }
  destruct (fdiv_near_n fone t 0 0 1 y) as (F2 & N2); auto; try lra. { apply near_const, fone_val. } { apply near_exact. } { rewrite Rabs_right by lra. apply big_b; [lia|lra]. } { rewrite Rabs_right by lra. apply low_b; [lia|lra]. }
  { unfold Rdiv. rewrite Rmult_1_l, Rabs_right by lra. apply low_b; [lia|lra]. }
  destruct (fadd_near_t (fadd fone t) (fdiv fone t) (1002 / 1000) (103 / 100) 0 0 (1 + y) (1 / y)) as (F3 & E3); auto; try lra.
  { eapply near_weaken; [| |exact N2]; lra. } { rewrite Rabs_right by lra; apply big_b; [lia|lra]. } { unfold Rdiv. rewrite Rmult_1_l, Rabs_right by lra. apply big_b; [lia|lra]. }
  set (g := fadd (fadd fone t) (fdiv fone t)) in *. assert (I1 : 1 / y = / y) by (unfold Rdiv; ring). assert (I2 : 1 / T = / T) by (unfold Rdiv; ring). rewrite I1 in E3. rewrite I2 in BG.
  rewrite (Rabs_right (1 + y)), (Rabs_right (/ y)), (Rabs_right (1 + y + / y)) in E3 by lra.
  assert (NG : near (26 / 10) 0 (B2R g) (1 + T + / T)).
  { apply (near_of _ _ _ _ (754 / 100 * u + 3 / 100 * u)); [|rewrite (Rabs_right (1 + T + / T)) by lra; assert (u * 3 <= u * (1 + T + / T)) by (apply Rmult_le_compat_l; lra); lra].
    replace (B2R g - (1 + T + / T)) with ((B2R g - (1 + y + / y)) + ((1 + y + / y) - (1 + T + / T))) by ring. eapply Rle_trans; [apply Rabs_triang|].
    assert (C : Rabs ((1 + y + / y) - (1 + T + / T)) <= 2076 / 100 * u * (72 / 1000)).
    { replace ((1 + y + / y) - (1 + T + / T)) with ((y - T) * (1 - / y * / T)) by (field; lra). rewrite Rabs_mult. apply Rmult_le_compat; try apply Rabs_pos; auto.
      assert (928 / 1000 <= / y * / T <= 10002 / 10000 * 1).
      { split; [|apply Rmult_le_compat; lra]. rewrite <- Rinv_mult. apply (Rmult_le_reg_r (y * T)); [apply Rmult_lt_0_compat; lra|]. rewrite Rinv_l by (apply Rgt_not_eq, Rmult_lt_0_compat; lra). assert (y * T <= (1038 / 1000 + 2076 / 100 * u) * (1038 / 1000)) by (apply Rmult_le_compat; lra). lra. }
      apply Rabs_le. lra. }
    assert (u * (1 + y + / y) <= u * (1038 / 1000 + 1 + 1 - 36 / 1000 + / 1000)).
    { apply Rmult_le_compat_l; [lra|].
      assert (/ y + y <= 1 + / 1000 + 1038 / 1000 - 36 / 1000).
      { assert (YY : / y = 2 - y + (y - 1) * (y - 1) * / y) by (field; lra). assert ((y - 1) * (y - 1) <= 381 / 10000 * (381 / 10000)).
        { rewrite <- (Rabs_right ((y - 1) * (y - 1))) by (apply Rle_ge, Rle_0_sqr). rewrite Rabs_mult. assert (Rabs (y - 1) <= 381 / 10000) by (apply Rabs_le; lra). apply Rmult_le_compat; auto; apply Rabs_pos. }
        assert ((y - 1) * (y - 1) * / y <= 381 / 10000 * (381 / 10000) * (10002 / 10000)) by (apply Rmult_le_compat; try lra; apply Rle_0_sqr). lra. } lra. }
    assert (u * y <= u * (10381 / 10000)) by (apply Rmult_le_compat_l; lra). assert (u * / y <= u * (10002 / 10000)) by (apply Rmult_le_compat_l; lra). lra. }
  assert (BRG : 1 / 10 <= R * (1 + T + / T)) by (apply Rle_trans with (38 / 1000 * 3); [lra|apply Rmult_le_compat; lra]).
  destruct (fmul_near_n r g (912 / 100) (26 / 10) R (1 + T + / T)) as (F4 & N4); auto; try lra; try (rewrite Rabs_right by lra; apply big_b; [lia|lra]). { rewrite Rabs_right by lra. apply low_b; [lia|lra]. }
  fold w in F4, N4. split; auto. unfold vu. fold R. rewrite I2. eapply near_weaken; [| |exact N4]; lra.
Qed.
