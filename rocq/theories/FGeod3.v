(** * C90: _compute_k in binary64, the last stages (core.py 159-161) *)
From Coq Require Import ZArith Reals Lra Lia Bool Psatz.
From Flocq Require Import Core BinarySingleNaN Relative.
From Verif Require Import LVerm FTiny FBase FRel FRel2 FUnit FDist FGreat FClose FLatLon FGeodB FGeod FGeod2.
Local Open Scope R_scope.

(** u, e4, q -> v *)
Lemma st_v (w e4 q : float64) U E Q : is_finite w = true -> is_finite e4 = true -> is_finite q = true -> near (1273 / 100) 0 (B2R w) U -> near (621 / 100) 0 (B2R e4) E -> near (608 / 100) T1 (B2R q) Q ->
  1 / 10 <= U <= 4398046511104 -> 0 <= E <= / 10000 -> 0 <= Q <= 4398046511104 -> 0 <= B2R e4 -> 0 <= B2R q ->
  let v := fsqrt (fadd (fmul w w) (fmul e4 q)) in is_finite v = true /\ near (1477 / 100) 0 (B2R v) (sqrt (U * U + E * Q)).
Proof.
  intros Fw Fe Fq Nw Ne Nq BU BE BQ Pe Pq v. consts.
  assert (UU : 1 / 10 * (1 / 10) <= U * U <= 4398046511104 * 4398046511104) by (split; apply Rmult_le_compat; lra).
  destruct (fmul_near_n w w (1273 / 100) (1273 / 100) U U) as (F1 & N1); auto; try lra; try (rewrite Rabs_right by lra; apply big_b; [lia|lra]). { rewrite Rabs_right by lra. apply low_b; [lia|lra]. }
  destruct (fmul_near_t e4 q (621 / 100) (608 / 100) 0 T1 E Q) as (F2 & N2); auto; try lra; try (rewrite Rabs_right by lra; apply big_b; [lia|lra]).
  rewrite (Rabs_right E), (Rabs_right Q) in N2 by lra. assert (EQ : 0 <= E * Q <= 4398046511104) by (split; [pos|]; apply Rle_trans with (1 * Q); [apply Rmult_le_compat_r; lra|lra]).
  assert (N2' : near (133 / 10) T1 (B2R (fmul e4 q)) (E * Q)).
  { eapply near_weaken; [| |exact N2]; [lra|]. assert (E * T1 <= / 10000 * T1) by (apply Rmult_le_compat_r; lra). lra. }
  destruct (fadd_near_t (fmul w w) (fmul e4 q) (2647 / 100) (133 / 10) 0 T1 (U * U) (E * Q)) as (F3 & E3); auto; try lra.
  { eapply near_weaken; [| |exact N1]; lra. } { rewrite Rabs_right by lra. eapply Rle_trans; [apply UU|]. rewrite <- b40, <- bpow_plus. apply bpow_le; lia. } { rewrite Rabs_right by lra; apply big_b; [lia|lra]. }
  rewrite (Rabs_right (U * U)), (Rabs_right (E * Q)), (Rabs_right (U * U + E * Q)) in E3 by lra.
  assert (N3 : near (2748 / 100) 0 (B2R (fadd (fmul w w) (fmul e4 q))) (U * U + E * Q)).
  { eapply near_of; [exact E3|]. rewrite (Rabs_right (U * U + E * Q)) by lra. assert (0 <= u * (E * Q)) by pos. assert (u * (1 / 10 * (1 / 10)) <= u * (U * U)) by (apply Rmult_le_compat_l; lra). lra. }
  pose proof (near_low (2748 / 100) 0 _ (U * U + E * Q) ltac:(lra) ltac:(lra) N3) as L3.
  destruct (fsqrt_near (fadd (fmul w w) (fmul e4 q)) (2748 / 100) 0 (U * U + E * Q)) as (F4 & P4 & N4); auto; try lra.
  fold v in F4, P4, N4. split; auto. rewrite sqrt_0 in N4.
  assert (SL : 1 / 10 <= sqrt (U * U + E * Q)). { rewrite <- (sqrt_square (1 / 10)) by lra. apply sqrt_le_1_alt. lra. }
  eapply near_weaken; [| |eapply (near_absorb _ (/ 100)); [|exact N4]]; [lra|lra|]. rewrite Rabs_right by lra. assert (u * (1 / 10) <= u * sqrt (U * U + E * Q)) by (apply Rmult_le_compat_l; lra). lra.
Qed.
(** u, v, q, e_2 -> w *)
Lemma st_w (a b q e2 : float64) U V Q e m : is_finite a = true -> is_finite b = true -> is_finite q = true -> is_finite e2 = true ->
  near (1273 / 100) 0 (B2R a) U -> near (1477 / 100) 0 (B2R b) V -> near (608 / 100) T1 (B2R q) Q -> near (21 / 10) 0 (B2R e2) e ->
  0 <= e <= / 100 -> 23 / 100 <= m <= 2199023255552 -> 4997 / 10000 * m <= U <= 50026 / 100000 * m -> 4997 / 10000 * m <= V <= 5007 / 10000 * m -> 0 <= Q <= m ->
  Rabs (e * (U + V - Q) / (2 * V)) <= 1002 / 1000 * e ->
  is_finite (fadd a b) = true /\ near (158 / 10) 0 (B2R (fadd a b)) (U + V) /\
  let w := fdiv (fmul e2 (fsub (fadd a b) q)) (fmul ftwo b) in is_finite w = true /\ Rabs (B2R w - e * (U + V - Q) / (2 * V)) <= 45 / 100 * u.
Proof.
  intros Fa Fb Fq Fe Na Nb Nq Ne Be Bm BU BV BQ BW. consts. assert (UM : 0 <= u * m <= u * 2199023255552) by (split; [pos|apply Rmult_le_compat_l; lra]). assert (UM2 : u * (23 / 100) <= u * m) by (apply Rmult_le_compat_l; lra).
  destruct (fadd_near_t a b (1273 / 100) (1477 / 100) 0 0 U V) as (F1 & E1); auto; try lra; try (rewrite Rabs_right by lra; apply big_b; [lia|lra]).
  rewrite (Rabs_right U), (Rabs_right V), (Rabs_right (U + V)) in E1 by lra.
  assert (N1 : near (158 / 10) 0 (B2R (fadd a b)) (U + V)).
  { eapply near_of; [exact E1|]. rewrite (Rabs_right (U + V)) by lra. assert (0 <= u * U) by pos. assert (0 <= u * V) by pos. lra. }
  split; auto. split; auto. intros w.
  destruct (fsub_near_t (fadd a b) q (158 / 10) (608 / 100) 0 T1 (U + V) Q) as (F2 & E2); auto; try lra; try (rewrite Rabs_right by lra; apply big_b; [lia|lra]).
  rewrite (Rabs_right (U + V)), (Rabs_right Q) in E2 by lra. set (D := U + V - Q) in *.
  assert (BD : Rabs D <= 10011 / 10000 * m) by (apply Rabs_le; unfold D; lra).
  assert (N2 : near 0 (2293 / 100 * (u * m)) (B2R (fsub (fadd a b) q)) D).
  { eapply near_of; [exact E2|]. assert (u * (U + V) <= u * (100096 / 100000 * m)) by (apply Rmult_le_compat_l; lra). assert (u * Q <= u * m) by (apply Rmult_le_compat_l; lra). assert (u * Rabs D <= u * (10011 / 10000 * m)) by (apply Rmult_le_compat_l; lra). lra. }
  assert (UM1 : u * m <= / 200). { unfold u in *. assert (bpow radix2 (-53) * 2199023255552 <= / 200) by (cbn; lra). lra. }
  destruct (fmul_near_t e2 (fsub (fadd a b) q) (21 / 10) 0 0 (2293 / 100 * (u * m)) e D) as (F3 & N3); auto; try lra. { rewrite Rabs_right by lra; apply big_b; [lia|lra]. }
  { eapply Rle_trans; [exact BD|]. apply Rle_trans with (bpow radix2 43); [|apply bpow_le; lia]. change 43%Z with (1 + 42)%Z. rewrite bpow_plus, b40. change (bpow radix2 1) with 2. lra. }
  rewrite (Rabs_right e) in N3 by lra. set (tt := 103 / 100 * (e * (2293 / 100 * (u * m)) + Rabs D * 0 + 0 * (2293 / 100 * (u * m))) + eta) in *.
  assert (EU : 0 <= e * (u * m) <= / 100 * (u * m)) by (split; [pos|apply Rmult_le_compat_r; lra]).
  assert (BT : 0 <= tt <= 2363 / 10000 * (u * m)) by (unfold tt; split; lra).
  destruct (fmul_near_n ftwo b 0 (1477 / 100) 2 V) as (F4 & N4); auto; try lra; try (rewrite Rabs_right by lra; apply big_b; [lia|lra]). { apply near_const, ftwo_val. } { rewrite Rabs_right by lra. apply low_b; [lia|lra]. }
  destruct (fdiv_near_t (fmul e2 (fsub (fadd a b) q)) (fmul ftwo b) (311 / 100) (1578 / 100) tt (e * D) (2 * V)) as (F5 & N5); auto; try lra.
  { eapply near_weaken; [| |exact N3]; lra. } { eapply near_weaken; [| |exact N4]; lra. }
  { rewrite Rabs_mult, (Rabs_right e) by lra. apply Rle_trans with (1 * (10011 / 10000 * m)); [apply Rmult_le_compat; try lra; apply Rabs_pos|].
    apply Rle_trans with (bpow radix2 43); [|apply bpow_le; lia]. change 43%Z with (1 + 42)%Z. rewrite bpow_plus, b40. change (bpow radix2 1) with 2. lra. }
  { rewrite Rabs_right by lra. apply low_b; [lia|lra]. }
  fold w in F5, N5. split; auto. unfold near in N5. eapply Rle_trans; [exact N5|].
  assert (IV : Rabs (/ (2 * V)) * tt <= 2366 / 10000 * u).
  { rewrite Rabs_right by (apply Rle_ge, Rlt_le, Rinv_0_lt_compat; lra). apply (Rmult_le_reg_r (2 * V)); [lra|]. replace (/ (2 * V) * tt * (2 * V)) with tt by (field; lra).
    eapply Rle_trans; [apply BT|]. assert (u * (4997 / 10000 * m) <= u * V) by (apply Rmult_le_compat_l; lra). lra. }
  assert (u * Rabs (e * D / (2 * V)) <= u * (1002 / 100000)) by (apply Rmult_le_compat_l; lra). lra.
Qed.
(** u + v, w -> k *)
Lemma st_k (b w : float64) S W K : is_finite b = true -> is_finite w = true -> near (158 / 10) 0 (B2R b) S -> Rabs (B2R w - W) <= 45 / 100 * u -> Rabs W <= 1002 / 100000 ->
  23 / 100 <= S <= 8796093022208 -> sqrt (S + W * W) - W = K -> 12 / 25 <= K <= 4398046511104 ->
  let k := fsub (fsqrt (fadd b (fmul w w))) w in is_finite k = true /\ near 12 0 (B2R k) K.
Proof.
  intros Fb Fw Nb Ew BW BS EK BK k. consts. assert (Nw : near 0 (45 / 100 * u) (B2R w) W) by (eapply near_of; [exact Ew|lra]).
  assert (BS9 : S <= bpow radix2 400). { eapply Rle_trans; [apply BS|]. apply Rle_trans with (bpow radix2 43); [|apply bpow_le; lia]. change 43%Z with (1 + 42)%Z. rewrite bpow_plus, b40. change (bpow radix2 1) with 2. lra. }
  assert (P49 : bpow radix2 400 <= bpow radix2 900) by (apply bpow_le; lia).
  destruct (fmul_near_t w w 0 0 (45 / 100 * u) (45 / 100 * u) W W) as (F1 & N1); auto; try lra; try (eapply Rle_trans; [exact BW|]; apply big_b; [lia|lra]).
  assert (WW : 0 <= W * W <= 1002 / 100000 * (1002 / 100000)).
  { split; [apply Rle_0_sqr|]. rewrite <- (Rabs_right (W * W)) by (apply Rle_ge, Rle_0_sqr). rewrite Rabs_mult. apply Rmult_le_compat; auto; apply Rabs_pos. }
  assert (N1' : near 0 (97 / 10000 * u) (B2R (fmul w w)) (W * W)).
  { unfold near in N1. rewrite (Rabs_right (W * W)) in N1 by lra. eapply near_of; [exact N1|]. assert (u * (W * W) <= u * (1002 / 100000 * (1002 / 100000))) by (apply Rmult_le_compat_l; lra).
    assert (Rabs W * (45 / 100 * u) <= 1002 / 100000 * (45 / 100 * u)) by (apply Rmult_le_compat_r; lra). assert (45 / 100 * u * (45 / 100 * u) <= / 1000000 * (45 / 100 * u)) by (apply Rmult_le_compat_r; lra). lra. }
  destruct (fadd_near_t b (fmul w w) (158 / 10) 0 0 (97 / 10000 * u) S (W * W)) as (F2 & E2); auto; try lra; try (rewrite Rabs_right by lra; lra).
  rewrite (Rabs_right S), (Rabs_right (W * W)), (Rabs_right (S + W * W)) in E2 by lra. set (Z := S + W * W) in *. assert (BZ : 23 / 100 <= Z) by (unfold Z; lra).
  assert (N2 : near (1685 / 100) 0 (B2R (fadd b (fmul w w))) Z).
  { eapply near_of; [exact E2|]. rewrite (Rabs_right Z) by lra. unfold Z. assert (0 <= u * (W * W) <= u * (1 / 1000)) by (split; [pos|apply Rmult_le_compat_l; lra]). assert (u * (23 / 100) <= u * S) by (apply Rmult_le_compat_l; lra). lra. }
  pose proof (near_low (1685 / 100) 0 _ Z ltac:(lra) ltac:(lra) N2) as L2.
  destruct (fsqrt_near (fadd b (fmul w w)) (1685 / 100) 0 Z) as (F3 & P3 & N3); auto; try lra. rewrite sqrt_0 in N3. apply Rabs_le_inv in BW as BW'.
  assert (Zs : sqrt Z = K + W) by lra. rewrite Zs in N3.
  destruct (fsub_near_t (fsqrt (fadd b (fmul w w))) w (944 / 100) 0 (eta) (45 / 100 * u) (K + W) W) as (F4 & E4); auto; try lra. { eapply near_weaken; [| |exact N3]; lra. }
  { rewrite Rabs_right by lra. apply Rle_trans with (bpow radix2 43); [|apply bpow_le; lia]. change 43%Z with (1 + 42)%Z. rewrite bpow_plus, b40. change (bpow radix2 1) with 2. lra. }
  fold k in F4, E4. split; auto. replace (K + W - W) with K in E4 by ring. eapply near_of; [exact E4|]. rewrite (Rabs_right K), (Rabs_right (K + W)) by lra.
  assert (u * (12 / 25) <= u * K) by (apply Rmult_le_compat_l; lra). assert (u * (K + W) <= u * (K + 1002 / 100000)) by (apply Rmult_le_compat_l; lra). assert (u * Rabs W <= u * (1002 / 100000)) by (apply Rmult_le_compat_l; lra). lra.
Qed.

Lemma zero_of (x : float64) : is_finite x = true -> B2R x = 0 -> exists s, x = B754_zero s.
Proof. intros F E. destruct x as [s|s| |s m e H]; try discriminate; [eauto|]. exfalso. destruct s; [assert (B2R (B754_finite true m e H) < 0) by (apply F2R_lt_0; reflexivity)|assert (0 < B2R (B754_finite false m e H)) by (apply F2R_gt_0; reflexivity)]; lra. Qed.
Lemma real_cube_root X : 1 <= X -> exists t, 0 < t /\ t ^ 3 = X.
Proof.
  intros H. exists (Rpower X (/ 3)). split; [apply exp_pos|]. rewrite <- Rpower_pow by apply exp_pos. rewrite Rpower_mult. replace (/ 3 * INR 3) with 1 by (cbn; field). apply Rpower_1; lra.
Qed.
(** the result of _compute_k is within 12 units of rounding of the root of the quartic *)
Lemma k_near pow (a e2 q r2 : float64) e P Q K : good_pow pow -> is_finite a = true -> is_finite e2 = true -> is_finite q = true -> is_finite r2 = true ->
  bpow radix2 (-100) <= B2R a <= bpow radix2 100 -> e = 0 \/ bpow radix2 (-101) <= e -> e <= / 100 -> near (21 / 10) 0 (B2R e2) e ->
  near (201 / 100) (4 * eta) (B2R r2) (B2R a * B2R a * P) -> 0 <= B2R r2 -> near (608 / 100) T1 (B2R q) Q -> 0 <= B2R q -> 0 <= P -> 0 <= Q ->
  12 / 25 <= K <= bpow radix2 20 -> P * K ^ 2 + Q * (K + e) ^ 2 = K ^ 2 * (K + e) ^ 2 ->
  is_finite (fcompute_k pow a e2 q r2) = true /\ near 12 0 (B2R (fcompute_k pow a e2 q r2)) K.
Proof.
  intros G Fa Fe Fq Fr BA He1 He2 Ne Nr Pr Nq Pq HP HQ BK Quartic. consts.
  assert (He : 0 <= e <= / 100). { pose proof (bpow_gt_0 radix2 (-101)). lra. }
  assert (BK2 : bpow radix2 20 = 1048576) by (cbn; lra). rewrite BK2 in BK.
  destruct (real_cube_root (vxx e P Q)) as (t & Pt & Et). { apply (gb_x e P Q K); auto; lra. }
  assert (HK : 12 / 25 <= K) by lra.
  pose proof (gb_sum e P Q K He HP HQ HK Quartic) as M1. pose proof (gb_low e P Q K He HP HQ HK Quartic) as M2. pose proof (gb_e e P Q K He HP HQ HK Quartic) as M3. pose proof (gb_e' e He) as M4.
  pose proof (gb_r e P Q K He HP HQ HK Quartic) as M5. pose proof (gb_s e P Q K He HP HQ HK Quartic) as M6. pose proof (gb_sq e P Q K He HP HQ HK Quartic) as M7. pose proof (gb_x e P Q K He HP HQ HK Quartic) as M8.
  pose proof (gb_t e P Q K t He HP HQ HK Quartic Pt Et) as M9. pose proof (gb_tt e P Q K t He HP HQ HK Quartic Pt Et) as M10. pose proof (gb_u e P Q K t He HP HQ HK Quartic Pt Et) as M11. pose proof (gb_v e P Q K t He HP HQ HK Quartic Pt Et) as M12.
  pose proof (gb_w e P Q K t He HP HQ HK Quartic Pt Et) as M13. pose proof (gb_k e P Q K t He HP HQ HK Quartic Pt Et) as M14.
  assert (MB : P + Q <= 4398046511104 / 2). { eapply Rle_trans; [apply M1|]. apply Rle_trans with (1048577 * 1048577); [apply Rmult_le_compat; lra|lra]. }
  pose proof (bpow_gt_0 radix2 (-100)) as P100.
  (* a ** 2 *)
  destruct (pow2_near pow a 0 (B2R a) G Fa ltac:(lra)) as (F0 & N0). { split; eapply Rle_trans; try apply BA; apply bpow_le; lia. } { apply near_exact. }
  set (A := B2R a) in *. assert (PA : 0 < A) by lra.
  assert (BAA : bpow radix2 (-200) <= A * A <= bpow radix2 200).
  { split; [change (-200)%Z with (-100 + -100)%Z|change 200%Z with (100 + 100)%Z]; rewrite bpow_plus; apply Rmult_le_compat; lra. }
  pose proof (bpow_gt_0 radix2 (-200)) as P200.
  (* e_2 ** 2 *)
  assert (E4 : is_finite (pow e2 ftwo) = true /\ near (621 / 100) 0 (B2R (pow e2 ftwo)) (e * e)).
  { destruct He1 as [->|He1].
    - assert (Z : B2R e2 = 0). { unfold near in Ne. rewrite Rabs_R0, Rminus_0_r, Rmult_0_r, Rplus_0_r in Ne. pose proof (Rabs_pos (B2R e2)). destruct (Req_dec (B2R e2) 0); auto. pose proof (Rabs_pos_lt _ H0). lra. }
      destruct (zero_of e2 Fe Z) as (s & ->). destruct (proj2 G s) as (F & E). split; auto. rewrite E, Rmult_0_l. eapply near_weaken; [| |apply near_exact]; lra.
    - destruct (pow2_near pow e2 (21 / 10) e G Fe ltac:(lra)) as (F & N); auto. { split; [eapply Rle_trans; [|exact He1]; apply bpow_le; lia|apply small_b; [lia|lra]]. }
      split; auto. eapply near_weaken; [| |exact N]; lra. }
  destruct E4 as (FE & NE). assert (PE : 0 <= B2R (pow e2 ftwo)). { pose proof (near_low (621 / 100) 0 _ (e * e) ltac:(lra) ltac:(lra) NE). lra. }
  (* p *)
  assert (BAP : A * A * P <= bpow radix2 400).
  { apply Rle_trans with (bpow radix2 200 * bpow radix2 42); [apply Rmult_le_compat; try rewrite b40; try lra|rewrite <- bpow_plus; apply bpow_le; lia]. }
  assert (PAP : 0 <= A * A * P) by (apply Rmult_le_pos; lra).
  destruct (fdiv_near_t r2 (pow a ftwo) (201 / 100) (201 / 100) (4 * eta) (A * A * P) (A * A)) as (F1 & N1); auto; try lra. { eapply near_weaken; [| |exact N0]; lra. } { rewrite Rabs_right; lra. } { rewrite Rabs_right by lra. eapply Rle_trans; [|apply BAA]. apply bpow_le; lia. }
  replace (A * A * P / (A * A)) with P in N1 by (field; lra). set (p := fdiv r2 (pow a ftwo)) in *.
  assert (N1' : near (504 / 100) T1 (B2R p) P).
  { eapply near_weaken; [| |exact N1]; [lra|]. rewrite Rabs_right by (apply Rle_ge, Rlt_le, Rinv_0_lt_compat; lra).
    assert (IA : / (A * A) * eta <= bpow radix2 200 * eta). { apply Rmult_le_compat_r; [lra|]. replace (bpow radix2 200) with (/ bpow radix2 (-200)) by (rewrite <- bpow_opp; reflexivity). apply Rinv_le; lra. }
    assert (bpow radix2 200 * eta * 4398046511104 <= T1). { rewrite <- b40. unfold eta, T1. rewrite <- !bpow_plus. apply bpow_le; lia. } lra. }
  assert (Pp : 0 <= B2R p). { apply fdiv_nonneg; auto. pose proof (near_low (2 * 0 + 2 + / 100) 0 _ (A * A) ltac:(lra) ltac:(lra) N0). lra. }
  destruct (st_r p q (pow e2 ftwo) P Q e) as (F2 & N2); auto; try lra.
  set (r := fdiv (fsub (fadd p q) (pow e2 ftwo)) fsix) in *.
  destruct (st_s pow (pow e2 ftwo) p q r P Q e) as (F3 & N3); auto; try lra.
  set (s := fdiv (fmul (fmul (pow e2 ftwo) p) q) (fmul ffour (pow r fthree))) in *.
  assert (Ps : 0 <= B2R s).
  { destruct (pow3_near pow r (912 / 100) (vr e P Q) G F2 ltac:(lra)) as (F & N); auto. { split; [apply low_b; [lia|lra]|apply big_b; [lia|lra]]. }
    pose proof (bpow_gt_0 radix2 400). set (R := vr e P Q) in *.
    assert (R2 : 38 / 1000 * (38 / 1000) <= R * R <= 4398046511104 * 4398046511104) by (split; apply Rmult_le_compat; lra).
    assert (R3 : 38 / 1000 * (38 / 1000) * (38 / 1000) <= R * R * R <= 4398046511104 * 4398046511104 * 4398046511104) by (split; apply Rmult_le_compat; lra).
    assert (B3 : R * R * R <= bpow radix2 400). { eapply Rle_trans; [apply R3|]. rewrite <- b40, <- !bpow_plus. apply bpow_le; lia. }
    destruct (fmul_near_n ffour (pow r fthree) 0 (2938 / 100) 4 (R * R * R)) as (F4 & N4); auto; try lra.
    { apply near_const, ffour_val. } { eapply near_weaken; [| |exact N]; lra. } { rewrite Rabs_right by lra. apply big_b; [lia|lra]. } { rewrite Rabs_right by lra. auto. } { rewrite Rabs_right by lra. apply low_b; [lia|lra]. }
    pose proof (near_low (0 + 2938 / 100 + 1 + / 500) 0 _ (4 * (R * R * R)) ltac:(lra) ltac:(lra) N4) as L.
    apply fdiv_nonneg; auto; [lra|].
    assert (FF : is_finite (fmul (pow e2 ftwo) p) = true /\ is_finite (fmul (fmul (pow e2 ftwo) p) q) = true).
    { destruct (fmul_near_t (pow e2 ftwo) p (621 / 100) (504 / 100) 0 T1 (e * e) P) as (F5 & N5); auto; try lra; try (rewrite Rabs_right by lra; apply big_b; [lia|lra]).
      split; auto. assert (EP : 0 <= e * e * P <= 4398046511104) by (split; [apply Rmult_le_pos; lra|]; apply Rle_trans with (1 * P); [apply Rmult_le_compat_r; lra|lra]).
      rewrite (Rabs_right (e * e)), (Rabs_right P) in N5 by lra. assert (e * e * T1 <= 1 * T1) by (apply Rmult_le_compat_r; lra).
      destruct (fmul_near_t (fmul (pow e2 ftwo) p) q (13) (608 / 100) (2 * T1) T1 (e * e * P) Q) as (F6 & _); auto; try lra; try (rewrite Rabs_right by lra; apply big_b; [lia|lra]).
      eapply near_weaken; [| |exact N5]; lra. }
    apply fmul_nonneg; try apply FF; auto. apply fmul_nonneg; try apply FF; auto. }
  destruct (st_x s (vs e P Q)) as (F4 & N4); auto; try lra. change (1 + vs e P Q + sqrt (vs e P Q * (2 + vs e P Q))) with (vxx e P Q) in N4. cbv zeta in F4, N4.
  set (x := fadd (fadd fone s) (fsqrt (fmul s (fadd ftwo s)))) in *.
  destruct (root_near pow x (vxx e P Q) t) as (F5 & N5); auto.
  destruct (st_u r (fnthroot3 pow x) e P Q t) as (F6 & N6); auto; try lra. cbv zeta in F6, N6.
  set (tt := fnthroot3 pow x) in *. set (w := fmul r (fadd (fadd fone tt) (fdiv fone tt))) in *.
  destruct (st_v w (pow e2 ftwo) q (vu e P Q t) (e * e) Q) as (F7 & N7); auto; try lra. cbv zeta in F7, N7.
  change (sqrt (vu e P Q t * vu e P Q t + e * e * Q)) with (vv e P Q t) in N7. set (v := fsqrt (fadd (fmul w w) (fmul (pow e2 ftwo) q))) in *.
  destruct (st_w w v q e2 (vu e P Q t) (vv e P Q t) Q e (P + Q)) as (F8 & N8 & F9 & N9); auto; try lra. cbv zeta in F9, N9.
  change (e * (vu e P Q t + vv e P Q t - Q) / (2 * vv e P Q t)) with (vw e P Q t) in N9. set (ww := fdiv (fmul e2 (fsub (fadd w v) q)) (fmul ftwo v)) in *.
  destruct (st_k (fadd w v) ww (vu e P Q t + vv e P Q t) (vw e P Q t) K) as (F10 & N10); auto; try lra.
Qed.
