(** * C90: the distance to the axis, the scales and the height of _equation23 in binary64 (core.py 172-177) *)
From Coq Require Import ZArith Reals Lra Lia Bool Psatz.
From Flocq Require Import Core BinarySingleNaN Relative.
From Verif Require Import Spec SpecArr LVec LAngle LEcef PEcef LVerm FTiny FBase FRel FRel2 FUnit FDist FGreat FClose FLatLon FInv FEcef FEcef2 FGeodB FGeod FGeod2 FGeod3 FGeod4.
Local Open Scope R_scope.

Lemma b20 : bpow radix2 20 = 1048576. Proof. cbn. lra. Qed.
Lemma b_le m n : (m <= n)%Z -> bpow radix2 m <= bpow radix2 n. Proof. apply bpow_le. Qed.
Lemma sum_near (k e2 : float64) : is_finite k = true -> is_finite e2 = true -> 47 / 100 <= B2R k <= 1048578 -> 0 <= B2R e2 <= 1 ->
  is_finite (fadd k e2) = true /\ near (1002 / 1000) 0 (B2R (fadd k e2)) (B2R k + B2R e2).
Proof.
  intros Fk Fe Bk Be. consts. destruct (fadd_near_t k e2 0 0 0 0 (B2R k) (B2R e2)) as (F & E); auto; try lra; try apply near_exact; try (rewrite Rabs_right by lra; apply big_b; [lia|lra]).
  split; auto. eapply near_of; [exact E|]. rewrite (Rabs_right (B2R k)), (Rabs_right (B2R e2)), (Rabs_right (B2R k + B2R e2)) by lra. assert (0 <= u * B2R k) by pos. assert (0 <= u * B2R e2) by pos. lra.
Qed.
(** facts on k and e_2 *)
Lemma ke_facts (k e2 : float64) K e : near 12 0 (B2R k) K -> near (21 / 10) 0 (B2R e2) e -> 12 / 25 <= K <= bpow radix2 20 -> 0 <= e <= / 100 ->
  47 / 100 <= B2R k <= 1048578 /\ 0 <= B2R e2 <= 101 / 10000 /\ near (3 / 10) 0 (B2R k / (B2R k + B2R e2)) (K / (K + e)).
Proof.
  intros Nk Ne BK Be. rewrite b20 in BK. destruct (ratio_near _ _ _ _ Nk Ne ltac:(lra) Be) as (R & Pe & Lk).
  pose proof (near_abs 12 0 _ _ ltac:(lra) Nk) as Uk. pose proof (near_abs (21 / 10) 0 _ _ ltac:(lra) Ne) as Ue. rewrite (Rabs_right (B2R k)), (Rabs_right K) in Uk by lra. rewrite (Rabs_right (B2R e2)), (Rabs_right e) in Ue by lra.
  repeat split; auto; lra.
Qed.

Lemma st_temp (k e2 ryz x2 : float64) K e D RYZ X h : is_finite k = true -> is_finite e2 = true -> is_finite ryz = true -> is_finite x2 = true ->
  near 12 0 (B2R k) K -> near (21 / 10) 0 (B2R e2) e -> 12 / 25 <= K <= bpow radix2 20 -> 0 <= e <= / 100 ->
  near (202 / 100) T5 (B2R ryz) RYZ -> 0 <= RYZ <= bpow radix2 131 -> near (1002 / 1000) eta (B2R x2) (X * X) -> 
  D = RYZ * (K / (K + e)) -> D * D + X * X = h * h -> bpow radix2 (-102) <= h <= bpow radix2 130 ->
  let d := fdiv (fmul k ryz) (fadd k e2) in let temp0 := fsqrt (fadd (fmul d d) x2) in
  is_finite temp0 = true /\ near (74 / 10) 0 (B2R temp0) h.
Proof.
  intros Fk Fe Fr Fx Nk Ne BK Be Nr Br Nx ED EH Bh d temp0. consts. destruct (ke_facts k e2 K e Nk Ne BK Be) as (Bk & Be2 & NR). destruct (sum_near k e2 Fk Fe Bk ltac:(lra)) as (Fs & Ns).
  rewrite b20 in BK. pose proof (bpow_gt_0 radix2 (-102)) as P102. set (kr := B2R k) in *. set (er := B2R e2) in *.
  assert (CT5 : 0 < T5) by apply bpow_gt_0. assert (CT51 : T5 <= / 1000000000). { unfold T5. apply Rle_trans with (bpow radix2 (-40)); [apply b_le; lia|cbn; lra]. } assert (CT5e : 1000 * eta <= T5). { apply Rle_trans with (bpow radix2 10 * bpow radix2 (-1075)); [unfold eta; apply Rmult_le_compat_r; [apply bpow_ge_0|cbn; lra]|apply bp_times; lia]. }
  assert (B131 : bpow radix2 131 <= bpow radix2 400) by (apply b_le; lia).
  destruct (fmul_near_t k ryz 0 (202 / 100) 0 T5 kr RYZ) as (F1 & N1); auto; try lra; try apply near_exact. { rewrite Rabs_right by lra. apply big_b; [lia|lra]. } { rewrite Rabs_right; lra. }
  rewrite (Rabs_right kr), (Rabs_right RYZ) in N1 by lra.
  set (t1 := 103 / 100 * (kr * T5 + RYZ * 0 + 0 * T5) + eta) in *. assert (KT : 0 <= kr * T5 <= 1048578 * T5) by (split; [pos|apply Rmult_le_compat_r; lra]).
  assert (Bt1 : 0 <= t1 <= 1) by (unfold t1; split; lra).
  assert (BKR : Rabs (kr * RYZ) <= bpow radix2 400). { rewrite Rabs_right by (apply Rle_ge; pos). apply Rle_trans with (bpow radix2 42 * bpow radix2 131); [rewrite b40; apply Rmult_le_compat; lra|rewrite <- bpow_plus; apply b_le; lia]. }
  destruct (fdiv_near_t (fmul k ryz) (fadd k e2) (303 / 100) (1002 / 1000) t1 (kr * RYZ) (kr + er)) as (F2 & N2); auto; try lra. { eapply near_weaken; [| |exact N1]; lra. } { rewrite Rabs_right by lra. apply low_b; [lia|lra]. }
  fold d in F2, N2.
  assert (N2' : near (506 / 100) (3 * T5) (B2R d) (kr * RYZ / (kr + er))).
  { eapply near_weaken; [| |exact N2]; [lra|]. rewrite Rabs_right by (apply Rle_ge, Rlt_le, Rinv_0_lt_compat; lra).
    assert (IK : / (kr + er) * t1 <= 108 / 100 * T5 + 3 * eta).
    { apply (Rmult_le_reg_r (kr + er)); [lra|]. replace (/ (kr + er) * t1 * (kr + er)) with t1 by (field; lra). unfold t1. assert (kr * T5 <= (kr + er) * T5) by (apply Rmult_le_compat_r; lra). assert (47 / 100 * eta <= (kr + er) * eta) by (apply Rmult_le_compat_r; lra). lra. }
    lra. }
  assert (N2r : near (302 / 1000) 0 (kr * RYZ / (kr + er)) D).
  { rewrite ED. replace (kr * RYZ / (kr + er)) with (RYZ * (kr / (kr + er))) by (field; lra). eapply near_weaken; [| |apply (near_mul 0 (3 / 10) 0 RYZ RYZ); try lra; [apply near_exact|exact NR]]; lra. }
  assert (N3 : near (537 / 100) (3 * T5) (B2R d) D). { eapply near_weaken; [| |apply (near_trans (506 / 100) (3 * T5) (302 / 1000) 0 _ _ _ ltac:(lra) ltac:(lra) ltac:(lra) N2' N2r)]; lra. }
  assert (PD : 0 <= D). { rewrite ED. apply Rmult_le_pos; [lra|]. apply Rmult_le_pos; [lra|apply Rlt_le, Rinv_0_lt_compat; lra]. }
  assert (XX : 0 <= X * X) by apply Rle_0_sqr. assert (DD : 0 <= D * D) by apply Rle_0_sqr.
  assert (Dh : D <= h). { apply Rnot_lt_le. intros L. assert (h * h < D * D) by (apply Rmult_le_0_lt_compat; lra). lra. }
  assert (HH : bpow radix2 (-204) <= h * h <= bpow radix2 260). { split; [change (-204)%Z with (-102 + -102)%Z|change (260)%Z with (130 + 130)%Z]; rewrite bpow_plus; apply Rmult_le_compat; lra. }
  assert (B130 : bpow radix2 130 <= bpow radix2 400) by (apply b_le; lia). assert (B260 : bpow radix2 260 <= bpow radix2 400) by (apply b_le; lia). assert (B900 : bpow radix2 400 <= bpow radix2 900) by (apply b_le; lia).
  destruct (fmul_near_t d d (537 / 100) (537 / 100) (3 * T5) (3 * T5) D D) as (F4 & N4); auto; try lra; try (rewrite Rabs_right; lra).
  rewrite (Rabs_right D) in N4 by lra.
  assert (TT : D * (3 * T5) <= bpow radix2 (-390)). { apply Rle_trans with (bpow radix2 130 * (bpow radix2 2 * T5)); [apply Rmult_le_compat; change (bpow radix2 2) with 4; lra|unfold T5; rewrite <- !bpow_plus; apply b_le; lia]. }
  assert (TT2 : 3 * T5 * (3 * T5) <= bpow radix2 (-390)). { apply Rle_trans with (bpow radix2 2 * T5 * (bpow radix2 2 * T5)); [apply Rmult_le_compat; change (bpow radix2 2) with 4; lra|unfold T5; rewrite <- !bpow_plus; apply b_le; lia]. }
  assert (TE : eta <= bpow radix2 (-390)) by (apply b_le; lia). assert (T390 : bpow radix2 (-390) <= / 1000). { apply Rle_trans with (bpow radix2 (-40)); [apply b_le; lia|cbn; lra]. }
  assert (TU : 4398046511104 * bpow radix2 (-390) <= u * (h * h)).
  { apply Rle_trans with (u * bpow radix2 (-204)); [|apply Rmult_le_compat_l; lra]. unfold u. rewrite <- b40, <- !bpow_plus. apply b_le; lia. }
  pose proof (bpow_gt_0 radix2 (-390)) as P390.
  destruct (fadd_near_t (fmul d d) x2 (1175 / 100) (1002 / 1000) (5 * bpow radix2 (-390)) eta (D * D) (X * X)) as (F5 & E5); auto; try lra. { eapply near_weaken; [| |exact N4]; lra. } { rewrite Rabs_right; lra. } { rewrite Rabs_right; lra. }
  rewrite EH, (Rabs_right (D * D)), (Rabs_right (X * X)), (Rabs_right (h * h)) in E5 by lra.
  assert (N5 : near (1276 / 100) 0 (B2R (fadd (fmul d d) x2)) (h * h)).
  { eapply near_of; [exact E5|]. rewrite (Rabs_right (h * h)) by lra. assert (0 <= u * (X * X)) by pos. assert (0 <= u * (D * D)) by pos. assert (u * (h * h) = u * (D * D) + u * (X * X)) by (rewrite <- EH; ring). lra. }
  pose proof (near_low (1276 / 100) 0 _ (h * h) ltac:(lra) ltac:(lra) N5) as L5. pose proof (bpow_gt_0 radix2 (-204)) as P204.
  destruct (fsqrt_near (fadd (fmul d d) x2) (1276 / 100) 0 (h * h)) as (F6 & _ & N6); auto; try lra. fold temp0 in F6, N6. split; auto.
  rewrite sqrt_0, sqrt_square in N6 by lra. eapply near_weaken; [| |eapply (near_absorb _ (/ 1000)); [|exact N6]]; [lra|lra|]. rewrite Rabs_right by lra.
  assert (1000 * eta <= u * h). { apply Rle_trans with (u * bpow radix2 (-102)); [|apply Rmult_le_compat_l; lra]. apply Rle_trans with (bpow radix2 10 * bpow radix2 (-1075)); [unfold eta; apply Rmult_le_compat_r; [apply bpow_ge_0|cbn; lra]|]. unfold u. rewrite <- !bpow_plus. apply b_le; lia. }
  lra.
Qed.

Lemma st_scale (k e2 temp0 : float64) K e h : is_finite k = true -> is_finite e2 = true -> is_finite temp0 = true ->
  near 12 0 (B2R k) K -> near (21 / 10) 0 (B2R e2) e -> 12 / 25 <= K <= bpow radix2 20 -> 0 <= e <= / 100 -> near (74 / 10) 0 (B2R temp0) h -> bpow radix2 (-102) <= h <= bpow radix2 130 ->
  let xs := fdiv fone temp0 in let ys := fdiv (fmul xs k) (fadd k e2) in
  is_finite xs = true /\ is_finite ys = true /\ near (85 / 10) 0 (B2R xs) (/ h) /\ near (334 / 100) 0 (B2R ys) (B2R xs * (K / (K + e))).
Proof.
  intros Fk Fe Ft Nk Ne BK Be Nt Bh xs ys. consts. destruct (ke_facts k e2 K e Nk Ne BK Be) as (Bk & Be2 & NR). destruct (sum_near k e2 Fk Fe Bk ltac:(lra)) as (Fs & Ns).
  pose proof (bpow_gt_0 radix2 (-102)) as P102. pose proof (bpow_gt_0 radix2 (-130)) as P130.
  assert (IH : bpow radix2 (-130) <= / h <= bpow radix2 102).
  { split; [change (-130)%Z with (- (130))%Z; rewrite bpow_opp|change 102%Z with (- (-102))%Z; rewrite bpow_opp]; apply Rinv_le; lra. }
  assert (I1 : 1 / h = / h) by (unfold Rdiv; ring).
  assert (Q1 : bpow radix2 (-400) <= bpow radix2 (-102)) by (apply b_le; lia). assert (Q2 : bpow radix2 (-1000) <= bpow radix2 (-130)) by (apply b_le; lia). assert (Q3 : bpow radix2 102 <= bpow radix2 399) by (apply b_le; lia).
  assert (Q4 : bpow radix2 399 + bpow radix2 399 = bpow radix2 400). { change 400%Z with (1 + 399)%Z. rewrite bpow_plus. change (bpow radix2 1) with 2. ring. }
  destruct (fdiv_near_n fone temp0 0 (74 / 10) 1 h) as (F1 & N1); auto; try lra. { apply near_const, fone_val. } { rewrite Rabs_right by lra. apply big_b; [lia|lra]. } { rewrite Rabs_right; lra. } { rewrite I1, Rabs_right; lra. }
  rewrite I1 in N1. fold xs in F1, N1. assert (N1' : near (85 / 10) 0 (B2R xs) (/ h)) by (eapply near_weaken; [| |exact N1]; lra).
  split; auto. pose proof (near_low (85 / 10) 0 _ (/ h) ltac:(lra) ltac:(lra) N1') as L1. pose proof (near_abs (85 / 10) 0 _ _ ltac:(lra) N1') as U1. rewrite (Rabs_right (/ h)) in U1 by lra. assert (Px : 0 < B2R xs) by lra. rewrite (Rabs_right (B2R xs)) in U1 by lra.
  set (x := B2R xs) in *. set (kr := B2R k) in *. set (er := B2R e2) in *.
  assert (LX : bpow radix2 (-131) <= x). { change (-131)%Z with (-1 + -130)%Z. rewrite bpow_plus. change (bpow radix2 (-1)) with (/ 2). lra. }
  assert (XK : bpow radix2 (-133) <= x * kr <= bpow radix2 399).
  { split; [change (-133)%Z with (-131 + -2)%Z; rewrite bpow_plus; change (bpow radix2 (-2)) with (/ 4); pose proof (bpow_ge_0 radix2 (-131)); apply Rmult_le_compat; lra|].
    apply Rle_trans with (bpow radix2 103 * bpow radix2 42); [rewrite b40; change 103%Z with (1 + 102)%Z; rewrite bpow_plus; change (bpow radix2 1) with 2; apply Rmult_le_compat; lra|rewrite <- bpow_plus; apply b_le; lia]. }
  pose proof (bpow_gt_0 radix2 (-133)) as P133. assert (Q5 : bpow radix2 (-1000) <= bpow radix2 (-133)) by (apply b_le; lia).
  destruct (fmul_near_n xs k 0 0 x kr) as (F2 & N2); auto; try lra; try apply near_exact. { rewrite Rabs_right; lra. } { rewrite Rabs_right by lra. apply big_b; [lia|lra]. } { rewrite Rabs_right; lra. }
  assert (XKS : bpow radix2 (-1000) <= x * kr / (kr + er)).
  { apply Rle_trans with (bpow radix2 (-133) * / 2).
    - change (/ 2) with (bpow radix2 (-1)). rewrite <- bpow_plus. apply b_le; lia.
    - replace (x * kr / (kr + er)) with (x * (kr / (kr + er))) by (field; lra). assert (HF : / 2 <= kr / (kr + er)) by (apply (Rmult_le_reg_r (kr + er)); [lra|]; unfold Rdiv; rewrite Rmult_assoc, Rinv_l, Rmult_1_r by lra; lra).
      assert (bpow radix2 (-133) <= bpow radix2 (-131)) by (apply b_le; lia). apply Rmult_le_compat; lra. }
  pose proof (bpow_gt_0 radix2 (-1000)) as P1000. destruct (fdiv_near_n (fmul xs k) (fadd k e2) (1002 / 1000) (1002 / 1000) (x * kr) (kr + er)) as (F3 & N3); auto; try lra. { eapply near_weaken; [| |exact N2]; lra. } { rewrite Rabs_right; lra. } { rewrite Rabs_right by lra. apply low_b; [lia|lra]. } { rewrite Rabs_right; lra. }
  fold ys in F3, N3. split; auto. split; auto.
  assert (N4 : near (302 / 1000) 0 (x * kr / (kr + er)) (x * (K / (K + e)))).
  { replace (x * kr / (kr + er)) with (x * (kr / (kr + er))) by (field; lra). eapply near_weaken; [| |apply (near_mul 0 (3 / 10) 0 x x); try lra; [apply near_exact|exact NR]]; lra. }
  eapply near_weaken; [| |apply (near_trans (1002 / 1000 + 1002 / 1000 + 1 + / 50) 0 (302 / 1000) 0 _ _ _ ltac:(lra) ltac:(lra) ltac:(lra) N3 N4)]; lra.
Qed.

Lemma st_height (k e2 temp0 : float64) K e h : is_finite k = true -> is_finite e2 = true -> is_finite temp0 = true ->
  near 12 0 (B2R k) K -> near (21 / 10) 0 (B2R e2) e -> 12 / 25 <= K <= bpow radix2 20 -> 0 <= e <= / 100 -> near (74 / 10) 0 (B2R temp0) h -> bpow radix2 (-102) <= h <= bpow radix2 130 ->
  let ht := fmul (fdiv (fsub (fadd k e2) fone) k) temp0 in let c := h * (1 - e) / K in
  is_finite ht = true /\ Rabs (B2R ht - (h - c)) <= 137 / 10 * u * c + 118 / 10 * u * Rabs (h - c).
Proof.
  intros Fk Fe Ft Nk Ne BK Be Nt Bh ht c. consts. destruct (ke_facts k e2 K e Nk Ne BK Be) as (Bk & Be2 & NR). destruct (sum_near k e2 Fk Fe Bk ltac:(lra)) as (Fs & Ns).
  rewrite b20 in BK. pose proof (bpow_gt_0 radix2 (-102)) as P102. set (kr := B2R k) in *. set (er := B2R e2) in *. set (S := kr + er) in *.
  assert (BS : 47 / 100 <= S <= 1048579) by (unfold S; lra).
  destruct (fsub_near_t (fadd k e2) fone (1002 / 1000) 0 0 0 S 1) as (F1 & E1); auto; try lra; try (rewrite Rabs_right by lra; apply big_b; [lia|lra]). { apply near_const, fone_val. }
  rewrite (Rabs_right S), (Rabs_right 1) in E1 by lra.
  set (t2 := 1003 / 1000 * u * S + / 1000 * u + u * Rabs (S - 1)).
  assert (BS1 : Rabs (S - 1) <= 1048579) by (apply Rabs_le; lra). pose proof (Rabs_pos (S - 1)) as PS1.
  assert (US : 0 <= u * S <= u * 1048579) by (split; [pos|apply Rmult_le_compat_l; lra]). assert (US1 : 0 <= u * Rabs (S - 1) <= u * 1048579) by (split; [pos|apply Rmult_le_compat_l; lra]).
  assert (Bt2 : 0 <= t2 <= 1) by (unfold t2; lra).
  assert (N1 : near 0 t2 (B2R (fsub (fadd k e2) fone)) (S - 1)) by (eapply near_of; [exact E1|]; unfold t2; lra).
  destruct (fdiv_near_t (fsub (fadd k e2) fone) k 0 0 t2 (S - 1) kr) as (F2 & N2); auto; try lra; try apply near_exact. { eapply Rle_trans; [exact BS1|]. apply big_b; [lia|lra]. } { rewrite Rabs_right by lra. apply low_b; [lia|lra]. }
  set (s3 := fdiv (fsub (fadd k e2) fone) k) in *.
  assert (IK : 0 < / kr) by (apply Rinv_0_lt_compat; lra). assert (IKK : 0 < / K) by (apply Rinv_0_lt_compat; lra).
  set (g := (K + e - 1) / K).
  (* the effect of the errors of k and e_2 *)
  assert (ND : near (22 / 1000) 0 (1 - er) (1 - e)).
  { unfold near in *. rewrite (Rabs_right e) in Ne by lra. rewrite (Rabs_right (1 - e)) by lra. replace (1 - er - (1 - e)) with (- (er - e)) by ring. rewrite Rabs_Ropp. assert (u * e <= u * / 100) by (apply Rmult_le_compat_l; lra). fold er in Ne. lra. }
  destruct (near_div (22 / 1000) 12 0 (1 - er) (1 - e) kr K) as (_ & NQ); auto; try lra.
  set (m := (1 - e) / K) in *. assert (Pm : 0 < m) by (unfold m; apply Rmult_lt_0_compat; lra).
  assert (G1 : Rabs ((S - 1) / kr - g) <= 1204 / 100 * u * m).
  { unfold near in NQ. rewrite (Rabs_right m) in NQ by lra. replace ((S - 1) / kr - g) with (- ((1 - er) / kr - m)) by (unfold S, g, m; field; lra). rewrite Rabs_Ropp. assert (0 <= u * m) by pos. assert (2 * Rabs (/ K) * 0 = 0) by ring. lra. }
  assert (Sk : S / kr <= 103 / 100). { apply (Rmult_le_reg_r kr); [lra|]. unfold Rdiv. rewrite Rmult_assoc, Rinv_l, Rmult_1_r by lra. unfold S. lra. }
  assert (SK : / kr <= 102 / 100 * m).
  { unfold m. apply (Rmult_le_reg_r kr); [lra|]. rewrite Rinv_l by lra. apply (Rmult_le_reg_r K); [lra|]. replace (102 / 100 * ((1 - e) / K) * kr * K) with (102 / 100 * (1 - e) * kr) by (field; lra).
    pose proof (near_low 12 0 _ K ltac:(lra) ltac:(lra) Nk) as Lk. fold kr in Lk. assert (102 / 100 * (99 / 100) * kr <= 102 / 100 * (1 - e) * kr) by (apply Rmult_le_compat_r; lra). lra. }
  assert (AS : Rabs ((S - 1) / kr) <= Rabs g + 1204 / 100 * u * m). { replace ((S - 1) / kr) with (((S - 1) / kr - g) + g) by ring. eapply Rle_trans; [apply Rabs_triang|]. lra. }
  assert (AT : Rabs (/ kr) * t2 <= 1034 / 1000 * u + 103 / 100000 * u * m + u * Rabs ((S - 1) / kr)).
  { rewrite (Rabs_right (/ kr)) by lra. unfold t2. replace (Rabs ((S - 1) / kr)) with (Rabs (S - 1) * / kr) by (unfold Rdiv; rewrite Rabs_mult, (Rabs_right (/ kr)) by lra; ring).
    assert (u * (S * / kr) <= u * (103 / 100)) by (apply Rmult_le_compat_l; [lra|exact Sk]). assert (u * / kr <= u * (102 / 100 * m)) by (apply Rmult_le_compat_l; lra). assert (0 <= u * m) by pos. lra. }
  pose proof (Rabs_pos g) as Pg. pose proof (Rabs_pos ((S - 1) / kr)) as PA.
  assert (UM : u * (u * m) <= / 1000000 * (u * m)) by (apply Rmult_le_compat_r; [pos|lra]). assert (U0 : 0 <= u * m) by pos. assert (UG : 0 <= u * Rabs g) by pos.
  assert (UA : u * Rabs ((S - 1) / kr) <= u * (Rabs g + 1204 / 100 * u * m)) by (apply Rmult_le_compat_l; lra).
  set (t3 := 1205 / 100 * u * m + 207 / 100 * u * Rabs g + 1066 / 1000 * u).
  assert (N3 : near 0 t3 (B2R s3) g).
  { unfold near in N2. eapply (near_of _ _ _ _ (1204 / 100 * u * m + (103 / 100 * u * Rabs ((S - 1) / kr) + 103 / 100 * (Rabs (/ kr) * t2) + eta))).
    - replace (B2R s3 - g) with ((B2R s3 - (S - 1) / kr) + ((S - 1) / kr - g)) by ring. eapply Rle_trans; [apply Rabs_triang|]. assert (0 <= u * Rabs ((S - 1) / kr)) by pos. lra.
    - unfold t3. lra. }
  assert (Bm : m <= 3). { unfold m. apply (Rmult_le_reg_r K); [lra|]. unfold Rdiv. rewrite Rmult_assoc, Rinv_l, Rmult_1_r by lra. lra. }
  assert (Eg : g = 1 - m) by (unfold g, m; field; lra). assert (Bg : Rabs g <= 4) by (rewrite Eg; apply Rabs_le; lra).
  assert (Bt3 : 0 <= t3 <= 1). { unfold t3. assert (u * m <= u * 3) by (apply Rmult_le_compat_l; lra). assert (u * Rabs g <= u * 4) by (apply Rmult_le_compat_l; lra). lra. }
  assert (Q3 : bpow radix2 130 <= bpow radix2 400) by (apply b_le; lia).
  destruct (fmul_near_t s3 temp0 0 (74 / 10) t3 0 g h) as (F4 & N4); auto; try lra. { eapply Rle_trans; [exact Bg|]. apply big_b; [lia|lra]. } { rewrite Rabs_right; lra. }
  fold ht in F4, N4. split; auto. unfold near in N4. rewrite (Rabs_right h) in N4 by lra.
  assert (Ec : h * m = c) by (unfold c, m; field; lra). assert (Eh : g * h = h - c) by (rewrite Eg, <- Ec; ring). rewrite Eh in N4. eapply Rle_trans; [exact N4|].
  assert (HT : h * t3 <= 1205 / 100 * u * c + 207 / 100 * u * Rabs (h - c) + 1066 / 1000 * (u * (c + Rabs (h - c)))).
  { assert (EG : h * Rabs g = Rabs (h - c)) by (rewrite <- Eh, Rabs_mult, (Rabs_right h) by lra; ring). unfold t3. rewrite <- EG, <- Ec.
    assert (u * h <= u * (h * m + h * Rabs g)). { apply Rmult_le_compat_l; [lra|]. rewrite <- Rmult_plus_distr_l. rewrite <- (Rmult_1_r h) at 1. apply Rmult_le_compat_l; [lra|]. pose proof (Rle_abs g). lra. } lra. }
  assert (Pc : 0 < c) by (rewrite <- Ec; apply Rmult_lt_0_compat; lra).
  assert (ETA : 1000 * eta <= u * c).
  { rewrite <- Ec. assert (ML : bpow radix2 (-21) <= m).
    { unfold m. apply (Rmult_le_reg_r K); [lra|]. unfold Rdiv. rewrite Rmult_assoc, Rinv_l, Rmult_1_r by lra. change (bpow radix2 (-21)) with (/ 2097152). lra. }
    apply Rle_trans with (u * (bpow radix2 (-102) * bpow radix2 (-21))).
    - apply Rle_trans with (bpow radix2 10 * bpow radix2 (-1075)); [unfold eta; apply Rmult_le_compat_r; [apply bpow_ge_0|cbn; lra]|]. unfold u. rewrite <- !bpow_plus. apply b_le; lia.
    - apply Rmult_le_compat_l; [lra|]. pose proof (bpow_gt_0 radix2 (-21)). apply Rmult_le_compat; lra. }
  assert (0 <= u * Rabs (h - c)) by (apply Rmult_le_pos; [lra|apply Rabs_pos]). assert (0 <= u * c) by pos. lra.
Qed.
