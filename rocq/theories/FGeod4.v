(** * C90: _equation23 and p_EB_E2n_EB_E in binary64 (core.py 144-177, 226-246) *)
From Coq Require Import ZArith Reals Lra Lia Bool Psatz.
From Flocq Require Import Core BinarySingleNaN Relative.
From Verif Require Import Spec SpecArr LVec LAngle LEcef PEcef LVerm FTiny FBase FRel FRel2 FUnit FDist FGreat FClose FLatLon FInv FEcef FEcef2 FGeodB FGeod FGeod2 FGeod3.
Local Open Scope R_scope.

(** core.py 145-147 *)
Definition feccentricity2 (f : float64) : float64 := fmul (fsub ftwo f) f.
(** core.py 164-177; numpy computes the squares of the array entries by multiplication and evaluates
    [(1 - e_2) / (a ** 2) * Rx_2], [k * Ryz / (k + e_2)] and [x_scale * k / (k + e_2)] from left to right *)
Definition fequation23 (pow : float64 -> float64 -> float64) (a f p0 p1 p2 : float64) : float64 * float64 * float64 :=
  let Ryz_2 := fadd (fmul p1 p1) (fmul p2 p2) in
  let Rx_2 := fmul p0 p0 in
  let e_2 := feccentricity2 f in
  let q := fmul (fdiv (fsub fone e_2) (pow a ftwo)) Rx_2 in
  let Ryz := fsqrt Ryz_2 in
  let k := fcompute_k pow a e_2 q Ryz_2 in
  let d := fdiv (fmul k Ryz) (fadd k e_2) in
  let temp0 := fsqrt (fadd (fmul d d) Rx_2) in
  let height := fmul (fdiv (fsub (fadd k e_2) fone) k) temp0 in
  let x_scale := fdiv fone temp0 in
  let yz_scale := fdiv (fmul x_scale k) (fadd k e_2) in
  (x_scale, yz_scale, fneg height).
(** core.py 226-246, one column, default R_Ee *)
Definition fp_EB_E2n_EB_E (pow : float64 -> float64 -> float64) (p : vec64) (a f : float64) : vec64 * float64 :=
  let p0 := fdot3 (fzero, fzero, fone) p in let p1 := fdot3 (fzero, fone, fzero) p in let p2 := fdot3 (fneg fone, fzero, fzero) p in
  let '(x_scale, yz_scale, depth) := fequation23 pow a f p0 p1 p2 in
  let n := (fmul x_scale p0, fmul yz_scale p1, fmul yz_scale p2) in
  (unit64 (fdot3 (fzero, fzero, fneg fone) n, fdot3 (fzero, fone, fzero) n, fdot3 (fone, fzero, fzero) n), depth).

Definition T5 : R := bpow radix2 (-530).
Lemma sqrt_bpow t n : 0 <= t -> t <= bpow radix2 (n + n) -> sqrt t <= bpow radix2 n.
Proof. intros H1 H2. pose proof (bpow_ge_0 radix2 n). rewrite <- (sqrt_square (bpow radix2 n)) by auto. apply sqrt_le_1_alt. rewrite <- bpow_plus. auto. Qed.

(** ** the eccentricity *)
Lemma st_ecc f : is_finite f = true -> B2R f = 0 \/ bpow radix2 (-100) <= B2R f -> B2R f <= / 200 ->
  is_finite (feccentricity2 f) = true /\ near (21 / 10) 0 (B2R (feccentricity2 f)) (ecc2 (B2R f)) /\ 0 <= ecc2 (B2R f) <= / 100 /\ (ecc2 (B2R f) = 0 \/ bpow radix2 (-101) <= ecc2 (B2R f)).
Proof.
  intros Ff Hf Uf. consts. pose proof (bpow_gt_0 radix2 (-100)) as P1. set (fl := B2R f) in *. assert (Bf : 0 <= fl <= / 200) by lra.
  destruct (fsub_near_t ftwo f 0 0 0 0 2 fl) as (F1 & E1); auto; try lra; try (rewrite Rabs_right by lra; apply big_b; [lia|lra]). { apply near_const, ftwo_val. } { apply near_exact. }
  rewrite (Rabs_right 2), (Rabs_right fl), (Rabs_right (2 - fl)) in E1 by lra.
  assert (N1 : near (101 / 100) 0 (B2R (fsub ftwo f)) (2 - fl)). { eapply near_of; [exact E1|]. rewrite (Rabs_right (2 - fl)) by lra. assert (0 <= u * fl <= u * / 200) by (split; [pos|apply Rmult_le_compat_l; lra]). lra. }
  unfold ecc2. assert (EB : 0 <= (2 - fl) * fl <= / 100) by nra. match goal with |- context [near (21 / 10) 0 _ ?t] => replace t with ((2 - fl) * fl) by ring end.
  destruct Hf as [Z|L].
  - assert (Q : B2R (fmul (fsub ftwo f) f) = 0 /\ is_finite (fmul (fsub ftwo f) f) = true).
    { destruct (fmul_val (fsub ftwo f) f F1 Ff) as (F & E). { fold fl. rewrite Z, Rmult_0_r, Rabs_R0. apply bpow_ge_0. } split; auto. rewrite E. fold fl. rewrite Z, Rmult_0_r. apply round_0; auto with typeclass_instances. }
    unfold feccentricity2. destruct Q as (Q & F). rewrite Q. split; auto. split; [rewrite Z; match goal with |- near _ _ _ ?t => replace t with 0 by ring end; eapply near_weaken; [| |apply near_exact]; lra|]. split; auto. left. rewrite Z. ring.
  - assert (LB : bpow radix2 (-101) <= (2 - fl) * fl).
    { apply Rle_trans with (1 * fl); [|apply Rmult_le_compat_r; lra]. rewrite Rmult_1_l. eapply Rle_trans; [|exact L]. apply bpow_le; lia. }
    destruct (fmul_near_n (fsub ftwo f) f (101 / 100) 0 (2 - fl) fl) as (F2 & N2); auto; try lra; try (rewrite Rabs_right by lra; apply big_b; [lia|lra]). { apply near_exact. }
    { rewrite Rabs_right by lra. eapply Rle_trans; [|exact LB]. apply bpow_le; lia. }
    unfold feccentricity2. split; auto. split; [eapply near_weaken; [| |exact N2]; lra|]. split; auto.
Qed.

(** ** the squares of the coordinates *)
Lemma st_sq (x : float64) : is_finite x = true -> Rabs (B2R x) <= bpow radix2 130 -> is_finite (fmul x x) = true /\ near (1002 / 1000) eta (B2R (fmul x x)) (B2R x * B2R x) /\ 0 <= B2R (fmul x x).
Proof.
  intros F B. consts. assert (bpow radix2 130 <= bpow radix2 400) by (apply bpow_le; lia).
  destruct (fmul_near_t x x 0 0 0 0 (B2R x) (B2R x)) as (F1 & N1); auto; try lra; try apply near_exact. split; auto. split; [|apply fmul_sq_nonneg; auto].
  eapply near_weaken; [| |exact N1]; [lra|]. pose proof (Rabs_pos (B2R x)). lra.
Qed.
Lemma sq_big x : Rabs x <= bpow radix2 130 -> 0 <= x * x <= bpow radix2 260.
Proof.
  intros H. split; [apply Rle_0_sqr|]. rewrite <- (Rabs_right (x * x)) by (apply Rle_ge, Rle_0_sqr). rewrite Rabs_mult. change 260%Z with (130 + 130)%Z. rewrite bpow_plus. apply Rmult_le_compat; auto; apply Rabs_pos.
Qed.
Lemma st_yz (y z : float64) : is_finite y = true -> is_finite z = true -> Rabs (B2R y) <= bpow radix2 130 -> Rabs (B2R z) <= bpow radix2 130 ->
  let s := fadd (fmul y y) (fmul z z) in let S := B2R y * B2R y + B2R z * B2R z in
  is_finite s = true /\ near (201 / 100) (4 * eta) (B2R s) S /\ 0 <= B2R s /\ is_finite (fsqrt s) = true /\ near (202 / 100) T5 (B2R (fsqrt s)) (sqrt S).
Proof.
  intros Fy Fz By Bz s S. consts. destruct (st_sq y Fy By) as (F1 & N1 & P1). destruct (st_sq z Fz Bz) as (F2 & N2 & P2). pose proof (sq_big _ By) as Q1. pose proof (sq_big _ Bz) as Q2.
  assert (B2 : bpow radix2 260 <= bpow radix2 900) by (apply bpow_le; lia).
  destruct (fadd_near_t (fmul y y) (fmul z z) (1002 / 1000) (1002 / 1000) eta eta (B2R y * B2R y) (B2R z * B2R z)) as (F3 & E3); auto; try lra; try (rewrite Rabs_right; lra).
  fold s in F3, E3. fold S in E3. assert (PS : 0 <= S) by (unfold S; lra).
  assert (N3 : near (201 / 100) (4 * eta) (B2R s) S).
  { eapply near_of; [exact E3|]. rewrite (Rabs_right S), (Rabs_right (B2R y * B2R y)), (Rabs_right (B2R z * B2R z)) by lra. unfold S. assert (0 <= u * (B2R y * B2R y)) by pos. assert (0 <= u * (B2R z * B2R z)) by pos. lra. }
  assert (P3 : 0 <= B2R s) by (apply fadd_nonneg; auto). split; auto. split; auto. split; auto.
  destruct (fsqrt_near0 s (201 / 100) (4 * eta) S) as (F4 & _ & N4); auto; try lra. split; auto.
  eapply near_weaken; [| |exact N4]; [lra|].
  assert (SQ : sqrt (4 * eta) <= bpow radix2 (-536)). { apply sqrt_bpow; [lra|]. unfold eta. change 4 with (bpow radix2 2). apply bp_times; lia. }
  assert (E5 : T5 = 64 * bpow radix2 (-536)). { unfold T5. change 64 with (bpow radix2 6). rewrite <- bpow_plus. reflexivity. }
  assert (eta <= bpow radix2 (-536)) by (unfold eta; apply bpow_le; lia). pose proof (bpow_gt_0 radix2 (-536)). lra.
Qed.
(** ** q *)
Lemma st_q pow (a e2 x : float64) e : good_pow pow -> is_finite a = true -> is_finite e2 = true -> is_finite x = true -> bpow radix2 (-100) <= B2R a <= bpow radix2 100 ->
  near (21 / 10) 0 (B2R e2) e -> 0 <= e <= / 100 -> Rabs (B2R x) <= bpow radix2 130 ->
  let q := fmul (fdiv (fsub fone e2) (pow a ftwo)) (fmul x x) in
  is_finite q = true /\ near (608 / 100) T1 (B2R q) ((1 - e) * (B2R x * B2R x) / (B2R a * B2R a)) /\ 0 <= B2R q.
Proof.
  intros G Fa Fe Fx BA Ne Be Bx q. consts. destruct (st_sq x Fx Bx) as (F1 & N1 & P1). pose proof (sq_big _ Bx) as Q1. pose proof (bpow_gt_0 radix2 (-100)) as P100.
  destruct (pow2_near pow a 0 (B2R a) G Fa ltac:(lra)) as (F0 & N0). { split; eapply Rle_trans; try apply BA; apply bpow_le; lia. } { apply near_exact. }
  set (A := B2R a) in *. assert (PA : 0 < A) by lra.
  assert (BAA : bpow radix2 (-200) <= A * A <= bpow radix2 200).
  { split; [change (-200)%Z with (-100 + -100)%Z|change 200%Z with (100 + 100)%Z]; rewrite bpow_plus; apply Rmult_le_compat; lra. }
  pose proof (bpow_gt_0 radix2 (-200)) as P200. pose proof (near_low (2 * 0 + 2 + / 100) 0 _ (A * A) ltac:(lra) ltac:(lra) N0) as L0.
  destruct (fsub_near_t fone e2 0 (21 / 10) 0 0 1 e) as (F2 & E2); auto; try lra; try (rewrite Rabs_right by lra; apply big_b; [lia|lra]). { apply near_const, fone_val. }
  rewrite (Rabs_right 1), (Rabs_right e), (Rabs_right (1 - e)) in E2 by lra.
  assert (N2 : near (103 / 100) 0 (B2R (fsub fone e2)) (1 - e)). { eapply near_of; [exact E2|]. rewrite (Rabs_right (1 - e)) by lra. assert (0 <= u * e <= u * / 100) by (split; [pos|apply Rmult_le_compat_l; lra]). lra. }
  pose proof (near_low (103 / 100) 0 _ (1 - e) ltac:(lra) ltac:(lra) N2) as L2.
  assert (IA : bpow radix2 (-200) <= / (A * A) <= bpow radix2 200).
  { split; [replace (bpow radix2 (-200)) with (/ bpow radix2 200) by (rewrite <- bpow_opp; reflexivity)|replace (bpow radix2 200) with (/ bpow radix2 (-200)) by (rewrite <- bpow_opp; reflexivity)]; apply Rinv_le; lra. }
  assert (B2 : 2 * bpow radix2 (-400) <= bpow radix2 (-200)). { change 2 with (bpow radix2 1). apply bp_times; lia. }
  assert (B3 : bpow radix2 (-1000) <= bpow radix2 (-400)) by (apply bpow_le; lia). assert (B4 : bpow radix2 200 <= bpow radix2 400) by (apply bpow_le; lia). assert (B5 : bpow radix2 260 <= bpow radix2 400) by (apply bpow_le; lia).
  assert (I2 : 0 < (1 - e) / (A * A) <= bpow radix2 200). { unfold Rdiv. split; [apply Rmult_lt_0_compat; lra|]. rewrite <- (Rmult_1_l (bpow radix2 200)). apply Rmult_le_compat; lra. }
  assert (I3 : bpow radix2 (-1000) <= (1 - e) / (A * A)). { apply Rle_trans with (/ 2 * bpow radix2 (-200)); [lra|]. unfold Rdiv. apply Rmult_le_compat; lra. }
  destruct (fdiv_near_n (fsub fone e2) (pow a ftwo) (103 / 100) (201 / 100) (1 - e) (A * A)) as (F3 & N3); auto; try lra. { eapply near_weaken; [| |exact N0]; lra. } { rewrite Rabs_right by lra. apply big_b; [lia|lra]. } { rewrite Rabs_right; lra. } { rewrite Rabs_right; lra. }
  destruct (fmul_near_t (fdiv (fsub fone e2) (pow a ftwo)) (fmul x x) (406 / 100) (1002 / 1000) 0 eta ((1 - e) / (A * A)) (B2R x * B2R x)) as (F4 & N4); auto; try lra. { eapply near_weaken; [| |exact N3]; lra. } { rewrite Rabs_right; lra. } { rewrite Rabs_right; lra. }
  fold q in F4, N4. split; auto. rewrite (Rabs_right ((1 - e) / (A * A))) in N4 by lra. split.
  - replace ((1 - e) * (B2R x * B2R x) / (A * A)) with ((1 - e) / (A * A) * (B2R x * B2R x)) by (field; lra). eapply near_weaken; [| |exact N4]; [lra|].
    assert ((1 - e) / (A * A) * eta <= bpow radix2 200 * eta) by (apply Rmult_le_compat_r; lra).
    assert (bpow radix2 200 * eta * 4398046511104 <= T1). { rewrite <- b40. unfold eta, T1. rewrite <- !bpow_plus. apply bpow_le; lia. } assert (0 <= bpow radix2 200 * eta) by (apply Rmult_le_pos; [apply bpow_ge_0|lra]). lra.
  - apply fmul_nonneg; auto. apply fdiv_nonneg; auto; lra.
Qed.

(** ** k / (k + e_2): the errors of k nearly cancel *)
Lemma ratio_near k K d e : near 12 0 k K -> near (21 / 10) 0 d e -> 12 / 25 <= K -> 0 <= e <= / 100 -> near (3 / 10) 0 (k / (k + d)) (K / (K + e)) /\ 0 <= d /\ 47 / 100 <= k.
Proof.
  intros Nk Nd HK He. consts. pose proof (near_low 12 0 k K ltac:(lra) ltac:(lra) Nk) as Lk. pose proof (near_low (21 / 10) 0 d e ltac:(lra) ltac:(lra) Nd) as Ld. split; [|lra].
  assert (Pd : 0 <= d) by lra. unfold near in *. rewrite (Rabs_right K) in Nk by lra. rewrite (Rabs_right e) in Nd by lra. rewrite (Rabs_right (K / (K + e))) by (apply Rle_ge, Rmult_le_pos; [lra|apply Rlt_le, Rinv_0_lt_compat; lra]).
  replace (k / (k + d) - K / (K + e)) with ((e * (k - K) - K * (d - e)) / ((k + d) * (K + e))) by (field; lra).
  unfold Rdiv. rewrite Rabs_mult, Rabs_inv, (Rabs_right ((k + d) * (K + e))) by (apply Rle_ge, Rmult_le_pos; lra).
  apply (Rmult_le_reg_r ((k + d) * (K + e))); [apply Rmult_lt_0_compat; lra|]. rewrite Rmult_assoc, Rinv_l, Rmult_1_r by (apply Rgt_not_eq, Rmult_lt_0_compat; lra).
  match goal with |- _ <= ?t => replace t with (3 / 10 * (k + d) * (u * K)) by (field; lra) end.
  assert (X : Rabs (e * (k - K) - K * (d - e)) <= e * (12 * u * K) + K * (21 / 10 * u * e)).
  { unfold Rminus at 1. eapply Rle_trans; [apply Rabs_triang|]. rewrite Rabs_Ropp, !Rabs_mult, (Rabs_right e), (Rabs_right K) by lra. apply Rplus_le_compat; apply Rmult_le_compat_l; lra. }
  eapply Rle_trans; [exact X|]. replace (e * (12 * u * K) + K * (21 / 10 * u * e)) with (141 / 10 * e * (u * K)) by field.
  apply Rmult_le_compat_r; [pos|]. lra.
Qed.
