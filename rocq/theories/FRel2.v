(** * The calculus of rounding errors, continued: sums, square roots, powers *)
From Coq Require Import ZArith Reals Lia Lra Bool Psatz.
From Flocq Require Import Core BinarySingleNaN.
From Verif Require Import FTiny FBase FRel.
Local Open Scope R_scope.

Lemma near_absorb k d t x X : t <= d * u * Rabs X -> near k t x X -> near (k + d) 0 x X.
Proof. unfold near. intros Ht H. lra. Qed.
Lemma near_trans k1 t1 k2 t2 x y z : 0 <= k1 <= 1000 -> 0 <= k2 <= 1000 -> 0 <= t2 -> near k1 t1 x y -> near k2 t2 y z -> near (k1 + k2 + / 1000) (t1 + 2 * t2) x z.
Proof.
  intros H1 H2 Ht A B. unfold near in *. pose proof u_pos as Pu. pose proof (ku_small k1 H1) as K1. pose proof (kk k1 k2 H1 H2) as K. pose proof (Rabs_pos z) as Pz.
  assert (Y : Rabs y <= Rabs z + (k2 * u * Rabs z + t2)). { replace y with ((y - z) + z) by ring. eapply Rle_trans; [apply Rabs_triang|]. lra. }
  replace (x - z) with ((x - y) + (y - z)) by ring. eapply Rle_trans; [apply Rabs_triang|].
  assert (k1 * u * Rabs y <= k1 * u * (Rabs z + (k2 * u * Rabs z + t2))) by (apply Rmult_le_compat_l; lra).
  assert (k1 * u * (k2 * u) * Rabs z <= / 10000 * u * Rabs z) by (apply Rmult_le_compat_r; lra).
  assert (k1 * u * t2 <= / 1000000 * t2) by (apply Rmult_le_compat_r; lra). assert (0 <= u * Rabs z) by (apply Rmult_le_pos; lra). lra.
Qed.
Lemma near_low k t x X : 0 <= k <= 1000 -> 0 <= X -> near k t x X -> X * (1 - / 1000000) - t <= x.
Proof.
  intros Hk HX H. unfold near in H. rewrite (Rabs_right X) in H by lra. pose proof (ku_small k Hk) as K. apply Rabs_le_inv in H.
  assert (k * u * X <= / 1000000 * X) by (apply Rmult_le_compat_r; lra). lra.
Qed.

(** sums *)
Lemma fadd_near x y k1 k2 t1 t2 X Y : is_finite x = true -> is_finite y = true -> 0 <= k1 <= 400 -> 0 <= k2 <= 400 -> 0 <= t1 <= 1 -> 0 <= t2 <= 1 ->
  near k1 t1 (B2R x) X -> near k2 t2 (B2R y) Y -> Rabs X <= bpow radix2 900 -> Rabs Y <= bpow radix2 900 ->
  is_finite (fadd x y) = true /\ Rabs (B2R (fadd x y) - (X + Y)) <= (k1 + 1 + / 1000) * u * Rabs X + (k2 + 1 + / 1000) * u * Rabs Y + 2 * (t1 + t2).
Proof.
  intros Fx Fy H1 H2 Ht1 Ht2 A B BX BY. pose proof u_pos as Pu. pose proof u_tiny as Su.
  pose proof (near_abs k1 t1 _ _ ltac:(lra) A) as A'. pose proof (near_abs k2 t2 _ _ ltac:(lra) B) as B'.
  assert (P : 1 <= bpow radix2 900). { change 1 with (bpow radix2 0). apply bpow_le; lia. }
  destruct (fadd_val x y Fx Fy) as (F & E).
  { eapply Rle_trans; [apply Rabs_triang|]. apply Rle_trans with (bpow radix2 903); [|apply bpow_le; lia].
    change 903%Z with (3 + 900)%Z. rewrite bpow_plus. change (bpow radix2 3) with 8. lra. }
  split; auto. rewrite E. destruct (rnd_add_err (B2R x) (B2R y)) as (e & He & ->); [apply format64|apply format64|].
  pose proof (near_plus _ _ _ _ _ _ _ _ A B) as S.
  set (w := B2R x + B2R y) in *. replace (w * (1 + e) - (X + Y)) with ((w - (X + Y)) * (1 + e) + (X + Y) * e) by ring.
  eapply Rle_trans; [apply Rabs_triang|]. rewrite !Rabs_mult. pose proof (Rabs_pos X) as PX. pose proof (Rabs_pos Y) as PY.
  assert (E1 : Rabs (1 + e) <= 1 + u). { eapply Rle_trans; [apply Rabs_triang|]. rewrite Rabs_R1. lra. }
  assert (S1 : Rabs (w - (X + Y)) * Rabs (1 + e) <= (k1 * u * Rabs X + k2 * u * Rabs Y + (t1 + t2)) * (1 + u)) by (apply Rmult_le_compat; auto; apply Rabs_pos).
  assert (XY : Rabs (X + Y) <= Rabs X + Rabs Y) by apply Rabs_triang.
  assert (S2 : Rabs (X + Y) * Rabs e <= (Rabs X + Rabs Y) * u) by (apply Rmult_le_compat; auto; apply Rabs_pos).
  pose proof (kk k1 1 ltac:(lra) ltac:(lra)) as K1. pose proof (kk k2 1 ltac:(lra) ltac:(lra)) as K2. rewrite Rmult_1_l in K1, K2.
  assert (k1 * u * u * Rabs X <= / 10000 * u * Rabs X) by (apply Rmult_le_compat_r; lra).
  assert (k2 * u * u * Rabs Y <= / 10000 * u * Rabs Y) by (apply Rmult_le_compat_r; lra).
  assert (0 <= u * Rabs X) by (apply Rmult_le_pos; lra). assert (0 <= u * Rabs Y) by (apply Rmult_le_pos; lra).
  assert ((t1 + t2) * u <= (t1 + t2) * 1) by (apply Rmult_le_compat_l; lra). lra.
Qed.
(** sums of nonnegative numbers *)
Lemma fadd_near_pos x y k t1 t2 X Y : is_finite x = true -> is_finite y = true -> 0 <= k <= 400 -> 0 <= t1 <= 1 -> 0 <= t2 <= 1 ->
  near k t1 (B2R x) X -> near k t2 (B2R y) Y -> 0 <= X <= bpow radix2 900 -> 0 <= Y <= bpow radix2 900 ->
  is_finite (fadd x y) = true /\ near (k + 1 + / 1000) (2 * (t1 + t2)) (B2R (fadd x y)) (X + Y).
Proof.
  intros Fx Fy Hk H1 H2 A B BX BY. destruct (fadd_near x y k k t1 t2 X Y Fx Fy Hk Hk H1 H2 A B) as (F & E); try (rewrite Rabs_right; lra).
  split; auto. unfold near. rewrite (Rabs_right X), (Rabs_right Y) in E by lra. rewrite (Rabs_right (X + Y)) by lra. lra.
Qed.

(** products of two factors with relative and absolute errors *)
Lemma near_mul2 k1 k2 t1 t2 x X y Y : 0 <= k1 <= 1000 -> 0 <= k2 <= 1000 -> 0 <= t1 -> 0 <= t2 ->
  near k1 t1 x X -> near k2 t2 y Y -> near (k1 + k2 + / 1000) (2 * Rabs X * t2 + 2 * Rabs Y * t1 + t1 * t2) (x * y) (X * Y).
Proof.
  intros H1 H2 Ht1 Ht2 A B. unfold near in *. rewrite Rabs_mult. pose proof u_pos as Pu. pose proof (Rabs_pos X) as PX. pose proof (Rabs_pos Y) as PY.
  pose proof (ku_small k1 H1) as K1. pose proof (ku_small k2 H2) as K2. pose proof (kk k1 k2 H1 H2) as K.
  replace (x * y - X * Y) with ((x - X) * Y + X * (y - Y) + (x - X) * (y - Y)) by ring.
  eapply Rle_trans; [apply Rabs_triang|]. eapply Rle_trans; [apply Rplus_le_compat_r, Rabs_triang|]. rewrite !Rabs_mult.
  set (a := Rabs (x - X)) in *. set (b := Rabs (y - Y)) in *. assert (Pa : 0 <= a) by apply Rabs_pos. assert (Pb : 0 <= b) by apply Rabs_pos.
  set (p := Rabs X) in *. set (q := Rabs Y) in *.
  assert (X1 : a * q <= (k1 * u * p + t1) * q) by (apply Rmult_le_compat_r; auto).
  assert (X2 : p * b <= p * (k2 * u * q + t2)) by (apply Rmult_le_compat_l; auto).
  assert (X3 : a * b <= (k1 * u * p + t1) * (k2 * u * q + t2)) by (apply Rmult_le_compat; auto).
  assert (PQ : 0 <= p * q) by (apply Rmult_le_pos; auto). assert (PT : 0 <= p * t2) by (apply Rmult_le_pos; auto). assert (QT : 0 <= q * t1) by (apply Rmult_le_pos; auto).
  assert (X4 : k1 * u * (k2 * u) * (p * q) <= / 10000 * u * (p * q)) by (apply Rmult_le_compat_r; auto).
  assert (X5 : k1 * u * (p * t2) <= / 1000000 * (p * t2)) by (apply Rmult_le_compat_r; lra).
  assert (X6 : k2 * u * (q * t1) <= / 1000000 * (q * t1)) by (apply Rmult_le_compat_r; lra).
  assert (0 <= u * (p * q)) by (apply Rmult_le_pos; lra). lra.
Qed.
Lemma fmul_near2 x y k1 k2 t1 t2 X Y : is_finite x = true -> is_finite y = true -> 0 <= k1 <= 400 -> 0 <= k2 <= 400 -> 0 <= t1 <= 1 -> 0 <= t2 <= 1 ->
  near k1 t1 (B2R x) X -> near k2 t2 (B2R y) Y -> Rabs X <= bpow radix2 400 -> Rabs Y <= bpow radix2 400 ->
  is_finite (fmul x y) = true /\ near (k1 + k2 + 1 + / 500) (4 * Rabs X * t2 + 4 * Rabs Y * t1 + 2 * (t1 * t2) + eta) (B2R (fmul x y)) (X * Y).
Proof.
  intros Fx Fy H1 H2 Ht1 Ht2 A B BX BY. destruct (fmul_val x y Fx Fy) as (F & ->).
  { apply (big_prod k1 k2 t1 t2 _ X _ Y); auto; lra. }
  split; auto. pose proof (Rabs_pos X). pose proof (Rabs_pos Y). assert (0 <= Rabs X * t2) by (apply Rmult_le_pos; lra). assert (0 <= Rabs Y * t1) by (apply Rmult_le_pos; lra). assert (0 <= t1 * t2) by (apply Rmult_le_pos; lra).
  eapply near_weaken; [| |apply near_rnd; [| |apply (near_mul2 k1 k2 t1 t2); eauto]]; try lra.
Qed.

(** square roots *)
Lemma sqrt_diff_le x y : 0 <= x -> 0 <= y -> sqrt (x + y) <= sqrt x + sqrt y.
Proof.
  intros Hx Hy. pose proof (sqrt_pos x). pose proof (sqrt_pos y). rewrite <- (sqrt_square (sqrt x + sqrt y)) by lra. apply sqrt_le_1_alt.
  pose proof (sqrt_sqrt x Hx). pose proof (sqrt_sqrt y Hy). nra.
Qed.
Lemma sqrt_one_plus h : 0 <= h -> sqrt (1 + h) <= 1 + h / 2.
Proof. intros H. rewrite <- (sqrt_square (1 + h / 2)) by lra. apply sqrt_le_1_alt. nra. Qed.
Lemma sqrt_one_minus h : 0 <= h <= / 1000000 -> 1 - (h / 2 + h * h) <= sqrt (1 - h).
Proof.
  intros H. assert (0 <= 1 - (h / 2 + h * h)) by nra. rewrite <- (sqrt_square (1 - (h / 2 + h * h))) by lra. apply sqrt_le_1_alt.
  assert (Q : 0 <= h * h) by nra. assert (h * (h * h) <= / 1000000 * (h * h)) by (apply Rmult_le_compat_r; lra). assert (h * h * (h * h) <= / 1000000 * (h * h)) by (apply Rmult_le_compat_r; nra).
  replace ((1 - (h / 2 + h * h)) * (1 - (h / 2 + h * h))) with (1 - h - 7 / 4 * (h * h) + h * (h * h) + h * h * (h * h)) by field. lra.
Qed.
Lemma near_sqrt k t x X : 0 <= k <= 1000 -> 0 <= t -> 0 <= x -> 0 <= X -> near k t x X -> near (k / 2 + / 1000) (sqrt t) (sqrt x) (sqrt X).
Proof.
  intros Hk Ht Hx HX A. unfold near in *. pose proof (ku_small k Hk) as K. pose proof (kk k k Hk Hk) as KK. rewrite (Rabs_right X) in A by lra. apply Rabs_le_inv in A. pose proof u_pos as Pu.
  pose proof (sqrt_pos X) as P1. pose proof (sqrt_pos x) as P2. pose proof (sqrt_pos t) as P3. rewrite (Rabs_right (sqrt X)) by lra. set (h := k * u) in *.
  assert (UP : sqrt x <= sqrt X * (1 + h / 2) + sqrt t).
  { apply Rle_trans with (sqrt (X * (1 + h) + t)); [apply sqrt_le_1_alt; lra|]. eapply Rle_trans; [apply sqrt_diff_le; [apply Rmult_le_pos; lra|lra]|]. apply Rplus_le_compat_r.
    rewrite sqrt_mult by lra. apply Rmult_le_compat_l; auto. apply sqrt_one_plus; lra. }
  assert (DN : sqrt X * (1 - (h / 2 + h * h)) <= sqrt x + sqrt t).
  { apply Rle_trans with (sqrt (X * (1 - h))).
    - rewrite sqrt_mult by lra. apply Rmult_le_compat_l; auto. apply sqrt_one_minus; lra.
    - apply Rle_trans with (sqrt (x + t)); [apply sqrt_le_1_alt; lra|]. apply sqrt_diff_le; auto. }
  assert (HH : h * h * sqrt X <= / 10000 * u * sqrt X) by (apply Rmult_le_compat_r; auto). assert (0 <= u * sqrt X) by (apply Rmult_le_pos; lra).
  apply Rabs_le. unfold h in *. lra.
Qed.
Lemma fsqrt_near x k t X : is_finite x = true -> 0 <= k <= 400 -> 0 <= t <= 1 -> 0 < B2R x -> 0 <= X -> near k t (B2R x) X ->
  is_finite (fsqrt x) = true /\ 0 <= B2R (fsqrt x) /\ near (k / 2 + 1 + / 100) (2 * sqrt t + eta) (B2R (fsqrt x)) (sqrt X).
Proof.
  intros Fx Hk Ht Px HX A. pose proof (fsqrt_val x Fx Px) as V. pose proof (near_sqrt k t (B2R x) X ltac:(lra) ltac:(lra) ltac:(lra) HX A) as N.
  destruct V as (F & E). split; auto. rewrite E. split.
  - rewrite <- (round_0 radix2 fexp64 ZnearestE). apply round_le; auto with typeclass_instances. apply sqrt_pos.
  - pose proof (sqrt_pos t). eapply near_weaken; [| |apply near_rnd; [| |exact N]]; lra.
Qed.
Lemma fsqrt_near0 x k t X : is_finite x = true -> 0 <= k <= 400 -> 0 <= t <= 1 -> 0 <= B2R x -> 0 <= X -> near k t (B2R x) X ->
  is_finite (fsqrt x) = true /\ 0 <= B2R (fsqrt x) /\ near (k / 2 + 1 + / 100) (2 * sqrt t + eta) (B2R (fsqrt x)) (sqrt X).
Proof.
  intros Fx Hk Ht [Px|Px] HX A; [apply fsqrt_near; auto|]. pose proof (near_sqrt k t (B2R x) X ltac:(lra) ltac:(lra) ltac:(lra) HX A) as N.
  assert (Z : exists s, x = B754_zero s). { destruct x as [s|s| |s m e H]; try discriminate; [eauto|]. exfalso. destruct s; [assert (B2R (B754_finite true m e H) < 0) by (apply F2R_lt_0; reflexivity)|assert (0 < B2R (B754_finite false m e H)) by (apply F2R_gt_0; reflexivity)]; lra. }
  destruct Z as (s & ->). change (fsqrt (B754_zero s)) with (B754_zero s : float64). split; auto. change (B2R (B754_zero s : float64)) with 0 in *. split; [lra|].
  rewrite sqrt_0 in N. pose proof (sqrt_pos t). pose proof eta_pos. eapply near_weaken; [| |exact N]; lra.
Qed.

(** integer powers and roots of positive numbers *)
Lemma near_pow3 k x X : 0 <= k <= 300 -> near k 0 x X -> near (3 * k + / 100) 0 (x * x * x) (X * X * X).
Proof.
  intros Hk A. assert (A2 : near (k + k + / 1000) 0 (x * x) (X * X)) by (eapply near_weaken; [apply Rle_refl| |apply (near_mul k k 0); auto; lra]; lra).
  eapply near_weaken; [| |apply (near_mul (k + k + / 1000) k 0 _ _ _ _ ltac:(lra) ltac:(lra) ltac:(lra) A2 A)]; lra.
Qed.

(** ** tighter bounds for the absolute part *)
Lemma near_rnd_t k t x X : 0 <= k <= 1000 -> 0 <= t -> near k t x X -> near (k + 1 + / 1000) (101 / 100 * t + eta) (rnd x) X.
Proof.
  intros Hk Ht A. pose proof (near_abs k t x X Hk A) as B. unfold near in *. pose proof u_pos as Pu. pose proof u_tiny as Su. pose proof (Rabs_pos X) as PX.
  destruct (rnd_err x) as (e & h & He & Hh & ->). replace (x * (1 + e) + h - X) with ((x - X) + x * e + h) by ring.
  eapply Rle_trans; [apply Rabs_triang|]. eapply Rle_trans; [apply Rplus_le_compat_r, Rabs_triang|]. rewrite (Rabs_mult x).
  assert (Rabs x * Rabs e <= (Rabs X * (1 + / 1000000) + t) * u) by (apply Rmult_le_compat; auto; apply Rabs_pos).
  assert (t * u <= t * / 100) by (apply Rmult_le_compat_l; lra). assert (0 <= u * Rabs X) by (apply Rmult_le_pos; lra). lra.
Qed.
Lemma near_mul_t k1 k2 t1 t2 x X y Y : 0 <= k1 <= 1000 -> 0 <= k2 <= 1000 -> 0 <= t1 -> 0 <= t2 ->
  near k1 t1 x X -> near k2 t2 y Y -> near (k1 + k2 + / 1000) (101 / 100 * (Rabs X * t2 + Rabs Y * t1 + t1 * t2)) (x * y) (X * Y).
Proof.
  intros H1 H2 Ht1 Ht2 A B. unfold near in *. rewrite Rabs_mult. pose proof u_pos as Pu. pose proof (Rabs_pos X) as PX. pose proof (Rabs_pos Y) as PY.
  pose proof (ku_small k1 H1) as K1. pose proof (ku_small k2 H2) as K2. pose proof (kk k1 k2 H1 H2) as K.
  replace (x * y - X * Y) with ((x - X) * Y + X * (y - Y) + (x - X) * (y - Y)) by ring.
  eapply Rle_trans; [apply Rabs_triang|]. eapply Rle_trans; [apply Rplus_le_compat_r, Rabs_triang|]. rewrite !Rabs_mult.
  set (a := Rabs (x - X)) in *. set (b := Rabs (y - Y)) in *. assert (Pa : 0 <= a) by apply Rabs_pos. assert (Pb : 0 <= b) by apply Rabs_pos.
  set (p := Rabs X) in *. set (q := Rabs Y) in *.
  assert (X1 : a * q <= (k1 * u * p + t1) * q) by (apply Rmult_le_compat_r; auto).
  assert (X2 : p * b <= p * (k2 * u * q + t2)) by (apply Rmult_le_compat_l; auto).
  assert (X3 : a * b <= (k1 * u * p + t1) * (k2 * u * q + t2)) by (apply Rmult_le_compat; auto).
  assert (PQ : 0 <= p * q) by (apply Rmult_le_pos; auto). assert (PT : 0 <= p * t2) by (apply Rmult_le_pos; auto). assert (QT : 0 <= q * t1) by (apply Rmult_le_pos; auto). assert (TT : 0 <= t1 * t2) by (apply Rmult_le_pos; auto).
  assert (X4 : k1 * u * (k2 * u) * (p * q) <= / 10000 * u * (p * q)) by (apply Rmult_le_compat_r; auto).
  assert (X5 : k1 * u * (p * t2) <= / 1000000 * (p * t2)) by (apply Rmult_le_compat_r; lra).
  assert (X6 : k2 * u * (q * t1) <= / 1000000 * (q * t1)) by (apply Rmult_le_compat_r; lra).
  assert (0 <= u * (p * q)) by (apply Rmult_le_pos; lra). lra.
Qed.
Lemma fmul_near_t x y k1 k2 t1 t2 X Y : is_finite x = true -> is_finite y = true -> 0 <= k1 <= 400 -> 0 <= k2 <= 400 -> 0 <= t1 <= 1 -> 0 <= t2 <= 1 ->
  near k1 t1 (B2R x) X -> near k2 t2 (B2R y) Y -> Rabs X <= bpow radix2 400 -> Rabs Y <= bpow radix2 400 ->
  is_finite (fmul x y) = true /\ near (k1 + k2 + 1 + / 500) (103 / 100 * (Rabs X * t2 + Rabs Y * t1 + t1 * t2) + eta) (B2R (fmul x y)) (X * Y).
Proof.
  intros Fx Fy H1 H2 Ht1 Ht2 A B BX BY. destruct (fmul_val x y Fx Fy) as (F & ->).
  { apply (big_prod k1 k2 t1 t2 _ X _ Y); auto; lra. }
  split; auto. pose proof (Rabs_pos X). pose proof (Rabs_pos Y). assert (0 <= Rabs X * t2) by (apply Rmult_le_pos; lra). assert (0 <= Rabs Y * t1) by (apply Rmult_le_pos; lra). assert (0 <= t1 * t2) by (apply Rmult_le_pos; lra).
  eapply near_weaken; [| |apply near_rnd_t; [| |apply (near_mul_t k1 k2 t1 t2); eauto]]; try lra.
Qed.
Lemma fdiv_near_t x y k1 k2 t X Y : is_finite x = true -> 0 <= k1 <= 400 -> 0 <= k2 <= 400 -> 0 <= t <= 1 ->
  near k1 t (B2R x) X -> near k2 0 (B2R y) Y -> Rabs X <= bpow radix2 400 -> bpow radix2 (-400) <= Rabs Y ->
  is_finite (fdiv x y) = true /\ near (k1 + k2 + 1 + / 50) (103 / 100 * (Rabs (/ Y) * t) + eta) (B2R (fdiv x y)) (X / Y).
Proof.
  intros Fx H1 H2 Ht A B BX BY. destruct (big_quot k1 k2 t (B2R x) X (B2R y) Y) as (Ny & BQ); auto; try lra.
  pose proof (bpow_gt_0 radix2 (-400)) as P4. assert (NY : Y <> 0) by (intros E; rewrite E, Rabs_R0 in BY; lra).
  destruct (fdiv_val x y Fx Ny BQ) as (F & ->). split; auto. pose proof (Rabs_pos (/ Y)). assert (0 <= Rabs (/ Y) * t) by (apply Rmult_le_pos; lra).
  destruct (near_inv k2 (B2R y) Y ltac:(lra) NY B) as (_ & I).
  assert (N : near (k1 + (k2 + / 1000) + / 1000) (101 / 100 * (Rabs X * 0 + Rabs (/ Y) * t + t * 0)) (B2R x * / B2R y) (X * / Y)) by (apply near_mul_t; auto; lra).
  unfold Rdiv. eapply near_weaken; [| |apply near_rnd_t; [| |exact N]]; try lra.
Qed.
Lemma fadd_near_t x y k1 k2 t1 t2 X Y : is_finite x = true -> is_finite y = true -> 0 <= k1 <= 400 -> 0 <= k2 <= 400 -> 0 <= t1 <= 1 -> 0 <= t2 <= 1 ->
  near k1 t1 (B2R x) X -> near k2 t2 (B2R y) Y -> Rabs X <= bpow radix2 900 -> Rabs Y <= bpow radix2 900 ->
  is_finite (fadd x y) = true /\ Rabs (B2R (fadd x y) - (X + Y)) <= (k1 + / 1000) * u * Rabs X + (k2 + / 1000) * u * Rabs Y + 101 / 100 * (t1 + t2) + u * Rabs (X + Y).
Proof.
  intros Fx Fy H1 H2 Ht1 Ht2 A B BX BY. pose proof u_pos as Pu. pose proof u_tiny as Su.
  destruct (fadd_near x y k1 k2 t1 t2 X Y) as (F & _); auto. split; auto.
  assert (E : B2R (fadd x y) = rnd (B2R x + B2R y)).
  { pose proof (near_abs k1 t1 _ _ ltac:(lra) A) as A'. pose proof (near_abs k2 t2 _ _ ltac:(lra) B) as B'.
    assert (P : 1 <= bpow radix2 900). { change 1 with (bpow radix2 0). apply bpow_le; lia. }
    destruct (fadd_val x y Fx Fy) as (_ & E); auto.
    eapply Rle_trans; [apply Rabs_triang|]. apply Rle_trans with (bpow radix2 903); [|apply bpow_le; lia].
    change 903%Z with (3 + 900)%Z. rewrite bpow_plus. change (bpow radix2 3) with 8. lra. }
  rewrite E. destruct (rnd_add_err (B2R x) (B2R y)) as (e & He & ->); [apply format64|apply format64|].
  pose proof (near_plus _ _ _ _ _ _ _ _ A B) as S.
  set (w := B2R x + B2R y) in *. replace (w * (1 + e) - (X + Y)) with ((w - (X + Y)) * (1 + e) + (X + Y) * e) by ring.
  eapply Rle_trans; [apply Rabs_triang|]. rewrite !Rabs_mult. pose proof (Rabs_pos X) as PX. pose proof (Rabs_pos Y) as PY.
  assert (E1 : Rabs (1 + e) <= 1 + u). { eapply Rle_trans; [apply Rabs_triang|]. rewrite Rabs_R1. lra. }
  assert (S1 : Rabs (w - (X + Y)) * Rabs (1 + e) <= (k1 * u * Rabs X + k2 * u * Rabs Y + (t1 + t2)) * (1 + u)) by (apply Rmult_le_compat; auto; apply Rabs_pos).
  assert (S2 : Rabs (X + Y) * Rabs e <= Rabs (X + Y) * u) by (apply Rmult_le_compat_l; auto; apply Rabs_pos).
  pose proof (kk k1 1 ltac:(lra) ltac:(lra)) as K1. pose proof (kk k2 1 ltac:(lra) ltac:(lra)) as K2. rewrite Rmult_1_l in K1, K2.
  assert (k1 * u * u * Rabs X <= / 10000 * u * Rabs X) by (apply Rmult_le_compat_r; lra).
  assert (k2 * u * u * Rabs Y <= / 10000 * u * Rabs Y) by (apply Rmult_le_compat_r; lra).
  assert (0 <= u * Rabs X) by (apply Rmult_le_pos; lra). assert (0 <= u * Rabs Y) by (apply Rmult_le_pos; lra).
  assert ((t1 + t2) * u <= (t1 + t2) * / 100) by (apply Rmult_le_compat_l; lra). lra.
Qed.
Lemma fsub_is_add x y : is_finite x = true -> is_finite y = true -> Rabs (B2R x - B2R y) <= bpow radix2 1023 -> B2R (fsub x y) = B2R (fadd x (fneg y)) /\ is_finite (fsub x y) = true.
Proof.
  intros Fx Fy B. destruct (fsub_val x y Fx Fy B) as (F & E). split; auto. destruct (fadd_val x (fneg y)) as (_ & G); auto.
  - unfold fneg. rewrite is_finite_Bopp. auto.
  - unfold fneg. rewrite B2R_Bopp. exact B.
  - rewrite E, G. unfold fneg. rewrite B2R_Bopp. reflexivity.
Qed.
Lemma fsub_near_t x y k1 k2 t1 t2 X Y : is_finite x = true -> is_finite y = true -> 0 <= k1 <= 400 -> 0 <= k2 <= 400 -> 0 <= t1 <= 1 -> 0 <= t2 <= 1 ->
  near k1 t1 (B2R x) X -> near k2 t2 (B2R y) Y -> Rabs X <= bpow radix2 900 -> Rabs Y <= bpow radix2 900 ->
  is_finite (fsub x y) = true /\ Rabs (B2R (fsub x y) - (X - Y)) <= (k1 + / 1000) * u * Rabs X + (k2 + / 1000) * u * Rabs Y + 101 / 100 * (t1 + t2) + u * Rabs (X - Y).
Proof.
  intros Fx Fy H1 H2 Ht1 Ht2 A B BX BY.
  assert (P : 1 <= bpow radix2 900). { change 1 with (bpow radix2 0). apply bpow_le; lia. }
  destruct (fsub_is_add x y Fx Fy) as (E & F).
  { pose proof (near_abs k1 t1 _ _ ltac:(lra) A) as A'. pose proof (near_abs k2 t2 _ _ ltac:(lra) B) as B'.
    unfold Rminus. eapply Rle_trans; [apply Rabs_triang|]. rewrite Rabs_Ropp. apply Rle_trans with (bpow radix2 903); [|apply bpow_le; lia].
    change 903%Z with (3 + 900)%Z. rewrite bpow_plus. change (bpow radix2 3) with 8. lra. }
  split; auto. rewrite E. destruct (fadd_near_t x (fneg y) k1 k2 t1 t2 X (- Y)) as (_ & N); auto.
  - unfold fneg. rewrite is_finite_Bopp. auto.
  - unfold fneg. rewrite B2R_Bopp. apply near_opp; auto.
  - rewrite Rabs_Ropp; auto.
  - rewrite Rabs_Ropp in N. exact N.
Qed.

(** ** signs *)
Lemma overflow_not_finite (x : float64) b : B2SF x = binary_overflow 53 1024 mode_NE b -> is_finite x = false.
Proof. unfold binary_overflow, overflow_to_inf. cbn. destruct x; cbn; congruence. Qed.
Lemma fmul_fin x y : is_finite (fmul x y) = true -> is_finite x = true -> is_finite y = true -> B2R (fmul x y) = rnd (B2R x * B2R y).
Proof.
  intros F Fx Fy. pose proof (Bmult_correct 53 1024 prec64 emax64 mode_NE x y) as C. fold (fmul x y) in C. cbn [round_mode] in C. change (SpecFloat.fexp 53 1024) with fexp64 in C.
  destruct (Rlt_bool _ _); [apply C|]. apply overflow_not_finite in C. congruence.
Qed.
Lemma fdiv_fin x y : is_finite (fdiv x y) = true -> B2R y <> 0 -> B2R (fdiv x y) = rnd (B2R x / B2R y).
Proof.
  intros F Ny. pose proof (Bdiv_correct 53 1024 prec64 emax64 mode_NE x y Ny) as C. fold (fdiv x y) in C. cbn [round_mode] in C. change (SpecFloat.fexp 53 1024) with fexp64 in C.
  destruct (Rlt_bool _ _); [apply C|]. apply overflow_not_finite in C. congruence.
Qed.
Lemma fadd_fin x y : is_finite (fadd x y) = true -> is_finite x = true -> is_finite y = true -> B2R (fadd x y) = rnd (B2R x + B2R y).
Proof.
  intros F Fx Fy. pose proof (Bplus_correct 53 1024 prec64 emax64 mode_NE x y Fx Fy) as C. fold (fadd x y) in C. cbn [round_mode] in C. change (SpecFloat.fexp 53 1024) with fexp64 in C.
  destruct (Rlt_bool _ _); [apply C|]. destruct C as (C & _). apply overflow_not_finite in C. congruence.
Qed.
Lemma rnd_nonneg x : 0 <= x -> 0 <= rnd x.
Proof. intros H. rewrite <- (round_0 radix2 fexp64 ZnearestE). apply round_le; auto with typeclass_instances. Qed.
Lemma fmul_nonneg x y : is_finite (fmul x y) = true -> is_finite x = true -> is_finite y = true -> 0 <= B2R x -> 0 <= B2R y -> 0 <= B2R (fmul x y).
Proof. intros F Fx Fy Hx Hy. rewrite fmul_fin; auto. apply rnd_nonneg, Rmult_le_pos; auto. Qed.
Lemma fdiv_nonneg x y : is_finite (fdiv x y) = true -> 0 < B2R y -> 0 <= B2R x -> 0 <= B2R (fdiv x y).
Proof. intros F Hy Hx. rewrite fdiv_fin by (auto; lra). apply rnd_nonneg, Rmult_le_pos; auto. apply Rlt_le, Rinv_0_lt_compat; auto. Qed.
Lemma fadd_nonneg x y : is_finite (fadd x y) = true -> is_finite x = true -> is_finite y = true -> 0 <= B2R x -> 0 <= B2R y -> 0 <= B2R (fadd x y).
Proof. intros F Fx Fy Hx Hy. rewrite fadd_fin; auto. apply rnd_nonneg. lra. Qed.
Lemma fmul_sq_nonneg x : is_finite (fmul x x) = true -> is_finite x = true -> 0 <= B2R (fmul x x).
Proof. intros F Fx. rewrite fmul_fin; auto. apply rnd_nonneg. nra. Qed.
