(** * A small calculus of rounding errors: relative part k*u and absolute part t *)
From Coq Require Import ZArith Reals Lia Lra Bool Psatz.
From Flocq Require Import Core BinarySingleNaN.
From Verif Require Import FTiny FBase.
Local Open Scope R_scope.

Definition near (k t x X : R) : Prop := Rabs (x - X) <= k * u * Rabs X + t.

Lemma near_exact x : near 0 0 x x.
Proof. unfold near. rewrite Rminus_diag_eq, Rabs_R0 by auto. lra. Qed.
Lemma near_weaken k k' t t' x X : k <= k' -> t <= t' -> near k t x X -> near k' t' x X.
Proof. unfold near. intros Hk Ht H. pose proof u_pos. pose proof (Rabs_pos X). assert (k * (u * Rabs X) <= k' * (u * Rabs X)) by (apply Rmult_le_compat_r; [apply Rmult_le_pos; lra|auto]). lra. Qed.
Lemma near_opp k t x X : near k t x X -> near k t (- x) (- X).
Proof. unfold near. intros H. replace (- x - - X) with (- (x - X)) by ring. rewrite !Rabs_Ropp. auto. Qed.
Lemma u_tiny : u <= / 1000000000000000.
Proof. unfold u; cbn; lra. Qed.
Lemma ku_small k : 0 <= k <= 1000 -> 0 <= k * u <= / 1000000.
Proof. intros H. pose proof u_pos. pose proof u_tiny. split; [apply Rmult_le_pos; lra|]. assert (k * u <= 1000 * / 1000000000000000) by (apply Rmult_le_compat; lra). lra. Qed.
Lemma near_abs k t x X : 0 <= k <= 1000 -> near k t x X -> Rabs x <= Rabs X * (1 + / 1000000) + t.
Proof.
  intros Hk H. unfold near in H. pose proof (ku_small k Hk). pose proof (Rabs_pos X).
  replace x with ((x - X) + X) by ring. eapply Rle_trans; [apply Rabs_triang|].
  assert (k * u * Rabs X <= / 1000000 * Rabs X) by (apply Rmult_le_compat_r; lra). lra.
Qed.
Lemma kk k1 k2 : 0 <= k1 <= 1000 -> 0 <= k2 <= 1000 -> k1 * u * (k2 * u) <= / 10000 * u.
Proof.
  intros H1 H2. pose proof u_pos. pose proof u_tiny. assert (k1 * k2 <= 1000 * 1000) by (apply Rmult_le_compat; lra).
  assert (0 <= k1 * k2) by (apply Rmult_le_pos; lra). assert (k1 * k2 * u <= 1000 * 1000 * / 1000000000000000) by (apply Rmult_le_compat; lra).
  replace (k1 * u * (k2 * u)) with (k1 * k2 * u * u) by ring. apply Rmult_le_compat_r; lra.
Qed.

(** products of two factors of which one has a purely relative error *)
Lemma near_mul k1 k2 t x X y Y : 0 <= k1 <= 1000 -> 0 <= k2 <= 1000 -> 0 <= t ->
  near k1 0 x X -> near k2 t y Y -> near (k1 + k2 + / 1000) (2 * Rabs X * t) (x * y) (X * Y).
Proof.
  intros H1 H2 Ht A B. unfold near in *. rewrite Rabs_mult. pose proof u_pos as Pu. pose proof (Rabs_pos X) as PX. pose proof (Rabs_pos Y) as PY.
  pose proof (ku_small k1 H1) as K1. pose proof (ku_small k2 H2) as K2. pose proof (kk k1 k2 H1 H2) as K.
  replace (x * y - X * Y) with ((x - X) * Y + X * (y - Y) + (x - X) * (y - Y)) by ring.
  eapply Rle_trans; [apply Rabs_triang|]. eapply Rle_trans; [apply Rplus_le_compat_r, Rabs_triang|]. rewrite !Rabs_mult.
  rewrite Rplus_0_r in A. set (a := Rabs (x - X)) in *. set (b := Rabs (y - Y)) in *. assert (Pa : 0 <= a) by apply Rabs_pos. assert (Pb : 0 <= b) by apply Rabs_pos.
  set (p := Rabs X) in *. set (q := Rabs Y) in *.
  assert (X1 : a * q <= k1 * u * p * q) by (apply Rmult_le_compat_r; auto).
  assert (X2 : p * b <= p * (k2 * u * q + t)) by (apply Rmult_le_compat_l; auto).
  assert (X3 : a * b <= k1 * u * p * (k2 * u * q + t)) by (apply Rmult_le_compat; auto).
  assert (PQ : 0 <= p * q) by (apply Rmult_le_pos; auto). assert (PT : 0 <= p * t) by (apply Rmult_le_pos; auto).
  assert (X4 : k1 * u * (k2 * u) * (p * q) <= / 10000 * u * (p * q)) by (apply Rmult_le_compat_r; auto).
  assert (X5 : k1 * u * (p * t) <= / 1000000 * (p * t)) by (apply Rmult_le_compat_r; lra).
  assert (0 <= u * (p * q)) by (apply Rmult_le_pos; lra). lra.
Qed.
Lemma near_inv k x X : 0 <= k <= 1000 -> X <> 0 -> near k 0 x X -> x <> 0 /\ near (k + / 1000) 0 (/ x) (/ X).
Proof.
  intros Hk NX A. unfold near in *. rewrite Rplus_0_r in *. pose proof u_pos as Pu. pose proof (ku_small k Hk) as K. pose proof (kk k k Hk Hk) as KK.
  assert (PX : 0 < Rabs X) by (apply Rabs_pos_lt; auto).
  assert (Nx : (1 - k * u) * Rabs X <= Rabs x).
  { pose proof (Rabs_triang_inv X (X - x)) as T. replace (X - (X - x)) with x in T by ring. rewrite (Rabs_minus_sym X x) in T. lra. }
  assert (Px : 0 < Rabs x). { eapply Rlt_le_trans; [|exact Nx]. apply Rmult_lt_0_compat; lra. }
  assert (x <> 0). { intros E. rewrite E, Rabs_R0 in Px. lra. } split; auto.
  replace (/ x - / X) with ((X - x) * / (x * X)) by (field; auto). rewrite Rabs_mult, Rabs_inv, Rabs_mult, Rabs_inv.
  rewrite Rabs_minus_sym. apply (Rmult_le_reg_r (Rabs x * Rabs X)); [apply Rmult_lt_0_compat; auto|].
  rewrite Rmult_assoc, Rinv_l, Rmult_1_r by (apply Rgt_not_eq, Rmult_lt_0_compat; auto).
  replace ((k + / 1000) * u * / Rabs X * (Rabs x * Rabs X)) with ((k + / 1000) * u * Rabs x) by (field; lra).
  eapply Rle_trans; [exact A|]. apply Rle_trans with ((k + / 1000) * u * ((1 - k * u) * Rabs X)); [|apply Rmult_le_compat_l; [|exact Nx]].
  - assert (k * u <= (k + / 1000) * u * (1 - k * u)); [|nra].
    replace ((k + / 1000) * u * (1 - k * u)) with (k * u + / 1000 * u - k * u * (k * u) - u * (k * u) * / 1000) by ring.
    assert (u * (k * u) <= u * / 1000000) by (apply Rmult_le_compat_l; lra). lra.
  - apply Rmult_le_pos; lra.
Qed.
Lemma near_div k1 k2 t x X y Y : 0 <= k1 <= 1000 -> 0 <= k2 <= 999 -> 0 <= t -> Y <> 0 ->
  near k1 t x X -> near k2 0 y Y -> y <> 0 /\ near (k1 + k2 + / 100) (2 * Rabs (/ Y) * t) (x / y) (X / Y).
Proof.
  intros H1 H2 Ht NY A B. destruct (near_inv k2 y Y ltac:(lra) NY B) as (Ny & I). split; auto.
  unfold Rdiv. rewrite (Rmult_comm x), (Rmult_comm X). eapply near_weaken; [| |apply (near_mul (k2 + / 1000) k1 t); auto; lra]; lra.
Qed.
(** rounding *)
Lemma near_rnd k t x X : 0 <= k <= 1000 -> 0 <= t -> near k t x X -> near (k + 1 + / 1000) (2 * t + eta) (rnd x) X.
Proof.
  intros Hk Ht A. pose proof (near_abs k t x X Hk A) as B. unfold near in *. pose proof u_pos as Pu. pose proof u_tiny as Su. pose proof (Rabs_pos X) as PX.
  destruct (rnd_err x) as (e & h & He & Hh & ->). replace (x * (1 + e) + h - X) with ((x - X) + x * e + h) by ring.
  eapply Rle_trans; [apply Rabs_triang|]. eapply Rle_trans; [apply Rplus_le_compat_r, Rabs_triang|]. rewrite (Rabs_mult x).
  assert (Rabs x * Rabs e <= (Rabs X * (1 + / 1000000) + t) * u) by (apply Rmult_le_compat; auto; apply Rabs_pos).
  assert (t * u <= t * 1) by (apply Rmult_le_compat_l; lra). assert (0 <= u * Rabs X) by (apply Rmult_le_pos; lra). lra.
Qed.
(** rounding of a number in the normal range *)
Lemma near_rnd_normal k x X : 0 <= k <= 1000 -> bpow radix2 (-1000) <= Rabs X -> near k 0 x X -> near (k + 1 + / 1000) 0 (rnd x) X.
Proof.
  intros Hk NX A. pose proof (near_abs k 0 x X Hk A) as B. unfold near in *. pose proof u_pos as Pu. pose proof u_tiny as Su. pose proof (bpow_gt_0 radix2 (-1000)) as P. pose proof (ku_small k Hk) as K.
  assert (N : bpow radix2 (-1022) <= Rabs x).
  { assert (L : (1 - k * u) * Rabs X <= Rabs x). { pose proof (Rabs_triang_inv X (X - x)) as T. replace (X - (X - x)) with x in T by ring. rewrite (Rabs_minus_sym X x) in T. lra. }
    eapply Rle_trans; [|exact L]. apply Rle_trans with (/ 2 * bpow radix2 (-1000)); [|apply Rmult_le_compat; lra].
    apply Rle_trans with (bpow radix2 (-1001)); [apply bpow_le; lia|]. change (-1001)%Z with (-1 + -1000)%Z. rewrite bpow_plus. apply Rmult_le_compat_r; [lra|]. cbn. lra. }
  destruct (rnd_err_normal x N) as (e & He & ->). replace (x * (1 + e) - X) with ((x - X) + x * e) by ring.
  eapply Rle_trans; [apply Rabs_triang|]. rewrite (Rabs_mult x).
  assert (Rabs x * Rabs e <= (Rabs X * (1 + / 1000000) + 0) * u) by (apply Rmult_le_compat; auto; apply Rabs_pos).
  assert (0 <= u * Rabs X) by (apply Rmult_le_pos; [lra|apply Rabs_pos]). lra.
Qed.
(** a sum: the errors add up in absolute terms *)
Lemma near_plus k1 k2 t1 t2 x X y Y : near k1 t1 x X -> near k2 t2 y Y -> Rabs (x + y - (X + Y)) <= k1 * u * Rabs X + k2 * u * Rabs Y + (t1 + t2).
Proof. unfold near. intros A B. replace (x + y - (X + Y)) with ((x - X) + (y - Y)) by ring. eapply Rle_trans; [apply Rabs_triang|]. lra. Qed.

(** ** the operations of binary64 *)
Lemma big_prod k1 k2 t1 t2 x X y Y : 0 <= k1 <= 1000 -> 0 <= k2 <= 1000 -> 0 <= t1 <= 1 -> 0 <= t2 <= 1 -> near k1 t1 x X -> near k2 t2 y Y ->
  Rabs X <= bpow radix2 400 -> Rabs Y <= bpow radix2 400 -> Rabs (x * y) <= bpow radix2 1023.
Proof.
  intros H1 H2 Ht1 Ht2 A B BX BY. pose proof (near_abs _ _ _ _ H1 A) as A'. pose proof (near_abs _ _ _ _ H2 B) as B'.
  assert (P : 1 <= bpow radix2 400). { change 1 with (bpow radix2 0). apply bpow_le; lia. }
  rewrite Rabs_mult. apply Rle_trans with (bpow radix2 402 * bpow radix2 402); [|rewrite <- bpow_plus; apply bpow_le; lia].
  assert (E : bpow radix2 402 = 4 * bpow radix2 400). { change 402%Z with (2 + 400)%Z. rewrite bpow_plus. reflexivity. }
  rewrite E. apply Rmult_le_compat; try apply Rabs_pos; lra.
Qed.
Lemma fmul_near x y k1 k2 t X Y : is_finite x = true -> is_finite y = true -> 0 <= k1 <= 400 -> 0 <= k2 <= 400 -> 0 <= t <= 1 ->
  near k1 0 (B2R x) X -> near k2 t (B2R y) Y -> Rabs X <= bpow radix2 400 -> Rabs Y <= bpow radix2 400 ->
  is_finite (fmul x y) = true /\ near (k1 + k2 + 1 + / 500) (4 * Rabs X * t + eta) (B2R (fmul x y)) (X * Y).
Proof.
  intros Fx Fy H1 H2 Ht A B BX BY. destruct (fmul_val x y Fx Fy) as (F & ->).
  { apply (big_prod k1 k2 0 t _ X _ Y); auto; lra. }
  split; auto. pose proof (Rabs_pos X). eapply near_weaken; [| |apply near_rnd; [| |apply (near_mul k1 k2 t); eauto]]; try lra. apply Rmult_le_pos; lra.
Qed.
Lemma fmul_near_n x y k1 k2 X Y : is_finite x = true -> is_finite y = true -> 0 <= k1 <= 400 -> 0 <= k2 <= 400 ->
  near k1 0 (B2R x) X -> near k2 0 (B2R y) Y -> Rabs X <= bpow radix2 400 -> Rabs Y <= bpow radix2 400 -> bpow radix2 (-1000) <= Rabs (X * Y) ->
  is_finite (fmul x y) = true /\ near (k1 + k2 + 1 + / 500) 0 (B2R (fmul x y)) (X * Y).
Proof.
  intros Fx Fy H1 H2 A B BX BY BN. destruct (fmul_val x y Fx Fy) as (F & ->).
  { apply (big_prod k1 k2 0 0 _ X _ Y); auto; lra. }
  split; auto. eapply near_weaken; [|apply Rle_refl|apply near_rnd_normal; auto; [|eapply near_weaken; [apply Rle_refl| |apply (near_mul k1 k2 0); eauto; lra]]]; lra.
Qed.
Lemma big_quot k1 k2 t x X y Y : 0 <= k1 <= 1000 -> 0 <= k2 <= 999 -> 0 <= t <= 1 -> near k1 t x X -> near k2 0 y Y ->
  Rabs X <= bpow radix2 400 -> bpow radix2 (-400) <= Rabs Y -> y <> 0 /\ Rabs (x / y) <= bpow radix2 1023.
Proof.
  intros H1 H2 Ht A B BX BY. pose proof (bpow_gt_0 radix2 (-400)) as P4. assert (NY : Y <> 0) by (intros E; rewrite E, Rabs_R0 in BY; lra).
  destruct (near_inv k2 y Y ltac:(lra) NY B) as (Ny & I). split; auto. unfold Rdiv. apply (big_prod k1 (k2 + / 1000) t 0 _ X _ (/ Y)); auto; try lra.
  rewrite Rabs_inv. change 400%Z with (- -400)%Z. rewrite bpow_opp. apply Rinv_le; lra.
Qed.
Lemma fdiv_near x y k1 k2 t X Y : is_finite x = true -> 0 <= k1 <= 400 -> 0 <= k2 <= 400 -> 0 <= t <= 1 ->
  near k1 t (B2R x) X -> near k2 0 (B2R y) Y -> Rabs X <= bpow radix2 400 -> bpow radix2 (-400) <= Rabs Y ->
  is_finite (fdiv x y) = true /\ near (k1 + k2 + 1 + / 50) (4 * Rabs (/ Y) * t + eta) (B2R (fdiv x y)) (X / Y).
Proof.
  intros Fx H1 H2 Ht A B BX BY. destruct (big_quot k1 k2 t (B2R x) X (B2R y) Y) as (Ny & BQ); auto; try lra.
  pose proof (bpow_gt_0 radix2 (-400)) as P4. assert (NY : Y <> 0) by (intros E; rewrite E, Rabs_R0 in BY; lra).
  destruct (fdiv_val x y Fx Ny BQ) as (F & ->). split; auto. pose proof (Rabs_pos (/ Y)).
  eapply near_weaken; [| |apply near_rnd; [| |apply (near_div k1 k2 t); eauto]]; try lra. apply Rmult_le_pos; lra.
Qed.
Lemma fdiv_near_n x y k1 k2 X Y : is_finite x = true -> 0 <= k1 <= 400 -> 0 <= k2 <= 400 ->
  near k1 0 (B2R x) X -> near k2 0 (B2R y) Y -> Rabs X <= bpow radix2 400 -> bpow radix2 (-400) <= Rabs Y -> bpow radix2 (-1000) <= Rabs (X / Y) ->
  is_finite (fdiv x y) = true /\ near (k1 + k2 + 1 + / 50) 0 (B2R (fdiv x y)) (X / Y).
Proof.
  intros Fx H1 H2 A B BX BY BN. destruct (big_quot k1 k2 0 (B2R x) X (B2R y) Y) as (Ny & BQ); auto; try lra.
  pose proof (bpow_gt_0 radix2 (-400)) as P4. assert (NY : Y <> 0) by (intros E; rewrite E, Rabs_R0 in BY; lra).
  destruct (fdiv_val x y Fx Ny BQ) as (F & ->). split; auto.
  eapply near_weaken; [|apply Rle_refl|apply near_rnd_normal; auto; [|eapply near_weaken; [apply Rle_refl| |apply (near_div k1 k2 0); eauto; lra]]]; lra.
Qed.
(** difference of two doubles: no error but the relative one *)
Lemma fsub_near x y k1 k2 t1 t2 X Y : is_finite x = true -> is_finite y = true -> 0 <= k1 <= 400 -> 0 <= k2 <= 400 -> 0 <= t1 <= 1 -> 0 <= t2 <= 1 ->
  near k1 t1 (B2R x) X -> near k2 t2 (B2R y) Y -> Rabs X <= bpow radix2 900 -> Rabs Y <= bpow radix2 900 ->
  is_finite (fsub x y) = true /\ Rabs (B2R (fsub x y) - (X - Y)) <= (k1 + 1 + / 1000) * u * Rabs X + (k2 + 1 + / 1000) * u * Rabs Y + 2 * (t1 + t2).
Proof.
  intros Fx Fy H1 H2 Ht1 Ht2 A B BX BY. pose proof u_pos as Pu. pose proof u_tiny as Su.
  pose proof (near_abs k1 t1 _ _ ltac:(lra) A) as A'. pose proof (near_abs k2 t2 _ _ ltac:(lra) B) as B'.
  assert (P : 1 <= bpow radix2 900). { change 1 with (bpow radix2 0). apply bpow_le; lia. }
  destruct (fsub_val x y Fx Fy) as (F & E).
  { unfold Rminus. eapply Rle_trans; [apply Rabs_triang|]. rewrite Rabs_Ropp. apply Rle_trans with (bpow radix2 903); [|apply bpow_le; lia].
    change 903%Z with (3 + 900)%Z. rewrite bpow_plus. change (bpow radix2 3) with 8. lra. }
  split; auto. rewrite E. unfold Rminus at 2. destruct (rnd_add_err (B2R x) (- B2R y)) as (e & He & ->); [apply format64|apply generic_format_opp, format64|].
  pose proof (near_plus _ _ _ _ _ _ _ _ A (near_opp _ _ _ _ B)) as S. rewrite Rabs_Ropp in S.
  set (w := B2R x + - B2R y) in *. replace (w * (1 + e) - (X - Y)) with ((w - (X + - Y)) * (1 + e) + (X + - Y) * e) by ring.
  eapply Rle_trans; [apply Rabs_triang|]. rewrite !Rabs_mult. pose proof (Rabs_pos X) as PX. pose proof (Rabs_pos Y) as PY.
  assert (E1 : Rabs (1 + e) <= 1 + u). { eapply Rle_trans; [apply Rabs_triang|]. rewrite Rabs_R1. lra. }
  assert (S1 : Rabs (w - (X + - Y)) * Rabs (1 + e) <= (k1 * u * Rabs X + k2 * u * Rabs Y + (t1 + t2)) * (1 + u)) by (apply Rmult_le_compat; auto; apply Rabs_pos).
  assert (XY : Rabs (X + - Y) <= Rabs X + Rabs Y). { eapply Rle_trans; [apply Rabs_triang|]. rewrite Rabs_Ropp. lra. }
  assert (S2 : Rabs (X + - Y) * Rabs e <= (Rabs X + Rabs Y) * u) by (apply Rmult_le_compat; auto; apply Rabs_pos).
  pose proof (kk k1 1 ltac:(lra) ltac:(lra)) as K1. pose proof (kk k2 1 ltac:(lra) ltac:(lra)) as K2. rewrite Rmult_1_l in K1, K2.
  assert (k1 * u * u * Rabs X <= / 10000 * u * Rabs X) by (apply Rmult_le_compat_r; lra).
  assert (k2 * u * u * Rabs Y <= / 10000 * u * Rabs Y) by (apply Rmult_le_compat_r; lra).
  assert (0 <= u * Rabs X) by (apply Rmult_le_pos; lra). assert (0 <= u * Rabs Y) by (apply Rmult_le_pos; lra).
  assert ((t1 + t2) * u <= (t1 + t2) * 1) by (apply Rmult_le_compat_l; lra). lra.
Qed.
