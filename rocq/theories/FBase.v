(** * binary64 arithmetic: values, error bounds and absence of overflow (lemmas for the files F*.v)

    [float64], [fadd], [fmul], [fdiv], [fsqrt] are those of [FTiny] (IEEE binary64, round to nearest even). *)
From Coq Require Import ZArith Reals Lia Lra Bool Psatz.
From Flocq Require Import Core BinarySingleNaN Relative Plus_error.
From Verif Require Import FTiny.
Local Open Scope R_scope.

(** numpy's binary64 subtraction: the - of core.py, util.py and objects.py *)
Definition fsub (x y : float64) : float64 := Bminus (prec_gt_0_ := prec64) (prec_lt_emax_ := emax64) mode_NE x y.
(** numpy's binary64 negation, e.g. core.py 71 *)
Definition fneg (x : float64) : float64 := Bopp x.
(** np.abs on one binary64 number, e.g. objects.py 985 *)
Definition fabs (x : float64) : float64 := Babs x.

Notation rnd := (round radix2 fexp64 ZnearestE).
Notation F64 := (generic_format radix2 fexp64).
Global Instance vexp64 : Valid_exp fexp64 := FLT_exp_valid (-1074) 53 (prec_gt_0_ := prec64).
Global Instance mexp64 : Monotone_exp fexp64 := FLT_exp_monotone (-1074) 53.

(** the unit roundoff 2^-53 *)
Definition u : R := bpow radix2 (-53).
(** half the smallest subnormal, 2^-1075 *)
Definition eta : R := bpow radix2 (-1075).
Lemma u_pos : 0 < u. Proof. apply bpow_gt_0. Qed.
Lemma u_small : u <= / 1000000000.
Proof. unfold u. replace (bpow radix2 (-53)) with (/ IZR (2 ^ 53)) by reflexivity. apply Rinv_le; [lra|]. apply IZR_le. lia. Qed.
Lemma eta_pos : 0 < eta. Proof. apply bpow_gt_0. Qed.

Lemma format64 (x : float64) : F64 (B2R x).
Proof. exact (generic_format_B2R 53 1024 x). Qed.

Lemma rnd_abs_le r e : (-1074 <= e)%Z -> Rabs r <= bpow radix2 e -> Rabs (rnd r) <= bpow radix2 e.
Proof.
  intros He H. apply abs_round_le_generic; auto with typeclass_instances.
  apply generic_format_bpow. unfold fexp64, FLT_exp. lia.
Qed.
Lemma no_overflow r : Rabs r <= bpow radix2 1023 -> Rabs (rnd r) < bpow radix2 1024.
Proof. intros H. apply Rle_lt_trans with (bpow radix2 1023); [apply rnd_abs_le; auto; lia|apply bpow_lt; lia]. Qed.

Lemma fmul_val x y : is_finite x = true -> is_finite y = true -> Rabs (B2R x * B2R y) <= bpow radix2 1023 ->
  is_finite (fmul x y) = true /\ B2R (fmul x y) = rnd (B2R x * B2R y).
Proof.
  intros Fx Fy H. pose proof (Bmult_correct 53 1024 prec64 emax64 mode_NE x y) as C. fold (fmul x y) in C.
  cbn [round_mode] in C. change (SpecFloat.fexp 53 1024) with fexp64 in C.
  rewrite Rlt_bool_true in C by (apply no_overflow; auto). destruct C as (B & F & _). rewrite Fx, Fy in F. auto.
Qed.
Lemma fadd_val x y : is_finite x = true -> is_finite y = true -> Rabs (B2R x + B2R y) <= bpow radix2 1023 ->
  is_finite (fadd x y) = true /\ B2R (fadd x y) = rnd (B2R x + B2R y).
Proof.
  intros Fx Fy H. pose proof (Bplus_correct 53 1024 prec64 emax64 mode_NE x y Fx Fy) as C. fold (fadd x y) in C.
  cbn [round_mode] in C. change (SpecFloat.fexp 53 1024) with fexp64 in C.
  rewrite Rlt_bool_true in C by (apply no_overflow; auto). destruct C as (B & F & _). auto.
Qed.
Lemma fsub_val x y : is_finite x = true -> is_finite y = true -> Rabs (B2R x - B2R y) <= bpow radix2 1023 ->
  is_finite (fsub x y) = true /\ B2R (fsub x y) = rnd (B2R x - B2R y).
Proof.
  intros Fx Fy H. pose proof (Bminus_correct 53 1024 prec64 emax64 mode_NE x y Fx Fy) as C. fold (fsub x y) in C.
  cbn [round_mode] in C. change (SpecFloat.fexp 53 1024) with fexp64 in C.
  rewrite Rlt_bool_true in C by (apply no_overflow; auto). destruct C as (B & F & _). auto.
Qed.
Lemma fdiv_val x y : is_finite x = true -> B2R y <> 0 -> Rabs (B2R x / B2R y) <= bpow radix2 1023 ->
  is_finite (fdiv x y) = true /\ B2R (fdiv x y) = rnd (B2R x / B2R y).
Proof.
  intros Fx Ny H. pose proof (Bdiv_correct 53 1024 prec64 emax64 mode_NE x y Ny) as C. fold (fdiv x y) in C.
  cbn [round_mode] in C. change (SpecFloat.fexp 53 1024) with fexp64 in C.
  rewrite Rlt_bool_true in C by (apply no_overflow; auto). destruct C as (B & F & _). rewrite Fx in F. auto.
Qed.
Lemma fsqrt_val x : is_finite x = true -> 0 < B2R x ->
  is_finite (fsqrt x) = true /\ B2R (fsqrt x) = rnd (sqrt (B2R x)).
Proof.
  intros Fx Px. pose proof (Bsqrt_correct 53 1024 prec64 emax64 mode_NE x) as (B & F & _). fold (fsqrt x) in B, F.
  cbn [round_mode] in B. change (SpecFloat.fexp 53 1024) with fexp64 in B. split; auto.
  rewrite F. destruct x as [b|b| |[|] m e H]; try discriminate; auto.
  exfalso. assert (X : B2R (B754_finite true m e H) < 0) by (apply F2R_lt_0; reflexivity). lra.
Qed.

(** rounding errors *)
Lemma half_u : / 2 * bpow radix2 (Z.opp 53 + 1) = u.
Proof. unfold u. change (/ 2) with (bpow radix2 (-1)). rewrite <- bpow_plus. reflexivity. Qed.
Lemma half_eta : / 2 * bpow radix2 (-1074) = eta.
Proof. unfold eta. change (/ 2) with (bpow radix2 (-1)). rewrite <- bpow_plus. reflexivity. Qed.
Lemma rnd_err r : exists e h, Rabs e <= u /\ Rabs h <= eta /\ rnd r = r * (1 + e) + h.
Proof.
  destruct (error_N_FLT radix2 (-1074) 53 ltac:(lia) (fun n => negb (Z.even n)) r) as (e & h & He & Hh & _ & E).
  rewrite half_u in He. rewrite half_eta in Hh. exists e, h. auto.
Qed.
Lemma rnd_err_normal r : bpow radix2 (-1022) <= Rabs r -> exists e, Rabs e <= u /\ rnd r = r * (1 + e).
Proof.
  intros H. destruct (relative_error_N_FLT_ex radix2 (-1074) 53 prec64 (fun n => negb (Z.even n)) r H) as (e & He & E).
  rewrite half_u in He. exists e. auto.
Qed.
Lemma u_ro_u : u_ro radix2 53 = u.
Proof. unfold u_ro. apply half_u. Qed.
Lemma rnd_add_err x y : F64 x -> F64 y -> exists e, Rabs e <= u /\ rnd (x + y) = (x + y) * (1 + e).
Proof.
  intros Fx Fy. destruct (FLT_plus_error_N_ex radix2 (-1074) 53 (prec_gt_0_ := prec64) (fun n => negb (Z.even n)) x y Fx Fy) as (e & He & E).
  rewrite u_ro_u in He. pose proof u_pos. exists e. split; auto. eapply Rle_trans; [apply He|].
  apply Rmult_le_reg_r with (1 + u); [lra|]. unfold Rdiv. rewrite Rmult_assoc, Rinv_l, Rmult_1_r by lra. nra.
Qed.

(** [x] is [X] up to a relative error [a] *)
Definition rel (a x X : R) : Prop := Rabs (x - X) <= a * Rabs X.

Lemma rel_weaken a b x X : a <= b -> rel a x X -> rel b x X.
Proof. intros H R. unfold rel in *. pose proof (Rabs_pos X). nra. Qed.
Lemma rel_step a e x X : 0 <= a -> rel a x X -> Rabs e <= u -> rel (a + u + a * u) (x * (1 + e)) X.
Proof.
  intros Ha R He. unfold rel in *. replace (x * (1 + e) - X) with ((x - X) * (1 + e) + X * e) by ring.
  eapply Rle_trans; [apply Rabs_triang|]. rewrite !Rabs_mult. pose proof (Rabs_pos X). pose proof (Rabs_pos (x - X)).
  assert (Rabs (1 + e) <= 1 + u). { eapply Rle_trans; [apply Rabs_triang|]. rewrite Rabs_R1. lra. }
  assert (Rabs (x - X) * Rabs (1 + e) <= a * Rabs X * (1 + u)) by (apply Rmult_le_compat; try apply Rabs_pos; auto).
  assert (Rabs X * Rabs e <= Rabs X * u) by (apply Rmult_le_compat_l; auto). nra.
Qed.
Lemma rel_sqrt a x X : 0 <= a <= 1 / 2 -> 0 < X -> rel a x X -> rel (a / (2 - a)) (sqrt x) (sqrt X).
Proof.
  intros Ha PX R. unfold rel in *. rewrite (Rabs_right X) in R by lra.
  assert (Bx : X * (1 - a) <= x <= X * (1 + a)). { apply Rabs_le_inv in R. lra. }
  assert (Px : 0 < x) by nra. pose proof (sqrt_lt_R0 _ PX) as SX. pose proof (sqrt_lt_R0 _ Px) as Sx.
  rewrite (Rabs_right (sqrt X)) by lra.
  pose proof (sqrt_sqrt X ltac:(lra)) as QX. pose proof (sqrt_sqrt x ltac:(lra)) as Qx.
  assert (L : (1 - a) * sqrt X <= sqrt x).
  { apply Rsqr_incr_0_var; [|lra]. unfold Rsqr. nra. }
  assert (E : x - X = (sqrt x - sqrt X) * (sqrt x + sqrt X)) by nra.
  rewrite E, Rabs_mult, (Rabs_right (sqrt x + sqrt X)) in R by lra.
  apply Rmult_le_reg_r with (sqrt x + sqrt X); [lra|].
  eapply Rle_trans; [apply R|].
  replace (a / (2 - a) * sqrt X * (sqrt x + sqrt X)) with (a * (sqrt X * (sqrt x + sqrt X) / (2 - a))) by (field; lra).
  apply Rmult_le_compat_l; [lra|]. apply Rmult_le_reg_r with (2 - a); [lra|].
  unfold Rdiv. rewrite Rmult_assoc, Rinv_l, Rmult_1_r by lra. nra.
Qed.
Lemma rel_div a x n N : 0 <= a <= 1 / 2 -> 0 < N -> rel a n N -> rel (a / (1 - a)) (x / n) (x / N).
Proof.
  intros Ha PN R. unfold rel in *. rewrite (Rabs_right N) in R by lra.
  assert (Bn : N * (1 - a) <= n <= N * (1 + a)). { apply Rabs_le_inv in R. lra. }
  assert (Pn : 0 < n) by nra.
  replace (x / n - x / N) with ((x / N) * ((N - n) / n)) by (field; lra).
  rewrite Rabs_mult, (Rmult_comm (a / (1 - a))). apply Rmult_le_compat_l; [apply Rabs_pos|].
  unfold Rdiv. rewrite Rabs_mult, (Rabs_right (/ n)) by (left; apply Rinv_0_lt_compat; auto).
  apply Rmult_le_reg_r with n; auto. rewrite Rmult_assoc, Rinv_l, Rmult_1_r by lra.
  rewrite Rabs_minus_sym. eapply Rle_trans; [apply R|].
  replace (a * / (1 - a) * n) with (a * (n * / (1 - a))) by ring. apply Rmult_le_compat_l; [lra|].
  apply Rmult_le_reg_r with (1 - a); [lra|]. rewrite Rmult_assoc, Rinv_l, Rmult_1_r by lra. lra.
Qed.
