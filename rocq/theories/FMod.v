(** * C80: _base_angle in binary64 (objects.py 84-86) *)
From Coq Require Import ZArith Reals Lia Lra Bool Psatz.
From Flocq Require Import Core BinarySingleNaN Div_sqrt_error.
From Verif Require Import FTiny FBase FPi FAngle.
Local Open Scope R_scope.

(** fmod of the C library: the exact remainder of the division truncated towards 0, with the sign of x.
    (of the special cases only those of finite x and nonzero finite y matter here) *)
Definition ffmod (x y : float64) : float64 :=
  match x, y with
  | B754_finite sx mx ex _, B754_finite sy my ey _ =>
      let e := Z.min ex ey in
      let X := (cond_Zopp sx (Zpos mx) * 2 ^ (ex - e))%Z in
      let Y := (cond_Zopp sy (Zpos my) * 2 ^ (ey - e))%Z in
      binary_normalize 53 1024 prec64 emax64 mode_NE (Z.rem X Y) e sx
  | B754_zero _, B754_finite _ _ _ _ => x
  | B754_zero _, B754_infinity _ => x
  | B754_finite _ _ _ _, B754_infinity _ => x
  | _, _ => B754_nan
  end.

(** np.mod on doubles (npy_math's npy_remainder): the sign is made that of the divisor, with one more rounding *)
Definition fremainder (a b : float64) : float64 :=
  let m := ffmod a b in
  if is_zero_f b then m
  else if is_zero_f m then (if Bsign b then B754_zero true else B754_zero false)
  else if is_nan m then m
  else if xorb (Bsign b) (Bsign m) then fadd m b else m.

(** 2*np.pi: exact doubling *)
Definition two_pi64 : float64 := f 7074237752028440 (-50) eq_refl.
(** objects.py 86 *)
Definition fbase_angle (x : float64) : float64 := fsub (fremainder (fadd x pi64) two_pi64) pi64.

Lemma two_pi_is_twice : B2R two_pi64 = 2 * B2R pi64.
Proof. rewrite pi64_val. unfold two_pi64, f, B2R, F2R; cbn. lra. Qed.

(** ** fmod is exact *)
Lemma fmod_val x y : is_finite x = true -> is_finite y = true -> B2R y <> 0 ->
  is_finite (ffmod x y) = true /\ B2R (ffmod x y) = B2R x - IZR (Ztrunc (B2R x / B2R y)) * B2R y.
Proof.
  intros Fx Fy Ny. destruct y as [sy|sy| |sy my ey Hy]; try discriminate; [cbn in Ny; lra|].
  destruct x as [sx|sx| |sx mx ex Hx]; try discriminate.
  { cbn [ffmod]. split; auto. cbn [B2R]. unfold Rdiv. rewrite Rmult_0_l, Ztrunc_IZR. ring. }
  set (x := B754_finite sx mx ex Hx) in *. set (y := B754_finite sy my ey Hy) in *.
  set (e := Z.min ex ey). set (X := (cond_Zopp sx (Zpos mx) * 2 ^ (ex - e))%Z). set (Y := (cond_Zopp sy (Zpos my) * 2 ^ (ey - e))%Z).
  assert (Ex : B2R x = IZR X * bpow radix2 e).
  { unfold x, B2R, F2R, X; cbn [Fnum Fexp]. rewrite mult_IZR. change 2%Z with (radix_val radix2) at 1. rewrite (IZR_Zpower radix2) by lia.
    rewrite Rmult_assoc, <- bpow_plus. do 2 f_equal. lia. }
  assert (Ey : B2R y = IZR Y * bpow radix2 e).
  { unfold y, B2R, F2R, Y; cbn [Fnum Fexp]. rewrite mult_IZR. change 2%Z with (radix_val radix2) at 1. rewrite (IZR_Zpower radix2) by lia.
    rewrite Rmult_assoc, <- bpow_plus. do 2 f_equal. lia. }
  pose proof (bpow_gt_0 radix2 e) as Pe.
  assert (NY : Y <> 0%Z). { intros E. rewrite E in Ey. lra. }
  assert (NY' : IZR Y <> 0) by (apply IZR_neq; auto).
  assert (Q : Ztrunc (B2R x / B2R y) = Z.quot X Y).
  { rewrite <- Ztrunc_div by auto. f_equal. rewrite Ex, Ey. field. split; lra. }
  assert (R : B2R x - IZR (Ztrunc (B2R x / B2R y)) * B2R y = F2R (Float radix2 (Z.rem X Y) e)).
  { rewrite Q, Ex, Ey. unfold F2R; cbn [Fnum Fexp]. rewrite (Z.rem_eq X Y) by auto. rewrite minus_IZR, mult_IZR. ring. }
  change (ffmod x y) with (binary_normalize 53 1024 prec64 emax64 mode_NE (Z.rem X Y) e sx).
  pose proof (binary_normalize_correct 53 1024 prec64 emax64 mode_NE (Z.rem X Y) e sx) as C. cbv zeta in C. rewrite <- R in C.
  cbn [round_mode] in C. change (SpecFloat.fexp 53 1024) with fexp64 in C.
  assert (G : F64 (B2R x - IZR (Ztrunc (B2R x / B2R y)) * B2R y)).
  { apply format_REM_ZR; auto with typeclass_instances; apply format64. }
  rewrite round_generic in C by auto with typeclass_instances.
  rewrite Rlt_bool_true in C; [destruct C as (B & F & _); auto|].
  (* smaller than x *)
  apply Rle_lt_trans with (Rabs (B2R x)); [|apply abs_B2R_lt_emax].
  rewrite R, Ex. unfold F2R; cbn [Fnum Fexp]. rewrite !Rabs_mult, (Rabs_right (bpow radix2 e)) by lra. apply Rmult_le_compat_r; [lra|].
  rewrite <- !abs_IZR. apply IZR_le. rewrite <- Z.rem_abs by auto. apply Z.rem_le; [lia|lia].
Qed.

Lemma trunc_rem a b : 0 < b -> let m := a - IZR (Ztrunc (a / b)) * b in - b < m < b.
Proof.
  intros Pb m. assert (E : m = (a / b - IZR (Ztrunc (a / b))) * b) by (unfold m; field; lra).
  assert (B : -1 < a / b - IZR (Ztrunc (a / b)) < 1).
  { set (q := a / b). destruct (Rle_dec 0 q).
    - rewrite Ztrunc_floor by auto. pose proof (Zfloor_lb q). pose proof (Zfloor_ub q). lra.
    - rewrite Ztrunc_ceil by lra. pose proof (Zceil_ub q). pose proof (Zceil_lb q). lra. }
  rewrite E. split; nra.
Qed.

(** the sign bit of a nonzero number *)
Lemma sign_val (x : float64) : is_finite x = true -> is_zero_f x = false -> if Bsign x then B2R x < 0 else 0 < B2R x.
Proof.
  destruct x as [s|s| |[|] m e H]; try discriminate; intros _ _; cbn; [apply F2R_lt_0|apply F2R_gt_0]; reflexivity.
Qed.
Lemma zero_val (x : float64) : is_finite x = true -> is_zero_f x = true -> B2R x = 0.
Proof. destruct x; try discriminate; reflexivity. Qed.

(** the remainder by a positive number *)
Lemma remainder_val a b : is_finite a = true -> is_finite b = true -> 0 < B2R b <= bpow radix2 1000 ->
  exists k : Z, is_finite (fremainder a b) = true /\ 0 <= B2R (fremainder a b) <= B2R b /\
  Rabs (B2R (fremainder a b) - (B2R a - IZR k * B2R b)) <= u * B2R b /\ Rabs (IZR k) <= Rabs (B2R a / B2R b) + 1.
Proof.
  intros Fa Fb (Pb & Ub). destruct (fmod_val a b Fa Fb ltac:(lra)) as (F & E). pose proof (trunc_rem (B2R a) (B2R b) Pb) as T. cbv zeta in T. rewrite <- E in T.
  set (m := ffmod a b) in *. set (t := Ztrunc (B2R a / B2R b)) in *. pose proof u_pos as Pu. pose proof u_small as Su.
  assert (Kt : Rabs (IZR t) <= Rabs (B2R a / B2R b)).
  { rewrite <- abs_IZR. unfold t. rewrite <- Ztrunc_abs, Ztrunc_floor by apply Rabs_pos. apply Zfloor_lb. }
  assert (Zb : is_zero_f b = false) by (destruct b; try discriminate; auto; cbn in Pb; lra).
  pose proof (sign_val b Fb Zb) as Sb. destruct (Bsign b) eqn:SB; [lra|].
  unfold fremainder. fold m. rewrite Zb, SB. destruct (is_zero_f m) eqn:Zm.
  { exists t. cbn [B2R is_finite]. pose proof (zero_val m F Zm) as V. rewrite V in E. split; auto. split; [lra|]. split; [|lra].
    rewrite <- E, Rminus_diag_eq, Rabs_R0 by auto. nra. }
  replace (is_nan m) with false by (destruct m; auto; discriminate).
  pose proof (sign_val m F Zm) as Sm. destruct (Bsign m); cbn [xorb].
  - assert (W : 0 <= B2R m + B2R b <= B2R b) by lra.
    destruct (fadd_val m b F Fb) as (Fs & Es). { rewrite Rabs_right by lra. eapply Rle_trans; [apply W|]. eapply Rle_trans; [exact Ub|]. apply bpow_le; lia. }
    exists (t - 1)%Z. split; auto. rewrite Es. split; [split|split].
    + rewrite <- (round_0 radix2 fexp64 ZnearestE). apply round_le; auto with typeclass_instances. lra.
    + apply round_le_generic; auto with typeclass_instances; [apply format64|lra].
    + destruct (rnd_add_err (B2R m) (B2R b)) as (e & He & R); try apply format64. rewrite R. rewrite minus_IZR, E.
      replace ((B2R a - IZR t * B2R b + B2R b) * (1 + e) - (B2R a - (IZR t - 1) * B2R b)) with ((B2R a - IZR t * B2R b + B2R b) * e) by ring.
      rewrite <- E, Rabs_mult, (Rabs_right (B2R m + B2R b)), Rmult_comm by lra. apply Rmult_le_compat; try lra; apply Rabs_pos.
    + rewrite minus_IZR. unfold Rminus. eapply Rle_trans; [apply Rabs_triang|]. rewrite Rabs_Ropp, Rabs_R1. lra.
  - exists t. split; auto. split; [lra|]. split; [|lra]. rewrite E, Rminus_diag_eq, Rabs_R0 by auto. nra.
Qed.

(** the result is between -np.pi and np.pi, and it is the angle up to full turns and rounding *)
Theorem C80_base_angle : forall x, moderate x ->
  is_finite (fbase_angle x) = true /\ Rabs (B2R (fbase_angle x)) <= B2R pi64 /\
  exists k : Z, Rabs (B2R (fbase_angle x) - (B2R x - 2 * PI * IZR k)) <= (14 / 10 * Rabs (B2R x) + 17) * u.
Proof.
  intros x (Fx & Bx). pose proof u_pos as Pu. pose proof u_small as Su. pose proof pi_bounds as PB. pose proof pi64_val as PV.
  assert (Big : 256 <= bpow radix2 1000). { apply Rle_trans with (bpow radix2 8); [cbn; lra|apply bpow_le; lia]. }
  assert (B1 : bpow radix2 1001 = 2 * bpow radix2 1000) by (change 1001%Z with (1 + 1000)%Z; rewrite bpow_plus; reflexivity).
  destruct (fadd_val x pi64 Fx eq_refl) as (Fs & Es).
  { apply Rle_trans with (bpow radix2 1001); [|apply bpow_le; lia]. eapply Rle_trans; [apply Rabs_triang|]. rewrite (Rabs_right (B2R pi64)) by lra. lra. }
  pose proof two_pi_is_twice as T2.
  destruct (remainder_val (fadd x pi64) two_pi64 Fs eq_refl ltac:(lra)) as (k & Fr & Br & Dr & Kr).
  unfold fbase_angle. set (r := fremainder _ _) in *. set (s := fadd x pi64) in *.
  destruct (fsub_val r pi64 Fr eq_refl) as (Fb & Eb).
  { apply Rle_trans with (bpow radix2 1000); [|apply bpow_le; lia]. apply Rabs_le. lra. }
  split; auto. assert (R : Rabs (B2R (fsub r pi64)) <= B2R pi64).
  { rewrite Eb. apply abs_round_le_generic; auto with typeclass_instances; [apply format64|]. apply Rabs_le. lra. }
  split; auto. exists k.
  destruct (rnd_add_err (B2R x) (B2R pi64)) as (e1 & He1 & R1); try apply format64. rewrite R1 in Es.
  destruct (rnd_add_err (B2R r) (- B2R pi64)) as (e2 & He2 & R2); [apply format64|apply generic_format_opp, format64|].
  unfold Rminus in Eb. rewrite R2 in Eb.
  set (X := Rabs (B2R x)) in *. set (p := B2R pi64) in *. assert (Pp : 314 / 100 < p < 315 / 100) by lra.
  assert (A1 : Rabs (B2R s - (B2R x + p)) <= (X + p) * u).
  { rewrite Es. replace ((B2R x + p) * (1 + e1) - (B2R x + p)) with ((B2R x + p) * e1) by ring. rewrite Rabs_mult. apply Rmult_le_compat; auto; try apply Rabs_pos.
    eapply Rle_trans; [apply Rabs_triang|]. rewrite (Rabs_right p) by lra. fold X. lra. }
  assert (A2 : Rabs (B2R (fsub r pi64) - (B2R r - p)) <= p * u).
  { rewrite Eb. replace ((B2R r + - p) * (1 + e2) - (B2R r - p)) with ((B2R r - p) * e2) by ring. rewrite Rabs_mult. apply Rmult_le_compat; auto; try apply Rabs_pos.
    apply Rabs_le. lra. }
  assert (PX : 0 <= X) by apply Rabs_pos.
  assert (A3 : Rabs (IZR k) <= X * (16 / 100) + 16 / 10).
  { eapply Rle_trans; [exact Kr|]. unfold Rdiv at 1. rewrite Rabs_mult, Rabs_inv, T2, (Rabs_right (2 * p)) by lra.
    assert (AS : Rabs (B2R s) <= (X + p) * (1 + u)).
    { rewrite Es, Rabs_mult. apply Rmult_le_compat; try apply Rabs_pos; [eapply Rle_trans; [apply Rabs_triang|]; rewrite (Rabs_right p) by lra; fold X; lra|].
      apply Rabs_le_inv in He1. apply Rabs_le. lra. }
    assert (AS2 : Rabs (B2R s) <= (X + p) * (1001 / 1000)) by (eapply Rle_trans; [exact AS|]; apply Rmult_le_compat_l; lra).
    assert (IV : / (2 * p) <= / (628 / 100)) by (apply Rinv_le; lra). assert (0 < / (2 * p)) by (apply Rinv_0_lt_compat; lra).
    assert (Rabs (B2R s) * / (2 * p) <= (X + p) * (1001 / 1000) * / (628 / 100)) by (apply Rmult_le_compat; auto; try apply Rabs_pos; lra). lra. }
  assert (U : 13 / 100000000000000000 <= 12 / 10 * u) by (rewrite u_val; lra).
  assert (A4 : Rabs (2 * (p - PI) * IZR k) <= (24 / 10 * u) * (X * (16 / 100) + 16 / 10)).
  { rewrite Rabs_mult. apply Rmult_le_compat; auto; try apply Rabs_pos. apply Rabs_le. lra. }
  rewrite T2 in Dr.
  replace (B2R (fsub r pi64) - (B2R x - 2 * PI * IZR k)) with
    ((B2R (fsub r pi64) - (B2R r - p)) + (B2R r - (B2R s - IZR k * (2 * p))) + (B2R s - (B2R x + p)) + - (2 * (p - PI) * IZR k)) by ring.
  eapply Rle_trans; [apply Rabs_triang|]. rewrite Rabs_Ropp.
  eapply Rle_trans; [apply Rplus_le_compat_r, Rabs_triang|]. eapply Rle_trans; [apply Rplus_le_compat_r, Rplus_le_compat_r, Rabs_triang|].
  assert (p * u <= 315 / 100 * u) by (apply Rmult_le_compat_r; lra). assert (0 <= X * u) by (apply Rmult_le_pos; lra). lra.
Qed.

(** +np.pi is reached, although the exact result is less *)
Theorem C80_pi_is_reached : exists x, moderate x /\ B2R x < - B2R pi64 /\ fbase_angle x = pi64.
Proof.
  exists (fneg (f 7074237752028441 (-51) eq_refl)). split; [|split].
  - split; [reflexivity|]. apply Rle_trans with (bpow radix2 3); [|apply bpow_le; lia]. unfold fneg, Bopp, f, B2R, F2R; cbn. rewrite Rabs_left; lra.
  - rewrite pi64_val. unfold fneg, Bopp, f, B2R, F2R; cbn. lra.
  - apply B2SF_inj. vm_compute. reflexivity.
Qed.

(** a result already in range comes back within 22 units of roundoff (1.4 pi + 17); -270 degrees is 90 *)
Example C80_example : moderate (fneg (fadd pi64 half_pi64)) /\ B2SF (fbase_angle (fneg (fadd pi64 half_pi64))) = B2SF half_pi64.
Proof.
  split; [|vm_compute; reflexivity]. split; [reflexivity|].
  apply Rle_trans with (bpow radix2 3); [|apply bpow_le; lia].
  replace (fadd pi64 half_pi64) with (f 5305678314021330 (-50) eq_refl) by (apply B2SF_inj; vm_compute; reflexivity).
  unfold fneg, Bopp, f, B2R, F2R; cbn. rewrite Rabs_left; lra.
Qed.
