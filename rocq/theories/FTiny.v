(** * C60: the regularising _TINY of unit(), in binary64 arithmetic

    Models /repo/src/nvector/util.py 504-506 for one column (x, y, z) in IEEE binary64
    arithmetic with round-to-nearest-even, infinities, NaN (one NaN: payloads are not modelled)
    and signed zeros:  current_norm = numpy.linalg.norm(vector, axis=0), which for real input is
    sqrt(add.reduce(x * x, axis=0)), and  vector / (current_norm + _TINY). *)
From Coq Require Import ZArith Reals Lia Lra Bool Psatz.
From Flocq Require Import Core BinarySingleNaN.
Local Open Scope R_scope.

Definition float64 : Type := binary_float 53 1024.
Lemma prec64 : FLX.Prec_gt_0 53. Proof. reflexivity. Qed.
Lemma emax64 : Prec_lt_emax 53 1024. Proof. reflexivity. Qed.
(** numpy's binary64 product: the * of core.py 69-71 and everywhere else *)
Definition fmul (x y : float64) : float64 := Bmult (prec_gt_0_ := prec64) (prec_lt_emax_ := emax64) mode_NE x y.
(** numpy's binary64 sum, e.g. objects.py 1172 *)
Definition fadd (x y : float64) : float64 := Bplus (prec_gt_0_ := prec64) (prec_lt_emax_ := emax64) mode_NE x y.
(** numpy's binary64 quotient, e.g. the division by the norm in unit, util.py *)
Definition fdiv (x y : float64) : float64 := Bdiv (prec_gt_0_ := prec64) (prec_lt_emax_ := emax64) mode_NE x y.
(** numpy's binary64 square root, inside norm(vector, axis=0) *)
Definition fsqrt (x : float64) : float64 := Bsqrt (prec_gt_0_ := prec64) (prec_lt_emax_ := emax64) mode_NE x.

(** util.py 19: _TINY = np.finfo(float).tiny, the smallest normal number 2^-1022 *)
Definition tiny : float64 := @B754_finite 53 1024 false 4503599627370496 (-1074) eq_refl.
Lemma tiny_value : B2R tiny = bpow radix2 (-1022).
Proof.
  unfold tiny, B2R, F2R. cbn [Fnum Fexp cond_Zopp].
  replace (IZR 4503599627370496) with (bpow radix2 52) by (cbn; lra). rewrite <- bpow_plus. reflexivity.
Qed.

(** util.py 504, one column *)
Definition norm3 (x y z : float64) : float64 := fsqrt (fadd (fadd (fmul x x) (fmul y y)) (fmul z z)).
(** util.py 506, one entry [c] of the column (x, y, z) *)
Definition unit_entry (c x y z : float64) : float64 := fdiv c (fadd (norm3 x y z) tiny).

Definition is_zero_f (x : float64) : bool := match x with B754_zero _ => true | _ => false end.

(** the binary64 format as a set of reals *)
Definition fexp64 : Z -> Z := FLT_exp (-1074) 53.
Notation F64 := (generic_format radix2 fexp64).
Notation rnd := (round radix2 fexp64 ZnearestE).
Local Instance vexp : Valid_exp fexp64 := FLT_exp_valid (-1074) 53 (prec_gt_0_ := prec64).
Local Instance mexp : Monotone_exp fexp64 := FLT_exp_monotone (-1074) 53.

Lemma format_B2R (x : float64) : F64 (B2R x).
Proof. exact (generic_format_B2R 53 1024 x). Qed.

Lemma absorb x eps : F64 x -> bpow radix2 (-537) <= x -> 0 < eps <= bpow radix2 (-1022) -> rnd (x + eps) = x.
Proof.
  intros Fx Hx He.
  assert (P := bpow_gt_0 radix2 (-537)).
  assert (U : 2 * bpow radix2 (-1022) < ulp radix2 fexp64 x).
  { eapply Rlt_trans; [|apply (ulp_FLT_gt radix2 (-1074) 53 (prec_gt_0_ := prec64))].
    rewrite Rabs_right by lra. apply Rlt_le_trans with (bpow radix2 (-537) * bpow radix2 (-53)).
    - rewrite <- bpow_plus. change 2 with (bpow radix2 1). rewrite <- bpow_plus. apply bpow_lt. lia.
    - apply Rmult_le_compat_r; [apply bpow_ge_0|lra]. }
  assert (Q := bpow_gt_0 radix2 (-1022)).
  assert (D : round radix2 fexp64 Zfloor (x + eps) = x) by (apply round_DN_plus_eps_pos; auto with typeclass_instances; lra).
  assert (E : round radix2 fexp64 Zceil (x + eps) = x + ulp radix2 fexp64 x) by (apply round_UP_plus_eps_pos; auto with typeclass_instances; lra).
  rewrite <- D at 2. apply round_N_eq_DN; auto with typeclass_instances. rewrite D, E. lra.
Qed.

Lemma fadd_exact (s e : float64) : is_finite s = true -> is_finite e = true -> 0 < B2R s -> 0 < B2R e ->
  rnd (B2R s + B2R e) = B2R s -> fadd s e = s.
Proof.
  intros Fs Fe Ps Pe H. pose proof (Bplus_correct 53 1024 prec64 emax64 mode_NE s e Fs Fe) as C.
  cbn [round_mode] in C. change (SpecFloat.fexp 53 1024) with fexp64 in C.
  rewrite H in C. rewrite Rlt_bool_true in C by apply abs_B2R_lt_emax.
  destruct C as (B & F & S). apply B2R_Bsign_inj; auto.
  unfold fadd. rewrite S, Rcompare_Gt by lra.
  destruct s as [b|b| |b m ex Hb]; try discriminate; [cbn in Ps; lra|].
  destruct b; [|reflexivity]. exfalso.
  assert (X : B2R (B754_finite true m ex Hb) < 0) by (apply F2R_lt_0; reflexivity). lra.
Qed.

(** The computed norm is 0, or the sum with _TINY is exactly the computed norm - for every three
    doubles, including infinities and NaN *)
Theorem C60_tiny_is_absorbed : forall x y z : float64,
  is_zero_f (norm3 x y z) = true \/ fadd (norm3 x y z) tiny = norm3 x y z.
Proof.
  intros x y z. unfold norm3. set (q := fadd (fadd (fmul x x) (fmul y y)) (fmul z z)). clearbody q. clear x y z.
  pose proof (Bsqrt_correct 53 1024 prec64 emax64 mode_NE q) as (B & Fi & Sg).
  fold (fsqrt q) in B, Fi, Sg. cbn [round_mode] in B. change (SpecFloat.fexp 53 1024) with fexp64 in B.
  destruct (fsqrt q) as [b|b| |b m e Hb] eqn:E; [left; reflexivity|right; reflexivity|right; reflexivity|right].
  rewrite <- E. rewrite <- E in B, Fi. clear Sg.
  assert (Fs : is_finite (fsqrt q) = true) by (rewrite E; reflexivity).
  rewrite Fs in Fi. destruct q as [bq|bq| |[|] mq eq Hq]; try discriminate.
  set (q := B754_finite false mq eq Hq) in *.
    assert (Lq : bpow radix2 (-1074) <= B2R q).
    { pose proof (abs_B2R_ge_emin 53 1024 q eq_refl) as A. rewrite Rabs_right in A; [exact A|].
      apply Rle_ge. apply F2R_ge_0. cbn. lia. }
    assert (Ls : bpow radix2 (-537) <= B2R (fsqrt q)).
    { rewrite B. apply round_ge_generic; auto with typeclass_instances.
      - apply generic_format_bpow. unfold fexp64, FLT_exp. lia.
      - replace (bpow radix2 (-537)) with (sqrt (bpow radix2 (-1074))).
        + apply sqrt_le_1_alt. exact Lq.
        + change (-1074)%Z with (-537 + -537)%Z. rewrite bpow_plus. apply sqrt_square, bpow_ge_0. }
    pose proof (bpow_gt_0 radix2 (-537)). pose proof (bpow_gt_0 radix2 (-1022)).
    apply fadd_exact; auto; [lra|rewrite tiny_value; lra|].
    rewrite tiny_value. apply absorb; [apply format_B2R|auto|lra].
Qed.
Print Assumptions C60_tiny_is_absorbed.

(** so every entry of unit() is the correctly rounded quotient by the computed norm *)
Theorem C60_unit_divides_by_the_norm : forall c x y z : float64,
  is_zero_f (norm3 x y z) = false -> unit_entry c x y z = fdiv c (norm3 x y z).
Proof.
  intros c x y z H. unfold unit_entry. destruct (C60_tiny_is_absorbed x y z) as [Z| ->]; [congruence|reflexivity].
Qed.

(** without a zero norm nothing divides by zero: the sum with _TINY is never a zero *)
Theorem C60_never_divides_by_zero : forall x y z : float64, is_zero_f (fadd (norm3 x y z) tiny) = false.
Proof.
  intros x y z. destruct (is_zero_f (norm3 x y z)) eqn:E.
  - destruct (norm3 x y z); try discriminate. reflexivity.
  - destruct (C60_tiny_is_absorbed x y z) as [Z| ->]; [congruence|exact E].
Qed.
Print Assumptions C60_never_divides_by_zero.

(** 3, 4, 0: the norm is exactly 5 and the first entry of the unit vector is the double nearest to 3/5 *)
Definition f (m : positive) (e : Z) (H : SpecFloat.bounded 53 1024 m e = true) : float64 := B754_finite false m e H.
Example C60_example :
  is_zero_f (norm3 (f 6755399441055744 (-51) eq_refl) (f 4503599627370496 (-50) eq_refl) (B754_zero false)) = false /\
  B2SF (norm3 (f 6755399441055744 (-51) eq_refl) (f 4503599627370496 (-50) eq_refl) (B754_zero false))
  = SpecFloat.S754_finite false 5629499534213120 (-50).
Proof. split; vm_compute; reflexivity. Qed.
