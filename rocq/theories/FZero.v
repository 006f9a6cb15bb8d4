(** * C62: which double vectors unit() takes for the zero vector (util.py 504-505, 508-509)

    [is_zero_f (norm3 x y z)] is the test [current_norm == 0] of util.py 505 for one column. *)
From Coq Require Import ZArith Reals Lia Lra Bool.
From Flocq Require Import Core BinarySingleNaN.
From Verif Require Import FTiny.
Local Open Scope R_scope.

Lemma overflow_inf (v : float64) b : B2SF v = SpecFloat.S754_infinity b -> v = B754_infinity b.
Proof. destruct v; cbn; intros H; inversion H; reflexivity. Qed.

Definition nonneg (v : float64) : Prop := is_nan v = true \/ Bsign v = false.
Definition big (v : float64) : Prop :=
  is_nan v = true \/ v = B754_infinity false \/ (is_finite v = true /\ bpow radix2 (-1074) <= B2R v).

Lemma nonneg_R v : nonneg v -> is_finite v = true -> 0 <= B2R v.
Proof.
  intros [N|S] F; [destruct v; discriminate|]. destruct v as [b|b| |b m e H]; try discriminate.
  - cbn. lra.
  - cbn in S. subst b. apply F2R_ge_0. cbn. lia.
Qed.
Lemma fin_pos_sign (v : float64) : is_finite v = true -> 0 < B2R v -> Bsign v = false.
Proof.
  destruct v as [b|b| |[|] m e H]; intros F P; try discriminate; [cbn in P; lra| |reflexivity].
  exfalso. assert (X : B2R (B754_finite true m e H) < 0) by (apply F2R_lt_0; reflexivity). lra.
Qed.
Lemma big_nonneg v : big v -> nonneg v.
Proof.
  intros [N|[->|[F B]]]; [left; auto|right; reflexivity|right].
  apply fin_pos_sign; auto. pose proof (bpow_gt_0 radix2 (-1074)). lra.
Qed.

Lemma sq_nonneg x : nonneg (fmul x x).
Proof.
  pose proof (Bmult_correct 53 1024 prec64 emax64 mode_NE x x) as C. fold (fmul x x) in C.
  destruct (Rlt_bool _ _).
  - destruct C as (_ & _ & S). destruct (is_nan (fmul x x)) eqn:N; [left; auto|right].
    rewrite S by auto. apply xorb_nilpotent.
  - rewrite xorb_nilpotent in C. apply overflow_inf in C. rewrite C. right. reflexivity.
Qed.
Lemma sq_big x : bpow radix2 (-537) <= Rabs (B2R x) -> big (fmul x x).
Proof.
  intros H. pose proof (bpow_gt_0 radix2 (-537)) as P.
  assert (Fx : is_finite x = true).
  { destruct x; auto; cbn in H; rewrite Rabs_R0 in H; lra. }
  pose proof (Bmult_correct 53 1024 prec64 emax64 mode_NE x x) as C. fold (fmul x x) in C.
  cbn [round_mode] in C. change (SpecFloat.fexp 53 1024) with fexp64 in C.
  destruct (Rlt_bool _ _).
  - destruct C as (B & F & _). rewrite Fx in F. right. right. split; [auto|]. rewrite B.
    apply round_ge_generic; auto with typeclass_instances.
    + apply vexp.
    + apply generic_format_bpow. unfold fexp64, FLT_exp. lia.
    + change (-1074)%Z with (-537 + -537)%Z. rewrite bpow_plus.
      replace (B2R x * B2R x) with (Rabs (B2R x) * Rabs (B2R x)) by (rewrite <- Rabs_mult; apply Rabs_right; nra).
      apply Rmult_le_compat; lra.
  - rewrite xorb_nilpotent in C. apply overflow_inf in C. right. left. exact C.
Qed.

Lemma add_nonneg v w : nonneg v -> nonneg w -> nonneg (fadd v w) /\ (big v \/ big w -> big (fadd v w)).
Proof.
  intros Nv Nw.
  destruct (is_finite v) eqn:Fv; [destruct (is_finite w) eqn:Fw|].
  - pose proof (nonneg_R v Nv Fv) as Pv. pose proof (nonneg_R w Nw Fw) as Pw.
    pose proof (Bplus_correct 53 1024 prec64 emax64 mode_NE v w Fv Fw) as C. fold (fadd v w) in C.
    cbn [round_mode] in C. change (SpecFloat.fexp 53 1024) with fexp64 in C.
    assert (Sv : Bsign v = false) by (destruct Nv as [N|]; auto; destruct v; discriminate).
    assert (Sw : Bsign w = false) by (destruct Nw as [N|]; auto; destruct w; discriminate).
    destruct (Rlt_bool _ _).
    + destruct C as (B & F & S). split.
      * right. rewrite S. destruct (Rcompare_spec (B2R v + B2R w) 0); [lra|rewrite Sv; reflexivity|reflexivity].
      * intros H. right. right. split; auto. rewrite B. apply round_ge_generic; auto with typeclass_instances.
        -- apply vexp.
        -- apply generic_format_bpow. unfold fexp64, FLT_exp. lia.
        -- destruct H as [[N|[E|[_ L]]]|[N|[E|[_ L]]]]; try lra;
             try (destruct v; discriminate); try (destruct w; discriminate);
             try (rewrite E in Fv; discriminate); try (rewrite E in Fw; discriminate).
    + destruct C as (C & _). rewrite Sv in C. apply overflow_inf in C. rewrite C.
      split; [right; reflexivity|]. intros _. right. left. reflexivity.
  - destruct v as [a|a| |a m e H]; try discriminate; destruct w as [b|b| |b m' e' H']; try discriminate; cbn;
      (split; [|intros _]); try (left; reflexivity);
      destruct Nw as [N|N]; try discriminate; cbn in N; subst b; try (right; reflexivity); right; left; reflexivity.
  - destruct v as [a|a| |a m e H]; try discriminate.
    + destruct Nv as [N|N]; [discriminate|]. cbn in N. subst a.
      destruct w as [b|b| |b m' e' H']; cbn; (split; [|intros _]); try (right; reflexivity); try (right; left; reflexivity); try (left; reflexivity).
      * destruct Nw as [N|N]; [discriminate|]. cbn in N. subst b. right. reflexivity.
      * destruct Nw as [N|N]; [discriminate|]. cbn in N. subst b. right. left. reflexivity.
    + cbn. split; [left; reflexivity|intros _; left; reflexivity].
Qed.

Lemma big_sqrt v : big v -> is_zero_f (fsqrt v) = false.
Proof.
  intros [N|[->|[F L]]]; [destruct v; try discriminate; reflexivity|reflexivity|].
  pose proof (bpow_gt_0 radix2 (-1074)) as P.
  destruct (fsqrt v) eqn:E; try reflexivity. exfalso.
  pose proof (Bsqrt_correct 53 1024 prec64 emax64 mode_NE v) as (B & _). fold (fsqrt v) in B. rewrite E in B.
  cbn [round_mode B2R] in B. change (SpecFloat.fexp 53 1024) with fexp64 in B.
  assert (X : bpow radix2 (-537) <= round radix2 fexp64 ZnearestE (sqrt (B2R v))).
  { apply round_ge_generic; auto with typeclass_instances; [apply vexp| |].
    - apply generic_format_bpow. unfold fexp64, FLT_exp. lia.
    - replace (bpow radix2 (-537)) with (sqrt (bpow radix2 (-1074))).
      + apply sqrt_le_1_alt. exact L.
      + change (-1074)%Z with (-537 + -537)%Z. rewrite bpow_plus. apply sqrt_square, bpow_ge_0. }
  pose proof (bpow_gt_0 radix2 (-537)). rewrite <- B in X. lra.
Qed.

(** a component of magnitude at least 2^-537: never taken for the zero vector, whatever the others *)
Theorem C62_nonzero_vectors_recognised : forall x y z : float64,
  bpow radix2 (-537) <= Rabs (B2R x) \/ bpow radix2 (-537) <= Rabs (B2R y) \/ bpow radix2 (-537) <= Rabs (B2R z) ->
  is_zero_f (norm3 x y z) = false.
Proof.
  intros x y z H. unfold norm3. apply big_sqrt.
  pose proof (sq_nonneg x) as Nx. pose proof (sq_nonneg y) as Ny. pose proof (sq_nonneg z) as Nz.
  destruct (add_nonneg _ _ Nx Ny) as (Nxy & B1). destruct (add_nonneg _ _ Nxy Nz) as (_ & B2).
  apply B2. destruct H as [H|[H|H]]; apply sq_big in H; [left; apply B1; auto|left; apply B1; auto|right; auto].
Qed.
Print Assumptions C62_nonzero_vectors_recognised.

(** all components of magnitude at most 2^-538: taken for the zero vector, also when it is not *)
Lemma sq_small x : is_finite x = true -> Rabs (B2R x) <= bpow radix2 (-538) -> is_zero_f (fmul x x) = true.
Proof.
  intros Fx H.
  pose proof (Bmult_correct 53 1024 prec64 emax64 mode_NE x x) as C. fold (fmul x x) in C.
  cbn [round_mode] in C. change (SpecFloat.fexp 53 1024) with fexp64 in C.
  assert (Z : round radix2 fexp64 ZnearestE (B2R x * B2R x) = 0).
  { assert (Le : 0 <= B2R x * B2R x <= bpow radix2 (-1076)).
    { split; [nra|]. change (-1076)%Z with (-538 + -538)%Z. rewrite bpow_plus.
      replace (B2R x * B2R x) with (Rabs (B2R x) * Rabs (B2R x)) by (rewrite <- Rabs_mult; apply Rabs_right; nra).
      pose proof (Rabs_pos (B2R x)). apply Rmult_le_compat; lra. }
    apply Rle_antisym.
    - rewrite <- (round_N_small_pos radix2 fexp64 (fun n => negb (Z.even n)) (bpow radix2 (-1076)) (-1075)).
      + apply round_le; auto with typeclass_instances; [apply vexp|lra].
      + split; [right; reflexivity|apply bpow_lt; lia].
      + unfold fexp64, FLT_exp. lia.
    - rewrite <- (round_0 radix2 fexp64 ZnearestE). apply round_le; auto with typeclass_instances; [apply vexp|lra]. }
  rewrite Z, Rabs_R0, Rlt_bool_true in C by apply bpow_gt_0. destruct C as (B & F & _).
  rewrite Fx in F. destruct (fmul x x) as [b|b| |b m e Hb]; try discriminate; [reflexivity|].
  exfalso. cbn in B. apply (eq_0_F2R radix2 (cond_Zopp b (Z.pos m)) e) in B. destruct b; discriminate.
Qed.
Theorem C62_tiny_vectors_taken_for_zero_refuted : forall x y z : float64,
  is_finite x = true -> is_finite y = true -> is_finite z = true ->
  Rabs (B2R x) <= bpow radix2 (-538) -> Rabs (B2R y) <= bpow radix2 (-538) -> Rabs (B2R z) <= bpow radix2 (-538) ->
  is_zero_f (norm3 x y z) = true.
Proof.
  intros x y z Fx Fy Fz Hx Hy Hz. unfold norm3.
  pose proof (sq_small x Fx Hx). pose proof (sq_small y Fy Hy). pose proof (sq_small z Fz Hz).
  destruct (fmul x x) as [a|a| |a m e Q]; try discriminate. destruct (fmul y y) as [b|b| |b m e Q]; try discriminate.
  destruct (fmul z z) as [c|c| |c m e Q]; try discriminate. destruct a, b, c; reflexivity.
Qed.
Print Assumptions C62_tiny_vectors_taken_for_zero_refuted.

(** (2^-600, 0, 0) is not the zero vector, yet it is taken for it *)
Definition smallvec : float64 := @B754_finite 53 1024 false 4503599627370496 (-652) eq_refl.
Example C62_example : 0 < B2R smallvec <= bpow radix2 (-538) /\ is_zero_f (norm3 smallvec (B754_zero false) (B754_zero false)) = true.
Proof.
  split; [|vm_compute; reflexivity].
  unfold smallvec, B2R, F2R. cbn [Fnum Fexp cond_Zopp].
  replace (IZR 4503599627370496) with (bpow radix2 52) by (cbn; lra). rewrite <- bpow_plus.
  split; [apply bpow_gt_0|apply bpow_le; lia].
Qed.
