(** * C99: unit() on every triple of doubles: huge, infinite and NaN components

    Models /repo/src/nvector/util.py 504-510 for one column in binary64 (norm3 and unit_entry of FTiny.v: current_norm and
    vector / (current_norm + _TINY)), followed by the replacement of the columns whose norm is 0 (util.py 507-509). *)
From Coq Require Import ZArith Reals Lia Lra Bool Psatz.
From Flocq Require Import Core BinarySingleNaN.
From Verif Require Import FTiny FZero.
Local Open Scope R_scope.

Notation pinf := (B754_infinity false : float64).
Definition fone1 : float64 := @B754_finite 53 1024 false 4503599627370496 (-52) eq_refl.
Definition fzero1 : float64 := B754_zero false.
(** util.py 504-509, one column: the norm, the division, and (1, 0, 0) * norm_zero_vector where the norm == 0 *)
Definition unit_col (nzv x y z : float64) : float64 * float64 * float64 :=
  let n := norm3 x y z in
  if is_zero_f n then (fmul fone1 nzv, fmul fzero1 nzv, fmul fzero1 nzv)
  else (fdiv x (fadd n tiny), fdiv y (fadd n tiny), fdiv z (fadd n tiny)).

Definition no_nan (x y z : float64) : Prop := is_nan x = false /\ is_nan y = false /\ is_nan z = false.
Definition all_finite (x y z : float64) : Prop := is_finite x = true /\ is_finite y = true /\ is_finite z = true.

(** a square is never NaN unless its base is, and nonnegative *)
Lemma sq_not_nan x : is_nan x = false -> is_nan (fmul x x) = false /\ Bsign (fmul x x) = false.
Proof.
  intros N. pose proof (Bmult_correct 53 1024 prec64 emax64 mode_NE x x) as C. fold (fmul x x) in C. destruct (Rlt_bool _ _).
  - destruct C as (_ & F & S). destruct (is_finite x) eqn:Fx.
    + assert (M : is_nan (fmul x x) = false) by (cbn in F; destruct (fmul x x); try discriminate; auto).
      split; auto. rewrite S by auto. apply xorb_nilpotent.
    + destruct x as [b|b| |b m e H]; try discriminate. cbn. rewrite xorb_nilpotent. auto.
  - rewrite xorb_nilpotent in C. apply overflow_inf in C. rewrite C. auto.
Qed.
Lemma sq_inf x : is_finite x = true -> bpow radix2 512 <= Rabs (B2R x) -> fmul x x = pinf.
Proof.
  intros Fx H. pose proof (Bmult_correct 53 1024 prec64 emax64 mode_NE x x) as C. fold (fmul x x) in C.
  cbn [round_mode] in C. change (SpecFloat.fexp 53 1024) with fexp64 in C. rewrite Rlt_bool_false in C.
  - rewrite xorb_nilpotent in C. apply overflow_inf in C. exact C.
  - rewrite Rabs_pos_eq.
    + apply round_ge_generic; auto with typeclass_instances; [apply vexp|apply generic_format_bpow; unfold fexp64, FLT_exp; lia|].
      change 1024%Z with (512 + 512)%Z. rewrite bpow_plus. pose proof (bpow_ge_0 radix2 512).
      apply Rle_trans with (Rabs (B2R x) * Rabs (B2R x)); [apply Rmult_le_compat; assumption|]. rewrite <- Rabs_mult, Rabs_pos_eq by apply Rle_0_sqr. apply Rle_refl.
    + rewrite <- (round_0 radix2 fexp64 ZnearestE). apply round_le; auto with typeclass_instances; [apply vexp|apply Rle_0_sqr].
Qed.
Lemma sq_inf' x : is_nan x = false -> is_finite x = false \/ bpow radix2 512 <= Rabs (B2R x) -> fmul x x = pinf.
Proof.
  intros N [F|H].
  - destruct x as [b|b| |b m e Q]; try discriminate. cbn. rewrite xorb_nilpotent. reflexivity.
  - apply sq_inf; auto. destruct x; try discriminate; auto. cbn in H. rewrite Rabs_R0 in H. pose proof (bpow_gt_0 radix2 512). lra.
Qed.
Lemma add_inf v w : is_nan v = false -> Bsign v = false -> is_nan w = false -> Bsign w = false -> v = pinf \/ w = pinf -> fadd v w = pinf.
Proof.
  intros Nv Sv Nw Sw [-> | ->].
  - destruct w as [b|b| |b m e H]; try discriminate; auto. cbn in Sw. subst. reflexivity.
  - destruct v as [b|b| |b m e H]; try discriminate; auto. cbn in Sv. subst. reflexivity.
Qed.
Lemma add_ok v w : is_nan v = false -> Bsign v = false -> is_nan w = false -> Bsign w = false -> is_nan (fadd v w) = false /\ Bsign (fadd v w) = false.
Proof.
  intros Nv Sv Nw Sw. destruct (add_nonneg v w (or_intror Sv) (or_intror Sw)) as ([N|S] & _); [|].
  - exfalso. destruct (is_finite v) eqn:Fv; [destruct (is_finite w) eqn:Fw|].
    + pose proof (Bplus_correct 53 1024 prec64 emax64 mode_NE v w Fv Fw) as C. fold (fadd v w) in C. destruct (Rlt_bool _ _).
      * destruct C as (_ & F & _). destruct (fadd v w); discriminate.
      * destruct C as (C & _). apply overflow_inf in C. rewrite C in N. discriminate.
    + rewrite add_inf in N; auto; [discriminate|]. right. destruct w as [b|b| |b m e H]; try discriminate. cbn in Sw. subst. auto.
    + rewrite add_inf in N; auto; [discriminate|]. left. destruct v as [b|b| |b m e H]; try discriminate. cbn in Sv. subst. auto.
  - split; auto. destruct (is_finite v) eqn:Fv; [destruct (is_finite w) eqn:Fw|].
    + pose proof (Bplus_correct 53 1024 prec64 emax64 mode_NE v w Fv Fw) as C. fold (fadd v w) in C. destruct (Rlt_bool _ _).
      * destruct C as (_ & F & _). destruct (fadd v w); try discriminate; auto.
      * destruct C as (C & _). apply overflow_inf in C. rewrite C. auto.
    + rewrite add_inf; auto. right. destruct w as [b|b| |b m e H]; try discriminate. cbn in Sw. subst. auto.
    + rewrite add_inf; auto. left. destruct v as [b|b| |b m e H]; try discriminate. cbn in Sv. subst. auto.
Qed.
Definition enormous (x : float64) : Prop := is_finite x = false \/ bpow radix2 512 <= Rabs (B2R x).
Lemma norm_inf x y z : no_nan x y z -> enormous x \/ enormous y \/ enormous z -> norm3 x y z = pinf.
Proof.
  intros (Nx & Ny & Nz) H. destruct (sq_not_nan x Nx) as (A1 & A2). destruct (sq_not_nan y Ny) as (B1 & B2). destruct (sq_not_nan z Nz) as (C1 & C2).
  destruct (add_ok _ _ A1 A2 B1 B2) as (D1 & D2).
  assert (E : fadd (fadd (fmul x x) (fmul y y)) (fmul z z) = pinf).
  { apply add_inf; auto. destruct H as [H|[H|H]]; [left|left|right]; [apply add_inf; auto; left|apply add_inf; auto; right|]; apply sq_inf'; auto. }
  unfold norm3. rewrite E. reflexivity.
Qed.

(** Some component of magnitude at least 2^512 (1.4e154), all finite: the squared norm overflows and the zero vector comes back. *)
Theorem C99_huge_vectors_vanish_refuted : forall nzv x y z, all_finite x y z ->
  bpow radix2 512 <= Rabs (B2R x) \/ bpow radix2 512 <= Rabs (B2R y) \/ bpow radix2 512 <= Rabs (B2R z) ->
  exists s1 s2 s3, unit_col nzv x y z = (B754_zero s1, B754_zero s2, B754_zero s3).
Proof.
  intros nzv x y z (Fx & Fy & Fz) H. unfold unit_col. rewrite norm_inf.
  - cbn [is_zero_f]. change (fadd pinf tiny) with pinf.
    assert (K : forall c, is_finite c = true -> exists s, fdiv c pinf = B754_zero s). { intros c F. destruct c as [b|b| |b m e Q]; try discriminate; eexists; reflexivity. }
    destruct (K x Fx) as (s1 & E1). destruct (K y Fy) as (s2 & E2). destruct (K z Fz) as (s3 & E3). rewrite E1, E2, E3. eauto.
  - repeat split; [destruct x|destruct y|destruct z]; try discriminate; auto.
  - unfold enormous. tauto.
Qed.
(** No NaN, some component infinite: the infinite components become NaN and the finite ones 0. *)
Theorem C99_infinite_vectors : forall nzv x y z, no_nan x y z -> ~ all_finite x y z ->
  let r c := if is_finite c then B754_zero (Bsign c) else B754_nan in unit_col nzv x y z = (r x, r y, r z).
Proof.
  intros nzv x y z (Nx & Ny & Nz) H r. unfold unit_col. rewrite norm_inf.
  - cbn [is_zero_f]. change (fadd pinf tiny) with pinf.
    assert (K : forall c, is_nan c = false -> fdiv c pinf = r c). { intros c N. unfold r. destruct c as [b|b| |b m e Q]; try discriminate; cbn; rewrite ?xorb_false_r; reflexivity. }
    rewrite !K by auto. reflexivity.
  - repeat split; auto.
  - unfold enormous, all_finite in *. destruct (is_finite x); auto. destruct (is_finite y); auto. destruct (is_finite z); auto. tauto.
Qed.
(** A NaN component: all three come back NaN. *)
Lemma nan_add_l v w : is_nan v = true -> fadd v w = B754_nan. Proof. destruct v; try discriminate. destruct w; reflexivity. Qed.
Lemma nan_add_r v w : is_nan w = true -> fadd v w = B754_nan. Proof. destruct w; try discriminate. destruct v; reflexivity. Qed.
Theorem C99_nan_vectors : forall nzv x y z, is_nan x = true \/ is_nan y = true \/ is_nan z = true -> unit_col nzv x y z = (B754_nan, B754_nan, B754_nan).
Proof.
  intros nzv x y z H. assert (E : fadd (fadd (fmul x x) (fmul y y)) (fmul z z) = B754_nan).
  { destruct H as [H|[H|H]].
    - apply nan_add_l. rewrite nan_add_l; auto. destruct x; try discriminate; auto.
    - apply nan_add_l. rewrite nan_add_r; auto. destruct y; try discriminate; auto.
    - apply nan_add_r. destruct z; try discriminate; auto. }
  unfold unit_col, norm3. rewrite E. cbn. destruct x, y, z; reflexivity.
Qed.
(** (2^512, 0, 0) points along the first axis, and the zero vector comes back. *)
Definition hugef : float64 := @B754_finite 53 1024 false 4503599627370496 460 eq_refl.
Example C99_example : all_finite hugef fzero1 fzero1 /\ B2R hugef = bpow radix2 512 /\ unit_col fone1 hugef fzero1 fzero1 = (fzero1, fzero1, fzero1) /\
  ~ all_finite pinf hugef fzero1 /\ no_nan pinf hugef fzero1.
Proof.
  split; [repeat split|]. split.
  { unfold hugef, B2R, F2R. cbn [Fnum Fexp cond_Zopp]. replace (IZR 4503599627370496) with (bpow radix2 52) by (cbn; lra). rewrite <- bpow_plus. reflexivity. }
  split; [|split; [intros (F & _); discriminate|repeat split]].
  destruct (C99_huge_vectors_vanish_refuted fone1 hugef fzero1 fzero1) as (s1 & s2 & s3 & E).
  - repeat split.
  - left. unfold hugef, B2R, F2R. cbn [Fnum Fexp cond_Zopp]. replace (IZR 4503599627370496) with (bpow radix2 52) by (cbn; lra). rewrite <- bpow_plus.
    rewrite Rabs_pos_eq by apply bpow_ge_0. apply bpow_le. lia.
  - vm_compute. reflexivity.
Qed.
