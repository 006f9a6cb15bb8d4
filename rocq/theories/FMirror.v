(** * C100: exact symmetries in binary64: mirror images and reversed paths

    Nothing new of the code is modelled here: the definitions are those of FDist.v, FLatLon.v, FEcef.v, FTrack.v, FDelta.v
    and FPoint.v. *)
From Coq Require Import ZArith Reals Lra Lia Bool Psatz.
From Flocq Require Import Core BinarySingleNaN Relative.
From Verif Require Import FTiny FZero FBase FUnit FDist FPi FAngle FGreat FLatLon.
Local Open Scope R_scope.

(** change of sign *)
Definition sg (s : bool) (x : float64) : float64 := if s then fneg x else x.
(** the same double, or zeros of any sign *)
Definition eqz (x y : float64) : Prop := x = y \/ (is_zero_f x = true /\ is_zero_f y = true).
Notation "x ~[ s ] y" := (eqz x (sg s y)) (at level 70).

Lemma eqz_refl x : eqz x x. Proof. left; auto. Qed.
Lemma eqz_sym x y : eqz x y -> eqz y x. Proof. intros [->|(A & B)]; [left; auto|right; auto]. Qed.
Lemma eqz_trans x y z : eqz x y -> eqz y z -> eqz x z.
Proof. intros [->|(A & B)] [->|(C & D)]; [left; auto|right; auto|right; auto|right; auto]. Qed.
Lemma eqz_B2R x y : eqz x y -> B2R x = B2R y.
Proof. intros [->|(A & B)]; auto. destruct x, y; try discriminate; auto. Qed.
Lemma fneg2 x : fneg (fneg x) = x. Proof. unfold fneg. apply Bopp_involutive. Qed.
Lemma is_zero_neg x : is_zero_f (fneg x) = is_zero_f x. Proof. destruct x; auto. Qed.
Lemma is_zero_sg s x : is_zero_f (sg s x) = is_zero_f x. Proof. destruct s; auto. apply is_zero_neg. Qed.
Lemma sg_xorb s t x : sg s (sg t x) = sg (xorb s t) x. Proof. destruct s, t; cbn [sg xorb]; auto. apply fneg2. Qed.
Lemma eqz_neg x y : eqz x y -> eqz (fneg x) (fneg y). Proof. intros [->|(A & B)]; [left; auto|right; rewrite !is_zero_neg; auto]. Qed.
Lemma eqz_sg s x y : eqz x y -> eqz (sg s x) (sg s y). Proof. destruct s; [apply eqz_neg|auto]. Qed.
Lemma eqz_finite (x y : float64) : is_finite x = true -> is_finite y = true -> B2R x = B2R y -> eqz x y.
Proof.
  intros Fx Fy E. destruct (Req_dec (B2R x) 0) as [Z|Z].
  - right. destruct (zero_of_B2R x Fx Z) as (s & ->). rewrite E in Z. destruct (zero_of_B2R y Fy Z) as (t & ->). auto.
  - left. apply B2R_inj; auto; [destruct x|destruct y]; try discriminate; auto; cbn in *; congruence.
Qed.
Lemma sg_B2R s x : B2R (sg s x) = if s then - B2R x else B2R x. Proof. destruct s; auto. apply B2R_Bopp. Qed.
Lemma sg_finite s x : is_finite (sg s x) = is_finite x. Proof. destruct s; auto. apply is_finite_Bopp. Qed.

(** ** the operations *)
Lemma mul_sg s t x y : fmul (sg s x) (sg t y) = sg (xorb s t) (fmul x y).
Proof.
  destruct s, t; cbn [sg xorb]; auto.
  - rewrite fmul_neg_l, fmul_comm, fmul_neg_l, fneg2. apply fmul_comm.
  - apply fmul_neg_l.
  - rewrite fmul_comm, fmul_neg_l. f_equal. apply fmul_comm.
Qed.
Lemma mul_zero_any x x' y : is_zero_f x = true -> is_zero_f x' = true -> eqz (fmul x y) (fmul x' y).
Proof. intros A B. destruct x, x'; try discriminate. destruct y; cbn; [right; auto|left; auto|left; auto|right; auto]. Qed.
Lemma mul_eqz x x' y y' : eqz x x' -> eqz y y' -> eqz (fmul x y) (fmul x' y').
Proof.
  intros X Y. apply eqz_trans with (fmul x' y).
  - destruct X as [->|(A & B)]; [apply eqz_refl|apply mul_zero_any; auto].
  - rewrite (fmul_comm x' y), (fmul_comm x' y'). destruct Y as [->|(A & B)]; [apply eqz_refl|apply mul_zero_any; auto].
Qed.
Lemma mul_pm s t x x' y y' : x ~[s] x' -> y ~[t] y' -> fmul x y ~[xorb s t] fmul x' y'.
Proof. intros X Y. rewrite <- mul_sg. apply mul_eqz; auto. Qed.
Lemma sq_pm s x x' : x ~[s] x' -> fmul x x = fmul x' x'.
Proof.
  intros [->|(A & B)].
  - destruct s; cbn [sg]; auto. apply fmul_neg_neg.
  - rewrite is_zero_sg in B. destruct x, x'; try discriminate. apply fmul_zeros.
Qed.
Lemma overflow_sg s (a b : float64) k : B2SF a = binary_overflow 53 1024 mode_NE k -> B2SF b = binary_overflow 53 1024 mode_NE (xorb s k) -> b = sg s a.
Proof. intros A B. apply overflow_inf in A, B. rewrite A, B. destruct s, k; reflexivity. Qed.
Lemma add_sg s x y : fadd (sg s x) (sg s y) ~[s] fadd x y.
Proof.
  destruct s; [|apply eqz_refl]. cbn [sg].
  destruct (is_finite x) eqn:Fx; [destruct (is_finite y) eqn:Fy|].
  - assert (Gx : is_finite (fneg x) = true) by (unfold fneg; rewrite is_finite_Bopp; auto). assert (Gy : is_finite (fneg y) = true) by (unfold fneg; rewrite is_finite_Bopp; auto).
    pose proof (Bplus_correct 53 1024 prec64 emax64 mode_NE x y Fx Fy) as C. fold (fadd x y) in C.
    pose proof (Bplus_correct 53 1024 prec64 emax64 mode_NE (fneg x) (fneg y) Gx Gy) as C'. fold (fadd (fneg x) (fneg y)) in C'.
    cbn [round_mode] in C, C'. change (SpecFloat.fexp 53 1024) with fexp64 in C, C'.
    assert (E : rnd (B2R (fneg x) + B2R (fneg y)) = - rnd (B2R x + B2R y)).
    { unfold fneg. rewrite !B2R_Bopp. replace (- B2R x + - B2R y) with (- (B2R x + B2R y)) by ring. apply round_NE_opp. }
    rewrite E, Rabs_Ropp in C'. destruct (Rlt_bool _ _).
    + destruct C as (B & F & _). destruct C' as (B' & F' & _). apply eqz_finite; auto; [unfold fneg; rewrite is_finite_Bopp; auto|].
      rewrite B'. unfold fneg at 1. rewrite B2R_Bopp, B. reflexivity.
    + left. destruct C as (C & _). destruct C' as (C' & _). unfold fneg in C' at 3. rewrite Bsign_Bopp in C' by (apply finite_nan; auto).
      apply (overflow_sg true _ _ (Bsign x)); auto.
  - left. destruct x as [s|s| |s m e H], y as [t|t| |t m' e' H']; try discriminate; reflexivity.
  - left. destruct x as [s|s| |s m e H], y as [t|t| |t m' e' H']; try discriminate; try reflexivity. destruct s, t; reflexivity.
Qed.
Lemma add_zero_any x x' y : is_zero_f x = true -> is_zero_f x' = true -> eqz (fadd x y) (fadd x' y).
Proof.
  intros A B. destruct x as [s| | |], x' as [t| | |]; try discriminate. destruct y as [w|w| |w m e H]; [|left; reflexivity|left; reflexivity|left; reflexivity].
  right. destruct s, t, w; auto.
Qed.
Lemma fadd_comm x y : fadd x y = fadd y x.
Proof.
  destruct (is_finite x) eqn:Fx; [destruct (is_finite y) eqn:Fy|].
  - pose proof (Bplus_correct 53 1024 prec64 emax64 mode_NE x y Fx Fy) as C. fold (fadd x y) in C.
    pose proof (Bplus_correct 53 1024 prec64 emax64 mode_NE y x Fy Fx) as C'. fold (fadd y x) in C'.
    rewrite (Rplus_comm (B2R y)) in C'. destruct (Rlt_bool _ _).
    + destruct C as (B & F & S). destruct C' as (B' & F' & S'). apply B2R_Bsign_inj; auto; [congruence|]. rewrite S, S'.
      destruct (Rcompare _ _); auto. cbn. apply andb_comm.
    + destruct C as (C & S). destruct C' as (C' & S'). apply overflow_inf in C, C'. rewrite C, C', S. reflexivity.
  - destruct x as [s|s| |s m e H], y as [t|t| |t m' e' H']; try discriminate; reflexivity.
  - destruct x as [s|s| |s m e H], y as [t|t| |t m' e' H']; try discriminate; try reflexivity. destruct s, t; reflexivity.
Qed.
Lemma add_eqz x x' y y' : eqz x x' -> eqz y y' -> eqz (fadd x y) (fadd x' y').
Proof.
  intros X Y. apply eqz_trans with (fadd x' y).
  - destruct X as [->|(A & B)]; [apply eqz_refl|apply add_zero_any; auto].
  - rewrite (fadd_comm x' y), (fadd_comm x' y'). destruct Y as [->|(A & B)]; [apply eqz_refl|apply add_zero_any; auto].
Qed.
Lemma add_pm s x x' y y' : x ~[s] x' -> y ~[s] y' -> fadd x y ~[s] fadd x' y'.
Proof. intros X Y. eapply eqz_trans; [|apply add_sg]. apply add_eqz; auto. Qed.
Lemma fsub_add x y : fsub x y = fadd x (fneg y).
Proof.
  destruct (is_finite x) eqn:Fx; [destruct (is_finite y) eqn:Fy|].
  - assert (Gy : is_finite (fneg y) = true) by (unfold fneg; rewrite is_finite_Bopp; auto).
    pose proof (Bminus_correct 53 1024 prec64 emax64 mode_NE x y Fx Fy) as C. fold (fsub x y) in C.
    pose proof (Bplus_correct 53 1024 prec64 emax64 mode_NE x (fneg y) Fx Gy) as C'. fold (fadd x (fneg y)) in C'.
    assert (EB : B2R (fneg y) = - B2R y) by (unfold fneg; apply B2R_Bopp). rewrite EB in C'. change (B2R x + - B2R y) with (B2R x - B2R y) in C'. destruct (Rlt_bool _ _).
    + destruct C as (B & F & S). destruct C' as (B' & F' & S'). apply B2R_Bsign_inj; auto; [congruence|]. rewrite S, S'.
      unfold fneg. rewrite Bsign_Bopp by (apply finite_nan; auto). reflexivity.
    + destruct C as (C & S). destruct C' as (C' & S'). apply overflow_inf in C, C'. rewrite C, C'. reflexivity.
  - destruct x as [s|s| |s m e H], y as [t|t| |t m' e' H']; try discriminate; try reflexivity. 
  - destruct x as [s|s| |s m e H], y as [t|t| |t m' e' H']; try discriminate; try reflexivity.
Qed.
Lemma sub_pm s x x' y y' : x ~[s] x' -> y ~[s] y' -> fsub x y ~[s] fsub x' y'.
Proof.
  intros X Y. rewrite !fsub_add. apply add_pm; auto. apply eqz_neg in Y. eapply eqz_trans; [exact Y|]. left. destruct s; reflexivity.
Qed.
Lemma sub_swap x y : fsub y x ~[true] fsub x y.
Proof. destruct (fsub_anti x y) as [->|(s & t & -> & ->)]; [left; auto|right; auto]. Qed.
Lemma div_sg s x d : fdiv (sg s x) d = sg s (fdiv x d).
Proof.
  destruct s; auto. cbn [sg]. destruct (is_finite x) eqn:Fx; [|destruct x, d; try discriminate; cbn; try reflexivity; destruct s, s0; reflexivity].
  destruct d as [t|t| |t m e H]; [destruct x as [s|s| |s m' e' H']; try discriminate; cbn; try reflexivity; destruct s, t; reflexivity
    |destruct x as [s|s| |s m' e' H']; try discriminate; cbn; try reflexivity; destruct s, t; reflexivity
    |destruct x as [s|s| |s m' e' H']; try discriminate; reflexivity|].
  set (d := B754_finite t m e H) in *. assert (D0 : B2R d <> 0). { intros Z. destruct (zero_of_B2R d eq_refl Z) as (k & E). discriminate. }
  pose proof (Bdiv_correct 53 1024 prec64 emax64 mode_NE x d D0) as C. fold (fdiv x d) in C.
  pose proof (Bdiv_correct 53 1024 prec64 emax64 mode_NE (fneg x) d D0) as C'. fold (fdiv (fneg x) d) in C'.
  cbn [round_mode] in C, C'. change (SpecFloat.fexp 53 1024) with fexp64 in C, C'.
  assert (E : rnd (B2R (fneg x) / B2R d) = - rnd (B2R x / B2R d)).
  { unfold fneg. rewrite !B2R_Bopp. replace (- B2R x / B2R d) with (- (B2R x / B2R d)) by (unfold Rdiv; ring). apply round_NE_opp. }
  rewrite E, Rabs_Ropp in C'. assert (SB : Bsign (fneg x) = negb (Bsign x)) by (unfold fneg; rewrite Bsign_Bopp by (apply finite_nan; auto); auto).
  destruct (Rlt_bool _ _).
  - destruct C as (B & F & S). destruct C' as (B' & F' & S'). unfold fneg in F' at 2. rewrite is_finite_Bopp in F'. rewrite Fx in F, F'.
    apply B2R_Bsign_inj; auto; [unfold fneg; rewrite is_finite_Bopp; auto| |].
    + rewrite B'. unfold fneg at 1. rewrite B2R_Bopp, B. reflexivity.
    + rewrite S' by (apply finite_nan; auto). assert (SR : Bsign (fneg (fdiv x d)) = negb (Bsign (fdiv x d))) by (unfold fneg; apply Bsign_Bopp, finite_nan; auto).
      rewrite SR, S by (apply finite_nan; auto). rewrite SB. destruct (Bsign x), (Bsign d); reflexivity.
  - rewrite SB in C'. apply (overflow_sg true _ _ (xorb (Bsign x) (Bsign d))); auto. rewrite C'. f_equal. destruct (Bsign x), (Bsign d); reflexivity.
Qed.
Lemma div_pm s x x' d : x ~[s] x' -> fdiv x d ~[s] fdiv x' d.
Proof.
  intros [->|(A & B)]; [left; apply div_sg|]. rewrite is_zero_sg in B. destruct x as [a| | |], x' as [b| | |]; try discriminate.
  destruct d as [t|t| |t m e H]; [left; destruct s; reflexivity|right|left; destruct s; reflexivity|right]; rewrite ?is_zero_sg; auto.
Qed.
