(** * C77: distances in binary64 are exactly symmetric, and exactly zero from a position to itself

    Models one pair of columns of great_circle_distance (core.py 698-702) and euclidean_distance (core.py 730-731)
    in IEEE binary64.  np.cross multiplies and subtracts in separate roundings.  The matrix product [dot] of core.py 699 may be
    computed in any order, with or without fused multiply-add: it is a parameter, only required to treat its
    factors symmetrically.  arctan2 is the C library's; it is a parameter, too. *)
From Coq Require Import ZArith Reals Lia Lra Bool.
From Flocq Require Import Core BinarySingleNaN Operations.
From Verif Require Import FTiny FZero FBase FUnit.
Local Open Scope R_scope.

Definition vec64 : Type := (float64 * float64 * float64)%type.

(** np.cross(a, b, axis=0), core.py 698 *)
Definition fcross (a b : vec64) : vec64 :=
  let '(a0, a1, a2) := a in let '(b0, b1, b2) := b in
  (fsub (fmul a1 b2) (fmul a2 b1), fsub (fmul a2 b0) (fmul a0 b2), fsub (fmul a0 b1) (fmul a1 b0)).
(** norm(vector, axis=0) on one column, e.g. core.py 730 *)
Definition fnorm (a : vec64) : float64 := let '(a0, a1, a2) := a in norm3 a0 a1 a2.
Definition fsubv (a b : vec64) : vec64 :=
  let '(a0, a1, a2) := a in let '(b0, b1, b2) := b in (fsub a0 b0, fsub a1 b1, fsub a2 b2).

(** core.py 698-702 *)
Definition fgreat_circle_distance (dot : vec64 -> vec64 -> float64) (arctan2 : float64 -> float64 -> float64)
    (a b : vec64) (radius : float64) : float64 :=
  fmul (arctan2 (fnorm (fcross a b)) (dot a b)) radius.
(** core.py 730 *)
Definition feuclidean_distance (a b : vec64) (radius : float64) : float64 := fmul (fnorm (fsubv b a)) radius.

(** two ways to compute the dot product *)
Definition dot_seq (a b : vec64) : float64 :=
  let '(a0, a1, a2) := a in let '(b0, b1, b2) := b in fadd (fadd (fmul a0 b0) (fmul a1 b1)) (fmul a2 b2).
Definition ffma (x y z : float64) : float64 := Bfma (prec_gt_0_ := prec64) (prec_lt_emax_ := emax64) mode_NE x y z.
Definition dot_fma (a b : vec64) : float64 :=
  let '(a0, a1, a2) := a in let '(b0, b1, b2) := b in ffma a2 b2 (ffma a1 b1 (fmul a0 b0)).

(** ** products *)
Lemma finite_nan (x : float64) : is_finite x = true -> is_nan x = false. Proof. destruct x; cbn; congruence. Qed.
Lemma fmul_ext x y x' y' : is_finite x = true -> is_finite y = true -> is_finite x' = true -> is_finite y' = true ->
  B2R x * B2R y = B2R x' * B2R y' -> xorb (Bsign x) (Bsign y) = xorb (Bsign x') (Bsign y') -> fmul x y = fmul x' y'.
Proof.
  intros Fx Fy Fx' Fy' E S.
  pose proof (Bmult_correct 53 1024 prec64 emax64 mode_NE x y) as C. fold (fmul x y) in C.
  pose proof (Bmult_correct 53 1024 prec64 emax64 mode_NE x' y') as C'. fold (fmul x' y') in C'.
  rewrite <- E in C'. destruct (Rlt_bool _ _).
  - destruct C as (B & F & Sg). destruct C' as (B' & F' & Sg'). rewrite Fx, Fy in F. rewrite Fx', Fy' in F'. cbn in F, F'.
    apply B2R_Bsign_inj; auto; [congruence|]. rewrite Sg, Sg' by (apply finite_nan; auto). exact S.
  - apply B2SF_inj. rewrite C, C', S. reflexivity.
Qed.
Lemma fmul_comm x y : fmul x y = fmul y x.
Proof.
  destruct (is_finite x) eqn:Fx; [destruct (is_finite y) eqn:Fy|].
  - apply fmul_ext; auto; [ring|apply xorb_comm].
  - destruct x as [s|s| |s m e H], y as [t|t| |t m' e' H']; try discriminate; cbn; try reflexivity; rewrite xorb_comm; reflexivity.
  - destruct x as [s|s| |s m e H], y as [t|t| |t m' e' H']; try discriminate; cbn; try reflexivity; rewrite xorb_comm; reflexivity.
Qed.
Lemma fmul_neg_neg x : fmul (fneg x) (fneg x) = fmul x x.
Proof.
  destruct (is_finite x) eqn:Fx.
  - assert (Fn : is_finite (fneg x) = true) by (destruct x; auto).
    apply fmul_ext; auto; [unfold fneg; rewrite B2R_Bopp; ring|]. rewrite !xorb_nilpotent. reflexivity.
  - destruct x as [s|s| |s m e H]; try discriminate; cbn; [rewrite !xorb_nilpotent; reflexivity|reflexivity].
Qed.
Lemma fmul_zeros s t : fmul (B754_zero s) (B754_zero s) = fmul (B754_zero t) (B754_zero t).
Proof. cbn. rewrite !xorb_nilpotent. reflexivity. Qed.

(** ** differences *)
Lemma zero_of_B2R (x : float64) : is_finite x = true -> B2R x = 0 -> exists s, x = B754_zero s.
Proof.
  destruct x as [s|s| |s m e H]; intros F B; try discriminate; [eauto|]. exfalso. cbn in B.
  apply (eq_0_F2R radix2 (cond_Zopp s (Z.pos m)) e) in B. destruct s; discriminate.
Qed.
Lemma fsub_anti p q : fsub q p = fneg (fsub p q) \/ exists s t, fsub p q = B754_zero s /\ fsub q p = B754_zero t.
Proof.
  destruct (is_finite p) eqn:Fp; [destruct (is_finite q) eqn:Fq|].
  - pose proof (Bminus_correct 53 1024 prec64 emax64 mode_NE p q Fp Fq) as C. fold (fsub p q) in C.
    pose proof (Bminus_correct 53 1024 prec64 emax64 mode_NE q p Fq Fp) as C'. fold (fsub q p) in C'.
    cbn [round_mode] in C, C'. change (SpecFloat.fexp 53 1024) with fexp64 in C, C'.
    assert (E : rnd (B2R q - B2R p) = - rnd (B2R p - B2R q)).
    { replace (B2R q - B2R p) with (- (B2R p - B2R q)) by ring. apply round_NE_opp. }
    rewrite E, Rabs_Ropp in C'. destruct (Rlt_bool _ _) eqn:Ov.
    + destruct C as (B & F & S). destruct C' as (B' & F' & S').
      destruct (Req_dec (B2R p - B2R q) 0) as [Z|Z].
      * right. rewrite Z, round_0 in B by auto with typeclass_instances. rewrite Z, round_0, Ropp_0 in B' by auto with typeclass_instances.
        destruct (zero_of_B2R _ F B) as (s & ->). destruct (zero_of_B2R _ F' B') as (t & ->). eauto.
      * left. apply B2R_Bsign_inj.
        -- exact F'.
        -- unfold fneg. rewrite is_finite_Bopp. exact F.
        -- unfold fneg. rewrite B2R_Bopp, B, B'. reflexivity.
        -- unfold fneg. rewrite Bsign_Bopp by (apply finite_nan; auto). rewrite S, S'.
           destruct (Rcompare_spec (B2R p - B2R q) 0); destruct (Rcompare_spec (B2R q - B2R p) 0); try lra; reflexivity.
    + left. destruct C as (C & Sp). destruct C' as (C' & Sq). apply overflow_inf in C. apply overflow_inf in C'. rewrite C, C'.
      destruct (Bsign p), (Bsign q); cbn in Sp, Sq; try discriminate; reflexivity.
  - left. destruct p as [s|s| |s m e H], q as [t|t| |t m' e' H']; try discriminate; cbn; try reflexivity; rewrite negb_involutive; reflexivity.
  - left. destruct p as [s|s| |s m e H], q as [t|t| |t m' e' H']; try discriminate; cbn; try reflexivity.
    destruct s, t; reflexivity.
Qed.
Lemma fsub_sq p q : fmul (fsub q p) (fsub q p) = fmul (fsub p q) (fsub p q).
Proof.
  destruct (fsub_anti p q) as [-> |(s & t & -> & ->)]; [apply fmul_neg_neg|apply fmul_zeros].
Qed.
Lemma fsub_self p : is_finite p = true -> fsub p p = B754_zero false.
Proof.
  intros F. pose proof (Bminus_correct 53 1024 prec64 emax64 mode_NE p p F F) as C. fold (fsub p p) in C.
  cbn [round_mode] in C. change (SpecFloat.fexp 53 1024) with fexp64 in C. rewrite Rminus_diag_eq, round_0, Rabs_R0 in C by (auto with typeclass_instances).
  rewrite Rlt_bool_true in C by apply bpow_gt_0. destruct C as (B & Fm & S). rewrite Rcompare_Eq in S by reflexivity.
  destruct (zero_of_B2R _ Fm B) as (s & E). rewrite E in *. cbn in S. subst s. destruct (Bsign p); reflexivity.
Qed.

(** ** C77 *)
Definition symmetric_dot (dot : vec64 -> vec64 -> float64) : Prop := forall a b, dot a b = dot b a.

Theorem C77_great_circle_symmetric : forall dot arctan2 a b radius, symmetric_dot dot ->
  fgreat_circle_distance dot arctan2 a b radius = fgreat_circle_distance dot arctan2 b a radius.
Proof.
  intros dot at2 [[a0 a1] a2] [[b0 b1] b2] r D. unfold fgreat_circle_distance. rewrite (D (a0, a1, a2)). f_equal. f_equal.
  unfold fnorm, fcross, norm3. rewrite (fmul_comm b1 a2), (fmul_comm b2 a1), (fmul_comm b2 a0), (fmul_comm b0 a2), (fmul_comm b0 a1), (fmul_comm b1 a0).
  rewrite (fsub_sq (fmul a1 b2) (fmul a2 b1)), (fsub_sq (fmul a2 b0) (fmul a0 b2)), (fsub_sq (fmul a0 b1) (fmul a1 b0)). reflexivity.
Qed.
Print Assumptions C77_great_circle_symmetric.
Theorem C77_euclidean_symmetric : forall a b radius, feuclidean_distance a b radius = feuclidean_distance b a radius.
Proof.
  intros [[a0 a1] a2] [[b0 b1] b2] r. unfold feuclidean_distance. f_equal. unfold fnorm, fsubv, norm3. rewrite (fsub_sq a0), (fsub_sq a1), (fsub_sq a2). reflexivity.
Qed.

(** the usual ways to compute a dot product are symmetric *)
Lemma dot_seq_symmetric : symmetric_dot dot_seq.
Proof. intros [[a0 a1] a2] [[b0 b1] b2]. unfold dot_seq. rewrite (fmul_comm a0), (fmul_comm a1), (fmul_comm a2). reflexivity. Qed.

Lemma ffma_comm x y z : ffma x y z = ffma y x z.
Proof.
  unfold ffma, Bfma. destruct x as [s|s| |s m e H], y as [t|t| |t m' e' H']; try reflexivity;
    destruct z as [w|w| |w mz ez Hz]; try reflexivity; unfold Bfma_szero, Fmult; cbn [Bsign Fnum Fexp];
    rewrite ?(xorb_comm t s), ?(Zmult_comm (cond_Zopp t _)), ?(Zplus_comm e'); reflexivity.
Qed.
Lemma dot_fma_symmetric : symmetric_dot dot_fma.
Proof. intros [[a0 a1] a2] [[b0 b1] b2]. unfold dot_fma. rewrite (fmul_comm a0), (ffma_comm a1), (ffma_comm a2). reflexivity. Qed.

(** the distance from a position to itself is exactly zero *)
Theorem C77_zero_distance : forall dot arctan2 x y z radius, ordinary x y z -> is_finite radius = true ->
  let a := (x, y, z) in
  (forall d : float64, 0 < B2R d -> arctan2 (B754_zero false) d = B754_zero false) -> 0 < B2R (dot a a) ->
  B2R (fgreat_circle_distance dot arctan2 a a radius) = 0 /\ is_finite (fgreat_circle_distance dot arctan2 a a radius) = true /\
  B2R (feuclidean_distance a a radius) = 0 /\ is_finite (feuclidean_distance a a radius) = true.
Proof.
  intros dot at2 x y z r (Fx & Fy & Fz & Hx & Hy & Hz & _) Fr a At Pd. unfold a.
  assert (P : forall p q, is_finite p = true -> is_finite q = true -> Rabs (B2R p) <= bpow radix2 400 -> Rabs (B2R q) <= bpow radix2 400 -> is_finite (fmul p q) = true).
  { intros p q Fp Fq Hp Hq. apply fmul_val; auto. rewrite Rabs_mult.
    apply Rle_trans with (bpow radix2 400 * bpow radix2 400); [apply Rmult_le_compat; try apply Rabs_pos; auto|]. rewrite <- bpow_plus. apply bpow_le. lia. }
  assert (N0 : norm3 (B754_zero false) (B754_zero false) (B754_zero false) = B754_zero false) by reflexivity.
  assert (Z : forall r : float64, is_finite r = true -> B2R (fmul (B754_zero false) r) = 0 /\ is_finite (fmul (B754_zero false) r) = true).
  { intros [s|s| |s m e H] F; try discriminate; cbn; auto. }
  unfold fgreat_circle_distance, feuclidean_distance, fcross, fsubv, fnorm.
  rewrite (fmul_comm z y), (fmul_comm z x), (fmul_comm y x), !fsub_self by (auto; apply P; auto). rewrite N0.
  change (x, y, z) with a. rewrite At by auto. destruct (Z r Fr). auto.
Qed.
Print Assumptions C77_zero_distance.

(** for the sequential dot product the hypothesis on the dot product always holds *)
Lemma dot_seq_self x y z : ordinary x y z -> 0 < B2R (dot_seq (x, y, z) (x, y, z)).
Proof.
  intros O. destruct (sumsq x y z O) as (_ & LS & R). unfold dot_seq. unfold rel in R.
  pose proof (bpow_gt_0 radix2 (-800)). pose proof u_pos. pose proof u_small.
  rewrite (Rabs_right (_ + _ + _)) in R by lra. apply Rabs_le_inv in R. nra.
Qed.
Example C77_example : ordinary (f 6755399441055744 (-51) eq_refl) (f 4503599627370496 (-50) eq_refl) (B754_zero false) /\ symmetric_dot dot_seq /\ symmetric_dot dot_fma.
Proof. split; [apply C76_example|]. split; [apply dot_seq_symmetric|apply dot_fma_symmetric]. Qed.
