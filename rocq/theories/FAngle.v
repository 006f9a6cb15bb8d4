(** * C79: degrees and radians in binary64 (util.py 260-321)

    numpy's rad2deg(x) and deg2rad(x) are x * (180.0/pi) and x * (pi/180.0) with the quotients rounded once
    (npy_math: NPY_PI is the double [pi64]). *)
From Coq Require Import ZArith Reals Lia Lra Bool Psatz.
From Flocq Require Import Core BinarySingleNaN.
From Verif Require Import FTiny FBase FPi.
Local Open Scope R_scope.

Definition f180 : float64 := f 6333186975989760 (-45) eq_refl.
Definition f90 : float64 := f 6333186975989760 (-46) eq_refl.
(** half of np.pi: what arctan2(1, 0) returns *)
Definition half_pi64 : float64 := f 7074237752028440 (-52) eq_refl.
(** np.pi / 180, the factor of np.deg2rad called by rad, util.py 292-321 *)
Definition d2r : float64 := fdiv pi64 f180.
(** 180 / np.pi, the factor of np.rad2deg called by deg, util.py 256-289 *)
Definition r2d : float64 := fdiv f180 pi64.
(** util.py 318-321 and 287-289, one angle *)
Definition frad (x : float64) : float64 := fmul x d2r.
Definition fdeg (x : float64) : float64 := fmul x r2d.

Lemma f180_val : B2R f180 = 180. Proof. unfold f180, f, B2R, F2R; cbn. lra. Qed.
Lemma d2r_eq : d2r = f 5030569068109113 (-58) eq_refl.
Proof. apply B2SF_inj. vm_compute. reflexivity. Qed.
Lemma r2d_eq : r2d = f 8063664102031864 (-47) eq_refl.
Proof. apply B2SF_inj. vm_compute. reflexivity. Qed.
Lemma d2r_val : B2R d2r = 5030569068109113 / 288230376151711744.
Proof. rewrite d2r_eq. unfold f, B2R, F2R; cbn. lra. Qed.
Lemma r2d_val : B2R r2d = 8063664102031864 / 140737488355328.
Proof. rewrite r2d_eq. unfold f, B2R, F2R; cbn. lra. Qed.
Lemma u_val : u = / 9007199254740992. Proof. unfold u; cbn; lra. Qed.

(** ** values *)
Definition moderate (x : float64) : Prop := is_finite x = true /\ Rabs (B2R x) <= bpow radix2 1000.

Lemma scale_val x (c : float64) : is_finite c = true -> 0 < B2R c <= 64 -> moderate x ->
  is_finite (fmul x c) = true /\ B2R (fmul x c) = rnd (B2R x * B2R c) /\ Rabs (B2R (fmul x c)) <= bpow radix2 1006.
Proof.
  intros Fc Bc (Fx & Bx).
  assert (W : Rabs (B2R x * B2R c) <= bpow radix2 1006).
  { change 1006%Z with (1000 + 6)%Z. rewrite bpow_plus, Rabs_mult. change (bpow radix2 6) with 64. rewrite (Rabs_right (B2R c)) by lra.
    apply Rmult_le_compat; auto; try apply Rabs_pos; lra. }
  destruct (fmul_val x c Fx Fc) as (F & E). { eapply Rle_trans; [exact W|]. apply bpow_le. lia. }
  split; auto. split; auto. rewrite E. apply rnd_abs_le; auto. lia.
Qed.

(** ** accuracy *)
Lemma rad_ratio : Rabs (B2R d2r - PI / 180) <= u * (PI / 180).
Proof. pose proof pi_bounds as P. rewrite pi64_val in P. rewrite d2r_val, u_val. apply Rabs_le. lra. Qed.
Lemma deg_ratio : Rabs (B2R r2d - 180 / PI) <= u * (180 / PI).
Proof.
  pose proof pi_bounds as P. rewrite pi64_val in P. rewrite r2d_val, u_val. pose proof PI_RGT_0 as P0.
  assert (I : PI * (180 / PI) = 180) by (field; lra). set (w := 180 / PI) in *. assert (0 < w) by (unfold w; apply Rdiv_lt_0_compat; lra).
  set (q := 7074237752028440 / 2251799813685248) in *. set (c := 8063664102031864 / 140737488355328).
  (* q c is close to 180 *)
  assert (Q : Rabs (q * c - 180) <= 180 * (6 / 10 * / 9007199254740992)) by (unfold q, c; apply Rabs_le; lra).
  apply Rabs_le_inv in Q. set (d := PI - q). assert (D : 12 / 100000000000000000 <= d <= 13 / 100000000000000000) by (unfold d; lra).
  assert (E : PI * (c - w) = (q * c - 180) + d * c) by (rewrite Rmult_minus_distr_l, I; unfold d; ring).
  assert (DC : 0 <= d * c <= 13 / 100000000000000000 * c) by (split; [unfold c; nra|apply Rmult_le_compat_r; [unfold c; lra|lra]]).
  assert (B : - (180 * / 9007199254740992) <= PI * (c - w) <= 180 * / 9007199254740992) by (rewrite E; assert (c <= 58) by (unfold c; lra); lra).
  rewrite <- I in B. apply Rabs_le. split.
  - apply (Rmult_le_reg_l PI); auto. lra.
  - apply (Rmult_le_reg_l PI); auto. lra.
Qed.

Lemma scale_err (x c : float64) C : is_finite c = true -> 0 < B2R c <= 64 -> 0 < C -> Rabs (B2R c - C) <= u * C -> moderate x ->
  is_finite (fmul x c) = true /\ Rabs (B2R (fmul x c) - B2R x * C) <= 21 / 10 * u * Rabs (B2R x * C) + eta.
Proof.
  intros Fc Bc PC HC Mx. pose proof u_pos as Pu. pose proof u_small as Su. destruct (scale_val x c Fc Bc Mx) as (F & E & _).
  split; auto. rewrite E. destruct (rnd_err (B2R x * B2R c)) as (e & h & He & Hh & ->).
  replace (B2R x * B2R c * (1 + e) + h - B2R x * C) with (B2R x * (B2R c - C) + B2R x * B2R c * e + h) by ring.
  eapply Rle_trans; [apply Rabs_triang|]. eapply Rle_trans; [apply Rplus_le_compat_r, Rabs_triang|]. rewrite !Rabs_mult, (Rabs_right C) by lra.
  pose proof (Rabs_pos (B2R x)) as PX. set (X := Rabs (B2R x)) in *.
  assert (A1 : X * Rabs (B2R c - C) <= X * (u * C)) by (apply Rmult_le_compat_l; auto).
  assert (A2 : Rabs (B2R c) <= C + u * C). { apply Rabs_le_inv in HC. rewrite Rabs_right by lra. lra. }
  assert (A3 : X * Rabs (B2R c) * Rabs e <= X * (C + u * C) * u) by (apply Rmult_le_compat; auto; [apply Rmult_le_pos; auto; apply Rabs_pos|apply Rabs_pos|apply Rmult_le_compat_l; auto]).
  assert (0 <= X * C) by (apply Rmult_le_pos; lra). assert (0 <= X * C * u) by (apply Rmult_le_pos; lra).
  assert (X * C * u * u <= X * C * u * (1 / 10)) by (apply Rmult_le_compat_l; lra). lra.
Qed.

Lemma d2r_ok : is_finite d2r = true /\ 0 < B2R d2r <= 64. Proof. split; [rewrite d2r_eq; reflexivity|rewrite d2r_val; lra]. Qed.
Lemma r2d_ok : is_finite r2d = true /\ 0 < B2R r2d <= 64. Proof. split; [rewrite r2d_eq; reflexivity|rewrite r2d_val; lra]. Qed.

(** rad and deg are right to 2.1 units of roundoff (plus underflow) *)
Theorem C79_accuracy : forall x, moderate x ->
  is_finite (frad x) = true /\ is_finite (fdeg x) = true /\
  Rabs (B2R (frad x) - B2R x * (PI / 180)) <= 21 / 10 * u * Rabs (B2R x * (PI / 180)) + eta /\
  Rabs (B2R (fdeg x) - B2R x * (180 / PI)) <= 21 / 10 * u * Rabs (B2R x * (180 / PI)) + eta.
Proof.
  intros x M. pose proof PI_RGT_0 as P0. destruct d2r_ok as (F1 & B1). destruct r2d_ok as (F2 & B2).
  destruct (scale_err x d2r (PI / 180) F1 B1 ltac:(lra) rad_ratio M) as (G1 & D1).
  destruct (scale_err x r2d (180 / PI) F2 B2 ltac:(apply Rdiv_lt_0_compat; lra) deg_ratio M) as (G2 & D2).
  repeat split; auto.
Qed.

(** ** going to the other unit and back *)
Theorem C79_round_trip : forall x, is_finite x = true -> bpow radix2 (-1000) <= Rabs (B2R x) <= bpow radix2 990 ->
  Rabs (B2R (fdeg (frad x)) - B2R x) <= 9 / 4 * u * Rabs (B2R x) /\ Rabs (B2R (frad (fdeg x)) - B2R x) <= 9 / 4 * u * Rabs (B2R x).
Proof.
  intros x Fx (Lx & Ux). pose proof u_pos as Pu. pose proof u_small as Su. destruct d2r_ok as (F1 & B1). destruct r2d_ok as (F2 & B2).
  assert (K : forall c d : float64, is_finite c = true -> 0 < B2R c <= 64 -> is_finite d = true -> 0 < B2R d <= 64 -> / 64 <= B2R c -> / 64 <= B2R d -> Rabs (B2R c * B2R d - 1) <= 2 / 10 * u ->
    Rabs (B2R (fmul (fmul x c) d) - B2R x) <= 9 / 4 * u * Rabs (B2R x)).
  { intros c d Fc Bc Fd Bd Lc Ld HC.
    assert (M : moderate x). { split; auto. eapply Rle_trans; [exact Ux|]. apply bpow_le. lia. }
    destruct (scale_val x c Fc Bc M) as (F & E & _).
    assert (N1 : bpow radix2 (-1006) <= Rabs (B2R x * B2R c)).
    { rewrite Rabs_mult, (Rabs_right (B2R c)) by lra. change (-1006)%Z with (-1000 + -6)%Z. rewrite bpow_plus. change (bpow radix2 (-6)) with (/ 64).
      apply Rmult_le_compat; auto; [apply bpow_ge_0|lra]. }
    destruct (rnd_err_normal (B2R x * B2R c)) as (e & He & Ee). { eapply Rle_trans; [|exact N1]. apply bpow_le. lia. }
    rewrite Ee in E. apply Rabs_le_inv in He.
    assert (AY : Rabs (B2R (fmul x c)) = Rabs (B2R x) * B2R c * (1 + e)). { rewrite E, !Rabs_mult, (Rabs_right (B2R c)), (Rabs_right (1 + e)) by lra. reflexivity. }
    pose proof (bpow_gt_0 radix2 (-1000)) as P1. 
    assert (M2 : moderate (fmul x c)).
    { split; auto. rewrite AY. replace (bpow radix2 1000) with (bpow radix2 990 * 1024) by (change 1000%Z with (990 + 10)%Z; rewrite bpow_plus; reflexivity).
      rewrite Rmult_assoc. apply Rmult_le_compat; auto; try lra; nra. }
    destruct (scale_val (fmul x c) d Fd Bd M2) as (F' & E' & _). rewrite E'.
    destruct (rnd_err_normal (B2R (fmul x c) * B2R d)) as (e' & He' & Ee').
    { rewrite Rabs_mult, AY, (Rabs_right (B2R d)) by lra.
      apply Rle_trans with (bpow radix2 (-1000) * / 64 * (1 / 2) * / 64).
      - replace (bpow radix2 (-1000) * / 64 * (1 / 2) * / 64) with (bpow radix2 (-1013)); [apply bpow_le; lia|].
        change (-1013)%Z with (-1000 + -13)%Z. rewrite bpow_plus. change (bpow radix2 (-13)) with (/ 8192). lra.
      - assert (bpow radix2 (-1000) * / 64 <= Rabs (B2R x) * B2R c) by (apply Rmult_le_compat; lra).
        assert (bpow radix2 (-1000) * / 64 * (1 / 2) <= Rabs (B2R x) * B2R c * (1 + e)) by (apply Rmult_le_compat; lra).
        apply Rmult_le_compat; lra. }
    rewrite Ee', E. apply Rabs_le_inv in He'.
    replace (B2R x * B2R c * (1 + e) * B2R d * (1 + e') - B2R x) with (B2R x * ((B2R c * B2R d) * ((1 + e) * (1 + e')) - 1)) by ring.
    rewrite Rabs_mult, (Rmult_comm (9 / 4 * u)). apply Rmult_le_compat_l; [apply Rabs_pos|].
    set (g := B2R c * B2R d) in *. apply Rabs_le_inv in HC.
    assert (G : (1 - u) * (1 - u) <= (1 + e) * (1 + e') <= (1 + u) * (1 + u)) by (split; apply Rmult_le_compat; lra).
    apply Rabs_le. split.
    - assert ((1 - 2 / 10 * u) * ((1 - u) * (1 - u)) <= g * ((1 + e) * (1 + e'))) by (apply Rmult_le_compat; try lra; nra).
      nra.
    - assert (g * ((1 + e) * (1 + e')) <= (1 + 2 / 10 * u) * ((1 + u) * (1 + u))) by (apply Rmult_le_compat; try lra; nra). nra. }
  split; apply K; auto; rewrite ?d2r_val, ?r2d_val, ?u_val; try lra; apply Rabs_le; lra.
Qed.

(** ** exact facts: oddness, monotonicity, limits *)
Lemma fmul_neg_l x c : fmul (fneg x) c = fneg (fmul x c).
Proof.
  pose proof (Bmult_correct 53 1024 prec64 emax64 mode_NE x c) as C. fold (fmul x c) in C.
  pose proof (Bmult_correct 53 1024 prec64 emax64 mode_NE (fneg x) c) as C'. fold (fmul (fneg x) c) in C'.
  unfold fneg in *. rewrite B2R_Bopp in C'. replace (- B2R x * B2R c) with (- (B2R x * B2R c)) in C' by ring.
  cbn [round_mode] in C, C'. rewrite round_NE_opp, Rabs_Ropp in C'.
  destruct (is_finite x) eqn:Fx; [destruct (is_finite c) eqn:Fc|].
  - destruct (Rlt_bool _ _).
    + destruct C as (B & F & S). destruct C' as (B' & F' & S'). rewrite is_finite_Bopp, Fx in F'.
      apply B2R_Bsign_inj; [rewrite F'; reflexivity|rewrite is_finite_Bopp, F; reflexivity|rewrite B', B2R_Bopp, B; reflexivity|].
      assert (NN : forall w : float64, is_finite w = true -> is_nan w = false) by (intros w; destruct w; auto; discriminate).
      rewrite Bsign_Bopp by (apply NN; rewrite F; reflexivity). rewrite S, S' by (apply NN; auto).
      rewrite Bsign_Bopp by (apply NN; auto). destruct (Bsign x), (Bsign c); reflexivity.
    + apply B2SF_inj. rewrite C'. assert (NN : is_nan x = false) by (destruct x; auto; discriminate). rewrite Bsign_Bopp by auto.
      assert (G : forall w : float64, B2SF (Bopp w) = SpecFloat.SFopp (B2SF w)) by (intros w; destruct w; reflexivity).
      rewrite G, C. destruct (Bsign x), (Bsign c); reflexivity.
  - destruct x, c; try discriminate; cbn; try reflexivity; destruct s, s0; reflexivity.
  - destruct x, c; try discriminate; cbn; try reflexivity; destruct s, s0; reflexivity.
Qed.
Theorem C79_odd : forall x, frad (fneg x) = fneg (frad x) /\ fdeg (fneg x) = fneg (fdeg x).
Proof. intros x. split; apply fmul_neg_l. Qed.

Theorem C79_monotone : forall x y, moderate x -> moderate y -> B2R x <= B2R y ->
  B2R (frad x) <= B2R (frad y) /\ B2R (fdeg x) <= B2R (fdeg y).
Proof.
  intros x y Mx My L. destruct d2r_ok as (F1 & B1). destruct r2d_ok as (F2 & B2).
  split; unfold frad, fdeg; [destruct (scale_val x d2r F1 B1 Mx) as (_ & -> & _); destruct (scale_val y d2r F1 B1 My) as (_ & -> & _)
    |destruct (scale_val x r2d F2 B2 Mx) as (_ & -> & _); destruct (scale_val y r2d F2 B2 My) as (_ & -> & _)];
    apply round_le; auto with typeclass_instances; apply Rmult_le_compat_r; lra.
Qed.

Lemma limits : frad f90 = half_pi64 /\ frad f180 = pi64 /\ fdeg half_pi64 = f90 /\ fdeg pi64 = f180.
Proof. repeat split; apply B2SF_inj; vm_compute; reflexivity. Qed.

Lemma within (g : float64 -> float64) (m b : float64) : (forall x, g (fneg x) = fneg (g x)) ->
  (forall x y, moderate x -> moderate y -> B2R x <= B2R y -> B2R (g x) <= B2R (g y)) -> g m = b ->
  is_finite m = true -> Rabs (B2R m) <= bpow radix2 1000 ->
  forall x, is_finite x = true -> Rabs (B2R x) <= B2R m -> Rabs (B2R (g x)) <= B2R b.
Proof.
  intros O M E Fm Bm x Fx H. pose proof (Rle_abs (B2R m)).
  assert (Mm : moderate m) by (split; auto). assert (Mx : moderate x) by (split; [auto|lra]).
  assert (Mn : moderate (fneg m)). { split; [unfold fneg; rewrite is_finite_Bopp; auto|]. unfold fneg. rewrite B2R_Bopp, Rabs_Ropp. auto. }
  apply Rabs_le_inv in H. apply Rabs_le. split.
  - rewrite <- E. replace (- B2R (g m)) with (B2R (g (fneg m))) by (rewrite O; unfold fneg; apply B2R_Bopp).
    apply M; auto. unfold fneg. rewrite B2R_Bopp. lra.
  - rewrite <- E. apply M; auto. lra.
Qed.

(** latitudes and longitudes in range in one unit are in range in the other *)
Theorem C79_range : forall x, is_finite x = true ->
  (Rabs (B2R x) <= 90 -> Rabs (B2R (frad x)) <= B2R half_pi64) /\
  (Rabs (B2R x) <= 180 -> Rabs (B2R (frad x)) <= B2R pi64) /\
  (Rabs (B2R x) <= B2R half_pi64 -> Rabs (B2R (fdeg x)) <= 90) /\
  (Rabs (B2R x) <= B2R pi64 -> Rabs (B2R (fdeg x)) <= 180).
Proof.
  intros x Fx. destruct limits as (L1 & L2 & L3 & L4).
  assert (V90 : B2R f90 = 90) by (unfold f90, f, B2R, F2R; cbn; lra). assert (VH : B2R half_pi64 = 7074237752028440 / 4503599627370496) by (unfold half_pi64, f, B2R, F2R; cbn; lra).
  assert (Big : 256 <= bpow radix2 1000). { apply Rle_trans with (bpow radix2 8); [cbn; lra|apply bpow_le; lia]. }
  assert (MR : forall x y, moderate x -> moderate y -> B2R x <= B2R y -> B2R (frad x) <= B2R (frad y)) by (intros; apply C79_monotone; auto).
  assert (MD : forall x y, moderate x -> moderate y -> B2R x <= B2R y -> B2R (fdeg x) <= B2R (fdeg y)) by (intros; apply C79_monotone; auto).
  assert (OR : forall x, frad (fneg x) = fneg (frad x)) by (intros; apply C79_odd). assert (OD : forall x, fdeg (fneg x) = fneg (fdeg x)) by (intros; apply C79_odd).
  split; [|split; [|split]]; intros H.
  - apply (within frad f90 half_pi64 OR MR L1); auto; rewrite V90; auto. rewrite Rabs_right; lra.
  - apply (within frad f180 pi64 OR MR L2); auto; rewrite f180_val; auto. rewrite Rabs_right; lra.
  - rewrite <- V90. apply (within fdeg half_pi64 f90 OD MD L3); auto. rewrite VH, Rabs_right; lra.
  - rewrite <- f180_val. apply (within fdeg pi64 f180 OD MD L4); auto. rewrite pi64_val, Rabs_right; lra.
Qed.

Example C79_example : moderate f90 /\ bpow radix2 (-1000) <= Rabs (B2R f90) <= bpow radix2 990 /\ Rabs (B2R f90) <= 90 /\ B2SF (fdeg (frad f90)) = B2SF f90.
Proof.
  assert (V90 : B2R f90 = 90) by (unfold f90, f, B2R, F2R; cbn; lra). unfold moderate. rewrite V90, Rabs_right by lra.
  assert (90 <= bpow radix2 990). { apply Rle_trans with (bpow radix2 8); [cbn; lra|apply bpow_le; lia]. }
  assert (bpow radix2 990 <= bpow radix2 1000) by (apply bpow_le; lia).
  assert (bpow radix2 (-1000) <= 1). { change 1 with (bpow radix2 0). apply bpow_le; lia. }
  repeat split; try lra; try reflexivity.
Qed.
