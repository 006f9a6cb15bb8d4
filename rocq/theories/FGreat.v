(** * C78: accuracy of great_circle_distance in binary64 (core.py 698-702) *)
From Coq Require Import ZArith Reals Lia Lra Bool Psatz.
From Flocq Require Import Core BinarySingleNaN.
From Verif Require Import Spec LVec LAngle FTiny FZero FBase FUnit FDist.
Local Open Scope R_scope.

(** the exact vector of a vector of doubles *)
Definition vec_of (a : vec64) : vec := let '(x, y, z) := a in V (B2R x) (B2R y) (B2R z).

(** a unit vector as unit() computes it (C76): finite components, length 1 within 6 units of roundoff *)
Definition near_unit (a : vec64) : Prop :=
  let '(x, y, z) := a in is_finite x = true /\ is_finite y = true /\ is_finite z = true /\ Rabs (length3 x y z - 1) <= 6 * u.

(** what is required of the C library's arctan2 at a point of the upper half plane with polar angle t (its ordinate not -0):
    an error of at most one unit in the last place *)
Definition good_arctan2 (arctan2 : float64 -> float64 -> float64) : Prop :=
  forall s c t r, is_finite s = true -> is_finite c = true -> Bsign s = false -> 0 <= t <= PI -> 0 < r ->
    B2R s = r * sin t -> B2R c = r * cos t ->
    is_finite (arctan2 s c) = true /\ Rabs (B2R (arctan2 s c) - t) <= 2 * u * t + 2 * eta.
(** what is required of the dot product: absolute error 4u on unit vectors *)
Definition good_dot (dot : vec64 -> vec64 -> float64) : Prop :=
  forall a b, near_unit a -> near_unit b ->
    is_finite (dot a b) = true /\ Rabs (B2R (dot a b) - vdot (vec_of a) (vec_of b)) <= 4 * u.

(** ** a norm of any three doubles that are not huge *)
Lemma small_norm x y z : is_finite x = true -> is_finite y = true -> is_finite z = true ->
  Rabs (B2R x) <= bpow radix2 (-400) -> Rabs (B2R y) <= bpow radix2 (-400) -> Rabs (B2R z) <= bpow radix2 (-400) ->
  is_finite (norm3 x y z) = true /\ 0 <= B2R (norm3 x y z) <= bpow radix2 (-399).
Proof.
  intros Fx Fy Fz Hx Hy Hz. 
  assert (Q : forall w : float64, is_finite w = true -> Rabs (B2R w) <= bpow radix2 (-400) ->
    is_finite (fmul w w) = true /\ 0 <= B2R (fmul w w) <= bpow radix2 (-800)).
  { intros w Fw Hw. assert (W : 0 <= B2R w * B2R w <= bpow radix2 (-800)).
    { split; [nra|]. replace (bpow radix2 (-800)) with (bpow radix2 (-400) * bpow radix2 (-400)) by (rewrite <- bpow_plus; reflexivity).
      replace (B2R w * B2R w) with (Rabs (B2R w) * Rabs (B2R w)) by (rewrite <- Rabs_mult; apply Rabs_right; nra).
      pose proof (Rabs_pos (B2R w)). apply Rmult_le_compat; auto. }
    destruct (fmul_val w w Fw Fw) as (F & E). { rewrite Rabs_right by lra. eapply Rle_trans; [apply W|]. apply bpow_le. lia. }
    split; auto. rewrite E. split.
    - rewrite <- (round_0 radix2 fexp64 ZnearestE). apply round_le; auto with typeclass_instances. lra.
    - eapply Rle_trans; [apply Rle_abs|]. apply rnd_abs_le; [lia|]. rewrite Rabs_right; lra. }
  destruct (Q x Fx Hx) as (Fa & Ba). destruct (Q y Fy Hy) as (Fb & Bb). destruct (Q z Fz Hz) as (Fc & Bc).
  assert (A : forall (p q : float64) e, (-1074 <= e)%Z -> (e + 1 <= 1023)%Z -> is_finite p = true -> is_finite q = true ->
    0 <= B2R p <= bpow radix2 e -> 0 <= B2R q <= bpow radix2 e -> is_finite (fadd p q) = true /\ 0 <= B2R (fadd p q) <= bpow radix2 (e + 1)).
  { intros p q e He1 He2 Fp Fq Bp Bq. assert (W : 0 <= B2R p + B2R q <= bpow radix2 (e + 1)).
    { split; [lra|]. rewrite bpow_plus. change (bpow radix2 1) with 2. lra. }
    destruct (fadd_val p q Fp Fq) as (F & E). { rewrite Rabs_right by lra. eapply Rle_trans; [apply W|]. apply bpow_le. lia. }
    split; auto. rewrite E. split.
    - rewrite <- (round_0 radix2 fexp64 ZnearestE). apply round_le; auto with typeclass_instances. lra.
    - eapply Rle_trans; [apply Rle_abs|]. apply rnd_abs_le; [lia|]. rewrite Rabs_right; lra. }
  destruct (A _ _ (-800)%Z ltac:(lia) ltac:(lia) Fa Fb Ba Bb) as (F1 & B1). change (-800 + 1)%Z with (-799)%Z in B1.
  destruct (A _ _ (-799)%Z ltac:(lia) ltac:(lia) F1 Fc B1) as (F2 & B2). { split; [lra|]. eapply Rle_trans; [apply Bc|]. apply bpow_le. lia. }
  change (-799 + 1)%Z with (-798)%Z in B2. unfold norm3. set (s := fadd (fadd (fmul x x) (fmul y y)) (fmul z z)) in *.
  pose proof (Bsqrt_correct 53 1024 prec64 emax64 mode_NE s) as (B & F & _). fold (fsqrt s) in B, F.
  cbn [round_mode] in B. change (SpecFloat.fexp 53 1024) with fexp64 in B. split.
  - rewrite F. destruct s as [b|b| |[|] m e H]; try discriminate; auto.
    exfalso. assert (X : B2R (B754_finite true m e H) < 0) by (apply F2R_lt_0; reflexivity). lra.
  - rewrite B. assert (W : 0 <= sqrt (B2R s) <= bpow radix2 (-399)).
    { split; [apply sqrt_pos|]. replace (bpow radix2 (-399)) with (sqrt (bpow radix2 (-798))); [apply sqrt_le_1_alt; lra|].
      change (-798)%Z with (-399 + -399)%Z. rewrite bpow_plus. apply sqrt_square, bpow_ge_0. }
    split.
    + rewrite <- (round_0 radix2 fexp64 ZnearestE). apply round_le; auto with typeclass_instances. lra.
    + eapply Rle_trans; [apply Rle_abs|]. apply rnd_abs_le; [lia|]. rewrite Rabs_right; lra.
Qed.

Lemma length3_vnorm x y z : length3 x y z = vnorm (vec_of (x, y, z)).
Proof. unfold length3, vnorm, vdot, vec_of; cbn [Spec.vx Spec.vy Spec.vz]. f_equal. Qed.

Lemma any_norm x y z : is_finite x = true -> is_finite y = true -> is_finite z = true ->
  Rabs (B2R x) <= bpow radix2 400 -> Rabs (B2R y) <= bpow radix2 400 -> Rabs (B2R z) <= bpow radix2 400 ->
  is_finite (norm3 x y z) = true /\ 0 <= B2R (norm3 x y z) /\
  Rabs (B2R (norm3 x y z) - length3 x y z) <= 3 * u * length3 x y z + bpow radix2 (-399).
Proof.
  intros Fx Fy Fz Hx Hy Hz. pose proof u_pos as Pu. pose proof u_small as Su. pose proof (bpow_gt_0 radix2 (-399)) as P3.
  assert (PL : 0 <= length3 x y z) by apply sqrt_pos.
  destruct (Rle_dec (bpow radix2 (-400)) (Rabs (B2R x))) as [G|G];
    [|destruct (Rle_dec (bpow radix2 (-400)) (Rabs (B2R y))) as [G'|G'];
      [|destruct (Rle_dec (bpow radix2 (-400)) (Rabs (B2R z))) as [G''|G'']]].
  1-3: assert (O : ordinary x y z) by (unfold ordinary; intuition);
    destruct (C76_norm_accuracy x y z O) as (F & R & L); split; auto; split; [apply Rabs_le_inv in R; nra|lra].
  destruct (small_norm x y z Fx Fy Fz) as (F & B); try lra. split; auto. split; [lra|].
  assert (LL : length3 x y z <= bpow radix2 (-399)).
  { unfold length3. replace (bpow radix2 (-399)) with (sqrt (bpow radix2 (-798))).
    - apply sqrt_le_1_alt. assert (W : forall w, Rabs w <= bpow radix2 (-400) -> w * w <= bpow radix2 (-800)).
      { intros w Hw. replace (bpow radix2 (-800)) with (bpow radix2 (-400) * bpow radix2 (-400)) by (rewrite <- bpow_plus; reflexivity).
        replace (w * w) with (Rabs w * Rabs w) by (rewrite <- Rabs_mult; apply Rabs_right; nra). pose proof (Rabs_pos w). apply Rmult_le_compat; auto. }
      change (-798)%Z with (-800 + 2)%Z. rewrite bpow_plus. change (bpow radix2 2) with 4.
      pose proof (W (B2R x) ltac:(lra)). pose proof (W (B2R y) ltac:(lra)). pose proof (W (B2R z) ltac:(lra)). pose proof (bpow_gt_0 radix2 (-800)). lra.
    - change (-798)%Z with (-399 + -399)%Z. rewrite bpow_plus. apply sqrt_square, bpow_ge_0. }
  assert (0 <= 3 * u * length3 x y z) by (apply Rmult_le_pos; lra).
  apply Rabs_le. lra.
Qed.

(** ** one component of the cross product *)
Lemma comp_err p q r t : is_finite p = true -> is_finite q = true -> is_finite r = true -> is_finite t = true ->
  Rabs (B2R p) <= 2 -> Rabs (B2R q) <= 2 -> Rabs (B2R r) <= 2 -> Rabs (B2R t) <= 2 ->
  let c := fsub (fmul p q) (fmul r t) in
  is_finite c = true /\
  Rabs (B2R c - (B2R p * B2R q - B2R r * B2R t)) <= (2 * u + 2 * (u * u)) * (Rabs (B2R p) * Rabs (B2R q) + Rabs (B2R r) * Rabs (B2R t)) + 3 * eta.
Proof.
  intros Fp Fq Fr Ft Hp Hq Hr Ht c. pose proof u_pos as Pu. pose proof u_small as Su. pose proof eta_pos as Pe.
  assert (M : forall a b : float64, is_finite a = true -> is_finite b = true -> Rabs (B2R a) <= 2 -> Rabs (B2R b) <= 2 ->
    exists m, is_finite (fmul a b) = true /\ B2R (fmul a b) = m /\ Rabs (m - B2R a * B2R b) <= u * (Rabs (B2R a) * Rabs (B2R b)) + eta /\ Rabs m <= 4).
  { intros a b Fa Fb Ha Hb. assert (W : Rabs (B2R a * B2R b) <= bpow radix2 2).
    { rewrite Rabs_mult. change (bpow radix2 2) with (2 * 2). apply Rmult_le_compat; try apply Rabs_pos; auto. }
    destruct (fmul_val a b Fa Fb) as (F & E). { eapply Rle_trans; [apply W|]. apply bpow_le. lia. }
    exists (rnd (B2R a * B2R b)). split; auto. split; auto. split.
    - destruct (rnd_err (B2R a * B2R b)) as (e & h & He & Hh & ->).
      replace (B2R a * B2R b * (1 + e) + h - B2R a * B2R b) with (B2R a * B2R b * e + h) by ring.
      eapply Rle_trans; [apply Rabs_triang|]. rewrite !Rabs_mult.
      assert (0 <= Rabs (B2R a) * Rabs (B2R b)) by (apply Rmult_le_pos; apply Rabs_pos).
      assert (Rabs (B2R a) * Rabs (B2R b) * Rabs e <= Rabs (B2R a) * Rabs (B2R b) * u) by (apply Rmult_le_compat_l; auto). lra.
    - change 4 with (bpow radix2 2). apply rnd_abs_le; [lia|auto]. }
  destruct (M p q Fp Fq Hp Hq) as (m & Fm & Em & Dm & Bm). destruct (M r t Fr Ft Hr Ht) as (n & Fn & En & Dn & Bn).
  destruct (fsub_val _ _ Fm Fn) as (F & E).
  { rewrite Em, En. apply Rle_trans with (bpow radix2 3); [|apply bpow_le; lia]. change (bpow radix2 3) with 8.
    unfold Rminus. eapply Rle_trans; [apply Rabs_triang|]. rewrite Rabs_Ropp. lra. }
  split; auto. unfold c. rewrite E, Em, En.
  destruct (rnd_add_err m (- n)) as (e & He & R). { rewrite <- Em. apply format64. } { apply generic_format_opp. rewrite <- En. apply format64. }
  unfold Rminus at 2. rewrite R.
  set (P := Rabs (B2R p) * Rabs (B2R q)) in *. set (Q := Rabs (B2R r) * Rabs (B2R t)) in *.
  assert (PP : 0 <= P) by (apply Rmult_le_pos; apply Rabs_pos). assert (PQ : 0 <= Q) by (apply Rmult_le_pos; apply Rabs_pos).
  set (pq := B2R p * B2R q) in *. set (rt := B2R r * B2R t) in *.
  assert (Apq : Rabs pq = P) by apply Rabs_mult. assert (Art : Rabs rt = Q) by apply Rabs_mult.
  replace ((m + - n) * (1 + e) - (pq - rt)) with ((m - pq) + - (n - rt) + ((m - pq) + - (n - rt)) * e + (pq + - rt) * e) by ring.
  assert (T0 : Rabs (m - pq + - (n - rt)) <= u * (P + Q) + 2 * eta). { eapply Rle_trans; [apply Rabs_triang|]. rewrite Rabs_Ropp. lra. }
  assert (T1 : Rabs (pq + - rt) <= P + Q). { eapply Rle_trans; [apply Rabs_triang|]. rewrite Rabs_Ropp. lra. }
  eapply Rle_trans; [apply Rabs_triang|]. eapply Rle_trans; [apply Rplus_le_compat_r, Rabs_triang|]. rewrite !Rabs_mult.
  assert (T2 : Rabs (m - pq + - (n - rt)) * Rabs e <= (u * (P + Q) + 2 * eta) * u) by (apply Rmult_le_compat; try apply Rabs_pos; auto).
  assert (T3 : Rabs (pq + - rt) * Rabs e <= (P + Q) * u) by (apply Rmult_le_compat; try apply Rabs_pos; auto).
  assert (0 <= (P + Q) * (u * u)) by (apply Rmult_le_pos; nra). assert (2 * eta * u <= eta) by nra. nra.
Qed.

(** ** the norm is never -0 *)
Lemma sq_sign (x : float64) : is_finite x = true -> Rabs (B2R x) <= bpow radix2 400 -> Bsign (fmul x x) = false.
Proof.
  intros Fx Hx. pose proof (Bmult_correct 53 1024 prec64 emax64 mode_NE x x) as C. fold (fmul x x) in C.
  destruct (sq_val x Fx Hx) as (a & F & _). destruct (Rlt_bool _ _).
  - destruct C as (_ & _ & S). rewrite S by (apply finite_nan; auto). apply xorb_nilpotent.
  - exfalso. destruct (fmul x x); try discriminate; cbn in C; destruct (xorb _ _); discriminate.
Qed.
Lemma add_sign (x y : float64) : is_finite x = true -> is_finite y = true -> is_finite (fadd x y) = true ->
  Bsign x = false -> Bsign y = false -> Bsign (fadd x y) = false.
Proof.
  intros Fx Fy F Sx Sy. pose proof (Bplus_correct 53 1024 prec64 emax64 mode_NE x y Fx Fy) as C. fold (fadd x y) in C.
  assert (Q : forall w : float64, Bsign w = false -> 0 <= B2R w).
  { intros [b|b| |b m e H]; cbn; intros E; try lra. subst. apply F2R_ge_0. cbn. lia. }
  destruct (Rlt_bool _ _).
  - destruct C as (_ & _ & S). rewrite S. pose proof (Q x Sx). pose proof (Q y Sy).
    destruct (Rcompare_spec (B2R x + B2R y) 0); auto; [lra|]. rewrite Sx, Sy. reflexivity.
  - exfalso. destruct C as (C & _). destruct (fadd x y); try discriminate; cbn in C; destruct (Bsign x); discriminate.
Qed.
Lemma norm_sign x y z : is_finite x = true -> is_finite y = true -> is_finite z = true ->
  Rabs (B2R x) <= bpow radix2 400 -> Rabs (B2R y) <= bpow radix2 400 -> Rabs (B2R z) <= bpow radix2 400 ->
  Bsign (norm3 x y z) = false.
Proof.
  intros Fx Fy Fz Hx Hy Hz. destruct (any_norm x y z) as (F & _); auto.
  destruct (sq_val x Fx Hx) as (a & Fa & Ea & _ & Ba). destruct (sq_val y Fy Hy) as (b & Fb & Eb & _ & Bb).
  destruct (sq_val z Fz Hz) as (c & Fc & Ec & _ & Bc).
  assert (P : 0 < bpow radix2 800) by apply bpow_gt_0.
  assert (K : bpow radix2 801 = 2 * bpow radix2 800). { change 801%Z with (1 + 800)%Z. rewrite bpow_plus. reflexivity. }
  assert (K2 : bpow radix2 802 = 4 * bpow radix2 800). { change 802%Z with (2 + 800)%Z. rewrite bpow_plus. reflexivity. }
  destruct (fadd_val (fmul x x) (fmul y y) Fa Fb) as (F1 & E1).
  { rewrite Ea, Eb, Rabs_right by lra. apply Rle_trans with (bpow radix2 801); [lra|apply bpow_le; lia]. }
  assert (B1 : Rabs (B2R (fadd (fmul x x) (fmul y y))) <= bpow radix2 801).
  { rewrite E1. apply rnd_abs_le; [lia|]. rewrite Ea, Eb, Rabs_right by lra. lra. }
  destruct (fadd_val _ _ F1 Fc) as (F2 & E2).
  { apply Rle_trans with (bpow radix2 802); [|apply bpow_le; lia]. eapply Rle_trans; [apply Rabs_triang|]. rewrite Ec, (Rabs_right c) by lra. lra. }
  assert (S : Bsign (fadd (fadd (fmul x x) (fmul y y)) (fmul z z)) = false).
  { apply add_sign; auto; [apply add_sign; auto|]; apply sq_sign; auto. }
  unfold norm3 in *. set (s := fadd _ (fmul z z)) in *.
  pose proof (Bsqrt_correct 53 1024 prec64 emax64 mode_NE s) as (_ & _ & G). fold (fsqrt s) in G. rewrite G; auto.
  apply finite_nan, F.
Qed.

(** ** the norm of the cross product *)
Lemma norm_perturb a d : Rabs (vnorm (vadd a d) - vnorm a) <= vnorm d.
Proof.
  pose proof (norm_triangle a d). pose proof (norm_triangle (vadd a d) (vneg d)) as T.
  replace (vadd (vadd a d) (vneg d)) with a in T by vring. rewrite vnorm_neg in T. apply Rabs_le. lra.
Qed.
Lemma vadd_sub_id (a b : vec) : a = vadd b (vsub a b).
Proof. vring. Qed.
Lemma amgm p q : p * q <= (p * p + q * q) / 2.
Proof. pose proof (Rle_0_sqr (p - q)) as S. unfold Rsqr in S. lra. Qed.
Lemma norm_sum3 d : vnorm d <= Rabs (vx d) + Rabs (vy d) + Rabs (vz d).
Proof.
  unfold vnorm. rewrite <- (sqrt_square (Rabs (vx d) + Rabs (vy d) + Rabs (vz d))).
  2:{ pose proof (Rabs_pos (vx d)). pose proof (Rabs_pos (vy d)). pose proof (Rabs_pos (vz d)). lra. }
  apply sqrt_le_1_alt. unfold vdot.
  assert (Q : forall w, w * w = Rabs w * Rabs w). { intros w. rewrite <- Rabs_mult. symmetry. apply Rabs_right. nra. }
  rewrite (Q (vx d)), (Q (vy d)), (Q (vz d)). pose proof (Rabs_pos (vx d)). pose proof (Rabs_pos (vy d)). pose proof (Rabs_pos (vz d)). nra.
Qed.
Lemma comp_bound x y z : near_unit (x, y, z) -> is_finite x = true /\ is_finite y = true /\ is_finite z = true /\ Rabs (B2R x) <= 2 /\ Rabs (B2R y) <= 2 /\ Rabs (B2R z) <= 2 /\ (1 - 6 * u) * (1 - 6 * u) <= B2R x * B2R x + B2R y * B2R y + B2R z * B2R z <= (1 + 6 * u) * (1 + 6 * u).
Proof.
  intros (Fx & Fy & Fz & L). pose proof u_pos. pose proof u_small. apply Rabs_le_inv in L.
  assert (P : 0 <= length3 x y z) by apply sqrt_pos.
  assert (Q : length3 x y z * length3 x y z = B2R x * B2R x + B2R y * B2R y + B2R z * B2R z). { unfold length3. apply sqrt_sqrt. nra. }
  assert (B : length3 x y z * length3 x y z <= 4) by nra.
  assert (W : forall w, w * w <= 4 -> Rabs w <= 2). { intros w Hw. apply Rabs_le. nra. }
  repeat (split; auto).
  - apply W. nra. - apply W. nra. - apply W. nra.
  - rewrite <- Q. nra. - rewrite <- Q. nra.
Qed.

Lemma tiny_consts : 9 * eta + bpow radix2 (-399) <= u / 100.
Proof.
  assert (E : eta <= bpow radix2 (-63) / 8).
  { replace (bpow radix2 (-63) / 8) with (bpow radix2 (-66)). apply bpow_le; lia.
    change (-66)%Z with (-63 + -3)%Z. rewrite bpow_plus. cbn [bpow]. change (Z.pow_pos radix2 3) with 8%Z. lra. }
  assert (G : bpow radix2 (-399) <= bpow radix2 (-63)) by (apply bpow_le; lia).
  assert (U : u = 1024 * bpow radix2 (-63)). { unfold u. change (-53)%Z with (10 + -63)%Z. rewrite bpow_plus. cbn [bpow]. change (Z.pow_pos radix2 10) with 1024%Z. reflexivity. }
  pose proof (bpow_gt_0 radix2 (-63)). lra.
Qed.

Lemma cross_err a b : near_unit a -> near_unit b ->
  is_finite (fnorm (fcross a b)) = true /\ Bsign (fnorm (fcross a b)) = false /\ 0 <= B2R (fnorm (fcross a b)) /\
  Rabs (B2R (fnorm (fcross a b)) - vnorm (vcross (vec_of a) (vec_of b))) <= 71 / 10 * u.
Proof.
  destruct a as [[a0 a1] a2], b as [[b0 b1] b2]. intros Na Nb. pose proof u_pos as Pu. pose proof u_small as Su. pose proof eta_pos as Pe. pose proof tiny_consts as TC.
  destruct (comp_bound _ _ _ Na) as (Fa0 & Fa1 & Fa2 & Ha0 & Ha1 & Ha2 & La).
  destruct (comp_bound _ _ _ Nb) as (Fb0 & Fb1 & Fb2 & Hb0 & Hb1 & Hb2 & Lb). clear Na Nb.
  unfold fcross, fnorm.
  destruct (comp_err a1 b2 a2 b1) as (Fx & Dx); auto. destruct (comp_err a2 b0 a0 b2) as (Fy & Dy); auto. destruct (comp_err a0 b1 a1 b0) as (Fz & Dz); auto.
  set (cx := fsub (fmul a1 b2) (fmul a2 b1)) in *. set (cy := fsub (fmul a2 b0) (fmul a0 b2)) in *. set (cz := fsub (fmul a0 b1) (fmul a1 b0)) in *.
  unfold vec_of at 1 2. set (X := vcross _ _). set (d := vsub (vec_of (cx, cy, cz)) X).
  assert (EX : vec_of (cx, cy, cz) = vadd X d) by apply vadd_sub_id.
  assert (Sum : Rabs (vx d) + Rabs (vy d) + Rabs (vz d) <= 401 / 100 * u + 9 * eta).
  { unfold d, X, vec_of, vsub, vcross; cbn [Spec.vx Spec.vy Spec.vz].
    assert (Q : forall w, w * w = Rabs w * Rabs w). { intros w. rewrite <- Rabs_mult. symmetry. apply Rabs_right. nra. }
    rewrite (Q (B2R a0)), (Q (B2R a1)), (Q (B2R a2)) in La. rewrite (Q (B2R b0)), (Q (B2R b1)), (Q (B2R b2)) in Lb.
    set (A0 := Rabs (B2R a0)) in *. set (A1 := Rabs (B2R a1)) in *. set (A2 := Rabs (B2R a2)) in *.
    set (B0 := Rabs (B2R b0)) in *. set (B1 := Rabs (B2R b1)) in *. set (B2 := Rabs (B2R b2)) in *.
    set (N := A1 * B2 + A2 * B1 + (A2 * B0 + A0 * B2) + (A0 * B1 + A1 * B0)).
    assert (HN : N <= 2 * ((1 + 6 * u) * (1 + 6 * u))).
    { pose proof amgm as T.
      pose proof (T A1 B2). pose proof (T A2 B1). pose proof (T A2 B0). pose proof (T A0 B2). pose proof (T A0 B1). pose proof (T A1 B0). unfold N. lra. }
    assert (PE : 0 < 2 * u + 2 * (u * u)) by nra.
    assert (HM : (2 * u + 2 * (u * u)) * N <= (2 * u + 2 * (u * u)) * (2 * ((1 + 6 * u) * (1 + 6 * u)))) by (apply Rmult_le_compat_l; lra).
    apply Rle_trans with ((2 * u + 2 * (u * u)) * N + 9 * eta); [unfold N; lra|]. apply Rplus_le_compat_r.
    eapply Rle_trans; [exact HM|]. replace ((2 * u + 2 * (u * u)) * (2 * ((1 + 6 * u) * (1 + 6 * u)))) with (u * (4 * (1 + u) * ((1 + 6 * u) * (1 + 6 * u)))) by ring.
    rewrite (Rmult_comm (401 / 100)). apply Rmult_le_compat_l; [lra|]. nra. }
  assert (ND : vnorm d <= 401 / 100 * u + 9 * eta) by (eapply Rle_trans; [apply norm_sum3|exact Sum]).
  assert (VA : vnorm (V (B2R a0) (B2R a1) (B2R a2)) * vnorm (V (B2R a0) (B2R a1) (B2R a2)) <= (1 + 6 * u) * (1 + 6 * u)) by (rewrite vnorm_sq; unfold vdot; cbn [Spec.vx Spec.vy Spec.vz]; lra).
  assert (VB : vnorm (V (B2R b0) (B2R b1) (B2R b2)) * vnorm (V (B2R b0) (B2R b1) (B2R b2)) <= (1 + 6 * u) * (1 + 6 * u)) by (rewrite vnorm_sq; unfold vdot; cbn [Spec.vx Spec.vy Spec.vz]; lra).
  assert (NX : vnorm X <= 1 + 1 / 1000).
  { pose proof (vcross_norm_sq (V (B2R a0) (B2R a1) (B2R a2)) (V (B2R b0) (B2R b1) (B2R b2))) as C. fold X in C.
    pose proof (vnorm_pos X). set (p := vnorm (V (B2R a0) (B2R a1) (B2R a2)) * _) in *. set (q := vnorm (V (B2R b0) (B2R b1) (B2R b2)) * _) in *.
    assert (0 <= p) by (unfold p; nra). assert (0 <= q) by (unfold q; nra).
    assert (p <= 1 + 1 / 10000) by nra. assert (q <= 1 + 1 / 10000) by nra.
    assert (p * q <= (1 + 1 / 10000) * (1 + 1 / 10000)) by (apply Rmult_le_compat; auto).
    match type of C with _ = _ - ?w * ?w => assert (0 <= w * w) by nra end. nra. }
  assert (PX : 0 <= vnorm X) by apply vnorm_pos.
  pose proof (norm_perturb X d) as NP. rewrite <- EX in NP. apply Rabs_le_inv in NP.
  pose proof (bpow_gt_0 radix2 (-399)) as P3. assert (LB : vnorm (vec_of (cx, cy, cz)) <= 1 + 2 / 1000) by lra.
  assert (CB : Rabs (B2R cx) <= 2 /\ Rabs (B2R cy) <= 2 /\ Rabs (B2R cz) <= 2).
  { pose proof (vnorm_pos (vec_of (cx, cy, cz))) as P0. pose proof (vnorm_sq (vec_of (cx, cy, cz))) as S0. unfold vdot, vec_of in S0; cbn [Spec.vx Spec.vy Spec.vz] in S0. fold (vec_of (cx, cy, cz)) in S0.
    change (V (B2R cx) (B2R cy) (B2R cz)) with (vec_of (cx, cy, cz)) in S0.
    assert (W : forall w, w * w <= 4 -> Rabs w <= 2). { intros w Hw. apply Rabs_le. nra. }
    repeat split; apply W; nra. }
  destruct CB as (Cx & Cy & Cz).
  assert (B2' : 2 <= bpow radix2 400). { change 2 with (bpow radix2 1). apply bpow_le; lia. }
  destruct (any_norm cx cy cz) as (F & P & E); auto; try lra.
  split; auto. split; [apply norm_sign; auto; lra|]. split; auto.
  rewrite length3_vnorm in E.
  assert (3 * u * vnorm (vec_of (cx, cy, cz)) <= 301 / 100 * u).
  { replace (301 / 100 * u) with (u * (301 / 100)) by ring. replace (3 * u * vnorm (vec_of (cx, cy, cz))) with (u * (3 * vnorm (vec_of (cx, cy, cz)))) by ring.
    apply Rmult_le_compat_l; [lra|]. lra. }
  apply Rabs_le_inv in E. apply Rabs_le. lra.
Qed.

(** ** the plain dot product meets the requirement *)
Lemma mul_err2 (p q : float64) : is_finite p = true -> is_finite q = true -> Rabs (B2R p) <= 2 -> Rabs (B2R q) <= 2 ->
  is_finite (fmul p q) = true /\ Rabs (B2R (fmul p q) - B2R p * B2R q) <= u * (Rabs (B2R p) * Rabs (B2R q)) + eta.
Proof.
  intros Fa Fb Ha Hb. assert (W : Rabs (B2R p * B2R q) <= bpow radix2 2).
  { rewrite Rabs_mult. change (bpow radix2 2) with (2 * 2). apply Rmult_le_compat; try apply Rabs_pos; auto. }
  destruct (fmul_val p q Fa Fb) as (F & E). { eapply Rle_trans; [apply W|]. apply bpow_le. lia. }
  split; auto. rewrite E. destruct (rnd_err (B2R p * B2R q)) as (e & h & He & Hh & ->).
  replace (B2R p * B2R q * (1 + e) + h - B2R p * B2R q) with (B2R p * B2R q * e + h) by ring.
  eapply Rle_trans; [apply Rabs_triang|]. rewrite !Rabs_mult.
  assert (0 <= Rabs (B2R p) * Rabs (B2R q)) by (apply Rmult_le_pos; apply Rabs_pos).
  assert (Rabs (B2R p) * Rabs (B2R q) * Rabs e <= Rabs (B2R p) * Rabs (B2R q) * u) by (apply Rmult_le_compat_l; auto). lra.
Qed.
Lemma add_err (p q : float64) : is_finite p = true -> is_finite q = true -> Rabs (B2R p + B2R q) <= bpow radix2 1023 ->
  is_finite (fadd p q) = true /\ Rabs (B2R (fadd p q) - (B2R p + B2R q)) <= u * Rabs (B2R p + B2R q).
Proof.
  intros Fp Fq H. destruct (fadd_val p q Fp Fq H) as (F & E). split; auto. rewrite E.
  destruct (rnd_add_err (B2R p) (B2R q)) as (e & He & ->); try apply format64.
  replace ((B2R p + B2R q) * (1 + e) - (B2R p + B2R q)) with (e * (B2R p + B2R q)) by ring. rewrite Rabs_mult.
  apply Rmult_le_compat_r; [apply Rabs_pos|auto].
Qed.

Lemma good_dot_seq : good_dot dot_seq.
Proof.
  intros [[a0 a1] a2] [[b0 b1] b2] Na Nb. pose proof u_pos as Pu. pose proof u_small as Su. pose proof eta_pos as Pe. pose proof tiny_consts as TC. pose proof (bpow_gt_0 radix2 (-399)) as P3.
  destruct (comp_bound _ _ _ Na) as (Fa0 & Fa1 & Fa2 & Ha0 & Ha1 & Ha2 & La).
  destruct (comp_bound _ _ _ Nb) as (Fb0 & Fb1 & Fb2 & Hb0 & Hb1 & Hb2 & Lb). clear Na Nb.
  unfold dot_seq, vec_of, vdot; cbn [Spec.vx Spec.vy Spec.vz].
  destruct (mul_err2 a0 b0) as (F0 & D0); auto. destruct (mul_err2 a1 b1) as (F1 & D1); auto. destruct (mul_err2 a2 b2) as (F2 & D2); auto.
  set (m0 := fmul a0 b0) in *. set (m1 := fmul a1 b1) in *. set (m2 := fmul a2 b2) in *.
  set (p0 := B2R a0 * B2R b0) in *. set (p1 := B2R a1 * B2R b1) in *. set (p2 := B2R a2 * B2R b2) in *.
  set (q0 := Rabs (B2R a0) * Rabs (B2R b0)) in *. set (q1 := Rabs (B2R a1) * Rabs (B2R b1)) in *. set (q2 := Rabs (B2R a2) * Rabs (B2R b2)) in *.
  assert (E0 : Rabs p0 = q0) by apply Rabs_mult. assert (E1 : Rabs p1 = q1) by apply Rabs_mult. assert (E2 : Rabs p2 = q2) by apply Rabs_mult.
  assert (Z0 : 0 <= q0) by (rewrite <- E0; apply Rabs_pos). assert (Z1 : 0 <= q1) by (rewrite <- E1; apply Rabs_pos). assert (Z2 : 0 <= q2) by (rewrite <- E2; apply Rabs_pos).
  assert (Q : q0 + q1 + q2 <= (1 + 6 * u) * (1 + 6 * u)).
  { assert (T : forall p q, Rabs p * Rabs q <= (p * p + q * q) / 2).
    { intros p q. replace (p * p) with (Rabs p * Rabs p) by (rewrite <- Rabs_mult; apply Rabs_right; nra).
      replace (q * q) with (Rabs q * Rabs q) by (rewrite <- Rabs_mult; apply Rabs_right; nra). apply amgm. }
    pose proof (T (B2R a0) (B2R b0)). pose proof (T (B2R a1) (B2R b1)). pose proof (T (B2R a2) (B2R b2)). unfold q0, q1, q2. lra. }
  assert (Q' : q0 + q1 + q2 <= 1 + 1 / 1000) by nra.
  assert (M : forall x p q : R, Rabs (x - p) <= u * q + eta -> Rabs p = q -> 0 <= q -> Rabs x <= q + u * q + eta).
  { intros x p q H E Hq. replace x with (x - p + p) by ring. eapply Rle_trans; [apply Rabs_triang|]. lra. }
  pose proof (M _ _ _ D0 E0 Z0) as G0. pose proof (M _ _ _ D1 E1 Z1) as G1. pose proof (M _ _ _ D2 E2 Z2) as G2.
  assert (Eu : eta <= u) by lra.
  assert (C3 : 3 <= bpow radix2 1023). { apply Rle_trans with (bpow radix2 2); [cbn; lra|apply bpow_le; lia]. }
  assert (S1 : Rabs (B2R m0 + B2R m1) <= 1 + 2 / 1000). { eapply Rle_trans; [apply Rabs_triang|]. nra. }
  destruct (add_err m0 m1 F0 F1) as (Fs & Ds); [lra|]. set (s := fadd m0 m1) in *.
  assert (DS : Rabs (B2R s - (B2R m0 + B2R m1)) <= u * (1002 / 1000)) by (eapply Rle_trans; [exact Ds|apply Rmult_le_compat_l; lra]).
  assert (S2 : Rabs (B2R s + B2R m2) <= 1 + 3 / 1000).
  { replace (B2R s + B2R m2) with (B2R s - (B2R m0 + B2R m1) + (B2R m0 + B2R m1 + B2R m2)) by ring. eapply Rle_trans; [apply Rabs_triang|].
    assert (Rabs (B2R m0 + B2R m1 + B2R m2) <= 1 + 2 / 1000).
    { eapply Rle_trans; [apply Rabs_triang|]. eapply Rle_trans; [apply Rplus_le_compat_r, Rabs_triang|]. nra. } nra. }
  destruct (add_err s m2 Fs F2) as (Ft & Dt); [lra|]. split; auto.
  assert (DT : Rabs (B2R (fadd s m2) - (B2R s + B2R m2)) <= u * (1003 / 1000)) by (eapply Rle_trans; [exact Dt|apply Rmult_le_compat_l; lra]).
  assert (DM : u * q0 + eta + (u * q1 + eta) + (u * q2 + eta) <= u * (1001 / 1000) + u / 100).
  { assert (u * (q0 + q1 + q2) <= u * (1001 / 1000)) by (apply Rmult_le_compat_l; lra). lra. }
  apply Rabs_le_inv in D0. apply Rabs_le_inv in D1. apply Rabs_le_inv in D2. apply Rabs_le_inv in DS. apply Rabs_le_inv in DT. apply Rabs_le. lra.
Qed.

(** ** sensitivity of the polar angle *)
Lemma xcos_le_sin x : 0 <= x <= PI / 2 -> x * cos x <= sin x.
Proof.
  intros (H0 & H1). destruct H0 as [H0|<-]; [|rewrite sin_0; lra].
  set (f := fun t => sin t - t * cos t).
  destruct (MVT_cor2 f (fun t => t * sin t) 0 x H0) as (c & E & Hc).
  { intros c _. unfold f. replace (c * sin c) with (cos c - (1 * cos c + c * - sin c)) by ring.
    apply (derivable_pt_lim_minus sin (id * cos)%F); [apply derivable_pt_lim_sin|].
    apply (derivable_pt_lim_mult id cos); [apply derivable_pt_lim_id|apply derivable_pt_lim_cos]. }
  assert (P : 0 <= c * sin c) by (apply Rmult_le_pos; [lra|apply sin_ge_0; pose proof PI_RGT_0; lra]).
  unfold f in E. rewrite sin_0 in E. nra.
Qed.

Lemma abs_angle t : - PI <= t <= PI -> 0 < cos t -> Rabs t * cos t <= Rabs (sin t).
Proof.
  intros B C. assert (H : - (PI / 2) < t < PI / 2).
  { pose proof PI_RGT_0. split; apply Rnot_le_lt; intros N.
    - assert (cos t <= 0) by (rewrite <- cos_neg; apply cos_le_0; lra). lra.
    - assert (cos t <= 0) by (apply cos_le_0; lra). lra. }
  destruct (Rle_dec 0 t).
  - rewrite (Rabs_right t) by lra. eapply Rle_trans; [apply xcos_le_sin; lra|]. apply Rle_abs.
  - rewrite (Rabs_left t) by lra. pose proof (xcos_le_sin (- t) ltac:(lra)) as X. rewrite cos_neg, sin_neg in X.
    eapply Rle_trans; [exact X|]. rewrite <- Rabs_Ropp. apply Rle_abs.
Qed.

Lemma polar s c : 0 <= s -> 0 < s * s + c * c -> exists r t, 0 < r /\ 0 <= t <= PI /\ s = r * sin t /\ c = r * cos t /\ r * r = s * s + c * c.
Proof.
  intros Hs Hp. set (r := sqrt (s * s + c * c)). assert (Pr : 0 < r) by (apply sqrt_lt_R0; auto).
  assert (Sr : r * r = s * s + c * c) by (apply sqrt_sqrt; lra).
  assert (B : -1 <= c / r <= 1).
  { apply Rabs_le_inv. unfold Rdiv. rewrite Rabs_mult, Rabs_inv, (Rabs_right r) by lra.
    apply (Rmult_le_reg_r r); auto. rewrite Rmult_assoc, Rinv_l, Rmult_1_r, Rmult_1_l by lra. apply Rabs_le. split; nra. }
  exists r, (acos (c / r)). split; auto. split; [apply acos_bound|]. split; [|split; [rewrite cos_acos by auto; field; lra|auto]].
  rewrite sin_acos by auto. replace (1 - (c / r)²) with ((s / r) * (s / r)).
  - rewrite sqrt_square by (apply Rmult_le_pos; [auto|left; apply Rinv_0_lt_compat; auto]). field. lra.
  - unfold Rsqr. apply (Rmult_eq_reg_r (r * r)); [|nra]. field_simplify; lra.
Qed.

Lemma angle_sensitivity r t s' c' r' t' ds dc : 0 < r -> 0 <= t <= PI -> 0 < r' -> 0 <= t' <= PI ->
  s' = r' * sin t' -> c' = r' * cos t' -> Rabs (s' - r * sin t) <= ds -> Rabs (c' - r * cos t) <= dc -> ds + dc <= r / 2 ->
  Rabs (t' - t) * (r - (ds + dc)) <= ds + dc.
Proof.
  intros Pr Bt Pr' Bt' Es Ec Ds Dc Small.
  set (x := s' - r * sin t) in *. set (y := c' - r * cos t) in *.
  assert (S : r' * sin (t' - t) = x * cos t - y * sin t).
  { rewrite sin_minus. unfold x, y. rewrite Es, Ec. ring. }
  assert (C : r' * cos (t' - t) = r + (x * sin t + y * cos t)).
  { rewrite cos_minus. unfold x, y. rewrite Es, Ec. pose proof (sin2_cos2 t) as T. unfold Rsqr in T.
    transitivity (r' * cos t' * cos t + r' * sin t' * sin t + r * (1 - (sin t * sin t + cos t * cos t))); [rewrite T; ring|ring]. }
  assert (K : forall p q, Rabs p <= 1 -> Rabs q <= 1 -> Rabs (x * p + y * q) <= ds + dc).
  { intros p q Hp Hq. eapply Rle_trans; [apply Rabs_triang|]. rewrite !Rabs_mult.
    assert (Rabs x * Rabs p <= ds * 1) by (apply Rmult_le_compat; auto; apply Rabs_pos).
    assert (Rabs y * Rabs q <= dc * 1) by (apply Rmult_le_compat; auto; apply Rabs_pos). lra. }
  assert (As : Rabs (sin t) <= 1) by (apply Rabs_le; apply SIN_bound). assert (Ac : Rabs (cos t) <= 1) by (apply Rabs_le; apply COS_bound).
  assert (KS : Rabs (r' * sin (t' - t)) <= ds + dc).
  { rewrite S. replace (x * cos t - y * sin t) with (x * cos t + y * - sin t) by ring. apply K; auto. rewrite Rabs_Ropp. auto. }
  pose proof (K (sin t) (cos t) As Ac) as KC. apply Rabs_le_inv in KC.
  assert (PC : r - (ds + dc) <= r' * cos (t' - t)) by (rewrite C; lra).
  assert (P0 : 0 < cos (t' - t)) by nra.
  pose proof (abs_angle (t' - t) ltac:(lra) P0) as A.
  rewrite Rabs_mult, (Rabs_right r') in KS by lra.
  pose proof (Rabs_pos (t' - t)) as PA.
  apply Rle_trans with (Rabs (t' - t) * (r' * cos (t' - t))); [apply Rmult_le_compat_l; auto|].
  replace (Rabs (t' - t) * (r' * cos (t' - t))) with (r' * (Rabs (t' - t) * cos (t' - t))) by ring.
  eapply Rle_trans; [apply Rmult_le_compat_l; [lra|exact A]|]. exact KS.
Qed.

Lemma PI_33 : PI < 33 / 10.
Proof. destruct (PI_ineq 3) as (_ & H). cbn [sum_f_R0 Nat.mul Nat.add] in H. unfold tg_alt, PI_tg in H. cbn in H. lra. Qed.

Theorem C78_angle_accuracy dot arctan2 a b : good_arctan2 arctan2 -> good_dot dot -> near_unit a -> near_unit b ->
  is_finite (arctan2 (fnorm (fcross a b)) (dot a b)) = true /\
  Rabs (B2R (arctan2 (fnorm (fcross a b)) (dot a b)) - angle (vec_of a) (vec_of b)) <= 18 * u.
Proof.
  intros GA GD Na Nb. pose proof u_pos as Pu. pose proof u_small as Su. pose proof tiny_consts as TC. pose proof (bpow_gt_0 radix2 (-399)) as P3.
  destruct (cross_err a b Na Nb) as (Fs & Ss & Ps & Ds). destruct (GD a b Na Nb) as (Fc & Dc).
  assert (NA : forall w, near_unit w -> 1 - 6 * u <= vnorm (vec_of w) <= 1 + 6 * u).
  { intros [[x y] z] (_ & _ & _ & L). rewrite length3_vnorm in L. apply Rabs_le_inv in L. lra. }
  pose proof (NA a Na) as La. pose proof (NA b Nb) as Lb.
  assert (Za : vec_of a <> v0). { intros E. rewrite E, vnorm_v0 in La. lra. }
  assert (Zb : vec_of b <> v0). { intros E. rewrite E, vnorm_v0 in Lb. lra. }
  pose proof (angle_range (vec_of a) (vec_of b)) as Bt. rewrite (sin_angle _ _ Za Zb) in Ds. rewrite (dot_angle _ _ Za Zb) in Dc.
  set (r := vnorm (vec_of a) * vnorm (vec_of b)) in *. set (t := angle (vec_of a) (vec_of b)) in *.
  assert (Br : 1 - 13 * u <= r <= 1 + 13 * u) by (unfold r; nra).
  set (s' := fnorm (fcross a b)) in *. set (c' := dot a b) in *.
  assert (NZ : 0 < B2R s' * B2R s' + B2R c' * B2R c').
  { apply Rnot_le_lt. intros N. assert (B2R s' = 0) by nra. assert (B2R c' = 0) by nra. rewrite H in Ds. rewrite H0 in Dc.
    pose proof (sin2_cos2 t) as T. unfold Rsqr in T. apply Rabs_le_inv in Ds. apply Rabs_le_inv in Dc.
    assert (U1 : -(1 / 100) <= r * sin t <= 1 / 100) by nra. assert (U2 : -(1 / 100) <= r * cos t <= 1 / 100) by nra.
    assert (R1 : 99 / 100 <= r) by nra. assert ((r * sin t) * (r * sin t) + (r * cos t) * (r * cos t) = r * r) by nra. nra. }
  destruct (polar (B2R s') (B2R c') Ps NZ) as (r' & t' & Pr' & Bt' & Es & Ec & _).
  destruct (GA s' c' t' r') as (F & D); auto. split; auto.
  pose proof (angle_sensitivity r t (B2R s') (B2R c') r' t' (71 / 10 * u) (4 * u) ltac:(lra) Bt Pr' Bt' Es Ec Ds Dc ltac:(lra)) as A.
  pose proof (Rabs_pos (t' - t)) as PA.
  assert (A' : Rabs (t' - t) <= 112 / 10 * u).
  { assert (Q : 1 - 1 / 1000000 <= r - (71 / 10 * u + 4 * u)) by lra.
    assert (Rabs (t' - t) * (1 - 1 / 1000000) <= 111 / 10 * u) by (eapply Rle_trans; [apply Rmult_le_compat_l; [exact PA|exact Q]|]; lra). lra. }
  pose proof PI_33 as PB.
  assert (T2 : 2 * u * t' <= 66 / 10 * u) by nra.
  replace (B2R (arctan2 s' c') - t) with (B2R (arctan2 s' c') - t' + (t' - t)) by ring.
  eapply Rle_trans; [apply Rabs_triang|]. pose proof eta_pos. lra.
Qed.

(** ** great_circle_distance, core.py 698-702 *)
Theorem C78_great_circle_accuracy dot arctan2 a b radius : good_arctan2 arctan2 -> good_dot dot -> near_unit a -> near_unit b ->
  is_finite radius = true -> Rabs (B2R radius) <= bpow radix2 1000 ->
  is_finite (fgreat_circle_distance dot arctan2 a b radius) = true /\
  Rabs (B2R (fgreat_circle_distance dot arctan2 a b radius) - angle (vec_of a) (vec_of b) * B2R radius) <= 22 * u * Rabs (B2R radius) + eta.
Proof.
  intros GA GD Na Nb FR BR. pose proof u_pos as Pu. pose proof u_small as Su. pose proof PI_33 as PB.
  destruct (C78_angle_accuracy dot arctan2 a b GA GD Na Nb) as (Ft & Dt). unfold fgreat_circle_distance.
  set (t' := arctan2 _ _) in *. pose proof (angle_range (vec_of a) (vec_of b)) as Bt. set (t := angle _ _) in *.
  assert (B4 : Rabs (B2R t') <= 34 / 10). { apply Rabs_le_inv in Dt. apply Rabs_le. lra. }
  pose proof (Rabs_pos (B2R radius)) as PR. set (Q := Rabs (B2R radius)) in *.
  assert (M : Rabs (B2R t' * B2R radius) <= 34 / 10 * Q). { rewrite Rabs_mult. apply Rmult_le_compat_r; auto. }
  destruct (fmul_val t' radius Ft FR) as (F & E).
  { apply Rle_trans with (bpow radix2 (2 + 1000)); [|apply bpow_le; lia]. rewrite bpow_plus. change (bpow radix2 2) with 4. lra. }
  split; auto. rewrite E. destruct (rnd_err (B2R t' * B2R radius)) as (e & h & He & Hh & ->).
  replace (B2R t' * B2R radius * (1 + e) + h - t * B2R radius) with ((B2R t' - t) * B2R radius + (B2R t' * B2R radius) * e + h) by ring.
  eapply Rle_trans; [apply Rabs_triang|]. eapply Rle_trans; [apply Rplus_le_compat_r, Rabs_triang|]. rewrite Rabs_mult, (Rabs_mult _ e). fold Q.
  assert (Rabs (B2R t' - t) * Q <= 18 * u * Q) by (apply Rmult_le_compat_r; auto).
  assert (Rabs (B2R t' * B2R radius) * Rabs e <= 34 / 10 * Q * u) by (apply Rmult_le_compat; auto; apply Rabs_pos). nra.
Qed.

(** the default radius of the Earth, 6371009.0 m (core.py 678): 16 nanometres *)
Definition earth_radius : float64 := f 6840818824380416 (-30) eq_refl.
Lemma earth_radius_val : B2R earth_radius = 6371009.
Proof. unfold earth_radius, f, B2R, F2R; cbn. lra. Qed.
Theorem C78_earth dot arctan2 a b : good_arctan2 arctan2 -> good_dot dot -> near_unit a -> near_unit b ->
  Rabs (B2R (fgreat_circle_distance dot arctan2 a b earth_radius) - angle (vec_of a) (vec_of b) * 6371009) <= 16 / 1000000000.
Proof.
  intros GA GD Na Nb. destruct (C78_great_circle_accuracy dot arctan2 a b earth_radius GA GD Na Nb) as (_ & D); [reflexivity| |].
  { rewrite earth_radius_val, Rabs_right by lra. apply Rle_trans with (bpow radix2 23); [cbn; lra|apply bpow_le; lia]. }
  rewrite earth_radius_val, (Rabs_right 6371009) in D by lra. eapply Rle_trans; [exact D|].
  pose proof tiny_consts. pose proof (bpow_gt_0 radix2 (-399)). assert (U : u <= / 9007199254740992) by (unfold u; cbn; lra). lra.
Qed.

(** ** positions given by vectors of any length, normalised by unit() first *)
Definition unit64 (a : vec64) : vec64 := let '(x, y, z) := a in (unit_entry x x y z, unit_entry y x y z, unit_entry z x y z).
Definition ordinary_vec (a : vec64) : Prop := let '(x, y, z) := a in ordinary x y z.

Lemma unit64_near a : ordinary_vec a -> near_unit (unit64 a).
Proof. destruct a as [[x y] z]. intros O. destruct (C76_unit_accuracy x y z O) as (Fx & Fy & Fz & _ & _ & _ & L). repeat split; auto. Qed.

Lemma norm_le_comp d e : Rabs (vx d) <= vx e -> Rabs (vy d) <= vy e -> Rabs (vz d) <= vz e -> vnorm d <= vnorm e.
Proof.
  intros Hx Hy Hz. unfold vnorm. apply sqrt_le_1_alt. unfold vdot.
  assert (Q : forall p q, Rabs p <= q -> p * p <= q * q).
  { intros p q H. replace (p * p) with (Rabs p * Rabs p) by (rewrite <- Rabs_mult; apply Rabs_right; nra). pose proof (Rabs_pos p). nra. }
  pose proof (Q _ _ Hx). pose proof (Q _ _ Hy). pose proof (Q _ _ Hz). lra.
Qed.

Lemma unit64_direction a : ordinary_vec a -> vec_of a <> v0 /\ angle (vec_of a) (vec_of (unit64 a)) <= 51 / 10 * u.
Proof.
  intros O. pose proof (unit64_near a O) as N. destruct a as [[x y] z]. pose proof u_pos as Pu. pose proof u_small as Su. pose proof eta_pos as Pe. pose proof tiny_consts as TC. pose proof (bpow_gt_0 radix2 (-399)) as P3.
  destruct (C76_unit_accuracy x y z O) as (_ & _ & _ & Dx & Dy & Dz & L).
  assert (NL : vec_of (x, y, z) <> v0).
  { destruct O as (_ & _ & _ & _ & _ & _ & G). pose proof (bpow_gt_0 radix2 (-400)). intros E. injection E as Ex Ey Ez. rewrite Ex, Ey, Ez, Rabs_R0 in G. lra. }
  split; auto. rewrite length3_vnorm in Dx, Dy, Dz. pose proof (vnorm_nz _ NL) as PL.
  assert (A : angle (vec_of (x, y, z)) (vec_of (unit64 (x, y, z))) = angle (direction (vec_of (x, y, z))) (vec_of (unit64 (x, y, z)))).
  { unfold direction. rewrite angle_scale_l; auto. apply Rinv_0_lt_compat; auto. }
  rewrite A. clear A. pose proof (direction_unit _ NL) as N1. set (p := vec_of (x, y, z)) in *. set (q := vec_of (unit64 (x, y, z))) in *.
  set (n := direction p) in *. set (d := vsub q n).
  set (e := vadd (vscale (5 * u) (V (Rabs (vx n)) (Rabs (vy n)) (Rabs (vz n)))) (V eta eta eta)).
  assert (Cn : vx n = B2R x / vnorm p /\ vy n = B2R y / vnorm p /\ vz n = B2R z / vnorm p).
  { unfold n, direction, vscale, p, vec_of; cbn [Spec.vx Spec.vy Spec.vz]. repeat split; unfold Rdiv; ring. }
  destruct Cn as (Cx & Cy & Cz).
  assert (ND : vnorm d <= vnorm e).
  { apply norm_le_comp; unfold d, q, e, unit64, vec_of, vsub, vadd, vscale; cbn [Spec.vx Spec.vy Spec.vz]; [rewrite Cx|rewrite Cy|rewrite Cz]; auto. }
  assert (NE : vnorm e <= 5 * u + 3 * eta).
  { unfold e. eapply Rle_trans; [apply norm_triangle|]. rewrite vnorm_scale, (Rabs_right (5 * u)) by lra.
    assert (vnorm (V (Rabs (vx n)) (Rabs (vy n)) (Rabs (vz n))) = 1).
    { rewrite <- N1. unfold vnorm. f_equal. unfold vdot; cbn [Spec.vx Spec.vy Spec.vz]. rewrite <- !Rabs_mult, !Rabs_right by nra. reflexivity. }
    rewrite H. pose proof (norm_sum3 (V eta eta eta)) as S. cbn [Spec.vx Spec.vy Spec.vz] in S. rewrite Rabs_right in S by lra. lra. }
  assert (Nq : 1 - 6 * u <= vnorm q <= 1 + 6 * u).
  { destruct N as (_ & _ & _ & Lq). rewrite length3_vnorm in Lq. apply Rabs_le_inv in Lq. unfold q, unit64. lra. }
  assert (Zn : n <> v0) by (apply vnorm_inv; auto). assert (Zq : q <> v0). { intros E. rewrite E, vnorm_v0 in Nq. lra. }
  pose proof (sin_angle n q Zn Zq) as S. pose proof (dot_angle n q Zn Zq) as C. pose proof (angle_range n q) as B. rewrite N1, Rmult_1_l in S, C.
  assert (X : vcross n q = vcross n d) by (unfold d; clear; vring).
  assert (SX : vnorm (vcross n d) <= vnorm d).
  { pose proof (vcross_norm_sq n d) as W. rewrite N1 in W. pose proof (vnorm_pos d). pose proof (vnorm_pos (vcross n d)).
    assert (0 <= vdot n d * vdot n d) by nra. nra. }
  assert (CX : vdot n q = 1 + vdot n d).
  { assert (vdot n n = 1) by (rewrite <- vnorm_sq, N1; ring). rewrite <- H. unfold d. clear; vring. }
  pose proof (cauchy_schwarz n d) as CS. rewrite N1, Rmult_1_l in CS. apply Rabs_le_inv in CS.
  assert (Cpos : 1 - 6 * u <= vnorm q * cos (angle n q)) by lra.
  assert (P0 : 0 < cos (angle n q)) by nra.
  pose proof (abs_angle (angle n q) ltac:(lra) P0) as AA. rewrite (Rabs_right (angle n q)) in AA by lra.
  rewrite (Rabs_right (sin (angle n q))) in AA by (apply Rle_ge, sin_ge_0; lra).
  assert (K : angle n q * (1 - 6 * u) <= 501 / 100 * u).
  { apply Rle_trans with (angle n q * (vnorm q * cos (angle n q))); [apply Rmult_le_compat_l; lra|].
    replace (angle n q * (vnorm q * cos (angle n q))) with (vnorm q * (angle n q * cos (angle n q))) by ring.
    eapply Rle_trans; [apply Rmult_le_compat_l; [lra|exact AA]|]. rewrite <- S, X. lra. }
  pose proof PI_33. nra.
Qed.

Theorem C78_of_any_vectors dot arctan2 a b radius : good_arctan2 arctan2 -> good_dot dot -> ordinary_vec a -> ordinary_vec b ->
  is_finite radius = true -> Rabs (B2R radius) <= bpow radix2 1000 ->
  Rabs (B2R (fgreat_circle_distance dot arctan2 (unit64 a) (unit64 b) radius) - angle (vec_of a) (vec_of b) * B2R radius)
  <= 33 * u * Rabs (B2R radius) + eta.
Proof.
  intros GA GD Oa Ob FR BR. pose proof u_pos as Pu. pose proof u_small as Su.
  pose proof (unit64_near a Oa) as Na. pose proof (unit64_near b Ob) as Nb.
  destruct (C78_great_circle_accuracy dot arctan2 _ _ radius GA GD Na Nb FR BR) as (_ & D).
  destruct (unit64_direction a Oa) as (Za & Da). destruct (unit64_direction b Ob) as (Zb & Db).
  assert (NZ : forall w, near_unit w -> vec_of w <> v0).
  { intros [[x y] z] (_ & _ & _ & L) E. rewrite length3_vnorm, E, vnorm_v0 in L. apply Rabs_le_inv in L. lra. }
  pose proof (NZ _ Na) as Ya. pose proof (NZ _ Nb) as Yb.
  set (A := vec_of a) in *. set (B := vec_of b) in *. set (A' := vec_of (unit64 a)) in *. set (B' := vec_of (unit64 b)) in *.
  assert (T : Rabs (angle A' B' - angle A B) <= 102 / 10 * u).
  { pose proof (angle_triangle A' A B' Ya Za Yb). pose proof (angle_triangle A B B' Za Zb Yb).
    pose proof (angle_triangle A A' B Za Ya Zb). pose proof (angle_triangle A' B' B Ya Yb Zb).
    rewrite (angle_sym A' A), (angle_sym B' B) in *. apply Rabs_le. lra. }
  set (g := B2R (fgreat_circle_distance _ _ _ _ _)) in *. pose proof (Rabs_pos (B2R radius)) as PR.
  replace (g - angle A B * B2R radius) with (g - angle A' B' * B2R radius + (angle A' B' - angle A B) * B2R radius) by ring.
  eapply Rle_trans; [apply Rabs_triang|]. rewrite (Rabs_mult (angle A' B' - angle A B)).
  assert (Rabs (angle A' B' - angle A B) * Rabs (B2R radius) <= 102 / 10 * u * Rabs (B2R radius)) by (apply Rmult_le_compat_r; auto).
  assert (0 <= u * Rabs (B2R radius)) by (apply Rmult_le_pos; lra). lra.
Qed.

(** ** the requirements can be met *)
(** a real number rounded to the nearest double *)
Definition round64 (r : R) : float64 :=
  binary_normalize 53 1024 prec64 emax64 mode_NE (ZnearestE (scaled_mantissa radix2 fexp64 r)) (cexp radix2 fexp64 r) false.
Lemma round64_val r : Rabs r <= bpow radix2 1023 -> is_finite (round64 r) = true /\ B2R (round64 r) = rnd r.
Proof.
  intros H. pose proof (binary_normalize_correct 53 1024 prec64 emax64 mode_NE (ZnearestE (scaled_mantissa radix2 fexp64 r)) (cexp radix2 fexp64 r) false) as C.
  fold (round64 r) in C. change (F2R _) with (rnd r) in C. cbn [round_mode] in C. change (SpecFloat.fexp 53 1024) with fexp64 in C.
  assert (I : round radix2 fexp64 ZnearestE (rnd r) = rnd r). { apply round_generic; auto with typeclass_instances. apply generic_format_round; auto with typeclass_instances. }
  rewrite I in C. rewrite Rlt_bool_true in C by (apply no_overflow; auto). destruct C as (B & F & _). auto.
Qed.
(** the correctly rounded arctan2 in the upper half plane *)
Definition ideal_arctan2 (s c : float64) : float64 := round64 (acos (B2R c / sqrt (B2R s * B2R s + B2R c * B2R c))).
Lemma ideal_arctan2_good : good_arctan2 ideal_arctan2.
Proof.
  intros s c t r _ _ _ Bt Pr Es Ec. unfold ideal_arctan2.
  replace (sqrt (B2R s * B2R s + B2R c * B2R c)) with r.
  2:{ rewrite <- (sqrt_square r) at 1 by lra. f_equal. rewrite Es, Ec. pose proof (sin2_cos2 t) as T. unfold Rsqr in T.
      transitivity (r * r * (sin t * sin t + cos t * cos t)); [rewrite T; ring|ring]. }
  replace (B2R c / r) with (cos t) by (rewrite Ec; field; lra). rewrite acos_cos by auto.
  assert (B4 : Rabs t <= bpow radix2 1023). { rewrite Rabs_right by lra. pose proof PI_33. apply Rle_trans with (bpow radix2 2); [cbn; lra|apply bpow_le; lia]. }
  destruct (round64_val t B4) as (F & E). split; auto. rewrite E. destruct (rnd_err t) as (e & h & He & Hh & ->).
  replace (t * (1 + e) + h - t) with (t * e + h) by ring. eapply Rle_trans; [apply Rabs_triang|]. rewrite Rabs_mult, (Rabs_right t) by lra.
  pose proof u_pos. pose proof eta_pos. assert (t * Rabs e <= t * u) by (apply Rmult_le_compat_l; lra). nra.
Qed.
Example C78_example : good_arctan2 ideal_arctan2 /\ good_dot dot_seq /\
  near_unit (f 5404319552844595 (-53) eq_refl, f 7205759403792794 (-53) eq_refl, B754_zero false) /\
  near_unit (B754_zero false, f 4503599627370496 (-52) eq_refl, B754_zero true) /\
  ordinary_vec (f 6755399441055744 (-51) eq_refl, f 4503599627370496 (-50) eq_refl, B754_zero false).
Proof.
  split; [apply ideal_arctan2_good|]. split; [apply good_dot_seq|].
  assert (A : B2R (f 5404319552844595 (-53) eq_refl) = 5404319552844595 / 9007199254740992) by (unfold f, B2R, F2R; cbn; lra).
  assert (B : B2R (f 7205759403792794 (-53) eq_refl) = 7205759403792794 / 9007199254740992) by (unfold f, B2R, F2R; cbn; lra).
  assert (C : B2R (f 4503599627370496 (-52) eq_refl) = 1) by (unfold f, B2R, F2R; cbn; lra).
  assert (U : u = / 9007199254740992) by (unfold u; cbn; lra).
  split; [|split; [|apply C76_example]]; unfold near_unit; (split; [reflexivity|]); (split; [reflexivity|]); (split; [reflexivity|]); unfold length3.
  - rewrite A, B. cbn [B2R]. set (q := _ + _). assert (Q : (1 - 6 * u) * (1 - 6 * u) <= q <= (1 + 6 * u) * (1 + 6 * u)) by (unfold q; rewrite U; lra).
    pose proof u_small. pose proof u_pos. apply Rabs_le. split.
    + assert (1 - 6 * u <= sqrt q); [|lra]. rewrite <- (sqrt_square (1 - 6 * u)) by lra. apply sqrt_le_1_alt. lra.
    + assert (sqrt q <= 1 + 6 * u); [|lra]. rewrite <- (sqrt_square (1 + 6 * u)) by lra. apply sqrt_le_1_alt. lra.
  - rewrite C. cbn [B2R]. replace (0 * 0 + 1 * 1 + 0 * 0) with 1 by ring. rewrite sqrt_1. rewrite Rminus_diag_eq by auto. rewrite Rabs_R0. pose proof u_pos. lra.
Qed.
