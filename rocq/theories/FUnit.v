(** * C76: accuracy of norms and of unit() in binary64 (util.py 504-506) *)
From Coq Require Import ZArith Reals Lia Lra Bool Psatz.
From Flocq Require Import Core BinarySingleNaN.
From Verif Require Import FTiny FZero FBase.
Local Open Scope R_scope.

(** the exact length of a vector of doubles *)
Definition length3 (x y z : float64) : R := sqrt (B2R x * B2R x + B2R y * B2R y + B2R z * B2R z).

(** three finite doubles, the largest of magnitude between 2^-400 and 2^400 *)
Definition ordinary (x y z : float64) : Prop :=
  is_finite x = true /\ is_finite y = true /\ is_finite z = true /\
  Rabs (B2R x) <= bpow radix2 400 /\ Rabs (B2R y) <= bpow radix2 400 /\ Rabs (B2R z) <= bpow radix2 400 /\
  (bpow radix2 (-400) <= Rabs (B2R x) \/ bpow radix2 (-400) <= Rabs (B2R y) \/ bpow radix2 (-400) <= Rabs (B2R z)).

Lemma sq_val x : is_finite x = true -> Rabs (B2R x) <= bpow radix2 400 ->
  exists a, is_finite (fmul x x) = true /\ B2R (fmul x x) = a /\ Rabs (a - B2R x * B2R x) <= u * (B2R x * B2R x) + eta /\ 0 <= a <= bpow radix2 800.
Proof.
  intros Fx Hx. assert (Q : 0 <= B2R x * B2R x <= bpow radix2 800).
  { split; [nra|]. replace (bpow radix2 800) with (bpow radix2 400 * bpow radix2 400) by (rewrite <- bpow_plus; reflexivity).
    replace (B2R x * B2R x) with (Rabs (B2R x) * Rabs (B2R x)) by (rewrite <- Rabs_mult; apply Rabs_right; nra).
    pose proof (Rabs_pos (B2R x)). apply Rmult_le_compat; auto. }
  destruct (fmul_val x x Fx Fx) as (F & E).
  { rewrite Rabs_right by lra. eapply Rle_trans; [apply Q|]. apply bpow_le. lia. }
  eexists. split; [exact F|]. split; [exact E|]. split.
  - destruct (rnd_err (B2R x * B2R x)) as (e & h & He & Hh & ->).
    replace (B2R x * B2R x * (1 + e) + h - B2R x * B2R x) with (B2R x * B2R x * e + h) by ring.
    eapply Rle_trans; [apply Rabs_triang|]. rewrite Rabs_mult, (Rabs_right (B2R x * B2R x)) by lra.
    assert (B2R x * B2R x * Rabs e <= B2R x * B2R x * u) by (apply Rmult_le_compat_l; lra). lra.
  - split.
    + rewrite <- (round_0 radix2 fexp64 ZnearestE). apply round_le; auto with typeclass_instances. lra.
    + apply Rle_trans with (Rabs (rnd (B2R x * B2R x))); [apply Rle_abs|]. apply rnd_abs_le; [lia|]. rewrite Rabs_right; lra.
Qed.

Lemma eta_tiny S : bpow radix2 (-800) <= S -> eta <= u * u * S.
Proof.
  intros H. unfold eta, u. rewrite <- bpow_plus. apply Rle_trans with (bpow radix2 (-53 + -53) * bpow radix2 (-800)).
  - rewrite <- bpow_plus. apply bpow_le. lia.
  - apply Rmult_le_compat_l; [apply bpow_ge_0|auto].
Qed.
Lemma sq_ge r : bpow radix2 (-400) <= Rabs r -> bpow radix2 (-800) <= r * r.
Proof.
  intros H. replace (bpow radix2 (-800)) with (bpow radix2 (-400) * bpow radix2 (-400)) by (rewrite <- bpow_plus; reflexivity).
  replace (r * r) with (Rabs r * Rabs r) by (rewrite <- Rabs_mult; apply Rabs_right; nra).
  pose proof (bpow_gt_0 radix2 (-400)). apply Rmult_le_compat; lra.
Qed.

(** the sum of squares *)
Lemma sumsq x y z : ordinary x y z ->
  let s := fadd (fadd (fmul x x) (fmul y y)) (fmul z z) in
  let S := B2R x * B2R x + B2R y * B2R y + B2R z * B2R z in
  is_finite s = true /\ bpow radix2 (-800) <= S /\ rel (3 * u + 10 * u * u) (B2R s) S.
Proof.
  intros (Fx & Fy & Fz & Hx & Hy & Hz & Hm) s S.
  destruct (sq_val x Fx Hx) as (a & Fa & Ea & Da & Ba). destruct (sq_val y Fy Hy) as (b & Fb & Eb & Db & Bb).
  destruct (sq_val z Fz Hz) as (c & Fc & Ec & Dc & Bc).
  assert (B800 : forall k, k <= 4 -> k * bpow radix2 800 <= bpow radix2 1023).
  { intros k Hk. apply Rle_trans with (bpow radix2 2 * bpow radix2 800); [apply Rmult_le_compat_r; [apply bpow_ge_0|cbn; lra]|].
    rewrite <- bpow_plus. apply bpow_le. lia. }
  pose proof (bpow_gt_0 radix2 800) as P800.
  destruct (fadd_val _ _ Fa Fb) as (F1 & E1). { rewrite Ea, Eb. rewrite Rabs_right by lra. specialize (B800 2 ltac:(lra)). lra. }
  rewrite Ea, Eb in E1.
  destruct (rnd_add_err a b) as (e1 & He1 & R1). { rewrite <- Ea; apply format64. } { rewrite <- Eb; apply format64. }
  assert (B1 : 0 <= rnd (a + b) <= 3 * bpow radix2 800).
  { rewrite R1. apply Rabs_le_inv in He1. pose proof u_small. split; [apply Rmult_le_pos; lra|].
    apply Rle_trans with ((a + b) * (1 + u)); [apply Rmult_le_compat_l; lra|]. assert ((a+b) * u <= 2 * bpow radix2 800 * u) by (apply Rmult_le_compat_r; lra). nra. }
  destruct (fadd_val _ _ F1 Fc) as (F2 & E2). { rewrite E1, Ec. rewrite Rabs_right by lra. specialize (B800 4 ltac:(lra)). lra. }
  rewrite E1, Ec in E2. fold s in F2, E2.
  destruct (rnd_add_err (rnd (a + b)) c) as (e2 & He2 & R2). { rewrite <- E1; apply format64. } { rewrite <- Ec; apply format64. }
  rewrite R1 in R2. rewrite R1, R2 in E2.
  assert (LS : bpow radix2 (-800) <= S).
  { unfold S. assert (0 <= B2R x * B2R x) by nra. assert (0 <= B2R y * B2R y) by nra. assert (0 <= B2R z * B2R z) by nra.
    destruct Hm as [Hq|[Hq|Hq]]; apply sq_ge in Hq; lra. }
  split; auto. split; auto. pose proof (eta_tiny S LS) as Et. pose proof u_pos as Pu. pose proof u_small as Su. pose proof eta_pos as Pe.
  unfold rel. assert (PS : 0 < S) by (pose proof (bpow_gt_0 radix2 (-800)); lra). rewrite (Rabs_right S) by lra. rewrite E2.
  set (X := B2R x * B2R x) in *. set (Y := B2R y * B2R y) in *. set (Z := B2R z * B2R z) in *.
  assert (0 <= X) by (unfold X; nra). assert (0 <= Y) by (unfold Y; nra). assert (0 <= Z) by (unfold Z; nra).
  replace (((a + b) * (1 + e1) + c) * (1 + e2) - S)
    with (((a - X) + (b - Y)) * (1 + e1) * (1 + e2) + (c - Z) * (1 + e2) + (X + Y) * (e1 + e2 + e1 * e2) + Z * e2) by (unfold S; ring).
  assert (M1 : Rabs (1 + e1) <= 1 + u). { eapply Rle_trans; [apply Rabs_triang|]. rewrite Rabs_R1. lra. }
  assert (M2 : Rabs (1 + e2) <= 1 + u). { eapply Rle_trans; [apply Rabs_triang|]. rewrite Rabs_R1. lra. }
  assert (M12 : Rabs (e1 + e2 + e1 * e2) <= 2 * u + u * u).
  { eapply Rle_trans; [apply Rabs_triang|]. rewrite Rabs_mult. pose proof (Rabs_triang e1 e2).
    assert (Rabs e1 * Rabs e2 <= u * u) by (apply Rmult_le_compat; try apply Rabs_pos; auto). lra. }
  eapply Rle_trans; [apply Rabs_triang|]. eapply Rle_trans; [apply Rplus_le_compat_r, Rabs_triang|].
  eapply Rle_trans; [apply Rplus_le_compat_r, Rplus_le_compat_r, Rabs_triang|]. rewrite !Rabs_mult.
  rewrite (Rabs_right (X + Y)), (Rabs_right Z) by lra.
  assert (T1 : Rabs (a - X + (b - Y)) * Rabs (1 + e1) * Rabs (1 + e2) <= (u * (X + Y) + 2 * eta) * (1 + u) * (1 + u)).
  { apply Rmult_le_compat; try apply Rmult_le_pos; try apply Rabs_pos; auto.
    apply Rmult_le_compat; try apply Rabs_pos; auto. eapply Rle_trans; [apply Rabs_triang|]. lra. }
  assert (T2 : Rabs (c - Z) * Rabs (1 + e2) <= (u * Z + eta) * (1 + u)) by (apply Rmult_le_compat; try apply Rabs_pos; auto).
  assert (T3 : (X + Y) * Rabs (e1 + e2 + e1 * e2) <= (X + Y) * (2 * u + u * u)) by (apply Rmult_le_compat_l; lra).
  assert (T4 : Z * Rabs e2 <= Z * u) by (apply Rmult_le_compat_l; lra).
  assert (XS : X + Y <= S) by (unfold S; lra).
  eapply Rle_trans; [apply Rplus_le_compat; [apply Rplus_le_compat; [apply Rplus_le_compat|]|]; eassumption|].
  assert (U2 : 0 <= u * u) by nra. assert (U3 : u * u * u <= u * u * / 1000000000) by (apply Rmult_le_compat_l; lra).
  (* bound: u (X+Y)(1+u)^2 + (X+Y)(2u+u^2) + u Z (1 + u) + u Z + eta (2 (1+u)^2 + (1+u)) *)
  assert (K1 : eta * (2 * ((1 + u) * (1 + u)) + (1 + u)) <= u * u * S * 4).
  { apply Rmult_le_compat; try nra. }
  assert (K2 : (X + Y) * (u * ((1 + u) * (1 + u)) + 2 * u + u * u) <= (X + Y) * (3 * u + 4 * u * u)).
  { apply Rmult_le_compat_l; [lra|]. nra. }
  assert (K3 : Z * (u * (1 + u) + u) <= Z * (3 * u + 4 * (u * u))).
  { apply Rmult_le_compat_l; [lra|]. nra. }
  assert (K4 : S * (3 * u + 4 * (u * u)) = (X + Y) * (3 * u + 4 * u * u) + Z * (3 * u + 4 * (u * u))) by (unfold S; ring).
  assert (0 <= u * u * S) by (apply Rmult_le_pos; lra).
  lra.
Qed.

(** the computed norm is within 3 units of roundoff of the exact length *)
Theorem C76_norm_accuracy : forall x y z, ordinary x y z ->
  is_finite (norm3 x y z) = true /\ Rabs (B2R (norm3 x y z) - length3 x y z) <= 3 * u * length3 x y z /\
  bpow radix2 (-400) <= length3 x y z.
Proof.
  intros x y z O. destruct (sumsq x y z O) as (Fs & LS & Rs). unfold norm3, length3.
  set (s := fadd (fadd (fmul x x) (fmul y y)) (fmul z z)) in *. set (S := B2R x * B2R x + B2R y * B2R y + B2R z * B2R z) in *.
  pose proof (bpow_gt_0 radix2 (-800)). pose proof u_pos as Pu. pose proof u_small as Su.
  assert (PS : 0 < S) by lra. assert (Ha : 0 <= 3 * u + 10 * u * u <= 1 / 2) by nra.
  assert (Bs : S * (1 - (3 * u + 10 * u * u)) <= B2R s). { unfold rel in Rs. rewrite (Rabs_right S) in Rs by lra. apply Rabs_le_inv in Rs. lra. }
  assert (Ls : bpow radix2 (-801) <= B2R s).
  { eapply Rle_trans; [|apply Bs]. change (-801)%Z with (-800 + -1)%Z. rewrite bpow_plus. change (bpow radix2 (-1)) with (/ 2). nra. }
  assert (Ps : 0 < B2R s) by (pose proof (bpow_gt_0 radix2 (-801)); lra).
  destruct (fsqrt_val s Fs Ps) as (Fn & En). split; [exact Fn|].
  assert (Sq : bpow radix2 (-400) <= sqrt S).
  { replace (bpow radix2 (-400)) with (sqrt (bpow radix2 (-800))); [apply sqrt_le_1_alt; auto|].
    change (-800)%Z with (-400 + -400)%Z. rewrite bpow_plus. apply sqrt_square, bpow_ge_0. }
  split; auto.
  assert (Nn : bpow radix2 (-1022) <= Rabs (sqrt (B2R s))).
  { rewrite Rabs_right by (apply Rle_ge, sqrt_pos). apply Rle_trans with (sqrt (bpow radix2 (-802))); [|apply sqrt_le_1_alt].
    - change (-802)%Z with (-401 + -401)%Z. rewrite bpow_plus, sqrt_square by apply bpow_ge_0. apply bpow_le. lia.
    - eapply Rle_trans; [|apply Ls]. apply bpow_le. lia. }
  destruct (rnd_err_normal _ Nn) as (e & He & Re). rewrite Re in En. rewrite En.
  pose proof (rel_sqrt _ _ _ Ha PS Rs) as Rq.
  assert (P2 : 0 <= (3 * u + 10 * u * u) / (2 - (3 * u + 10 * u * u)) <= 3 / 2 * u + 20 * (u * u)).
  { split. - apply Rmult_le_pos; [lra|]. left. apply Rinv_0_lt_compat. lra.
    - apply Rmult_le_reg_r with (2 - (3 * u + 10 * u * u)); [lra|]. unfold Rdiv at 1. rewrite Rmult_assoc, Rinv_l, Rmult_1_r by lra.
      assert (U3 : u * u * u <= u * u * / 1000000000) by (apply Rmult_le_compat_l; nra).
      assert (U4 : u * u * u * u <= u * u * / 1000000000) by (assert (0 <= u * u * u) by (apply Rmult_le_pos; nra); nra).
      nra. }
  pose proof (rel_step _ e _ _ (proj1 P2) Rq He) as Rn. unfold rel in Rn. rewrite (Rabs_right (sqrt S)) in Rn by (apply Rle_ge, sqrt_pos).
  eapply Rle_trans; [apply Rn|]. apply Rmult_le_compat_r; [apply sqrt_pos|]. nra.
Qed.
Print Assumptions C76_norm_accuracy.

Lemma entry x y z c : ordinary x y z -> is_finite c = true -> Rabs (B2R c) <= length3 x y z ->
  is_finite (unit_entry c x y z) = true /\
  Rabs (B2R (unit_entry c x y z) - B2R c / length3 x y z) <= 5 * u * Rabs (B2R c / length3 x y z) + eta.
Proof.
  intros O Fc Hc. destruct (C76_norm_accuracy x y z O) as (Fn & Rn & Ln). set (L := length3 x y z) in *.
  pose proof (bpow_gt_0 radix2 (-400)) as P4. pose proof u_pos as Pu. pose proof u_small as Su. assert (PL : 0 < L) by lra.
  assert (Bn : L * (1 - 3 * u) <= B2R (norm3 x y z)). { apply Rabs_le_inv in Rn. lra. }
  assert (Pn : 0 < B2R (norm3 x y z)) by nra.
  assert (Nz : is_zero_f (norm3 x y z) = false) by (destruct (norm3 x y z); auto; cbn in Pn; lra).
  rewrite (C60_unit_divides_by_the_norm c x y z Nz).
  assert (Rl : rel (3 * u) (B2R (norm3 x y z)) L). { unfold rel. rewrite (Rabs_right L); lra. }
  pose proof (rel_div (3 * u) (B2R c) _ _ ltac:(lra) PL Rl) as Rq. set (q := B2R c / B2R (norm3 x y z)) in *. set (t := B2R c / L) in *.
  assert (Bt : Rabs t <= 1). { unfold t, Rdiv. rewrite Rabs_mult, (Rabs_right (/ L)) by (left; apply Rinv_0_lt_compat; auto).
    apply Rmult_le_reg_r with L; auto. rewrite Rmult_assoc, Rinv_l, Rmult_1_r by lra. lra. }
  assert (A3 : 0 <= 3 * u / (1 - 3 * u) <= 3 * u + 10 * (u * u)).
  { split. - apply Rmult_le_pos; [lra|]. left. apply Rinv_0_lt_compat. lra.
    - apply Rmult_le_reg_r with (1 - 3 * u); [lra|]. unfold Rdiv at 1. rewrite Rmult_assoc, Rinv_l, Rmult_1_r by lra.
      assert (U3 : u * u * u <= u * u * / 1000000000) by (apply Rmult_le_compat_l; nra). nra. }
  pose proof (Rabs_pos t) as Pt.
  assert (Bq : Rabs q <= 2).
  { unfold rel in Rq. pose proof (Rabs_triang (q - t) t) as T. replace (q - t + t) with q in T by ring. nra. }
  destruct (fdiv_val c (norm3 x y z) Fc ltac:(lra)) as (Fd & Ed).
  { fold q. eapply Rle_trans; [apply Bq|]. change 2 with (bpow radix2 1). apply bpow_le. lia. }
  split; auto. rewrite Ed. fold q. destruct (rnd_err q) as (e & h & He & Hh & ->).
  pose proof (rel_step _ e _ _ (proj1 A3) Rq He) as R2. unfold rel in R2.
  replace (q * (1 + e) + h - t) with (q * (1 + e) - t + h) by ring. eapply Rle_trans; [apply Rabs_triang|].
  apply Rplus_le_compat; auto. eapply Rle_trans; [apply R2|]. apply Rmult_le_compat_r; auto. nra.
Qed.

Lemma comp_le_length x y z : Rabs (B2R x) <= length3 x y z /\ Rabs (B2R y) <= length3 x y z /\ Rabs (B2R z) <= length3 x y z.
Proof.
  unfold length3. assert (K : forall r s, 0 <= s -> Rabs r <= sqrt (r * r + s)).
  { intros r s Hs. replace (Rabs r) with (sqrt (r * r)); [apply sqrt_le_1_alt; lra|]. apply sqrt_Rsqr_abs. }
  assert (Q : forall r, 0 <= r * r) by (intros; nra). pose proof (Q (B2R x)). pose proof (Q (B2R y)). pose proof (Q (B2R z)).
  repeat split.
  - replace (B2R x * B2R x + B2R y * B2R y + B2R z * B2R z) with (B2R x * B2R x + (B2R y * B2R y + B2R z * B2R z)) by ring. apply K; lra.
  - replace (B2R x * B2R x + B2R y * B2R y + B2R z * B2R z) with (B2R y * B2R y + (B2R x * B2R x + B2R z * B2R z)) by ring. apply K; lra.
  - replace (B2R x * B2R x + B2R y * B2R y + B2R z * B2R z) with (B2R z * B2R z + (B2R x * B2R x + B2R y * B2R y)) by ring. apply K; lra.
Qed.

(** every component of unit() is within 5 units of roundoff of the exact one, and the result has length 1 within 6 *)
Theorem C76_unit_accuracy : forall x y z, ordinary x y z ->
  let ux := unit_entry x x y z in let uy := unit_entry y x y z in let uz := unit_entry z x y z in
  let L := length3 x y z in
  is_finite ux = true /\ is_finite uy = true /\ is_finite uz = true /\
  Rabs (B2R ux - B2R x / L) <= 5 * u * Rabs (B2R x / L) + eta /\
  Rabs (B2R uy - B2R y / L) <= 5 * u * Rabs (B2R y / L) + eta /\
  Rabs (B2R uz - B2R z / L) <= 5 * u * Rabs (B2R z / L) + eta /\
  Rabs (length3 ux uy uz - 1) <= 6 * u.
Proof.
  intros x y z O ux uy uz L. pose proof O as (Fx & Fy & Fz & _). destruct (comp_le_length x y z) as (Cx & Cy & Cz).
  destruct (entry x y z x O Fx Cx) as (Gx & Ex). destruct (entry x y z y O Fy Cy) as (Gy & Ey). destruct (entry x y z z O Fz Cz) as (Gz & Ez).
  fold L ux in Ex, Gx. fold L uy in Ey, Gy. fold L uz in Ez, Gz.
  do 6 (split; [assumption|]).
  destruct (C76_norm_accuracy x y z O) as (_ & _ & Ln). fold L in Ln. pose proof (bpow_gt_0 radix2 (-400)) as P4. assert (PL : 0 < L) by lra.
  set (tx := B2R x / L) in *. set (ty := B2R y / L) in *. set (tz := B2R z / L) in *.
  assert (T1 : tx * tx + ty * ty + tz * tz = 1).
  { unfold tx, ty, tz. assert (Q : L * L = B2R x * B2R x + B2R y * B2R y + B2R z * B2R z).
    { unfold L, length3. apply sqrt_sqrt. nra. }
    replace (B2R x / L * (B2R x / L) + B2R y / L * (B2R y / L) + B2R z / L * (B2R z / L)) with
      ((B2R x * B2R x + B2R y * B2R y + B2R z * B2R z) / (L * L)) by (field; lra). rewrite <- Q. field. lra. }
  pose proof u_pos as Pu. pose proof u_small as Su. pose proof eta_pos as Pe.
  assert (Et : eta <= u * u * u). { unfold eta, u. rewrite <- !bpow_plus. apply bpow_le. lia. }
  assert (U3 : u * u * u <= u * u * / 1000000000) by (apply Rmult_le_compat_l; nra).
  assert (K : forall r t, Rabs (r - t) <= 5 * u * Rabs t + eta -> t * t <= 1 -> Rabs (r * r - t * t) <= 10 * u * (t * t) + 30 * (u * u)).
  { intros r t H Ht. replace (r * r - t * t) with ((r - t) * (r - t) + 2 * t * (r - t)) by ring.
    assert (At : Rabs t <= 1). { rewrite <- Rabs_R1. apply Rsqr_le_abs_0. unfold Rsqr. lra. }
    pose proof (Rabs_pos t) as Pt. assert (Tt : Rabs t * Rabs t = t * t) by (rewrite <- Rabs_mult; apply Rabs_right; nra).
    eapply Rle_trans; [apply Rabs_triang|]. rewrite !Rabs_mult, (Rabs_right 2) by lra. set (d := Rabs (r - t)) in *.
    assert (Pd : 0 <= d) by apply Rabs_pos. set (s := Rabs t) in *.
    assert (d <= 5 * u + u * u) by nra. assert (d * d <= (5 * u + u * u) * (5 * u + u * u)) by (apply Rmult_le_compat; auto).
    assert (s * d <= s * (5 * u * s + eta)) by (apply Rmult_le_compat_l; auto). 
    assert (s * eta <= 1 * eta) by (apply Rmult_le_compat_r; lra).
    rewrite <- Tt. nra. }
  pose proof (K _ _ Ex ltac:(nra)) as Kx. pose proof (K _ _ Ey ltac:(nra)) as Ky. pose proof (K _ _ Ez ltac:(nra)) as Kz.
  assert (Rr : rel (11 * u) (B2R ux * B2R ux + B2R uy * B2R uy + B2R uz * B2R uz) 1).
  { unfold rel. rewrite Rabs_R1, Rmult_1_r. rewrite <- T1 at 1.
    replace (B2R ux * B2R ux + B2R uy * B2R uy + B2R uz * B2R uz - (tx * tx + ty * ty + tz * tz)) with
      ((B2R ux * B2R ux - tx * tx) + (B2R uy * B2R uy - ty * ty) + (B2R uz * B2R uz - tz * tz)) by ring.
    eapply Rle_trans; [apply Rabs_triang|]. eapply Rle_trans; [apply Rplus_le_compat_r, Rabs_triang|].
    eapply Rle_trans; [apply Rplus_le_compat; [apply Rplus_le_compat|]; eassumption|].
    replace (10 * u * (tx * tx) + 30 * (u * u) + (10 * u * (ty * ty) + 30 * (u * u)) + (10 * u * (tz * tz) + 30 * (u * u)))
      with (10 * u * (tx * tx + ty * ty + tz * tz) + 90 * (u * u)) by ring. rewrite T1. nra. }
  pose proof (rel_sqrt (11 * u) _ 1 ltac:(lra) ltac:(lra) Rr) as Q. unfold rel in Q. rewrite sqrt_1, Rabs_R1, Rmult_1_r in Q.
  eapply Rle_trans; [apply Q|]. apply Rmult_le_reg_r with (2 - 11 * u); [lra|]. unfold Rdiv. rewrite Rmult_assoc, Rinv_l, Rmult_1_r by lra. nra.
Qed.
Print Assumptions C76_unit_accuracy.

Example C76_example : ordinary (f 6755399441055744 (-51) eq_refl) (f 4503599627370496 (-50) eq_refl) (B754_zero false).
Proof.
  assert (A : B2R (f 6755399441055744 (-51) eq_refl) = 3) by (unfold f, B2R, F2R; cbn; lra).
  assert (B : B2R (f 4503599627370496 (-50) eq_refl) = 4) by (unfold f, B2R, F2R; cbn; lra).
  assert (H2 : 4 <= bpow radix2 400). { apply Rle_trans with (bpow radix2 2); [cbn; lra|apply bpow_le; lia]. }
  assert (H3 : bpow radix2 (-400) <= 1). { change 1 with (bpow radix2 0). apply bpow_le; lia. }
  unfold ordinary. rewrite A, B. cbn [B2R]. rewrite Rabs_R0, !Rabs_right by lra. repeat split; try lra. 
Qed.
