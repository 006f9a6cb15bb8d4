(** * C118: nthroot(x, 3) in binary64 (util.py 395-413) *)
From Coq Require Import ZArith Reals Lra Lia Bool Psatz.
From Flocq Require Import Core BinarySingleNaN Relative Mult_error.
From Verif Require Import LVerm FTiny FBase FRel FRel2 FUnit FAngle FDist FGreat FClose FLatLon FGeodB FGeod FEqual FGeod7.
Local Open Scope R_scope.

(** ** one step of Newton's method removes the error of the start, whatever the start's error (up to 80 units of roundoff) *)
Lemma newton_one w eps kap e1 h1 e4 h4 e5 h5 : Rabs (w - 1) <= 80 * u -> Rabs eps <= 2 * u -> Rabs kap <= 201 / 100 * u ->
  Rabs e1 <= u -> Rabs e4 <= u -> Rabs e5 <= u -> Rabs h1 <= u * u -> Rabs h4 <= u * u -> Rabs h5 <= u * u ->
  let s := (w ^ 3 * (1 + eps) - 1) * (1 + e1) + h1 in let z := s / (3 * w ^ 2 * (1 + kap)) * (1 + e4) + h4 in
  Rabs ((w - z) * (1 + e5) + h5 - 1) <= 17 / 10 * u.
Proof.
  intros Hw He Hk H1 H4 H5 G1 G4 G5 s z. pose proof u_pos as Pu. pose proof u_tiny as Su. assert (UU : u * u <= / 1000000000000000 * u) by (apply Rmult_le_compat_r; lra).
  set (a := w - 1) in *. assert (Ew : w = 1 + a) by (unfold a; ring). clearbody a. subst w. pose proof Hw as Aw. apply Rabs_le_inv in Aw. pose proof He as Ae. apply Rabs_le_inv in Ae. pose proof Hk as Ak. apply Rabs_le_inv in Ak.
  pose proof G1 as B1. apply Rabs_le_inv in B1. pose proof G4 as B4. apply Rabs_le_inv in B4. pose proof G5 as B5. apply Rabs_le_inv in B5.
  assert (AA : 0 <= a * a <= 80 * u * (80 * u)). { split; [apply Rle_0_sqr|]. rewrite <- (Rabs_right (a * a)) by (apply Rle_ge, Rle_0_sqr). rewrite Rabs_mult. apply Rmult_le_compat; auto; apply Rabs_pos. }
  assert (AAs : a * a <= / 100000000000 * u) by lra.
  assert (PRD : forall x y X Y, Rabs x <= X -> Rabs y <= Y -> - (X * Y) <= x * y <= X * Y).
  { intros x y X Y Hx Hy. apply Rabs_le_inv. rewrite Rabs_mult. apply Rmult_le_compat; auto; apply Rabs_pos. }
  (* the cube *)
  set (c := (1 + a) ^ 3) in *. assert (Ec : c = 1 + 3 * a + a * a * (3 + a)) by (unfold c; ring).
  assert (AB : 0 <= a * a * (3 + a) <= / 10000000000 * u). { split; [apply Rmult_le_pos; lra|]. apply Rle_trans with (a * a * 4); [apply Rmult_le_compat_l; lra|lra]. }
  assert (Bc : 1 - 241 * u <= c <= 1 + 241 * u) by lra. clearbody c.
  set (d := (1 + a) ^ 2) in *. assert (Ed : d = 1 + 2 * a + a * a) by (unfold d; ring). assert (Bd : 1 - 160 * u <= d <= 1 + 161 * u) by lra.
  set (g := c * (1 + eps) - 1) in *. assert (Bg : Rabs g <= 244 * u).
  { unfold g. replace (c * (1 + eps) - 1) with ((c - 1) + c * eps) by ring. assert (C1 : Rabs c <= 2) by (apply Rabs_le; lra). assert (C2 : Rabs (c - 1) <= 241 * u) by (apply Rabs_le; lra).
    pose proof (PRD (c - 1) eps (241 * u) (2 * u) C2 He) as P. apply Rabs_le. replace (c * eps) with (eps + (c - 1) * eps) by ring. lra. }
  set (r1 := g * e1 + h1). assert (Br : Rabs r1 <= / 1000000000000 * u). { pose proof (PRD g e1 _ _ Bg H1). unfold r1. apply Rabs_le. lra. }
  assert (Es : s = g + r1) by (unfold s, r1; ring).
  (* the quotient against the exact Newton correction *)
  assert (Dpos : 0 < 3 * d * (1 + kap)) by (apply Rmult_lt_0_compat; lra).
  set (m := c * eps + r1 - (c - 1) * kap). assert (Bm : Rabs m <= 2001 / 1000 * u).
  { assert (C2 : Rabs (c - 1) <= 241 * u) by (apply Rabs_le; lra). pose proof (PRD (c - 1) eps _ _ C2 He). pose proof (PRD (c - 1) kap _ _ C2 Hk). apply Rabs_le_inv in Br. unfold m. replace (c * eps) with (eps + (c - 1) * eps) by ring. apply Rabs_le. lra. }
  assert (QE : s / (3 * d * (1 + kap)) = (c - 1) / (3 * d) + m / (3 * d * (1 + kap))).
  { rewrite Es. unfold m, g. field. split; apply Rgt_not_eq; lra. }
  assert (Lk : 299 / 100 <= 3 * d * (1 + kap)). { assert (X : Rabs (d - 1) <= 161 * u) by (apply Rabs_le; lra). pose proof (PRD (d - 1) kap _ _ X Hk). replace (3 * d * (1 + kap)) with (3 * (d + kap + (d - 1) * kap)) by ring. lra. }
  assert (Bq : Rabs (m / (3 * d * (1 + kap))) <= 67 / 100 * u).
  { unfold Rdiv. rewrite Rabs_mult, Rabs_inv, (Rabs_right (3 * d * (1 + kap))) by lra. apply (Rmult_le_reg_r (3 * d * (1 + kap))); [lra|]. rewrite Rmult_assoc, Rinv_l, Rmult_1_r by lra. assert (67 / 100 * u * (299 / 100) <= 67 / 100 * u * (3 * d * (1 + kap))) by (apply Rmult_le_compat_l; lra). lra. }
  (* the exact Newton step *)
  assert (NE : (c - 1) / (3 * d) = a - a * a * (3 + 2 * a) / (3 * d)). { rewrite Ec, Ed. field. rewrite <- Ed. apply Rgt_not_eq. lra. }
  assert (Bn : 0 <= a * a * (3 + 2 * a) / (3 * d) <= / 10000000000 * u).
  { split; [apply Rmult_le_pos; [apply Rmult_le_pos; lra|apply Rlt_le, Rinv_0_lt_compat; lra]|]. apply (Rmult_le_reg_r (3 * d)); [lra|]. unfold Rdiv. rewrite Rmult_assoc, Rinv_l, Rmult_1_r by lra. assert (a * a * (3 + 2 * a) <= a * a * 4) by (apply Rmult_le_compat_l; lra). assert (/ 10000000000 * u * 2 <= / 10000000000 * u * (3 * d)) by (apply Rmult_le_compat_l; lra). lra. }
  rewrite NE in QE. set (n := a * a * (3 + 2 * a) / (3 * d)) in *. set (q := m / (3 * d * (1 + kap))) in *. clearbody n q.
  set (p := s / (3 * d * (1 + kap))) in *. apply Rabs_le_inv in Bq. assert (Bp : Rabs p <= 82 * u) by (apply Rabs_le; lra).
  pose proof (PRD p e4 _ _ Bp H4) as X4. unfold z. fold d. fold p.
  set (o := (1 + a - (p * (1 + e4) + h4))). assert (Bo : Rabs (o - 1) <= 68 / 100 * u). { unfold o. apply Rabs_le. lra. }
  pose proof (PRD (o - 1) e5 _ _ Bo H5) as X5. apply Rabs_le_inv in H5. apply Rabs_le_inv in Bo. replace (o * (1 + e5) + h5 - 1) with ((o - 1) + e5 + (o - 1) * e5 + h5) by ring. apply Rabs_le. lra.
Qed.

(** ** the exponent 1. / 3 of the code: the double next below 1/3 *)
Lemma third_exact : is_finite (fdiv fone fthree) = true /\ B2R (fdiv fone fthree) - / 3 = - (u / 6).
Proof.
  destruct third_near as (F & _). split; auto.
  destruct (fdiv_val fone fthree eq_refl) as (_ & E).
  - rewrite fthree_val; lra.
  - rewrite fone_val, fthree_val, Rabs_right by lra. assert (bpow radix2 0 <= bpow radix2 1023) by (apply bpow_le; lia). change (bpow radix2 0) with 1 in H. lra.
  - rewrite E, fone_val, fthree_val. set (c0 := F2R (Float radix2 6004799503160661 (-54))).
    assert (V0 : c0 - / 3 = - (u / 6)) by (unfold c0, F2R, u; cbn; lra). assert (P0 : / 4 <= c0 < / 2) by (unfold c0, F2R; cbn; lra).
    assert (M0 : mag radix2 c0 = (-1)%Z :> Z). { apply mag_unique_pos. change (bpow radix2 (-1 - 1)) with (/ 4). change (bpow radix2 (-1)) with (/ 2). exact P0. }
    assert (G0 : F64 c0). { apply generic_format_F2R. intros _. unfold cexp. change (F2R (Float radix2 6004799503160661 (-54))) with c0. rewrite M0. cbn. lia. }
    assert (U0 : ulp radix2 fexp64 c0 = bpow radix2 (-54)). { rewrite ulp_neq_0 by lra. unfold cexp. rewrite M0. reflexivity. }
    assert (rnd (1 / 3) = c0) as ->; [|exact V0]. pose proof u_pos as Pu. apply Rle_antisym.
    + apply (@round_N_le_midp radix2 fexp64 _); auto. rewrite succ_eq_pos by lra. rewrite U0. assert (bpow radix2 (-54) = u / 2) by (unfold u; cbn; lra). lra.
    + rewrite <- (round_generic radix2 fexp64 ZnearestE c0 G0) at 1. apply round_le; auto with typeclass_instances. lra.
Qed.

(** _EPS * np.abs(x) < 1 holds exactly below 2 ** 52 *)
Lemma eps_val : B2R feps = bpow radix2 (-52).
Proof. unfold feps, f, B2R, F2R; cbn. lra. Qed.
Lemma eps_test x : is_finite x = true -> bpow radix2 (-400) <= B2R x -> is_finite (fmul feps (fabs x)) = true -> B2R (fmul feps (fabs x)) = bpow radix2 (-52) * B2R x -> flt (fmul feps (fabs x)) fone = true <-> B2R x < bpow radix2 52.
Proof.
  intros Fx L F E. rewrite flt_val, E, fone_val by auto. change 52%Z with (- (-52))%Z. rewrite bpow_opp. pose proof (bpow_gt_0 radix2 (-52)) as P. split; intros H.
  - apply (Rmult_lt_reg_l (bpow radix2 (-52))); auto. rewrite Rinv_r by lra. exact H.
  - apply (Rmult_lt_compat_l _ _ _ P) in H. rewrite Rinv_r in H by lra. exact H.
Qed.
Lemma eps_product x : is_finite x = true -> bpow radix2 (-400) <= B2R x -> is_finite (fmul feps (fabs x)) = true /\ B2R (fmul feps (fabs x)) = bpow radix2 (-52) * B2R x.
Proof.
  intros Fx L. pose proof (bpow_gt_0 radix2 (-400)) as P4. pose proof (bpow_gt_0 radix2 (-52)) as P. assert (A : Rabs (B2R x) = B2R x) by (apply Rabs_right; lra).
  assert (BX : B2R x <= bpow radix2 1024). { pose proof (abs_B2R_lt_emax 53 1024 x) as Q. rewrite A in Q. lra. }
  destruct (fmul_val feps (fabs x) eq_refl ltac:(rewrite fabs_fin; exact Fx)) as (F & E).
  { rewrite eps_val, fabs_val, A, Rabs_right by (apply Rle_ge, Rmult_le_pos; lra). apply Rle_trans with (bpow radix2 (-52) * bpow radix2 1024); [apply Rmult_le_compat_l; lra|rewrite <- bpow_plus; apply bpow_le; lia]. }
  split; auto. rewrite E, eps_val, fabs_val, A. apply round_generic; auto with typeclass_instances. rewrite Rmult_comm.
  apply mult_bpow_exact_FLT; [apply format64|]. assert (-399 <= mag radix2 (B2R x))%Z; [|lia]. apply mag_ge_bpow. rewrite A. exact L.
Qed.

(** ** the start of the iteration *)
Lemma ln_range X k m : (k <= 0)%Z -> (0 <= m)%Z -> bpow radix2 k <= X <= bpow radix2 m -> IZR k <= ln X <= IZR m.
Proof.
  intros Hk Hm (L & H). pose proof (bpow_gt_0 radix2 k) as P. pose proof ln_lt_2 as P2. assert (P1 : ln 2 <= 1). { pose proof (exp_ineq1_le (ln 2)) as Q. rewrite exp_ln in Q by lra. lra. }
  assert (EX : forall j, ln (bpow radix2 j) = IZR j * ln 2) by (intros j; rewrite bpow_exp, ln_exp; reflexivity).
  apply IZR_le in Hk, Hm. split.
  - apply Rle_trans with (ln (bpow radix2 k)); [rewrite EX; nra|]. destruct L as [L| <-]; [left; apply ln_increasing; auto|right; reflexivity].
  - apply Rle_trans with (ln (bpow radix2 m)); [|rewrite EX; nra]. destruct H as [H| ->]; [left; apply ln_increasing; lra|right; reflexivity].
Qed.
Lemma cube_range X T k m : 0 < T -> T ^ 3 = X -> bpow radix2 (3 * k) <= X <= bpow radix2 (3 * m) -> bpow radix2 k <= T <= bpow radix2 m.
Proof.
  intros PT ET (L & H). assert (C : forall j, bpow radix2 (3 * j) = bpow radix2 j ^ 3). { intros j. replace (3 * j)%Z with (j + (j + j))%Z by lia. rewrite !bpow_plus. ring. }
  rewrite C in L, H. pose proof (bpow_gt_0 radix2 k) as Pk. pose proof (bpow_gt_0 radix2 m) as Pm.
  assert (MON : forall x y, 0 < x -> x < y -> x ^ 3 < y ^ 3). { intros x y Px Hy. cbn [pow]. rewrite !Rmult_1_r. assert (x * x < y * y) by (apply Rmult_gt_0_lt_compat; lra). apply Rmult_gt_0_lt_compat; try lra. apply Rmult_gt_0_compat; lra. }
  split; apply Rnot_lt_le; intros N.
  - pose proof (MON _ _ PT N). lra.
  - pose proof (MON _ _ Pm N). lra.
Qed.
Lemma start_near pow x T : good_pow pow -> is_finite x = true -> bpow radix2 (-400) <= B2R x <= bpow radix2 52 -> 0 < T -> T ^ 3 = B2R x ->
  is_finite (pow x (fdiv fone fthree)) = true /\ Rabs (B2R (pow x (fdiv fone fthree)) / T - 1) <= 70 * u.
Proof.
  intros (G & _) Fx BX PT ET. pose proof u_pos as Pu. pose proof u_tiny as Su. destruct third_exact as (Fc & Ec). set (c := B2R (fdiv fone fthree)) in *. set (X := B2R x) in *.
  pose proof (bpow_gt_0 radix2 (-400)) as P4. assert (PX : 0 < X) by lra. pose proof (ln_range X (-400) 52 ltac:(lia) ltac:(lia) BX) as LX.
  assert (LT : ln T = / 3 * ln X). { rewrite <- ET. replace (T ^ 3) with (T * (T * T)) by ring. rewrite !ln_mult by (try apply Rmult_lt_0_compat; auto). field. }
  set (h := - (u / 6) * ln X). assert (ER : Rpower X c = T * exp h). { unfold Rpower, h. rewrite <- Ec. replace (c * ln X) with (ln T + (c - / 3) * ln X) by (rewrite LT; ring). rewrite exp_plus, exp_ln by auto. reflexivity. }
  assert (Bh : Rabs h <= 67 * u). { unfold h. rewrite Rabs_mult, Rabs_Ropp, (Rabs_right (u / 6)) by lra. assert (Rabs (ln X) <= 400) by (apply Rabs_le; lra). assert (u / 6 * Rabs (ln X) <= u / 6 * 400) by (apply Rmult_le_compat_l; lra). lra. }
  pose proof (exp_near h ltac:(lra)) as EH. assert (EH' : Rabs (exp h - 1) <= 671 / 10 * u) by lra. apply Rabs_le_inv in EH' as EB.
  destruct (cube_range X T (-134) 18 PT ET) as (T1 & T2). { split; [apply Rle_trans with (bpow radix2 (-400)); [apply bpow_le; lia|apply BX]|apply Rle_trans with (bpow radix2 52); [apply BX|apply bpow_le; lia]]. }
  destruct (G x (fdiv fone fthree) Fx Fc PX) as (F & E).
  { fold X c. rewrite ER. pose proof (bpow_gt_0 radix2 (-135)). split.
    - apply Rle_trans with (bpow radix2 (-134) * / 2); [change (/ 2) with (bpow radix2 (-1)); rewrite <- bpow_plus; apply bpow_le; lia|]. pose proof (bpow_gt_0 radix2 (-134)). apply Rmult_le_compat; lra.
    - apply Rle_trans with (bpow radix2 18 * 2); [apply Rmult_le_compat; lra|]. replace (bpow radix2 18 * 2) with (bpow radix2 (18 + 1)) by (rewrite bpow_plus; reflexivity). apply bpow_le; lia. }
  split; auto. fold X c in E. rewrite ER in E. set (y := B2R (pow x (fdiv fone fthree))) in *. clearbody y.
  assert (EQ : y / T - 1 = (y - T * exp h) / T + (exp h - 1)) by (field; lra). rewrite EQ. eapply Rle_trans; [apply Rabs_triang|].
  assert (Rabs ((y - T * exp h) / T) <= 2 * u * (1 + 671 / 10 * u)).
  { unfold Rdiv at 1. rewrite Rabs_mult, Rabs_inv, (Rabs_right T) by lra. apply (Rmult_le_reg_r T); auto. rewrite (Rmult_assoc (Rabs _)), Rinv_l, Rmult_1_r by lra. eapply Rle_trans; [exact E|].
    replace (2 * u * (T * exp h)) with (2 * u * T * exp h) by ring. replace (2 * u * (1 + 671 / 10 * u) * T) with (2 * u * T * (1 + 671 / 10 * u)) by ring. apply Rmult_le_compat_l; [apply Rmult_le_pos; lra|lra]. }
  assert (u * u <= / 1000000 * u) by (apply Rmult_le_compat_r; lra). lra.
Qed.

(** ** the theorems *)
(** nthroot(x, 3) is within 1.7 units of roundoff of the cube root [T] of x, for every double x from 2 ** -400 up to 2 ** 52 and every C library pow with an error of at most one unit in the last place *)
Theorem C118_accuracy_partial : forall pow x T, good_pow pow -> is_finite x = true -> bpow radix2 (-400) <= B2R x < bpow radix2 52 -> 0 < T -> T ^ 3 = B2R x ->
  is_finite (fnthroot3 pow x) = true /\ Rabs (B2R (fnthroot3 pow x) - T) <= 17 / 10 * u * T.
Proof.
  intros pow x T G Fx BX PT ET. pose proof u_pos as Pu. pose proof u_tiny as Su. pose proof eta_pos as Pe. pose proof (bpow_gt_0 radix2 (-400)) as P4.
  destruct (start_near pow x T G Fx ltac:(lra) PT ET) as (Fy & Ny). unfold fnthroot3. cbv zeta.
  destruct (eps_product x Fx ltac:(lra)) as (Fe & Ee). rewrite (proj2 (eps_test x Fx ltac:(lra) Fe Ee) ltac:(lra)).
  assert (NZ : feq x fzero = false). { unfold feq. rewrite Bcompare_correct by auto. change (B2R fzero) with 0. rewrite Rcompare_Gt by lra. reflexivity. }
  rewrite NZ. cbn [negb andb]. set (y := pow x (fdiv fone fthree)) in *. clearbody y. clear Fe Ee NZ.
  destruct (cube_range (B2R x) T (-134) 18 PT ET) as (T1 & T2). { split; [apply Rle_trans with (bpow radix2 (-400)); [apply bpow_le; lia|apply BX]|apply Rle_trans with (bpow radix2 52); [apply Rlt_le, BX|apply bpow_le; lia]]. }
  set (w := B2R y / T) in *. assert (Ew : B2R y = T * w) by (unfold w; field; lra). clearbody w. pose proof Ny as Bw. apply Rabs_le_inv in Bw.
  assert (Bw' : 1 - / 1000000 <= w <= 1 + / 1000000) by lra. pose proof (bpow_gt_0 radix2 (-134)) as P134.
  assert (Py : 0 < B2R y) by (rewrite Ew; apply Rmult_lt_0_compat; lra).
  assert (Ly : bpow radix2 (-135) <= B2R y <= bpow radix2 19).
  { rewrite Ew. split; [change (bpow radix2 (-135)) with (bpow radix2 (-134 + -1)); rewrite bpow_plus; apply Rmult_le_compat; try lra; cbn; lra|]. change (bpow radix2 19) with (bpow radix2 (18 + 1)). rewrite bpow_plus. apply Rmult_le_compat; try lra; cbn; lra. }
  (* y ** 3 *)
  destruct G as (G & _). destruct (G y fthree Fy eq_refl Py) as (F3 & E3).
  { rewrite fthree_val, Rpower_3 by auto. split.
    - apply Rle_trans with (bpow radix2 (-135) * bpow radix2 (-135) * bpow radix2 (-135)); [rewrite <- !bpow_plus; apply bpow_le; lia|]. pose proof (bpow_gt_0 radix2 (-135)). repeat apply Rmult_le_compat; try lra; apply Rmult_le_pos; lra.
    - apply Rle_trans with (bpow radix2 19 * bpow radix2 19 * bpow radix2 19); [|rewrite <- !bpow_plus; apply bpow_le; lia]. repeat apply Rmult_le_compat; try lra; apply Rmult_le_pos; lra. }
  rewrite fthree_val, Rpower_3 in E3 by auto. set (y3 := pow y fthree) in *. clearbody y3. set (eps := B2R y3 / (B2R y * B2R y * B2R y) - 1).
  assert (PC : 0 < B2R y * B2R y * B2R y) by (repeat apply Rmult_lt_0_compat; auto).
  assert (He : Rabs eps <= 2 * u).
  { unfold eps. replace (B2R y3 / (B2R y * B2R y * B2R y) - 1) with ((B2R y3 - B2R y * B2R y * B2R y) / (B2R y * B2R y * B2R y)) by (field; lra). unfold Rdiv. rewrite Rabs_mult, Rabs_inv, (Rabs_right (B2R y * B2R y * B2R y)) by lra.
    apply (Rmult_le_reg_r (B2R y * B2R y * B2R y)); auto. rewrite Rmult_assoc, Rinv_l, Rmult_1_r by lra. exact E3. }
  assert (Y3 : B2R y3 = T ^ 3 * (w ^ 3 * (1 + eps))). { unfold eps. rewrite Ew. field. split; lra. } clearbody eps. clear E3 PC.
  set (g := w ^ 3 * (1 + eps) - 1). assert (Bg : Rabs g <= / 1000).
  { unfold g. assert (1 - / 10000 <= w ^ 3 <= 1 + / 10000). { replace (w ^ 3) with (w * w * w) by ring. pose (d := w - 1). assert (Hd : Rabs d <= / 1000000) by (unfold d; apply Rabs_le; lra). assert (Wd : w = 1 + d) by (unfold d; ring). rewrite Wd. clearbody d. assert (0 <= d * d <= / 1000000). { split; [apply Rle_0_sqr|]. rewrite <- (Rabs_right (d * d)) by (apply Rle_ge, Rle_0_sqr). rewrite Rabs_mult. apply Rle_trans with (/ 1000000 * / 1000000); [apply Rmult_le_compat; auto using Rabs_pos|lra]. }
      assert (D3 : Rabs (d * (d * d)) <= / 1000000). { rewrite Rabs_mult, (Rabs_right (d * d)) by lra. apply Rle_trans with (/ 1000000 * / 1000000); [apply Rmult_le_compat; try apply Rabs_pos; lra|lra]. } apply Rabs_le_inv in D3. apply Rabs_le_inv in Hd. lra. }
    apply Rabs_le_inv in He. assert (Rabs (w ^ 3 * eps) <= 2 * (2 * u)). { rewrite Rabs_mult. apply Rmult_le_compat; auto using Rabs_pos; apply Rabs_le; lra. } apply Rabs_le_inv in H0. apply Rabs_le. lra. }
  (* y ** 3 - x *)
  assert (PT3 : 0 < T ^ 3) by (apply pow_lt; auto). assert (T3 : T ^ 3 <= bpow radix2 52) by lra.
  assert (SE : B2R y3 - B2R x = T ^ 3 * g) by (rewrite Y3, <- ET; unfold g; ring).
  assert (B52 : bpow radix2 52 <= bpow radix2 1023) by (apply bpow_le; lia).
  destruct (fsub_val y3 x F3 Fx) as (Fs & Es). { rewrite SE, Rabs_mult, (Rabs_right (T ^ 3)) by lra. rewrite <- (Rmult_1_r (bpow radix2 1023)). apply Rmult_le_compat; try apply Rabs_pos; lra. }
  destruct (rnd_add_err (B2R y3) (- B2R x)) as (e1 & H1 & E1). { apply format64. } { apply generic_format_opp, format64. } fold (Rminus (B2R y3) (B2R x)) in E1. rewrite E1, SE in Es. clear E1. set (s := fsub y3 x) in *. clearbody s.
  (* 3 * y ** 2 *)
  assert (Yr : bpow radix2 (-270) <= B2R y * B2R y <= bpow radix2 38).
  { pose proof (bpow_gt_0 radix2 (-135)). split; [change (bpow radix2 (-270)) with (bpow radix2 (-135 + -135))|change (bpow radix2 38) with (bpow radix2 (19 + 19))]; rewrite bpow_plus; apply Rmult_le_compat; lra. }
  pose proof (bpow_gt_0 radix2 (-270)) as P270. assert (N270 : bpow radix2 (-1022) <= bpow radix2 (-270)) by (apply bpow_le; lia). assert (N38 : 4 * bpow radix2 38 <= bpow radix2 1023). { change 4 with (bpow radix2 2). rewrite <- bpow_plus. apply bpow_le; lia. }
  destruct (fmul_val y y Fy Fy) as (Fq & Eq). { rewrite Rabs_right by lra. lra. }
  destruct (rnd_err_normal (B2R y * B2R y)) as (e2 & H2 & E2). { rewrite Rabs_right by lra. lra. } rewrite E2 in Eq. clear E2. pose proof H2 as A2. apply Rabs_le_inv in A2.
  assert (Q1 : (1 - / 1000) * (B2R y * B2R y) <= B2R (fmul y y) <= (1 + / 1000) * (B2R y * B2R y)). { rewrite Eq. rewrite !(Rmult_comm (B2R y * B2R y)) . split; apply Rmult_le_compat_r; lra. }
  destruct (fmul_val fthree (fmul y y) eq_refl Fq) as (Fd & Ed). { rewrite fthree_val, Rabs_right by lra. lra. }
  rewrite fthree_val in Ed. destruct (rnd_err_normal (3 * B2R (fmul y y))) as (e3 & H3 & E3). { rewrite Rabs_right by lra. lra. } rewrite E3, Eq in Ed. clear E3 Q1. pose proof H3 as A3. apply Rabs_le_inv in A3.
  set (kap := (1 + e2) * (1 + e3) - 1). assert (Hk : Rabs kap <= 201 / 100 * u).
  { unfold kap. assert (Rabs (e2 * e3) <= u * u) by (rewrite Rabs_mult; apply Rmult_le_compat; auto using Rabs_pos). assert (u * u <= / 1000000 * u) by (apply Rmult_le_compat_r; lra). apply Rabs_le_inv in H. apply Rabs_le. lra. }
  set (D := fmul fthree (fmul y y)) in *. assert (ED : B2R D = T ^ 2 * (3 * w ^ 2 * (1 + kap))) by (rewrite Ed, Ew; unfold kap; ring). clearbody D kap. clear Ed Eq. pose proof Hk as Ak. apply Rabs_le_inv in Ak.
  assert (W2 : 1 <= 3 * w ^ 2 * (1 + kap)). { assert (98 / 100 <= w ^ 2) by (replace (w ^ 2) with (w * w) by ring; apply Rle_trans with (99 / 100 * (99 / 100)); [lra|apply Rmult_le_compat; lra]). apply Rle_trans with (3 * (98 / 100) * (99 / 100)); [lra|]. apply Rmult_le_compat; lra. }
  assert (PT2 : 0 < T ^ 2) by (apply pow_lt; auto). assert (PD : 0 < B2R D) by (rewrite ED; apply Rmult_lt_0_compat; lra).
  (* the correction *)
  set (q := g * (1 + e1) / (3 * w ^ 2 * (1 + kap))). assert (QE : B2R s / B2R D = T * q). { rewrite Es, ED. unfold q. field. split; [lra|]. split; [lra|apply Rgt_not_eq; lra]. }
  assert (Bq : Rabs q <= 1).
  { unfold q, Rdiv. rewrite Rabs_mult, Rabs_inv, (Rabs_right (3 * w ^ 2 * (1 + kap))) by lra. apply (Rmult_le_reg_r (3 * w ^ 2 * (1 + kap))); [lra|]. rewrite Rmult_assoc, Rinv_l, Rmult_1_r by lra. rewrite Rabs_mult. apply Rabs_le_inv in H1 as A1. assert (Rabs (1 + e1) <= 2) by (apply Rabs_le; lra).
    assert (Rabs g * Rabs (1 + e1) <= / 1000 * 2) by (apply Rmult_le_compat; auto using Rabs_pos). lra. }
  assert (N18 : 4 * bpow radix2 18 <= bpow radix2 1023). { change 4 with (bpow radix2 2). rewrite <- bpow_plus. apply bpow_le; lia. }
  assert (BT : Rabs (T * q) <= T). { rewrite Rabs_mult, (Rabs_right T) by lra. rewrite <- (Rmult_1_r T) at 2. apply Rmult_le_compat_l; lra. }
  destruct (fdiv_val s D Fs) as (Fz & Ez); [lra|rewrite QE; lra|]. rewrite QE in Ez.
  destruct (rnd_err (T * q)) as (e4 & h4 & H4 & G4 & E4). rewrite E4 in Ez. clear E4.
  assert (G4' : Rabs (h4 / T) <= u * u).
  { unfold Rdiv. rewrite Rabs_mult, Rabs_inv, (Rabs_right T) by lra. apply (Rmult_le_reg_r T); auto. rewrite Rmult_assoc, Rinv_l, Rmult_1_r by lra. eapply Rle_trans; [exact G4|]. apply Rle_trans with (u * u * bpow radix2 (-134)); [unfold eta, u; rewrite <- !bpow_plus; apply bpow_le; lia|]. apply Rmult_le_compat_l; [apply Rmult_le_pos; lra|lra]. }
  set (h := h4 / T) in *. assert (Eh : h4 = T * h) by (unfold h; field; lra). clearbody h. subst h4.
  assert (Ez' : B2R (fdiv s D) = T * (q * (1 + e4) + h)) by (rewrite Ez; ring). clear Ez. set (z := fdiv s D) in *. clearbody z.
  assert (Bz : Rabs (B2R z) <= 3 * T).
  { rewrite Ez', Rabs_mult, (Rabs_right T) by lra. rewrite (Rmult_comm 3). apply Rmult_le_compat_l; [lra|]. eapply Rle_trans; [apply Rabs_triang|]. apply Rabs_le_inv in H4 as A4. assert (Rabs (1 + e4) <= 2) by (apply Rabs_le; lra). rewrite Rabs_mult. assert (Rabs q * Rabs (1 + e4) <= 1 * 2) by (apply Rmult_le_compat; auto using Rabs_pos). assert (u * u <= / 1000000 * u) by (apply Rmult_le_compat_r; lra). lra. }
  destruct (fsub_val y z Fy Fz) as (Fr & Er). { unfold Rminus. eapply Rle_trans; [apply Rabs_triang|]. rewrite Rabs_Ropp, (Rabs_right (B2R y)) by lra. assert (B2R y <= bpow radix2 1022). { eapply Rle_trans; [apply Ly|apply bpow_le; lia]. } assert (3 * T <= bpow radix2 1022). { assert (4 * bpow radix2 18 <= bpow radix2 1022); [|lra]. change 4 with (bpow radix2 2). rewrite <- bpow_plus. apply bpow_le; lia. } change (bpow radix2 1023) with (bpow radix2 (1 + 1022)). rewrite bpow_plus. change (bpow radix2 1) with 2. lra. }
  split; auto. destruct (rnd_add_err (B2R y) (- B2R z)) as (e5 & H5 & E5). { apply format64. } { apply generic_format_opp, format64. } fold (Rminus (B2R y) (B2R z)) in E5. rewrite Er, E5, Ew, Ez'. clear Er E5.
  assert (O : Rabs 0 <= u * u) by (rewrite Rabs_R0; apply Rmult_le_pos; lra).
  pose proof (newton_one w eps kap e1 0 e4 h e5 0 ltac:(lra) He Hk H1 H4 H5 O G4' O) as N. cbv zeta in N. rewrite !Rplus_0_r in N. fold g in N. fold q in N.
  replace ((T * w - T * (q * (1 + e4) + h)) * (1 + e5) - T) with (T * ((w - (q * (1 + e4) + h)) * (1 + e5) - 1)) by ring. rewrite Rabs_mult, (Rabs_right T) by lra. rewrite (Rmult_comm _ T). apply Rmult_le_compat_l; lra.
Qed.
Print Assumptions C118_accuracy_partial.

(** From 2 ** 52 on the correction step is skipped (_EPS * np.abs(x) < 1 is then false), and the start has only the accuracy of the exponent 1. / 3, which is u / 6 less than a third:
    the cube root of x = 2 ** 900 is 2 ** 300, and nthroot(x, 3) is at least 70 units of roundoff below it, for every pow with an error of at most one unit in the last place *)
Definition f2_900 : float64 := f 4503599627370496 848 eq_refl.
Theorem C118_large_refuted : forall pow, good_pow pow -> is_finite f2_900 = true /\ B2R f2_900 = bpow radix2 300 ^ 3 /\ is_finite (fnthroot3 pow f2_900) = true /\
  B2R (fnthroot3 pow f2_900) <= bpow radix2 300 * (1 - 70 * u).
Proof.
  intros pow (G & _). assert (V : B2R f2_900 = bpow radix2 900). { unfold f2_900, f, B2R, F2R; cbn [cond_Zopp Fnum Fexp]. change (IZR (Z.pos 4503599627370496)) with (bpow radix2 52). rewrite <- bpow_plus. reflexivity. }
  assert (Fx : is_finite f2_900 = true) by reflexivity. set (x := f2_900) in *. clearbody x. set (T := bpow radix2 300). assert (PT : 0 < T) by apply bpow_gt_0.
  assert (T3 : bpow radix2 900 = T ^ 3). { unfold T. change 900%Z with (300 + (300 + 300))%Z. rewrite !bpow_plus. ring. }
  split; auto. split; [rewrite V; exact T3|]. pose proof u_pos as Pu. pose proof u_tiny as Su. unfold fnthroot3. cbv zeta.
  assert (L : bpow radix2 (-400) <= B2R x) by (rewrite V; apply bpow_le; lia). destruct (eps_product x Fx L) as (Fe & Ee).
  assert (B : flt (fmul feps (fabs x)) fone = false). { destruct (flt (fmul feps (fabs x)) fone) eqn:E; auto. apply (eps_test x Fx L Fe Ee) in E. rewrite V in E. apply lt_bpow in E. lia. }
  rewrite B, andb_false_r. destruct third_exact as (Fc & Ec). set (c := B2R (fdiv fone fthree)) in *.
  assert (PX : 0 < B2R x) by (rewrite V; apply bpow_gt_0).
  assert (LV : ln (B2R x) = 900 * ln 2) by (rewrite V, bpow_exp, ln_exp; reflexivity).
  assert (LT : ln T = 300 * ln 2) by (unfold T; rewrite bpow_exp, ln_exp; reflexivity).
  pose proof ln_lt_2 as L2. assert (L3 : ln 2 <= 1). { pose proof (exp_ineq1_le (ln 2)) as Q. rewrite exp_ln in Q by lra. lra. }
  set (h := - (u / 6) * (900 * ln 2)). assert (ER : Rpower (B2R x) c = T * exp h). { unfold Rpower, h. rewrite <- Ec, LV. replace (c * (900 * ln 2)) with (ln T + (c - / 3) * (900 * ln 2)) by (rewrite LT; field). rewrite exp_plus, exp_ln by auto. reflexivity. }
  assert (Bh : - (150 * u) <= h <= - (75 * u)). { unfold h. assert (u * (/ 2) <= u * ln 2 <= u * 1) by (split; apply Rmult_le_compat_l; lra). lra. }
  assert (EH : Rabs (exp h - 1 ) <= 1001 / 1000 * Rabs h) by (apply exp_near, Rabs_le; lra). rewrite (Rabs_left1 h) in EH by lra. apply Rabs_le_inv in EH.
  assert (EU : exp h <= 1 - 749 / 10 * u).
  { pose proof (exp_ineq1_le (- h)) as Q. rewrite exp_Ropp in Q. pose proof (exp_pos h) as PE. apply (Rmult_le_compat_r (exp h)) in Q; [|lra]. rewrite Rinv_l in Q by lra.
    assert (75 * u * exp h <= - h * exp h) by (apply Rmult_le_compat_r; lra). assert (75 * u * (1 - / 1000000) <= 75 * u * exp h) by (apply Rmult_le_compat_l; lra). lra. }
  assert (T299 : bpow radix2 299 = T * / 2). { unfold T. change 299%Z with (300 + -1)%Z. rewrite bpow_plus. reflexivity. }
  assert (B2 : T * / 2 <= T * exp h <= T) by (split; [|rewrite <- (Rmult_1_r T) at 2]; apply Rmult_le_compat_l; lra).
  destruct (G x (fdiv fone fthree) Fx Fc PX) as (F & E).
  { fold c. rewrite ER. split; [apply Rle_trans with (bpow radix2 299); [apply bpow_le; lia|rewrite T299; lra]|apply Rle_trans with T; [lra|apply bpow_le; lia]]. }
  split; auto. fold c in E. rewrite ER in E. apply Rabs_le_inv in E.
  assert (T * exp h <= T * (1 - 749 / 10 * u)) by (apply Rmult_le_compat_l; lra). assert (u * (T * exp h) <= u * T) by (apply Rmult_le_compat_l; lra). assert (0 < T * u) by (apply Rmult_lt_0_compat; lra). lra.
Qed.
Print Assumptions C118_large_refuted.

(** x = 27 (the docstring) meets the hypotheses of C118_accuracy_partial with the correctly rounded pow *)
Definition f27 : float64 := f 7599824371187712 (-48) eq_refl.
Example C118_example : good_pow ideal_pow /\ is_finite f27 = true /\ bpow radix2 (-400) <= B2R f27 < bpow radix2 52 /\ 0 < 3 /\ 3 ^ 3 = B2R f27 /\
  is_finite (fnthroot3 ideal_pow f27) = true /\ Rabs (B2R (fnthroot3 ideal_pow f27) - 3) <= 6 / 10000000000000000.
Proof.
  assert (V : B2R f27 = 27) by (unfold f27, f, B2R, F2R; cbn; lra). split; [apply ideal_pow_good|]. split; [reflexivity|].
  assert (B : bpow radix2 (-400) <= B2R f27 < bpow radix2 52). { rewrite V. split; [apply Rle_trans with (bpow radix2 0); [apply bpow_le; lia|cbn; lra]|cbn; lra]. }
  split; [exact B|]. split; [lra|]. split; [rewrite V; ring|]. destruct (C118_accuracy_partial ideal_pow f27 3 (ideal_pow_good) eq_refl B ltac:(lra) ltac:(rewrite V; ring)) as (F & E). split; auto. rewrite u_val in E. lra.
Qed.
