(** * C90: _compute_k in binary64 (core.py 150-161) *)
From Coq Require Import ZArith Reals Lra Lia Bool Psatz.
From Flocq Require Import Core BinarySingleNaN Relative.
From Verif Require Import LVerm FTiny FBase FRel FRel2 FUnit FDist FGreat FClose FLatLon FGeodB.
Local Open Scope R_scope.

Definition ftwo : float64 := f 4503599627370496 (-51) eq_refl.
Definition fthree : float64 := f 6755399441055744 (-51) eq_refl.
Definition ffour : float64 := f 4503599627370496 (-50) eq_refl.
Definition fsix : float64 := f 6755399441055744 (-50) eq_refl.
(** np.finfo(float).eps, util.py 18 *)
Definition feps : float64 := f 4503599627370496 (-104) eq_refl.
Definition flt (x y : float64) : bool := match Bcompare x y with Some Lt => true | _ => false end.

(** what is required of the C library's pow: an error of at most one unit in the last place for positive bases
    (x * x, which numpy computes for x ** 2 of an array, also meets it), and 0 ** 2 = 0 *)
Definition good_pow (pow : float64 -> float64 -> float64) : Prop :=
  (forall x y, is_finite x = true -> is_finite y = true -> 0 < B2R x -> bpow radix2 (-1000) <= Rpower (B2R x) (B2R y) <= bpow radix2 1000 ->
    is_finite (pow x y) = true /\ Rabs (B2R (pow x y) - Rpower (B2R x) (B2R y)) <= 2 * u * Rpower (B2R x) (B2R y)) /\
  (forall s, is_finite (pow (B754_zero s) ftwo) = true /\ B2R (pow (B754_zero s) ftwo) = 0).

(** nthroot(x, 3), util.py 411-413; y ** (n - 1) is y ** 2, which numpy computes as y * y *)
Definition fnthroot3 (pow : float64 -> float64 -> float64) (x : float64) : float64 :=
  let y := pow x (fdiv fone fthree) in
  if negb (feq x fzero) && flt (fmul feps (fabs x)) fone
  then fsub y (fdiv (fsub (pow y fthree) x) (fmul fthree (fmul y y))) else y.

(** core.py 150-161; a and e_2 are scalars (Python's ** calls pow), u and w arrays (numpy multiplies), r ** 3 calls pow *)
Definition fcompute_k (pow : float64 -> float64 -> float64) (a e_2 q Ryz_2 : float64) : float64 :=
  let p := fdiv Ryz_2 (pow a ftwo) in
  let r := fdiv (fsub (fadd p q) (pow e_2 ftwo)) fsix in
  let s := fdiv (fmul (fmul (pow e_2 ftwo) p) q) (fmul ffour (pow r fthree)) in
  let t := fnthroot3 pow (fadd (fadd fone s) (fsqrt (fmul s (fadd ftwo s)))) in
  let u := fmul r (fadd (fadd fone t) (fdiv fone t)) in
  let v := fsqrt (fadd (fmul u u) (fmul (pow e_2 ftwo) q)) in
  let w := fdiv (fmul e_2 (fsub (fadd u v) q)) (fmul ftwo v) in
  fsub (fsqrt (fadd (fadd u v) (fmul w w))) w.

Lemma ftwo_val : B2R ftwo = 2. Proof. unfold ftwo, f, B2R, F2R; cbn. lra. Qed.
Lemma fthree_val : B2R fthree = 3. Proof. unfold fthree, f, B2R, F2R; cbn. lra. Qed.
Lemma ffour_val : B2R ffour = 4. Proof. unfold ffour, f, B2R, F2R; cbn. lra. Qed.
Lemma fsix_val : B2R fsix = 6. Proof. unfold fsix, f, B2R, F2R; cbn. lra. Qed.
Lemma near_const (c : float64) r : B2R c = r -> near 0 0 (B2R c) r. Proof. intros ->. apply near_exact. Qed.

(** ** powers *)
Lemma Rpower_2 x : 0 < x -> Rpower x 2 = x * x.
Proof. intros H. change 2 with (INR 2). rewrite Rpower_pow by auto. ring. Qed.
Lemma Rpower_3 x : 0 < x -> Rpower x 3 = x * x * x.
Proof. intros H. replace 3 with (INR 3) by (cbn; ring). rewrite Rpower_pow by auto. ring. Qed.
Lemma pow2_near pow x k X : good_pow pow -> is_finite x = true -> 0 <= k <= 100 -> bpow radix2 (-300) <= X <= bpow radix2 300 -> near k 0 (B2R x) X ->
  is_finite (pow x ftwo) = true /\ near (2 * k + 2 + / 100) 0 (B2R (pow x ftwo)) (X * X).
Proof.
  intros (G & _) Fx Hk BX A. pose proof (bpow_gt_0 radix2 (-300)) as P3. pose proof (near_low k 0 _ X ltac:(lra) ltac:(lra) A) as L. pose proof (near_abs k 0 _ X ltac:(lra) A) as H. rewrite (Rabs_right X) in H by lra.
  assert (Px : 0 < B2R x) by lra. rewrite (Rabs_right (B2R x)) in H by lra.
  assert (B : bpow radix2 (-1000) <= Rpower (B2R x) (B2R ftwo) <= bpow radix2 1000).
  { rewrite ftwo_val, Rpower_2 by auto. split.
    - apply Rle_trans with (bpow radix2 (-301) * bpow radix2 (-301)); [rewrite <- bpow_plus; apply bpow_le; lia|].
      assert (bpow radix2 (-301) <= B2R x). { change (-301)%Z with (-1 + -300)%Z. rewrite bpow_plus. change (bpow radix2 (-1)) with (/ 2). lra. }
      pose proof (bpow_ge_0 radix2 (-301)). apply Rmult_le_compat; auto.
    - apply Rle_trans with (bpow radix2 301 * bpow radix2 301); [|rewrite <- bpow_plus; apply bpow_le; lia].
      assert (B2R x <= bpow radix2 301). { change (301)%Z with (1 + 300)%Z. rewrite bpow_plus. change (bpow radix2 (1)) with (2). lra. }
      apply Rmult_le_compat; lra. }
  destruct (G x ftwo Fx eq_refl Px B) as (F & E). split; auto. rewrite ftwo_val, Rpower_2 in E by auto.
  assert (N1 : near 2 0 (B2R (pow x ftwo)) (B2R x * B2R x)). { unfold near. rewrite (Rabs_right (B2R x * B2R x)) by nra. lra. }
  assert (N2 : near (2 * k + / 1000) 0 (B2R x * B2R x) (X * X)) by (eapply near_weaken; [| |apply (near_mul k k 0); eauto; lra]; lra).
  eapply near_weaken; [| |eapply near_trans; [| | |exact N1|exact N2]]; lra.
Qed.
Lemma pow3_near pow x k X : good_pow pow -> is_finite x = true -> 0 <= k <= 100 -> bpow radix2 (-300) <= X <= bpow radix2 300 -> near k 0 (B2R x) X ->
  is_finite (pow x fthree) = true /\ near (3 * k + 2 + 2 / 100) 0 (B2R (pow x fthree)) (X * X * X).
Proof.
  intros (G & _) Fx Hk BX A. pose proof (bpow_gt_0 radix2 (-300)) as P3. pose proof (near_low k 0 _ X ltac:(lra) ltac:(lra) A) as L. pose proof (near_abs k 0 _ X ltac:(lra) A) as H. rewrite (Rabs_right X) in H by lra.
  assert (Px : 0 < B2R x) by lra. rewrite (Rabs_right (B2R x)) in H by lra.
  assert (B : bpow radix2 (-1000) <= Rpower (B2R x) (B2R fthree) <= bpow radix2 1000).
  { rewrite fthree_val, Rpower_3 by auto. split.
    - apply Rle_trans with (bpow radix2 (-301) * bpow radix2 (-301) * bpow radix2 (-301)); [rewrite <- !bpow_plus; apply bpow_le; lia|].
      assert (bpow radix2 (-301) <= B2R x). { change (-301)%Z with (-1 + -300)%Z. rewrite bpow_plus. change (bpow radix2 (-1)) with (/ 2). lra. }
      pose proof (bpow_ge_0 radix2 (-301)). apply Rmult_le_compat; auto; [apply Rmult_le_pos; auto|apply Rmult_le_compat; auto].
    - apply Rle_trans with (bpow radix2 301 * bpow radix2 301 * bpow radix2 301); [|rewrite <- !bpow_plus; apply bpow_le; lia].
      assert (B2R x <= bpow radix2 301). { change (301)%Z with (1 + 300)%Z. rewrite bpow_plus. change (bpow radix2 (1)) with (2). lra. }
      apply Rmult_le_compat; try lra; [apply Rmult_le_pos; lra|apply Rmult_le_compat; lra]. }
  destruct (G x fthree Fx eq_refl Px B) as (F & E). split; auto. rewrite fthree_val, Rpower_3 in E by auto.
  assert (P : 0 <= B2R x * B2R x * B2R x) by (apply Rmult_le_pos; [apply Rmult_le_pos|]; lra).
  assert (N1 : near 2 0 (B2R (pow x fthree)) (B2R x * B2R x * B2R x)). { unfold near. rewrite (Rabs_right (B2R x * B2R x * B2R x)) by lra. lra. }
  pose proof (near_pow3 k _ _ ltac:(lra) A) as N2.
  eapply near_weaken; [| |eapply near_trans; [| | |exact N1|exact N2]]; lra.
Qed.

(** ** exponentials and logarithms near 1 *)
Lemma exp_near h : Rabs h <= / 1000000 -> Rabs (exp h - 1) <= 1001 / 1000 * Rabs h.
Proof.
  intros H. pose proof (exp_ineq1_le h) as A. pose proof (exp_ineq1_le (- h)) as B. pose proof (exp_pos h) as P. pose proof (exp_pos (- h)) as P'.
  assert (E : exp h * exp (- h) = 1) by (rewrite <- exp_plus; replace (h + - h) with 0 by ring; apply exp_0). set (g := exp h) in *. set (g' := exp (- h)) in *.
  apply Rabs_le. destruct (Rle_dec 0 h) as [Hh|Hh].
  - rewrite (Rabs_right h) in * by lra. split; [lra|]. assert (g * (1 - h) <= 1) by nra. nra.
  - rewrite (Rabs_left h) in * by lra. split; [lra|]. assert (g <= 1) by nra. lra.
Qed.
Lemma ln_near d : Rabs d <= / 1000000 -> Rabs (ln (1 + d)) <= 1001 / 1000 * Rabs d.
Proof.
  intros H. apply Rabs_le_inv in H as H'. assert (U : ln (1 + d) <= d). { pose proof (exp_ineq1_le (ln (1 + d))) as E. rewrite exp_ln in E by lra. lra. }
  assert (L : - d / (1 + d) <= - ln (1 + d) + 0 -> True) by auto.
  assert (L2 : ln (/ (1 + d)) <= / (1 + d) - 1). { pose proof (exp_ineq1_le (ln (/ (1 + d)))) as E. rewrite exp_ln in E by (apply Rinv_0_lt_compat; lra). lra. }
  rewrite ln_Rinv in L2 by lra. assert (Q : / (1 + d) - 1 = - d / (1 + d)) by (field; lra). rewrite Q in L2.
  apply Rabs_le. destruct (Rle_dec 0 d) as [Hd|Hd].
  - rewrite (Rabs_right d) in * by lra. split; [|lra]. assert (- d / (1 + d) <= 0). { unfold Rdiv. assert (0 < / (1 + d)) by (apply Rinv_0_lt_compat; lra). nra. } lra.
  - rewrite (Rabs_left d) in * by lra. split; [|lra]. assert (- d / (1 + d) <= 1001 / 1000 * - d). { apply (Rmult_le_reg_r (1 + d)); [lra|]. unfold Rdiv. rewrite Rmult_assoc, Rinv_l, Rmult_1_r by lra. nra. } lra.
Qed.

(** ** the cube root *)
Lemma third_near : is_finite (fdiv fone fthree) = true /\ Rabs (B2R (fdiv fone fthree) - / 3) <= u.
Proof.
  destruct (fdiv_val fone fthree eq_refl) as (F & E).
  - rewrite fthree_val; lra.
  - rewrite fone_val, fthree_val, Rabs_right by lra. assert (bpow radix2 0 <= bpow radix2 1023) by (apply bpow_le; lia). change (bpow radix2 0) with 1 in H. lra.
  - split; auto. rewrite E, fone_val, fthree_val. pose proof u_pos. pose proof eta_pos. pose proof tiny_consts. pose proof (bpow_gt_0 radix2 (-399)).
    destruct (rnd_err (1 / 3)) as (e & h & He & Hh & ->). replace (1 / 3 * (1 + e) + h - / 3) with (1 / 3 * e + h) by field.
    eapply Rle_trans; [apply Rabs_triang|]. rewrite Rabs_mult, (Rabs_right (1 / 3)) by lra. lra.
Qed.
Lemma root_start pow x X T : good_pow pow -> is_finite x = true -> near (548 / 100) 0 (B2R x) X -> 1 <= X <= 1116 / 1000 -> 0 < T -> T ^ 3 = X ->
  is_finite (pow x (fdiv fone fthree)) = true /\ near (398 / 100) 0 (B2R (pow x (fdiv fone fthree))) T.
Proof.
  intros (G & _) Fx A BX PT ET. pose proof u_pos as Pu. pose proof u_tiny as Su. destruct third_near as (Fc & Ec). set (c := B2R (fdiv fone fthree)) in *.
  pose proof (near_low (548 / 100) 0 _ X ltac:(lra) ltac:(lra) A) as L. pose proof (near_abs (548 / 100) 0 _ X ltac:(lra) A) as H. rewrite (Rabs_right X) in H by lra. set (xr := B2R x) in *.
  assert (Px : 0 < xr) by lra. rewrite (Rabs_right xr) in H by lra. apply Rabs_le_inv in Ec as Ec'.
  assert (LT : ln T = / 3 * ln X). { rewrite <- ET. replace (T ^ 3) with (T * (T * T)) by ring. rewrite !ln_mult by (try apply Rmult_lt_0_compat; auto). field. }
  set (d := xr / X - 1). assert (Xd : xr = X * (1 + d)) by (unfold d; field; lra).
  assert (Bd : Rabs d <= 548 / 100 * u).
  { unfold d. replace (xr / X - 1) with ((xr - X) / X) by (field; lra). unfold Rdiv. rewrite Rabs_mult, Rabs_inv, (Rabs_right X) by lra. unfold near in A. rewrite (Rabs_right X) in A by lra.
    apply (Rmult_le_reg_r X); [lra|]. rewrite Rmult_assoc, Rinv_l, Rmult_1_r by lra. fold xr in A. lra. }
  assert (Ld : Rabs (ln (1 + d)) <= 1001 / 1000 * (548 / 100 * u)). { eapply Rle_trans; [apply ln_near; lra|]. lra. }
  assert (LX : 0 <= ln X <= 12 / 100).
  { split; [rewrite <- ln_1; destruct (Req_dec X 1) as [->|N]; [lra|left; apply ln_increasing; lra]|]. pose proof (exp_ineq1_le (ln X)) as Q. rewrite exp_ln in Q by lra. lra. }
  assert (Px' : -1 < d) by (apply Rabs_le_inv in Bd; lra).
  set (h := c * ln xr - ln T). assert (Eh : h = c * ln (1 + d) + (c - / 3) * ln X). { unfold h. rewrite Xd, ln_mult, LT by lra. ring. }
  assert (Bh : Rabs h <= 196 / 100 * u).
  { rewrite Eh. eapply Rle_trans; [apply Rabs_triang|]. rewrite !Rabs_mult. rewrite (Rabs_right (ln X)) by lra. rewrite (Rabs_right c) by lra.
    assert (c * Rabs (ln (1 + d)) <= (/ 3 + u) * (1001 / 1000 * (548 / 100 * u))) by (apply Rmult_le_compat; try lra; apply Rabs_pos).
    assert (Rabs (c - / 3) * ln X <= u * (12 / 100)) by (apply Rmult_le_compat; try lra; apply Rabs_pos). assert (u * u <= / 1000 * u) by (apply Rmult_le_compat_r; lra). lra. }
  assert (ER : Rpower xr c = T * exp h). { unfold Rpower, h. replace (c * ln xr) with (ln T + (c * ln xr - ln T)) at 1 by ring. rewrite exp_plus, exp_ln by auto. reflexivity. }
  pose proof (exp_near h ltac:(lra)) as EH.
  assert (NR : near (197 / 100) 0 (Rpower xr c) T).
  { unfold near. rewrite ER. replace (T * exp h - T) with (T * (exp h - 1)) by ring. rewrite Rabs_mult, (Rabs_right T) by lra. rewrite Rplus_0_r, (Rmult_comm _ T). apply Rmult_le_compat_l; lra. }
  assert (BT : 1 / 2 <= T <= 2).
  { replace (T ^ 3) with (T * T * T) in ET by ring. split; [destruct (Rle_dec (1 / 2) T); auto; exfalso; assert (T * T < 1) by nra; nra|destruct (Rle_dec T 2); auto; exfalso; assert (4 < T * T) by nra; nra]. }
  pose proof (near_low (197 / 100) 0 _ T ltac:(lra) ltac:(lra) NR) as L2. pose proof (near_abs (197 / 100) 0 _ T ltac:(lra) NR) as H2. rewrite (Rabs_right T) in H2 by lra. assert (PR : 0 < Rpower xr c) by lra. rewrite (Rabs_right (Rpower xr c)) in H2 by lra.
  destruct (G x (fdiv fone fthree) Fx Fc Px) as (F & E).
  { fold xr c. split; [apply Rle_trans with (bpow radix2 (-2)); [apply bpow_le; lia|change (bpow radix2 (-2)) with (/ 4); lra]|apply Rle_trans with (bpow radix2 2); [change (bpow radix2 2) with 4; lra|apply bpow_le; lia]]. }
  split; auto. fold xr c in E.
  assert (N1 : near 2 0 (B2R (pow x (fdiv fone fthree))) (Rpower xr c)). { unfold near. rewrite (Rabs_right (Rpower xr c)) by lra. lra. }
  eapply near_weaken; [| |exact (near_trans 2 0 (197 / 100) 0 _ _ _ ltac:(lra) ltac:(lra) ltac:(lra) N1 NR)]; lra.
Qed.
Lemma root_near pow x X T : good_pow pow -> is_finite x = true -> near (548 / 100) 0 (B2R x) X -> 1 <= X <= 1116 / 1000 -> 1 <= T <= 1038 / 1000 -> T ^ 3 = X ->
  is_finite (fnthroot3 pow x) = true /\ near 20 0 (B2R (fnthroot3 pow x)) T.
Proof.
  intros G Fx A BX BT ET. pose proof u_pos as Pu. pose proof u_tiny as Su. pose proof eta_pos as Pe. pose proof tiny_consts as TC. pose proof (bpow_gt_0 radix2 (-399)) as P399.
  destruct (root_start pow x X T G Fx A BX ltac:(lra) ET) as (Fy & Ny). unfold fnthroot3. cbv zeta. set (y := pow x (fdiv fone fthree)) in *.
  destruct (negb _ && _); [|split; auto; eapply near_weaken; [| |exact Ny]; lra].
  assert (B1 : bpow radix2 (-300) <= T <= bpow radix2 300).
  { split; [apply Rle_trans with (bpow radix2 0); [apply bpow_le; lia|cbn; lra]|apply Rle_trans with (bpow radix2 1); [cbn; lra|apply bpow_le; lia]]. }
  assert (B9 : 100 <= bpow radix2 400). { apply Rle_trans with (bpow radix2 7); [cbn; lra|apply bpow_le; lia]. }
  assert (B99 : bpow radix2 400 <= bpow radix2 900) by (apply bpow_le; lia).
  destruct (pow3_near pow y (398 / 100) T G Fy ltac:(lra) B1 Ny) as (Fc & Nc). replace (T * T * T) with X in Nc by (rewrite <- ET; ring).
  destruct (fsub_near_t (pow y fthree) x _ _ 0 0 X X Fc Fx (ltac:(lra) : 0 <= 3 * (398 / 100) + 2 + 2 / 100 <= 400) (ltac:(lra) : 0 <= 548 / 100 <= 400)) as (Fd & Ed); auto; try lra; try (rewrite Rabs_right; lra).
  rewrite (Rminus_diag_eq X X), Rabs_R0, Rminus_0_r, (Rabs_right X) in Ed by lra.
  destruct (fmul_near y y (398 / 100) (398 / 100) 0 T T) as (Fq & Nq); auto; try lra; try (rewrite Rabs_right; lra).
  assert (BTT : 1 <= T * T <= 2) by nra.
  assert (Nq' : near (9 + / 100) 0 (B2R (fmul y y)) (T * T)).
  { eapply near_weaken; [| |eapply (near_absorb _ (/ 100)); [|exact Nq]]; try lra. rewrite (Rabs_right (T * T)), (Rabs_right T) by lra. nra. }
  destruct (fmul_near_n fthree (fmul y y) 0 (9 + / 100) 3 (T * T)) as (F3 & N3); auto; try lra. { apply near_const, fthree_val. } { rewrite Rabs_right; lra. } { rewrite Rabs_right; lra. }
  { rewrite Rabs_right by lra. apply Rle_trans with (bpow radix2 0); [apply bpow_le; lia|cbn; lra]. }
  set (dd := fsub (pow y fthree) x) in *. set (qq := fmul fthree (fmul y y)) in *.
  pose proof (near_low (0 + (9 + / 100) + 1 + / 500) 0 _ (3 * (T * T)) ltac:(lra) ltac:(lra) N3) as Lq.
  assert (BQ : Rabs (B2R dd / B2R qq) <= 734 / 100 * u * T).
  { unfold Rdiv. rewrite Rabs_mult, Rabs_inv, (Rabs_right (B2R qq)) by lra. apply (Rmult_le_reg_r (B2R qq)); [lra|]. rewrite Rmult_assoc, Rinv_l, Rmult_1_r by lra.
    eapply Rle_trans; [exact Ed|]. replace X with (T * T * T) by (rewrite <- ET; ring).
    apply Rle_trans with (734 / 100 * u * T * (3 * (T * T) * (1 - / 1000000) - 0)); [|apply Rmult_le_compat_l; [apply Rmult_le_pos; lra|lra]].
    assert (0 <= u * (T * T * T)) by (apply Rmult_le_pos; [lra|apply Rmult_le_pos; lra]). lra. }
  destruct (fdiv_val dd qq Fd) as (Fz & Ez); [lra| |]. { eapply Rle_trans; [exact BQ|]. apply Rle_trans with 1; [nra|]. apply Rle_trans with (bpow radix2 0); [cbn; lra|apply bpow_le; lia]. }
  assert (NZ : near 0 (736 / 100 * u * T) (B2R (fdiv dd qq)) 0).
  { unfold near. rewrite Rminus_0_r, Rabs_R0, Ez. destruct (rnd_err (B2R dd / B2R qq)) as (e & h & He & Hh & ->). eapply Rle_trans; [apply Rabs_triang|]. rewrite Rabs_mult.
    assert (E1 : Rabs (1 + e) <= 1 + u). { eapply Rle_trans; [apply Rabs_triang|]. rewrite Rabs_R1. lra. }
    assert (Rabs (B2R dd / B2R qq) * Rabs (1 + e) <= 734 / 100 * u * T * (1 + u)) by (apply Rmult_le_compat; auto; apply Rabs_pos).
    assert (u * u * T <= / 1000 * u * T). { apply Rmult_le_compat_r; [lra|]. apply Rmult_le_compat_r; lra. } assert (u * 1 <= u * T) by (apply Rmult_le_compat_l; lra). lra. }
  assert (UT : 0 <= 736 / 100 * u * T <= 1). { split; [apply Rmult_le_pos; lra|]. assert (u * T <= / 1000000000000000 * 2) by (apply Rmult_le_compat; lra). lra. }
  destruct (fsub_near_t y (fdiv dd qq) (398 / 100) 0 0 (736 / 100 * u * T) T 0) as (Fr & Er); auto; try lra; try (rewrite Rabs_right; lra).
  split; auto. unfold near. rewrite Rminus_0_r, Rabs_R0 in Er. rewrite (Rabs_right T) in * by lra. assert (0 <= u * T) by (apply Rmult_le_pos; lra). lra.
Qed.
