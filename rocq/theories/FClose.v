(** * C82, C83: euclidean_distance and isclose in binary64 (core.py 730-731, util.py 169-178) *)
From Coq Require Import ZArith Reals Lia Lra Bool Psatz.
From Flocq Require Import Core BinarySingleNaN.
From Verif Require Import Spec LVec FTiny FZero FBase FUnit FDist FGreat.
Local Open Scope R_scope.

(** ** C82: euclidean_distance has a small relative error, however close the positions *)
Definition bounded_vec (a : vec64) : Prop := let '(x, y, z) := a in
  is_finite x = true /\ is_finite y = true /\ is_finite z = true /\
  Rabs (B2R x) <= bpow radix2 398 /\ Rabs (B2R y) <= bpow radix2 398 /\ Rabs (B2R z) <= bpow radix2 398.

Lemma sub_comp (p q : float64) : is_finite p = true -> is_finite q = true -> Rabs (B2R p) <= bpow radix2 398 -> Rabs (B2R q) <= bpow radix2 398 ->
  is_finite (fsub p q) = true /\ Rabs (B2R (fsub p q)) <= bpow radix2 399 /\ Rabs (B2R (fsub p q) - (B2R p - B2R q)) <= u * Rabs (B2R p - B2R q).
Proof.
  intros Fp Fq Bp Bq. assert (W : Rabs (B2R p - B2R q) <= bpow radix2 399).
  { change 399%Z with (1 + 398)%Z. rewrite bpow_plus. change (bpow radix2 1) with 2. unfold Rminus. eapply Rle_trans; [apply Rabs_triang|]. rewrite Rabs_Ropp. lra. }
  destruct (fsub_val p q Fp Fq) as (F & E). { eapply Rle_trans; [exact W|]. apply bpow_le; lia. }
  split; auto. split. { rewrite E. apply rnd_abs_le; auto. lia. }
  rewrite E. destruct (rnd_add_err (B2R p) (- B2R q)) as (e & He & R); [apply format64|apply generic_format_opp, format64|].
  unfold Rminus at 2. rewrite R. replace ((B2R p + - B2R q) * (1 + e) - (B2R p - B2R q)) with (e * (B2R p - B2R q)) by ring.
  rewrite Rabs_mult. apply Rmult_le_compat_r; auto. apply Rabs_pos.
Qed.

Theorem C82_euclidean_accuracy : forall a b radius, bounded_vec a -> bounded_vec b -> is_finite radius = true -> Rabs (B2R radius) <= bpow radix2 600 ->
  is_finite (feuclidean_distance a b radius) = true /\
  Rabs (B2R (feuclidean_distance a b radius) - vnorm (vsub (vec_of b) (vec_of a)) * B2R radius)
  <= 51 / 10 * u * (vnorm (vsub (vec_of b) (vec_of a)) * Rabs (B2R radius)) + bpow radix2 (-398) * Rabs (B2R radius) + eta.
Proof.
  intros [[a0 a1] a2] [[b0 b1] b2] radius (Fa0 & Fa1 & Fa2 & Ba0 & Ba1 & Ba2) (Fb0 & Fb1 & Fb2 & Bb0 & Bb1 & Bb2) FR BR.
  pose proof u_pos as Pu. pose proof u_small as Su. pose proof (bpow_gt_0 radix2 (-399)) as P3.
  unfold feuclidean_distance, fsubv, fnorm.
  destruct (sub_comp b0 a0) as (F0 & M0 & D0); auto. destruct (sub_comp b1 a1) as (F1 & M1 & D1); auto. destruct (sub_comp b2 a2) as (F2 & M2 & D2); auto.
  set (x := fsub b0 a0) in *. set (y := fsub b1 a1) in *. set (z := fsub b2 a2) in *.
  assert (L4 : bpow radix2 399 <= bpow radix2 400) by (apply bpow_le; lia).
  destruct (any_norm x y z F0 F1 F2) as (FN & PN & DN); try lra.
  set (w := vsub (vec_of (b0, b1, b2)) (vec_of (a0, a1, a2))). rewrite length3_vnorm in DN.
  set (v := vec_of (x, y, z)) in *. set (d := vsub v w).
  assert (Ev : v = vadd w d) by apply vadd_sub_id.
  assert (ND : vnorm d <= u * vnorm w).
  { rewrite <- (Rabs_right u) at 1 by lra. rewrite <- vnorm_scale.
    replace (vnorm (vscale u w)) with (vnorm (vscale u (V (Rabs (vx w)) (Rabs (vy w)) (Rabs (vz w))))).
    - apply norm_le_comp; unfold d, v, w, vec_of, vsub, vscale; cbn [Spec.vx Spec.vy Spec.vz]; auto.
    - rewrite !vnorm_scale. f_equal. unfold vnorm. f_equal. unfold vdot; cbn [Spec.vx Spec.vy Spec.vz]. rewrite <- !Rabs_mult, !Rabs_right by nra. reflexivity. }
  pose proof (norm_perturb w d) as NP. rewrite <- Ev in NP. pose proof (vnorm_pos w) as PW. pose proof (vnorm_pos v) as PV.
  set (N := norm3 x y z) in *. set (W := vnorm w) in *. set (Vv := vnorm v) in *.
  assert (VW : Rabs (Vv - W) <= u * W) by lra. apply Rabs_le_inv in VW.
  assert (NW : Rabs (B2R N - W) <= 401 / 100 * u * W + bpow radix2 (-399)).
  { apply Rabs_le_inv in DN. assert (3 * u * Vv <= 3 * u * (W + u * W)) by (apply Rmult_le_compat_l; lra).
    assert (0 <= u * W) by (apply Rmult_le_pos; lra). assert (u * (u * W) <= / 1000 * (u * W)) by (apply Rmult_le_compat_r; lra). apply Rabs_le. lra. }
  assert (BW : W <= bpow radix2 401).
  { unfold W. eapply Rle_trans; [apply norm_sum3|]. unfold w, vsub, vec_of; cbn [Spec.vx Spec.vy Spec.vz].
    assert (K : forall p q, Rabs p <= bpow radix2 398 -> Rabs q <= bpow radix2 398 -> Rabs (p - q) <= 2 * bpow radix2 398).
    { intros p q Hp Hq. unfold Rminus. eapply Rle_trans; [apply Rabs_triang|]. rewrite Rabs_Ropp. lra. }
    pose proof (K _ _ Bb0 Ba0). pose proof (K _ _ Bb1 Ba1). pose proof (K _ _ Bb2 Ba2).
    change 401%Z with (3 + 398)%Z. rewrite bpow_plus. change (bpow radix2 3) with 8. pose proof (bpow_gt_0 radix2 398). lra. }
  assert (T1 : bpow radix2 (-399) <= 1). { change 1 with (bpow radix2 0). apply bpow_le; lia. }
  assert (T2 : 1 <= bpow radix2 401). { change 1 with (bpow radix2 0). apply bpow_le; lia. }
  assert (BN : Rabs (B2R N) <= bpow radix2 403).
  { change 403%Z with (2 + 401)%Z. rewrite bpow_plus. change (bpow radix2 2) with 4. apply Rabs_le_inv in NW. apply Rabs_le.
    assert (0 <= u * W) by (apply Rmult_le_pos; lra). assert (u * W <= / 1000000000 * W) by (apply Rmult_le_compat_r; lra). lra. }
  pose proof (Rabs_pos (B2R radius)) as PR. set (R := Rabs (B2R radius)) in *.
  destruct (fmul_val N radius FN FR) as (F & E).
  { rewrite Rabs_mult. fold R. apply Rle_trans with (bpow radix2 403 * bpow radix2 600); [apply Rmult_le_compat; auto; apply Rabs_pos|]. rewrite <- bpow_plus. apply bpow_le; lia. }
  split; auto. rewrite E. destruct (rnd_err (B2R N * B2R radius)) as (e & h & He & Hh & ->).
  replace (B2R N * B2R radius * (1 + e) + h - W * B2R radius) with ((B2R N - W) * B2R radius + B2R N * B2R radius * e + h) by ring.
  eapply Rle_trans; [apply Rabs_triang|]. eapply Rle_trans; [apply Rplus_le_compat_r, Rabs_triang|]. rewrite !Rabs_mult. fold R.
  set (t := bpow radix2 (-399)) in *. assert (T3 : bpow radix2 (-398) = 2 * t) by (unfold t; change (-398)%Z with (1 + -399)%Z; rewrite bpow_plus; reflexivity). rewrite T3.
  assert (A1 : Rabs (B2R N - W) * R <= (401 / 100 * u * W + t) * R) by (apply Rmult_le_compat_r; auto).
  assert (A2 : Rabs (B2R N) <= 101 / 100 * W + t). { apply Rabs_le_inv in NW. rewrite Rabs_right by lra. assert (401 / 100 * u * W <= 1 / 100 * W) by (apply Rmult_le_compat_r; lra). lra. }
  assert (A3 : Rabs (B2R N) * R * Rabs e <= (101 / 100 * W + t) * R * u).
  { apply Rmult_le_compat; auto; try apply Rabs_pos; [apply Rmult_le_pos; auto; apply Rabs_pos|apply Rmult_le_compat_r; auto]. }
  assert (0 <= W * R) by (apply Rmult_le_pos; auto). assert (0 <= t * R) by (apply Rmult_le_pos; lra).
  assert (t * R * u <= t * R * 1) by (apply Rmult_le_compat_l; lra). assert (0 <= u * (W * R)) by (apply Rmult_le_pos; lra). lra.
Qed.

(** ** C83: isclose *)
Definition fle (x y : float64) : bool := match Bcompare x y with Some Lt => true | Some Eq => true | _ => false end.
Definition feq (x y : float64) : bool := match Bcompare x y with Some Eq => true | _ => false end.
(** np.maximum: (x >= y || isnan(x)) ? x : y *)
Definition fmax (x y : float64) : float64 := if fle y x || is_nan x then x else y.
(** util.py 171-178, one pair of entries (np.isclose of finite numbers with rtol=0: |a-b| <= atol + 0*|b|) *)
Definition fisclose (rtol atol : float64) (equal_nan : bool) (a b : float64) : bool :=
  if is_finite a && is_finite b then
    let abs_tol := fmax atol (fmul rtol (fmax (fabs a) (fabs b))) in
    fle (fabs (fsub a b)) (fadd abs_tol (fmul (B754_zero false) (fabs b)))
  else (is_nan a && is_nan b && equal_nan) || feq a b.

Lemma fle_val x y : is_finite x = true -> is_finite y = true -> fle x y = true <-> B2R x <= B2R y.
Proof.
  intros Fx Fy. unfold fle. rewrite Bcompare_correct by auto. destruct (Rcompare_spec (B2R x) (B2R y)); split; intros; try discriminate; try reflexivity; lra.
Qed.
Lemma fabs_val (x : float64) : B2R (fabs x) = Rabs (B2R x). Proof. apply B2R_Babs. Qed.
Lemma fabs_fin (x : float64) : is_finite (fabs x) = is_finite x. Proof. apply is_finite_Babs. Qed.
Lemma fabs_sign (x : float64) : Bsign (fabs x) = false. Proof. destruct x; reflexivity. Qed.
Lemma fabs_sub_sym a b : fabs (fsub a b) = fabs (fsub b a).
Proof.
  destruct (fsub_anti a b) as [E|(s & t & E1 & E2)]; [|rewrite E1, E2; reflexivity].
  rewrite E. destruct (fsub a b); reflexivity.
Qed.
Lemma fmax_abs_sym a b : is_finite a = true -> is_finite b = true -> fmax (fabs a) (fabs b) = fmax (fabs b) (fabs a).
Proof.
  intros Fa Fb. unfold fmax.
  assert (Na : is_nan (fabs a) = false) by (apply finite_nan; rewrite fabs_fin; auto). assert (Nb : is_nan (fabs b) = false) by (apply finite_nan; rewrite fabs_fin; auto).
  rewrite Na, Nb, !orb_false_r.
  destruct (fle (fabs b) (fabs a)) eqn:E1, (fle (fabs a) (fabs b)) eqn:E2; auto.
  - apply fle_val in E1; try (rewrite fabs_fin; auto). apply fle_val in E2; try (rewrite fabs_fin; auto).
    apply B2R_Bsign_inj; rewrite ?fabs_fin; auto; [lra|rewrite !fabs_sign; reflexivity].
  - exfalso. destruct (Rle_dec (B2R (fabs a)) (B2R (fabs b))) as [L|L].
    + apply fle_val in L; try (rewrite fabs_fin; auto). congruence.
    + assert (L' : B2R (fabs b) <= B2R (fabs a)) by lra. apply fle_val in L'; try (rewrite fabs_fin; auto). congruence.
Qed.
Lemma zero_times (b : float64) : is_finite b = true -> fmul (B754_zero false) (fabs b) = B754_zero false.
Proof. destruct b; try discriminate; reflexivity. Qed.
Lemma feq_sym a b : feq a b = feq b a.
Proof. unfold feq. rewrite (Bcompare_swap _ _ b a). destruct (Bcompare b a) as [[]|]; reflexivity. Qed.

(** bit for bit the same answer for all doubles, NaN and infinities included, whatever the tolerances *)
Theorem C83_symmetric : forall rtol atol equal_nan a b, fisclose rtol atol equal_nan a b = fisclose rtol atol equal_nan b a.
Proof.
  intros rtol atol en a b. unfold fisclose. rewrite (andb_comm (is_finite b)). destruct (is_finite a && is_finite b) eqn:E.
  - apply andb_prop in E. destruct E as (Fa & Fb). rewrite fabs_sub_sym, (fmax_abs_sym a b), !zero_times; auto.
  - rewrite feq_sym, (andb_comm (is_nan b)). reflexivity.
Qed.

(** every number is close to itself; NaN exactly if equal_nan *)
Theorem C83_reflexive : forall rtol atol equal_nan a,
  is_finite rtol = true -> is_finite atol = true -> 0 <= B2R atol -> 0 <= B2R rtol ->
  fisclose rtol atol equal_nan a a = negb (is_nan a) || equal_nan.
Proof.
  intros rtol atol en a Fr Ft Pt Pr. unfold fisclose. destruct (is_finite a) eqn:Fa; cbn [andb].
  - rewrite (finite_nan a Fa). cbn [negb orb]. rewrite zero_times, fsub_self by auto. cbn [fabs Babs].
    set (m := fmul rtol (fmax (fabs a) (fabs a))).
    assert (Mn : is_nan m = false /\ (is_finite m = true -> 0 <= B2R m) /\ (is_finite m = false -> m = B754_infinity false)).
    { assert (Em : fmax (fabs a) (fabs a) = fabs a) by (unfold fmax; destruct (fle _ _ || _); auto).
      unfold m. rewrite Em. pose proof (Bmult_correct 53 1024 prec64 emax64 mode_NE rtol (fabs a)) as C. fold (fmul rtol (fabs a)) in C.
      assert (P : 0 <= B2R rtol * B2R (fabs a)) by (apply Rmult_le_pos; auto; rewrite fabs_val; apply Rabs_pos).
      destruct (Rlt_bool _ _).
      - destruct C as (B & F & _). rewrite Fr, fabs_fin, Fa in F. cbn in F. split; [apply finite_nan; auto|]. split; [|intros X; congruence].
        intros _. rewrite B. cbn [round_mode]. rewrite <- (round_0 radix2 (SpecFloat.fexp 53 1024) ZnearestE). change (SpecFloat.fexp 53 1024) with fexp64. apply round_le; auto with typeclass_instances.
      - assert (S : Bsign rtol = false \/ B2R rtol = 0).
        { destruct rtol as [s|s| |[|] mm ee HH]; try discriminate; cbn; auto. exfalso. assert (X : B2R (B754_finite true mm ee HH) < 0) by (apply F2R_lt_0; reflexivity). lra. }
        destruct S as [S|S].
        + rewrite S, fabs_sign in C. cbn in C. assert (X : fmul rtol (fabs a) = B754_infinity false) by (apply B2SF_inj; exact C). rewrite X. split; auto. split; [discriminate|auto].
        + destruct (fmul_val rtol (fabs a) Fr) as (F & E); [rewrite fabs_fin; auto|rewrite S, Rmult_0_l, Rabs_R0; apply bpow_ge_0|].
          split; [apply finite_nan; auto|]. split; [|intros X; congruence]. intros _. rewrite E, S, Rmult_0_l, round_0; auto with typeclass_instances. lra. }
    destruct Mn as (Nm & Pm & Im). unfold fmax. rewrite (finite_nan atol Ft), orb_false_r. fold m.
    destruct (is_finite m) eqn:Fm.
    + assert (G : forall w : float64, is_finite w = true -> 0 <= B2R w -> fle (B754_zero false) (fadd w (B754_zero false)) = true).
      { intros w Fw Pw. pose proof (abs_B2R_lt_emax 53 1024 w) as Lw. 
        pose proof (Bplus_correct 53 1024 prec64 emax64 mode_NE w (B754_zero false) Fw eq_refl) as C. fold (fadd w (B754_zero false)) in C.
        cbn [B2R round_mode] in C. rewrite Rplus_0_r in C. change (SpecFloat.fexp 53 1024) with fexp64 in C.
        rewrite round_generic in C by (auto with typeclass_instances; apply format64). rewrite Rlt_bool_true in C by auto. destruct C as (B & F & _).
        apply fle_val; auto. cbn [B2R]. rewrite B. auto. }
      destruct (fle m atol); apply G; auto.
    + rewrite (Im eq_refl). destruct (fle (B754_infinity false) atol) eqn:L; [|reflexivity].
      exfalso. destruct atol as [s|s| |s mm ee HH]; try discriminate; destruct s; discriminate.
  - destruct a as [s|s| |s m e H]; try discriminate; cbn; [|destruct en; reflexivity]. destruct s; reflexivity.
Qed.

(** the answer is the one of exact arithmetic except within 3 units of roundoff of the tolerance *)
Theorem C83_decision : forall rtol atol equal_nan a b, is_finite a = true -> is_finite b = true -> is_finite rtol = true -> is_finite atol = true ->
  Rabs (B2R a) <= bpow radix2 1000 -> Rabs (B2R b) <= bpow radix2 1000 -> 0 <= B2R rtol <= 1 -> 0 <= B2R atol <= bpow radix2 1000 ->
  let T := Rmax (B2R atol) (B2R rtol * Rmax (Rabs (B2R a)) (Rabs (B2R b))) in
  (fisclose rtol atol equal_nan a b = true -> Rabs (B2R a - B2R b) <= T * (1 + 3 * u) + 2 * eta) /\
  (Rabs (B2R a - B2R b) <= T * (1 - 3 * u) - 2 * eta -> fisclose rtol atol equal_nan a b = true).
Proof.
  intros rtol atol en a b Fa Fb Fr Ft Ba Bb Br Bt T. pose proof u_pos as Pu. pose proof u_small as Su. pose proof eta_pos as Pe.
  unfold fisclose. rewrite Fa, Fb. cbn [andb]. rewrite zero_times by auto.
  assert (Vmax : forall x y, is_finite x = true -> is_finite y = true -> is_finite (fmax x y) = true /\ B2R (fmax x y) = Rmax (B2R x) (B2R y)).
  { intros x y Fx Fy. unfold fmax. rewrite (finite_nan x Fx), orb_false_r. destruct (fle y x) eqn:L.
    - apply fle_val in L; auto. rewrite Rmax_left by auto. auto.
    - rewrite Rmax_right; auto. destruct (Rle_dec (B2R x) (B2R y)); auto. exfalso. assert (Z : B2R y <= B2R x) by lra. apply fle_val in Z; auto. congruence. }
  destruct (Vmax (fabs a) (fabs b)) as (Fm & Vm); try (rewrite fabs_fin; auto). rewrite !fabs_val in Vm.
  set (mx := fmax (fabs a) (fabs b)) in *. set (M := Rmax (Rabs (B2R a)) (Rabs (B2R b))) in *.
  assert (BM : 0 <= M <= bpow radix2 1000). { split; [eapply Rle_trans; [apply Rabs_pos|apply Rmax_l]|apply Rmax_lub; auto]. }
  assert (PM : 0 <= B2R rtol * M <= bpow radix2 1000) by (split; [apply Rmult_le_pos; lra|nra]).
  destruct (fmul_val rtol mx Fr Fm) as (Fp & Ep). { rewrite Vm, Rabs_right by lra. eapply Rle_trans; [apply PM|]. apply bpow_le; lia. }
  rewrite Vm in Ep. set (p := fmul rtol mx) in *.
  destruct (Vmax atol p Ft Fp) as (Fq & Vq). set (q := fmax atol p) in *.
  assert (Bp : 0 <= B2R p <= bpow radix2 1000).
  { rewrite Ep. split; [rewrite <- (round_0 radix2 fexp64 ZnearestE); apply round_le; auto with typeclass_instances; lra|].
    eapply Rle_trans; [apply Rle_abs|]. apply rnd_abs_le; [lia|]. rewrite Rabs_right; lra. }
  assert (Bq : 0 <= B2R q <= bpow radix2 1000). { rewrite Vq. split; [eapply Rle_trans; [apply Bt|apply Rmax_l]|apply Rmax_lub; lra]. }
  destruct (fadd_val q (B754_zero false) Fq eq_refl) as (Fz & Ez).
  { cbn [B2R]. rewrite Rplus_0_r, Rabs_right by lra. eapply Rle_trans; [apply Bq|]. apply bpow_le; lia. }
  cbn [B2R] in Ez. rewrite Rplus_0_r, round_generic in Ez by (auto with typeclass_instances; apply format64).
  destruct (fsub_val a b Fa Fb) as (Fd & Ed).
  { apply Rle_trans with (bpow radix2 1001); [|apply bpow_le; lia]. change 1001%Z with (1 + 1000)%Z. rewrite bpow_plus. change (bpow radix2 1) with 2.
    unfold Rminus. eapply Rle_trans; [apply Rabs_triang|]. rewrite Rabs_Ropp. lra. }
  destruct (rnd_add_err (B2R a) (- B2R b)) as (e & He & R); [apply format64|apply generic_format_opp, format64|]. fold (B2R a - B2R b) in R. rewrite R in Ed.
  destruct (rnd_err (B2R rtol * M)) as (e1 & h & He1 & Hh & R1). rewrite R1 in Ep.
  apply Rabs_le_inv in He. apply Rabs_le_inv in He1. apply Rabs_le_inv in Hh.
  assert (AD : B2R (fabs (fsub a b)) = Rabs (B2R a - B2R b) * (1 + e)). { rewrite fabs_val, Ed, Rabs_mult, (Rabs_right (1 + e)) by lra. reflexivity. }
  pose proof (Rabs_pos (B2R a - B2R b)) as PD. set (D := Rabs (B2R a - B2R b)) in *.
  set (g := B2R rtol * M) in *. assert (PT : 0 <= T) by (unfold T; eapply Rle_trans; [apply Bt|apply Rmax_l]).
  assert (TU : B2R q <= T * (1 + u) + eta).
  { rewrite Vq. assert (B2R atol <= T) by apply Rmax_l. assert (g <= T) by apply Rmax_r. apply Rmax_lub; [nra|]. rewrite Ep. nra. }
  assert (TL : T * (1 - u) - eta <= B2R q).
  { rewrite Vq. unfold T, Rmax at 1. destruct (Rle_dec (B2R atol) g).
    - apply Rle_trans with (B2R p); [rewrite Ep; nra|apply Rmax_r].
    - apply Rle_trans with (B2R atol); [nra|apply Rmax_l]. }
  split; intros H.
  - apply fle_val in H; [|rewrite fabs_fin; auto|auto]. rewrite AD, Ez in H.
    assert (DL : D * (1 - u) <= T * (1 + u) + eta) by nra.
    assert (K : (T * (1 + u) + eta) <= (T * (1 + 3 * u) + 2 * eta) * (1 - u)).
    { replace ((T * (1 + 3 * u) + 2 * eta) * (1 - u)) with (T * ((1 + 3 * u) * (1 - u)) + 2 * eta * (1 - u)) by ring.
      assert (T * (1 + u) <= T * ((1 + 3 * u) * (1 - u))) by (apply Rmult_le_compat_l; nra). nra. }
    apply (Rmult_le_reg_r (1 - u)); [lra|]. lra.
  - apply fle_val; [rewrite fabs_fin; auto|auto|]. rewrite AD, Ez.
    assert (DU : D * (1 + e) <= (T * (1 - 3 * u) - 2 * eta) * (1 + u)) by (apply Rmult_le_compat; lra).
    replace ((T * (1 - 3 * u) - 2 * eta) * (1 + u)) with (T * ((1 - 3 * u) * (1 + u)) - 2 * eta * (1 + u)) in DU by ring.
    assert (T * ((1 - 3 * u) * (1 + u)) <= T * (1 - u)) by (apply Rmult_le_compat_l; nra). nra.
Qed.

Example C82_C83_example :
  let three := f 6755399441055744 (-51) eq_refl in let four := f 4503599627370496 (-50) eq_refl in
  bounded_vec (three, four, B754_zero false) /\
  fisclose (f 7555786372591432 (-76) eq_refl) (f 6338253001141147 (-99) eq_refl) false three four = false /\
  fisclose (f 7555786372591432 (-76) eq_refl) (f 6338253001141147 (-99) eq_refl) false three (f 6755399441055745 (-51) eq_refl) = true.
Proof.
  cbv zeta. split; [|split; vm_compute; reflexivity].
  assert (A : B2R (f 6755399441055744 (-51) eq_refl) = 3) by (unfold f, B2R, F2R; cbn; lra).
  assert (B : B2R (f 4503599627370496 (-50) eq_refl) = 4) by (unfold f, B2R, F2R; cbn; lra).
  assert (Big : 4 <= bpow radix2 398). { apply Rle_trans with (bpow radix2 2); [cbn; lra|apply bpow_le; lia]. }
  unfold bounded_vec. rewrite A, B. cbn [B2R]. rewrite Rabs_R0, !Rabs_right by lra. repeat split; lra.
Qed.
