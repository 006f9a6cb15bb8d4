(** * C109: GeoPoint == GeoPoint in binary64 (objects.py 142-146, 212-224) *)
From Coq Require Import ZArith Reals Lia Lra Bool Psatz.
From Flocq Require Import Core BinarySingleNaN Sterbenz.
From Verif Require Import FTiny FZero FBase FPi FAngle FMod FDist FGreat FClose FGeod.
Local Open Scope R_scope.

(** objects.py 144: rtol=1e-12, atol=1e-14 *)
Definition eq_rtol : float64 := f 4951760157141521 (-92) eq_refl.
Definition eq_atol : float64 := f 6338253001141147 (-99) eq_refl.
(** objects.py 213-216, diff(angle1, angle2) of one pair of entries *)
Definition fangle_diff (a b : float64) : float64 :=
  let delta := fremainder (fsub a b) two_pi64 in if flt pi64 delta then fsub two_pi64 delta else delta.
(** objects.py 221-222, one pair of entries *)
Definition fangle_equal (a b : float64) : bool := fisclose eq_rtol eq_atol false (fangle_diff a b) (B754_zero false).
(** objects.py 212-224 for points of one position in the same frame (lat, lon, z) *)
Definition fgeo_equal (p q : float64 * float64 * float64) : bool :=
  let '(lat1, lon1, z1) := p in let '(lat2, lon2, z2) := q in
  fangle_equal lat1 lat2 && fangle_equal lon1 lon2 && fisclose eq_rtol eq_atol false z1 z2.

Lemma atol_val : Rabs (B2R eq_atol - / 100000000000000) <= / 100000000000000 * u.
Proof. rewrite u_val. unfold eq_atol, f, B2R, F2R; cbn. apply Rabs_le. lra. Qed.

Lemma flt_val x y : is_finite x = true -> is_finite y = true -> flt x y = true <-> B2R x < B2R y.
Proof. intros Fx Fy. unfold flt. rewrite Bcompare_correct by auto. destruct (Rcompare_spec (B2R x) (B2R y)); split; intros; try discriminate; try reflexivity; lra. Qed.

(** being close to 0 *)
Lemma close_zero d : is_finite d = true -> 0 <= B2R d <= 4 -> fisclose eq_rtol eq_atol false d (B754_zero false) = true <-> B2R d <= B2R eq_atol.
Proof.
  intros Fd Bd. pose proof u_pos as Pu. pose proof u_small as Su. pose proof atol_val as AV. rewrite u_val in AV. apply Rabs_le_inv in AV.
  assert (R12 : 0 < B2R eq_rtol <= / 100) by (unfold eq_rtol, f, B2R, F2R; cbn; lra).
  unfold fisclose. rewrite Fd. cbn [is_finite andb]. rewrite zero_times by reflexivity.
  assert (Vmax : forall x y, is_finite x = true -> is_finite y = true -> is_finite (fmax x y) = true /\ B2R (fmax x y) = Rmax (B2R x) (B2R y)).
  { intros x y Fx Fy. unfold fmax. rewrite (finite_nan x Fx), orb_false_r. destruct (fle y x) eqn:L.
    - apply fle_val in L; auto. rewrite Rmax_left by auto. auto.
    - rewrite Rmax_right; auto. destruct (Rle_dec (B2R x) (B2R y)); auto. exfalso. assert (Z : B2R y <= B2R x) by lra. apply fle_val in Z; auto. congruence. }
  destruct (Vmax (fabs d) (fabs (B754_zero false))) as (Fm & Vm); try (rewrite fabs_fin; auto). rewrite !fabs_val in Vm. cbn [B2R] in Vm. rewrite Rabs_R0, (Rabs_right (B2R d)), Rmax_left in Vm by lra.
  set (mx := fmax (fabs d) _) in *.
  assert (Big : 16 <= bpow radix2 1000). { apply Rle_trans with (bpow radix2 4); [cbn; lra|apply bpow_le; lia]. }
  assert (Big2 : bpow radix2 1000 <= bpow radix2 1023) by (apply bpow_le; lia).
  destruct (fmul_val eq_rtol mx eq_refl Fm) as (Fp & Ep). { rewrite Vm, Rabs_right by nra. nra. }
  rewrite Vm in Ep. set (p := fmul eq_rtol mx) in *. destruct (Vmax eq_atol p eq_refl Fp) as (Fq & Vq). set (q := fmax eq_atol p) in *.
  assert (Bp : 0 <= B2R p <= B2R d /\ (B2R p <= / 10 * B2R d + eta)).
  { rewrite Ep. split; [split|].
    - rewrite <- (round_0 radix2 fexp64 ZnearestE); apply round_le; auto with typeclass_instances; nra.
    - apply round_le_generic; auto with typeclass_instances; [apply format64|nra].
    - destruct (rnd_err (B2R eq_rtol * B2R d)) as (e1 & h & He1 & Hh & R1). rewrite R1. apply Rabs_le_inv in He1. apply Rabs_le_inv in Hh.
      assert (B2R eq_rtol * B2R d * (1 + e1) <= / 100 * B2R d * 2); [|lra]. apply Rmult_le_compat; try lra; [nra|apply Rmult_le_compat_r; lra]. }
  destruct Bp as (Bp & Bp2).
  assert (Bq : 0 <= B2R q <= 4). { rewrite Vq. split; [eapply Rle_trans; [|apply Rmax_l]; lra|apply Rmax_lub; lra]. }
  destruct (fadd_val q (B754_zero false) Fq eq_refl) as (Fz & Ez). { cbn [B2R]. rewrite Rplus_0_r, Rabs_right by lra. lra. }
  cbn [B2R] in Ez. rewrite Rplus_0_r, round_generic in Ez by (auto with typeclass_instances; apply format64).
  destruct (fsub_val d (B754_zero false) Fd eq_refl) as (Fs & Es). { cbn [B2R]. rewrite Rminus_0_r, Rabs_right by lra. lra. }
  cbn [B2R] in Es. rewrite Rminus_0_r, round_generic in Es by (auto with typeclass_instances; apply format64).
  rewrite fle_val; [|rewrite fabs_fin; auto|auto]. rewrite fabs_val, Es, Ez, Vq, Rabs_right by lra.
  assert (ET : eta <= / 1000000000000000000). { unfold eta. apply Rle_trans with (bpow radix2 (-60)); [apply bpow_le; lia|cbn; lra]. }
  split; intros H.
  - destruct (Rle_dec (B2R d) (B2R eq_atol)); auto. exfalso. revert H. unfold Rmax. destruct (Rle_dec _ _); lra.
  - eapply Rle_trans; [exact H|apply Rmax_l].
Qed.

(** the folded difference: within rounding of a - b up to whole turns and sign, and the least such *)
Lemma diff_val s : is_finite s = true -> let r := fremainder s two_pi64 in let d := (if flt pi64 r then fsub two_pi64 r else r) in
  exists k : Z, is_finite d = true /\ 0 <= B2R d <= B2R pi64 /\ Rabs (IZR k) <= Rabs (B2R s / B2R two_pi64) + 2 /\
  Rabs (B2R d - Rabs (B2R s - IZR k * B2R two_pi64)) <= u * B2R two_pi64.
Proof.
  intros Fs r d. pose proof u_pos as Pu. assert (Su : u <= / 1000000000) by (rewrite u_val; lra). pose proof pi64_val as PV. pose proof two_pi_is_twice as T2.
  assert (Big : 16 <= bpow radix2 1000). { apply Rle_trans with (bpow radix2 4); [cbn; lra|apply bpow_le; lia]. }
  assert (Big2 : bpow radix2 1000 <= bpow radix2 1023) by (apply bpow_le; lia).
  assert (Pp : 314 / 100 < B2R pi64 < 315 / 100) by (rewrite PV; lra).
  destruct (remainder_val s two_pi64 Fs eq_refl ltac:(lra)) as (k & Fr & Br & Dr & Kr). fold r in Fr, Br, Dr.
  assert (AA : forall x y e, 0 <= x -> Rabs (x - y) <= e -> Rabs (x - Rabs y) <= e).
  { intros x y e Px H. apply Rabs_le_inv in H. apply Rabs_le. unfold Rabs. destruct (Rcase_abs y); lra. }
  unfold d. destruct (flt pi64 r) eqn:L.
  - apply flt_val in L; auto. assert (SB : F64 (B2R two_pi64 - B2R r)).
    { apply (sterbenz radix2 fexp64); try apply format64; auto with typeclass_instances. lra. }
    destruct (fsub_val two_pi64 r eq_refl Fr) as (F & E). { apply Rabs_le. lra. }
    rewrite round_generic in E by auto with typeclass_instances. exists (k + 1)%Z. split; auto. rewrite E. split; [lra|]. rewrite plus_IZR. split.
    + eapply Rle_trans; [apply Rabs_triang|]. rewrite Rabs_R1. lra.
    + rewrite <- Rabs_Ropp with (x := B2R s - _). apply AA; [lra|]. apply Rabs_le_inv in Dr. apply Rabs_le. lra.
  - assert (L' : B2R r <= B2R pi64). { destruct (Rle_dec (B2R r) (B2R pi64)); auto. exfalso. assert (Z : B2R pi64 < B2R r) by lra. apply flt_val in Z; auto. congruence. }
    exists k. split; auto. split; [lra|]. split; [lra|]. apply AA; auto. lra.
Qed.

(** objects.py 142-146, 221-222: two angles are taken for equal if they are within 1e-14 up to whole turns and rounding, and only then *)
Theorem C109_angle_decision : forall a b, moderate a -> moderate b ->
  let e := (14 / 10 * Rabs (B2R a - B2R b) + 13) * u in
  (fangle_equal a b = true -> exists k : Z, Rabs (B2R a - B2R b - 2 * PI * IZR k) <= / 100000000000000 + e) /\
  ((exists k : Z, Rabs (B2R a - B2R b - 2 * PI * IZR k) <= / 100000000000000 - e) -> fangle_equal a b = true).
Proof.
  intros a b (Fa & Ba) (Fb & Bb) e. pose proof u_pos as Pu. assert (Su : u <= / 1000000000) by (rewrite u_val; lra). pose proof pi_bounds as PB. pose proof pi64_val as PV. pose proof two_pi_is_twice as T2.
  pose proof atol_val as AV. apply Rabs_le_inv in AV. assert (Pp : 314 / 100 < B2R pi64 < 315 / 100) by (rewrite PV; lra).
  destruct (fsub_val a b Fa Fb) as (Fs & Es).
  { apply Rle_trans with (bpow radix2 1001); [|apply bpow_le; lia]. change 1001%Z with (1 + 1000)%Z. rewrite bpow_plus. change (bpow radix2 1) with 2.
    unfold Rminus. eapply Rle_trans; [apply Rabs_triang|]. rewrite Rabs_Ropp. lra. }
  destruct (rnd_add_err (B2R a) (- B2R b)) as (e1 & He1 & R1); [apply format64|apply generic_format_opp, format64|]. fold (B2R a - B2R b) in R1. rewrite R1 in Es.
  destruct (diff_val (fsub a b) Fs) as (k & Fd & Bd & Kk & Dd). fold (fangle_diff a b) in Fd, Bd, Dd.
  unfold fangle_equal. rewrite close_zero by (auto; lra).
  set (s := B2R (fsub a b)) in *. set (g := B2R a - B2R b) in *. set (X := Rabs g) in *. assert (PX : 0 <= X) by apply Rabs_pos. set (d := B2R (fangle_diff a b)) in *. set (p := B2R pi64) in *.
  assert (DS : Rabs (s - g) <= X * u). { rewrite Es. replace (g * (1 + e1) - g) with (g * e1) by ring. rewrite Rabs_mult. apply Rmult_le_compat_l; auto. }
  assert (U : 13 / 100000000000000000 <= 12 / 10 * u) by (rewrite u_val; lra).
  assert (PP : Rabs (2 * p - 2 * PI) <= 24 / 10 * u) by (apply Rabs_le; lra).
  assert (TU : forall j : Z, Rabs (g - 2 * PI * IZR j - (s - IZR j * (2 * p))) <= X * u + 24 / 10 * u * Rabs (IZR j)).
  { intros j. replace (g - 2 * PI * IZR j - (s - IZR j * (2 * p))) with (- (s - g) + (2 * p - 2 * PI) * IZR j) by ring. eapply Rle_trans; [apply Rabs_triang|]. rewrite Rabs_Ropp, Rabs_mult.
    apply Rplus_le_compat; auto. apply Rmult_le_compat_r; auto. apply Rabs_pos. }
  rewrite T2 in Kk, Dd. fold p in Kk, Dd. assert (PU : u * (2 * p) <= 63 / 10 * u) by nra.
  assert (XU : 0 <= X * u) by (apply Rmult_le_pos; lra). split.
  - intros H. exists k.
    assert (AK : Rabs (IZR k) <= X * (16 / 100) + 21 / 10).
    { eapply Rle_trans; [exact Kk|]. assert (AS : Rabs s <= X * (1001 / 1000)). { replace s with (g + (s - g)) by ring. eapply Rle_trans; [apply Rabs_triang|]. fold X. assert (X * u <= X * (1 / 1000)) by (apply Rmult_le_compat_l; lra). lra. }
      unfold Rdiv at 1. rewrite Rabs_mult, Rabs_inv, (Rabs_right (2 * p)) by lra. assert (IV : / (2 * p) <= / (628 / 100)) by (apply Rinv_le; lra). assert (0 < / (2 * p)) by (apply Rinv_0_lt_compat; lra).
      assert (Rabs s * / (2 * p) <= X * (1001 / 1000) * / (628 / 100)) by (apply Rmult_le_compat; auto; try apply Rabs_pos; lra). lra. }
    pose proof (TU k) as T. replace (g - 2 * PI * IZR k) with ((g - 2 * PI * IZR k - (s - IZR k * (2 * p))) + (s - IZR k * (2 * p))) by ring.
    eapply Rle_trans; [apply Rabs_triang|]. assert (24 / 10 * u * Rabs (IZR k) <= 24 / 10 * u * (X * (16 / 100) + 21 / 10)) by (apply Rmult_le_compat_l; lra).
    apply Rabs_le_inv in Dd. unfold e. lra.
  - intros (j & H). assert (E0 : 13 * u <= e) by (unfold e; nra).
    assert (AJ : Rabs (IZR j) <= X * (16 / 100) + 1 / 100).
    { assert (Z : Rabs (2 * PI * IZR j) <= X + / 100000000000000). { replace (2 * PI * IZR j) with (g - (g - 2 * PI * IZR j)) by ring. unfold Rminus at 1. eapply Rle_trans; [apply Rabs_triang|]. rewrite Rabs_Ropp. fold X. lra. }
      rewrite Rabs_mult, (Rabs_right (2 * PI)) in Z by lra. pose proof (Rabs_pos (IZR j)). assert (628 / 100 * Rabs (IZR j) <= 2 * PI * Rabs (IZR j)) by (apply Rmult_le_compat_r; lra). lra. }
    pose proof (TU j) as T. assert (24 / 10 * u * Rabs (IZR j) <= 24 / 10 * u * (X * (16 / 100) + 1 / 100)) by (apply Rmult_le_compat_l; lra).
    assert (SJ : Rabs (s - IZR j * (2 * p)) <= / 100000000000000 - (13 - 3 / 100) * u).
    { replace (s - IZR j * (2 * p)) with ((g - 2 * PI * IZR j) - (g - 2 * PI * IZR j - (s - IZR j * (2 * p)))) by ring. unfold Rminus at 1. eapply Rle_trans; [apply Rabs_triang|]. rewrite Rabs_Ropp. unfold e in H. lra. }
    assert (DJ : IZR k = IZR j).
    { f_equal. apply Rabs_le_inv in SJ. assert (SK : Rabs (s - IZR k * (2 * p)) <= p + 63 / 10 * u). { apply Rabs_le_inv in Dd. lra. } apply Rabs_le_inv in SK.
      assert (K1 : (IZR k - IZR j) * (2 * p) < 2 * (2 * p) - 2) by lra. assert (K2 : - (2 * (2 * p) - 2) < (IZR k - IZR j) * (2 * p)) by lra.
      assert (K3 : IZR k - IZR j < 1) by nra. assert (K4 : -1 < IZR k - IZR j) by nra.
      rewrite <- minus_IZR in K3, K4. apply lt_IZR in K3. apply lt_IZR in K4. lia. }
    rewrite DJ in Dd. apply Rabs_le_inv in Dd. assert (/ 100000000000000 * u <= 1 / 100 * u) by (apply Rmult_le_compat_r; lra). lra.
Qed.

(** a point equals every other point with the same numbers; a NaN equals nothing *)
Lemma angle_refl a : fangle_equal a a = is_finite a.
Proof.
  destruct (is_finite a) eqn:Fa.
  - unfold fangle_equal, fangle_diff. rewrite fsub_self by auto. vm_compute. reflexivity.
  - destruct a as [s|s| |s m e H]; try discriminate; [destruct s|]; vm_compute; reflexivity.
Qed.
Theorem C109_reflexive : forall lat lon z, is_nan z = false -> fgeo_equal (lat, lon, z) (lat, lon, z) = (is_finite lat && is_finite lon).
Proof.
  intros lat lon z Nz. unfold fgeo_equal. rewrite !angle_refl. rewrite C83_reflexive; try reflexivity; [|unfold eq_atol, f, B2R, F2R; cbn; lra|unfold eq_rtol, f, B2R, F2R; cbn; lra].
  rewrite Nz. cbn [negb orb]. apply andb_true_r.
Qed.
(** == depends on the order of its arguments: longitude 1.01e-14 is not equal to longitude 0, but longitude 0 is equal to it *)
Theorem C109_not_symmetric : let p := (B754_zero false, f 6401635531152558 (-99) eq_refl, B754_zero false) in let q := (B754_zero false, B754_zero false, B754_zero false) in
  fgeo_equal p q = false /\ fgeo_equal q p = true.
Proof. split; vm_compute; reflexivity. Qed.
(** except within rounding of the tolerance it does not *)
Theorem C109_symmetric_partial : forall a b, moderate a -> moderate b ->
  let e := (14 / 10 * Rabs (B2R a - B2R b) + 13) * u in
  (exists k : Z, Rabs (B2R a - B2R b - 2 * PI * IZR k) <= / 100000000000000 - e) \/ (forall k : Z, / 100000000000000 + e < Rabs (B2R a - B2R b - 2 * PI * IZR k)) ->
  fangle_equal a b = fangle_equal b a.
Proof.
  intros a b Ma Mb e H. destruct (C109_angle_decision a b Ma Mb) as (A1 & A2). destruct (C109_angle_decision b a Mb Ma) as (B1 & B2). fold e in A1, A2.
  assert (SW : forall k : Z, Rabs (B2R b - B2R a - 2 * PI * IZR (- k)) = Rabs (B2R a - B2R b - 2 * PI * IZR k)).
  { intros k. rewrite opp_IZR, <- Rabs_Ropp. f_equal. ring. }
  rewrite (Rabs_minus_sym (B2R b)) in B1, B2. fold e in B1, B2. destruct H as [(k & H)|H].
  - rewrite A2 by (exists k; auto). symmetry. apply B2. exists (- k)%Z. rewrite SW. auto.
  - destruct (fangle_equal a b); [destruct (A1 eq_refl) as (k & K); specialize (H k); lra|]. destruct (fangle_equal b a); [|reflexivity].
    destruct (B1 eq_refl) as (k & K). rewrite <- (Z.opp_involutive k), SW in K. specialize (H (- k)%Z). lra.
Qed.

(** ** degrees: 360 degrees more or less is the same longitude *)
Definition f360 : float64 := f 6333186975989760 (-44) eq_refl.
Lemma f360_val : B2R f360 = 360. Proof. unfold f360, f, B2R, F2R; cbn. lra. Qed.
Lemma turned lon lon' t : is_finite lon = true -> is_finite lon' = true -> Rabs (B2R lon) <= 180 -> (t = 1 \/ t = -1)%Z -> Rabs (B2R lon' - (B2R lon + 360 * IZR t)) <= u * 540 ->
  fangle_equal (frad lon) (frad lon') = true /\ fangle_equal (frad lon') (frad lon) = true.
Proof.
  intros F F' B T D. pose proof u_pos as Pu. pose proof pi_bounds as PB0; pose proof pi64_val as PV; assert (PB : 314159 / 100000 < PI < 31416 / 10000) by (rewrite PV in PB0; lra).
  assert (Su : u <= / 1000000000000000) by (rewrite u_val; lra). assert (Big : 1024 <= bpow radix2 1000) by (apply Rle_trans with (bpow radix2 10); [cbn; lra|apply bpow_le; lia]).
  assert (ET : eta <= / 1000 * u). { unfold eta, u. apply Rle_trans with (bpow radix2 (-63)); [apply bpow_le; lia|]. change (-63)%Z with (-10 + -53)%Z. rewrite bpow_plus. apply Rmult_le_compat_r; [apply bpow_ge_0|cbn; lra]. }
  apply Rabs_le_inv in B. apply Rabs_le_inv in D. assert (TT : IZR t = 1 \/ IZR t = -1) by (destruct T as [-> | ->]; auto).
  assert (B' : Rabs (B2R lon') <= 541) by (apply Rabs_le; destruct TT as [E|E]; rewrite E in D; lra).
  assert (M : moderate lon) by (split; auto; apply Rabs_le; lra). assert (M' : moderate lon') by (split; auto; lra).
  destruct (C79_accuracy lon M) as (FR & _ & A & _). destruct (C79_accuracy lon' M') as (FR' & _ & A' & _).
  set (c := PI / 180) in *. assert (Pc : 174 / 10000 < c < 175 / 10000) by (unfold c; lra). assert (C2 : 2 * PI = 360 * c) by (unfold c; field).
  set (a := B2R (frad lon)) in *. set (b := B2R (frad lon')) in *. set (x := B2R lon) in *. set (y := B2R lon') in *.
  assert (AX : Rabs (x * c) <= 315 / 100). { rewrite Rabs_mult, (Rabs_right c) by lra. assert (Rabs x <= 180) by (apply Rabs_le; lra). assert (Rabs x * c <= 180 * (175 / 10000)) by (apply Rmult_le_compat; try lra; apply Rabs_pos). lra. }
  assert (AY : Rabs (y * c) <= 947 / 100). { rewrite Rabs_mult, (Rabs_right c) by lra. assert (Rabs y * c <= 541 * (175 / 10000)) by (apply Rmult_le_compat; try lra; apply Rabs_pos). lra. }
  assert (E1 : Rabs (a - x * c) <= 67 / 10 * u). { eapply Rle_trans; [exact A|]. assert (21 / 10 * u * Rabs (x * c) <= 21 / 10 * u * (315 / 100)) by (apply Rmult_le_compat_l; lra). lra. }
  assert (E2 : Rabs (b - y * c) <= 20 * u). { eapply Rle_trans; [exact A'|]. assert (21 / 10 * u * Rabs (y * c) <= 21 / 10 * u * (947 / 100)) by (apply Rmult_le_compat_l; lra). lra. }
  assert (E3 : Rabs ((y - (x + 360 * IZR t)) * c) <= 95 / 10 * u). { rewrite Rabs_mult, (Rabs_right c) by lra. assert (Rabs (y - (x + 360 * IZR t)) * c <= (u * 540) * (175 / 10000)) by (apply Rmult_le_compat; try lra; [apply Rabs_pos|apply Rabs_le; lra]). lra. }
  apply Rabs_le_inv in E1. apply Rabs_le_inv in E2. apply Rabs_le_inv in E3.
  assert (G : Rabs (a - b - 2 * PI * IZR (- t)) <= 363 / 10 * u).
  { rewrite opp_IZR, C2. apply Rabs_le. replace (a - b - 360 * c * - IZR t) with ((a - x * c) - (b - y * c) - (y - (x + 360 * IZR t)) * c) by ring. lra. }
  assert (X : Rabs (a - b) <= 63 / 10). { apply Rabs_le_inv in G. rewrite opp_IZR in G. apply Rabs_le. destruct TT as [E | E]; rewrite E in G; lra. }
  assert (MA : moderate (frad lon)). { split; auto. fold a. apply Rabs_le_inv in AX. apply Rabs_le. lra. }
  assert (MB : moderate (frad lon')). { split; auto. fold b. apply Rabs_le_inv in AY. apply Rabs_le. lra. }
  assert (EU : 363 / 10 * u <= / 100000000000000 - (14 / 10 * (63 / 10) + 13) * u) by (rewrite u_val; lra).
  assert (XU : Rabs (a - b) * u <= 63 / 10 * u) by (apply Rmult_le_compat_r; lra).
  split; [apply (proj2 (C109_angle_decision _ _ MA MB))|apply (proj2 (C109_angle_decision _ _ MB MA))]; fold a; fold b.
  - exists (- t)%Z. lra.
  - exists t. rewrite (Rabs_minus_sym b a). replace (b - a - 2 * PI * IZR t) with (- (a - b - 2 * PI * IZR (- t))) by (rewrite opp_IZR; ring). rewrite Rabs_Ropp. lra.
Qed.
Theorem C109_full_turn : forall lon, is_finite lon = true -> Rabs (B2R lon) <= 180 ->
  fangle_equal (frad lon) (frad (fadd lon f360)) = true /\ fangle_equal (frad (fadd lon f360)) (frad lon) = true /\
  fangle_equal (frad lon) (frad (fsub lon f360)) = true /\ fangle_equal (frad (fsub lon f360)) (frad lon) = true.
Proof.
  intros lon F B. pose proof u_pos as Pu. pose proof f360_val as V. assert (Big : 1024 <= bpow radix2 1023) by (apply Rle_trans with (bpow radix2 10); [cbn; lra|apply bpow_le; lia]).
  pose proof (Rabs_le_inv _ _ B) as B1.
  destruct (fadd_val lon f360 F eq_refl) as (F1 & E1). { rewrite V. apply Rabs_le. lra. }
  destruct (fsub_val lon f360 F eq_refl) as (F2 & E2). { rewrite V. apply Rabs_le. lra. }
  destruct (rnd_add_err (B2R lon) (B2R f360)) as (e1 & He1 & R1); try apply format64. destruct (rnd_add_err (B2R lon) (- B2R f360)) as (e2 & He2 & R2); [apply format64|apply generic_format_opp, format64|].
  unfold Rminus in E2. rewrite R1 in E1. rewrite R2 in E2. rewrite V in E1, E2.
  assert (Q : forall s e, Rabs s <= 540 -> Rabs e <= u -> Rabs (s * (1 + e) - s) <= u * 540).
  { intros s e Hs He. replace (s * (1 + e) - s) with (e * s) by ring. rewrite Rabs_mult. apply Rmult_le_compat; auto; apply Rabs_pos. }
  assert (T1 : Rabs (B2R (fadd lon f360) - (B2R lon + 360 * IZR 1)) <= u * 540). { rewrite E1. replace (B2R lon + 360 * 1) with (B2R lon + 360) by ring. apply Q; auto. apply Rabs_le. lra. }
  assert (T2 : Rabs (B2R (fsub lon f360) - (B2R lon + 360 * IZR (-1))) <= u * 540). { rewrite E2. replace (B2R lon + 360 * -1) with (B2R lon + - (360)) by ring. apply Q; auto. apply Rabs_le. lra. }
  destruct (turned lon _ 1 F F1 B ltac:(auto) T1) as (X1 & X2). destruct (turned lon _ (-1) F F2 B ltac:(auto) T2) as (X3 & X4). auto.
Qed.

(** ** the whole comparison, for points in the same frame *)
Theorem C109_decision : forall lat1 lon1 z1 lat2 lon2 z2, moderate lat1 -> moderate lon1 -> moderate z1 -> moderate lat2 -> moderate lon2 -> moderate z2 ->
  let e x y := (14 / 10 * Rabs (B2R x - B2R y) + 13) * u in let T := Rmax (B2R eq_atol) (B2R eq_rtol * Rmax (Rabs (B2R z1)) (Rabs (B2R z2))) in
  (fgeo_equal (lat1, lon1, z1) (lat2, lon2, z2) = true ->
     (exists k : Z, Rabs (B2R lat1 - B2R lat2 - 2 * PI * IZR k) <= / 100000000000000 + e lat1 lat2) /\
     (exists k : Z, Rabs (B2R lon1 - B2R lon2 - 2 * PI * IZR k) <= / 100000000000000 + e lon1 lon2) /\ Rabs (B2R z1 - B2R z2) <= T * (1 + 3 * u) + 2 * eta) /\
  ((exists k : Z, Rabs (B2R lat1 - B2R lat2 - 2 * PI * IZR k) <= / 100000000000000 - e lat1 lat2) ->
   (exists k : Z, Rabs (B2R lon1 - B2R lon2 - 2 * PI * IZR k) <= / 100000000000000 - e lon1 lon2) -> Rabs (B2R z1 - B2R z2) <= T * (1 - 3 * u) - 2 * eta ->
   fgeo_equal (lat1, lon1, z1) (lat2, lon2, z2) = true).
Proof.
  intros lat1 lon1 z1 lat2 lon2 z2 Mt1 Mn1 (Fz1 & Bz1) Mt2 Mn2 (Fz2 & Bz2) e T. unfold fgeo_equal.
  destruct (C109_angle_decision lat1 lat2 Mt1 Mt2) as (A1 & A2). destruct (C109_angle_decision lon1 lon2 Mn1 Mn2) as (B1 & B2).
  assert (Big : 1 <= bpow radix2 1000) by (change 1 with (bpow radix2 0); apply bpow_le; lia).
  assert (R1 : 0 <= B2R eq_rtol <= 1) by (unfold eq_rtol, f, B2R, F2R; cbn; lra). assert (R2 : 0 <= B2R eq_atol <= 1) by (unfold eq_atol, f, B2R, F2R; cbn; lra).
  destruct (C83_decision eq_rtol eq_atol false z1 z2 Fz1 Fz2 eq_refl eq_refl Bz1 Bz2 R1 ltac:(lra)) as (C1 & C2). fold T in C1, C2. split.
  - intros H. apply andb_prop in H. destruct H as (H & H3). apply andb_prop in H. destruct H as (H1 & H2). auto.
  - intros H1 H2 H3. rewrite A2, B2, C2; auto.
Qed.
(** 180 degrees east is 180 degrees west; a longitude 2e-14 off is another one *)
Example C109_example : is_finite f180 = true /\ Rabs (B2R f180) <= 180 /\
  fgeo_equal (half_pi64, frad f180, f180) (half_pi64, frad (fneg f180), f180) = true /\
  fgeo_equal (half_pi64, f 6338253001141147 (-98) eq_refl, f180) (half_pi64, B754_zero false, f180) = false /\ moderate half_pi64.
Proof.
  split; [reflexivity|]. split; [rewrite f180_val, Rabs_right; lra|]. split; [vm_compute; reflexivity|]. split; [vm_compute; reflexivity|].
  split; [reflexivity|]. apply Rle_trans with (bpow radix2 3); [unfold half_pi64, f, B2R, F2R; cbn; rewrite Rabs_right; lra|apply bpow_le; lia].
Qed.
