(** * C88: n_E2lat_lon in binary64, and the round trip latitude, longitude -> n-vector -> latitude, longitude *)
From Coq Require Import ZArith Reals Lra Lia Bool Psatz.
From Flocq Require Import Core BinarySingleNaN Relative.
From Verif Require Import Spec LVec LAngle FTiny FBase FUnit FPi FAngle FDist FGreat FLatLon.
Local Open Scope R_scope.

(** rotation.py 409-423, one column, default R_Ee (rows (0,0,1), (0,1,0), (-1,0,0)); n**2 of numpy is n*n *)
Definition fn_E2lat_lon (arctan2 : float64 -> float64 -> float64) (n : vec64) : float64 * float64 :=
  let n0 := fdot3 (fzero, fzero, fone) n in
  let n1 := fdot3 (fzero, fone, fzero) n in
  let n2 := fdot3 (fneg fone, fzero, fzero) n in
  let longitude := arctan2 n1 (fneg n2) in
  let equatorial_component := fsqrt (fadd (fmul n1 n1) (fmul n2 n2)) in
  (arctan2 n0 equatorial_component, longitude).

(** what is required of the C library's arctan2: an error of at most one unit in the last place at every point other
    than the origin; on the negative real axis the sign of the zero ordinate chooses between pi and -pi *)
Definition good_atan2 (arctan2 : float64 -> float64 -> float64) : Prop :=
  forall s c t r, is_finite s = true -> is_finite c = true -> - PI <= t <= PI -> 0 < r ->
    (Bsign s = false -> 0 <= t) -> (Bsign s = true -> t <= 0) -> B2R s = r * sin t -> B2R c = r * cos t ->
    is_finite (arctan2 s c) = true /\ Rabs (B2R (arctan2 s c) - t) <= 2 * u * Rabs t + 2 * eta.

(** [lat] and [lon] are a latitude and a longitude of the direction of [v] *)
Definition has_latlon (v : vec) (lat lon : R) : Prop :=
  v = vscale (vnorm v) (latlon_vec lat lon) /\ - (PI / 2) <= lat <= PI / 2 /\ - PI <= lon <= PI.

Lemma sum3_exact (a b c : float64) r : is_finite a = true -> is_finite b = true -> is_finite c = true -> Rabs r <= bpow radix2 1000 ->
  (B2R a = r /\ B2R b = 0 /\ B2R c = 0) \/ (B2R a = 0 /\ B2R b = r /\ B2R c = 0) \/ (B2R a = 0 /\ B2R b = 0 /\ B2R c = r) ->
  is_finite (fadd (fadd a b) c) = true /\ B2R (fadd (fadd a b) c) = r.
Proof.
  intros Fa Fb Fc Br H. assert (Fr : F64 r) by (destruct H as [(<- & _)|[(_ & <- & _)|(_ & _ & <-)]]; apply format64).
  assert (F0 : F64 0) by apply generic_format_0. pose proof (bpow_ge_0 radix2 1000) as P.
  destruct H as [(Ha & Hb & Hc)|[(Ha & Hb & Hc)|(Ha & Hb & Hc)]].
  - destruct (add_exact a b r Fa Fb) as (F1 & V1); auto; [lra|]. apply add_exact; auto; lra.
  - destruct (add_exact a b r Fa Fb) as (F1 & V1); auto; [lra|]. apply add_exact; auto; lra.
  - destruct (add_exact a b 0 Fa Fb) as (F1 & V1); auto; [lra|rewrite Rabs_R0; auto|]. apply add_exact; auto; lra.
Qed.

Lemma pick2 x y z : is_finite x = true -> is_finite y = true -> is_finite z = true ->
  Rabs (B2R x) <= bpow radix2 1000 -> Rabs (B2R y) <= bpow radix2 1000 -> Rabs (B2R z) <= bpow radix2 1000 ->
  (is_finite (fdot3 (fzero, fzero, fone) (x, y, z)) = true /\ B2R (fdot3 (fzero, fzero, fone) (x, y, z)) = B2R z) /\
  (is_finite (fdot3 (fzero, fone, fzero) (x, y, z)) = true /\ B2R (fdot3 (fzero, fone, fzero) (x, y, z)) = B2R y) /\
  (is_finite (fdot3 (fneg fone, fzero, fzero) (x, y, z)) = true /\ B2R (fdot3 (fneg fone, fzero, fzero) (x, y, z)) = - B2R x).
Proof.
  intros Fx Fy Fz Bx By Bz. unfold fdot3, dot_seq.
  destruct (mul_zero_l x Fx) as (F0x & V0x). destruct (mul_zero_l y Fy) as (F0y & V0y). destruct (mul_zero_l z Fz) as (F0z & V0z).
  assert (Vn : B2R (fneg fone) = -1) by (unfold fneg; rewrite B2R_Bopp, fone_val; lra).
  destruct (mul_one_l fone z 1 eq_refl fone_val ltac:(auto) Fz Bz) as (F1 & V1).
  destruct (mul_one_l fone y 1 eq_refl fone_val ltac:(auto) Fy By) as (F2 & V2).
  destruct (mul_one_l (fneg fone) x (-1) eq_refl Vn ltac:(auto) Fx Bx) as (F3 & V3).
  split; [|split]; apply sum3_exact; auto.
  - right; right. rewrite V1. lra.
  - right; left. rewrite V2. lra.
  - rewrite Rabs_Ropp. auto.
  - left. rewrite V3. lra.
Qed.

(** ** polar coordinates with a given sign of the ordinate *)
Lemma bsign_val (s : float64) : is_finite s = true -> (Bsign s = false -> 0 <= B2R s) /\ (Bsign s = true -> B2R s <= 0).
Proof.
  intros F. destruct s as [b|b| |b m e H]; try discriminate; cbn; [split; intros; lra|].
  split; intros ->; [apply F2R_ge_0|apply F2R_le_0]; cbn; lia.
Qed.
Lemma polar_signed b s c : (b = false -> 0 <= s) -> (b = true -> s <= 0) -> 0 < s * s + c * c ->
  exists r t, 0 < r /\ - PI <= t <= PI /\ (b = false -> 0 <= t) /\ (b = true -> t <= 0) /\ s = r * sin t /\ c = r * cos t /\ r * r = s * s + c * c.
Proof.
  intros H0 H1 P. pose proof PI_RGT_0 as PP. destruct b.
  - destruct (polar (- s) c) as (r & t & Pr & Bt & Es & Ec & Er); [specialize (H1 eq_refl); lra|nra|].
    exists r, (- t). rewrite sin_neg, cos_neg. repeat split; try lra; try discriminate.
  - destruct (polar s c) as (r & t & Pr & Bt & Es & Ec & Er); [specialize (H0 eq_refl); lra|nra|].
    exists r, t. repeat split; try lra; try discriminate.
Qed.
Lemma half_plane t : - PI <= t <= PI -> 0 <= cos t -> - (PI / 2) <= t <= PI / 2.
Proof.
  intros B C. pose proof PI_RGT_0. split; apply Rnot_lt_le; intros N.
  - assert (cos t < 0) by (rewrite <- cos_neg; apply cos_lt_0; lra). lra.
  - assert (cos t < 0) by (apply cos_lt_0; lra). lra.
Qed.
Lemma abs_sin_le t : Rabs (sin t) <= Rabs t.
Proof.
  destruct (Rle_dec 0 t).
  - rewrite (Rabs_right t) by lra. apply Rabs_le. pose proof (sin_le_x t ltac:(lra)). split; auto.
    destruct (Rle_dec t PI). { assert (0 <= sin t) by (apply sin_ge_0; lra). lra. } pose proof (SIN_bound t). pose proof PI2_1. lra.
  - rewrite (Rabs_left t) by lra. rewrite <- Rabs_Ropp, <- sin_neg. apply Rabs_le. pose proof (sin_le_x (- t) ltac:(lra)). split; auto.
    destruct (Rle_dec (- t) PI). { assert (0 <= sin (- t)) by (apply sin_ge_0; lra). lra. } pose proof (SIN_bound (- t)). pose proof PI2_1. lra.
Qed.

(** ** an error in the equatorial component moves the latitude relatively little *)
Lemma lat_sens rho t r' t' c' : 1 / 2 <= rho -> - (PI / 2) <= t <= PI / 2 -> - PI <= t' <= PI -> 0 <= cos t' -> 0 < r' ->
  rho * sin t = r' * sin t' -> c' = r' * cos t' -> Rabs (c' - rho * cos t) <= 3 * u * (rho * cos t) + bpow radix2 (-399) ->
  Rabs (t' - t) <= 304 / 100 * u * Rabs t.
Proof.
  intros Pr Bt Bt' Ct' Pr' Es Ec D. pose proof u_pos as Pu. pose proof u_small as Su. pose proof tiny_consts as TC. pose proof eta_pos as Pe.
  pose proof (half_plane t' Bt' Ct') as Bt2. pose proof PI_RGT_0 as PP.
  set (d := c' - rho * cos t) in *. set (w := bpow radix2 (-399)) in *. assert (Pw : 0 < w) by apply bpow_gt_0.
  pose proof (sin2_cos2 t) as T. unfold Rsqr in T.
  assert (Cb : 0 <= cos t <= 1). { split; [apply cos_ge_0; lra|apply COS_bound]. }
  assert (S : r' * sin (t' - t) = - (sin t * d)).
  { rewrite sin_minus. transitivity (r' * sin t' * cos t - r' * cos t' * sin t); [ring|]. rewrite <- Es, <- Ec. unfold d. ring. }
  assert (C : r' * cos (t' - t) = rho + d * cos t).
  { rewrite cos_minus. transitivity (r' * cos t' * cos t + r' * sin t' * sin t); [ring|]. rewrite <- Es, <- Ec. unfold d.
    transitivity (c' * cos t + rho * (sin t * sin t)); [ring|]. replace (sin t * sin t) with (1 - cos t * cos t) by lra. ring. }
  assert (D' : Rabs d <= 303 / 100 * u * rho).
  { eapply Rle_trans; [exact D|]. assert (rho * cos t <= rho) by nra. assert (u * (rho * cos t) <= u * rho) by (apply Rmult_le_compat_l; lra).
    assert (u * (1 / 2) <= u * rho) by (apply Rmult_le_compat_l; lra). lra. }
  assert (UR : u * rho <= / 1000000000 * rho) by (apply Rmult_le_compat_r; lra).
  assert (PC : rho * (1 - 303 / 100 * u) <= r' * cos (t' - t)).
  { rewrite C. assert (Rabs (d * cos t) <= 303 / 100 * u * rho).
    { rewrite Rabs_mult, (Rabs_right (cos t)) by lra. pose proof (Rabs_pos d). nra. }
    apply Rabs_le_inv in H. lra. }
  assert (P0 : 0 < cos (t' - t)). { assert (0 < rho * (1 - 303 / 100 * u)) by (apply Rmult_lt_0_compat; lra). apply Rnot_le_lt. intros N. assert (r' * cos (t' - t) <= 0) by nra. lra. }
  pose proof (abs_angle (t' - t) ltac:(lra) P0) as A.
  assert (KS : r' * Rabs (sin (t' - t)) <= Rabs t * (303 / 100 * u * rho)).
  { rewrite <- (Rabs_right r') at 1 by lra. rewrite <- Rabs_mult, S, Rabs_Ropp, Rabs_mult. apply Rmult_le_compat; auto; try apply Rabs_pos. apply abs_sin_le. }
  pose proof (Rabs_pos (t' - t)) as PA. pose proof (Rabs_pos t) as PT.
  assert (K : Rabs (t' - t) * (rho * (1 - 303 / 100 * u)) <= Rabs t * (303 / 100 * u * rho)).
  { apply Rle_trans with (Rabs (t' - t) * (r' * cos (t' - t))); [apply Rmult_le_compat_l; auto|].
    replace (Rabs (t' - t) * (r' * cos (t' - t))) with (r' * (Rabs (t' - t) * cos (t' - t))) by ring.
    eapply Rle_trans; [apply Rmult_le_compat_l; [lra|exact A]|]. exact KS. }
  assert (K2 : Rabs (t' - t) * (1 - 303 / 100 * u) <= Rabs t * (303 / 100 * u)).
  { apply (Rmult_le_reg_r rho); [lra|]. lra. }
  apply (Rmult_le_reg_r (1 - 303 / 100 * u)); [lra|]. eapply Rle_trans; [exact K2|].
  assert (0 <= Rabs t * u) by (apply Rmult_le_pos; lra). nra.
Qed.

(** ** the equatorial component *)
Lemma hyp_err (p q : float64) : is_finite p = true -> is_finite q = true -> Rabs (B2R p) <= 2 -> Rabs (B2R q) <= 2 ->
  let h := fsqrt (fadd (fmul p p) (fmul q q)) in let r := sqrt (B2R p * B2R p + B2R q * B2R q) in
  is_finite h = true /\ 0 <= B2R h /\ Rabs (B2R h - r) <= 3 * u * r + bpow radix2 (-399).
Proof.
  intros Fp Fq Bp Bq h r.
  assert (B4 : 2 <= bpow radix2 400). { change 2 with (bpow radix2 1) at 1. apply bpow_le; lia. }
  destruct (any_norm p q fzero Fp Fq eq_refl) as (F & P & D); try lra. { change (B2R fzero) with 0. rewrite Rabs_R0. apply bpow_ge_0. }
  assert (L : length3 p q fzero = r). { unfold length3, r. f_equal. change (B2R fzero) with 0. ring. }
  rewrite L in D.
  assert (E : norm3 p q fzero = h).
  { unfold norm3, h. f_equal. destruct (fmul_val p p Fp Fp) as (F1 & V1).
    { rewrite Rabs_mult. apply Rle_trans with (2 * 2); [apply Rmult_le_compat; auto; apply Rabs_pos|]. change (2 * 2) with (bpow radix2 2). apply bpow_le; lia. }
    destruct (fmul_val q q Fq Fq) as (F2 & V2).
    { rewrite Rabs_mult. apply Rle_trans with (2 * 2); [apply Rmult_le_compat; auto; apply Rabs_pos|]. change (2 * 2) with (bpow radix2 2). apply bpow_le; lia. }
    assert (W : forall w, Rabs w <= 2 -> Rabs (rnd (w * w)) <= bpow radix2 2).
    { intros w Hw. apply rnd_abs_le; [lia|]. rewrite Rabs_mult. change (bpow radix2 2) with (2 * 2). apply Rmult_le_compat; auto; apply Rabs_pos. }
    destruct (fadd_val _ _ F1 F2) as (F3 & V3).
    { eapply Rle_trans; [apply Rabs_triang|]. rewrite V1, V2. pose proof (W _ Bp). pose proof (W _ Bq). apply Rle_trans with (bpow radix2 3); [cbn in *; lra|]. apply bpow_le; lia. }
    assert (Sg : Bsign (fadd (fmul p p) (fmul q q)) = false).
    { apply add_sign; auto; apply sq_sign; auto; lra. }
    change (fmul fzero fzero) with (B754_zero false : float64).
    destruct (fadd (fmul p p) (fmul q q)) as [b|b| |b m e H]; try discriminate; cbn in Sg; subst; reflexivity. }
  rewrite <- E. auto.
Qed.

(** finite components and a length within 0.1 of 1: n_E2lat_lon accepts such n-vectors without a warning (_check_length_deviation, util.py) *)
Definition about_unit (a : vec64) : Prop :=
  let '(x, y, z) := a in is_finite x = true /\ is_finite y = true /\ is_finite z = true /\ Rabs (length3 x y z - 1) <= 1 / 10.
Lemma near_about n : near_unit n -> about_unit n.
Proof. destruct n as [[x y] z]. intros (Fx & Fy & Fz & L). pose proof u_small. pose proof u_pos. repeat split; auto. lra. Qed.
Lemma about_comp x y z : about_unit (x, y, z) -> Rabs (B2R x) <= 2 /\ Rabs (B2R y) <= 2 /\ Rabs (B2R z) <= 2.
Proof. intros (_ & _ & _ & L). destruct (comp_le_length x y z) as (A & B & C). apply Rabs_le_inv in L. repeat split; lra. Qed.

(** ** the latitude is right to a relative error of 5.1u and the longitude to one unit in the last place, everywhere
    except for the longitude at the exact poles (u = 2^-53) *)
Theorem C88_accuracy : forall arctan2 n, good_atan2 arctan2 -> about_unit n ->
  exists lat lon, has_latlon (vec_of n) lat lon /\
    is_finite (fst (fn_E2lat_lon arctan2 n)) = true /\
    Rabs (B2R (fst (fn_E2lat_lon arctan2 n)) - lat) <= 51 / 10 * u * Rabs lat + 2 * eta /\
    (vx (vec_of n) <> 0 \/ vy (vec_of n) <> 0 ->
     is_finite (snd (fn_E2lat_lon arctan2 n)) = true /\
     Rabs (B2R (snd (fn_E2lat_lon arctan2 n)) - lon) <= 2 * u * Rabs lon + 2 * eta).
Proof.
  intros arctan2 [[x y] z] GA NU. destruct (about_comp _ _ _ NU) as (Bx & By & Bz). destruct NU as (Fx & Fy & Fz & NL).
  pose proof u_pos as Pu. pose proof u_small as Su. pose proof eta_pos as Pe. pose proof PI_RGT_0 as PP.
  assert (B4 : 2 <= bpow radix2 1000). { change 2 with (bpow radix2 1) at 1. apply bpow_le; lia. }
  destruct (pick2 x y z) as ((F0 & V0) & (F1 & V1) & (F2 & V2)); auto; try lra.
  unfold fn_E2lat_lon. set (n0 := fdot3 (fzero, fzero, fone) _) in *. set (n1 := fdot3 (fzero, fone, fzero) _) in *. set (n2 := fdot3 (fneg fone, fzero, fzero) _) in *.
  cbn [fst snd]. unfold vec_of; cbn [Spec.vx Spec.vy Spec.vz].
  assert (Vm : B2R (fneg n2) = B2R x) by (unfold fneg; rewrite B2R_Bopp, V2; ring).
  assert (Fm : is_finite (fneg n2) = true) by (unfold fneg; rewrite is_finite_Bopp; auto).
  rewrite length3_vnorm in NL. unfold vec_of in NL. set (v := V (B2R x) (B2R y) (B2R z)) in *. set (rho := vnorm v) in *. apply Rabs_le_inv in NL.
  set (r := sqrt (B2R y * B2R y + B2R x * B2R x)).
  assert (Pr : 0 <= r) by apply sqrt_pos. assert (Er : r * r = B2R y * B2R y + B2R x * B2R x) by (apply sqrt_sqrt; nra).
  assert (Ev : rho * rho = B2R z * B2R z + r * r).
  { unfold rho. rewrite vnorm_sq. unfold vdot, v; cbn [Spec.vx Spec.vy Spec.vz]. lra. }
  (* longitude *)
  assert (LON : exists lon, - PI <= lon <= PI /\ B2R x = r * cos lon /\ B2R y = r * sin lon /\
    (B2R x <> 0 \/ B2R y <> 0 -> is_finite (arctan2 n1 (fneg n2)) = true /\ Rabs (B2R (arctan2 n1 (fneg n2)) - lon) <= 2 * u * Rabs lon + 2 * eta)).
  { destruct (Req_EM_T r 0) as [Zr|Zr].
    - exists 0. rewrite Zr in *. assert (B2R x = 0 /\ B2R y = 0) by (split; nra). split; [lra|]. split; [lra|]. split; [lra|]. lra.
    - destruct (bsign_val n1 F1) as (H0 & H1). rewrite V1 in H0, H1.
      destruct (polar_signed (Bsign n1) (B2R y) (B2R x) H0 H1) as (r1 & t & Pr1 & Bt & S0 & S1 & Es & Ec & Er1); [nra|].
      assert (r1 = r) by nra. subst r1. exists t. split; auto. split; auto. split; auto. intros _.
      apply (GA n1 (fneg n2) t r); auto; congruence. }
  destruct LON as (lon & Blon & Ex & Ey & GL).
  (* latitude *)
  destruct (bsign_val n0 F0) as (H0 & H1). rewrite V0 in H0, H1.
  destruct (polar_signed (Bsign n0) (B2R z) r H0 H1) as (r1 & lat & Pr1 & Bt & S0 & S1 & Es & Ec & Er1); [nra|].
  assert (r1 = rho). { assert (0 <= rho) by apply vnorm_pos. nra. } subst r1.
  assert (Blat : - (PI / 2) <= lat <= PI / 2). { apply half_plane; auto. apply Rnot_lt_le. intros N. assert (rho * cos lat < 0) by nra. lra. }
  exists lat, lon. split.
  { split; [|auto]. fold v. fold rho. unfold v, latlon_vec, vscale; cbn [Spec.vx Spec.vy Spec.vz]. rewrite Ex, Ey, Es, Ec. f_equal; ring. }
  destruct (hyp_err n1 n2 F1 F2) as (Fh & Ph & Dh). { rewrite V1; auto. } { rewrite V2, Rabs_Ropp; auto. }
  set (h := fsqrt (fadd (fmul n1 n1) (fmul n2 n2))) in *.
  rewrite V1, V2 in Dh. replace (sqrt (B2R y * B2R y + - B2R x * - B2R x)) with r in Dh by (unfold r; f_equal; ring).
  assert (Nz : 0 < B2R z * B2R z + B2R h * B2R h).
  { destruct (Req_EM_T (B2R z) 0) as [Z|Z]; [|nra]. assert (R1 : 9 / 10 <= r) by nra. apply Rabs_le_inv in Dh. pose proof tiny_consts. 
    assert (u * r <= / 1000000000 * r) by (apply Rmult_le_compat_r; lra). assert (0 < B2R h) by lra. nra. }
  destruct (polar_signed (Bsign n0) (B2R z) (B2R h) H0 H1 Nz) as (r' & t' & Pr' & Bt' & S0' & S1' & Es' & Ec' & Er').
  destruct (GA n0 h t' r') as (FA & DA); auto; try congruence.
  split; auto. split; [|exact GL].
  assert (SE : Rabs (t' - lat) <= 304 / 100 * u * Rabs lat).
  { apply (lat_sens rho lat r' t' (B2R h)); auto; try lra.
    - apply Rnot_lt_le. intros N. assert (r' * cos t' < 0) by nra. lra.
    - rewrite <- Ec. exact Dh. }
  replace (B2R (arctan2 n0 h) - lat) with ((B2R (arctan2 n0 h) - t') + (t' - lat)) by ring.
  eapply Rle_trans; [apply Rabs_triang|].
  assert (T1 : Rabs t' <= Rabs lat + 304 / 100 * u * Rabs lat).
  { replace t' with (lat + (t' - lat)) by ring. eapply Rle_trans; [apply Rabs_triang|]. lra. }
  pose proof (Rabs_pos lat) as PL. assert (0 <= u * Rabs lat) by (apply Rmult_le_pos; lra).
  assert (u * Rabs t' <= u * (Rabs lat + 304 / 100 * u * Rabs lat)) by (apply Rmult_le_compat_l; lra).
  assert (u * (u * Rabs lat) <= / 1000000000 * (u * Rabs lat)) by (apply Rmult_le_compat_r; lra). lra.
Qed.
