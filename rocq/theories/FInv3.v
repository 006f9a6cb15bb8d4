(** * C88: with a correctly rounded arctan2 latitudes and longitudes stay in range and the poles are exact *)
From Coq Require Import ZArith Reals Lra Lia Bool Psatz.
From Flocq Require Import Core BinarySingleNaN Relative.
From Verif Require Import Spec LVec LAngle FTiny FBase FUnit FPi FAngle FDist FGreat FLatLon FInv FInv2.
Local Open Scope R_scope.

(** an arctan2 that returns the double nearest to the true angle (glibc's does) *)
Definition correct_atan2 (arctan2 : float64 -> float64 -> float64) : Prop :=
  forall s c t r, is_finite s = true -> is_finite c = true -> - PI <= t <= PI -> 0 < r ->
    (Bsign s = false -> 0 <= t) -> (Bsign s = true -> t <= 0) -> B2R s = r * sin t -> B2R c = r * cos t ->
    is_finite (arctan2 s c) = true /\ B2R (arctan2 s c) = rnd t.

Lemma correct_good arctan2 : correct_atan2 arctan2 -> good_atan2 arctan2.
Proof.
  intros C s c t r Fs Fc Bt Pr S0 S1 Es Ec. destruct (C s c t r Fs Fc Bt Pr S0 S1 Es Ec) as (F & ->). split; auto.
  destruct (rnd_err t) as (e & h & He & Hh & ->). replace (t * (1 + e) + h - t) with (t * e + h) by ring.
  eapply Rle_trans; [apply Rabs_triang|]. rewrite Rabs_mult. pose proof u_pos. pose proof eta_pos. pose proof (Rabs_pos t).
  assert (Rabs t * Rabs e <= Rabs t * u) by (apply Rmult_le_compat_l; lra). nra.
Qed.

Definition ideal_atan2 (s c : float64) : float64 :=
  let a := acos (B2R c / sqrt (B2R s * B2R s + B2R c * B2R c)) in round64 (if Bsign s then - a else a).
Lemma ideal_atan2_correct : correct_atan2 ideal_atan2.
Proof.
  intros s c t r Fs Fc Bt Pr S0 S1 Es Ec. unfold ideal_atan2.
  replace (sqrt (B2R s * B2R s + B2R c * B2R c)) with r.
  2:{ rewrite <- (sqrt_square r) at 1 by lra. f_equal. rewrite Es, Ec. pose proof (sin2_cos2 t) as T. unfold Rsqr in T.
      transitivity (r * r * (sin t * sin t + cos t * cos t)); [rewrite T; ring|ring]. }
  replace (B2R c / r) with (cos t) by (rewrite Ec; field; lra).
  assert (E : (if Bsign s then - acos (cos t) else acos (cos t)) = t).
  { destruct (Bsign s); [|apply acos_cos; specialize (S0 eq_refl); lra].
    rewrite <- cos_neg, acos_cos; [ring|]. specialize (S1 eq_refl). lra. }
  rewrite E. apply round64_val. pose proof PI_33. apply Rle_trans with (bpow radix2 2); [cbn; apply Rabs_le; lra|apply bpow_le; lia].
Qed.

(** ** rounding to a double that is less than half a unit in the last place away *)
Lemma rnd_to x r e : F64 x -> (-1000 <= e)%Z -> bpow radix2 (e - 1) < x < bpow radix2 e -> Rabs (r - x) < bpow radix2 (e - 53) / 2 -> rnd r = x.
Proof.
  intros Fx He (L & U) D. pose proof (bpow_gt_0 radix2 (e - 1)) as Pb. assert (Px : 0 < x) by lra.
  assert (M : mag radix2 x = e :> Z). { apply mag_unique_pos. lra. }
  assert (UL : ulp radix2 fexp64 x = bpow radix2 (e - 53)).
  { rewrite ulp_neq_0 by lra. unfold cexp. rewrite M. f_equal. unfold fexp64, FLT_exp. lia. }
  apply Rabs_lt_inv in D. apply Rle_antisym.
  - apply round_N_le_midp; auto with typeclass_instances. rewrite succ_eq_pos by lra. rewrite UL. lra.
  - apply round_N_ge_midp; auto with typeclass_instances. rewrite pred_eq_pos by lra. unfold pred_pos.
    rewrite Req_bool_false by (rewrite M; lra). rewrite UL. lra.
Qed.
Lemma half_pi64_val : B2R half_pi64 = 7074237752028440 / 4503599627370496.
Proof. unfold half_pi64, f, B2R, F2R; cbn; lra. Qed.
Lemma rnd_pi : rnd PI = B2R pi64.
Proof.
  apply (rnd_to _ _ 2); [apply format64|lia| |].
  - rewrite pi64_val. cbn. lra.
  - pose proof pi_bounds as P. rewrite pi64_val in *. apply Rabs_lt. cbn. lra.
Qed.
Lemma rnd_half_pi t : PI / 2 - 17 / 100000000000000000 <= t <= PI / 2 -> rnd t = B2R half_pi64.
Proof.
  intros H. apply (rnd_to _ _ 1); [apply format64|lia| |].
  - rewrite half_pi64_val. cbn. lra.
  - pose proof pi_bounds as P. rewrite pi64_val in P. rewrite half_pi64_val. apply Rabs_lt. cbn. lra.
Qed.
Lemma rnd_within t b (m : float64) : rnd b = B2R m -> Rabs t <= b -> Rabs (rnd t) <= B2R m.
Proof.
  intros E H. rewrite <- E. apply Rabs_le_inv in H. apply Rabs_le. split.
  - rewrite <- round_NE_opp. apply round_le; auto with typeclass_instances. lra.
  - apply round_le; auto with typeclass_instances. lra.
Qed.

(** ** the ranges: a latitude within a quarter turn, a longitude within a half turn, also after conversion to degrees *)
Theorem C88_range : forall arctan2 n, correct_atan2 arctan2 -> near_unit n -> vx (vec_of n) <> 0 \/ vy (vec_of n) <> 0 ->
  let answer := fn_E2lat_lon arctan2 n in
  Rabs (B2R (fst answer)) <= B2R half_pi64 /\ Rabs (B2R (fdeg (fst answer))) <= 90 /\
  Rabs (B2R (snd answer)) <= B2R pi64 /\ Rabs (B2R (fdeg (snd answer))) <= 180.
Proof.
  intros arctan2 [[x y] z] GA NU NZ answer. pose proof (correct_good _ GA) as GG.
  destruct (C88_accuracy arctan2 _ GG (near_about _ NU)) as (la & lo & _ & FA & _ & LON). destruct (LON NZ) as (FO & _). clear LON la lo.
  destruct (comp_bound _ _ _ NU) as (Fx & Fy & Fz & Bx & By & Bz & NL).
  pose proof u_pos as Pu. pose proof u_small as Su. pose proof PI_RGT_0 as PP.
  assert (B4 : 2 <= bpow radix2 1000). { change 2 with (bpow radix2 1) at 1. apply bpow_le; lia. }
  destruct (pick2 x y z) as ((F0 & V0) & (F1 & V1) & (F2 & V2)); auto; try lra.
  fold answer in FA, FO. unfold vec_of in NZ; cbn [Spec.vx Spec.vy] in NZ.
  assert (R1 : Rabs (B2R (fst answer)) <= B2R half_pi64 /\ Rabs (B2R (snd answer)) <= B2R pi64).
  { unfold answer, fn_E2lat_lon in *. set (n0 := fdot3 (fzero, fzero, fone) _) in *. set (n1 := fdot3 (fzero, fone, fzero) _) in *. set (n2 := fdot3 (fneg fone, fzero, fzero) _) in *.
    cbn [fst snd] in *.
    assert (Vm : B2R (fneg n2) = B2R x) by (unfold fneg; rewrite B2R_Bopp, V2; ring).
    assert (Fm : is_finite (fneg n2) = true) by (unfold fneg; rewrite is_finite_Bopp; auto).
    destruct (hyp_err n1 n2 F1 F2) as (Fh & Ph & Dh). { rewrite V1; auto. } { rewrite V2, Rabs_Ropp; auto. }
    set (h := fsqrt (fadd (fmul n1 n1) (fmul n2 n2))) in *.
    rewrite V1, V2 in Dh. replace (sqrt (B2R y * B2R y + - B2R x * - B2R x)) with (sqrt (B2R y * B2R y + B2R x * B2R x)) in Dh by (f_equal; ring).
    set (r := sqrt _) in *. assert (Pr : 0 <= r) by apply sqrt_pos. assert (Er : r * r = B2R y * B2R y + B2R x * B2R x) by (apply sqrt_sqrt; nra).
    split.
    - destruct (bsign_val n0 F0) as (H0 & H1). rewrite V0 in H0, H1.
      assert (Nz : 0 < B2R z * B2R z + B2R h * B2R h).
      { destruct (Req_EM_T (B2R z) 0) as [Z|Z]; [|nra]. assert (R1 : 9 / 10 <= r) by nra. apply Rabs_le_inv in Dh. pose proof tiny_consts. pose proof eta_pos.
        assert (u * r <= / 1000000000 * r) by (apply Rmult_le_compat_r; lra). assert (0 < B2R h) by lra. nra. }
      destruct (polar_signed (Bsign n0) (B2R z) (B2R h) H0 H1 Nz) as (r' & t' & Pr' & Bt' & S0' & S1' & Es' & Ec' & Er').
      destruct (GA n0 h t' r') as (_ & ->); auto; try congruence.
      apply (rnd_within _ (PI / 2)). { apply rnd_half_pi. lra. }
      apply Rabs_le. apply half_plane; auto. apply Rnot_lt_le. intros N. assert (r' * cos t' < 0) by nra. lra.
    - destruct (bsign_val n1 F1) as (H0 & H1). rewrite V1 in H0, H1.
      destruct (polar_signed (Bsign n1) (B2R y) (B2R x) H0 H1) as (r1 & t & Pr1 & Bt & S0 & S1 & Es & Ec & Er1); [nra|].
      destruct (GA n1 (fneg n2) t r1) as (_ & ->); auto; try congruence.
      apply (rnd_within _ PI); [apply rnd_pi|]. apply Rabs_le. lra. }
  destruct R1 as (R1 & R2). split; auto. split; [apply C79_range; auto|]. split; auto. apply C79_range; auto.
Qed.

(** ** within 1.6e-16 of a pole the latitude reads exactly 90 or -90 degrees *)
Theorem C88_near_pole : forall arctan2 n, correct_atan2 arctan2 -> near_unit n ->
  sqrt (vx (vec_of n) * vx (vec_of n) + vy (vec_of n) * vy (vec_of n)) <= 16 / 100000000000000000 ->
  let answer := fdeg (fst (fn_E2lat_lon arctan2 n)) in
  (0 <= vz (vec_of n) -> B2R answer = 90) /\ (vz (vec_of n) <= 0 -> B2R answer = -90).
Proof.
  intros arctan2 [[x y] z] GA NU HP answer.
  destruct (comp_bound _ _ _ NU) as (Fx & Fy & Fz & Bx & By & Bz & NL).
  pose proof u_pos as Pu. pose proof u_small as Su. pose proof PI_RGT_0 as PP. pose proof tiny_consts as TC. pose proof eta_pos as Pe. pose proof (bpow_gt_0 radix2 (-399)) as P3.
  assert (B4 : 2 <= bpow radix2 1000). { change 2 with (bpow radix2 1) at 1. apply bpow_le; lia. }
  destruct (pick2 x y z) as ((F0 & V0) & (F1 & V1) & (F2 & V2)); auto; try lra.
  unfold answer, fn_E2lat_lon in *. clear answer. unfold vec_of in *; cbn [Spec.vx Spec.vy Spec.vz] in *.
  set (n0 := fdot3 (fzero, fzero, fone) _) in *. set (n1 := fdot3 (fzero, fone, fzero) _) in *. set (n2 := fdot3 (fneg fone, fzero, fzero) _) in *.
  cbn [fst snd].
  destruct (hyp_err n1 n2 F1 F2) as (Fh & Ph & Dh). { rewrite V1; auto. } { rewrite V2, Rabs_Ropp; auto. }
  set (h := fsqrt (fadd (fmul n1 n1) (fmul n2 n2))) in *.
  rewrite V1, V2 in Dh. replace (sqrt (B2R y * B2R y + - B2R x * - B2R x)) with (sqrt (B2R x * B2R x + B2R y * B2R y)) in Dh by (f_equal; ring).
  set (r := sqrt _) in *. assert (Pr : 0 <= r) by apply sqrt_pos. assert (Er : r * r = B2R x * B2R x + B2R y * B2R y) by (apply sqrt_sqrt; nra).
  assert (T3 : bpow radix2 (-399) <= / 10000000000000000000000000000). { apply Rle_trans with (bpow radix2 (-100)); [apply bpow_le; lia|]. cbn. lra. }
  assert (Hh : B2R h <= 165 / 1000000000000000000). { apply Rabs_le_inv in Dh. assert (u * r <= / 1000000000 * r) by (apply Rmult_le_compat_r; lra). lra. }
  assert (Az : 999999 / 1000000 <= Rabs (B2R z)).
  { apply Rnot_lt_le. intros N. assert (Rabs (B2R z) * Rabs (B2R z) <= 999999 / 1000000 * 1) by (apply Rmult_le_compat; try apply Rabs_pos; lra).
    rewrite <- Rabs_mult, Rabs_right in H by nra. assert (r * r <= / 1000000000 * / 1000000000) by (apply Rmult_le_compat; lra). nra. }
  destruct (bsign_val n0 F0) as (H0 & H1). rewrite V0 in H0, H1.
  assert (Nz : 0 < B2R z * B2R z + B2R h * B2R h). { assert (0 < Rabs (B2R z) * Rabs (B2R z)) by nra. rewrite <- Rabs_mult, Rabs_right in H by nra. nra. }
  destruct (polar_signed (Bsign n0) (B2R z) (B2R h) H0 H1 Nz) as (r' & t' & Pr' & Bt' & S0' & S1' & Es' & Ec' & Er').
  destruct (GA n0 h t' r') as (FA & VA); auto; try congruence.
  assert (Bt2 : - (PI / 2) <= t' <= PI / 2). { apply half_plane; auto. apply Rnot_lt_le. intros N. assert (r' * cos t' < 0) by nra. lra. }
  assert (A : PI / 2 - 17 / 100000000000000000 <= Rabs t').
  { set (d := PI / 2 - Rabs t'). assert (Bd : 0 <= d <= PI / 2) by (unfold d; split; [assert (Rabs t' <= PI / 2) by (apply Rabs_le; lra); lra|pose proof (Rabs_pos t'); lra]).
    assert (Cd : r' * cos d = Rabs (B2R z)).
    { unfold d. rewrite cos_shift. rewrite Es', Rabs_mult, (Rabs_right r') by lra. f_equal. unfold Rabs at 1. destruct (Rcase_abs t').
      - rewrite sin_neg. rewrite Rabs_left1; auto. assert (0 <= sin (- t')) by (apply sin_ge_0; lra). rewrite sin_neg in H. lra.
      - rewrite Rabs_right; auto. apply Rle_ge, sin_ge_0; lra. }
    assert (Sd : r' * sin d = B2R h).
    { unfold d. rewrite sin_shift, Ec'. f_equal. unfold Rabs. destruct (Rcase_abs t'); auto. apply cos_neg. }
    assert (Pc : 0 < cos d). { apply Rnot_le_lt. intros N. assert (r' * cos d <= 0) by nra. lra. }
    pose proof (abs_angle d ltac:(lra) Pc) as AA. rewrite (Rabs_right d) in AA by lra. rewrite (Rabs_right (sin d)) in AA by (apply Rle_ge, sin_ge_0; lra).
    assert (r' * (d * cos d) <= r' * sin d) by (apply Rmult_le_compat_l; lra).
    assert (d * (999999 / 1000000) <= d * (r' * cos d)) by (apply Rmult_le_compat_l; lra).
    assert (d <= 17 / 100000000000000000) by lra. unfold d in *. lra. }
  destruct limits as (_ & _ & L3 & _).
  assert (V90 : B2R f90 = 90) by (unfold f90, f, B2R, F2R; cbn; lra).
  assert (HPv := half_pi64_val).
  assert (ONE : forall w : float64, is_finite w = true -> B2R w = B2R half_pi64 -> B2R (fdeg w) = 90).
  { intros w Fw Ew. rewrite <- V90, <- L3. f_equal. f_equal. apply B2R_inj; auto.
    destruct w as [b|b| |b m e H]; try discriminate; auto. rewrite HPv in Ew. cbn in Ew. lra. }
  split; intros Hz.
  - assert (0 < B2R z) by (unfold Rabs in Az; destruct (Rcase_abs (B2R z)); lra).
    assert (Pt : 0 <= t'). { apply Rnot_lt_le. intros N. assert (sin t' <= 0). { rewrite <- (Ropp_involutive t'), sin_neg. assert (0 <= sin (- t')) by (apply sin_ge_0; lra). lra. } assert (r' * sin t' <= 0) by nra. lra. }
    rewrite Rabs_right in A by lra. apply ONE; auto. rewrite VA. apply rnd_half_pi. lra.
  - assert (B2R z < 0) by (unfold Rabs in Az; destruct (Rcase_abs (B2R z)); lra).
    assert (Pt : t' <= 0). { apply Rnot_lt_le. intros N. assert (0 <= sin t') by (apply sin_ge_0; lra). assert (0 <= r' * sin t') by nra. lra. }
    rewrite Rabs_left1 in A by lra.
    assert (E : fdeg (arctan2 n0 h) = fneg (fdeg (fneg (arctan2 n0 h)))).
    { rewrite (proj2 (C79_odd _)). unfold fneg. rewrite Bopp_involutive. reflexivity. }
    rewrite E. unfold fneg at 1. rewrite B2R_Bopp. rewrite ONE; [lra| |].
    + unfold fneg. rewrite is_finite_Bopp. auto.
    + unfold fneg. rewrite B2R_Bopp, VA, <- round_NE_opp. apply rnd_half_pi. lra.
Qed.

(** ** the poles survive the round trip exactly, whatever the longitude *)
Lemma cos_half_pi64 : 0 <= cos (B2R half_pi64) <= 65 / 1000000000000000000.
Proof.
  pose proof pi_bounds as P. rewrite pi64_val in P. pose proof half_pi64_val as V. pose proof PI2_1.
  replace (cos (B2R half_pi64)) with (sin (PI / 2 - B2R half_pi64)) by apply sin_shift. set (d := PI / 2 - B2R half_pi64).
  assert (D : 0 <= d <= 65 / 1000000000000000000) by (unfold d; lra).
  split; [apply sin_ge_0; lra|]. eapply Rle_trans; [apply sin_le_x; lra|]. lra.
Qed.
Theorem C88_poles : forall fsin fcos arctan2 lat lon, good_trig fsin sin -> good_trig fcos cos -> correct_atan2 arctan2 ->
  is_finite lat = true -> is_finite lon = true -> Rabs (B2R lon) <= 180 -> B2R lat = 90 \/ B2R lat = -90 ->
  B2R (fst (fround_trip fsin fcos arctan2 lat lon)) = B2R lat.
Proof.
  intros fsin fcos arctan2 lat lon GS GC GA Fa Fo Bo HL. unfold fround_trip; cbn [fst]. pose proof u_pos as Pu. pose proof u_small as Su.
  pose proof tiny_consts as TC. pose proof eta_pos as Pe. pose proof (bpow_gt_0 radix2 (-399)) as P3.
  assert (V90 : B2R f90 = 90) by (unfold f90, f, B2R, F2R; cbn; lra). destruct limits as (L1 & _).
  assert (Ba : Rabs (B2R lat) <= 90). { destruct HL as [-> | ->]; [rewrite Rabs_right|rewrite Rabs_left]; lra. }
  destruct (rad_moves lat 90 Fa Ba ltac:(lra)) as (Fa' & Ba4 & _). destruct (rad_moves lon 180 Fo Bo ltac:(lra)) as (Fo' & Bo4 & _).
  assert (SC : (B2R lat = 90 /\ B2R (frad lat) = B2R half_pi64) \/ (B2R lat = -90 /\ B2R (frad lat) = - B2R half_pi64)).
  { destruct HL as [E|E].
    - left. split; auto. rewrite <- L1. f_equal. f_equal. apply B2R_inj; auto; [|congruence].
      destruct lat as [b|b| |b m e H]; try discriminate; auto. cbn in E. lra.
    - right. split; auto. rewrite <- L1, <- B2R_Bopp. change (Bopp (frad f90)) with (fneg (frad f90)). rewrite <- (proj1 (C79_odd f90)). f_equal. f_equal. apply B2R_inj; auto.
      + destruct lat as [b|b| |b m e H]; try discriminate; auto. cbn in E. lra.
      + unfold fneg. rewrite B2R_Bopp. lra. }
  destruct (C81_n_vector fsin fcos _ _ GS GC Fa' Fo' Ba4 Bo4) as (NU & _).
  destruct (components fsin fcos _ _ GS GC Fa' Fo' Ba4 Bo4) as (Dx & Dy & Dz).
  set (v := vec_of (flat_lon2n_E fsin fcos (frad lat) (frad lon))) in *. set (o := B2R (frad lon)) in *.
  assert (C0 : 0 <= cos (B2R (frad lat)) <= 65 / 1000000000000000000).
  { destruct SC as [(_ & ->)|(_ & ->)]; [|rewrite cos_neg]; apply cos_half_pi64. }
  set (c := cos (B2R (frad lat))) in *.
  assert (T3 : eta <= / 10000000000000000000000000000). { apply Rle_trans with (bpow radix2 (-100)); [unfold eta; apply bpow_le; lia|]. cbn. lra. }
  assert (K : forall w g, Rabs g <= 1 -> Rabs (w - g * c) <= 51 / 10 * u * Rabs (g * c) + 10 * eta -> Rabs w <= 66 / 1000000000000000000).
  { intros w g Hg Hw. assert (G : Rabs (g * c) <= 1 * c) by (rewrite Rabs_mult, (Rabs_right c) by lra; apply Rmult_le_compat_r; lra). rewrite Rmult_1_l in G.
    assert (u * Rabs (g * c) <= / 1000000000 * c) by (apply Rmult_le_compat; try apply Rabs_pos; lra).
    replace w with ((w - g * c) + g * c) by ring. eapply Rle_trans; [apply Rabs_triang|]. lra. }
  pose proof (K _ _ (Rabs_le _ _ (COS_bound o)) Dx) as Kx. pose proof (K _ _ (Rabs_le _ _ (SIN_bound o)) Dy) as Ky.
  assert (HP : sqrt (vx v * vx v + vy v * vy v) <= 16 / 100000000000000000).
  { rewrite <- (sqrt_square (16 / 100000000000000000)) by lra. apply sqrt_le_1_alt.
    assert (Q : forall w, Rabs w <= 66 / 1000000000000000000 -> w * w <= 66 / 1000000000000000000 * (66 / 1000000000000000000)).
    { intros w Hw. rewrite <- (Rabs_right (w * w)) by nra. rewrite Rabs_mult. apply Rmult_le_compat; auto; apply Rabs_pos. }
    pose proof (Q _ Kx). pose proof (Q _ Ky). lra. }
  destruct (C88_near_pole arctan2 _ GA NU HP) as (PN & PS). fold v in PN, PS.
  assert (SH : 1 / 2 <= sin (B2R half_pi64)). { rewrite <- sin_PI6. pose proof pi_bounds as P. rewrite pi64_val in P. pose proof half_pi64_val. apply sin_incr_1; lra. }
  pose proof (SIN_bound (B2R half_pi64)) as SB.
  destruct SC as [(E & E')|(E & E')]; rewrite E, E' in *.
  - apply PN. rewrite (Rabs_right (sin _)) in Dz by lra. apply Rabs_le_inv in Dz. assert (u * sin (B2R half_pi64) <= / 1000000000 * 1) by (apply Rmult_le_compat; lra). lra.
  - apply PS. rewrite sin_neg, Rabs_Ropp, (Rabs_right (sin _)) in Dz by lra. apply Rabs_le_inv in Dz. assert (u * sin (B2R half_pi64) <= / 1000000000 * 1) by (apply Rmult_le_compat; lra). lra.
Qed.

(** the requirements can be met: correctly rounded functions meet them, and the North pole is such an n-vector *)
Example C88_example : good_trig (fun x => round64 (sin (B2R x))) sin /\ good_trig (fun x => round64 (cos (B2R x))) cos /\
  good_atan2 ideal_atan2 /\ correct_atan2 ideal_atan2 /\ near_unit (fzero, fneg fzero, fone) /\
  B2R (fdeg (fst (fn_E2lat_lon ideal_atan2 (fzero, fneg fzero, fone)))) = 90.
Proof.
  destruct C81_example as (A & B & _). split; auto. split; auto. split; [apply correct_good, ideal_atan2_correct|]. split; [apply ideal_atan2_correct|].
  assert (N : near_unit (fzero, fneg fzero, fone)).
  { repeat (split; [reflexivity|]). unfold length3. rewrite fone_val. cbn [B2R fzero fneg Bopp]. replace (0 * 0 + 0 * 0 + 1 * 1) with 1 by ring. rewrite sqrt_1, Rminus_diag_eq by auto. rewrite Rabs_R0. pose proof u_pos. lra. }
  split; auto. destruct (C88_near_pole ideal_atan2 _ ideal_atan2_correct N) as (P & _).
  - unfold vec_of; cbn [Spec.vx Spec.vy B2R fzero fneg Bopp]. replace (0 * 0 + 0 * 0) with 0 by ring. rewrite sqrt_0. lra.
  - apply P. unfold vec_of; cbn [Spec.vz]. rewrite fone_val. lra.
Qed.
