(** * C92: on the Earth; length and azimuth of the vector *)
From Coq Require Import ZArith Reals Lra Lia Bool Psatz.
From Flocq Require Import Core BinarySingleNaN Relative.
From Verif Require Import Spec LVec LAngle FTiny FZero FBase FRel FRel2 FUnit FPi FAngle FDist FGreat FLatLon FInv FEcef FEcef2 FNed FNed2 FNed3 FDelta FDelta2.
Local Open Scope R_scope.

Lemma comp_of (v : vec64) : let '(x, y, z) := v in
  Rabs (B2R x) <= vnorm (vec_of v) /\ Rabs (B2R y) <= vnorm (vec_of v) /\ Rabs (B2R z) <= vnorm (vec_of v).
Proof. destruct v as [[x y] z]. exact (comp_le_vnorm (vec_of (x, y, z))). Qed.

Lemma position_norm a f lat lon z p : 0 < a -> 0 <= f < 1 -> position a f lat lon z p -> vnorm p <= a + Rabs z.
Proof.
  intros Ha Hf (s & (O & _) & ->). assert (NS : vnorm s <= a).
  { unfold vnorm. rewrite <- (sqrt_square a) by lra. apply sqrt_le_1_alt. unfold on_ellipsoid, equatorial, Spec.polar, vdot, vsub, vscale in O; cbn [Spec.vx Spec.vy Spec.vz] in O. unfold vdot.
    destruct s as [x y w]; cbn [Spec.vx Spec.vy Spec.vz] in *.
    assert (E : w * w * a ^ 2 / (a * (1 - f)) ^ 2 + (x * x + y * y) = a ^ 2). { transitivity (a ^ 2 * ((0 * x + 0 * y + 1 * w) ^ 2 / (a * (1 - f)) ^ 2 + ((x - (0 * x + 0 * y + 1 * w) * 0) * (x - (0 * x + 0 * y + 1 * w) * 0) + (y - (0 * x + 0 * y + 1 * w) * 0) * (y - (0 * x + 0 * y + 1 * w) * 0) + (w - (0 * x + 0 * y + 1 * w) * 1) * (w - (0 * x + 0 * y + 1 * w) * 1)) / a ^ 2)); [field; lra|]. rewrite O. ring. }
    assert (I : w * w <= w * w * a ^ 2 / (a * (1 - f)) ^ 2). { replace (w * w * a ^ 2 / (a * (1 - f)) ^ 2) with (w * w * (/ ((1 - f) * (1 - f)))) by (field; lra). rewrite <- (Rmult_1_r (w * w)) at 1. apply Rmult_le_compat_l; [nra|]. rewrite <- Rinv_1 at 1. apply Rinv_le; nra. }
    lra. }
  rewrite sub_neg. eapply Rle_trans; [apply norm_triangle|]. rewrite vnorm_neg, vnorm_scale, latlon_unit. lra.
Qed.

(** every valid position has exactly one place *)
Lemma position_exists fsin fcos lat lon z a f : good_trig fsin sin -> good_trig fcos cos -> valid lat lon z -> usual_ellipsoid a f ->
  exists p, position (B2R a) (B2R f) (B2R lat) (B2R lon) (B2R z) p.
Proof.
  intros GS GC (Fa & Fo & Ba & Bo & Fz & Bz) HE. destruct (C89_from_degrees fsin fcos lat lon z a f GS GC Fa Fo Ba Bo Fz Bz HE) as (_ & s & S & _). eexists. exists s. split; [exact S|reflexivity].
Qed.

Lemma b24 : 16777216 <= bpow radix2 24. Proof. cbn. lra. Qed.
(** ** on WGS-84, within a thousand kilometres of the surface: 66 nanometres plus a relative 1.1e-14, so never more than 0.22 micrometres *)
Theorem C92_wgs84 : forall dot fsin fcos latA lonA zA latB lonB zB pA pB,
  good_mdot dot -> good_trig fsin sin -> good_trig fcos cos -> valid latA lonA zA -> valid latB lonB zB -> Rabs (B2R zA) <= 1000000 -> Rabs (B2R zB) <= 1000000 ->
  position 6378137 (B2R wgs84_f) (B2R latA) (B2R lonA) (B2R zA) pA -> position 6378137 (B2R wgs84_f) (B2R latB) (B2R lonB) (B2R zB) pB ->
  let p := vsub pB pA in let p' := fdelta_to_deg dot fsin fcos latA lonA zA latB lonB zB wgs84_a wgs84_f in
  let err := vnorm (vsub (vec_of p') (mulv (ned (B2R latA) (B2R lonA)) p)) in
  finite_vec p' /\ err <= 66 / 1000000000 + 1 / 97 / 1000000000000 * vnorm p /\ err <= 22 / 100000000.
Proof.
  intros dot fsin fcos latA lonA zA latB lonB zB pA pB GD GS GC VA VB BA BB HA HB p p' err.
  pose proof wgs84_f_val as (_ & Vf). assert (PA : vnorm pA <= 7378137) by (pose proof (position_norm 6378137 (B2R wgs84_f) (B2R latA) (B2R lonA) (B2R zA) pA ltac:(lra) ltac:(lra) HA); lra).
  assert (PB : vnorm pB <= 7378137) by (pose proof (position_norm 6378137 (B2R wgs84_f) (B2R latB) (B2R lonB) (B2R zB) pB ltac:(lra) ltac:(lra) HB); lra).
  rewrite <- wgs84_a_val in HA, HB. pose proof (C92_from_degrees dot fsin fcos latA lonA zA latB lonB zB wgs84_a wgs84_f pA pB GD GS GC VA VB wgs84_usual HA HB) as C. cbv zeta in C. fold p p' in C. fold err in C. destruct C as (FP & C). split; auto.
  assert (NP : vnorm p <= 14756274). { unfold p. rewrite sub_neg. eapply Rle_trans; [apply norm_triangle|]. rewrite vnorm_neg. lra. }
  pose proof (vnorm_pos p) as PP. unfold pos_err in C. rewrite wgs84_a_val, Vf in C. pose proof tiny_eta as Te. pose proof eta_pos as Pe. assert (ET : eta <= u * / 1000000) by (pose proof u_pos; lra). rewrite u_val in *.
  clear - C NP PP BA BB ET Pe. split; lra.
Qed.
Print Assumptions C92_wgs84.

(** ** Pvector.length, objects.py 683-689: the length of the vector is as accurate *)
Definition flength (p : vec64) : float64 := let '(x, y, z) := p in norm3 x y z.
Lemma length_err p' q e : finite_vec p' -> vnorm (vec_of p') <= bpow radix2 400 -> vnorm (vsub (vec_of p') q) <= e ->
  is_finite (flength p') = true /\ Rabs (B2R (flength p') - vnorm q) <= e + 3 * u * (vnorm q + e) + bpow radix2 (-399).
Proof.
  destruct p' as [[x y] z]. intros (Fx & Fy & Fz) B D. destruct (comp_of (x, y, z)) as (B0 & B1 & B2).
  destruct (any_norm x y z Fx Fy Fz ltac:(lra) ltac:(lra) ltac:(lra)) as (F & _ & E). split; auto. rewrite length3_vnorm in E. unfold flength.
  set (L := vnorm (vec_of (x, y, z))) in *. pose proof (norm_perturb q (vsub (vec_of (x, y, z)) q)) as N. rewrite <- via in N. fold L in N. pose proof u_pos as Pu.
  assert (Rabs (L - vnorm q) <= e) by lra. pose proof H as H'. apply Rabs_le_inv in H'. replace (B2R (norm3 x y z) - vnorm q) with ((B2R (norm3 x y z) - L) + (L - vnorm q)) by ring.
  eapply Rle_trans; [apply Rabs_triang|]. assert (u * L <= u * (vnorm q + e)) by (apply Rmult_le_compat_l; lra). lra.
Qed.
Theorem C92_length : forall dot fsin fcos latA lonA zA latB lonB zB pA pB,
  good_mdot dot -> good_trig fsin sin -> good_trig fcos cos -> valid latA lonA zA -> valid latB lonB zB -> Rabs (B2R zA) <= 1000000 -> Rabs (B2R zB) <= 1000000 ->
  position 6378137 (B2R wgs84_f) (B2R latA) (B2R lonA) (B2R zA) pA -> position 6378137 (B2R wgs84_f) (B2R latB) (B2R lonB) (B2R zB) pB ->
  let L' := flength (fdelta_to_deg dot fsin fcos latA lonA zA latB lonB zB wgs84_a wgs84_f) in
  is_finite L' = true /\ Rabs (B2R L' - vnorm (vsub pB pA)) <= 67 / 1000000000 + 1 / 90 / 1000000000000 * vnorm (vsub pB pA) /\
  Rabs (B2R L' - vnorm (vsub pB pA)) <= 23 / 100000000.
Proof.
  intros dot fsin fcos latA lonA zA latB lonB zB pA pB GD GS GC VA VB BA BB HA HB L'.
  pose proof wgs84_f_val as (_ & Vf). assert (PA : vnorm pA <= 7378137) by (pose proof (position_norm 6378137 (B2R wgs84_f) (B2R latA) (B2R lonA) (B2R zA) pA ltac:(lra) ltac:(lra) HA); lra).
  assert (PB : vnorm pB <= 7378137) by (pose proof (position_norm 6378137 (B2R wgs84_f) (B2R latB) (B2R lonB) (B2R zB) pB ltac:(lra) ltac:(lra) HB); lra).
  pose proof (C92_wgs84 dot fsin fcos latA lonA zA latB lonB zB pA pB GD GS GC VA VB BA BB HA HB) as C. cbv zeta in C. unfold L'.
  set (p' := fdelta_to_deg dot fsin fcos latA lonA zA latB lonB zB wgs84_a wgs84_f) in *. destruct C as (FP & E1 & E2). set (M := ned (B2R latA) (B2R lonA)) in *. set (p := vsub pB pA) in *.
  assert (NP : vnorm p <= 14756274). { unfold p. rewrite sub_neg. eapply Rle_trans; [apply norm_triangle|]. rewrite vnorm_neg. lra. }
  assert (NM : vnorm (mulv M p) = vnorm p). { apply orthogonal_norm. pose proof (orthogonal_T _ (ned_orthogonal (B2R latA) (B2R lonA))) as O. fold M in O. replace (mT (mT M)) with M in O by (destruct M as [[? ? ?] [? ? ?] [? ? ?]]; reflexivity). exact O. }
  assert (BP : vnorm (vec_of p') <= bpow radix2 400). { rewrite (via (mulv M p) (vec_of p')). eapply Rle_trans; [apply norm_triangle|]. rewrite NM. pose proof b24 as X. pose proof (bpow_le radix2 24 400 ltac:(lia)) as Y. clear - X Y NP E2. lra. }
  destruct (length_err p' _ _ FP BP (Rle_refl (vnorm (vsub (vec_of p') (mulv M p))))) as (FL & EL). split; auto. rewrite NM in EL. pose proof (vnorm_pos p) as PP. pose proof tiny_consts as TC. pose proof (bpow_gt_0 radix2 (-399)) as P3.
  set (e := vnorm (vsub (vec_of p') (mulv M p))) in *. assert (ET : bpow radix2 (-399) <= u) by (pose proof u_pos; pose proof eta_pos; clear - TC H H0; lra). rewrite u_val in *. assert (0 <= e) by apply vnorm_pos. clear - EL E1 E2 NP PP ET P3 H. split; lra.
Qed.
Print Assumptions C92_length.

(** ** Pvector.azimuth, objects.py 696-702 *)
Definition fazimuth (arctan2 : float64 -> float64 -> float64) (p : vec64) : float64 := let '(north, east, _) := p in arctan2 east north.
(** [t] is an azimuth (radians clockwise from north) of the vector with these north, east and down components *)
Definition azimuth_of (q : vec) (t : R) : Prop := let h := sqrt (Spec.vx q ^ 2 + Spec.vy q ^ 2) in Spec.vx q = h * cos t /\ Spec.vy q = h * sin t.

Lemma azimuth_err arctan2 p' q e : good_atan2 arctan2 -> finite_vec p' -> vnorm (vsub (vec_of p') q) <= e -> e < sqrt (Spec.vx q ^ 2 + Spec.vy q ^ 2) ->
  is_finite (fazimuth arctan2 p') = true /\ exists t, azimuth_of q t /\ Rabs (B2R (fazimuth arctan2 p') - t) <= e / (sqrt (Spec.vx q ^ 2 + Spec.vy q ^ 2) - e) + 63 / 10 * u.
Proof.
  destruct p' as [[n e'] d]. intros GA (Fn & Fe & Fd) D HB. unfold azimuth_of. set (h := sqrt (Spec.vx q ^ 2 + Spec.vy q ^ 2)) in *. unfold fazimuth.
  assert (Eh : h * h = Spec.vx q ^ 2 + Spec.vy q ^ 2) by (apply sqrt_sqrt; nra). assert (Pe : 0 <= e) by (pose proof (vnorm_pos (vsub (vec_of (n, e', d)) q)); lra).
  set (N := Spec.vx q) in *. set (E := Spec.vy q) in *. set (n' := B2R n) in *. set (w := B2R e') in *.
  assert (DD : (n' - N) * (n' - N) + (w - E) * (w - E) <= e * e).
  { pose proof (vnorm_sq (vsub (vec_of (n, e', d)) q)) as S. unfold vdot, vsub, vec_of in S; cbn [Spec.vx Spec.vy Spec.vz] in S. fold N E n' w in S. pose proof (vnorm_pos (vsub (vec_of (n, e', d)) q)) as P. unfold vec_of, vsub in P, D; cbn [Spec.vx Spec.vy Spec.vz] in P, D.
    fold N E n' w in P, D. set (v := vnorm _) in *. set (dz := B2R d - Spec.vz q) in *. assert (v * v <= e * e) by (apply Rmult_le_compat; lra). pose proof (Rle_0_sqr dz) as Z. unfold Rsqr in Z. lra. }
  assert (PZ : 0 < w * w + n' * n').
  { apply Rnot_le_lt. intros Z. assert (w = 0) by nra. assert (n' = 0) by nra. rewrite H, H0 in DD. assert (h * h <= e * e) by (rewrite Eh; nra). nra. }
  destruct (bsign_val e' Fe) as (S0 & S1). fold w in S0, S1.
  destruct (polar_signed (Bsign e') w n' S0 S1 PZ) as (r & t' & Pr & Bt & T0 & T1 & Ew & En & Er).
  destruct (GA e' n t' r Fe Fn Bt Pr T0 T1 Ew En) as (FA & DA). split; auto.
  assert (Hh : 0 < E * E + N * N) by nra. destruct (polar_signed (if Rle_dec 0 E then false else true) E N) as (h' & t0 & Ph & Bt0 & _ & _ & EE & EN & Eh'); [destruct (Rle_dec 0 E); auto; discriminate|destruct (Rle_dec 0 E); [discriminate|lra]|exact Hh|].
  assert (h' = h) by nra. subst h'. clear Eh'.
  (* the representative within half a turn of t' *)
  assert (HR : exists t, - PI <= t' - t <= PI /\ sin t = sin t0 /\ cos t = cos t0).
  { destruct (Rlt_dec (t' - t0) (- PI)) as [L|L]; [|destruct (Rlt_dec PI (t' - t0)) as [G|G]].
    - exists (t0 - 2 * PI). split; [lra|]. split; [rewrite <- (sin_period (t0 - 2 * PI) 1)|rewrite <- (cos_period (t0 - 2 * PI) 1)]; f_equal; cbn; ring.
    - exists (t0 + 2 * PI). split; [lra|]. split; [rewrite <- (sin_period t0 1)|rewrite <- (cos_period t0 1)]; f_equal; cbn; ring.
    - exists t0. split; [lra|auto]. }
  destruct HR as (t & BD & St & Ct). rewrite <- St in EE. rewrite <- Ct in EN. exists t. split; [auto|].
  assert (SC : sin t * sin t + cos t * cos t = 1) by (pose proof (sin2_cos2 t) as T; unfold Rsqr in T; lra).
  set (a := n' - N) in *. set (b := w - E) in *.
  assert (X1 : r * cos (t' - t) = h + (a * cos t + b * sin t)).
  { rewrite cos_minus. transitivity (r * cos t' * cos t + r * sin t' * sin t); [ring|]. rewrite <- En, <- Ew. unfold a, b. transitivity (n' * cos t + w * sin t); [ring|]. rewrite EN, EE.
    transitivity (n' * cos t + w * sin t + h * (1 - (sin t * sin t + cos t * cos t))); [rewrite SC; ring|ring]. }
  assert (X2 : r * sin (t' - t) = b * cos t - a * sin t).
  { rewrite sin_minus. transitivity (r * sin t' * cos t - r * cos t' * sin t); [ring|]. rewrite <- En, <- Ew. unfold a, b. rewrite EN, EE. ring. }
  assert (X3 : (a * cos t + b * sin t) * (a * cos t + b * sin t) + (b * cos t - a * sin t) * (b * cos t - a * sin t) <= e * e).
  { replace ((a * cos t + b * sin t) * (a * cos t + b * sin t) + (b * cos t - a * sin t) * (b * cos t - a * sin t)) with ((a * a + b * b) * (sin t * sin t + cos t * cos t)) by ring. rewrite SC. lra. }
  set (x := a * cos t + b * sin t) in *. set (y := b * cos t - a * sin t) in *.
  assert (AX : Rabs x <= e). { rewrite <- (Rabs_right e) by lra. apply Rsqr_le_abs_0. unfold Rsqr. nra. }
  assert (AY : Rabs y <= e). { rewrite <- (Rabs_right e) by lra. apply Rsqr_le_abs_0. unfold Rsqr. nra. }
  apply Rabs_le_inv in AX. assert (PC : 0 < cos (t' - t)). { apply Rnot_le_lt. intros Z. assert (r * cos (t' - t) <= 0) by nra. lra. }
  pose proof (abs_angle (t' - t) BD PC) as AA.
  assert (K : Rabs (t' - t) * (h - e) <= e).
  { apply Rle_trans with (Rabs (t' - t) * (r * cos (t' - t))); [apply Rmult_le_compat_l; [apply Rabs_pos|lra]|].
    replace (Rabs (t' - t) * (r * cos (t' - t))) with (r * (Rabs (t' - t) * cos (t' - t))) by ring. apply Rle_trans with (r * Rabs (sin (t' - t))); [apply Rmult_le_compat_l; lra|].
    rewrite <- (Rabs_right r) at 1 by lra. rewrite <- Rabs_mult, X2. exact AY. }
  assert (K2 : Rabs (t' - t) <= e / (h - e)). { apply (Rmult_le_reg_r (h - e)); [lra|]. replace (e / (h - e) * (h - e)) with e by (field; lra). exact K. }
  replace (B2R (arctan2 e' n) - t) with ((t' - t) + (B2R (arctan2 e' n) - t')) by ring. eapply Rle_trans; [apply Rabs_triang|].
  assert (Rabs t' <= 3142 / 1000). { pose proof pi_bounds as P. rewrite pi64_val in P. apply Rabs_le. lra. }
  pose proof u_pos as Pu. pose proof eta_pos as Pet. pose proof tiny_eta as Te. assert (u * Rabs t' <= u * (3142 / 1000)) by (apply Rmult_le_compat_l; lra). lra.
Qed.

(** a true azimuth of B seen from A and the computed one differ by 0.22 micrometres at the horizontal distance h, plus 7e-16 *)
Theorem C92_azimuth : forall dot fsin fcos arctan2 latA lonA zA latB lonB zB pA pB,
  good_mdot dot -> good_trig fsin sin -> good_trig fcos cos -> good_atan2 arctan2 -> valid latA lonA zA -> valid latB lonB zB -> Rabs (B2R zA) <= 1000000 -> Rabs (B2R zB) <= 1000000 ->
  position 6378137 (B2R wgs84_f) (B2R latA) (B2R lonA) (B2R zA) pA -> position 6378137 (B2R wgs84_f) (B2R latB) (B2R lonB) (B2R zB) pB ->
  let q := mulv (ned (B2R latA) (B2R lonA)) (vsub pB pA) in let h := sqrt (Spec.vx q ^ 2 + Spec.vy q ^ 2) in 22 / 100000000 < h ->
  let az := fazimuth arctan2 (fdelta_to_deg dot fsin fcos latA lonA zA latB lonB zB wgs84_a wgs84_f) in
  is_finite az = true /\ exists t, azimuth_of q t /\ Rabs (B2R az - t) <= 22 / 100000000 / (h - 22 / 100000000) + 7 / 10000000000000000.
Proof.
  intros dot fsin fcos arctan2 latA lonA zA latB lonB zB pA pB GD GS GC GA VA VB BA BB HA HB q h Hh az.
  pose proof (C92_wgs84 dot fsin fcos latA lonA zA latB lonB zB pA pB GD GS GC VA VB BA BB HA HB) as C. cbv zeta in C. destruct C as (FP & _ & E2). fold q in E2.
  destruct (azimuth_err arctan2 _ q _ GA FP E2 Hh) as (FA & t & AZ & ER). split; auto. exists t. split; auto. fold az h in ER. rewrite u_val in ER. lra.
Qed.
Print Assumptions C92_azimuth.

(** ** what the theorems do not exclude: the hypotheses hold for two ordinary points, (1, 1) degrees at depth 1 m and (-1, -1) degrees at height 1 m *)
Lemma valid_one : valid fone fone fone /\ valid (fneg fone) (fneg fone) (fneg fone).
Proof.
  assert (B1 : bpow radix2 0 <= bpow radix2 300) by (apply bpow_le; lia). change (bpow radix2 0) with 1 in B1.
  unfold valid, fneg. rewrite !B2R_Bopp, !is_finite_Bopp, !Rabs_Ropp, fone_val, Rabs_R1. repeat split; auto; lra.
Qed.
Lemma good_sin : good_trig (fun x => round64 (sin (B2R x))) sin. Proof. apply ideal_trig_good; intros; apply Rabs_le, SIN_bound. Qed.
Lemma good_cos : good_trig (fun x => round64 (cos (B2R x))) cos. Proof. apply ideal_trig_good; intros; apply Rabs_le, COS_bound. Qed.
Example C92_example : good_mdot dot_seq /\ good_trig (fun x => round64 (sin (B2R x))) sin /\ good_trig (fun x => round64 (cos (B2R x))) cos /\
  valid fone fone fone /\ valid (fneg fone) (fneg fone) (fneg fone) /\ Rabs (B2R fone) <= 1000000 /\ usual_ellipsoid wgs84_a wgs84_f /\
  exists pA pB, position 6378137 (B2R wgs84_f) (B2R fone) (B2R fone) (B2R fone) pA /\ position 6378137 (B2R wgs84_f) (B2R (fneg fone)) (B2R (fneg fone)) (B2R (fneg fone)) pB.
Proof.
  destruct valid_one as (VA & VB). split; [apply dot_seq_mdot|]. split; [apply good_sin|]. split; [apply good_cos|]. split; auto. split; auto. split; [rewrite fone_val, Rabs_R1; lra|]. split; [apply wgs84_usual|].
  rewrite <- wgs84_a_val. destruct (position_exists _ _ _ _ _ _ _ good_sin good_cos VA wgs84_usual) as (pA & HA). destruct (position_exists _ _ _ _ _ _ _ good_sin good_cos VB wgs84_usual) as (pB & HB). exists pA, pB. auto.
Qed.
