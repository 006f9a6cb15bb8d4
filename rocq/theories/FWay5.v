(** * C95: GeoPoint.displace along a great circle, in metres on the WGS-84 ellipsoid *)
From Coq Require Import ZArith Reals Lra Lia Bool Psatz.
From Flocq Require Import Core BinarySingleNaN Relative.
From Verif Require Import Spec LVec LTrig LAngle FTiny FZero FBase FRel FRel2 FUnit FPi FAngle FDist FGreat FLatLon FInv FInv2 FInv3 FEcef FEcef2 FNed FNed2 FNed3 FDelta FDelta2 FDelta3 FGeod10 FMove FMove3 FWay FWay2 FWay3 FWay4.
From Verif Require SpecArr SpecGeo.
Local Open Scope R_scope.

Lemma position_low a f lat lon z p : 0 < a -> 0 <= f < 1 -> position a f lat lon z p -> a * (1 - f) - Rabs z <= vnorm p.
Proof.
  intros Ha Hf (s & (O & _) & ->). set (b := a * (1 - f)) in *. assert (Hb : 0 < b <= a) by (unfold b; nra).
  assert (NS : b <= vnorm s).
  { unfold vnorm. rewrite <- (sqrt_square b) by lra. apply sqrt_le_1_alt. unfold on_ellipsoid in O. fold b in O. unfold equatorial, Spec.polar, vdot, vsub, vscale in O; cbn [Spec.vx Spec.vy Spec.vz] in O. unfold vdot.
    destruct s as [x y w]; cbn [Spec.vx Spec.vy Spec.vz] in *.
    assert (E : w * w + (x * x + y * y) * (b ^ 2 / a ^ 2) = b * b). { transitivity (b ^ 2 * ((0 * x + 0 * y + 1 * w) ^ 2 / b ^ 2 + ((x - (0 * x + 0 * y + 1 * w) * 0) * (x - (0 * x + 0 * y + 1 * w) * 0) + (y - (0 * x + 0 * y + 1 * w) * 0) * (y - (0 * x + 0 * y + 1 * w) * 0) + (w - (0 * x + 0 * y + 1 * w) * 1) * (w - (0 * x + 0 * y + 1 * w) * 1)) / a ^ 2)); [field; lra|]. rewrite O. ring. }
    assert (I : b ^ 2 / a ^ 2 <= 1). { apply (Rmult_le_reg_r (a ^ 2)); [nra|]. replace (b ^ 2 / a ^ 2 * a ^ 2) with (b ^ 2) by (field; lra). nra. }
    assert (0 <= x * x + y * y) by nra. nra. }
  set (N := latlon_vec _ _). assert (UN : vnorm N = 1) by apply latlon_unit.
  pose proof (norm_perturb s (vscale (- z) N)) as T. rewrite vnorm_scale, UN, Rabs_Ropp in T. replace (vsub s (vscale z N)) with (vadd s (vscale (- z) N)) by (clearbody N; vring). apply Rabs_le_inv in T. lra.
Qed.

Lemma quot_diff d r l : 0 < r -> 0 < l -> d / r - d / l = d * ((l - r) / (r * l)).
Proof. intros. field. lra. Qed.

Theorem C95_displace : forall fsin fcos arctan2 lat lon z distance az pA, good_trig fsin sin -> good_trig fcos cos -> good_atan2 arctan2 ->
  valid lat lon z -> Rabs (B2R z) <= 1000000 -> is_finite distance = true -> Rabs (B2R distance) <= 20000000 -> is_finite az = true -> Rabs (B2R az) <= 180 ->
  position 6378137 (B2R wgs84_f) (B2R lat) (B2R lon) (B2R z) pA ->
  let r := fdisplace fsin fcos arctan2 lat lon z distance az wgs84_a wgs84_f in
  angle (destination_deg (B2R lat) (B2R lon) (B2R az) (B2R distance / vnorm pA)) (latlon_vec (B2R (fst r) * (PI / 180)) (B2R (snd r) * (PI / 180))) * 6378137
    <= 57 / 1000000000 + 84 / 10000000000000000 * Rabs (B2R distance).
Proof.
  intros fsin fcos arctan2 lat lon z distance az pA GS GC GA VA Bz FD BD FA BA HA r. pose proof u_pos as Pu. pose proof VA as (Fa & Fo & Ba & Bo & Fz & _).
  pose proof wgs84_f_val as (_ & Vf). pose proof (position_low 6378137 (B2R wgs84_f) (B2R lat) (B2R lon) (B2R z) pA ltac:(lra) ltac:(lra) HA) as LO. pose proof (position_norm 6378137 (B2R wgs84_f) (B2R lat) (B2R lon) (B2R z) pA ltac:(lra) ltac:(lra) HA) as HI.
  set (L := vnorm pA) in *. assert (LO' : 5350000 <= L) by lra. assert (HI' : L <= 7378137) by lra.
  destruct (C89_wgs84 fsin fcos lat lon z GS GC Fa Fo Ba Bo Fz Bz) as (s & SP & E).
  destruct HA as (s' & SP' & EA). assert (s' = s) by (apply (surface_point_unique 6378137 (B2R wgs84_f) (B2R lat) (B2R lon)); auto; lra). subst s'. rewrite <- EA in E.
  assert (FE : finite_vec (fgeo_point_to_ecef fsin fcos lat lon z wgs84_a wgs84_f)).
  { assert (Bz' : Rabs (B2R z) <= bpow radix2 300). { eapply Rle_trans; [exact Bz|]. apply Rle_trans with (bpow radix2 20); [cbn; lra|apply bpow_le; lia]. }
    destruct (C89_from_degrees fsin fcos lat lon z wgs84_a wgs84_f GS GC Fa Fo Ba Bo Fz Bz' wgs84_usual) as (F & _). exact F. }
  unfold r, fdisplace. set (p := fgeo_point_to_ecef fsin fcos lat lon z wgs84_a wgs84_f) in *.
  assert (NB : vnorm (vec_of p) <= bpow radix2 400).
  { rewrite (via pA (vec_of p)). eapply Rle_trans; [apply norm_triangle|]. fold L. pose proof b24. apply Rle_trans with (bpow radix2 24); [lra|apply bpow_le; lia]. }
  destruct (length_err p pA _ FE NB E) as (FL & EL). fold L in EL. set (R' := flength p) in *.
  assert (T399 : bpow radix2 (-399) <= / 1000000000000). { apply Rle_trans with (bpow radix2 (-40)); [apply bpow_le; lia|cbn; lra]. }
  assert (EL' : Rabs (B2R R' - L) <= 36 / 1000000000). { eapply Rle_trans; [exact EL|]. assert (3 * u * (L + 33 / 1000000000) <= 25 / 10000000000) by (rewrite u_val in *; nra). lra. }
  apply Rabs_le_inv in EL'. assert (RP : 5349999 <= B2R R') by lra.
  set (d := B2R distance) in *. assert (BQ : Rabs (d / B2R R') <= 3739 / 1000).
  { unfold Rdiv. rewrite Rabs_mult, (Rabs_right (/ B2R R')) by (apply Rle_ge, Rlt_le, Rinv_0_lt_compat; lra). apply (Rmult_le_reg_r (B2R R')); [lra|]. rewrite Rmult_assoc, Rinv_l by lra. lra. }
  destruct (fdiv_val distance R' FD ltac:(lra)) as (FQ & VQ). { fold d. eapply Rle_trans; [exact BQ|]. apply Rle_trans with (bpow radix2 2); [cbn; lra|apply bpow_le; lia]. }
  fold d in VQ. set (D := fdiv distance R') in *. assert (RE : Rabs (B2R D - d / B2R R') <= u * Rabs (d / B2R R') + eta).
  { rewrite VQ. destruct (rnd_err (d / B2R R')) as (e1 & h & He & Hh & ->). replace (d / B2R R' * (1 + e1) + h - d / B2R R') with (e1 * (d / B2R R') + h) by ring. eapply Rle_trans; [apply Rabs_triang|]. rewrite Rabs_mult. apply Rplus_le_compat; [apply Rmult_le_compat_r; [apply Rabs_pos|exact He]|exact Hh]. }
  assert (ETA : 0 < eta <= / 1000 * u). { split; [apply eta_pos|]. unfold eta, u. apply Rle_trans with (bpow radix2 (-10) * bpow radix2 (-53)); [|apply Rmult_le_compat_r; [apply bpow_ge_0|cbn; lra]]. rewrite <- bpow_plus. apply bpow_le. lia. }
  assert (Su : u <= / 1000000000000000) by apply u_tiny.
  assert (QD : Rabs (d / B2R R' - d / L) <= Rabs d * (127 / 100000000000000000000000)).
  { rewrite quot_diff by lra. rewrite Rabs_mult. apply Rmult_le_compat_l; [apply Rabs_pos|].
    assert (PM : 5349999 * 5350000 <= B2R R' * L) by nra. assert (IM : 0 < / (B2R R' * L)) by (apply Rinv_0_lt_compat; lra). unfold Rdiv at 1. rewrite Rabs_mult, (Rabs_right (/ (B2R R' * L))) by lra.
    apply (Rmult_le_reg_r (B2R R' * L)); [lra|]. rewrite Rmult_assoc, Rinv_l by lra. rewrite Rmult_1_r. apply Rle_trans with (36 / 1000000000); [apply Rabs_le; lra|]. nra. }
  assert (QA : Rabs (d / B2R R') <= Rabs d * (187 / 1000000000)).
  { unfold Rdiv at 1. rewrite Rabs_mult. apply Rmult_le_compat_l; [apply Rabs_pos|]. rewrite Rabs_right by (apply Rle_ge, Rlt_le, Rinv_0_lt_compat; lra). apply (Rmult_le_reg_r (B2R R')); [lra|]. rewrite Rinv_l by lra. lra. }
  assert (DD : Rabs (B2R D - d / L) <= eta + Rabs d * (13 / 10000000000000000000000)).
  { replace (B2R D - d / L) with ((B2R D - d / B2R R') + (d / B2R R' - d / L)) by ring. eapply Rle_trans; [apply Rabs_triang|]. assert (u * Rabs (d / B2R R') <= Rabs d * (3 / 100000000000000000000000)); [|lra]. rewrite u_val. pose proof (Rabs_pos d). lra. }
  assert (B4 : Rabs (B2R D) <= 4). { replace (B2R D) with (d / B2R R' + (B2R D - d / B2R R')) by ring. eapply Rle_trans; [apply Rabs_triang|]. assert (u * Rabs (d / B2R R') <= u * 4) by (apply Rmult_le_compat_l; lra). lra. }
  assert (H4 : Rabs (B2R D - d / L) <= 4000 * u). { eapply Rle_trans; [exact DD|]. rewrite u_val in *. lra. }
  pose proof (displace_core fsin fcos arctan2 lat lon D az (d / L) GS GC GA Fa Fo FA FQ Ba Bo BA B4 H4) as C. cbv zeta in C.
  set (A := angle _ _) in *. assert (A <= 801 / 10 * u + 101 / 100 * (eta + Rabs d * (13 / 10000000000000000000000))) by lra. rewrite u_val in *. pose proof (Rabs_pos d). lra.
Qed.
Print Assumptions C95_displace.

(** ** what the theorems do not exclude: the hypotheses hold in an ordinary case *)
Example C95_example : good_trig (fun x => round64 (sin (B2R x))) sin /\ good_trig (fun x => round64 (cos (B2R x))) cos /\ good_atan2 ideal_atan2 /\
  near_unit (fone, fzero, fzero) /\ bpow radix2 (-300) <= sqrt (Spec.vx (direction (vec_of (fone, fzero, fzero))) ^ 2 + Spec.vy (direction (vec_of (fone, fzero, fzero))) ^ 2) /\
  is_finite fone = true /\ Rabs (B2R fone) <= PI /\ valid fone fone fone /\ Rabs (B2R fone) <= 1000000 /\
  exists pA, position 6378137 (B2R wgs84_f) (B2R fone) (B2R fone) (B2R fone) pA.
Proof.
  split; [apply good_sin|]. split; [apply good_cos|]. split; [apply correct_good, ideal_atan2_correct|]. pose proof u_pos as Pu. pose proof pi_bounds as P. rewrite pi64_val in P.
  assert (N : near_unit (fone, fzero, fzero)).
  { repeat (split; [reflexivity|]). unfold length3. rewrite fone_val. cbn [B2R fzero]. replace (1 * 1 + 0 * 0 + 0 * 0) with 1 by ring. rewrite sqrt_1, Rminus_diag_eq by auto. rewrite Rabs_R0. lra. }
  split; auto. split.
  { assert (E : vec_of (fone, fzero, fzero) = V 1 0 0) by (unfold vec_of; rewrite fone_val; reflexivity). rewrite E. assert (N1 : vnorm (V 1 0 0) = 1) by (apply vnorm_eq; [lra|unfold vdot; cbn [Spec.vx Spec.vy Spec.vz]; ring]).
    unfold direction. rewrite N1. unfold vscale; cbn [Spec.vx Spec.vy Spec.vz]. replace ((/ 1 * 1) ^ 2 + (/ 1 * 0) ^ 2) with 1 by field. rewrite sqrt_1. apply Rle_trans with (bpow radix2 0); [apply bpow_le; lia|cbn; lra]. }
  split; [reflexivity|]. split; [rewrite fone_val, Rabs_R1; lra|]. destruct valid_one as (VA & _). split; auto. split; [rewrite fone_val, Rabs_R1; lra|]. rewrite <- wgs84_a_val. apply (position_exists _ _ _ _ _ _ _ good_sin good_cos VA wgs84_usual).
Qed.
