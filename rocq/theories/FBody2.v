(** * C104: the axes of the frames, and vectors between two positions in them *)
From Coq Require Import ZArith Reals Lra Lia Bool Psatz.
From Flocq Require Import Core BinarySingleNaN Relative.
From Verif Require Import Spec LVec LAngle LRot FTiny FZero FBase FRel FRel2 FUnit FPi FAngle FDist FGreat FLatLon FInv FInv2 FEcef FEcef2 FNed FNed2 FNed3 FDelta FDelta2 FDelta3
  FGeodB FGeod FGeod2 FGeod3 FGeod4 FGeod5 FGeod6 FGeod7 FGeod8 FGeod9 FGeod10 FMove FMove2 FEuler FEuler2 FBody.
Local Open Scope R_scope.

(** FrameB(GeoPoint(lat, lon, degrees=True), yaw, pitch, roll, degrees=True).R_EN (objects.py 206-210, 1513-1530), the columns *)
Definition fR_EB_deg dot fsin fcos (lat lon yaw pitch roll : float64) : vec64 * vec64 * vec64 :=
  fR_EB dot fsin fcos (flat_lon2n_E fsin fcos (frad lat) (frad lon)) (frad yaw) (frad pitch) (frad roll).
(** FrameL(GeoPoint(lat, lon, degrees=True), wander_azimuth).R_EN (objects.py 206-210, 1475-1485), the columns; the wander azimuth is in radians *)
Definition fR_EL_deg fsin fcos arctan2 (lat lon wander : float64) : vec64 * vec64 * vec64 :=
  fR_EL fsin fcos arctan2 (flat_lon2n_E fsin fcos (frad lat) (frad lon)) wander.

(** ** the three axes of a body frame are right to 133 units of roundoff (1.5e-14) *)
Theorem C104_body_axes : forall dot fsin fcos lat lon yaw pitch roll, good_mdot dot -> good_trig fsin sin -> good_trig fcos cos ->
  is_finite lat = true -> is_finite lon = true -> Rabs (B2R lat) <= 90 -> Rabs (B2R lon) <= 180 -> degrees_range yaw pitch roll ->
  cols_ok 133 (fR_EB_deg dot fsin fcos lat lon yaw pitch roll) (body_axes (B2R lat) (B2R lon) (deg (B2R yaw)) (deg (B2R pitch)) (deg (B2R roll))).
Proof.
  intros dot fsin fcos lat lon yaw pitch roll GD GS GC Fa Fo Ba Bo DR. destruct (rad_range _ _ _ DR) as (ER & Dy & Dp & Dr). pose proof (range_4 _ _ _ ER) as (By & Bp & Br). destruct ER as (Fy & Fp & Fr & _).
  unfold fR_EB_deg. replace 133 with (115 + 18) by ring. apply body_core; auto; [lra|]. unfold deg. lra.
Qed.
Print Assumptions C104_body_axes.

(** ** the three axes of a wander azimuth frame are right to 55 units of roundoff (6.2e-15) *)
Lemma back_cols lat lon t : mmul (Mt (V 0 0 (-1)) (V 0 1 0) (V 1 0 0)) (mmul (Rx lon) (mmul (Ry (- lat)) (Rz t))) =
  mmul (mT (Mt (north_dir lat lon) (east_dir lon) (down_dir lat lon))) (Rz t).
Proof.
  rewrite <- !mmul_assoc. f_equal. unfold Rx, Ry, north_dir, east_dir, down_dir. rewrite sin_neg, cos_neg. generalize (sin lat) (cos lat) (sin lon) (cos lon); intros; vring.
Qed.
Lemma back_orth : orthogonal (Mt (V 0 0 (-1)) (V 0 1 0) (V 1 0 0)).
Proof. unfold orthogonal. vring. Qed.
Lemma fback_col a C k : finite_vec a -> vnorm C = 1 -> 0 <= k <= 100 -> vnorm (vsub (vec_of a) C) <= k * u ->
  finite_vec (FNed.fback a) /\ vnorm (vsub (vec_of (FNed.fback a)) (mulv (Mt (V 0 0 (-1)) (V 0 1 0) (V 1 0 0)) C)) <= k * u.
Proof.
  destruct a as [[q0 q1] q2]. intros (F0 & F1 & F2) U Hk D. pose proof u_pos as Pu. pose proof u_tiny as Su.
  assert (NC : vnorm (vec_of (q0, q1, q2)) <= 1 + / 1000). { rewrite (via C (vec_of (q0, q1, q2))). eapply Rle_trans; [apply norm_triangle|]. nra. }
  destruct (comp_of (q0, q1, q2)) as (B0 & B1 & B2). assert (B4 : 2 <= bpow radix2 1000) by (change 2 with (bpow radix2 1) at 1; apply bpow_le; lia).
  destruct (back_err q0 q1 q2 F0 F1 F2 ltac:(lra) ltac:(lra) ltac:(lra)) as (x & y & z & EB & Fx & Fy & Fz & Ex & Ey & Ez).
  match type of EB with ?l = _ => match goal with |- context [FNed.fback ?w] => change (FNed.fback w) with l end end. rewrite EB. split; [cbn; auto|].
  replace (vec_of (x, y, z)) with (mulv (Mt (V 0 0 (-1)) (V 0 1 0) (V 1 0 0)) (vec_of (q0, q1, q2))).
  - rewrite <- mulv_sub, orthogonal_norm by apply back_orth. exact D.
  - unfold vec_of, mulv, vdot; cbn [Spec.vx Spec.vy Spec.vz r0 r1 r2]. rewrite Ex, Ey, Ez. apply vec_eq; cbn [Spec.vx Spec.vy Spec.vz]; ring.
Qed.
Lemma sin_turn x k : sin (x + 2 * IZR k * PI) = sin x.
Proof. destruct (Z_le_gt_dec 0 k) as [H|H].
  - rewrite <- (Z2Nat.id k H), <- INR_IZR_INZ. apply sin_period.
  - replace x with ((x + 2 * IZR k * PI) + 2 * INR (Z.to_nat (- k)) * PI) at 2. { symmetry. apply sin_period. }
    rewrite INR_IZR_INZ, Z2Nat.id by lia. rewrite opp_IZR. ring.
Qed.
Lemma cos_turn x k : cos (x + 2 * IZR k * PI) = cos x.
Proof. destruct (Z_le_gt_dec 0 k) as [H|H].
  - rewrite <- (Z2Nat.id k H), <- INR_IZR_INZ. apply cos_period.
  - replace x with ((x + 2 * IZR k * PI) + 2 * INR (Z.to_nat (- k)) * PI) at 2. { symmetry. apply cos_period. }
    rewrite INR_IZR_INZ, Z2Nat.id by lia. rewrite opp_IZR. ring.
Qed.
Lemma Rx_turn x k : Rx (x + 2 * IZR k * PI) = Rx x. Proof. unfold Rx. rewrite sin_turn, cos_turn. reflexivity. Qed.

Theorem C104_wander_axes : forall fsin fcos arctan2 lat lon wander, good_trig fsin sin -> good_trig fcos cos -> good_atan2 arctan2 ->
  is_finite lat = true -> is_finite lon = true -> Rabs (B2R lat) <= 90 -> Rabs (B2R lon) <= 180 -> is_finite wander = true -> Rabs (B2R wander) <= 4 ->
  cols_ok 55 (fR_EL_deg fsin fcos arctan2 lat lon wander) (wander_axes (B2R lat) (B2R lon) (B2R wander)).
Proof.
  intros fsin fcos arctan2 lat lon wander GS GC GA Fa Fo Ba Bo Fw Bw. pose proof u_pos as Pu. pose proof u_tiny as Su. pose proof eta_pos as Pe. pose proof tiny_eta as Te.
  destruct (rad_moves lat 90 Fa Ba ltac:(lra)) as (Fa' & _ & Da). destruct (rad_moves lon 180 Fo Bo ltac:(lra)) as (Fo' & _ & Do).
  destruct (C79_range lat Fa) as (Ra & _). specialize (Ra Ba). destruct (C79_range lon Fo) as (_ & Ro & _). specialize (Ro Bo).
  destruct (round_trip_core fsin fcos arctan2 _ _ GS GC GA Fa' Fo' Ra Ro) as (F1 & D1 & F2 & B2 & k & D2).
  unfold fR_EL_deg, fR_EL. destruct (fn_E2lat_lon arctan2 (flat_lon2n_E fsin fcos (frad lat) (frad lon))) as [la lo]. cbn [fst snd] in *.
  set (A := B2R lat * (PI / 180)) in *. set (O := B2R lon * (PI / 180)) in *.
  assert (VH : B2R half_pi64 = 7074237752028440 / 4503599627370496) by (unfold half_pi64, f, B2R, F2R; cbn; lra).
  pose proof pi_bounds as PB. rewrite pi64_val in PB.
  assert (DA : Rabs (B2R la - A) <= 176 / 10 * u). { replace (B2R la - A) with ((B2R la - B2R (frad lat)) + (B2R (frad lat) - A)) by ring. eapply Rle_trans; [apply Rabs_triang|]. nra. }
  assert (DO : Rabs (B2R lo - (O + 2 * IZR k * PI)) <= 19 * u).
  { replace (B2R lo - (O + 2 * IZR k * PI)) with ((B2R lo - B2R (frad lon) - 2 * IZR k * PI) + (B2R (frad lon) - O)) by ring. eapply Rle_trans; [apply Rabs_triang|]. nra. }
  assert (BA : Rabs (B2R (fneg la)) <= 4). { unfold fneg. rewrite B2R_Bopp, Rabs_Ropp. replace (B2R la) with ((B2R la - B2R (frad lat)) + B2R (frad lat)) by ring. eapply Rle_trans; [apply Rabs_triang|]. lra. }
  assert (FN : is_finite (fneg la) = true) by (unfold fneg; rewrite is_finite_Bopp; auto).
  destruct (C103_matrices fsin fcos lo (fneg la) wander GS GC F2 FN Fw ltac:(lra) BA Bw) as ((FM & WM & _) & _). pose proof (cols_of (fxyz2R fsin fcos lo (fneg la) wander)) as CO.
  destruct (mT64 (fxyz2R fsin fcos lo (fneg la) wander)) as [[a b] c]. destruct CO as (Ea & Eb & Ec & FC). destruct (FC FM) as (Ga & Gb & Gc).
  destruct (cols_within _ _ (10 * u) ltac:(lra) WM) as (W0 & W1 & W2). rewrite <- Ea in W0. rewrite <- Eb in W1. rewrite <- Ec in W2.
  assert (EN : B2R (fneg la) = - B2R la) by (unfold fneg; apply B2R_Bopp). rewrite EN in *.
  pose proof (xyz_moves (B2R wander) (- B2R la) (B2R lo) (B2R wander) (- A) (O + 2 * IZR k * PI)) as MV. rewrite Rx_turn in MV.
  assert (DA' : Rabs (- B2R la - - A) <= 176 / 10 * u). { replace (- B2R la - - A) with (- (B2R la - A)) by ring. rewrite Rabs_Ropp. exact DA. }
  assert (Z : Rabs (B2R wander - B2R wander) = 0) by (rewrite Rminus_diag_eq, Rabs_R0; auto).
  destruct (cols_move _ _ _ MV) as (M0 & M1 & M2). set (Q := mmul (Rx O) (mmul (Ry (- A)) (Rz (B2R wander)))) in *.
  pose proof (chain _ _ _ _ _ W0 M0) as X0. pose proof (chain _ _ _ _ _ W1 M1) as X1. pose proof (chain _ _ _ _ _ W2 M2) as X2.
  assert (OQ : orthogonal Q) by (apply orthogonal_mmul; [apply rots|apply orthogonal_mmul; apply rots]). destruct (cols_unit Q OQ) as (U0 & U1 & U2).
  unfold wander_axes, ned. cbv zeta. fold A O. rewrite <- back_cols. fold Q. unfold cols_ok. rewrite c0_mmul, c1_mmul, c2_mmul.
  destruct (fback_col a (c0 Q) 55 Ga U0 ltac:(lra) ltac:(lra)) as (G0 & R0). destruct (fback_col b (c1 Q) 55 Gb U1 ltac:(lra) ltac:(lra)) as (G1 & R1). destruct (fback_col c (c2 Q) 55 Gc U2 ltac:(lra) ltac:(lra)) as (G2 & R2).
  auto 10.
Qed.
Print Assumptions C104_wander_axes.

Lemma row_err_any dot q Q k p : good_mdot dot -> finite_vec q -> finite_vec p -> vnorm Q = 1 -> 0 <= k <= 1000000 -> vnorm (vsub (vec_of q) Q) <= k * u -> vnorm (vec_of p) <= bpow radix2 400 ->
  is_finite (dot q p) = true /\ Rabs (B2R (dot q p) - vdot Q (vec_of p)) <= (k + 41 / 10) * u * vnorm (vec_of p) + 8 * eta.
Proof.
  intros GD Fq Fp U Hk D B. pose proof u_pos as Pu. pose proof u_tiny as Su. pose proof (norm_perturb Q (vsub (vec_of q) Q)) as NP. rewrite <- vadd_sub_id, U in NP. apply Rabs_le_inv in NP.
  assert (KU : k * u <= / 1000) by nra. assert (NQ : vnorm (vec_of q) <= 1 + / 1000) by lra.
  destruct (GD q p Fq Fp ltac:(lra) B) as (F & E). split; auto. pose proof (magnitude_cs (vec_of q) (vec_of p)) as MC. pose proof (vnorm_pos (vec_of p)) as PP.
  assert (M : magnitude (vec_of q) (vec_of p) <= (1 + / 1000) * vnorm (vec_of p)). { eapply Rle_trans; [exact MC|]. apply Rmult_le_compat_r; lra. }
  replace (B2R (dot q p) - vdot Q (vec_of p)) with ((B2R (dot q p) - vdot (vec_of q) (vec_of p)) + vdot (vsub (vec_of q) Q) (vec_of p)) by (generalize (vec_of q) (vec_of p) (B2R (dot q p)); clear; intros [? ? ?] [? ? ?] ?; destruct Q; unfold vdot, vsub; cbn [Spec.vx Spec.vy Spec.vz]; ring).
  eapply Rle_trans; [apply Rabs_triang|]. pose proof (cauchy_schwarz (vsub (vec_of q) Q) (vec_of p)) as C.
  assert (C2 : vnorm (vsub (vec_of q) Q) * vnorm (vec_of p) <= k * u * vnorm (vec_of p)) by (apply Rmult_le_compat_r; lra).
  assert (M2 : u * magnitude (vec_of q) (vec_of p) <= u * ((1 + / 1000) * vnorm (vec_of p))) by (apply Rmult_le_compat_l; lra).
  assert (0 <= u * vnorm (vec_of p)) by (apply Rmult_le_pos; lra). lra.
Qed.

(** ** the vector between two positions, in the axes of the Earth (the first step of C92) *)
Lemma delta_E_err : forall fsin fcos latA lonA zA latB lonB zB a f pA pB,
  good_trig fsin sin -> good_trig fcos cos -> valid latA lonA zA -> valid latB lonB zB -> usual_ellipsoid a f ->
  position (B2R a) (B2R f) (B2R latA) (B2R lonA) (B2R zA) pA -> position (B2R a) (B2R f) (B2R latB) (B2R lonB) (B2R zB) pB ->
  let p := vsub pB pA in let E := pos_err (B2R a) (B2R f) (B2R zA) + pos_err (B2R a) (B2R f) (B2R zB) in
  let q := fdelta_E (flat_lon2n_E fsin fcos (frad latA) (frad lonA)) (flat_lon2n_E fsin fcos (frad latB) (frad lonB)) zA zB a f in
  finite_vec q /\ vnorm (vec_of q) <= bpow radix2 400 /\ 0 <= E /\ vnorm (vsub (vec_of q) p) <= E * (1 + / 1000000000) + u * vnorm p.
Proof.
  intros fsin fcos latA lonA zA latB lonB zB a f pA pB GS GC (FaA & FoA & BaA & BoA & FzA & BzA) (FaB & FoB & BaB & BoB & FzB & BzB) HE (sA & SA & ->) (sB & SB & ->).
  pose proof u_pos as Pu. pose proof u_tiny as Su. pose proof eta_pos as Pe.
  destruct (C89_from_degrees fsin fcos latA lonA zA a f GS GC FaA FoA BaA BoA FzA BzA HE) as (FA & sA' & SA' & EA).
  destruct (C89_from_degrees fsin fcos latB lonB zB a f GS GC FaB FoB BaB BoB FzB BzB HE) as (FB & sB' & SB' & EB).
  pose proof HE as (_ & _ & BA & Bf). pose proof (bpow_gt_0 radix2 (-100)) as P1.
  rewrite (surface_point_unique (B2R a) (B2R f) (B2R latA) (B2R lonA) sA' sA ltac:(lra) ltac:(lra) SA' SA) in EA. rewrite (surface_point_unique (B2R a) (B2R f) (B2R latB) (B2R lonB) sB' sB ltac:(lra) ltac:(lra) SB' SB) in EB. clear SA' SB'.
  set (pA := vsub sA _) in *. set (pB := vsub sB _) in *. cbv zeta. change (25 * u * B2R a + 17 * u * (B2R a / (1 - B2R f)) + 25 * u * Rabs (B2R zA)) with (pos_err (B2R a) (B2R f) (B2R zA)) in EA.
  change (25 * u * B2R a + 17 * u * (B2R a / (1 - B2R f)) + 25 * u * Rabs (B2R zB)) with (pos_err (B2R a) (B2R f) (B2R zB)) in EB.
  (* sizes *)
  assert (IF : / (1 - B2R f) <= 2). { replace 2 with (/ / 2) by field. apply Rinv_le; lra. }
  assert (IA : 0 <= B2R a / (1 - B2R f) <= B2R a * 2). { split; [apply Rmult_le_pos; [lra|apply Rlt_le, Rinv_0_lt_compat; lra]|apply Rmult_le_compat_l; lra]. }
  assert (PE : forall z, Rabs z <= bpow radix2 300 -> 0 <= pos_err (B2R a) (B2R f) z <= bpow radix2 300).
  { intros z Hz. unfold pos_err. pose proof (Rabs_pos z). assert (u * B2R a <= / 1000000000000000 * B2R a) by (apply Rmult_le_compat_r; lra). assert (u * (B2R a / (1 - B2R f)) <= / 1000000000000000 * (B2R a / (1 - B2R f))) by (apply Rmult_le_compat_r; lra).
    assert (u * Rabs z <= / 1000000000000000 * Rabs z) by (apply Rmult_le_compat_r; lra). assert (0 <= u * B2R a) by (apply Rmult_le_pos; lra). assert (0 <= u * (B2R a / (1 - B2R f))) by (apply Rmult_le_pos; lra). assert (0 <= u * Rabs z) by (apply Rmult_le_pos; lra). lra. }
  pose proof (PE _ BzA) as PA. pose proof (PE _ BzB) as PB.
  set (eA := pos_err (B2R a) (B2R f) (B2R zA)) in *. set (eB := pos_err (B2R a) (B2R f) (B2R zB)) in *.
  assert (SZ : forall lat lon z s, surface_point (B2R a) (B2R f) lat lon s -> Rabs z <= bpow radix2 300 -> vnorm (vsub s (vscale z (latlon_vec (lat * (PI / 180)) (lon * (PI / 180))))) <= 2 * bpow radix2 300).
  { intros lat lon z s (O & _) Hz. assert (NS : vnorm s <= B2R a).
    { unfold vnorm. rewrite <- (sqrt_square (B2R a)) by lra. apply sqrt_le_1_alt. unfold on_ellipsoid, equatorial, Spec.polar, vdot, vsub, vscale in O; cbn [Spec.vx Spec.vy Spec.vz] in O. unfold vdot.
      destruct s as [x y w]; cbn [Spec.vx Spec.vy Spec.vz] in *. set (A := B2R a) in *. set (fl := B2R f) in *. assert (PAA : 0 < A) by lra.
      assert (E : w * w * A ^ 2 / (A * (1 - fl)) ^ 2 + (x * x + y * y) = A ^ 2). { transitivity (A ^ 2 * ((0 * x + 0 * y + 1 * w) ^ 2 / (A * (1 - fl)) ^ 2 + ((x - (0 * x + 0 * y + 1 * w) * 0) * (x - (0 * x + 0 * y + 1 * w) * 0) + (y - (0 * x + 0 * y + 1 * w) * 0) * (y - (0 * x + 0 * y + 1 * w) * 0) + (w - (0 * x + 0 * y + 1 * w) * 1) * (w - (0 * x + 0 * y + 1 * w) * 1)) / A ^ 2)); [field; lra|]. rewrite O. ring. }
      assert (I : w * w <= w * w * A ^ 2 / (A * (1 - fl)) ^ 2). { replace (w * w * A ^ 2 / (A * (1 - fl)) ^ 2) with (w * w * (/ ((1 - fl) * (1 - fl)))) by (field; lra). rewrite <- (Rmult_1_r (w * w)) at 1. apply Rmult_le_compat_l; [nra|]. rewrite <- Rinv_1 at 1. apply Rinv_le; nra. }
      lra. }
    replace (vsub s (vscale z (latlon_vec (lat * (PI / 180)) (lon * (PI / 180))))) with (vadd s (vscale (- z) (latlon_vec (lat * (PI / 180)) (lon * (PI / 180))))) by (generalize (latlon_vec (lat * (PI / 180)) (lon * (PI / 180))); intros; vring).
    eapply Rle_trans; [apply norm_triangle|]. rewrite vnorm_scale, latlon_unit, Rabs_Ropp. lra. }
  pose proof (SZ _ _ _ _ SA BzA) as ZA. fold pA in ZA. pose proof (SZ _ _ _ _ SB BzB) as ZB. fold pB in ZB. clear SZ.
  unfold fdelta_E. unfold fgeo_point_to_ecef in *. set (nA := flat_lon2n_E fsin fcos (frad latA) (frad lonA)) in *. set (nB := flat_lon2n_E fsin fcos (frad latB) (frad lonB)) in *.
  set (qA := fn_EB_E2p_EB_E nA zA a f) in *. set (qB := fn_EB_E2p_EB_E nB zB a f) in *.
  assert (B4 : 8 * bpow radix2 300 <= bpow radix2 400). { change 8 with (bpow radix2 3). rewrite <- bpow_plus. apply bpow_le; lia. }
  assert (QA : vnorm (vec_of qA) <= 3 * bpow radix2 300). { rewrite (via pA (vec_of qA)). eapply Rle_trans; [apply norm_triangle|]. lra. }
  assert (QB : vnorm (vec_of qB) <= 3 * bpow radix2 300). { rewrite (via pB (vec_of qB)). eapply Rle_trans; [apply norm_triangle|]. lra. }
  destruct (sub_err qB qA FB FA ltac:(lra) ltac:(lra)) as (FS & ES). set (q := fsubv qB qA) in *. set (p := vsub pB pA) in *. set (raw := vsub (vec_of qB) (vec_of qA)) in *.
  assert (RAW : vnorm (vsub raw p) <= eA + eB).
  { unfold raw, p. rewrite sub_sub. eapply Rle_trans; [apply norm_triangle|]. rewrite vnorm_neg. lra. }
  assert (NR : vnorm raw <= vnorm p + (eA + eB)). { rewrite (via p raw). eapply Rle_trans; [apply norm_triangle|]. lra. }
  pose proof (vnorm_pos p) as Pp. pose proof (vnorm_pos raw) as Pr.
  assert (EQ : vnorm (vsub (vec_of q) p) <= u * vnorm raw + (eA + eB)).
  { rewrite (sub_via p (vec_of q) raw). eapply Rle_trans; [apply norm_triangle|]. lra. }
  assert (NQ : vnorm (vec_of q) <= (1 + u) * vnorm raw). { rewrite (via raw (vec_of q)). eapply Rle_trans; [apply norm_triangle|]. lra. }
  assert (NRB : vnorm raw <= 6 * bpow radix2 300). { unfold raw. rewrite sub_neg. eapply Rle_trans; [apply norm_triangle|]. rewrite vnorm_neg. lra. }
  assert (NQB : vnorm (vec_of q) <= bpow radix2 400). { eapply Rle_trans; [exact NQ|]. apply Rle_trans with (8 / 6 * vnorm raw); [apply Rmult_le_compat_r; lra|lra]. }
  split; [exact FS|split; [exact NQB|split; [lra|]]]. eapply Rle_trans; [exact EQ|].
  assert (X2 : u * vnorm raw <= u * (vnorm p + (eA + eB))) by (apply Rmult_le_compat_l; lra).
  assert (X4 : u * (eA + eB) <= / 1000000000000000 * (eA + eB)) by (apply Rmult_le_compat_r; lra). lra.
Qed.
(** and turned into the axes of any frame *)
Lemma change_any dot F M p k : good_mdot dot -> finite_vec p -> orthogonal M -> 0 <= k <= 1000000 -> cols_ok k F M -> vnorm (vec_of p) <= bpow radix2 400 ->
  finite_vec (fchange_frame dot F p) /\
  vnorm (vsub (vec_of (fchange_frame dot F p)) (mulv (mT M) (vec_of p))) <= 1733 / 1000 * ((k + 41 / 10) * u * vnorm (vec_of p)) + 14 * eta.
Proof.
  destruct F as [[X Y] Z]. intros GD Fp O Hk ((FX & FY & FZ) & DX & DY & DZ) B. pose proof u_pos as Pu. pose proof u_tiny as Su. pose proof eta_pos as Pe. pose proof (vnorm_pos (vec_of p)) as PP.
  destruct (cols_unit M O) as (U0 & U1 & U2).
  destruct (row_err_any dot X (c0 M) k p) as (G1 & R1); auto. destruct (row_err_any dot Y (c1 M) k p) as (G2 & R2); auto. destruct (row_err_any dot Z (c2 M) k p) as (G3 & R3); auto.
  unfold fchange_frame. split; [cbn; auto|]. set (L := vnorm (vec_of p)) in *. assert (PL : 0 <= (k + 41 / 10) * u * L) by (apply Rmult_le_pos; [apply Rmult_le_pos; lra|lra]).
  replace (1733 / 1000 * ((k + 41 / 10) * u * L) + 14 * eta) with (1733 / 1000 * ((k + 41 / 10) * u * L + 8 * eta) + (14 - 8 * (1733 / 1000)) * eta) by field.
  apply Rle_trans with (1733 / 1000 * ((k + 41 / 10) * u * L + 8 * eta)); [|assert (0 <= (14 - 8 * (1733 / 1000)) * eta) by (apply Rmult_le_pos; lra); lra].
  unfold vsub, vec_of at 1, mulv. cbn [Spec.vx Spec.vy Spec.vz]. apply within_norm; [lra|exact R1|exact R2|exact R3].
Qed.
(** ** the vector between two positions in the axes of a frame whose axes are known to k units of roundoff *)
Lemma delta_any : forall dot fsin fcos latA lonA zA latB lonB zB a f pA pB F M k,
  good_mdot dot -> good_trig fsin sin -> good_trig fcos cos -> valid latA lonA zA -> valid latB lonB zB -> usual_ellipsoid a f ->
  position (B2R a) (B2R f) (B2R latA) (B2R lonA) (B2R zA) pA -> position (B2R a) (B2R f) (B2R latB) (B2R lonB) (B2R zB) pB ->
  orthogonal M -> 0 <= k <= 1000000 -> cols_ok k F M ->
  let p := vsub pB pA in let E := pos_err (B2R a) (B2R f) (B2R zA) + pos_err (B2R a) (B2R f) (B2R zB) in
  let p' := fchange_frame dot F (fdelta_E (flat_lon2n_E fsin fcos (frad latA) (frad lonA)) (flat_lon2n_E fsin fcos (frad latB) (frad lonB)) zA zB a f) in
  finite_vec p' /\ vnorm (vsub (vec_of p') (mulv (mT M) p)) <= E * (1 + / 1000000) + (1733 / 1000 * (k + 41 / 10) + 11 / 10) * u * vnorm p + 14 * eta.
Proof.
  intros dot fsin fcos latA lonA zA latB lonB zB a f pA pB F M k GD GS GC VA VB HE HA HB O Hk CK p E p'.
  destruct (delta_E_err fsin fcos latA lonA zA latB lonB zB a f pA pB GS GC VA VB HE HA HB) as (FQ & BQ & PE & DQ). fold p in DQ. fold E in PE, DQ.
  unfold p'. set (q := fdelta_E _ _ _ _ _ _) in *. destruct (change_any dot F M q k GD FQ O Hk CK BQ) as (FC & CE). split; [exact FC|].
  pose proof u_pos as Pu. pose proof u_tiny as Su. pose proof eta_pos as Pe. pose proof (vnorm_pos p) as Pp.
  assert (OM : orthogonal (mT (mT M))) by (rewrite mT_mT; exact O). pose proof (combine (mT M) p (vec_of q) _ _ _ OM DQ CE) as T. eapply Rle_trans; [exact T|].
  assert (NQ : vnorm (vec_of q) <= vnorm p + (E * (1 + / 1000000000) + u * vnorm p)). { rewrite (via p (vec_of q)). eapply Rle_trans; [apply norm_triangle|]. lra. }
  set (K := 1733 / 1000 * (k + 41 / 10)). assert (HK : 0 <= K <= 2000000) by (unfold K; lra). assert (UK : 0 <= u * K <= / 100000000) by nra.
  replace (1733 / 1000 * ((k + 41 / 10) * u * vnorm (vec_of q))) with (u * K * vnorm (vec_of q)) by (unfold K; field).
  assert (X1 : u * K * vnorm (vec_of q) <= u * K * (vnorm p + (E * (1 + / 1000000000) + u * vnorm p))) by (apply Rmult_le_compat_l; lra).
  assert (X2 : u * K * (E * (1 + / 1000000000)) <= / 100000000 * (E * (1 + / 1000000000))) by (apply Rmult_le_compat_r; lra).
  assert (X3 : u * K * (u * vnorm p) <= / 100000000 * (u * vnorm p)) by (apply Rmult_le_compat_r; [apply Rmult_le_pos; lra|lra]). assert (0 <= u * vnorm p) by (apply Rmult_le_pos; lra).
  replace ((K + 11 / 10) * u * vnorm p) with (u * K * vnorm p + 11 / 10 * (u * vnorm p)) by field. lra.
Qed.
