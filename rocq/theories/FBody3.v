(** * C104: vectors between two positions in body and wander frames, and back to positions *)
From Coq Require Import ZArith Reals Lra Lia Bool Psatz.
From Flocq Require Import Core BinarySingleNaN Relative.
From Verif Require Import Spec LVec LAngle LRot FTiny FZero FBase FRel FRel2 FUnit FPi FAngle FDist FGreat FLatLon FInv FInv2 FEcef FEcef2 FNed FNed2 FNed3 FDelta FDelta2 FDelta3
  FGeodB FGeod FGeod2 FGeod3 FGeod4 FGeod5 FGeod6 FGeod7 FGeod8 FGeod9 FGeod10 FMove FMove2 FMove3 FEuler FEuler2 FBody FBody2.
Local Open Scope R_scope.

Lemma to_ecef_cols dot N E D n e d p k : good_mdot dot -> finite_vec N -> finite_vec E -> finite_vec D -> finite_vec p -> orthogonal (Mt n e d) -> 0 <= k <= 1000 ->
  vnorm (vsub (vec_of N) n) <= k * u -> vnorm (vsub (vec_of E) e) <= k * u -> vnorm (vsub (vec_of D) d) <= k * u -> vnorm (vec_of p) <= bpow radix2 400 ->
  finite_vec (fto_ecef dot (N, E, D) p) /\
  vnorm (vsub (vec_of (fto_ecef dot (N, E, D) p)) (mulv (mT (Mt n e d)) (vec_of p))) <= (1733 / 1000 * k + 1203 / 100) * u * vnorm (vec_of p) + 24 * eta.
Proof.
  destruct N as [[n0 n1] n2]. destruct E as [[e0 e1] e2]. destruct D as [[d0 d1] d2]. intros GD (Fn0 & Fn1 & Fn2) (Fe0 & Fe1 & Fe2) (Fd0 & Fd1 & Fd2) Fp O Hk DN DE DD B. assert (KU : k * u <= / 100000) by (pose proof u_tiny; pose proof u_pos; nra).
  pose proof u_pos as Pu. pose proof u_tiny as Su. pose proof eta_pos as Pe. set (L := vnorm (vec_of p)) in *. assert (PP : 0 <= L) by apply vnorm_pos.
  destruct (comp_diff n0 n1 n2 n) as (N0 & N1 & N2). destruct (comp_diff e0 e1 e2 e) as (E0 & E1 & E2). destruct (comp_diff d0 d1 d2 d) as (D0 & D1 & D2).
  (* rows are units *)
  assert (RU : vnorm (V (Spec.vx n) (Spec.vx e) (Spec.vx d)) = 1 /\ vnorm (V (Spec.vy n) (Spec.vy e) (Spec.vy d)) = 1 /\ vnorm (V (Spec.vz n) (Spec.vz e) (Spec.vz d)) = 1).
  { pose proof O as OT'. unfold orthogonal, mmul, mT, mI in OT'; cbn [r0 r1 r2] in OT'. injection OT' as a00 _ _ _ a11 _ _ _ a22.
    split; [|split]; apply vnorm_eq; try lra; unfold vdot in *; cbn [Spec.vx Spec.vy Spec.vz] in *; lra. }
  destruct RU as (U0 & U1 & U2).
  assert (K : forall x y z X Y Z, is_finite x = true -> is_finite y = true -> is_finite z = true -> vnorm (V X Y Z) = 1 -> Rabs (B2R x - X) <= k * u -> Rabs (B2R y - Y) <= k * u -> Rabs (B2R z - Z) <= k * u ->
    is_finite (dot (x, y, z) p) = true /\ Rabs (B2R (dot (x, y, z) p) - vdot (vec_of (x, y, z)) (vec_of p)) <= 401 / 100 * u * L + 8 * eta).
  { intros x y z X Y Z Fx Fy Fz U Hx Hy Hz. assert (NR : vnorm (vec_of (x, y, z)) <= 1 + / 1000).
    { rewrite (via (V X Y Z) (vec_of (x, y, z))). eapply Rle_trans; [apply norm_triangle|]. rewrite U. pose proof (norm_sum3 (vsub (vec_of (x, y, z)) (V X Y Z))) as S. unfold vsub, vec_of in S; cbn [Spec.vx Spec.vy Spec.vz] in S. unfold vsub, vec_of; cbn [Spec.vx Spec.vy Spec.vz]. lra. }
    destruct (GD (x, y, z) p ltac:(cbn; auto) Fp ltac:(lra) B) as (F & E). split; auto. pose proof (magnitude_cs (vec_of (x, y, z)) (vec_of p)) as MC. fold L in MC.
    assert (M : magnitude (vec_of (x, y, z)) (vec_of p) <= (1 + / 1000) * L). { eapply Rle_trans; [exact MC|]. apply Rmult_le_compat_r; lra. }
    assert (M2 : u * magnitude (vec_of (x, y, z)) (vec_of p) <= u * ((1 + / 1000) * L)) by (apply Rmult_le_compat_l; lra). assert (0 <= u * L) by (apply Rmult_le_pos; lra). lra. }
  destruct (K n0 e0 d0 _ _ _ Fn0 Fe0 Fd0 U0 ltac:(lra) ltac:(lra) ltac:(lra)) as (G0 & H0). destruct (K n1 e1 d1 _ _ _ Fn1 Fe1 Fd1 U1 ltac:(lra) ltac:(lra) ltac:(lra)) as (G1 & H1). destruct (K n2 e2 d2 _ _ _ Fn2 Fe2 Fd2 U2 ltac:(lra) ltac:(lra) ltac:(lra)) as (G2 & H2).
  unfold fto_ecef. split; [cbn; auto|]. set (y := vec_of (dot (n0, e0, d0) p, dot (n1, e1, d1) p, dot (n2, e2, d2) p)).
  set (mid := vadd (vadd (vscale (Spec.vx (vec_of p)) (vec_of (n0, n1, n2))) (vscale (Spec.vy (vec_of p)) (vec_of (e0, e1, e2)))) (vscale (Spec.vz (vec_of p)) (vec_of (d0, d1, d2)))).
  assert (R1 : vnorm (vsub y mid) <= 1203 / 100 * u * L + 24 * eta).
  { pose proof (norm_sum3 (vsub y mid)) as S. eapply Rle_trans; [exact S|].
    replace (Spec.vx (vsub y mid)) with (B2R (dot (n0, e0, d0) p) - vdot (vec_of (n0, e0, d0)) (vec_of p)) by (unfold y, mid, vsub, vadd, vscale, vdot, vec_of; destruct p as [[p0 p1] p2]; cbn [Spec.vx Spec.vy Spec.vz]; ring).
    replace (Spec.vy (vsub y mid)) with (B2R (dot (n1, e1, d1) p) - vdot (vec_of (n1, e1, d1)) (vec_of p)) by (unfold y, mid, vsub, vadd, vscale, vdot, vec_of; destruct p as [[p0 p1] p2]; cbn [Spec.vx Spec.vy Spec.vz]; ring).
    replace (Spec.vz (vsub y mid)) with (B2R (dot (n2, e2, d2) p) - vdot (vec_of (n2, e2, d2)) (vec_of p)) by (unfold y, mid, vsub, vadd, vscale, vdot, vec_of; destruct p as [[p0 p1] p2]; cbn [Spec.vx Spec.vy Spec.vz]; ring).
    eapply Rle_trans; [apply Rplus_le_compat; [apply Rplus_le_compat; [exact H0|exact H1]|exact H2]|]. right. field. }
  assert (R2 : vnorm (vsub mid (mulv (mT (Mt n e d)) (vec_of p))) <= 1733 / 1000 * k * u * L).
  { replace (vsub mid (mulv (mT (Mt n e d)) (vec_of p))) with
      (vadd (vadd (vscale (Spec.vx (vec_of p)) (vsub (vec_of (n0, n1, n2)) n)) (vscale (Spec.vy (vec_of p)) (vsub (vec_of (e0, e1, e2)) e))) (vscale (Spec.vz (vec_of p)) (vsub (vec_of (d0, d1, d2)) d)))
      by (unfold mid; generalize (vec_of p) (vec_of (n0, n1, n2)) (vec_of (e0, e1, e2)) (vec_of (d0, d1, d2)); intros [? ? ?] [? ? ?] [? ? ?] [? ? ?]; destruct n, e, d; unfold mulv, mT, vsub, vadd, vscale, vdot; cbn [Spec.vx Spec.vy Spec.vz r0 r1 r2]; apply vec_eq; cbn [Spec.vx Spec.vy Spec.vz]; ring).
    eapply Rle_trans; [apply norm_triangle|]. pose proof (norm_triangle (vscale (Spec.vx (vec_of p)) (vsub (vec_of (n0, n1, n2)) n)) (vscale (Spec.vy (vec_of p)) (vsub (vec_of (e0, e1, e2)) e))) as T. rewrite !vnorm_scale in *.
    set (X := Rabs (Spec.vx (vec_of p))) in *. set (Y := Rabs (Spec.vy (vec_of p))) in *. set (Z := Rabs (Spec.vz (vec_of p))) in *.
    assert (X * vnorm (vsub (vec_of (n0, n1, n2)) n) <= X * (k * u)) by (apply Rmult_le_compat_l; [apply Rabs_pos|auto]). assert (Y * vnorm (vsub (vec_of (e0, e1, e2)) e) <= Y * (k * u)) by (apply Rmult_le_compat_l; [apply Rabs_pos|auto]).
    assert (Z * vnorm (vsub (vec_of (d0, d1, d2)) d) <= Z * (k * u)) by (apply Rmult_le_compat_l; [apply Rabs_pos|auto]).
    assert (CS : 1 * X + 1 * Y + 1 * Z <= 1733 / 1000 * L).
    { assert (NX : vnorm (V X Y Z) = L) by apply abs_vec_norm. pose proof (cauchy_schwarz (V 1 1 1) (V X Y Z)) as C. rewrite NX in C. apply Rabs_le_inv in C. unfold vdot in C; cbn [Spec.vx Spec.vy Spec.vz] in C.
      assert (NV : vnorm (V 1 1 1) <= 1733 / 1000) by (pose proof (within_norm 1 1 1 1 ltac:(lra)) as W; rewrite Rabs_R1 in W; lra).
      assert (vnorm (V 1 1 1) * L <= 1733 / 1000 * L) by (apply Rmult_le_compat_r; lra). lra. }
    assert (k * u * (1 * X + 1 * Y + 1 * Z) <= k * u * (1733 / 1000 * L)) by (apply Rmult_le_compat_l; [apply Rmult_le_pos; lra|lra]). lra. }
  rewrite (sub_via _ y mid). eapply Rle_trans; [apply norm_triangle|]. assert (0 <= u * L) by (apply Rmult_le_pos; lra). lra.
Qed.

Lemma to_ecef_any dot F M p k : good_mdot dot -> finite_vec p -> orthogonal M -> 0 <= k <= 1000 -> cols_ok k F M -> vnorm (vec_of p) <= bpow radix2 400 ->
  finite_vec (fto_ecef dot F p) /\ vnorm (vsub (vec_of (fto_ecef dot F p)) (mulv M (vec_of p))) <= (1733 / 1000 * k + 1203 / 100) * u * vnorm (vec_of p) + 24 * eta.
Proof.
  destruct F as [[X Y] Z]. intros GD Fp O Hk ((FX & FY & FZ) & DX & DY & DZ) B. assert (OT : orthogonal (Mt (c0 M) (c1 M) (c2 M))) by exact (orthogonal_T _ O).
  pose proof (to_ecef_cols dot X Y Z _ _ _ p k GD FX FY FZ Fp OT Hk DX DY DZ B) as H. change (Mt (c0 M) (c1 M) (c2 M)) with (mT M) in H. rewrite mT_mT in H. exact H.
Qed.

(** delta_E(A, B).change_frame(FrameB(C, yaw, pitch, roll, degrees=True)).pvector (objects.py 40-64, 752-773, 1513-1530); C is usually A *)
Definition fdelta_B_deg dot fsin fcos (latC lonC yaw pitch roll latA lonA zA latB lonB zB a f : float64) : vec64 :=
  fchange_frame dot (fR_EB_deg dot fsin fcos latC lonC yaw pitch roll)
    (fdelta_E (flat_lon2n_E fsin fcos (frad latA) (frad lonA)) (flat_lon2n_E fsin fcos (frad latB) (frad lonB)) zA zB a f).
(** delta_L(A, B, wander_azimuth).pvector (objects.py 110-128) *)
Definition fdelta_L_deg dot fsin fcos arctan2 (wander latA lonA zA latB lonB zB a f : float64) : vec64 :=
  fchange_frame dot (fR_EL_deg fsin fcos arctan2 latA lonA wander)
    (fdelta_E (flat_lon2n_E fsin fcos (frad latA) (frad lonA)) (flat_lon2n_E fsin fcos (frad latB) (frad lonB)) zA zB a f).
Definition valid_at (lat lon : float64) : Prop := is_finite lat = true /\ is_finite lon = true /\ Rabs (B2R lat) <= 90 /\ Rabs (B2R lon) <= 180.

Lemma body_orth lat lon y p r : orthogonal (body_axes lat lon y p r).
Proof. apply orthogonal_mmul; [apply ned_orthogonal|apply orthogonal_mmul; [apply rots|apply orthogonal_mmul; apply rots]]. Qed.
Lemma wander_orth lat lon w : orthogonal (wander_axes lat lon w).
Proof. apply orthogonal_mmul; [apply ned_orthogonal|apply rots]. Qed.

(** ** the vector between two positions as seen from a vehicle: any usual ellipsoid *)
Theorem C104_delta_body : forall dot fsin fcos latC lonC yaw pitch roll latA lonA zA latB lonB zB a f pA pB,
  good_mdot dot -> good_trig fsin sin -> good_trig fcos cos -> valid_at latC lonC -> degrees_range yaw pitch roll -> valid latA lonA zA -> valid latB lonB zB -> usual_ellipsoid a f ->
  position (B2R a) (B2R f) (B2R latA) (B2R lonA) (B2R zA) pA -> position (B2R a) (B2R f) (B2R latB) (B2R lonB) (B2R zB) pB ->
  let p := vsub pB pA in let E := pos_err (B2R a) (B2R f) (B2R zA) + pos_err (B2R a) (B2R f) (B2R zB) in
  let p' := fdelta_B_deg dot fsin fcos latC lonC yaw pitch roll latA lonA zA latB lonB zB a f in
  finite_vec p' /\
  vnorm (vsub (vec_of p') (mulv (mT (body_axes (B2R latC) (B2R lonC) (deg (B2R yaw)) (deg (B2R pitch)) (deg (B2R roll)))) p)) <= E * (1 + / 1000000) + 239 * u * vnorm p + 14 * eta.
Proof.
  intros dot fsin fcos latC lonC yaw pitch roll latA lonA zA latB lonB zB a f pA pB GD GS GC (Fa & Fo & Ba & Bo) DR VA VB HE HA HB p E p'.
  pose proof (C104_body_axes dot fsin fcos latC lonC yaw pitch roll GD GS GC Fa Fo Ba Bo DR) as CK.
  destruct (delta_any dot fsin fcos latA lonA zA latB lonB zB a f pA pB _ _ 133 GD GS GC VA VB HE HA HB (body_orth _ _ _ _ _) ltac:(lra) CK) as (FP & EP). split; [exact FP|]. fold p E in EP. eapply Rle_trans; [exact EP|].
  pose proof u_pos as Pu. pose proof (vnorm_pos p) as Pp. assert (0 <= u * vnorm p) by (apply Rmult_le_pos; lra). lra.
Qed.
Print Assumptions C104_delta_body.

(** delta_L *)
Theorem C104_delta_wander : forall dot fsin fcos arctan2 wander latA lonA zA latB lonB zB a f pA pB,
  good_mdot dot -> good_trig fsin sin -> good_trig fcos cos -> good_atan2 arctan2 -> is_finite wander = true -> Rabs (B2R wander) <= 4 -> valid latA lonA zA -> valid latB lonB zB -> usual_ellipsoid a f ->
  position (B2R a) (B2R f) (B2R latA) (B2R lonA) (B2R zA) pA -> position (B2R a) (B2R f) (B2R latB) (B2R lonB) (B2R zB) pB ->
  let p := vsub pB pA in let E := pos_err (B2R a) (B2R f) (B2R zA) + pos_err (B2R a) (B2R f) (B2R zB) in
  let p' := fdelta_L_deg dot fsin fcos arctan2 wander latA lonA zA latB lonB zB a f in
  finite_vec p' /\ vnorm (vsub (vec_of p') (mulv (mT (wander_axes (B2R latA) (B2R lonA) (B2R wander))) p)) <= E * (1 + / 1000000) + 104 * u * vnorm p + 14 * eta.
Proof.
  intros dot fsin fcos arctan2 wander latA lonA zA latB lonB zB a f pA pB GD GS GC GA Fw Bw VA VB HE HA HB p E p'. pose proof VA as (Fa & Fo & Ba & Bo & _).
  pose proof (C104_wander_axes fsin fcos arctan2 latA lonA wander GS GC GA Fa Fo Ba Bo Fw Bw) as CK.
  destruct (delta_any dot fsin fcos latA lonA zA latB lonB zB a f pA pB _ _ 55 GD GS GC VA VB HE HA HB (wander_orth _ _ _) ltac:(lra) CK) as (FP & EP). split; [exact FP|]. fold p E in EP. eapply Rle_trans; [exact EP|].
  pose proof u_pos as Pu. pose proof (vnorm_pos p) as Pp. assert (0 <= u * vnorm p) by (apply Rmult_le_pos; lra). lra.
Qed.
Print Assumptions C104_delta_wander.

(** ** on WGS-84 within a thousand kilometres of the surface: less than half a micrometre, a quarter for delta_L *)
Theorem C104_wgs84 : forall dot fsin fcos arctan2 latC lonC yaw pitch roll wander latA lonA zA latB lonB zB pA pB,
  good_mdot dot -> good_trig fsin sin -> good_trig fcos cos -> good_atan2 arctan2 -> valid_at latC lonC -> degrees_range yaw pitch roll -> is_finite wander = true -> Rabs (B2R wander) <= 4 ->
  valid latA lonA zA -> valid latB lonB zB -> Rabs (B2R zA) <= 1000000 -> Rabs (B2R zB) <= 1000000 ->
  position 6378137 (B2R wgs84_f) (B2R latA) (B2R lonA) (B2R zA) pA -> position 6378137 (B2R wgs84_f) (B2R latB) (B2R lonB) (B2R zB) pB ->
  let p := vsub pB pA in
  vnorm (vsub (vec_of (fdelta_B_deg dot fsin fcos latC lonC yaw pitch roll latA lonA zA latB lonB zB wgs84_a wgs84_f))
    (mulv (mT (body_axes (B2R latC) (B2R lonC) (deg (B2R yaw)) (deg (B2R pitch)) (deg (B2R roll)))) p)) <= 66 / 1000000000 + 27 / 1000000000000000 * vnorm p /\
  vnorm (vsub (vec_of (fdelta_B_deg dot fsin fcos latC lonC yaw pitch roll latA lonA zA latB lonB zB wgs84_a wgs84_f))
    (mulv (mT (body_axes (B2R latC) (B2R lonC) (deg (B2R yaw)) (deg (B2R pitch)) (deg (B2R roll)))) p)) <= 47 / 100000000 /\
  vnorm (vsub (vec_of (fdelta_L_deg dot fsin fcos arctan2 wander latA lonA zA latB lonB zB wgs84_a wgs84_f))
    (mulv (mT (wander_axes (B2R latA) (B2R lonA) (B2R wander))) p)) <= 66 / 1000000000 + 12 / 1000000000000000 * vnorm p /\
  vnorm (vsub (vec_of (fdelta_L_deg dot fsin fcos arctan2 wander latA lonA zA latB lonB zB wgs84_a wgs84_f))
    (mulv (mT (wander_axes (B2R latA) (B2R lonA) (B2R wander))) p)) <= 25 / 100000000.
Proof.
  intros dot fsin fcos arctan2 latC lonC yaw pitch roll wander latA lonA zA latB lonB zB pA pB GD GS GC GA VC DR Fw Bw VA VB BA BB HA HB p.
  pose proof wgs84_f_val as (_ & Vf). assert (PA : vnorm pA <= 7378137) by (pose proof (position_norm 6378137 (B2R wgs84_f) (B2R latA) (B2R lonA) (B2R zA) pA ltac:(lra) ltac:(lra) HA); lra).
  assert (PB : vnorm pB <= 7378137) by (pose proof (position_norm 6378137 (B2R wgs84_f) (B2R latB) (B2R lonB) (B2R zB) pB ltac:(lra) ltac:(lra) HB); lra).
  assert (NP : vnorm p <= 14756274). { unfold p. rewrite sub_neg. eapply Rle_trans; [apply norm_triangle|]. rewrite vnorm_neg. lra. }
  rewrite <- wgs84_a_val in HA, HB.
  pose proof (C104_delta_body dot fsin fcos latC lonC yaw pitch roll latA lonA zA latB lonB zB wgs84_a wgs84_f pA pB GD GS GC VC DR VA VB wgs84_usual HA HB) as C1. cbv zeta in C1. fold p in C1. destruct C1 as (_ & C1).
  pose proof (C104_delta_wander dot fsin fcos arctan2 wander latA lonA zA latB lonB zB wgs84_a wgs84_f pA pB GD GS GC GA Fw Bw VA VB wgs84_usual HA HB) as C2. cbv zeta in C2. fold p in C2. destruct C2 as (_ & C2).
  pose proof (vnorm_pos p) as PP. unfold pos_err in C1, C2. rewrite wgs84_a_val, Vf in C1, C2. pose proof tiny_eta as Te. pose proof eta_pos as Pe. assert (ET : eta <= u * / 1000000) by (pose proof u_pos; lra).
  set (e1 := vnorm (vsub _ _)) in C1 |- *. set (e2 := vnorm (vsub _ _)) in C2 |- *. rewrite u_val in *.
  clear - C1 C2 NP PP BA BB ET Pe. repeat split; lra.
Qed.
Print Assumptions C104_wgs84.
