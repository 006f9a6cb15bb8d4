(** * C92: from degrees to metres north, east and down *)
From Coq Require Import ZArith Reals Lra Lia Bool Psatz.
From Flocq Require Import Core BinarySingleNaN Relative.
From Verif Require Import Spec LVec LAngle FTiny FZero FBase FRel FRel2 FUnit FPi FAngle FDist FGreat FLatLon FInv FEcef FEcef2 FNed FNed2 FNed3 FDelta.
Local Open Scope R_scope.

(** point_a.delta_to(point_b).pvector for two GeoPoints given in degrees (objects.py 89-108, 206-210, 253-284, 771-773) *)
Definition fdelta_to_deg dot fsin fcos (latA lonA zA latB lonB zB a f : float64) : vec64 :=
  fdelta_N dot (flat_lon2n_E fsin fcos (frad latA) (frad lonA)) (flat_lon2n_E fsin fcos (frad latB) (frad lonB)) zA zB a f.
(** a valid position *)
Definition valid (lat lon z : float64) : Prop :=
  is_finite lat = true /\ is_finite lon = true /\ Rabs (B2R lat) <= 90 /\ Rabs (B2R lon) <= 180 /\ is_finite z = true /\ Rabs (B2R z) <= bpow radix2 300.
(** the error of one position (C89) *)
Definition pos_err (a f z : R) : R := 25 * u * a + 17 * u * (a / (1 - f)) + 25 * u * Rabs z.

Lemma combine M p q e1 e2 y : orthogonal (mT M) -> vnorm (vsub q p) <= e1 -> vnorm (vsub y (mulv M q)) <= e2 -> vnorm (vsub y (mulv M p)) <= e1 + e2.
Proof.
  intros O H1 H2. replace (vsub y (mulv M p)) with (vadd (mulv M (vsub q p)) (vsub y (mulv M q))) by (rewrite mulv_sub; generalize (mulv M p) (mulv M q); intros; vring).
  eapply Rle_trans; [apply norm_triangle|]. rewrite orthogonal_norm; [lra|]. apply orthogonal_T in O. replace (mT (mT M)) with M in O by (destruct M as [[? ? ?] [? ? ?] [? ? ?]]; reflexivity). exact O.
Qed.

Lemma via p q : q = vadd p (vsub q p). Proof. vring. Qed.
Lemma sub_neg p q : vsub p q = vadd p (vneg q). Proof. vring. Qed.
Lemma sub_via p q r : vsub q p = vadd (vsub q r) (vsub r p). Proof. vring. Qed.
Lemma sub_sub a b p q : vsub (vsub b a) (vsub q p) = vadd (vsub b q) (vneg (vsub a p)). Proof. vring. Qed.

Theorem C92_from_degrees : forall dot fsin fcos latA lonA zA latB lonB zB a f pA pB,
  good_mdot dot -> good_trig fsin sin -> good_trig fcos cos -> valid latA lonA zA -> valid latB lonB zB -> usual_ellipsoid a f ->
  position (B2R a) (B2R f) (B2R latA) (B2R lonA) (B2R zA) pA -> position (B2R a) (B2R f) (B2R latB) (B2R lonB) (B2R zB) pB ->
  let p := vsub pB pA in let E := pos_err (B2R a) (B2R f) (B2R zA) + pos_err (B2R a) (B2R f) (B2R zB) in
  let p' := fdelta_to_deg dot fsin fcos latA lonA zA latB lonB zB a f in
  finite_vec p' /\ vnorm (vsub (vec_of p') (mulv (ned (B2R latA) (B2R lonA)) p)) <= E * (1 + / 1000000) + 92 * u * vnorm p + 24 * eta.
Proof.
  intros dot fsin fcos latA lonA zA latB lonB zB a f pA pB GD GS GC (FaA & FoA & BaA & BoA & FzA & BzA) (FaB & FoB & BaB & BoB & FzB & BzB) HE (sA & SA & ->) (sB & SB & ->).
  pose proof u_pos as Pu. pose proof u_tiny as Su. pose proof eta_pos as Pe.
  destruct (C89_from_degrees fsin fcos latA lonA zA a f GS GC FaA FoA BaA BoA FzA BzA HE) as (FA & sA' & SA' & EA).
  destruct (C89_from_degrees fsin fcos latB lonB zB a f GS GC FaB FoB BaB BoB FzB BzB HE) as (FB & sB' & SB' & EB).
  pose proof HE as (_ & _ & BA & Bf). pose proof (bpow_gt_0 radix2 (-100)) as P1.
  rewrite (surface_point_unique (B2R a) (B2R f) (B2R latA) (B2R lonA) sA' sA ltac:(lra) ltac:(lra) SA' SA) in EA. rewrite (surface_point_unique (B2R a) (B2R f) (B2R latB) (B2R lonB) sB' sB ltac:(lra) ltac:(lra) SB' SB) in EB. clear SA' SB'.
  set (pA := vsub sA _) in *. set (pB := vsub sB _) in *. cbv zeta. change (25 * u * B2R a + 17 * u * (B2R a / (1 - B2R f)) + 25 * u * Rabs (B2R zA)) with (pos_err (B2R a) (B2R f) (B2R zA)) in EA.
  change (25 * u * B2R a + 17 * u * (B2R a / (1 - B2R f)) + 25 * u * Rabs (B2R zB)) with (pos_err (B2R a) (B2R f) (B2R zB)) in EB.
  (* sizes *)
  assert (IF : / (1 - B2R f) <= 2). { replace 2 with (/ / 2) by field. apply Rinv_le; lra. }
  assert (IA : 0 <= B2R a / (1 - B2R f) <= B2R a * 2). { split; [apply Rmult_le_pos; [lra|apply Rlt_le, Rinv_0_lt_compat; lra]|apply Rmult_le_compat_l; lra]. }
  assert (PE : forall z, Rabs z <= bpow radix2 300 -> 0 <= pos_err (B2R a) (B2R f) z <= bpow radix2 300).
  { intros z Hz. unfold pos_err. pose proof (Rabs_pos z). assert (u * B2R a <= / 1000000000000000 * B2R a) by (apply Rmult_le_compat_r; lra). assert (u * (B2R a / (1 - B2R f)) <= / 1000000000000000 * (B2R a / (1 - B2R f))) by (apply Rmult_le_compat_r; lra).
    assert (u * Rabs z <= / 1000000000000000 * Rabs z) by (apply Rmult_le_compat_r; lra). assert (0 <= u * B2R a) by (apply Rmult_le_pos; lra). assert (0 <= u * (B2R a / (1 - B2R f))) by (apply Rmult_le_pos; lra). assert (0 <= u * Rabs z) by (apply Rmult_le_pos; lra). lra. }
  pose proof (PE _ BzA) as PA. pose proof (PE _ BzB) as PB.
  set (eA := pos_err (B2R a) (B2R f) (B2R zA)) in *. set (eB := pos_err (B2R a) (B2R f) (B2R zB)) in *.
  assert (SZ : forall lat lon z s, surface_point (B2R a) (B2R f) lat lon s -> Rabs z <= bpow radix2 300 -> vnorm (vsub s (vscale z (latlon_vec (lat * (PI / 180)) (lon * (PI / 180))))) <= 2 * bpow radix2 300).
  { intros lat lon z s (O & _) Hz. assert (NS : vnorm s <= B2R a).
    { unfold vnorm. rewrite <- (sqrt_square (B2R a)) by lra. apply sqrt_le_1_alt. unfold on_ellipsoid, equatorial, Spec.polar, vdot, vsub, vscale in O; cbn [Spec.vx Spec.vy Spec.vz] in O. unfold vdot.
      destruct s as [x y w]; cbn [Spec.vx Spec.vy Spec.vz] in *. set (A := B2R a) in *. set (fl := B2R f) in *. assert (PAA : 0 < A) by lra.
      assert (E : w * w * A ^ 2 / (A * (1 - fl)) ^ 2 + (x * x + y * y) = A ^ 2). { transitivity (A ^ 2 * ((0 * x + 0 * y + 1 * w) ^ 2 / (A * (1 - fl)) ^ 2 + ((x - (0 * x + 0 * y + 1 * w) * 0) * (x - (0 * x + 0 * y + 1 * w) * 0) + (y - (0 * x + 0 * y + 1 * w) * 0) * (y - (0 * x + 0 * y + 1 * w) * 0) + (w - (0 * x + 0 * y + 1 * w) * 1) * (w - (0 * x + 0 * y + 1 * w) * 1)) / A ^ 2)); [field; lra|]. rewrite O. ring. }
      assert (I : w * w <= w * w * A ^ 2 / (A * (1 - fl)) ^ 2). { replace (w * w * A ^ 2 / (A * (1 - fl)) ^ 2) with (w * w * (/ ((1 - fl) * (1 - fl)))) by (field; lra). rewrite <- (Rmult_1_r (w * w)) at 1. apply Rmult_le_compat_l; [nra|]. rewrite <- Rinv_1 at 1. apply Rinv_le; nra. }
      lra. }
    replace (vsub s (vscale z (latlon_vec (lat * (PI / 180)) (lon * (PI / 180))))) with (vadd s (vscale (- z) (latlon_vec (lat * (PI / 180)) (lon * (PI / 180))))) by (generalize (latlon_vec (lat * (PI / 180)) (lon * (PI / 180))); intros; vring).
    eapply Rle_trans; [apply norm_triangle|]. rewrite vnorm_scale, latlon_unit, Rabs_Ropp. lra. }
  pose proof (SZ _ _ _ _ SA BzA) as ZA. fold pA in ZA. pose proof (SZ _ _ _ _ SB BzB) as ZB. fold pB in ZB. clear SZ.
  unfold fdelta_to_deg, fdelta_N, fdelta_E. unfold fgeo_point_to_ecef in *. set (nA := flat_lon2n_E fsin fcos (frad latA) (frad lonA)) in *. set (nB := flat_lon2n_E fsin fcos (frad latB) (frad lonB)) in *.
  set (qA := fn_EB_E2p_EB_E nA zA a f) in *. set (qB := fn_EB_E2p_EB_E nB zB a f) in *.
  assert (B4 : 8 * bpow radix2 300 <= bpow radix2 400). { change 8 with (bpow radix2 3). rewrite <- bpow_plus. apply bpow_le; lia. }
  assert (QA : vnorm (vec_of qA) <= 3 * bpow radix2 300). { rewrite (via pA (vec_of qA)). eapply Rle_trans; [apply norm_triangle|]. lra. }
  assert (QB : vnorm (vec_of qB) <= 3 * bpow radix2 300). { rewrite (via pB (vec_of qB)). eapply Rle_trans; [apply norm_triangle|]. lra. }
  destruct (sub_err qB qA FB FA ltac:(lra) ltac:(lra)) as (FS & ES). set (q := fsubv qB qA) in *. set (p := vsub pB pA) in *. set (raw := vsub (vec_of qB) (vec_of qA)) in *.
  assert (RAW : vnorm (vsub raw p) <= eA + eB).
  { unfold raw, p. rewrite sub_sub. eapply Rle_trans; [apply norm_triangle|]. rewrite vnorm_neg. lra. }
  assert (NR : vnorm raw <= vnorm p + (eA + eB)). { rewrite (via p raw). eapply Rle_trans; [apply norm_triangle|]. lra. }
  pose proof (vnorm_pos p) as Pp. pose proof (vnorm_pos raw) as Pr.
  assert (EQ : vnorm (vsub (vec_of q) p) <= u * vnorm raw + (eA + eB)).
  { rewrite (sub_via p (vec_of q) raw). eapply Rle_trans; [apply norm_triangle|]. lra. }
  assert (NQ : vnorm (vec_of q) <= (1 + u) * vnorm raw). { rewrite (via raw (vec_of q)). eapply Rle_trans; [apply norm_triangle|]. lra. }
  assert (NRB : vnorm raw <= 6 * bpow radix2 300). { unfold raw. rewrite sub_neg. eapply Rle_trans; [apply norm_triangle|]. rewrite vnorm_neg. lra. }
  assert (NQB : vnorm (vec_of q) <= bpow radix2 400). { eapply Rle_trans; [exact NQ|]. apply Rle_trans with (8 / 6 * vnorm raw); [apply Rmult_le_compat_r; lra|lra]. }
  pose proof (C91_from_degrees fsin fcos latA lonA GS GC FaA FoA BaA BoA) as H. unfold fR_EN_deg in H. fold nA in H. destruct (fn_E2R_EN nA) as [[N E] D]. cbv zeta in H. destruct H as ((FN & FE & FD) & HN & HE' & HD).
  destruct (dirs_unit (B2R latA * (PI / 180)) (B2R lonA * (PI / 180))) as (U1 & U2 & U3).
  destruct (change_err dot N E D _ _ _ q GD FN FE FD FS U1 U2 U3 HN HE' HD NQB) as (FC & CE). split; [exact FC|].
  pose proof (combine (ned (B2R latA) (B2R lonA)) p (vec_of q) _ _ _ (ned_orthogonal _ _) EQ CE) as T. eapply Rle_trans; [exact T|].
  assert (X1 : u * vnorm (vec_of q) <= u * ((1 + u) * vnorm raw)) by (apply Rmult_le_compat_l; lra).
  assert (X2 : u * vnorm raw <= u * (vnorm p + (eA + eB))) by (apply Rmult_le_compat_l; lra).
  assert (X3 : u * (u * vnorm raw) <= / 1000000000000000 * (u * vnorm raw)) by (apply Rmult_le_compat_r; [apply Rmult_le_pos; lra|lra]).
  assert (X4 : u * (eA + eB) <= / 1000000000000000 * (eA + eB)) by (apply Rmult_le_compat_r; lra).
  assert (0 <= u * vnorm p) by (apply Rmult_le_pos; lra). assert (0 <= u * vnorm raw) by (apply Rmult_le_pos; lra).
  clear - X1 X2 X3 X4 H H0 PA PB Pu. lra.
Qed.
Print Assumptions C92_from_degrees.
