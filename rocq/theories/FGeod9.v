(** * C90: points that are not exactly representable, and the round trip through ECEF coordinates *)
From Coq Require Import ZArith Reals Lra Lia Bool Psatz.
From Flocq Require Import Core BinarySingleNaN Relative.
From Verif Require LObj2.
From Verif Require Import Spec SpecArr SpecObj LVec LAngle LEcef PEcef LVerm FTiny FBase FRel FRel2 FUnit FPi FAngle FDist FGreat FClose FLatLon FInv FEcef FEcef2 FGeodB FGeod FGeod2 FGeod3 FGeod4 FGeod5 FGeod6 FGeod7 FGeod8.
Local Open Scope R_scope.

(** ** every point outside the core of the Earth has geodetic coordinates *)
Lemma geod_exists a f q : 0 < a -> 0 <= f < 1 -> outside a f q -> exists w d, geod a f q w d.
Proof.
  intros Pa Rf O. pose proof (ecc2_range f Rf) as Re. unfold outside in O. set (e := ecc2 f) in *. assert (A2 : 0 < a * a) by nra. assert (IA : 0 < / (a * a)) by (apply Rinv_0_lt_compat; auto).
  set (P := rho2 q / (a * a)). set (Q := (1 - e) * (Spec.vx q * Spec.vx q) / (a * a)). pose proof (rho2_pos q) as PR. pose proof (Rle_0_sqr (Spec.vx q)) as PX. unfold Rsqr in PX.
  assert (PP : 0 <= P) by (apply Rmult_le_pos; lra). assert (PQ : 0 <= Q) by (apply Rmult_le_pos; [apply Rmult_le_pos; lra|lra]).
  assert (Hg : e * e < P + Q). { apply (Rmult_lt_reg_r (a * a)); auto. unfold P, Q. replace ((rho2 q / (a * a) + (1 - e) * (Spec.vx q * Spec.vx q) / (a * a)) * (a * a)) with (rho2 q + (1 - e) * (Spec.vx q * Spec.vx q)) by (field; lra). lra. }
  destruct (real_cube_root (vxx e P Q)) as (t & Pt & Et); [apply vxx_ge1; auto; lra|].
  pose proof (vk_pos e P Q PQ Hg t Pt) as Pk. pose proof (vk_quartic e P Q ltac:(lra) PP PQ Hg t Pt Et) as Qk. set (k := vk e P Q t) in *.
  set (kk := k / (k + e)). assert (Pkk : 0 < kk) by (apply Rdiv_lt_0_compat; lra). set (T2 := kk * kk * rho2 q + Spec.vx q * Spec.vx q).
  assert (PT : 0 < T2).
  { unfold T2. assert (0 <= kk * kk * rho2 q) by (apply Rmult_le_pos; nra). destruct (Rle_lt_or_eq_dec _ _ PX) as [L|Z]; [lra|]. rewrite <- Z in O |- *. assert (0 < rho2 q) by nra. assert (0 < kk * kk * rho2 q) by (apply Rmult_lt_0_compat; nra). lra. }
  exists (V (Spec.vx q / sqrt T2) (kk * Spec.vy q / sqrt T2) (kk * Spec.vz q / sqrt T2)), (- ((k + e - 1) / k * sqrt T2)). exists k, (sqrt T2).
  split; auto. split; [apply sqrt_lt_R0; auto|]. split; [exact Qk|]. split; [rewrite sqrt_sqrt by lra; reflexivity|]. split; reflexivity.
Qed.
Lemma geod_depth a f q w d : 0 < a -> 0 <= f < 1 -> geod a f q w d -> d < cc a f w.
Proof.
  intros Pa Rf H. pose proof (geod_unit _ _ _ _ _ H) as U. pose proof (geod_sound _ _ _ _ _ Pa Rf H) as S. assert (N : vnorm w = 1) by (apply vnorm_unit; auto).
  assert (Hw : w <> v0) by (apply vnorm_inv; auto). pose proof (cc_pos a f w Pa ltac:(lra) Hw) as Cp.
  destruct H as (k & T & Pk & PT & Ek & ET & Ew & Ed). pose proof (ecc2_range f Rf) as Re. pose proof (ecc2_1f f) as E1. set (e := ecc2 f) in *. set (c := cc a f w) in *.
  assert (IK : 0 < (k + e) / k) by (apply Rdiv_lt_0_compat; lra). assert (IK1 : (k + e) / k = 1 + e / k) by (field; lra).
  assert (X0 : (c - d - T) * Spec.vx w = 0). { pose proof (f_equal Spec.vx S) as S0. unfold pint, psurf in S0. fold c in S0. unfold vsub, vscale in S0. cbn [Spec.vx] in S0. assert (Q : Spec.vx q = T * Spec.vx w) by (rewrite Ew; cbn [Spec.vx]; field; lra). lra. }
  assert (Q1 : Spec.vy q = T * ((k + e) / k) * Spec.vy w) by (rewrite Ew; cbn [Spec.vy]; field; lra). assert (Q2 : Spec.vz q = T * ((k + e) / k) * Spec.vz w) by (rewrite Ew; cbn [Spec.vz]; field; lra).
  assert (X1 : (c / (1 - e) - d - T * ((k + e) / k)) * Spec.vy w = 0). { pose proof (f_equal Spec.vy S) as S1. unfold pint, psurf in S1. fold c in S1. rewrite <- E1 in S1. unfold vsub, vscale in S1. cbn [Spec.vy] in S1. lra. }
  assert (X2 : (c / (1 - e) - d - T * ((k + e) / k)) * Spec.vz w = 0). { pose proof (f_equal Spec.vz S) as S1. unfold pint, psurf in S1. fold c in S1. rewrite <- E1 in S1. unfold vsub, vscale in S1. cbn [Spec.vz] in S1. lra. }
  assert (Z : c - d - T = 0 \/ c / (1 - e) - d - T * ((k + e) / k) = 0).
  { destruct (Req_dec (Spec.vx w) 0) as [Z0|Z0]; [|left; apply (Rmult_eq_reg_r (Spec.vx w)); lra]. right.
    destruct (Req_dec (Spec.vy w) 0) as [Z1|Z1]; [|apply (Rmult_eq_reg_r (Spec.vy w)); lra]. destruct (Req_dec (Spec.vz w) 0) as [Z2|Z2]; [|apply (Rmult_eq_reg_r (Spec.vz w)); lra].
    exfalso. unfold vdot in U. rewrite Z0, Z1, Z2 in U. lra. }
  assert (IC : c / (1 - e) = c + e * (c / (1 - e))) by (field; lra).
  destruct Z as [Z|Z]; [lra|].
  assert (D : d = (1 - e) * T / k - T) by (rewrite Ed; field; lra). assert (CE : c / (1 - e) = T / k). { rewrite D in Z. transitivity ((1 - e) * T / k - T + T * ((k + e) / k)); [lra|field; lra]. }
  assert (c = (1 - e) * T / k). { transitivity (c / (1 - e) * (1 - e)); [field; lra|]. rewrite CE. field. lra. } lra.
Qed.

(** ** points within eps of depth d below the point with normal N *)
Theorem C90_near : forall pow p a f N d s eps, good_pow pow -> usual_earth a f -> finite_vec p ->
  vnorm N = 1 -> on_ellipsoid (B2R a) (B2R f) (V 0 0 1) s -> same_direction (ellipsoid_gradient (B2R a) (B2R f) (V 0 0 1) s) N ->
  vnorm (vsub (vec_of p) (vsub s (vscale d N))) <= eps -> eps <= B2R a / 1000 -> - (262144 * B2R a) <= d <= B2R a / 4 ->
  let '(n, depth) := fp_EB_E2n_EB_E pow p a f in
  near_unit n /\ angle N (vec_of n) <= 105 / 10 * u + 101 / 100 * eps / (B2R a * ((1 - B2R f) * (1 - B2R f)) - d - eps) /\
  is_finite depth = true /\ Rabs (B2R depth - d) <= 101 / 100 * eps + 14 * u * B2R a + 12 * u * Rabs d.
Proof.
  intros pow p a f N d s eps G HE Fp NN OE SD EP He Bd. consts. pose proof HE as (Fa & Ff & BA & Hf & Uf). pose proof (bpow_gt_0 radix2 (-100)) as P100.
  pose proof Me_orthogonal as OM. assert (NZ : N <> v0) by (apply vnorm_inv; auto). set (A := B2R a) in *. set (fl := B2R f) in *. assert (PA : 0 < A) by lra. assert (Bf : 0 <= fl <= / 200) by lra.
  assert (PP : vsub s (vscale d N) = pos A fl Me N d).
  { apply LObj2.at_depth_eq; auto; try lra. exists s. split; [exact OE|]. split; [exact SD|]. rewrite direction_of_unit by auto. reflexivity. }
  unfold pos in PP. rewrite direction_of_unit in PP by auto. set (w := mulv Me N) in *. assert (Nw : vnorm w = 1) by (unfold w; rewrite orthogonal_norm; auto).
  set (q := mulv Me (vec_of p)). assert (EPS : vnorm (vsub q (pint A fl w d)) <= eps).
  { rewrite PP in EP. unfold q. rewrite <- (orthogonal_norm (mT Me)) by (apply orthogonal_T; auto). rewrite mulv_sub, orthogonal_inv by auto. exact EP. }
  pose proof (vnorm_pos (vsub q (pint A fl w d))) as PE0. assert (PE : 0 <= eps) by lra.
  assert (Be : 0 <= ecc2 fl <= / 100) by (apply (st_ecc f Ff Hf Uf)).
  destruct (support_range A fl PA Bf w Nw) as (H1 & H2).
  assert (Oq : outside A fl q).
  { unfold outside. set (e := ecc2 fl) in *. assert (Q1 : A / 2 <= vnorm q).
    { assert (LP : 74 / 100 * A <= vnorm (pint A fl w d)).
      { pose proof (cauchy_schwarz (pint A fl w d) w) as C. rewrite Nw, Rmult_1_r in C. apply Rabs_le_inv in C.
        assert (EC : vdot (pint A fl w d) w = vdot (psurf A fl w) w - d * vdot w w) by (unfold pint; generalize (psurf A fl w); intros; clear; vring). rewrite <- (vnorm_sq w), Nw in EC. assert (A * (1 - fl) >= A * (199 / 200)) by (apply Rle_ge, Rmult_le_compat_l; lra). lra. }
      pose proof (norm_triangle q (vsub (pint A fl w d) q)) as T. replace (vadd q (vsub (pint A fl w d) q)) with (pint A fl w d) in T by (generalize (pint A fl w d) q; intros; clear; vring).
      replace (vsub (pint A fl w d) q) with (vneg (vsub q (pint A fl w d))) in T by (generalize (pint A fl w d) q; intros; clear; vring). rewrite vnorm_neg in T. lra. }
    assert (Q2 : A / 2 * (A / 2) <= vnorm q * vnorm q) by (apply Rmult_le_compat; lra). rewrite vnorm_sq in Q2.
    assert (Q3 : vdot q q = Spec.vx q * Spec.vx q + rho2 q) by (unfold vdot, rho2; ring). pose proof (rho2_pos q). pose proof (Rle_0_sqr (Spec.vx q)) as X0. unfold Rsqr in X0.
    assert (e * (Spec.vx q * Spec.vx q) <= / 100 * (Spec.vx q * Spec.vx q)) by (apply Rmult_le_compat_r; lra). assert (AA : 0 < A * A) by nra. assert (e * e * (A * A) <= / 100 * (A * A)) by (apply Rmult_le_compat_r; nra). lra. }
  destruct (geod_exists A fl q PA ltac:(lra) Oq) as (w' & d' & GD). pose proof (geod_sound A fl q w' d' PA ltac:(lra) GD) as SO. pose proof (geod_unit _ _ _ _ _ GD) as U'.
  assert (Nw' : vnorm w' = 1) by (apply vnorm_unit; auto). pose proof (geod_depth A fl q w' d' PA ltac:(lra) GD) as Dd. pose proof (cc_bounds A fl w' PA ltac:(lra) Nw') as (_ & Cb).
  rewrite <- SO in EPS. destruct (geodetic_moves A fl PA Bf w d w' d' eps Nw Nw' EPS) as (M1 & M2 & M3).
  rewrite <- vnorm_sq in M2, M3. pose proof (vnorm_pos (vsub w' w)) as PG. set (g := vnorm (vsub w' w)) in *.
  assert (SS : 99 / 100 * A <= A * ((1 - fl) * (1 - fl))). { assert (99 / 100 <= (1 - fl) * (1 - fl)) by nra. rewrite Rmult_comm. apply Rmult_le_compat_l; lra. }
  set (r := A * ((1 - fl) * (1 - fl))) in *.
  assert (G1 : 36 / 100 * A * g <= eps). { eapply Rle_trans; [|exact M1]. apply Rmult_le_compat_r; lra. }
  assert (G2 : A * (g * g) <= 8 / 1000 * eps).
  { assert (g <= 28 / 10 / 1000). { apply (Rmult_le_reg_l A); [lra|]. lra. } assert (A * g * g <= A * g * (28 / 10 / 1000)) by (apply Rmult_le_compat_l; [apply Rmult_le_pos; lra|auto]). lra. }
  assert (GG : 0 <= g * g) by (apply Rmult_le_pos; auto).
  assert (D1 : d' - d <= 1004 / 1000 * eps). { destruct (Rle_dec d' 0) as [L|L]; [assert (0 <= - d' * (g * g)) by (apply Rmult_le_pos; lra); lra|]. assert (d' * (g * g) <= A * (g * g)) by (apply Rmult_le_compat_r; lra). lra. }
  assert (D2 : d - d' <= 1004 / 1000 * eps). { destruct (Rle_dec d 0) as [L|L]; [assert (0 <= - d * (g * g)) by (apply Rmult_le_pos; lra); lra|]. assert (d * (g * g) <= A * (g * g)) by (apply Rmult_le_compat_r; lra). lra. }
  set (N' := mulv (mT Me) w'). assert (NN' : vnorm N' = 1) by (unfold N'; rewrite orthogonal_norm; auto; apply orthogonal_T; auto).
  assert (Hw' : w' <> v0) by (apply vnorm_inv; auto).
  assert (EPp : vec_of p = vsub (mulv (mT Me) (psurf A fl w')) (vscale d' N')).
  { rewrite <- (orthogonal_inv Me (vec_of p)) by auto. fold q. rewrite <- SO. unfold pint, N'. rewrite mulv_sub, mulv_scale. reflexivity. }
  pose proof (C90_accuracy pow p a f N' d' (mulv (mT Me) (psurf A fl w')) G HE Fp NN') as C. fold A fl in C. change (V 0 0 1) with (SpecArr.north Me) in C.
  specialize (C (psurf_on_ellipsoid A fl w' Me OM PA ltac:(lra) Hw')). specialize (C (psurf_normal A fl w' Me OM PA ltac:(lra) Hw') EPp ltac:(lra)).
  destruct (fp_EB_E2n_EB_E pow p a f) as [n depth]. destruct C as (NU & AN & FD & ED). split; auto. split; [|split; auto].
  - assert (GN : g = vnorm (vsub N' N)). { unfold g, N'. rewrite <- (orthogonal_inv Me N) at 1 by auto. fold w. rewrite <- mulv_sub, orthogonal_norm; auto. apply orthogonal_T; auto. }
    assert (R0 : 0 < r - d - eps) by lra. assert (GR : g * (r - d - eps) <= 1002 / 1000 * eps).
    { assert (g * (r - d - eps) <= (r - (d + d') / 2) * g) by (rewrite Rmult_comm; apply Rmult_le_compat_r; lra). lra. }
    assert (GC : g <= 1002 / 1000 * eps / (r - d - eps)). { apply (Rmult_le_reg_r (r - d - eps)); auto. unfold Rdiv. rewrite Rmult_assoc, Rinv_l by lra. lra. }
    assert (g <= / 10). { apply (Rmult_le_reg_l A); lra. }
    pose proof (angle_chord N N' g NN NN' ltac:(lra) ltac:(lra)) as AC.
    assert (UN : vec_of n <> v0). { intros E. destruct n as [[g0 g1] g2]. destruct NU as (_ & _ & _ & LU). rewrite length3_vnorm, E, vnorm_v0 in LU. apply Rabs_le_inv in LU. lra. }
    pose proof (angle_triangle N N' (vec_of n) NZ (vnorm_inv _ NN') UN) as TR.
    assert (1003 / 1000 * g <= 101 / 100 * eps / (r - d - eps)). { apply Rle_trans with (1003 / 1000 * (1002 / 1000 * eps / (r - d - eps))); [lra|]. unfold Rdiv. rewrite <- !Rmult_assoc. apply Rmult_le_compat_r; [apply Rlt_le, Rinv_0_lt_compat; auto|]. lra. }
    lra.
  - replace (B2R depth - d) with ((B2R depth - d') + (d' - d)) by ring. eapply Rle_trans; [apply Rabs_triang|]. assert (DD : Rabs (d' - d) <= 1004 / 1000 * eps) by (apply Rabs_le; lra).
    assert (Rabs d' <= Rabs d + 1004 / 1000 * eps). { replace d' with (d + (d' - d)) by ring. eapply Rle_trans; [apply Rabs_triang|]. lra. }
    assert (u * Rabs d' <= u * (Rabs d + 1004 / 1000 * eps)) by (apply Rmult_le_compat_l; lra). assert (u * eps <= / 1000000000000000 * eps) by (apply Rmult_le_compat_r; lra). lra.
Qed.
Print Assumptions C90_near.
