(** * C97: interpolation between two positions and the mean of several, in binary64 *)
From Coq Require Import ZArith Reals Lra Lia Bool Psatz List Permutation.
From Flocq Require Import Core BinarySingleNaN Relative.
From Verif Require Import Spec LVec LAngle FTiny FZero FBase FRel FRel2 FUnit FPi FAngle FDist FGreat FTrack FLatLon FInv FEcef FEcef2 FNed FNed2 FNed3 FDelta FDelta2 FDelta3 FMove FWay FWay2 FWay3 FWay4.
Import ListNotations.
Local Open Scope R_scope.

(** a number times a vector *)
Definition fscalev (t : float64) (p : vec64) : vec64 := let '(x, y, z) := p in (fmul t x, fmul t y, fmul t z).
(** interpolate, core.py 457-459, one position; GeoPath.interpolate, objects.py 1171-1173, has the factors in the other order *)
Definition finterpolate (a b : vec64) (ti : float64) : vec64 := unit64 (faddv a (fscalev ti (fsubv b a))).

(** normalising an inexact vector *)
Lemma unit_inexact' (s : vec64) P e : finite_vec s -> bpow radix2 (-100) <= vnorm P -> vnorm P <= 1000000000000 -> vnorm (vsub (vec_of s) P) <= e * vnorm P -> e <= / 1000000 ->
  near_unit (unit64 s) /\ angle P (vec_of (unit64 s)) <= e * (1 + 2 / 1000000) + 51 / 10 * u /\ vnorm (vsub (vec_of (unit64 s)) (direction P)) <= 2 * e + 501 / 100 * u.
Proof.
  destruct s as [[x y] z]. intros (Fx & Fy & Fz) L U D He. set (S := vec_of (x, y, z)) in *. pose proof (bpow_gt_0 radix2 (-100)) as B100.
  assert (P0 : P <> v0). { intros E. rewrite E, vnorm_v0 in L. lra. }
  pose proof (norm_perturb P (vsub S P)) as NP. rewrite <- vadd_sub_id in NP. apply Rabs_le_inv in NP.
  assert (SL : bpow radix2 (-100) / 2 <= vnorm S <= 2000000000000) by nra.
  assert (O : ordinary_vec (x, y, z)).
  { destruct (comp_le_vnorm S) as (Cx & Cy & Cz). pose proof (norm_sum3 S) as N3. unfold S, vec_of in Cx, Cy, Cz, N3, SL; cbn [Spec.vx Spec.vy Spec.vz] in Cx, Cy, Cz, N3.
    assert (B : 2000000000000 <= bpow radix2 400). { apply Rle_trans with (bpow radix2 50); [|apply bpow_le; lia]. cbn [bpow]. change (Z.pow_pos radix2 50) with 1125899906842624%Z. lra. }
    assert (b : 8 * bpow radix2 (-400) <= bpow radix2 (-100)). { change 8 with (bpow radix2 3). rewrite <- bpow_plus. apply bpow_le; lia. }
    pose proof (bpow_gt_0 radix2 (-400)) as B400. repeat split; auto; try lra. }
  split; [apply unit64_near; auto|]. destruct (unit64_direction _ O) as (S0 & A). fold S in S0, A.
  assert (Q0 : vec_of (unit64 (x, y, z)) <> v0).
  { pose proof (unit64_near _ O) as N. destruct (near_unit_near _ N) as (_ & Q & _). exact Q. }
  pose proof (vnorm_nz _ P0) as PP. split.
  - eapply Rle_trans; [apply (angle_triangle P S _ P0 S0 Q0)|]. apply Rplus_le_compat; [|exact A].
    rewrite <- (angle_scale_l (/ vnorm P)), <- (angle_scale_r (/ vnorm P) (vscale (/ vnorm P) P)) by (apply Rinv_0_lt_compat; auto).
    apply tilt; auto. { apply (direction_unit P P0). }
    replace (vsub (vscale (/ vnorm P) S) (vscale (/ vnorm P) P)) with (vscale (/ vnorm P) (vsub S P)) by (generalize (/ vnorm P) S P; clear; intros k p q; vring).
    rewrite vnorm_scale, Rabs_right by (apply Rle_ge; left; apply Rinv_0_lt_compat; auto).
    apply Rmult_le_reg_l with (vnorm P); auto. rewrite <- Rmult_assoc, Rinv_r by lra. lra.
  - rewrite (sub_via _ _ (direction S)). eapply Rle_trans; [apply norm_triangle|]. destruct (unit64_vec_err _ O) as (_ & UE). fold S in UE.
    assert (K : vnorm (vsub (direction S) (direction P)) <= 2 * e); [|lra]. eapply Rle_trans; [apply direction_perturb; auto|].
    apply Rmult_le_reg_r with (vnorm P); auto. unfold Rdiv. rewrite Rmult_assoc, Rinv_l by lra. lra.
Qed.
Lemma unit_inexact (s : vec64) P e : finite_vec s -> / 1000000 <= vnorm P -> vnorm P <= 1000000000000 -> vnorm (vsub (vec_of s) P) <= e * vnorm P -> e <= / 1000000 ->
  near_unit (unit64 s) /\ angle P (vec_of (unit64 s)) <= e * (1 + 2 / 1000000) + 51 / 10 * u.
Proof.
  intros F L U D He. destruct (unit_inexact' s P e F) as (N & A & _); auto. apply Rle_trans with (/ 1000000); auto.
  apply Rle_trans with (bpow radix2 (-30)); [apply bpow_le; lia|]. cbn [bpow]. change (Z.pow_pos radix2 30) with 1073741824%Z. lra.
Qed.

Lemma scale_err (t : float64) (p : vec64) : is_finite t = true -> finite_vec p -> Rabs (B2R t) <= 1 -> vnorm (vec_of p) <= bpow radix2 400 ->
  finite_vec (fscalev t p) /\ vnorm (vsub (vec_of (fscalev t p)) (vscale (B2R t) (vec_of p))) <= u * (Rabs (B2R t) * vnorm (vec_of p)) + 3 * eta.
Proof.
  destruct p as [[x y] z]. intros Ft (Fx & Fy & Fz) T N. pose proof u_pos as Pu. pose proof eta_pos as Pe.
  destruct (comp_le_vnorm (vec_of (x, y, z))) as (Cx & Cy & Cz). unfold vec_of in Cx, Cy, Cz; cbn [Spec.vx Spec.vy Spec.vz] in Cx, Cy, Cz. fold (vec_of (x, y, z)) in Cx, Cy, Cz.
  assert (K : forall c : float64, is_finite c = true -> Rabs (B2R c) <= vnorm (vec_of (x, y, z)) -> is_finite (fmul t c) = true /\ Rabs (B2R (fmul t c) - B2R t * B2R c) <= u * Rabs (B2R t * B2R c) + eta).
  { intros c Fc Bc. destruct (fmul_val t c Ft Fc) as (F & E).
    { rewrite Rabs_mult. apply Rle_trans with (1 * bpow radix2 400); [apply Rmult_le_compat; try apply Rabs_pos; lra|]. rewrite Rmult_1_l. apply bpow_le; lia. }
    split; auto. rewrite E. destruct (rnd_err (B2R t * B2R c)) as (r & h & Hr & Hh & ER). rewrite ER.
    replace (B2R t * B2R c * (1 + r) + h - B2R t * B2R c) with (r * (B2R t * B2R c) + h) by ring. eapply Rle_trans; [apply Rabs_triang|]. rewrite Rabs_mult.
    apply Rplus_le_compat; auto. apply Rmult_le_compat_r; [apply Rabs_pos|auto]. }
  destruct (K x Fx Cx) as (F0 & E0). destruct (K y Fy Cy) as (F1 & E1). destruct (K z Fz Cz) as (F2 & E2).
  unfold fscalev, finite_vec. split; [auto|]. unfold vec_of at 1. unfold vsub, vscale; cbn [vec_of Spec.vx Spec.vy Spec.vz].
  set (G := V (B2R t * B2R x) (B2R t * B2R y) (B2R t * B2R z)).
  apply Rle_trans with (vnorm (vadd (vscale u (V (Rabs (Spec.vx G)) (Rabs (Spec.vy G)) (Rabs (Spec.vz G)))) (V eta eta eta))).
  { apply norm_le_comp; unfold vadd, vscale, G; cbn [Spec.vx Spec.vy Spec.vz]; assumption. }
  eapply Rle_trans; [apply norm_triangle|]. rewrite vnorm_scale, abs_vec_norm, (Rabs_right u) by lra.
  assert (EG : vnorm G = Rabs (B2R t) * vnorm (vec_of (x, y, z))). { rewrite <- vnorm_scale. reflexivity. }
  rewrite EG. pose proof (norm_sum3 (V eta eta eta)) as S. cbn [Spec.vx Spec.vy Spec.vz] in S. rewrite Rabs_right in S by lra. apply Rplus_le_compat; [right; reflexivity|lra].
Qed.

Lemma near_unit_len a : near_unit a -> finite_vec a /\ 1 - 6 * u <= vnorm (vec_of a) <= 1 + 6 * u.
Proof. destruct a as [[x y] z]. intros (Fx & Fy & Fz & L). rewrite length3_vnorm in L. apply Rabs_le_inv in L. split; [repeat split; auto|lra]. Qed.
Lemma big400 : 3 <= bpow radix2 400. Proof. apply Rle_trans with (bpow radix2 2); [cbn [bpow]; change (Z.pow_pos radix2 2) with 4%Z; lra|apply bpow_le; lia]. Qed.

(** the point of the chord from a to b at the fraction t *)
Definition chord (a b : vec) (t : R) : vec := vadd a (vscale t (vsub b a)).

Lemma eta_um : eta <= u / 1000000000000. Proof. pose proof eta_wee1. pose proof wee_small. pose proof eta_pos. lra. Qed.

Lemma lerp_err a b ti : near_unit a -> near_unit b -> is_finite ti = true -> 0 <= B2R ti <= 1 ->
  let v := chord (vec_of a) (vec_of b) (B2R ti) in / 1000000 <= vnorm v ->
  finite_vec (faddv a (fscalev ti (fsubv b a))) /\
  vnorm (vsub (vec_of (faddv a (fscalev ti (fsubv b a)))) v) <= u * (1001 / 1000 + 2001 / 1000 * (B2R ti * vnorm (vsub (vec_of b) (vec_of a))) / vnorm v) * vnorm v.
Proof.
  intros Na Nb Ft T v L. pose proof u_pos as Pu. pose proof u_tiny as Su. pose proof big400 as B4. pose proof eta_um as Pe. pose proof eta_pos as P0.
  destruct (near_unit_len a Na) as (Fa & La). destruct (near_unit_len b Nb) as (Fb & Lb).
  destruct (sub_err b a Fb Fa ltac:(lra) ltac:(lra)) as (Fd & Ed). set (d := fsubv b a) in *. set (D := vsub (vec_of b) (vec_of a)) in *.
  assert (ND : vnorm D <= 2 + 12 * u). { unfold D. rewrite sub_neg. eapply Rle_trans; [apply norm_triangle|]. rewrite vnorm_neg. lra. }
  assert (Nd : vnorm (vec_of d) <= vnorm D * (1 + u)). { rewrite (via D (vec_of d)). eapply Rle_trans; [apply norm_triangle|]. lra. }
  pose proof (vnorm_pos D) as PD.
  destruct (scale_err ti d Ft Fd) as (Fm & Em). { rewrite Rabs_right; lra. } { nra. }
  rewrite (Rabs_right (B2R ti)) in Em by lra. set (m := fscalev ti d) in *.
  assert (Em' : vnorm (vsub (vec_of m) (vscale (B2R ti) D)) <= 20001 / 10000 * u * (B2R ti * vnorm D) + 3 * eta).
  { rewrite (sub_via _ _ (vscale (B2R ti) (vec_of d))). eapply Rle_trans; [apply norm_triangle|].
    replace (vsub (vscale (B2R ti) (vec_of d)) (vscale (B2R ti) D)) with (vscale (B2R ti) (vsub (vec_of d) D)) by (generalize (B2R ti) (vec_of d) D; clear; intros k p q; vring).
    rewrite vnorm_scale, (Rabs_right (B2R ti)) by lra.
    assert (B2R ti * vnorm (vsub (vec_of d) D) <= B2R ti * (u * vnorm D)) by (apply Rmult_le_compat_l; lra).
    assert (u * (B2R ti * vnorm (vec_of d)) <= u * (B2R ti * (vnorm D * (1 + u)))) by (apply Rmult_le_compat_l; [lra|]; apply Rmult_le_compat_l; lra).
    assert (0 <= B2R ti * vnorm D) by (apply Rmult_le_pos; lra).
    replace (u * (B2R ti * (vnorm D * (1 + u)))) with (u * (B2R ti * vnorm D) + u * (u * (B2R ti * vnorm D))) in H0 by ring.
    assert (u * (u * (B2R ti * vnorm D)) <= / 10000 * (u * (B2R ti * vnorm D))) by (apply Rmult_le_compat_r; [apply Rmult_le_pos; lra|lra]). lra. }
  assert (Nm : vnorm (vec_of m) <= 3).
  { rewrite (via (vscale (B2R ti) D) (vec_of m)). eapply Rle_trans; [apply norm_triangle|]. rewrite vnorm_scale, (Rabs_right (B2R ti)) by lra.
    assert (0 <= B2R ti * vnorm D <= 1 * vnorm D) by (split; [apply Rmult_le_pos; lra|apply Rmult_le_compat_r; lra]). assert (u * (B2R ti * vnorm D) <= / 1000 * (B2R ti * vnorm D)) by (apply Rmult_le_compat_r; lra). lra. }
  assert (Z0 : vnorm (vsub (vec_of a) (vec_of a)) <= 0). { right. replace (vsub (vec_of a) (vec_of a)) with v0 by (generalize (vec_of a); clear; intros p; unfold v0; vring). apply vnorm_v0. }
  destruct (sum_err a m (vec_of a) (vscale (B2R ti) D) 0 _ Fa Fm ltac:(lra) ltac:(lra) Z0 Em') as (Fs & Es). split; auto.
  eapply Rle_trans; [exact Es|]. change (vadd (vec_of a) (vscale (B2R ti) D)) with v.
  set (q := B2R ti * vnorm D) in *. assert (Q : 0 <= q) by (unfold q; apply Rmult_le_pos; lra).
  replace (u * (1001 / 1000 + 2001 / 1000 * q / vnorm v) * vnorm v) with (1001 / 1000 * u * vnorm v + 2001 / 1000 * u * q) by (field; lra).
  assert (0 <= u * q) by nra. assert (u * (u * q) <= / 100000 * (u * q)) by (apply Rmult_le_compat_r; lra). assert (/ 1000000 * u <= u * vnorm v) by nra. assert (eta * u <= eta * 1) by (apply Rmult_le_compat_l; lra).
  replace ((0 + (20001 / 10000 * u * q + 3 * eta)) * (1 + u)) with (20001 / 10000 * (u * q) + 20001 / 10000 * (u * (u * q)) + 3 * eta + 3 * (eta * u)) by ring. lra.
Qed.

(** ** interpolation *)
Theorem C97_interpolate : forall a b ti, near_unit a -> near_unit b -> is_finite ti = true -> 0 <= B2R ti <= 1 ->
  let v := chord (vec_of a) (vec_of b) (B2R ti) in / 1000000 <= vnorm v ->
  near_unit (finterpolate a b ti) /\
  angle v (vec_of (finterpolate a b ti)) <= (611 / 100 + 201 / 100 * (B2R ti * vnorm (vsub (vec_of b) (vec_of a)) / vnorm v)) * u.
Proof.
  intros a b ti Na Nb Ft T v L. pose proof u_pos as Pu. pose proof u_tiny as Su.
  destruct (lerp_err a b ti Na Nb Ft T L) as (F & E). fold v in E. destruct (near_unit_len a Na) as (_ & La). destruct (near_unit_len b Nb) as (_ & Lb).
  set (q := B2R ti * vnorm (vsub (vec_of b) (vec_of a))) in *.
  assert (ND : vnorm (vsub (vec_of b) (vec_of a)) <= 3). { rewrite sub_neg. eapply Rle_trans; [apply norm_triangle|]. rewrite vnorm_neg. lra. }
  pose proof (vnorm_pos (vsub (vec_of b) (vec_of a))) as PD.
  assert (Q : 0 <= q <= 3) by (unfold q; nra).
  assert (I : 0 < / vnorm v <= 1000000). { split; [apply Rinv_0_lt_compat; lra|]. rewrite <- (Rinv_inv 1000000). apply Rinv_le; lra. }
  assert (R : 0 <= q / vnorm v <= 3000000) by (unfold Rdiv; nra).
  assert (UB : vnorm v <= 1000000000000).
  { unfold v, chord. eapply Rle_trans; [apply norm_triangle|]. rewrite vnorm_scale, Rabs_right by lra. fold q. lra. }
  replace (2001 / 1000 * q / vnorm v) with (2001 / 1000 * (q / vnorm v)) in E by (unfold Rdiv; ring).
  destruct (unit_inexact _ v _ F L UB E) as (N & A). { nra. } split; [exact N|]. eapply Rle_trans; [exact A|]. nra.
Qed.
Print Assumptions C97_interpolate.

Lemma chord_sq a b t : vdot (chord a b t) (chord a b t) = (1 - t) * vdot a a + t * vdot b b - t * (1 - t) * vdot (vsub b a) (vsub b a).
Proof. unfold chord, vdot, vadd, vscale, vsub; cbn [Spec.vx Spec.vy Spec.vz]. ring. Qed.
Lemma chord_quarter a b t : near_unit a -> near_unit b -> 0 <= t <= 1 -> 0 <= vdot (vec_of a) (vec_of b) ->
  7 / 10 <= vnorm (chord (vec_of a) (vec_of b) t) /\ vnorm (vsub (vec_of b) (vec_of a)) <= 14143 / 10000.
Proof.
  intros Na Nb T P. pose proof u_pos as Pu. pose proof u_tiny as Su. destruct (near_unit_len a Na) as (_ & La). destruct (near_unit_len b Nb) as (_ & Lb).
  pose proof (vnorm_sq (vec_of a)) as Qa. pose proof (vnorm_sq (vec_of b)) as Qb.
  assert (Sa : 99999 / 100000 <= vdot (vec_of a) (vec_of a) <= 100001 / 100000) by (rewrite <- Qa; nra).
  assert (Sb : 99999 / 100000 <= vdot (vec_of b) (vec_of b) <= 100001 / 100000) by (rewrite <- Qb; nra).
  assert (D : vdot (vsub (vec_of b) (vec_of a)) (vsub (vec_of b) (vec_of a)) <= 200002 / 100000).
  { replace (vdot (vsub (vec_of b) (vec_of a)) (vsub (vec_of b) (vec_of a))) with (vdot (vec_of a) (vec_of a) + vdot (vec_of b) (vec_of b) - 2 * vdot (vec_of a) (vec_of b)); [lra|].
    unfold vdot, vsub; cbn [Spec.vx Spec.vy Spec.vz]; ring. }
  split.
  - unfold vnorm. rewrite <- (sqrt_square (7 / 10)) by lra. apply sqrt_le_1_alt. rewrite chord_sq. set (x := vdot (vsub (vec_of b) (vec_of a)) (vsub (vec_of b) (vec_of a))) in *.
    assert (0 <= x) by apply vdot_pos. assert (W : 0 <= t * (1 - t) <= / 4) by (clear - T; split; [apply Rmult_le_pos; lra|pose proof (Rle_0_sqr (t - 1 / 2)) as S2; unfold Rsqr in S2; lra]).
    assert (t * (1 - t) * x <= / 4 * x) by (apply Rmult_le_compat_r; lra). assert ((1 - t) * (99999 / 100000) <= (1 - t) * vdot (vec_of a) (vec_of a)) by (apply Rmult_le_compat_l; lra). assert (t * (99999 / 100000) <= t * vdot (vec_of b) (vec_of b)) by (apply Rmult_le_compat_l; lra). lra.
  - unfold vnorm. rewrite <- (sqrt_square (14143 / 10000)) by lra. apply sqrt_le_1_alt. lra.
Qed.

(** two positions at most a quarter of a turn apart: within 10.2 units of roundoff (7 nm on the Earth) of a point of the arc between them,
    the one that divides the chord in the ratio ti : 1 - ti *)
Theorem C97_quarter_turn : forall a b ti, near_unit a -> near_unit b -> is_finite ti = true -> 0 <= B2R ti <= 1 -> 0 <= vdot (vec_of a) (vec_of b) ->
  let q := finterpolate a b ti in near_unit q /\
  exists p, on_arc (vec_of a) (vec_of b) p /\ same_direction (vadd (vscale (1 - B2R ti) (vec_of a)) (vscale (B2R ti) (vec_of b))) p /\ angle p (vec_of q) <= 102 / 10 * u.
Proof.
  intros a b ti Na Nb Ft T P q. pose proof u_pos as Pu. destruct (chord_quarter a b (B2R ti) Na Nb T P) as (L & D).
  destruct (C97_interpolate a b ti Na Nb Ft T ltac:(lra)) as (N & A). split; [exact N|]. set (v := chord (vec_of a) (vec_of b) (B2R ti)) in *.
  assert (V0 : v <> v0). { intros E. rewrite E, vnorm_v0 in L. lra. }
  assert (Q0 : vec_of q <> v0) by (destruct (near_unit_near _ N) as (_ & Q & _); exact Q).
  assert (Ev : v = vadd (vscale (1 - B2R ti) (vec_of a)) (vscale (B2R ti) (vec_of b))) by (unfold v, chord; generalize (vec_of a) (vec_of b) (B2R ti); clear; intros x y t; vring).
  pose proof (vnorm_nz _ V0) as PV. exists (direction v). split; [|split].
  - split; [apply direction_unit; auto|]. exists (/ vnorm v * (1 - B2R ti)), (/ vnorm v * B2R ti). assert (0 < / vnorm v) by (apply Rinv_0_lt_compat; auto).
    split; [apply Rmult_le_pos; lra|]. split; [apply Rmult_le_pos; lra|]. unfold direction. rewrite Ev at 2. generalize (/ vnorm v) (vec_of a) (vec_of b) (B2R ti); clear; intros k x y t; vring.
  - rewrite <- Ev. exists (vnorm v). split; auto. apply direction_decomp; auto.
  - rewrite <- (angle_scale_l (vnorm v)) by auto. rewrite <- direction_decomp by auto. eapply Rle_trans; [exact A|]. apply Rmult_le_compat_r; [lra|].
    pose proof (vnorm_pos (vsub (vec_of b) (vec_of a))) as PD.
    assert (B2R ti * vnorm (vsub (vec_of b) (vec_of a)) / vnorm v <= 203 / 100); [|lra]. apply Rmult_le_reg_r with (vnorm v); auto. unfold Rdiv. rewrite Rmult_assoc, Rinv_l, Rmult_1_r by lra.
    assert (B2R ti * vnorm (vsub (vec_of b) (vec_of a)) <= 1 * vnorm (vsub (vec_of b) (vec_of a))) by (apply Rmult_le_compat_r; lra). lra.
Qed.
Print Assumptions C97_quarter_turn.
