(** * C103: the matrices, the round trip in degrees, and angles out of any matrix near a rotation *)
From Coq Require Import ZArith Reals Lra Lia Bool Psatz.
From Flocq Require Import Core BinarySingleNaN Relative.
From Verif Require Import Spec LVec LAngle LMat LRot FTiny FBase FUnit FPi FAngle FDist FGreat FLatLon FInv FInv2 FInv3 FRel FRel2 FEuler.
Local Open Scope R_scope.

Theorem C103_matrices : forall fsin fcos x y z, good_trig fsin sin -> good_trig fcos cos ->
  is_finite x = true -> is_finite y = true -> is_finite z = true -> Rabs (B2R x) <= 4 -> Rabs (B2R y) <= 4 -> Rabs (B2R z) <= 4 ->
  (fin_mat (fxyz2R fsin fcos x y z) /\
   mat_within (10 * u) (mat_of (fxyz2R fsin fcos x y z)) (mmul (Rx (B2R x)) (mmul (Ry (B2R y)) (Rz (B2R z)))) /\
   mat_within (61 * u) (mmul (mT (mat_of (fxyz2R fsin fcos x y z))) (mat_of (fxyz2R fsin fcos x y z))) mI) /\
  (fin_mat (fzyx2R fsin fcos z y x) /\
   mat_within (10 * u) (mat_of (fzyx2R fsin fcos z y x)) (mmul (Rz (B2R z)) (mmul (Ry (B2R y)) (Rx (B2R x)))) /\
   mat_within (61 * u) (mmul (mT (mat_of (fzyx2R fsin fcos z y x))) (mat_of (fzyx2R fsin fcos z y x))) mI).
Proof.
  intros fsin fcos x y z GS GC Fx Fy Fz Bx By Bz. pose proof u_pos. pose proof u_tiny.
  destruct (xyz_entries fsin fcos x y z GS GC Fx Fy Fz Bx By Bz) as (F1 & D1). destruct (zyx_entries fsin fcos x y z GS GC Fx Fy Fz Bx By Bz) as (F2 & D2).
  assert (E : 61 * u = 61 / 10 * (10 * u)) by field. rewrite E.
  split; (split; [assumption|split; [assumption|]]).
  - eapply near_orthonormal; [lra|exact D1|]. apply Mxyz_rotation.
  - eapply near_orthonormal; [lra|exact D2|]. apply Mzyx_rotation.
Qed.
Print Assumptions C103_matrices.

(** ** in degrees: R2xyz(xyz2R(rad(x), rad(y), rad(z))) turned back by deg *)
Lemma turns_deg t o (x : float64) : is_finite x = true -> turns_back t o (12 * u) -> Rabs (o - B2R x * (PI / 180)) <= 7 * u ->
  is_finite (fdeg t) = true /\ exists k : Z, Rabs (B2R (fdeg t) - B2R x - 360 * IZR k) <= 17 / 100000000000000.
Proof.
  intros Fx (F & B & k & D) Dx. pose proof u_pos as Pu. pose proof u_val as UV. pose proof eta_pos as Pe. pose proof tiny_consts as TC. pose proof (bpow_gt_0 radix2 (-399)) as P3. pose proof u_small.
  pose proof pi_bounds as PB. rewrite pi64_val in PB. pose proof PI_RGT_0 as PP. assert (Uv : / 9007199254740993 <= u <= / 9007199254740991) by (rewrite UV; lra).
  assert (I8 : 0 < 180 / PI <= 573 / 10).
  { split; [apply Rdiv_lt_0_compat; lra|]. apply (Rmult_le_reg_r PI); auto. unfold Rdiv at 1. rewrite Rmult_assoc, Rinv_l by lra. lra. }
  assert (A2 : Rabs (B2R t - (B2R x * (PI / 180) + 2 * IZR k * PI)) <= 19 * u).
  { replace (B2R t - (B2R x * (PI / 180) + 2 * IZR k * PI)) with ((B2R t - o - 2 * IZR k * PI) + (o - B2R x * (PI / 180))) by ring.
    eapply Rle_trans; [apply Rabs_triang|]. lra. }
  destruct (deg_back _ _ _ F A2) as (Fd & Dd); try lra. split; auto. exists k.
  replace ((B2R x * (PI / 180) + 2 * IZR k * PI) * (180 / PI)) with (B2R x + 360 * IZR k) in Dd by (field; lra).
  replace (B2R (fdeg t) - B2R x - 360 * IZR k) with (B2R (fdeg t) - (B2R x + 360 * IZR k)) by ring.
  eapply Rle_trans; [exact Dd|]. assert ((21 / 10 * Rabs (B2R t) + 19) * u <= 26 * u) by (apply Rmult_le_compat_r; lra). nra.
Qed.
Lemma comes_deg t o (y : float64) : is_finite y = true -> Rabs (B2R y) <= 90 -> comes_back t o (9 * u) -> Rabs (o - B2R y * (PI / 180)) <= 4 * u ->
  is_finite (fdeg t) = true /\ Rabs (B2R (fdeg t) - B2R y) <= 11 / 100000000000000.
Proof.
  intros Fy By (F & D) Dx. pose proof u_pos as Pu. pose proof u_val as UV. pose proof eta_pos as Pe. pose proof tiny_consts as TC. pose proof (bpow_gt_0 radix2 (-399)) as P3. pose proof u_small.
  pose proof pi_bounds as PB. rewrite pi64_val in PB. pose proof PI_RGT_0 as PP. assert (Uv : / 9007199254740993 <= u <= / 9007199254740991) by (rewrite UV; lra).
  assert (I8 : 0 < 180 / PI <= 573 / 10).
  { split; [apply Rdiv_lt_0_compat; lra|]. apply (Rmult_le_reg_r PI); auto. unfold Rdiv at 1. rewrite Rmult_assoc, Rinv_l by lra. lra. }
  assert (A2 : Rabs (B2R t - B2R y * (PI / 180)) <= 13 * u).
  { replace (B2R t - B2R y * (PI / 180)) with ((B2R t - o) + (o - B2R y * (PI / 180))) by ring. eapply Rle_trans; [apply Rabs_triang|]. lra. }
  assert (B1 : Rabs (B2R t) <= 1571 / 1000).
  { replace (B2R t) with ((B2R t - B2R y * (PI / 180)) + B2R y * (PI / 180)) by ring. eapply Rle_trans; [apply Rabs_triang|]. rewrite (Rabs_mult (B2R y)), (Rabs_right (PI / 180)) by lra.
    assert (Rabs (B2R y) * (PI / 180) <= 90 * (PI / 180)) by (apply Rmult_le_compat_r; lra). lra. }
  destruct (deg_back _ _ _ F A2) as (Fd & Dd); try lra. split; auto.
  replace (B2R y * (PI / 180) * (180 / PI)) with (B2R y) in Dd by (field; lra).
  eapply Rle_trans; [exact Dd|]. assert ((21 / 10 * Rabs (B2R t) + 13) * u <= 165 / 10 * u) by (apply Rmult_le_compat_r; lra). nra.
Qed.
Definition degrees_range (x y z : float64) : Prop :=
  is_finite x = true /\ is_finite y = true /\ is_finite z = true /\ Rabs (B2R x) <= 180 /\ Rabs (B2R y) <= 90 /\ Rabs (B2R z) <= 180.
Lemma rad_range x y z : degrees_range x y z -> euler_range (frad x) (frad y) (frad z) /\
  Rabs (B2R (frad x) - B2R x * (PI / 180)) <= 7 * u /\ Rabs (B2R (frad y) - B2R y * (PI / 180)) <= 4 * u /\ Rabs (B2R (frad z) - B2R z * (PI / 180)) <= 7 * u.
Proof.
  intros (Fx & Fy & Fz & Bx & By & Bz). destruct (rad_moves x 180 Fx Bx ltac:(lra)) as (Gx & _ & Dx). destruct (rad_moves y 90 Fy By ltac:(lra)) as (Gy & _ & Dy). destruct (rad_moves z 180 Fz Bz ltac:(lra)) as (Gz & _ & Dz).
  destruct (C79_range x Fx) as (_ & Rx & _). destruct (C79_range y Fy) as (Ry & _). destruct (C79_range z Fz) as (_ & Rz & _).
  pose proof u_pos as Pu. pose proof eta_pos as Pe. pose proof tiny_consts as TC. pose proof (bpow_gt_0 radix2 (-399)) as P3. pose proof pi_bounds as PB. rewrite pi64_val in PB. pose proof u_small.
  assert (Ka : 22 / 10 * u * (90 * (PI / 180)) + eta <= 4 * u) by nra. assert (Ko : 22 / 10 * u * (180 * (PI / 180)) + eta <= 7 * u) by nra.
  repeat split; auto; lra.
Qed.
(** the angles come back to less than 2e-13 degrees, next to gimbal lock too *)
Theorem C103_degrees : forall fsin fcos arctan2 x y z, good_trig fsin sin -> good_trig fcos cos -> good_atan2 arctan2 -> degrees_range x y z ->
  (exists x' y' z', fR2xyz arctan2 (fxyz2R fsin fcos (frad x) (frad y) (frad z)) = (x', y', z') /\
    (is_finite (fdeg x') = true /\ exists k : Z, Rabs (B2R (fdeg x') - B2R x - 360 * IZR k) <= 17 / 100000000000000) /\
    (is_finite (fdeg y') = true /\ Rabs (B2R (fdeg y') - B2R y) <= 11 / 100000000000000) /\
    (is_finite (fdeg z') = true /\ exists k : Z, Rabs (B2R (fdeg z') - B2R z - 360 * IZR k) <= 17 / 100000000000000)) /\
  (exists x' y' z', fR2zyx arctan2 (fzyx2R fsin fcos (frad z) (frad y) (frad x)) = (z', y', x') /\
    (is_finite (fdeg x') = true /\ exists k : Z, Rabs (B2R (fdeg x') - B2R x - 360 * IZR k) <= 17 / 100000000000000) /\
    (is_finite (fdeg y') = true /\ Rabs (B2R (fdeg y') - B2R y) <= 11 / 100000000000000) /\
    (is_finite (fdeg z') = true /\ exists k : Z, Rabs (B2R (fdeg z') - B2R z - 360 * IZR k) <= 17 / 100000000000000)).
Proof.
  intros fsin fcos arctan2 x y z GS GC GA HR. destruct (rad_range x y z HR) as (HE & Dx & Dy & Dz). destruct HR as (Fx & Fy & Fz & Bx & By & Bz). pose proof u_pos.
  split.
  - destruct (C103_xyz_round_trip fsin fcos arctan2 _ _ _ GS GC GA HE) as (x' & y' & z' & E & Hx & Hy & Hz).
    exists x', y', z'. split; auto. split; [eapply turns_deg; eauto|]. split; [eapply comes_deg; eauto|eapply turns_deg; eauto].
  - destruct (C103_zyx_round_trip fsin fcos arctan2 _ _ _ GS GC GA HE) as (x' & y' & z' & E & Hx & Hy & Hz).
    exists x', y', z'. split; auto. split; [eapply turns_deg; eauto|]. split; [eapply comes_deg; eauto|eapply turns_deg; eauto].
Qed.
Print Assumptions C103_degrees.
Print Assumptions C103_xyz_round_trip.
Print Assumptions C103_zyx_round_trip.

(** the requirements can be met: the largest angles in radians, and 180, 1 and 0 degrees *)
Example C103_example : good_trig (fun x => round64 (sin (B2R x))) sin /\ good_trig (fun x => round64 (cos (B2R x))) cos /\ good_atan2 ideal_atan2 /\
  euler_range pi64 half_pi64 (fneg pi64) /\ degrees_range (f 6333186975989760 (-45) eq_refl) fone fzero.
Proof.
  destruct C81_example as (A & B & _). split; auto. split; auto. split; [apply correct_good, ideal_atan2_correct|].
  assert (P : 0 <= B2R pi64) by (rewrite pi64_val; lra). assert (P2 : 0 <= B2R half_pi64) by (rewrite half_pi64_val; lra). split.
  - repeat split; try reflexivity; [rewrite Rabs_right; lra|rewrite Rabs_right; lra|unfold fneg; rewrite B2R_Bopp, Rabs_Ropp, Rabs_right; lra].
  - split; [reflexivity|]. split; [reflexivity|]. split; [reflexivity|]. rewrite fone_val. split; [|split].
    + unfold f, B2R, F2R; cbn. rewrite Rabs_right; lra.
    + rewrite Rabs_R1; lra.
    + cbn. rewrite Rabs_R0. lra.
Qed.
