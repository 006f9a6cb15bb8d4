(** * Angles between vectors *)
From Coq Require Import List Arith Lia Bool Reals Lra.
From Verif Require Import Num Spec LNum LTrig LVec.
Local Open Scope R_scope.

Lemma narctan2_acos y x a : 0 <= y -> x ≈ a -> 0 < a * a + y * y ->
  narctan2 (Fin y) x ≈ acos (a / sqrt (a * a + y * y)).
Proof.
  intros Hy Hx Hr. destruct (Req_EM_T y 0) as [->|Ny].
  - replace (a * a + 0 * 0) with (a * a) in * by ring. rewrite sqrt_sq_abs.
    assert (Na : a <> 0) by nra.
    rewrite (narctan2_fin_eq _ _ 0 a (fin_Fin 0) Hx). rewrite (is_zero_fin _ _ (fin_Fin 0)).
    destruct (Req_EM_T 0 0); [|lra]. simpl sbit at 2. simpl sbit at 2.
    destruct (Rlt_dec 0 0); [lra|].
    apply fin_inv in Hx. destruct Hx as [->|[-> ?]]; [|lra]. simpl sbit.
    destruct (Rlt_dec a 0).
    + rewrite Rabs_left by lra. replace (a / - a) with (- 1) by (field; lra).
      eapply fin_eq; [apply signed_fin|]. symmetry. apply acos_unique; [pose proof PI_RGT_0; lra|apply cos_PI].
    + rewrite Rabs_right by lra. replace (a / a) with 1 by (field; lra).
      eapply fin_eq; [apply signed_fin|]. symmetry. apply acos_unique; [pose proof PI_RGT_0; lra|apply cos_0].
  - rewrite <- atan2_acos; auto; [|intros; lra]. apply narctan2_nz; auto. apply fin_Fin.
Qed.

Section Two.
Variables u v : vec.
Hypothesis Hu : u <> v0.
Hypothesis Hv : v <> v0.

Lemma nn_pos : 0 < vnorm u * vnorm v.
Proof. apply Rmult_lt_0_compat; apply vnorm_nz; auto. Qed.

Lemma cos_bound : -1 <= vdot u v / (vnorm u * vnorm v) <= 1.
Proof.
  pose proof nn_pos as P. pose proof (cauchy_schwarz u v) as C.
  assert (- (vnorm u * vnorm v) <= vdot u v <= vnorm u * vnorm v).
  { unfold Rabs in C. destruct (Rcase_abs (vdot u v)); lra. }
  split; apply Rmult_le_reg_r with (vnorm u * vnorm v); auto; field_simplify; lra || (split; apply Rgt_not_eq, vnorm_nz; auto) || auto.
Qed.

Lemma angle_range : 0 <= angle u v <= PI.
Proof. apply acos_bound. Qed.

Lemma cos_angle : cos (angle u v) = vdot u v / (vnorm u * vnorm v).
Proof. unfold angle. apply cos_acos, cos_bound. Qed.

Lemma dot_angle : vdot u v = vnorm u * vnorm v * cos (angle u v).
Proof. rewrite cos_angle. field. split; apply Rgt_not_eq, vnorm_nz; auto. Qed.

Lemma gc_angle x : x ≈ vdot u v -> narctan2 (Fin (vnorm (vcross u v))) x ≈ angle u v.
Proof.
  intros Hx. pose proof nn_pos as P.
  assert (E : vdot u v * vdot u v + vnorm (vcross u v) * vnorm (vcross u v)
              = (vnorm u * vnorm v) * (vnorm u * vnorm v)).
  { rewrite vcross_norm_sq. ring. }
  unfold angle. replace (vnorm u * vnorm v) with
      (sqrt (vdot u v * vdot u v + vnorm (vcross u v) * vnorm (vcross u v))).
  - apply narctan2_acos; auto; [apply vnorm_pos|]. rewrite E. apply Rmult_lt_0_compat; auto.
  - rewrite E, sqrt_sq_abs, Rabs_right; lra.
Qed.

Lemma sin_angle : vnorm (vcross u v) = vnorm u * vnorm v * sin (angle u v).
Proof.
  pose proof nn_pos as P. pose proof angle_range as A.
  assert (0 <= sin (angle u v)) by (apply sin_ge_0; lra).
  assert (S : vnorm (vcross u v) * vnorm (vcross u v)
              = (vnorm u * vnorm v * sin (angle u v)) * (vnorm u * vnorm v * sin (angle u v))).
  { rewrite vcross_norm_sq, dot_angle. pose proof (sin2_cos2 (angle u v)) as E. unfold Rsqr in E.
    replace (vnorm u * vnorm u * (vnorm v * vnorm v)) with
      (vnorm u * vnorm u * (vnorm v * vnorm v) * (sin (angle u v) * sin (angle u v) + cos (angle u v) * cos (angle u v)))
      by (rewrite E; ring). ring. }
  apply Rsqr_inj; auto; [apply vnorm_pos|]. apply Rmult_le_pos; lra.
Qed.

Lemma angle_0 : angle u v = 0 -> same_direction u v.
Proof.
  intros E. pose proof dot_angle as D. rewrite E, cos_0 in D.
  pose proof (vnorm_nz u Hu). pose proof (vnorm_nz v Hv).
  assert (X : direction u = direction v).
  { apply vdot_unit_1; try apply direction_unit; auto. unfold direction.
    rewrite vdot_scale_l, vdot_scale_r, D. field. lra. }
  exists (vnorm u * / vnorm v). split; [apply Rmult_lt_0_compat; auto; apply Rinv_0_lt_compat; auto|].
  rewrite (direction_decomp u Hu) at 1. rewrite X. unfold direction. apply vscale_vscale.
Qed.
End Two.

Lemma angle_sym u v : angle u v = angle v u.
Proof. unfold angle. rewrite vdot_comm, (Rmult_comm (vnorm u)). reflexivity. Qed.

Lemma angle_self u : u <> v0 -> angle u u = 0.
Proof.
  intros Hu. unfold angle. pose proof (vnorm_nz u Hu). rewrite vnorm_sq.
  pose proof (vdot_nz u Hu). replace (vdot u u / vdot u u) with 1 by (field; lra). apply acos_1.
Qed.

Lemma angle_scale_l c u v : 0 < c -> angle (vscale c u) v = angle u v.
Proof.
  intros Hc. unfold angle. f_equal. rewrite vdot_scale_l, vnorm_scale, Rabs_right by lra.
  destruct (Req_dec (vnorm u * vnorm v) 0) as [E|E].
  - rewrite Rmult_assoc, E, Rmult_0_r. unfold Rdiv. rewrite Rinv_0. ring.
  - field. split; [|split]; intros Z; rewrite Z in *; lra.
Qed.
Lemma angle_scale_r c u v : 0 < c -> angle u (vscale c v) = angle u v.
Proof. intros. rewrite angle_sym, angle_scale_l, angle_sym; auto. Qed.

Lemma angle_same u v : v <> v0 -> same_direction u v -> angle u v = 0.
Proof. intros Hv (c & Hc & ->). rewrite angle_scale_l by auto. apply angle_self; auto. Qed.

Lemma angle_unit u v : vnorm u = 1 -> vnorm v = 1 -> angle u v = acos (vdot u v).
Proof. intros Hu Hv. unfold angle. rewrite Hu, Hv. f_equal. field. Qed.
Lemma cos_angle_unit u v : vnorm u = 1 -> vnorm v = 1 -> cos (angle u v) = vdot u v.
Proof. intros Hu Hv. rewrite cos_angle by (apply vnorm_inv; auto). rewrite Hu, Hv. field. Qed.

Lemma angle_le u v w : vnorm u = 1 -> vnorm v = 1 -> vnorm w = 1 ->
  vdot u v <= vdot u w -> angle u w <= angle u v.
Proof.
  intros Hu Hv Hw H. rewrite <- (cos_angle_unit u v), <- (cos_angle_unit u w) in H by auto.
  destruct (Rle_lt_dec (angle u w) (angle u v)) as [|L]; auto. exfalso.
  pose proof (cos_decreasing_1 (angle u v) (angle u w)) as C.
  pose proof (angle_range u v). pose proof (angle_range u w). lra.
Qed.
Lemma angle_lt u v w : vnorm u = 1 -> vnorm v = 1 -> vnorm w = 1 ->
  vdot u v < vdot u w -> angle u w < angle u v.
Proof.
  intros Hu Hv Hw H. rewrite <- (cos_angle_unit u v), <- (cos_angle_unit u w) in H by auto.
  destruct (Rlt_le_dec (angle u w) (angle u v)) as [|L]; auto. exfalso.
  pose proof (cos_decr_1 (angle u v) (angle u w)) as C.
  pose proof (angle_range u v). pose proof (angle_range u w). lra.
Qed.

Lemma angle_triangle_unit a b c : vnorm a = 1 -> vnorm b = 1 -> vnorm c = 1 ->
  angle a c <= angle a b + angle b c.
Proof.
  intros Ha Hb Hc. pose proof (angle_range a b) as R1. pose proof (angle_range b c) as R2.
  pose proof (angle_range a c) as R3.
  destruct (Rle_lt_dec PI (angle a b + angle b c)) as [L|L]; [lra|].
  destruct (Rle_lt_dec (angle a c) (angle a b + angle b c)) as [|G]; auto. exfalso.
  assert (C : cos (angle a c) < cos (angle a b + angle b c)) by (apply cos_decreasing_1; lra).
  rewrite cos_plus, !cos_angle_unit in C by auto.
  assert (Sab : sin (angle a b) * sin (angle a b) = 1 - vdot a b * vdot a b).
  { pose proof (sin2_cos2 (angle a b)) as E. unfold Rsqr in E. rewrite cos_angle_unit in E by auto. lra. }
  assert (Sbc : sin (angle b c) * sin (angle b c) = 1 - vdot b c * vdot b c).
  { pose proof (sin2_cos2 (angle b c)) as E. unfold Rsqr in E. rewrite cos_angle_unit in E by auto. lra. }
  assert (P1 : 0 <= sin (angle a b)) by (apply sin_ge_0; lra).
  assert (P2 : 0 <= sin (angle b c)) by (apply sin_ge_0; lra).
  apply vnorm_unit in Ha. apply vnorm_unit in Hb. apply vnorm_unit in Hc.
  set (p := vsub a (vscale (vdot a b) b)). set (q := vsub c (vscale (vdot b c) b)).
  assert (Np : vnorm p = sin (angle a b)).
  { apply vnorm_eq; auto. rewrite Sab. unfold p.
    rewrite !vdot_sub_l, !vdot_sub_r, !vdot_scale_l, !vdot_scale_r, (vdot_comm b a). rewrite Ha, Hb. ring. }
  assert (Nq : vnorm q = sin (angle b c)).
  { apply vnorm_eq; auto. rewrite Sbc. unfold q.
    rewrite !vdot_sub_l, !vdot_sub_r, !vdot_scale_l, !vdot_scale_r, (vdot_comm c b). rewrite Hc, Hb. ring. }
  pose proof (cauchy_schwarz p q) as CS. rewrite Np, Nq in CS.
  assert (D : vdot p q = vdot a c - vdot a b * vdot b c).
  { unfold p, q. rewrite !vdot_sub_l, !vdot_sub_r, !vdot_scale_l, !vdot_scale_r, Hb. ring. }
  rewrite D in CS. unfold Rabs in CS. destruct (Rcase_abs _); lra.
Qed.

Lemma angle_direction u v : u <> v0 -> v <> v0 -> angle (direction u) (direction v) = angle u v.
Proof.
  intros Hu Hv. unfold direction. rewrite angle_scale_l, angle_scale_r; auto;
    apply Rinv_0_lt_compat, vnorm_nz; auto.
Qed.
Lemma angle_triangle a b c : a <> v0 -> b <> v0 -> c <> v0 -> angle a c <= angle a b + angle b c.
Proof.
  intros Ha Hb Hc. rewrite <- (angle_direction a c), <- (angle_direction a b), <- (angle_direction b c) by auto.
  apply angle_triangle_unit; apply direction_unit; auto.
Qed.

(** chord *)
Lemma chord_angle u v : vnorm u = 1 -> vnorm v = 1 -> vnorm (vsub v u) = 2 * sin (angle u v / 2).
Proof.
  intros Hu Hv. pose proof (angle_range u v) as A.
  assert (0 <= sin (angle u v / 2)) by (apply sin_ge_0; lra).
  apply vnorm_eq; [lra|]. rewrite !vdot_sub_l, !vdot_sub_r.
  pose proof (cos_angle_unit u v Hu Hv) as C. apply vnorm_unit in Hu. apply vnorm_unit in Hv.
  rewrite Hu, Hv, (vdot_comm v u), <- C.
  replace (angle u v) with (2 * (angle u v / 2)) at 1 2 by field. rewrite cos_2a_sin. ring.
Qed.

Lemma sin_le_x x : 0 <= x -> sin x <= x.
Proof. intros [H| <-]; [left; apply sin_lt_x; auto|rewrite sin_0; lra]. Qed.

Lemma angle_pi u v : u <> v0 -> v <> v0 -> (angle u v = PI <-> same_direction u (vneg v)).
Proof.
  intros Hu Hv. pose proof (vnorm_nz u Hu). pose proof (vnorm_nz v Hv).
  assert (Hv' : vneg v <> v0) by (intros E; apply Hv; rewrite <- (vneg_neg v), E; vring).
  assert (X : angle u (vneg v) = PI - angle u v).
  { unfold angle. rewrite vdot_neg_r, vnorm_neg. rewrite <- acos_opp. f_equal. field. lra. }
  split; intros E.
  - apply angle_0; auto. lra.
  - pose proof (angle_same u (vneg v) Hv' E). lra.
Qed.
