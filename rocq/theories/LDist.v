(** * Distance functions on arrays *)
From Coq Require Import List Arith Lia Bool Reals Lra.
From Verif Require Import Num Py Nd MUtil MRotation MCore Spec SpecArr LNum LTrig LVec LArr LAngle.
Import ListNotations.
Local Open Scope R_scope.

(** ravel of 1 x m and of m *)
Lemma ravel_1m (a : arr num) m r : keep a m r -> list1 (ravel a) m r.
Proof.
  intros [S C]. unfold ravel, size. rewrite S. split; [simpl; f_equal; lia|].
  intros j Hj. cbn [get]. unfold at_; cbn [nth unravel prod fold_right].
  rewrite !Nat.mul_1_r, Nat.div_1_r.
  rewrite Nat.mod_small, Nat.div_small by lia. apply C; auto.
Qed.
Lemma ravel_list1 (a : arr num) m r : list1 a m r -> list1 (ravel a) m r.
Proof.
  intros [S C]. unfold ravel, size. rewrite S. split; [simpl; f_equal; lia|].
  intros j Hj. cbn [get]. unfold at_; cbn [nth unravel prod fold_right].
  rewrite Nat.div_1_r. apply C; auto.
Qed.

Lemma gcd_spec A B m u v radius k r :
  cols A 1 u -> cols B m v -> u 0%nat <> v0 -> (forall j, (j < m)%nat -> v j <> v0) ->
  vals radius k r -> forall l, bdim m k = Some l ->
  exists D, great_circle_distance A B radius = ret D /\
    list1 D l (fun j => angle (u 0%nat) (v (cl m j)) * r (cl k j)).
Proof.
  intros HA HB Hu Hv Hr l D. unfold great_circle_distance.
  step (cross_cols _ _ _ _ _ _ _ HA HB (bdim_1_l m)) X HX.
  destruct (norm0_cols _ _ _ HX) as (N & E & SN & GN). rewrite E, bind_ret; clear E.
  destruct (dot_T_cols _ _ _ _ _ _ HA HB) as (Dt & E & SD & GD). rewrite E, bind_ret; clear E.
  unfold map2 at 1. rewrite SN, SD. unfold bshape; cbn [rev app bshape_rev]. rewrite bdim_refl.
  cbn [rev app]. rewrite bind_ret.
  apply (mul_list1_vals _ _ m k l (fun j => angle (u 0%nat) (v j)) r); auto. apply ravel_1m. split; [reflexivity|]. intros j Hj. cbn [get].
  rewrite bidx_1_2, bidx_2, (cl_id m j Hj). change (cl 1 0) with 0%nat.
  rewrite GN by auto. rewrite cl_1, (cl_id m j Hj). apply gc_angle; auto.
Qed.

Lemma gcd_shape A B n m u v radius r :
  cols A n u -> cols B m v -> scalar radius r -> (2 <= n)%nat -> bdim n m = Some n ->
  exists D, great_circle_distance A B radius = ret D /\ shape D = [(n * n)%nat].
Proof.
  intros HA HB [Sr Cr] Hn Bd. unfold great_circle_distance.
  step (cross_cols _ _ _ _ _ _ _ HA HB Bd) X HX.
  destruct (norm0_cols _ _ _ HX) as (N & E & SN & GN). rewrite E, bind_ret; clear E.
  destruct (dot_T_cols _ _ _ _ _ _ HA HB) as (Dt & E & SD & GD). rewrite E, bind_ret; clear E.
  unfold map2 at 1. rewrite SN, SD. unfold bshape; cbn [rev app bshape_rev]. rewrite Bd.
  cbn [rev app]. rewrite bind_ret. unfold map2. cbn [shape ravel]. rewrite Sr, bshape_nil_r.
  eexists; split; [reflexivity|]. cbn [shape]. unfold size; simpl. f_equal; lia.
Qed.

Lemma eud_spec A B n m k u v radius l r p :
  cols A n u -> cols B m v -> bdim n m = Some k -> vals radius l r -> bdim k l = Some p ->
  exists D, euclidean_distance A B radius = ret D /\
    list1 D p (fun j => vnorm (vsub (v (cl m (cl k j))) (u (cl n (cl k j)))) * r (cl l j)).
Proof.
  intros HA HB D Hr D2. unfold euclidean_distance.
  rewrite bdim_comm in D.
  step (sub_cols _ _ _ _ _ _ _ HB HA D) X HX.
  step (norm0_list1 _ _ _ HX) N HN.
  apply (mul_list1_vals _ _ _ _ _ _ _ (ravel_list1 _ _ _ HN) Hr D2).
Qed.
