(** * C12-C14: distances *)
From Coq Require Import List Arith Lia Bool Reals Lra.
From Verif Require Import Num Py Nd MUtil MRotation MCore Spec SpecArr LNum LTrig LVec LArr LAngle LDist.
Import ListNotations.
Local Open Scope R_scope.

(** ** C12.  From one position A to m positions B, with a scalar radius or one per position *)
Theorem C12_distance_is_radius_times_angle : forall A B m u v radius k r,
  cols A 1 u -> cols B m v -> u 0%nat <> v0 -> (forall j, (j < m)%nat -> v j <> v0) ->
  vals radius k r -> (k = 1%nat \/ k = m) ->
  returns (great_circle_distance A B radius) [] (fun D =>
    list1 D m (fun j => angle (u 0%nat) (v j) * r (cl k j))).
Proof.
  intros A B m u v radius k r HA HB Hu Hv Hr Hk.
  assert (D : bdim m k = Some m) by (destruct Hk as [->| ->]; [apply bdim_1_r|apply bdim_refl]).
  destruct (gcd_spec _ _ _ _ _ _ _ _ HA HB Hu Hv Hr m D) as (X & E & HX).
  exists X; split; auto. eapply list1_ext; [|apply HX]. intros j Hj. simpl. rewrite (cl_id m j Hj). reflexivity.
Qed.
Print Assumptions C12_distance_is_radius_times_angle.

(** the value returned for two single positions and a scalar radius *)
Definition gc_returns (A B radius : arr num) (d : R) : Prop :=
  returns (great_circle_distance A B radius) [] (fun D => list1 D 1 (fun _ => d)).

Lemma gc_returns_iff A B u v radius r d :
  cols A 1 (fun _ => u) -> cols B 1 (fun _ => v) -> u <> v0 -> v <> v0 -> scalar radius r ->
  gc_returns A B radius d <-> d = angle u v * r.
Proof.
  intros HA HB Hu Hv Hr.
  destruct (gcd_spec _ _ _ _ _ _ _ _ HA HB Hu (fun _ _ => Hv) (vals_scalar _ _ Hr) 1%nat eq_refl)
    as (X & E & HX).
  split.
  - intros (Y & E' & [S C]). rewrite E in E'. injection E' as <-. destruct HX as [_ HX].
    eapply fin_unique; [apply (C 0%nat); lia|apply (HX 0%nat); lia].
  - intros ->. exists X; split; auto.
Qed.

Theorem C12_metric : forall A B C u v w radius r,
  cols A 1 (fun _ => u) -> cols B 1 (fun _ => v) -> cols C 1 (fun _ => w) ->
  u <> v0 -> v <> v0 -> w <> v0 -> scalar radius r -> 0 < r ->
  exists dAB dBC dAC dBA,
    gc_returns A B radius dAB /\ gc_returns B C radius dBC /\
    gc_returns A C radius dAC /\ gc_returns B A radius dBA /\
    0 <= dAB <= PI * r /\ dBA = dAB /\ dAC <= dAB + dBC /\
    (dAB = 0 <-> same_direction u v) /\ (dAB = PI * r <-> same_direction u (vneg v)).
Proof.
  intros A B C u v w radius r HA HB HC Hu Hv Hw Hr Pr.
  exists (angle u v * r), (angle v w * r), (angle u w * r), (angle v u * r).
  repeat split; try (eapply gc_returns_iff; eauto; fail).
  - apply Rmult_le_pos; [apply angle_range|lra].
  - apply Rmult_le_compat_r; [lra|apply angle_range].
  - rewrite angle_sym; reflexivity.
  - pose proof (angle_triangle u v w Hu Hv Hw). nra.
  - intros E. apply angle_0; auto. nra.
  - intros E. rewrite (angle_same _ _ Hv E). ring.
  - intros E. apply angle_pi; auto. apply Rmult_eq_reg_r with r; lra.
  - intros E. apply (angle_pi u v Hu Hv) in E. rewrite E. ring.
Qed.
Print Assumptions C12_metric.

Example C12_example : cols (arr3 [V 1 0 0]) 1 (fun _ => V 1 0 0) /\ V 1 0 0 <> v0 /\ V 0 3 4 <> v0.
Proof.
  split; [|split; intros [=]; lra]. split; [reflexivity|].
  intros j Hj. assert (j = 0)%nat by lia. subst. apply (arr3_cols [V 1 0 0]); simpl; lia.
Qed.

(** ** C13 *)
(** whenever A has n >= 2 columns and B has n columns or one, n*n numbers come back instead of n *)
Theorem C13_pairwise_distances_refuted : forall A B n m u v radius r,
  cols A n u -> cols B m v -> scalar radius r -> (2 <= n)%nat -> (m = n \/ m = 1%nat) ->
  returns (great_circle_distance A B radius) [] (fun D => shape D = [(n * n)%nat] /\ shape D <> [n]).
Proof.
  intros A B n m u v radius r HA HB Hr Hn Hm.
  assert (Bd : bdim n m = Some n) by (destruct Hm as [->| ->]; [apply bdim_refl|apply bdim_1_r]).
  destruct (gcd_shape _ _ _ _ _ _ _ _ HA HB Hr Hn Bd) as (D & E & S).
  exists D; split; auto. split; auto. rewrite S. intros [=]. nia.
Qed.
Print Assumptions C13_pairwise_distances_refuted.

(** what does hold: one position A against n positions B gives the n distances *)
Theorem C13_one_to_many_partial : forall A B n u v radius r,
  cols A 1 u -> cols B n v -> u 0%nat <> v0 -> (forall j, (j < n)%nat -> v j <> v0) ->
  scalar radius r ->
  returns (great_circle_distance A B radius) [] (fun D =>
    list1 D n (fun j => angle (u 0%nat) (v j) * r)).
Proof.
  intros A B n u v radius r HA HB Hu Hv Hr.
  apply (C12_distance_is_radius_times_angle A B n u v radius 1 (fun _ => r)); auto.
  apply vals_scalar; auto.
Qed.
Print Assumptions C13_one_to_many_partial.

(** ** C14 *)
(** columns of A and B paired with broadcasting, radius scalar or vector *)
Theorem C14_euclidean_is_chord : forall A B n m k u v radius l r,
  cols A n u -> cols B m v -> bdim n m = Some k -> vals radius l r -> (l = 1%nat \/ l = k) ->
  returns (euclidean_distance A B radius) [] (fun D =>
    list1 D k (fun j => r (cl l j) * vnorm (vsub (v (cl m j)) (u (cl n j))))).
Proof.
  intros A B n m k u v radius l r HA HB D Hr Hl.
  assert (D2 : bdim k l = Some k) by (destruct Hl as [->| ->]; [apply bdim_1_r|apply bdim_refl]).
  destruct (eud_spec _ _ _ _ _ _ _ _ _ _ _ HA HB D Hr D2) as (X & E & HX).
  exists X; split; auto. eapply list1_ext; [|apply HX]. intros j Hj. simpl.
  rewrite (cl_id k j Hj). ring.
Qed.
Print Assumptions C14_euclidean_is_chord.

Definition eu_returns (A B radius : arr num) (d : R) : Prop :=
  returns (euclidean_distance A B radius) [] (fun D => list1 D 1 (fun _ => d)).
Lemma eu_returns_intro A B u v radius r :
  cols A 1 (fun _ => u) -> cols B 1 (fun _ => v) -> scalar radius r ->
  eu_returns A B radius (r * vnorm (vsub v u)).
Proof.
  intros HA HB Hr.
  apply (C14_euclidean_is_chord A B 1 1 1 _ _ radius 1 (fun _ => r) HA HB eq_refl (vals_scalar _ _ Hr)); auto.
Qed.

(** metric, and comparison with the great circle distance of unit vectors *)
Theorem C14_metric : forall A B C u v w radius r,
  cols A 1 (fun _ => u) -> cols B 1 (fun _ => v) -> cols C 1 (fun _ => w) ->
  scalar radius r -> 0 < r ->
  exists dAB dBC dAC dBA,
    eu_returns A B radius dAB /\ eu_returns B C radius dBC /\
    eu_returns A C radius dAC /\ eu_returns B A radius dBA /\
    0 <= dAB /\ dBA = dAB /\ dAC <= dAB + dBC /\ (dAB = 0 <-> u = v) /\
    (vnorm u = 1 -> vnorm v = 1 -> forall g, gc_returns A B radius g ->
       dAB = 2 * r * sin (g / r / 2) /\ dAB <= g).
Proof.
  intros A B C u v w radius r HA HB HC Hr Pr.
  exists (r * vnorm (vsub v u)), (r * vnorm (vsub w v)), (r * vnorm (vsub w u)), (r * vnorm (vsub u v)).
  repeat match goal with |- _ /\ _ => split end; try (eapply eu_returns_intro; eauto; fail).
  - apply Rmult_le_pos; [lra|apply vnorm_pos].
  - f_equal. replace (vsub u v) with (vneg (vsub v u)) by vring. apply vnorm_neg.
  - pose proof (norm_triangle (vsub v u) (vsub w v)) as T.
    replace (vadd (vsub v u) (vsub w v)) with (vsub w u) in T by vring. nra.
  - split; intros E.
    + assert (Z : vnorm (vsub v u) = 0) by nra. apply vnorm_0 in Z.
      destruct u, v. unfold vsub, v0 in Z; simpl in Z. injection Z; intros. f_equal; lra.
    + subst. rewrite vsub_self, vnorm_v0. ring.
  - intros Hu Hv g Hg.
    apply (gc_returns_iff A B u v radius r g HA HB (vnorm_inv _ Hu) (vnorm_inv _ Hv) Hr) in Hg.
    subst g. rewrite (chord_angle u v Hu Hv). replace (angle u v * r / r / 2) with (angle u v / 2) by (field; lra).
    split; [ring|]. pose proof (angle_range u v). pose proof (sin_le_x (angle u v / 2)). nra.
Qed.
Print Assumptions C14_metric.

Example C14_example : bdim 1 5 = Some 5%nat /\ bdim 5 5 = Some 5%nat /\ vnorm (V 0 1 0) = 1.
Proof. repeat split. apply vnorm_unit. unfold vdot; simpl; ring. Qed.
