(** * Great circles: geometry and array evaluation *)
From Coq Require Import List Arith Lia Bool Reals Lra String Ascii.
From Verif Require Import Num Py Nd MUtil MRotation MCore Spec SpecArr LNum LTrig LVec LArr LAngle LDist.
Import ListNotations.
Local Open Scope R_scope.

(** ** geometry *)
Lemma rsign_0 : rsign 0 = 0. Proof. unfold rsign. destruct (Rlt_dec 0 0); lra. Qed.
Lemma rsign_pos x : 0 < x -> rsign x = 1.
Proof. intros H. unfold rsign. destruct (Rlt_dec x 0); [lra|]. destruct (Rlt_dec 0 x); lra. Qed.
Lemma asin_neg' x : asin (- x) = - asin x. Proof. apply asin_opp. Qed.

Lemma abs_asin s : -1 <= s <= 1 -> Rabs (asin s) = acos (sqrt (1 - s * s)).
Proof.
  intros H. symmetry. apply acos_unique.
  - split; [apply Rabs_pos|]. pose proof (asin_bound s). pose proof PI_RGT_0.
    unfold Rabs; destruct (Rcase_abs _); lra.
  - assert (C : cos (Rabs (asin s)) = cos (asin s)).
    { unfold Rabs; destruct (Rcase_abs _); auto. apply cos_neg. }
    rewrite C, cos_asin by auto. reflexivity.
Qed.

(** component of b in the plane orthogonal to the unit vector c *)
Definition foot (c b : vec) : vec := vsub b (vscale (vdot c b) c).

Lemma foot_orth c b : vnorm c = 1 -> vdot (foot c b) c = 0.
Proof.
  intros H. apply vnorm_unit in H. unfold foot. rewrite vdot_sub_l, vdot_scale_l, H, (vdot_comm b c). ring.
Qed.
Lemma foot_dot c b : vnorm c = 1 -> vnorm b = 1 -> vdot (foot c b) b = 1 - vdot c b * vdot c b.
Proof. intros H1 H2. apply vnorm_unit in H2. unfold foot. rewrite vdot_sub_l, vdot_scale_l, H2. ring. Qed.
Lemma foot_sq c b : vnorm c = 1 -> vnorm b = 1 -> vdot (foot c b) (foot c b) = 1 - vdot c b * vdot c b.
Proof.
  intros H1 H2. unfold foot at 2. rewrite vdot_sub_r, vdot_scale_r, foot_orth, foot_dot by auto. ring.
Qed.
Lemma foot_zero c b : vnorm c = 1 -> vnorm b = 1 -> foot c b = v0 -> b = c \/ b = vneg c.
Proof.
  intros H1 H2 E. pose proof (foot_sq c b H1 H2) as S. rewrite E in S.
  replace (vdot v0 v0) with 0 in S by vring.
  assert (K : vdot c b = 1 \/ vdot c b = -1).
  { assert ((vdot c b - 1) * (vdot c b + 1) = 0) as Z by lra. apply Rmult_integral in Z. lra. }
  destruct K as [K|K].
  - left. symmetry. apply vdot_unit_1; auto.
  - right. rewrite vdot_comm in K. apply vdot_unit_m1; auto.
Qed.
Lemma foot_triple c b : vnorm c = 1 -> vcross c (vcross b c) = foot c b.
Proof.
  intros H. apply vnorm_unit in H. rewrite triple_cross, H, vscale_1, (vdot_comm c b).
  unfold foot. rewrite (vdot_comm c b). reflexivity.
Qed.

(** every point of the circle is at least |asin (c.b)| away; the foot attains it *)
Lemma circle_far c b p : vnorm c = 1 -> vnorm b = 1 -> vnorm p = 1 -> vdot p c = 0 ->
  Rabs (asin (vdot c b)) <= angle b p.
Proof.
  intros Hc Hb Hp O.
  assert (Hcb := vdot_unit_bound c b Hc Hb).
  rewrite abs_asin by auto. rewrite angle_unit by auto.
  (* b.p = foot . p <= |foot| *)
  assert (D : vdot b p = vdot (foot c b) p).
  { unfold foot. rewrite vdot_sub_l, vdot_scale_l, (vdot_comm c p), O. ring. }
  pose proof (cauchy_schwarz (foot c b) p) as CS. rewrite Hp, Rmult_1_r in CS.
  assert (N : vnorm (foot c b) = sqrt (1 - vdot c b * vdot c b)).
  { unfold vnorm. rewrite foot_sq; auto. }
  rewrite N, <- D in CS.
  assert (L : vdot b p <= sqrt (1 - vdot c b * vdot c b)) by (unfold Rabs in CS; destruct (Rcase_abs _); lra).
  assert (B2 : sqrt (1 - vdot c b * vdot c b) <= 1).
  { rewrite <- sqrt_1 at 2. apply sqrt_le_1_alt. nra. }
  pose proof (vdot_unit_bound b p Hb Hp) as Bp. pose proof (sqrt_pos (1 - vdot c b * vdot c b)).
  destruct (Rle_lt_dec (acos (sqrt (1 - vdot c b * vdot c b))) (acos (vdot b p))) as [|G]; auto. exfalso.
  pose proof (cos_decreasing_1 (acos (vdot b p)) (acos (sqrt (1 - vdot c b * vdot c b)))) as Cd.
  rewrite !cos_acos in Cd by lra.
  pose proof (acos_bound (vdot b p)). pose proof (acos_bound (sqrt (1 - vdot c b * vdot c b))). lra.
Qed.
Lemma foot_near c b : vnorm c = 1 -> vnorm b = 1 -> foot c b <> v0 ->
  angle b (direction (foot c b)) = Rabs (asin (vdot c b)).
Proof.
  intros Hc Hb Z. pose proof (direction_unit _ Z) as U. rewrite angle_unit by auto.
  rewrite abs_asin by (apply vdot_unit_bound; auto). f_equal.
  unfold direction. rewrite vdot_scale_r, vdot_comm, foot_dot by auto. unfold vnorm. rewrite foot_sq by auto.
  assert (P : 0 < 1 - vdot c b * vdot c b) by (rewrite <- foot_sq by auto; apply vdot_nz; auto).
  rewrite <- (sqrt_sqrt (1 - vdot c b * vdot c b)) at 2 by lra.
  field. apply Rgt_not_eq, sqrt_lt_R0; auto.
Qed.
Lemma circle_near c b a : vnorm c = 1 -> vnorm b = 1 -> vnorm a = 1 -> vdot a c = 0 ->
  exists p, vnorm p = 1 /\ vdot p c = 0 /\ angle b p = Rabs (asin (vdot c b)).
Proof.
  intros Hc Hb Ha O. destruct (vec_eq_dec (foot c b) v0) as [Z|NZ].
  - exists a. split; auto. split; auto.
    assert (O' : vdot b a = 0).
    { destruct (foot_zero c b Hc Hb Z) as [-> | ->]; rewrite ?vdot_neg_l, vdot_comm, O; ring. }
    rewrite angle_unit, O', acos_0 by auto.
    pose proof (foot_sq c b Hc Hb) as S. rewrite Z in S. replace (vdot v0 v0) with 0 in S by vring.
    rewrite abs_asin by (apply vdot_unit_bound; auto). rewrite <- S, sqrt_0, acos_0. reflexivity.
  - exists (direction (foot c b)). split; [apply direction_unit; auto|]. split; [|apply foot_near; auto].
    unfold direction. rewrite vdot_scale_l, foot_orth by auto. ring.
Qed.

(** ** array evaluation *)
Lemma gcn_cols A B n m k u v : cols A n u -> cols B m v -> bdim n m = Some k ->
  exists C, great_circle_normal A B = ret C /\ ocols C k (fun j => odir (vcross (u (cl n j)) (v (cl m j)))).
Proof.
  intros HA HB D. unfold great_circle_normal.
  step (cross_cols _ _ _ _ _ _ _ HA HB D) X HX. apply (unitnan_cols _ _ _ HX).
Qed.
Lemma gcn_cols_nz A B n m k u v : cols A n u -> cols B m v -> bdim n m = Some k ->
  (forall j, (j < k)%nat -> vcross (u (cl n j)) (v (cl m j)) <> v0) ->
  exists C, great_circle_normal A B = ret C /\ cols C k (fun j => direction (vcross (u (cl n j)) (v (cl m j)))).
Proof.
  intros HA HB D Z. destruct (gcn_cols _ _ _ _ _ _ _ HA HB D) as (C & E & HC). exists C; split; auto.
  eapply ocols_cols; [apply HC|]. intros j Hj. simpl. apply odir_nz; auto.
Qed.

Lemma ravel_neg_1m (d : arr num) m r : shape d = [1%nat; m] ->
  (forall j, (j < m)%nat -> get d [0%nat; j] ≈ r j) ->
  list1 (ravel (map1 nneg d)) m (fun j => - r j).
Proof.
  intros S C. apply ravel_1m. split; [exact S|]. intros j Hj. unfold map1; cbn [get].
  apply fin_neg; auto.
Qed.

(** first letter of the method *)
Definition euclid (method : string) : bool :=
  match method with EmptyString => false | String.String c _ => Ascii.eqb (lower_ascii c) "e"%char end.
Lemma method_ok method : method <> EmptyString -> method_is_euclidean method = ret (euclid method).
Proof. destruct method; simpl; intros H; congruence || reflexivity. Qed.

(** sine of the cross-track angle *)
Definition xsin (a1 a2 b : vec) : R := - vdot (direction (vcross a1 a2)) b.

Lemma xtd_spec A1 A2 B m u1 u2 v method radius k r :
  cols A1 1 u1 -> cols A2 1 u2 -> cols B m v -> vcross (u1 0%nat) (u2 0%nat) <> v0 ->
  (forall j, (j < m)%nat -> vnorm (v j) = 1) -> method <> EmptyString ->
  vals radius k r -> bdim m k = Some m ->
  exists D, cross_track_distance (A1, A2) B method radius = ret D /\
    list1 D m (fun j => (if euclid method then xsin (u1 0%nat) (u2 0%nat) (v j)
                         else asin (xsin (u1 0%nat) (u2 0%nat) (v j))) * r (cl k j)).
Proof.
  intros H1 H2 HB Z Hv Hm Hr D. unfold cross_track_distance. cbn [fst snd].
  destruct (gcn_cols_nz _ _ _ _ _ _ _ H1 H2 (bdim_refl 1)) as (C & E & HC).
  { intros j Hj. rewrite cl_1. auto. }
  rewrite E, bind_ret; clear E.
  assert (HC' : cols C 1 (fun _ => direction (vcross (u1 0%nat) (u2 0%nat)))).
  { eapply cols_ext; [|apply HC]. intros j Hj. cbn beta. rewrite cl_1. reflexivity. }
  destruct (dot_T_cols _ _ _ _ _ _ HC' HB) as (Dt & E & SD & GD). rewrite E, bind_ret; clear E.
  rewrite (method_ok method Hm), bind_ret.
  assert (L : list1 (ravel (map1 nneg Dt)) m (fun j => xsin (u1 0%nat) (u2 0%nat) (v j))).
  { apply ravel_neg_1m; auto. }
  assert (XB : forall j, (j < m)%nat -> -1 <= xsin (u1 0%nat) (u2 0%nat) (v j) <= 1).
  { intros j Hj. unfold xsin. pose proof (vdot_unit_bound _ _ (direction_unit _ Z) (Hv j Hj)). lra. }
  destruct (euclid method).
  - unfold euclidean_xtd. destruct (mul_list1_vals _ _ _ _ _ _ _ L Hr D) as (X & E & HX).
    exists X; split; auto. eapply list1_ext; [|apply HX]. intros j Hj. cbn beta. rewrite (cl_id m j Hj). reflexivity.
  - unfold great_circle_xtd.
    assert (LA : list1 (map1 narcsin (ravel (map1 nneg Dt))) m (fun j => asin (xsin (u1 0%nat) (u2 0%nat) (v j)))).
    { destruct L as [S G]. split; auto. intros j Hj. unfold map1; cbn [get]. apply fin_asin; auto. }
    destruct (mul_list1_vals _ _ _ _ _ _ _ LA Hr D) as (X & E & HX).
    exists X; split; auto. eapply list1_ext; [|apply HX]. intros j Hj. cbn beta. rewrite (cl_id m j Hj). reflexivity.
Qed.

(** boolean arrays *)
Definition blist (a : arr bool) (n : nat) (f : nat -> bool) : Prop :=
  shape a = [n] /\ forall j, (j < n)%nat -> get a [j] = f j.
Lemma and_blist a b n f g : blist a n f -> blist b n g ->
  exists C, map2 andb a b = ret C /\ blist C n (fun j => f j && g j).
Proof.
  intros [Sa Ca] [Sb Cb]. unfold map2. rewrite Sa, Sb, (bshape_n_m _ _ _ (bdim_refl n)).
  eexists; split; [reflexivity|]. split; [reflexivity|]. intros j Hj. cbn [get].
  rewrite !bidx_1, !(cl_id n j Hj), Ca, Cb; auto.
Qed.

Lemma ogc_spec A1 A2 B m u1 u2 v radius k r xt t :
  cols A1 1 u1 -> cols A2 1 u2 -> cols B m v -> vcross (u1 0%nat) (u2 0%nat) <> v0 ->
  (forall j, (j < m)%nat -> vnorm (v j) = 1) ->
  vals radius k r -> bdim m k = Some m -> xt ≈ t ->
  exists D, on_great_circle (A1, A2) B radius xt = ret D /\
    blist D m (fun j => if Rle_dec (Rabs (asin (xsin (u1 0%nat) (u2 0%nat) (v j)) * r (cl k j))) t then true else false).
Proof.
  intros H1 H2 HB Z Hv Hr D Ht. unfold on_great_circle.
  destruct (xtd_spec A1 A2 B m u1 u2 v "greatcircle" radius k r H1 H2 HB Z Hv ltac:(discriminate) Hr D) as (X & E & HX).
  rewrite E, bind_ret. eexists; split; [reflexivity|]. destruct HX as [S G]. split; [exact S|].
  intros j Hj. unfold map1; cbn [get]. apply nle_fin; auto. apply fin_abs. apply (G j Hj).
Qed.

(** intersect, single columns *)
Lemma any_3x1 (a : arr num) : shape a = [3%nat; 1%nat] ->
  any_ (map1 isnan a) =
  isnan (get a [0%nat; 0%nat]) || isnan (get a [1%nat; 0%nat]) || isnan (get a [2%nat; 0%nat]).
Proof.
  intros S. unfold any_, size. cbn [shape map1]. rewrite S. cbn [prod fold_right Nat.mul Nat.add allb].
  cbn [map1 get].
  change (unravel [3%nat; 1%nat] 0) with [0%nat; 0%nat].
  change (unravel [3%nat; 1%nat] 1) with [1%nat; 0%nat].
  change (unravel [3%nat; 1%nat] 2) with [2%nat; 0%nat].
  destruct (isnan _), (isnan _), (isnan _); reflexivity.
Qed.

Lemma nmul_nan_r x : nmul x NaN = NaN. Proof. destruct x as [r| |b|]; reflexivity. Qed.
Lemma nadd_nan_r x : nadd x NaN = NaN. Proof. destruct x as [r| |b|]; reflexivity. Qed.

Lemma intersect_1 A1 A2 B1 B2 a1 a2 b1 b2 :
  cols A1 1 (fun _ => a1) -> cols A2 1 (fun _ => a2) -> cols B1 1 (fun _ => b1) -> cols B2 1 (fun _ => b2) ->
  let c := vcross (vcross a1 a2) (vcross b1 b2) in
  (c = v0 -> exists C, intersect (A1, A2) (B1, B2) = ([WPathsEqual], inl C) /\ shape C = [3%nat; 1%nat] /\ nancol C 0) /\
  (c <> v0 -> exists C, intersect (A1, A2) (B1, B2) = ret C /\
      cols C 1 (fun _ => vscale (rsign (vdot (direction c) a1)) (direction c))).
Proof.
  intros H1 H2 H3 H4. cbv zeta. unfold intersect.
  step (cross_cols _ _ _ _ _ _ _ H1 H2 (bdim_refl 1)) CA HCA.
  step (cross_cols _ _ _ _ _ _ _ H3 H4 (bdim_refl 1)) CB HCB.
  step (cross_cols _ _ _ _ _ _ _ HCA HCB (bdim_refl 1)) CC HCC.
  step (unitnan_cols _ _ _ HCC) T HT.
  cbn beta in *. split; intros Z.
  - destruct HT as [ST GT]. specialize (GT 0%nat ltac:(lia)). cbn beta in GT.
    rewrite Z, odir_v0 in GT. destruct GT as (g0 & g1 & g2). pose proof H1 as [S1 _].
    unfold dot, transpose. cbn [shape]. rewrite ST, S1. cbn [rev app]. rewrite Nat.eqb_refl, bind_ret.
    unfold map2.
    match goal with |- context [shape (map1 nsign ?D)] => change (shape (map1 nsign D)) with [1%nat; 1%nat] end.
    rewrite ST.
    cbn [bshape bshape_rev bdim rev app Nat.eqb]. rewrite bind_ret.
    unfold bind, ret, warn.
    rewrite any_3x1 by reflexivity. cbn [get]. rewrite !bidx_2. unfold cl; cbn [Nat.eqb].
    rewrite g0, g1, g2, !nmul_nan_r. cbn [isnan orb app].
    eexists; split; [reflexivity|]. split; [reflexivity|].
    unfold nancol; cbn [get]. rewrite !bidx_2. unfold cl; cbn [Nat.eqb]. rewrite g0, g1, g2, !nmul_nan_r. auto.
  - assert (HT' : cols T 1 (fun _ => direction (vcross (vcross a1 a2) (vcross b1 b2)))).
    { eapply ocols_cols; [apply HT|]. intros j Hj. cbn beta. apply odir_nz; auto. }
    destruct (dot_T_cols _ _ _ _ _ _ HT' H1) as (D & E & SD & GD). rewrite E, bind_ret; clear E.
    assert (K : keep (map1 nsign D) 1 (fun _ => rsign (vdot (direction (vcross (vcross a1 a2) (vcross b1 b2))) a1))).
    { split; [exact SD|]. intros j Hj. unfold map1; cbn [get]. apply fin_sign. apply (GD 0%nat j); lia. }
    destruct (mul_keep_cols _ _ _ _ _ _ _ K HT' (bdim_refl 1)) as (C & E & HC). rewrite E, bind_ret; clear E.
    pose proof HC as [SC GC]. rewrite any_3x1 by auto. destruct (GC 0%nat ltac:(lia)) as (g0 & g1 & g2).
    rewrite (fin_not_nan _ _ g0), (fin_not_nan _ _ g1), (fin_not_nan _ _ g2). cbn [orb].
    exists C; split; auto.
Qed.

(** the two great circles are determined and different *)
Definition distinct_circles (a1 a2 b1 b2 : vec) : Prop :=
  vcross a1 a2 <> v0 /\ vcross b1 b2 <> v0 /\ exists p, on_circle a1 a2 p /\ ~ on_circle b1 b2 p.

Lemma distinct_iff a1 a2 b1 b2 :
  distinct_circles a1 a2 b1 b2 <-> vcross (vcross a1 a2) (vcross b1 b2) <> v0.
Proof.
  unfold distinct_circles, on_circle. set (na := vcross a1 a2). set (nb := vcross b1 b2). split.
  - intros (Za & Zb & p & [Hp Op] & N) E. apply N. split; auto.
    rewrite (cross_zero_parallel na nb Za E), vdot_scale_r, Op. ring.
  - intros Z.
    assert (Za : na <> v0) by (intros E; apply Z; rewrite E; vring).
    assert (Zb : nb <> v0) by (intros E; apply Z; rewrite E; vring).
    split; auto. split; auto.
    pose (w := vcross na (vcross nb na)).
    assert (W : vdot w nb = vdot (vcross na nb) (vcross na nb)) by (unfold w; clearbody na nb; vring).
    assert (Wn : w <> v0).
    { intros E. rewrite E in W. replace (vdot v0 nb) with 0 in W by vring.
      symmetry in W. apply vdot_0 in W. auto. }
    exists (direction w). split; [split|].
    + apply direction_unit; auto.
    + unfold direction, w. rewrite vdot_scale_l, vdot_cross_l'. ring.
    + intros [_ O]. unfold direction in O. rewrite vdot_scale_l, W in O.
      apply Rmult_integral in O. pose proof (Rinv_0_lt_compat _ (vnorm_nz _ Wn)). pose proof (vdot_nz _ Z). lra.
Qed.

(** closest_point_on_great_circle, single columns *)
Lemma closest_1 A1 A2 B a1 a2 b :
  cols A1 1 (fun _ => a1) -> cols A2 1 (fun _ => a2) -> cols B 1 (fun _ => b) -> vcross a1 a2 <> v0 ->
  let c := direction (vcross a1 a2) in
  exists C, closest_point_on_great_circle (A1, A2) B = ret C /\
    cols C 1 (fun _ => vscale (rsign (vdot (dir1 (foot c b)) b)) (dir1 (foot c b))).
Proof.
  intros H1 H2 HB Z. cbv zeta. unfold closest_point_on_great_circle.
  step (gcn_cols_nz _ _ _ _ _ _ _ H1 H2 (bdim_refl 1) (fun j _ => Z)) C HC.
  step (cross_cols _ _ _ _ _ _ _ HB HC (bdim_refl 1)) X HX.
  step (cross_cols _ _ _ _ _ _ _ HC HX (bdim_refl 1)) Y HY.
  step (unit1_cols _ _ _ HY) T HT. cbn beta in *.
  assert (HT' : cols T 1 (fun _ => dir1 (foot (direction (vcross a1 a2)) b))).
  { eapply cols_ext; [|apply HT]. intros j Hj. cbn beta. rewrite foot_triple by (apply direction_unit; auto). reflexivity. }
  destruct (dot_T_cols _ _ _ _ _ _ HT' HB) as (D & E & SD & GD). rewrite E, bind_ret; clear E.
  assert (K : keep (map1 nsign D) 1 (fun _ => rsign (vdot (dir1 (foot (direction (vcross a1 a2)) b)) b))).
  { split; [exact SD|]. intros j Hj. unfold map1; cbn [get]. apply fin_sign. apply (GD 0%nat j); lia. }
  destruct HT' as [ST GT]. destruct K as [SK GK]. unfold map2. rewrite ST, SK.
  rewrite (bshape_3n_1m 1 1 1 eq_refl). eexists; split; [reflexivity|]. split; [reflexivity|].
  intros j Hj. assert (j = 0)%nat by lia. subst j. destruct (GT 0%nat ltac:(lia)) as (g0 & g1 & g2).
  pose proof (GK 0%nat ltac:(lia)) as K0. unfold vcol; cbn [get]. rewrite !bidx_2.
  change (cl 3 0) with 0%nat. change (cl 3 1) with 1%nat. change (cl 3 2) with 2%nat.
  change (cl 1 0) with 0%nat. change (cl 1 1) with 0%nat. change (cl 1 2) with 0%nat.
  cbn [vscale vx vy vz]. repeat split; eapply fin_eq; try (apply fin_mul; [eassumption|exact K0]); ring.
Qed.
