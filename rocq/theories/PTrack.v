(** * C19-C22: cross track distance, closest point, membership of great circles and arcs *)
From Coq Require Import List Arith Lia Bool Reals Lra Psatz String Ascii.
From Verif Require Import Num Py Nd MUtil MRotation MCore Spec SpecArr LNum LTrig LVec LArr LAngle LDist LCircle PDist.
Import ListNotations.
Local Open Scope R_scope.

Lemma starts_e c : Ascii.eqb (lower_ascii c) "e"%char = true <-> c = "e"%char \/ c = "E"%char.
Proof.
  split.
  - destruct c as [[] [] [] [] [] [] [] []]; vm_compute; intros H; discriminate || auto.
  - intros [->| ->]; reflexivity.
Qed.

(** circle of a path and its unit normal *)
Lemma on_circle_dir a1 a2 p : vcross a1 a2 <> v0 ->
  on_circle a1 a2 p <-> vnorm p = 1 /\ vdot p (direction (vcross a1 a2)) = 0.
Proof.
  intros Z. unfold on_circle, direction. rewrite vdot_scale_r.
  pose proof (Rinv_0_lt_compat _ (vnorm_nz _ Z)). split; intros [U O]; split; auto.
  - rewrite O; ring.
  - apply Rmult_integral in O. lra.
Qed.
Lemma some_point a1 a2 : vcross a1 a2 <> v0 -> exists p, on_circle a1 a2 p.
Proof.
  intros Z. assert (Za : a1 <> v0) by (intros E; apply Z; rewrite E; vring).
  exists (direction a1). split; [apply direction_unit; auto|].
  unfold direction. rewrite vdot_scale_l, vdot_cross_l. ring.
Qed.
Lemma asin_0_iff s : -1 <= s <= 1 -> (asin s = 0 <-> s = 0).
Proof.
  intros H. split; intros E; [|subst; apply asin_0].
  rewrite <- (sin_asin s H), E, sin_0. reflexivity.
Qed.
Lemma asin_pos_iff s : -1 <= s <= 1 -> (0 < asin s <-> 0 < s).
Proof.
  intros H. pose proof (asin_bound s) as B. pose proof PI_RGT_0. split; intros E.
  - rewrite <- (sin_asin s H). apply sin_gt_0; lra.
  - destruct (Rlt_le_dec 0 (asin s)) as [|L]; auto. exfalso.
    assert (sin (asin s) <= 0). 2:{ rewrite sin_asin in *; lra. }
    replace (asin s) with (- (- asin s)) by ring. rewrite sin_neg.
    assert (0 <= sin (- asin s)) by (apply sin_ge_0; lra). lra.
Qed.

Section Xsin.
Variables a1 a2 b : vec.
Hypothesis Z : vcross a1 a2 <> v0.
Hypothesis Ub : vnorm b = 1.
Let c := direction (vcross a1 a2).
Lemma c_unit : vnorm c = 1. Proof. apply direction_unit; auto. Qed.
Lemma xsin_bound : -1 <= xsin a1 a2 b <= 1.
Proof. unfold xsin. pose proof (vdot_unit_bound _ _ c_unit Ub). fold c. lra. Qed.
Lemma xsin_sign : (0 < xsin a1 a2 b <-> vdot b (vcross a1 a2) < 0) /\ (xsin a1 a2 b = 0 <-> vdot b (vcross a1 a2) = 0).
Proof.
  unfold xsin, direction. rewrite vdot_scale_l, (vdot_comm (vcross a1 a2) b).
  pose proof (Rinv_0_lt_compat _ (vnorm_nz _ Z)) as P. split; split; intros H; nra.
Qed.
Lemma xsin_far p : on_circle a1 a2 p -> Rabs (asin (xsin a1 a2 b)) <= angle b p.
Proof.
  intros H. apply on_circle_dir in H; auto. destruct H as [U O]. unfold xsin. rewrite asin_opp, Rabs_Ropp.
  apply circle_far; auto. apply c_unit.
Qed.
Lemma xsin_near : exists p, on_circle a1 a2 p /\ angle b p = Rabs (asin (xsin a1 a2 b)).
Proof.
  destruct (some_point a1 a2 Z) as (q & Hq). apply on_circle_dir in Hq; auto. destruct Hq as [U O].
  destruct (circle_near c b q c_unit Ub U O) as (p & Up & Op & An). exists p.
  split; [apply on_circle_dir; auto|]. rewrite An. unfold xsin. rewrite asin_opp, Rabs_Ropp. reflexivity.
Qed.
End Xsin.

(** ** C19 *)
(** great circle method (any name not starting with e or E): signed distance whose magnitude is the
    least great circle distance from B to a point of the circle; positive on the side of
    -(A1 x A2), zero exactly on the circle *)
Theorem C19_distance_to_great_circle : forall A1 A2 B m a1 a2 v ch rest radius k r,
  cols A1 1 (fun _ => a1) -> cols A2 1 (fun _ => a2) -> vcross a1 a2 <> v0 ->
  cols B m v -> (forall j, (j < m)%nat -> vnorm (v j) = 1) ->
  ch <> "e"%char -> ch <> "E"%char ->
  vals radius k r -> (k = 1%nat \/ k = m) -> (forall j, (j < k)%nat -> 0 < r j) ->
  returns (cross_track_distance (A1, A2) B (String ch rest) radius) [] (fun D =>
    list1P D m (fun j d =>
      (forall p, on_circle a1 a2 p -> Rabs d <= r (cl k j) * angle (v j) p) /\
      (exists p, on_circle a1 a2 p /\ Rabs d = r (cl k j) * angle (v j) p) /\
      (0 < d <-> vdot (v j) (vcross a1 a2) < 0) /\
      (d = 0 <-> on_circle a1 a2 (v j)))).
Proof.
  intros A1 A2 B m a1 a2 v ch rest radius k r H1 H2 Z HB Hv N1 N2 Hr Hk Pr.
  assert (D : bdim m k = Some m) by (destruct Hk as [->| ->]; [apply bdim_1_r|apply bdim_refl]).
  assert (Ne : euclid (String ch rest) = false).
  { cbn [euclid]. destruct (Ascii.eqb (lower_ascii ch) "e"%char) eqn:E; auto. apply starts_e in E. tauto. }
  destruct (xtd_spec A1 A2 B m _ _ v (String ch rest) radius k r H1 H2 HB Z Hv ltac:(discriminate) Hr D) as (X & E & SX & GX).
  exists X; split; auto. split; auto. intros j Hj. eexists; split; [apply (GX j Hj)|]. cbn beta. rewrite Ne.
  assert (P : 0 < r (cl k j)) by (apply Pr; apply (cl_lt_r _ _ _ _ D Hj)).
  pose proof (xsin_bound a1 a2 (v j) Z (Hv j Hj)) as Xb.
  destruct (xsin_sign a1 a2 (v j) Z) as [X1 X2].
  rewrite Rabs_mult, (Rabs_right (r (cl k j))) by lra.
  split; [|split; [|split]].
  - intros p Hp. pose proof (xsin_far a1 a2 (v j) Z (Hv j Hj) p Hp). nra.
  - destruct (xsin_near a1 a2 (v j) Z (Hv j Hj)) as (p & Hp & Ep). exists p; split; auto. rewrite Ep. ring.
  - rewrite <- X1, <- (asin_pos_iff (xsin a1 a2 (v j))) by auto. clear - P. generalize (asin (xsin a1 a2 (v j))). intros x. split; intros; nra.
  - unfold on_circle. rewrite <- X2, <- (asin_0_iff (xsin a1 a2 (v j))) by auto. split; intros Q; [split; auto|destruct Q as [_ ->]; ring].
    apply Rmult_integral in Q; lra.
Qed.
Print Assumptions C19_distance_to_great_circle.

(** names starting with e or E: distance to the plane of the circle *)
Theorem C19_euclidean_distance_to_plane : forall A1 A2 B m a1 a2 v ch rest radius k r,
  cols A1 1 (fun _ => a1) -> cols A2 1 (fun _ => a2) -> vcross a1 a2 <> v0 ->
  cols B m v -> (forall j, (j < m)%nat -> vnorm (v j) = 1) ->
  ch = "e"%char \/ ch = "E"%char ->
  vals radius k r -> (k = 1%nat \/ k = m) -> (forall j, (j < k)%nat -> 0 < r j) ->
  returns (cross_track_distance (A1, A2) B (String ch rest) radius) [] (fun D =>
    list1P D m (fun j d =>
      (forall q, vdot q (vcross a1 a2) = 0 -> Rabs d <= r (cl k j) * vnorm (vsub (v j) q)) /\
      (exists q, vdot q (vcross a1 a2) = 0 /\ Rabs d = r (cl k j) * vnorm (vsub (v j) q)) /\
      (0 < d <-> vdot (v j) (vcross a1 a2) < 0) /\
      (d = 0 <-> on_circle a1 a2 (v j)))).
Proof.
  intros A1 A2 B m a1 a2 v ch rest radius k r H1 H2 Z HB Hv Ne Hr Hk Pr.
  assert (D : bdim m k = Some m) by (destruct Hk as [->| ->]; [apply bdim_1_r|apply bdim_refl]).
  apply starts_e in Ne.
  destruct (xtd_spec A1 A2 B m _ _ v (String ch rest) radius k r H1 H2 HB Z Hv ltac:(discriminate) Hr D) as (X & E & SX & GX).
  exists X; split; auto. split; auto. intros j Hj. eexists; split; [apply (GX j Hj)|]. cbn beta.
  assert (Eu : euclid (String ch rest) = true) by exact Ne. rewrite Eu.
  assert (P : 0 < r (cl k j)) by (apply Pr; apply (cl_lt_r _ _ _ _ D Hj)).
  destruct (xsin_sign a1 a2 (v j) Z) as [X1 X2].
  rewrite Rabs_mult, (Rabs_right (r (cl k j))) by lra.
  pose proof (c_unit a1 a2 Z) as Uc. set (c := direction (vcross a1 a2)) in *.
  assert (Oc : forall q, vdot q (vcross a1 a2) = 0 -> vdot c q = 0).
  { intros q Hq. unfold c, direction. rewrite vdot_scale_l, vdot_comm, Hq. ring. }
  assert (Ax : Rabs (xsin a1 a2 (v j)) = Rabs (vdot c (v j))) by (unfold xsin; rewrite Rabs_Ropp; reflexivity).
  split; [|split; [|split]].
  - intros q Hq. pose proof (cauchy_schwarz c (vsub (v j) q)) as CS.
    rewrite vdot_sub_r, (Oc q Hq), Uc, Rminus_0_r, <- Ax in CS. nra.
  - exists (foot c (v j)). split.
    + assert (W : vcross a1 a2 = vscale (vnorm (vcross a1 a2)) c) by (apply direction_decomp; auto).
      rewrite W, vdot_scale_r, foot_orth by auto. ring.
    + unfold foot. replace (vsub (v j) (vsub (v j) (vscale (vdot c (v j)) c))) with (vscale (vdot c (v j)) c) by vring.
      rewrite vnorm_scale, Uc, <- Ax. ring.
  - rewrite <- X1. clear - P. generalize (xsin a1 a2 (v j)). intros x. split; intros; nra.
  - unfold on_circle. rewrite <- X2. split; intros Q; [split; auto|destruct Q as [_ ->]; ring].
    apply Rmult_integral in Q; lra.
Qed.
Print Assumptions C19_euclidean_distance_to_plane.

(** reversing the path flips the sign, for every method *)
Theorem C19_reverse : forall A1 A2 B m a1 a2 v method radius k r,
  cols A1 1 (fun _ => a1) -> cols A2 1 (fun _ => a2) -> vcross a1 a2 <> v0 ->
  cols B m v -> (forall j, (j < m)%nat -> vnorm (v j) = 1) -> method <> EmptyString ->
  vals radius k r -> (k = 1%nat \/ k = m) ->
  exists d, returns (cross_track_distance (A1, A2) B method radius) [] (fun D => list1 D m d) /\
            returns (cross_track_distance (A2, A1) B method radius) [] (fun D => list1 D m (fun j => - d j)).
Proof.
  intros A1 A2 B m a1 a2 v method radius k r H1 H2 Z HB Hv Hm Hr Hk.
  assert (D : bdim m k = Some m) by (destruct Hk as [->| ->]; [apply bdim_1_r|apply bdim_refl]).
  assert (Z' : vcross a2 a1 <> v0).
  { rewrite vcross_anti. intros X. apply Z. rewrite <- (vneg_neg (vcross a1 a2)), X. vring. }
  destruct (xtd_spec A1 A2 B m _ _ v method radius k r H1 H2 HB Z Hv Hm Hr D) as (X & E & HX).
  destruct (xtd_spec A2 A1 B m _ _ v method radius k r H2 H1 HB Z' Hv Hm Hr D) as (X' & E' & HX').
  eexists; split; [exists X; split; [exact E|exact HX]|]. exists X'; split; [exact E'|].
  eapply list1_ext; [|apply HX']. intros j Hj. cbn beta.
  assert (S : xsin a2 a1 (v j) = - xsin a1 a2 (v j)).
  { unfold xsin. rewrite (vcross_anti a2 a1), direction_neg, vdot_neg_l by auto. ring. }
  rewrite S, asin_opp. destruct (euclid method); ring.
Qed.
Print Assumptions C19_reverse.

Example C19_example : vcross (V 1 0 0) (V 0 1 0) <> v0 /\ vnorm (V 0 (3/5) (4/5)) = 1.
Proof. split; [intros [=]; lra|]. apply vnorm_unit. unfold vdot; simpl; field. Qed.

(** the method argument must not be empty *)
Theorem C19_empty_method : forall A1 A2 B m a1 a2 v radius,
  cols A1 1 (fun _ => a1) -> cols A2 1 (fun _ => a2) -> vcross a1 a2 <> v0 -> cols B m v ->
  raises (cross_track_distance (A1, A2) B EmptyString radius) IndexError.
Proof.
  intros A1 A2 B m a1 a2 v radius H1 H2 Z HB. unfold cross_track_distance. cbn [fst snd].
  step (gcn_cols_nz _ _ _ _ _ _ _ H1 H2 (bdim_refl 1) (fun j _ => Z)) C HC.
  destruct (dot_T_cols _ _ _ _ _ _ HC HB) as (Dt & E & SD & GD). rewrite E, bind_ret. reflexivity.
Qed.
Print Assumptions C19_empty_method.

(** ** C20 *)
(** Full statement: for every non-degenerate path and unit B, the result C is a unit vector of the circle,
    none is closer to B, and the distance from B to C is the magnitude of the cross track distance.
    Proved for B other than the poles of the circle; at the poles it is refuted below. *)
Theorem C20_closest_point_partial : forall A1 A2 B a1 a2 b,
  cols A1 1 (fun _ => a1) -> cols A2 1 (fun _ => a2) -> cols B 1 (fun _ => b) ->
  vcross a1 a2 <> v0 -> vnorm b = 1 ->
  vcross b (vcross a1 a2) <> v0 ->   (* B is not a pole of the circle *)
  exists p, returns (closest_point_on_great_circle (A1, A2) B) [] (fun C => cols C 1 (fun _ => p)) /\
    on_circle a1 a2 p /\ 0 < vdot p b /\
    (forall q, on_circle a1 a2 q -> angle b p <= angle b q) /\
    (forall q, on_circle a1 a2 q -> angle b q = angle b p -> q = p) /\
    (forall radius r d, scalar radius r -> 0 < r ->
       returns (cross_track_distance (A1, A2) B "greatcircle" radius) [] (fun D => list1 D 1 (fun _ => d)) ->
       r * angle b p = Rabs d).
Proof.
  intros A1 A2 B a1 a2 b H1 H2 HB Z Ub Np.
  destruct (closest_1 _ _ _ _ _ _ H1 H2 HB Z) as (C & E & HC). cbv zeta in HC.
  pose proof (c_unit a1 a2 Z) as Uc.
  assert (Nf : foot (direction (vcross a1 a2)) b <> v0).
  { intros F. apply Np. apply (foot_zero _ _ Uc Ub) in F.
    rewrite (direction_decomp _ Z), vcross_scale_r. destruct F as [-> | ->];
      rewrite ?vcross_neg_l, vcross_self; vring. }
  set (c := direction (vcross a1 a2)) in *. set (p := direction (foot c b)).
  assert (Db : 0 < vdot p b).
  { unfold p, direction. rewrite vdot_scale_l, foot_dot by auto. rewrite <- (foot_sq c b) by auto.
    apply Rmult_lt_0_compat; [apply Rinv_0_lt_compat, vnorm_nz; auto|apply vdot_nz; auto]. }
  assert (Oc : on_circle a1 a2 p).
  { apply on_circle_dir; auto. split; [apply direction_unit; auto|]. fold c. unfold p, direction.
    rewrite vdot_scale_l, foot_orth by auto. ring. }
  assert (An : angle b p = Rabs (asin (vdot c b))) by (apply foot_near; auto).
  exists p. split.
  { exists C; split; [exact E|]. eapply cols_ext; [|apply HC]. intros j Hj. cbn beta.
    rewrite dir1_nz by auto. fold p. rewrite rsign_pos, vscale_1 by auto. reflexivity. }
  split; auto. split; auto. split; [|split].
  - intros q Hq. rewrite An. apply on_circle_dir in Hq; auto. destruct Hq. apply circle_far; auto.
  - intros q Hq Eq. apply on_circle_dir in Hq; auto. destruct Hq as [Uq Oq]. fold c in Oq.
    destruct Oc as [Up _].
    (* equal angles: b.q = b.p, hence foot.q = |foot|, so q is the direction of foot *)
    assert (Dq : vdot b q = vdot b p) by (rewrite <- !cos_angle_unit by auto; rewrite Eq; reflexivity).
    apply vdot_unit_1; auto.
    assert (Fq : vdot b q = vdot (foot c b) q).
    { unfold foot. rewrite vdot_sub_l, vdot_scale_l, (vdot_comm c q), Oq. ring. }
    assert (Fp : vdot b p = vnorm (foot c b)).
    { rewrite vdot_comm. unfold p, direction. rewrite vdot_scale_l, foot_dot by auto.
      rewrite <- (foot_sq c b) by auto. rewrite <- vnorm_sq. field. apply Rgt_not_eq, vnorm_nz; auto. }
    rewrite vdot_comm. unfold p, direction. rewrite vdot_scale_l, <- Fq, Dq, Fp. apply Rinv_l.
    apply Rgt_not_eq, vnorm_nz; auto.
  - intros radius r d Hr Pr (D & ED & SD & GD).
    destruct (xtd_spec A1 A2 B 1 _ _ _ "greatcircle" radius 1 (fun _ => r) H1 H2 HB Z (fun _ _ => Ub)
      ltac:(discriminate) (vals_scalar _ _ Hr) eq_refl) as (X & EX & SX & GX).
    rewrite EX in ED. injection ED as <-.
    pose proof (fin_unique _ _ _ (GX 0%nat ltac:(lia)) (GD 0%nat ltac:(lia))) as U. cbv beta in U.
    change (euclid "greatcircle") with false in U. cbv iota in U. unfold xsin in U. fold c in U.
    rewrite <- U, An, asin_opp, Rabs_mult, Rabs_Ropp, (Rabs_right r) by lra. ring.
Qed.
Print Assumptions C20_closest_point_partial.

Example C20_example : vcross (V 1 0 0) (V 0 1 0) <> v0 /\ vnorm (V 0 (3/5) (4/5)) = 1
  /\ vcross (V 0 (3/5) (4/5)) (vcross (V 1 0 0) (V 0 1 0)) <> v0.
Proof.
  split; [intros [=]; lra|]. split; [apply vnorm_unit; unfold vdot; simpl; field|].
  unfold vcross; simpl. intros [=]; lra.
Qed.

(** B at a pole of the circle: all points of the circle are equally close; the result is
    (1,0,0), (-1,0,0) or the zero vector, whatever the circle *)
Theorem C20_pole_refuted : forall A1 A2 B a1 a2 b,
  cols A1 1 (fun _ => a1) -> cols A2 1 (fun _ => a2) -> cols B 1 (fun _ => b) ->
  vcross a1 a2 <> v0 -> vnorm b = 1 -> vcross b (vcross a1 a2) = v0 ->
  exists p, returns (closest_point_on_great_circle (A1, A2) B) [] (fun C => cols C 1 (fun _ => p)) /\
    ~ on_circle a1 a2 p.
Proof.
  intros A1 A2 B a1 a2 b H1 H2 HB Z Ub Np.
  destruct (closest_1 _ _ _ _ _ _ H1 H2 HB Z) as (C & E & HC). cbv zeta in HC.
  pose proof (c_unit a1 a2 Z) as Uc. set (c := direction (vcross a1 a2)) in *.
  assert (P : c = vscale (vdot b c / vdot b b) b).
  { apply cross_zero_parallel; [apply vnorm_inv; auto|]. unfold c, direction. rewrite vcross_scale_r, Np. vring. }
  apply vnorm_unit in Ub as Ub2. rewrite Ub2 in P. replace (vdot b c / 1) with (vdot b c) in P by field.
  assert (K : vdot b c = 1 \/ vdot b c = -1).
  { assert (Q : vnorm c = Rabs (vdot b c) * vnorm b) by (rewrite P at 1; apply vnorm_scale).
    rewrite Uc, Ub, Rmult_1_r in Q. unfold Rabs in Q. destruct (Rcase_abs _); lra. }
  assert (F : foot c b = v0).
  { apply vdot_0. rewrite foot_sq, (vdot_comm c b) by auto. destruct K as [-> | ->]; ring. }
  eexists. split; [exists C; split; [exact E|exact HC]|]. cbv beta. rewrite F, dir1_v0.
  intros [U O].
  (* component of (1,0,0) along b *)
  assert (O' : vdot (vscale (rsign (vdot (V 1 0 0) b)) (V 1 0 0)) c = 0).
  { unfold c, direction. rewrite vdot_scale_r, O. ring. }
  rewrite P, vdot_scale_l, vdot_scale_r in O'.
  apply Rmult_integral in O'. destruct O' as [O'|O'].
  - rewrite O', vscale_0, vnorm_v0 in U. lra.
  - apply Rmult_integral in O'. destruct O' as [O'|O']; [lra|]. rewrite O', rsign_0, vscale_0, vnorm_v0 in U. lra.
Qed.
Print Assumptions C20_pole_refuted.

Example C20_pole_example : vcross (V 0 0 1) (vcross (V 1 0 0) (V 0 1 0)) = v0.
Proof. unfold vcross, v0; simpl; f_equal; ring. Qed.

(** several positions B (or several paths): ValueError unless there are exactly three *)
Theorem C20_columns_refuted : forall A1 A2 B n m k u1 u2 v,
  cols A1 n u1 -> cols A2 n u2 -> cols B m v ->
  (forall j, (j < n)%nat -> vcross (u1 j) (u2 j) <> v0) ->
  bdim n m = Some k -> (2 <= k)%nat -> k <> 3%nat ->
  raises (closest_point_on_great_circle (A1, A2) B) ValueError.
Proof.
  intros A1 A2 B n m k u1 u2 v H1 H2 HB Z D K2 K3. unfold closest_point_on_great_circle.
  destruct (gcn_cols_nz _ _ _ _ _ _ _ H1 H2 (bdim_refl n)) as (C & E & HC).
  { intros j Hj. rewrite !cl_id; auto. }
  rewrite E, bind_ret; clear E. rewrite bdim_comm in D.
  step (cross_cols _ _ _ _ _ _ _ HB HC D) X HX.
  assert (Dk : bdim n k = Some k).
  { destruct (bdim_inv _ _ _ D) as [_ [->| ->]]; [apply bdim_refl|apply bdim_1_l]. }
  step (cross_cols _ _ _ _ _ _ _ HC HX Dk) Y HY.
  step (unit1_cols _ _ _ HY) T HT. 
  destruct (dot_T_cols _ _ _ _ _ _ HT HB) as (Dt & E & SD & GD). rewrite E, bind_ret; clear E.
  destruct HT as [ST _]. unfold map2. change (shape (map1 nsign Dt)) with (shape Dt). rewrite SD, ST.
  assert (Q : bdim 3 k = None).
  { unfold bdim. destruct (Nat.eqb_spec 3 k); [lia|]. destruct (Nat.eqb_spec k 1); [lia|]. reflexivity. }
  unfold bshape. cbn [rev app bshape_rev]. rewrite Q. destruct (bdim k m); reflexivity.
Qed.
Print Assumptions C20_columns_refuted.

(** ** C21 *)
Theorem C21_on_great_circle : forall A1 A2 B m a1 a2 v radius k r xt t,
  cols A1 1 (fun _ => a1) -> cols A2 1 (fun _ => a2) -> vcross a1 a2 <> v0 ->
  cols B m v -> (forall j, (j < m)%nat -> vnorm (v j) = 1) ->
  vals radius k r -> (k = 1%nat \/ k = m) -> (forall j, (j < k)%nat -> 0 < r j) -> xt ≈ t ->
  returns (on_great_circle (A1, A2) B radius xt) [] (fun D =>
    shape D = [m] /\ forall j, (j < m)%nat ->
      (get D [j] = true <-> exists p, on_circle a1 a2 p /\ r (cl k j) * angle (v j) p <= t)).
Proof.
  intros A1 A2 B m a1 a2 v radius k r xt t H1 H2 Z HB Hv Hr Hk Pr Ht.
  assert (D : bdim m k = Some m) by (destruct Hk as [->| ->]; [apply bdim_1_r|apply bdim_refl]).
  destruct (ogc_spec A1 A2 B m _ _ v radius k r xt t H1 H2 HB Z Hv Hr D Ht) as (X & E & SX & GX).
  exists X; split; auto. split; auto. intros j Hj. rewrite (GX j Hj). cbv beta.
  assert (P : 0 < r (cl k j)) by (apply Pr; apply (cl_lt_r _ _ _ _ D Hj)).
  destruct (Rle_dec _ _) as [L|L]; rewrite Rabs_mult, (Rabs_right (r (cl k j))) in L by lra.
  - split; auto. intros _. destruct (xsin_near a1 a2 (v j) Z (Hv j Hj)) as (p & Hp & Ep).
    exists p; split; auto. rewrite Ep. lra.
  - split; [discriminate|]. intros (p & Hp & Lp). exfalso. apply L.
    pose proof (xsin_far a1 a2 (v j) Z (Hv j Hj) p Hp). nra.
Qed.
Print Assumptions C21_on_great_circle.

(** in particular every point of the circle is accepted for every tolerance >= 0 *)
Theorem C21_accepts_circle : forall A1 A2 B m a1 a2 v radius k r xt t,
  cols A1 1 (fun _ => a1) -> cols A2 1 (fun _ => a2) -> vcross a1 a2 <> v0 ->
  cols B m v -> (forall j, (j < m)%nat -> on_circle a1 a2 (v j)) ->
  vals radius k r -> (k = 1%nat \/ k = m) -> (forall j, (j < k)%nat -> 0 < r j) -> xt ≈ t -> 0 <= t ->
  returns (on_great_circle (A1, A2) B radius xt) [] (fun D =>
    shape D = [m] /\ forall j, (j < m)%nat -> get D [j] = true).
Proof.
  intros A1 A2 B m a1 a2 v radius k r xt t H1 H2 Z HB Hv Hr Hk Pr Ht T0.
  destruct (C21_on_great_circle A1 A2 B m a1 a2 v radius k r xt t H1 H2 Z HB (fun j Hj => proj1 (Hv j Hj)) Hr Hk Pr Ht)
    as (D & E & S & G).
  exists D; split; auto. split; auto. intros j Hj. apply G; auto. exists (v j). split; auto.
  rewrite angle_self by (apply vnorm_inv, (Hv j Hj)). lra.
Qed.
Print Assumptions C21_accepts_circle.

Example C21_example : on_circle (V 1 0 0) (V 0 1 0) (V (3/5) (4/5) 0).
Proof. split; [apply vnorm_unit|]; unfold vdot, vcross; simpl; field. Qed.
