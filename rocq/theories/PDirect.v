(** * C23, C24: direct and inverse problem on the sphere;  C25: interpolation;  C26: mean position *)
From Coq Require Import List Arith Lia Bool Reals Lra Psatz Permutation.
From Verif Require Import Num Py Nd MUtil MRotation MCore Spec SpecArr LNum LTrig LVec LArr LAngle LLatLon LMat LRot LEcef PEcef PFrame LDirect PMdot.
Import ListNotations.
Local Open Scope R_scope.

(** ** C23 *)
(** Everywhere except at the poles when the first coordinate axis points to a pole *)
Theorem C23_direct_partial : forall A n u d m1 dl az m2 al R_Ee M k,
  axes R_Ee M -> orthogonal M -> cols A n u -> vals d m1 dl -> vals az m2 al -> bdim3 n m1 m2 = Some k ->
  (forall j, (j < n)%nat -> vnorm (u j) = 1 /\ (vcross (north M) (u j) <> v0 \/ vx (north M) = 0)) ->
  returns (n_EA_E_distance_and_azimuth2n_EB_E A d az R_Ee) [] (fun B => exists w, cols B k w /\
    forall j, (j < k)%nat ->
      vnorm (w j) = 1 /\
      (0 <= dl (cl m1 j) <= PI -> angle (u (cl n j)) (w j) = dl (cl m1 j)) /\
      (dl (cl m1 j) = 0 -> w j = u (cl n j))).
Proof.
  intros A n u d m1 dl az m2 al R_Ee M k HR HO HA Hd Haz D Hu.
  destruct (direct_spec A n u d m1 dl az m2 al R_Ee M k HR HO HA Hd Haz D) as (B & E & HB).
  exists B; split; [exact E|]. eexists; split; [exact HB|]. intros j Hj. cbn beta.
  assert (Ln : (cl n j < n)%nat).
  { unfold bdim3 in D. destruct (bdim n m1) as [q|] eqn:Q; [|discriminate]. 
    assert (Lq : (cl q j < q)%nat) by (eapply cl_lt_l; eauto).
    pose proof (cl_lt_l _ _ _ _ Q Lq) as X. apply bdim_inv in Q as [[->| ->] _].
    - rewrite (cl_id q (cl q j) Lq) in X. exact X.
    - cbn. lia. }
  destruct (Hu _ Ln) as [U G]. destruct (dir1_east M (u (cl n j)) HO G) as [K1 K2].
  apply vnorm_unit in U.
  pose proof (BB_unit _ _ U K1 K2 (dl (cl m1 j)) (al (cl m2 j))) as B1.
  pose proof (BB_u _ _ U K2 (dl (cl m1 j)) (al (cl m2 j))) as B2.
  change (BB (u (cl n j)) (dir1 (vcross (north M) (u (cl n j)))) (dl (cl m1 j)) (al (cl m2 j)))
    with (dirB M (u (cl n j)) (dl (cl m1 j)) (al (cl m2 j))) in B1, B2.
  apply vnorm_unit in B1, U. split; [exact B1|]. split.
  - intros R. rewrite angle_unit by auto. rewrite B2. apply acos_cos; auto.
  - intros Z. unfold dirB. rewrite Z, sin_0, cos_0, vscale_1, vscale_0. apply vadd_v0.
Qed.
Print Assumptions C23_direct_partial.

(** the default axes: no exception *)
Theorem C23_default_axes : forall A n u d m1 dl az m2 al k,
  cols A n u -> vals d m1 dl -> vals az m2 al -> bdim3 n m1 m2 = Some k ->
  (forall j, (j < n)%nat -> vnorm (u j) = 1) ->
  returns (n_EA_E_distance_and_azimuth2n_EB_E A d az None) [] (fun B => exists w, cols B k w /\
    forall j, (j < k)%nat ->
      vnorm (w j) = 1 /\
      (0 <= dl (cl m1 j) <= PI -> angle (u (cl n j)) (w j) = dl (cl m1 j)) /\
      (dl (cl m1 j) = 0 -> w j = u (cl n j))).
Proof.
  intros A n u d m1 dl az m2 al k HA Hd Haz D Hu.
  apply (C23_direct_partial A n u d m1 dl az m2 al None Me k); auto.
  - reflexivity.
  - unfold orthogonal, Me, mmul, mT, mI, vdot; cbn [vx vy vz r0 r1 r2]. f_equal; f_equal; ring.
Qed.
Print Assumptions C23_default_axes.

(** going backwards in the opposite direction *)
Theorem C23_reverse : forall A n u d d' m1 dl az az' m2 al R_Ee M k,
  axes R_Ee M -> orthogonal M -> cols A n u -> vals d m1 dl -> vals az m2 al ->
  vals d' m1 (fun j => - dl j) -> vals az' m2 (fun j => al j + PI) -> bdim3 n m1 m2 = Some k ->
  exists B B' w, n_EA_E_distance_and_azimuth2n_EB_E A d az R_Ee = ret B /\
    n_EA_E_distance_and_azimuth2n_EB_E A d' az' R_Ee = ret B' /\ cols B k w /\ cols B' k w.
Proof.
  intros A n u d d' m1 dl az az' m2 al R_Ee M k HR HO HA Hd Haz Hd' Haz' D.
  destruct (direct_spec A n u d m1 dl az m2 al R_Ee M k HR HO HA Hd Haz D) as (B & E & HB).
  destruct (direct_spec A n u d' m1 _ az' m2 _ R_Ee M k HR HO HA Hd' Haz' D) as (B' & E' & HB').
  exists B, B'. eexists. split; [exact E|]. split; [exact E'|]. split; [exact HB|].
  eapply cols_ext; [|exact HB']. intros j Hj. cbn beta. unfold dirB.
  rewrite cos_neg, sin_neg, neg_cos, neg_sin. 
  generalize (dir1 (vcross (north M) (u (cl n j)))) (u (cl n j)) (cos (dl (cl m1 j))) (sin (dl (cl m1 j))) (cos (al (cl m2 j))) (sin (al (cl m2 j))).
  clear. intros K u a b c d. vring.
Qed.
Print Assumptions C23_reverse.

(** axes 'E' (x axis towards the North pole), A at the North pole: the result is not a unit vector *)
Theorem C23_pole_refuted : forall A d dl az al,
  cols A 1 (fun _ => V 1 0 0) -> scalar d dl -> scalar az al ->
  returns (n_EA_E_distance_and_azimuth2n_EB_E A d az (Some R_E)) [] (fun B =>
    cols B 1 (fun _ => V (cos dl + sin dl * sin al) 0 0)).
Proof.
  intros A d dl az al HA Hd Haz.
  destruct (direct_spec A 1 (fun _ => V 1 0 0) d 1 (fun _ => dl) az 1 (fun _ => al) (Some R_E) ME 1) as (B & E & HB); auto using vals_scalar.
  { apply mat33_is_mat. } { unfold orthogonal, ME. vring. }
  exists B; split; [exact E|]. eapply cols_ext; [|exact HB]. intros j Hj. cbn beta. unfold dirB.
  replace (vcross (north ME) (V 1 0 0)) with v0 by (unfold north, ME, mI, vcross, v0; cbn [r0 vx vy vz]; f_equal; ring).
  rewrite dir1_v0. unfold vadd, vscale, vcross; cbn [vx vy vz]. f_equal; ring.
Qed.
Print Assumptions C23_pole_refuted.

Example C23_example : vnorm (V 0 (3/5) (4/5)) = 1 /\ vcross (north ME) (V 0 (3/5) (4/5)) <> v0 /\ vx (north Me) = 0
  /\ bdim3 1 3 1 = Some 3%nat /\ cos (PI / 2) + sin (PI / 2) * sin 0 = 0.
Proof.
  split; [apply vnorm_unit; unfold vdot; cbn; field|]. split; [unfold north, ME, vcross; cbn; intros [=]; lra|].
  split; [reflexivity|]. split; [reflexivity|]. rewrite cos_PI2, sin_PI2, sin_0. ring.
Qed.

(** ** C24 *)
Lemma pos_sphere a M w : 0 < a -> orthogonal M -> vnorm w = 1 -> pos a 0 M w 0 = vscale a w.
Proof.
  intros Pa HO U. unfold pos. rewrite direction_of_unit by auto. rewrite pint_sphere; auto.
  - rewrite mulv_scale, orthogonal_inv by auto. f_equal. ring.
  - apply vnorm_unit. rewrite orthogonal_norm; auto.
Qed.

Theorem C24_azimuth_roundtrip_partial : forall A n u d m1 dl az m2 al R_Ee M k xa xf a,
  axes R_Ee M -> rotation M -> cols A n u -> (0 < n)%nat -> vals d m1 dl -> vals az m2 al ->
  bdim3 n m1 m2 = Some k -> (0 < k)%nat -> xa ≈ a -> 0 < a -> xf ≈ 0 ->
  (forall j, (j < n)%nat -> vnorm (u j) = 1 /\ vcross (north M) (u j) <> v0) ->
  (forall j, (j < k)%nat -> 0 < dl (cl m1 j) < PI /\ - PI < al (cl m2 j) < PI) ->
  returns (B <- n_EA_E_distance_and_azimuth2n_EB_E A d az R_Ee ;; n_EA_E_and_n_EB_E2azimuth A B xa xf R_Ee)%py []
    (fun Z => list1 Z k (fun j => al (cl m2 j))).
Proof.
  intros A n u d m1 dl az m2 al R_Ee M k xa xf a HR HM HA Hn Hd Haz D Hk Ha Pa Hf Hu Hr. pose proof (proj1 HM) as HO.
  destruct (direct_spec A n u d m1 dl az m2 al R_Ee M k HR HO HA Hd Haz D) as (B & E & HB).
  assert (Dk : bdim k n = Some k).
  { unfold bdim3 in D. destruct (bdim n m1) as [q|] eqn:Q; [|discriminate]. apply bdim_inv in Q as [X _], D as [Y _].
    destruct X as [->| ->], Y as [->| ->]; first [apply bdim_refl|apply bdim_1_r]. }
  assert (Ln : forall j, (j < k)%nat -> (cl n j < n)%nat) by (intros j Hj; eapply cl_lt_r; eauto).
  assert (Hw : forall j, (j < k)%nat -> vnorm (dirB M (u (cl n j)) (dl (cl m1 j)) (al (cl m2 j))) = 1).
  { intros j Hj. destruct (Hu _ (Ln j Hj)) as [U Np]. destruct (dir1_east M (u (cl n j)) HO (or_introl Np)) as [K1 K2].
    apply vnorm_unit. apply (BB_unit (u (cl n j)) (dir1 (vcross (north M) (u (cl n j))))); auto. apply vnorm_unit; auto. }
  destruct (azimuth_spec A B n k k u _ xa xf a 0 R_Ee M HR HM HA HB Hn Hk) as (Z & EZ & HZ); auto; [|intros j Hj|lra|].
  { intros j Hj. apply vnorm_inv. apply (Hu j Hj). } { apply vnorm_inv. apply Hw; auto. }
  exists Z. rewrite E, bind_ret, EZ. rewrite (proj1 (Hu 0%nat Hn)), (Hw 0%nat Hk), length_warning_unit. split; [reflexivity|].
  destruct HZ as [S G]. split; [exact S|]. intros j Hj. destruct (G j Hj) as (t & Ht & At).
  eapply fin_eq; [exact Ht|]. destruct (Hu _ (Ln j Hj)) as [U Np]. destruct (Hr j Hj) as [Rd Ra].
  rewrite !(cl_id k j Hj) in At.
  rewrite !pos_sphere in At by auto. rewrite (direction_of_unit _ U) in At.
  destruct (dir1_east M (u (cl n j)) HO (or_introl Np)) as [K1 K2].
  unfold az_of in At. rewrite NED_c1, (rot_c0 _ (NED_rotation M HM _ U)), NED_c1, NED_c2 in At.
  assert (Ee : eastv M (u (cl n j)) = dir1 (vcross (north M) (u (cl n j)))).
  { unfold eastv. rewrite dir1_nz by auto. destruct (Req_EM_T (vnorm (vcross (north M) (u (cl n j)))) 0) as [Q|Q]; auto.
    apply vnorm_0 in Q. contradiction. }
  rewrite Ee in At. apply vnorm_unit in U. set (w := u (cl n j)) in *. set (K := dir1 (vcross (north M) w)) in *.
  change (dirB M w (dl (cl m1 j)) (al (cl m2 j))) with (BB w K (dl (cl m1 j)) (al (cl m2 j))) in At.
  assert (Nx : vcross K (vneg w) = vcross w K) by (rewrite vcross_neg_r; symmetry; apply vcross_anti).
  rewrite Nx in At.
  rewrite !vdot_sub_r, !vdot_scale_r in At.
  rewrite (BB_K w K) in At by auto. rewrite (BB_N w K) in At by auto.
  rewrite vdot_cross_l', (vdot_comm K w), K2 in At.
  apply (arg_of_polar (a * sin (dl (cl m1 j)))); [|auto|].
  - apply Rmult_lt_0_compat; auto. apply sin_gt_0; lra.
  - match goal with H : arg_of ?y ?x t |- arg_of ?y' ?x' t => replace y' with y by ring; replace x' with x by ring; exact H end.
Qed.
Print Assumptions C24_azimuth_roundtrip_partial.

(** At the North pole (default axes) the two functions disagree about North by a quarter turn. *)
Theorem C24_pole_refuted : forall A d dl az al xa xf a,
  cols A 1 (fun _ => V 0 0 1) -> scalar d dl -> scalar az al -> xa ≈ a -> 0 < a -> xf ≈ 0 ->
  0 < dl < PI -> - PI < al < PI / 2 ->
  returns (B <- n_EA_E_distance_and_azimuth2n_EB_E A d az None ;; n_EA_E_and_n_EB_E2azimuth A B xa xf None)%py []
    (fun Z => list1 Z 1 (fun _ => al + PI / 2)).
Proof.
  intros A d dl az al xa xf a HA Hd Haz Ha Pa Hf Rd Ra. pose proof PI_RGT_0 as Pp.
  assert (HM : rotation Me).
  { split; [unfold orthogonal|]; unfold Me, mmul, mT, mdet, mI, vdot, vcross; cbn [vx vy vz r0 r1 r2]; [f_equal; f_equal; ring|ring]. }
  pose proof (proj1 HM) as HO.
  destruct (direct_spec A 1 (fun _ => V 0 0 1) d 1 (fun _ => dl) az 1 (fun _ => al) None Me 1) as (B & E & HB); auto using vals_scalar; [reflexivity|].
  cbn beta in HB.
  assert (X : vcross (north Me) (V 0 0 1) = v0) by (unfold north, Me, vcross, v0; cbn [r0 vx vy vz]; f_equal; ring).
  assert (U1 : vnorm (V 0 0 1) = 1) by (apply vnorm_unit; unfold vdot; cbn [vx vy vz]; ring).
  assert (HB' : cols B 1 (fun _ => V (sin dl * sin al) (sin dl * cos al) (cos dl))).
  { eapply cols_ext; [|exact HB]. intros j Hj. cbn beta. unfold dirB. rewrite X, dir1_v0.
    unfold vadd, vscale, vcross; cbn [vx vy vz]. f_equal; ring. }
  assert (U2 : vnorm (V (sin dl * sin al) (sin dl * cos al) (cos dl)) = 1).
  { apply vnorm_unit. unfold vdot; cbn [vx vy vz]. pose proof (sin2_cos2 dl) as S1. pose proof (sin2_cos2 al) as S2. unfold Rsqr in *.
    transitivity (sin dl * sin dl * (sin al * sin al + cos al * cos al) + cos dl * cos dl); [ring|]. rewrite S2. lra. }
  destruct (azimuth_spec A B 1 1 1 _ _ xa xf a 0 None Me eq_refl HM HA HB') as (Z & EZ & HZ); auto; try (intros; apply vnorm_inv; auto; fail); [lra|].
  exists Z. rewrite E, bind_ret, EZ, U1, U2, length_warning_unit. split; [reflexivity|].
  destruct HZ as [S G]. split; [exact S|]. intros j Hj. destruct (G j Hj) as (t & Ht & At). eapply fin_eq; [exact Ht|].
  rewrite !pos_sphere in At by auto. rewrite (direction_of_unit _ U1) in At.
  assert (Ee : eastv Me (V 0 0 1) = V 0 1 0).
  { unfold eastv. rewrite X, vnorm_v0. destruct (Req_EM_T 0 0); [reflexivity|lra]. }
  unfold az_of in At. rewrite NED_c1, (rot_c0 _ (NED_rotation Me HM _ U1)), NED_c1, NED_c2, Ee in At.
  apply (arg_of_polar (a * sin dl)); [|lra|].
  - apply Rmult_lt_0_compat; auto. apply sin_gt_0; lra.
  - rewrite sin_plus, cos_plus, sin_PI2, cos_PI2.
    match goal with H : arg_of ?y ?x t |- arg_of ?y' ?x' t => replace y' with y; [replace x' with x; [exact H|]|] end;
      unfold vdot, vsub, vscale, vcross, vneg; cbn [vx vy vz]; ring.
Qed.
Print Assumptions C24_pole_refuted.

Example C24_example : vnorm (V 0 (3/5) (4/5)) = 1 /\ vcross (north Me) (V 0 (3/5) (4/5)) <> v0 /\ 0 < 1 < PI /\ - PI < 2 < PI.
Proof.
  split; [apply vnorm_unit; unfold vdot; cbn; field|]. split; [unfold north, Me, vcross; cbn; intros [=]; lra|].
  pose proof PI2_3_2. lra.
Qed.

(** ** C25 *)
Theorem C25_interpolate : forall A B n u v ti m r k,
  cols A n u -> cols B n v -> vals ti m r -> bdim n m = Some k ->
  returns (interpolate (A, B) ti) [] (fun C => shape C = [3%nat; k] /\
    forall j, (j < k)%nat ->
      let a := u (cl n j) in let b := v (cl n j) in let t := r (cl m j) in
      let p := vadd a (vscale t (vsub b a)) in
      (p = v0 -> nancol C j) /\
      (p <> v0 -> exists w, vcol C j w /\ vnorm w = 1 /\ vdot w (vcross a b) = 0 /\
          same_direction w p /\
          (t = 0 -> w = direction a) /\ (t = 1 -> w = direction b) /\
          (0 <= t <= 1 -> on_arc a b w))).
Proof.
  intros A B n u v ti m r k HA HB Hti D. unfold interpolate.
  step (sub_cols _ _ _ _ _ _ _ HB HA (bdim_refl n)) d Hd.
  assert (Hs : exists S, map2 nmul ti d = ret S /\ cols S k (fun j => vscale (r (cl m j)) (vsub (v (cl n j)) (u (cl n j))))).
  { assert (Dc : bdim m n = Some k) by (rewrite bdim_comm; auto).
    assert (G : forall j, (j < k)%nat -> exists x, x ≈ r (cl m j) /\ forall i, (i < 3)%nat -> get ti (bidx (shape ti) [i; j]) = x).
    { intros j Hj. pose proof (cl_lt_r _ _ _ _ D Hj) as Lm. destruct Hti as [[-> [S C]]|[S C]].
      - exists (get ti []). split; [exact C|]. intros i Hi. rewrite S, bidx_nil. reflexivity.
      - exists (get ti [cl m j]). split; [apply C; auto|]. intros i Hi. rewrite S, bidx_1_2. reflexivity. }
    destruct Hd as [Sd Cd].
    assert (Sh : bshape (shape ti) (shape d) = Some [3%nat; k]).
    { rewrite Sd. destruct Hti as [[-> [S _]]|[S _]]; rewrite S.
      - rewrite bdim_1_r in D. injection D as <-. apply bshape_nil_l.
      - rewrite bshape_comm. apply bshape_3n_m; auto. }
    unfold map2. rewrite Sh. eexists; split; [reflexivity|]. split; [reflexivity|].
    intros j Hj. destruct (G j Hj) as (x & Hx & Gx). pose proof (cl_lt_l _ _ _ _ D Hj) as Ln.
    destruct (Cd _ Ln) as (d0 & d1 & d2). unfold vcol; cbn [get]. rewrite !Gx by lia. rewrite Sd, !bidx_2.
    change (cl 3 0) with 0%nat. change (cl 3 1) with 1%nat. change (cl 3 2) with 2%nat.
    rewrite !(cl_id n _ Ln) in d0, d1, d2. repeat split; apply fin_mul; auto. }
  destruct Hs as (S & E & HS). rewrite E, bind_ret; clear E.
  assert (Dk : bdim n k = Some k).
  { apply bdim_inv in D. destruct D as [[->| ->] _]; [apply bdim_refl|apply bdim_1_l]. }
  step (add_cols _ _ _ _ _ _ _ HA HS Dk) w Hw.
  destruct (unit_spec _ _ _ NaN Hw) as (C & E & SC & G). exists C; split; [exact E|]. split; [exact SC|].
  intros j Hj. cbv zeta. specialize (G j Hj). cbn beta in G.
  assert (Q : cl k j = j) by (apply cl_id; auto). rewrite Q in G.
  set (a := u (cl n j)) in *. set (b := v (cl n j)) in *. set (t := r (cl m j)) in *.
  destruct G as [G1 G2]. split.
  - intros Z. destruct (G2 Z) as (x & y & z). unfold nancol. rewrite x, y, z. auto.
  - intros Z. exists (direction (vadd a (vscale t (vsub b a)))). split; [apply G1; auto|].
    split; [apply direction_unit; auto|]. split.
    { unfold direction. rewrite vdot_scale_l. generalize (/ vnorm (vadd a (vscale t (vsub b a)))). generalize a b t. clear. intros a b t c. vring. }
    split; [apply direction_same; auto|].
    split; [intros ->; rewrite vscale_0, vadd_v0; reflexivity|]. split.
    { intros ->. f_equal. generalize a b. clear. intros a b. vring. }
    intros Ht. split; [apply direction_unit; auto|]. 
    set (c := / vnorm (vadd a (vscale t (vsub b a)))).
    assert (Pc : 0 < c) by (apply Rinv_0_lt_compat, vnorm_nz; auto).
    exists (c * (1 - t)), (c * t). split; [apply Rmult_le_pos; lra|]. split; [apply Rmult_le_pos; lra|].
    unfold direction. fold c. generalize c a b t. clear. intros c a b t. vring.
Qed.
Print Assumptions C25_interpolate.

Example C25_example : vadd (V 1 0 0) (vscale (1/2) (vsub (V (-1) 0 0) (V 1 0 0))) = v0 /\
  vadd (V 1 0 0) (vscale (1/2) (vsub (V 0 1 0) (V 1 0 0))) <> v0.
Proof.
  split; [unfold vadd, vscale, vsub, v0; cbn [vx vy vz]; f_equal; field|].
  unfold vadd, vscale, vsub; cbn [vx vy vz]; intros [=]; lra.
Qed.

(** ** C26 *)
Definition vsum (l : list vec) : vec := fold_right vadd v0 l.

Lemma mean_spec A l : cols A (length l) (fun j => nth j l v0) ->
  exists C, mean_horizontal_position A = ret C /\ cols C 1 (fun _ => dir1 (vsum l)).
Proof.
  intros [S G]. unfold mean_horizontal_position, sum1. rewrite S, bind_ret.
  unfold reshape2, size; cbn [shape prod fold_right]. cbn [Nat.mul Nat.add Nat.eqb]. rewrite bind_ret.
  match goal with |- context [nv_unit ?r _] => assert (H : cols r 1 (fun _ => vsum l)) end.
  { split; [reflexivity|]. intros j Hj. assert (j = 0)%nat by lia; subst j. unfold vcol; cbn [get]. unfold at_; cbn [nth].
    cbn [Nat.mul Nat.add unravel shape prod fold_right]. cbn [Nat.div Nat.modulo Nat.divmod fst snd Nat.sub nth].
    assert (R : forall l (pr : vec -> R), pr v0 = 0 -> (forall u v, pr (vadd u v) = pr u + pr v) ->
       rsum (length l) (fun j => pr (nth j l v0)) = pr (vsum l)).
    { clear. intros l pr P0 Pa.
      assert (X : forall n f, rsum (Datatypes.S n) f = f 0%nat + rsum n (fun j => f (Datatypes.S j))).
      { clear. induction n; intros f; [simpl; ring|]. 
        change (rsum (Datatypes.S (Datatypes.S n)) f) with (rsum (Datatypes.S n) f + f (Datatypes.S n)). rewrite IHn. simpl. ring. }
      induction l as [|x l IH]; [symmetry; exact P0|]. cbn [length]. rewrite X. cbn [nth vsum fold_right]. rewrite Pa.
      fold (vsum l). rewrite <- IH. reflexivity. }
    rewrite <- (R l vx), <- (R l vy), <- (R l vz); auto; try reflexivity.
    repeat split; apply nsum_rsum; intros i Hi; apply (G i Hi). }
  destruct (unit1_cols _ _ _ H) as (C & E & HC). exists C; split; [exact E|exact HC].
Qed.

Theorem C26_mean_is_unit_sum : forall A l, cols A (length l) (fun j => nth j l v0) -> vsum l <> v0 ->
  returns (mean_horizontal_position A) [] (fun C => exists c, cols C 1 (fun _ => c) /\
    vnorm c = 1 /\ same_direction c (vsum l) /\
    (forall p, vnorm p = 1 -> fold_right Rplus 0 (map (vdot p) l) <= fold_right Rplus 0 (map (vdot c) l)) /\
    ((forall q, In q l -> vnorm q = 1) -> forall p, vnorm p = 1 ->
        fold_right Rplus 0 (map (fun q => cos (angle p q)) l) <= fold_right Rplus 0 (map (fun q => cos (angle c q)) l))).
Proof.
  intros A l H Z. destruct (mean_spec A l H) as (C & E & HC). exists C; split; [exact E|].
  exists (direction (vsum l)). rewrite (dir1_nz _ Z) in HC. split; [exact HC|].
  pose proof (direction_unit _ Z) as U. split; [exact U|]. split; [apply direction_same; auto|].
  assert (Sm : forall p, fold_right Rplus 0 (map (vdot p) l) = vdot p (vsum l)).
  { clear. intros p. induction l as [|x l IH]; [unfold vdot; cbn; ring|]. cbn [map fold_right vsum]. fold (vsum l). rewrite vdot_add_r, IH. reflexivity. }
  assert (Mx : forall p, vnorm p = 1 -> fold_right Rplus 0 (map (vdot p) l) <= fold_right Rplus 0 (map (vdot (direction (vsum l))) l)).
  { intros p Hp. rewrite !Sm. pose proof (cauchy_schwarz p (vsum l)) as CS. rewrite Hp, Rmult_1_l in CS.
    pose proof (Rle_abs (vdot p (vsum l))). 
    assert (D : vdot (direction (vsum l)) (vsum l) = vnorm (vsum l)).
    { unfold direction. rewrite vdot_scale_l, <- vnorm_sq. pose proof (vnorm_nz _ Z). field. lra. }
    lra. }
  split; [exact Mx|]. intros Hq p Hp. specialize (Mx p Hp).
  assert (X : forall w, vnorm w = 1 -> map (fun q => cos (angle w q)) l = map (vdot w) l).
  { intros w Hw. apply map_ext_in. intros q Iq. apply cos_angle_unit; auto. }
  rewrite !X by auto. exact Mx.
Qed.
Print Assumptions C26_mean_is_unit_sum.

Theorem C26_order_irrelevant : forall A B l l', Permutation l l' ->
  cols A (length l) (fun j => nth j l v0) -> cols B (length l') (fun j => nth j l' v0) ->
  exists C D c, mean_horizontal_position A = ret C /\ mean_horizontal_position B = ret D /\
    cols C 1 (fun _ => c) /\ cols D 1 (fun _ => c).
Proof.
  intros A B l l' P HA HB. destruct (mean_spec A l HA) as (C & E & HC). destruct (mean_spec B l' HB) as (D & E' & HD).
  exists C, D. eexists. split; [exact E|]. split; [exact E'|]. split; [exact HC|].
  replace (vsum l) with (vsum l'); [exact HD|]. symmetry. clear - P. induction P; cbn; auto.
  - unfold vsum in *. congruence.
  - unfold vsum in *. generalize (fold_right vadd v0 l). intros w. clear. vring.
  - congruence.
Qed.
Print Assumptions C26_order_irrelevant.

(** positions that cancel: the answer is the first coordinate axis, whatever the positions *)
Theorem C26_zero_sum : forall A l, cols A (length l) (fun j => nth j l v0) -> vsum l = v0 ->
  returns (mean_horizontal_position A) [] (fun C => cols C 1 (fun _ => V 1 0 0)).
Proof.
  intros A l H Z. destruct (mean_spec A l H) as (C & E & HC). exists C; split; [exact E|].
  rewrite Z, dir1_v0 in HC. exact HC.
Qed.
Print Assumptions C26_zero_sum.

Example C26_example : vsum [V 1 0 0; V 0 1 0; V 0 0 1] <> v0 /\ vsum [V 0 0 1; V 0 0 (-1)] = v0
  /\ Permutation [V 1 0 0; V 0 1 0] [V 0 1 0; V 1 0 0].
Proof.
  split; [|split]; [| |constructor]; unfold vsum, v0; cbn [fold_right]; unfold vadd; cbn [vx vy vz]; [intros [=]; lra|f_equal; ring].
Qed.
