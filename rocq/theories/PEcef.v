(** * C06-C11: n-vector and depth <-> ECEF position *)
From Coq Require Import List Arith Lia Bool Reals Lra.
From Verif Require Import Num Py Nd MUtil MRotation MCore Spec SpecArr LNum LTrig LVec LArr LVerm LEcef.
Import ListNotations.
Local Open Scope R_scope.

(** polar and equatorial components in the internal axes *)
Lemma polar_int M p : polar (north M) p = vx (mulv M p).
Proof. reflexivity. Qed.
Lemma equatorial_int M p : orthogonal M ->
  vdot (equatorial (north M) p) (equatorial (north M) p) = rho2 (mulv M p).
Proof.
  intros H. pose proof (orthogonal_dot M p p H) as D. pose proof (orthogonal_rows M H) as (U & _).
  unfold equatorial, polar, north. rewrite !vdot_sub_l, !vdot_sub_r, !vdot_scale_l, !vdot_scale_r, U.
  rewrite <- D at 1. unfold rho2, vdot at 1, mulv; cbn [vx vy vz]. rewrite (vdot_comm p (r0 M)). ring.
Qed.
Lemma north_int M q : orthogonal M -> polar (north M) (mulv (mT M) q) = vx q.
Proof. intros H. rewrite polar_int, orthogonal_inv'; auto. Qed.
Lemma gradient_int M a f q : orthogonal M ->
  ellipsoid_gradient a f (north M) (mulv (mT M) q)
  = mulv (mT M) (V (vx q / (a * (1 - f)) ^ 2) (vy q * / a ^ 2) (vz q * / a ^ 2)).
Proof.
  intros H. unfold ellipsoid_gradient, equatorial. rewrite north_int by auto. unfold north.
  rewrite !mulvT_rows; cbn [vx vy vz]. apply vec_eq; unfold vadd, vsub, vscale; cbn [vx vy vz]; ring.
Qed.

Lemma psurf_on_ellipsoid a f w M : orthogonal M -> 0 < a -> f < 1 -> w <> v0 ->
  on_ellipsoid a f (north M) (mulv (mT M) (psurf a f w)).
Proof.
  intros H Pa Lf Hw. unfold on_ellipsoid. rewrite equatorial_int, north_int, orthogonal_inv' by auto.
  pose proof (den_pos f w ltac:(lra) Hw) as Dp. pose proof (den_sq f w ltac:(lra) Hw) as D2.
  unfold psurf, rho2 at 1; cbn [vx vy vz]. unfold cc.
  transitivity ((vx w * vx w + rho2 w / ((1 - f) * (1 - f))) / (den f w * den f w)).
  - unfold rho2. field. lra.
  - rewrite <- D2. field. lra.
Qed.
Lemma psurf_normal a f w M : orthogonal M -> 0 < a -> f < 1 -> w <> v0 ->
  same_direction (ellipsoid_gradient a f (north M) (mulv (mT M) (psurf a f w))) (mulv (mT M) w).
Proof.
  intros H Pa Lf Hw. rewrite gradient_int by auto.
  exists (cc a f w / (a * (1 - f)) ^ 2). pose proof (cc_pos a f w Pa ltac:(lra) Hw). split.
  - apply Rmult_lt_0_compat; auto. apply Rinv_0_lt_compat, pow_lt. nra.
  - rewrite <- mulv_scale. f_equal. unfold psurf, vscale; cbn [vx vy vz]. f_equal; field; lra.
Qed.

Lemma same_direction_trans u v w : same_direction u v -> same_direction v w -> same_direction u w.
Proof.
  intros (c & Hc & ->) (d & Hd & ->). exists (c * d). split; [apply Rmult_lt_0_compat; auto|apply vscale_vscale].
Qed.

(** ** C06.  n positions and m depths (broadcast); [s] is the surface point *)
Theorem C06_position_on_ellipsoid_normal : forall N n u depth m k z xa xf a f R_Ee M,
  axes R_Ee M -> orthogonal M -> cols N n u -> (0 < n)%nat ->
  (forall j, (j < n)%nat -> u j <> v0) -> vals depth m z -> bdim n m = Some k ->
  xa ≈ a -> xf ≈ f -> 0 < a -> f < 1 ->
  returns (n_EB_E2p_EB_E N depth xa xf R_Ee) (length_warning (vnorm (u 0%nat))) (fun P =>
    exists p, cols P k p /\ forall j, (j < k)%nat -> exists s,
      on_ellipsoid a f (north M) s /\
      same_direction (ellipsoid_gradient a f (north M) s) (u (cl n j)) /\
      p j = vsub s (vscale (z (cl m j)) (direction (u (cl n j))))).
Proof.
  intros N n u depth m k z xa xf a f R_Ee M HR HM HN Hn Hu Hz D Ha Hf Pa Lf.
  destruct (n2p_spec _ _ _ _ _ _ _ _ _ _ _ _ _ HR HM HN Hn Hu Hz D Ha Hf Lf) as (P & E & HP).
  exists P; split; auto. eexists; split; [apply HP|]. intros j Hj. cbn beta.
  pose proof (cl_lt_l _ _ _ _ D Hj) as L. set (d := direction (u (cl n j))).
  assert (Hd : d <> v0) by (apply direction_nz; auto).
  assert (Hw : mulv M d <> v0) by (apply orthogonal_nz; auto).
  exists (mulv (mT M) (psurf a f (mulv M d))). split; [apply psurf_on_ellipsoid; auto|]. split.
  - eapply same_direction_trans; [apply psurf_normal; auto|]. rewrite orthogonal_inv by auto.
    apply direction_same; auto.
  - unfold pint. rewrite mulv_sub, mulv_scale, orthogonal_inv by auto. reflexivity.
Qed.
Print Assumptions C06_position_on_ellipsoid_normal.

Theorem C06_depth_zero_is_on_the_ellipsoid : forall N n u xa xf a f R_Ee M,
  axes R_Ee M -> orthogonal M -> cols N n u -> (0 < n)%nat -> (forall j, (j < n)%nat -> u j <> v0) ->
  xa ≈ a -> xf ≈ f -> 0 < a -> f < 1 ->
  returns (n_EB_E2p_EB_E N (scal (Fin 0)) xa xf R_Ee) (length_warning (vnorm (u 0%nat))) (fun P =>
    exists p, cols P n p /\ forall j, (j < n)%nat ->
      on_ellipsoid a f (north M) (p j) /\
      same_direction (ellipsoid_gradient a f (north M) (p j)) (u j)).
Proof.
  intros N n u xa xf a f R_Ee M HR HM HN Hn Hu Ha Hf Pa Lf.
  destruct (C06_position_on_ellipsoid_normal _ _ _ _ _ _ _ _ _ _ _ _ _ HR HM HN Hn Hu
              (vals_scalar _ _ (scal_scalar 0)) (bdim_1_r n) Ha Hf Pa Lf) as (P & E & p & HP & G).
  exists P; split; auto. exists p; split; auto. intros j Hj. destruct (G j Hj) as (s & A & B & C).
  rewrite vscale_0 in C. replace (vsub s v0) with s in C by vring. rewrite C.
  rewrite (cl_id n j Hj) in B. auto.
Qed.
Print Assumptions C06_depth_zero_is_on_the_ellipsoid.

Example C06_example : exists N u, cols N 2 u /\ (forall j, (j < 2)%nat -> u j <> v0)
  /\ u 0%nat = V 1 2 2 /\ orthogonal Me /\ 0 < 6378137 /\ 1 / 298 < 1.
Proof.
  exists (arr3 [V 1 2 2; V 0 0 (-1)]), (fun j => nth j [V 1 2 2; V 0 0 (-1)] v0).
  split; [apply (arr3_cols [V 1 2 2; V 0 0 (-1)])|]. split.
  - intros j Hj. destruct j as [|[|j]]; try lia; simpl; intros [=]; lra.
  - split; auto. split; [unfold orthogonal, Me; vring|split; lra].
Qed.

(** ** C07 *)
Theorem C07_depth_roundtrip : forall N n u depth m k z xa xf a f R_Ee M,
  axes R_Ee M -> orthogonal M -> cols N n u -> (0 < n)%nat ->
  (forall j, (j < n)%nat -> u j <> v0) -> vals depth m z -> bdim n m = Some k ->
  xa ≈ a -> xf ≈ f -> 0 < a -> 0 <= f < 1 -> ecc2 f <= 1 / 2 ->
  (forall j, (j < m)%nat -> z j < a * (1 - 2 * ecc2 f)) ->
  returns (P <- n_EB_E2p_EB_E N depth xa xf R_Ee ;; p_EB_E2n_EB_E P xa xf R_Ee)
    (length_warning (vnorm (u 0%nat))) (fun out =>
    cols (fst out) k (fun j => direction (u (cl n j))) /\ list1 (snd out) k (fun j => z (cl m j))).
Proof.
  intros N n u depth m k z xa xf a f R_Ee M HR HM HN Hn Hu Hz D Ha Hf Pa Rf E2 Zd.
  destruct (n2p_spec _ _ _ _ _ _ _ _ _ _ _ _ _ HR HM HN Hn Hu Hz D Ha Hf (proj2 Rf)) as (P & E & HP).
  rewrite E, bind_inl.
  set (w := fun j => mulv M (direction (u (cl n j)))).
  assert (U : forall j, (j < k)%nat -> vdot (w j) (w j) = 1).
  { intros j Hj. apply vnorm_unit. unfold w. rewrite orthogonal_norm by auto. apply direction_unit, Hu.
    eapply cl_lt_l; eauto. }
  assert (K : forall j, (j < k)%nat -> ecc2 f < (cc a f (w j) - z (cl m j)) * (1 - ecc2 f) / cc a f (w j)).
  { intros j Hj. apply deep_k; auto. split; auto. apply Zd. eapply cl_lt_r; eauto. }
  destruct (p2n_spec P k _ xa xf a f R_Ee M HR HM HP Ha Hf Pa Rf) as (N' & dep & w' & z' & E' & HN' & Hd' & G).
  { intros j Hj. rewrite orthogonal_inv' by auto. apply (rec_outside a f _ (w j) Pa Rf (U j Hj) (K j Hj)). }
  rewrite E'. exists (N', dep). split; [cbn; rewrite app_nil_r; reflexivity|]. cbn [fst snd].
  assert (R : forall j, (j < k)%nat -> w' j = w j /\ z' j = z (cl m j)).
  { intros j Hj. specialize (G j Hj). rewrite orthogonal_inv' in G by auto.
    apply (rec_unique a f (z (cl m j)) (w j) Pa Rf (U j Hj) (K j Hj)); auto. }
  split.
  - eapply cols_ext; [|apply HN']. intros j Hj. cbn beta. destruct (R j Hj) as [-> _].
    unfold w. apply orthogonal_inv; auto.
  - eapply list1_ext; [|apply Hd']. intros j Hj. apply R; auto.
Qed.
Print Assumptions C07_depth_roundtrip.

(** the WGS-84 values meet the hypotheses, for every depth up to 6292 km *)
Example C07_example : let f := 1 / (298257223563 / 1000000000) in
  0 <= f < 1 /\ ecc2 f <= 1 / 2 /\ 6292000 < 6378137 * (1 - 2 * ecc2 f).
Proof. cbv zeta. unfold ecc2. lra. Qed.

(** ** C08 *)
Theorem C08_position_roundtrip : forall P n p xa xf a f R_Ee M,
  axes R_Ee M -> orthogonal M -> cols P n p -> (0 < n)%nat -> xa ≈ a -> xf ≈ f -> 0 < a -> 0 <= f < 1 ->
  (forall j, (j < n)%nat ->
     let eq := equatorial (north M) (p j) in
     (ecc2 f) ^ 2 * a ^ 2 < vdot eq eq + (1 - ecc2 f) * (polar (north M) (p j)) ^ 2) ->
  exists N depth Q nn z,
    p_EB_E2n_EB_E P xa xf R_Ee = ret (N, depth) /\
    cols N n nn /\ (forall j, (j < n)%nat -> vnorm (nn j) = 1) /\ list1 depth n z /\
    n_EB_E2p_EB_E N depth xa xf R_Ee = ret Q /\ cols Q n p.
Proof.
  intros P n p xa xf a f R_Ee M HR HM HP Hn Ha Hf Pa Rf G.
  destruct (p2n_spec P n p xa xf a f R_Ee M HR HM HP Ha Hf Pa Rf) as (N & dep & w & z & E & HN & Hd & Gd).
  { intros j Hj. specialize (G j Hj). cbv zeta in G. rewrite equatorial_int, polar_int in G by auto.
    assert (X2 : forall t, t ^ 2 = t * t) by (intros; ring). rewrite !X2 in G. exact G. }
  assert (U : forall j, (j < n)%nat -> vnorm (mulv (mT M) (w j)) = 1).
  { intros j Hj. rewrite orthogonal_norm by (apply orthogonal_T; auto). apply vnorm_unit.
    eapply geod_unit; eauto. }
  destruct (n2p_spec N n _ dep n n z xa xf a f R_Ee M HR HM HN Hn) as (Q & E' & HQ); auto.
  { intros j Hj. apply vnorm_inv; auto. } { right; auto. } { apply bdim_refl. } { lra. }
  exists N, dep, Q, (fun j => mulv (mT M) (w j)), z.
  split; auto. split; auto. split; auto. split; auto. split.
  - rewrite E', (U 0%nat Hn), length_warning_unit. reflexivity.
  - eapply cols_ext; [|apply HQ]. intros j Hj. cbn beta. rewrite (cl_id n j Hj).
    rewrite (direction_of_unit _ (U j Hj)), orthogonal_inv' by auto.
    rewrite (geod_sound a f (mulv M (p j))); auto. apply orthogonal_inv; auto.
Qed.
Print Assumptions C08_position_roundtrip.

(** a point 6000 km out on the equator of an Earth-like ellipsoid is outside the core *)
Example C08_example : let f := 1 / 298 in let p := V 6000000 0 0 in
  let eq := equatorial (north Me) p in
  (ecc2 f) ^ 2 * 6378137 ^ 2 < vdot eq eq + (1 - ecc2 f) * (polar (north Me) p) ^ 2.
Proof.
  cbv zeta. unfold equatorial, polar, north, Me, vdot, vsub, vscale, ecc2; cbn [vx vy vz r0]. lra.
Qed.

(** ** C09 *)
Definition pos (a f : R) (M : mat) (u : vec) (z : R) : vec :=
  mulv (mT M) (pint a f (mulv M (direction u)) z).

Lemma delta_spec A B n m k u v zA zB p q ra rb xa xf a f R_Ee M kA kB :
  axes R_Ee M -> orthogonal M -> cols A n u -> cols B m v -> (0 < n)%nat -> (0 < m)%nat ->
  (forall j, (j < n)%nat -> u j <> v0) -> (forall j, (j < m)%nat -> v j <> v0) ->
  vals zA p ra -> vals zB q rb -> bdim n p = Some kA -> bdim m q = Some kB -> bdim kB kA = Some k ->
  xa ≈ a -> xf ≈ f -> f < 1 ->
  exists D, n_EA_E_and_n_EB_E2p_AB_E A B zA zB xa xf R_Ee
      = (length_warning (vnorm (u 0%nat)) ++ length_warning (vnorm (v 0%nat)), inl D) /\
    cols D k (fun j => vsub (pos a f M (v (cl m (cl kB j))) (rb (cl q (cl kB j))))
                            (pos a f M (u (cl n (cl kA j))) (ra (cl p (cl kA j))))).
Proof.
  intros HR HM HA HB Hn Hm Hu Hv HzA HzB DA DB D Ha Hf Lf. unfold n_EA_E_and_n_EB_E2p_AB_E.
  destruct (n2p_spec _ _ _ _ _ _ _ _ _ _ _ _ _ HR HM HA Hn Hu HzA DA Ha Hf Lf) as (PA & EA & HPA).
  destruct (n2p_spec _ _ _ _ _ _ _ _ _ _ _ _ _ HR HM HB Hm Hv HzB DB Ha Hf Lf) as (PB & EB & HPB).
  rewrite EA, bind_inl, EB, bind_inl.
  destruct (sub_cols _ _ _ _ _ _ _ HPB HPA D) as (X & E & HX). rewrite E.
  exists X. split; [cbn; rewrite app_nil_r; reflexivity|]. exact HX.
Qed.

(** n positions each for A, B, C, one depth each or one common depth *)
Theorem C09_delta_triangle_laws : forall A B C n u v w zA zB zC mA mB mC ra rb rc xa xf a f R_Ee M,
  axes R_Ee M -> orthogonal M -> (0 < n)%nat ->
  cols A n u -> cols B n v -> cols C n w ->
  (forall j, (j < n)%nat -> u j <> v0 /\ v j <> v0 /\ w j <> v0) ->
  vals zA mA ra -> vals zB mB rb -> vals zC mC rc ->
  bdim n mA = Some n -> bdim n mB = Some n -> bdim n mC = Some n ->
  xa ≈ a -> xf ≈ f -> f < 1 ->
  let delta X Y zX zY := snd (n_EA_E_and_n_EB_E2p_AB_E X Y zX zY xa xf R_Ee) in
  exists AB BA BC AC dAB dBC dAC,
    delta A B zA zB = inl AB /\ delta B A zB zA = inl BA /\
    delta B C zB zC = inl BC /\ delta A C zA zC = inl AC /\
    cols AB n dAB /\ cols BA n (fun j => vneg (dAB j)) /\ cols BC n dBC /\ cols AC n dAC /\
    (forall j, (j < n)%nat -> dAC j = vadd (dAB j) (dBC j)) /\
    (forall j, (j < n)%nat -> u j = v j -> ra (cl mA j) = rb (cl mB j) -> dAB j = v0).
Proof.
  intros A B C n u v w zA zB zC mA mB mC ra rb rc xa xf a f R_Ee M HR HM Hn HA HB HC Hnz HzA HzB HzC DA DB DC Ha Hf Lf.
  assert (Hu : forall j, (j < n)%nat -> u j <> v0) by (intros; apply Hnz; auto).
  assert (Hv : forall j, (j < n)%nat -> v j <> v0) by (intros; apply Hnz; auto).
  assert (Hw : forall j, (j < n)%nat -> w j <> v0) by (intros; apply Hnz; auto).
  destruct (delta_spec A B n n n u v zA zB mA mB ra rb xa xf a f R_Ee M n n) as (AB & EAB & HAB); auto using bdim_refl.
  destruct (delta_spec B A n n n v u zB zA mB mA rb ra xa xf a f R_Ee M n n) as (BA & EBA & HBA); auto using bdim_refl.
  destruct (delta_spec B C n n n v w zB zC mB mC rb rc xa xf a f R_Ee M n n) as (BC & EBC & HBC); auto using bdim_refl.
  destruct (delta_spec A C n n n u w zA zC mA mC ra rc xa xf a f R_Ee M n n) as (AC & EAC & HAC); auto using bdim_refl.
  cbv beta zeta. rewrite EAB, EBA, EBC, EAC. cbn [snd].
  exists AB, BA, BC, AC. do 3 eexists.
  split; [reflexivity|]. split; [reflexivity|]. split; [reflexivity|]. split; [reflexivity|].
  split; [exact HAB|]. split; [|split; [exact HBC|split; [exact HAC|split]]].
  - eapply cols_ext; [|apply HBA]. intros j Hj. cbn beta. vring.
  - intros j Hj. cbn beta. vring.
  - intros j Hj Eu Er. cbn beta. rewrite !(cl_id n j Hj). rewrite Eu, Er. apply vsub_self.
Qed.
Print Assumptions C09_delta_triangle_laws.

Example C09_example : bdim 4 1 = Some 4%nat /\ bdim 4 4 = Some 4%nat /\ orthogonal ME.
Proof. repeat split. unfold orthogonal, ME. vring. Qed.

(** ** C10 *)
Theorem C10_delta_recovers_B : forall A B n u v zA zB mA mB ra rb xa xf a f R_Ee M,
  axes R_Ee M -> orthogonal M -> (0 < n)%nat ->
  cols A n u -> cols B n v -> (forall j, (j < n)%nat -> u j <> v0 /\ v j <> v0) ->
  vals zA mA ra -> vals zB mB rb -> bdim n mA = Some n -> bdim n mB = Some n ->
  xa ≈ a -> xf ≈ f -> 0 < a -> 0 <= f < 1 -> ecc2 f <= 1 / 2 ->
  (forall j, (j < mB)%nat -> rb j < a * (1 - 2 * ecc2 f)) ->
  exists D N depth,
    snd (n_EA_E_and_n_EB_E2p_AB_E A B zA zB xa xf R_Ee) = inl D /\
    snd (n_EA_E_and_p_AB_E2n_EB_E A D zA xa xf R_Ee) = inl (N, depth) /\
    cols N n (fun j => direction (v j)) /\ list1 depth n (fun j => rb (cl mB j)).
Proof.
  intros A B n u v zA zB mA mB ra rb xa xf a f R_Ee M HR HM Hn HA HB Hnz HzA HzB DA DB Ha Hf Pa Rf E2 Zd.
  assert (Hu : forall j, (j < n)%nat -> u j <> v0) by (intros; apply Hnz; auto).
  assert (Hv : forall j, (j < n)%nat -> v j <> v0) by (intros; apply Hnz; auto).
  assert (Lf : f < 1) by lra.
  destruct (delta_spec A B n n n u v zA zB mA mB ra rb xa xf a f R_Ee M n n) as (AB & EAB & HAB); auto using bdim_refl.
  exists AB. rewrite EAB. unfold n_EA_E_and_p_AB_E2n_EB_E.
  destruct (default_R_axes _ _ HR) as (Rm & ER & HRm). rewrite ER, bind_ret.
  assert (HR' : axes (Some Rm) M) by exact HRm.
  destruct (n2p_spec _ _ _ _ _ _ _ _ _ _ _ _ _ HR' HM HA Hn Hu HzA DA Ha Hf Lf) as (PA & EA & HPA).
  rewrite EA, bind_inl.
  step (add_cols _ _ _ _ _ _ _ HPA HAB (bdim_refl n)) PB HPB.
  set (w := fun j => mulv M (direction (v j))).
  assert (U : forall j, (j < n)%nat -> vdot (w j) (w j) = 1).
  { intros j Hj. apply vnorm_unit. unfold w. rewrite orthogonal_norm by auto. apply direction_unit, Hv; auto. }
  assert (K : forall j, (j < n)%nat -> ecc2 f < (cc a f (w j) - rb (cl mB j)) * (1 - ecc2 f) / cc a f (w j)).
  { intros j Hj. apply deep_k; auto. split; auto. apply Zd. eapply cl_lt_r; eauto. }
  assert (HPB' : cols PB n (fun j => mulv (mT M) (pint a f (w j) (rb (cl mB j))))).
  { eapply cols_ext; [|apply HPB]. intros j Hj. cbn beta. rewrite !(cl_id n j Hj). unfold pos, w. vring. }
  destruct (p2n_spec PB n _ xa xf a f _ M HR' HM HPB' Ha Hf Pa Rf) as (N' & dep & w' & z' & E' & HN' & Hd' & G).
  { intros j Hj. rewrite orthogonal_inv' by auto. apply (rec_outside a f _ (w j) Pa Rf (U j Hj) (K j Hj)). }
  rewrite E'. exists N', dep. split; auto. split; auto.
  assert (R : forall j, (j < n)%nat -> w' j = w j /\ z' j = rb (cl mB j)).
  { intros j Hj. specialize (G j Hj). rewrite orthogonal_inv' in G by auto.
    apply (rec_unique a f (rb (cl mB j)) (w j) Pa Rf (U j Hj) (K j Hj)); auto. }
  split.
  - eapply cols_ext; [|apply HN']. intros j Hj. cbn beta. destruct (R j Hj) as [-> _].
    unfold w. apply orthogonal_inv; auto.
  - eapply list1_ext; [|apply Hd']. intros j Hj. apply R; auto.
Qed.
Print Assumptions C10_delta_recovers_B.

Example C10_example : let f := 1 / 298 in
  0 <= f < 1 /\ ecc2 f <= 1 / 2 /\ -10000 < 6378137 * (1 - 2 * ecc2 f).
Proof. cbv zeta. unfold ecc2. lra. Qed.

(** ** C11 *)
Lemma pint_sphere a w d : 0 < a -> vdot w w = 1 -> pint a 0 w d = vscale (a - d) w.
Proof.
  intros Pa U. assert (Dn : den 0 w = 1).
  { unfold den. replace (vx w * vx w + rho2 w / ((1 - 0) * (1 - 0))) with (vdot w w) by (unfold vdot, rho2; field). rewrite U. apply sqrt_1. }
  unfold pint, psurf, cc. rewrite Dn. destruct w as [w0 w1 w2]; unfold vsub, vscale; cbn [vx vy vz]. f_equal; field.
Qed.

Theorem C11_sphere_n2p : forall N n u depth m k z xa xf a R_Ee M,
  axes R_Ee M -> orthogonal M -> cols N n u -> (0 < n)%nat -> (forall j, (j < n)%nat -> u j <> v0) ->
  vals depth m z -> bdim n m = Some k -> xa ≈ a -> xf ≈ 0 -> 0 < a ->
  returns (n_EB_E2p_EB_E N depth xa xf R_Ee) (length_warning (vnorm (u 0%nat))) (fun P =>
    cols P k (fun j => vscale (a - z (cl m j)) (direction (u (cl n j))))).
Proof.
  intros N n u depth m k z xa xf a R_Ee M HR HM HN Hn Hu Hz D Ha Hf Pa.
  destruct (n2p_spec _ _ _ _ _ _ _ _ _ _ _ _ _ HR HM HN Hn Hu Hz D Ha Hf ltac:(lra)) as (P & E & HP).
  exists P; split; auto. eapply cols_ext; [|apply HP]. intros j Hj. cbn beta.
  rewrite pint_sphere; auto.
  - rewrite mulv_scale, orthogonal_inv; auto.
  - apply vnorm_unit. rewrite orthogonal_norm by auto. apply direction_unit, Hu. eapply cl_lt_l; eauto.
Qed.
Print Assumptions C11_sphere_n2p.

Theorem C11_sphere_p2n : forall P n p xa xf a R_Ee M,
  axes R_Ee M -> orthogonal M -> cols P n p -> xa ≈ a -> xf ≈ 0 -> 0 < a ->
  (forall j, (j < n)%nat -> p j <> v0) ->
  returns (p_EB_E2n_EB_E P xa xf R_Ee) [] (fun out =>
    cols (fst out) n (fun j => direction (p j)) /\
    list1 (snd out) n (fun j => a - vnorm (p j))).
Proof.
  intros P n p xa xf a R_Ee M HR HM HP Ha Hf Pa Hp.
  assert (E0 : ecc2 0 = 0) by (unfold ecc2; ring).
  destruct (p2n_spec P n p xa xf a 0 R_Ee M HR HM HP Ha Hf Pa ltac:(lra)) as (N & dep & w & z & E & HN & Hd & G).
  { intros j Hj. unfold outside. rewrite E0.
    assert (mulv M (p j) <> v0) by (apply orthogonal_nz; auto). pose proof (vdot_nz _ H) as V. unfold vdot in V.
    unfold rho2. lra. }
  exists (N, dep). split; auto. cbn [fst snd].
  assert (X : forall j, (j < n)%nat -> w j = direction (mulv M (p j)) /\ z j = a - vnorm (p j)).
  { intros j Hj. specialize (G j Hj). destruct G as (k & T & Pk & PT & Ek & ET & Ew & Ed).
    rewrite E0 in *. replace (k / (k + 0)) with 1 in * by (field; lra).
    set (q := mulv M (p j)) in *.
    assert (Hq : q <> v0) by (apply orthogonal_nz; auto).
    assert (Nq : vnorm q = T). { apply vnorm_eq; [lra|]. rewrite ET. unfold vdot, rho2. ring. }
    assert (Kq : k * a = vnorm q).
    { assert (KK : (k * a) * (k * a) = vnorm q * vnorm q).
      { rewrite vnorm_sq. apply Rmult_eq_reg_r with (k ^ 2 / (a * a)); [|apply Rgt_not_eq, Rmult_lt_0_compat; [apply pow_lt; lra|apply Rinv_0_lt_compat; nra]].
        transitivity (k ^ 2 * (k + 0) ^ 2); [field; lra|]. rewrite <- Ek. unfold vdot, rho2. field. lra. }
      pose proof (vnorm_pos q). assert (0 < k * a) by nra. nra. }
    split.
    - rewrite Ew. unfold direction. rewrite Nq. clearbody q; destruct q as [q0 q1 q2]; unfold vscale; cbn [vx vy vz]. f_equal; field; lra.
    - rewrite Ed. unfold q in Kq, Nq. rewrite orthogonal_norm in Kq, Nq by auto.
      rewrite Nq in *. rewrite <- Kq. field. lra. }
  split.
  - eapply cols_ext; [|apply HN]. intros j Hj. cbn beta. destruct (X j Hj) as [-> _].
    rewrite orthogonal_direction, orthogonal_inv; auto.
  - eapply list1_ext; [|apply Hd]. intros j Hj. apply X; auto.
Qed.
Print Assumptions C11_sphere_p2n.

Example C11_example : Fin 0 ≈ 0 /\ V 1 2 3 <> v0.
Proof. split; [reflexivity|]. intros [=]; lra. Qed.
