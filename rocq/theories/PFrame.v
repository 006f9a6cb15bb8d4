(** * C30-C32: the local frames N and L *)
From Coq Require Import List Arith Lia Bool Reals Lra Psatz.
From Verif Require Import Num Py Nd MUtil MRotation Spec SpecArr LNum LTrig LVec LArr LLatLon LMat LRot.
Import ListNotations.
Local Open Scope R_scope.

(** ** facts about the matrix of North, East and Down *)
Lemma north_unit M : orthogonal M -> vnorm (north M) = 1.
Proof. intros H. apply vnorm_unit. apply orthogonal_rows in H. unfold north. tauto. Qed.

Lemma pole_parallel N u : vnorm N = 1 -> vcross N u = v0 -> u = vscale (vdot N u) N.
Proof.
  intros HN H. pose proof (cross_zero_parallel N u (vnorm_inv _ HN) H) as E.
  apply vnorm_unit in HN. rewrite HN in E. rewrite E at 1. f_equal. field.
Qed.

Lemma box_swap e u N : vdot (vcross e (vneg u)) N = vdot e (vcross N u). Proof. vring. Qed.
Lemma vdot_v0_r u : vdot u v0 = 0. Proof. vring. Qed.
Lemma vcross_v0_r u : vcross u v0 = v0. Proof. vring. Qed.
Lemma rows_e0 M : mulv (mT M) (V 1 0 0) = north M.
Proof. rewrite mulvT_rows. unfold north; cbn [vx vy vz]. generalize (r0 M) (r1 M) (r2 M). clear. intros a b c. vring. Qed.
Lemma NED_c1 M u : c1 (NED M u) = eastv M u.
Proof. unfold NED, c1. rewrite mT_mT. reflexivity. Qed.
Lemma NED_c2 M u : c2 (NED M u) = vneg u.
Proof. unfold NED, c2. rewrite mT_mT. reflexivity. Qed.
Section NED.
Variable M : mat. Hypothesis HM : rotation M.
Variable u : vec. Hypothesis Hu : vnorm u = 1.
Let HO : orthogonal M := proj1 HM.

Lemma eastv_unit : vnorm (eastv M u) = 1.
Proof.
  unfold eastv. destruct (Req_EM_T (vnorm (vcross (north M) u)) 0) as [E|E].
  - apply vnorm_unit. apply orthogonal_rows in HO. tauto.
  - apply direction_unit. intros Z. apply E. rewrite Z. apply vnorm_v0.
Qed.
Lemma eastv_north : vdot (eastv M u) (north M) = 0.
Proof.
  unfold eastv. destruct (Req_EM_T (vnorm (vcross (north M) u)) 0) as [E|E].
  - apply orthogonal_rows in HO. unfold north. rewrite vdot_comm. tauto.
  - unfold direction. rewrite vdot_scale_l, vdot_cross_l'. ring.
Qed.
Lemma eastv_up : vdot (eastv M u) u = 0.
Proof.
  unfold eastv. destruct (Req_EM_T (vnorm (vcross (north M) u)) 0) as [E|E].
  - apply vnorm_0 in E. rewrite (pole_parallel _ _ (north_unit M HO) E), vdot_scale_r.
    apply orthogonal_rows in HO. unfold north. rewrite (vdot_comm (r1 M)).
    destruct HO as (_ & _ & _ & H01 & _). rewrite H01. ring.
  - unfold direction. rewrite vdot_scale_l, vdot_cross_r'. ring.
Qed.
Lemma NED_rotation : rotation (NED M u).
Proof.
  pose proof eastv_unit as E1. pose proof eastv_up as E2. apply vnorm_unit in E1.
  assert (U : vdot u u = 1) by (apply vnorm_unit; auto).
  set (e := eastv M u) in *.
  assert (X : vdot (vcross e (vneg u)) (vcross e (vneg u)) = 1).
  { rewrite lagrange, E1, !vdot_neg_r, vdot_neg_l, U, E2. ring. }
  unfold NED. fold e. split.
  - apply orthogonal_of_cols; unfold c0, c1, c2; rewrite !mT_mT; cbn [r0 r1 r2]; auto.
    + rewrite vdot_neg_l, vdot_neg_r, U. ring.
    + apply vdot_cross_l'.
    + apply vdot_cross_r'.
    + rewrite vdot_neg_r, E2. ring.
  - rewrite mdet_T. unfold mdet; cbn [r0 r1 r2]. exact X.
Qed.
Lemma NED_c0_north : vdot (c0 (NED M u)) (north M) = vnorm (vcross (north M) u).
Proof.
  unfold NED, c0. rewrite mT_mT; cbn [r0].
  rewrite box_swap.
  unfold eastv. destruct (Req_EM_T (vnorm (vcross (north M) u)) 0) as [E|E].
  - rewrite E. apply vnorm_0 in E. rewrite E. apply vdot_v0_r.
  - unfold direction. rewrite vdot_scale_l, <- vnorm_sq. field; auto.
Qed.
End NED.

(** ** C30 *)
Theorem C30_north_east_down : forall A n u R_Ee M,
  axes R_Ee M -> rotation M -> cols A n u -> (0 < n)%nat -> (forall j, (j < n)%nat -> u j <> v0) ->
  returns (n_E2R_EN A R_Ee) (length_warning (vnorm (u 0%nat))) (fun R => exists F, mats R n F /\
    forall j, (j < n)%nat ->
      rotation (F j) /\
      c2 (F j) = vneg (direction (u j)) /\
      vdot (c1 (F j)) (north M) = 0 /\
      0 <= vdot (c0 (F j)) (north M) /\
      (vcross (north M) (u j) <> v0 ->
         0 < vdot (c0 (F j)) (north M) /\ c1 (F j) = direction (vcross (north M) (u j))) /\
      (vcross (north M) (u j) = v0 -> c1 (F j) = r1 M)).
Proof.
  intros A n u R_Ee M HR HM HA Hn Nz.
  destruct (n_E2R_EN_spec A n u R_Ee M HR HM HA Hn Nz) as (R & E & HF).
  exists R; split; [exact E|]. eexists; split; [exact HF|]. intros j Hj. cbn beta.
  pose proof (direction_unit _ (Nz j Hj)) as U. pose proof (vnorm_nz _ (Nz j Hj)) as P.
  split; [apply NED_rotation; auto|]. split; [reflexivity|].
  split; [unfold NED, c1; rewrite mT_mT; apply eastv_north; auto|].
  rewrite NED_c0_north by auto. split; [apply vnorm_pos|].
  assert (S : vcross (north M) (direction (u j)) = vscale (/ vnorm (u j)) (vcross (north M) (u j))) by (unfold direction; apply vcross_scale_r).
  assert (IP : 0 < / vnorm (u j)) by (apply Rinv_0_lt_compat; auto).
  split.
  - intros Z.
    assert (Z' : vcross (north M) (direction (u j)) <> v0) by (rewrite S; intros Q; apply Z; apply (vscale_eq_v0 _ _ Q); lra).
    split; [apply vnorm_nz; auto|]. unfold NED, c1; rewrite mT_mT; cbn [r1]. unfold eastv.
    destruct (Req_EM_T (vnorm (vcross (north M) (direction (u j)))) 0) as [Q|Q]; [apply vnorm_0 in Q; contradiction|].
    rewrite S. apply direction_scale; auto.
  - intros Z. unfold NED, c1; rewrite mT_mT; cbn [r1]. unfold eastv. rewrite S, Z, vscale_v0, vnorm_v0.
    destruct (Req_EM_T 0 0); [reflexivity|lra].
Qed.
Print Assumptions C30_north_east_down.

Example C30_example : rotation Me /\ (forall j, (j < 3)%nat -> nth j [V 0 0 1; V 0 0 (-2); V 1 2 3] v0 <> v0)
  /\ vcross (north Me) (V 0 0 1) = v0 /\ vcross (north Me) (V 1 2 3) <> v0.
Proof.
  split; [|split; [|split]].
  - split; [unfold orthogonal|]; unfold Me, mmul, mT, mdet, mI, vdot, vcross; cbn [vx vy vz r0 r1 r2]; [f_equal; f_equal; ring|ring].
  - intros j Hj. destruct (lt3 j Hj) as [->|[->| ->]]; cbn [nth]; intros [=]; lra.
  - unfold north, Me, vcross, v0; cbn [r0 vx vy vz]. f_equal; ring.
  - unfold north, Me, vcross; cbn. intros [=]. lra.
Qed.

(** ** C31 *)
Lemma Mxyz_split x y z : Mxyz x y z = mmul (Mxyz x y 0) (Rz z).
Proof.
  unfold Mxyz. replace (Rz 0) with mI; [rewrite mmul_mI_r; symmetry; apply mmul_assoc|].
  unfold Rz, mI. rewrite sin_0, cos_0, Ropp_0. reflexivity.
Qed.

Lemma EL_c2 M u la lo : rotation M -> u <> v0 -> lat_of (mulv M u) la -> lon_of (mulv M u) lo ->
  mulv (mT M) (vneg (nvec_int la lo)) = vneg (direction u).
Proof.
  intros HM Hu Hla Hlo. pose proof (proj1 HM) as HO.
  rewrite (lat_lon_direction (mulv M u)); auto; [|apply orthogonal_nz; auto].
  rewrite mulv_neg, orthogonal_direction, orthogonal_inv by auto. reflexivity.
Qed.
Lemma Mxyz_c2 la lo wa : c2 (Mxyz lo (- la) wa) = vneg (nvec_int la lo).
Proof.
  rewrite Mxyz_eq. unfold Cxyz, c2, mT, nvec_int, vneg; cbn [vx vy vz r0 r1 r2]. rewrite sin_neg, cos_neg. f_equal; ring.
Qed.
Lemma rot_c0 F : rotation F -> c0 F = vcross (c1 F) (c2 F).
Proof.
  intros H. pose proof (rotation_adj _ H) as A.
  pose proof (rotation_T _ H) as HT. pose proof (rotation_adj _ HT) as B. rewrite mT_mT in B.
  unfold c0, c1, c2. rewrite B at 1. unfold madj at 1. rewrite mT_mT. reflexivity.
Qed.
Lemma NED_xyz M u la lo : rotation M -> u <> v0 -> vcross (north M) u <> v0 ->
  lat_of (mulv M u) la -> lon_of (mulv M u) lo ->
  mmul (mT M) (Mxyz lo (- la) 0) = NED M (direction u).
Proof.
  intros HM Hu Np Hla Hlo. pose proof (proj1 HM) as HO.
  assert (R1 : rotation (mmul (mT M) (Mxyz lo (- la) 0))) by (apply rotation_mul; [apply rotation_T; auto|apply Mxyz_rotation]).
  assert (R2 : rotation (NED M (direction u))) by (apply NED_rotation; auto; apply direction_unit; auto).
  assert (E2 : c2 (mmul (mT M) (Mxyz lo (- la) 0)) = c2 (NED M (direction u))).
  { rewrite c2_mmul, Mxyz_c2, (EL_c2 M u) by auto. reflexivity. }
  assert (E1 : c1 (mmul (mT M) (Mxyz lo (- la) 0)) = c1 (NED M (direction u))).
  { rewrite c1_mmul.
    rewrite NED_c1.
    pose proof (lat_lon_direction (mulv M u) la lo (orthogonal_nz _ _ HO Hu) Hla Hlo) as D.
    rewrite orthogonal_direction in D by auto.
    assert (X : vcross (north M) (direction u) = mulv (mT M) (vcross (V 1 0 0) (nvec_int la lo))).
    { rewrite D, <- rotation_cross by (apply rotation_T; auto). rewrite orthogonal_inv by auto. f_equal.
      symmetry; apply rows_e0. }
    assert (Y : vcross (V 1 0 0) (nvec_int la lo) = vscale (cos la) (V 0 (cos lo) (sin lo))).
    { unfold nvec_int, vcross, vscale; cbn [vx vy vz]. f_equal; ring. }
    assert (C : c1 (Mxyz lo (- la) 0) = V 0 (cos lo) (sin lo)).
    { rewrite Mxyz_eq. unfold Cxyz, c1, mT; cbn [vx vy vz r0 r1 r2]. rewrite sin_0, cos_0. f_equal; ring. }
    assert (L : - (PI / 2) <= la <= PI / 2) by (eapply lat_of_range; [|exact Hla]; apply orthogonal_nz; auto).
    assert (Cn : 0 <= cos la) by (apply cos_ge_0; lra).
    assert (U1 : vnorm (V 0 (cos lo) (sin lo)) = 1).
    { apply vnorm_unit. unfold vdot; cbn [vx vy vz]. pose proof (sin2_cos2 lo) as S; unfold Rsqr in S. lra. }
    assert (Z : vcross (north M) (direction u) <> v0).
    { unfold direction. rewrite vcross_scale_r. intros Q. apply Np. apply (vscale_eq_v0 _ _ Q).
      apply Rinv_neq_0_compat. pose proof (vnorm_nz u Hu). lra. }
    assert (Cp : 0 < cos la).
    { destruct Cn as [|Q]; auto. exfalso. apply Z. rewrite X, Y, <- Q, vscale_0, mulv_v0. reflexivity. }
    unfold eastv. destruct (Req_EM_T (vnorm (vcross (north M) (direction u))) 0) as [Q|Q]; [apply vnorm_0 in Q; contradiction|].
    rewrite X, Y, C, mulv_scale, direction_scale; auto.
    - symmetry. apply direction_of_unit. rewrite orthogonal_norm by (apply orthogonal_T; auto). exact U1.
    - apply orthogonal_nz; [apply orthogonal_T; auto|]. apply vnorm_inv. exact U1. }
  apply mat_cols_eq; auto. rewrite !rot_c0 by auto. rewrite E1, E2. reflexivity.
Qed.

Theorem C31_wander_azimuth_frame : forall A n u wa m w R_Ee M,
  axes R_Ee M -> rotation M -> cols A n u -> (0 < n)%nat -> (forall j, (j < n)%nat -> u j <> v0) ->
  vals wa m w -> bdim n m = Some n ->
  returns (n_E_and_wa2R_EL A wa R_Ee) (length_warning (vnorm (u 0%nat))) (fun L => exists F, mats L n F /\
   returns (n_E2R_EN A R_Ee) (length_warning (vnorm (u 0%nat))) (fun N => exists G, mats N n G /\
    forall j, (j < n)%nat ->
      rotation (F j) /\ c2 (F j) = vneg (direction (u j)) /\
      (vcross (north M) (u j) <> v0 -> F j = mmul (G j) (Rz (w (cl m j)))))).
Proof.
  intros A n u wa m w R_Ee M HR HM HA Hn Nz Hw D.
  destruct (n_E_and_wa2R_EL_spec A n u wa m w R_Ee M HR HM HA Hn Hw D) as (L & la & lo & E & HL & HF).
  exists L; split; [exact E|]. eexists; split; [exact HF|].
  destruct (n_E2R_EN_spec A n u R_Ee M HR HM HA Hn Nz) as (R & E' & HG).
  exists R; split; [exact E'|]. eexists; split; [exact HG|]. intros j Hj. cbn beta.
  destruct (HL j Hj) as [Hla Hlo].
  split; [apply rotation_mul; [apply rotation_T; auto|apply Mxyz_rotation]|]. split.
  - rewrite c2_mmul, Mxyz_c2. apply EL_c2; auto.
  - intros Np. rewrite Mxyz_split, <- mmul_assoc. rewrite (NED_xyz M (u j)); auto.
Qed.
Print Assumptions C31_wander_azimuth_frame.

(** wander azimuth 0: L = N *)
Theorem C31_zero_wander_is_N : forall A n u wa m R_Ee M,
  axes R_Ee M -> rotation M -> cols A n u -> (0 < n)%nat ->
  (forall j, (j < n)%nat -> vcross (north M) (u j) <> v0) ->
  vals wa m (fun _ => 0) -> bdim n m = Some n ->
  exists F L N wn, n_E_and_wa2R_EL A wa R_Ee = (wn, inl L) /\ n_E2R_EN A R_Ee = (wn, inl N) /\ mats L n F /\ mats N n F.
Proof.
  intros A n u wa m R_Ee M HR HM HA Hn Np Hw D.
  assert (Nz : forall j, (j < n)%nat -> u j <> v0).
  { intros j Hj Z. apply (Np j Hj). rewrite Z. apply vcross_v0_r. }
  destruct (n_E_and_wa2R_EL_spec A n u wa m _ R_Ee M HR HM HA Hn Hw D) as (L & la & lo & E & HL & HF).
  destruct (n_E2R_EN_spec A n u R_Ee M HR HM HA Hn Nz) as (R & E' & HG).
  eexists; exists L, R; eexists. split; [exact E|]. split; [exact E'|]. split; [|exact HG].
  eapply mats_ext; [|exact HF]. intros j Hj. cbn beta. destruct (HL j Hj) as [Hla Hlo].
  apply NED_xyz; auto.
Qed.
Print Assumptions C31_zero_wander_is_N.

(** ** C32 *)
Lemma R_EL2n_E_spec A n F : mats A n F -> exists C, R_EL2n_E A = ret C /\ cols C n (fun j => vneg (c2 (F j))).
Proof.
  intros H. apply mats_gmats in H as (s & SA & Cs & GA).
  unfold R_EL2n_E, mdot, einsum_ij_jk. cbn [col3 shape]. rewrite SA, bdim_refl.
  assert (Eb : bshape s [] = Some s) by (apply bshape_nil_r). rewrite Eb, bind_ret.
  unfold reshape_rows, size; cbn [shape]. 
  assert (Pn : prod (3%nat :: 1%nat :: s) = (n * 3)%nat).
  { destruct Cs as [[-> ->]| ->]; cbn [prod fold_right]; lia. }
  rewrite Pn, Nat.mod_mul by lia. rewrite Nat.eqb_refl, Nat.div_mul by lia.
  eexists; split; [reflexivity|]. split; [reflexivity|].
  intros j Hj.
  assert (Un : forall i, (i < 3)%nat -> unravel (3%nat :: 1%nat :: s) (i * n + j) = i :: 0%nat :: bidx s [j]).
  { intros i Hi. destruct Cs as [[-> ->]| ->].
    - assert (j = 0)%nat by lia. subst j. destruct (lt3 i Hi) as [->|[->| ->]]; reflexivity.
    - cbn [unravel prod fold_right]. replace (1 * (n * 1))%nat with n by lia. replace (n * 1)%nat with n by lia.
      rewrite Nat.div_1_r, Nat.add_comm, Nat.div_add, (Nat.div_small j n), Nat.mod_add, (Nat.mod_small j n) by lia.
      rewrite (Nat.div_small j n) by lia. rewrite (Nat.mod_small j n) by lia. rewrite bidx_1, (cl_id n j Hj). reflexivity. }
  assert (Bi : bidx s (bidx s [j]) = bidx s [j]).
  { destruct Cs as [[-> ->]| ->]; [reflexivity|]. rewrite bidx_1, (cl_id n j Hj), bidx_1, (cl_id n j Hj). reflexivity. }
  assert (Ent : forall i, (i < 3)%nat ->
     nadd (nadd (nmul (get A (i :: 0%nat :: bidx s [j])) (Fin 0)) (nmul (get A (i :: 1%nat :: bidx s [j])) (Fin 0)))
        (nmul (get A (i :: 2%nat :: bidx s [j])) (Fin (-1))) ≈ comp (vneg (c2 (F j))) i).
  { intros i Hi. eapply fin_eq.
    - repeat first [apply fin_add | apply fin_mul]; first [apply GA; auto; lia|reflexivity].
    - destruct (lt3 i Hi) as [->|[->| ->]]; unfold ent; cbn; ring. }
  unfold vcol; cbn [get].
  change (at_ [0%nat; j] 0) with 0%nat. change (at_ [1%nat; j] 0) with 1%nat. change (at_ [2%nat; j] 0) with 2%nat.
  change (at_ [0%nat; j] 1) with j. change (at_ [1%nat; j] 1) with j. change (at_ [2%nat; j] 1) with j.
  rewrite (Un 0%nat), (Un 1%nat), (Un 2%nat) by lia.
  rewrite !nsum3. unfold at_; cbn [nth tl]. rewrite Bi.
  change (cl 3 0) with 0%nat. change (cl 3 1) with 1%nat. change (cl 3 2) with 2%nat.
  split; [exact (Ent 0%nat ltac:(lia))|]. split; [exact (Ent 1%nat ltac:(lia))|exact (Ent 2%nat ltac:(lia))].
Qed.

Theorem C32_nvector_from_R_EN : forall A n u R_Ee M,
  axes R_Ee M -> rotation M -> cols A n u -> (0 < n)%nat -> (forall j, (j < n)%nat -> u j <> v0) ->
  returns (R <- n_E2R_EN A R_Ee ;; R_EN2n_E R)%py (length_warning (vnorm (u 0%nat)))
    (fun C => cols C n (fun j => direction (u j))).
Proof.
  intros A n u R_Ee M HR HM HA Hn Nz.
  destruct (n_E2R_EN_spec A n u R_Ee M HR HM HA Hn Nz) as (R & E & HF).
  destruct (R_EL2n_E_spec _ _ _ HF) as (C & E' & HC).
  exists C. unfold R_EN2n_E. rewrite E, bind_inl, E'. split; [cbn [fst snd ret]; rewrite app_nil_r; reflexivity|].
  eapply cols_ext; [|exact HC]. intros j Hj. cbn beta. apply vneg_neg.
Qed.
Print Assumptions C32_nvector_from_R_EN.

Theorem C32_nvector_from_R_EL : forall A n u wa m w R_Ee M,
  axes R_Ee M -> rotation M -> cols A n u -> (0 < n)%nat -> (forall j, (j < n)%nat -> u j <> v0) ->
  vals wa m w -> bdim n m = Some n ->
  returns (R <- n_E_and_wa2R_EL A wa R_Ee ;; R_EL2n_E R)%py (length_warning (vnorm (u 0%nat)))
    (fun C => cols C n (fun j => direction (u j))).
Proof.
  intros A n u wa m w R_Ee M HR HM HA Hn Nz Hw D.
  destruct (n_E_and_wa2R_EL_spec A n u wa m w R_Ee M HR HM HA Hn Hw D) as (L & la & lo & E & HL & HF).
  destruct (R_EL2n_E_spec _ _ _ HF) as (C & E' & HC).
  exists C. rewrite E, bind_inl, E'. split; [cbn [fst snd ret]; rewrite app_nil_r; reflexivity|].
  eapply cols_ext; [|exact HC]. intros j Hj. cbn beta. destruct (HL j Hj) as [Hla Hlo].
  rewrite c2_mmul, Mxyz_c2, (EL_c2 M (u j)) by auto. apply vneg_neg.
Qed.
Print Assumptions C32_nvector_from_R_EL.

Example C32_example : bdim 5 1 = Some 5%nat /\ bdim 5 5 = Some 5%nat /\ bdim 1 1 = Some 1%nat. Proof. repeat split. Qed.
