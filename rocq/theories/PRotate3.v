(** * C102, objects: shifting the longitudes of two GeoPoints does not change the North-East-Down delta *)
From Coq Require Import String List Arith Lia Bool Reals Lra Psatz.
From Verif Require Import Num Py Nd MUtil MRotation MCore MObjects Spec SpecArr SpecObj LNum LTrig LVec LArr LAngle LMat LRot LLatLon LEcef PEcef PFrame LObj LObj2 PEq2 PObj PRotate PRotate2.
Import ListNotations.
Local Open Scope R_scope.

Lemma normal_shift M la lo l : orthogonal M -> normal_at M la (lo + l) = mulv (spin M l) (normal_at M la lo).
Proof.
  intros HM. unfold normal_at, spin. rewrite !mulv_mmul, orthogonal_inv' by auto.
  f_equal. unfold Rx, mulv, vdot; cbn [r0 r1 r2 vx vy vz]. rewrite sin_plus, cos_plus. f_equal; ring.
Qed.
Lemma normal_cross M la lo : orthogonal M -> cos la <> 0 -> vcross (north M) (normal_at M la lo) <> v0.
Proof.
  intros HM Hc E.
  assert (N : vnorm (vcross (north M) (normal_at M la lo)) * vnorm (vcross (north M) (normal_at M la lo)) = 0)
    by (rewrite E; unfold vnorm, v0, vdot; cbn [vx vy vz]; replace (0*0+0*0+0*0) with 0 by ring; rewrite sqrt_0; ring).
  rewrite vnorm_sq, lagrange in N.
  pose proof (normal_at_unit M la lo HM) as U. apply vnorm_unit in U.
  pose proof (orthogonal_rows M HM) as (R0 & _). 
  assert (D : vdot (north M) (normal_at M la lo) = sin la).
  { unfold normal_at. rewrite <- (rows_e0 M), orthogonal_dot by (apply orthogonal_T; auto). unfold vdot; cbn [vx vy vz]. ring. }
  rewrite U, D in N. unfold north in N. rewrite R0 in N. pose proof (sin2_cos2 la) as S; unfold Rsqr in S.
  apply Hc. nra.
Qed.

Lemma geo_point g n la lo z a f M : is_geo g n la lo z a f M -> ellipsoid a f ->
  is_point (PGeo g) n (fun j => pos a f M (normal_at M (la j) (lo j)) (z j)) a f M.
Proof.
  intros H (Pa & Rf). pose proof H as (_ & _ & _ & _ & _ & _ & HF). pose proof (frame_orth _ _ _ _ HF) as HO.
  exists la, lo, z. split; [exact H|]. intros j Hj. apply at_depth_pos; auto; try lra. apply normal_at_nz; auto.
Qed.

Lemma delta_N_geo A B n m k la lo z q a f M : ellipsoid a f ->
  is_geo A n la lo z a f M -> is_point B m q a f M -> bdim m n = Some k ->
  exists N, ends (delta_N (PGeo A) B) N /\
    cols (p_p N) k (fun j => mulv (mT (NED M (normal_at M (la (cl n j)) (lo (cl n j)))))
      (vsub (q (cl m j)) (pos a f M (normal_at M (la (cl n j)) (lo (cl n j))) (z (cl n j))))).
Proof.
  intros El HA HB D.
  destruct (delta_E_spec _ _ _ _ _ _ _ _ _ _ El (geo_point _ _ _ _ _ _ _ _ HA El) HB D) as (w1 & d & E1 & Hd).
  destruct (geo_to_nvector_spec _ _ _ _ _ _ _ _ HA) as (v & Ev & Hv & _).
  set (v' := MkNv (n_normal v) z0 (n_frame v)).
  pose proof (nv_z0 _ _ _ _ _ _ _ Hv) as Hv'. fold v' in Hv'.
  assert (EN : ends (FrameN (PGeo A)) (LocalN v')).
  { unfold FrameN, to_nvector. rewrite Ev, bind_ret. unfold Nvector, default_frame. rewrite !bind_ret. reflexivity. }
  destruct (R_EN_N _ _ _ _ _ _ _ Hv') as (ws & R & ER & HR).
  pose proof Hv' as (Hn & _ & Nz & _ & HL). pose proof (bdim_absorb_r _ _ _ D) as Dk.
  destruct (change_frame_spec d (LocalN v') k n k _ _ ws R a f M Hd HL ER HR Dk Hn) as (N & ECN & HN & _ & SN).
  exists N. split.
  - unfold delta_N. eapply ends_bind_i; [rewrite E1; reflexivity|]. eapply ends_bind_i; [exact EN|]. rewrite ECN. reflexivity.
  - eapply cols_ext; [|exact HN]. intros j Hj. cbn beta. rewrite !(cl_id k j Hj).
    rewrite direction_of_unit by (apply normal_at_unit; eapply frame_orth; exact HL). reflexivity.
Qed.

(** B may also be an Nvector or an ECEFvector: its positions q are turned by the angle l about the polar axis *)
Theorem C102_delta_N_any_B : forall A A' B B' n m k la lo z q a f M l, ellipsoid a f ->
  is_geo A n la lo z a f M -> is_geo A' n la (fun j => lo j + l) z a f M ->
  is_point B m q a f M -> is_point B' m (fun j => mulv (spin M l) (q j)) a f M ->
  bdim m n = Some k -> (forall j, (j < n)%nat -> cos (la j) <> 0) ->
  exists N N' d, ends (delta_N (PGeo A) B) N /\ ends (delta_N (PGeo A') B') N' /\
    cols (p_p N) k d /\ cols (p_p N') k d.
Proof.
  intros A A' B B' n m k la lo z q a f M l El HA HA' HB HB' D Hc.
  pose proof HA as (_ & _ & _ & _ & _ & _ & HF). pose proof (frame_rot _ _ _ _ HF) as HM. pose proof (proj1 HM) as HO.
  destruct (spin_rotation M l HM) as [HQ HK]. pose proof (proj1 HQ) as HQO.
  destruct (delta_N_geo _ _ _ _ _ _ _ _ _ _ _ _ El HA HB D) as (N & E & HN).
  destruct (delta_N_geo _ _ _ _ _ _ _ _ _ _ _ _ El HA' HB' D) as (N' & E' & HN').
  exists N, N'. eexists. split; [exact E|]. split; [exact E'|]. split; [exact HN|].
  eapply cols_ext; [|exact HN']. intros j Hj. cbn beta.
  assert (Ln : (cl n j < n)%nat) by (eapply cl_lt_r; eauto).
  rewrite normal_shift, pos_turn, NED_turn, <- mulv_sub by auto using normal_cross.
  rewrite mulv_mTmul, orthogonal_inv by auto. reflexivity.
Qed.
Print Assumptions C102_delta_N_any_B.

Theorem C102_delta_N_of_geo_points : forall A A' B B' n m k la lo z la2 lo2 z2 a f M l, ellipsoid a f ->
  is_geo A n la lo z a f M -> is_geo A' n la (fun j => lo j + l) z a f M ->
  is_geo B m la2 lo2 z2 a f M -> is_geo B' m la2 (fun j => lo2 j + l) z2 a f M ->
  bdim m n = Some k -> (forall j, (j < n)%nat -> cos (la j) <> 0) ->
  exists N N' d, ends (delta_N (PGeo A) (PGeo B)) N /\ ends (delta_N (PGeo A') (PGeo B')) N' /\
    cols (p_p N) k d /\ cols (p_p N') k d.
Proof.
  intros A A' B B' n m k la lo z la2 lo2 z2 a f M l El HA HA' HB HB' D Hc.
  pose proof HA as (_ & _ & _ & _ & _ & _ & HF). pose proof (frame_rot _ _ _ _ HF) as HM. pose proof (proj1 HM) as HO.
  destruct (spin_rotation M l HM) as [HQ HK]. pose proof (proj1 HQ) as HQO.
  eapply (C102_delta_N_any_B A A' (PGeo B) (PGeo B') n m k la lo z
            (fun j => pos a f M (normal_at M (la2 j) (lo2 j)) (z2 j))); eauto.
  - apply geo_point; auto.
  - pose proof (geo_point _ _ _ _ _ _ _ _ HB' El) as (la' & lo' & z' & G & P). exists la', lo', z'. split; [exact G|].
    intros j Hj. specialize (P j Hj). cbn beta in *. rewrite normal_shift, pos_turn in P by auto. exact P.
Qed.
Print Assumptions C102_delta_N_of_geo_points.

(** the GeoPoint at latitude 1/2, longitude 1, depth 100 and the one a quarter radian to the east *)
Example C102_example_geo : exists A', is_geo ex_geo 1 (fun _ => / 2) (fun _ => 1) (fun _ => 100) 6378137 (/ 298) Me /\
  is_geo A' 1 (fun _ => / 2) (fun _ => 1 + / 4) (fun _ => 100) 6378137 (/ 298) Me /\ cos (/ 2) <> 0.
Proof.
  exists (MkGeo (scal (Fin (/ 2))) (scal (Fin (1 + / 4))) (scal (Fin 100)) ex_frame).
  split; [apply ex_geo_ok|]. split.
  - assert (V : forall r, vals (scal (Fin r)) 1 (fun _ => r)) by (intros r; left; split; [auto|split; reflexivity]).
    split; [lia|]. split; [reflexivity|]. split; [reflexivity|]. split; [apply V|]. split; [apply V|]. split; [apply V|]. apply ex_frame_ok.
  - apply Rgt_not_eq, cos_gt_0; pose proof PI2_3_2; lra.
Qed.
