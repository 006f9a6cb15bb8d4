(** * C93: what arguments left out stand for *)
From Coq Require Import Ascii String List Arith Lia Bool Reals Lra Psatz ZArith QArith Qreals.
From Verif Require Import Num Py Nd MUtil MRotation MCore MObjects MDefault Spec SpecArr SpecObj SpecGeo SpecPath LNum LTrig LVec LArr LLatLon LMat LRot
  LAngle LDist PDist PUtil LCircle PCircle PTrack PArc LEq LEcef PEcef PRot PFrame PEq LObj PEq2 LDirect PDirect LObj2 PObj PObj2 POps PGeod LGreat PGreat PPath PClosest PPath2.
Import ListNotations.
Local Open Scope R_scope.

(** the flattening of WGS-84 *)
Definition f84 : R := 1 / (298257223563 / 1000000000).

(** a point or frame made without naming a frame is on the ellipsoid of WGS-84, with the z-axis to the North pole *)
Theorem C93_default_frame : exists fr, is_frame fr 6378137 f84 Me /\ FrameE_default = ret fr /\
  (forall la lo z d, GeoPoint la lo z None d = GeoPoint la lo z (Some fr) d) /\
  (forall v z, Nvector v z None = Nvector v z (Some fr)) /\
  (forall p s, ECEFvector p None s = ECEFvector p (Some fr) s).
Proof.
  destruct (proj1 (E_rotation_spec "e") Me) as (R & E & HR & Rot). { left. split; [reflexivity|reflexivity]. }
  assert (EE : exists e, get_ellipsoid (KStr "WGS84") = ret e /\ (el_a e == 6378137)%Q /\ (el_f e == 1000000000 # 298257223563)%Q) by (eexists; repeat split; reflexivity).
  destruct EE as (e & Ee & Ea & Ef). apply Qeq_eqR in Ea, Ef.
  set (fr := MkFrameE (Fin (Q2R (el_a e))) (Fin (Q2R (el_f e))) (KStr "WGS84") R).
  assert (EF : FrameE_default = ret fr). { unfold FrameE_default, FrameE. rewrite Ee, !bind_ret, E, bind_ret. reflexivity. }
  exists fr. split; [|split; [exact EF|]].
  - split; [|split; [|split]]; cbn [fr fe_a fe_f fe_R]; auto.
    + rewrite Ea. replace (Q2R 6378137) with 6378137 by (unfold Q2R; cbn; lra). apply fin_Fin.
    + rewrite Ef. replace (Q2R (1000000000 # 298257223563)) with f84 by (unfold Q2R, f84; cbn; lra). apply fin_Fin.
  - assert (ED : default_frame None = ret fr) by exact EF.
    split; [|split]; intros.
    + unfold GeoPoint. destruct d; destruct (broadcast3 _ _ _) as [w [[[x y] t]|]]; auto; rewrite !bind_inl, ED; reflexivity.
    + unfold Nvector. rewrite ED. reflexivity.
    + unfold ECEFvector. rewrite ED. reflexivity.
Qed.
Print Assumptions C93_default_frame.

(** core functions without an ellipsoid use the same one: depth 0 is on it, and the way back finds the n-vector and depth 0 *)
Lemma default_a_val : default_a ≈ 6378137. Proof. apply fin_Fin. Qed.
Lemma default_f_val : default_f ≈ f84.
Proof. unfold default_f, f84. apply fin_div; [apply fin_Fin|apply fin_Fin|lra]. Qed.
Lemma f84_range : 0 < f84 < 1 / 298. Proof. unfold f84. lra. Qed.
Theorem C93_default_ellipsoid : forall N n u, cols N n u -> (0 < n)%nat -> (forall j, (j < n)%nat -> u j <> v0) ->
  returns (n_EB_E2p_EB_E_default N) (length_warning (vnorm (u 0%nat))) (fun P =>
    exists p, cols P n p /\
      (forall j, (j < n)%nat -> on_ellipsoid 6378137 f84 (V 0 0 1) (p j) /\ same_direction (ellipsoid_gradient 6378137 f84 (V 0 0 1) (p j)) (u j)) /\
      ends_with (v <- Nvector N z0 None ;; to_ecef_vector (PNv v))%py (fun e => e_p e = P) /\
      returns (p_EB_E2n_EB_E_default P) [] (fun out => cols (fst out) n (fun j => direction (u j)) /\ list1 (snd out) n (fun _ => 0))).
Proof.
  intros N n u HN Hn Hu. pose proof f84_range as F. assert (EC : 0 <= ecc2 f84 <= 1 / 100) by (unfold ecc2; nra).
  destruct (C06_depth_zero_is_on_the_ellipsoid N n u default_a default_f 6378137 f84 None Me) as (P & E & p & HP & Hp); auto using default_a_val, default_f_val; try lra; [reflexivity|apply Me_rot|].
  exists P. split; [exact E|]. exists p. split; auto. split; [exact Hp|]. split.
  - destruct (proj1 (E_rotation_spec "e") Me) as (R & ER & _). { left. split; [reflexivity|reflexivity]. }
    assert (EE : exists e, get_ellipsoid (KStr "WGS84") = ret e /\ (el_a e == 6378137)%Q /\ (el_f e == 1000000000 # 298257223563)%Q) by (eexists; repeat split; reflexivity).
    destruct EE as (e & Ee & Ea & Ef). apply Qeq_eqR in Ea, Ef.
    assert (EA : Fin (Q2R (el_a e)) = default_a). { unfold default_a. f_equal. rewrite Ea. unfold Q2R; cbn; lra. }
    assert (EF : Fin (Q2R (el_f e)) = default_f). { rewrite Ef. unfold default_f. destruct (fin_inv _ _ default_f_val) as [X|[_ X]]; [|lra]. unfold default_f in X. rewrite X. f_equal. unfold Q2R, f84; cbn; lra. }
    unfold Nvector, default_frame, FrameE. rewrite Ee, !bind_ret, ER, !bind_ret. unfold to_ecef_vector, nv_to_ecef. cbn [n_frame n_normal n_z fe_a fe_f fe_R]. rewrite EA, EF.
    assert (X : n_EB_E2p_EB_E N z0 default_a default_f (Some R) = n_EB_E2p_EB_E N z0 default_a default_f None). { unfold n_EB_E2p_EB_E, default_R. rewrite ER. reflexivity. }
    rewrite X. unfold z0 at 1. rewrite E, bind_inl. unfold nv_scalar. cbn [n_z n_normal]. unfold shape1. rewrite (proj1 HN). cbn. eexists. split; [unfold ends; reflexivity|reflexivity].
  - destruct (C07_depth_roundtrip N n u z0 1 n (fun _ => 0) default_a default_f 6378137 f84 None Me) as (out & EO & HO); auto using default_a_val, default_f_val, bdim_1_r; try lra; [reflexivity|apply Me_rot|apply vals_scalar, scal_scalar|intros; lra|].
    unfold z0 in EO at 1. rewrite E, bind_inl in EO. unfold p_EB_E2n_EB_E_default. destruct (p_EB_E2n_EB_E P default_a default_f None) as [w r]. cbn [fst snd] in EO.
    exists out. split.
    + assert (length_warning (vnorm (u 0%nat)) ++ w = length_warning (vnorm (u 0%nat)) ++ []) by (rewrite app_nil_r; congruence). apply app_inv_head in H. subst w. congruence.
    + destruct HO as (H1 & H2). split; [|exact H2]. eapply cols_ext; [|exact H1]. intros j Hj. cbv beta. rewrite cl_id by auto. reflexivity.
Qed.
Print Assumptions C93_default_ellipsoid.

(** distances without a radius are for the mean radius of the Earth, 6371.009 km *)
Theorem C93_default_radius : forall A B m u v, cols A 1 u -> cols B m v ->
  (u 0%nat <> v0 -> (forall j, (j < m)%nat -> v j <> v0) ->
    returns (great_circle_distance_default A B) [] (fun D => list1 D m (fun j => angle (u 0%nat) (v j) * 6371009))) /\
  returns (euclidean_distance_default A B) [] (fun D => list1 D m (fun j => 6371009 * vnorm (vsub (v j) (u 0%nat)))).
Proof.
  intros A B m u v HA HB. assert (V : vals default_radius 1 (fun _ => 6371009)) by (apply vals_scalar, scal_scalar). split.
  - intros Hu Hv. apply (C12_distance_is_radius_times_angle A B m u v default_radius 1 (fun _ => 6371009)); auto.
  - destruct (C14_euclidean_is_chord A B 1 m m u v default_radius 1 (fun _ => 6371009)) as (D & E & HD); auto. { apply bdim_1_l. }
    exists D. split; [exact E|]. eapply list1_ext; [|exact HD]. intros j Hj. cbv beta. rewrite (cl_id m j Hj). unfold cl; cbn [Nat.eqb]. reflexivity.
Qed.
Print Assumptions C93_default_radius.

(** on_path(point) and on_great_circle(point) accept 10 nanometres of distance from the great circle, and on_path a relative
    difference of one millionth (or 10 nanometres) in depth *)
Theorem C93_default_tolerances : forall gi A B P m pA pB pP upA upB upP a f M zA zB zP,
  ellipsoid a f -> ecc2 f <= 1 / 2 ->
  placed A 1 pA upA a f M -> placed B 1 pB upB a f M -> placed P m pP upP a f M ->
  unit_normals A 1 -> unit_normals B 1 -> unit_normals P m ->
  let a1 := upA 0%nat in let a2 := upB 0%nat in let radius := (vnorm (pA 0%nat) + vnorm (pB 0%nat)) / 2 in
  vcross a1 a2 <> v0 ->
  at_depth a f M a1 zA (pA 0%nat) -> at_depth a f M a2 zB (pB 0%nat) ->
  (forall j, (j < m)%nat -> at_depth a f M (upP j) (zP j) (pP j)) ->
  ends_with (on_path_default gi (GeoPath A B) P) (fun x =>
    answer x m (fun j => let h := (zA + zB) / 2 in
      Rabs (zP j - h) <= Rmax (/ 100000000) (/ 1000000 * Rmax (Rabs (zP j)) (Rabs h)) /\
      (exists p, on_circle a1 a2 p /\ radius * angle (upP j) p <= / 100000000) /\
      angle a1 (upP j) <= angle a1 a2 /\ angle a2 (upP j) <= angle a1 a2)) /\
  ends_with (path_on_great_circle_default (GeoPath A B) P) (fun x =>
    answer x m (fun j => exists p, on_circle a1 a2 p /\ radius * angle (upP j) p <= / 100000000)).
Proof.
  intros gi A B P m pA pB pP upA upB upP a f M zA zB zP El E2 HA HB HP UA UB UP a1 a2 radius Z DA DB DP.
  assert (R6 : rtol6 ≈ / 1000000). { unfold rtol6. replace (/ 10 ^ 6) with (/ 1000000) by (f_equal; ring). apply fin_Fin. }
  assert (A8 : atol8 ≈ / 100000000). { unfold atol8. replace (/ 10 ^ 8) with (/ 100000000) by (f_equal; ring). apply fin_Fin. }
  split.
  - destruct (C65_great_circle_path gi A B P m pA pB pP upA upB upP a f M zA zB zP rtol6 atol8 _ _ "greatcircle" El E2 HA HB HP UA UB UP Z DA DB DP R6 A8 eq_refl eq_refl) as (x & E & H & _).
    exists x. split; [exact E|exact H].
  - destruct (C64_on_great_circle A B P m pA pB pP upA upB upP a f M atol8 _ El E2 HA HB HP UA UB UP Z A8 ltac:(lra)) as (x & E & H & _). exists x. split; auto.
Qed.
Print Assumptions C93_default_tolerances.

(** vectors given without saying so are scalar when there is one of them *)
Theorem C93_scalar_inferred : forall p n q, cols p n q ->
  (forall fr, returns (ECEFvector p (Some fr) None) [] (fun e => e_p e = p /\ e_frame e = fr /\ (e_scalar e = true <-> n = 1%nat))) /\
  (forall fr, returns (Pvector p fr None) [] (fun v => p_p v = p /\ p_frame v = fr /\ (p_scalar v = true <-> n = 1%nat))).
Proof.
  intros p n q H. assert (S : shape1 p = ret n) by (unfold shape1; rewrite (proj1 H); reflexivity).
  split; intros fr; [unfold ECEFvector, default_frame|unfold Pvector]; rewrite S, !bind_ret; (eexists; split; [reflexivity|]); cbn; rewrite Nat.eqb_eq; tauto.
Qed.
Print Assumptions C93_scalar_inferred.

(** the deprecated name: the same answer (or exception) after one more warning *)
Theorem C93_diff_positions : forall A B, diff_positions A B = (WDeprecated :: fst (delta_E A B), snd (delta_E A B)).
Proof. intros. unfold diff_positions. destruct (delta_E A B). reflexivity. Qed.
Print Assumptions C93_diff_positions.

(** the hypotheses hold in ordinary cases: C06_example, C12_example and C65_example give n-vectors and placed points *)
Example C93_example : (exists N u, cols N 2 u /\ (forall j, (j < 2)%nat -> u j <> v0)) /\
  (let u1 := V 1 0 0 in let u2 := V 0 1 0 in vcross u1 u2 <> v0 /\ exists p, placed (ex_at u1) 1 p (fun _ => u1) 6378137 (/ 298) Me).
Proof.
  destruct C06_example as (N & u & H & K & _). split; [exists N, u; auto|]. destruct C65_example as (_ & _ & (A & _ & B) & _). cbv zeta. auto.
Qed.
