(** * C51, C61: the great circle methods of GeoPoint *)
From Coq Require Import Ascii String List Arith Lia Bool Reals Lra ZArith.
From Verif Require Import Num Py Nd MUtil MRotation MCore MObjects Spec SpecArr SpecObj SpecGeo LNum LTrig LVec LArr LLatLon LMat LRot
  LAngle LDist PDist PUtil LEq LEcef PEcef PRot PFrame PEq LObj PEq2 LDirect PDirect LObj2 PObj PObj2 POps LGreat.
Import ListNotations.
Local Open Scope R_scope.

Lemma map1_valsP (g : num -> num) a n t (P : nat -> R -> Prop) : vals a n t ->
  (forall j x, (j < n)%nat -> x ≈ t j -> exists r, g x ≈ r /\ P j r) ->
  exists r, vals (map1 g a) n r /\ forall j, (j < n)%nat -> P j (r j).
Proof.
  intros [[-> [S G]]|[S G]] H.
  - destruct (H 0%nat _ ltac:(lia) G) as (r & E & Q). exists (fun _ => r). split; [left; split; auto; split; auto|].
    intros j Hj. assert (j = 0%nat) by lia. subst. exact Q.
  - exists (fun j => fval (get (map1 g a) [j])).
    assert (K : forall j, (j < n)%nat -> get (map1 g a) [j] ≈ fval (get (map1 g a) [j]) /\ P j (fval (get (map1 g a) [j]))).
    { intros j Hj. destruct (H j _ Hj (G j Hj)) as (r & E & Q). change (get (map1 g a) [j]) with (g (get a [j])).
      rewrite (fin_fval _ _ E). split; auto. }
    split; [right; split; auto; intros j Hj; apply K; auto|intros j Hj; apply K; auto].
Qed.

(** the azimuth at B: base_angle(azimuth of A seen from B - pi) *)
Lemma azimuth_b_spec A B n m k p q up a f M : ellipsoid a f -> ecc2 f <= 1 / 2 ->
  placed A n p up a f M -> is_point B m q a f M -> bdim m n = Some k ->
  exists ws v az t, delta_N A B = (ws, inl v) /\ azimuth_ (p_p v) (p_scalar v) = ret az /\
    vals (map1 (fun x => base_angle (nsub x (Fin PI))) az) k t /\ shape az = (if p_scalar v then [] else [k]) /\
    forall j, (j < k)%nat -> - PI <= t j < PI /\
      (not_polar M (up (cl n j)) -> heads M (up (cl n j)) (vsub (p (cl n j)) (q (cl m j))) (t j)).
Proof.
  intros El E2 HA HB D. destruct (delta_N_azimuth _ _ _ _ _ _ _ _ _ _ _ El E2 HA HB D) as (ws & v & az & s & E & Ea & Va & Sz & C).
  destruct (placed_frame _ _ _ _ _ _ _ HA) as (_ & HM & _).
  destruct (map1_valsP (fun x => base_angle (nsub x (Fin PI))) az k s
    (fun j r => - PI <= r < PI /\ (not_polar M (up (cl n j)) -> heads M (up (cl n j)) (vsub (p (cl n j)) (q (cl m j))) r)) Va) as (t & Vt & Ct).
  { intros j x Hj Hx. destruct (C50_base_angle (nsub x (Fin PI)) (s j - PI)) as (r & Er & Br & kk & Kr); [fin|].
    exists r. split; auto. split; auto. intros NP. rewrite Kr. apply heads_period.
    replace (vsub (p (cl n j)) (q (cl m j))) with (vneg (vsub (q (cl m j)) (p (cl n j)))) by (generalize (p (cl n j)) (q (cl m j)); vring).
    apply heads_reverse. apply az_heads; auto. apply C; auto. }
  exists ws, v, az, t. auto.
Qed.

(** what _displace_great_circle computes, in any frame *)
Lemma displace_gc_spec g n la lo z a f M distance m1 s azimuth m2 az k :
  is_geo g n la lo z a f M -> ellipsoid a f -> ecc2 f <= 1 / 2 -> (forall j, (j < n)%nat -> shallow a f (z j)) ->
  vals distance m1 s -> vals azimuth m2 az -> bdim3 m1 n m2 = Some k -> (0 < k)%nat ->
  exists ws h azb la' lo' tb, displace_great_circle g distance azimuth false = (ws, inl (h, azb)) /\
    is_geo h k la' lo' (fun j => z (cl n j)) a f M /\ vals azb k tb /\
    forall j, (j < k)%nat ->
      let A := normal_at M (la (cl n j)) (lo (cl n j)) in
      let B := normal_at M (la' j) (lo' j) in
      let pA := pos a f M A (z (cl n j)) in
      let pB := pos a f M B (z (cl n j)) in
      0 < vnorm pA /\
      B = dirB Me A (s (cl m1 j) / vnorm pA) (az (cl m2 j)) /\ lat_of (mulv M B) (la' j) /\
      - PI <= tb j < PI /\ (not_polar M B -> heads M B (vsub pB pA) (tb j)).
Proof.
  intros Hg El E2 Sh Vd Vaz D3 Hk.
  pose proof El as (Pa & F0 & F1).
  unfold displace_great_circle.
  pose proof Hg as (Hn & Sla & Slo & Vla & Vlo & Vz & HF). pose proof (frame_orth _ _ _ _ HF) as HM. pose proof (frame_rot _ _ _ _ HF) as HR.
  destruct (geo_to_nvector_spec _ _ _ _ _ _ _ _ Hg) as (v & E & Hv & Ez & Ef).
  destruct (nv_to_ecef_spec _ _ _ _ _ _ _ Hv F1) as (e & Ee & He & Fe & Se).
  set (uA := fun j => normal_at M (la j) (lo j)) in *.
  assert (UA : forall j, vnorm (uA j) = 1) by (intros; apply normal_at_unit; auto).
  set (pA := fun j => pos a f M (uA j) (z j)) in *.
  assert (PA : forall j, (j < n)%nat -> 0 < vnorm (pA j)). { intros j Hj. apply vnorm_nz. apply shallow_nz; auto. }
  rewrite E, bind_ret, Ee, bind_inl.
  pose proof He as (_ & HcA & _ & Hse).
  destruct (length_spec _ _ _ _ Hse HcA) as (rad & Er & Hr). apply (holds_vals _ _ _ _ Hse) in Hr.
  unfold bdim3 in D3; destruct (bdim m1 n) as [k1|] eqn:D1; [|discriminate].
  destruct (div_vals _ _ _ _ _ _ _ Vd Hr D1) as (drad & Ed & Vdr). { intros j Hj. apply Rgt_not_eq. exact (PA j Hj). }
  assert (D3' : bdim3 n k1 m2 = Some k). { unfold bdim3. rewrite (bdim_absorb_r _ _ _ D1). exact D3. }
  assert (Hv' : cols (n_normal v) n uA) by apply Hv.
  assert (HMe : orthogonal Me) by apply Me_rot.
  destruct (direct_spec _ _ _ _ _ _ _ _ _ None Me _ eq_refl HMe Hv' Vdr Vaz D3') as (NB & EB & HB).
  set (dl := fun j => s (cl m1 j) / vnorm (pA (cl n j))) in *.
  set (w := fun j => dirB Me (uA (cl n j)) (dl (cl k1 j)) (az (cl m2 j))) in *.
  pose proof (bdim3_absorb _ _ _ _ D3') as (D4 & _ & _).
  assert (J2 : forall j, (j < k)%nat -> (cl n j < n)%nat /\ cl n (cl k1 j) = cl n j).
  { intros j Hj. split; [eapply cl_lt_r; eauto|]. apply (cl_bdim _ _ _ _ D1). }
  assert (J3 : forall j, (j < k)%nat -> cl m1 (cl k1 j) = cl m1 j).
  { intros j Hj. apply (cl_bdim _ _ _ _ D1). }
  assert (UB : forall j, (j < k)%nat -> vnorm (w j) = 1).
  { intros j Hj. apply vnorm_unit. unfold w, dirB. cbv zeta.
    destruct (dir1_east Me (uA (cl n j)) HMe) as [K1 K2]; [right; reflexivity|].
    apply (BB_unit (uA (cl n j)) (dir1 (vcross (north Me) (uA (cl n j)))) (proj1 (vnorm_unit _) (UA _)) K1 K2). }
  assert (Hnb : is_nv (MkNv NB (g_z g) (g_frame g)) k w (fun j => z (cl n j)) a f M).
  { split; auto. split; [exact HB|]. split; [intros j Hj; apply vnorm_inv; auto|]. split; [|exact HF].
    exists n, z. cbn [n_z]. split; auto. }
  destruct (nv_to_geo_spec _ _ _ _ _ _ _ Hnb) as (w2 & h & la' & lo' & Eg & Hh & Fh & L & _).
  assert (NB' : forall j, (j < k)%nat -> normal_at M (la' j) (lo' j) = w j).
  { intros j Hj. destruct (L j Hj) as [L1 L2]. rewrite (lat_lon_normal M (w j)); auto; [|apply vnorm_inv; auto]. apply direction_of_unit; auto. }
  assert (Hpl : placed (PGeo h) k (fun j => pos a f M (w j) (z (cl n j))) w a f M).
  { exists la', lo', (fun j => z (cl n j)). split; auto. intros j Hj. split; [apply Sh; apply J2; auto|]. split; [symmetry; auto|].
    apply at_depth_pos; auto. apply vnorm_inv; auto. }
  assert (DD : bdim n k = Some k) by (rewrite bdim_comm; exact D4).
  destruct (azimuth_b_spec _ (PEcef e) _ _ _ _ _ _ _ _ _ El E2 Hpl He DD) as (wd & dv & azb & tb & Edv & Eaz & Vtb & _ & Ctb).
  rewrite Er, bind_ret, Ed, bind_ret, EB, bind_ret. unfold Nvector, default_frame. rewrite !bind_ret, Eg, bind_inl, Edv, bind_inl, Eaz, bind_ret.
  do 6 eexists. split; [reflexivity|]. split; [exact Hh|]. split; [exact Vtb|].
  intros j Hj. cbv zeta. destruct (J2 j Hj) as [J2a J2b]. rewrite !NB' by auto. fold (uA (cl n j)).
  split; [apply (PA _ J2a)|].
  split. { unfold w, dl. rewrite J2b, J3 by auto. reflexivity. }
  split; [apply L; auto|]. destruct (Ctb j Hj) as [Ct1 Ct2]. split; [exact Ct1|]. rewrite (cl_id k j Hj) in Ct2. exact Ct2.
Qed.

Lemma not_e_method method : String.get 0 method <> Some "e"%char -> starts_with_e method = false.
Proof. destruct method as [|c r]; [reflexivity|]. cbn. intros Hm. apply Ascii.eqb_neq. intros ->. apply Hm. reflexivity. Qed.

(** ** C51: displace on a great circle.  Code: _displace_great_circle does not pass the frame's R_Ee on
    (objects.py 296), so the claim holds for frames whose z axis points to the North pole (axes 'e', the default). *)
Theorem C51_great_circle_displacement_partial : forall gd g n la lo z a f M distance m1 s azimuth m2 az k unroll method,
  north M = V 0 0 1 ->
  is_geo g n la lo z a f M -> ellipsoid a f -> ecc2 f <= 1 / 2 -> (forall j, (j < n)%nat -> shallow a f (z j)) ->
  vals distance m1 s -> vals azimuth m2 az -> bdim3 m1 n m2 = Some k -> (0 < k)%nat ->
  String.get 0 method <> Some "e"%char ->
  ends_with (displace gd g distance azimuth unroll false method) (fun r => exists la' lo' tb,
    is_geo (fst r) k la' lo' (fun j => z (cl n j)) a f M /\ vals (snd r) k tb /\
    forall j pA pB, (j < k)%nat ->
      let A := normal_at M (la (cl n j)) (lo (cl n j)) in
      let B := normal_at M (la' j) (lo' j) in
      at_depth a f M A (z (cl n j)) pA -> at_depth a f M B (z (cl n j)) pB ->
      let radius := vnorm pA in
      0 < radius /\
      (0 <= s (cl m1 j) <= PI * radius -> radius * angle A B = s (cl m1 j)) /\
      (not_polar M A ->
         let d := s (cl m1 j) / radius in let t := az (cl m2 j) in
         B = vadd (vscale (cos d) A) (vscale (sin d) (vadd (vscale (cos t) (north_at M A)) (vscale (sin t) (east_at M A))))) /\
      - PI <= tb j < PI /\ (not_polar M B -> heads M B (vsub pB pA) (tb j))).
Proof.
  intros gd g n la lo z a f M distance m1 s azimuth m2 az k unroll method HN Hg El E2 Sh Vd Vaz D3 Hk Hm.
  unfold displace. rewrite not_e_method by auto.
  destruct (displace_gc_spec _ _ _ _ _ _ _ _ _ _ _ _ _ _ _ Hg El E2 Sh Vd Vaz D3 Hk) as (ws & h & azb & la' & lo' & tb & E & Hh & Vb & C).
  pose proof El as (Pa & F0 & F1).
  assert (HM : orthogonal M) by (destruct Hg as (_ & _ & _ & _ & _ & _ & HF); eapply frame_orth; eauto).
  assert (HMe : orthogonal Me) by apply Me_rot.
  exists (h, azb). split; [rewrite E; reflexivity|]. cbn [fst snd]. exists la', lo', tb. split; auto. split; auto.
  intros j pA pB Hj. cbv zeta. set (A := normal_at M (la (cl n j)) (lo (cl n j))). set (B := normal_at M (la' j) (lo' j)). intros DA DB.
  specialize (C j Hj). cbv zeta in C. fold A B in C. destruct C as (C1 & C2 & _ & C3 & C4).
  assert (UA : vnorm A = 1) by (apply normal_at_unit; auto). assert (UB : vnorm B = 1) by (apply normal_at_unit; auto).
  assert (QA : pA = pos a f M A (z (cl n j))). { apply at_depth_eq; auto. apply vnorm_inv; auto. }
  assert (QB : pB = pos a f M B (z (cl n j))). { apply at_depth_eq; auto. apply vnorm_inv; auto. }
  rewrite <- QA in C1, C2, C4. rewrite <- QB in C4.
  split; auto. split; [|split; [|split; auto]].
  - intros [B1 B2].
    assert (Bd : 0 <= s (cl m1 j) / vnorm pA <= PI).
    { split; [apply Rmult_le_pos; [lra|left; apply Rinv_0_lt_compat; auto]|]. apply Rmult_le_reg_r with (vnorm pA); auto.
      unfold Rdiv. rewrite Rmult_assoc, Rinv_l by lra. lra. }
    rewrite angle_unit by auto.
    assert (X : vdot A B = cos (s (cl m1 j) / vnorm pA)).
    { rewrite C2. unfold dirB. cbv zeta. destruct (dir1_east Me A HMe) as [K1 K2]; [right; reflexivity|].
      apply (BB_u A (dir1 (vcross (north Me) A)) (proj1 (vnorm_unit _) UA) K2). }
    rewrite X, acos_cos by auto. field. lra.
  - intros NP. rewrite C2 at 1. change (north Me) with (V 0 0 1). unfold dirB, north_at, east_at, not_polar in *. cbv zeta.
    change (north Me) with (V 0 0 1). rewrite HN in *. rewrite dir1_nz by auto. reflexivity.
Qed.
Print Assumptions C51_great_circle_displacement_partial.

(** With axes = 'E' (x axis to the North pole) the code is wrong: starting on the equator at longitude
    90 degrees and going North by s, the result stays on the equator (its latitude should be s / a). *)
Theorem C51_axes_E_refuted : forall gd g a f distance s azimuth unroll method,
  is_geo g 1 (fun _ => 0) (fun _ => PI / 2) (fun _ => 0) a f ME -> ellipsoid a f -> ecc2 f < 1 / 2 ->
  vals distance 1 (fun _ => s) -> vals azimuth 1 (fun _ => 0) ->
  String.get 0 method <> Some "e"%char ->
  ends_with (displace gd g distance azimuth unroll false method) (fun r => exists lo',
    is_geo (fst r) 1 (fun _ => 0) lo' (fun _ => 0) a f ME).
Proof.
  intros gd g a f distance s azimuth unroll method Hg El E2 Vd Vaz Hm.
  unfold displace. rewrite not_e_method by auto. pose proof El as (Pa & F0 & F1).
  assert (Sh : forall j, (j < 1)%nat -> shallow a f 0) by (intros j Hj; unfold shallow; apply Rmult_lt_0_compat; lra).
  destruct (displace_gc_spec _ _ _ _ _ _ _ _ _ _ _ _ _ _ 1%nat Hg El (Rlt_le _ _ E2) Sh Vd Vaz eq_refl ltac:(lia)) as (ws & h & azb & la' & lo' & tb & E & Hh & Vb & C).
  exists (h, azb). split; [rewrite E; reflexivity|]. exists lo'. cbn [fst].
  destruct Hh as (A1 & A2 & A3 & A4 & A5 & A6 & A7). split; auto. split; auto. split; auto. split; [|split; auto].
  eapply vals_ext; [|exact A4]. intros j Hj. assert (j = 0%nat) by lia. subst j.
  destruct (C 0%nat ltac:(lia)) as (C1 & C2 & C3 & _). rewrite C2 in C3.
  set (d := s / _) in C3. unfold lat_of in C3.
  assert (Q : mulv ME (dirB Me (normal_at ME 0 (PI / 2)) d 0) = V 0 (cos d) (sin d)).
  { unfold normal_at, ME. rewrite sin_0, cos_0, sin_PI2, cos_PI2. rewrite mulv_mI.
    replace (mulv (mT mI) (V 0 (1 * 1) (- 0 * 1))) with (V 0 1 0) by (unfold mulv, mT, mI, vdot; cbn [vx vy vz r0 r1 r2]; f_equal; ring).
    unfold dirB. cbv zeta. replace (vcross (north Me) (V 0 1 0)) with (V (-1) 0 0) by (unfold north, Me, vcross; cbn [vx vy vz r0]; f_equal; ring).
    rewrite sin_0, cos_0. rewrite dir1_nz by (intros X; injection X; lra). rewrite direction_of_unit.
    2:{ apply vnorm_unit. unfold vdot; cbn [vx vy vz]; ring. }
    unfold vadd, vscale, vcross; cbn [vx vy vz]; f_equal; ring. }
  rewrite Q in C3. cbn [vx vy vz] in C3. apply (arg_of_polar 1 0 (la' 0%nat)); try lra.
  { pose proof PI_RGT_0; lra. }
  pose proof (sin2_cos2 d) as SC. unfold Rsqr in SC. rewrite Rplus_comm in SC. rewrite SC, sqrt_1 in C3. rewrite sin_0, cos_0, !Rmult_1_l. exact C3.
Qed.
Print Assumptions C51_axes_E_refuted.

Definition ex_geo_E : geoPoint := MkGeo (scal (Fin 0)) (scal (Fin (PI / 2))) (scal (Fin 0)) (MkFrameE (Fin 6378137) (Fin (/ 298)) (KStr "") R_E).
Example C51_example : north Me = V 0 0 1 /\ is_geo ex_geo 1 (fun _ => / 2) (fun _ => 1) (fun _ => 100) 6378137 (/ 298) Me /\
  ellipsoid 6378137 (/ 298) /\ ecc2 (/ 298) < 1 / 2 /\ shallow 6378137 (/ 298) 100 /\
  not_polar Me (normal_at Me (/ 2) 1) /\ bdim3 4 1 4 = Some 4%nat /\ String.get 0 "greatcircle" <> Some "e"%char /\
  is_geo ex_geo_E 1 (fun _ => 0) (fun _ => PI / 2) (fun _ => 0) 6378137 (/ 298) ME.
Proof.
  split; [reflexivity|]. split; [apply ex_geo_ok|]. split; [apply ex_ellipsoid|]. unfold shallow, ecc2. split; [lra|]. split; [lra|].
  split. { intros E. apply (f_equal (fun v => vdot v v)) in E. rewrite lagrange in E.
    assert (U : vdot (normal_at Me (/ 2) 1) (normal_at Me (/ 2) 1) = 1) by (apply vnorm_unit, normal_at_unit; apply Me_rot). rewrite U in E.
    assert (P : vdot (north Me) (normal_at Me (/ 2) 1) = sin (/ 2)).
    { unfold normal_at, north, Me, mulv, mT, vdot. cbn [vx vy vz r0 r1 r2]. ring. }
    rewrite P in E. unfold v0, north, Me, vdot in E. cbn [vx vy vz r0] in E.
    pose proof (sin2_cos2 (/ 2)) as SC. unfold Rsqr in SC. assert (0 < cos (/ 2)) by (apply cos_gt_0; pose proof PI2_1; lra). nra. }
  split; [reflexivity|]. split; [discriminate|]. split; [lia|].
  split; [reflexivity|]. split; [reflexivity|]. split; [|split; [|split]]; try (left; split; auto; split; reflexivity).
  split; [reflexivity|]. split; [reflexivity|]. split; [apply R_E_mat|apply ME_rot].
Qed.

(** ** C61: distance_and_azimuth on the great circle *)
Lemma not_e_first c r : c <> "e"%char -> first_is_e (String c r) = ret false.
Proof. intros H. cbn. apply Ascii.eqb_neq in H. rewrite H. reflexivity. Qed.
Lemma check_frames_placed fr pt n p up a f M : is_frame fr a f M -> placed pt n p up a f M -> check_frames_pt fr pt = ret tt.
Proof.
  intros HF H. unfold check_frames_pt.
  assert (G : exists fr', (match pt with PGeo g => OFrameE (g_frame g) | PNv v => OFrameE (n_frame v) | PEcef e => OFrameE (e_frame e) | PPv p => OLocal (p_frame p) end) = OFrameE fr' /\ is_frame fr' a f M).
  { destruct pt; cbn [placed] in H; [| | |destruct H]; eexists; (split; [reflexivity|]); [destruct H as (? & ? & ? & H & _)|destruct H as (? & ? & H & _)|destruct H as (H & _)]; apply H. }
  destruct G as (fr' & -> & HF'). rewrite (frames_eq_same _ _ _ _ _ HF HF'). reflexivity.
Qed.

Lemma first_list1 (x : arr num) r : list1 x 1 r -> exists y, first x = ret y /\ scalar y (r 0%nat).
Proof.
  intros [S G]. unfold first. rewrite S. cbn [Nat.ltb Nat.leb]. eexists. split; [reflexivity|]. split; [reflexivity|]. apply (G 0%nat). lia.
Qed.

Lemma delta_N_scalar ea eb ws v : delta_N (PEcef ea) (PEcef eb) = (ws, inl v) -> p_scalar v = e_scalar eb && e_scalar ea.
Proof.
  unfold delta_N, delta_E, to_ecef_vector. rewrite !bind_ret. unfold ecef_sub, ECEFvector, default_frame.
  destruct (check_frames (e_frame eb) (e_frame ea)) as [w1 [[]|]]; cbn [bind]; [|discriminate].
  destruct (map2 nsub (e_p eb) (e_p ea)) as [w2 [x|]]; cbn [bind ret]; [|discriminate].
  destruct (FrameN (PEcef ea)) as [w3 [l|]]; cbn [bind]; [|discriminate]. unfold change_frame.
  cbn [e_frame e_p e_scalar].
  destruct (check_frames (e_frame eb) (n_frame (l_nvector l))) as [w4 [[]|]]; cbn [bind]; [|discriminate].
  destruct (R_EN l) as [w5 [R|]]; cbn [bind]; [|discriminate].
  destruct (swapaxes10 R) as [w6 [Rt|]]; cbn [bind]; [|discriminate].
  destruct (newaxis1 x) as [w7 [cc0|]]; cbn [bind]; [|discriminate].
  destruct (mdot Rt cc0) as [w8 [mm|]]; cbn [bind]; [|discriminate].
  destruct (reshape_rows 3 mm) as [w9 [rr|]]; cbn [bind]; [|discriminate].
  unfold Pvector. cbn [bind ret]. intros H. injection H as _ <-. reflexivity.
Qed.

Theorem C61_great_circle_distance_and_azimuths : forall gi g B m pA pB upA upB a f M unroll c rest,
  ellipsoid a f -> ecc2 f <= 1 / 2 ->
  placed (PGeo g) 1 pA upA a f M -> placed B m pB upB a f M -> c <> "e"%char ->
  ends_with (distance_and_azimuth gi g B unroll false (String c rest)) (fun r => let '(s, azimuth_a, azimuth_b) := r in
    exists ta tb,
      vals s m (fun j => (vnorm (pA 0%nat) + vnorm (pB j)) / 2 * angle (upA 0%nat) (upB j)) /\
      vals azimuth_a m ta /\ vals azimuth_b m tb /\
      (let sh := if is_scalar_point (PGeo g) && is_scalar_point B && (m =? 1)%nat then [] else [m] in
       shape s = sh /\ shape azimuth_a = sh /\ shape azimuth_b = sh) /\
      forall j, (j < m)%nat ->
        - PI <= ta j <= PI /\ - PI <= tb j < PI /\
        (not_polar M (upA 0%nat) -> heads M (upA 0%nat) (vsub (pB j) (pA 0%nat)) (ta j)) /\
        (not_polar M (upB j) -> heads M (upB j) (vsub (pB j) (pA 0%nat)) (tb j))).
Proof.
  intros gi g B m pA pB upA upB a f M unroll c rest El E2 HA HB Hc. pose proof El as (Pa & F0 & F1).
  destruct (placed_frame _ _ _ _ _ _ _ HA) as (HM & HR & _). destruct (placed_frame _ _ _ _ _ _ _ HB) as (_ & _ & Hm).
  unfold distance_and_azimuth.
  assert (HF : is_frame (g_frame g) a f M) by (destruct HA as (? & ? & ? & H & _); apply H).
  rewrite (check_frames_placed _ _ _ _ _ _ _ _ HF HB), bind_ret, not_e_first, bind_ret by auto. unfold daa_great_circle.
  destruct (to_nvector_placed _ _ _ _ _ _ _ HA El E2) as (wa & va & ua & za & Ea & Ha & Ca & Nda). cbn [to_nvector] in Ea.
  destruct (to_nvector_placed _ _ _ _ _ _ _ HB El E2) as (wb & vb & ub & zb & Eb & Hb & Cb & Ndb).
  destruct (nv_to_ecef_spec _ _ _ _ _ _ _ Ha F1) as (ea & Eea & Hea & Fea & Sea).
  destruct (nv_to_ecef_spec _ _ _ _ _ _ _ Hb F1) as (eb & Eeb & Heb & Feb & Seb).
  assert (EQA : forall j, (j < 1)%nat -> pos a f M (ua j) (za j) = pA j).
  { intros j Hj. destruct (Ca j Hj) as (D & _ & _ & ->). rewrite <- D. symmetry. apply pos_direction. apply Ha; auto. }
  assert (EQB : forall j, (j < m)%nat -> pos a f M (ub j) (zb j) = pB j).
  { intros j Hj. destruct (Cb j Hj) as (D & _ & _ & ->). rewrite <- D. symmetry. apply pos_direction. apply Hb; auto. }
  assert (PlA : placed (PEcef ea) 1 pA upA a f M).
  { split. { destruct Hea as (A1 & A2 & A3). split; auto. split; auto. eapply cols_ext; [|exact A2]. auto. }
    intros j Hj. destruct (Ca j Hj) as (D & U & S & E). split; auto. exists (za j). split; auto. rewrite E. apply at_depth_pos; auto. apply vnorm_inv; auto. }
  assert (PlB : placed (PEcef eb) m pB upB a f M).
  { split. { destruct Heb as (A1 & A2 & A3). split; auto. split; auto. eapply cols_ext; [|exact A2]. auto. }
    intros j Hj. destruct (Cb j Hj) as (D & U & S & E). split; auto. exists (zb j). split; auto. rewrite E. apply at_depth_pos; auto. apply vnorm_inv; auto. }
  rewrite Ea, bind_inl, Eb, bind_inl, Eea, bind_inl, Eeb, bind_inl.
  destruct (PlA) as [IA _]. destruct (PlB) as [IB _]. pose proof IA as (_ & ColA & _ & SA). pose proof IB as (_ & ColB & _ & SB).
  destruct (length_spec _ _ _ _ SA ColA) as (l1 & E1 & L1). destruct (length_spec _ _ _ _ SB ColB) as (l2 & E2' & L2).
  rewrite E1, bind_ret, E2', bind_ret. pose proof L1 as H1. pose proof L2 as H2. apply (holds_vals _ _ _ _ SA) in L1. apply (holds_vals _ _ _ _ SB) in L2.
  assert (D1m : bdim 1 m = Some m) by (unfold bdim; destruct (Nat.eqb_spec 1 m); [congruence|reflexivity]).
  assert (Dm1 : bdim m 1 = Some m) by (rewrite bdim_comm; exact D1m).
  destruct (add_vals _ _ _ _ _ _ _ L1 L2 D1m) as (sm & Es & Vs). rewrite Es, bind_ret.
  destruct (map1_valsP (nmul (Fin (/ 2))) sm m _ (fun j r => r = (vnorm (pA 0%nat) + vnorm (pB j)) / 2) Vs) as (rad & Vr & Cr).
  { intros j x Hj Hx. eexists. split; [apply fin_mul; [apply fin_Fin|exact Hx]|]. rewrite cl_1, (cl_id m j Hj). field. }
  assert (CA : cols (n_normal va) 1 ua) by apply Ha. assert (CB : cols (n_normal vb) m ub) by apply Hb.
  assert (NA : ua 0%nat <> v0) by (apply Ha; lia). assert (NB : forall j, (j < m)%nat -> ub j <> v0) by apply Hb.
  assert (Dmm : bdim m m = Some m) by (unfold bdim; rewrite Nat.eqb_refl; reflexivity).
  destruct (gcd_spec _ _ _ _ _ _ _ _ CA CB NA NB Vr m Dmm) as (D & ED & LD). rewrite ED, bind_ret.
  destruct (delta_N_azimuth _ (PEcef eb) _ _ _ _ _ _ _ _ _ El E2 PlA IB Dm1) as (w1 & d1 & az1 & t1 & Ed1 & Eaz1 & Vt1 & S1 & Ct1).
  destruct (azimuth_b_spec _ (PEcef ea) _ _ _ _ _ _ _ _ _ El E2 PlB IA D1m) as (w2 & d2 & az2 & t2 & Ed2 & Eaz2 & Vt2 & S2 & Ct2).
  rewrite Ed1, bind_inl, Eaz1, bind_ret, Ed2, bind_inl, Eaz2, bind_ret.
  assert (G : vals D m (fun j => (vnorm (pA 0%nat) + vnorm (pB j)) / 2 * angle (upA 0%nat) (upB j))).
  { right. eapply list1_ext; [|exact LD]. intros j Hj. cbn beta. rewrite (cl_id m j Hj), (Cr j Hj).
    destruct (Ca 0%nat ltac:(lia)) as (<- & _). destruct (Cb j Hj) as (<- & _). rewrite angle_direction by auto. ring. }
  assert (Sc : p_scalar d1 = is_scalar_point (PGeo g) && is_scalar_point B && (m =? 1)%nat /\ p_scalar d2 = p_scalar d1).
  { rewrite (delta_N_scalar _ _ _ _ Ed1), (delta_N_scalar _ _ _ _ Ed2), Sea, Seb, Nda, Ndb. rewrite andb_true_r.
    split; [|apply andb_comm]. rewrite andb_comm, andb_assoc. reflexivity. }
  destruct Sc as [Sc1 Sc2]. rewrite Sc2, Sc1 in S2. rewrite Sc1 in S1.
  assert (Rs : shape (map1 (nmul (Fin (/ 2))) sm) = (if is_scalar_point (PGeo g) && is_scalar_point B && (m =? 1)%nat then [] else [m])).
  { cbn [map1 shape]. rewrite <- Sc1, (delta_N_scalar _ _ _ _ Ed1). unfold map2 in Es. 
    destruct (bshape (shape l1) (shape l2)) as [sh|] eqn:Bs; [|discriminate]. injection Es as <-. cbn [shape].
    unfold holds in H1, H2. destruct (e_scalar ea), (e_scalar eb); cbn [andb]; destruct H1 as [T1 _], H2 as [T2 _]; rewrite T1, T2 in Bs;
      unfold bshape in Bs; cbn [rev app bshape_rev] in Bs; try (injection Bs as <-; reflexivity).
    - rewrite (SB eq_refl) in *. injection Bs as <-. reflexivity.
    - rewrite D1m in Bs. injection Bs as <-. reflexivity. }
  assert (H : forall x, vals x m (fun j => (vnorm (pA 0%nat) + vnorm (pB j)) / 2 * angle (upA 0%nat) (upB j)) ->
    shape x = (if is_scalar_point (PGeo g) && is_scalar_point B && (m =? 1)%nat then [] else [m]) ->
    exists ta tb, vals x m (fun j => (vnorm (pA 0%nat) + vnorm (pB j)) / 2 * angle (upA 0%nat) (upB j)) /\
      vals az1 m ta /\ vals (map1 (fun x => base_angle (nsub x (Fin PI))) az2) m tb /\
      (let sh := if is_scalar_point (PGeo g) && is_scalar_point B && (m =? 1)%nat then [] else [m] in
       shape x = sh /\ shape az1 = sh /\ shape (map1 (fun x => base_angle (nsub x (Fin PI))) az2) = sh) /\
      forall j, (j < m)%nat -> - PI <= ta j <= PI /\ - PI <= tb j < PI /\
        (not_polar M (upA 0%nat) -> heads M (upA 0%nat) (vsub (pB j) (pA 0%nat)) (ta j)) /\
        (not_polar M (upB j) -> heads M (upB j) (vsub (pB j) (pA 0%nat)) (tb j))).
  { intros x Vx Sx. exists t1, t2. split; auto. split; auto. split; auto. split; [auto|]. intros j Hj.
    destruct (Ct1 j Hj) as [R1 A1]. destruct (Ct2 j Hj) as [R2 A2]. rewrite ?cl_1, ?(cl_id m j Hj) in *.
    split; auto. split; auto. split; auto. intros NP. apply az_heads; auto. }
  unfold ndim. rewrite Rs. destruct (is_scalar_point (PGeo g) && is_scalar_point B && (m =? 1)%nat) eqn:Nd; cbn [length Nat.eqb].
  - assert (m = 1%nat). { apply andb_prop in Nd as [_ Nd]. apply Nat.eqb_eq; auto. }
    subst m. destruct (first_list1 D _ LD) as (x & Ex & Vx). rewrite Ex. eexists. split; [reflexivity|]. cbn [fst snd].
    apply H; [|apply Vx]. left. split; auto. destruct G as [[_ [Sx _]]|[_ G]]; [destruct LD as [S0 _]; rewrite Sx in S0; discriminate|].
    destruct Vx as [Sx Gx]. split; auto. eapply fin_eq; [exact Gx|]. eapply fin_unique; [apply LD; lia|apply G; lia].
  - eexists. split; [reflexivity|]. cbn [fst snd]. apply H; [exact G|]. apply LD.
Qed.
Print Assumptions C61_great_circle_distance_and_azimuths.

(** on a sphere (f = 0) the azimuths are the courses of the great circle: at A towards the normal of B,
    at B away from the normal of A *)
Lemma heads_horizontal M up d d' t c : vnorm up = 1 -> not_polar M up -> 0 < c -> (exists l, d = vadd (vscale c d') (vscale l up)) ->
  heads M up d t -> heads M up d' t.
Proof.
  intros U NP Hc (l & ->) [A B]. unfold heads in *. cbv zeta in *.
  assert (N0 : vdot (north_at M up) up = 0) by (unfold north_at; apply vdot_cross_l').
  assert (E0 : vdot (east_at M up) up = 0). { unfold east_at, direction. rewrite vdot_scale_l, vdot_cross_r'. ring. }
  rewrite !vdot_add_r, !vdot_scale_r, N0, E0 in A, B.
  set (x := vdot (north_at M up) d') in *. set (y := vdot (east_at M up) d') in *.
  replace ((c * x + l * 0) ^ 2 + (c * y + l * 0) ^ 2) with (c * c * (x ^ 2 + y ^ 2)) in A, B by ring.
  rewrite sqrt_mult_alt, sqrt_square in A, B by nra.
  split; apply Rmult_eq_reg_l with c; lra.
Qed.
Lemma pos_sphere_z a M w z : 0 < a -> orthogonal M -> vnorm w = 1 -> pos a 0 M w z = vscale (a - z) w.
Proof.
  intros Pa HM U. pose proof (pos_sphere a M w Pa HM U) as P0. unfold pos, pint in *. rewrite direction_of_unit in * by auto.
  rewrite !mulv_sub, !mulv_scale, !orthogonal_inv in * by auto.
  assert (X : mulv (mT M) (psurf a 0 (mulv M w)) = vscale a w).
  { rewrite <- P0. generalize (mulv (mT M) (psurf a 0 (mulv M w))). vring. }
  rewrite X. vring.
Qed.
Theorem C61_sphere_courses : forall gi g B m pA pB upA upB a M unroll c rest,
  0 < a -> placed (PGeo g) 1 pA upA a 0 M -> placed B m pB upB a 0 M -> c <> "e"%char ->
  ends_with (distance_and_azimuth gi g B unroll false (String c rest)) (fun r => let '(s, azimuth_a, azimuth_b) := r in
    exists ta tb, vals azimuth_a m ta /\ vals azimuth_b m tb /\
      forall j, (j < m)%nat ->
        (not_polar M (upA 0%nat) -> heads M (upA 0%nat) (upB j) (ta j)) /\
        (not_polar M (upB j) -> heads M (upB j) (vneg (upA 0%nat)) (tb j))).
Proof.
  intros gi g B m pA pB upA upB a M unroll c rest Pa HA HB Hc.
  assert (El : ellipsoid a 0) by (split; [auto|lra]). assert (E2 : ecc2 0 <= 1 / 2) by (unfold ecc2; lra).
  destruct (C61_great_circle_distance_and_azimuths gi g B m pA pB upA upB a 0 M unroll c rest El E2 HA HB Hc) as (r & E & P).
  exists r. split; auto. destruct r as [[s x] y]. destruct P as (ta & tb & _ & V1 & V2 & _ & C). exists ta, tb. split; auto. split; auto.
  intros j Hj. destruct (C j Hj) as (_ & _ & C1 & C2).
  destruct (placed_frame _ _ _ _ _ _ _ HA) as (HM & _ & _).
  destruct (to_nvector_placed _ _ _ _ _ _ _ HA El E2) as (?w & ?v & ua & za & _ & _ & Ca & _).
  destruct (to_nvector_placed _ _ _ _ _ _ _ HB El E2) as (?w & ?v & ub & zb & _ & _ & Cb & _).
  destruct (Ca 0%nat ltac:(lia)) as (_ & UA & SA & PA). destruct (Cb j Hj) as (_ & UB & SB & PB).
  rewrite pos_sphere_z in PA, PB by auto. unfold shallow, ecc2 in SA, SB. rewrite PA, PB in C1, C2.
  split; intros NP.
  - eapply (heads_horizontal M _ _ _ (ta j) (a - zb j) UA NP); [lra| |exact (C1 NP)]. exists (- (a - za 0%nat)).
    generalize (upA 0%nat) (upB j); vring.
  - eapply (heads_horizontal M _ _ _ (tb j) (a - za 0%nat) UB NP); [lra| |exact (C2 NP)]. exists (a - zb j).
    generalize (upA 0%nat) (upB j); vring.
Qed.
Print Assumptions C61_sphere_courses.

(** a GeoPoint of n >= 2 points has no great circle distances to anything: the call fails
    (compare C13: great_circle_distance forms all n x n pairs) *)
Lemma gcd_raises A B n m u v radius r :
  cols A n u -> cols B m v -> list1 radius n r -> (2 <= n)%nat -> bdim n m = Some n ->
  great_circle_distance A B radius = raise ValueError.
Proof.
  intros HA HB [Sr Cr] Hn Bd. unfold great_circle_distance.
  step (cross_cols _ _ _ _ _ _ _ HA HB Bd) X HX.
  destruct (norm0_cols _ _ _ HX) as (N & E & SN & GN). rewrite E, bind_ret; clear E.
  destruct (dot_T_cols _ _ _ _ _ _ HA HB) as (Dt & E & SD & GD). rewrite E, bind_ret; clear E.
  unfold map2 at 1. rewrite SN, SD. unfold bshape; cbn [rev app bshape_rev]. rewrite Bd.
  cbn [rev app]. rewrite bind_ret. unfold map2. cbn [shape ravel]. rewrite Sr. unfold bshape, size. cbn [rev app bshape_rev fold_right].
  match goal with |- context [bdim ?x n] => assert (Q : bdim x n = None) end.
  { unfold bdim, prod. cbn [shape fold_right].
    repeat match goal with |- context [(?x =? ?y)%nat] => destruct (Nat.eqb_spec x y); [nia|] end. reflexivity. }
  rewrite Q. reflexivity.
Qed.
Theorem C61_many_points_refuted : forall gi g n B m pA pB upA upB a f M unroll degrees c rest,
  ellipsoid a f -> ecc2 f <= 1 / 2 -> (2 <= n)%nat ->
  placed (PGeo g) n pA upA a f M -> placed B m pB upB a f M -> c <> "e"%char ->
  raises (distance_and_azimuth gi g B unroll degrees (String c rest)) ValueError.
Proof.
  intros gi g n B m pA pB upA upB a f M unroll degrees c rest El E2 Hn2 HA HB Hc. pose proof El as (Pa & F0 & F1).
  unfold distance_and_azimuth.
  assert (HF : is_frame (g_frame g) a f M) by (destruct HA as (? & ? & ? & H & _); apply H).
  rewrite (check_frames_placed _ _ _ _ _ _ _ _ HF HB), bind_ret, not_e_first, bind_ret by auto. unfold daa_great_circle.
  destruct (to_nvector_placed _ _ _ _ _ _ _ HA El E2) as (wa & va & ua & za & Ea & Ha & Ca & Nda). cbn [to_nvector] in Ea.
  destruct (to_nvector_placed _ _ _ _ _ _ _ HB El E2) as (wb & vb & ub & zb & Eb & Hb & Cb & Ndb).
  destruct (nv_to_ecef_spec _ _ _ _ _ _ _ Ha F1) as (ea & Eea & Hea & Fea & Sea).
  destruct (nv_to_ecef_spec _ _ _ _ _ _ _ Hb F1) as (eb & Eeb & Heb & Feb & Seb).
  rewrite Ea, bind_inl, Eb, bind_inl, Eea, bind_inl, Eeb, bind_inl.
  pose proof Hea as (_ & ColA & _ & SA). pose proof Heb as (Hm & ColB & _ & SB).
  destruct (length_spec _ _ _ _ SA ColA) as (l1 & E1 & L1). destruct (length_spec _ _ _ _ SB ColB) as (l2 & E2' & L2).
  rewrite E1, bind_ret, E2', bind_ret.
  assert (SAf : e_scalar ea = false) by (rewrite Sea; replace (n =? 1)%nat with false by (symmetry; apply Nat.eqb_neq; lia); apply andb_false_r).
  rewrite SAf in L1. cbn [holds] in L1. apply (holds_vals _ _ _ _ SB) in L2.
  destruct (bdim n m) as [k|] eqn:D.
  - assert (k = n). { clear - D Hn2 Hm. bcases. }
    subst k. destruct (add_vals _ _ _ _ _ _ _ (or_intror L1) L2 D) as (sm & Es & Vs). rewrite Es, bind_ret.
    assert (Ls : list1 (map1 (nmul (Fin (/ 2))) sm) n (fun j => / 2 * (vnorm (pos a f M (ua (cl n j)) (za (cl n j))) + vnorm (pos a f M (ub (cl m j)) (zb (cl m j)))))).
    { destruct Vs as [[? _]|[S G]]; [lia|]. split; [exact S|]. intros j Hj. apply fin_mul; [apply fin_Fin|]. apply G; auto. }
    destruct Ha as (_ & CA & _). destruct Hb as (_ & CB & _).
    rewrite (gcd_raises _ _ _ _ _ _ _ _ CA CB Ls Hn2 D). reflexivity.
  - assert (Q : map2 nadd l1 l2 = raise ValueError).
    { destruct L2 as [[E _]|[S2 _]]; [subst; clear - D; exfalso; bcases|]. destruct L1 as [S1 _].
      unfold map2. rewrite S1, S2. unfold bshape. cbn [rev app bshape_rev]. rewrite D. reflexivity. }
    rewrite Q. reflexivity.
Qed.
Print Assumptions C61_many_points_refuted.

Theorem C61_empty_method : forall gi g B n p up a f M unroll degrees,
  is_frame (g_frame g) a f M -> placed B n p up a f M ->
  distance_and_azimuth gi g B unroll degrees "" = raise IndexError.
Proof.
  intros gi g B n p up a f M unroll degrees HF HB. unfold distance_and_azimuth. rewrite (check_frames_placed _ _ _ _ _ _ _ _ HF HB). reflexivity.
Qed.
Print Assumptions C61_empty_method.


(** a pair of points at latitudes 0.5 and 0.7 *)
Definition ex_geo2 : geoPoint := MkGeo (arr1 [/ 2; 7 / 10]) (arr1 [1; 2]) (arr1 [100; 0]) ex_frame.
Lemma placed_geo g n la lo z a f M : is_geo g n la lo z a f M -> ellipsoid a f -> (forall j, (j < n)%nat -> shallow a f (z j)) ->
  placed (PGeo g) n (fun j => pos a f M (normal_at M (la j) (lo j)) (z j)) (fun j => normal_at M (la j) (lo j)) a f M.
Proof.
  intros H (Pa & F0 & F1) S. exists la, lo, z. split; auto. intros j Hj. split; auto. split; auto.
  assert (HM : orthogonal M) by (destruct H as (_ & _ & _ & _ & _ & _ & HF); eapply frame_orth; eauto).
  apply at_depth_pos; auto. apply normal_at_nz; auto.
Qed.
Example C61_example : (exists p up, placed (PGeo ex_geo) 1 p up 6378137 (/ 298) Me) /\ (exists p up, placed (PGeo ex_geo2) 2 p up 6378137 (/ 298) Me) /\
  (exists p up, placed (PNv ex_nv) 1 p up 6378137 (/ 298) Me).
Proof.
  assert (S : forall z, z <= 100 -> shallow 6378137 (/ 298) z) by (intros z Hz; unfold shallow, ecc2; lra).
  split; [|split].
  - do 2 eexists. eapply placed_geo; [apply ex_geo_ok|apply ex_ellipsoid|]. intros; apply S; lra.
  - do 2 eexists. eapply (placed_geo ex_geo2 2 (fun j => nth j [/ 2; 7 / 10] 0) (fun j => nth j [1; 2] 0) (fun j => nth j [100; 0] 0)); [|apply ex_ellipsoid|].
    + split; [lia|]. split; [reflexivity|]. split; [reflexivity|]. split; [right; apply arr1_list1|]. split; [right; apply arr1_list1|].
      split; [right; apply arr1_list1|]. apply ex_frame_ok.
    + intros j Hj. apply S. destruct j as [|[|j]]; cbn; try lra. lia.
  - pose proof ex_ellipsoid as (P & F0 & F1).
    exists (fun _ => pos 6378137 (/ 298) Me (direction (V 1 2 (-2))) 3), (fun _ => direction (V 1 2 (-2))). exists (fun _ => V 1 2 (-2)), (fun _ => 3).
    assert (Nz : V 1 2 (-2) <> v0) by (intros E; injection E; lra).
    split. { split; [lia|]. split; [split; [reflexivity|]; intros j Hj; destruct j; [repeat split; reflexivity|lia]|]. split; [auto|].
      split; [apply spread_scalar; split; reflexivity|apply ex_frame_ok]. }
    intros j Hj. split; [apply S; lra|]. split; [reflexivity|]. apply at_depth_pos; auto; [apply Me_rot|]. apply direction_nz; auto.
Qed.
