(** * C115: R_EN2n_E and R_EL2n_E in binary64 (rotation.py 186-230): the position back from the rotation matrix *)
From Coq Require Import ZArith Reals Lra Lia Bool Psatz.
From Flocq Require Import Core BinarySingleNaN Relative.
From Verif Require Import Spec SpecArr SpecGeo LVec LAngle LMat FTiny FZero FBase FRel FRel2 FUnit FPi FAngle FMod FDist FGreat FLatLon FInv FInv2 FTrack FEcef FEcef2 FNed FNed2 FNed3 FDelta FDelta2 FDelta3 FMove FMove2 FEuler FEuler2 FBody FBody2 FBody3 FGeoPath FInv3 FInv3.
Local Open Scope R_scope.

(** ** the model *)
(** R_EL2n_E and R_EN2n_E, rotation.py 207 and 230: mdot(R_EL, np.vstack((0, 0, -1))); the matrix is given by its three columns *)
Definition fR_EL2n_E (dot : vec64 -> vec64 -> float64) (R_EL : vec64 * vec64 * vec64) : vec64 := fto_ecef dot R_EL (fzero, fzero, fneg fone).
(** how einsum may compute a sum of three products *)
Definition einsum_dot (dot : vec64 -> vec64 -> float64) : Prop := dot = dot_seq \/ dot = dot_fma.

Lemma ffma_val x y z : is_finite x = true -> is_finite y = true -> is_finite z = true -> Rabs (B2R x * B2R y + B2R z) <= bpow radix2 1023 ->
  is_finite (ffma x y z) = true /\ B2R (ffma x y z) = rnd (B2R x * B2R y + B2R z).
Proof.
  intros Fx Fy Fz H. pose proof (Bfma_correct 53 1024 prec64 emax64 mode_NE x y z Fx Fy Fz) as C. cbv zeta in C. fold (ffma x y z) in C.
  cbn [round_mode] in C. change (SpecFloat.fexp 53 1024) with fexp64 in C. rewrite Rlt_bool_true in C.
  - destruct C as (C1 & C2 & _). split; [exact C2|]. exact C1.
  - eapply Rle_lt_trans; [|apply (bpow_lt radix2 1023 1024); lia]. apply abs_round_le_generic; auto with typeclass_instances. apply generic_format_bpow. unfold fexp64, FLT_exp. lia.
Qed.
(** r0 * 0 + r1 * 0 + r2 * (-1) is -r2, without a rounding error *)
Lemma minus_last dot r0 r1 r2 : einsum_dot dot -> is_finite r0 = true -> is_finite r1 = true -> is_finite r2 = true ->
  is_finite (dot (r0, r1, r2) (fzero, fzero, fneg fone)) = true /\ B2R (dot (r0, r1, r2) (fzero, fzero, fneg fone)) = - B2R r2.
Proof.
  intros E F0 F1 F2. assert (V : B2R (fneg fone) = -1) by (unfold fneg; rewrite B2R_Bopp, fone_val; reflexivity). assert (Z : B2R fzero = 0) by reflexivity.
  assert (MZ : forall r : float64, is_finite r = true -> is_finite (fmul r fzero) = true /\ B2R (fmul r fzero) = 0).
  { intros r Fr. rewrite fmul_comm. apply mul_zero_l; auto. }
  assert (B0 : 0 <= bpow radix2 1023) by apply bpow_ge_0. assert (R0 : rnd 0 = 0) by (apply round_0; auto with typeclass_instances).
  pose proof (abs_B2R_le_emax_minus_prec 53 1024 prec64 r2) as BB. 
  assert (FX : rnd (- B2R r2) = - B2R r2) by (apply round_generic; auto with typeclass_instances; apply generic_format_opp, format64).
  destruct E as [->| ->].
  - unfold dot_seq. destruct (MZ r0 F0) as (G0 & E0). destruct (MZ r1 F1) as (G1 & E1).
    assert (X : is_finite (fmul r2 (fneg fone)) = true /\ B2R (fmul r2 (fneg fone)) = - B2R r2).
    { rewrite fmul_comm. unfold fmul. pose proof (Bmult_correct 53 1024 prec64 emax64 mode_NE (fneg fone) r2) as C. rewrite V in C. cbn [round_mode] in C. change (SpecFloat.fexp 53 1024) with fexp64 in C. replace (-1 * B2R r2) with (- B2R r2) in C by ring.
      change (round radix2 fexp64 ZnearestE (- B2R r2)) with (rnd (- B2R r2)) in C. rewrite FX, Rabs_Ropp, Rlt_bool_true in C by apply abs_B2R_lt_emax. destruct C as (C1 & C2 & _). split; [rewrite C2, F2; reflexivity|exact C1]. }
    destruct X as (G2 & E2). destruct (fadd_val (fmul r0 fzero) (fmul r1 fzero) G0 G1) as (G3 & E3). { rewrite E0, E1, Rplus_0_l, Rabs_R0. auto. } rewrite E0, E1, Rplus_0_l, R0 in E3.
    unfold fadd at 1 3. pose proof (Bplus_correct 53 1024 prec64 emax64 mode_NE _ _ G3 G2) as C. rewrite E3, E2, Rplus_0_l in C. cbn [round_mode] in C. change (SpecFloat.fexp 53 1024) with fexp64 in C.
    change (round radix2 fexp64 ZnearestE (- B2R r2)) with (rnd (- B2R r2)) in C. rewrite FX, Rabs_Ropp, Rlt_bool_true in C by apply abs_B2R_lt_emax. destruct C as (C1 & C2 & _). split; [exact C2|exact C1].
  - unfold dot_fma. destruct (MZ r0 F0) as (G0 & E0). destruct (ffma_val r1 fzero (fmul r0 fzero) F1 eq_refl G0) as (G1 & E1). { rewrite E0, Z, Rmult_0_r, Rplus_0_l, Rabs_R0. auto. } rewrite E0, Z, Rmult_0_r, Rplus_0_l, R0 in E1.
    set (w := ffma r1 fzero (fmul r0 fzero)) in *. pose proof (Bfma_correct 53 1024 prec64 emax64 mode_NE r2 (fneg fone) w F2 eq_refl G1) as C. cbv zeta in C. fold (ffma r2 (fneg fone) w) in C. rewrite V, E1 in C. cbn [round_mode] in C. change (SpecFloat.fexp 53 1024) with fexp64 in C. replace (B2R r2 * -1 + 0) with (- B2R r2) in C by ring.
    change (round radix2 fexp64 ZnearestE (- B2R r2)) with (rnd (- B2R r2)) in C. rewrite FX, Rabs_Ropp, Rlt_bool_true in C by apply abs_B2R_lt_emax. destruct C as (C1 & C2 & _). split; [exact C2|exact C1].
Qed.

(** ** For every matrix of finite doubles, and in whichever way einsum adds, the result is minus the last column, exactly *)
Theorem C115_last_column : forall dot x y z, einsum_dot dot -> finite_vec x -> finite_vec y -> finite_vec z ->
  finite_vec (fR_EL2n_E dot (x, y, z)) /\ vec_of (fR_EL2n_E dot (x, y, z)) = vneg (vec_of z).
Proof.
  intros dot [[x0 x1] x2] [[y0 y1] y2] [[z0 z1] z2] E (X0 & X1 & X2) (Y0 & Y1 & Y2) (Z0 & Z1 & Z2). unfold fR_EL2n_E, fto_ecef.
  destruct (minus_last dot x0 y0 z0 E X0 Y0 Z0) as (F0 & E0). destruct (minus_last dot x1 y1 z1 E X1 Y1 Z1) as (F1 & E1). destruct (minus_last dot x2 y2 z2 E X2 Y2 Z2) as (F2 & E2).
  split; [split; [exact F0|split; [exact F1|exact F2]]|]. apply vec_eq; [exact E0|exact E1|exact E2].
Qed.
Print Assumptions C115_last_column.

Lemma accurate_neg k q Q m : accurate k q (vneg Q) -> finite_vec m -> vec_of m = vneg (vec_of q) -> accurate k m Q.
Proof.
  intros (F & A & B & C) Fm E. unfold accurate. rewrite E. split; [exact Fm|]. destruct q as [[q0 q1] q2]. unfold vec_of, vneg in *. cbn [Spec.vx Spec.vy Spec.vz] in *.
  rewrite !Rabs_Ropp in A, B, C. replace (B2R q0 - - Spec.vx Q) with (- (- B2R q0 - Spec.vx Q)) in A by ring. replace (B2R q1 - - Spec.vy Q) with (- (- B2R q1 - Spec.vy Q)) in B by ring. replace (B2R q2 - - Spec.vz Q) with (- (- B2R q2 - Spec.vz Q)) in C by ring.
  rewrite Rabs_Ropp in A, B, C. auto.
Qed.
(** ** R_EN2n_E(n_E2R_EN(n)) is the direction of n: every component right to 5 units of roundoff; n not a pole, or exactly a pole *)
Theorem C115_round_trip : forall dot n, einsum_dot dot -> ordinary_vec n ->
  let up := direction (vec_of n) in bpow radix2 (-300) <= sqrt (Spec.vx up ^ 2 + Spec.vy up ^ 2) \/ (Spec.vx (vec_of n) = 0 /\ Spec.vy (vec_of n) = 0) ->
  accurate 5 (fR_EL2n_E dot (fn_E2R_EN n)) up.
Proof.
  intros dot n E O up [H|(X & Y)].
  - pose proof (C91_accuracy n O H) as A. destruct (fn_E2R_EN n) as [[north east] down]. cbv zeta in A. fold up in A. destruct A as (An & Ae & Ad).
    destruct (C115_last_column dot north east down E (proj1 An) (proj1 Ae) (proj1 Ad)) as (F & V). exact (accurate_neg 5 down up _ Ad F V).
  - destruct n as [[x y] z]. pose proof (C91_pole x y z O X Y) as A. destruct (fn_E2R_EN (x, y, z)) as [[north east] down]. cbv zeta in A. destruct A as (An & Ae & _ & Ad).
    destruct (C115_last_column dot north east down E (proj1 An) Ae (proj1 Ad)) as (F & VE). refine (accurate_neg 5 down up _ _ F VE).
    assert (EU : vneg up = V 0 0 (- (B2R z / Rabs (B2R z)))); [|rewrite EU; exact Ad].
    unfold up, direction, vnorm, vdot, vneg, vscale, vec_of; cbn [Spec.vx Spec.vy Spec.vz]. change (B2R x = 0) in X. change (B2R y = 0) in Y. rewrite X, Y. replace (0 * 0 + 0 * 0 + B2R z * B2R z) with (Rsqr (B2R z)) by (unfold Rsqr; ring). rewrite sqrt_Rsqr_abs.
    apply vec_eq; cbn [Spec.vx Spec.vy Spec.vz]; unfold Rdiv; ring.
Qed.
Print Assumptions C115_round_trip.

(** ** From degrees: R_EN2n_E(FrameN(GeoPoint(lat, lon)).R_EN) and R_EL2n_E(FrameL(GeoPoint(lat, lon), wander).R_EN) are the n-vector of the point, also at and close to the poles;
    the latter does not depend on the wander azimuth at all *)
Lemma down_place lat lon : vneg (down_dir (lat * (PI / 180)) (lon * (PI / 180))) = place lat lon.
Proof. unfold place, latlon_vec, down_dir, vneg; cbn [Spec.vx Spec.vy Spec.vz]. apply vec_eq; cbn [Spec.vx Spec.vy Spec.vz]; ring. Qed.
Lemma neg_dist a b : vnorm (vsub (vneg a) (vneg b)) = vnorm (vsub a b).
Proof. replace (vsub (vneg a) (vneg b)) with (vscale (-1) (vsub a b)) by vring. rewrite vnorm_scale, (Rabs_left (-1)) by lra. ring. Qed.
Lemma wander_down lat lon w : c2 (wander_axes lat lon w) = down_dir (lat * (PI / 180)) (lon * (PI / 180)).
Proof. unfold wander_axes, ned. cbv zeta. set (a := lat * (PI / 180)). set (o := lon * (PI / 180)). unfold c2, mmul, mT, Rz, down_dir, north_dir, east_dir, mulv, vdot; cbn [Spec.vx Spec.vy Spec.vz r0 r1 r2 c0 c1 c2]. apply vec_eq; cbn [Spec.vx Spec.vy Spec.vz]; ring. Qed.
Theorem C115_from_degrees : forall dot fsin fcos arctan2 lat lon wander, einsum_dot dot -> good_trig fsin sin -> good_trig fcos cos -> good_atan2 arctan2 ->
  valid_at lat lon -> is_finite wander = true -> Rabs (B2R wander) <= 4 ->
  let n := fR_EL2n_E dot (fR_EN_deg fsin fcos lat lon) in let n' := fR_EL2n_E dot (fR_EL_deg fsin fcos arctan2 lat lon wander) in
  finite_vec n /\ vnorm (vsub (vec_of n) (place (B2R lat) (B2R lon))) <= 27 * u /\
  finite_vec n' /\ vnorm (vsub (vec_of n') (place (B2R lat) (B2R lon))) <= 55 * u /\
  forall wander2, is_finite wander2 = true -> Rabs (B2R wander2) <= 4 -> vec_of (fR_EL2n_E dot (fR_EL_deg fsin fcos arctan2 lat lon wander2)) = vec_of n'.
Proof.
  intros dot fsin fcos arctan2 lat lon wander E GS GC GA (Fa & Fo & Ba & Bo) Fw Bw n n'.
  pose proof (C91_from_degrees fsin fcos lat lon GS GC Fa Fo Ba Bo) as H. unfold n. destruct (fR_EN_deg fsin fcos lat lon) as [[x y] z]. cbv zeta in H. destruct H as ((Fx & Fy & Fz) & _ & _ & Dz).
  destruct (C115_last_column dot x y z E Fx Fy Fz) as (F & V). rewrite V, <- down_place, neg_dist. split; [exact F|]. split; [exact Dz|].
  assert (LC : forall w, is_finite w = true -> Rabs (B2R w) <= 4 -> finite_vec (fR_EL2n_E dot (fR_EL_deg fsin fcos arctan2 lat lon w)) /\ vec_of (fR_EL2n_E dot (fR_EL_deg fsin fcos arctan2 lat lon w)) = vneg (vec_of (snd (fR_EL_deg fsin fcos arctan2 lat lon w))) /\
     vnorm (vsub (vec_of (snd (fR_EL_deg fsin fcos arctan2 lat lon w))) (down_dir (B2R lat * (PI / 180)) (B2R lon * (PI / 180)))) <= 55 * u).
  { intros w Hf Hb. pose proof (C104_wander_axes fsin fcos arctan2 lat lon w GS GC GA Fa Fo Ba Bo Hf Hb) as C. destruct (fR_EL_deg fsin fcos arctan2 lat lon w) as [[a b] c]. unfold cols_ok in C. destruct C as ((Ga & Gb & Gc) & _ & _ & Dc). rewrite wander_down in Dc.
    destruct (C115_last_column dot a b c E Ga Gb Gc) as (F' & V'). split; [exact F'|]. split; [exact V'|exact Dc]. }
  destruct (LC wander Fw Bw) as (F' & V' & D'). unfold n'. split; [exact F'|]. split; [rewrite V', neg_dist; exact D'|]. intros w2 F2 B2. destruct (LC w2 F2 B2) as (_ & V2 & _). rewrite V2, V'. f_equal.
Qed.
Print Assumptions C115_from_degrees.

(** The hypotheses are met: any einsum, (1, 1, 1) and the north pole; 1 N 1 E and wander azimuths of 0 and 1 rad *)
Example C115_example : einsum_dot dot_seq /\ einsum_dot dot_fma /\ ordinary_vec (fone, fone, fone) /\
  bpow radix2 (-300) <= sqrt (Spec.vx (direction (vec_of (fone, fone, fone))) ^ 2 + Spec.vy (direction (vec_of (fone, fone, fone))) ^ 2) /\
  ordinary_vec (fzero, fzero, fone) /\ good_trig (fun x => round64 (sin (B2R x))) sin /\ good_trig (fun x => round64 (cos (B2R x))) cos /\ good_atan2 ideal_atan2 /\ valid_at fone fone /\
  is_finite fone = true /\ Rabs (B2R fone) <= 4 /\ is_finite fzero = true /\ Rabs (B2R fzero) <= 4.
Proof.
  destruct C91_example as (O & H & P & GS & GC). split; [left; auto|]. split; [right; auto|]. split; auto. split; auto. split; [exact P|]. split; auto. split; auto. split; [apply correct_good, ideal_atan2_correct|].
  split; [unfold valid_at; rewrite fone_val, Rabs_R1; repeat split; lra|]. split; [reflexivity|]. rewrite fone_val, Rabs_R1. split; [lra|]. split; [reflexivity|]. change (B2R fzero) with 0. rewrite Rabs_R0. lra.
Qed.
