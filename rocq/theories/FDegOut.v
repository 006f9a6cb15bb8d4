(** * C113: angles that come out in degrees: azimuth_deg, elevation_deg and distance_and_azimuth(degrees=True) in binary64 (objects.py 691-694, 704-707, 395-410) *)
From Coq Require Import ZArith Reals Lra Lia Bool Psatz.
From Flocq Require Import Core BinarySingleNaN Relative.
From Verif Require Import Spec LVec LAngle LCircle FTiny FZero FBase FRel FRel2 FUnit FPi FAngle FMod FDist FClose FGreat FLatLon FInv FInv2 FTrack FOnCircle FEcef FEcef2 FNed FNed2 FNed3 FDelta FDelta2 FDelta3
  FInterp FPoint FWay FWay2 FWay3 FWay4 FGeodB FGeod FGeod2 FGeod3 FGeod4 FGeod5 FGeod6 FGeod7 FGeod8 FGeod9 FGeod10 FMove FMove2 FMove3 FEuler FEuler2 FBody FBody2 FBody3 PPath3 FInv3 FCourse FGeoPath FNan FElev.
Local Open Scope R_scope.

(** ** the model *)
(** objects.py 691-694: deg(self.azimuth) *)
Definition fazimuth_deg (arctan2 : float64 -> float64 -> float64) (p : vec64) : float64 := fdeg (fazimuth arctan2 p).
(** objects.py 395-410 with degrees=True: only the azimuths are converted *)
Definition fcourse_deg dot mdot fsin fcos pow arctan2 (latA lonA zA latB lonB zB a f : float64) : float64 * float64 * float64 :=
  let '(distance, azimuth_a, azimuth_b) := fcourse dot mdot fsin fcos pow arctan2 latA lonA zA latB lonB zB a f in (distance, fdeg azimuth_a, fdeg azimuth_b).

(** an angle of at most 3.15 radians: 3.15 * 2.1 * 180 / pi = 380 units *)
Lemma deg_out x t e : is_finite x = true -> Rabs (B2R x) <= 315 / 100 -> Rabs (B2R x - t) <= e ->
  is_finite (fdeg x) = true /\ Rabs (B2R (fdeg x) - t * (180 / PI)) <= e * (180 / PI) + 43 / 1000000000000000.
Proof.
  intros F B E. pose proof PI_RGT_0 as P0. pose proof pi_bounds as PB. rewrite pi64_val in PB. pose proof u_pos as Pu. pose proof eta_pos as Pe. pose proof tiny_eta as Te.
  assert (K : 57 <= 180 / PI <= 573 / 10). { split; [apply (Rmult_le_reg_r PI)|apply (Rmult_le_reg_r PI)]; try lra; unfold Rdiv; rewrite Rmult_assoc, Rinv_l by lra; lra. }
  set (k := 180 / PI) in *. destruct (C79_accuracy x) as (_ & F2 & _ & D). { split; auto. apply Rle_trans with (bpow radix2 2); [cbn; lra|apply bpow_le; lia]. } fold k in D. split; [exact F2|]. clearbody k.
  rewrite Rabs_mult, (Rabs_right k) in D by lra. assert (Rabs (B2R x) * k <= 315 / 100 * (573 / 10)) by (apply Rmult_le_compat; auto using Rabs_pos; lra).
  assert (u * (Rabs (B2R x) * k) <= u * (315 / 100 * (573 / 10))) by (apply Rmult_le_compat_l; lra).
  replace (B2R (fdeg x) - t * k) with ((B2R (fdeg x) - B2R x * k) + (B2R x - t) * k) by ring. eapply Rle_trans; [apply Rabs_triang|]. rewrite (Rabs_mult (B2R x - t)), (Rabs_right k) by lra.
  assert (Rabs (B2R x - t) * k <= e * k) by (apply Rmult_le_compat_r; lra).
  assert (ET : eta <= / 1000000000000000000). { unfold eta. apply Rle_trans with (bpow radix2 (-70)); [apply bpow_le; lia|cbn; lra]. } rewrite u_val in *. lra.
Qed.
Lemma pi_out : PI + 7 * u <= 315 / 100. Proof. pose proof pi_bounds as PB. rewrite pi64_val in PB. rewrite u_val. lra. Qed.

(** ** the direction of B seen from A, clockwise from north, in degrees: 0.22 micrometres at the horizontal distance h *)
Theorem C113_azimuth_deg : forall dot fsin fcos arctan2 latA lonA zA latB lonB zB pA pB,
  good_mdot dot -> good_trig fsin sin -> good_trig fcos cos -> good_atan2 arctan2 -> valid latA lonA zA -> valid latB lonB zB -> Rabs (B2R zA) <= 1000000 -> Rabs (B2R zB) <= 1000000 ->
  position 6378137 (B2R wgs84_f) (B2R latA) (B2R lonA) (B2R zA) pA -> position 6378137 (B2R wgs84_f) (B2R latB) (B2R lonB) (B2R zB) pB ->
  let q := mulv (ned (B2R latA) (B2R lonA)) (vsub pB pA) in let h := sqrt (Spec.vx q ^ 2 + Spec.vy q ^ 2) in 22 / 100000000 < h ->
  let az := fazimuth_deg arctan2 (fdelta_to_deg dot fsin fcos latA lonA zA latB lonB zB wgs84_a wgs84_f) in
  is_finite az = true /\ exists t, azimuth_of q (t * (PI / 180)) /\ Rabs (B2R az - t) <= 22 / 100000000 / (h - 22 / 100000000) * (180 / PI) + / 10000000000000.
Proof.
  intros dot fsin fcos arctan2 latA lonA zA latB lonB zB pA pB GD GS GC GA VA VB BA BB HA HB q h Hh az. pose proof PI_RGT_0 as P0. pose proof PI_33 as P3.
  pose proof (C92_wgs84 dot fsin fcos latA lonA zA latB lonB zB pA pB GD GS GC VA VB BA BB HA HB) as C. cbv zeta in C. destruct C as (FP & _ & E2). fold q in E2.
  destruct (azimuth_err arctan2 _ q _ GA FP E2 Hh) as (FA & t & AZ & ER). fold h in ER. pose proof (azimuth_range arctan2 _ q _ GA FP E2 Hh) as RG. pose proof pi_out as PO.
  unfold az, fazimuth_deg. clear az. set (x := fazimuth arctan2 _) in *. clearbody x. destruct (deg_out x t _ FA ltac:(lra) ER) as (F & D). split; [exact F|]. exists (t * (180 / PI)). split; [replace (t * (180 / PI) * (PI / 180)) with t by (field; lra); exact AZ|].
  eapply Rle_trans; [exact D|]. rewrite Rmult_plus_distr_r. assert (K : 180 / PI <= 60). { apply (Rmult_le_reg_r PI); [lra|]. unfold Rdiv. rewrite Rmult_assoc, Rinv_l by lra. pose proof pi_bounds as PB. rewrite pi64_val in PB. lra. }
  assert (63 / 10 * u * (180 / PI) <= 63 / 10 * u * 60) by (apply Rmult_le_compat_l; [pose proof u_pos; lra|exact K]). rewrite u_val in *. lra.
Qed.
Print Assumptions C113_azimuth_deg.

(** ** how high B stands over (negative) or under (positive) the horizon of A, in degrees *)
Theorem C113_elevation_deg : forall dot fsin fcos arcsin latA lonA zA latB lonB zB pA pB el,
  good_mdot dot -> good_trig fsin sin -> good_trig fcos cos -> good_arcsin arcsin -> valid latA lonA zA -> valid latB lonB zB -> Rabs (B2R zA) <= 1000000 -> Rabs (B2R zB) <= 1000000 ->
  position 6378137 (B2R wgs84_f) (B2R latA) (B2R lonA) (B2R zA) pA -> position 6378137 (B2R wgs84_f) (B2R latB) (B2R lonB) (B2R zB) pB ->
  let L := vnorm (vsub pB pA) in / 100000 <= L -> elevation_of (mulv (ned (B2R latA) (B2R lonA)) (vsub pB pA)) (el * (PI / 180)) ->
  let el' := felevation_deg arcsin (fdelta_to_deg dot fsin fcos latA lonA zA latB lonB zB wgs84_a wgs84_f) in
  is_finite el' = true /\ cos (el * (PI / 180)) * Rabs (B2R el' - el) <= (88 / 100000000 / L + 2 / 1000000000000000) * (180 / PI) + 43 / 1000000000000000 /\
  Rabs (B2R el' - el) <= (sqrt (36 / 10000000 / L + 4 / 1000000000000000) + / 1000000000000000) * (180 / PI) + 43 / 1000000000000000.
Proof.
  intros dot fsin fcos arcsin latA lonA zA latB lonB zB pA pB el GD GS GC GA VA VB BA BB HA HB L HL EL el'. pose proof PI_RGT_0 as P0. pose proof pi_bounds as PB. rewrite pi64_val in PB.
  destruct (C111_from_degrees dot fsin fcos arcsin latA lonA zA latB lonB zB pA pB _ GD GS GC GA VA VB BA BB HA HB ltac:(fold L; lra) EL) as (F & E1 & E2). fold L in E1, E2.
  unfold el', felevation_deg. clear el'. set (x := felevation arcsin _) in *. clearbody x. destruct EL as (_ & RG). set (t := el * (PI / 180)) in *. assert (ET : el = t * (180 / PI)) by (unfold t; field; lra).
  assert (IL : 0 < / L <= 100000). { split; [apply Rinv_0_lt_compat; lra|]. replace 100000 with (/ / 100000) by field. apply Rinv_le; lra. }
  assert (SB : sqrt (36 / 10000000 / L + 4 / 1000000000000000) <= 61 / 100). { rewrite <- (sqrt_square (61 / 100)) by lra. apply sqrt_le_1_alt. unfold Rdiv at 1. lra. }
  assert (BX : Rabs (B2R x) <= 315 / 100). { apply Rabs_le_inv in E2. apply Rabs_le. lra. }
  destruct (deg_out x t (Rabs (B2R x - t)) F BX ltac:(lra)) as (FD & D). rewrite <- ET in D. split; [exact FD|].
  assert (K : 0 < 180 / PI) by (apply Rdiv_lt_0_compat; lra). pose proof (cos_ge_0 t ltac:(lra) ltac:(lra)) as C0. pose proof (COS_bound t) as (_ & C1). set (k := 180 / PI) in *. clearbody k. set (X := Rabs (B2R x - t)) in *. clearbody X. split.
  - eapply Rle_trans; [apply Rmult_le_compat_l; [exact C0|exact D]|]. rewrite Rmult_plus_distr_l. apply Rplus_le_compat; [|assert (cos t * (43 / 1000000000000000) <= 1 * (43 / 1000000000000000)) by (apply Rmult_le_compat_r; lra); lra].
    rewrite <- Rmult_assoc. apply Rmult_le_compat_r; lra.
  - eapply Rle_trans; [exact D|]. apply Rplus_le_compat_r. apply Rmult_le_compat_r; lra.
Qed.
Print Assumptions C113_elevation_deg.

(** ** the course along the great circle, degrees=True: the distance is that of degrees=False bit by bit, the azimuths are right to the bounds of C105 (in degrees) and 4e-13 more, and the one at B lies between -180 and 180 *)
Theorem C113_distance_and_azimuth : forall dot mdot fsin fcos pow arctan2 latA lonA zA latB lonB zB pA pB c,
  good_mdot mdot -> good_trig fsin sin -> good_trig fcos cos -> good_pow pow -> good_atan2 arctan2 -> valid latA lonA zA -> valid latB lonB zB -> Rabs (B2R zA) <= 1000000 -> Rabs (B2R zB) <= 1000000 ->
  position 6378137 (B2R wgs84_f) (B2R latA) (B2R lonA) (B2R zA) pA -> position 6378137 (B2R wgs84_f) (B2R latB) (B2R lonB) (B2R zB) pB ->
  / 5000 <= c -> c <= cos (B2R latA * (PI / 180)) -> c <= cos (B2R latB * (PI / 180)) ->
  let e := seen_err c (vnorm (vsub pB pA)) in
  let qA := mulv (ned (B2R latA) (B2R lonA)) (vsub pB pA) in let hA := sqrt (Spec.vx qA ^ 2 + Spec.vy qA ^ 2) in e < hA ->
  let qB := mulv (ned (B2R latB) (B2R lonB)) (vsub pB pA) in let hB := sqrt (Spec.vx qB ^ 2 + Spec.vy qB ^ 2) in e < hB ->
  let '(distance, azimuth_a, azimuth_b) := fcourse_deg dot mdot fsin fcos pow arctan2 latA lonA zA latB lonB zB wgs84_a wgs84_f in
  distance = fst (fst (fcourse dot mdot fsin fcos pow arctan2 latA lonA zA latB lonB zB wgs84_a wgs84_f)) /\
  is_finite azimuth_a = true /\ (exists t, azimuth_of qA (t * (PI / 180)) /\ Rabs (B2R azimuth_a - t) <= e / (hA - e) * (180 / PI) + 4 / 10000000000000) /\
  is_finite azimuth_b = true /\ Rabs (B2R azimuth_b) <= 180 /\ (exists t, azimuth_of qB (t * (PI / 180)) /\ Rabs (B2R azimuth_b - t) <= e / (hB - e) * (180 / PI) + 4 / 10000000000000).
Proof.
  intros dot mdot fsin fcos pow arctan2 latA lonA zA latB lonB zB pA pB c GD GS GC GP GA VA VB BA BB HA HB Hc CA CB e qA hA EA qB hB EB. pose proof PI_RGT_0 as P0. pose proof pi_bounds as PB. pose proof pi64_val as PV.
  pose proof (C105_azimuth_a dot mdot fsin fcos pow arctan2 latA lonA zA latB lonB zB pA pB c GD GS GC GP GA VA VB BA BB HA HB (conj Hc CA)) as A. cbv zeta in A. fold qA in A. fold e in A. fold hA in A. specialize (A EA).
  pose proof (C105_azimuth_b dot mdot fsin fcos pow arctan2 latA lonA zA latB lonB zB pA pB c GD GS GC GP GA VA VB BA BB HA HB (conj Hc CB)) as B. cbv zeta in B. fold qB in B. fold e in B. fold hB in B. specialize (B EB).
  destruct (delta_ecef_err mdot fsin fcos pow latA lonA zA latB lonB zB pA pB c GD GS GC GP VA VB BA BB HA HB (conj Hc CA)) as (FP & EP). fold qA in EP. fold e in EP. pose proof (azimuth_range arctan2 _ qA e GA FP EP EA) as RG. pose proof pi_out as PO.
  unfold fcourse_deg. destruct (fcourse dot mdot fsin fcos pow arctan2 latA lonA zA latB lonB zB wgs84_a wgs84_f) as [[d a] b] eqn:EC. cbn [fst snd].
  assert (RA : Rabs (B2R a) <= 315 / 100). { unfold fcourse in EC. cbv zeta in EC. apply (f_equal (fun p => snd (fst p))) in EC. cbn [fst snd] in EC. rewrite <- EC. lra. } clear EC RG FP EP.
  destruct A as (FA & t & TA & DA). destruct B as (FB & RB & t' & TB & DB).
  assert (K : 0 < 180 / PI <= 60). { split; [apply Rdiv_lt_0_compat; lra|]. apply (Rmult_le_reg_r PI); [lra|]. unfold Rdiv. rewrite Rmult_assoc, Rinv_l by lra. rewrite PV in PB. lra. }
  destruct (deg_out a t _ FA RA DA) as (GA' & XA). assert (RB' : Rabs (B2R b) <= 315 / 100) by (rewrite PV in RB; lra). destruct (deg_out b t' _ FB RB' DB) as (GB & XB).
  assert (BK : forall s, s * (180 / PI) * (PI / 180) = s) by (intros; field; lra).
  split; [reflexivity|]. split; [exact GA'|]. split. { exists (t * (180 / PI)). rewrite BK. split; [exact TA|]. set (k := 180 / PI) in *. clearbody k. rewrite Rmult_plus_distr_r in XA. lra. }
  split; [exact GB|]. split; [apply C79_range; auto|]. exists (t' * (180 / PI)). rewrite BK. split; [exact TB|]. set (k := 180 / PI) in *. clearbody k. rewrite Rmult_plus_distr_r in XB. lra.
Qed.
Print Assumptions C113_distance_and_azimuth.

(** the concrete case of C105 and C111, from (0 N, 0 E) to (0 N, 90 E), in degrees: B stands due east, 45 degrees under the horizon *)
Example C113_example : let pA := V 6378137 0 0 in let pB := V 0 6378137 0 in let q := mulv (ned (B2R fzero) (B2R fzero)) (vsub pB pA) in let e := seen_err 1 (vnorm (vsub pB pA)) in
  / 5000 <= 1 /\ 1 <= cos (B2R fzero * (PI / 180)) /\ e < sqrt (Spec.vx q ^ 2 + Spec.vy q ^ 2) /\ 22 / 100000000 < sqrt (Spec.vx q ^ 2 + Spec.vy q ^ 2) /\ azimuth_of q (90 * (PI / 180)) /\
  / 100000 <= vnorm (vsub pB pA) /\ elevation_of q (45 * (PI / 180)) /\
  let q' := mulv (ned (B2R fzero) (B2R f90)) (vsub pB pA) in e < sqrt (Spec.vx q' ^ 2 + Spec.vy q' ^ 2) /\ azimuth_of q' (90 * (PI / 180)).
Proof.
  destruct C105_example as (_ & _ & _ & _ & _ & _ & _ & _ & _ & C). destruct C111_example as (_ & _ & _ & _ & _ & _ & _ & D). cbv zeta in C, D |- *. destruct C as (_ & _ & C1 & C2 & C3). destruct D as (_ & _ & _ & D2 & _).
  assert (N90 : 90 * (PI / 180) = PI / 2) by field. assert (N45 : 45 * (PI / 180) = PI / 4) by field. rewrite N90, N45.
  set (pA := V 6378137 0 0) in *. set (pB := V 0 6378137 0) in *.
  assert (NB : 6378137 <= vnorm (vsub pB pA)). { rewrite <- (sqrt_square 6378137) by lra. unfold vnorm. apply sqrt_le_1_alt. unfold pA, pB, vdot, vsub; cbn [Spec.vx Spec.vy Spec.vz]. lra. }
  assert (SE : 22 / 100000000 < seen_err 1 (vnorm (vsub pB pA))) by (unfold seen_err; lra).
  split; [lra|]. split; [apply C1|]. split; [exact C2|]. split; [lra|]. split; [exact C3|]. split; [lra|]. split; [exact D2|].
  assert (V90 : B2R f90 = 90) by (unfold f90, f, B2R, F2R; cbn; lra). assert (V0 : B2R fzero = 0) by reflexivity.
  assert (Q : forall lon, lon = 0 \/ lon = 90 -> exists z, mulv (ned 0 lon) (vsub pB pA) = V 0 6378137 z).
  { intros lon HL. assert (Z : 0 * (PI / 180) = 0) by ring. destruct HL as [-> | ->]; unfold ned; cbv zeta; rewrite ?N90, Z; unfold north_dir, east_dir, down_dir; rewrite ?sin_0, ?cos_0, ?sin_PI2, ?cos_PI2; eexists; unfold pA, pB, mulv, vsub, vdot; cbn [r0 r1 r2 Spec.vx Spec.vy Spec.vz]; apply vec_eq; cbn [Spec.vx Spec.vy Spec.vz]; try ring; reflexivity. }
  rewrite V90, V0 in *. destruct (Q 0 (or_introl eq_refl)) as (z1 & Q1). destruct (Q 90 (or_intror eq_refl)) as (z2 & Q2). rewrite Q1 in C2, C3. rewrite Q2. cbn [Spec.vx Spec.vy Spec.vz] in *. split; [exact C2|]. exact C3.
Qed.
