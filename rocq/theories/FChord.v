(** * C119: GeoPath.track_distance and GeoPath.cross_track_distance with method='euclidean', from degrees, in binary64 (objects.py 880-939, core.py 514-520, 559-562) *)
From Coq Require Import ZArith Reals Lra Lia Bool Psatz.
From Flocq Require Import Core BinarySingleNaN Relative.
From Verif Require Import Spec LVec LAngle LCircle FTiny FZero FBase FRel FRel2 FUnit FPi FAngle FMod FDist FClose FGreat FLatLon FInv FInv2 FTrack FOnCircle FEcef FEcef2 FNed FNed2 FNed3 FDelta FDelta2 FDelta3
  FInterp FPoint FWay FWay2 FWay3 FWay4 FGeodB FGeod FGeod2 FGeod3 FGeod4 FGeod5 FGeod6 FGeod7 FGeod8 FGeod9 FGeod10 FMove FMove2 FMove3 FEuler FEuler2 FBody FBody2 FBody3 PPath3 FInv3 FCourse FGeoPath.
Local Open Scope R_scope.

(** ** the model *)
(** core.py 514-520, 559-562 with method='euclidean': sin_theta * radius *)
Definition feuclidean_cross_track (dot : vec64 -> vec64 -> float64) (a b q : vec64) (radius : float64) : float64 := fmul (fsin_theta dot a b q) radius.
(** objects.py 885-914 with method='euclidean', radius=None *)
Definition fgeo_cross_track_euclid dot fsin fcos (latA lonA zA latB lonB zB latC lonC a f : float64) : float64 :=
  feuclidean_cross_track dot (nvec_deg fsin fcos latA lonA) (nvec_deg fsin fcos latB lonB) (nvec_deg fsin fcos latC lonC) (fgeo_radius fsin fcos latA lonA zA latB lonB zB a f).
(** objects.py 916-939 with method='euclidean', radius=None *)
Definition fgeo_chord fsin fcos (latA lonA zA latB lonB zB a f : float64) : float64 :=
  feuclidean_distance (nvec_deg fsin fcos latA lonA) (nvec_deg fsin fcos latB lonB) (fgeo_radius fsin fcos latA lonA zA latB lonB zB a f).

Lemma near_unit_bounded n : near_unit n -> bounded_vec n.
Proof.
  intros Hn. destruct (near_unit_len n Hn) as (F & L). destruct n as [[x y] z]. destruct F as (F0 & F1 & F2). pose proof u_pos. pose proof u_tiny. destruct (comp_le_vnorm (vec_of (x, y, z))) as (C0 & C1 & C2).
  assert (B : 2 <= bpow radix2 398) by (apply Rle_trans with (bpow radix2 1); [cbn; lra|apply bpow_le; lia]).
  change (Spec.vx (vec_of (x, y, z))) with (B2R x) in C0. change (Spec.vy (vec_of (x, y, z))) with (B2R y) in C1. change (Spec.vz (vec_of (x, y, z))) with (B2R z) in C2. unfold bounded_vec. repeat split; auto; lra.
Qed.

Lemma chord_sum d c c' r R k et : 0 <= c <= 2 -> 0 <= c' <= 201 / 100 -> Rabs r <= 7378138 -> 0 < k <= / 1000000000000000000 -> 0 <= et <= / 1000000000000 -> Rabs (c' - c) <= 446 / 10 * u -> Rabs (r - R) <= 38 / 1000000000 ->
  Rabs (d - c' * r) <= 51 / 10 * u * (c' * Rabs r) + k * Rabs r + et -> Rabs (d - c * R) <= 13 / 100000000.
Proof.
  intros Hc Hc' Br Hk Ht D DR E. assert (Us : 0 < u <= / 9000000000000000) by (split; [apply u_pos|rewrite u_val; lra]). generalize dependent u. intros w D E Us.
  replace (d - c * R) with ((d - c' * r) + ((c' - c) * r + c * (r - R))) by ring.
  eapply Rle_trans; [apply Rabs_triang|]. eapply Rle_trans; [apply Rplus_le_compat_l, Rabs_triang|]. rewrite !Rabs_mult, (Rabs_right c) by lra.
  assert (X1 : Rabs (c' - c) * Rabs r <= 446 / 10 * w * 7378138) by (apply Rmult_le_compat; auto using Rabs_pos).
  assert (X2 : c * Rabs (r - R) <= 2 * (38 / 1000000000)) by (apply Rmult_le_compat; auto using Rabs_pos; lra).
  assert (X3 : w * (c' * Rabs r) <= w * (201 / 100 * 7378138)). { apply Rmult_le_compat_l; [lra|]. apply Rmult_le_compat; auto using Rabs_pos; lra. }
  assert (X4 : k * Rabs r <= / 1000000000000000000 * 7378138) by (apply Rmult_le_compat; auto using Rabs_pos; lra). lra.
Qed.
Lemma bpow398 : 0 < bpow radix2 (-398) <= / 1000000000000000000.
Proof. split; [apply bpow_gt_0|]. apply Rle_trans with (bpow radix2 (-60)); [apply bpow_le; lia|cbn; lra]. Qed.

(** GeoPath(A, B).track_distance(method='euclidean') is the chord of the angle between the positions, 2 R sin(angle / 2), R the mean distance of the two positions from the centre of the Earth, within 0.13 micrometres *)
Theorem C119_chord : forall fsin fcos latA lonA zA latB lonB zB pA pB,
  good_trig fsin sin -> good_trig fcos cos -> valid latA lonA zA -> valid latB lonB zB -> Rabs (B2R zA) <= 1000000 -> Rabs (B2R zB) <= 1000000 ->
  position 6378137 (B2R wgs84_f) (B2R latA) (B2R lonA) (B2R zA) pA -> position 6378137 (B2R wgs84_f) (B2R latB) (B2R lonB) (B2R zB) pB ->
  let d := fgeo_chord fsin fcos latA lonA zA latB lonB zB wgs84_a wgs84_f in
  is_finite d = true /\ Rabs (B2R d - 2 * sin (angle (place (B2R latA) (B2R lonA)) (place (B2R latB) (B2R lonB)) / 2) * ((vnorm pA + vnorm pB) / 2)) <= 13 / 100000000.
Proof.
  intros fsin fcos latA lonA zA latB lonB zB pA pB GS GC VA VB BA BB HA HB d. pose proof u_pos as Pu. assert (Us : u <= / 9000000000000000) by (rewrite u_val; lra).
  destruct (radius_ok fsin fcos latA lonA zA latB lonB zB pA pB GS GC VA VB BA BB HA HB) as (Fr & RR & DR). unfold d, fgeo_chord. clear d. set (r := fgeo_radius _ _ _ _ _ _ _ _ _ _) in *. clearbody r. set (R := (vnorm pA + vnorm pB) / 2) in *. clearbody R.
  assert (WA : valid_at latA lonA) by (destruct VA as (? & ? & ? & ? & _); repeat split; auto). assert (WB : valid_at latB lonB) by (destruct VB as (? & ? & ? & ? & _); repeat split; auto).
  destruct (nvec_near fsin fcos latA lonA GS GC WA) as (U1 & N1 & _ & D1). destruct (nvec_near fsin fcos latB lonB GS GC WB) as (U2 & N2 & _ & D2).
  set (a := nvec_deg fsin fcos latA lonA) in *. set (b := nvec_deg fsin fcos latB lonB) in *. clearbody a b. rewrite <- chord_angle by apply place_unit.
  set (A := place (B2R latA) (B2R lonA)) in *. set (B := place (B2R latB) (B2R lonB)) in *. assert (UA : vnorm A = 1) by apply place_unit. assert (UB : vnorm B = 1) by apply place_unit. clearbody A B.
  destruct (near_unit_near a U1) as (_ & _ & L1). destruct (near_unit_near b U2) as (_ & _ & L2).
  assert (Br : Rabs (B2R r) <= 7378138). { apply Rabs_le_inv in DR. apply Rabs_le. lra. }
  destruct (C82_euclidean_accuracy a b r (near_unit_bounded a U1) (near_unit_bounded b U2) Fr) as (F & E). { eapply Rle_trans; [exact Br|]. apply Rle_trans with (bpow radix2 30); [cbn; lra|apply bpow_le; lia]. }
  split; [exact F|]. set (w' := vsub (vec_of b) (vec_of a)) in *. set (w := vsub B A).
  assert (DW : vnorm (vsub w' w) <= 446 / 10 * u).
  { replace (vsub w' w) with (vadd (vadd (vsub (vec_of b) (direction (vec_of b))) (vsub (direction (vec_of b)) B)) (vneg (vadd (vsub (vec_of a) (direction (vec_of a))) (vsub (direction (vec_of a)) A)))).
    - eapply Rle_trans; [apply norm_triangle|]. rewrite vnorm_neg. pose proof (norm_triangle (vsub (vec_of b) (direction (vec_of b))) (vsub (direction (vec_of b)) B)). pose proof (norm_triangle (vsub (vec_of a) (direction (vec_of a))) (vsub (direction (vec_of a)) A)). lra.
    - unfold w', w. generalize (vec_of a) (vec_of b) (direction (vec_of a)) (direction (vec_of b)) A B. clear. intros. vring. }
  pose proof (norm_perturb w (vsub w' w)) as NP. replace (vadd w (vsub w' w)) with w' in NP by (generalize w w'; clear; intros; vring).
  assert (W2 : vnorm w <= 2). { unfold w. replace (vsub B A) with (vadd B (vneg A)) by (generalize A B; clear; intros; vring). eapply Rle_trans; [apply norm_triangle|]. rewrite vnorm_neg. lra. }
  pose proof (vnorm_pos w) as Pw. pose proof (vnorm_pos w') as Pw'. assert (NP' : Rabs (vnorm w' - vnorm w) <= 446 / 10 * u) by lra. apply Rabs_le_inv in NP. assert (W3 : vnorm w' <= 201 / 100) by lra.
  clearbody w w'. refine (chord_sum _ (vnorm w) (vnorm w') (B2R r) R (bpow radix2 (-398)) eta (conj Pw W2) (conj Pw' W3) Br bpow398 _ NP' DR E).
  pose proof tiny_eta as Te. pose proof eta_pos as Pe. split; [left; exact Pe|]. lra.
Qed.
Print Assumptions C119_chord.

Lemma cross_sine t T S' S s s' : / 1000000000000 <= s -> 99 / 100 * s <= s' -> Rabs (t - T) <= 10 * u + 9 * u / s' -> Rabs (T - S') <= 6 * u -> Rabs (S' - S) <= 163 / 10 * u + 4 * (163 / 10 * u) / s -> Rabs S <= 1 ->
  Rabs (t - S) <= (33 + 75 / s) * u - / 10 * u /\ Rabs t <= 102 / 100.
Proof.
  intros Hs LS E1 E2 E3 BS. assert (Us : 0 < u <= / 9000000000000000) by (split; [apply u_pos|rewrite u_val; lra]). generalize dependent u. intros w E1 E2 E3 Us.
  assert (Ps : 0 < s) by lra. assert (IS : 0 < / s) by (apply Rinv_0_lt_compat; lra).
  assert (IS' : / s' <= 102 / 100 * / s).
  { apply (Rmult_le_reg_l s'); [lra|]. rewrite Rinv_r by lra. replace (s' * (102 / 100 * / s)) with (102 / 100 * (s' * / s)) by ring. assert (99 / 100 <= s' * / s). { apply (Rmult_le_reg_r s); [lra|]. rewrite Rmult_assoc, Rinv_l by lra. lra. } lra. }
  assert (P1 : 0 <= w * / s) by (apply Rmult_le_pos; lra). assert (US' : w * / s' <= w * (102 / 100 * / s)) by (apply Rmult_le_compat_l; lra).
  assert (US : w * / s <= / 8000). { apply Rle_trans with (/ 9000000000000000 * 1000000000000); [|lra]. apply Rmult_le_compat; try lra. replace 1000000000000 with (/ / 1000000000000) by field. apply Rinv_le; lra. }
  unfold Rdiv in E1, E3. assert (E : Rabs (t - S) <= 33 * w + 75 * (w * / s) - / 10 * w).
  { replace (t - S) with ((t - T) + ((T - S') + (S' - S))) by ring. eapply Rle_trans; [apply Rabs_triang|]. eapply Rle_trans; [apply Rplus_le_compat_l, Rabs_triang|]. lra. }
  split; [unfold Rdiv; lra|]. replace t with (S + (t - S)) by ring. eapply Rle_trans; [apply Rabs_triang|]. lra.
Qed.
Lemma cross_sum d t S r R err et : Rabs S <= 1 -> Rabs t <= 102 / 100 -> Rabs (t - S) <= err - / 10 * u -> Rabs r <= 7378138 -> Rabs (r - R) <= 38 / 1000000000 -> 0 <= et <= / 1000000000000 ->
  Rabs (d - t * r) <= u * Rabs t * Rabs r + et -> Rabs (d - S * R) <= err * 7378138 + 4 / 100000000.
Proof.
  intros BS BT TE Br DR Ht Em. assert (Us : 0 < u <= / 9000000000000000) by (split; [apply u_pos|rewrite u_val; lra]). generalize dependent u. intros w TE Em Us.
  replace (d - S * R) with ((d - t * r) + ((t - S) * r + S * (r - R))) by ring.
  eapply Rle_trans; [apply Rabs_triang|]. eapply Rle_trans; [apply Rplus_le_compat_l, Rabs_triang|]. rewrite !Rabs_mult.
  assert (X1 : Rabs (t - S) * Rabs r <= (err - / 10 * w) * 7378138) by (apply Rmult_le_compat; auto using Rabs_pos).
  assert (X2 : Rabs S * Rabs (r - R) <= 1 * (38 / 1000000000)) by (apply Rmult_le_compat; auto using Rabs_pos).
  assert (X3 : w * Rabs t * Rabs r <= w * (102 / 100) * 7378138). { apply Rmult_le_compat; auto using Rabs_pos; [apply Rmult_le_pos; [lra|apply Rabs_pos]|apply Rmult_le_compat_l; lra]. } lra.
Qed.
Lemma eta_wee : 0 <= eta <= / 1000000000000.
Proof. pose proof eta_um as E. pose proof eta_pos. pose proof u_tiny. pose proof u_pos. lra. Qed.
Lemma radius_b r R : 0 <= R <= 7378137 -> Rabs (r - R) <= 38 / 1000000000 -> Rabs r <= 7378138 /\ Rabs r <= bpow radix2 1000.
Proof. intros H D. assert (B : Rabs r <= 7378138) by (apply Rabs_le_inv in D; apply Rabs_le; lra). split; auto. apply Rle_trans with (bpow radix2 30); [cbn; lra|apply bpow_le; lia]. Qed.
Lemma dot_shift X q q1 k : vnorm X = 1 -> vnorm (vsub q q1) <= k -> Rabs (- vdot X q - - vdot X q1) <= k.
Proof.
  intros UX D. replace (- vdot X q - - vdot X q1) with (- vdot X (vsub q q1)) by (destruct X, q, q1; unfold vdot, vsub; cbn [Spec.vx Spec.vy Spec.vz]; ring).
  rewrite Rabs_Ropp. eapply Rle_trans; [apply cauchy_schwarz|]. rewrite UX. lra.
Qed.

(** GeoPath(A, B).cross_track_distance(C, method='euclidean') is the distance of C from the plane of the great circle, signed, on the sphere of radius R; with no condition on C: unlike the great circle distance it loses nothing close to the poles of the circle *)
Theorem C119_cross_track : forall dot fsin fcos latA lonA zA latB lonB zB latC lonC pA pB,
  good_dot dot -> good_trig fsin sin -> good_trig fcos cos -> valid latA lonA zA -> valid latB lonB zB -> valid_at latC lonC -> Rabs (B2R zA) <= 1000000 -> Rabs (B2R zB) <= 1000000 ->
  position 6378137 (B2R wgs84_f) (B2R latA) (B2R lonA) (B2R zA) pA -> position 6378137 (B2R wgs84_f) (B2R latB) (B2R lonB) (B2R zB) pB ->
  let A := place (B2R latA) (B2R lonA) in let B := place (B2R latB) (B2R lonB) in let C := place (B2R latC) (B2R lonC) in
  let s := vnorm (vcross A B) in let err := (33 + 75 / s) * u in / 1000000000000 <= s ->
  let d := fgeo_cross_track_euclid dot fsin fcos latA lonA zA latB lonB zB latC lonC wgs84_a wgs84_f in
  is_finite d = true /\ Rabs (B2R d - - vdot (direction (vcross A B)) C * ((vnorm pA + vnorm pB) / 2)) <= err * 7378138 + 4 / 100000000.
Proof.
  intros dot fsin fcos latA lonA zA latB lonB zB latC lonC pA pB GD GS GC VA VB VC BA BB HA HB A B C s err Hs d. pose proof u_pos as Pu. assert (Us : u <= / 9000000000000000) by (rewrite u_val; lra).
  destruct (radius_ok fsin fcos latA lonA zA latB lonB zB pA pB GS GC VA VB BA BB HA HB) as (Fr & RR & DR). unfold d, fgeo_cross_track_euclid, feuclidean_cross_track. clear d. set (r := fgeo_radius _ _ _ _ _ _ _ _ _ _) in *. clearbody r. set (R := (vnorm pA + vnorm pB) / 2) in *. clearbody R.
  assert (WA : valid_at latA lonA) by (destruct VA as (? & ? & ? & ? & _); repeat split; auto). assert (WB : valid_at latB lonB) by (destruct VB as (? & ? & ? & ? & _); repeat split; auto).
  destruct (nvec_near fsin fcos latA lonA GS GC WA) as (Ua & Na & _ & Da). destruct (nvec_near fsin fcos latB lonB GS GC WB) as (Ub & Nb & _ & Db). destruct (nvec_near fsin fcos latC lonC GS GC VC) as (Uq & Nq & _ & Dq).
  set (a' := nvec_deg fsin fcos latA lonA) in *. set (b' := nvec_deg fsin fcos latB lonB) in *. set (q' := nvec_deg fsin fcos latC lonC) in *. clearbody a' b' q'.
  assert (Va : vnorm A = 1) by apply place_unit. assert (Vb : vnorm B = 1) by apply place_unit. assert (Vq : vnorm C = 1) by apply place_unit.
  set (e := 163 / 10 * u) in *. assert (He : 0 <= e <= / 1000) by (unfold e; lra). assert (H2 : 2 * e + 20 * u <= / 100 * s) by (unfold e; lra).
  destruct (path_moves a' b' A B e Na Nb Ua Ub Va Vb He Da Db H2) as (LS & _). pose proof (sine_moves a' b' q' A B C e Na Nb Nq Ua Ub Va Vb Vq He Da Db Dq H2) as SM. fold s in LS, SM.
  assert (TS : track_sine A B C = - vdot (direction (vcross A B)) C). { unfold track_sine. replace (direction C) with C; [reflexivity|]. unfold direction at 1. rewrite Vq, Rinv_1, vscale_1. reflexivity. }
  rewrite <- TS. assert (BS : Rabs (track_sine A B C) <= 1). { apply track_sine_bound; [intros X; unfold s in Hs; rewrite X, vnorm_v0 in Hs; lra|intros X; rewrite X, vnorm_v0 in Vq; lra]. }
  destruct (near_unit_near q' Uq) as (_ & _ & Lq). set (X' := vcross (vec_of a') (vec_of b')) in *. set (s' := vnorm X') in *. assert (Hs' : 10 * u <= s') by lra.
  destruct (C85_sine_accuracy dot a' b' q' GD Ua Ub Uq Hs') as (FS & ES). fold X' in ES. fold s' in ES.
  assert (UX : vnorm (direction X') = 1) by (apply direction_unit; intros X; unfold s' in LS; rewrite X, vnorm_v0 in LS; lra).
  pose proof (dot_shift (direction X') (vec_of q') (direction (vec_of q')) (6 * u) UX Lq) as TQ.
  change (- vdot (direction X') (direction (vec_of q'))) with (track_sine (vec_of a') (vec_of b') (vec_of q')) in TQ. unfold e in SM.
  destruct (cross_sine _ _ _ _ s s' Hs LS ES TQ SM BS) as (TE & BT). destruct (radius_b _ _ RR DR) as (Br & Br').
  destruct (mul_radius (fsin_theta dot a' b' q') r FS Fr ltac:(lra) Br') as (Fm & Em). split; [exact Fm|].
  exact (cross_sum _ _ _ _ R _ eta BS BT TE Br DR eta_wee Em).
Qed.
Print Assumptions C119_cross_track.

(** The hypotheses are met by the quarter of the equator from 0 E to 90 E and the north pole, which is the pole of that circle, where C106 says nothing: the distance is the mean radius to the left of the path *)
Example C119_example : good_dot dot_seq /\ good_trig (fun x => round64 (sin (B2R x))) sin /\ good_trig (fun x => round64 (cos (B2R x))) cos /\ valid fzero fzero fzero /\ valid fzero f90 fzero /\ valid_at f90 fzero /\ Rabs (B2R fzero) <= 1000000 /\
  position 6378137 (B2R wgs84_f) (B2R fzero) (B2R fzero) (B2R fzero) (V 6378137 0 0) /\ position 6378137 (B2R wgs84_f) (B2R fzero) (B2R f90) (B2R fzero) (V 0 6378137 0) /\
  Rabs (B2R (fgeo_cross_track_euclid dot_seq (fun x => round64 (sin (B2R x))) (fun x => round64 (cos (B2R x))) fzero fzero fzero fzero f90 fzero f90 fzero wgs84_a wgs84_f) - - (6378137)) <= 2 / 10000000 /\
  Rabs (B2R (fgeo_chord (fun x => round64 (sin (B2R x))) (fun x => round64 (cos (B2R x))) fzero fzero fzero fzero f90 fzero wgs84_a wgs84_f) - sqrt 2 * 6378137) <= 13 / 100000000.
Proof.
  destruct C106_example as (E1 & E2 & E3 & _ & _ & E4 & E5 & _ & _ & E8 & _ & _ & E9). cbv zeta in E9. destruct E9 as (P1 & P2 & SX & _).
  assert (V0 : B2R fzero = 0) by reflexivity. assert (V90 : B2R f90 = 90) by (unfold f90, f, B2R, F2R; cbn; lra).
  assert (W : valid_at f90 fzero) by (unfold valid_at; rewrite V90, V0, Rabs_R0, Rabs_right by lra; repeat split; auto; lra).
  do 9 (split; [assumption|]).
  assert (NA : vnorm (V 6378137 0 0) = 6378137). { unfold vnorm, vdot; cbn [Spec.vx Spec.vy Spec.vz]. replace (6378137 * 6378137 + 0 * 0 + 0 * 0) with (6378137 * 6378137) by ring. apply sqrt_square. lra. }
  assert (NB : vnorm (V 0 6378137 0) = 6378137). { unfold vnorm, vdot; cbn [Spec.vx Spec.vy Spec.vz]. replace (0 * 0 + 6378137 * 6378137 + 0 * 0) with (6378137 * 6378137) by ring. apply sqrt_square. lra. }
  pose proof (C119_cross_track dot_seq _ _ fzero fzero fzero fzero f90 fzero f90 fzero _ _ E1 E2 E3 E4 E5 W E8 E8 P1 P2) as T1. pose proof (C119_chord _ _ fzero fzero fzero fzero f90 fzero _ _ E2 E3 E4 E5 E8 E8 P1 P2) as T2. cbv zeta in T1, T2.
  destruct T2 as (_ & T2). rewrite NA, NB in T1, T2. rewrite SX in T1. specialize (T1 ltac:(lra)). destruct T1 as (_ & T1).
  assert (PA : place (B2R fzero) (B2R fzero) = V 1 0 0). { rewrite V0. unfold place, latlon_vec. replace (0 * (PI / 180)) with 0 by ring. rewrite sin_0, cos_0. apply vec_eq; cbn [Spec.vx Spec.vy Spec.vz]; ring. }
  assert (PB : place (B2R fzero) (B2R f90) = V 0 1 0). { rewrite V0, V90. unfold place, latlon_vec. replace (0 * (PI / 180)) with 0 by ring. replace (90 * (PI / 180)) with (PI / 2) by field. rewrite sin_0, cos_0, sin_PI2, cos_PI2. apply vec_eq; cbn [Spec.vx Spec.vy Spec.vz]; ring. }
  assert (PC : place (B2R f90) (B2R fzero) = V 0 0 1). { rewrite V0, V90. unfold place, latlon_vec. replace (0 * (PI / 180)) with 0 by ring. replace (90 * (PI / 180)) with (PI / 2) by field. rewrite sin_0, cos_0, sin_PI2, cos_PI2. apply vec_eq; cbn [Spec.vx Spec.vy Spec.vz]; ring. }
  rewrite PA, PB, ?PC in *. assert (X : vcross (V 1 0 0) (V 0 1 0) = V 0 0 1) by (unfold vcross; cbn [Spec.vx Spec.vy Spec.vz]; apply vec_eq; cbn [Spec.vx Spec.vy Spec.vz]; ring).
  split.
  - rewrite X in *. unfold direction in T1. rewrite SX, Rinv_1, vscale_1 in T1. replace (vdot (V 0 0 1) (V 0 0 1)) with 1 in T1 by (unfold vdot; cbn [Spec.vx Spec.vy Spec.vz]; ring). assert (Us : u <= / 9000000000000000) by (rewrite u_val; lra).
    replace (- (6378137)) with (- (1) * ((6378137 + 6378137) / 2)) by field. eapply Rle_trans; [exact T1|]. unfold Rdiv. rewrite Rinv_1. lra.
  - rewrite <- chord_angle in T2 by (unfold vnorm, vdot; cbn [Spec.vx Spec.vy Spec.vz]; match goal with |- sqrt ?a = 1 => replace a with 1 by ring end; apply sqrt_1).
    assert (CH : vnorm (vsub (V 0 1 0) (V 1 0 0)) = sqrt 2). { unfold vnorm, vsub, vdot; cbn [Spec.vx Spec.vy Spec.vz]. f_equal. ring. }
    rewrite CH in T2. replace (sqrt 2 * 6378137) with (sqrt 2 * ((6378137 + 6378137) / 2)) by field. exact T2.
Qed.
