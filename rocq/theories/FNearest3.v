(** * C116: GeoPath.closest_point_on_path, from degrees to degrees, in binary64 (objects.py 206-209, 237-244, 553-573, 1103-1154, core.py 45-73, rotation.py 386-424) *)
From Coq Require Import ZArith Reals Lra Lia Bool Psatz.
From Flocq Require Import Core BinarySingleNaN Relative.
From Verif Require Import Spec LVec LAngle LCircle PArc PClosest FTiny FZero FBase FRel FRel2 FUnit FPi FAngle FMod FDist FClose FGreat FLatLon FInv FInv2 FTrack FOnCircle FEcef FEcef2 FNed FNed2 FNed3 FDelta FDelta2 FDelta3
  FMove FWay FWay2 FWay3 FWay4 FInterp FPoint FPoint2 FGeodB FGeod FGeod2 FGeod3 FGeod4 FGeod5 FGeod6 FGeod7 FGeod8 FGeod9 FGeod10 FBody3 PPath3 FInv3 FCourse FGeoPath FGeoPath2 FGeoPath3 FEqual FOnPath PTrack FMean FNearest FNearest2.
Local Open Scope R_scope.

(** ** the model *)
(** reading latitude_deg, longitude_deg and z of what closest_point_on_path returns: the n-vector of the foot goes through n_E2lat_lon and deg (objects.py 553-573, 237-244),
    an end of the path is returned as it was made, its latitude and longitude in radians (objects.py 206-209, 263-273, 1152-1154) *)
Definition nearest_deg (arctan2 : float64 -> float64 -> float64) (latA lonA zA latB lonB zB : float64) (r : nearest) : float64 * float64 * float64 :=
  match r with
  | Foot n z => let ll := fn_E2lat_lon arctan2 n in (fdeg (fst ll), fdeg (snd ll), z)
  | EndA => (fdeg (frad latA), fdeg (frad lonA), zA)
  | EndB => (fdeg (frad latB), fdeg (frad lonB), zB)
  end.
(** GeoPath.closest_point_on_path, objects.py 1103-1154, followed by to_geo_point and deg *)
Definition fgeo_closest_on_path dot fsin fcos arcsin arctan2 (latA lonA zA latB lonB zB latC lonC a f : float64) : float64 * float64 * float64 :=
  nearest_deg arctan2 latA lonA zA latB lonB zB
    (fclosest_on_path dot arcsin arctan2 (nvec_deg fsin fcos latA lonA) (nvec_deg fsin fcos latB lonB) (nvec_deg fsin fcos latC lonC) zA zB (fgeo_radius fsin fcos latA lonA zA latB lonB zB a f)).

(** ** moving the ends of an arc *)
Lemma cos_two : - / 2 <= cos 2.
Proof.
  pose proof PI_314 as PB. assert (L : / 2 <= cos 1). { replace (/ 2) with (cos (PI / 3)) by (rewrite cos_PI3; lra). apply cos_decr_1; lra. }
  replace 2 with (2 * 1) at 2 by ring. rewrite cos_2a_cos. nra.
Qed.
Lemma arc_moves A B A' B' e p : vnorm A = 1 -> vnorm B = 1 -> vnorm A' = 1 -> vnorm B' = 1 -> 0 <= e <= / 1000 -> vnorm (vsub A' A) <= e -> vnorm (vsub B' B) <= e -> angle A' B' <= 2 ->
  on_arc A' B' p -> exists q, on_arc A B q /\ angle p q <= 4012 / 1000 * e.
Proof.
  intros UA UB UA' UB' He DA DB L (Up & s & t & Hs & Ht & Ep).
  assert (C : - / 2 <= vdot A' B').
  { pose proof (angle_range A' B') as R. rewrite angle_unit in * by auto. pose proof (vdot_unit_bound A' B' UA' UB') as VB. rewrite <- (cos_acos (vdot A' B')) by lra. pose proof cos_two. pose proof PI_314. eapply Rle_trans; [exact H|]. apply cos_decr_1; lra. }
  assert (S2 : s + t <= 2).
  { assert (N : s * s + t * t + 2 * (s * t) * vdot A' B' = 1).
    { pose proof Up as U1. apply vnorm_unit in U1. pose proof UA' as U2. apply vnorm_unit in U2. pose proof UB' as U3. apply vnorm_unit in U3. rewrite <- U1, Ep.
      replace (vdot (vadd (vscale s A') (vscale t B')) (vadd (vscale s A') (vscale t B'))) with (s * s * vdot A' A' + t * t * vdot B' B' + 2 * (s * t) * vdot A' B') by (clear; unfold vdot, vadd, vscale; cbn [Spec.vx Spec.vy Spec.vz]; ring).
      rewrite U2, U3. ring. }
    assert (0 <= s * t) by (apply Rmult_le_pos; auto). assert (s * t * - / 2 <= s * t * vdot A' B') by (apply Rmult_le_compat_l; auto).
    assert (W : s * s + t * t - s * t <= 1) by lra. assert (Q : (s + t) * (s + t) <= 2 * 2) by (pose proof (Rle_0_sqr (s - t)) as SQ; unfold Rsqr in SQ; lra). apply Rnot_lt_le. intros Y. assert (2 * 2 < (s + t) * (s + t)) by (apply Rmult_gt_0_lt_compat; lra). lra. }
  set (x := vadd (vscale s A) (vscale t B)).
  assert (D : vnorm (vsub x p) <= 2 * e).
  { rewrite Ep. unfold x. replace (vsub (vadd (vscale s A) (vscale t B)) (vadd (vscale s A') (vscale t B'))) with (vadd (vscale (- s) (vsub A' A)) (vscale (- t) (vsub B' B))) by (clear; vring).
    eapply Rle_trans; [apply norm_triangle|]. rewrite !vnorm_scale, !Rabs_Ropp, !Rabs_right by lra. assert (s * vnorm (vsub A' A) <= s * e) by (apply Rmult_le_compat_l; auto). assert (t * vnorm (vsub B' B) <= t * e) by (apply Rmult_le_compat_l; auto).
    assert ((s + t) * e <= 2 * e) by (apply Rmult_le_compat_r; lra). lra. }
  assert (P0 : p <> v0) by (apply vnorm_inv; auto).
  assert (X0 : x <> v0). { intros E. rewrite E in D. replace (vsub v0 p) with (vneg p) in D by (unfold v0; clear; vring). rewrite vnorm_neg, Up in D. lra. }
  exists (direction x). split.
  - split; [apply direction_unit; auto|]. exists (/ vnorm x * s), (/ vnorm x * t). assert (0 < / vnorm x) by (apply Rinv_0_lt_compat, vnorm_nz; auto).
    split; [apply Rmult_le_pos; lra|]. split; [apply Rmult_le_pos; lra|]. unfold direction. set (k := / vnorm x). unfold x. clear. vring.
  - rewrite angle_dir_r by auto. eapply Rle_trans; [apply (angle_perturb p x (2 * e)); auto; rewrite ?Up; lra|]. lra.
Qed.

(** ** degrees to radians and back moves a position by a few units of roundoff *)
Lemma deg_there x b : is_finite x = true -> Rabs (B2R x) <= b -> b <= 180 -> is_finite (fdeg (frad x)) = true /\ Rabs (B2R (fdeg (frad x)) * (PI / 180) - B2R x * (PI / 180)) <= 137 / 10 * u.
Proof.
  intros Fx Bx Hb. pose proof u_pos as Pu. pose proof u_small as Su. pose proof eta_pos as Pe. pose proof tiny_consts as TC. pose proof (bpow_gt_0 radix2 (-399)) as P3. pose proof PI_RGT_0 as PP. pose proof pi_bounds as PB. rewrite pi64_val in PB.
  destruct (rad_moves x 180 Fx ltac:(lra) ltac:(lra)) as (F & B & M).
  assert (K : 22 / 10 * u * (180 * (PI / 180)) + eta <= 695 / 100 * u) by nra.
  assert (BX : Rabs (B2R (frad x)) <= 315 / 100).
  { pose proof (Rabs_triang (B2R (frad x) - B2R x * (PI / 180)) (B2R x * (PI / 180))) as T. replace (B2R (frad x) - B2R x * (PI / 180) + B2R x * (PI / 180)) with (B2R (frad x)) in T by ring. rewrite (Rabs_mult (B2R x)), (Rabs_right (PI / 180)) in T by lra.
    assert (Rabs (B2R x) * (PI / 180) <= 180 * (PI / 180)) by (apply Rmult_le_compat_r; lra). lra. }
  destruct (deg_back (frad x) (B2R x * (PI / 180)) (695 / 100) F ltac:(lra) B ltac:(lra)) as (G & D). split; auto.
  replace (B2R (fdeg (frad x)) * (PI / 180) - B2R x * (PI / 180)) with ((B2R (fdeg (frad x)) - B2R x * (PI / 180) * (180 / PI)) * (PI / 180)) by (field; lra). rewrite Rabs_mult, (Rabs_right (PI / 180)) by lra.
  eapply Rle_trans; [apply Rmult_le_compat_r; [lra|exact D]|]. replace (((21 / 10 * Rabs (B2R (frad x)) + 695 / 100) * u * (180 / PI) + eta) * (PI / 180)) with ((21 / 10 * Rabs (B2R (frad x)) + 695 / 100) * u + eta * (PI / 180)) by (field; lra).
  assert (eta * (PI / 180) <= eta * 1) by (apply Rmult_le_compat_l; lra). assert (u * Rabs (B2R (frad x)) <= u * (315 / 100)) by (apply Rmult_le_compat_l; lra). nra.
Qed.
Lemma place_there lat lon : valid_at lat lon -> is_finite (fdeg (frad lat)) = true /\ is_finite (fdeg (frad lon)) = true /\ angle (place (B2R lat) (B2R lon)) (place (B2R (fdeg (frad lat))) (B2R (fdeg (frad lon)))) <= 274 / 10 * u.
Proof.
  intros (Fa & Fo & Ba & Bo). destruct (deg_there lat 90 Fa Ba ltac:(lra)) as (F1 & D1). destruct (deg_there lon 180 Fo Bo ltac:(lra)) as (F2 & D2). split; auto. split; auto. pose proof u_pos. pose proof u_small. pose proof PI_314.
  eapply Rle_trans; [apply latlon_moves; lra|]. lra.
Qed.

(** ** how far a position is from the centre of the Earth *)
Lemma position_low a f lat lon z p : 0 < a -> 0 <= f < 1 -> position a f lat lon z p -> a * (1 - f) - Rabs z <= vnorm p.
Proof.
  intros Ha Hf (s & (O & _) & ->). assert (NS : a * (1 - f) <= vnorm s).
  { assert (Pb : 0 < a * (1 - f)) by (apply Rmult_lt_0_compat; lra). unfold vnorm. rewrite <- (sqrt_square (a * (1 - f))) by lra. apply sqrt_le_1_alt. unfold on_ellipsoid, equatorial, Spec.polar, vdot, vsub, vscale in O; cbn [Spec.vx Spec.vy Spec.vz] in O. unfold vdot.
    destruct s as [x y w]; cbn [Spec.vx Spec.vy Spec.vz] in *.
    assert (E : w * w + (x * x + y * y) * ((1 - f) * (1 - f)) = a * (1 - f) * (a * (1 - f))). { transitivity ((a * (1 - f)) ^ 2 * ((0 * x + 0 * y + 1 * w) ^ 2 / (a * (1 - f)) ^ 2 + ((x - (0 * x + 0 * y + 1 * w) * 0) * (x - (0 * x + 0 * y + 1 * w) * 0) + (y - (0 * x + 0 * y + 1 * w) * 0) * (y - (0 * x + 0 * y + 1 * w) * 0) + (w - (0 * x + 0 * y + 1 * w) * 1) * (w - (0 * x + 0 * y + 1 * w) * 1)) / a ^ 2)); [field; lra|]. rewrite O. ring. }
    assert (I : (x * x + y * y) * ((1 - f) * (1 - f)) <= (x * x + y * y) * 1) by (apply Rmult_le_compat_l; nra). lra. }
  pose proof (norm_triangle (vsub s (vscale z (latlon_vec (lat * (PI / 180)) (lon * (PI / 180))))) (vscale z (latlon_vec (lat * (PI / 180)) (lon * (PI / 180))))) as T. rewrite vnorm_scale, latlon_unit in T.
  set (n := latlon_vec _ _) in *. clearbody n. replace (vadd (vsub s (vscale z n)) (vscale z n)) with s in T by (clear; destruct s; vring). lra.
Qed.

(** ** the theorem for n-vectors near given positions *)
Lemma nearest_moves dot arcsin arctan2 a b q A B C zA zB radius : good_dot dot -> good_arcsin arcsin -> good_arctan2 arctan2 -> near_unit a -> near_unit b -> near_unit q -> vnorm A = 1 -> vnorm B = 1 -> vnorm C = 1 ->
  let e := 163 / 10 * u in vec_of a <> v0 -> vec_of b <> v0 -> vec_of q <> v0 ->
  vnorm (vsub (direction (vec_of a)) A) <= e -> vnorm (vsub (direction (vec_of b)) B) <= e -> vnorm (vsub (direction (vec_of q)) C) <= e ->
  is_finite zA = true -> is_finite zB = true -> Rabs (B2R zA) <= 1000000 -> Rabs (B2R zB) <= 1000000 -> is_finite radius = true -> 1 <= B2R radius <= 9000000 ->
  let s := vnorm (vcross A B) in let c := direction (vcross A B) in let r := vnorm (vcross C c) in
  0 < s -> / 50000 <= r -> (10 + 70 / s) * (1 + / r) * u <= / 10000000 -> angle A B <= 19 / 10 ->
  let E := (53 / 10 + (95 / 10 + 85 / 10 / s) * (1 + / r)) * u in
  let result := fclosest_on_path dot arcsin arctan2 a b q zA zB radius in let v := nearest_at (vec_of a) (vec_of b) result in
  v <> v0 /\
  (exists p, on_arc A B p /\ angle p v <= 4 * E + 466 * u) /\
  (forall p, on_arc A B p -> angle C v <= angle C p + 4 * E + 499 * u) /\
  (forall n z, result = Foot n z -> near_unit n /\ is_finite z = true /\ Rabs (B2R z - (B2R zA + B2R zB) / 2) <= 3 / 10000000000).
Proof.
  intros GD GA GT U1 U2 U3 V1 V2 V3 e N1 N2 N3 D1 D2 D3 FA FB BA BB Fr Br s c r Ps Hr Hk Hl E result v. pose proof u_pos as Pu. pose proof u_tiny as Su. assert (Us : u <= / 9000000000000000) by (rewrite u_val; lra).
  assert (S0 : vcross A B <> v0) by (intros X; unfold s in Ps; rewrite X, vnorm_v0 in Ps; lra). assert (Uc : vnorm c = 1) by (apply direction_unit; auto).
  assert (Is : 0 < / s) by (apply Rinv_0_lt_compat; auto). assert (Ir : 0 < / r) by (apply Rinv_0_lt_compat; lra). assert (Pus : 0 < u * / s) by (apply Rmult_lt_0_compat; lra).
  assert (KR : (10 + 70 / s) * u <= / 10000000 * r).
  { apply Rle_trans with ((10 + 70 / s) * (1 + / r) * u * r); [|apply Rmult_le_compat_r; lra]. replace ((10 + 70 / s) * (1 + / r) * u * r) with ((10 + 70 / s) * u * (r + 1)) by (field; lra).
    rewrite <- (Rmult_1_r ((10 + 70 / s) * u)) at 1. apply Rmult_le_compat_l; [unfold Rdiv; apply Rmult_le_pos; lra|lra]. }
  assert (R1 : r <= 1). { unfold r. eapply Rle_trans; [apply vcross_le|]. rewrite V3, Uc. lra. }
  assert (Sa : 200000000 * u <= s). { apply Rmult_le_reg_l with (/ s); auto. rewrite Rinv_l by lra. unfold Rdiv in KR. lra. }
  assert (He : 0 <= e <= / 1000) by (unfold e; lra).
  destruct (path_moves a b A B e N1 N2 U1 U2 V1 V2 He D1 D2) as (LS & MC). { fold s. unfold e. lra. } fold s c in LS, MC.
  set (X' := vcross (vec_of a) (vec_of b)) in *. assert (X0 : X' <> v0) by (intros X; rewrite X, vnorm_v0 in LS; lra). set (c' := direction X') in *. assert (Uc' : vnorm c' = 1) by (apply direction_unit; auto).
  set (Q := direction (vec_of q)) in *. assert (UQ : vnorm Q = 1) by (apply direction_unit; auto). set (a1 := direction (vec_of a)) in *. set (b1 := direction (vec_of b)) in *. assert (Ua1 : vnorm a1 = 1) by (apply direction_unit; auto). assert (Ub1 : vnorm b1 = 1) by (apply direction_unit; auto).
  set (m1 := 4 * e / s) in *. assert (Em : m1 = 652 / 10 * (u * / s)) by (unfold m1, e, Rdiv; ring).
  assert (DX : vnorm (vsub (vcross Q c') (vcross C c)) <= e + m1) by (eapply Rle_trans; [apply cross_unit_le; auto|lra]).
  assert (SM : e + 2 * m1 <= / 4000000 * r) by (unfold Rdiv in KR; unfold e; lra).
  set (r' := vnorm (vcross Q c')). pose proof (norm_perturb (vcross C c) (vsub (vcross Q c') (vcross C c))) as NP. rewrite <- vadd_sub_id in NP. fold r r' in NP. apply Rabs_le_inv in NP.
  assert (Pm : 0 < m1) by lra. assert (Lr : 99 / 100 * r <= r') by lra. set (s' := vnorm X') in *.
  assert (INV : forall x y, 0 < x -> 99 / 100 * x <= y -> / y <= 102 / 100 * / x).
  { intros x y Hx Hy. apply (Rmult_le_reg_l y); [lra|]. rewrite Rinv_r by lra. replace (y * (102 / 100 * / x)) with (102 / 100 * (y * / x)) by ring. assert (0 < / x) by (apply Rinv_0_lt_compat; lra).
    assert (99 / 100 <= y * / x). { apply (Rmult_le_reg_r x); [lra|]. rewrite Rmult_assoc, Rinv_l by lra. lra. } lra. }
  pose proof (INV _ _ Ps LS) as IS'. pose proof (INV r r' ltac:(lra) Lr) as IR'. assert (QS : 0 < / s') by (apply Rinv_0_lt_compat; lra). assert (QR : 0 < / r') by (apply Rinv_0_lt_compat; lra).
  assert (NZ : forall w, vnorm w = 1 -> w <> v0) by (intros w; apply vnorm_inv).
  assert (AC : forall x y, vnorm x = 1 -> vnorm y = 1 -> vnorm (vsub x y) <= e -> angle y x <= 164 / 10 * u). { intros x y Hx Hy D. eapply Rle_trans; [apply (angle_chord y x e); auto; lra|]. unfold e. lra. }
  pose proof (AC _ _ Ua1 V1 D1) as AA. pose proof (AC _ _ Ub1 V2 D2) as AB. pose proof (AC _ _ UQ V3 D3) as AQ.
  assert (L1 : angle a1 b1 <= 2).
  { pose proof (angle_triangle a1 A b1 (NZ _ Ua1) (NZ _ V1) (NZ _ Ub1)) as T1. pose proof (angle_triangle A B b1 (NZ _ V1) (NZ _ V2) (NZ _ Ub1)) as T2. rewrite (angle_sym a1 A) in T1. lra. }
  assert (L2 : angle (vec_of a) (vec_of b) <= 2) by (unfold a1, b1 in L1; rewrite angle_direction in L1; auto).
  destruct (C114_closest_on_path dot arcsin arctan2 a b q zA zB radius GD GA GT U1 U2 U3 FA FB BA BB Fr Br) as ((p1 & O1 & T1) & MIN & FT).
  { fold X'. fold s'. lra. } { fold X'. fold c' Q. fold r'. lra. }
  { fold X'. fold c' Q s'. fold r'. apply Rle_trans with (102 / 100 * (10 + 70 / s) * (102 / 100 * (1 + / r)) * u); [|unfold Rdiv in *; lra].
    apply Rmult_le_compat_r; [lra|]. unfold Rdiv. apply Rmult_le_compat; lra. }
  { exact L2. }
  fold X' in T1, MIN. fold c' Q s' in T1, MIN. fold r' in T1, MIN. fold result in T1, MIN, FT. fold v in T1, MIN.
  set (E1 := (52 / 10 + (91 / 10 + 81 / 10 / s') * (1 + / r')) * u) in *.
  assert (HE : E1 <= E).
  { unfold E1, E. apply Rmult_le_compat_r; [lra|]. apply Rplus_le_compat; [lra|].
    apply Rle_trans with ((91 / 10 + 81 / 10 * (102 / 100 * / s)) * (102 / 100 * (1 + / r))); [unfold Rdiv; apply Rmult_le_compat; lra|].
    replace ((91 / 10 + 81 / 10 * (102 / 100 * / s)) * (102 / 100 * (1 + / r))) with ((102 / 100 * (91 / 10) + 81 / 10 * (102 / 100 * 102 / 100) * / s) * (1 + / r)) by (field; split; lra). unfold Rdiv. apply Rmult_le_compat_r; lra. }
  assert (Vv : v <> v0).
  { unfold v. destruct result as [n z| |] eqn:ER; cbn [nearest_at]; auto. destruct (FT n z eq_refl) as (Hn & _). apply (near_unit_near n Hn). }
  assert (AQv : forall w, angle (vec_of q) w = angle Q w). { intros w. unfold Q, direction. rewrite angle_scale_l by (apply Rinv_0_lt_compat, vnorm_nz; auto). reflexivity. }
  split; [exact Vv|]. split; [|split; [|exact FT]].
  - pose proof O1 as O2. apply cone_dir in O2; auto. fold a1 b1 in O2. destruct (arc_moves A B a1 b1 e p1 V1 V2 Ua1 Ub1 He D1 D2 L1 O2) as (p & OP & AP). exists p. split; auto.
    pose proof (angle_triangle p p1 v (NZ _ (proj1 OP)) (NZ _ (proj1 O1)) Vv) as T. rewrite (angle_sym p p1) in T. unfold e in AP. lra.
  - intros p OP. assert (D1' : vnorm (vsub A a1) <= e) by (rewrite sub_swap; exact D1). assert (D2' : vnorm (vsub B b1) <= e) by (rewrite sub_swap; exact D2).
    destruct (arc_moves a1 b1 A B e p Ua1 Ub1 V1 V2 He D1' D2' ltac:(lra) OP) as (p2 & O2 & AP). assert (O3 : on_arc (vec_of a) (vec_of b) p2) by (apply cone_dir; auto).
    pose proof (MIN p2 O3) as M. rewrite !AQv in M. pose proof (angle_triangle C Q v (NZ _ V3) (NZ _ UQ) Vv) as T2. pose proof (angle_triangle Q p p2 (NZ _ UQ) (NZ _ (proj1 OP)) (NZ _ (proj1 O2))) as T3.
    pose proof (angle_triangle Q C p (NZ _ UQ) (NZ _ V3) (NZ _ (proj1 OP))) as T4. rewrite (angle_sym Q C) in T4. unfold e in AP. lra.
Qed.

(** ** from degrees to degrees *)
(** GeoPath(A, B).closest_point_on_path(C) for positions given in degrees: the position that comes out in degrees is (nearly) on the arc from A to B, no position of the arc is (much) closer to C,
    and its depth is the depth of A where the position is A, the depth of B where it is B, and the mean of the two depths otherwise *)
Theorem C116_closest_on_path : forall dot fsin fcos arcsin arctan2 latA lonA zA latB lonB zB latC lonC, good_dot dot -> good_trig fsin sin -> good_trig fcos cos -> good_arcsin arcsin -> good_atan2 arctan2 ->
  valid latA lonA zA -> valid latB lonB zB -> valid_at latC lonC -> Rabs (B2R zA) <= 1000000 -> Rabs (B2R zB) <= 1000000 ->
  let A := place (B2R latA) (B2R lonA) in let B := place (B2R latB) (B2R lonB) in let C := place (B2R latC) (B2R lonC) in
  let s := vnorm (vcross A B) in let r := vnorm (vcross C (direction (vcross A B))) in
  0 < s -> / 50000 <= r -> (10 + 70 / s) * (1 + / r) * u <= / 10000000 -> angle A B <= 19 / 10 ->
  let err := (565 + (38 + 34 / s) * (1 + / r)) * u in
  let '(lat, lon, z) := fgeo_closest_on_path dot fsin fcos arcsin arctan2 latA lonA zA latB lonB zB latC lonC wgs84_a wgs84_f in
  let P := place (B2R lat) (B2R lon) in
  (exists p, on_arc A B p /\ angle p P <= err) /\ (forall p, on_arc A B p -> angle C P <= angle C p + err) /\
  is_finite z = true /\ (z = zA /\ angle A P <= 274 / 10 * u \/ z = zB /\ angle B P <= 274 / 10 * u \/ Rabs (B2R z - (B2R zA + B2R zB) / 2) <= 3 / 10000000000).
Proof.
  intros dot fsin fcos arcsin arctan2 latA lonA zA latB lonB zB latC lonC GD GS GC GA GT VA VB WC BA BB A B C s r Ps Hr Hk Hl err.
  assert (WA : valid_at latA lonA) by (destruct VA as (? & ? & ? & ? & _); repeat split; auto). assert (WB : valid_at latB lonB) by (destruct VB as (? & ? & ? & ? & _); repeat split; auto).
  assert (FA : is_finite zA = true) by apply VA. assert (FB : is_finite zB = true) by apply VB.
  destruct (nvec_near fsin fcos latA lonA GS GC WA) as (U1 & N1 & A1 & D1). destruct (nvec_near fsin fcos latB lonB GS GC WB) as (U2 & N2 & A2 & D2). destruct (nvec_near fsin fcos latC lonC GS GC WC) as (U3 & N3 & _ & D3).
  destruct (position_exists fsin fcos latA lonA zA wgs84_a wgs84_f GS GC VA wgs84_usual) as (pA & HA). destruct (position_exists fsin fcos latB lonB zB wgs84_a wgs84_f GS GC VB wgs84_usual) as (pB & HB). rewrite wgs84_a_val in HA, HB.
  pose proof wgs84_f_val as (_ & Vf). destruct (radius_ok fsin fcos latA lonA zA latB lonB zB pA pB GS GC VA VB BA BB HA HB) as (Fr & BR & ER).
  pose proof (position_low 6378137 (B2R wgs84_f) _ _ _ pA ltac:(lra) ltac:(lra) HA) as LA. pose proof (position_low 6378137 (B2R wgs84_f) _ _ _ pB ltac:(lra) ltac:(lra) HB) as LB.
  unfold fgeo_closest_on_path. set (radius := fgeo_radius fsin fcos latA lonA zA latB lonB zB wgs84_a wgs84_f) in *. clearbody radius.
  assert (RR : 1 <= B2R radius <= 9000000). { apply Rabs_le_inv in ER. clear - ER BR LA LB BA BB Vf. assert (6378137 * (1 - B2R wgs84_f) >= 6000000) by lra. lra. }
  pose proof (nearest_moves dot arcsin arctan2 _ _ _ A B C zA zB radius GD GA (atan2_upper _ GT) U1 U2 U3 (place_unit _ _) (place_unit _ _) (place_unit _ _) N1 N2 N3 D1 D2 D3 FA FB BA BB Fr RR Ps Hr Hk Hl) as M. cbv zeta in M. fold s r in M.
  set (a := nvec_deg fsin fcos latA lonA) in *. set (b := nvec_deg fsin fcos latB lonB) in *. set (q := nvec_deg fsin fcos latC lonC) in *. clearbody a b q.
  set (res := fclosest_on_path dot arcsin arctan2 a b q zA zB radius) in *. clearbody res. destruct M as (Vv & (p0 & OP & TP) & MIN & FT). set (v := nearest_at (vec_of a) (vec_of b) res) in *.
  pose proof u_pos as Pu. assert (NZ : forall x y, place x y <> v0) by (intros; apply vnorm_inv, place_unit).
  set (out := nearest_deg arctan2 latA lonA zA latB lonB zB res).
  assert (K : angle v (place (B2R (fst (fst out))) (B2R (snd (fst out)))) <= 44 * u /\ is_finite (snd out) = true /\ (snd out = zA /\ angle A (place (B2R (fst (fst out))) (B2R (snd (fst out)))) <= 274 / 10 * u \/ snd out = zB /\ angle B (place (B2R (fst (fst out))) (B2R (snd (fst out)))) <= 274 / 10 * u \/ Rabs (B2R (snd out) - (B2R zA + B2R zB) / 2) <= 3 / 10000000000)).
  { unfold out, v. destruct res as [n z| |]; cbn [nearest_deg nearest_at fst snd].
    - destruct (FT n z eq_refl) as (Hn & Fz & Ez). split; [|split; auto]. cbv zeta. cbn [fst snd]. pose proof (latlon_back arctan2 n GT Hn) as LB'. cbv zeta in LB'. unfold place. lra.
    - destruct (place_there latA lonA WA) as (_ & _ & T). split; [|split; [exact FA|left; split; [reflexivity|exact T]]]. pose proof (angle_triangle (vec_of a) A _ N1 (NZ _ _) (NZ (B2R (fdeg (frad latA))) (B2R (fdeg (frad lonA))))) as TT. rewrite (angle_sym (vec_of a) A) in TT. fold A in T, A1. lra.
    - destruct (place_there latB lonB WB) as (_ & _ & T). split; [|split; [exact FB|right; left; split; [reflexivity|exact T]]]. pose proof (angle_triangle (vec_of b) B _ N2 (NZ _ _) (NZ (B2R (fdeg (frad latB))) (B2R (fdeg (frad lonB))))) as TT. rewrite (angle_sym (vec_of b) B) in TT. fold B in T, A2. lra. }
  destruct out as [[lat lon] z]. cbn [fst snd] in K. destruct K as (K & Fz & Ez). cbv zeta. set (P := place (B2R lat) (B2R lon)) in *.
  assert (EE : 4 * ((53 / 10 + (95 / 10 + 85 / 10 / s) * (1 + / r)) * u) + 543 * u <= err).
  { apply Rle_trans with (err - 8 / 10 * u); [|lra]. unfold err. right. field. split; lra. }
  assert (P0 : P <> v0) by apply NZ. split; [|split; auto].
  - exists p0. split; auto. pose proof (angle_triangle p0 v P (vnorm_inv _ (proj1 OP)) Vv P0) as T. lra.
  - intros p Op. pose proof (MIN p Op) as M. pose proof (angle_triangle C v P (NZ _ _) Vv P0) as T. fold C in T. lra.
Qed.
Print Assumptions C116_closest_on_path.

(** ** the other constructions of GeoPath, read in degrees: Nvector.to_geo_point (objects.py 553-573), latitude_deg and longitude_deg (objects.py 237-244) *)
Definition read_deg (arctan2 : float64 -> float64 -> float64) (n : vec64) : float64 * float64 := let ll := fn_E2lat_lon arctan2 n in (fdeg (fst ll), fdeg (snd ll)).
Lemma read_deg_near arctan2 n p k : good_atan2 arctan2 -> near_unit n -> p <> v0 -> angle p (vec_of n) <= k -> let '(lat, lon) := read_deg arctan2 n in angle p (place (B2R lat) (B2R lon)) <= k + 246 / 10 * u.
Proof.
  intros GT Hn P0 K. pose proof (latlon_back arctan2 n GT Hn) as LB. unfold read_deg. cbv zeta in *. destruct (near_unit_near n Hn) as (_ & N0 & _). unfold place.
  eapply Rle_trans; [apply (angle_triangle p (vec_of n)); auto; apply vnorm_inv, latlon_unit|]. lra.
Qed.
Theorem C116_interpolate : forall fsin fcos arctan2 latA lonA zA latB lonB zB ti,
  good_trig fsin sin -> good_trig fcos cos -> good_atan2 arctan2 -> valid latA lonA zA -> valid latB lonB zB -> Rabs (B2R zA) <= 1000000 -> Rabs (B2R zB) <= 1000000 -> is_finite ti = true -> 0 <= B2R ti <= 1 ->
  let A := place (B2R latA) (B2R lonA) in let B := place (B2R latB) (B2R lonB) in let P := vadd (vscale (1 - B2R ti) A) (vscale (B2R ti) B) in / 100000 <= vnorm P ->
  let '(lat, lon) := read_deg arctan2 (fgeo_interpolate fsin fcos latA lonA latB lonB ti) in
  angle P (place (B2R lat) (B2R lon)) <= (32 + 50 / vnorm P) * u /\ (0 <= vdot A B -> angle P (place (B2R lat) (B2R lon)) <= 13 / 1000000000000000).
Proof.
  intros fsin fcos arctan2 latA lonA zA latB lonB zB ti GS GC GT VA VB BA BB Ft Ht A B P HP. pose proof u_pos as Pu.
  pose proof (C108_interpolate fsin fcos latA lonA zA latB lonB zB ti GS GC VA VB BA BB Ft Ht HP) as (NQ & AQ & _ & AQ2 & _). fold A B in AQ, AQ2. fold P in AQ, AQ2. set (q := fgeo_interpolate fsin fcos latA lonA latB lonB ti) in *. clearbody q.
  assert (P0 : P <> v0) by (intros X; rewrite X, vnorm_v0 in HP; lra). pose proof (read_deg_near arctan2 q P _ GT NQ P0 (Rle_refl _)) as K. destruct (read_deg arctan2 q) as [lat lon].
  split; [lra|]. intros D. specialize (AQ2 D). rewrite u_val in K. lra.
Qed.
Print Assumptions C116_interpolate.
Theorem C116_intersect : forall dot fsin fcos arctan2 la1 lo1 la2 lo2 la3 lo3 la4 lo4, good_dot dot -> good_trig fsin sin -> good_trig fcos cos -> good_atan2 arctan2 ->
  valid_at la1 lo1 -> valid_at la2 lo2 -> valid_at la3 lo3 -> valid_at la4 lo4 ->
  let A1 := place (B2R la1) (B2R lo1) in let A2 := place (B2R la2) (B2R lo2) in let B1 := place (B2R la3) (B2R lo3) in let B2 := place (B2R la4) (B2R lo4) in
  let A := vcross A1 A2 in let B := vcross B1 B2 in let sa := vnorm A in let sb := vnorm B in let t := vnorm (vcross (direction A) (direction B)) in
  A <> v0 -> B <> v0 -> 0 < t -> (1 + / sa + / sb) / t * u <= / 20000000 -> / 50000 <= Rabs (vdot (direction (vcross A B)) A1) ->
  let '(lat, lon) := read_deg arctan2 (fgeo_intersect dot fsin fcos la1 lo1 la2 lo2 la3 lo3 la4 lo4) in
  exists p, on_circle A1 A2 p /\ on_circle B1 B2 p /\ 0 < vdot p A1 /\ angle p (place (B2R lat) (B2R lon)) <= (30 + 136 * (1 + / sa + / sb) / t) * u.
Proof.
  intros dot fsin fcos arctan2 la1 lo1 la2 lo2 la3 lo3 la4 lo4 GD GS GC GT W1 W2 W3 W4 A1 A2 B1 B2 A B sa sb t A0 B0 Pt Hk Hd. pose proof u_pos as Pu.
  destruct (C108_intersect dot fsin fcos la1 lo1 la2 lo2 la3 lo3 la4 lo4 GD GS GC W1 W2 W3 W4 A0 B0 Pt Hk Hd) as (NQ & p & O1 & O2 & D & AN). set (q := fgeo_intersect dot fsin fcos la1 lo1 la2 lo2 la3 lo3 la4 lo4) in *. clearbody q.
  pose proof (read_deg_near arctan2 q p _ GT NQ (vnorm_inv _ (proj1 O1)) AN) as K. destruct (read_deg arctan2 q) as [lat lon]. exists p. split; [exact O1|]. split; [exact O2|]. split; [exact D|]. fold A1 A2 B1 B2 in K. fold A B in K. fold sa sb t in K.
  eapply Rle_trans; [exact K|]. set (w := 136 * (1 + / sa + / sb) / t). lra.
Qed.
Print Assumptions C116_intersect.
Theorem C116_closest_on_circle : forall dot fsin fcos arctan2 latA lonA latB lonB latC lonC, good_dot dot -> good_trig fsin sin -> good_trig fcos cos -> good_atan2 arctan2 -> valid_at latA lonA -> valid_at latB lonB -> valid_at latC lonC ->
  let A := place (B2R latA) (B2R lonA) in let B := place (B2R latB) (B2R lonB) in let C := place (B2R latC) (B2R lonC) in
  let s := vnorm (vcross A B) in let r := vnorm (vcross C (direction (vcross A B))) in 0 < s -> / 50000 <= r -> (10 + 70 / s) * (1 + / r) * u <= / 10000000 ->
  let '(lat, lon) := read_deg arctan2 (fgeo_closest dot fsin fcos latA lonA latB lonB latC lonC) in
  exists p, on_circle A B p /\ (forall p', on_circle A B p' -> angle C p <= angle C p') /\ angle p (place (B2R lat) (B2R lon)) <= (31 + (43 + 271 / s) * (1 + / r)) * u.
Proof.
  intros dot fsin fcos arctan2 latA lonA latB lonB latC lonC GD GS GC GT W1 W2 W3 A B C s r Ps Hr Hk. pose proof u_pos as Pu.
  destruct (C108_closest_point dot fsin fcos latA lonA latB lonB latC lonC GD GS GC W1 W2 W3 Ps Hr Hk) as (NQ & p & O1 & MIN & AN). set (q := fgeo_closest dot fsin fcos latA lonA latB lonB latC lonC) in *. clearbody q.
  pose proof (read_deg_near arctan2 q p _ GT NQ (vnorm_inv _ (proj1 O1)) AN) as K. destruct (read_deg arctan2 q) as [lat lon]. exists p. split; [exact O1|]. split; [exact MIN|]. fold A B C in K. fold s in K. fold r in K.
  eapply Rle_trans; [exact K|]. set (w := (43 + 271 / s) * (1 + / r)). lra.
Qed.
Print Assumptions C116_closest_on_circle.

(** on a path of at least 100 km and at most 109 degrees, for a position within 60 degrees of its great circle: 5.2 micrometres on the Earth *)
Theorem C116_earth : forall dot fsin fcos arcsin arctan2 latA lonA zA latB lonB zB latC lonC, good_dot dot -> good_trig fsin sin -> good_trig fcos cos -> good_arcsin arcsin -> good_atan2 arctan2 ->
  valid latA lonA zA -> valid latB lonB zB -> valid_at latC lonC -> Rabs (B2R zA) <= 1000000 -> Rabs (B2R zB) <= 1000000 ->
  let A := place (B2R latA) (B2R lonA) in let B := place (B2R latB) (B2R lonB) in let C := place (B2R latC) (B2R lonC) in
  / 64 <= vnorm (vcross A B) -> / 2 <= vnorm (vcross C (direction (vcross A B))) -> angle A B <= 19 / 10 ->
  let '(lat, lon, z) := fgeo_closest_on_path dot fsin fcos arcsin arctan2 latA lonA zA latB lonB zB latC lonC wgs84_a wgs84_f in
  let P := place (B2R lat) (B2R lon) in
  (exists p, on_arc A B p /\ angle p P * 6378137 <= 52 / 10000000) /\ (forall p, on_arc A B p -> angle C P * 6378137 <= angle C p * 6378137 + 52 / 10000000).
Proof.
  intros dot fsin fcos arcsin arctan2 latA lonA zA latB lonB zB latC lonC GD GS GC GA GT VA VB WC BA BB A B C Hs Hr Hl.
  set (s := vnorm (vcross A B)) in *. set (r := vnorm (vcross C (direction (vcross A B)))) in *. assert (Us : 0 < u <= / 9000000000000000) by (rewrite u_val; lra).
  assert (Is : 0 < / s <= 64). { split; [apply Rinv_0_lt_compat; lra|]. replace 64 with (/ / 64) by field. apply Rinv_le; lra. } assert (Ir : 0 < / r <= 2). { split; [apply Rinv_0_lt_compat; lra|]. replace 2 with (/ / 2) by field. apply Rinv_le; lra. }
  assert (K : forall x y, 0 <= x -> 0 <= y -> (x + y / s) * (1 + / r) <= (x + y * 64) * 3). { intros x y Hx Hy. assert (0 <= y * / s <= y * 64) by (split; [apply Rmult_le_pos; lra|apply Rmult_le_compat_l; lra]). apply Rmult_le_compat; unfold Rdiv; lra. }
  assert (H1 : 0 < s) by lra. assert (H2 : / 50000 <= r) by lra. assert (H3 : (10 + 70 / s) * (1 + / r) * u <= / 10000000).
  { apply Rle_trans with ((10 + 70 * 64) * 3 * u); [apply Rmult_le_compat_r; [lra|apply K; lra]|lra]. }
  pose proof (C116_closest_on_path dot fsin fcos arcsin arctan2 latA lonA zA latB lonB zB latC lonC GD GS GC GA GT VA VB WC BA BB H1 H2 H3 Hl) as T. cbv zeta in T. fold A B C in T. fold s in T. fold r in T. clear H3.
  assert (E : (565 + (38 + 34 / s) * (1 + / r)) * u <= 81 / 100000000000000). { apply Rle_trans with ((565 + (38 + 34 * 64) * 3) * u); [|rewrite u_val; lra]. apply Rmult_le_compat_r; [lra|]. apply Rplus_le_compat_l, K; lra. }
  set (err := (565 + (38 + 34 / s) * (1 + / r)) * u) in *. clearbody err. destruct (fgeo_closest_on_path dot fsin fcos arcsin arctan2 latA lonA zA latB lonB zB latC lonC wgs84_a wgs84_f) as [[lat lon] z].
  destruct T as ((p & OP & D) & M & _). cbv zeta. split; [exists p; split; [exact OP|lra]|]. intros p' O'. specialize (M p' O'). lra.
Qed.
Print Assumptions C116_earth.

(** the equator from 0 E to 90 E and the position 45 N, 0 E: the hypotheses are met, and the position found is no farther than the end at 0 E *)
Example C116_example : good_dot dot_seq /\ good_trig (fun x => round64 (sin (B2R x))) sin /\ good_trig (fun x => round64 (cos (B2R x))) cos /\ good_arcsin ideal_arcsin /\ good_atan2 ideal_atan2 /\
  valid fzero fzero fzero /\ valid fzero f90 fzero /\ valid_at f45 fzero /\ Rabs (B2R fzero) <= 1000000 /\
  let A := place (B2R fzero) (B2R fzero) in let B := place (B2R fzero) (B2R f90) in let C := place (B2R f45) (B2R fzero) in
  / 64 <= vnorm (vcross A B) /\ / 2 <= vnorm (vcross C (direction (vcross A B))) /\ angle A B <= 19 / 10 /\
  let '(lat, lon, z) := fgeo_closest_on_path dot_seq (fun x => round64 (sin (B2R x))) (fun x => round64 (cos (B2R x))) ideal_arcsin ideal_atan2 fzero fzero fzero fzero f90 fzero f45 fzero wgs84_a wgs84_f in
  angle C (place (B2R lat) (B2R lon)) * 6378137 <= PI / 4 * 6378137 + 52 / 10000000.
Proof.
  destruct C108_example as (G1 & G2 & G3 & V1 & V2 & Z & _ & _ & _ & _ & _ & V4 & _). assert (G4 : good_arcsin ideal_arcsin) by apply ideal_arcsin_good. assert (G5 : good_atan2 ideal_atan2) by (apply correct_good, ideal_atan2_correct).
  split; [exact G1|]. split; [exact G2|]. split; [exact G3|]. split; [exact G4|]. split; [exact G5|]. split; [exact V1|]. split; [exact V2|]. split; [exact V4|]. split; [exact Z|]. cbv zeta.
  assert (V0 : B2R fzero = 0) by reflexivity. assert (V90 : B2R f90 = 90) by (unfold f90, f, B2R, F2R; cbn; lra). assert (V45 : B2R f45 = 45) by (unfold f45, f, B2R, F2R; cbn; lra).
  pose proof (C116_earth dot_seq _ _ ideal_arcsin ideal_atan2 fzero fzero fzero fzero f90 fzero f45 fzero G1 G2 G3 G4 G5 V1 V2 V4 Z Z) as T. cbv zeta in T.
  rewrite V0, V90, V45, place_00, place_0_90, place_45_0 in *.
  assert (X1 : vcross (V 1 0 0) (V 0 1 0) = V 0 0 1) by (unfold vcross; cbn [Spec.vx Spec.vy Spec.vz]; apply vec_eq; cbn [Spec.vx Spec.vy Spec.vz]; ring).
  assert (L1 : vnorm (V 0 0 1) = 1) by (apply nrm1; ring). assert (LX : vnorm (V 1 0 0) = 1) by (apply nrm1; ring). assert (LY : vnorm (V 0 1 0) = 1) by (apply nrm1; ring). rewrite X1, (dir1 _ L1), L1 in *.
  assert (X4 : vcross (V (cos (PI / 4)) 0 (sin (PI / 4))) (V 0 0 1) = V 0 (- cos (PI / 4)) 0) by (unfold vcross; cbn [Spec.vx Spec.vy Spec.vz]; apply vec_eq; cbn [Spec.vx Spec.vy Spec.vz]; ring).
  assert (C4 : 1 / 2 <= cos (PI / 4)). { rewrite <- cos_PI3. pose proof PI_RGT_0. apply cos_decr_1; lra. }
  assert (L4 : vnorm (V 0 (- cos (PI / 4)) 0) = cos (PI / 4)). { unfold vnorm, vdot; cbn [Spec.vx Spec.vy Spec.vz]. replace (0 * 0 + - cos (PI / 4) * - cos (PI / 4) + 0 * 0) with (cos (PI / 4) * cos (PI / 4)) by ring. apply sqrt_square. lra. }
  assert (LC : vnorm (V (cos (PI / 4)) 0 (sin (PI / 4))) = 1). { apply nrm1. pose proof (sin2_cos2 (PI / 4)) as S. unfold Rsqr in S. lra. }
  assert (AN : angle (V 1 0 0) (V 0 1 0) <= 19 / 10). { rewrite angle_unit by auto. replace (vdot (V 1 0 0) (V 0 1 0)) with 0 by (unfold vdot; cbn [Spec.vx Spec.vy Spec.vz]; ring). rewrite acos_0. pose proof PI_33. lra. }
  assert (AC : angle (V (cos (PI / 4)) 0 (sin (PI / 4))) (V 1 0 0) = PI / 4). { rewrite angle_unit by auto. replace (vdot (V (cos (PI / 4)) 0 (sin (PI / 4))) (V 1 0 0)) with (cos (PI / 4)) by (unfold vdot; cbn [Spec.vx Spec.vy Spec.vz]; ring). apply acos_cos. pose proof PI_RGT_0. lra. }
  rewrite X4, L4 in *. split; [lra|]. split; [lra|]. split; [exact AN|]. specialize (T ltac:(lra) ltac:(lra) AN).
  destruct (fgeo_closest_on_path _ _ _ _ _ _ _ _ _ _ _ _ _ _ _) as [[lat lon] z]. destruct T as (_ & M). specialize (M _ (arc_end_l (V 1 0 0) (V 0 1 0) LX)). rewrite AC in M. exact M.
Qed.
