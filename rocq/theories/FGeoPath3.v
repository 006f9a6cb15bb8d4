(** * C108 continued: closest_point_on_great_circle and intersect *)
From Coq Require Import ZArith Reals Lra Lia Bool Psatz.
From Flocq Require Import Core BinarySingleNaN Relative.
From Verif Require Import Spec LVec LAngle LCircle PTrack FTiny FZero FBase FRel FRel2 FUnit FPi FAngle FMod FDist FClose FGreat FLatLon FInv FInv2 FTrack FOnCircle FEcef FEcef2 FNed FNed2 FNed3 FDelta FDelta2 FDelta3
  FInterp FPoint FPoint2 FWay FWay2 FWay3 FWay4 FGeodB FGeod FGeod2 FGeod3 FGeod4 FGeod5 FGeod6 FGeod7 FGeod8 FGeod9 FGeod10 FMove FMove2 FMove3 FEuler FEuler2 FBody FBody2 FBody3 PPath3 FInv3 FCourse FGeoPath FGeoPath2.
Local Open Scope R_scope.

(** ** a unit vector orthogonal to two others is one of the two directions of their cross product *)
Lemma orth_cross p A B : vnorm p = 1 -> vdot p A = 0 -> vdot p B = 0 -> vcross A B <> v0 -> p = direction (vcross A B) \/ p = vneg (direction (vcross A B)).
Proof.
  intros Np HA HB NX. set (X := vcross A B) in *. assert (C0 : vcross p X = v0).
  { unfold X. replace (vcross p (vcross A B)) with (vsub (vscale (vdot p B) A) (vscale (vdot p A) B)) by (generalize p A B; intros; vring). rewrite HA, HB. generalize A B. intros. unfold v0. vring. }
  assert (T : X = vscale (vdot p X) p).
  { apply vnorm_unit in Np. assert (E : vcross p (vcross p X) = vsub (vscale (vdot p X) p) (vscale (vdot p p) X)) by (generalize p X; intros; vring). rewrite C0, Np, vscale_1 in E.
    assert (Z : vcross p v0 = v0) by (generalize p; intros; unfold v0; vring). rewrite Z in E. generalize dependent (vscale (vdot p X) p). intros w E. clear - E.
    destruct w, X. unfold vsub, v0 in E; cbn [Spec.vx Spec.vy Spec.vz] in E. injection E as E1 E2 E3. apply vec_eq; cbn [Spec.vx Spec.vy Spec.vz]; lra. }
  set (k := vdot p X) in *. assert (NK : vnorm X = Rabs k) by (rewrite T, vnorm_scale, Np; ring). pose proof (vnorm_nz _ NX) as PX.
  unfold direction. rewrite NK, T. rewrite NK in PX. rewrite vscale_vscale. destruct (Rle_dec 0 k) as [G|G].
  - left. rewrite Rabs_right in * by lra. rewrite Rinv_l by lra. symmetry. apply vscale_1.
  - right. rewrite Rabs_left in * by lra. replace (/ - k * k) with (-1) by (field; lra). generalize p. intros. vring.
Qed.

(** ** the normals of two paths and the crossing of their circles *)
Lemma cross_unit_le x y x' y' : vnorm x = 1 -> vnorm y' = 1 -> vnorm (vsub (vcross x' y') (vcross x y)) <= vnorm (vsub x' x) + vnorm (vsub y' y).
Proof.
  intros Hx Hy. replace (vsub (vcross x' y') (vcross x y)) with (vadd (vcross (vsub x' x) y') (vcross x (vsub y' y))) by (generalize x y x' y'; intros; vring).
  eapply Rle_trans; [apply norm_triangle|]. pose proof (vcross_le (vsub x' x) y') as A1. pose proof (vcross_le x (vsub y' y)) as A2. rewrite Hy in A1. rewrite Hx in A2. lra.
Qed.
Lemma dir_cross A B : A <> v0 -> B <> v0 -> vcross (direction A) (direction B) <> v0 -> direction (vcross A B) = direction (vcross (direction A) (direction B)).
Proof.
  intros HA HB HC. rewrite (cross_dir A B HA HB). symmetry. apply dir_scale.
  - apply Rmult_lt_0_compat; apply Rinv_0_lt_compat, vnorm_nz; auto.
  - intros E. apply HC. rewrite (cross_dir A B HA HB), E. unfold v0. vring.
Qed.

(** ** intersect: the depth is the mean of the four *)
Definition fgeo_intersect dot fsin fcos (la1 lo1 la2 lo2 la3 lo3 la4 lo4 : float64) : vec64 :=
  fintersect dot (nvec_deg fsin fcos la1 lo1) (nvec_deg fsin fcos la2 lo2) (nvec_deg fsin fcos la3 lo3) (nvec_deg fsin fcos la4 lo4).
Lemma intersect_core dot a1 a2 b1 b2 A1 A2 B1 B2 : good_dot dot -> near_unit a1 -> near_unit a2 -> near_unit b1 -> near_unit b2 -> vnorm A1 = 1 -> vnorm A2 = 1 -> vnorm B1 = 1 -> vnorm B2 = 1 ->
  let e := 163 / 10 * u in vec_of a1 <> v0 -> vec_of a2 <> v0 -> vec_of b1 <> v0 -> vec_of b2 <> v0 ->
  vnorm (vsub (direction (vec_of a1)) A1) <= e -> vnorm (vsub (direction (vec_of a2)) A2) <= e -> vnorm (vsub (direction (vec_of b1)) B1) <= e -> vnorm (vsub (direction (vec_of b2)) B2) <= e ->
  let A := vcross A1 A2 in let B := vcross B1 B2 in let sa := vnorm A in let sb := vnorm B in let t := vnorm (vcross (direction A) (direction B)) in
  A <> v0 -> B <> v0 -> 0 < t -> (1 + / sa + / sb) / t * u <= / 20000000 -> / 50000 <= Rabs (vdot (direction (vcross A B)) A1) ->
  near_unit (fintersect dot a1 a2 b1 b2) /\
  exists p, on_circle A1 A2 p /\ on_circle B1 B2 p /\ 0 < vdot p A1 /\ angle p (vec_of (fintersect dot a1 a2 b1 b2)) <= (51 / 10 + 136 * (1 + / sa + / sb) / t) * u.
Proof.
  intros GD U1 U2 U3 U4 V1 V2 V3 V4 e N1 N2 N3 N4 D1 D2 D3 D4 A B sa sb t A0 B0 Pt Hk Hd. pose proof u_pos as Pu. pose proof u_tiny as Su. assert (Us : u <= / 9000000000000000) by (rewrite u_val; lra).
  pose proof (vnorm_nz _ A0) as PA. pose proof (vnorm_nz _ B0) as PB. fold sa in PA. fold sb in PB.
  assert (Ia : 0 < / sa) by (apply Rinv_0_lt_compat; auto). assert (Ib : 0 < / sb) by (apply Rinv_0_lt_compat; auto). assert (It : 0 < / t) by (apply Rinv_0_lt_compat; auto).
  set (nA := direction A) in *. set (nB := direction B) in *. assert (UA : vnorm nA = 1) by (apply direction_unit; auto). assert (UB : vnorm nB = 1) by (apply direction_unit; auto).
  assert (T1 : t <= 1). { unfold t. eapply Rle_trans; [apply vcross_le|]. rewrite UA, UB. lra. }
  assert (It1 : 1 <= / t). { rewrite <- Rinv_1. apply Rinv_le; lra. }
  set (w := (1 + / sa + / sb) / t) in *. assert (Ew : w = (1 + / sa + / sb) * / t) by reflexivity.
  assert (Wab : (/ sa + / sb) * / t <= w - / t). { rewrite Ew. right. ring. }
  assert (W1 : / sa * u + / sb * u + u <= / 20000000).
  { eapply Rle_trans; [|exact Hk]. rewrite Ew. replace (/ sa * u + / sb * u + u) with ((1 + / sa + / sb) * 1 * u) by ring. apply Rmult_le_compat_r; [lra|]. apply Rmult_le_compat_l; lra. }
  assert (Sa : 20000000 * u <= sa). { apply Rmult_le_reg_l with (/ sa); auto. rewrite Rinv_l by lra. assert (0 < / sb * u) by (apply Rmult_lt_0_compat; lra). lra. }
  assert (Sb : 20000000 * u <= sb). { apply Rmult_le_reg_l with (/ sb); auto. rewrite Rinv_l by lra. assert (0 < / sa * u) by (apply Rmult_lt_0_compat; lra). lra. }
  assert (He : 0 <= e <= / 1000) by (unfold e; lra).
  destruct (path_moves a1 a2 A1 A2 e N1 N2 U1 U2 V1 V2 He D1 D2) as (LA & MA). { fold A. fold sa. unfold e. lra. } fold A in LA, MA. fold sa nA in LA, MA.
  destruct (path_moves b1 b2 B1 B2 e N3 N4 U3 U4 V3 V4 He D3 D4) as (LB & MB). { fold B. fold sb. unfold e. lra. } fold B in LB, MB. fold sb nB in LB, MB.
  set (A' := vcross (vec_of a1) (vec_of a2)) in *. set (B' := vcross (vec_of b1) (vec_of b2)) in *.
  assert (A0' : A' <> v0) by (intros E; rewrite E, vnorm_v0 in LA; lra). assert (B0' : B' <> v0) by (intros E; rewrite E, vnorm_v0 in LB; lra).
  set (nA' := direction A') in *. set (nB' := direction B') in *. assert (UA' : vnorm nA' = 1) by (apply direction_unit; auto). assert (UB' : vnorm nB' = 1) by (apply direction_unit; auto).
  set (g := 4 * e / sa + 4 * e / sb). assert (CD : vnorm (vsub (vcross nA' nB') (vcross nA nB)) <= g) by (eapply Rle_trans; [apply cross_unit_le; auto|unfold g; lra]).
  set (k := 652 / 10 * (w * u)). assert (GT : g <= k * t).
  { unfold g, k, e. rewrite Ew. replace (652 / 10 * ((1 + / sa + / sb) * / t * u) * t) with (652 / 10 * ((1 + / sa + / sb) * u)) by (field; lra). unfold Rdiv. lra. }
  assert (PW : 0 < w * u). { apply Rmult_lt_0_compat; [|lra]. rewrite Ew. apply Rmult_lt_0_compat; lra. }
  assert (Kb : 0 <= k <= / 300000) by (unfold k; lra). assert (KT : k * t <= / 300000 * t) by (apply Rmult_le_compat_r; lra).
  set (t' := vnorm (vcross nA' nB')). pose proof (norm_perturb (vcross nA nB) (vsub (vcross nA' nB') (vcross nA nB))) as NP. rewrite <- vadd_sub_id in NP. fold t t' in NP. apply Rabs_le_inv in NP.
  assert (Lt : 99 / 100 * t <= t') by lra. assert (Pt' : 0 < t') by lra.
  assert (X0 : vcross nA nB <> v0) by (intros E; unfold t in Pt; rewrite E, vnorm_v0 in Pt; lra). assert (X0' : vcross nA' nB' <> v0) by (intros E; unfold t' in Pt'; rewrite E, vnorm_v0 in Pt'; lra).
  assert (INV : forall x y, 0 < x -> 99 / 100 * x <= y -> / y <= 102 / 100 * / x).
  { intros x y Hx Hy. apply (Rmult_le_reg_l y); [lra|]. rewrite Rinv_r by lra. replace (y * (102 / 100 * / x)) with (102 / 100 * (y * / x)) by ring. assert (0 < / x) by (apply Rinv_0_lt_compat; lra).
    assert (99 / 100 <= y * / x). { apply (Rmult_le_reg_r x); [lra|]. rewrite Rmult_assoc, Rinv_l by lra. lra. } lra. }
  pose proof (INV _ _ PA LA) as IA'. pose proof (INV _ _ PB LB) as IB'. pose proof (INV _ _ Pt Lt) as IT'. set (sa' := vnorm A') in *. set (sb' := vnorm B') in *.
  assert (QA : 0 < / sa') by (apply Rinv_0_lt_compat; lra). assert (QB : 0 < / sb') by (apply Rinv_0_lt_compat; lra). assert (QT : 0 < / t') by (apply Rinv_0_lt_compat; lra).
  assert (WW : (1 + / sa' + / sb') / t' <= 105 / 100 * w).
  { unfold Rdiv at 1. apply Rle_trans with (102 / 100 * (1 + / sa + / sb) * (102 / 100 * / t)); [apply Rmult_le_compat; lra|]. rewrite Ew.
    assert (0 <= (1 + / sa + / sb) * / t) by (apply Rmult_le_pos; lra). lra. }
  set (n := direction (vcross A B)) in *. set (n' := direction (vcross A' B')).
  assert (En : n = direction (vcross nA nB)) by (apply dir_cross; auto). assert (En' : n' = direction (vcross nA' nB')) by (apply dir_cross; auto).
  assert (Un : vnorm n = 1) by (rewrite En; apply direction_unit; auto). assert (Un' : vnorm n' = 1) by (rewrite En'; apply direction_unit; auto).
  assert (Dn : vnorm (vsub n' n) <= 2 * k).
  { rewrite En, En'. eapply Rle_trans; [apply direction_perturb; auto|]. fold t. apply (Rmult_le_reg_r t); [lra|]. unfold Rdiv. rewrite Rmult_assoc, Rinv_l by lra. lra. }
  pose proof (near_place a1 A1 U1 N1 D1) as Pl. destruct (near_unit_len a1 U1) as (_ & L1).
  assert (DD : Rabs (vdot n' (vec_of a1) - vdot n A1) <= / 100000).
  { replace (vdot n' (vec_of a1) - vdot n A1) with (vdot (vsub n' n) (vec_of a1) + vdot n (vsub (vec_of a1) A1)) by (generalize n' n (vec_of a1) A1; intros; unfold vdot, vsub; cbn [Spec.vx Spec.vy Spec.vz]; ring).
    eapply Rle_trans; [apply Rabs_triang|]. pose proof (cauchy_schwarz (vsub n' n) (vec_of a1)) as C1. pose proof (cauchy_schwarz n (vsub (vec_of a1) A1)) as C2. rewrite Un in C2.
    assert (vnorm (vsub n' n) * vnorm (vec_of a1) <= 2 * (/ 300000) * (1 + 6 * u)) by (apply Rmult_le_compat; try apply vnorm_pos; lra). lra. }
  apply Rabs_le_inv in DD.
  destruct (C98_intersect dot a1 a2 b1 b2 GD U1 U2 U3 U4 A0' B0' Pt') as (NI & p' & O1 & O2 & S1 & AN).
  { fold A' B'. fold sa' sb'. fold nA' nB'. fold t'. assert ((1 + / sa' + / sb') / t' * u <= 105 / 100 * w * u) by (apply Rmult_le_compat_r; lra). lra. }
  { fold A' B'. fold n'. destruct (Rle_lt_dec 0 (vdot n A1)) as [G|G]; [rewrite Rabs_right in * by lra|rewrite Rabs_left in * by lra]; [rewrite Rabs_right; lra|rewrite Rabs_left; lra]. }
  fold A' B' in AN. fold sa' sb' nA' nB' in AN. fold t' in AN. split; [exact NI|]. set (q := vec_of (fintersect dot a1 a2 b1 b2)) in *.
  destruct (near_unit_near _ NI) as (_ & Q0 & _). fold q in Q0.
  assert (XX : vcross A' B' <> v0). { intros E. apply X0'. pose proof (cross_dir A' B' A0' B0') as CX. fold nA' nB' in CX. rewrite E in CX. rewrite CX. generalize (/ vnorm A' * / vnorm B'). intros. unfold v0. vring. }
  assert (OA : vdot n A = 0). { rewrite En. unfold direction at 1. rewrite vdot_scale_l. unfold nA, nB, direction. generalize (/ vnorm A) (/ vnorm B) (/ vnorm (vcross (vscale (/ vnorm A) A) (vscale (/ vnorm B) B))) A B. intros. vring. }
  assert (OB : vdot n B = 0). { rewrite En. unfold direction at 1. rewrite vdot_scale_l. unfold nA, nB, direction. generalize (/ vnorm A) (/ vnorm B) (/ vnorm (vcross (vscale (/ vnorm A) A) (vscale (/ vnorm B) B))) A B. intros. vring. }
  destruct O1 as (Up & O1). destruct O2 as (_ & O2). fold A' in O1. fold B' in O2.
  assert (FIN : forall p, vnorm p = 1 -> vnorm (vsub p' p) <= 2 * k -> angle p q <= (51 / 10 + 136 * (1 + / sa + / sb) / t) * u).
  { intros p Pp Dp. pose proof (angle_chord p p' (2 * k) Pp Up Dp ltac:(lra)) as AC. eapply Rle_trans; [apply (angle_triangle p p' q (vnorm_inv _ Pp) (vnorm_inv _ Up) Q0)|].
    replace (136 * (1 + / sa + / sb) / t) with (136 * w) by (unfold w, Rdiv; ring). replace (41 / 10 * (1 + / sa' + / sb') / t') with (41 / 10 * ((1 + / sa' + / sb') / t')) in AN by (unfold Rdiv; ring).
    set (w' := (1 + / sa' + / sb') / t') in *. assert (u * w' <= u * (105 / 100 * w)) by (apply Rmult_le_compat_l; lra). unfold k in AC. lra. }
  destruct (orth_cross p' A' B' Up O1 O2 XX) as [E|E]; fold n' in E.
  - exists n. assert (0 < vdot n A1). { rewrite E in S1. destruct (Rle_lt_dec 0 (vdot n A1)) as [G|G]; [rewrite Rabs_right in Hd by lra; lra|]. rewrite Rabs_left in Hd by lra. lra. }
    split; [split; auto|]. split; [split; auto|]. split; [auto|]. apply FIN; auto. rewrite E. exact Dn.
  - exists (vneg n). assert (SN : vdot p' (vec_of a1) = - vdot n' (vec_of a1)) by (rewrite E; generalize n' (vec_of a1); intros; vring).
    assert (0 < vdot (vneg n) A1). { replace (vdot (vneg n) A1) with (- vdot n A1) by (generalize n A1; intros; vring). destruct (Rle_lt_dec 0 (vdot n A1)) as [G|G]; [rewrite Rabs_right in Hd by lra; lra|]. lra. }
    assert (Z1 : vdot (vneg n) A = 0) by (replace (vdot (vneg n) A) with (- vdot n A) by (generalize n A; intros; vring); lra). assert (Z2 : vdot (vneg n) B = 0) by (replace (vdot (vneg n) B) with (- vdot n B) by (generalize n B; intros; vring); lra).
    assert (UN : vnorm (vneg n) = 1) by (rewrite vnorm_neg; auto).
    split; [split; auto|]. split; [split; auto|]. split; [auto|]. apply FIN; auto. rewrite E. replace (vsub (vneg n') (vneg n)) with (vneg (vsub n' n)) by (generalize n' n; intros; vring). rewrite vnorm_neg. exact Dn.
Qed.

Theorem C108_intersect : forall dot fsin fcos la1 lo1 la2 lo2 la3 lo3 la4 lo4, good_dot dot -> good_trig fsin sin -> good_trig fcos cos ->
  valid_at la1 lo1 -> valid_at la2 lo2 -> valid_at la3 lo3 -> valid_at la4 lo4 ->
  let A1 := place (B2R la1) (B2R lo1) in let A2 := place (B2R la2) (B2R lo2) in let B1 := place (B2R la3) (B2R lo3) in let B2 := place (B2R la4) (B2R lo4) in
  let A := vcross A1 A2 in let B := vcross B1 B2 in let sa := vnorm A in let sb := vnorm B in let t := vnorm (vcross (direction A) (direction B)) in
  A <> v0 -> B <> v0 -> 0 < t -> (1 + / sa + / sb) / t * u <= / 20000000 -> / 50000 <= Rabs (vdot (direction (vcross A B)) A1) ->
  let q := fgeo_intersect dot fsin fcos la1 lo1 la2 lo2 la3 lo3 la4 lo4 in near_unit q /\
  exists p, on_circle A1 A2 p /\ on_circle B1 B2 p /\ 0 < vdot p A1 /\ angle p (vec_of q) <= (51 / 10 + 136 * (1 + / sa + / sb) / t) * u.
Proof.
  intros dot fsin fcos la1 lo1 la2 lo2 la3 lo3 la4 lo4 GD GS GC W1 W2 W3 W4 A1 A2 B1 B2 A B sa sb t A0 B0 Pt Hk Hd q.
  destruct (nvec_near fsin fcos la1 lo1 GS GC W1) as (U1 & N1 & _ & D1). destruct (nvec_near fsin fcos la2 lo2 GS GC W2) as (U2 & N2 & _ & D2).
  destruct (nvec_near fsin fcos la3 lo3 GS GC W3) as (U3 & N3 & _ & D3). destruct (nvec_near fsin fcos la4 lo4 GS GC W4) as (U4 & N4 & _ & D4).
  exact (intersect_core dot _ _ _ _ A1 A2 B1 B2 GD U1 U2 U3 U4 (place_unit _ _) (place_unit _ _) (place_unit _ _) (place_unit _ _) N1 N2 N3 N4 D1 D2 D3 D4 A0 B0 Pt Hk Hd).
Qed.
Print Assumptions C108_intersect.

(** ** the closest point of the great circle *)
Lemma min_unique c Q p : vnorm c = 1 -> vnorm Q = 1 -> foot c Q <> v0 -> vnorm p = 1 -> vdot p c = 0 -> angle Q p <= angle Q (direction (foot c Q)) -> p = direction (foot c Q).
Proof.
  intros Uc UQ F0 Up O H. set (d := direction (foot c Q)) in *. assert (Ud : vnorm d = 1) by (apply direction_unit; auto). pose proof (vnorm_nz _ F0) as PF.
  assert (CC : vdot Q d <= vdot Q p). { rewrite <- !cos_angle_unit by auto. pose proof (angle_range Q p). pose proof (angle_range Q d). apply cos_decr_1; lra. }
  assert (E1 : vdot Q p = vnorm (foot c Q) * vdot d p).
  { transitivity (vdot (foot c Q) p). - unfold foot. rewrite vdot_sub_l, vdot_scale_l, (vdot_comm c p), O. ring. - rewrite (direction_decomp _ F0) at 1. fold d. rewrite vdot_scale_l. ring. }
  assert (OD : vdot d c = 0). { unfold d, direction. rewrite vdot_scale_l, foot_orth by auto. ring. }
  assert (E2 : vdot Q d = vnorm (foot c Q)).
  { transitivity (vdot (foot c Q) d). - unfold foot. rewrite vdot_sub_l, vdot_scale_l, (vdot_comm c d), OD. ring. - rewrite (direction_decomp _ F0) at 1. fold d. rewrite vdot_scale_l. apply vnorm_unit in Ud. rewrite Ud. ring. }
  rewrite E1, E2 in CC. assert (D1 : 1 <= vdot d p). { apply (Rmult_le_reg_l (vnorm (foot c Q))); lra. }
  assert (Z : vnorm (vsub p d) = 0).
  { apply vnorm_unit in Up. apply vnorm_unit in Ud. unfold vnorm. replace (vdot (vsub p d) (vsub p d)) with (vdot p p + vdot d d - 2 * vdot d p) by (generalize p d; intros; unfold vdot, vsub; cbn [Spec.vx Spec.vy Spec.vz]; ring).
    rewrite Up, Ud. apply sqrt_neg_0. lra. }
  apply vnorm_0 in Z. clear - Z. destruct p, d. unfold vsub, v0 in Z; cbn [Spec.vx Spec.vy Spec.vz] in Z. injection Z as E1 E2 E3. apply vec_eq; cbn [Spec.vx Spec.vy Spec.vz]; lra.
Qed.
(** GeoPath.closest_point_on_great_circle, objects.py 1054-1060: the normal vector *)
Definition fgeo_closest dot fsin fcos (la1 lo1 la2 lo2 la3 lo3 : float64) : vec64 := fclosest dot (nvec_deg fsin fcos la1 lo1) (nvec_deg fsin fcos la2 lo2) (nvec_deg fsin fcos la3 lo3).
Lemma closest_core dot a b q A B C : good_dot dot -> near_unit a -> near_unit b -> near_unit q -> vnorm A = 1 -> vnorm B = 1 -> vnorm C = 1 ->
  let e := 163 / 10 * u in vec_of a <> v0 -> vec_of b <> v0 -> vec_of q <> v0 ->
  vnorm (vsub (direction (vec_of a)) A) <= e -> vnorm (vsub (direction (vec_of b)) B) <= e -> vnorm (vsub (direction (vec_of q)) C) <= e ->
  let s := vnorm (vcross A B) in let c := direction (vcross A B) in let r := vnorm (vcross C c) in
  0 < s -> / 50000 <= r -> (10 + 70 / s) * (1 + / r) * u <= / 10000000 ->
  near_unit (fclosest dot a b q) /\
  exists p, on_circle A B p /\ (forall p', on_circle A B p' -> angle C p <= angle C p') /\ angle p (vec_of (fclosest dot a b q)) <= (6 + (43 + 271 / s) * (1 + / r)) * u.
Proof.
  intros GD U1 U2 U3 V1 V2 V3 e N1 N2 N3 D1 D2 D3 s c r Ps Hr Hk. pose proof u_pos as Pu. pose proof u_tiny as Su. assert (Us : u <= / 9000000000000000) by (rewrite u_val; lra).
  assert (S0 : vcross A B <> v0) by (intros E; unfold s in Ps; rewrite E, vnorm_v0 in Ps; lra). assert (Uc : vnorm c = 1) by (apply direction_unit; auto).
  assert (Is : 0 < / s) by (apply Rinv_0_lt_compat; auto). assert (Ir : 0 < / r) by (apply Rinv_0_lt_compat; lra). assert (Pus : 0 < u * / s) by (apply Rmult_lt_0_compat; lra).
  assert (KR : (10 + 70 / s) * u <= / 10000000 * r).
  { apply Rle_trans with ((10 + 70 / s) * (1 + / r) * u * r); [|apply Rmult_le_compat_r; lra]. replace ((10 + 70 / s) * (1 + / r) * u * r) with ((10 + 70 / s) * u * (r + 1)) by (field; lra).
    rewrite <- (Rmult_1_r ((10 + 70 / s) * u)) at 1. apply Rmult_le_compat_l; [unfold Rdiv; apply Rmult_le_pos; lra|lra]. }
  assert (R1 : r <= 1). { unfold r. eapply Rle_trans; [apply vcross_le|]. rewrite V3, Uc. lra. }
  assert (Sa : 200000000 * u <= s). { apply Rmult_le_reg_l with (/ s); auto. rewrite Rinv_l by lra. unfold Rdiv in KR. lra. }
  assert (He : 0 <= e <= / 1000) by (unfold e; lra).
  destruct (path_moves a b A B e N1 N2 U1 U2 V1 V2 He D1 D2) as (LS & MC). { fold s. unfold e. lra. } fold s c in LS, MC.
  set (X' := vcross (vec_of a) (vec_of b)) in *. assert (X0 : X' <> v0) by (intros E; rewrite E, vnorm_v0 in LS; lra). set (c' := direction X') in *. assert (Uc' : vnorm c' = 1) by (apply direction_unit; auto).
  set (Q := direction (vec_of q)) in *. assert (UQ : vnorm Q = 1) by (apply direction_unit; auto).
  set (m1 := 4 * e / s) in *. assert (Em : m1 = 652 / 10 * (u * / s)) by (unfold m1, e, Rdiv; ring).
  assert (DX : vnorm (vsub (vcross Q c') (vcross C c)) <= e + m1) by (eapply Rle_trans; [apply cross_unit_le; auto|lra]).
  assert (SM : e + 2 * m1 <= / 4000000 * r) by (unfold Rdiv in KR; unfold e; lra).
  set (r' := vnorm (vcross Q c')). pose proof (norm_perturb (vcross C c) (vsub (vcross Q c') (vcross C c))) as NP. rewrite <- vadd_sub_id in NP. fold r r' in NP. apply Rabs_le_inv in NP.
  assert (Pm : 0 < m1) by lra. assert (Lr : 99 / 100 * r <= r') by lra. set (s' := vnorm X') in *.
  assert (INV : forall x y, 0 < x -> 99 / 100 * x <= y -> / y <= 102 / 100 * / x).
  { intros x y Hx Hy. apply (Rmult_le_reg_l y); [lra|]. rewrite Rinv_r by lra. replace (y * (102 / 100 * / x)) with (102 / 100 * (y * / x)) by ring. assert (0 < / x) by (apply Rinv_0_lt_compat; lra).
    assert (99 / 100 <= y * / x). { apply (Rmult_le_reg_r x); [lra|]. rewrite Rmult_assoc, Rinv_l by lra. lra. } lra. }
  pose proof (INV _ _ Ps LS) as IS'. pose proof (INV r r' ltac:(lra) Lr) as IR'. assert (QS : 0 < / s') by (apply Rinv_0_lt_compat; lra). assert (QR : 0 < / r') by (apply Rinv_0_lt_compat; lra).
  destruct (C98_closest_point dot a b q GD U1 U2 U3) as (NI & p' & (Up & O1) & MIN & AN).
  { fold X'. fold s'. lra. } { fold X'. fold c' Q. fold r'. lra. }
  { fold X'. fold c' Q s'. fold r'. apply Rle_trans with (102 / 100 * (10 + 70 / s) * (102 / 100 * (1 + / r)) * u); [|unfold Rdiv in *; lra].
    apply Rmult_le_compat_r; [lra|]. unfold Rdiv. apply Rmult_le_compat; lra. }
  fold X' in O1, MIN, AN. fold c' Q s' in MIN, AN. fold r' in AN. split; [exact NI|]. set (w := vec_of (fclosest dot a b q)) in *. destruct (near_unit_near _ NI) as (_ & W0 & _). fold w in W0.
  (* the foot points *)
  assert (TF : vcross c (vcross C c) = foot c C) by (apply foot_triple; auto). assert (TF' : vcross c' (vcross Q c') = foot c' Q) by (apply foot_triple; auto).
  assert (DF : vnorm (vsub (foot c' Q) (foot c C)) <= e + 2 * m1).
  { rewrite <- TF, <- TF'. set (x := vcross C c) in *. set (x' := vcross Q c') in *. replace (vsub (vcross c' x') (vcross c x)) with (vadd (vcross (vsub c' c) x') (vcross c (vsub x' x))) by (generalize c' c x' x; intros; vring).
    eapply Rle_trans; [apply norm_triangle|]. pose proof (vcross_le (vsub c' c) x') as C1. pose proof (vcross_le c (vsub x' x)) as C2. rewrite Uc in C2.
    assert (L1 : vnorm x' <= 1). { unfold x'. eapply Rle_trans; [apply vcross_le|]. rewrite UQ, Uc'. lra. }
    assert (vnorm (vsub c' c) * vnorm x' <= m1 * 1) by (apply Rmult_le_compat; try apply vnorm_pos; lra). lra. }
  assert (NF : forall k z, vnorm k = 1 -> vnorm (foot k z) = vnorm (vcross z k)).
  { intros k z Uk. rewrite <- foot_triple by auto. pose proof (vcross_norm_sq k (vcross z k)) as LG. assert (OO : vdot k (vcross z k) = 0) by (generalize k z; intros; vring). rewrite OO, Uk in LG.
    pose proof (vnorm_pos (vcross k (vcross z k))). pose proof (vnorm_pos (vcross z k)). nra. }
  assert (F0 : foot c C <> v0). { intros E. pose proof (NF c C Uc) as X. rewrite E, vnorm_v0 in X. fold r in X. lra. } assert (F0' : foot c' Q <> v0). { intros E. pose proof (NF c' Q Uc') as X. rewrite E, vnorm_v0 in X. fold r' in X. lra. }
  assert (EP : p' = direction (foot c' Q)).
  { apply min_unique; auto.
    - assert (ONC : on_circle (vec_of a) (vec_of b) p') by (split; auto). apply on_circle_dir in ONC; [|exact X0]. apply ONC.
    - apply MIN. apply on_circle_dir; [exact X0|]. split; [apply direction_unit; auto|]. fold X'. fold c'. unfold direction at 1. rewrite vdot_scale_l, foot_orth by auto. ring. }
  exists (direction (foot c C)). split; [|split].
  - apply on_circle_dir; auto. split; [apply direction_unit; auto|]. fold c. unfold direction at 1. rewrite vdot_scale_l, foot_orth by auto. ring.
  - intros p1 Hp. rewrite foot_near by auto. apply on_circle_dir in Hp; auto. destruct Hp. apply circle_far; auto.
  - set (p := direction (foot c C)) in *. assert (Pp : vnorm p = 1) by (apply direction_unit; auto).
    assert (DPp : vnorm (vsub p' p) <= 2 * (e + 2 * m1) * / r).
    { rewrite EP. unfold p. eapply Rle_trans; [apply direction_perturb; auto|]. rewrite (NF c C Uc). fold r. unfold Rdiv. apply Rmult_le_compat_r; lra. }
    assert (SMR : (e + 2 * m1) * / r <= / 4000000). { apply Rle_trans with (/ 4000000 * r * / r); [apply Rmult_le_compat_r; lra|]. rewrite Rmult_assoc, Rinv_r by lra. lra. }
    pose proof (angle_chord p p' _ Pp Up DPp ltac:(lra)) as AC. eapply Rle_trans; [apply (angle_triangle p p' w (vnorm_inv _ Pp) (vnorm_inv _ Up) W0)|].
    assert (E9 : (52 / 10 + (91 / 10 + 81 / 10 / s') * (1 + / r')) * u <= (52 / 10 + (91 / 10 + 81 / 10 * (102 / 100 * / s)) * (102 / 100 * (1 + / r))) * u).
    { apply Rmult_le_compat_r; [lra|]. apply Rplus_le_compat_l. unfold Rdiv. apply Rmult_le_compat; lra. }
    set (i := / s) in *. set (j := / r) in *. assert (Pij : 0 < u * i * j) by (apply Rmult_lt_0_compat; lra). assert (Puj : 0 < u * j) by (apply Rmult_lt_0_compat; lra).
    replace ((52 / 10 + (91 / 10 + 81 / 10 * (102 / 100 * i)) * (102 / 100 * (1 + j))) * u) with (52 / 10 * u + 9282 / 1000 * (u + u * j) + 842724 / 100000 * (u * i + u * i * j)) in E9 by field.
    replace (1003 / 1000 * (2 * (e + 2 * m1) * j)) with (1003 / 1000 * 326 / 10 * (u * j) + 1003 / 1000 * 2608 / 10 * (u * i * j)) in AC by (rewrite Em; unfold e; field).
    replace ((6 + (43 + 271 / s) * (1 + j)) * u) with (6 * u + 43 * (u + u * j) + 271 * (u * i + u * i * j)) by (unfold i; field; lra). lra.
Qed.
Theorem C108_closest_point : forall dot fsin fcos latA lonA latB lonB latC lonC, good_dot dot -> good_trig fsin sin -> good_trig fcos cos -> valid_at latA lonA -> valid_at latB lonB -> valid_at latC lonC ->
  let A := place (B2R latA) (B2R lonA) in let B := place (B2R latB) (B2R lonB) in let C := place (B2R latC) (B2R lonC) in
  let s := vnorm (vcross A B) in let r := vnorm (vcross C (direction (vcross A B))) in 0 < s -> / 50000 <= r -> (10 + 70 / s) * (1 + / r) * u <= / 10000000 ->
  let q := fgeo_closest dot fsin fcos latA lonA latB lonB latC lonC in near_unit q /\
  exists p, on_circle A B p /\ (forall p', on_circle A B p' -> angle C p <= angle C p') /\ angle p (vec_of q) <= (6 + (43 + 271 / s) * (1 + / r)) * u.
Proof.
  intros dot fsin fcos latA lonA latB lonB latC lonC GD GS GC W1 W2 W3 A B C s r Ps Hr Hk q.
  destruct (nvec_near fsin fcos latA lonA GS GC W1) as (U1 & N1 & _ & D1). destruct (nvec_near fsin fcos latB lonB GS GC W2) as (U2 & N2 & _ & D2). destruct (nvec_near fsin fcos latC lonC GS GC W3) as (U3 & N3 & _ & D3).
  exact (closest_core dot _ _ _ A B C GD U1 U2 U3 (place_unit _ _) (place_unit _ _) (place_unit _ _) N1 N2 N3 D1 D2 D3 Ps Hr Hk).
Qed.
Print Assumptions C108_closest_point.

(** a concrete case: the equator from (0 N, 0 E) to (0 N, 90 E), the meridian from (0 N, 0 E) to (90 N, 0 E), the position (45 N, 0 E) *)
Lemma place_00 : place 0 0 = V 1 0 0.
Proof. unfold place, latlon_vec. replace (0 * (PI / 180)) with 0 by ring. rewrite sin_0, cos_0. apply vec_eq; cbn [Spec.vx Spec.vy Spec.vz]; ring. Qed.
Lemma place_0_90 : place 0 90 = V 0 1 0.
Proof. unfold place, latlon_vec. replace (0 * (PI / 180)) with 0 by ring. replace (90 * (PI / 180)) with (PI / 2) by field. rewrite sin_0, cos_0, sin_PI2, cos_PI2. apply vec_eq; cbn [Spec.vx Spec.vy Spec.vz]; ring. Qed.
Lemma place_90_0 : place 90 0 = V 0 0 1.
Proof. unfold place, latlon_vec. replace (0 * (PI / 180)) with 0 by ring. replace (90 * (PI / 180)) with (PI / 2) by field. rewrite sin_0, cos_0, sin_PI2, cos_PI2. apply vec_eq; cbn [Spec.vx Spec.vy Spec.vz]; ring. Qed.
Lemma place_45_0 : place 45 0 = V (cos (PI / 4)) 0 (sin (PI / 4)).
Proof. unfold place, latlon_vec. replace (0 * (PI / 180)) with 0 by ring. replace (45 * (PI / 180)) with (PI / 4) by field. rewrite sin_0, cos_0. apply vec_eq; cbn [Spec.vx Spec.vy Spec.vz]; ring. Qed.
Example C108_example : good_dot dot_seq /\ good_trig (fun x => round64 (sin (B2R x))) sin /\ good_trig (fun x => round64 (cos (B2R x))) cos /\
  valid fzero fzero fzero /\ valid fzero f90 fzero /\ Rabs (B2R fzero) <= 1000000 /\ is_finite fhalf = true /\ 0 <= B2R fhalf <= 1 /\ valid_at fzero fzero /\ valid_at fzero f90 /\ valid_at f90 fzero /\ valid_at f45 fzero /\
  let A1 := place (B2R fzero) (B2R fzero) in let A2 := place (B2R fzero) (B2R f90) in let B2 := place (B2R f90) (B2R fzero) in let C := place (B2R f45) (B2R fzero) in
  (/ 100000 <= vnorm (vadd (vscale (1 - B2R fhalf) A1) (vscale (B2R fhalf) A2)) /\ 0 <= vdot A1 A2) /\
  (let A := vcross A1 A2 in let B := vcross A1 B2 in let t := vnorm (vcross (direction A) (direction B)) in
   A <> v0 /\ B <> v0 /\ 0 < t /\ (1 + / vnorm A + / vnorm B) / t * u <= / 20000000 /\ / 50000 <= Rabs (vdot (direction (vcross A B)) A1)) /\
  (let s := vnorm (vcross A1 A2) in let r := vnorm (vcross C (direction (vcross A1 A2))) in 0 < s /\ / 50000 <= r /\ (10 + 70 / s) * (1 + / r) * u <= / 10000000).
Proof.
  destruct C106_example as (E1 & E2 & E3 & _ & _ & E5 & E6 & V45 & E7 & E8 & _).
  assert (V0 : B2R fzero = 0) by reflexivity. assert (V90 : B2R f90 = 90) by (unfold f90, f, B2R, F2R; cbn; lra). assert (VH : B2R fhalf = 1 / 2) by (rewrite fhalf_val; lra).
  split; [exact E1|]. split; [exact E2|]. split; [exact E3|]. split; [exact E5|]. split; [exact E6|]. split; [exact E8|]. split; [reflexivity|]. split; [rewrite VH; lra|].
  split; [unfold valid_at; rewrite V0, Rabs_R0; repeat split; auto; lra|]. split; [unfold valid_at; rewrite V0, V90, Rabs_R0, Rabs_right by lra; repeat split; auto; lra|].
  split; [unfold valid_at; rewrite V0, V90, Rabs_R0, Rabs_right by lra; repeat split; auto; lra|]. split; [unfold valid_at; rewrite V0, V45, Rabs_R0, Rabs_right by lra; repeat split; auto; lra|].
  rewrite V0, V90, V45, VH, place_00, place_0_90, place_90_0, place_45_0. cbv zeta. assert (Us : u <= / 9000000000000000) by (rewrite u_val; lra). pose proof u_pos as Pu.
  assert (X1 : vcross (V 1 0 0) (V 0 1 0) = V 0 0 1) by (unfold vcross; cbn [Spec.vx Spec.vy Spec.vz]; apply vec_eq; cbn [Spec.vx Spec.vy Spec.vz]; ring).
  assert (X2 : vcross (V 1 0 0) (V 0 0 1) = V 0 (-1) 0) by (unfold vcross; cbn [Spec.vx Spec.vy Spec.vz]; apply vec_eq; cbn [Spec.vx Spec.vy Spec.vz]; ring).
  assert (X3 : vcross (V 0 0 1) (V 0 (-1) 0) = V 1 0 0) by (unfold vcross; cbn [Spec.vx Spec.vy Spec.vz]; apply vec_eq; cbn [Spec.vx Spec.vy Spec.vz]; ring).
  assert (L1 : vnorm (V 0 0 1) = 1) by (apply nrm1; ring). assert (L2 : vnorm (V 0 (-1) 0) = 1) by (apply nrm1; ring). assert (L3 : vnorm (V 1 0 0) = 1) by (apply nrm1; ring).
  rewrite X1, X2, (dir1 _ L1), (dir1 _ L2), X3, (dir1 _ L3), L1, L2, L3. split; [|split].
  - split; [|unfold vdot; cbn [Spec.vx Spec.vy Spec.vz]; lra]. replace (vadd (vscale (1 - 1 / 2) (V 1 0 0)) (vscale (1 / 2) (V 0 1 0))) with (V (/ 2) (/ 2) 0) by (unfold vadd, vscale; cbn [Spec.vx Spec.vy Spec.vz]; apply vec_eq; cbn [Spec.vx Spec.vy Spec.vz]; lra).
    apply Rle_trans with (/ 2); [lra|]. unfold vnorm, vdot; cbn [Spec.vx Spec.vy Spec.vz]. rewrite <- (sqrt_square (/ 2)) at 1 by lra. apply sqrt_le_1_alt. lra.
  - split; [apply vnorm_inv; auto|]. split; [apply vnorm_inv; auto|]. split; [lra|]. split; [unfold Rdiv; rewrite !Rinv_1; lra|]. unfold vdot; cbn [Spec.vx Spec.vy Spec.vz]. rewrite Rabs_right; lra.
  - assert (X4 : vcross (V (cos (PI / 4)) 0 (sin (PI / 4))) (V 0 0 1) = V 0 (- cos (PI / 4)) 0) by (unfold vcross; cbn [Spec.vx Spec.vy Spec.vz]; apply vec_eq; cbn [Spec.vx Spec.vy Spec.vz]; ring).
    assert (C4 : 1 / 2 <= cos (PI / 4)). { rewrite <- cos_PI3. pose proof PI_RGT_0. apply cos_decr_1; lra. }
    rewrite X4. assert (L4 : vnorm (V 0 (- cos (PI / 4)) 0) = cos (PI / 4)). { unfold vnorm, vdot; cbn [Spec.vx Spec.vy Spec.vz]. replace (0 * 0 + - cos (PI / 4) * - cos (PI / 4) + 0 * 0) with (cos (PI / 4) * cos (PI / 4)) by ring. apply sqrt_square. lra. }
    rewrite L4. split; [lra|]. split; [lra|]. assert (/ cos (PI / 4) <= 2). { replace 2 with (/ (1 / 2)) by field. apply Rinv_le; lra. } assert (u * / cos (PI / 4) <= u * 2) by (apply Rmult_le_compat_l; lra). unfold Rdiv. rewrite Rinv_1. lra.
Qed.
