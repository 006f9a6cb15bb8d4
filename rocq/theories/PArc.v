(** * C22: membership of a great circle segment *)
From Coq Require Import List Arith Lia Bool Reals Lra Psatz String Ascii.
From Verif Require Import Num Py Nd MUtil MRotation MCore Spec SpecArr LNum LTrig LVec LArr LAngle LDist LCircle PTrack.
Import ListNotations.
Local Open Scope R_scope.

(** ** the decision taken by the code *)
Definition rle (a b : R) : bool := if Rle_dec a b then true else false.
Lemma rle_iff a b : rle a b = true <-> a <= b.
Proof. unfold rle. destruct (Rle_dec a b); split; intros; auto; discriminate || contradiction. Qed.

Lemma ratio_blist X S n u s : list1 X n u -> list1 S 1 (fun _ => s) -> 0 < s ->
  exists Q, map2 ndiv X S = ret Q /\ blist (map1 (fun t => nle t (Fin 1)) Q) n (fun j => rle (u j) s).
Proof.
  intros HX HS Ps.
  destruct (map2_list1_vals ndiv Rdiv (fun q => q <> 0) _ _ _ _ _ _ _
             (fun x y p q Hx Hy Hq => fin_div x y p q Hx Hy Hq) HX (list1_vals _ _ _ HS) (bdim_1_r n)) as (Q & E & SQ & GQ).
  { intros; lra. }
  exists Q; split; auto. split; [exact SQ|]. intros j Hj. unfold map1; cbn [get].
  rewrite (nle_fin _ _ _ 1 (GQ j Hj)) by reflexivity. cbv beta. rewrite (cl_id n j Hj). unfold rle.
  destruct (Rle_dec (u j / s) 1) as [L|L], (Rle_dec (u j) s) as [L'|L']; auto; exfalso.
  - apply L'. apply (Rmult_le_compat_r s) in L; [|lra]. unfold Rdiv in L. rewrite Rmult_assoc, Rinv_l in L; lra.
  - apply L. apply (Rmult_le_reg_r s); auto. unfold Rdiv. rewrite Rmult_assoc, Rinv_l; lra.
Qed.

Lemma ogcp_spec A1 A2 B m a1 a2 v radius k r xt t :
  cols A1 1 (fun _ => a1) -> cols A2 1 (fun _ => a2) -> cols B m v -> vcross a1 a2 <> v0 ->
  (forall j, (j < m)%nat -> vnorm (v j) = 1) ->
  vals radius k r -> bdim m k = Some m -> xt ≈ t ->
  exists D, on_great_circle_path (A1, A2) B radius xt = ret D /\
    blist D m (fun j => rle (vnorm (vsub (v j) a1)) (vnorm (vsub a2 a1)) &&
                        rle (vnorm (vsub (v j) a2)) (vnorm (vsub a2 a1)) &&
                        rle (Rabs (asin (xsin a1 a2 (v j)) * r (cl k j))) t).
Proof.
  intros H1 H2 HB Z Hv Hr D Ht. unfold on_great_circle_path.
  step (sub_cols _ _ _ _ _ _ _ H2 H1 (bdim_refl 1)) D12 H12.
  step (norm0_list1 _ _ _ H12) Sc HSc.
  step (sub_cols _ _ _ _ _ _ _ HB H1 (bdim_1_r m)) DB1 HB1.
  step (norm0_list1 _ _ _ HB1) NB1 HN1.
  assert (Ps : 0 < vnorm (vsub a2 a1)).
  { apply vnorm_nz. intros E. apply Z. destruct a1 as [x y z], a2 as [x' y' z']. unfold vsub, v0 in E; cbn [vx vy vz] in E.
    injection E; intros. unfold vcross; cbn [vx vy vz].
    replace x' with x by lra. replace y' with y by lra. replace z' with z by lra. unfold v0; f_equal; ring. }
  destruct (ratio_blist _ _ _ _ _ HN1 HSc Ps) as (T1 & E & HT1). rewrite E, bind_ret; clear E.
  step (sub_cols _ _ _ _ _ _ _ HB H2 (bdim_1_r m)) DB2 HB2.
  step (norm0_list1 _ _ _ HB2) NB2 HN2.
  destruct (ratio_blist _ _ _ _ _ HN2 HSc Ps) as (T2 & E & HT2). rewrite E, bind_ret; clear E.
  destruct (ogc_spec A1 A2 B m _ _ v radius k r xt t H1 H2 HB Z Hv Hr D Ht) as (On & E & HOn). rewrite E, bind_ret; clear E.
  destruct (and_blist _ _ _ _ _ HT1 HT2) as (Bo & E & HBo). rewrite E, bind_ret; clear E.
  destruct (and_blist _ _ _ _ _ HBo HOn) as (Re & E & SR & GR).
  exists Re; split; auto. split; auto. intros j Hj. rewrite (GR j Hj). cbv beta.
  rewrite !(cl_id m j Hj). unfold rle. reflexivity.
Qed.

(** For every tolerance: accepted exactly when B is within the tolerance of the great circle and
    no further (in chord length) from either end point than they are from each other. *)
Theorem C22_decision : forall A1 A2 B m a1 a2 v radius k r xt t,
  cols A1 1 (fun _ => a1) -> cols A2 1 (fun _ => a2) -> vcross a1 a2 <> v0 ->
  vnorm a1 = 1 -> vnorm a2 = 1 ->
  cols B m v -> (forall j, (j < m)%nat -> vnorm (v j) = 1) ->
  vals radius k r -> (k = 1%nat \/ k = m) -> (forall j, (j < k)%nat -> 0 < r j) -> xt ≈ t ->
  returns (on_great_circle_path (A1, A2) B radius xt) [] (fun D =>
    shape D = [m] /\ forall j, (j < m)%nat ->
      (get D [j] = true <->
         (exists p, on_circle a1 a2 p /\ r (cl k j) * angle (v j) p <= t) /\
         angle a1 (v j) <= angle a1 a2 /\ angle a2 (v j) <= angle a1 a2)).
Proof.
  intros A1 A2 B m a1 a2 v radius k r xt t H1 H2 Z U1 U2 HB Hv Hr Hk Pr Ht.
  assert (D : bdim m k = Some m) by (destruct Hk as [->| ->]; [apply bdim_1_r|apply bdim_refl]).
  destruct (ogcp_spec A1 A2 B m a1 a2 v radius k r xt t H1 H2 HB Z Hv Hr D Ht) as (X & E & SX & GX).
  exists X; split; auto. split; auto. intros j Hj. rewrite (GX j Hj). cbv beta.
  assert (P : 0 < r (cl k j)) by (apply Pr; apply (cl_lt_r _ _ _ _ D Hj)).
  rewrite !andb_true_iff, !rle_iff.
  assert (Ch : forall x y z, vnorm x = 1 -> vnorm y = 1 -> vnorm z = 1 ->
     (vnorm (vsub z x) <= vnorm (vsub y x) <-> angle x z <= angle x y)).
  { intros x y z Hx Hy Hz. rewrite !chord_angle by auto.
    pose proof (angle_range x y) as Q1. pose proof (angle_range x z) as Q2. pose proof PI_RGT_0. split; intros L.
    - destruct (Rle_lt_dec (angle x z) (angle x y)) as [|G]; auto. exfalso.
      assert (sin (angle x y / 2) < sin (angle x z / 2)) by (apply sin_increasing_1; lra). lra.
    - assert (sin (angle x z / 2) <= sin (angle x y / 2)) by (apply sin_incr_1; lra). lra. }
  rewrite (Ch a1 a2 (v j)) by auto.
  replace (vnorm (vsub a2 a1)) with (vnorm (vsub a1 a2)).
  2:{ rewrite <- vnorm_neg. f_equal. vring. }
  rewrite (Ch a2 a1 (v j)), (angle_sym a2 a1) by auto.
  rewrite Rabs_mult, (Rabs_right (r (cl k j))) by lra.
  split.
  - intros [[L1 L2] L3]. split; auto. destruct (xsin_near a1 a2 (v j) Z (Hv j Hj)) as (p & Hp & Ep).
    exists p; split; auto. rewrite Ep. lra.
  - intros [(p & Hp & Lp) [L1 L2]]. split; auto. pose proof (xsin_far a1 a2 (v j) Z (Hv j Hj) p Hp). nra.
Qed.
Print Assumptions C22_decision.

(** ** arcs *)
Lemma plane_id a1 a2 b :
  vscale (vdot (vcross a1 a2) (vcross a1 a2)) b =
    vadd (vscale (vdot b (vcross a1 a2)) (vcross a1 a2))
      (vadd (vscale (vdot b a1 * vdot a2 a2 - vdot a1 a2 * vdot b a2) a1)
            (vscale (vdot b a2 * vdot a1 a1 - vdot a1 a2 * vdot b a1) a2)).
Proof.
  pose proof (triple_cross (vcross a1 a2) b (vcross a1 a2)) as T.
  rewrite (triple_cross b a1 a2) in T.
  assert (Xs : forall u v w, vcross u (vsub v w) = vsub (vcross u v) (vcross u w)) by (intros; vring).
  rewrite Xs, !vcross_scale_r, !triple_cross_l in T.
  rewrite (vdot_comm (vcross a1 a2) b), (vdot_comm a2 a1) in T.
  generalize dependent (vcross a1 a2). intros n T.
  revert T. generalize (vdot b a1) (vdot b a2) (vdot a1 a1) (vdot a2 a2) (vdot a1 a2) (vdot n n) (vdot b n).
  intros p q s11 s22 s12 nn bn. destruct a1 as [x y z], a2 as [x' y' z'], b as [x'' y'' z''], n as [n0 n1 n2].
  unfold vsub, vadd, vscale; cbn [vx vy vz]. intros T. injection T; intros. f_equal; lra.
Qed.
Section Arc.
Variables a1 a2 : vec.
Hypothesis U1 : vnorm a1 = 1.
Hypothesis U2 : vnorm a2 = 1.
Hypothesis Z : vcross a1 a2 <> v0.
Let g := vdot a1 a2.
Let U1' : vdot a1 a1 = 1. Proof. apply vnorm_unit; auto. Qed.
Let U2' : vdot a2 a2 = 1. Proof. apply vnorm_unit; auto. Qed.

Lemma g_lt : -1 < g < 1.
Proof.
  pose proof (vdot_nz _ Z) as P. rewrite lagrange, U1', U2' in P. fold g in P. split; nra.
Qed.

(** coordinates in the plane *)
Lemma plane_coords b : vdot b (vcross a1 a2) = 0 ->
  b = vadd (vscale ((vdot b a1 - g * vdot b a2) / (1 - g * g)) a1)
           (vscale ((vdot b a2 - g * vdot b a1) / (1 - g * g)) a2).
Proof.
  intros O. pose proof g_lt as G.
  assert (K : 1 - g * g <> 0) by nra.
  (* |a1 x a2|^2 b = ... *)
  pose proof (plane_id a1 a2 b) as I.
  rewrite O, vscale_0, lagrange, U1', U2' in I. fold g in I.
  replace (1 * 1 - g * g) with (1 - g * g) in I by ring.
  rewrite !Rmult_1_r in I.
  apply (f_equal (vscale (/ (1 - g * g)))) in I. rewrite vscale_vscale, Rinv_l, vscale_1 in I by auto.
  rewrite I at 1. destruct a1 as [x y z], a2 as [x' y' z']. unfold vadd, vscale, v0; cbn [vx vy vz].
  f_equal; field; auto.
Qed.

Lemma plane_norm b : vnorm b = 1 -> vdot b (vcross a1 a2) = 0 ->
  1 - g * g = vdot b a1 * vdot b a1 + vdot b a2 * vdot b a2 - 2 * g * vdot b a1 * vdot b a2.
Proof.
  intros Ub O. apply vnorm_unit in Ub.
  assert (I : vdot (vcross a1 a2) (vcross a1 a2) * vdot b b = vdot b (vcross a1 a2) * vdot b (vcross a1 a2) +
    (vdot b a1 * vdot b a1 * vdot a2 a2 + vdot b a2 * vdot b a2 * vdot a1 a1 - 2 * vdot a1 a2 * vdot b a1 * vdot b a2))
    by (pose proof (f_equal (vdot b) (plane_id a1 a2 b)) as I0;
        rewrite !vdot_add_r, !vdot_scale_r in I0; rewrite I0; ring).
  rewrite O, Ub, lagrange, U1', U2' in I. fold g in I. lra.
Qed.

Lemma arc_complete b : on_arc a1 a2 b -> vdot b (vcross a1 a2) = 0 /\ g <= vdot b a1 /\ g <= vdot b a2.
Proof.
  intros [Ub (s & t & Hs & Ht & E)]. pose proof g_lt as G.
  assert (O : vdot b (vcross a1 a2) = 0).
  { rewrite E, vdot_add_l, !vdot_scale_l, vdot_cross_l, vdot_cross_r. ring. }
  assert (D1 : vdot b a1 = s + t * g).
  { rewrite E, vdot_add_l, !vdot_scale_l, U1', (vdot_comm a2 a1). fold g. ring. }
  assert (D2 : vdot b a2 = s * g + t).
  { rewrite E, vdot_add_l, !vdot_scale_l, U2'. fold g. ring. }
  assert (N : s * s + t * t + 2 * s * t * g = 1).
  { apply vnorm_unit in Ub. rewrite <- Ub. rewrite E.
    rewrite !vdot_add_l, !vdot_add_r, !vdot_scale_l, !vdot_scale_r, U1', U2', (vdot_comm a2 a1). fold g. ring. }
  assert (H : forall s t, 0 <= s -> 0 <= t -> s * s + t * t + 2 * s * t * g = 1 -> g <= s + t * g).
  { clear - G. intros s t Hs Ht N.
    assert (St : 0 <= s * t) by (apply Rmult_le_pos; auto).
    assert (K : 1 <= s + t).
    { assert (1 <= (s + t) * (s + t)) by nra. nra. }
    destruct (Rle_lt_dec 0 g) as [P|P]; [nra|].
    destruct (Rle_lt_dec t 1) as [T|T]; [nra|].
    destruct (Rle_lt_dec g (s + t * g)) as [|L]; auto. exfalso.
    (* s < (t - 1) (-g) *)
    assert (L' : s < (t - 1) * (- g)) by lra.
    assert (Q : 0 < ((t - 1) * (- g) - s) * ((t + 1) * (- g) - s)).
    { apply Rmult_lt_0_compat; [lra|]. nra. }
    assert (W : s * s + 2 * s * t * g + t * t - 1 = (((t - 1) * (- g) - s) * ((t + 1) * (- g) - s)) + (t * t - 1) * (1 - g * g)) by ring.
    assert (0 < (t * t - 1) * (1 - g * g)) by (apply Rmult_lt_0_compat; nra).
    lra. }
  split; auto. rewrite D1, D2. split; [apply H; auto|].
  rewrite (Rplus_comm (s * g) t). apply H; auto. lra.
Qed.

Lemma arc_sound b : -1/2 < g -> vnorm b = 1 -> vdot b (vcross a1 a2) = 0 ->
  g <= vdot b a1 -> g <= vdot b a2 -> on_arc a1 a2 b.
Proof.
  intros Gh Ub O L1 L2. pose proof g_lt as G. split; auto.
  pose proof (plane_norm b Ub O) as N. pose proof (plane_coords b O) as E.
  pose proof (vdot_unit_bound b a1 Ub U1) as B1. pose proof (vdot_unit_bound b a2 Ub U2) as B2.
  set (p := vdot b a1) in *. set (q := vdot b a2) in *.
  assert (H : forall p q, -1 <= p <= 1 -> -1 <= q <= 1 -> g <= p -> g <= q ->
     1 - g * g = p * p + q * q - 2 * g * p * q -> 0 <= q - g * p).
  { clear - G Gh. intros p q B1 B2 L1 L2 N.
    destruct (Rle_lt_dec 0 (q - g * p)) as [|L]; auto. exfalso.
    assert (S : (q - g * p) * (q - g * p) = (1 - g * g) * (1 - p * p)) by nra.
    assert (S2 : (q - g * p) * (q - g * p) <= (g * (1 - p)) * (g * (1 - p))).
    { assert (g * (1 - p) <= q - g * p) by lra. nra. }
    destruct (Req_dec p 1) as [->|Np]; [lra|].
    assert (Pp : 0 < 1 - p) by lra.
    assert (S3 : (1 - p) * ((1 - g * g) * (1 + p)) <= (1 - p) * (g * g * (1 - p))) by nra.
    apply Rmult_le_reg_l in S3; auto.
    assert (p <= 2 * (g * g) - 1) by lra. nra. }
  exists ((p - g * q) / (1 - g * g)), ((q - g * p) / (1 - g * g)).
  assert (K : 0 < 1 - g * g) by nra.
  split; [|split; [|exact E]]; apply Rmult_le_pos; try (left; apply Rinv_0_lt_compat; auto).
  - apply H; auto. lra.
  - apply H; auto.
Qed.
End Arc.

Lemma angle_le_iff a b c : vnorm a = 1 -> vnorm b = 1 -> vnorm c = 1 ->
  (angle a c <= angle a b <-> vdot a b <= vdot c a).
Proof.
  intros Ha Hb Hc. rewrite (vdot_comm c a). split.
  - intros L. destruct (Rle_lt_dec (vdot a b) (vdot a c)) as [|G]; auto. exfalso.
    pose proof (angle_lt a c b Ha Hc Hb G). lra.
  - apply angle_le; auto.
Qed.

(** with zero tolerance: on the circle and both dot products at least that of the end points *)
Lemma ogcp0 A1 A2 B m a1 a2 v radius k r xt :
  cols A1 1 (fun _ => a1) -> cols A2 1 (fun _ => a2) -> vcross a1 a2 <> v0 ->
  vnorm a1 = 1 -> vnorm a2 = 1 ->
  cols B m v -> (forall j, (j < m)%nat -> vnorm (v j) = 1) ->
  vals radius k r -> (k = 1%nat \/ k = m) -> (forall j, (j < k)%nat -> 0 < r j) -> xt ≈ 0 ->
  exists D, on_great_circle_path (A1, A2) B radius xt = ret D /\ shape D = [m] /\ forall j, (j < m)%nat ->
    (get D [j] = true <->
      vdot (v j) (vcross a1 a2) = 0 /\ vdot a1 a2 <= vdot (v j) a1 /\ vdot a1 a2 <= vdot (v j) a2).
Proof.
  intros H1 H2 Z U1 U2 HB Hv Hr Hk Pr Ht.
  destruct (C22_decision A1 A2 B m a1 a2 v radius k r xt 0 H1 H2 Z U1 U2 HB Hv Hr Hk Pr Ht) as (D & E & S & G).
  exists D; split; auto. split; auto. intros j Hj. rewrite (G j Hj). clear G.
  assert (Bd : bdim m k = Some m) by (destruct Hk as [->| ->]; [apply bdim_1_r|apply bdim_refl]).
  assert (P : 0 < r (cl k j)) by (apply Pr; apply (cl_lt_r _ _ _ _ Bd Hj)).
  rewrite (angle_le_iff a1 a2 (v j)), (angle_sym a1 a2), (angle_le_iff a2 a1 (v j)), (vdot_comm a2 a1) by auto.
  assert (Q : (exists p, on_circle a1 a2 p /\ r (cl k j) * angle (v j) p <= 0) <-> vdot (v j) (vcross a1 a2) = 0).
  { split.
    - intros (p & [Up Op] & L). pose proof (angle_range (v j) p) as [A0 _].
      assert (A : angle (v j) p = 0) by nra.
      assert (C : vdot (v j) p = 1) by (rewrite <- cos_angle_unit, A, cos_0 by auto; auto).
      apply vdot_unit_1 in C; auto. rewrite C. exact Op.
    - intros O. exists (v j). split; [split; auto|]. rewrite angle_self by (apply vnorm_inv; auto). lra. }
  rewrite Q. tauto.
Qed.

(** Full statement (C22): True iff B is on the shorter arc from A1 to A2.
    Proved for paths shorter than 120 degrees; for longer paths refuted below (completeness holds for all). *)
Theorem C22_segment_partial : forall A1 A2 B m a1 a2 v radius k r xt,
  cols A1 1 (fun _ => a1) -> cols A2 1 (fun _ => a2) -> vcross a1 a2 <> v0 ->
  vnorm a1 = 1 -> vnorm a2 = 1 -> angle a1 a2 < 2 * PI / 3 ->
  cols B m v -> (forall j, (j < m)%nat -> vnorm (v j) = 1) ->
  vals radius k r -> (k = 1%nat \/ k = m) -> (forall j, (j < k)%nat -> 0 < r j) -> xt ≈ 0 ->
  returns (on_great_circle_path (A1, A2) B radius xt) [] (fun D =>
    shape D = [m] /\ forall j, (j < m)%nat -> (get D [j] = true <-> on_arc a1 a2 (v j))).
Proof.
  intros A1 A2 B m a1 a2 v radius k r xt H1 H2 Z U1 U2 An HB Hv Hr Hk Pr Ht.
  destruct (ogcp0 A1 A2 B m a1 a2 v radius k r xt H1 H2 Z U1 U2 HB Hv Hr Hk Pr Ht) as (D & E & S & G).
  exists D; split; auto. split; auto. intros j Hj. rewrite (G j Hj).
  assert (Gh : -1/2 < vdot a1 a2).
  { rewrite <- cos_angle_unit by auto. pose proof (angle_range a1 a2). pose proof PI_RGT_0.
    assert (Co : cos (2 * (PI / 3)) = -1/2).
    { rewrite cos_2PI3. field. }
    rewrite <- Co. apply cos_decreasing_1; lra. }
  split.
  - intros (O & L1 & L2). apply arc_sound; auto.
  - apply arc_complete; auto.
Qed.
Print Assumptions C22_segment_partial.

(** every point of the shorter arc is accepted, whatever the length of the path *)
Theorem C22_accepts_segment : forall A1 A2 B m a1 a2 v radius k r xt,
  cols A1 1 (fun _ => a1) -> cols A2 1 (fun _ => a2) -> vcross a1 a2 <> v0 ->
  vnorm a1 = 1 -> vnorm a2 = 1 ->
  cols B m v -> (forall j, (j < m)%nat -> on_arc a1 a2 (v j)) ->
  vals radius k r -> (k = 1%nat \/ k = m) -> (forall j, (j < k)%nat -> 0 < r j) -> xt ≈ 0 ->
  returns (on_great_circle_path (A1, A2) B radius xt) [] (fun D =>
    shape D = [m] /\ forall j, (j < m)%nat -> get D [j] = true).
Proof.
  intros A1 A2 B m a1 a2 v radius k r xt H1 H2 Z U1 U2 HB Hv Hr Hk Pr Ht.
  destruct (ogcp0 A1 A2 B m a1 a2 v radius k r xt H1 H2 Z U1 U2 HB (fun j Hj => proj1 (Hv j Hj)) Hr Hk Pr Ht) as (D & E & S & G).
  exists D; split; auto. split; auto. intros j Hj. apply (G j Hj). apply arc_complete; auto.
Qed.
Print Assumptions C22_accepts_segment.

(** for every path of 120 degrees or more, the antipode of its midpoint is accepted *)
Theorem C22_long_segment_refuted : forall A1 A2 B a1 a2 radius r xt,
  cols A1 1 (fun _ => a1) -> cols A2 1 (fun _ => a2) -> vcross a1 a2 <> v0 ->
  vnorm a1 = 1 -> vnorm a2 = 1 -> vdot a1 a2 <= -1/2 ->
  cols B 1 (fun _ => direction (vneg (vadd a1 a2))) -> scalar radius r -> 0 < r -> xt ≈ 0 ->
  returns (on_great_circle_path (A1, A2) B radius xt) [] (fun D => get D [0%nat] = true) /\
  ~ on_arc a1 a2 (direction (vneg (vadd a1 a2))).
Proof.
  intros A1 A2 B a1 a2 radius r xt H1 H2 Z U1 U2 Gl HB Hr Pr Ht.
  pose proof (g_lt a1 a2 U1 U2 Z) as G.
  apply vnorm_unit in U1 as U1'. apply vnorm_unit in U2 as U2'.
  set (w := vneg (vadd a1 a2)) in *.
  assert (W2 : vdot w w = 2 + 2 * vdot a1 a2).
  { unfold w. rewrite vdot_neg_l, vdot_neg_r, vdot_add_l, !vdot_add_r, U1', U2', (vdot_comm a2 a1). ring. }
  assert (Wn : w <> v0). { intros E. rewrite E in W2. replace (vdot v0 v0) with 0 in W2 by vring. lra. }
  pose proof (vnorm_nz _ Wn) as Np. pose proof (vnorm_sq w) as Ns. rewrite W2 in Ns.
  assert (D1 : vdot w a1 = - (1 + vdot a1 a2)).
  { unfold w. rewrite vdot_neg_l, vdot_add_l, U1', (vdot_comm a2 a1). ring. }
  assert (D2 : vdot w a2 = - (1 + vdot a1 a2)).
  { unfold w. rewrite vdot_neg_l, vdot_add_l, U2'. ring. }
  assert (F : vdot a1 a2 <= / vnorm w * - (1 + vdot a1 a2)).
  { (* = - |w| / 2 *)
    replace (/ vnorm w * - (1 + vdot a1 a2)) with (- (vnorm w / 2)).
    2:{ apply (Rmult_eq_reg_l (vnorm w)); [|lra]. rewrite <- Rmult_assoc, Rinv_r by lra. lra. }
    assert (vnorm w * vnorm w <= (-2 * vdot a1 a2) * (-2 * vdot a1 a2)) by nra.
    assert (vnorm w <= -2 * vdot a1 a2) by nra. lra. }
  split.
  - destruct (ogcp0 A1 A2 B 1 a1 a2 _ radius 1 (fun _ => r) xt H1 H2 Z U1 U2 HB
      (fun _ _ => direction_unit _ Wn) (vals_scalar _ _ Hr) (or_introl eq_refl) (fun _ _ => Pr) Ht) as (D & E & S & GD).
    exists D; split; auto. apply (GD 0%nat); [lia|]. unfold direction. rewrite !vdot_scale_l, D1, D2.
    split; [|split; exact F]. unfold w. rewrite vdot_neg_l, vdot_add_l, vdot_cross_l, vdot_cross_r. ring.
  - intros [_ (s & t & Hs & Ht' & E)].
    (* dot with a1 + a2 *)
    assert (Q : vdot (direction w) (vadd a1 a2) = (s + t) * (1 + vdot a1 a2)).
    { rewrite E, vdot_add_l, !vdot_scale_l, !vdot_add_r, U1', U2', (vdot_comm a2 a1). ring. }
    assert (Q' : vdot (direction w) (vadd a1 a2) = - vnorm w).
    { unfold direction. rewrite vdot_scale_l. replace (vadd a1 a2) with (vneg w) by (unfold w; apply vneg_neg).
      rewrite vdot_neg_r, <- vnorm_sq. field. lra. }
    rewrite Q' in Q. assert (0 <= (s + t) * (1 + vdot a1 a2)) by (apply Rmult_le_pos; lra). lra.
Qed.
Print Assumptions C22_long_segment_refuted.

Example C22_example : vcross (V 1 0 0) (V (-4/5) (3/5) 0) <> v0 /\ vnorm (V (-4/5) (3/5) 0) = 1
  /\ vdot (V 1 0 0) (V (-4/5) (3/5) 0) <= -1/2 /\ -1/2 < vdot (V 1 0 0) (V 0 1 0).
Proof.
  split; [unfold vcross; simpl; intros [=]; lra|]. split; [apply vnorm_unit; unfold vdot; simpl; field|].
  unfold vdot; simpl; split; lra.
Qed.

(** as many paths as positions (n >= 2): ValueError *)
Theorem C22_columns_refuted : forall A1 A2 B n u1 u2 v radius r xt,
  cols A1 n u1 -> cols A2 n u2 -> cols B n v ->
  (forall j, (j < n)%nat -> vcross (u1 j) (u2 j) <> v0) -> scalar radius r -> (2 <= n)%nat ->
  raises (on_great_circle_path (A1, A2) B radius xt) ValueError.
Proof.
  intros A1 A2 B n u1 u2 v radius r xt H1 H2 HB Z Hr Hn. unfold on_great_circle_path.
  step (sub_cols _ _ _ _ _ _ _ H2 H1 (bdim_refl n)) D12 H12.
  destruct (norm0_cols _ _ _ H12) as (Sc & E & SSc & _). rewrite E, bind_ret; clear E.
  step (sub_cols _ _ _ _ _ _ _ HB H1 (bdim_refl n)) DB1 HB1.
  destruct (norm0_cols _ _ _ HB1) as (N1 & E & SN1 & _). rewrite E, bind_ret; clear E.
  unfold map2 at 1. rewrite SSc, SN1, (bshape_n_m _ _ _ (bdim_refl n)), bind_ret.
  step (sub_cols _ _ _ _ _ _ _ HB H2 (bdim_refl n)) DB2 HB2.
  destruct (norm0_cols _ _ _ HB2) as (N2 & E & SN2 & _). rewrite E, bind_ret; clear E.
  unfold map2 at 1. rewrite SSc, SN2, (bshape_n_m _ _ _ (bdim_refl n)), bind_ret.
  unfold on_great_circle, cross_track_distance. cbn [fst snd].
  destruct (gcn_cols_nz _ _ _ _ _ _ _ H1 H2 (bdim_refl n)) as (C & E & HC).
  { intros j Hj. rewrite !cl_id; auto. }
  rewrite E, bind_ret; clear E.
  destruct (dot_T_cols _ _ _ _ _ _ HC HB) as (Dt & E & SD & GD). rewrite E, bind_ret; clear E.
  rewrite method_ok, bind_ret by discriminate. change (euclid "greatcircle") with false. cbv iota.
  unfold great_circle_xtd. destruct Hr as [Sr _].
  unfold map2 at 1. unfold map1 at 1. cbn [shape]. unfold ravel, size at 1. cbn [shape map1]. rewrite SD, Sr, bshape_nil_r.
  rewrite !bind_ret. cbn [prod fold_right]. rewrite Nat.mul_1_r.
  unfold map2 at 1. cbn [map1 shape]. rewrite (bshape_n_m _ _ _ (bdim_refl n)), bind_ret.
  unfold map2.
  assert (Q : bdim n (n * n) = None).
  { unfold bdim. destruct (Nat.eqb_spec n (n * n)); [nia|]. destruct (Nat.eqb_spec n 1); [lia|].
    destruct (Nat.eqb_spec (n * n) 1); [nia|]. reflexivity. }
  match goal with |- context [bshape ?a ?b] => assert (Q2 : bshape a b = None) end.
  { change (bshape [n] [(n * n)%nat] = None). unfold bshape. cbn [rev app bshape_rev]. rewrite Q. reflexivity. }
  rewrite Q2. reflexivity.
Qed.
Print Assumptions C22_columns_refuted.
