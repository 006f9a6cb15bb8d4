(** * C114: what GeoPath.closest_point_on_path returns in binary64: as close as any position of the path *)
From Coq Require Import ZArith Reals Lra Lia Bool Psatz.
From Flocq Require Import Core BinarySingleNaN Relative.
From Verif Require Import Spec LVec LAngle LCircle PArc PClosest FTiny FZero FBase FRel FRel2 FUnit FPi FAngle FMod FDist FClose FGreat FLatLon FInv FInv2 FTrack FOnCircle FEcef FEcef2 FNed FNed2 FNed3 FDelta FDelta2 FDelta3
  FMove FWay FWay2 FWay3 FWay4 FInterp FPoint FPoint2 FGeod FEqual FOnPath PTrack FMean FNearest.
Local Open Scope R_scope.

(** ** angles in a plane *)
Lemma plane_angle A B P x y : vnorm A = 1 -> vnorm B = 1 -> vnorm P = 1 -> P = vadd (vscale x A) (vscale y B) ->
  (0 <= x -> cos (angle P A) = cos (angle A B - angle P B)) /\ (x <= 0 -> cos (angle P A) = cos (angle A B + angle P B)).
Proof.
  intros UA UB UP EP. rewrite (cos_angle_unit P A UP UA), cos_minus, cos_plus, !cos_angle_unit by auto.
  assert (D1 : vdot A A = 1) by (apply vnorm_unit; auto). assert (D2 : vdot B B = 1) by (apply vnorm_unit; auto). assert (D3 : vdot P P = 1) by (apply vnorm_unit; auto).
  pose proof (sin_angle A B ltac:(intros ->; rewrite vnorm_v0 in UA; lra) ltac:(intros ->; rewrite vnorm_v0 in UB; lra)) as SA. pose proof (sin_angle P B ltac:(intros ->; rewrite vnorm_v0 in UP; lra) ltac:(intros ->; rewrite vnorm_v0 in UB; lra)) as SB.
  rewrite UA, UB in SA. rewrite UP, UB in SB. rewrite !Rmult_1_l in SA, SB.
  assert (CX : vcross P B = vscale x (vcross A B)). { rewrite EP. clear. unfold vcross, vadd, vscale; cbn [Spec.vx Spec.vy Spec.vz]. apply vec_eq; cbn [Spec.vx Spec.vy Spec.vz]; ring. }
  rewrite CX, vnorm_scale in SB. rewrite <- SB, <- SA. pose proof (vcross_norm_sq A B) as LG. rewrite UA, UB in LG.
  assert (A1 : vdot P A = x + y * vdot A B). { rewrite EP, vdot_comb, D1, (vdot_comm B A). ring. }
  assert (B1 : vdot P B = x * vdot A B + y). { rewrite EP, vdot_comb, D2. ring. }
  rewrite A1, B1. split; intros H; [rewrite Rabs_right by lra|rewrite Rabs_left1 by lra].
  - replace (vnorm (vcross A B) * (x * vnorm (vcross A B))) with (x * (vnorm (vcross A B) * vnorm (vcross A B))) by ring. rewrite LG. ring.
  - replace (vnorm (vcross A B) * (- x * vnorm (vcross A B))) with (- x * (vnorm (vcross A B) * vnorm (vcross A B))) by ring. rewrite LG. ring.
Qed.
Lemma cos_eq a b : 0 <= a <= PI -> 0 <= b <= PI -> cos a = cos b -> a = b.
Proof. intros Ha Hb E. rewrite <- (acos_cos a), <- (acos_cos b) by lra. rewrite E. reflexivity. Qed.
Lemma cos_2pi a : cos a = cos (2 * PI - a). Proof. rewrite <- (cos_neg a). rewrite <- (cos_period (- a) 1). f_equal. cbn. ring. Qed.

(** the angles from the ends to a point of the arc add up *)
Lemma arc_sum A B P : vnorm A = 1 -> vnorm B = 1 -> vcross A B <> v0 -> on_arc A B P -> angle P A + angle P B = angle A B.
Proof.
  intros UA UB Z (UP & x & y & X & Y & EP).
  assert (EP' : P = vadd (vscale y B) (vscale x A)). { rewrite EP. clear. unfold vadd, vscale. apply vec_eq; cbn [Spec.vx Spec.vy Spec.vz]; ring. }
  destruct (plane_angle A B P x y UA UB UP EP) as (P1 & _). destruct (plane_angle B A P y x UB UA UP EP') as (Q1 & _). rewrite (angle_sym B A) in Q1. specialize (P1 X). specialize (Q1 Y).
  pose proof (angle_range P A) as RA. pose proof (angle_range P B) as RB. pose proof (angle_range A B) as RT.
  assert (T0 : angle A B <> 0). { intros E. pose proof (sin_angle A B ltac:(intros ->; rewrite vnorm_v0 in UA; lra) ltac:(intros ->; rewrite vnorm_v0 in UB; lra)) as S. rewrite E, sin_0, Rmult_0_r in S. apply Z. apply vnorm_0. exact S. }
  set (ta := angle P A) in *. set (tb := angle P B) in *. set (th := angle A B) in *.
  destruct (Rle_dec tb th) as [L|L]; [apply cos_eq in P1; lra|]. rewrite <- (cos_neg (th - tb)) in P1. apply cos_eq in P1; [|lra|lra].
  destruct (Rle_dec ta th) as [M|M]; [apply cos_eq in Q1; lra|]. rewrite <- (cos_neg (th - ta)) in Q1. apply cos_eq in Q1; lra.
Qed.
(** a point of the great circle of A and B is on the arc, or beyond B, or beyond A, or on the far side *)
Lemma circle_cases A B P : vnorm A = 1 -> vnorm B = 1 -> vcross A B <> v0 -> on_circle A B P ->
  (on_arc A B P /\ angle P A + angle P B = angle A B) \/ angle P A = angle A B + angle P B \/ angle P B = angle A B + angle P A \/ angle P A + angle P B + angle A B = 2 * PI.
Proof.
  intros UA UB Z (UP & OP). pose proof (plane_coords A B UA UB Z P OP) as EP. set (x := _ / _) in EP. set (y := (vdot P B - _) / _) in EP. clearbody x y.
  assert (EP' : P = vadd (vscale y B) (vscale x A)). { rewrite EP. clear. unfold vadd, vscale. apply vec_eq; cbn [Spec.vx Spec.vy Spec.vz]; ring. }
  destruct (plane_angle A B P x y UA UB UP EP) as (P1 & P2). destruct (plane_angle B A P y x UB UA UP EP') as (Q1 & Q2). rewrite (angle_sym B A) in Q1, Q2.
  pose proof (angle_range P A) as RA. pose proof (angle_range P B) as RB. pose proof (angle_range A B) as RT.
  set (ta := angle P A) in *. set (tb := angle P B) in *. set (th := angle A B) in *.
  destruct (Rle_dec 0 x) as [X|X].
  - specialize (P1 X). destruct (Rle_dec 0 y) as [Y|Y].
    + left. assert (OA : on_arc A B P) by (split; auto; exists x, y; auto). split; auto. apply arc_sum; auto.
    + assert (Y' : y <= 0) by lra. specialize (Q2 Y'). destruct (Rle_dec (th + ta) PI) as [L|L].
      * apply cos_eq in Q2; lra.
      * right. right. right. rewrite (cos_2pi (th + ta)) in Q2. apply cos_eq in Q2; lra.
  - assert (X' : x <= 0) by lra. specialize (P2 X'). destruct (Rle_dec (th + tb) PI) as [L|L].
    + apply cos_eq in P2; lra.
    + rewrite (cos_2pi (th + tb)) in P2. apply cos_eq in P2; lra.
Qed.

Lemma chord_le u v w d : vnorm u = 1 -> vnorm v = 1 -> vnorm w = 1 -> 0 <= d <= / 1000 -> angle u v <= 21 / 10 -> vnorm (vsub w u) <= vnorm (vsub v u) + d -> angle u w <= angle u v + 3 * d.
Proof.
  intros Uu Uv Uw Hd Ht H. rewrite !chord_angle in H by auto. pose proof (angle_range u v) as R1. pose proof (angle_range u w) as R2. pose proof PI_33.
  set (t := angle u v) in *. set (t' := angle u w) in *. destruct (Rle_dec t' (t + 3 * d)) as [|N]; [auto|exfalso].
  pose proof (sin_spread ((t + 3 * d) / 2) (t / 2) (107 / 100) ltac:(pose proof PI2_3_2; lra) ltac:(lra) ltac:(lra)) as S.
  assert (C : 4 / 10 <= cos (107 / 100)). { replace (107 / 100) with (2 * (107 / 200)) by field. rewrite cos_2a_sin. pose proof (sin_le_x (107 / 200) ltac:(lra)). pose proof (sin_ge_0 (107 / 200) ltac:(lra) ltac:(pose proof PI2_3_2; lra)). nra. }
  assert (M : sin (t / 2) <= sin ((t + 3 * d) / 2)) by (apply sin_incr_1; lra). assert (M2 : sin ((t + 3 * d) / 2) <= sin (t' / 2)) by (apply sin_incr_1; lra).
  rewrite (Rabs_right (sin _ - _)) in S by lra. rewrite Rabs_right in S by lra. assert (4 / 10 * ((t + 3 * d) / 2 - t / 2) <= cos (107 / 100) * ((t + 3 * d) / 2 - t / 2)) by (apply Rmult_le_compat_r; lra).
  destruct (Rle_dec d 0); [|lra]. assert (D0 : d = 0) by lra. subst d. assert (sin (t' / 2) = sin (t/2)). { apply Rle_antisym; [lra|]. apply sin_incr_1; lra. }
  assert (sin (t / 2) < sin (t' / 2)) by (apply sin_increasing_1; lra). lra.
Qed.

(** ** the foot of a position on a circle, and the arc *)
Lemma min_is_foot c Q p0 : vnorm c = 1 -> vnorm Q = 1 -> vcross Q c <> v0 -> vnorm p0 = 1 -> vdot p0 c = 0 -> (forall p, vnorm p = 1 -> vdot p c = 0 -> angle Q p0 <= angle Q p) ->
  exists k, 0 < k /\ forall p, vdot p c = 0 -> vdot Q p = k * vdot p0 p.
Proof.
  intros Uc UQ Z U0 O0 M. assert (F0 : foot c Q <> v0). { intros E. apply foot_zero in E; auto. apply Z. destruct E as [->| ->]; unfold v0; generalize c; clear; intros; vring. }
  pose proof (vnorm_nz _ F0) as PF. set (F := direction (foot c Q)). assert (UF : vnorm F = 1) by (apply direction_unit; auto). assert (OF : vdot F c = 0) by (unfold F, direction; rewrite vdot_scale_l, foot_orth by auto; ring).
  assert (D : forall p, vdot p c = 0 -> vdot Q p = vnorm (foot c Q) * vdot F p).
  { intros p O. unfold F, direction. rewrite vdot_scale_l. unfold foot at 3. rewrite vdot_sub_l, vdot_scale_l, (vdot_comm c p), O. field. lra. }
  specialize (M F UF OF). exists (vnorm (foot c Q)). split; auto. enough (EF : F = p0) by (intros p O; rewrite (D p O), EF; reflexivity).
  assert (L : vdot Q F <= vdot Q p0). { rewrite <- !cos_angle_unit by auto. pose proof (angle_range Q F). pose proof (angle_range Q p0). destruct (Req_dec (angle Q p0) (angle Q F)) as [E|E]; [rewrite E; lra|]. left. apply cos_decreasing_1; lra. }
  rewrite (D F OF), (D p0 O0) in L. assert (DF : vdot F F = 1) by (apply vnorm_unit; auto). rewrite DF in L. apply Rmult_le_reg_l in L; auto. pose proof (vdot_unit_bound F p0 UF U0) as B. apply vdot_unit_1; auto. lra.
Qed.
Lemma cone_dir a b p : a <> v0 -> b <> v0 -> on_arc a b p <-> on_arc (direction a) (direction b) p.
Proof.
  intros A0 B0. pose proof (vnorm_nz _ A0) as PA. pose proof (vnorm_nz _ B0) as PB. split; intros (U & s & t & Hs & Ht & E); (split; [exact U|]).
  - exists (s * vnorm a), (t * vnorm b). split; [apply Rmult_le_pos; lra|]. split; [apply Rmult_le_pos; lra|]. rewrite E. rewrite (direction_decomp a A0) at 1. rewrite (direction_decomp b B0) at 1. generalize (direction a) (direction b) (vnorm a) (vnorm b). clear. intros. vring.
  - exists (s * / vnorm a), (t * / vnorm b). split; [apply Rmult_le_pos; [lra|left; apply Rinv_0_lt_compat; lra]|]. split; [apply Rmult_le_pos; [lra|left; apply Rinv_0_lt_compat; lra]|]. rewrite E. unfold direction. generalize (/ vnorm a) (/ vnorm b). clear. intros. vring.
Qed.
Lemma cross_dir a b : a <> v0 -> b <> v0 -> vcross a b = vscale (vnorm a * vnorm b) (vcross (direction a) (direction b)).
Proof. intros A0 B0. rewrite (direction_decomp a A0) at 1. rewrite (direction_decomp b B0) at 1. generalize (direction a) (direction b) (vnorm a) (vnorm b). clear. intros. vring. Qed.
Lemma circle_dir a b p : a <> v0 -> b <> v0 -> on_circle a b p -> on_circle (direction a) (direction b) p.
Proof.
  intros A0 B0 (U & O). split; auto. rewrite (cross_dir a b A0 B0), vdot_scale_r in O. pose proof (vnorm_nz _ A0) as PA. pose proof (vnorm_nz _ B0) as PB.
  apply Rmult_integral in O. destruct O as [O|O]; auto. apply Rmult_integral in O. destruct O; lra.
Qed.
Lemma sub_swap a b : vnorm (vsub a b) = vnorm (vsub b a).
Proof. replace (vsub a b) with (vscale (-1) (vsub b a)) by vring. rewrite vnorm_scale, (Rabs_left (-1)) by lra. ring. Qed.
Lemma sub_via a b c : vnorm (vsub a c) <= vnorm (vsub a b) + vnorm (vsub b c).
Proof. replace (vsub a c) with (vadd (vsub a b) (vsub b c)) by vring. apply norm_triangle. Qed.
Lemma chord_arc_le a b : vnorm a = 1 -> vnorm b = 1 -> vnorm (vsub b a) <= angle a b.
Proof. intros Ua Ub. rewrite chord_angle by auto. pose proof (angle_range a b). pose proof (sin_le_x (angle a b / 2) ltac:(lra)). lra. Qed.
Lemma PI_314 : 314 / 100 < PI. Proof. pose proof pi_bounds as (B & _). unfold pi64, f, B2R, F2R in B; cbn in B. lra. Qed.

Lemma arc_end_l A B : vnorm A = 1 -> on_arc A B A. Proof. intros U. split; auto. exists 1, 0. split; [lra|]. split; [lra|]. vring. Qed.
Lemma arc_end_r A B : vnorm B = 1 -> on_arc A B B. Proof. intros U. split; auto. exists 0, 1. split; [lra|]. split; [lra|]. vring. Qed.
(** exact geometry, with tolerances: C is within E of the point p0 of the circle closest to Q *)
Section Geometry.
Variables (A B C p0 Q : vec) (E d : R).
Hypothesis UA : vnorm A = 1.
Hypothesis UB : vnorm B = 1.
Hypothesis UC : vnorm C = 1.
Hypothesis UQ : vnorm Q = 1.
Hypothesis Z : vcross A B <> v0.
Hypothesis HE : 0 <= E <= / 10000.
Hypothesis Hd : 0 <= d <= / 10000.
Hypothesis OC : on_circle A B p0.
Hypothesis near : angle p0 C <= E.
Hypothesis len : angle A B <= 2.
Hypothesis dots : exists k, 0 < k /\ forall p, on_circle A B p -> vdot Q p = k * vdot p0 p.

Let U0 : vnorm p0 = 1. Proof. apply OC. Qed.
Let NZ v : vnorm v = 1 -> v <> v0. Proof. intros H ->. rewrite vnorm_v0 in H. lra. Qed.

Lemma inside_near : vnorm (vsub C A) <= vnorm (vsub B A) + d -> vnorm (vsub C B) <= vnorm (vsub B A) + d -> exists p, on_arc A B p /\ angle p C <= 4 * E + 3 * d.
Proof.
  intros H1 H2. pose proof (chord_arc_le p0 C U0 UC) as CE. rewrite sub_swap in CE. pose proof (sub_via p0 C A) as S1. pose proof (sub_via p0 C B) as S2.
  assert (T1 : angle A p0 <= angle A B + 3 * (E + d)) by (apply chord_le; auto; lra).
  assert (T2 : angle B p0 <= angle B A + 3 * (E + d)) by (apply chord_le; auto; rewrite ?(angle_sym B A), ?(sub_swap A B); lra).
  rewrite (angle_sym B A), (angle_sym B p0) in T2. rewrite (angle_sym A p0) in T1. pose proof PI_314 as PB.
  destruct (circle_cases A B p0 UA UB Z OC) as [(OA & SM)|[SM|[SM|SM]]].
  - exists p0. split; auto. lra.
  - exists B. split. { apply arc_end_r; auto. } pose proof (angle_triangle B p0 C (NZ _ UB) (NZ _ U0) (NZ _ UC)) as T. rewrite (angle_sym B p0) in T. lra.
  - exists A. split. { apply arc_end_l; auto. } pose proof (angle_triangle A p0 C (NZ _ UA) (NZ _ U0) (NZ _ UC)) as T. rewrite (angle_sym A p0) in T. lra.
  - exfalso. lra.
Qed.
Lemma foot_best p : on_arc A B p -> angle Q C <= angle Q p + E.
Proof.
  intros OA. pose proof (arc_plane _ _ _ OA) as OP. destruct dots as (k & Pk & D). assert (Up : vnorm p = 1) by apply OA.
  assert (M : angle Q p0 <= angle Q p). { apply angle_le; auto. rewrite (D p OP), (D p0 OC). apply Rmult_le_compat_l; [lra|]. assert (vdot p0 p0 = 1) by (apply vnorm_unit; auto). pose proof (vdot_unit_bound p0 p U0 Up). lra. }
  pose proof (angle_triangle Q p0 C (NZ _ UQ) (NZ _ U0) (NZ _ UC)). lra.
Qed.
Lemma outside_end p : vnorm (vsub B A) - d < vnorm (vsub C A) \/ vnorm (vsub B A) - d < vnorm (vsub C B) -> on_arc A B p ->
  angle Q A <= angle Q p + 3 * (E + d) \/ angle Q B <= angle Q p + 3 * (E + d).
Proof.
  intros H OA. pose proof (arc_plane _ _ _ OA) as OP. destruct dots as (k & Pk & D). assert (Up : vnorm p = 1) by apply OA.
  assert (OCA : on_circle A B A) by (apply arc_plane, arc_end_l; auto). assert (OCB : on_circle A B B) by (apply arc_plane, arc_end_r; auto).
  assert (M : angle Q p0 <= angle Q p). { apply angle_le; auto. rewrite (D p OP), (D p0 OC). apply Rmult_le_compat_l; [lra|]. assert (vdot p0 p0 = 1) by (apply vnorm_unit; auto). pose proof (vdot_unit_bound p0 p U0 Up). lra. }
  destruct (Classical_Prop.classic (on_arc A B p0)) as [Y|N].
  - pose proof (arc_sum A B p0 UA UB Z Y) as SM. pose proof (angle_range p0 A) as R1. pose proof (angle_range p0 B) as R2. pose proof (chord_arc_le p0 C U0 UC) as CE.
    destruct H as [H|H].
    + right. pose proof (sub_via C p0 A) as S1. assert (T : angle A B <= angle A p0 + 3 * (E + d)) by (apply chord_le; auto; rewrite ?(angle_sym A p0); lra). rewrite (angle_sym A p0) in T.
      pose proof (angle_triangle Q p0 B (NZ _ UQ) (NZ _ U0) (NZ _ UB)). lra.
    + left. pose proof (sub_via C p0 B) as S1. assert (T : angle B A <= angle B p0 + 3 * (E + d)) by (apply chord_le; auto; rewrite ?(angle_sym B p0), ?(sub_swap A B); lra). rewrite (angle_sym B p0), (angle_sym B A) in T.
      pose proof (angle_triangle Q p0 A (NZ _ UQ) (NZ _ U0) (NZ _ UA)). lra.
  - destruct (ends_beat A B UA UB Z p0 p OC N OA) as [L|L]; [left|right].
    + assert (angle Q A <= angle Q p); [|lra]. apply angle_le; auto. rewrite (D p OP), (D A OCA). apply Rmult_le_compat_l; lra.
    + assert (angle Q B <= angle Q p); [|lra]. apply angle_le; auto. rewrite (D p OP), (D B OCB). apply Rmult_le_compat_l; lra.
Qed.
End Geometry.

(** where the returned position is: [a], [b] the ends of the path *)
Definition nearest_at (a b : vec) (r : nearest) : vec := match r with Foot n _ => vec_of n | EndA => a | EndB => b end.

(** The position returned is (nearly) on the arc from A to B, and no position of the arc is (much) closer to the given one. For a path of up to 2 radians (114 degrees; beyond 120 degrees see C55),
    and a position not too near the poles of the great circle *)
Theorem C114_closest_on_path : forall dot arcsin arctan2 a b q zA zB radius, good_dot dot -> good_arcsin arcsin -> good_arctan2 arctan2 -> near_unit a -> near_unit b -> near_unit q ->
  is_finite zA = true -> is_finite zB = true -> Rabs (B2R zA) <= 1000000 -> Rabs (B2R zB) <= 1000000 -> is_finite radius = true -> 1 <= B2R radius <= 9000000 ->
  let s := vnorm (vcross (vec_of a) (vec_of b)) in let c := direction (vcross (vec_of a) (vec_of b)) in let r := vnorm (vcross (direction (vec_of q)) c) in
  10 * u <= s -> / 100000 <= r -> (10 + 9 / s) * (1 + / r) * u <= / 1000000 -> angle (vec_of a) (vec_of b) <= 2 ->
  let E := (52 / 10 + (91 / 10 + 81 / 10 / s) * (1 + / r)) * u in
  let result := fclosest_on_path dot arcsin arctan2 a b q zA zB radius in let v := nearest_at (vec_of a) (vec_of b) result in
  (exists p, on_arc (vec_of a) (vec_of b) p /\ angle p v <= 4 * E + 400 * u) /\
  (forall p, on_arc (vec_of a) (vec_of b) p -> angle (vec_of q) v <= angle (vec_of q) p + 4 * E + 400 * u) /\
  (forall n z, result = Foot n z -> near_unit n /\ is_finite z = true /\ Rabs (B2R z - (B2R zA + B2R zB) / 2) <= 3 / 10000000000).
Proof.
  intros dot arcsin arctan2 a b q zA zB radius GD GA GT Na Nb Nq FA FB BA BB Fr Br s c r Hs Hr Hk Hl E result v. pose proof u_pos as Pu. pose proof u_tiny as Su. pose proof eta_um as EU. pose proof eta_pos as Pe.
  destruct (mean_depth zA zB FA FB BA BB) as (FZ & EZ). destruct (C98_closest_point dot a b q GD Na Nb Nq Hs Hr Hk) as (NC & p0 & O0 & M0 & D0). fold s c r in D0. fold E in D0.
  assert (HZ : is_nan (fmul (fadd zA zB) fhalf) = false) by (destruct (fmul (fadd zA zB) fhalf); try reflexivity; discriminate).
  pose proof (foot_or_end dot arcsin arctan2 a b q zA zB radius GD GA Na Nb Nq Fr ltac:(lra) HZ Hs Hr Hk) as ER. fold result in ER.
  destruct (near_unit_near a Na) as (_ & A0 & _). destruct (near_unit_near b Nb) as (_ & B0 & _). destruct (near_unit_near q Nq) as (_ & Q0 & _). set (k := fclosest dot a b q) in *. destruct (near_unit_near k NC) as (_ & C0 & _).
  destruct (near_unit_len a Na) as (_ & La). destruct (near_unit_len b Nb) as (_ & Lb).
  set (A := direction (vec_of a)) in *. set (B := direction (vec_of b)) in *. set (C := direction (vec_of k)) in *. set (Q := direction (vec_of q)) in *.
  assert (UA : vnorm A = 1) by (apply direction_unit; auto). assert (UB : vnorm B = 1) by (apply direction_unit; auto). assert (UC : vnorm C = 1) by (apply direction_unit; auto). assert (UQ : vnorm Q = 1) by (apply direction_unit; auto).
  assert (X0 : vcross (vec_of a) (vec_of b) <> v0) by (intros X; unfold s in Hs; rewrite X, vnorm_v0 in Hs; lra).
  assert (Z : vcross A B <> v0). { intros X. apply X0. rewrite (cross_dir _ _ A0 B0). fold A B. rewrite X. unfold v0. vring. }
  assert (Uc : vnorm c = 1) by (apply direction_unit; auto).
  assert (Ps : 0 < / s) by (apply Rinv_0_lt_compat; lra). assert (Pr : 0 < / r) by (apply Rinv_0_lt_compat; lra).
  assert (HE : 0 <= E <= / 100000).
  { unfold E. unfold Rdiv in *. assert (W : 0 <= (1 + / r) * u) by (apply Rmult_le_pos; lra). assert (W2 : 0 <= / s * ((1 + / r) * u)) by (apply Rmult_le_pos; lra). lra. }
  assert (S7 : 1000 * u <= s).
  { assert (W : / s * u <= / 1000000). { unfold Rdiv in Hk. assert (0 <= / s * u) by (apply Rmult_le_pos; lra). assert (0 <= (10 + 9 * / s) * / r * u) by (apply Rmult_le_pos; [apply Rmult_le_pos; lra|lra]). lra. }
    apply (Rmult_le_reg_l (/ s)); [lra|]. rewrite Rinv_l by lra. lra. }
  assert (LN : 112 * u <= vnorm (vsub B A)).
  { assert (X1 : s <= 2 * vnorm (vcross A B)). { unfold s. rewrite (cross_dir _ _ A0 B0). fold A B. rewrite vnorm_scale, Rabs_mult, !(Rabs_right (vnorm _)) by lra. apply Rmult_le_compat_r; [apply vnorm_pos|]. apply Rle_trans with ((1 + 6 * u) * (1 + 6 * u)); [apply Rmult_le_compat; lra|nra]. }
    assert (X2 : vnorm (vcross A B) <= vnorm (vsub B A)). { replace (vcross A B) with (vcross A (vsub B A)) by (generalize A B; clear; intros; vring). eapply Rle_trans; [apply vcross_le|]. rewrite UA. lra. } lra. }
  assert (SELF : forall w, vnorm (vsub w w) <= 163 / 10 * u). { intros w. replace (vsub w w) with v0 by (unfold v0; vring). rewrite vnorm_v0. lra. }
  destruct (between_core a b k A B C Na Nb NC A0 B0 C0 (SELF A) (SELF B) (SELF C) LN) as (BT & BF).
  assert (OC : on_circle A B p0) by (apply circle_dir; auto). assert (U0 : vnorm p0 = 1) by apply O0.
  assert (P00 : p0 <> v0) by (intros X; rewrite X, vnorm_v0 in U0; lra).
  assert (near : angle p0 C <= E). { unfold C, direction. rewrite angle_scale_r by (apply Rinv_0_lt_compat, vnorm_nz; auto). exact D0. }
  assert (len : angle A B <= 2). { unfold A, B. rewrite angle_direction; auto. }
  assert (dots : exists k, 0 < k /\ forall p, on_circle A B p -> vdot Q p = k * vdot p0 p).
  { assert (N0 : vcross Q c <> v0) by (intros X; unfold r in Hr; fold Q in Hr; rewrite X, vnorm_v0 in Hr; lra).
    destruct (min_is_foot c Q p0 Uc UQ N0 U0 (proj2 (proj1 (on_circle_dir _ _ _ X0) O0))) as (kk & Pk & DK). { intros p Up Op. apply M0. apply on_circle_dir; auto. }
    exists kk. split; auto. intros p (Up & Op). apply DK. unfold c. unfold direction. rewrite vdot_scale_r, (cross_dir _ _ A0 B0). fold A B. rewrite vdot_scale_r, Op. ring. }
  assert (AQ : forall w, angle (vec_of q) w = angle Q w). { intros w. unfold Q, direction. rewrite angle_scale_l by (apply Rinv_0_lt_compat, vnorm_nz; auto). reflexivity. }
  assert (AD : forall x w, w <> v0 -> angle x (direction w) = angle x w). { intros x w Hw. unfold direction. rewrite angle_scale_r by (apply Rinv_0_lt_compat, vnorm_nz; auto). reflexivity. }
  split; [|split].
  - destruct (fbetween a b k) eqn:EB.
    + destruct (BT eq_refl) as (H1 & H2). destruct (inside_near A B C p0 E (112 * u) UA UB UC Z ltac:(lra) ltac:(lra) OC near len H1 H2) as (p & OA & T). exists p. split; [apply cone_dir; auto|]. unfold v. rewrite ER. cbn [nearest_at]. rewrite <- (AD p (vec_of k) C0). fold C. lra.
    + unfold v. rewrite ER. assert (EA : on_arc (vec_of a) (vec_of b) A). { apply cone_dir; auto. apply arc_end_l; auto. } assert (EB' : on_arc (vec_of a) (vec_of b) B). { apply cone_dir; auto. apply arc_end_r; auto. }
      destruct (flt _ _); cbn [nearest_at]; [exists A|exists B]; (split; [assumption|]); rewrite <- (AD _ (vec_of _)) by auto; fold A B; rewrite angle_self; [lra| |lra|]; intros X; [rewrite X, vnorm_v0 in UA|rewrite X, vnorm_v0 in UB]; lra.
  - intros p OP. apply cone_dir in OP; auto. fold A B in OP. rewrite !AQ. destruct (fbetween a b k) eqn:EB.
    + unfold v. rewrite ER. cbn [nearest_at]. rewrite <- (AD Q (vec_of k) C0). fold C. pose proof (foot_best A B C p0 Q E UC UQ OC near dots p OP). lra.
    + assert (OUT : vnorm (vsub B A) - 108 * u < vnorm (vsub C A) \/ vnorm (vsub B A) - 108 * u < vnorm (vsub C B)).
      { destruct (Rle_dec (vnorm (vsub C A)) (vnorm (vsub B A) - 108 * u)) as [H1|H1]; [|left; lra]. destruct (Rle_dec (vnorm (vsub C B)) (vnorm (vsub B A) - 108 * u)) as [H2|H2]; [|right; lra]. discriminate (BF H1 H2). }
      pose proof (outside_end A B C p0 Q E (108 * u) UA UB UC UQ Z ltac:(lra) ltac:(lra) OC near len dots p OUT OP) as ENDS.
      assert (BR : Rabs (B2R radius) <= bpow radix2 1000). { rewrite Rabs_right by lra. apply Rle_trans with (bpow radix2 30); [cbn; lra|apply bpow_le; lia]. }
      destruct (C78_great_circle_accuracy dot arctan2 a q radius GT GD Na Nq Fr BR) as (F1 & E1). destruct (C78_great_circle_accuracy dot arctan2 b q radius GT GD Nb Nq Fr BR) as (F2 & E2).
      set (d1 := fgreat_circle_distance dot arctan2 a q radius) in *. set (d2 := fgreat_circle_distance dot arctan2 b q radius) in *. clearbody d1 d2. rewrite (angle_sym (vec_of a)), AQ in E1. rewrite (angle_sym (vec_of b)), AQ in E2. rewrite <- (AD Q (vec_of a) A0) in E1. rewrite <- (AD Q (vec_of b) B0) in E2. fold A in E1. fold B in E2.
      rewrite (Rabs_right (B2R radius)) in E1, E2 by lra. apply Rabs_le_inv in E1. apply Rabs_le_inv in E2. pose proof (flt_val d1 d2 F1 F2) as LT.
      assert (DIV : forall x y, x * B2R radius <= y * B2R radius + 44 * u * B2R radius + 2 * eta -> x <= y + 45 * u).
      { intros x y H. apply (Rmult_le_reg_r (B2R radius)); [lra|]. assert (u * 1 <= u * B2R radius) by (apply Rmult_le_compat_l; lra). lra. }
      unfold v. rewrite ER. destruct (flt d1 d2) eqn:EL; cbn [nearest_at].
      * rewrite <- (AD Q (vec_of a) A0). fold A. pose proof (proj1 LT eq_refl) as L. assert (angle Q A <= angle Q B + 45 * u) by (apply DIV; lra). destruct ENDS; lra.
      * rewrite <- (AD Q (vec_of b) B0). fold B. assert (L : B2R d2 <= B2R d1) by (destruct (Rle_dec (B2R d2) (B2R d1)) as [|N]; [auto|exfalso; assert (B2R d1 < B2R d2) as N' by lra; discriminate (proj2 LT N')]).
        assert (angle Q B <= angle Q A + 45 * u) by (apply DIV; lra). destruct ENDS; lra.
  - intros n z H. rewrite ER in H. destruct (fbetween a b k); [|destruct (flt _ _); discriminate]. 
    assert (Hn : n = k) by (apply (f_equal (fun x => match x with Foot n _ => n | _ => k end)) in H; symmetry; exact H). assert (Hz : z = fmul (fadd zA zB) fhalf) by (apply (f_equal (fun x => match x with Foot _ z => z | _ => fzero end)) in H; symmetry; exact H).
    rewrite Hn, Hz. auto.
Qed.
Print Assumptions C114_closest_on_path.

(** The hypotheses are met by the quarter of the equator from 0 E to 90 E, with the position at 53.13 E (between the ends) and the one at 90 W (nearest: the end at 0 E) *)
Definition f06 : float64 := f 5404319552844595 (-53) eq_refl.
Definition f08 : float64 := f 7205759403792794 (-53) eq_refl.
Example C114_example : let a := (fone, fzero, fzero) in let b := (fzero, fone, fzero) in let q := (f06, f08, fzero) in let w := (fzero, fneg fone, fzero) in
  good_dot dot_seq /\ good_arcsin ideal_arcsin /\ good_arctan2 ideal_arctan2 /\ near_unit a /\ near_unit b /\ near_unit q /\ near_unit w /\
  is_finite earth_radius = true /\ 1 <= B2R earth_radius <= 9000000 /\
  let s := vnorm (vcross (vec_of a) (vec_of b)) in let c := direction (vcross (vec_of a) (vec_of b)) in
  10 * u <= s /\ angle (vec_of a) (vec_of b) <= 2 /\
  (forall p, p = q \/ p = w -> let r := vnorm (vcross (direction (vec_of p)) c) in / 100000 <= r /\ (10 + 9 / s) * (1 + / r) * u <= / 1000000) /\
  fclosest_on_path dot_seq ideal_arcsin ideal_arctan2 a b q fzero fzero earth_radius = Foot (fclosest dot_seq a b q) fzero /\
  fclosest_on_path dot_seq ideal_arcsin ideal_arctan2 a b w fzero fzero earth_radius = EndA.
Proof.
  cbv zeta. pose proof u_pos as Pu. pose proof u_tiny as Su.
  assert (NX : near_unit (fone, fzero, fzero)) by (apply axis_unit; auto; rewrite fone_val, fzero_val; ring).
  assert (NY : near_unit (fzero, fone, fzero)) by (apply axis_unit; auto; rewrite fone_val, fzero_val; ring).
  assert (VN : B2R (fneg fone) = -1) by (unfold fneg; rewrite B2R_Bopp, fone_val; reflexivity).
  assert (NW : near_unit (fzero, fneg fone, fzero)) by (apply axis_unit; auto; rewrite VN, fzero_val; ring).
  assert (NQ : near_unit (f06, f08, fzero)).
  { split; [reflexivity|]. split; [reflexivity|]. split; [reflexivity|]. unfold length3. change (B2R fzero) with 0. set (S := B2R f06 * B2R f06 + B2R f08 * B2R f08 + 0 * 0).
    assert (BS : 1 - 5 * u <= S <= 1 + 5 * u) by (unfold S, u, f06, f08, f, B2R, F2R; cbn; lra). apply Rabs_le. split.
    - assert (1 - 6 * u <= sqrt S); [|lra]. rewrite <- (sqrt_square (1 - 6 * u)) by lra. apply sqrt_le_1_alt. assert (u * u <= / 1000000 * u) by (apply Rmult_le_compat_r; lra). lra.
    - assert (sqrt S <= 1 + 6 * u); [|lra]. rewrite <- (sqrt_square (1 + 6 * u)) by lra. apply sqrt_le_1_alt. assert (0 <= u * u) by (apply Rmult_le_pos; lra). lra. }
  split; [apply good_dot_seq|]. split; [apply ideal_arcsin_good|]. split; [apply ideal_arctan2_good|]. split; [exact NX|]. split; [exact NY|]. split; [exact NQ|]. split; [exact NW|]. split; [reflexivity|].
  assert (ER : 1 <= B2R earth_radius <= 9000000) by (rewrite earth_radius_val; lra). split; [exact ER|].
  assert (VX : vec_of (fone, fzero, fzero) = V 1 0 0) by (cbn [vec_of]; rewrite fone_val, fzero_val; auto). assert (VY : vec_of (fzero, fone, fzero) = V 0 1 0) by (cbn [vec_of]; rewrite fone_val, fzero_val; auto).
  assert (EA : vcross (V 1 0 0) (V 0 1 0) = V 0 0 1) by (unfold vcross; cbn [Spec.vx Spec.vy Spec.vz]; f_equal; ring). assert (N1 : vnorm (V 0 0 1) = 1) by (apply nrm1; ring).
  assert (HS : vnorm (vcross (vec_of (fone, fzero, fzero)) (vec_of (fzero, fone, fzero))) = 1) by (rewrite VX, VY, EA; exact N1).
  assert (DC : direction (vcross (vec_of (fone, fzero, fzero)) (vec_of (fzero, fone, fzero))) = V 0 0 1) by (rewrite VX, VY, EA; apply dir1; exact N1).
  rewrite HS, DC. split; [lra|].
  assert (AN : angle (vec_of (fone, fzero, fzero)) (vec_of (fzero, fone, fzero)) <= 2).
  { rewrite VX, VY, angle_unit by (apply nrm1; ring). replace (vdot (V 1 0 0) (V 0 1 0)) with 0 by (unfold vdot; cbn [Spec.vx Spec.vy Spec.vz]; ring). rewrite acos_0. pose proof PI_33. lra. }
  split; [exact AN|].
  assert (RR : forall p, p = (f06, f08, fzero) \/ p = (fzero, fneg fone, fzero) -> vnorm (vcross (direction (vec_of p)) (V 0 0 1)) = 1).
  { assert (G : forall w, w <> v0 -> Spec.vz w = 0 -> vnorm (vcross (direction w) (V 0 0 1)) = 1).
    { intros w W0 Wz. pose proof (direction_unit w W0) as UW. apply vnorm_unit in UW. assert (DZ : Spec.vz (direction w) = 0) by (unfold direction, vscale; cbn [Spec.vx Spec.vy Spec.vz]; rewrite Wz; ring).
      destruct (direction w) as [x y z]. cbn [Spec.vz] in DZ. subst z. unfold vdot in UW; cbn [Spec.vx Spec.vy Spec.vz] in UW. unfold vcross; cbn [Spec.vx Spec.vy Spec.vz]. apply nrm1. lra. }
    intros p [->| ->]; apply G; try reflexivity; [apply (near_unit_near _ NQ)|apply (near_unit_near _ NW)]. }
  assert (HR : forall p, p = (f06, f08, fzero) \/ p = (fzero, fneg fone, fzero) -> / 100000 <= vnorm (vcross (direction (vec_of p)) (V 0 0 1)) /\ (10 + 9 / 1) * (1 + / vnorm (vcross (direction (vec_of p)) (V 0 0 1))) * u <= / 1000000).
  { intros p Hp. rewrite (RR p Hp), Rinv_1. lra. }
  split; [exact HR|]. split.
  - destruct (HR (f06, f08, fzero) (or_introl eq_refl)) as (H1 & H2).
    rewrite foot_or_end; auto using good_dot_seq, ideal_arcsin_good; cbv zeta; rewrite ?HS, ?DC; auto; lra.
  - destruct (HR (fzero, fneg fone, fzero) (or_intror eq_refl)) as (H1 & H2).
    rewrite foot_or_end; auto using good_dot_seq, ideal_arcsin_good; cbv zeta; rewrite ?HS, ?DC; auto; try lra. replace (fbetween _ _ _) with false by (vm_compute; reflexivity).
    assert (BR : Rabs (B2R earth_radius) <= bpow radix2 1000). { rewrite earth_radius_val, Rabs_right by lra. apply Rle_trans with (bpow radix2 30); [cbn; lra|apply bpow_le; lia]. }
    destruct (C78_great_circle_accuracy dot_seq ideal_arctan2 _ _ earth_radius ideal_arctan2_good good_dot_seq NX NW eq_refl BR) as (F1 & E1). destruct (C78_great_circle_accuracy dot_seq ideal_arctan2 _ _ earth_radius ideal_arctan2_good good_dot_seq NY NW eq_refl BR) as (F2 & E2).
    assert (VW : vec_of (fzero, fneg fone, fzero) = V 0 (-1) 0) by (cbn [vec_of]; rewrite VN, fzero_val; auto).
    rewrite VX, VW, angle_unit in E1 by (apply nrm1; ring). rewrite VY, VW, angle_unit in E2 by (apply nrm1; ring). replace (vdot (V 1 0 0) (V 0 (-1) 0)) with 0 in E1 by (unfold vdot; cbn [Spec.vx Spec.vy Spec.vz]; ring). replace (vdot (V 0 1 0) (V 0 (-1) 0)) with (-1) in E2 by (unfold vdot; cbn [Spec.vx Spec.vy Spec.vz]; ring).
    rewrite acos_0 in E1. replace (-1) with (- (1)) in E2 by lra. rewrite acos_opp, acos_1 in E2.
    match goal with |- (if flt ?x ?y then _ else _) = _ => assert (L : flt x y = true) end; [|rewrite L; reflexivity]. apply flt_val; auto. rewrite earth_radius_val, (Rabs_right 6371009) in E1, E2 by lra. apply Rabs_le_inv in E1. apply Rabs_le_inv in E2. pose proof eta_um. pose proof PI_314. lra.
Qed.
