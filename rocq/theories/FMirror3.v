(** * C100: distances from degrees are exactly the same in all four quadrants of the globe *)
From Coq Require Import ZArith Reals Lra Lia Bool Psatz.
From Flocq Require Import Core BinarySingleNaN Relative Operations.
From Verif Require Import Spec LVec LAngle LCircle PTrack FTiny FZero FBase FRel FRel2 FUnit FPi FAngle FDist FGreat FTrack FLatLon FInv FEcef FEcef2 FNed FNed2 FNed3 FDelta FDelta2 FDelta3 FMove FWay FWay2 FWay3 FWay4 FInterp FPoint FPoint2 FMirror FMirror2.
Local Open Scope R_scope.

(** the C library's arctan2(y, +0) and arctan2(y, -0) are the same for y <> 0 *)
Definition zero_abscissa (arctan2 : float64 -> float64 -> float64) : Prop :=
  forall y x x', is_zero_f y = false -> is_zero_f x = true -> is_zero_f x' = true -> arctan2 y x = arctan2 y x'.

(** perpendicular unit vectors have a cross product *)
Lemma perpendicular_cross dot a b : good_dot dot -> near_unit a -> near_unit b -> is_zero_f (dot a b) = true -> is_zero_f (fnorm (fcross a b)) = false.
Proof.
  intros GD Na Nb Z. pose proof u_pos as Pu. pose proof u_tiny as Su.
  destruct (GD a b Na Nb) as (_ & D). assert (D0 : B2R (dot a b) = 0) by (destruct (dot a b); try discriminate; reflexivity). rewrite D0 in D.
  destruct (near_unit_len a Na) as (Fa & La). destruct (near_unit_len b Nb) as (Fb & Lb).
  pose proof (cross_vec_err a b Na Nb) as C. destruct (fcross a b) as [[x y] z] eqn:EC. destruct C as (Fx & Fy & Fz & _ & _ & _ & E).
  destruct (is_zero_f (fnorm (x, y, z))) eqn:NZ; auto. exfalso. cbn [fnorm] in NZ.
  assert (K : forall c, (c = x \/ c = y \/ c = z) -> Rabs (B2R c) <= / 1000).
  { intros c Hc. destruct (Rle_lt_dec (bpow radix2 (-537)) (Rabs (B2R c))) as [G|G].
    - rewrite C62_nonzero_vectors_recognised in NZ; [discriminate|]. destruct Hc as [-> |[-> | ->]]; auto.
    - assert (bpow radix2 (-537) <= bpow radix2 (-10)) by (apply bpow_le; lia). assert (bpow radix2 (-10) <= / 1000) by (cbn [bpow]; change (Z.pow_pos radix2 10) with 1024%Z; lra). lra. }
  pose proof (K x ltac:(auto)) as Kx. pose proof (K y ltac:(auto)) as Ky. pose proof (K z ltac:(auto)) as Kz.
  assert (N1 : vnorm (vec_of (x, y, z)) <= 3 / 1000). { eapply Rle_trans; [apply norm_sum3|]. cbn [vec_of Spec.vx Spec.vy Spec.vz]. lra. }
  set (A := vec_of a) in *. set (B := vec_of b) in *.
  assert (N2 : vnorm (vcross A B) <= 4 / 1000).
  { rewrite (via (vec_of (x, y, z)) (vcross A B)). eapply Rle_trans; [apply norm_triangle|].
    replace (vnorm (vsub (vcross A B) (vec_of (x, y, z)))) with (vnorm (vsub (vec_of (x, y, z)) (vcross A B))); [lra|].
    replace (vsub (vcross A B) (vec_of (x, y, z))) with (vscale (-1) (vsub (vec_of (x, y, z)) (vcross A B))) by vring. rewrite vnorm_scale, Rabs_left by lra. ring. }
  pose proof (vcross_norm_sq A B) as S. pose proof (vnorm_pos (vcross A B)) as P.
  assert (D1 : Rabs (vdot A B) <= / 1000). { replace (0 - vdot A B) with (- vdot A B) in D by ring. rewrite Rabs_Ropp in D. lra. }
  assert (D2 : vdot A B * vdot A B <= / 1000 * / 1000). { rewrite <- (Rabs_right (vdot A B * vdot A B)) by (apply Rle_ge, Rle_0_sqr). rewrite Rabs_mult. apply Rmult_le_compat; try apply Rabs_pos; auto. }
  assert (A1 : 999 / 1000 <= vnorm A) by lra. assert (B1 : 999 / 1000 <= vnorm B) by lra.
  assert (AB : 998 / 1000 <= vnorm A * vnorm B). { apply Rle_trans with (999 / 1000 * (999 / 1000)); [lra|apply Rmult_le_compat; lra]. }
  assert (X : vnorm (vcross A B) * vnorm (vcross A B) <= 4 / 1000 * (4 / 1000)) by (apply Rmult_le_compat; auto).
  assert (Y : 998 / 1000 * (998 / 1000) <= (vnorm A * vnorm B) * (vnorm A * vnorm B)) by (apply Rmult_le_compat; lra).
  clear - S X Y D2. lra.
Qed.

Lemma distance_pm dot arctan2 m a a' b b' radius : good_dot dot -> signed_dot dot -> zero_abscissa arctan2 -> near_unit a -> near_unit b ->
  eqv a (mirror m a') -> eqv b (mirror m b') -> fgreat_circle_distance dot arctan2 a b radius = fgreat_circle_distance dot arctan2 a' b' radius.
Proof.
  intros GD SD ZA Na Nb Ea Eb. unfold fgreat_circle_distance. rewrite <- (norm_pm (flip (odd m) m) (fcross a b) (fcross a' b')) by (apply cross_pm; auto).
  assert (D : eqz (dot a b) (dot a' b')). { apply (SD false m); auto. destruct m as [[[] []] []]; exact Eb. }
  destruct D as [<-|(Z1 & Z2)]; auto. f_equal. apply ZA; auto. apply (perpendicular_cross dot); auto.
Qed.

(** Two positions on the southern hemisphere (western longitudes) are exactly as far apart as their mirror images on the northern
    (at eastern longitudes), bit for bit. *)
Theorem C100_distance_from_degrees : forall fsin fcos dot arctan2 lat1 lon1 lat2 lon2 radius,
  good_trig fsin sin -> good_trig fcos cos -> odd_function fsin -> even_function fcos -> good_dot dot -> signed_dot dot -> zero_abscissa arctan2 ->
  is_finite lat1 = true -> is_finite lon1 = true -> Rabs (B2R lat1) <= 90 -> Rabs (B2R lon1) <= 180 ->
  is_finite lat2 = true -> is_finite lon2 = true -> Rabs (B2R lat2) <= 90 -> Rabs (B2R lon2) <= 180 ->
  fdistance_deg fsin fcos dot arctan2 (fneg lat1) lon1 (fneg lat2) lon2 radius = fdistance_deg fsin fcos dot arctan2 lat1 lon1 lat2 lon2 radius /\
  fdistance_deg fsin fcos dot arctan2 lat1 (fneg lon1) lat2 (fneg lon2) radius = fdistance_deg fsin fcos dot arctan2 lat1 lon1 lat2 lon2 radius.
Proof.
  intros fsin fcos dot arctan2 lat1 lon1 lat2 lon2 radius GS GC OS EC GD SD ZA Fa1 Fo1 Ba1 Bo1 Fa2 Fo2 Ba2 Bo2. unfold fdistance_deg.
  assert (NU : forall la lo, is_finite la = true -> is_finite lo = true -> Rabs (B2R la) <= 90 -> Rabs (B2R lo) <= 180 -> near_unit (flat_lon2n_E fsin fcos (frad la) (frad lo))).
  { intros la lo F1 F2 B1 B2. destruct (rad_moves la 90 F1 B1 ltac:(lra)) as (G1 & H1 & _). destruct (rad_moves lo 180 F2 B2 ltac:(lra)) as (G2 & H2 & _). apply (C81_n_vector fsin fcos _ _ GS GC G1 G2 H1 H2). }
  assert (NF : forall x, is_finite (fneg x) = is_finite x) by (intros; apply is_finite_Bopp). assert (NB : forall x, Rabs (B2R (fneg x)) = Rabs (B2R x)) by (intros; unfold fneg; rewrite B2R_Bopp; apply Rabs_Ropp).
  assert (OR : forall x, frad (fneg x) = fneg (frad x)) by (intros; apply C79_odd).
  split.
  - apply (distance_pm dot arctan2 (false, false, true)); auto; try (apply NU; rewrite ?NF, ?NB; auto); rewrite OR; apply latlon_south; auto.
  - apply (distance_pm dot arctan2 (false, true, false)); auto; try (apply NU; rewrite ?NF, ?NB; auto); rewrite OR; apply latlon_west; auto.
Qed.

(** ** the requirements can be met *)
Lemma odd_round g : (forall x, Rabs (g x) <= 4) -> (forall x, g (- x) = - g x) -> odd_function (fun x => round64 (g (B2R x))).
Proof.
  intros B O. assert (BB : forall x, Rabs (g x) <= bpow radix2 1023). { intros x. eapply Rle_trans; [apply B|]. apply Rle_trans with (bpow radix2 2); [cbn; lra|apply bpow_le; lia]. }
  split.
  - intros x. destruct (round64_val _ (BB (B2R (fneg x)))) as (F1 & E1). destruct (round64_val _ (BB (B2R x))) as (F2 & E2). apply eqz_finite; auto.
    + unfold fneg at 1. rewrite is_finite_Bopp. auto.
    + assert (NV : forall w : float64, B2R (fneg w) = - B2R w) by (intros; apply B2R_Bopp). rewrite E1, (NV (round64 _)), E2, NV, O. apply round_NE_opp.
  - intros x Z. destruct x; try discriminate. destruct (round64_val _ (BB 0)) as (F & E). assert (g 0 = 0) as G0. { pose proof (O 0) as H. rewrite Ropp_0 in H. lra. }
    cbn [B2R]. rewrite G0 in *. rewrite round_0 in E by auto with typeclass_instances. destruct (zero_of_B2R _ F E) as (s' & ->). reflexivity.
Qed.
Example C100_example : odd_function (fun x => round64 (sin (B2R x))) /\ even_function (fun x => round64 (cos (B2R x))) /\ signed_dot dot_seq /\ mirror_dot dot_seq /\ mirror_dot dot_fma /\
  zero_abscissa ideal_arctan2 /\ mirror (false, false, true) (fone, fzero, fone) = (fone, fzero, fneg fone) /\ odd (false, false, true) = true.
Proof.
  split. { apply odd_round; [|apply sin_neg]. intros x. pose proof (SIN_bound x). apply Rabs_le. lra. }
  split. { intros x. unfold fneg. rewrite B2R_Bopp, cos_neg. reflexivity. }
  split; [apply dot_seq_signed|]. split; [apply dot_seq_mirror|]. split; [apply dot_fma_mirror|].
  split; [|split; reflexivity]. intros y x x' _ Zx Zx'. destruct x, x'; try discriminate. reflexivity.
Qed.
