(** * C101: turning the whole globe turns the answers

    Every position is replaced by its image under one and the same rotation [Q] of space.
    Distances stay the same; positions that are computed from positions are turned by [Q]. *)
From Coq Require Import String List Arith Lia Bool Reals Lra Psatz.
From Verif Require Import Num Py Nd MUtil MRotation MCore Spec SpecArr LNum LTrig LVec LArr LAngle LCircle LDist PDirect PTrack.
Import ListNotations.
Local Open Scope R_scope.

Lemma rot_angle Q u v : orthogonal Q -> angle (mulv Q u) (mulv Q v) = angle u v.
Proof. intros H. unfold angle. rewrite orthogonal_dot, !orthogonal_norm by auto. reflexivity. Qed.
Lemma rot_zero Q u : orthogonal Q -> (mulv Q u = v0 <-> u = v0).
Proof.
  intros H. split; intros E; [|subst; apply mulv_v0].
  rewrite <- (orthogonal_inv Q u H), E. apply mulv_v0.
Qed.
Lemma rot_xsin Q a1 a2 b : rotation Q -> xsin (mulv Q a1) (mulv Q a2) (mulv Q b) = xsin a1 a2 b.
Proof.
  intros H. unfold xsin. rewrite rotation_cross, orthogonal_direction, orthogonal_dot by (auto; apply H). reflexivity.
Qed.

(** ** distances *)
Theorem C101_great_circle_distance : forall Q A A' B B' m u v radius k r l,
  orthogonal Q ->
  cols A 1 u -> cols A' 1 (fun j => mulv Q (u j)) ->
  cols B m v -> cols B' m (fun j => mulv Q (v j)) ->
  u 0%nat <> v0 -> (forall j, (j < m)%nat -> v j <> v0) ->
  vals radius k r -> bdim m k = Some l ->
  exists d, returns (great_circle_distance A B radius) [] (fun D => list1 D l d) /\
            returns (great_circle_distance A' B' radius) [] (fun D => list1 D l d).
Proof.
  intros Q A A' B B' m u v radius k r l HQ HA HA' HB HB' Zu Zv Hr D.
  destruct (gcd_spec _ _ _ _ _ _ _ _ HA HB Zu Zv Hr l D) as (X & E & HX).
  destruct (gcd_spec _ _ _ _ _ _ _ _ HA' HB' (orthogonal_nz _ _ HQ Zu)
             (fun j Hj => orthogonal_nz _ _ HQ (Zv j Hj)) Hr l D) as (X' & E' & HX').
  eexists. split; [exists X; split; [exact E|exact HX]|]. exists X'; split; [exact E'|].
  destruct HX' as [S' G']. split; [exact S'|]. intros j Hj. specialize (G' j Hj). cbn beta in *.
  rewrite rot_angle in G' by auto. exact G'.
Qed.
Print Assumptions C101_great_circle_distance.

Theorem C101_cross_track_distance : forall Q A1 A2 B A1' A2' B' m u1 u2 v method radius k r,
  rotation Q ->
  cols A1 1 u1 -> cols A1' 1 (fun j => mulv Q (u1 j)) ->
  cols A2 1 u2 -> cols A2' 1 (fun j => mulv Q (u2 j)) ->
  cols B m v -> cols B' m (fun j => mulv Q (v j)) ->
  vcross (u1 0%nat) (u2 0%nat) <> v0 -> (forall j, (j < m)%nat -> vnorm (v j) = 1) ->
  method <> String.EmptyString -> vals radius k r -> bdim m k = Some m ->
  exists d, returns (cross_track_distance (A1, A2) B method radius) [] (fun D => list1 D m d) /\
            returns (cross_track_distance (A1', A2') B' method radius) [] (fun D => list1 D m d).
Proof.
  intros Q A1 A2 B A1' A2' B' m u1 u2 v method radius k r HQ H1 H1' H2 H2' HB HB' Z U Hm Hr D.
  pose proof HQ as [HO _].
  destruct (xtd_spec _ _ _ _ _ _ _ _ _ _ _ H1 H2 HB Z U Hm Hr D) as (X & E & HX).
  destruct (xtd_spec A1' A2' B' m _ _ _ method radius k r H1' H2' HB') as (X' & E' & HX'); auto.
  { cbn beta. rewrite rotation_cross by auto. apply orthogonal_nz; auto. }
  { intros j Hj. cbn beta. rewrite orthogonal_norm; auto. }
  eexists. split; [exists X; split; [exact E|exact HX]|]. exists X'; split; [exact E'|].
  destruct HX' as [S' G']. split; [exact S'|]. intros j Hj. specialize (G' j Hj). cbn beta in *.
  rewrite rot_xsin in G' by auto. exact G'.
Qed.
Print Assumptions C101_cross_track_distance.

(** ** positions *)
(** column j of C' is column j of C turned by Q: both vectors, or both "not a number" *)
Definition turned_col (Q : mat) (C C' : arr num) (j : nat) : Prop :=
  (nancol C j /\ nancol C' j) \/ exists w, vcol C j w /\ vcol C' j (mulv Q w).
Definition turned (Q : mat) (k : nat) (C C' : arr num) : Prop :=
  shape C = [3%nat; k] /\ shape C' = [3%nat; k] /\ forall j, (j < k)%nat -> turned_col Q C C' j.

Lemma odir_turned Q C C' j u : orthogonal Q ->
  match odir u with Some v => vcol C j v | None => nancol C j end ->
  match odir (mulv Q u) with Some v => vcol C' j v | None => nancol C' j end -> turned_col Q C C' j.
Proof.
  intros HQ H H'. destruct (vec_eq_dec u v0) as [->|N].
  - rewrite mulv_v0, odir_v0 in H'. rewrite odir_v0 in H. left; auto.
  - rewrite odir_nz in H by auto. rewrite odir_nz in H' by (apply orthogonal_nz; auto).
    right. eexists; split; [exact H|]. rewrite orthogonal_direction in H' by auto. exact H'.
Qed.

Theorem C101_great_circle_normal : forall Q A A' B B' n m k u v,
  rotation Q ->
  cols A n u -> cols A' n (fun j => mulv Q (u j)) ->
  cols B m v -> cols B' m (fun j => mulv Q (v j)) -> bdim n m = Some k ->
  exists C C', great_circle_normal A B = ret C /\ great_circle_normal A' B' = ret C' /\ turned Q k C C'.
Proof.
  intros Q A A' B B' n m k u v HQ HA HA' HB HB' D. pose proof HQ as [HO _].
  destruct (gcn_cols _ _ _ _ _ _ _ HA HB D) as (C & E & SC & GC).
  destruct (gcn_cols _ _ _ _ _ _ _ HA' HB' D) as (C' & E' & SC' & GC').
  exists C, C'. repeat (split; [assumption|]). intros j Hj. specialize (GC j Hj). specialize (GC' j Hj).
  cbn beta in GC'. rewrite rotation_cross in GC' by auto. eapply odir_turned; eauto.
Qed.
Print Assumptions C101_great_circle_normal.

(** the same warnings, the same crossing point turned *)
Theorem C101_intersect : forall Q A1 A2 B1 B2 A1' A2' B1' B2' a1 a2 b1 b2,
  rotation Q ->
  cols A1 1 (fun _ => a1) -> cols A1' 1 (fun _ => mulv Q a1) ->
  cols A2 1 (fun _ => a2) -> cols A2' 1 (fun _ => mulv Q a2) ->
  cols B1 1 (fun _ => b1) -> cols B1' 1 (fun _ => mulv Q b1) ->
  cols B2 1 (fun _ => b2) -> cols B2' 1 (fun _ => mulv Q b2) ->
  exists w C C', intersect (A1, A2) (B1, B2) = (w, inl C) /\ intersect (A1', A2') (B1', B2') = (w, inl C') /\
    turned Q 1 C C'.
Proof.
  intros Q A1 A2 B1 B2 A1' A2' B1' B2' a1 a2 b1 b2 HQ H1 H1' H2 H2' H3 H3' H4 H4'. pose proof HQ as [HO _].
  destruct (intersect_1 _ _ _ _ _ _ _ _ H1 H2 H3 H4) as [I0 I1].
  destruct (intersect_1 _ _ _ _ _ _ _ _ H1' H2' H3' H4') as [J0 J1].
  rewrite !rotation_cross in J0, J1 by auto.
  destruct (vec_eq_dec (vcross (vcross a1 a2) (vcross b1 b2)) v0) as [Z|Z].
  - destruct (I0 Z) as (C & E & S & G). rewrite (rot_zero Q _ HO) in J0. destruct (J0 Z) as (C' & E' & S' & G').
    eexists _, C, C'. repeat (split; [eassumption|]). intros j Hj. left. assert (j = 0)%nat by lia; subst; auto.
  - destruct (I1 Z) as (C & E & S & G). destruct (J1 (orthogonal_nz _ _ HO Z)) as (C' & E' & S' & G').
    eexists _, C, C'. repeat (split; [eassumption|]). intros j Hj. right.
    eexists; split; [apply G; auto|]. specialize (G' j Hj). cbn beta in G'.
    rewrite orthogonal_direction, orthogonal_dot in G' by auto. rewrite mulv_scale. exact G'.
Qed.
Print Assumptions C101_intersect.

Theorem C101_closest_point : forall Q A1 A2 B A1' A2' B' a1 a2 b,
  rotation Q ->
  cols A1 1 (fun _ => a1) -> cols A1' 1 (fun _ => mulv Q a1) ->
  cols A2 1 (fun _ => a2) -> cols A2' 1 (fun _ => mulv Q a2) ->
  cols B 1 (fun _ => b) -> cols B' 1 (fun _ => mulv Q b) ->
  vcross a1 a2 <> v0 -> vnorm b = 1 -> vcross b (vcross a1 a2) <> v0 ->
  exists p, returns (closest_point_on_great_circle (A1, A2) B) [] (fun C => cols C 1 (fun _ => p)) /\
            returns (closest_point_on_great_circle (A1', A2') B') [] (fun C => cols C 1 (fun _ => mulv Q p)).
Proof.
  intros Q A1 A2 B A1' A2' B' a1 a2 b HQ H1 H1' H2 H2' HB HB' Z Ub Np. pose proof HQ as [HO _].
  destruct (C20_closest_point_partial _ _ _ _ _ _ H1 H2 HB Z Ub Np) as (p & Rp & Cp & _ & Mp & Up & _).
  destruct (C20_closest_point_partial _ _ _ _ _ _ H1' H2' HB') as (p' & Rp' & Cp' & _ & Mp' & Up' & _).
  { rewrite rotation_cross by auto. apply orthogonal_nz; auto. }
  { rewrite orthogonal_norm; auto. }
  { rewrite !rotation_cross by auto. apply orthogonal_nz; auto. }
  assert (T : forall q, on_circle a1 a2 q <-> on_circle (mulv Q a1) (mulv Q a2) (mulv Q q)).
  { intros q. unfold on_circle. rewrite orthogonal_norm, rotation_cross, orthogonal_dot by auto. reflexivity. }
  exists p. split; [exact Rp|]. replace (mulv Q p) with p'; [exact Rp'|]. symmetry. apply Up'; [apply T; auto|].
  apply Rle_antisym; [|apply Mp', T; auto]. rewrite rot_angle by auto.
  rewrite <- (orthogonal_inv' Q p' HO) in Cp'. apply T in Cp'. specialize (Mp _ Cp').
  rewrite <- (rot_angle Q b (mulv (mT Q) p')) in Mp by auto. rewrite orthogonal_inv' in Mp by auto.
  exact Mp.
Qed.
Print Assumptions C101_closest_point.

Theorem C101_interpolate : forall Q A A' B B' n u v ti m r k,
  orthogonal Q ->
  cols A n u -> cols A' n (fun j => mulv Q (u j)) ->
  cols B n v -> cols B' n (fun j => mulv Q (v j)) -> vals ti m r -> bdim n m = Some k ->
  exists C C', interpolate (A, B) ti = ret C /\ interpolate (A', B') ti = ret C' /\ turned Q k C C'.
Proof.
  intros Q A A' B B' n u v ti m r k HO HA HA' HB HB' Ht D.
  destruct (C25_interpolate _ _ _ _ _ _ _ _ _ HA HB Ht D) as (C & E & S & G).
  destruct (C25_interpolate _ _ _ _ _ _ _ _ _ HA' HB' Ht D) as (C' & E' & S' & G').
  exists C, C'. repeat (split; [assumption|]). intros j Hj.
  specialize (G j Hj). specialize (G' j Hj). cbv zeta in G, G'.
  rewrite <- mulv_sub, <- mulv_scale, <- mulv_add in G'.
  set (p := vadd (u (cl n j)) (vscale (r (cl m j)) (vsub (v (cl n j)) (u (cl n j))))) in *.
  destruct G as [G0 G1]. destruct G' as [G0' G1'].
  destruct (vec_eq_dec p v0) as [Z|Z].
  - left. split; auto. apply G0'. apply rot_zero; auto.
  - right. destruct (G1 Z) as (w & Cw & Uw & _ & Dw & _).
    destruct (G1' (orthogonal_nz _ _ HO Z)) as (w' & Cw' & Uw' & _ & Dw' & _).
    assert (UD : forall x y, vnorm x = 1 -> same_direction x y -> y <> v0 -> x = direction y).
    { clear. intros x y N (c & Pc & ->) Ny. unfold direction. rewrite vnorm_scale, Rabs_right in N by lra.
      f_equal. pose proof (vnorm_nz _ Ny). apply Rmult_eq_reg_r with (vnorm y); [|lra]. rewrite Rinv_l; lra. }
    exists w. split; [exact Cw|]. rewrite (UD _ _ Uw' Dw' (orthogonal_nz _ _ HO Z)) in Cw'.
    rewrite (UD _ _ Uw Dw Z). rewrite orthogonal_direction in Cw' by auto. exact Cw'.
Qed.
Print Assumptions C101_interpolate.

Theorem C101_mean_position : forall Q A A' l,
  orthogonal Q ->
  cols A (length l) (fun j => nth j l v0) -> cols A' (length l) (fun j => mulv Q (nth j l v0)) -> vsum l <> v0 ->
  exists p, returns (mean_horizontal_position A) [] (fun C => cols C 1 (fun _ => p)) /\
            returns (mean_horizontal_position A') [] (fun C => cols C 1 (fun _ => mulv Q p)).
Proof.
  intros Q A A' l HO HA HA' Z.
  destruct (mean_spec A l HA) as (C & E & HC).
  assert (V' : vsum (map (mulv Q) l) = mulv Q (vsum l)).
  { clear. induction l as [|x l IH]; [symmetry; apply mulv_v0|]. cbn [map vsum fold_right]. fold (vsum (map (mulv Q) l)) (vsum l).
    rewrite IH, mulv_add. reflexivity. }
  destruct (mean_spec A' (map (mulv Q) l)) as (C' & E' & HC').
  { rewrite map_length. eapply cols_ext; [|exact HA']. intros j Hj. cbn beta.
    rewrite <- (mulv_v0 Q) at 2. rewrite map_nth. reflexivity. }
  exists (direction (vsum l)). split.
  - exists C; split; [exact E|]. rewrite dir1_nz in HC by auto. exact HC.
  - exists C'; split; [exact E'|]. rewrite V', dir1_nz, orthogonal_direction in HC' by (auto using orthogonal_nz). exact HC'.
Qed.
Print Assumptions C101_mean_position.

(** cancelling positions are the exception: the answer is then always (1, 0, 0) *)
Theorem C101_mean_of_cancelling_positions_refuted : ~ forall Q A A' l,
  rotation Q ->
  cols A (length l) (fun j => nth j l v0) -> cols A' (length l) (fun j => mulv Q (nth j l v0)) ->
  exists p, returns (mean_horizontal_position A) [] (fun C => cols C 1 (fun _ => p)) /\
            returns (mean_horizontal_position A') [] (fun C => cols C 1 (fun _ => mulv Q p)).
Proof.
  intros H.
  assert (HQ : rotation (Rz (PI / 2))).
  { unfold Rz. rewrite cos_PI2, sin_PI2. split; [unfold orthogonal, mmul, mT, mI, vdot; cbn [r0 r1 r2 vx vy vz]; repeat f_equal; ring|
      unfold mdet, vdot, vcross; cbn [r0 r1 r2 vx vy vz]; ring]. }
  set (l := [V 0 0 1; V 0 0 (-1)]).
  assert (F : forall q, mulv (Rz (PI / 2)) (V 0 0 q) = V 0 0 q).
  { intros q. unfold Rz, mulv, vdot; cbn [r0 r1 r2 vx vy vz]. f_equal; ring. }
  assert (HA' : cols (arr3 l) (length l) (fun j => mulv (Rz (PI / 2)) (nth j l v0))).
  { eapply cols_ext; [|apply arr3_cols]. intros j Hj. cbn beta. unfold l, v0. destruct j as [|[|j]]; cbn [nth]; rewrite ?F; try reflexivity.
    destruct j; cbn [nth]; rewrite F; reflexivity. }
  destruct (H _ (arr3 l) (arr3 l) l HQ (arr3_cols l) HA') as (p & R1 & R2).
  destruct (C26_zero_sum (arr3 l) l (arr3_cols l)) as (C & E & HC).
  { unfold l, vsum, v0; cbn [fold_right]; unfold vadd; cbn [vx vy vz]. f_equal; ring. }
  destruct R1 as (C1 & E1 & HC1). destruct R2 as (C2 & E2 & HC2).
  rewrite E in E1, E2. injection E1 as <-. injection E2 as <-.
  destruct (proj2 HC 0%nat ltac:(lia)) as (x0 & y0 & _). destruct (proj2 HC1 0%nat ltac:(lia)) as (x1 & y1 & _).
  destruct (proj2 HC2 0%nat ltac:(lia)) as (x2 & y2 & _). cbn beta in *.
  pose proof (fin_unique _ _ _ x0 x1) as U1. pose proof (fin_unique _ _ _ x0 x2) as U2.
  pose proof (fin_unique _ _ _ y0 y1) as U3.
  unfold Rz, mulv, vdot in U2; cbn [r0 r1 r2 vx vy vz] in *. rewrite cos_PI2, sin_PI2 in U2. lra.
Qed.
Print Assumptions C101_mean_of_cancelling_positions_refuted.

(** two positions, and a rotation by 2 radians about the x axis followed by one about the z axis *)
Example C101_example : rotation (mmul (Rz 1) (Rx 2)) /\ vcross (V 1 0 0) (V 0 (3/5) (4/5)) <> v0 /\
  vsum [V 1 0 0; V 0 (3/5) (4/5)] <> v0 /\ vnorm (V (3/5) 0 (4/5)) = 1 /\
  vcross (V (3/5) 0 (4/5)) (vcross (V 1 0 0) (V 0 (3/5) (4/5))) <> v0.
Proof.
  split.
  { apply rotation_mul; split; unfold Rz, Rx, orthogonal, mdet, mmul, mT, mI, vdot, vcross; cbn [r0 r1 r2 vx vy vz].
    - pose proof (sin2_cos2 1) as S; unfold Rsqr in S. repeat f_equal; lra.
    - pose proof (sin2_cos2 1) as S; unfold Rsqr in S. lra.
    - pose proof (sin2_cos2 2) as S; unfold Rsqr in S. repeat f_equal; lra.
    - pose proof (sin2_cos2 2) as S; unfold Rsqr in S. lra. }
  split; [unfold vcross; cbn [vx vy vz]; intros [=]; lra|].
  split; [unfold vsum, vadd, v0; cbn [fold_right vx vy vz]; intros [=]; lra|].
  split; [apply vnorm_unit; unfold vdot; cbn [vx vy vz]; field|].
  unfold vcross; cbn [vx vy vz]; intros [=]; lra.
Qed.
