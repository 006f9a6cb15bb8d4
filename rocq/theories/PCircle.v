(** * C15-C22: great circles *)
From Coq Require Import List Arith Lia Bool Reals Lra String Ascii.
From Verif Require Import Num Py Nd MUtil MRotation MCore Spec SpecArr LNum LTrig LVec LArr LAngle LDist LCircle PDist.
Import ListNotations.
Local Open Scope R_scope.

(** ** C15 *)
(** columns paired with broadcasting *)
Theorem C15_unit_normal : forall A B n m k u v,
  cols A n u -> cols B m v -> bdim n m = Some k ->
  returns (great_circle_normal A B) [] (fun C =>
    shape C = [3%nat; k] /\ forall j, (j < k)%nat ->
      let a := u (cl n j) in let b := v (cl m j) in
      (vcross a b = v0 -> nancol C j) /\
      (vcross a b <> v0 -> exists c, vcol C j c /\ vnorm c = 1 /\ vdot c a = 0 /\ vdot c b = 0
                                     /\ 0 < vdot c (vcross a b))).
Proof.
  intros A B n m k u v HA HB D. destruct (gcn_cols _ _ _ _ _ _ _ HA HB D) as (C & E & S & G).
  exists C; split; auto. split; auto. intros j Hj. cbv zeta. specialize (G j Hj). cbn beta in G.
  split; intros Z.
  - rewrite Z, odir_v0 in G. exact G.
  - rewrite odir_nz in G by auto. exists (direction (vcross (u (cl n j)) (v (cl m j)))).
    pose proof (vnorm_nz _ Z) as P. pose proof (Rinv_0_lt_compat _ P) as Pi.
    split; auto. split; [apply direction_unit; auto|]. unfold direction. rewrite !vdot_scale_l.
    rewrite vdot_cross_l', vdot_cross_r'. repeat split; try ring. pose proof (vdot_nz _ Z). nra.
Qed.
Print Assumptions C15_unit_normal.

(** swapping the end points reverses the normal, column by column *)
Theorem C15_swap : forall A B n u v,
  cols A n u -> cols B n v -> (forall j, (j < n)%nat -> vcross (u j) (v j) <> v0) ->
  exists c, returns (great_circle_normal A B) [] (fun C => cols C n c) /\
            returns (great_circle_normal B A) [] (fun C => cols C n (fun j => vneg (c j))).
Proof.
  intros A B n u v HA HB Z.
  destruct (gcn_cols_nz _ _ _ _ _ _ _ HA HB (bdim_refl n)) as (C & E & HC).
  { intros j Hj. rewrite !cl_id; auto. }
  destruct (gcn_cols_nz _ _ _ _ _ _ _ HB HA (bdim_refl n)) as (C' & E' & HC').
  { intros j Hj. rewrite !cl_id, vcross_anti by auto. intros X. apply (Z j Hj).
    rewrite <- (vneg_neg (vcross _ _)), X. vring. }
  eexists. split; [exists C; split; [exact E|exact HC]|]. exists C'; split; [exact E'|].
  eapply cols_ext; [|apply HC']. intros j Hj. cbn beta. rewrite !cl_id by auto.
  rewrite vcross_anti, direction_neg; auto.
Qed.
Print Assumptions C15_swap.

Example C15_example : vcross (V 1 0 0) (V 0 1 0) <> v0 /\ vcross (V 1 0 0) (V 2 0 0) = v0.
Proof. split; [intros [=]; lra|vring]. Qed.

(** ** C16, C17: single paths *)
(** Full statement (C16): for distinct circles the result is a unit vector on both circles
    with nonnegative component along A1.  Proved when the intersection line is not
    perpendicular to A1; the excluded case is refuted below. *)
Theorem C16_intersection_partial : forall A1 A2 B1 B2 a1 a2 b1 b2,
  cols A1 1 (fun _ => a1) -> cols A2 1 (fun _ => a2) -> cols B1 1 (fun _ => b1) -> cols B2 1 (fun _ => b2) ->
  distinct_circles a1 a2 b1 b2 ->
  vdot (vcross (vcross a1 a2) (vcross b1 b2)) a1 <> 0 ->
  exists p, returns (intersect (A1, A2) (B1, B2)) [] (fun C => cols C 1 (fun _ => p)) /\
    on_circle a1 a2 p /\ on_circle b1 b2 p /\ 0 < vdot p a1.
Proof.
  intros A1 A2 B1 B2 a1 a2 b1 b2 H1 H2 H3 H4 Dc N. apply distinct_iff in Dc.
  destruct (intersect_1 _ _ _ _ _ _ _ _ H1 H2 H3 H4) as [_ G]. destruct (G Dc) as (C & E & HC).
  set (c := vcross (vcross a1 a2) (vcross b1 b2)) in *.
  pose proof (vnorm_nz _ Dc) as P. pose proof (Rinv_0_lt_compat _ P) as Pi.
  assert (O1 : vdot c (vcross a1 a2) = 0) by (unfold c; apply vdot_cross_l').
  assert (O2 : vdot c (vcross b1 b2) = 0) by (unfold c; apply vdot_cross_r').
  eexists. split; [exists C; split; [exact E|exact HC]|].
  assert (D1 : vdot (direction c) a1 = / vnorm c * vdot c a1) by (unfold direction; apply vdot_scale_l).
  assert (N1 : vdot (direction c) a1 <> 0).
  { rewrite D1. intros X. apply Rmult_integral in X. lra. }
  assert (Sg : Rabs (rsign (vdot (direction c) a1)) = 1).
  { unfold rsign. destruct (Rlt_dec _ _); [rewrite Rabs_left by lra; ring|].
    destruct (Rlt_dec 0 _); [apply Rabs_right; lra|lra]. }
  assert (U : vnorm (vscale (rsign (vdot (direction c) a1)) (direction c)) = 1).
  { rewrite vnorm_scale, Sg, direction_unit by auto. ring. }
  assert (Q : forall x, vdot c x = 0 -> vdot (direction c) x = 0).
  { intros x Hx. unfold direction. rewrite vdot_scale_l, Hx. ring. }
  split; [split; auto|split; [split; auto|]]; rewrite vdot_scale_l; [rewrite (Q _ O1); ring|rewrite (Q _ O2); ring|].
  unfold rsign. destruct (Rlt_dec _ _); [lra|]. destruct (Rlt_dec 0 _); lra.
Qed.
Print Assumptions C16_intersection_partial.

Example C16_example : distinct_circles (V 1 0 0) (V 0 1 0) (V 0 0 1) (V 1 0 0)
  /\ vdot (vcross (vcross (V 1 0 0) (V 0 1 0)) (vcross (V 0 0 1) (V 1 0 0))) (V 1 0 0) <> 0.
Proof. split; [apply distinct_iff; intros [=]; lra|]. unfold vdot, vcross; simpl. lra. Qed.

(** whenever the circles are distinct and meet at right angles to A1, the zero vector is returned,
    although the intersection points are well defined: it is on neither circle *)
Theorem C16_perpendicular_refuted : forall A1 A2 B1 B2 a1 a2 b1 b2,
  cols A1 1 (fun _ => a1) -> cols A2 1 (fun _ => a2) -> cols B1 1 (fun _ => b1) -> cols B2 1 (fun _ => b2) ->
  distinct_circles a1 a2 b1 b2 ->
  vdot (vcross (vcross a1 a2) (vcross b1 b2)) a1 = 0 ->
  returns (intersect (A1, A2) (B1, B2)) [] (fun C => cols C 1 (fun _ => v0)) /\
  ~ on_circle a1 a2 v0 /\ exists p, on_circle a1 a2 p /\ on_circle b1 b2 p /\ 0 <= vdot p a1.
Proof.
  intros A1 A2 B1 B2 a1 a2 b1 b2 H1 H2 H3 H4 Dc N. apply distinct_iff in Dc.
  destruct (intersect_1 _ _ _ _ _ _ _ _ H1 H2 H3 H4) as [_ G]. destruct (G Dc) as (C & E & HC).
  set (c := vcross (vcross a1 a2) (vcross b1 b2)) in *.
  split; [|split].
  - exists C; split; [exact E|]. eapply cols_ext; [|apply HC]. intros j Hj. cbn beta.
    unfold direction at 1. rewrite vdot_scale_l, N, Rmult_0_r, rsign_0. apply vscale_0.
  - intros [U _]. rewrite vnorm_v0 in U. lra.
  - exists (direction c). pose proof (direction_unit _ Dc) as U. unfold on_circle, direction in *.
    rewrite !vdot_scale_l, N. unfold c. rewrite vdot_cross_l', vdot_cross_r'.
    repeat split; auto; try ring; lra.
Qed.
Print Assumptions C16_perpendicular_refuted.

Example C16_refuted_example :
  distinct_circles (V 1 0 0) (V 0 1 0) (V 0 1 0) (V 0 0 1) /\
  vdot (vcross (vcross (V 1 0 0) (V 0 1 0)) (vcross (V 0 1 0) (V 0 0 1))) (V 1 0 0) = 0.
Proof. split; [apply distinct_iff; intros [=]; lra|]. unfold vdot, vcross; simpl. ring. Qed.

(** C17: NaN and the warning exactly when the circles coincide or a path is degenerate *)
Theorem C17_undefined_intersection : forall A1 A2 B1 B2 a1 a2 b1 b2,
  cols A1 1 (fun _ => a1) -> cols A2 1 (fun _ => a2) -> cols B1 1 (fun _ => b1) -> cols B2 1 (fun _ => b2) ->
  (~ distinct_circles a1 a2 b1 b2 ->
     returns (intersect (A1, A2) (B1, B2)) [WPathsEqual] (fun C => shape C = [3%nat; 1%nat] /\ nancol C 0)) /\
  (distinct_circles a1 a2 b1 b2 ->
     returns (intersect (A1, A2) (B1, B2)) [] (fun C => exists p, cols C 1 (fun _ => p))).
Proof.
  intros A1 A2 B1 B2 a1 a2 b1 b2 H1 H2 H3 H4.
  destruct (intersect_1 _ _ _ _ _ _ _ _ H1 H2 H3 H4) as [G0 G1].
  split; intros Dc; rewrite distinct_iff in Dc.
  - destruct (vec_eq_dec (vcross (vcross a1 a2) (vcross b1 b2)) v0) as [Z|Z]; [|contradiction].
    destruct (G0 Z) as (C & E & S & N). exists C; auto.
  - destruct (G1 Dc) as (C & E & HC). exists C; split; auto. eexists; exact HC.
Qed.
Print Assumptions C17_undefined_intersection.

(** non-vacuity of both sides: a path and its own reversal are not distinct *)
Example C17_example : ~ distinct_circles (V 1 0 0) (V 0 1 0) (V 0 1 0) (V 1 0 0) /\
  distinct_circles (V 1 0 0) (V 0 1 0) (V 0 0 1) (V 1 0 0).
Proof.
  split; [|apply C16_example]. rewrite distinct_iff. intros H; apply H. unfold vcross, v0; simpl. f_equal; ring.
Qed.

(** ** C18: paths of several columns *)
Theorem C18_columns_refuted : forall A1 A2 B1 B2 n m k u1 u2 v1 v2,
  cols A1 n u1 -> cols A2 n u2 -> cols B1 m v1 -> cols B2 m v2 -> bdim n m = Some k ->
  (2 <= k)%nat -> k <> 3%nat -> raises (intersect (A1, A2) (B1, B2)) ValueError.
Proof.
  intros A1 A2 B1 B2 n m k u1 u2 v1 v2 H1 H2 H3 H4 D K2 K3. unfold intersect.
  step (cross_cols _ _ _ _ _ _ _ H1 H2 (bdim_refl n)) CA HCA.
  step (cross_cols _ _ _ _ _ _ _ H3 H4 (bdim_refl m)) CB HCB.
  step (cross_cols _ _ _ _ _ _ _ HCA HCB D) CC HCC.
  step (unitnan_cols _ _ _ HCC) T HT. destruct HT as [ST _]. pose proof H1 as [S1 _].
  unfold dot, transpose. cbn [shape]. rewrite ST, S1. cbn [rev app]. rewrite Nat.eqb_refl, bind_ret.
  unfold map2. match goal with |- context [shape (map1 nsign ?D)] => change (shape (map1 nsign D)) with [k; n] end.
  rewrite ST.
  assert (X : bdim k 3 = None).
  { unfold bdim. destruct (Nat.eqb_spec k 3); [lia|]. destruct (Nat.eqb_spec k 1); [lia|]. reflexivity. }
  unfold bshape. cbn [rev app bshape_rev]. rewrite X. destruct (bdim n k); reflexivity.
Qed.
Print Assumptions C18_columns_refuted.

Example C18_example : bdim 2 2 = Some 2%nat /\ bdim 1 5 = Some 5%nat. Proof. split; reflexivity. Qed.

(** three columns are accepted, but the components are mixed up: three well-defined intersections,
    each with a nonzero component along A1, and the zero vector is returned for the second *)
Theorem C18_three_columns_refuted : exists a1 a2 b1 b2,
  let A1 := arr3 a1 in let A2 := arr3 a2 in let B1 := arr3 b1 in let B2 := arr3 b2 in
  (forall j, (j < 3)%nat -> distinct_circles (nth j a1 v0) (nth j a2 v0) (nth j b1 v0) (nth j b2 v0)
     /\ vdot (vcross (vcross (nth j a1 v0) (nth j a2 v0)) (vcross (nth j b1 v0) (nth j b2 v0))) (nth j a1 v0) <> 0) /\
  returns (intersect (A1, A2) (B1, B2)) [] (fun C => shape C = [3%nat; 3%nat] /\ vcol C 1 v0).
Proof.
  exists [V 0 1 0; V 1 0 0; V 1 0 0], [V 0 0 1; V 0 1 0; V 0 1 0],
         [V 0 1 0; V 0 0 1; V 0 0 1], [V (-1) 0 0; V 1 0 0; V 1 0 0].
  cbv zeta.
  set (a1 := [V 0 1 0; V 1 0 0; V 1 0 0]). set (a2 := [V 0 0 1; V 0 1 0; V 0 1 0]).
  set (b1 := [V 0 1 0; V 0 0 1; V 0 0 1]). set (b2 := [V (-1) 0 0; V 1 0 0; V 1 0 0]).
  pose (cc := fun j => vcross (vcross (nth j a1 v0) (nth j a2 v0)) (vcross (nth j b1 v0) (nth j b2 v0))).
  assert (C0 : cc 0%nat = V 0 (-1) 0) by (unfold cc, a1, a2, b1, b2, vcross; simpl; f_equal; ring).
  assert (C1 : cc 1%nat = V (-1) 0 0) by (unfold cc, a1, a2, b1, b2, vcross; simpl; f_equal; ring).
  assert (C2 : cc 2%nat = V (-1) 0 0) by (unfold cc, a1, a2, b1, b2, vcross; simpl; f_equal; ring).
  assert (NZ0 : forall j, (j < 3)%nat -> cc j <> v0).
  { intros j Hj. destruct (lt3 j Hj) as [->|[->| ->]]; rewrite ?C0, ?C1, ?C2; intros [=]; lra. }
  split.
  - intros j Hj. split; [apply distinct_iff; apply (NZ0 j Hj)|].
    change (vdot (cc j) (nth j a1 v0) <> 0).
    destruct (lt3 j Hj) as [->|[->| ->]]; rewrite ?C0, ?C1, ?C2; unfold a1, vdot; simpl; lra.
  - pose proof (arr3_cols a1) as H1. pose proof (arr3_cols a2) as H2.
    pose proof (arr3_cols b1) as H3. pose proof (arr3_cols b2) as H4.
    change (List.length a1) with 3%nat in H1. change (List.length a2) with 3%nat in H2.
    change (List.length b1) with 3%nat in H3. change (List.length b2) with 3%nat in H4.
    unfold intersect.
    step (cross_cols _ _ _ _ _ _ _ H1 H2 (bdim_refl 3)) CA HCA.
    step (cross_cols _ _ _ _ _ _ _ H3 H4 (bdim_refl 3)) CB HCB.
    step (cross_cols _ _ _ _ _ _ _ HCA HCB (bdim_refl 3)) CC HCC.
    assert (HCC' : cols CC 3 cc).
    { eapply cols_ext; [|apply HCC]. intros j Hj. cbn beta. rewrite !cl_id by auto. reflexivity. }
    step (unitnan_cols_nz _ _ _ HCC' NZ0) T HT.
    assert (HT' : cols T 3 cc).
    { eapply cols_ext; [|apply HT]. intros j Hj. cbn beta. apply direction_of_unit.
      destruct (lt3 j Hj) as [->|[->| ->]]; rewrite ?C0, ?C1, ?C2; apply vnorm_unit; unfold vdot; simpl; ring. }
    destruct (dot_T_cols _ _ _ _ _ _ HT' H1) as (D & E & SD & GD). rewrite E, bind_ret; clear E.
    destruct HT' as [ST GT].
    unfold map2. change (shape (map1 nsign D)) with (shape D). rewrite SD, ST.
    rewrite (bshape_3n_3m 3 3 3 eq_refl), bind_ret.
    assert (Fi : forall i j, (i < 3)%nat -> (j < 3)%nat -> exists r,
      nmul (get (map1 nsign D) [i; j]) (get T [i; j]) ≈ r).
    { intros i j Hi Hj. destruct (GT j Hj) as (t0 & t1 & t2). pose proof (GD i j Hi Hj) as Dd.
      destruct (lt3 i Hi) as [->|[->| ->]]; eexists; (apply fin_mul; [apply fin_sign; exact Dd|eassumption]). }
    match goal with |- context [any_ ?x] => assert (An : any_ x = false) end.
    { unfold any_, size. cbn [shape map1 prod fold_right Nat.mul Nat.add allb get].
      repeat match goal with |- context [unravel [3%nat; 3%nat] ?k] =>
        let i := eval compute in (unravel [3%nat; 3%nat] k) in change (unravel [3%nat; 3%nat] k) with i end.
      rewrite !bidx_2. unfold cl; cbn [Nat.eqb].
      repeat match goal with |- context [isnan (nmul (nsign (get D [?i; ?j])) (get T [?i; ?j]))] =>
        let r := fresh "r" in let Hr := fresh "Hr" in
        destruct (Fi i j ltac:(lia) ltac:(lia)) as [r Hr]; cbn [map1 get] in Hr; rewrite (fin_not_nan _ _ Hr); clear r Hr end.
      reflexivity. }
    rewrite An. eexists; split; [reflexivity|]. split; [reflexivity|].
    unfold vcol; cbn [get]. rewrite !bidx_2. unfold cl; cbn [Nat.eqb map1 get v0 vx vy vz].
    destruct (GT 1%nat ltac:(lia)) as (t0 & t1 & t2). rewrite C1 in t0, t1, t2. cbn [vx vy vz] in *.
    pose proof (GD 0%nat 1%nat ltac:(lia) ltac:(lia)) as D0.
    pose proof (GD 1%nat 1%nat ltac:(lia) ltac:(lia)) as D1.
    pose proof (GD 2%nat 1%nat ltac:(lia) ltac:(lia)) as D2.
    rewrite C0 in D0.
    split; [|split].
    + eapply fin_eq; [apply fin_mul; [apply fin_sign; exact D0|exact t0]|].
      assert (Z : vdot (V 0 (-1) 0) (nth 1 a1 v0) = 0) by (unfold a1, vdot; simpl; ring).
      rewrite Z, rsign_0. ring.
    + eapply fin_eq; [apply fin_mul; [apply fin_sign; exact D1|exact t1]|]. ring.
    + eapply fin_eq; [apply fin_mul; [apply fin_sign; exact D2|exact t2]|]. ring.
Qed.
Print Assumptions C18_three_columns_refuted.
