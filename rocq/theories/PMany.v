(** * C96: several paths and several positions at once *)
From Coq Require Import List Arith Lia Bool Reals Lra Psatz String Ascii.
From Verif Require Import Num Py Nd MUtil MRotation MCore Spec SpecArr LNum LTrig LVec LArr LAngle LDist LCircle PDist PTrack.
Import ListNotations.
Local Open Scope R_scope.

(** ** cross track distances: a table of all pairs, laid out in one row *)
(** row-major table of numbers, of booleans, for n paths and m positions *)
Definition table {X} (D : arr X) (n m : nat) (is : X -> nat -> nat -> Prop) : Prop :=
  shape D = [(n * m)%nat] /\ forall i j, (i < n)%nat -> (j < m)%nat -> is (get D [(i * m + j)%nat]) i j.
(** a single path, a single position *)
Definition single (A : arr num) (a : vec) : Prop := cols A 1 (fun _ => a).

Lemma unravel_nm n m i j : (j < m)%nat -> unravel [n; m] (i * m + j) = [i; j].
Proof.
  intros H. unfold unravel, prod; cbn [fold_right]. rewrite Nat.mul_1_r, Nat.div_1_r.
  rewrite Nat.div_add_l, (Nat.div_small j m), Nat.add_0_r by lia. rewrite Nat.add_comm, Nat.mod_add, Nat.mod_small by lia. reflexivity.
Qed.
Lemma idx_lt n m i j : (i < n)%nat -> (j < m)%nat -> (i * m + j < n * m)%nat. Proof. intros. nia. Qed.

Lemma ravel_table (d : arr num) n m r f g : shape d = [n; m] -> (forall i j, (i < n)%nat -> (j < m)%nat -> get d [i; j] ≈ r i j) -> (forall x y, x ≈ y -> f x ≈ g y) ->
  table (ravel (map1 f d)) n m (fun x i j => x ≈ g (r i j)).
Proof.
  intros S G F. split. - unfold ravel, map1, size; cbn [shape]. rewrite S. unfold prod; cbn [fold_right]. rewrite Nat.mul_1_r. reflexivity.
  - intros i j Hi Hj. unfold ravel, map1; cbn [get shape at_ nth]. rewrite S, unravel_nm by auto. apply F, G; auto.
Qed.
Lemma table_list1 D n m d : table D n m (fun x i j => x ≈ d i j) -> (0 < m)%nat -> list1 D (n * m) (fun k => d (k / m)%nat (k mod m)%nat).
Proof.
  intros [S G] Hm. split; auto. intros k Hk. assert (Q : (k / m < n)%nat) by (apply Nat.div_lt_upper_bound; lia). pose proof (Nat.mod_upper_bound k m ltac:(lia)) as B.
  pose proof (G _ _ Q B) as H. replace (k / m * m + k mod m)%nat with k in H by (pose proof (Nat.div_mod k m ltac:(lia)); lia). exact H.
Qed.
Lemma list1_table D n m d : list1 D (n * m) (fun k => d (k / m)%nat (k mod m)%nat) -> table D n m (fun x i j => x ≈ d i j).
Proof.
  intros [S G]. split; auto. intros i j Hi Hj. pose proof (G _ (idx_lt _ _ _ _ Hi Hj)) as H. cbn beta in H.
  rewrite Nat.div_add_l, (Nat.div_small j m), Nat.add_0_r in H by lia. rewrite Nat.add_comm, Nat.mod_add, Nat.mod_small in H by lia. rewrite Nat.add_comm in H. exact H.
Qed.

Lemma xtd_table A1 A2 B n m u1 u2 v method radius r :
  cols A1 n u1 -> cols A2 n u2 -> cols B m v -> (0 < m)%nat -> (forall i, (i < n)%nat -> vcross (u1 i) (u2 i) <> v0) -> (forall j, (j < m)%nat -> vnorm (v j) = 1) -> method <> EmptyString -> scalar radius r ->
  returns (cross_track_distance (A1, A2) B method radius) []
    (fun D => table D n m (fun x i j => x ≈ (if euclid method then xsin (u1 i) (u2 i) (v j) else asin (xsin (u1 i) (u2 i) (v j))) * r)).
Proof.
  intros H1 H2 HB Pm Z Hv Hm Hr. unfold cross_track_distance. cbn [fst snd].
  destruct (gcn_cols_nz _ _ _ _ _ _ _ H1 H2 (bdim_refl n)) as (C & E & HC). { intros j Hj. rewrite !cl_id by auto. auto. }
  rewrite E, bind_ret; clear E.
  assert (HC' : cols C n (fun i => direction (vcross (u1 i) (u2 i)))). { eapply cols_ext; [|apply HC]. intros j Hj. cbn beta. rewrite !cl_id by auto. reflexivity. }
  destruct (dot_T_cols _ _ _ _ _ _ HC' HB) as (Dt & E & SD & GD). rewrite E, bind_ret; clear E. rewrite (method_ok method Hm), bind_ret.
  assert (T : table (ravel (map1 nneg Dt)) n m (fun x i j => x ≈ xsin (u1 i) (u2 i) (v j))) by (apply (ravel_table Dt n m _ nneg Ropp SD GD); intros; apply fin_neg; auto).
  assert (XB : forall i j, (i < n)%nat -> (j < m)%nat -> -1 <= xsin (u1 i) (u2 i) (v j) <= 1).
  { intros i j Hi Hj. unfold xsin. pose proof (vdot_unit_bound _ _ (direction_unit _ (Z i Hi)) (Hv j Hj)). lra. }
  assert (Vr : vals radius 1 (fun _ => r)) by (left; auto).
  destruct (euclid method).
  - apply table_list1 in T; auto. unfold euclidean_xtd. destruct (mul_list1_vals _ _ _ _ _ _ _ T Vr (bdim_1_r _)) as (X & E & HX).
    exists X; split; auto. apply (list1_table X n m (fun i j => xsin (u1 i) (u2 i) (v j) * r)). eapply list1_ext; [|apply HX]. intros j Hj. cbn beta. rewrite (cl_id _ j Hj). reflexivity.
  - unfold great_circle_xtd.
    assert (TA : table (map1 narcsin (ravel (map1 nneg Dt))) n m (fun x i j => x ≈ asin (xsin (u1 i) (u2 i) (v j)))).
    { destruct T as [S G]. split; auto. intros i j Hi Hj. unfold map1 at 1; cbn [get]. apply fin_asin; auto. }
    apply table_list1 in TA; auto. destruct (mul_list1_vals _ _ _ _ _ _ _ TA Vr (bdim_1_r _)) as (X & E & HX).
    exists X; split; auto. apply (list1_table X n m (fun i j => asin (xsin (u1 i) (u2 i) (v j)) * r)). eapply list1_ext; [|apply HX]. intros j Hj. cbn beta. rewrite (cl_id _ j Hj). reflexivity.
Qed.

(** entry i*m + j is what path i and position j alone give *)
Theorem C96_cross_track_partial : forall A1 A2 B n m u1 u2 v method radius r,
  cols A1 n u1 -> cols A2 n u2 -> cols B m v -> (0 < m)%nat -> (forall i, (i < n)%nat -> vcross (u1 i) (u2 i) <> v0) -> (forall j, (j < m)%nat -> vnorm (v j) = 1) -> method <> EmptyString -> scalar radius r ->
  exists d : nat -> nat -> R,
    returns (cross_track_distance (A1, A2) B method radius) [] (fun D => table D n m (fun x i j => x ≈ d i j)) /\
    forall i j P1 P2 Q, (i < n)%nat -> (j < m)%nat -> single P1 (u1 i) -> single P2 (u2 i) -> single Q (v j) ->
      returns (cross_track_distance (P1, P2) Q method radius) [] (fun D => list1 D 1 (fun _ => d i j)).
Proof.
  intros A1 A2 B n m u1 u2 v method radius r H1 H2 HB Pm Z Hv Hm Hr.
  exists (fun i j => (if euclid method then xsin (u1 i) (u2 i) (v j) else asin (xsin (u1 i) (u2 i) (v j))) * r).
  split; [apply xtd_table; auto|]. intros i j P1 P2 Q Hi Hj S1 S2 S3.
  destruct (xtd_table P1 P2 Q 1 1 _ _ _ method radius r S1 S2 S3 ltac:(lia) (fun _ _ => Z i Hi) (fun _ _ => Hv j Hj) Hm Hr) as (D & E & S & G).
  exists D. split; auto. split; auto. intros k Hk. assert (k = 0%nat) by lia. subst k. apply (G 0%nat 0%nat); lia.
Qed.
Print Assumptions C96_cross_track_partial.

(** so n paths with n positions, n > 1, do not give the documented array of n distances *)
Theorem C96_cross_track_pairs_refuted : forall A1 A2 B n u1 u2 v method radius r,
  cols A1 n u1 -> cols A2 n u2 -> cols B n v -> (1 < n)%nat -> (forall i, (i < n)%nat -> vcross (u1 i) (u2 i) <> v0) -> (forall j, (j < n)%nat -> vnorm (v j) = 1) -> method <> EmptyString -> scalar radius r ->
  returns (cross_track_distance (A1, A2) B method radius) [] (fun D => shape D <> [n]).
Proof.
  intros A1 A2 B n u1 u2 v method radius r H1 H2 HB Pm Z Hv Hm Hr.
  destruct (xtd_table A1 A2 B n n u1 u2 v method radius r H1 H2 HB ltac:(lia) Z Hv Hm Hr) as (D & E & S & _). exists D. split; auto. rewrite S. intros [= X]. nia.
Qed.

(** ** on_great_circle *)
Lemma ogc_table A1 A2 B n m u1 u2 v radius r atol t :
  cols A1 n u1 -> cols A2 n u2 -> cols B m v -> (0 < m)%nat -> (forall i, (i < n)%nat -> vcross (u1 i) (u2 i) <> v0) -> (forall j, (j < m)%nat -> vnorm (v j) = 1) -> scalar radius r -> atol ≈ t ->
  returns (on_great_circle (A1, A2) B radius atol) []
    (fun D => table D n m (fun x i j => x = if Rle_dec (Rabs (asin (xsin (u1 i) (u2 i) (v j)) * r)) t then true else false)).
Proof.
  intros H1 H2 HB Pm Z Hv Hr Ht. unfold on_great_circle.
  destruct (xtd_table A1 A2 B n m u1 u2 v "greatcircle" radius r H1 H2 HB Pm Z Hv ltac:(discriminate) Hr) as (X & E & S & G). change (cross_track_distance (A1, A2) B "greatcircle" radius = ret X) in E. rewrite E, bind_ret. eexists; split; [reflexivity|].
  split; [exact S|]. intros i j Hi Hj. unfold map1; cbn [get]. apply nle_fin; auto. apply fin_abs. apply (G i j Hi Hj).
Qed.
Theorem C96_on_circle_partial : forall A1 A2 B n m u1 u2 v radius r atol t,
  cols A1 n u1 -> cols A2 n u2 -> cols B m v -> (0 < m)%nat -> (forall i, (i < n)%nat -> vcross (u1 i) (u2 i) <> v0) -> (forall j, (j < m)%nat -> vnorm (v j) = 1) -> scalar radius r -> atol ≈ t ->
  exists b : nat -> nat -> bool,
    returns (on_great_circle (A1, A2) B radius atol) [] (fun D => table D n m (fun x i j => x = b i j)) /\
    forall i j P1 P2 Q, (i < n)%nat -> (j < m)%nat -> single P1 (u1 i) -> single P2 (u2 i) -> single Q (v j) ->
      returns (on_great_circle (P1, P2) Q radius atol) [] (fun D => blist D 1 (fun _ => b i j)).
Proof.
  intros A1 A2 B n m u1 u2 v radius r atol t H1 H2 HB Pm Z Hv Hr Ht. eexists. split; [apply (ogc_table A1 A2 B n m u1 u2 v radius r atol t); auto|].
  intros i j P1 P2 Q Hi Hj S1 S2 S3. cbn beta.
  destruct (ogc_table P1 P2 Q 1 1 _ _ _ radius r atol t S1 S2 S3 ltac:(lia) (fun _ _ => Z i Hi) (fun _ _ => Hv j Hj) Hr Ht) as (D & E & S & G).
  exists D. split; auto. split; auto. intros k Hk. assert (k = 0%nat) by lia. subst k. apply (G 0%nat 0%nat); lia.
Qed.
Print Assumptions C96_on_circle_partial.

(** ** closest_point_on_great_circle for exactly three positions: computed, but with mixed-up signs *)
Definition circle_point (a1 a2 b : vec) : vec := dir1 (foot (direction (vcross a1 a2)) b).
Lemma closest_3 A1 A2 B a1 a2 v : single A1 a1 -> single A2 a2 -> cols B 3 v -> vcross a1 a2 <> v0 ->
  let C j := circle_point a1 a2 (v j) in
  exists X, closest_point_on_great_circle (A1, A2) B = ret X /\
    cols X 3 (fun j => V (rsign (vdot (C 0%nat) (v j)) * vx (C j)) (rsign (vdot (C 1%nat) (v j)) * vy (C j)) (rsign (vdot (C 2%nat) (v j)) * vz (C j))).
Proof.
  intros H1 H2 HB Z C. unfold closest_point_on_great_circle.
  step (gcn_cols_nz _ _ _ _ _ _ _ H1 H2 (bdim_refl 1) (fun j _ => Z)) N HN.
  step (cross_cols _ _ _ _ _ _ _ HB HN (bdim_1_r 3)) X HX.
  step (cross_cols _ _ _ _ _ _ _ HN HX (bdim_1_l 3)) Y HY.
  step (unit1_cols _ _ _ HY) T HT. cbn beta in *.
  assert (HT' : cols T 3 C).
  { eapply cols_ext; [|apply HT]. intros j Hj. cbn beta. rewrite !(cl_id 3 j Hj). unfold C, circle_point. rewrite foot_triple by (apply direction_unit; auto). reflexivity. }
  destruct (dot_T_cols _ _ _ _ _ _ HT' HB) as (D & E & SD & GD). rewrite E, bind_ret; clear E.
  destruct HT' as [ST GT]. unfold map2. change (shape (map1 nsign D)) with (shape D). rewrite ST, SD, (bshape_3n_3m 3 3 3 eq_refl). eexists; split; [reflexivity|]. split; [reflexivity|].
  intros j Hj. destruct (GT j Hj) as (g0 & g1 & g2). unfold vcol; cbn [get vx vy vz]. rewrite !bidx_2. rewrite !(cl_id 3 j Hj).
  change (cl 3 0) with 0%nat. change (cl 3 1) with 1%nat. change (cl 3 2) with 2%nat. unfold map1; cbn [get].
  pose proof (GD 0%nat j ltac:(lia) Hj) as d0. pose proof (GD 1%nat j ltac:(lia) Hj) as d1. pose proof (GD 2%nat j ltac:(lia) Hj) as d2.
  repeat split; (eapply fin_eq; [apply fin_mul; [eassumption|apply fin_sign; eassumption]|ring]).
Qed.

Lemma on_circle_self a1 a2 b : vcross a1 a2 <> v0 -> on_circle a1 a2 b -> circle_point a1 a2 b = b.
Proof.
  intros Z H. apply on_circle_dir in H as [U O]; auto. unfold circle_point, foot. rewrite vdot_comm, O, vscale_0.
  replace (vsub b v0) with b by (unfold v0; clear; vring). rewrite dir1_nz by (apply vnorm_inv; auto). apply direction_of_unit; auto.
Qed.

(** a position of the circle and its antipode among three: the second, which is its own closest point, is answered by a point
    with the abscissa of the antipode *)
Theorem C96_three_points_refuted : forall A1 A2 B a1 a2 v, single A1 a1 -> single A2 a2 -> cols B 3 v -> vcross a1 a2 <> v0 ->
  on_circle a1 a2 (v 0%nat) -> v 1%nat = vneg (v 0%nat) -> vx (v 0%nat) <> 0 ->
  returns (closest_point_on_great_circle (A1, A2) B) [] (fun C => shape C = [3%nat; 3%nat] /\ ~ vcol C 1 (v 1%nat) /\ get C [0%nat; 1%nat] ≈ - vx (v 1%nat)).
Proof.
  intros A1 A2 B a1 a2 v H1 H2 HB Z OC E1 NX. destruct (closest_3 A1 A2 B a1 a2 v H1 H2 HB Z) as (X & E & S & G). cbv zeta in G. exists X. split; auto. split; auto.
  assert (OC1 : on_circle a1 a2 (v 1%nat)). { destruct OC as [U O]. rewrite E1. split; [rewrite vnorm_neg; auto|]. rewrite vdot_neg_l, O. ring. }
  destruct (G 1%nat ltac:(lia)) as (g0 & _ & _). cbn [vx] in g0. rewrite !on_circle_self in g0 by auto.
  assert (SG : rsign (vdot (v 0%nat) (v 1%nat)) = -1).
  { rewrite E1, vdot_neg_r. destruct OC as [U _]. apply vnorm_unit in U. rewrite U. unfold rsign. destruct (Rlt_dec (- (1)) 0); lra. }
  rewrite SG in g0. assert (g0' : get X [0%nat; 1%nat] ≈ - vx (v 1%nat)) by (eapply fin_eq; [exact g0|ring]). split; auto.
  intros (h0 & _ & _). pose proof (fin_unique _ _ _ g0' h0) as Q. rewrite E1 in Q. unfold vneg in Q; cbn [vx] in Q. lra.
Qed.
Print Assumptions C96_three_points_refuted.

(** three positions close enough together (or, more exactly, all on the same side of all three answers): the answers are right *)
Theorem C96_three_points_partial : forall A1 A2 B a1 a2 v p, single A1 a1 -> single A2 a2 -> cols B 3 v -> vcross a1 a2 <> v0 ->
  (forall j, (j < 3)%nat -> vnorm (v j) = 1 /\ vcross (v j) (vcross a1 a2) <> v0) ->
  (forall j Q, (j < 3)%nat -> single Q (v j) -> returns (closest_point_on_great_circle (A1, A2) Q) [] (fun C => single C (p j))) ->
  (forall i j, (i < 3)%nat -> (j < 3)%nat -> 0 < vdot (p i) (v j)) ->
  returns (closest_point_on_great_circle (A1, A2) B) [] (fun C => cols C 3 p).
Proof.
  intros A1 A2 B a1 a2 v p H1 H2 HB Z Hv Hp Pos. destruct (closest_3 A1 A2 B a1 a2 v H1 H2 HB Z) as (X & E & HX). cbv zeta in HX. exists X. split; auto.
  assert (PC : forall j, (j < 3)%nat -> p j = circle_point a1 a2 (v j)).
  { intros j Hj. pose proof (arr3_cols [v j]) as AC. assert (SQ : single (arr3 [v j]) (v j)).
    { eapply cols_ext; [|exact AC]. intros k Hk. assert (k = 0%nat) by (cbn in Hk; lia). subst k. reflexivity. }
    destruct (Hp j _ Hj SQ) as (C & EC & HC). destruct (closest_1 _ _ _ _ _ _ H1 H2 SQ Z) as (C' & EC' & HC'). rewrite EC' in EC. injection EC as <-.
    assert (U : vnorm (direction (vcross a1 a2)) = 1) by (apply direction_unit; auto). destruct (Hv j Hj) as (Uv & NP).
    assert (NF : foot (direction (vcross a1 a2)) (v j) <> v0).
    { intros F. apply NP. destruct (foot_zero _ _ U Uv F) as [Q|Q]; rewrite Q; unfold direction, vneg; rewrite ?vcross_scale_l; generalize (vcross a1 a2) (/ vnorm (vcross a1 a2)); clear; intros w l; unfold v0; vring. }
    fold (circle_point a1 a2 (v j)) in HC'. assert (PD : 0 < vdot (circle_point a1 a2 (v j)) (v j)).
    { unfold circle_point. rewrite dir1_nz by auto. unfold direction. rewrite vdot_scale_l. apply Rmult_lt_0_compat; [apply Rinv_0_lt_compat, vnorm_nz; auto|].
      rewrite foot_dot, <- (foot_sq _ (v j)) by auto. apply vdot_nz. auto. }
    rewrite rsign_pos, vscale_1 in HC' by auto.
    destruct HC as [_ G]. destruct HC' as [_ G']. destruct (G 0%nat ltac:(lia)) as (x & y & z). destruct (G' 0%nat ltac:(lia)) as (x' & y' & z').
    cbn beta in *. apply vec_eq; eapply fin_unique; eassumption. }
  eapply cols_ext; [|exact HX]. intros j Hj. cbn beta. rewrite <- !PC by lia. rewrite !rsign_pos by (apply Pos; lia). apply vec_eq; cbn [Spec.vx Spec.vy Spec.vz]; ring.
Qed.
Print Assumptions C96_three_points_partial.

(** ** A concrete case: the equator, a position of it, its antipode, and a third position of it. *)
Example C96_example : let a1 := V 1 0 0 in let a2 := V 0 1 0 in let v := fun j => nth j [V 1 0 0; V (-1) 0 0; V (3/5) (4/5) 0] v0 in
  single (arr3 [a1]) a1 /\ single (arr3 [a2]) a2 /\ cols (arr3 [V 1 0 0; V (-1) 0 0; V (3/5) (4/5) 0]) 3 v /\ vcross a1 a2 <> v0 /\
  on_circle a1 a2 (v 0%nat) /\ v 1%nat = vneg (v 0%nat) /\ vx (v 0%nat) <> 0 /\ (forall j, (j < 3)%nat -> vnorm (v j) = 1).
Proof.
  cbv zeta. split; [|split; [|split; [|split; [|split; [|split; [|split]]]]]].
  - eapply cols_ext; [|exact (arr3_cols [V 1 0 0])]. intros j Hj. assert (j = 0%nat) by (cbn in Hj; lia). subst. reflexivity.
  - eapply cols_ext; [|exact (arr3_cols [V 0 1 0])]. intros j Hj. assert (j = 0%nat) by (cbn in Hj; lia). subst. reflexivity.
  - exact (arr3_cols [V 1 0 0; V (-1) 0 0; V (3/5) (4/5) 0]).
  - unfold vcross, v0; cbn [vx vy vz]. intros [= H]. lra.
  - cbn [nth]. split; [apply vnorm_unit; unfold vdot; cbn [vx vy vz]; lra|]. unfold vdot, vcross; cbn [vx vy vz]. ring.
  - cbn [nth]. unfold vneg; cbn [vx vy vz]. apply vec_eq; cbn [vx vy vz]; ring.
  - cbn [nth vx]. lra.
  - intros j Hj. assert (j = 0 \/ j = 1 \/ j = 2)%nat as [->|[->| ->]] by lia; cbn [nth]; apply vnorm_unit; unfold vdot; cbn [vx vy vz]; lra.
Qed.
