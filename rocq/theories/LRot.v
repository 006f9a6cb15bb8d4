(** * Rotation functions *)
From Coq Require Import List Arith Lia Bool Reals Lra Psatz.
From Verif Require Import Num Py Nd MUtil MRotation Spec SpecArr LNum LTrig LVec LArr LLatLon LMat.
Import ListNotations.
Local Open Scope R_scope.

(** ** Euler matrices *)
Lemma Rx_rotation t : rotation (Rx t).
Proof.
  pose proof (sin2_cos2 t) as H. unfold Rsqr in H.
  split; [unfold orthogonal|]; unfold Rx, mmul, mT, mdet, mI, vdot, vcross; cbn [vx vy vz r0 r1 r2].
  - f_equal; f_equal; lra.
  - lra.
Qed.
Lemma Ry_rotation t : rotation (Ry t).
Proof.
  pose proof (sin2_cos2 t) as H. unfold Rsqr in H.
  split; [unfold orthogonal|]; unfold Ry, mmul, mT, mdet, mI, vdot, vcross; cbn [vx vy vz r0 r1 r2].
  - f_equal; f_equal; lra.
  - lra.
Qed.
Lemma Rz_rotation t : rotation (Rz t).
Proof.
  pose proof (sin2_cos2 t) as H. unfold Rsqr in H.
  split; [unfold orthogonal|]; unfold Rz, mmul, mT, mdet, mI, vdot, vcross; cbn [vx vy vz r0 r1 r2].
  - f_equal; f_equal; lra.
  - lra.
Qed.
Definition Mxyz (x y z : R) : mat := mmul (Rx x) (mmul (Ry y) (Rz z)).
Definition Mzyx (z y x : R) : mat := mmul (Rz z) (mmul (Ry y) (Rx x)).
Lemma Mxyz_rotation x y z : rotation (Mxyz x y z).
Proof. apply rotation_mul; [apply Rx_rotation|]. apply rotation_mul; [apply Ry_rotation|apply Rz_rotation]. Qed.
Lemma Mzyx_rotation z y x : rotation (Mzyx z y x).
Proof. apply rotation_mul; [apply Rz_rotation|]. apply rotation_mul; [apply Ry_rotation|apply Rx_rotation]. Qed.

(** closed forms *)
Definition Cxyz (sx cx sy cy sz cz : R) : mat :=
  Mt (V (cy * cz) (- cy * sz) sy)
     (V (sy * sx * cz + cx * sz) (- sy * sx * sz + cx * cz) (- cy * sx))
     (V (- sy * cx * cz + sx * sz) (sy * cx * sz + sx * cz) (cy * cx)).
Lemma Cxyz_eq sx cx sy cy sz cz :
  mmul (Mt (V 1 0 0) (V 0 cx (- sx)) (V 0 sx cx))
    (mmul (Mt (V cy 0 sy) (V 0 1 0) (V (- sy) 0 cy)) (Mt (V cz (- sz) 0) (V sz cz 0) (V 0 0 1))) = Cxyz sx cx sy cy sz cz.
Proof. unfold Cxyz, mmul, mT, vdot; cbn [vx vy vz r0 r1 r2]. f_equal; f_equal; ring. Qed.
Lemma Mxyz_eq x y z : Mxyz x y z = Cxyz (sin x) (cos x) (sin y) (cos y) (sin z) (cos z).
Proof. exact (Cxyz_eq _ _ _ _ _ _). Qed.
Definition Czyx (sx cx sy cy sz cz : R) : mat :=
  Mt (V (cz * cy) (- sz * cx + cz * sy * sx) (sz * sx + cz * sy * cx))
     (V (sz * cy) (cz * cx + sz * sy * sx) (- cz * sx + sz * sy * cx))
     (V (- sy) (cy * sx) (cy * cx)).
Lemma Czyx_eq sx cx sy cy sz cz :
  mmul (Mt (V cz (- sz) 0) (V sz cz 0) (V 0 0 1))
    (mmul (Mt (V cy 0 sy) (V 0 1 0) (V (- sy) 0 cy)) (Mt (V 1 0 0) (V 0 cx (- sx)) (V 0 sx cx))) = Czyx sx cx sy cy sz cz.
Proof. unfold Czyx, mmul, mT, vdot; cbn [vx vy vz r0 r1 r2]. f_equal; f_equal; ring. Qed.
Lemma Mzyx_eq x y z : Mzyx z y x = Czyx (sin x) (cos x) (sin y) (cos y) (sin z) (cos z).
Proof. exact (Czyx_eq _ _ _ _ _ _). Qed.

Lemma Mzyx_T z y x : Mzyx z y x = mT (Mxyz (- x) (- y) (- z)).
Proof.
  rewrite Mzyx_eq, Mxyz_eq, !cos_neg, !sin_neg. unfold Czyx, Cxyz, mT; cbn [vx vy vz r0 r1 r2].
  f_equal; f_equal; ring.
Qed.
Lemma xyz_entry_spec i j x y z a b c : (i < 3)%nat -> (j < 3)%nat -> x ≈ a -> y ≈ b -> z ≈ c ->
  xyz_entry i j x y z ≈ ent (Mxyz a b c) i j.
Proof.
  intros Hi Hj Hx Hy Hz. unfold xyz_entry. rewrite Mxyz_eq.
  pose proof (fin_sin _ _ Hx) as sx. pose proof (fin_sin _ _ Hy) as sy. pose proof (fin_sin _ _ Hz) as sz.
  pose proof (fin_cos _ _ Hx) as cx. pose proof (fin_cos _ _ Hy) as cy. pose proof (fin_cos _ _ Hz) as cz.
  unfold ent, Cxyz.
  destruct (lt3 i Hi) as [->|[->| ->]], (lt3 j Hj) as [->|[->| ->]]; cbn [nth mrow comp vx vy vz r0 r1 r2];
    repeat first [apply fin_add | apply fin_mul | apply fin_neg]; assumption.
Qed.
Lemma zyx_entry_spec i j x y z a b c : (i < 3)%nat -> (j < 3)%nat -> x ≈ a -> y ≈ b -> z ≈ c ->
  zyx_entry i j x y z ≈ ent (Mzyx c b a) i j.
Proof.
  intros Hi Hj Hx Hy Hz. unfold zyx_entry. rewrite Mzyx_eq.
  pose proof (fin_sin _ _ Hx) as sx. pose proof (fin_sin _ _ Hy) as sy. pose proof (fin_sin _ _ Hz) as sz.
  pose proof (fin_cos _ _ Hx) as cx. pose proof (fin_cos _ _ Hy) as cy. pose proof (fin_cos _ _ Hz) as cz.
  unfold ent, Czyx.
  destruct (lt3 i Hi) as [->|[->| ->]], (lt3 j Hj) as [->|[->| ->]]; cbn [nth mrow comp vx vy vz r0 r1 r2];
    repeat first [apply fin_add | apply fin_mul | apply fin_neg]; assumption.
Qed.

Lemma atleast_1d_vals a n u : vals a n u -> list1 (atleast_1d a) n u.
Proof.
  intros [[-> [S C]]|[S C]]; unfold atleast_1d; rewrite S.
  - split; [reflexivity|]. intros j Hj. assert (j = 0)%nat by lia; subst. exact C.
  - split; auto.
Qed.

(** widths of the three angle arguments *)
Lemma atleast_3d3_spec x y z nx ny nz k u v w : vals x nx u -> vals y ny v -> vals z nz w ->
  bdim3 nx ny nz = Some k ->
  exists X Y Z, atleast_3d3 x y z = ret (X, Y, Z) /\ shape X = [1%nat; 1%nat; k] /\
    forall j, (j < k)%nat -> get X [0%nat; 0%nat; j] ≈ u (cl nx j) /\ get Y [0%nat; 0%nat; j] ≈ v (cl ny j)
                             /\ get Z [0%nat; 0%nat; j] ≈ w (cl nz j).
Proof.
  intros Hx Hy Hz D. apply atleast_1d_vals in Hx as [Sx Cx], Hy as [Sy Cy], Hz as [Sz Cz].
  unfold bdim3 in D. destruct (bdim nx ny) as [d|] eqn:D1; [|discriminate].
  unfold atleast_3d3, broadcast3. rewrite Sx, Sy, (bshape_n_m _ _ _ D1), Sz, (bshape_n_m _ _ _ D).
  rewrite bind_ret. cbn beta iota.
  do 3 eexists. split; [reflexivity|]. split; [reflexivity|]. intros j Hj.
  unfold lead2, broadcast_to; cbn [get tl shape]. rewrite Sx, Sy, Sz, !bidx_1.
  pose proof (cl_lt_r _ _ _ _ D Hj) as Lz. pose proof (cl_lt_l _ _ _ _ D Hj) as Ld.
  assert (Q : (cl nx j < nx)%nat /\ (cl ny j < ny)%nat).
  { destruct (bdim_inv _ _ _ D1) as [[->| ->] [->| ->]]; split; auto; unfold cl; simpl; try lia. }
  destruct Q. auto.
Qed.

Lemma euler_gmats x y z nx ny nz k u v w (g : nat -> nat -> num -> num -> num -> num) (F : R -> R -> R -> mat) :
  (forall i j x y z a b c, (i < 3)%nat -> (j < 3)%nat -> x ≈ a -> y ≈ b -> z ≈ c -> g i j x y z ≈ ent (F a b c) i j) ->
  vals x nx u -> vals y ny v -> vals z nz w -> bdim3 nx ny nz = Some k ->
  exists C, ('(x, y, z) <- atleast_3d3 x y z ;;
    ret (squeeze (array33 (shape x) (fun i j ix => g i j (get x ix) (get y ix) (get z ix))))) = ret C /\
    mats C k (fun j => F (u (cl nx j)) (v (cl ny j)) (w (cl nz j))).
Proof.
  intros Hg Hx Hy Hz D. destruct (atleast_3d3_spec _ _ _ _ _ _ _ _ _ _ Hx Hy Hz D) as (X & Y & Z & E & SX & G).
  rewrite E, bind_ret. cbn beta iota. rewrite SX. eexists; split; [reflexivity|].
  unfold array33, squeeze; cbn [shape get].
  destruct (Nat.eq_dec k 1) as [->|N].
  - left. split; auto. apply is_mat_gmats. split; [reflexivity|]. intros i l Hi Hl. cbn [get unsqueeze_ix Nat.eqb tl].
    unfold at_; cbn [nth]. destruct (G 0%nat ltac:(lia)) as (gx & gy & gz). apply Hg; auto.
  - right. split; auto. apply mats3_ent. apply Nat.eqb_neq in N.
    cbn [filter Nat.eqb negb]. rewrite N. cbn [negb]. split; [reflexivity|].
    intros i l j Hi Hl Hj. cbn [get unsqueeze_ix Nat.eqb]. rewrite N. unfold at_; cbn [nth tl].
    destruct (G j Hj) as (gx & gy & gz). apply Hg; auto.
Qed.

Lemma xyz2R_spec x y z nx ny nz k u v w : vals x nx u -> vals y ny v -> vals z nz w -> bdim3 nx ny nz = Some k ->
  exists C, xyz2R x y z = ret C /\ mats C k (fun j => Mxyz (u (cl nx j)) (v (cl ny j)) (w (cl nz j))).
Proof.
  intros Hx Hy Hz D. unfold xyz2R.
  apply (euler_gmats x y z nx ny nz k u v w xyz_entry Mxyz); auto. apply xyz_entry_spec.
Qed.
Lemma zyx2R_spec z y x nx ny nz k u v w : vals x nx u -> vals y ny v -> vals z nz w -> bdim3 nx ny nz = Some k ->
  exists C, zyx2R z y x = ret C /\ mats C k (fun j => Mzyx (w (cl nz j)) (v (cl ny j)) (u (cl nx j))).
Proof.
  intros Hx Hy Hz D. unfold zyx2R.
  apply (euler_gmats x y z nx ny nz k u v w zyx_entry (fun a b c => Mzyx c b a)); auto. apply zyx_entry_spec.
Qed.

(** ** reading the angles back *)
(** slices of a matrix array as values *)
Lemma entry_vals A n F i k : mats A n F -> (i < 3)%nat -> (k < 3)%nat ->
  exists C, entry i k A = ret C /\ vals C n (fun j => ent (F j) i k).
Proof.
  intros H Hi Hk. pose proof (proj2 (Nat.ltb_lt i 3) Hi) as Li. pose proof (proj2 (Nat.ltb_lt k 3) Hk) as Lk.
  destruct H as [[-> H]|[N H]].
  - apply is_mat_gmats in H as [S G]. unfold entry. rewrite S, Li, Lk. eexists; split; [reflexivity|].
    left. split; auto. split; [reflexivity|]. cbn [get]. auto.
  - apply mats3_ent in H as [S G]. unfold entry. rewrite S, Li, Lk. eexists; split; [reflexivity|].
    right. split; [reflexivity|]. intros j Hj. cbn [get]. auto.
Qed.

(** [valsP]: scalar or 1-d, entries satisfying a relation *)
Definition valsP (a : arr num) (n : nat) (P : nat -> R -> Prop) : Prop :=
  exists f, vals a n f /\ forall j, (j < n)%nat -> P j (f j).

Lemma map2_vals_same (f : num -> num -> num) (a z : arr num) n u r : vals a n u -> vals z n r -> (shape a = shape z) ->
  exists C, map2 f a z = ret C /\ shape C = shape a /\
    ((n = 1%nat /\ shape a = [] /\ get C [] = f (get a []) (get z [])) \/
     (shape a = [n] /\ forall j, (j < n)%nat -> get C [j] = f (get a [j]) (get z [j]))).
Proof.
  intros Ha Hz E. unfold map2. rewrite <- E, bshape_refl. eexists; split; [reflexivity|]. split; [reflexivity|].
  destruct Ha as [[-> [S C]]|[S C]]; [left|right]; rewrite S.
  - split; auto.
  - split; auto. intros j Hj. cbn [get]. rewrite !bidx_1, (cl_id n j Hj). reflexivity.
Qed.

Lemma map2_valsP (f : num -> num -> num) (a z : arr num) n u r (P : nat -> R -> Prop) : vals a n u -> vals z n r -> shape a = shape z ->
  (forall j x y, (j < n)%nat -> x ≈ u j -> y ≈ r j -> exists t, f x y ≈ t /\ P j t) ->
  exists C, map2 f a z = ret C /\ shape C = shape a /\ valsP C n P.
Proof.
  intros Ha Hz E H. destruct (map2_vals_same f a z n u r Ha Hz E) as (C & EC & SC & G).
  exists C; split; auto. split; auto.
  destruct Ha as [[-> [S Ca]]|[S Ca]].
  - destruct G as [(_ & _ & G)|(S' & _)]; [|rewrite S in S'; discriminate].
    assert (Cz : get z [] ≈ r 0%nat).
    { destruct Hz as [[_ [_ Cz]]|[Sz _]]; auto. rewrite <- E, S in Sz. discriminate. }
    destruct (H 0%nat _ _ ltac:(lia) Ca Cz) as (t & Ht & Pt). exists (fun _ => t). split.
    + left. split; auto. split; [congruence|]. rewrite G. exact Ht.
    + intros j Hj. assert (j = 0)%nat by lia; subst; auto.
  - destruct G as [(_ & S' & _)|(_ & G)]; [rewrite S in S'; discriminate|].
    assert (Cz : forall j, (j < n)%nat -> get z [j] ≈ r j).
    { destruct Hz as [[-> [Sz _]]|[_ Cz]]; auto. rewrite <- E, S in Sz. discriminate. }
    exists (fun j => fval (get C [j])). split.
    + right. split; [congruence|]. intros j Hj. destruct (H j _ _ Hj (Ca j Hj) (Cz j Hj)) as (t & Ht & _).
      rewrite (G j Hj), (fin_fval _ _ Ht). exact Ht.
    + intros j Hj. destruct (H j _ _ Hj (Ca j Hj) (Cz j Hj)) as (t & Ht & Pt).
      rewrite (G j Hj), (fin_fval _ _ Ht). exact Pt.
Qed.

Definition slice_shape (n : nat) (A : arr num) : list nat := tl (tl (shape A)).
Lemma entry_shape i k (A C : arr num) : entry i k A = ret C -> shape C = tl (tl (shape A)).
Proof.
  unfold entry. destruct (shape A) as [|r [|c s]]; try discriminate.
  destruct (_ && _); [|discriminate]. intros E. injection E as <-. reflexivity.
Qed.

(** the three angles of R2xyz *)
Definition cosy (M : mat) : R :=
  sqrt ((ent M 0 0 * ent M 0 0 + ent M 0 1 * ent M 0 1 + ent M 1 2 * ent M 1 2 + ent M 2 2 * ent M 2 2) / 2).
Lemma R2xyz_spec A n F : mats A n F ->
  exists x y z, R2xyz A = ret (x, y, z) /\
    shape x = tl (tl (shape A)) /\ shape y = shape x /\ shape z = shape x /\
    valsP x n (fun j => arg_of (- ent (F j) 1 2) (ent (F j) 2 2)) /\
    valsP y n (fun j => arg_of (ent (F j) 0 2) (cosy (F j))) /\
    valsP z n (fun j => arg_of (- ent (F j) 0 1) (ent (F j) 0 0)).
Proof.
  intros H. unfold R2xyz.
  destruct (entry_vals A n F 0 1 H ltac:(lia) ltac:(lia)) as (E01 & Q & H01). pose proof (entry_shape _ _ _ _ Q) as S01. rewrite Q, bind_ret; clear Q.
  destruct (entry_vals A n F 0 0 H ltac:(lia) ltac:(lia)) as (E00 & Q & H00). pose proof (entry_shape _ _ _ _ Q) as S00. rewrite Q, bind_ret; clear Q.
  destruct (map2_valsP narctan2 (map1 nneg E01) E00 n _ _ (fun j => arg_of (- ent (F j) 0 1) (ent (F j) 0 0))
    (vals_map1 nneg Ropp _ _ _ fin_neg H01) H00) as (Z & Q & SZ & HZ).
  { cbn [map1 shape]. congruence. } { intros j x y Hj Hx Hy. apply narctan2_arg; auto. }
  rewrite Q, bind_ret; clear Q.
  destruct (entry_vals A n F 1 2 H ltac:(lia) ltac:(lia)) as (E12 & Q & H12). pose proof (entry_shape _ _ _ _ Q) as S12. rewrite Q, bind_ret; clear Q.
  destruct (entry_vals A n F 2 2 H ltac:(lia) ltac:(lia)) as (E22 & Q & H22). pose proof (entry_shape _ _ _ _ Q) as S22. rewrite Q, bind_ret; clear Q.
  destruct (map2_valsP narctan2 (map1 nneg E12) E22 n _ _ (fun j => arg_of (- ent (F j) 1 2) (ent (F j) 2 2))
    (vals_map1 nneg Ropp _ _ _ fin_neg H12) H22) as (X & Q & SX & HX).
  { cbn [map1 shape]. congruence. } { intros j x y Hj Hx Hy. apply narctan2_arg; auto. }
  rewrite Q, bind_ret; clear Q.
  destruct (entry_vals A n F 0 2 H ltac:(lia) ltac:(lia)) as (E02 & Q & H02). pose proof (entry_shape _ _ _ _ Q) as S02. rewrite Q, bind_ret; clear Q.
  cbv zeta.
  assert (Sq : forall a u, vals a n u -> vals (map1 (fun v => nmul v v) a) n (fun j => u j * u j)).
  { intros a u Ha. apply (vals_map1 (fun v => nmul v v) (fun t => t * t)); auto. intros; apply fin_mul; auto. }
  assert (Add : forall a b u v, vals a n u -> vals b n v -> shape a = shape b ->
     exists C, map2 nadd a b = ret C /\ shape C = shape a /\ vals C n (fun j => u j + v j)).
  { intros a b u v Ha Hb Es.
    destruct (map2_valsP nadd a b n u v (fun j t => t = u j + v j) Ha Hb Es) as (C & Q & SC & (f & Hf & Pf)).
    { intros j x y Hj Hx Hy. eexists; split; [apply fin_add; eauto|reflexivity]. }
    exists C; split; auto. split; auto. eapply vals_ext; [|apply Hf]. auto. }
  destruct (Add _ _ _ _ (Sq _ _ H00) (Sq _ _ H01)) as (T1 & Q & ST1 & HT1); [cbn [map1 shape]; congruence|].
  rewrite Q, bind_ret; clear Q.
  destruct (Add _ _ _ _ HT1 (Sq _ _ H12)) as (T2 & Q & ST2 & HT2); [cbn [map1 shape] in *; congruence|].
  rewrite Q, bind_ret; clear Q.
  destruct (Add _ _ _ _ HT2 (Sq _ _ H22)) as (T3 & Q & ST3 & HT3); [cbn [map1 shape] in *; congruence|].
  rewrite Q, bind_ret; clear Q.
  assert (HC : vals (map1 (fun v => nsqrt (ndiv v (Fin 2))) T3) n (fun j => cosy (F j))).
  { destruct HT3 as [[-> [S C]]|[S C]]; [left; split; auto|right]; (split; [exact S|]); cbn [map1 get].
    - apply fin_sqrt; [apply fin_div; [exact C|reflexivity|lra]|]. nra.
    - intros j Hj. apply fin_sqrt; [apply fin_div; [apply (C j Hj)|reflexivity|lra]|]. nra. }
  destruct (map2_valsP narctan2 E02 (map1 (fun v => nsqrt (ndiv v (Fin 2))) T3) n _ _
     (fun j => arg_of (ent (F j) 0 2) (cosy (F j))) H02 HC) as (Y & Q & SY & HY).
  { cbn [map1 shape] in *. congruence. } { intros j x y Hj Hx Hy. apply narctan2_arg; auto. }
  rewrite Q, bind_ret; clear Q.
  exists X, Y, Z. split; [reflexivity|]. cbn [map1 shape] in *. repeat split; auto; congruence.
Qed.

(** ** n_E2R_EN *)
(** the matrix of the local North-East-Down axes at the unit vector [u], axes matrix [M] *)
Definition eastv (M : mat) (u : vec) : vec :=
  if Req_EM_T (vnorm (vcross (north M) u)) 0 then r1 M else direction (vcross (north M) u).
Definition NED (M : mat) (u : vec) : mat :=
  mT (Mt (vcross (eastv M u) (vneg u)) (eastv M u) (vneg u)).

Lemma n_E2R_EN_spec A n u R_Ee M :
  axes R_Ee M -> rotation M -> cols A n u -> (0 < n)%nat -> (forall j, (j < n)%nat -> u j <> v0) ->
  exists R, n_E2R_EN A R_Ee = (length_warning (vnorm (u 0%nat)), inl R) /\
    mats R n (fun j => NED M (direction (u j))).
Proof.
  intros HR HM HA Hn Nz. unfold n_E2R_EN.
  step (default_R_axes _ _ HR) Rm HRm. pose proof HM as [HO _].
  rewrite (cld_spec _ _ _ HA Hn), bind_inl.
  step (dot_mat_cols _ _ _ _ _ HRm HA) Q HQ.
  destruct (unit1_cols_nz _ _ _ HQ) as (Ne & E & HNe).
  { intros j Hj. apply orthogonal_nz; auto. }
  rewrite E, bind_ret; clear E.
  pose proof (cols_neg _ _ _ HNe) as HNz. cbv zeta.
  step (cross_cols _ _ _ _ _ _ _ (col3_cols 1 0 0) HNe (bdim_1_l n)) Yd HYd.
  destruct (norm0_cols _ _ _ HYd) as (Nr & E & SNr & GNr). rewrite E, bind_ret; clear E.
  step (unit1_cols _ _ _ HYd) Yu HYu.
  unfold set_cols. rewrite (proj1 HYu), bind_ret.
  match goal with |- context [cross0 ?y _] => set (Y := y) end.
  pose (ef := fun j => let w := vcross (V 1 0 0) (direction (mulv M (u j))) in
                       if Req_EM_T (vnorm w) 0 then V 0 1 0 else direction w).
  assert (HY : cols Y n ef).
  { split; [reflexivity|]. intros j Hj. unfold vcol, Y; cbn [get]. unfold at_; cbn [nth].
    rewrite (GNr j Hj). cbn [neqb fval]. rewrite !(cl_id n j Hj). unfold ef; cbv zeta.
    destruct (proj2 HYu j Hj) as (y0 & y1 & y2). rewrite !(cl_id n j Hj) in y0, y1, y2. unfold dir1 in y0, y1, y2.
    destruct (Req_EM_T (vnorm (vcross (V 1 0 0) (direction (mulv M (u j))))) 0) as [Z0|Z0].
    - simpl. auto.
    - auto. }
  step (cross_cols _ _ _ _ _ _ _ HY HNz (bdim_refl n)) X HX.
  destruct (hstack_cols _ _ _ _ _ _ _ HX HY HNz) as (x & y & z & H & Ex & Ey & Ez & EH & HH).
  rewrite Ex, bind_ret, Ey, bind_ret, Ez, bind_ret, EH, bind_ret.
  destruct (gmats_swap _ _ _ (gmats_1 _ _ HRm)) as (Rt & E & HRt). rewrite E, bind_ret; clear E.
  destruct (mdot_gmats _ _ _ _ _ _ _ HRt HH (bdim_1_l n)) as (C & E & HC). rewrite E, bind_ret; clear E.
  exists (squeeze C). split; [cbn [fst snd ret]; rewrite app_nil_r; reflexivity|].
  eapply mats_ext; [|apply squeeze_gmats; exact HC].
  intros j Hj. cbn beta. rewrite !(cl_id n j Hj).
  (* M^T [N E D]_e *)
  pose proof (rotation_T _ HM) as HT.
  assert (Hw : vcross (V 1 0 0) (direction (mulv M (u j))) = mulv M (vcross (north M) (direction (u j)))).
  { rewrite <- rotation_cross by auto. f_equal.
    - unfold north. rewrite <- (orthogonal_inv' M (V 1 0 0)) by auto. f_equal.
      rewrite mulvT_rows. cbn [vx vy vz]. vring.
    - apply orthogonal_direction; auto. }
  assert (He : mulv (mT M) (ef j) = eastv M (direction (u j))).
  { unfold ef, eastv; cbv zeta. rewrite Hw, orthogonal_norm by auto.
    destruct (Req_EM_T (vnorm (vcross (north M) (direction (u j)))) 0).
    - rewrite mulvT_rows. cbn [vx vy vz]. vring.
    - rewrite orthogonal_direction, orthogonal_inv by auto. reflexivity. }
  assert (Hn' : mulv (mT M) (vneg (direction (mulv M (u j)))) = vneg (direction (u j))).
  { rewrite mulv_neg, orthogonal_direction, orthogonal_inv by auto. reflexivity. }
  unfold NED. rewrite <- He, <- Hn', rotation_cross by auto.
  generalize (vcross (ef j) (vneg (direction (mulv M (u j))))) (ef j) (vneg (direction (mulv M (u j)))).
  clear. intros a b c. vring.
Qed.

(** ** n_E_and_wa2R_EL *)
Lemma valsP_list1P a n P : list1P a n P -> valsP a n P.
Proof.
  intros H. apply list1P_list1 in H as [L HP]. exists (entries a). split; auto. right; auto.
Qed.
Lemma n_E_and_wa2R_EL_spec A n u wa m w R_Ee M :
  axes R_Ee M -> rotation M -> cols A n u -> (0 < n)%nat -> vals wa m w -> bdim n m = Some n ->
  exists R la lo, n_E_and_wa2R_EL A wa R_Ee = (length_warning (vnorm (u 0%nat)), inl R) /\
    (forall j, (j < n)%nat -> lat_of (mulv M (u j)) (la j) /\ lon_of (mulv M (u j)) (lo j)) /\
    mats R n (fun j => mmul (mT M) (Mxyz (lo j) (- la j) (w (cl m j)))).
Proof.
  intros HR HM HA Hn Hw D. unfold n_E_and_wa2R_EL.
  step (default_R_axes _ _ HR) Rm HRm.
  destruct (n_E2lat_lon_spec A n u (Some Rm) M HRm HA Hn) as (La & Lo & E & HLa & HLo).
  rewrite E, bind_inl; clear E. cbn beta iota.
  apply list1P_list1 in HLa as [LLa PLa]. apply list1P_list1 in HLo as [LLo PLo].
  pose proof (list1_vals _ _ _ (list1_map1 nneg Ropp _ _ _ fin_neg LLa)) as VLa. pose proof (list1_vals _ _ _ LLo) as VLo.
  assert (D3 : bdim3 n n m = Some n) by (unfold bdim3; rewrite bdim_refl; exact D).
  destruct (xyz2R_spec _ _ _ _ _ _ _ _ _ _ VLo VLa Hw D3) as (R0 & E & HR0).
  rewrite E, bind_ret; clear E.
  destruct (mdot_gmats _ _ _ _ _ _ _ (gmats_1 _ _ (is_mat_transpose _ _ HRm)) (mats_gmats _ _ _ HR0) (bdim_1_l n)) as (C & E & HC).
  rewrite E, bind_ret; clear E.
  exists (squeeze C), (entries La), (entries Lo). split; [cbn [fst snd ret]; rewrite app_nil_r; reflexivity|].
  split; [auto|]. eapply mats_ext; [|apply squeeze_gmats; exact HC].
  intros j Hj. cbn beta. rewrite !(cl_id n j Hj). reflexivity.
Qed.
