(** * C27-C29: Euler angles;  C30-C32: local frames;  C33: mdot *)
From Coq Require Import List Arith Lia Bool Reals Lra Psatz.
From Verif Require Import Num Py Nd MUtil MRotation Spec SpecArr LNum LTrig LVec LArr LLatLon LMat LRot.
Import ListNotations.
Local Open Scope R_scope.

(** ** C27 *)
Theorem C27_xyz2R_product : forall x y z nx ny nz k u v w,
  vals x nx u -> vals y ny v -> vals z nz w -> bdim3 nx ny nz = Some k ->
  returns (xyz2R x y z) [] (fun C => exists F, mats C k F /\
    forall j, (j < k)%nat ->
      F j = mmul (Rx (u (cl nx j))) (mmul (Ry (v (cl ny j))) (Rz (w (cl nz j)))) /\ rotation (F j)).
Proof.
  intros x y z nx ny nz k u v w Hx Hy Hz D.
  destruct (xyz2R_spec _ _ _ _ _ _ _ _ _ _ Hx Hy Hz D) as (C & E & HC).
  exists C; split; [exact E|]. eexists; split; [exact HC|]. intros j Hj. split; [reflexivity|].
  apply Mxyz_rotation.
Qed.
Print Assumptions C27_xyz2R_product.

Theorem C27_zyx2R_product : forall x y z nx ny nz k u v w,
  vals x nx u -> vals y ny v -> vals z nz w -> bdim3 nx ny nz = Some k ->
  returns (zyx2R z y x) [] (fun C => exists F, mats C k F /\
    forall j, (j < k)%nat ->
      F j = mmul (Rz (w (cl nz j))) (mmul (Ry (v (cl ny j))) (Rx (u (cl nx j)))) /\ rotation (F j)).
Proof.
  intros x y z nx ny nz k u v w Hx Hy Hz D.
  destruct (zyx2R_spec _ _ _ _ _ _ _ _ _ _ Hx Hy Hz D) as (C & E & HC).
  exists C; split; [exact E|]. eexists; split; [exact HC|]. intros j Hj. split; [reflexivity|].
  apply Mzyx_rotation.
Qed.
Print Assumptions C27_zyx2R_product.

(** angles that cannot be broadcast against each other are refused *)
Theorem C27_shapes_refused : forall x y z nx ny nz u v w,
  list1 x nx u -> list1 y ny v -> list1 z nz w -> bdim3 nx ny nz = None ->
  xyz2R x y z = raise ValueError /\ zyx2R z y x = raise ValueError.
Proof.
  intros x y z nx ny nz u v w [Sx _] [Sy _] [Sz _] D. unfold xyz2R, zyx2R, atleast_3d3, broadcast3, atleast_1d.
  rewrite Sx, Sy, Sz. rewrite Sx, Sy, Sz. unfold bdim3 in D. unfold bshape. cbn [rev app bshape_rev].
  destruct (bdim nx ny) as [d|]; [|split; reflexivity].
  cbn [rev app bshape_rev]. rewrite D. split; reflexivity.
Qed.
Print Assumptions C27_shapes_refused.

Example C27_example : bdim3 1 4 4 = Some 4%nat /\ bdim3 1 1 1 = Some 1%nat /\ bdim3 2 3 1 = None
  /\ vals (arr1 [1; 2; 3; 4]) 4 (fun j => nth j [1; 2; 3; 4] 0) /\ vals (scal (Fin 7)) 1 (fun _ => 7).
Proof.
  repeat split; try reflexivity.
  - right. apply (arr1_list1 [1; 2; 3; 4]).
  - left. repeat split.
Qed.

(** ** C28 *)
Lemma Mxyz_ents x y z :
  ent (Mxyz x y z) 0 0 = cos y * cos z /\ ent (Mxyz x y z) 0 1 = - (cos y * sin z) /\ ent (Mxyz x y z) 0 2 = sin y /\
  ent (Mxyz x y z) 1 2 = - (cos y * sin x) /\ ent (Mxyz x y z) 2 2 = cos y * cos x /\
  ent (Mxyz x y z) 1 0 = sin y * sin x * cos z + cos x * sin z /\ ent (Mxyz x y z) 1 1 = - (sin y * sin x * sin z) + cos x * cos z /\
  ent (Mxyz x y z) 2 0 = - (sin y * cos x * cos z) + sin x * sin z /\ ent (Mxyz x y z) 2 1 = sin y * cos x * sin z + sin x * cos z.
Proof.
  rewrite Mxyz_eq. unfold Cxyz, ent; cbn [vx vy vz r0 r1 r2 mrow comp].
  repeat split; ring.
Qed.

Lemma cosy_Mxyz x y z : 0 <= cos y -> cosy (Mxyz x y z) = cos y.
Proof.
  intros H. unfold cosy. destruct (Mxyz_ents x y z) as (-> & -> & _ & -> & -> & _).
  match goal with |- sqrt ?e = _ => replace e with (cos y * cos y) end; [apply sqrt_square; auto|].
  pose proof (sin2_cos2 x) as Ex. pose proof (sin2_cos2 z) as Ez. unfold Rsqr in *.
  transitivity (cos y * cos y * (sin z * sin z + cos z * cos z) / 2 + cos y * cos y * (sin x * sin x + cos x * cos x) / 2); [rewrite Ex, Ez; field|field].
Qed.

Lemma valsP_vals a n P f : valsP a n P -> (forall j t, (j < n)%nat -> P j t -> t = f j) -> vals a n f.
Proof.
  intros (g & Hg & HP) H. eapply vals_ext; [|exact Hg]. intros j Hj. apply H; auto.
Qed.

Theorem C28_angles_xyz_roundtrip : forall x y z nx ny nz k u v w,
  vals x nx u -> vals y ny v -> vals z nz w -> bdim3 nx ny nz = Some k ->
  (forall j, (j < k)%nat -> - PI < u (cl nx j) < PI /\ - (PI / 2) < v (cl ny j) < PI / 2 /\ - PI < w (cl nz j) < PI) ->
  returns (C <- xyz2R x y z ;; R2xyz C)%py [] (fun r => let '(x', y', z') := r in
    vals x' k (fun j => u (cl nx j)) /\ vals y' k (fun j => v (cl ny j)) /\ vals z' k (fun j => w (cl nz j))).
Proof.
  intros x y z nx ny nz k u v w Hx Hy Hz D B.
  destruct (xyz2R_spec _ _ _ _ _ _ _ _ _ _ Hx Hy Hz D) as (C & E & HC). rewrite E, bind_ret; clear E.
  destruct (R2xyz_spec _ _ _ HC) as (x' & y' & z' & E & _ & _ & _ & Px & Py & Pz).
  exists (x', y', z'). split; [exact E|]. split; [|split].
  - eapply valsP_vals; [exact Px|]. cbn beta. intros j t Hj Ht. destruct (B j Hj) as (Bx & By & Bz).
    destruct (Mxyz_ents (u (cl nx j)) (v (cl ny j)) (w (cl nz j))) as (_ & _ & _ & E12 & E22 & _).
    rewrite E12, E22, Ropp_involutive in Ht. eapply arg_of_polar; [|exact Bx|exact Ht]. apply cos_gt_0; lra.
  - eapply valsP_vals; [exact Py|]. cbn beta. intros j t Hj Ht. destruct (B j Hj) as (Bx & By & Bz).
    destruct (Mxyz_ents (u (cl nx j)) (v (cl ny j)) (w (cl nz j))) as (_ & _ & E02 & _).
    rewrite E02, cosy_Mxyz in Ht by (left; apply cos_gt_0; lra).
    apply (arg_of_polar 1); [lra|lra|]. rewrite !Rmult_1_l. exact Ht.
  - eapply valsP_vals; [exact Pz|]. cbn beta. intros j t Hj Ht. destruct (B j Hj) as (Bx & By & Bz).
    destruct (Mxyz_ents (u (cl nx j)) (v (cl ny j)) (w (cl nz j))) as (E00 & E01 & _).
    rewrite E00, E01, Ropp_involutive in Ht. eapply arg_of_polar; [|exact Bz|exact Ht]. apply cos_gt_0; lra.
Qed.
Print Assumptions C28_angles_xyz_roundtrip.

Lemma gmats_mats A n F : gmats A n F -> (shape A = [3%nat; 3%nat] \/ shape A = [3%nat; 3%nat; n] /\ n <> 1%nat) -> mats A n F.
Proof.
  intros (s & S & C & G) [H|[H N]]; rewrite S in H; injection H as ->.
  - destruct C as [[_ ->]|?]; [|discriminate]. left. split; auto. apply is_mat_gmats. split; auto.
    intros i k Hi Hk. specialize (G i k 0%nat Hi Hk ltac:(lia)). rewrite bidx_nil in G. exact G.
  - right. split; auto. apply mats3_ent. split; auto. intros i k j Hi Hk Hj.
    specialize (G i k j Hi Hk Hj). rewrite bidx_1, (cl_id n j Hj) in G. exact G.
Qed.
Lemma mats_shape A n F : mats A n F -> shape A = [3%nat; 3%nat] \/ shape A = [3%nat; 3%nat; n] /\ n <> 1%nat.
Proof. intros [[-> [S _]]|[N [S _]]]; auto. Qed.
Lemma mats_swap A n F : mats A n F -> exists C, swapaxes10 A = ret C /\ mats C n (fun j => mT (F j)).
Proof.
  intros H. destruct (gmats_swap _ _ _ (mats_gmats _ _ _ H)) as (C & E & G). exists C; split; auto.
  apply gmats_mats; auto. destruct (mats_shape _ _ _ H) as [S|[S N]]; unfold swapaxes10 in E; rewrite S in E; injection E as <-; auto.
Qed.

Lemma R2zyx_spec A n F : mats A n F ->
  exists x y z, R2zyx A = ret (map1 nneg z, map1 nneg y, map1 nneg x) /\
    valsP x n (fun j => arg_of (- ent (mT (F j)) 1 2) (ent (mT (F j)) 2 2)) /\
    valsP y n (fun j => arg_of (ent (mT (F j)) 0 2) (cosy (mT (F j)))) /\
    valsP z n (fun j => arg_of (- ent (mT (F j)) 0 1) (ent (mT (F j)) 0 0)).
Proof.
  intros H. unfold R2zyx. destruct (mats_swap _ _ _ H) as (C & E & HC). rewrite E, bind_ret; clear E.
  destruct (R2xyz_spec _ _ _ HC) as (x & y & z & E & _ & _ & _ & Px & Py & Pz).
  rewrite E, bind_ret. exists x, y, z. split; [reflexivity|]. auto.
Qed.

Theorem C28_angles_zyx_roundtrip : forall x y z nx ny nz k u v w,
  vals x nx u -> vals y ny v -> vals z nz w -> bdim3 nx ny nz = Some k ->
  (forall j, (j < k)%nat -> - PI < u (cl nx j) < PI /\ - (PI / 2) < v (cl ny j) < PI / 2 /\ - PI < w (cl nz j) < PI) ->
  returns (C <- zyx2R z y x ;; R2zyx C)%py [] (fun r => let '(z', y', x') := r in
    vals x' k (fun j => u (cl nx j)) /\ vals y' k (fun j => v (cl ny j)) /\ vals z' k (fun j => w (cl nz j))).
Proof.
  intros x y z nx ny nz k u v w Hx Hy Hz D B.
  destruct (zyx2R_spec _ _ _ _ _ _ _ _ _ _ Hx Hy Hz D) as (C & E & HC). rewrite E, bind_ret; clear E.
  destruct (R2zyx_spec _ _ _ HC) as (x' & y' & z' & E & Px & Py & Pz).
  eexists; split; [exact E|]. cbn beta iota.
  assert (N : forall a f g, vals a k f -> (forall j, (j < k)%nat -> g j = - f j) -> vals (map1 nneg a) k g).
  { intros a f g Ha Hg. eapply vals_ext; [|apply (vals_map1 nneg Ropp _ _ _ fin_neg Ha)]. intros j Hj. cbn beta. rewrite Hg by auto. reflexivity. }
  split; [|split].
  - apply (N _ (fun j => - u (cl nx j))); [|intros; ring].
    eapply valsP_vals; [exact Px|]. cbn beta. intros j t Hj Ht. destruct (B j Hj) as (Bx & By & Bz).
    rewrite Mzyx_T, mT_mT in Ht.
    destruct (Mxyz_ents (- u (cl nx j)) (- v (cl ny j)) (- w (cl nz j))) as (_ & _ & _ & E12 & E22 & _).
    rewrite E12, E22, Ropp_involutive in Ht. eapply arg_of_polar; [|lra|exact Ht]. apply cos_gt_0; lra.
  - apply (N _ (fun j => - v (cl ny j))); [|intros; ring].
    eapply valsP_vals; [exact Py|]. cbn beta. intros j t Hj Ht. destruct (B j Hj) as (Bx & By & Bz).
    rewrite Mzyx_T, mT_mT in Ht.
    destruct (Mxyz_ents (- u (cl nx j)) (- v (cl ny j)) (- w (cl nz j))) as (_ & _ & E02 & _).
    rewrite E02, cosy_Mxyz in Ht by (left; apply cos_gt_0; lra).
    apply (arg_of_polar 1); [lra|lra|]. rewrite !Rmult_1_l. exact Ht.
  - apply (N _ (fun j => - w (cl nz j))); [|intros; ring].
    eapply valsP_vals; [exact Pz|]. cbn beta. intros j t Hj Ht. destruct (B j Hj) as (Bx & By & Bz).
    rewrite Mzyx_T, mT_mT in Ht.
    destruct (Mxyz_ents (- u (cl nx j)) (- v (cl ny j)) (- w (cl nz j))) as (E00 & E01 & _).
    rewrite E00, E01, Ropp_involutive in Ht. eapply arg_of_polar; [|lra|exact Ht]. apply cos_gt_0; lra.
Qed.
Print Assumptions C28_angles_zyx_roundtrip.

Example C28_example : - PI < 2 < PI /\ - (PI / 2) < 1 < PI / 2 /\ - PI < -3 < PI.
Proof. pose proof PI_4 as _. pose proof PI2_3_2 as H. lra. Qed.

(** ** C29 *)
(** the xyz angles read off a rotation whose (0,2) entry is not +-1 give the rotation back *)
Lemma Mxyz_recover F x y z : rotation F -> ent F 0 2 <> 1 -> ent F 0 2 <> -1 ->
  arg_of (- ent F 1 2) (ent F 2 2) x -> arg_of (ent F 0 2) (cosy F) y -> arg_of (- ent F 0 1) (ent F 0 0) z ->
  Mxyz x y z = F.
Proof.
  intros [HO HD] N1 N2 (_ & Ax & Bx) (_ & Ay & By) (_ & Az & Bz).
  assert (HT : orthogonal (mT F)) by (apply orthogonal_T; auto).
  assert (HA : mT F = madj F) by (apply rotation_adj; split; auto).
  destruct F as [[a b c] [d e f] [g h i]]. unfold cosy in *. unfold ent in *. cbn [mrow comp vx vy vz r0 r1 r2] in *.
  unfold orthogonal, madj, mmul, mT, mI, vdot, vcross in HO, HT, HA. cbn [vx vy vz r0 r1 r2] in HO, HT, HA.
  injection HO as O00 O01 O02 O10 O11 O12 O20 O21 O22.
  injection HT as T00 T01 T02 T10 T11 T12 T20 T21 T22.
  injection HA as A00 A01 A02 A10 A11 A12 A20 A21 A22.
  assert (P : 0 < 1 - c * c).
  { assert (c * c <= 1) by (clear - T00; nra). assert (c * c <> 1) by (clear - N1 N2; intros X; assert (Y : (c - 1) * (c + 1) = 0) by lra; apply Rmult_integral in Y; lra). lra. }
  assert (E1 : (a * a + b * b + f * f + i * i) / 2 = 1 - c * c) by (clear - T00 O22; lra).
  rewrite E1 in Ay, By. set (q := sqrt (1 - c * c)) in *.
  assert (Qp : 0 < q) by (apply sqrt_lt_R0; auto).
  assert (Qq : q * q = 1 - c * c) by (apply sqrt_sqrt; lra).
  replace (q * q + c * c) with 1 in Ay, By by (clear - Qq; lra). rewrite sqrt_1, Rmult_1_l in Ay, By.
  replace (i * i + - f * - f) with (1 - c * c) in Ax, Bx by (clear - O22; lra). fold q in Ax, Bx.
  replace (a * a + - b * - b) with (1 - c * c) in Az, Bz by (clear - T00; lra). fold q in Az, Bz.
  rewrite Mxyz_eq. unfold Cxyz.
  rewrite <- Ay, <- By.
  set (sx := sin x) in *. set (cx := cos x) in *. set (sz := sin z) in *. set (cz := cos z) in *.
  pose proof (sin2_cos2 z) as Sz. unfold Rsqr in Sz. fold sz in Sz. fold cz in Sz.
  assert (Hb : b = - (q * sz)) by (clear - Bz; lra). assert (Hf : f = - (q * sx)) by (clear - Bx; lra).
  clear Bx Bz A00 A01 A02 A10 A11 A12 A20 O00 O01 O02 O10 O11 O12 O20 O21 O22 T10 T11 T12 T20 T21 T22 T00 E1. rewrite Az, Hb, Hf in T01. rewrite Az, Hb, Ax in T02, A22. rewrite Az, Hb, Hf in A21.
  (* row 1 *)
  assert (K1 : cz * d - sz * e = c * sx).
  { apply Rmult_eq_reg_l with q; [|lra]. clear - T01. lra. }
  assert (K2 : sz * d + cz * e = cx).
  { apply Rmult_eq_reg_l with q; [|lra]. clear - A22. lra. }
  assert (K3 : cz * g - sz * h = - (c * cx)).
  { apply Rmult_eq_reg_l with q; [|lra]. clear - T02. lra. }
  assert (K4 : sz * g + cz * h = sx).
  { apply Rmult_eq_reg_l with q; [|lra]. clear - A21. lra. }
  assert (Hd : d = cz * (c * sx) + sz * cx) by (rewrite <- K1, <- K2; transitivity (d * (sz * sz + cz * cz)); [rewrite Sz|]; ring).
  assert (He : e = cz * cx - sz * (c * sx)) by (rewrite <- K1, <- K2; transitivity (e * (sz * sz + cz * cz)); [rewrite Sz|]; ring).
  assert (Hg : g = cz * (- (c * cx)) + sz * sx) by (rewrite <- K3, <- K4; transitivity (g * (sz * sz + cz * cz)); [rewrite Sz|]; ring).
  assert (Hh : h = cz * sx - sz * (- (c * cx))) by (rewrite <- K3, <- K4; transitivity (h * (sz * sz + cz * cz)); [rewrite Sz|]; ring).
  rewrite Hd, He, Hg, Hh, Az, Hb, Hf, Ax. f_equal; f_equal; ring.
Qed.

Theorem C29_xyz_matrix_roundtrip_partial : forall A n F,
  mats A n F -> (0 < n)%nat -> (forall j, (j < n)%nat -> rotation (F j)) ->
  (forall j, (j < n)%nat -> vz (r0 (F j)) <> 1 /\ vz (r0 (F j)) <> -1) ->
  returns ('(x, y, z) <- R2xyz A ;; xyz2R x y z)%py [] (fun C => mats C n F).
Proof.
  intros A n F HA Hn HR HG.
  destruct (R2xyz_spec _ _ _ HA) as (x & y & z & E & _ & _ & _ & (fx & Vx & Px) & (fy & Vy & Py) & (fz & Vz & Pz)).
  rewrite E, bind_ret; clear E.
  assert (D : bdim3 n n n = Some n) by (unfold bdim3; rewrite bdim_refl; apply bdim_refl).
  destruct (xyz2R_spec _ _ _ _ _ _ _ _ _ _ Vx Vy Vz D) as (C & E & HC).
  exists C; split; [exact E|]. eapply mats_ext; [|exact HC]. intros j Hj. cbn beta. rewrite (cl_id n j Hj).
  destruct (HG j Hj). apply Mxyz_recover; auto.
Qed.
Print Assumptions C29_xyz_matrix_roundtrip_partial.

Theorem C29_zyx_matrix_roundtrip_partial : forall A n F,
  mats A n F -> (0 < n)%nat -> (forall j, (j < n)%nat -> rotation (F j)) ->
  (forall j, (j < n)%nat -> vx (r2 (F j)) <> 1 /\ vx (r2 (F j)) <> -1) ->
  returns ('(z, y, x) <- R2zyx A ;; zyx2R z y x)%py [] (fun C => mats C n F).
Proof.
  intros A n F HA Hn HR HG.
  destruct (R2zyx_spec _ _ _ HA) as (x & y & z & E & (fx & Vx & Px) & (fy & Vy & Py) & (fz & Vz & Pz)).
  rewrite E, bind_ret; clear E.
  assert (D : bdim3 n n n = Some n) by (unfold bdim3; rewrite bdim_refl; apply bdim_refl).
  pose proof (vals_map1 nneg Ropp _ _ _ fin_neg Vx) as Nx. pose proof (vals_map1 nneg Ropp _ _ _ fin_neg Vy) as Ny.
  pose proof (vals_map1 nneg Ropp _ _ _ fin_neg Vz) as Nz.
  destruct (zyx2R_spec _ _ _ _ _ _ _ _ _ _ Nx Ny Nz D) as (C & E & HC).
  exists C; split; [exact E|]. eapply mats_ext; [|exact HC]. intros j Hj. cbn beta. rewrite (cl_id n j Hj).
  rewrite Mzyx_T, !Ropp_involutive. rewrite (Mxyz_recover (mT (F j))); auto using mT_mT.
  - apply rotation_T; auto.
  - apply (HG j Hj).
  - apply (HG j Hj).
Qed.
Print Assumptions C29_zyx_matrix_roundtrip_partial.

Example C29_example : rotation (Rz 1) /\ vz (r0 (Rz 1)) <> 1 /\ vz (r0 (Rz 1)) <> -1.
Proof. split; [apply Rz_rotation|]. cbn. lra. Qed.

(** gimbal lock: every rotation Rx(t) Ry(PI/2) comes back as Ry(PI/2) *)
Theorem C29_gimbal_lock_refuted : forall t,
  let A := mat33 (Fin 0) (Fin 0) (Fin 1)
                 (Fin (sin t)) (Fin (cos t)) (Fin 0)
                 (Fin (- cos t)) (Fin (sin t)) (Fin 0) in
  is_mat A (mmul (Rx t) (Ry (PI / 2))) /\ rotation (mmul (Rx t) (Ry (PI / 2))) /\
  returns ('(x, y, z) <- R2xyz A ;; xyz2R x y z)%py [] (fun C => is_mat C (Ry (PI / 2))).
Proof.
  intros t A. split; [|split].
  - unfold A. replace (mmul (Rx t) (Ry (PI / 2))) with (Mt (V 0 0 1) (V (sin t) (cos t) 0) (V (- cos t) (sin t) 0)).
    { apply mat33_is_mat. }
    unfold mmul, Rx, Ry, mT, vdot; cbn [vx vy vz r0 r1 r2]. rewrite cos_PI2, sin_PI2. f_equal; f_equal; ring.
  - apply rotation_mul; [apply Rx_rotation|apply Ry_rotation].
  - assert (H : exists x y z, R2xyz A = ret (x, y, z) /\ scalar x 0 /\ scalar y (PI / 2) /\ scalar z 0).
    { eexists. eexists. eexists. split; [reflexivity|].
      assert (Z : sbit (Fin 0) = false /\ nneg (Fin 0) = NZ /\ nmul (Fin 0) (Fin 0) = Fin 0 /\ narctan2 NZ (Fin 0) ≈ 0 /\ nadd (Fin 0) (Fin 0) = Fin 0).
      { assert (S0 : sbit (Fin 0) = false) by (unfold sbit; destruct (Rlt_dec 0 0); [lra|reflexivity]).
        split; [exact S0|]. split; [unfold nneg; destruct (Req_EM_T 0 0); [reflexivity|lra]|].
        split; [unfold nmul; cbn [fval]; destruct (Req_EM_T (0 * 0) 0); [rewrite S0; reflexivity|lra]|].
        split; [unfold narctan2; cbn [is_zero]; rewrite S0; eapply fin_eq; [apply signed_fin|cbn [sbit]; lra]|].
        unfold nadd; cbn [fval]; f_equal; lra. }
      destruct Z as (Z0 & Z1 & Z2 & Z3 & Z4).
      split; [|split]; (split; [reflexivity|]); cbn -[narctan2 nneg nmul nadd ndiv nsqrt nsin ncos].
      - rewrite Z1. exact Z3.
      - rewrite !Z2, !Z4.
        assert (Q : nsqrt (ndiv (Fin 0) (Fin 2)) ≈ sqrt (0 / 2)).
        { apply fin_sqrt; [apply fin_div; [reflexivity|reflexivity|lra]|lra]. }
        eapply fin_eq; [apply (narctan2_nz (Fin 1) _ 1 _ eq_refl Q R1_neq_R0)|].
        replace (0 / 2) with 0 by lra. rewrite sqrt_0.
        unfold atan2. destruct (Rlt_dec 0 0); [lra|]. destruct (Rlt_dec 0 0); [lra|]. destruct (Rlt_dec 0 1); lra.
      - rewrite Z1. exact Z3. }
    destruct H as (x & y & z & E & Hx & Hy & Hz). rewrite E, bind_ret; clear E.
    destruct (xyz2R_spec x y z 1 1 1 1 (fun _ => 0) (fun _ => PI / 2) (fun _ => 0)) as (C & E & HC);
      [apply vals_scalar; auto..|reflexivity|].
    exists C; split; [exact E|]. destruct HC as [[_ HC]|[N _]]; [|lia]. cbn beta in HC.
    replace (Ry (PI / 2)) with (Mxyz 0 (PI / 2) 0); auto.
    rewrite Mxyz_eq. unfold Cxyz, Ry. rewrite sin_0, cos_0. f_equal; f_equal; ring.
Qed.
Print Assumptions C29_gimbal_lock_refuted.

(** ... which is a different matrix for all but whole turns *)
Example C29_gimbal_lock_differs : forall t, cos t <> 1 -> mmul (Rx t) (Ry (PI / 2)) <> Ry (PI / 2).
Proof.
  intros t H E. apply H. unfold mmul, Rx, Ry, mT, vdot in E; cbn [vx vy vz r0 r1 r2] in E.
  injection E as _ _ _ _ E _ _ _ _. lra.
Qed.
