(** * C59: the length of an n-vector only matters for the warning *)
From Coq Require Import List Arith Lia Bool Reals Lra.
From Verif Require Import Num Py Nd MUtil MRotation MCore Spec SpecArr LNum LTrig LVec LArr LLatLon LEcef LRot.
Import ListNotations.
Local Open Scope R_scope.

Lemma warning_iff r : In WLength (length_warning r) <-> 1 / 10 < Rabs (r - 1).
Proof.
  unfold length_warning. destruct (Rlt_dec _ _); cbn; intuition (try discriminate; lra).
Qed.
Lemma warning_only r w : In w (length_warning r) -> w = WLength.
Proof. unfold length_warning. destruct (Rlt_dec _ _); cbn; intuition. Qed.

(** the calls return normally, and warn - about the length, and about nothing else - iff the
    length of the first column is off by more than 0.1; the other columns are not examined *)
Definition warns_iff {A} (call : M A) (P : Prop) : Prop :=
  exists r, call = (fst call, inl r) /\ (In WLength (fst call) <-> P) /\ forall w, In w (fst call) -> w = WLength.

Theorem C59_warning_iff_first_length_off : forall N n u depth m k z xa xf a f R_Ee M,
  axes R_Ee M -> rotation M -> cols N n u -> (0 < n)%nat ->
  (forall j, (j < n)%nat -> u j <> v0) -> vals depth m z -> bdim n m = Some k ->
  xa ≈ a -> xf ≈ f -> 0 < a -> f < 1 ->
  let off := 1 / 10 < Rabs (vnorm (u 0%nat) - 1) in
  warns_iff (n_EB_E2p_EB_E N depth xa xf R_Ee) off /\
  warns_iff (n_E2R_EN N R_Ee) off /\
  warns_iff (n_E2lat_lon N R_Ee) off.
Proof.
  intros N n u depth m k z xa xf a f R_Ee M HR HM HN Hn Hu Hz D Ha Hf Pa Lf off.
  destruct (n2p_spec N n u depth m k z xa xf a f R_Ee M HR (proj1 HM) HN Hn Hu Hz D Ha Hf Lf) as (Pp & E & _).
  destruct (n_E2R_EN_spec N n u R_Ee M HR HM HN Hn Hu) as (R & E2 & _).
  destruct (n_E2lat_lon_spec N n u R_Ee M HR HN Hn) as (la & lo & E3 & _).
  unfold warns_iff. rewrite E, E2, E3. cbn [fst].
  repeat split; try apply warning_iff; try (intros w; apply warning_only).
  - exists Pp. split; [reflexivity|]. split; [apply warning_iff|]. apply warning_only.
  - exists R. split; [reflexivity|]. split; [apply warning_iff|]. apply warning_only.
  - exists (la, lo). split; [reflexivity|]. split; [apply warning_iff|]. apply warning_only.
Qed.

(** every column of [N'] is the column of [N] times a positive factor, its own for every column *)
Definition rescaled (N N' : arr num) (n : nat) (u : nat -> vec) (c : nat -> R) : Prop :=
  cols N n u /\ cols N' n (fun j => vscale (c j) (u j)) /\
  forall j, (j < n)%nat -> u j <> v0 /\ 0 < c j.

Lemma rescaled_nz N N' n u c : rescaled N N' n u c -> forall j, (j < n)%nat -> vscale (c j) (u j) <> v0.
Proof.
  intros (_ & _ & H) j Hj E. destruct (H j Hj) as (Hu & Hc). apply Hu. eapply vscale_eq_v0; eauto. lra.
Qed.
Lemma cl_lt n m k j : bdim n m = Some k -> (j < k)%nat -> (0 < n)%nat -> (cl n j < n)%nat.
Proof.
  unfold bdim, cl. intros D Hj Hn.
  destruct (Nat.eqb_spec n m); [injection D as <-; destruct (Nat.eqb_spec n 1); lia|].
  destruct (Nat.eqb_spec n 1); [lia|].
  destruct (Nat.eqb_spec m 1); [injection D as <-; lia | discriminate].
Qed.

Theorem C59_position_ignores_length : forall N N' n u c depth m k z xa xf a f R_Ee M,
  axes R_Ee M -> orthogonal M -> rescaled N N' n u c -> (0 < n)%nat ->
  vals depth m z -> bdim n m = Some k -> xa ≈ a -> xf ≈ f -> f < 1 ->
  exists p,
    returns (n_EB_E2p_EB_E N depth xa xf R_Ee) (length_warning (vnorm (u 0%nat))) (fun P => cols P k p) /\
    returns (n_EB_E2p_EB_E N' depth xa xf R_Ee) (length_warning (c 0%nat * vnorm (u 0%nat))) (fun P => cols P k p).
Proof.
  intros N N' n u c depth m k z xa xf a f R_Ee M HR HM HS Hn Hz D Ha Hf Lf.
  pose proof (rescaled_nz _ _ _ _ _ HS) as Nz. destruct HS as (HN & HN' & HC).
  destruct (n2p_spec N n u depth m k z xa xf a f R_Ee M HR HM HN Hn ltac:(intros; apply HC; auto) Hz D Ha Hf Lf) as (P1 & E1 & C1).
  destruct (n2p_spec N' n _ depth m k z xa xf a f R_Ee M HR HM HN' Hn Nz Hz D Ha Hf Lf) as (P2 & E2 & C2).
  eexists. split.
  - exists P1. split; [exact E1|exact C1].
  - exists P2. split.
    + rewrite E2. cbv beta. rewrite vnorm_scale, Rabs_right; [reflexivity|]. destruct (HC 0%nat Hn). lra.
    + destruct C2 as [S2 C2]. split; [exact S2|]. intros j Hj. specialize (C2 j Hj). cbv beta in C2.
      destruct (HC (cl n j) (cl_lt _ _ _ _ D Hj Hn)) as (U & V0). rewrite direction_scale in C2 by auto. exact C2.
Qed.

Theorem C59_north_east_down_ignores_length : forall N N' n u c R_Ee M,
  axes R_Ee M -> rotation M -> rescaled N N' n u c -> (0 < n)%nat ->
  exists F,
    returns (n_E2R_EN N R_Ee) (length_warning (vnorm (u 0%nat))) (fun R => mats R n F) /\
    returns (n_E2R_EN N' R_Ee) (length_warning (c 0%nat * vnorm (u 0%nat))) (fun R => mats R n F).
Proof.
  intros N N' n u c R_Ee M HR HM HS Hn.
  pose proof (rescaled_nz _ _ _ _ _ HS) as Nz. destruct HS as (HN & HN' & HC).
  destruct (n_E2R_EN_spec N n u R_Ee M HR HM HN Hn ltac:(intros; apply HC; auto)) as (P1 & E1 & C1).
  destruct (n_E2R_EN_spec N' n _ R_Ee M HR HM HN' Hn Nz) as (P2 & E2 & C2).
  exists (fun j => NED M (direction (u j))). split.
  - exists P1. split; [exact E1|exact C1].
  - exists P2. split.
    + rewrite E2. cbv beta. rewrite vnorm_scale, Rabs_right; [reflexivity|]. destruct (HC 0%nat Hn). lra.
    + destruct C2 as [[-> C2]|[E [S2 C2]]]; [left|right]; split; auto.
      * cbv beta in C2. destruct (HC 0%nat ltac:(lia)). rewrite direction_scale in C2 by auto. exact C2.
      * split; [exact S2|]. intros j Hj. specialize (C2 j Hj). cbv beta in C2.
        destruct (HC j Hj). rewrite direction_scale in C2 by auto. exact C2.
Qed.

Lemma arg_unique y x s t : 0 < x * x + y * y -> arg_of y x s -> arg_of y x t -> cos s = cos t /\ sin s = sin t.
Proof.
  intros H (_ & A & B) (_ & C & D). assert (P := sqrt_lt_R0 _ H).
  split; apply (Rmult_eq_reg_l (sqrt (x * x + y * y))); try lra.
Qed.
Lemma arg_scale c y x t : 0 < c -> arg_of (c * y) (c * x) t -> arg_of y x t.
Proof.
  intros Hc (A & B & C).
  replace (c * x * (c * x) + c * y * (c * y)) with (c * c * (x * x + y * y)) in B, C by ring.
  rewrite sqrt_mult, sqrt_square in B, C by nra.
  split; [exact A|]. split; apply (Rmult_eq_reg_l c); lra.
Qed.
Lemma lat_scale c q t : 0 < c -> lat_of (vscale c q) t -> lat_of q t.
Proof.
  intros Hc H. unfold lat_of in *. destruct q as [x y z]. unfold vscale in H. cbn [vx vy vz] in *.
  replace (c * y * (c * y) + c * z * (c * z)) with (c * c * (y * y + z * z)) in H by ring.
  rewrite sqrt_mult, sqrt_square in H by nra. eapply arg_scale; eauto.
Qed.
Lemma lon_scale c q t : 0 < c -> lon_of (vscale c q) t -> lon_of q t.
Proof.
  intros Hc H. unfold lon_of in *. destruct q as [x y z]. unfold vscale in H. cbn [vx vy vz] in *.
  replace (- (c * z)) with (c * - z) in H by ring. eapply arg_scale; eauto.
Qed.

(** Latitudes are the same numbers; longitudes the same angles, except at a pole where every
    longitude is right.  ("Same angle", not "same number": at the antimeridian the code returns
    pi or -pi depending on the signs of zero entries, which [cols] does not see.) *)
Theorem C59_lat_lon_ignores_length : forall N N' n u c R_Ee M,
  axes R_Ee M -> orthogonal M -> rescaled N N' n u c -> (0 < n)%nat ->
  exists la lo lo',
    returns (n_E2lat_lon N R_Ee) (length_warning (vnorm (u 0%nat))) (fun r => list1 (fst r) n la /\ list1 (snd r) n lo) /\
    returns (n_E2lat_lon N' R_Ee) (length_warning (c 0%nat * vnorm (u 0%nat))) (fun r => list1 (fst r) n la /\ list1 (snd r) n lo') /\
    forall j, (j < n)%nat -> vcross (north M) (u j) <> v0 ->
      cos (lo' j) = cos (lo j) /\ sin (lo' j) = sin (lo j) /\ - PI <= lo j <= PI /\ - PI <= lo' j <= PI.
Proof.
  intros N N' n u c R_Ee M HR HM HS Hn.
  destruct HS as (HN & HN' & HC).
  destruct (n_E2lat_lon_spec N n u R_Ee M HR HN Hn) as (la & lo & E & A & B).
  destruct (n_E2lat_lon_spec N' n _ R_Ee M HR HN' Hn) as (la' & lo' & E' & A' & B').
  destruct (list1P_list1 _ _ _ A) as [L1 P1]. destruct (list1P_list1 _ _ _ B) as [L2 P2].
  destruct (list1P_list1 _ _ _ A') as [L3 P3]. destruct (list1P_list1 _ _ _ B') as [L4 P4].
  exists (entries la), (entries lo), (entries lo').
  assert (SL : forall j, (j < n)%nat -> entries la' j = entries la j).
  { intros j Hj. specialize (P1 j Hj). specialize (P3 j Hj). cbv beta in P1, P3.
    destruct (HC j Hj) as (Hu & Hc). rewrite mulv_scale in P3. apply lat_scale in P3; auto.
    assert (Nz := orthogonal_nz M (u j) HM Hu).
    pose proof (lat_of_range _ _ Nz P1). pose proof (lat_of_range _ _ Nz P3).
    assert (Q : 0 < sqrt (vy (mulv M (u j)) * vy (mulv M (u j)) + vz (mulv M (u j)) * vz (mulv M (u j)))
                  * sqrt (vy (mulv M (u j)) * vy (mulv M (u j)) + vz (mulv M (u j)) * vz (mulv M (u j)))
                  + vx (mulv M (u j)) * vx (mulv M (u j))).
    { rewrite sqrt2_sq. pose proof (vdot_nz _ Nz) as Q. unfold vdot in Q. lra. }
    destruct (arg_unique _ _ _ _ Q P1 P3) as (_ & S).
    apply Rle_antisym.
    - destruct (Rle_lt_dec (entries la' j) (entries la j)) as [|L]; auto.
      enough (sin (entries la j) < sin (entries la' j)) by lra. apply sin_increasing_1; lra.
    - destruct (Rle_lt_dec (entries la j) (entries la' j)) as [|L]; auto.
      enough (sin (entries la' j) < sin (entries la j)) by lra. apply sin_increasing_1; lra. }
  split; [|split].
  - exists (la, lo). split; [exact E|]. cbn [fst snd]. split; assumption.
  - exists (la', lo'). split.
    + rewrite E'. cbv beta. rewrite vnorm_scale, Rabs_right; [reflexivity|]. destruct (HC 0%nat Hn). lra.
    + cbn [fst snd]. split; [|assumption].
      destruct L3 as [S3 L3]. split; [exact S3|]. intros j Hj. rewrite <- (SL j Hj). auto.
  - intros j Hj NP. specialize (P2 j Hj). specialize (P4 j Hj). cbv beta in P2, P4.
    destruct (HC j Hj) as (Hu & Hc). rewrite mulv_scale in P4. apply lon_scale in P4; auto.
    assert (Q : 0 < - Spec.vz (mulv M (u j)) * - Spec.vz (mulv M (u j)) + Spec.vy (mulv M (u j)) * Spec.vy (mulv M (u j))).
    { pose proof (orthogonal_rows M HM) as (U & _).
      assert (X := vdot_nz _ NP). rewrite lagrange in X. unfold north in X. rewrite U in X.
      rewrite <- (orthogonal_dot M (u j) (u j) HM) in X.
      change (vdot (r0 M) (u j)) with (Spec.vx (mulv M (u j))) in X. unfold vdot in X. nra. }
    destruct (arg_unique _ _ _ _ Q P2 P4) as (S & T). split; [auto|]. split; [auto|].
    split; [exact (proj1 P2)|exact (proj1 P4)].
Qed.

(** two n-vectors, the first doubled and the second divided by five: the doubling is reported *)
Example C59_example :
  rescaled (arr3 [V 0 0 1; V 3 4 0]) (arr3 [V 0 0 2; V (3 / 5) (4 / 5) 0]) 2
           (fun j => nth j [V 0 0 1; V 3 4 0] v0) (fun j => nth j [2; 1 / 5] 0) /\
  (~ In WLength (length_warning (vnorm (V 0 0 1)))) /\ In WLength (length_warning (2 * vnorm (V 0 0 1))) /\
  rotation Me.
Proof.
  assert (N1 : vnorm (V 0 0 1) = 1) by (apply vnorm_unit; unfold vdot; cbn [Spec.vx Spec.vy Spec.vz]; ring).
  split; [|split; [|split]].
  - split; [apply (arr3_cols [V 0 0 1; V 3 4 0])|]. split.
    + pose proof (arr3_cols [V 0 0 2; V (3 / 5) (4 / 5) 0]) as [S H]. split; [exact S|].
      intros j Hj. specialize (H j Hj). destruct j as [|[|j]]; [| |lia]; cbn [nth] in *; unfold vscale; cbn [vx vy vz].
      * replace (2 * 0) with 0 by ring. replace (2 * 1) with 2 by ring. exact H.
      * replace (1 / 5 * 3) with (3 / 5) by field. replace (1 / 5 * 4) with (4 / 5) by field.
        replace (1 / 5 * 0) with 0 by ring. exact H.
    + intros [|[|j]] Hj; [| |lia]; cbn [nth]; (split; [|lra]); intros X; apply (f_equal vx) in X as X1; apply (f_equal vz) in X as X3; cbn in X1, X3; lra.
  - rewrite warning_iff, N1. replace (1 - 1) with 0 by ring. rewrite Rabs_R0. lra.
  - rewrite warning_iff, N1. replace (2 * 1 - 1) with 1 by ring. rewrite Rabs_R1. lra.
  - split; [unfold orthogonal; unfold Me, mmul, mT, mI, c0, c1, c2, vdot; cbn; f_equal; f_equal; ring|unfold mdet, Me, vdot, vcross; cbn; ring].
Qed.
Print Assumptions C59_warning_iff_first_length_off.
Print Assumptions C59_position_ignores_length.
Print Assumptions C59_north_east_down_ignores_length.
Print Assumptions C59_lat_lon_ignores_length.
