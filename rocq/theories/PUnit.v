(** * C01, C02: unit();  C03-C05: latitude/longitude *)
From Coq Require Import List Arith Lia Bool Reals Lra.
From Verif Require Import Num Py Nd MUtil MRotation MCore Spec SpecArr LNum LTrig LVec LArr LLatLon.
Import ListNotations.
Local Open Scope R_scope.

(** ** C01 *)
Theorem C01_unit_normalises : forall A n u, cols A n u ->
  returns (nv_unit A (Fin 1)) [] (fun C => shape C = [3%nat; n] /\
    forall j, (j < n)%nat ->
      (u j <> v0 -> exists w, vcol C j w /\ vnorm w = 1 /\ same_direction w (u j)) /\
      (u j = v0 -> vcol C j (V 1 0 0))).
Proof.
  intros A n u H. destruct (unit_spec A n u (Fin 1) H) as (C & E & S & G).
  exists C; split; [exact E|]. split; auto. intros j Hj. destruct (G j Hj) as [G1 G2]. split.
  - intros Z. exists (direction (u j)). split; auto. split; [apply direction_unit|apply direction_same]; auto.
  - intros Z. destruct (G2 Z) as (a & b & c). unfold vcol; cbn [vx vy vz]. rewrite a, b, c.
    repeat split; finr.
Qed.
Print Assumptions C01_unit_normalises.

Theorem C01_unit_nan_for_zero : forall A n u, cols A n u ->
  returns (nv_unit A NaN) [] (fun C => shape C = [3%nat; n] /\
    forall j, (j < n)%nat ->
      (u j <> v0 -> exists w, vcol C j w /\ vnorm w = 1 /\ same_direction w (u j)) /\
      (u j = v0 -> nancol C j)).
Proof.
  intros A n u H. destruct (unit_spec A n u NaN H) as (C & E & S & G).
  exists C; split; [exact E|]. split; auto. intros j Hj. destruct (G j Hj) as [G1 G2]. split.
  - intros Z. exists (direction (u j)). split; auto. split; [apply direction_unit|apply direction_same]; auto.
  - intros Z. destruct (G2 Z) as (a & b & c). unfold nancol. rewrite a, b, c. auto.
Qed.
Print Assumptions C01_unit_nan_for_zero.

(** each column of the result is a function of the corresponding input column only
    (any entries, also infinities and NaN, any positions in arrays of any widths) *)
Theorem C01_unit_columnwise : forall A B n m i j z C D,
  shape A = [3%nat; n] -> shape B = [3%nat; m] -> (i < n)%nat -> (j < m)%nat ->
  (forall r, (r < 3)%nat -> get A [r; i] = get B [r; j]) ->
  nv_unit A z = ret C -> nv_unit B z = ret D ->
  forall r, (r < 3)%nat -> get C [r; i] = get D [r; j].
Proof.
  intros A B n m i j z C D SA SB Hi Hj HAB EC ED r Hr.
  unfold nv_unit, norm0_keep in EC, ED. rewrite SA in EC. rewrite SB in ED. rewrite bind_ret in EC, ED.
  unfold map2 in EC, ED. cbn [shape map1] in EC, ED. rewrite SA, (bshape_3n_1m n n n (bdim_refl n)), bind_ret in EC.
  rewrite SB, (bshape_3n_1m m m m (bdim_refl m)), bind_ret in ED.
  unfold set_cols in EC, ED; cbn [shape] in EC, ED. injection EC as <-. injection ED as <-.
  unfold at_; cbn [get nth tl]. rewrite !bidx_2, (cl_id n i Hi), (cl_id m j Hj).
  unfold map1; cbn [get tl nsum].
  assert (Er : cl 3 r = r) by reflexivity. rewrite Er.
  rewrite !(HAB 0%nat), !(HAB 1%nat), !(HAB 2%nat), !(HAB r) by lia.
  reflexivity.
Qed.
Print Assumptions C01_unit_columnwise.

Example C01_example : cols (arr3 [V 3 4 0; v0]) 2 (fun j => nth j [V 3 4 0; v0] v0)
  /\ V 3 4 0 <> v0.
Proof. split; [apply (arr3_cols [V 3 4 0; v0])|]. intros [=]; lra. Qed.

(** ** C02 *)
Lemma dir1_unit u : vnorm (dir1 u) = 1.
Proof.
  destruct (vec_eq_dec u v0) as [->|H].
  - rewrite dir1_v0. apply vnorm_unit. unfold vdot; simpl; ring.
  - rewrite dir1_nz by auto. apply direction_unit; auto.
Qed.

Theorem C02_unit_idempotent : forall A n u, cols A n u ->
  exists C D w, nv_unit A (Fin 1) = ret C /\ nv_unit C (Fin 1) = ret D /\
                cols C n w /\ cols D n w.
Proof.
  intros A n u H. destruct (unit1_cols A n u H) as (C & EC & HC).
  destruct (unit1_cols C n _ HC) as (D & ED & HD).
  exists C, D, (fun j => dir1 (u j)). split; auto. split; auto. split; auto.
  eapply cols_ext; [|apply HD]. intros j Hj. simpl.
  rewrite (dir1_nz (dir1 (u j))) by (apply vnorm_inv, dir1_unit).
  apply (direction_of_unit _ (dir1_unit (u j))).
Qed.
Print Assumptions C02_unit_idempotent.

Theorem C02_unit_scale_invariant : forall A B n u c,
  cols A n u -> cols B n (fun j => vscale (c j) (u j)) -> (forall j, (j < n)%nat -> 0 < c j) ->
  exists C D w, nv_unit A (Fin 1) = ret C /\ nv_unit B (Fin 1) = ret D /\
                cols C n w /\ cols D n w.
Proof.
  intros A B n u c HA HB Hc. destruct (unit1_cols A n u HA) as (C & EC & HC).
  destruct (unit1_cols B n _ HB) as (D & ED & HD).
  exists C, D, (fun j => dir1 (u j)). split; auto. split; auto. split; auto.
  eapply cols_ext; [|apply HD]. intros j Hj. simpl.
  destruct (vec_eq_dec (u j) v0) as [->|Z]; [rewrite vscale_v0; reflexivity|].
  assert (Z2 : vscale (c j) (u j) <> v0).
  { intros E. apply Z. apply (vscale_eq_v0 (c j)); auto. apply Rgt_not_eq, Hc; auto. }
  rewrite !dir1_nz by auto. apply direction_scale; auto.
Qed.
Print Assumptions C02_unit_scale_invariant.

(** ** C03 *)
(** latitude: scalar or length n; longitude: scalar or the same length *)
Theorem C03_lat_lon2n_E : forall lat lon R_Ee M n m la lo,
  axes R_Ee M -> orthogonal M ->
  vals lat n la -> vals lon m lo -> bdim n m = Some n ->
  returns (lat_lon2n_E lat lon R_Ee) [] (fun A => exists u, cols A n u /\
    forall j, (j < n)%nat -> vnorm (u j) = 1 /\
      vdot (north M) (u j) = sin (la j) /\
      vdot (r1 M) (u j) = cos (la j) * sin (lo (cl m j)) /\
      vdot (r2 M) (u j) = - (cos (la j) * cos (lo (cl m j)))).
Proof.
  intros lat lon R_Ee M n m la lo HR HM Hla Hlo D.
  destruct (lat_lon2n_E_spec _ _ _ _ _ _ _ _ HR Hla Hlo D) as (A & E & HA).
  exists A; split; auto. eexists; split; [apply HA|]. intros j Hj.
  split.
  - rewrite orthogonal_norm by (apply orthogonal_T; auto). apply vnorm_unit, nvec_int_unit.
  - pose proof (orthogonal_inv' M (nvec_int (la j) (lo (cl m j))) HM) as I.
    unfold north. set (w := mulv (mT M) _) in *. unfold mulv, nvec_int in I.
    injection I; intros I2 I1 I0. rewrite I0, I1, I2. repeat split; ring.
Qed.
Print Assumptions C03_lat_lon2n_E.

(** the default axes: (cos lat cos lon, cos lat sin lon, sin lat) *)
Theorem C03_default_axes : forall lat lon n m la lo,
  vals lat n la -> vals lon m lo -> bdim n m = Some n ->
  returns (lat_lon2n_E lat lon None) [] (fun A =>
    cols A n (fun j => V (cos (la j) * cos (lo (cl m j))) (cos (la j) * sin (lo (cl m j))) (sin (la j)))).
Proof.
  intros lat lon n m la lo Hla Hlo D.
  destruct (lat_lon2n_E_spec lat lon None Me _ _ _ _ eq_refl Hla Hlo D) as (A & E & HA).
  exists A; split; auto. eapply cols_ext; [|apply HA]. intros j Hj.
  unfold nvec_int, Me. vring.
Qed.
Print Assumptions C03_default_axes.

(** the documented "real scalars or vectors of length n" fails when only the longitude is a vector *)
Theorem C03_scalar_latitude_vector_longitude_refuted : forall lat lon R_Ee M m la lo,
  axes R_Ee M -> scalar lat la -> list1 lon m lo -> (2 <= m)%nat ->
  raises (lat_lon2n_E lat lon R_Ee) ValueError.
Proof.
  intros lat lon R_Ee M m la lo HR [SL CL] [SO CO] Hm. unfold lat_lon2n_E.
  step (default_R_axes _ _ HR) Rm HRm.
  unfold map2; cbn [shape map1]. rewrite SL, SO, bshape_nil_r, !bind_ret.
  unfold vstack3, atleast_2d; cbn [shape map1]. rewrite SL. unfold vcat at 1; cbn [shape].
  destruct m as [|[|m]]; try lia. reflexivity.
Qed.
Print Assumptions C03_scalar_latitude_vector_longitude_refuted.

Example C03_example : exists lat lon, vals lat 2 (fun j => nth j [1; 2] 0) /\ vals lon 1 (fun _ => 3)
  /\ bdim 2 1 = Some 2%nat /\ orthogonal Me /\ orthogonal ME.
Proof.
  exists (arr1 [1; 2]), (scal (Fin 3)). repeat split.
  - right. apply (arr1_list1 [1; 2]).
  - left. split; auto. apply scal_scalar.
  - unfold orthogonal, Me. vring.
  - unfold orthogonal, ME. vring.
Qed.

(** ** C04 *)
Theorem C04_latlon_roundtrip : forall lat lon R_Ee M n m la lo,
  axes R_Ee M -> orthogonal M -> (0 < n)%nat ->
  vals lat n la -> vals lon m lo -> bdim n m = Some n ->
  (forall j, (j < n)%nat -> - (PI / 2) <= la j <= PI / 2) ->
  returns (A <- lat_lon2n_E lat lon R_Ee ;; n_E2lat_lon A R_Ee) [] (fun out =>
    list1 (fst out) n la /\
    shape (snd out) = [n] /\
    forall j, (j < n)%nat -> - (PI / 2) < la j < PI / 2 -> - PI < lo (cl m j) < PI ->
      get (snd out) [j] ≈ lo (cl m j)).
Proof.
  intros lat lon R_Ee M n m la lo HR HM Hn Hla Hlo D Hrange.
  destruct (lat_lon2n_E_spec _ _ _ _ _ _ _ _ HR Hla Hlo D) as (A & E & HA).
  rewrite E, bind_ret.
  destruct (n_E2lat_lon_spec _ _ _ _ _ HR HA Hn) as (LA & LO & E2 & [SLA HLA] & [SLO HLO]).
  rewrite E2. exists (LA, LO). split.
  - rewrite orthogonal_norm by (apply orthogonal_T; auto).
    rewrite (proj2 (vnorm_unit _) (nvec_int_unit _ _)), length_warning_unit. reflexivity.
  - cbn [fst snd]. split; [split; auto|split; auto].
    + intros j Hj. destruct (HLA j Hj) as (t & Ht & P). rewrite (orthogonal_inv' M _ HM) in P.
      apply lat_recover in P; auto. subst t; auto.
    + intros j Hj H1 H2. destruct (HLO j Hj) as (t & Ht & P). rewrite (orthogonal_inv' M _ HM) in P.
      apply lon_recover in P; auto. subst t; auto.
Qed.
Print Assumptions C04_latlon_roundtrip.

Example C04_example : - (PI / 2) < 1 < PI / 2 /\ - PI < 2 < PI /\ (0 < 1)%nat.
Proof. pose proof PI2_1. pose proof (PI2_3_2). unfold PI2 in *. lra || (split; [lra|split; [lra|lia]]). Qed.

(** ** C05 *)
Theorem C05_nvector_roundtrip : forall A n u R_Ee M,
  axes R_Ee M -> orthogonal M -> cols A n u -> (0 < n)%nat ->
  (forall j, (j < n)%nat -> u j <> v0) ->
  exists la lo B, n_E2lat_lon A R_Ee = (length_warning (vnorm (u 0%nat)), inl (la, lo)) /\
    list1P la n (fun _ t => - (PI / 2) <= t <= PI / 2) /\
    list1P lo n (fun _ t => - PI <= t <= PI) /\
    lat_lon2n_E la lo R_Ee = ret B /\
    cols B n (fun j => direction (u j)).
Proof.
  intros A n u R_Ee M HR HM HA Hn Hz.
  destruct (n_E2lat_lon_spec _ _ _ _ _ HR HA Hn) as (la & lo & E & Hla & Hlo).
  destruct (list1P_list1 _ _ _ Hla) as [Lla Pla]. destruct (list1P_list1 _ _ _ Hlo) as [Llo Plo].
  destruct (lat_lon2n_E_spec la lo R_Ee M n n _ _ HR (list1_vals _ _ _ Lla) (list1_vals _ _ _ Llo) (bdim_refl n))
    as (B & EB & HB).
  exists la, lo, B. split; auto. split; [|split; [|split; auto]].
  - destruct Hla as [S C]; split; auto. intros j Hj. destruct (C j Hj) as (t & Ht & P). exists t; split; auto.
    eapply lat_of_range; [|apply P]. apply orthogonal_nz; auto.
  - destruct Hlo as [S C]; split; auto. intros j Hj. destruct (C j Hj) as (t & Ht & P). exists t; split; auto.
    eapply lon_of_range; apply P.
  - eapply cols_ext; [|apply HB]. intros j Hj. simpl. rewrite (cl_id n j Hj).
    rewrite (lat_lon_direction (mulv M (u j))); auto.
    + rewrite orthogonal_direction by auto. apply orthogonal_inv; auto.
    + apply orthogonal_nz; auto.
Qed.
Print Assumptions C05_nvector_roundtrip.

(** poles and the antimeridian meet the hypotheses *)
Example C05_example : (forall j, (j < 3)%nat -> nth j [V 0 0 1; V 0 0 (-2); V (-1) 0 0] v0 <> v0)
  /\ orthogonal Me.
Proof.
  split.
  - intros j Hj. destruct (lt3 j Hj) as [->|[->| ->]]; simpl; intros [=]; lra.
  - unfold orthogonal, Me. vring.
Qed.
