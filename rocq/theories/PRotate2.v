(** * C102: turning the globe about its own axis

    On the ellipsoid only the rotations about the polar axis (shifts of all longitudes by the same
    amount) are symmetries.  Every function of the ellipsoid respects them: positions turn, depths,
    azimuths and deltas seen from the local North-East-Down axes do not change. *)
From Coq Require Import String List Arith Lia Bool Reals Lra Psatz.
From Verif Require Import Num Py Nd MUtil MRotation MCore Spec SpecArr LNum LTrig LVec LArr LAngle LVerm LCircle LDist LMat LRot LLatLon LEcef PEcef PFrame LDirect PDirect PRotate.
Import ListNotations.
Local Open Scope R_scope.

(** Q keeps the polar axis of the axes matrix M *)
Definition keeps_poles (Q M : mat) : Prop := mulv Q (north M) = north M.

(** the same rotation seen in the internal axes *)
Definition inner (Q M : mat) : mat := mmul M (mmul Q (mT M)).
Lemma inner_orth Q M : orthogonal Q -> orthogonal M -> orthogonal (inner Q M).
Proof.
  intros HQ HM. pose proof (orthogonal_T _ HM) as HT. unfold orthogonal in *. unfold inner.
  rewrite !mT_mmul, !mT_mT in *.
  rewrite !mmul_assoc, <- (mmul_assoc (mT M) M), HM, mmul_mI_l, <- (mmul_assoc (mT Q) Q), HQ, mmul_mI_l.
  exact HT.
Qed.
Lemma inner_mulv Q M u : orthogonal M -> mulv M (mulv Q u) = mulv (inner Q M) (mulv M u).
Proof. intros HM. unfold inner. rewrite !mulv_mmul, orthogonal_inv by auto. reflexivity. Qed.
Lemma inner_back Q M w : orthogonal M -> mulv (mT M) (mulv (inner Q M) w) = mulv Q (mulv (mT M) w).
Proof. intros HM. unfold inner. rewrite !mulv_mmul, orthogonal_inv by auto. reflexivity. Qed.
Lemma inner_e0 Q M : orthogonal M -> keeps_poles Q M -> mulv (inner Q M) (V 1 0 0) = V 1 0 0.
Proof.
  intros HM HK. unfold inner. rewrite !mulv_mmul. rewrite rows_e0. unfold keeps_poles in HK. rewrite HK.
  rewrite <- (rows_e0 M), orthogonal_inv' by auto. reflexivity.
Qed.
Lemma inner_vx S w : orthogonal S -> mulv S (V 1 0 0) = V 1 0 0 -> vx (mulv S w) = vx w.
Proof.
  intros HS HE. transitivity (vdot (V 1 0 0) (mulv S w)); [unfold vdot; cbn [vx vy vz]; ring|].
  rewrite <- HE at 1. rewrite orthogonal_dot by auto. unfold vdot; cbn [vx vy vz]; ring.
Qed.
Lemma rho2_dot w : rho2 w = vdot w w - vx w * vx w.
Proof. unfold rho2, vdot. ring. Qed.
Lemma inner_rho2 S w : orthogonal S -> mulv S (V 1 0 0) = V 1 0 0 -> rho2 (mulv S w) = rho2 w.
Proof. intros HS HE. rewrite !rho2_dot, orthogonal_dot, inner_vx by auto. reflexivity. Qed.

Lemma V_lin (p q s x y z : R) : V (p * x) (q * y) (q * z) = vadd (vscale q (V x y z)) (vscale ((p - q) * x) (V 1 0 0)).
Proof. unfold vadd, vscale; cbn [vx vy vz]. f_equal; ring. Qed.
Lemma axial S p q w : orthogonal S -> mulv S (V 1 0 0) = V 1 0 0 ->
  V (p * vx (mulv S w)) (q * vy (mulv S w)) (q * vz (mulv S w)) = mulv S (V (p * vx w) (q * vy w) (q * vz w)).
Proof.
  intros HS HE. rewrite (V_lin p q 0 (vx (mulv S w))), (V_lin p q 0 (vx w)), inner_vx by auto.
  rewrite mulv_add, !mulv_scale, HE.
  replace (V (vx w) (vy w) (vz w)) with w by (destruct w; reflexivity).
  replace (V (vx w) (vy (mulv S w)) (vz (mulv S w))) with (mulv S w); [reflexivity|].
  rewrite <- (inner_vx S w HS HE). destruct (mulv S w); reflexivity.
Qed.

Lemma pint_turn a f S w d : orthogonal S -> mulv S (V 1 0 0) = V 1 0 0 ->
  pint a f (mulv S w) d = mulv S (pint a f w d).
Proof.
  intros HS HE. unfold pint. rewrite mulv_sub, mulv_scale. f_equal.
  assert (C : cc a f (mulv S w) = cc a f w).
  { unfold cc, den. rewrite inner_rho2, inner_vx by auto. reflexivity. }
  unfold psurf. rewrite C. set (c := cc a f w).
  replace (V (c * vx (mulv S w)) (c * vy (mulv S w) / ((1 - f) * (1 - f))) (c * vz (mulv S w) / ((1 - f) * (1 - f))))
    with (V (c * vx (mulv S w)) (c / ((1 - f) * (1 - f)) * vy (mulv S w)) (c / ((1 - f) * (1 - f)) * vz (mulv S w)))
    by (unfold Rdiv; f_equal; ring).
  rewrite axial by auto. do 2 f_equal; unfold Rdiv; ring.
Qed.
Lemma pos_turn a f Q M u z : orthogonal Q -> orthogonal M -> keeps_poles Q M ->
  pos a f M (mulv Q u) z = mulv Q (pos a f M u z).
Proof.
  intros HQ HM HK. unfold pos. rewrite orthogonal_direction, inner_mulv, pint_turn, inner_back by (auto using inner_orth, inner_e0).
  reflexivity.
Qed.

(** ** n-vector and depth to position *)
Theorem C102_n_EB_E2p_EB_E : forall Q N N' n u depth m k z xa xf a f R_Ee M,
  axes R_Ee M -> orthogonal M -> orthogonal Q -> keeps_poles Q M ->
  cols N n u -> cols N' n (fun j => mulv Q (u j)) -> (0 < n)%nat ->
  (forall j, (j < n)%nat -> u j <> v0) -> vals depth m z -> bdim n m = Some k ->
  xa ≈ a -> xf ≈ f -> f < 1 ->
  exists w p, returns (n_EB_E2p_EB_E N depth xa xf R_Ee) w (fun P => cols P k p) /\
              returns (n_EB_E2p_EB_E N' depth xa xf R_Ee) w (fun P => cols P k (fun j => mulv Q (p j))).
Proof.
  intros Q N N' n u depth m k z xa xf a f R_Ee M HR HM HQ HK HN HN' Hn Nz Hz D Ha Hf Lf.
  destruct (n2p_spec _ _ _ _ _ _ _ _ _ _ _ _ _ HR HM HN Hn Nz Hz D Ha Hf Lf) as (P & E & HP).
  destruct (n2p_spec _ _ _ _ _ _ _ _ _ _ _ _ _ HR HM HN' Hn (fun j Hj => orthogonal_nz _ _ HQ (Nz j Hj)) Hz D Ha Hf Lf) as (P' & E' & HP').
  rewrite orthogonal_norm in E' by auto.
  eexists _, _. split; [exists P; split; [exact E|exact HP]|]. exists P'; split; [exact E'|].
  eapply cols_ext; [|exact HP']. intros j Hj. cbn beta. apply (pos_turn a f Q M (u (cl n j)) (z (cl m j))); auto.
Qed.
Print Assumptions C102_n_EB_E2p_EB_E.

(** ** position to n-vector and depth *)
Lemma geod_turn a f S q w d : orthogonal S -> mulv S (V 1 0 0) = V 1 0 0 ->
  geod a f q w d -> geod a f (mulv S q) (mulv S w) d.
Proof.
  intros HS HE (k & T & Pk & PT & Ek & ET & Ew & Ed). exists k, T.
  rewrite !inner_rho2, !inner_vx by auto. repeat (split; [assumption|]). split; [|assumption].
  set (kk := k / (k + ecc2 f)) in *. rewrite Ew.
  replace (V (vx q / T) (kk * vy q / T) (kk * vz q / T)) with (V (/ T * vx q) (kk / T * vy q) (kk / T * vz q)) by (unfold Rdiv; f_equal; ring).
  rewrite <- axial, inner_vx by auto. unfold Rdiv; f_equal; ring.
Qed.
Lemma geod_unique a f q w d w' d' : 0 < a -> 0 <= f < 1 -> geod a f q w d -> geod a f q w' d' -> w = w' /\ d = d'.
Proof.
  intros Pa Rf (k & T & Pk & PT & Ek & ET & Ew & Ed) (k' & T' & Pk' & PT' & Ek' & ET' & Ew' & Ed').
  pose proof (ecc2_range f Rf) as Re.
  assert (Pi : 0 < / (a * a)) by (apply Rinv_0_lt_compat; nra).
  assert (k = k').
  { eapply (quartic_unique (ecc2 f)); [| | | | |exact Ek|exact Ek']; try lra.
    - apply Rmult_le_pos; [apply rho2_pos|lra].
    - apply Rmult_le_pos; [|lra]. nra. }
  subst k'. rewrite <- ET in ET'. assert (T = T') by nra. subst T'. subst. auto.
Qed.

Theorem C102_p_EB_E2n_EB_E : forall Q P P' n p xa xf a f R_Ee M,
  axes R_Ee M -> orthogonal M -> orthogonal Q -> keeps_poles Q M ->
  cols P n p -> cols P' n (fun j => mulv Q (p j)) -> xa ≈ a -> xf ≈ f -> 0 < a -> 0 <= f < 1 ->
  (forall j, (j < n)%nat ->
     let eq := equatorial (north M) (p j) in
     (ecc2 f) ^ 2 * a ^ 2 < vdot eq eq + (1 - ecc2 f) * (polar (north M) (p j)) ^ 2) ->
  exists N N' depth depth' nn z,
    p_EB_E2n_EB_E P xa xf R_Ee = ret (N, depth) /\ p_EB_E2n_EB_E P' xa xf R_Ee = ret (N', depth') /\
    cols N n nn /\ cols N' n (fun j => mulv Q (nn j)) /\ list1 depth n z /\ list1 depth' n z.
Proof.
  intros Q P P' n p xa xf a f R_Ee M HR HM HQ HK HP HP' Ha Hf Pa Rf G.
  assert (O : forall j, (j < n)%nat -> outside a f (mulv M (p j))).
  { intros j Hj. specialize (G j Hj). cbv zeta in G. rewrite equatorial_int, polar_int in G by auto.
    assert (X2 : forall t, t ^ 2 = t * t) by (intros; ring). rewrite !X2 in G. exact G. }
  pose proof (inner_orth Q M HQ HM) as HS. pose proof (inner_e0 Q M HM HK) as HE.
  destruct (p2n_spec P n p xa xf a f R_Ee M HR HM HP Ha Hf Pa Rf O) as (N & dep & w & z & E & HN & Hd & Gd).
  destruct (p2n_spec P' n _ xa xf a f R_Ee M HR HM HP' Ha Hf Pa Rf) as (N' & dep' & w' & z' & E' & HN' & Hd' & Gd').
  { intros j Hj. cbn beta. rewrite inner_mulv by auto. unfold outside. rewrite inner_rho2, inner_vx by auto. apply O; auto. }
  assert (X : forall j, (j < n)%nat -> w' j = mulv (inner Q M) (w j) /\ z' j = z j).
  { intros j Hj. specialize (Gd j Hj). specialize (Gd' j Hj). cbn beta in Gd'. rewrite inner_mulv in Gd' by auto.
    eapply geod_unique; eauto. apply geod_turn; auto. }
  exists N, N', dep, dep', (fun j => mulv (mT M) (w j)), z. repeat (split; [assumption|]). split; [|split; [assumption|]].
  - eapply cols_ext; [|exact HN']. intros j Hj. cbn beta. rewrite (proj1 (X j Hj)), inner_back by auto. reflexivity.
  - destruct Hd' as [S' G']. split; [exact S'|]. intros j Hj. rewrite <- (proj2 (X j Hj)). auto.
Qed.
Print Assumptions C102_p_EB_E2n_EB_E.

(** ** delta in E axes *)
Theorem C102_delta_E : forall Q A A' B B' n m k u v zA zB p q ra rb xa xf a f R_Ee M kA kB,
  axes R_Ee M -> orthogonal M -> orthogonal Q -> keeps_poles Q M ->
  cols A n u -> cols A' n (fun j => mulv Q (u j)) -> cols B m v -> cols B' m (fun j => mulv Q (v j)) ->
  (0 < n)%nat -> (0 < m)%nat ->
  (forall j, (j < n)%nat -> u j <> v0) -> (forall j, (j < m)%nat -> v j <> v0) ->
  vals zA p ra -> vals zB q rb -> bdim n p = Some kA -> bdim m q = Some kB -> bdim kB kA = Some k ->
  xa ≈ a -> xf ≈ f -> f < 1 ->
  exists w d, returns (n_EA_E_and_n_EB_E2p_AB_E A B zA zB xa xf R_Ee) w (fun D => cols D k d) /\
              returns (n_EA_E_and_n_EB_E2p_AB_E A' B' zA zB xa xf R_Ee) w (fun D => cols D k (fun j => mulv Q (d j))).
Proof.
  intros Q A A' B B' n m k u v zA zB p q ra rb xa xf a f R_Ee M kA kB HR HM HQ HK HA HA' HB HB' Hn Hm Nu Nv HzA HzB DA DB D Ha Hf Lf.
  destruct (delta_spec _ _ _ _ _ _ _ _ _ _ _ _ _ _ _ _ _ _ _ _ _ HR HM HA HB Hn Hm Nu Nv HzA HzB DA DB D Ha Hf Lf) as (X & E & HX).
  destruct (delta_spec _ _ _ _ _ _ _ _ _ _ _ _ _ _ _ _ _ _ _ _ _ HR HM HA' HB' Hn Hm
     (fun j Hj => orthogonal_nz _ _ HQ (Nu j Hj)) (fun j Hj => orthogonal_nz _ _ HQ (Nv j Hj)) HzA HzB DA DB D Ha Hf Lf) as (X' & E' & HX').
  rewrite !orthogonal_norm in E' by auto.
  eexists _, _. split; [exists X; split; [exact E|exact HX]|]. exists X'; split; [exact E'|].
  eapply cols_ext; [|exact HX']. intros j Hj. cbn beta. rewrite !pos_turn, mulv_sub by auto. reflexivity.
Qed.
Print Assumptions C102_delta_E.

(** ** local axes *)
Lemma eastv_turn Q M u : rotation Q -> keeps_poles Q M -> vcross (north M) u <> v0 ->
  eastv M (mulv Q u) = mulv Q (eastv M u).
Proof.
  intros HQ HK N. pose proof HQ as [HO _]. unfold eastv.
  assert (E : vcross (north M) (mulv Q u) = mulv Q (vcross (north M) u)).
  { unfold keeps_poles in HK. rewrite <- HK at 1. rewrite rotation_cross by auto. reflexivity. }
  rewrite E, orthogonal_norm, orthogonal_direction by auto. pose proof (vnorm_nz _ N).
  destruct (Req_EM_T _ 0); [lra|reflexivity].
Qed.
Lemma NED_turn Q M u : rotation Q -> keeps_poles Q M -> vcross (north M) u <> v0 ->
  NED M (mulv Q u) = mmul Q (NED M u).
Proof.
  intros HQ HK N. unfold NED. rewrite eastv_turn, <- mulv_neg, rotation_cross by auto.
  generalize (eastv M u) (vneg u). clear. intros e d. generalize (vcross e d). intros c. vring.
Qed.

(** the local North-East-Down axes turn with the globe (away from the poles) *)
Theorem C102_n_E2R_EN : forall Q A A' n u R_Ee M,
  axes R_Ee M -> rotation M -> rotation Q -> keeps_poles Q M ->
  cols A n u -> cols A' n (fun j => mulv Q (u j)) -> (0 < n)%nat ->
  (forall j, (j < n)%nat -> vcross (north M) (u j) <> v0) ->
  exists w F, returns (n_E2R_EN A R_Ee) w (fun R => mats R n F) /\
              returns (n_E2R_EN A' R_Ee) w (fun R => mats R n (fun j => mmul Q (F j))).
Proof.
  intros Q A A' n u R_Ee M HR HM HQ HK HA HA' Hn Np. pose proof HQ as [HO _].
  assert (Nz : forall j, (j < n)%nat -> u j <> v0).
  { intros j Hj E. apply (Np j Hj). rewrite E. generalize (north M). intros w. vring. }
  destruct (n_E2R_EN_spec _ _ _ _ _ HR HM HA Hn Nz) as (R & E & HF).
  destruct (n_E2R_EN_spec _ _ _ _ _ HR HM HA' Hn (fun j Hj => orthogonal_nz _ _ HO (Nz j Hj))) as (R' & E' & HF').
  rewrite orthogonal_norm in E' by auto.
  eexists _, _. split; [exists R; split; [exact E|exact HF]|]. exists R'; split; [exact E'|].
  assert (X : forall j, (j < n)%nat -> NED M (direction (mulv Q (u j))) = mmul Q (NED M (direction (u j)))).
  { intros j Hj. rewrite orthogonal_direction by auto. apply NED_turn; auto.
    unfold direction. rewrite vcross_scale_r. intros Z. apply (Np j Hj).
    pose proof (vnorm_nz _ (Nz j Hj)). rewrite <- (vscale_1 (vcross (north M) (u j))).
    replace 1 with (vnorm (u j) * / vnorm (u j)) by (field; lra). rewrite <- vscale_vscale, Z. vring. }
  destruct HF' as [[-> H']|[N H']]; [left|right]; (split; [auto|]).
  - rewrite <- X by lia. exact H'.
  - destruct H' as [S G]. split; [exact S|]. intros j Hj. rewrite <- X by auto. auto.
Qed.
Print Assumptions C102_n_E2R_EN.

(** azimuths do not change *)
Theorem C102_azimuth : forall Q A A' B B' n m k u v xa xf a f R_Ee M,
  axes R_Ee M -> rotation M -> rotation Q -> keeps_poles Q M ->
  cols A n u -> cols A' n (fun j => mulv Q (u j)) -> cols B m v -> cols B' m (fun j => mulv Q (v j)) ->
  (0 < n)%nat -> (0 < m)%nat ->
  (forall j, (j < n)%nat -> vcross (north M) (u j) <> v0) -> (forall j, (j < m)%nat -> v j <> v0) ->
  bdim m n = Some k -> xa ≈ a -> xf ≈ f -> f < 1 ->
  exists w, returns (n_EA_E_and_n_EB_E2azimuth A B xa xf R_Ee) w (fun Z =>
            returns (n_EA_E_and_n_EB_E2azimuth A' B' xa xf R_Ee) w (fun Z' =>
    shape Z = [k] /\ shape Z' = [k] /\
    forall j, (j < k)%nat -> exists t t', get Z [j] ≈ t /\ get Z' [j] ≈ t' /\
      (t = t' \/ (t = PI /\ t' = - PI) \/ (t = - PI /\ t' = PI) \/
       (* B straight above or below A: no azimuth *)
       exists c, vsub (pos a f M (v (cl m j)) 0) (pos a f M (u (cl n j)) 0) = vscale c (u (cl n j))))).
Proof.
  intros Q A A' B B' n m k u v xa xf a f R_Ee M HR HM HQ HK HA HA' HB HB' Hn Hm Np Nv D Ha Hf Lf. pose proof HQ as [HO _].
  pose proof HM as [HMO _].
  assert (Nu : forall j, (j < n)%nat -> u j <> v0).
  { intros j Hj E. apply (Np j Hj). rewrite E. generalize (north M). intros w. vring. }
  destruct (azimuth_spec _ _ _ _ _ _ _ _ _ _ _ _ _ HR HM HA HB Hn Hm Nu Nv D Ha Hf Lf) as (Z & E & SZ & GZ).
  destruct (azimuth_spec _ _ _ _ _ _ _ _ _ _ _ _ _ HR HM HA' HB' Hn Hm
    (fun j Hj => orthogonal_nz _ _ HO (Nu j Hj)) (fun j Hj => orthogonal_nz _ _ HO (Nv j Hj)) D Ha Hf Lf) as (Z' & E' & SZ' & GZ').
  rewrite !orthogonal_norm in E' by auto.
  eexists. exists Z. split; [exact E|]. exists Z'. split; [exact E'|]. split; [exact SZ|]. split; [exact SZ'|].
  intros j Hj. destruct (GZ j Hj) as (t & Ht & At). destruct (GZ' j Hj) as (t' & Ht' & At').
  exists t, t'. split; [exact Ht|]. split; [exact Ht'|]. cbn beta in At, At'.
  assert (Ln : (cl n j < n)%nat) by (eapply cl_lt_r; eauto).
  rewrite !pos_turn, <- mulv_sub in At' by auto.
  set (dl := vsub (pos a f M (v (cl m j)) 0) (pos a f M (u (cl n j)) 0)) in *.
  unfold az_of in *.
  assert (Npd : vcross (north M) (direction (u (cl n j))) <> v0).
  { unfold direction. rewrite vcross_scale_r. intros Z0. apply (Np _ Ln).
    pose proof (vnorm_nz _ (Nu _ Ln)). rewrite <- (vscale_1 (vcross (north M) (u (cl n j)))).
    replace 1 with (vnorm (u (cl n j)) * / vnorm (u (cl n j))) by (field; lra). rewrite <- vscale_vscale, Z0. vring. }
  rewrite orthogonal_direction in At' by auto.
  rewrite NED_turn in At' by auto.
  assert (C0 : forall X y, vdot (c0 (mmul Q X)) (mulv Q y) = vdot (c0 X) y).
  { intros X y. replace (c0 (mmul Q X)) with (mulv Q (c0 X)) by (clear; vring). apply orthogonal_dot; auto. }
  assert (C1 : forall X y, vdot (c1 (mmul Q X)) (mulv Q y) = vdot (c1 X) y).
  { intros X y. replace (c1 (mmul Q X)) with (mulv Q (c1 X)) by (clear; vring). apply orthogonal_dot; auto. }
  rewrite C0, C1 in At'.
  set (ye := vdot (c1 (NED M (direction (u (cl n j))))) dl) in *.
  set (xn := vdot (c0 (NED M (direction (u (cl n j))))) dl) in *.
  destruct (Req_dec (xn * xn + ye * ye) 0) as [Q0|Q0].
  - (* no horizontal component: dl is along the vertical *)
    assert (xn = 0) by nra. assert (ye = 0) by nra. right; right; right.
    pose proof (NED_rotation M HM (direction (u (cl n j))) (direction_unit _ (Nu _ Ln))) as [HF _].
    exists (- vdot (c2 (NED M (direction (u (cl n j))))) dl * / vnorm (u (cl n j))).
    rewrite <- (orthogonal_inv' _ dl HF) at 1. rewrite mulv_cols.
    change (vx (mulv (mT (NED M (direction (u (cl n j))))) dl)) with xn.
    change (vy (mulv (mT (NED M (direction (u (cl n j))))) dl)) with ye.
    change (vz (mulv (mT (NED M (direction (u (cl n j))))) dl)) with (vdot (c2 (NED M (direction (u (cl n j))))) dl).
    rewrite H, H0. generalize (vdot (c2 (NED M (direction (u (cl n j))))) dl). intros s.
    unfold NED at 3. unfold c2. rewrite mT_mT. cbn [r2].
    generalize (c0 (NED M (direction (u (cl n j))))) (c1 (NED M (direction (u (cl n j))))). intros e0 e1.
    unfold direction. generalize (/ vnorm (u (cl n j))) (u (cl n j)). clear. intros i w. vring.
  - assert (P : 0 < sqrt (xn * xn + ye * ye)) by (apply sqrt_lt_R0; nra).
    destruct At as (R1 & X1 & Y1). destruct At' as (R2 & X2 & Y2).
    set (h := sqrt (xn * xn + ye * ye)) in *.
    assert (Ec : cos t = cos t') by (apply Rmult_eq_reg_l with h; [congruence|lra]).
    assert (Es : sin t = sin t') by (apply Rmult_eq_reg_l with h; [congruence|lra]).
    assert (Sd : cos (t - t') = 1).
    { rewrite cos_minus, Ec, Es. pose proof (sin2_cos2 t') as S; unfold Rsqr in S. lra. }
    assert (Sz : sin (t - t') = 0) by (rewrite sin_minus, Ec, Es; ring).
    pose proof PI_RGT_0.
    destruct (Req_dec t t') as [|Nt]; [auto|]. right.
    assert (B1 : - (2 * PI) <= t - t' <= 2 * PI) by lra.
    assert (HH : Rabs (t - t') = 2 * PI).
    { destruct (Rle_dec 0 (t - t')) as [L|L].
      - rewrite Rabs_right by lra. destruct (Req_dec (t - t') (2 * PI)); [auto|exfalso].
        assert (cos (t - t') < 1); [|lra]. destruct (Rle_dec (t - t') PI).
        + rewrite <- cos_0. apply cos_decreasing_1; lra.
        + rewrite <- cos_2PI. apply cos_increasing_1; lra.
      - rewrite Rabs_left by lra. destruct (Req_dec (- (t - t')) (2 * PI)); [auto|exfalso].
        assert (cos (t - t') < 1); [|lra]. rewrite <- cos_neg. destruct (Rle_dec (- (t - t')) PI).
        + rewrite <- cos_0. apply cos_decreasing_1; lra.
        + rewrite <- cos_2PI. apply cos_increasing_1; lra. }
    unfold Rabs in HH. destruct (Rcase_abs (t - t')); [right; left|left]; lra.
Qed.
Print Assumptions C102_azimuth.

(** the direct problem on the sphere *)
Theorem C102_direct_problem : forall Q A A' n u d m1 dl az m2 al R_Ee M k,
  axes R_Ee M -> orthogonal M -> rotation Q -> keeps_poles Q M ->
  cols A n u -> cols A' n (fun j => mulv Q (u j)) ->
  vals d m1 dl -> vals az m2 al -> bdim3 n m1 m2 = Some k ->
  (forall j, (j < n)%nat -> vcross (north M) (u j) <> v0) ->
  exists w, returns (n_EA_E_distance_and_azimuth2n_EB_E A d az R_Ee) [] (fun B => cols B k w) /\
            returns (n_EA_E_distance_and_azimuth2n_EB_E A' d az R_Ee) [] (fun B => cols B k (fun j => mulv Q (w j))).
Proof.
  intros Q A A' n u d m1 dl az m2 al R_Ee M k HR HM HQ HK HA HA' Hd Haz D Np. pose proof HQ as [HO _].
  destruct (direct_spec _ _ _ _ _ _ _ _ _ _ _ _ HR HM HA Hd Haz D) as (B & E & HB).
  destruct (direct_spec _ _ _ _ _ _ _ _ _ _ _ _ HR HM HA' Hd Haz D) as (B' & E' & HB').
  eexists. split; [exists B; split; [exact E|exact HB]|]. exists B'; split; [exact E'|].
  eapply cols_ext; [|exact HB']. intros j Hj. cbn beta.
  assert (Ln : (cl n j < n)%nat).
  { unfold bdim3 in D. destruct (bdim n m1) as [q|] eqn:Q0; [|discriminate].
    assert (Lq : (cl q j < q)%nat) by (eapply cl_lt_l; eauto).
    pose proof (cl_lt_l _ _ _ _ Q0 Lq) as X. apply bdim_inv in Q0 as [[->| ->] _].
    - rewrite (cl_id q (cl q j) Lq) in X. exact X.
    - cbn. lia. }
  unfold dirB.
  assert (EQ : vcross (north M) (mulv Q (u (cl n j))) = mulv Q (vcross (north M) (u (cl n j)))).
  { unfold keeps_poles in HK. rewrite <- HK at 1. rewrite rotation_cross by auto. reflexivity. }
  rewrite EQ, (dir1_nz (mulv Q _)), (dir1_nz (vcross _ _)), orthogonal_direction, rotation_cross by auto using orthogonal_nz.
  rewrite !mulv_add, !mulv_scale, mulv_add, !mulv_scale. reflexivity.
Qed.
Print Assumptions C102_direct_problem.

(** ** shifting the longitudes *)
(** the rotation by the angle [l] about the polar axis *)
Definition spin (M : mat) (l : R) : mat := mmul (mT M) (mmul (Rx l) M).
Lemma spin_rotation M l : rotation M -> rotation (spin M l) /\ keeps_poles (spin M l) M.
Proof.
  intros HM. split.
  - unfold spin. apply rotation_mul; [apply rotation_T; auto|]. apply rotation_mul; [|auto].
    split; unfold Rx, orthogonal, mdet, mmul, mT, mI, vdot, vcross; cbn [r0 r1 r2 vx vy vz];
      pose proof (sin2_cos2 l) as S; unfold Rsqr in S; [repeat f_equal|]; lra.
  - unfold keeps_poles, spin. rewrite <- (rows_e0 M), !mulv_mmul, orthogonal_inv' by (apply HM).
    replace (mulv (Rx l) (V 1 0 0)) with (V 1 0 0); [reflexivity|]. unfold Rx, mulv, vdot; cbn [r0 r1 r2 vx vy vz]. f_equal; ring.
Qed.

(** adding [l] to every longitude turns every n-vector about the polar axis *)
Theorem C102_longitude_shift : forall lat lon lon' R_Ee M n m la lo l,
  axes R_Ee M -> rotation M -> vals lat n la -> vals lon m lo -> vals lon' m (fun j => lo j + l) -> bdim n m = Some n ->
  exists v, returns (lat_lon2n_E lat lon R_Ee) [] (fun A => cols A n v) /\
            returns (lat_lon2n_E lat lon' R_Ee) [] (fun A => cols A n (fun j => mulv (spin M l) (v j))).
Proof.
  intros lat lon lon' R_Ee M n m la lo l HR HM Hla Hlo Hlo' D.
  destruct (lat_lon2n_E_spec _ _ _ _ _ _ _ _ HR Hla Hlo D) as (A & E & HA).
  destruct (lat_lon2n_E_spec _ _ _ _ _ _ _ _ HR Hla Hlo' D) as (A' & E' & HA').
  eexists. split; [exists A; split; [exact E|exact HA]|]. exists A'; split; [exact E'|].
  eapply cols_ext; [|exact HA']. intros j Hj. cbn beta. unfold spin. rewrite !mulv_mmul, orthogonal_inv' by (apply HM).
  f_equal. unfold nvec_int, Rx, mulv, vdot; cbn [r0 r1 r2 vx vy vz]. rewrite sin_plus, cos_plus. f_equal; ring.
Qed.
Print Assumptions C102_longitude_shift.

(** two points on the same meridian shifted by 1 radian; the shift moves them *)
Example C102_example : rotation (spin Me 1) /\ keeps_poles (spin Me 1) Me /\
  vcross (north Me) (V (3/5) 0 (4/5)) <> v0 /\ mulv (spin Me 1) (V 1 0 0) = V (cos 1) (sin 1) 0.
Proof.
  assert (HM : rotation Me).
  { split; [unfold orthogonal|]; unfold Me, mmul, mT, mdet, mI, vdot, vcross; cbn [vx vy vz r0 r1 r2]; [f_equal; f_equal; ring|ring]. }
  destruct (spin_rotation Me 1 HM) as [A B]. split; [exact A|]. split; [exact B|]. split.
  - unfold vcross, north, Me; cbn [r0 vx vy vz]. intros [=]; lra.
  - unfold spin, Rx, Me, mulv, mmul, mT, vdot; cbn [r0 r1 r2 vx vy vz]. f_equal; ring.
Qed.
