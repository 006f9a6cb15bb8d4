(** * Lemmas on normals, azimuths and the great circle methods of GeoPoint *)
From Coq Require Import String List Arith Lia Bool Reals Lra ZArith.
From Verif Require Import Num Py Nd MUtil MRotation MCore MObjects Spec SpecArr SpecObj SpecGeo LNum LTrig LVec LArr LLatLon LMat LRot
  LAngle PUtil LEq LEcef PEcef PRot PFrame PEq LObj PEq2 LDirect LObj2 PObj PObj2 POps.
Import ListNotations.
Local Open Scope R_scope.

Ltac bcases := unfold bdim, cl in *; repeat match goal with
  | H : context [Nat.eqb ?a ?b] |- _ => destruct (Nat.eqb_spec a b); subst
  | |- context [Nat.eqb ?a ?b] => destruct (Nat.eqb_spec a b); subst
  end; try congruence; try lia.
Lemma cl_bdim n m k j : bdim n m = Some k -> cl n (cl k j) = cl n j /\ cl m (cl k j) = cl m j.
Proof. intros D. split; bcases. Qed.
Lemma bdim_absorb n m k : bdim n m = Some k -> bdim k n = Some k /\ bdim k m = Some k /\ bdim n k = Some k /\ bdim m k = Some k.
Proof. intros D. split; [|split; [|split]]; bcases. Qed.
Lemma bdim3_absorb n m l k : bdim3 n m l = Some k -> bdim k n = Some k /\ bdim k m = Some k /\ bdim k l = Some k.
Proof.
  unfold bdim3. destruct (bdim n m) as [d|] eqn:D; [|discriminate]. intros D2. split; [|split]; bcases.
Qed.

(** ** a position determines normal and depth *)
Section pos.
Variables (a f : R) (M : mat) (up : vec) (z : R).
Hypotheses (El : ellipsoid a f) (E2 : ecc2 f <= 1 / 2) (HM : orthogonal M) (U : vnorm up = 1) (Z : shallow a f z).
Let w := mulv M up.
Let Q : mulv M (pos a f M up z) = pint a f w z.
Proof. unfold pos. rewrite orthogonal_inv' by auto. rewrite direction_of_unit by auto. reflexivity. Qed.
Let Uw : vdot w w = 1.
Proof. unfold w. rewrite orthogonal_dot by auto. apply vnorm_unit; auto. Qed.
Let K : ecc2 f < (cc a f w - z) * (1 - ecc2 f) / cc a f w.
Proof. destruct El as (P & F). apply deep_k; auto. split; auto. Qed.
Lemma shallow_clear : clear_of_core a f M (pos a f M up z).
Proof.
  destruct El as (P & F). unfold clear_of_core. cbv zeta. rewrite equatorial_int, polar_int, Q by auto.
  pose proof (rec_outside a f z w P F Uw K) as O. unfold outside in O.
  assert (X2 : forall t, t ^ 2 = t * t) by (intros; ring). rewrite !X2. exact O.
Qed.
Lemma shallow_unique u' z' : geod a f (mulv M (pos a f M up z)) (mulv M u') z' -> u' = up /\ z' = z.
Proof.
  intros G. rewrite Q in G. destruct El as (P & F).
  destruct (rec_unique a f z w P F Uw K _ _ G) as [Y1 Y2]. split; auto.
  rewrite <- (orthogonal_inv M u'), Y1 by auto. unfold w. apply orthogonal_inv; auto.
Qed.
Lemma shallow_nz : pos a f M up z <> v0.
Proof.
  intros E. pose proof shallow_clear as C. rewrite E in C. unfold clear_of_core, equatorial, polar, v0, vdot, vsub, vscale in C. 
  cbn [vx vy vz] in C. destruct El as (P & F). pose proof (ecc2_range f F).
  assert (0 <= (ecc2 f) ^ 2 * a ^ 2) by (apply Rmult_le_pos; apply pow2_ge_0). nra.
Qed.
End pos.

Lemma placed_point pt n p up a f M : placed pt n p up a f M -> is_point pt n p a f M.
Proof.
  destruct pt; cbn [placed is_point]; auto.
  - intros (la & lo & z & H & C). exists la, lo, z. split; auto. intros j Hj. destruct (C j Hj) as (_ & E & D). rewrite <- E. exact D.
  - intros (u & z & H & C). exists u, z. split; auto. intros j Hj. destruct (C j Hj) as (_ & E & s & S1 & S2 & S3).
    assert (Nz : u j <> v0) by (apply H; auto). exists s. split; auto. rewrite E in S2, S3. split.
    + eapply same_direction_trans; [exact S2|apply direction_same; auto].
    + rewrite S3. rewrite (direction_of_unit (direction (u j))) by (apply direction_unit; auto). reflexivity.
  - intros [H _]. exact H.
Qed.
Lemma placed_frame pt n p up a f M : placed pt n p up a f M -> orthogonal M /\ rotation M /\ (0 < n)%nat.
Proof.
  destruct pt; cbn [placed].
  - intros (la & lo & z & (Hn & _ & _ & _ & _ & _ & H) & _). split; [eapply frame_orth; eauto|split; auto; eapply frame_rot; eauto].
  - intros (u & z & (Hn & _ & _ & _ & H) & _). split; [eapply frame_orth; eauto|split; auto; eapply frame_rot; eauto].
  - intros ((Hn & _ & H & _) & _). split; [eapply frame_orth; eauto|split; auto; eapply frame_rot; eauto].
  - intros [].
Qed.

Lemma to_nvector_placed pt n p up a f M : placed pt n p up a f M -> ellipsoid a f -> ecc2 f <= 1 / 2 ->
  exists ws v u z, to_nvector pt = (ws, inl v) /\ is_nv v n u z a f M /\
    (forall j, (j < n)%nat -> direction (u j) = up j /\ vnorm (up j) = 1 /\ shallow a f (z j) /\ p j = pos a f M (up j) (z j)) /\
    (ndim (n_z v) =? 0)%nat = is_scalar_point pt.
Proof.
  intros H El E2. pose proof El as (Pa & F0 & F1). destruct (placed_frame _ _ _ _ _ _ _ H) as (HM & _ & _).
  destruct pt as [g|v|e|]; cbn [placed to_nvector] in *; [| | |destruct H].
  - destruct H as (la & lo & z & H & C). destruct (geo_to_nvector_spec _ _ _ _ _ _ _ _ H) as (v & E & Hv & Ez & Ef).
    exists [], v. do 2 eexists. split; [exact E|]. split; [exact Hv|]. split; [|rewrite Ez; reflexivity]. intros j Hj. cbn beta. destruct (C j Hj) as (S & -> & D).
    assert (U : vnorm (normal_at M (la j) (lo j)) = 1) by (apply normal_at_unit; auto).
    rewrite direction_of_unit by auto. split; auto. split; auto. split; auto. apply at_depth_eq; auto. apply vnorm_inv; auto.
  - destruct H as (u & z & H & C). exists [], v, u, z. split; [reflexivity|]. split; auto. split; [|reflexivity]. intros j Hj. destruct (C j Hj) as (S & -> & D).
    assert (Nz : u j <> v0) by (apply H; auto). pose proof (direction_unit _ Nz).
    split; auto. split; auto. split; auto. apply at_depth_eq; auto. apply vnorm_inv; auto.
  - destruct H as (H & C).
    assert (C' : forall j, (j < n)%nat -> vnorm (up j) = 1 /\ exists z, shallow a f z /\ p j = pos a f M (up j) z).
    { intros j Hj. destruct (C j Hj) as (U & z & S & D). split; auto. exists z. split; auto. apply at_depth_eq; auto. apply vnorm_inv; auto. }
    destruct (ecef_to_nvector_spec e n p a f M H El) as (v & u & z' & Ev & Hv & Fv & G & Dv).
    { intros j Hj. destruct (C' j Hj) as (U & z & S & ->). apply shallow_clear; auto. }
    exists [], v, u, z'. split; [exact Ev|]. split; auto. split; [|rewrite Dv; cbn [is_scalar_point]; destruct (e_scalar e); reflexivity]. intros j Hj. destruct (C' j Hj) as (U & z & S & Ep). destruct (G j Hj) as (G1 & G2 & G3).
    rewrite Ep in G3. apply shallow_unique in G3; auto. destruct G3 as [-> ->]. rewrite direction_of_unit by auto. auto.
Qed.

(** ** azimuths *)
Lemma az_heads M up d t : rotation M -> not_polar M up -> az_of M up d t -> heads M up d t.
Proof.
  intros HM NP (_ & A & B). unfold heads, north_at, east_at.
  assert (E : eastv M up = direction (vcross (north M) up)).
  { unfold eastv. destruct (Req_EM_T (vnorm (vcross (north M) up)) 0) as [Q|Q]; auto. apply vnorm_0 in Q. contradiction. }
  unfold NED, c0, c1 in A, B. rewrite mT_mT in A, B. cbn [r0 r1] in A, B. rewrite E in A, B.
  rewrite vcross_neg_r, <- vcross_anti in A, B.
  cbv zeta. assert (X2 : forall t, t ^ 2 = t * t) by (intros; ring). rewrite !X2. split; assumption.
Qed.
Lemma heads_reverse M up d t : heads M up d t -> heads M up (vneg d) (t - PI).
Proof.
  unfold heads. cbv zeta. rewrite !vdot_neg_r. intros [A B].
  replace ((- vdot (north_at M up) d) ^ 2 + (- vdot (east_at M up) d) ^ 2) with (vdot (north_at M up) d ^ 2 + vdot (east_at M up) d ^ 2) by ring.
  rewrite cos_minus, sin_minus, cos_PI, sin_PI. split; [rewrite A at 1|rewrite B at 1]; ring.
Qed.
Lemma heads_period M up d t (k : Z) : heads M up d t -> heads M up d (t + 2 * PI * IZR k).
Proof.
  intros H. assert (P : forall n x, cos (x + 2 * INR n * PI) = cos x /\ sin (x + 2 * INR n * PI) = sin x) by (intros; split; [apply cos_period|apply sin_period]).
  unfold heads in *. cbv zeta in *.
  assert (Q : cos (t + 2 * PI * IZR k) = cos t /\ sin (t + 2 * PI * IZR k) = sin t).
  { destruct (Z_le_gt_dec 0 k) as [L|L].
    - replace (t + 2 * PI * IZR k) with (t + 2 * INR (Z.to_nat k) * PI) by (rewrite INR_IZR_INZ, Z2Nat.id by lia; ring). apply P.
    - assert (X : t = (t + 2 * PI * IZR k) + 2 * INR (Z.to_nat (- k)) * PI) by (rewrite INR_IZR_INZ, Z2Nat.id, opp_IZR by lia; ring).
      destruct (P (Z.to_nat (- k)) (t + 2 * PI * IZR k)) as [P1 P2]. rewrite <- X in P1, P2. auto. }
  destruct Q as [-> ->]. exact H.
Qed.

Lemma holds_vals x sc n r : (sc = true -> n = 1%nat) -> holds x sc n r -> vals x n r.
Proof. unfold holds, vals. destruct sc; auto. Qed.

Lemma delta_N_azimuth A B n m k p q up a f M : ellipsoid a f -> ecc2 f <= 1 / 2 ->
  placed A n p up a f M -> is_point B m q a f M -> bdim m n = Some k ->
  exists ws v az t, delta_N A B = (ws, inl v) /\ azimuth_ (p_p v) (p_scalar v) = ret az /\ vals az k t /\ shape az = (if p_scalar v then [] else [k]) /\
    (forall j, (j < k)%nat -> - PI <= t j <= PI /\ az_of M (up (cl n j)) (vsub (q (cl m j)) (p (cl n j))) (t j)).
Proof.
  intros El E2 HA HB D. destruct (to_nvector_placed _ _ _ _ _ _ _ HA El E2) as (wv & v & u & z & Ev & Hv & C & _).
  destruct (delta_E_spec _ _ _ _ _ _ _ _ _ _ El (placed_point _ _ _ _ _ _ _ HA) HB D) as (we & e & Ee & He).
  pose proof (nv_z0 _ _ _ _ _ _ _ Hv) as Hv0.
  destruct (R_EN_N _ _ _ _ _ _ _ Hv0) as (wr & R & ER & HR). pose proof Hv0 as (Hn & _ & Nz & _ & HL).
  destruct (change_frame_spec e (LocalN (MkNv (n_normal v) z0 (n_frame v))) k n k _ _ wr R a f M He HL ER HR (bdim_absorb_r _ _ _ D) Hn) as (pv & E & Hc & Ef & Es).
  assert (SC : p_scalar pv = true -> k = 1%nat) by (rewrite Es; apply He).
  destruct (azimuth_prop_spec _ _ _ _ SC Hc) as (az & t & Ea & Ha & G).
  exists (we ++ wv ++ wr), pv, az, t.
  split. { unfold delta_N, FrameN, Nvector, default_frame. rewrite Ee, bind_inl, Ev, bind_inl, !bind_ret. cbn [fst snd bind ret app]. rewrite E. cbn [fst snd].
    rewrite app_nil_r. reflexivity. }
  split; [exact Ea|]. split; [eapply holds_vals; eauto|]. split; [unfold holds in Ha; destruct (p_scalar pv); apply Ha|]. intros j Hj. pose proof (G j Hj) as Gj. split; [apply Gj|].
  unfold az_of. assert (Hc' : (cl n j < n)%nat) by (eapply cl_lt_r; eauto).
  destruct (C _ Hc') as (<- & _). unfold c0, c1. set (N := NED M (direction (u (cl n j)))) in *.
  rewrite (cl_cl m n k j D Hj) in Gj.
  assert (CC : cl n (cl k j) = cl n j). { apply (cl_cl n k k j); auto. eapply bdim_absorb_r; eauto. }
  rewrite CC in Gj. exact Gj.
Qed.
