(** * C07 for every flattening: the round trip is exact wherever normal and depth are determined by the position *)
From Coq Require Import String List Arith Lia Bool Reals Lra.
From Verif Require Import Num Py Nd MUtil MRotation MCore MObjects Spec SpecArr SpecObj LNum LTrig LVec LArr LLatLon LMat LRot
  LAngle PUtil LEq LVerm LEcef PEcef PRot PFrame PEq LObj PEq2 LDirect LObj2.
Import ListNotations.
Local Open Scope R_scope.

Section Recover.
Variables (a f z : R) (w : vec).
Hypothesis Pa : 0 < a.
Hypothesis Rf : 0 <= f < 1.
Hypothesis U : vdot w w = 1.
Hypothesis Hz : z < cc a f w.
Let e := ecc2 f.
Let c := cc a f w.
Let k := (c - z) * (1 - e) / c.
Let q := pint a f w z.

Lemma re2_c : 0 < c.
Proof. apply cc_pos; auto; [lra|]. apply vnorm_inv, vnorm_unit; auto. Qed.
Lemma re2_e : 0 <= e < 1. Proof. apply ecc2_range; auto. Qed.
Lemma re2_k : 0 < k.
Proof.
  pose proof re2_c. pose proof re2_e. unfold k, c in *. apply Rmult_lt_0_compat; [apply Rmult_lt_0_compat; lra|apply Rinv_0_lt_compat; auto].
Qed.
Lemma re2_q : q = V ((c - z) * vx w) ((c - z) * (k + e) / k * vy w) ((c - z) * (k + e) / k * vz w).
Proof.
  pose proof re2_c. pose proof re2_e. pose proof re2_k. assert (0 < c - z) by (unfold c; lra).
  unfold q, pint, psurf. fold c. rewrite <- ecc2_1f. fold e. unfold vsub, vscale; cbn [vx vy vz].
  assert (X : (c - z) * (k + e) / k = c / (1 - e) - z).
  { unfold k. field. repeat split; try lra; try (apply Rgt_not_eq; nra). }
  rewrite X. f_equal; field; lra.
Qed.
Lemma re2_quartic : rho2 q / (a * a) * k ^ 2 + (1 - e) * (vx q * vx q) / (a * a) * (k + e) ^ 2
      = k ^ 2 * (k + e) ^ 2.
Proof.
  pose proof re2_c. pose proof re2_e. pose proof re2_k. assert (0 < c - z) by (unfold c; lra).
  pose proof (cc_sq a f w Pa ltac:(lra) U) as C2. fold e c in C2.
  rewrite re2_q. unfold rho2 in *; cbn [vx vy vz].
  assert (X : (c - z) = k * c / (1 - e)) by (unfold k; field; lra).
  rewrite X.
  transitivity (c * c * (vy w * vy w + vz w * vz w + (1 - e) * (vx w * vx w)) * k ^ 2 * (k + e) ^ 2 / (a * a * ((1 - e) * (1 - e)))).
  - field. lra.
  - rewrite C2. field. lra.
Qed.
Lemma re2_unique w' z' : geod a f q w' z' -> w' = w /\ z' = z.
Proof.
  pose proof re2_c. pose proof re2_e. pose proof re2_k. assert (Hh : 0 < c - z) by (unfold c; lra).
  intros (k' & T & Pk & PT & Ek & ET & Ew & Ed). fold e in Ek, ET, Ew, Ed.
  assert (PQ0 : 0 <= (1 - e) * (vx q * vx q) / (a * a)).
  { apply Rmult_le_pos; [nra|]. left; apply Rinv_0_lt_compat; nra. }
  assert (PP0 : 0 <= rho2 q / (a * a)).
  { apply Rmult_le_pos; [apply rho2_pos|]. left; apply Rinv_0_lt_compat; nra. }
  assert (k' = k).
  { apply (quartic_unique e (rho2 q / (a * a)) ((1 - e) * (vx q * vx q) / (a * a))); auto; try lra.
    apply re2_quartic. }
  subst k'. rewrite re2_q in *. unfold rho2 in ET; cbn [vx vy vz] in *.
  assert (TT : T * T = (c - z) * (c - z)).
  { rewrite ET. transitivity ((c - z) * (c - z) * vdot w w); [unfold vdot; field; lra|rewrite U; ring]. }
  assert (ETc : T = c - z) by nra.
  split.
  - rewrite Ew, ETc. destruct w as [w0 w1 w2]; cbn [vx vy vz]. f_equal; field; lra.
  - rewrite Ed, ETc. unfold k. field. repeat split; try lra; try (apply Rgt_not_eq; nra).
Qed.
End Recover.

(** the depth at which the normal reaches the plane of the equator: N (1 - e^2), N = a / sqrt (1 - e^2 sin^2 latitude) *)
Definition equator_depth (a f : R) (M : mat) (u : vec) : R :=
  a * (1 - ecc2 f) / sqrt (1 - ecc2 f * (polar (north M) (direction u)) ^ 2).

Lemma cc_equator a f M u : orthogonal M -> 0 < a -> 0 <= f < 1 -> u <> v0 ->
  cc a f (mulv M (direction u)) = equator_depth a f M u.
Proof.
  intros HM Pa Rf Hu. unfold equator_depth. rewrite polar_int by auto. set (w := mulv M (direction u)).
  assert (U : vdot w w = 1). { apply vnorm_unit. unfold w. rewrite orthogonal_norm by auto. apply direction_unit; auto. }
  pose proof (cc_sq a f w Pa ltac:(lra) U) as C2.
  assert (Hw : w <> v0) by (apply vnorm_inv, vnorm_unit; auto).
  pose proof (cc_pos a f w Pa ltac:(lra) Hw) as Cp. pose proof (ecc2_range f Rf) as Re. set (e := ecc2 f) in *. set (c := cc a f w) in *.
  assert (Q : rho2 w + (1 - e) * (vx w * vx w) = 1 - e * vx w ^ 2).
  { transitivity (vdot w w - e * vx w ^ 2); [unfold vdot, rho2; ring|rewrite U; ring]. }
  rewrite Q in C2. 
  assert (W : 0 <= vx w ^ 2 <= 1). { pose proof (rho2_pos w). replace (vx w ^ 2) with (vdot w w - rho2 w) by (unfold vdot, rho2; ring). rewrite U. split; [|lra].
    replace (1 - rho2 w) with (vx w ^ 2); [apply pow2_ge_0|]. rewrite <- U. unfold vdot, rho2; ring. }
  assert (D : 0 < 1 - e * vx w ^ 2) by nra.
  pose proof (sqrt_lt_R0 _ D) as Sp. pose proof (sqrt_sqrt _ (Rlt_le _ _ D)) as Ss. set (s := sqrt (1 - e * vx w ^ 2)) in *.
  assert (E : c * s = a * (1 - e)).
  { apply Rsqr_inj; try nra. unfold Rsqr. rewrite <- Ss in C2. nra. }
  rewrite <- E. field. lra.
Qed.

(** Any flattening 0 <= f < 1, any unit or non-unit normals and any depths or heights: the round trip is exact wherever the
    position is clear of the core and the normal has not crossed the plane of the equator. *)
Theorem C07_any_flattening : forall N n u depth m k z xa xf a f R_Ee M,
  axes R_Ee M -> orthogonal M -> cols N n u -> (0 < n)%nat ->
  (forall j, (j < n)%nat -> u j <> v0) -> vals depth m z -> bdim n m = Some k ->
  xa ≈ a -> xf ≈ f -> 0 < a -> 0 <= f < 1 ->
  (forall j p, (j < k)%nat -> at_depth a f M (u (cl n j)) (z (cl m j)) p -> clear_of_core a f M p) ->
  (forall j, (j < k)%nat -> z (cl m j) < equator_depth a f M (u (cl n j))) ->
  returns (P <- n_EB_E2p_EB_E N depth xa xf R_Ee ;; p_EB_E2n_EB_E P xa xf R_Ee)%py
    (length_warning (vnorm (u 0%nat))) (fun out =>
    cols (fst out) k (fun j => direction (u (cl n j))) /\ list1 (snd out) k (fun j => z (cl m j))).
Proof.
  intros N n u depth m k z xa xf a f R_Ee M HR HM HN Hn Hu Hz D Ha Hf Pa Rf O1 O2.
  destruct (n2p_spec _ _ _ _ _ _ _ _ _ _ _ _ _ HR HM HN Hn Hu Hz D Ha Hf (proj2 Rf)) as (P & E & HP).
  rewrite E, bind_inl.
  set (w := fun j => mulv M (direction (u (cl n j)))).
  assert (Hu' : forall j, (j < k)%nat -> u (cl n j) <> v0). { intros j Hj. apply Hu. eapply cl_lt_l; eauto. }
  assert (U : forall j, (j < k)%nat -> vdot (w j) (w j) = 1).
  { intros j Hj. apply vnorm_unit. unfold w. rewrite orthogonal_norm by auto. apply direction_unit; auto. }
  destruct (p2n_spec P k _ xa xf a f R_Ee M HR HM HP Ha Hf Pa Rf) as (N' & dep & w' & z' & E' & HN' & Hd' & G).
  { intros j Hj. pose proof (O1 j _ Hj (at_depth_pos a f M _ _ HM Pa (proj2 Rf) (Hu' j Hj))) as O.
    unfold clear_of_core in O. cbv zeta in O. rewrite equatorial_int, polar_int in O by auto.
    assert (X2 : forall t, t ^ 2 = t * t) by (intros; ring). rewrite !X2 in O. exact O. }
  rewrite E'. exists (N', dep). split; [cbn; rewrite app_nil_r; reflexivity|]. cbn [fst snd].
  assert (R : forall j, (j < k)%nat -> w' j = w j /\ z' j = z (cl m j)).
  { intros j Hj. specialize (G j Hj). rewrite orthogonal_inv' in G by auto.
    apply (re2_unique a f (z (cl m j)) (w j) Pa Rf (U j Hj)); auto. unfold w. rewrite cc_equator by auto. apply O2; auto. }
  split.
  - eapply cols_ext; [|apply HN']. intros j Hj. cbn beta. destruct (R j Hj) as [-> _].
    unfold w. apply orthogonal_inv; auto.
  - eapply list1_ext; [|apply Hd']. intros j Hj. apply R; auto.
Qed.
Print Assumptions C07_any_flattening.

(** a very flat ellipsoid (f = 3/4), at height a above the equator *)
Example C07_any_flattening_example : let f := 3 / 4 in let u := V 2 0 0 in
  0 <= f < 1 /\ ~ ecc2 f <= 1 / 2 /\ cols (col3 (Fin 2) (Fin 0) (Fin 0)) 1 (fun _ => u) /\ u <> v0 /\
  (forall p, at_depth 1 f Me u (-1) p -> clear_of_core 1 f Me p) /\ -1 < equator_depth 1 f Me u.
Proof.
  cbv zeta. assert (Rf : 0 <= 3 / 4 < 1) by lra. assert (Hu : V 2 0 0 <> v0) by (intros [=]; lra).
  assert (HM : orthogonal Me) by (unfold orthogonal, Me; vring).
  assert (Dn : direction (V 2 0 0) = V 1 0 0).
  { replace (V 2 0 0) with (vscale 2 (V 1 0 0)) by (unfold vscale; cbn; f_equal; lra).
    rewrite direction_scale; [|lra|intros [=]; lra]. apply direction_of_unit, vnorm_unit. unfold vdot; cbn; lra. }
  split; auto. split; [unfold ecc2; lra|]. split; [apply col3_cols|]. split; auto. split.
  - intros p Hp. assert (Ep : p = V 2 0 0).
    { apply (at_depth_unique 1 (3/4) Me (V 2 0 0) (-1)); auto; try lra.
      exists (V 1 0 0). split; [|split].
      - unfold on_ellipsoid, equatorial, polar, north, Me, vdot, vsub, vscale; cbn [vx vy vz r0]. field.
      - exists (/ 2). split; [lra|]. unfold ellipsoid_gradient, equatorial, polar, north, Me, vdot, vsub, vadd, vscale; cbn [vx vy vz r0]. f_equal; field.
      - rewrite Dn. unfold vsub, vscale; cbn [vx vy vz]. f_equal; lra. }
    subst p. unfold clear_of_core, equatorial, polar, north, Me, vdot, vsub, vscale, ecc2; cbn [vx vy vz r0]. lra.
  - unfold equator_depth. rewrite Dn. apply Rlt_trans with 0; [lra|]. apply Rmult_lt_0_compat; [unfold ecc2; lra|].
    apply Rinv_0_lt_compat, sqrt_lt_R0. unfold polar, north, Me, vdot, ecc2; cbn [vx vy vz r0]. lra.
Qed.
