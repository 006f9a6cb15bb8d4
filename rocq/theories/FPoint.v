(** * C98: the point of a great circle closest to a position, and the crossing of two great circles, in binary64 *)
From Coq Require Import ZArith Reals Lra Lia Bool Psatz.
From Flocq Require Import Core BinarySingleNaN Relative.
From Verif Require Import Spec LVec LAngle LCircle FTiny FZero FBase FRel FRel2 FUnit FPi FAngle FDist FGreat FTrack FLatLon FInv FEcef FEcef2 FNed FNed2 FNed3 FDelta FDelta2 FDelta3 FMove FWay FWay2 FWay3 FWay4 FInterp.
Local Open Scope R_scope.

(** np.sign *)
Definition fsign (x : float64) : float64 :=
  match Bcompare x fzero with Some Lt => fneg fone | Some Gt => fone | Some Eq => fzero | None => x end.
(** closest_point_on_great_circle, core.py 669-674, one path and one position *)
Definition fclosest (dot : vec64 -> vec64 -> float64) (a b q : vec64) : vec64 :=
  let c_E := fnormal a b in
  let n := unit64 (fcross c_E (fcross q c_E)) in
  fscalev (fsign (dot n q)) n.
(** intersect, core.py 489-500, one pair of paths *)
Definition fintersect (dot : vec64 -> vec64 -> float64) (a1 a2 b1 b2 : vec64) : vec64 :=
  let n := unit64 (fcross (fcross a1 a2) (fcross b1 b2)) in
  fscalev (fsign (dot n a1)) n.

(** ** cross products of inexact vectors *)
Lemma cs_perm1 a b c x y z : a * y + b * z + c * x <= sqrt (a * a + b * b + c * c) * sqrt (x * x + y * y + z * z).
Proof.
  pose proof (cauchy_schwarz (V a b c) (V y z x)) as C. pose proof (Rle_abs (vdot (V a b c) (V y z x))) as A.
  unfold vnorm, vdot in C, A; cbn [Spec.vx Spec.vy Spec.vz] in C, A. replace (y * y + z * z + x * x) with (x * x + y * y + z * z) in C by ring. lra.
Qed.
Lemma cross_any a b : finite_vec a -> finite_vec b -> vnorm (vec_of a) <= 2 -> vnorm (vec_of b) <= 2 ->
  finite_vec (fcross a b) /\ vnorm (vsub (vec_of (fcross a b)) (vcross (vec_of a) (vec_of b))) <= 4001 / 1000 * u * (vnorm (vec_of a) * vnorm (vec_of b)) + 9 * eta.
Proof.
  destruct a as [[a0 a1] a2], b as [[b0 b1] b2]. intros (Fa0 & Fa1 & Fa2) (Fb0 & Fb1 & Fb2) Na Nb. pose proof u_pos as Pu. pose proof u_tiny as Su.
  destruct (comp_le_vnorm (vec_of (a0, a1, a2))) as (A0 & A1 & A2). destruct (comp_le_vnorm (vec_of (b0, b1, b2))) as (B0 & B1 & B2).
  unfold vec_of in A0, A1, A2, B0, B1, B2; cbn [Spec.vx Spec.vy Spec.vz] in A0, A1, A2, B0, B1, B2. fold (vec_of (a0, a1, a2)) in A0, A1, A2. fold (vec_of (b0, b1, b2)) in B0, B1, B2.
  change (V (B2R a0) (B2R a1) (B2R a2)) with (vec_of (a0, a1, a2)) in A0, A1, A2. change (V (B2R b0) (B2R b1) (B2R b2)) with (vec_of (b0, b1, b2)) in B0, B1, B2.
  destruct (comp_err a1 b2 a2 b1) as (Fx & Dx); auto; try lra. destruct (comp_err a2 b0 a0 b2) as (Fy & Dy); auto; try lra. destruct (comp_err a0 b1 a1 b0) as (Fz & Dz); auto; try lra.
  unfold fcross. split; [unfold finite_vec; auto|]. eapply Rle_trans; [apply norm_sum3|]. unfold vec_of, vsub, vcross; cbn [Spec.vx Spec.vy Spec.vz].
  pose proof (cs_perm1 (Rabs (B2R a0)) (Rabs (B2R a1)) (Rabs (B2R a2)) (Rabs (B2R b0)) (Rabs (B2R b1)) (Rabs (B2R b2))) as P1.
  pose proof (cs_perm1 (Rabs (B2R a1)) (Rabs (B2R a0)) (Rabs (B2R a2)) (Rabs (B2R b1)) (Rabs (B2R b0)) (Rabs (B2R b2))) as P2.
  assert (Q : forall w, Rabs w * Rabs w = w * w). { intros w. rewrite <- Rabs_mult. apply Rabs_right. nra. } rewrite !Q in P1, P2.
  replace (B2R a1 * B2R a1 + B2R a0 * B2R a0 + B2R a2 * B2R a2) with (B2R a0 * B2R a0 + B2R a1 * B2R a1 + B2R a2 * B2R a2) in P2 by ring.
  replace (B2R b1 * B2R b1 + B2R b0 * B2R b0 + B2R b2 * B2R b2) with (B2R b0 * B2R b0 + B2R b1 * B2R b1 + B2R b2 * B2R b2) in P2 by ring.
  unfold vnorm, vdot; cbn [Spec.vx Spec.vy Spec.vz]. set (p := sqrt _ * sqrt _) in *.
  assert (PP : 0 <= p) by (unfold p; apply Rmult_le_pos; apply sqrt_pos).
  set (N := Rabs (B2R a1) * Rabs (B2R b2) + Rabs (B2R a2) * Rabs (B2R b1) + (Rabs (B2R a2) * Rabs (B2R b0) + Rabs (B2R a0) * Rabs (B2R b2)) + (Rabs (B2R a0) * Rabs (B2R b1) + Rabs (B2R a1) * Rabs (B2R b0))).
  assert (HN : N <= 2 * p) by (unfold N; lra).
  assert (K : (2 * u + 2 * (u * u)) * N <= (2 * u + 2 * (u * u)) * (2 * p)) by (apply Rmult_le_compat_l; [nra|exact HN]).
  apply Rle_trans with ((2 * u + 2 * (u * u)) * N + 9 * eta); [unfold N; lra|]. apply Rplus_le_compat_r. eapply Rle_trans; [exact K|].
  assert (0 <= u * p) by (apply Rmult_le_pos; lra). assert (u * (u * p) <= / 10000 * (u * p)) by (apply Rmult_le_compat_r; [apply Rmult_le_pos; lra|lra]). lra.
Qed.

Lemma vcross_le p q : vnorm (vcross p q) <= vnorm p * vnorm q.
Proof.
  pose proof (vcross_norm_sq p q) as E. pose proof (vnorm_pos p). pose proof (vnorm_pos q). pose proof (vnorm_pos (vcross p q)).
  assert (0 <= vnorm p * vnorm q) by (apply Rmult_le_pos; auto). assert (0 <= vdot p q * vdot p q) by nra. nra.
Qed.
Lemma cross_diff p q P Q : vsub (vcross p q) (vcross P Q) = vadd (vcross (vsub p P) q) (vcross P (vsub q Q)). Proof. vring. Qed.
(** the rounded cross product of p within d of P and q within e of Q *)
Lemma cross_inexact p q P Q d e : finite_vec p -> finite_vec q -> vnorm (vec_of p) <= 2 -> vnorm (vec_of q) <= 2 ->
  vnorm (vsub (vec_of p) P) <= d -> vnorm (vsub (vec_of q) Q) <= e ->
  finite_vec (fcross p q) /\ vnorm (vsub (vec_of (fcross p q)) (vcross P Q)) <= 4001 / 1000 * u * (vnorm (vec_of p) * vnorm (vec_of q)) + 9 * eta + d * vnorm (vec_of q) + vnorm P * e.
Proof.
  intros Fp Fq Np Nq Hd He. destruct (cross_any p q Fp Fq Np Nq) as (F & E). split; auto.
  rewrite (sub_via _ _ (vcross (vec_of p) (vec_of q))). eapply Rle_trans; [apply norm_triangle|].
  assert (K : vnorm (vsub (vcross (vec_of p) (vec_of q)) (vcross P Q)) <= d * vnorm (vec_of q) + vnorm P * e).
  { rewrite cross_diff. eapply Rle_trans; [apply norm_triangle|]. apply Rplus_le_compat; (eapply Rle_trans; [apply vcross_le|]).
    - apply Rmult_le_compat_r; [apply vnorm_pos|auto]. - apply Rmult_le_compat_l; [apply vnorm_pos|auto]. }
  lra.
Qed.

(** ** the sign *)
Lemma fsign_pos x : is_finite x = true -> 0 < B2R x -> fsign x = fone.
Proof. intros F P. unfold fsign. rewrite Bcompare_correct by auto. change (B2R fzero) with 0. rewrite Rcompare_Gt by auto. reflexivity. Qed.
Lemma fsign_neg x : is_finite x = true -> B2R x < 0 -> fsign x = fneg fone.
Proof. intros F P. unfold fsign. rewrite Bcompare_correct by auto. change (B2R fzero) with 0. rewrite Rcompare_Lt by auto. reflexivity. Qed.
Lemma signed o s n : is_finite o = true -> B2R o = s -> s = 1 \/ s = -1 -> near_unit n -> near_unit (fscalev o n) /\ vec_of (fscalev o n) = vscale s (vec_of n).
Proof.
  intros Fo Eo Hs Hn. destruct n as [[x y] z]. destruct (near_unit_len _ Hn) as ((Fx & Fy & Fz) & L). pose proof u_pos as Pu. pose proof u_tiny as Su.
  destruct (comp_le_vnorm (vec_of (x, y, z))) as (Cx & Cy & Cz). change (Spec.vx (vec_of (x, y, z))) with (B2R x) in Cx. change (Spec.vy (vec_of (x, y, z))) with (B2R y) in Cy. change (Spec.vz (vec_of (x, y, z))) with (B2R z) in Cz.
  assert (B : 2 <= bpow radix2 1000) by (change 2 with (bpow radix2 1); apply bpow_le; lia).
  destruct (mul_one_l o x s Fo Eo Hs Fx ltac:(lra)) as (Gx & Ex). destruct (mul_one_l o y s Fo Eo Hs Fy ltac:(lra)) as (Gy & Ey). destruct (mul_one_l o z s Fo Eo Hs Fz ltac:(lra)) as (Gz & Ez).
  assert (EV : vec_of (fscalev o (x, y, z)) = vscale s (vec_of (x, y, z))). { unfold fscalev, vec_of, vscale; cbn [Spec.vx Spec.vy Spec.vz]. rewrite Ex, Ey, Ez. reflexivity. }
  split; auto. destruct Hn as (_ & _ & _ & LN). unfold fscalev. split; [auto|]. split; [auto|]. split; [auto|]. rewrite length3_vnorm in *. change (vec_of (fmul o x, fmul o y, fmul o z)) with (vec_of (fscalev o (x, y, z))). rewrite EV, vnorm_scale.
  replace (Rabs s) with 1; [rewrite Rmult_1_l; auto|]. destruct Hs as [-> | ->]; [rewrite Rabs_R1|rewrite Rabs_left]; lra.
Qed.
