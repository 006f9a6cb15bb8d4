(** * Vector algebra *)
From Coq Require Import Reals Lra Lia.
From Verif Require Import Spec.
Local Open Scope R_scope.

Ltac vdestr := repeat match goal with v : vec |- _ => destruct v end;
               repeat match goal with m : mat |- _ => destruct m end;
               repeat match goal with v : vec |- _ => destruct v end.
Ltac vunf := cbn [vx vy vz vadd vsub vscale vneg vdot vcross v0 mulv mmul mT r0 r1 r2 c0 c1 c2 mI mdet] in *.
Ltac vring := intros; vdestr; unfold c0, c1, c2, mulv, mmul, mT, mdet, mI, vadd, vsub, vscale, vneg, vdot, vcross, v0 in *;
              cbn [vx vy vz r0 r1 r2] in *;
              try match goal with
                  | |- @eq R _ _ => ring
                  | |- @eq vec _ _ => f_equal; ring
                  | |- @eq mat _ _ => f_equal; f_equal; ring
                  end.

Lemma vec_eq u v : vx u = vx v -> vy u = vy v -> vz u = vz v -> u = v.
Proof. destruct u, v; simpl; intros; subst; auto. Qed.

Lemma vdot_comm u v : vdot u v = vdot v u. Proof. vring. Qed.
Lemma vdot_add_l u v w : vdot (vadd u v) w = vdot u w + vdot v w. Proof. vring. Qed.
Lemma vdot_add_r u v w : vdot w (vadd u v) = vdot w u + vdot w v. Proof. vring. Qed.
Lemma vdot_sub_l u v w : vdot (vsub u v) w = vdot u w - vdot v w. Proof. vring. Qed.
Lemma vdot_sub_r u v w : vdot w (vsub u v) = vdot w u - vdot w v. Proof. vring. Qed.
Lemma vdot_scale_l c u v : vdot (vscale c u) v = c * vdot u v. Proof. vring. Qed.
Lemma vdot_scale_r c u v : vdot u (vscale c v) = c * vdot u v. Proof. vring. Qed.
Lemma vdot_neg_l u v : vdot (vneg u) v = - vdot u v. Proof. vring. Qed.
Lemma vdot_neg_r u v : vdot u (vneg v) = - vdot u v. Proof. vring. Qed.
Lemma vcross_anti u v : vcross u v = vneg (vcross v u). Proof. vring. Qed.
Lemma vcross_self u : vcross u u = v0. Proof. vring. Qed.
Lemma vcross_scale_l c u v : vcross (vscale c u) v = vscale c (vcross u v). Proof. vring. Qed.
Lemma vcross_scale_r c u v : vcross u (vscale c v) = vscale c (vcross u v). Proof. vring. Qed.
Lemma vcross_neg_l u v : vcross (vneg u) v = vneg (vcross u v). Proof. vring. Qed.
Lemma vcross_neg_r u v : vcross u (vneg v) = vneg (vcross u v). Proof. vring. Qed.
Lemma vdot_cross_l u v : vdot u (vcross u v) = 0. Proof. vring. Qed.
Lemma vdot_cross_r u v : vdot v (vcross u v) = 0. Proof. vring. Qed.
Lemma vdot_cross_l' u v : vdot (vcross u v) u = 0. Proof. vring. Qed.
Lemma vdot_cross_r' u v : vdot (vcross u v) v = 0. Proof. vring. Qed.
Lemma vdot_cross_rot u v w : vdot u (vcross v w) = vdot v (vcross w u). Proof. vring. Qed.
Lemma lagrange u v : vdot (vcross u v) (vcross u v) = vdot u u * vdot v v - vdot u v * vdot u v.
Proof. vring. Qed.
Lemma triple_cross u v w : vcross u (vcross v w) = vsub (vscale (vdot u w) v) (vscale (vdot u v) w).
Proof. vring. Qed.
Lemma triple_cross_l u v w : vcross (vcross u v) w = vsub (vscale (vdot u w) v) (vscale (vdot v w) u).
Proof. vring. Qed.
Lemma vscale_vscale a b u : vscale a (vscale b u) = vscale (a * b) u. Proof. vring. Qed.
Lemma vscale_1 u : vscale 1 u = u. Proof. vring. Qed.
Lemma vscale_0 u : vscale 0 u = v0. Proof. vring. Qed.
Lemma vscale_m1 u : vscale (-1) u = vneg u. Proof. vring. Qed.
Lemma vneg_neg u : vneg (vneg u) = u. Proof. vring. Qed.
Lemma vadd_comm u v : vadd u v = vadd v u. Proof. vring. Qed.
Lemma vadd_v0 u : vadd u v0 = u. Proof. vring. Qed.
Lemma vsub_self u : vsub u u = v0. Proof. vring. Qed.

Lemma vdot_pos u : 0 <= vdot u u. Proof. vring; nra. Qed.
Lemma vdot_0 u : vdot u u = 0 -> u = v0.
Proof. vring. intros. f_equal; nra. Qed.
Lemma vdot_nz u : u <> v0 -> 0 < vdot u u.
Proof.
  intros H. destruct (vdot_pos u) as [L|E]; auto. exfalso; apply H, vdot_0; auto.
Qed.

Lemma vnorm_pos u : 0 <= vnorm u. Proof. apply sqrt_pos. Qed.
Lemma vnorm_sq u : vnorm u * vnorm u = vdot u u.
Proof. apply sqrt_sqrt, vdot_pos. Qed.
Lemma vnorm_nz u : u <> v0 -> 0 < vnorm u.
Proof. intros; apply sqrt_lt_R0, vdot_nz; auto. Qed.
Lemma vnorm_v0 : vnorm v0 = 0.
Proof. unfold vnorm. replace (vdot v0 v0) with 0 by vring. apply sqrt_0. Qed.
Lemma vnorm_0 u : vnorm u = 0 -> u = v0.
Proof. intros H. apply vdot_0. rewrite <- vnorm_sq, H. ring. Qed.
Lemma vnorm_scale c u : vnorm (vscale c u) = Rabs c * vnorm u.
Proof.
  unfold vnorm. rewrite vdot_scale_l, vdot_scale_r, <- Rmult_assoc, sqrt_mult.
  - f_equal. apply sqrt_Rsqr_abs.
  - apply Rle_0_sqr.
  - apply vdot_pos.
Qed.
Lemma vnorm_neg u : vnorm (vneg u) = vnorm u.
Proof. unfold vnorm. f_equal. vring. Qed.
Lemma vnorm_unit u : vnorm u = 1 <-> vdot u u = 1.
Proof.
  rewrite <- vnorm_sq. split; intros H; [rewrite H; ring|].
  pose proof (vnorm_pos u). nra.
Qed.
Lemma vnorm_eq u r : 0 <= r -> vdot u u = r * r -> vnorm u = r.
Proof. intros Hr E. unfold vnorm. rewrite E. apply sqrt_square; auto. Qed.
Lemma vnorm_inv u : vnorm u = 1 -> u <> v0.
Proof. intros H ->. rewrite vnorm_v0 in H. lra. Qed.

Lemma vneg_v0 : vneg v0 = v0. Proof. vring. Qed.
Lemma vscale_v0 c : vscale c v0 = v0. Proof. vring. Qed.
Lemma vscale_eq_v0 c u : vscale c u = v0 -> c <> 0 -> u = v0.
Proof.
  intros E Hc. rewrite <- (vscale_1 u), <- (Rinv_l c Hc), <- vscale_vscale, E. apply vscale_v0.
Qed.

(** direction *)
Lemma direction_unit u : u <> v0 -> vnorm (direction u) = 1.
Proof.
  intros H. unfold direction. rewrite vnorm_scale, Rabs_right.
  - apply Rinv_l, Rgt_not_eq, vnorm_nz; auto.
  - left. apply Rinv_0_lt_compat, vnorm_nz; auto.
Qed.
Lemma direction_same u : u <> v0 -> same_direction (direction u) u.
Proof.
  intros H. exists (/ vnorm u). split; auto. apply Rinv_0_lt_compat, vnorm_nz; auto.
Qed.
Lemma direction_of_unit u : vnorm u = 1 -> direction u = u.
Proof. intros H. unfold direction. rewrite H, Rinv_1. apply vscale_1. Qed.
Lemma direction_scale c u : 0 < c -> u <> v0 -> direction (vscale c u) = direction u.
Proof.
  intros Hc Hu. unfold direction. rewrite vnorm_scale, Rabs_right, vscale_vscale by lra.
  f_equal. pose proof (vnorm_nz u Hu). field. split; lra.
Qed.
Lemma direction_neg u : u <> v0 -> direction (vneg u) = vneg (direction u).
Proof. intros. unfold direction. rewrite vnorm_neg. vring. Qed.
Lemma direction_nz u : u <> v0 -> direction u <> v0.
Proof. intros H. apply vnorm_inv, direction_unit; auto. Qed.
Lemma direction_decomp u : u <> v0 -> u = vscale (vnorm u) (direction u).
Proof.
  intros H. unfold direction. rewrite vscale_vscale, Rinv_r, vscale_1; auto.
  apply Rgt_not_eq, vnorm_nz; auto.
Qed.
Lemma same_direction_direction u v : u <> v0 -> v <> v0 -> same_direction u v ->
  direction u = direction v.
Proof. intros Hu Hv (c & Hc & ->). apply direction_scale; auto. Qed.

(** Cauchy-Schwarz *)
Lemma cauchy_schwarz_sq u v : vdot u v * vdot u v <= vdot u u * vdot v v.
Proof. pose proof (vdot_pos (vcross u v)) as H. rewrite lagrange in H. lra. Qed.
Lemma cauchy_schwarz u v : Rabs (vdot u v) <= vnorm u * vnorm v.
Proof.
  rewrite <- (Rabs_right (vnorm u * vnorm v)).
  2:{ apply Rle_ge, Rmult_le_pos; apply vnorm_pos. }
  apply Rsqr_le_abs_0. unfold Rsqr.
  replace (vnorm u * vnorm v * (vnorm u * vnorm v)) with ((vnorm u * vnorm u) * (vnorm v * vnorm v)) by ring.
  rewrite !vnorm_sq. apply cauchy_schwarz_sq.
Qed.
Lemma vdot_unit_bound u v : vnorm u = 1 -> vnorm v = 1 -> -1 <= vdot u v <= 1.
Proof.
  intros Hu Hv. pose proof (cauchy_schwarz u v) as H. rewrite Hu, Hv in H.
  unfold Rabs in H. destruct (Rcase_abs (vdot u v)); lra.
Qed.
Lemma vcross_norm_sq u v : vnorm (vcross u v) * vnorm (vcross u v)
  = vnorm u * vnorm u * (vnorm v * vnorm v) - vdot u v * vdot u v.
Proof. rewrite !vnorm_sq. apply lagrange. Qed.

(** Cauchy-Schwarz equality on unit vectors *)
Lemma vdot_unit_1 u v : vnorm u = 1 -> vnorm v = 1 -> vdot u v = 1 -> u = v.
Proof.
  intros Hu Hv H. apply vnorm_unit in Hu. apply vnorm_unit in Hv.
  assert (E : vdot (vsub u v) (vsub u v) = 0).
  { rewrite vdot_sub_l, !vdot_sub_r, (vdot_comm v u). lra. }
  apply vdot_0 in E. destruct u, v. unfold vsub, v0 in E. cbn in E. injection E; intros. f_equal; lra.
Qed.
Lemma vdot_unit_m1 u v : vnorm u = 1 -> vnorm v = 1 -> vdot u v = -1 -> u = vneg v.
Proof.
  intros Hu Hv H. apply vdot_unit_1; auto.
  - rewrite vnorm_neg; auto.
  - rewrite vdot_neg_r, H. ring.
Qed.

Lemma norm_triangle u v : vnorm (vadd u v) <= vnorm u + vnorm v.
Proof.
  pose proof (vnorm_pos u). pose proof (vnorm_pos v). pose proof (vnorm_pos (vadd u v)).
  pose proof (cauchy_schwarz u v) as C. pose proof (Rle_abs (vdot u v)).
  assert (vnorm (vadd u v) * vnorm (vadd u v) <= (vnorm u + vnorm v) * (vnorm u + vnorm v)).
  { rewrite vnorm_sq, vdot_add_l, !vdot_add_r, (vdot_comm v u), <- !vnorm_sq. nra. }
  nra.
Qed.

(** parallel vectors *)
Lemma cross_zero_parallel a b : a <> v0 -> vcross a b = v0 -> b = vscale (vdot a b / vdot a a) a.
Proof.
  intros Ha E. pose proof (vdot_nz a Ha) as P.
  pose proof (triple_cross a a b) as T. rewrite E in T.
  replace (vcross a v0) with v0 in T by vring.
  assert (vscale (vdot a a) b = vscale (vdot a b) a).
  { destruct a as [a0 a1 a2], b as [b0 b1 b2]. unfold vscale, vsub, v0 in *. cbn [vx vy vz] in *.
    injection T; intros. f_equal; lra. }
  apply (f_equal (vscale (/ vdot a a))) in H. rewrite !vscale_vscale, Rinv_l, vscale_1 in H by lra.
  etransitivity; [exact H|]. f_equal. field. lra.
Qed.

(** ** matrices *)
Lemma mulv_dot m u v : vdot (mulv m u) v = vdot u (mulv (mT m) v). Proof. vring. Qed.
Lemma mulv_mmul a b v : mulv (mmul a b) v = mulv a (mulv b v). Proof. vring. Qed.
Lemma mT_mT m : mT (mT m) = m. Proof. vring. Qed.
Lemma mT_mmul a b : mT (mmul a b) = mmul (mT b) (mT a). Proof. vring. Qed.
Lemma mmul_assoc a b c : mmul (mmul a b) c = mmul a (mmul b c). Proof. vring. Qed.
Lemma mulv_mI v : mulv mI v = v. Proof. vring. Qed.
Lemma mmul_mI_l m : mmul mI m = m. Proof. vring. Qed.
Lemma mmul_mI_r m : mmul m mI = m. Proof. vring. Qed.
Lemma mulv_scale m c v : mulv m (vscale c v) = vscale c (mulv m v). Proof. vring. Qed.
Lemma mulv_add m u v : mulv m (vadd u v) = vadd (mulv m u) (mulv m v). Proof. vring. Qed.
Lemma mulv_sub m u v : mulv m (vsub u v) = vsub (mulv m u) (mulv m v). Proof. vring. Qed.
Lemma mulv_neg m u : mulv m (vneg u) = vneg (mulv m u). Proof. vring. Qed.
Lemma mulv_v0 m : mulv m v0 = v0. Proof. vring. Qed.
Lemma mulv_cols m v : mulv m v = vadd (vscale (vx v) (c0 m)) (vadd (vscale (vy v) (c1 m)) (vscale (vz v) (c2 m))).
Proof. vring. Qed.
Lemma mulvT_rows m v : mulv (mT m) v = vadd (vscale (vx v) (r0 m)) (vadd (vscale (vy v) (r1 m)) (vscale (vz v) (r2 m))).
Proof. vring. Qed.
Lemma mdet_mul a b : mdet (mmul a b) = mdet a * mdet b. Proof. vring. Qed.
Lemma mdet_T a : mdet (mT a) = mdet a. Proof. vring. Qed.
Lemma c0_mmul a b : c0 (mmul a b) = mulv a (c0 b). Proof. vring. Qed.
Lemma c1_mmul a b : c1 (mmul a b) = mulv a (c1 b). Proof. vring. Qed.
Lemma c2_mmul a b : c2 (mmul a b) = mulv a (c2 b). Proof. vring. Qed.
Lemma mat_cols_eq a b : c0 a = c0 b -> c1 a = c1 b -> c2 a = c2 b -> a = b.
Proof.
  destruct a as [[] [] []], b as [[] [] []]; unfold c0, c1, c2, mT; vunf; intros A B C.
  injection A; injection B; injection C; intros; subst; auto.
Qed.
Lemma mat_rows_eq a b : r0 a = r0 b -> r1 a = r1 b -> r2 a = r2 b -> a = b.
Proof. destruct a, b; simpl; intros; subst; auto. Qed.

(** an orthogonal matrix also has M M^T = I *)
Lemma mdet_orth m : orthogonal m -> mdet m * mdet m = 1.
Proof.
  intros H. apply (f_equal mdet) in H. rewrite mdet_mul, mdet_T in H. rewrite H. vring.
Qed.

Definition madj (m : mat) : mat := mT (Mt (vcross (r1 m) (r2 m)) (vcross (r2 m) (r0 m)) (vcross (r0 m) (r1 m))).
Definition mscale (c : R) (m : mat) : mat := Mt (vscale c (r0 m)) (vscale c (r1 m)) (vscale c (r2 m)).
Lemma mmul_adj m : mmul m (madj m) = mscale (mdet m) mI.
Proof. unfold madj, mscale. vring. Qed.
Lemma mscale_mmul_r c a b : mmul a (mscale c b) = mscale c (mmul a b).
Proof. unfold mscale; vring. Qed.
Lemma mscale_mmul_l c a b : mmul (mscale c a) b = mscale c (mmul a b).
Proof. unfold mscale; vring. Qed.
Lemma mscale_1 m : mscale 1 m = m. Proof. unfold mscale; vring. Qed.
Lemma mscale_mscale a b m : mscale a (mscale b m) = mscale (a * b) m. Proof. unfold mscale; vring. Qed.

Lemma orthogonal_T m : orthogonal m -> orthogonal (mT m).
Proof.
  intros H. unfold orthogonal. rewrite mT_mT.
  pose proof (mdet_orth m H) as D.
  (* mT m = mT m * (m * (d * adj m)) = d * adj m *)
  assert (E : mT m = mscale (mdet m) (madj m)).
  { rewrite <- (mmul_mI_r (mT m)).
    replace mI with (mmul m (mscale (mdet m) (madj m))).
    - rewrite <- mmul_assoc. unfold orthogonal in H. rewrite H, mmul_mI_l. reflexivity.
    - rewrite mscale_mmul_r, mmul_adj, mscale_mscale, D, mscale_1. reflexivity. }
  rewrite E, mscale_mmul_r, mmul_adj, mscale_mscale, D, mscale_1. reflexivity.
Qed.

Lemma rotation_T m : rotation m -> rotation (mT m).
Proof. intros [H D]. split; [apply orthogonal_T; auto|rewrite mdet_T; auto]. Qed.
Lemma rotation_adj m : rotation m -> mT m = madj m.
Proof.
  intros [H D]. rewrite <- (mmul_mI_r (mT m)), <- (mscale_1 mI), <- D, <- mmul_adj, <- mmul_assoc.
  unfold orthogonal in H. rewrite H, mmul_mI_l. reflexivity.
Qed.
Lemma rotation_mul a b : rotation a -> rotation b -> rotation (mmul a b).
Proof.
  intros [Ha Da] [Hb Db]. split; [|rewrite mdet_mul, Da, Db; ring].
  unfold orthogonal in *. rewrite mT_mmul, mmul_assoc, <- (mmul_assoc (mT a) a b), Ha, mmul_mI_l. auto.
Qed.

Lemma orthogonal_dot m u v : orthogonal m -> vdot (mulv m u) (mulv m v) = vdot u v.
Proof.
  intros H. rewrite mulv_dot, <- mulv_mmul. unfold orthogonal in H. rewrite H, mulv_mI. reflexivity.
Qed.
Lemma orthogonal_norm m u : orthogonal m -> vnorm (mulv m u) = vnorm u.
Proof. intros H. unfold vnorm. rewrite orthogonal_dot; auto. Qed.
Lemma orthogonal_inv m u : orthogonal m -> mulv (mT m) (mulv m u) = u.
Proof. intros H. rewrite <- mulv_mmul. unfold orthogonal in H. rewrite H. apply mulv_mI. Qed.
Lemma orthogonal_inv' m u : orthogonal m -> mulv m (mulv (mT m) u) = u.
Proof. intros H. apply orthogonal_T in H. pose proof (orthogonal_inv (mT m) u H) as E. rewrite mT_mT in E. auto. Qed.
Lemma orthogonal_direction m u : orthogonal m -> direction (mulv m u) = mulv m (direction u).
Proof. intros H. unfold direction. rewrite orthogonal_norm, mulv_scale; auto. Qed.
Lemma orthogonal_nz m u : orthogonal m -> u <> v0 -> mulv m u <> v0.
Proof.
  intros H Hu E. apply Hu. rewrite <- (orthogonal_inv m u H), E. apply mulv_v0.
Qed.

(** rows of an orthogonal matrix are orthonormal *)
Lemma orthogonal_rows m : orthogonal m ->
  vdot (r0 m) (r0 m) = 1 /\ vdot (r1 m) (r1 m) = 1 /\ vdot (r2 m) (r2 m) = 1
  /\ vdot (r0 m) (r1 m) = 0 /\ vdot (r0 m) (r2 m) = 0 /\ vdot (r1 m) (r2 m) = 0.
Proof.
  intros H. apply orthogonal_T in H. unfold orthogonal in H. rewrite mT_mT in H.
  destruct m as [a b c]. unfold mmul in H. rewrite mT_mT in H. cbn [r0 r1 r2] in *.
  unfold mI in H. injection H; intros. tauto.
Qed.
Lemma orthogonal_cols m : orthogonal m ->
  vdot (c0 m) (c0 m) = 1 /\ vdot (c1 m) (c1 m) = 1 /\ vdot (c2 m) (c2 m) = 1
  /\ vdot (c0 m) (c1 m) = 0 /\ vdot (c0 m) (c2 m) = 0 /\ vdot (c1 m) (c2 m) = 0.
Proof. intros H. apply (orthogonal_rows (mT m)), orthogonal_T; auto. Qed.

Lemma orthogonal_of_cols m :
  vdot (c0 m) (c0 m) = 1 -> vdot (c1 m) (c1 m) = 1 -> vdot (c2 m) (c2 m) = 1 ->
  vdot (c0 m) (c1 m) = 0 -> vdot (c0 m) (c2 m) = 0 -> vdot (c1 m) (c2 m) = 0 -> orthogonal m.
Proof.
  intros A B C D E F. unfold orthogonal, mmul. fold (c0 m) (c1 m) (c2 m).
  rewrite A, B, C, D, E, F, (vdot_comm (c1 m) (c0 m)), (vdot_comm (c2 m) (c0 m)), (vdot_comm (c2 m) (c1 m)), D, E, F.
  reflexivity.
Qed.

Lemma rotation_cross m u v : rotation m -> vcross (mulv m u) (mulv m v) = mulv m (vcross u v).
Proof.
  intros H. pose proof (rotation_adj m H) as A.
  transitivity (mulv (mT (madj m)) (vcross u v)).
  - unfold madj; vring.
  - rewrite <- A, mT_mT. reflexivity.
Qed.
