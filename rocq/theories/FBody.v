(** * C104: body frames and wander azimuth frames in binary64 (objects.py 1435-1530, rotation.py 474-510) *)
From Coq Require Import ZArith Reals Lra Lia Bool Psatz.
From Flocq Require Import Core BinarySingleNaN Relative.
From Verif Require Import Spec LVec LAngle LRot FTiny FZero FBase FRel FRel2 FUnit FPi FAngle FDist FGreat FLatLon FInv FInv2 FEcef FEcef2 FNed FNed2 FNed3 FDelta FDelta2 FDelta3
  FGeodB FGeod FGeod2 FGeod3 FGeod4 FGeod5 FGeod6 FGeod7 FGeod8 FGeod9 FGeod10 FMove FMove2 FEuler FEuler2.
Local Open Scope R_scope.

(** ** the code *)
(** mdot(R_EN, R_NB), util.py 392: the result by columns; column k is R_EN times column k of R_NB *)
Definition fmdot_cols (dot : vec64 -> vec64 -> float64) (R_EN : vec64 * vec64 * vec64) (R_NB : mat64) : vec64 * vec64 * vec64 :=
  let '(a, b, c) := mT64 R_NB in (fto_ecef dot R_EN a, fto_ecef dot R_EN b, fto_ecef dot R_EN c).
(** FrameB(point, yaw, pitch, roll).R_EN, objects.py 1523-1530, angles in radians; the three columns *)
Definition fR_EB dot fsin fcos (n : vec64) (yaw pitch roll : float64) : vec64 * vec64 * vec64 :=
  fmdot_cols dot (fn_E2R_EN n) (fzyx2R fsin fcos yaw pitch roll).
(** n_E_and_wa2R_EL, rotation.py 504-510 (FrameL.R_EN, objects.py 1480-1485), default axes; the three columns *)
Definition fR_EL fsin fcos arctan2 (n : vec64) (wander_azimuth : float64) : vec64 * vec64 * vec64 :=
  let '(latitude, longitude) := fn_E2lat_lon arctan2 n in
  let '(a, b, c) := mT64 (fxyz2R fsin fcos longitude (fneg latitude) wander_azimuth) in (FNed.fback a, FNed.fback b, FNed.fback c).

(** ** how far the directions move when the angles move *)
Lemma circle_moves a b : (cos a - cos b) * (cos a - cos b) + (sin a - sin b) * (sin a - sin b) <= (a - b) * (a - b).
Proof.
  pose proof (abs_sin_le ((a - b) / 2)) as S. assert (E : cos (a - b) = 1 - 2 * sin ((a - b) / 2) * sin ((a - b) / 2)) by (rewrite <- cos_2a_sin; f_equal; field).
  rewrite cos_minus in E. pose proof (sc a) as Sa. pose proof (sc b) as Sb. set (h := (a - b) / 2) in *. replace (a - b) with (2 * h) by (unfold h; field).
  assert (sin h * sin h <= h * h). { pose proof (Rabs_pos (sin h)). rewrite <- (Rabs_right (h * h)) by nra. rewrite <- (Rabs_right (sin h * sin h)) by nra. rewrite !Rabs_mult. nra. }
  nra.
Qed.
Definition moves (A B : mat) (t : R) : Prop := forall v, vnorm (vsub (mulv A v) (mulv B v)) <= t * vnorm v.
Lemma sq_moves x t v : 0 <= t -> vdot x x <= t * t * vdot v v -> vnorm x <= t * vnorm v.
Proof. intros P H. unfold vnorm at 1. apply Rle_trans with (sqrt (t * vnorm v * (t * vnorm v))); [apply sqrt_le_1_alt; rewrite <- (vnorm_sq v) in H; lra|]. rewrite sqrt_square; [lra|apply Rmult_le_pos; [auto|apply vnorm_pos]]. Qed.
Lemma Rx_moves a b : moves (Rx a) (Rx b) (Rabs (a - b)).
Proof.
  intros [x y z]. apply sq_moves; [apply Rabs_pos|]. rewrite <- Rabs_mult, Rabs_right by (apply Rle_ge, Rle_0_sqr). pose proof (circle_moves a b) as C.
  unfold mulv, Rx, vsub, vdot; cbn [Spec.vx Spec.vy Spec.vz r0 r1 r2].
  set (p := cos a) in *. set (q := cos b) in *. set (r := sin a) in *. set (s := sin b) in *. set (d := (a - b) * (a - b)) in *.
  replace (_ + _) with (((p - q) * (p - q) + (r - s) * (r - s)) * (y * y + z * z)) by ring. apply Rle_trans with (d * (y * y + z * z)); [apply Rmult_le_compat_r; nra|].
  apply Rmult_le_compat_l; [apply Rle_0_sqr|nra].
Qed.
Lemma Ry_moves a b : moves (Ry a) (Ry b) (Rabs (a - b)).
Proof.
  intros [x y z]. apply sq_moves; [apply Rabs_pos|]. rewrite <- Rabs_mult, Rabs_right by (apply Rle_ge, Rle_0_sqr). pose proof (circle_moves a b) as C.
  unfold mulv, Ry, vsub, vdot; cbn [Spec.vx Spec.vy Spec.vz r0 r1 r2].
  set (p := cos a) in *. set (q := cos b) in *. set (r := sin a) in *. set (s := sin b) in *. set (d := (a - b) * (a - b)) in *.
  replace (_ + _) with (((p - q) * (p - q) + (r - s) * (r - s)) * (x * x + z * z)) by ring. apply Rle_trans with (d * (x * x + z * z)); [apply Rmult_le_compat_r; nra|].
  apply Rmult_le_compat_l; [apply Rle_0_sqr|nra].
Qed.
Lemma Rz_moves a b : moves (Rz a) (Rz b) (Rabs (a - b)).
Proof.
  intros [x y z]. apply sq_moves; [apply Rabs_pos|]. rewrite <- Rabs_mult, Rabs_right by (apply Rle_ge, Rle_0_sqr). pose proof (circle_moves a b) as C.
  unfold mulv, Rz, vsub, vdot; cbn [Spec.vx Spec.vy Spec.vz r0 r1 r2].
  set (p := cos a) in *. set (q := cos b) in *. set (r := sin a) in *. set (s := sin b) in *. set (d := (a - b) * (a - b)) in *.
  replace (_ + _) with (((p - q) * (p - q) + (r - s) * (r - s)) * (x * x + y * y)) by ring. apply Rle_trans with (d * (x * x + y * y)); [apply Rmult_le_compat_r; nra|].
  apply Rmult_le_compat_l; [apply Rle_0_sqr|nra].
Qed.
Lemma mmul_moves A A' B B' s t : orthogonal A -> orthogonal B' -> moves A A' s -> moves B B' t -> moves (mmul A B) (mmul A' B') (s + t).
Proof.
  intros OA OB MA MB v. rewrite !mulv_mmul. replace (vsub (mulv A (mulv B v)) (mulv A' (mulv B' v))) with (vadd (mulv A (vsub (mulv B v) (mulv B' v))) (vsub (mulv A (mulv B' v)) (mulv A' (mulv B' v))))
    by (rewrite mulv_sub; generalize (mulv A (mulv B v)) (mulv A (mulv B' v)) (mulv A' (mulv B' v)); intros; vring).
  eapply Rle_trans; [apply norm_triangle|]. rewrite orthogonal_norm by auto. specialize (MA (mulv B' v)). rewrite (orthogonal_norm B') in MA by auto. specialize (MB v). lra.
Qed.
Lemma orthogonal_mmul A B : orthogonal A -> orthogonal B -> orthogonal (mmul A B).
Proof. intros OA OB. unfold orthogonal in *. rewrite mT_mmul, mmul_assoc, <- (mmul_assoc (mT A) A B), OA, mmul_mI_l. exact OB. Qed.
Lemma rots t : orthogonal (Rx t) /\ orthogonal (Ry t) /\ orthogonal (Rz t).
Proof. split; [apply Rx_rotation|split; [apply Ry_rotation|apply Rz_rotation]]. Qed.
Lemma zyx_moves z y x z' y' x' : moves (mmul (Rz z) (mmul (Ry y) (Rx x))) (mmul (Rz z') (mmul (Ry y') (Rx x'))) (Rabs (z - z') + (Rabs (y - y') + Rabs (x - x'))).
Proof. apply mmul_moves; [apply rots|apply orthogonal_mmul; apply rots|apply Rz_moves|]. apply mmul_moves; [apply rots|apply rots|apply Ry_moves|apply Rx_moves]. Qed.
Lemma xyz_moves z y x z' y' x' : moves (mmul (Rx x) (mmul (Ry y) (Rz z))) (mmul (Rx x') (mmul (Ry y') (Rz z'))) (Rabs (x - x') + (Rabs (y - y') + Rabs (z - z'))).
Proof. apply mmul_moves; [apply rots|apply orthogonal_mmul; apply rots|apply Rx_moves|]. apply mmul_moves; [apply rots|apply rots|apply Ry_moves|apply Rz_moves]. Qed.

(** ** columns *)
Lemma c0_mulv M : c0 M = mulv M (V 1 0 0). Proof. vring. Qed.
Lemma c1_mulv M : c1 M = mulv M (V 0 1 0). Proof. vring. Qed.
Lemma c2_mulv M : c2 M = mulv M (V 0 0 1). Proof. vring. Qed.
Lemma unit_axes : vnorm (V 1 0 0) = 1 /\ vnorm (V 0 1 0) = 1 /\ vnorm (V 0 0 1) = 1.
Proof. unfold vnorm, vdot; cbn [Spec.vx Spec.vy Spec.vz]. split; [|split]; replace (_ + _) with 1 by ring; apply sqrt_1. Qed.
Lemma cols_move A B t : moves A B t -> vnorm (vsub (c0 A) (c0 B)) <= t /\ vnorm (vsub (c1 A) (c1 B)) <= t /\ vnorm (vsub (c2 A) (c2 B)) <= t.
Proof.
  intros M. destruct unit_axes as (U0 & U1 & U2). pose proof (M (V 1 0 0)) as M0. pose proof (M (V 0 1 0)) as M1. pose proof (M (V 0 0 1)) as M2. rewrite U0 in M0. rewrite U1 in M1. rewrite U2 in M2.
  rewrite !c0_mulv, !c1_mulv, !c2_mulv. lra.
Qed.
Lemma within_norm a b c e : 0 <= e -> Rabs a <= e -> Rabs b <= e -> Rabs c <= e -> vnorm (V a b c) <= 1733 / 1000 * e.
Proof.
  intros P A B C. eapply Rle_trans; [apply (norm3_le (V a b c) e e e); cbn [Spec.vx Spec.vy Spec.vz]; assumption|]. unfold vnorm, vdot; cbn [Spec.vx Spec.vy Spec.vz].
  apply Rle_trans with (sqrt (1733 / 1000 * e * (1733 / 1000 * e))); [apply sqrt_le_1_alt; nra|rewrite sqrt_square; lra].
Qed.
Lemma cols_within A B e : 0 <= e -> mat_within e A B -> vnorm (vsub (c0 A) (c0 B)) <= 1733 / 1000 * e /\ vnorm (vsub (c1 A) (c1 B)) <= 1733 / 1000 * e /\ vnorm (vsub (c2 A) (c2 B)) <= 1733 / 1000 * e.
Proof.
  intros P ((a & b & c) & (d & g & h) & (i & j & k)). split; [|split]; (apply within_norm; [exact P| | |]); unfold c0, c1, c2, mT; cbn [Spec.vx Spec.vy Spec.vz r0 r1 r2]; assumption.
Qed.
Lemma cols_of m : let '(a, b, c) := mT64 m in vec_of a = c0 (mat_of m) /\ vec_of b = c1 (mat_of m) /\ vec_of c = c2 (mat_of m) /\ (fin_mat m -> finite_vec a /\ finite_vec b /\ finite_vec c).
Proof. destruct m as [[[[a b] c] [[d e] g]] [[h i] j]]. cbn. repeat split; tauto. Qed.
Lemma chain x y z e1 e2 : vnorm (vsub x y) <= e1 -> vnorm (vsub y z) <= e2 -> vnorm (vsub x z) <= e1 + e2.
Proof. intros A B. rewrite (sub_via z x y). eapply Rle_trans; [apply norm_triangle|]. lra. Qed.

(** ** the specification: frame N turned by yaw about down, then by pitch about the new second axis, then by roll about the new first axis;
    the columns of the matrix are the axes of the body; angles in degrees *)
Definition deg (x : R) : R := x * (PI / 180).
Definition body_axes (lat lon yaw pitch roll : R) : mat := mmul (mT (ned lat lon)) (mmul (Rz yaw) (mmul (Ry pitch) (Rx roll))).
(** frame L: frame N turned by the wander azimuth about down *)
Definition wander_axes (lat lon wander : R) : mat := mmul (mT (ned lat lon)) (Rz wander).
Definition cols_ok (k : R) (F : vec64 * vec64 * vec64) (M : mat) : Prop := let '(x, y, z) := F in
  (finite_vec x /\ finite_vec y /\ finite_vec z) /\
  vnorm (vsub (vec_of x) (c0 M)) <= k * u /\ vnorm (vsub (vec_of y) (c1 M)) <= k * u /\ vnorm (vsub (vec_of z) (c2 M)) <= k * u.

Lemma c0_mmul A B : c0 (mmul A B) = mulv A (c0 B). Proof. vring. Qed.
Lemma c1_mmul A B : c1 (mmul A B) = mulv A (c1 B). Proof. vring. Qed.
Lemma c2_mmul A B : c2 (mmul A B) = mulv A (c2 B). Proof. vring. Qed.
Lemma cols_unit M : orthogonal M -> vnorm (c0 M) = 1 /\ vnorm (c1 M) = 1 /\ vnorm (c2 M) = 1.
Proof. intros O. destruct unit_axes as (U0 & U1 & U2). rewrite c0_mulv, c1_mulv, c2_mulv, !orthogonal_norm by auto. auto. Qed.

(** a column of the product *)
Lemma prod_col dot N E D n e d c C k : good_mdot dot -> finite_vec N -> finite_vec E -> finite_vec D -> finite_vec c -> orthogonal (Mt n e d) -> orthogonal (mT (Mt n e d)) ->
  vnorm (vsub (vec_of N) n) <= 65 * u -> vnorm (vsub (vec_of E) e) <= 44 * u -> vnorm (vsub (vec_of D) d) <= 27 * u -> vnorm C = 1 -> 0 <= k <= 100 -> vnorm (vsub (vec_of c) C) <= k * u ->
  finite_vec (fto_ecef dot (N, E, D) c) /\ vnorm (vsub (vec_of (fto_ecef dot (N, E, D) c)) (mulv (mT (Mt n e d)) C)) <= (97 + k) * u.
Proof.
  intros GD FN FE FD Fc O O' DN DE DD UC Hk DC. pose proof u_pos as Pu. pose proof u_tiny as Su. pose proof eta_pos as Pe. pose proof tiny_eta as Te.
  assert (NC : vnorm (vec_of c) <= 1 + / 1000). { rewrite (via C (vec_of c)). eapply Rle_trans; [apply norm_triangle|]. nra. }
  destruct (to_ecef_err dot N E D n e d c GD FN FE FD Fc O DN DE DD) as (F & T). { pose proof (one_big 400 ltac:(lia)). pose proof (bpow_le radix2 1 400 ltac:(lia)). change (bpow radix2 1) with 2 in H0. lra. }
  split; auto. assert (C2 : vnorm (vsub (mulv (mT (Mt n e d)) (vec_of c)) (mulv (mT (Mt n e d)) C)) <= k * u). { rewrite <- mulv_sub, orthogonal_norm by auto. exact DC. }
  pose proof (chain _ _ _ _ _ T C2) as H. eapply Rle_trans; [exact H|]. assert (96 * u * vnorm (vec_of c) <= 96 * u * (1 + / 1000)) by (apply Rmult_le_compat_l; lra). lra.
Qed.

(** the axes of the body frame at a point given in degrees, with yaw, pitch and roll in radians *)
Lemma body_core dot fsin fcos lat lon yaw pitch roll y p r t : good_mdot dot -> good_trig fsin sin -> good_trig fcos cos ->
  is_finite lat = true -> is_finite lon = true -> Rabs (B2R lat) <= 90 -> Rabs (B2R lon) <= 180 ->
  is_finite yaw = true -> is_finite pitch = true -> is_finite roll = true -> Rabs (B2R yaw) <= 4 -> Rabs (B2R pitch) <= 4 -> Rabs (B2R roll) <= 4 ->
  0 <= t <= 50 -> Rabs (B2R yaw - y) + (Rabs (B2R pitch - p) + Rabs (B2R roll - r)) <= t * u ->
  cols_ok (115 + t) (fR_EB dot fsin fcos (flat_lon2n_E fsin fcos (frad lat) (frad lon)) yaw pitch roll) (body_axes (B2R lat) (B2R lon) y p r).
Proof.
  intros GD GS GC Fa Fo Ba Bo Fy Fp Fr By Bp Br Ht DT. pose proof u_pos as Pu. pose proof u_tiny as Su. unfold fR_EB, fmdot_cols.
  pose proof (C91_from_degrees fsin fcos lat lon GS GC Fa Fo Ba Bo) as H. unfold fR_EN_deg in H. destruct (fn_E2R_EN _) as [[N E] D]. cbv zeta in H. destruct H as ((FN & FE & FD) & HN & HE & HD).
  destruct (C103_matrices fsin fcos roll pitch yaw GS GC Fr Fp Fy Br Bp By) as (_ & FM & WM & _). pose proof (cols_of (fzyx2R fsin fcos yaw pitch roll)) as CO.
  destruct (mT64 (fzyx2R fsin fcos yaw pitch roll)) as [[a b] c]. destruct CO as (Ea & Eb & Ec & FC). destruct (FC FM) as (Fa' & Fb' & Fc').
  destruct (cols_within _ _ (10 * u) ltac:(lra) WM) as (W0 & W1 & W2). rewrite <- Ea in W0. rewrite <- Eb in W1. rewrite <- Ec in W2.
  destruct (cols_move _ _ _ (zyx_moves (B2R yaw) (B2R pitch) (B2R roll) y p r)) as (M0 & M1 & M2).
  pose proof (chain _ _ _ _ _ W0 M0) as X0. pose proof (chain _ _ _ _ _ W1 M1) as X1. pose proof (chain _ _ _ _ _ W2 M2) as X2. clear W0 W1 W2 M0 M1 M2.
  unfold body_axes. set (Q := mmul (Rz y) (mmul (Ry p) (Rx r))) in *. assert (OQ : orthogonal Q) by (apply orthogonal_mmul; [apply rots|apply orthogonal_mmul; apply rots]). destruct (cols_unit Q OQ) as (U0 & U1 & U2).
  pose proof (ned_orthogonal (B2R lat) (B2R lon)) as OT. pose proof (orthogonal_T _ OT) as O. rewrite mT_mT in O. unfold cols_ok. rewrite c0_mmul, c1_mmul, c2_mmul. unfold ned in *. cbv zeta in *.
  destruct (prod_col dot N E D _ _ _ a (c0 Q) (1733 / 100 + t) GD FN FE FD Fa' O OT HN HE HD U0 ltac:(lra) ltac:(lra)) as (G0 & R0).
  destruct (prod_col dot N E D _ _ _ b (c1 Q) (1733 / 100 + t) GD FN FE FD Fb' O OT HN HE HD U1 ltac:(lra) ltac:(lra)) as (G1 & R1).
  destruct (prod_col dot N E D _ _ _ c (c2 Q) (1733 / 100 + t) GD FN FE FD Fc' O OT HN HE HD U2 ltac:(lra) ltac:(lra)) as (G2 & R2).
  split; [auto|]. assert (K : (97 + (1733 / 100 + t)) * u <= (115 + t) * u) by (apply Rmult_le_compat_r; lra). lra.
Qed.
