(** * C94: from A by a vector to B, in binary64 *)
From Coq Require Import ZArith Reals Lra Lia Bool Psatz.
From Flocq Require Import Core BinarySingleNaN Relative.
From Verif Require Import Spec LVec LAngle FTiny FZero FBase FRel FRel2 FUnit FPi FAngle FDist FGreat FLatLon FInv FEcef FEcef2 FNed FNed2 FNed3 FDelta FDelta2 FDelta3
  FGeodB FGeod FGeod2 FGeod3 FGeod4 FGeod5 FGeod6 FGeod7 FGeod8 FGeod9 FGeod10.
Local Open Scope R_scope.

(** the sum of two vectors *)
Definition faddv (p q : vec64) : vec64 := let '(a, b, c) := p in let '(d, e, f) := q in (fadd a d, fadd b e, fadd c f).
(** n_EA_E_and_p_AB_E2n_EB_E, core.py 350-355, one position, default R_Ee *)
Definition fmove_E pow (nA : vec64) (zA : float64) (p a f : _) : vec64 * float64 := fp_EB_E2n_EB_E pow (faddv (fn_EB_E2p_EB_E nA zA a f) p) a f.

Lemma add_err (p q : vec64) : finite_vec p -> finite_vec q -> vnorm (vec_of p) <= bpow radix2 400 -> vnorm (vec_of q) <= bpow radix2 400 ->
  finite_vec (faddv p q) /\ vnorm (vsub (vec_of (faddv p q)) (vadd (vec_of p) (vec_of q))) <= u * vnorm (vadd (vec_of p) (vec_of q)).
Proof.
  destruct p as [[p0 p1] p2]. destruct q as [[q0 q1] q2]. intros (A0 & A1 & A2) (B0 & B1 & B2) NP NQ. pose proof u_pos as Pu.
  destruct (comp_le_vnorm (vec_of (p0, p1, p2))) as (C0 & C1 & C2). destruct (comp_le_vnorm (vec_of (q0, q1, q2))) as (D0 & D1 & D2). unfold vec_of in *; cbn [Spec.vx Spec.vy Spec.vz] in *.
  assert (H : 2 * bpow radix2 400 <= bpow radix2 1023). { change 2 with (bpow radix2 1). rewrite <- bpow_plus. apply bpow_le; lia. }
  assert (K : forall x y : float64, is_finite x = true -> is_finite y = true -> Rabs (B2R x) <= bpow radix2 400 -> Rabs (B2R y) <= bpow radix2 400 ->
    is_finite (fadd x y) = true /\ Rabs (B2R (fadd x y) - (B2R x + B2R y)) <= u * Rabs (B2R x + B2R y)).
  { intros x y Fx Fy Bx By. destruct (fadd_val x y Fx Fy) as (F & E). { eapply Rle_trans; [apply Rabs_triang|]. lra. }
    split; auto. rewrite E. destruct (rnd_add_err (B2R x) (B2R y)) as (r & Hr & ER); [apply format64|apply format64|]. rewrite ER.
    replace ((B2R x + B2R y) * (1 + r) - (B2R x + B2R y)) with (r * (B2R x + B2R y)) by ring. rewrite Rabs_mult. apply Rmult_le_compat_r; [apply Rabs_pos|auto]. }
  destruct (K p0 q0) as (F0 & E0); auto; try lra. destruct (K p1 q1) as (F1 & E1); auto; try lra. destruct (K p2 q2) as (F2 & E2); auto; try lra.
  unfold faddv, finite_vec. split; [auto|]. unfold vsub, vadd; cbn [Spec.vx Spec.vy Spec.vz]. set (G := V (B2R p0 + B2R q0) (B2R p1 + B2R q1) (B2R p2 + B2R q2)).
  rewrite <- (abs_vec_norm G). replace u with (Rabs u) at 1 by (apply Rabs_right; lra). rewrite <- vnorm_scale. apply norm_le_comp; unfold vscale, G; cbn [Spec.vx Spec.vy Spec.vz]; assumption.
Qed.

Lemma add_add a b p q : vsub (vadd b a) (vadd q p) = vadd (vsub b q) (vsub a p). Proof. vring. Qed.
(** the sum of inexact vectors *)
Lemma sum_err (q p : vec64) Q P e1 e2 : finite_vec q -> finite_vec p -> vnorm (vec_of q) <= bpow radix2 400 -> vnorm (vec_of p) <= bpow radix2 400 ->
  vnorm (vsub (vec_of q) Q) <= e1 -> vnorm (vsub (vec_of p) P) <= e2 ->
  finite_vec (faddv q p) /\ vnorm (vsub (vec_of (faddv q p)) (vadd Q P)) <= (e1 + e2) * (1 + u) + u * vnorm (vadd Q P).
Proof.
  intros Fq Fp Bq Bp D1 D2. destruct (add_err q p Fq Fp Bq Bp) as (F & E). split; auto. pose proof u_pos as Pu.
  assert (X : vnorm (vsub (vadd (vec_of q) (vec_of p)) (vadd Q P)) <= e1 + e2). { rewrite add_add. eapply Rle_trans; [apply norm_triangle|]. lra. }
  assert (Y : vnorm (vadd (vec_of q) (vec_of p)) <= vnorm (vadd Q P) + (e1 + e2)). { rewrite (via (vadd Q P) (vadd (vec_of q) (vec_of p))). eapply Rle_trans; [apply norm_triangle|]. lra. }
  rewrite (sub_via _ _ (vadd (vec_of q) (vec_of p))). eapply Rle_trans; [apply norm_triangle|].
  assert (u * vnorm (vadd (vec_of q) (vec_of p)) <= u * (vnorm (vadd Q P) + (e1 + e2))) by (apply Rmult_le_compat_l; lra). lra.
Qed.

Lemma on_ellipsoid_norm a f s : 0 < a -> 0 <= f < 1 -> on_ellipsoid a f (V 0 0 1) s -> vnorm s <= a.
Proof.
  intros Ha Hf O. unfold vnorm. rewrite <- (sqrt_square a) by lra. apply sqrt_le_1_alt. unfold on_ellipsoid, equatorial, Spec.polar, vdot, vsub, vscale in O; cbn [Spec.vx Spec.vy Spec.vz] in O. unfold vdot.
  destruct s as [x y w]; cbn [Spec.vx Spec.vy Spec.vz] in *.
  assert (E : w * w * a ^ 2 / (a * (1 - f)) ^ 2 + (x * x + y * y) = a ^ 2). { transitivity (a ^ 2 * ((0 * x + 0 * y + 1 * w) ^ 2 / (a * (1 - f)) ^ 2 + ((x - (0 * x + 0 * y + 1 * w) * 0) * (x - (0 * x + 0 * y + 1 * w) * 0) + (y - (0 * x + 0 * y + 1 * w) * 0) * (y - (0 * x + 0 * y + 1 * w) * 0) + (w - (0 * x + 0 * y + 1 * w) * 1) * (w - (0 * x + 0 * y + 1 * w) * 1)) / a ^ 2)); [field; lra|]. rewrite O. ring. }
  assert (I : w * w <= w * w * a ^ 2 / (a * (1 - f)) ^ 2). { replace (w * w * a ^ 2 / (a * (1 - f)) ^ 2) with (w * w * (/ ((1 - f) * (1 - f)))) by (field; lra). rewrite <- (Rmult_1_r (w * w)) at 1. apply Rmult_le_compat_l; [nra|]. rewrite <- Rinv_1 at 1. apply Rinv_le; nra. }
  lra.
Qed.

(** ** A given as n-vector and depth, the vector in E: if it leads from A to the point d metres below the ellipsoid along the normal N,
    the answer is N and d, with the error that the rounding of A's position makes *)
Theorem C94_accuracy : forall pow nA zA p a f sA N d s, good_pow pow -> usual_earth a f -> ordinary_vec nA -> is_finite zA = true -> Rabs (B2R zA) <= 524288 * B2R a -> finite_vec p ->
  on_ellipsoid (B2R a) (B2R f) (V 0 0 1) sA -> same_direction (ellipsoid_gradient (B2R a) (B2R f) (V 0 0 1) sA) (vec_of nA) ->
  vnorm N = 1 -> on_ellipsoid (B2R a) (B2R f) (V 0 0 1) s -> same_direction (ellipsoid_gradient (B2R a) (B2R f) (V 0 0 1) s) N ->
  vadd (vsub sA (vscale (B2R zA) (direction (vec_of nA)))) (vec_of p) = vsub s (vscale d N) -> - (262144 * B2R a) <= d <= B2R a / 4 ->
  let '(n, depth) := fmove_E pow nA zA p a f in let eps := 27 * u * B2R a + 9 * u * Rabs (B2R zA) + u * Rabs d in
  near_unit n /\ angle N (vec_of n) <= 105 / 10 * u + 101 / 100 * eps / (B2R a * ((1 - B2R f) * (1 - B2R f)) - d - eps) /\
  is_finite depth = true /\ Rabs (B2R depth - d) <= 101 / 100 * eps + 14 * u * B2R a + 12 * u * Rabs d.
Proof.
  intros pow nA zA p a f sA N d s GP HE OA FzA BzA Fp OEA SDA NN OE SD EP Bd. pose proof HE as (Fa & Ff & BA & Hf & Uf). pose proof u_pos as Pu. pose proof u_tiny as Su. pose proof (bpow_gt_0 radix2 (-100)) as P100.
  assert (UE : usual_ellipsoid a f). { split; auto. split; auto. split; [split; [lra|]|]. - eapply Rle_trans; [apply BA|apply bpow_le; lia]. - pose proof (bpow_gt_0 radix2 (-100)). lra. }
  assert (F0 : 0 <= B2R f < 1) by (destruct UE as (_ & _ & _ & X); lra).
  assert (B19 : 524288 * B2R a <= bpow radix2 119). { replace (bpow radix2 119) with (bpow radix2 19 * bpow radix2 100) by (rewrite <- bpow_plus; reflexivity). replace (bpow radix2 19) with 524288 by (cbn; lra). apply Rmult_le_compat_l; lra. }
  assert (BzA' : Rabs (B2R zA) <= bpow radix2 300). { eapply Rle_trans; [exact BzA|]. eapply Rle_trans; [exact B19|apply bpow_le; lia]. }
  destruct (C89_accuracy nA zA a f OA UE FzA BzA') as (FQ & s' & OE' & SD' & EQ).
  assert (NZA : vec_of nA <> v0).
  { destruct nA as [[x y] z]. destruct OA as (_ & _ & _ & _ & _ & _ & G). pose proof (bpow_gt_0 radix2 (-400)). intros E'. injection E' as Ex Ey Ez. rewrite Ex, Ey, Ez, Rabs_R0 in G. lra. }
  assert (ES : s' = sA). { apply (LObj2.ellipsoid_point_unique (B2R a) (B2R f) SpecArr.Me (vec_of nA)); auto using Me_orthogonal; lra. }
  subst s'. set (pA := vsub sA _) in *. unfold fmove_E. set (q := fn_EB_E2p_EB_E nA zA a f) in *.
  assert (NA : vnorm pA <= B2R a + Rabs (B2R zA)).
  { unfold pA. rewrite sub_neg. eapply Rle_trans; [apply norm_triangle|]. rewrite vnorm_neg, vnorm_scale, direction_unit by auto. pose proof (on_ellipsoid_norm (B2R a) (B2R f) sA ltac:(lra) F0 OEA). lra. }
  assert (NB : vnorm (vadd pA (vec_of p)) <= B2R a + Rabs d).
  { rewrite EP. rewrite sub_neg. eapply Rle_trans; [apply norm_triangle|]. rewrite vnorm_neg, vnorm_scale, NN. pose proof (on_ellipsoid_norm (B2R a) (B2R f) s ltac:(lra) F0 OE). lra. }
  assert (Ad : Rabs d <= 262144 * B2R a) by (apply Rabs_le; lra).
  pose proof (Rabs_pos (B2R zA)) as PZ. pose proof (Rabs_pos d) as PD.
  assert (B22 : 4 * bpow radix2 119 <= bpow radix2 400). { change 4 with (bpow radix2 2). rewrite <- bpow_plus. apply bpow_le; lia. }
  assert (UA : u * B2R a <= / 1000000000000000 * B2R a) by (apply Rmult_le_compat_r; lra). assert (UZ : u * Rabs (B2R zA) <= / 1000000000000000 * Rabs (B2R zA)) by (apply Rmult_le_compat_r; lra).
  assert (UD : u * Rabs d <= / 1000000000000000 * Rabs d) by (apply Rmult_le_compat_r; lra).
  assert (PUA : 0 <= u * B2R a) by (apply Rmult_le_pos; lra). assert (PUZ : 0 <= u * Rabs (B2R zA)) by (apply Rmult_le_pos; lra). assert (PUD : 0 <= u * Rabs d) by (apply Rmult_le_pos; lra).
  assert (NQ : vnorm (vec_of q) <= bpow radix2 400). { rewrite (via pA (vec_of q)). eapply Rle_trans; [apply norm_triangle|]. lra. }
  assert (NP : vnorm (vec_of p) <= bpow radix2 400).
  { replace (vec_of p) with (vadd (vadd pA (vec_of p)) (vneg pA)) by (generalize pA (vec_of p); intros; vring). eapply Rle_trans; [apply norm_triangle|]. rewrite vnorm_neg. lra. }
  assert (ZP : vnorm (vsub (vec_of p) (vec_of p)) <= 0). { replace (vsub (vec_of p) (vec_of p)) with v0 by (generalize (vec_of p); intros; vring). rewrite vnorm_v0. lra. }
  destruct (sum_err q p pA (vec_of p) _ _ FQ Fp NQ NP EQ ZP) as (FS & ESUM). rewrite EP in ESUM at 1. cbv zeta. set (eps := 27 * u * B2R a + 9 * u * Rabs (B2R zA) + u * Rabs d).
  assert (EE : vnorm (vsub (vec_of (faddv q p)) (vsub s (vscale d N))) <= eps).
  { eapply Rle_trans; [exact ESUM|]. unfold eps. assert (u * vnorm (vadd pA (vec_of p)) <= u * (B2R a + Rabs d)) by (apply Rmult_le_compat_l; lra).
    assert (u * (25 * u * B2R a + 8 * u * Rabs (B2R zA)) <= / 1000000000000000 * (25 * u * B2R a + 8 * u * Rabs (B2R zA))) by (apply Rmult_le_compat_r; lra). lra. }
  apply (C90_near pow _ a f N d s eps GP HE FS NN OE SD EE); auto. unfold eps. lra.
Qed.
Print Assumptions C94_accuracy.
