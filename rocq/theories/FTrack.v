(** * C85: cross_track_distance in binary64 (core.py 506-526, 558-563) *)
From Coq Require Import ZArith Reals Lia Lra Bool Psatz.
From Flocq Require Import Core BinarySingleNaN.
From Verif Require Import Spec LVec LAngle FTiny FZero FBase FUnit FDist FGreat FLatLon.
Local Open Scope R_scope.

(** great_circle_normal, core.py 516: unit(cross(n_EA_E, n_EB_E)) (for paths that are not degenerate) *)
Definition fnormal (a b : vec64) : vec64 := unit64 (fcross a b).
(** core.py 559: sin_theta = -dot(c_E, n_EB_E) *)
Definition fsin_theta (dot : vec64 -> vec64 -> float64) (a b q : vec64) : float64 := fneg (dot (fnormal a b) q).
(** core.py 524, 563: arcsin(sin_theta) * radius *)
Definition fcross_track_distance (dot : vec64 -> vec64 -> float64) (arcsin : float64 -> float64) (a b q : vec64) (radius : float64) : float64 :=
  fmul (arcsin (fsin_theta dot a b q)) radius.

(** the C library's arcsin is NaN outside [-1, 1] *)
Definition arcsin_domain (arcsin : float64 -> float64) : Prop := forall x, 1 < Rabs (B2R x) -> arcsin x = B754_nan.

Definition ftwo : float64 := f 4503599627370496 (-51) eq_refl.
Definition path_a : vec64 := unit64 (fone, fzero, fone).
Definition path_b : vec64 := unit64 (fzero, fone, ftwo).
Definition pole : vec64 := fnormal path_a path_b.


Definition fgt1 (x : float64) : bool := match Bcompare (fabs x) fone with Some Gt => true | _ => false end.
Lemma fgt1_spec x : is_finite x = true -> fgt1 x = true -> 1 < Rabs (B2R x).
Proof.
  intros F H. unfold fgt1 in H. rewrite Bcompare_correct in H; [|unfold fabs; rewrite is_finite_Babs; exact F|reflexivity].
  unfold fabs in H. rewrite B2R_Babs, fone_val in H. destruct (Rcompare_spec (Rabs (B2R x)) 1); try discriminate. auto.
Qed.

(** ** accuracy *)
Lemma cross_vec_err a b : near_unit a -> near_unit b ->
  let '(cx, cy, cz) := fcross a b in is_finite cx = true /\ is_finite cy = true /\ is_finite cz = true /\
  Rabs (B2R cx) <= 2 /\ Rabs (B2R cy) <= 2 /\ Rabs (B2R cz) <= 2 /\
  vnorm (vsub (vec_of (fcross a b)) (vcross (vec_of a) (vec_of b))) <= 402 / 100 * u.
Proof.
  destruct a as [[a0 a1] a2], b as [[b0 b1] b2]. intros Na Nb. pose proof u_pos as Pu. pose proof u_small as Su. pose proof eta_pos as Pe. pose proof tiny_consts as TC.
  pose proof (bpow_gt_0 radix2 (-399)) as P399.
  destruct (comp_bound _ _ _ Na) as (Fa0 & Fa1 & Fa2 & Ha0 & Ha1 & Ha2 & La).
  destruct (comp_bound _ _ _ Nb) as (Fb0 & Fb1 & Fb2 & Hb0 & Hb1 & Hb2 & Lb). clear Na Nb.
  unfold fcross.
  destruct (comp_err a1 b2 a2 b1) as (Fx & Dx); auto. destruct (comp_err a2 b0 a0 b2) as (Fy & Dy); auto. destruct (comp_err a0 b1 a1 b0) as (Fz & Dz); auto.
  set (cx := fsub (fmul a1 b2) (fmul a2 b1)) in *. set (cy := fsub (fmul a2 b0) (fmul a0 b2)) in *. set (cz := fsub (fmul a0 b1) (fmul a1 b0)) in *.
  unfold vec_of at 2 3. set (X := vcross _ _). set (d := vsub (vec_of (cx, cy, cz)) X).
  assert (EX : vec_of (cx, cy, cz) = vadd X d) by apply vadd_sub_id.
  assert (Sum : Rabs (vx d) + Rabs (vy d) + Rabs (vz d) <= 401 / 100 * u + 9 * eta).
  { unfold d, X, vec_of, vsub, vcross; cbn [Spec.vx Spec.vy Spec.vz].
    assert (Q : forall w, w * w = Rabs w * Rabs w). { intros w. rewrite <- Rabs_mult. symmetry. apply Rabs_right. nra. }
    rewrite (Q (B2R a0)), (Q (B2R a1)), (Q (B2R a2)) in La. rewrite (Q (B2R b0)), (Q (B2R b1)), (Q (B2R b2)) in Lb.
    set (A0 := Rabs (B2R a0)) in *. set (A1 := Rabs (B2R a1)) in *. set (A2 := Rabs (B2R a2)) in *.
    set (B0 := Rabs (B2R b0)) in *. set (B1 := Rabs (B2R b1)) in *. set (B2 := Rabs (B2R b2)) in *.
    set (N := A1 * B2 + A2 * B1 + (A2 * B0 + A0 * B2) + (A0 * B1 + A1 * B0)).
    assert (HN : N <= 2 * ((1 + 6 * u) * (1 + 6 * u))).
    { pose proof amgm as T.
      pose proof (T A1 B2). pose proof (T A2 B1). pose proof (T A2 B0). pose proof (T A0 B2). pose proof (T A0 B1). pose proof (T A1 B0). unfold N. lra. }
    assert (PE : 0 < 2 * u + 2 * (u * u)) by nra.
    assert (HM : (2 * u + 2 * (u * u)) * N <= (2 * u + 2 * (u * u)) * (2 * ((1 + 6 * u) * (1 + 6 * u)))) by (apply Rmult_le_compat_l; lra).
    apply Rle_trans with ((2 * u + 2 * (u * u)) * N + 9 * eta); [unfold N; lra|]. apply Rplus_le_compat_r.
    eapply Rle_trans; [exact HM|]. replace ((2 * u + 2 * (u * u)) * (2 * ((1 + 6 * u) * (1 + 6 * u)))) with (u * (4 * (1 + u) * ((1 + 6 * u) * (1 + 6 * u)))) by ring.
    rewrite (Rmult_comm (401 / 100)). apply Rmult_le_compat_l; [lra|]. nra. }
  assert (ND : vnorm d <= 401 / 100 * u + 9 * eta) by (eapply Rle_trans; [apply norm_sum3|exact Sum]).
  assert (VA : vnorm (V (B2R a0) (B2R a1) (B2R a2)) * vnorm (V (B2R a0) (B2R a1) (B2R a2)) <= (1 + 6 * u) * (1 + 6 * u)) by (rewrite vnorm_sq; unfold vdot; cbn [Spec.vx Spec.vy Spec.vz]; lra).
  assert (VB : vnorm (V (B2R b0) (B2R b1) (B2R b2)) * vnorm (V (B2R b0) (B2R b1) (B2R b2)) <= (1 + 6 * u) * (1 + 6 * u)) by (rewrite vnorm_sq; unfold vdot; cbn [Spec.vx Spec.vy Spec.vz]; lra).
  assert (NX : vnorm X <= 1 + 1 / 1000).
  { pose proof (vcross_norm_sq (V (B2R a0) (B2R a1) (B2R a2)) (V (B2R b0) (B2R b1) (B2R b2))) as C. fold X in C.
    pose proof (vnorm_pos X). set (p := vnorm (V (B2R a0) (B2R a1) (B2R a2)) * _) in *. set (q := vnorm (V (B2R b0) (B2R b1) (B2R b2)) * _) in *.
    assert (0 <= p) by (unfold p; nra). assert (0 <= q) by (unfold q; nra).
    assert (p <= 1 + 1 / 10000) by nra. assert (q <= 1 + 1 / 10000) by nra.
    assert (p * q <= (1 + 1 / 10000) * (1 + 1 / 10000)) by (apply Rmult_le_compat; auto).
    match type of C with _ = _ - ?w * ?w => assert (0 <= w * w) by nra end. nra. }
  assert (PX : 0 <= vnorm X) by apply vnorm_pos.
  pose proof (norm_perturb X d) as NP. rewrite <- EX in NP. apply Rabs_le_inv in NP.
  assert (LB : vnorm (vec_of (cx, cy, cz)) <= 1 + 2 / 1000) by lra.
  assert (CB : Rabs (B2R cx) <= 2 /\ Rabs (B2R cy) <= 2 /\ Rabs (B2R cz) <= 2).
  { pose proof (vnorm_pos (vec_of (cx, cy, cz))) as P0. pose proof (vnorm_sq (vec_of (cx, cy, cz))) as S0. unfold vdot, vec_of in S0; cbn [Spec.vx Spec.vy Spec.vz] in S0. fold (vec_of (cx, cy, cz)) in S0.
    change (V (B2R cx) (B2R cy) (B2R cz)) with (vec_of (cx, cy, cz)) in S0.
    assert (W : forall w, w * w <= 4 -> Rabs w <= 2). { intros w Hw. apply Rabs_le. nra. }
    repeat split; apply W; nra. }
  destruct CB as (Cx & Cy & Cz). repeat (split; [assumption|]). lra.
Qed.

Lemma unit64_vec_err a : ordinary_vec a -> vec_of a <> v0 /\ vnorm (vsub (vec_of (unit64 a)) (direction (vec_of a))) <= 501 / 100 * u.
Proof.
  intros O. destruct a as [[x y] z]. pose proof u_pos as Pu. pose proof u_small as Su. pose proof eta_pos as Pe. pose proof tiny_consts as TC. pose proof (bpow_gt_0 radix2 (-399)) as P3.
  destruct (C76_unit_accuracy x y z O) as (_ & _ & _ & Dx & Dy & Dz & _).
  assert (NL : vec_of (x, y, z) <> v0).
  { destruct O as (_ & _ & _ & _ & _ & _ & G). pose proof (bpow_gt_0 radix2 (-400)). intros E. injection E as Ex Ey Ez. rewrite Ex, Ey, Ez, Rabs_R0 in G. lra. }
  split; auto. rewrite length3_vnorm in Dx, Dy, Dz. pose proof (vnorm_nz _ NL) as PL.
  pose proof (direction_unit _ NL) as N1. set (p := vec_of (x, y, z)) in *. set (q := vec_of (unit64 (x, y, z))) in *.
  set (n := direction p) in *. set (d := vsub q n).
  set (e := vadd (vscale (5 * u) (V (Rabs (vx n)) (Rabs (vy n)) (Rabs (vz n)))) (V eta eta eta)).
  assert (Cn : vx n = B2R x / vnorm p /\ vy n = B2R y / vnorm p /\ vz n = B2R z / vnorm p).
  { unfold n, direction, vscale, p, vec_of; cbn [Spec.vx Spec.vy Spec.vz]. repeat split; unfold Rdiv; ring. }
  destruct Cn as (Cx & Cy & Cz).
  assert (ND : vnorm d <= vnorm e).
  { apply norm_le_comp; unfold d, q, e, unit64, vec_of, vsub, vadd, vscale; cbn [Spec.vx Spec.vy Spec.vz]; [rewrite Cx|rewrite Cy|rewrite Cz]; auto. }
  assert (NE : vnorm e <= 5 * u + 3 * eta).
  { unfold e. eapply Rle_trans; [apply norm_triangle|]. rewrite vnorm_scale, (Rabs_right (5 * u)) by lra.
    assert (vnorm (V (Rabs (vx n)) (Rabs (vy n)) (Rabs (vz n))) = 1).
    { rewrite <- N1. unfold vnorm. f_equal. unfold vdot; cbn [Spec.vx Spec.vy Spec.vz]. rewrite <- !Rabs_mult, !Rabs_right by nra. reflexivity. }
    rewrite H. pose proof (norm_sum3 (V eta eta eta)) as S. cbn [Spec.vx Spec.vy Spec.vz] in S. rewrite Rabs_right in S by lra. lra. }
  lra.
Qed.

Lemma direction_perturb p q : p <> v0 -> q <> v0 -> vnorm (vsub (direction q) (direction p)) <= 2 * vnorm (vsub q p) / vnorm p.
Proof.
  intros Np Nq. pose proof (vnorm_nz _ Np) as Pp. pose proof (vnorm_nz _ Nq) as Pq.
  assert (E : vsub (direction q) (direction p) = vadd (vscale (/ vnorm p) (vsub q p)) (vscale (/ vnorm q - / vnorm p) q)).
  { unfold direction. generalize (/ vnorm p) (/ vnorm q). clear. intros. vring. }
  rewrite E. eapply Rle_trans; [apply norm_triangle|]. rewrite !vnorm_scale.
  rewrite (Rabs_right (/ vnorm p)) by (apply Rle_ge; left; apply Rinv_0_lt_compat; auto).
  assert (K : Rabs (/ vnorm q - / vnorm p) * vnorm q <= vnorm (vsub q p) / vnorm p).
  { replace (/ vnorm q - / vnorm p) with (- (vnorm q - vnorm p) / (vnorm p * vnorm q)) by (field; lra).
    unfold Rdiv. rewrite Rabs_mult, Rabs_Ropp, (Rabs_right (/ _)).
    2:{ apply Rle_ge. left. apply Rinv_0_lt_compat. apply Rmult_lt_0_compat; auto. }
    replace (Rabs (vnorm q - vnorm p) * / (vnorm p * vnorm q) * vnorm q) with (Rabs (vnorm q - vnorm p) * / vnorm p) by (field; lra).
    apply Rmult_le_compat_r; [left; apply Rinv_0_lt_compat; auto|].
    pose proof (norm_perturb p (vsub q p)) as N. rewrite <- vadd_sub_id in N. exact N. }
  replace (2 * vnorm (vsub q p) / vnorm p) with (/ vnorm p * vnorm (vsub q p) + vnorm (vsub q p) / vnorm p) by (field; lra). lra.
Qed.

(** the computed normal, for paths longer than 10 units of roundoff *)
Lemma normal_err a b : near_unit a -> near_unit b ->
  let s := vnorm (vcross (vec_of a) (vec_of b)) in 10 * u <= s ->
  near_unit (fnormal a b) /\ vcross (vec_of a) (vec_of b) <> v0 /\
  vnorm (vsub (vec_of (fnormal a b)) (direction (vcross (vec_of a) (vec_of b)))) <= 501 / 100 * u + 804 / 100 * u / s.
Proof.
  intros Na Nb s Hs. pose proof u_pos as Pu. pose proof u_small as Su.
  pose proof (cross_vec_err a b Na Nb) as CE. unfold fnormal. destruct (fcross a b) as [[cx cy] cz] eqn:EC.
  destruct CE as (Fx & Fy & Fz & Bx & By & Bz & D). set (X := vcross (vec_of a) (vec_of b)) in *. set (c := vec_of (cx, cy, cz)) in *.
  assert (NX : X <> v0). { intros E. unfold s in Hs. rewrite E, vnorm_v0 in Hs. lra. }
  pose proof (norm_perturb X (vsub c X)) as NP. rewrite <- vadd_sub_id in NP. apply Rabs_le_inv in NP. fold s in NP.
  assert (L : 5 * u <= vnorm c) by lra.
  assert (O : ordinary_vec (cx, cy, cz)).
  { assert (P4 : 2 <= bpow radix2 400) by (change 2 with (bpow radix2 1); apply bpow_le; lia).
    repeat (split; [first [assumption|lra]|]).
    destruct (Rle_dec (bpow radix2 (-400)) (Rabs (B2R cx))) as [G|G]; [auto|].
    destruct (Rle_dec (bpow radix2 (-400)) (Rabs (B2R cy))) as [G1|G1]; [auto|].
    destruct (Rle_dec (bpow radix2 (-400)) (Rabs (B2R cz))) as [G2|G2]; [auto|].
    exfalso. pose proof (norm_sum3 (vec_of (cx, cy, cz))) as S. change (vx (vec_of (cx, cy, cz))) with (B2R cx) in S. change (vy (vec_of (cx, cy, cz))) with (B2R cy) in S. change (vz (vec_of (cx, cy, cz))) with (B2R cz) in S.
    apply Rnot_le_lt in G, G1, G2. assert (bpow radix2 (-400) <= u) by (apply bpow_le; lia). fold c in S. lra. }
  split; [apply unit64_near; exact O|]. split; [exact NX|].
  destruct (unit64_vec_err _ O) as (Nc & U). fold c in Nc, U.
  replace (vsub (vec_of (unit64 (cx, cy, cz))) (direction X)) with (vadd (vsub (vec_of (unit64 (cx, cy, cz))) (direction c)) (vsub (direction c) (direction X)))
    by (generalize (vec_of (unit64 (cx, cy, cz))) (direction c) (direction X); clear; intros; vring).
  eapply Rle_trans; [apply norm_triangle|]. apply Rplus_le_compat; [exact U|].
  eapply Rle_trans; [apply direction_perturb; auto|]. fold s. unfold Rdiv. apply Rmult_le_compat_r; [left; apply Rinv_0_lt_compat; lra|]. lra.
Qed.

Theorem C85_sine_accuracy : forall dot a b q, good_dot dot -> near_unit a -> near_unit b -> near_unit q ->
  let s := vnorm (vcross (vec_of a) (vec_of b)) in 10 * u <= s ->
  is_finite (fsin_theta dot a b q) = true /\
  Rabs (B2R (fsin_theta dot a b q) - - vdot (direction (vcross (vec_of a) (vec_of b))) (vec_of q)) <= 10 * u + 9 * u / s.
Proof.
  intros dot a b q GD Na Nb Nq s Hs. pose proof u_pos as Pu. pose proof u_small as Su.
  destruct (normal_err a b Na Nb Hs) as (Nn & NX & E). fold s in E. set (n := direction _) in *.
  destruct (GD _ _ Nn Nq) as (F & D). unfold fsin_theta, fneg. rewrite is_finite_Bopp, B2R_Bopp. split; [exact F|].
  assert (Lq : vnorm (vec_of q) <= 1 + 6 * u).
  { destruct q as [[q0 q1] q2]. destruct Nq as (_ & _ & _ & L). rewrite length3_vnorm in L. apply Rabs_le_inv in L. lra. }
  set (m := vec_of (fnormal a b)) in *. set (Q := vec_of q) in *.
  assert (K : Rabs (vdot (vsub m n) Q) <= (501 / 100 * u + 804 / 100 * u / s) * (1 + 6 * u)).
  { eapply Rle_trans; [apply cauchy_schwarz|]. apply Rmult_le_compat; auto using vnorm_pos. }
  replace (vdot (vsub m n) Q) with (vdot m Q - vdot n Q) in K by (clear; vring).
  assert (Ps : 0 < u / s) by (apply Rdiv_lt_0_compat; lra).
  replace (804 / 100 * u / s) with (804 / 100 * (u / s)) in K by (unfold Rdiv; ring).
  replace (9 * u / s) with (9 * (u / s)) by (unfold Rdiv; ring).
  assert ((501 / 100 * u + 804 / 100 * (u / s)) * (1 + 6 * u) <= 502 / 100 * u + 805 / 100 * (u / s)) by nra.
  apply Rabs_le_inv in K. apply Rabs_le_inv in D. apply Rabs_le. lra.
Qed.
Print Assumptions C85_sine_accuracy.

(** comparisons with a known number, by computation *)
Definition fgt (x y : float64) : bool := match Bcompare x y with Some Gt => true | _ => false end.
Lemma fgt_spec x y : is_finite x = true -> is_finite y = true -> fgt x y = true -> B2R y < B2R x.
Proof.
  intros F G H. unfold fgt in H. rewrite Bcompare_correct in H; auto. destruct (Rcompare_spec (B2R x) (B2R y)); try discriminate. auto.
Qed.
Definition fhalf : float64 := f 4503599627370496 (-53) eq_refl.
Lemma fhalf_val : B2R fhalf = / 2. Proof. unfold fhalf, f, B2R, F2R; cbn. lra. Qed.
Lemma ftwo_val : B2R ftwo = 2. Proof. unfold ftwo, f, B2R, F2R; cbn. lra. Qed.
Lemma fzero_val : B2R fzero = 0. Proof. reflexivity. Qed.

Lemma between_1 r : 1 <= r <= 3 -> bpow radix2 (-400) <= Rabs r /\ Rabs r <= bpow radix2 400.
Proof.
  intros H. rewrite Rabs_right by lra. split.
  - apply Rle_trans with (bpow radix2 0); [apply bpow_le; lia|cbn; lra].
  - apply Rle_trans with (bpow radix2 2); [cbn; lra|apply bpow_le; lia].
Qed.
Lemma path_a_unit : near_unit path_a.
Proof.
  apply unit64_near. unfold ordinary_vec, ordinary. rewrite fone_val, fzero_val, Rabs_R0. pose proof (between_1 1 ltac:(lra)). pose proof (bpow_ge_0 radix2 400). intuition (reflexivity || lra).
Qed.
Lemma path_b_unit : near_unit path_b.
Proof.
  apply unit64_near. unfold ordinary_vec, ordinary. rewrite fone_val, fzero_val, ftwo_val, Rabs_R0. pose proof (between_1 1 ltac:(lra)). pose proof (between_1 2 ltac:(lra)). pose proof (bpow_ge_0 radix2 400).
  intuition (reflexivity || lra).
Qed.
Lemma path_long : 4 / 10 <= vnorm (vcross (vec_of path_a) (vec_of path_b)).
Proof.
  destruct (cross_err _ _ path_a_unit path_b_unit) as (F & _ & _ & E). apply Rabs_le_inv in E. pose proof u_small.
  assert (G : B2R fhalf < B2R (fnorm (fcross path_a path_b))) by (apply fgt_spec; [exact F|reflexivity|vm_compute; reflexivity]).
  rewrite fhalf_val in G. lra.
Qed.

(** a path between two unit vectors, at a right angle to the pole of its great circle; every vector is the result of unit() *)
Theorem C85_pole_nan_refuted : exists a b q, near_unit a /\ near_unit b /\ near_unit q /\
  vnorm (vcross (vec_of a) (vec_of b)) >= 4 / 10 /\
  forall arcsin radius, arcsin_domain arcsin ->
    fcross_track_distance dot_seq arcsin a b q radius = B754_nan /\ fcross_track_distance dot_fma arcsin a b q radius = B754_nan.
Proof.
  exists path_a, path_b, pole. pose proof path_long as PL. pose proof u_small as Su.
  split; [exact path_a_unit|]. split; [exact path_b_unit|]. split.
  { apply normal_err; [exact path_a_unit|exact path_b_unit|lra]. }
  split; [lra|]. intros arcsin radius D. unfold fcross_track_distance.
  rewrite (D (fsin_theta dot_seq path_a path_b pole)), (D (fsin_theta dot_fma path_a path_b pole)).
  - split; destruct radius; reflexivity.
  - apply fgt1_spec; vm_compute; reflexivity.
  - apply fgt1_spec; vm_compute; reflexivity.
Qed.
Print Assumptions C85_pole_nan_refuted.


(** ** from sines to distances *)
(** what is required of arcsin inside its domain: one unit in the last place *)
Definition good_arcsin (arcsin : float64 -> float64) : Prop :=
  forall x, is_finite x = true -> -1 <= B2R x <= 1 ->
    is_finite (arcsin x) = true /\ Rabs (B2R (arcsin x) - asin (B2R x)) <= 2 * u * Rabs (asin (B2R x)) + 2 * eta.

Lemma sin_spread t t' T : 0 <= T < PI / 2 -> - T <= t <= T -> - T <= t' <= T -> cos T * Rabs (t - t') <= Rabs (sin t - sin t').
Proof.
  intros HT Ht Ht'. assert (W : forall x y, - T <= x -> x < y -> y <= T -> cos T * (y - x) <= sin y - sin x).
  { intros x y Hx Hxy Hy. destruct (MVT_cor2 sin cos x y Hxy) as (c & E & Hc). { intros c _. apply derivable_pt_lim_sin. }
    rewrite E. apply Rmult_le_compat_r; [lra|]. destruct (Rle_dec 0 c) as [P|P].
    - apply cos_decr_1; pose proof PI_RGT_0; lra.
    - rewrite <- (cos_neg c). apply cos_decr_1; pose proof PI_RGT_0; lra. }
  destruct (Rtotal_order t t') as [L|[->|L]].
  - specialize (W t t' ltac:(lra) L ltac:(lra)). rewrite (Rabs_left (t - t')) by lra.
    rewrite <- (Rabs_Ropp (sin t - sin t')). eapply Rle_trans; [|apply Rle_abs]. lra.
  - rewrite !Rminus_diag_eq by reflexivity. rewrite Rabs_R0. lra.
  - specialize (W t' t ltac:(lra) L ltac:(lra)). rewrite (Rabs_right (t - t')) by lra. eapply Rle_trans; [|apply Rle_abs]. lra.
Qed.
Lemma asin_le x y : -1 <= x -> x <= y -> y <= 1 -> asin x <= asin y.
Proof.
  intros Hx Hxy Hy. destruct (Rle_lt_dec (asin x) (asin y)) as [|L]; auto. exfalso.
  pose proof (asin_bound x). pose proof (asin_bound y).
  assert (sin (asin y) < sin (asin x)) by (apply sin_increasing_1; lra). rewrite !sin_asin in H1 by lra. lra.
Qed.
Lemma asin_spread x y m : 0 <= m < 1 -> Rabs x <= m -> Rabs y <= m -> Rabs (asin x - asin y) <= Rabs (x - y) / sqrt (1 - m * m).
Proof.
  intros Hm Hx Hy. apply Rabs_le_inv in Hx. apply Rabs_le_inv in Hy.
  pose proof (asin_bound_lt m ltac:(lra)) as B. assert (0 <= asin m) by (rewrite <- asin_0; apply asin_le; lra).
  pose proof (sin_spread (asin x) (asin y) (asin m) ltac:(lra)) as S. rewrite <- asin_opp in S.
  assert (P : 0 < sqrt (1 - m * m)) by (apply sqrt_lt_R0; nra).
  specialize (S ltac:(split; apply asin_le; lra) ltac:(split; apply asin_le; lra)).
  rewrite cos_asin, !sin_asin in S by lra. replace (1 - m²) with (1 - m * m) in S by (unfold Rsqr; ring).
  apply Rmult_le_reg_l with (sqrt (1 - m * m)); auto. replace (sqrt (1 - m * m) * (Rabs (x - y) / sqrt (1 - m * m))) with (Rabs (x - y)) by (field; lra). exact S.
Qed.

(** the exact cross track angle of q: the arcsine of the component of the direction of q against the normal (C19 proves that in real arithmetic
    this is the signed angle to the great circle) *)
Definition track_sine (a b q : vec) : R := - vdot (direction (vcross a b)) (direction q).

Lemma track_sine_bound a b q : vcross a b <> v0 -> q <> v0 -> Rabs (track_sine a b q) <= 1.
Proof.
  intros N1 N2. unfold track_sine. rewrite Rabs_Ropp. eapply Rle_trans; [apply cauchy_schwarz|]. rewrite !direction_unit by auto. lra.
Qed.

Lemma mul_radius (t radius : float64) : is_finite t = true -> is_finite radius = true -> Rabs (B2R t) <= 2 -> Rabs (B2R radius) <= bpow radix2 1000 ->
  is_finite (fmul t radius) = true /\ Rabs (B2R (fmul t radius) - B2R t * B2R radius) <= u * Rabs (B2R t) * Rabs (B2R radius) + eta.
Proof.
  intros Ft Fr Ht Hr.
  destruct (fmul_val t radius Ft Fr) as (F & E).
  { rewrite Rabs_mult. apply Rle_trans with (2 * bpow radix2 1000); [apply Rmult_le_compat; auto using Rabs_pos|].
    change 2 with (bpow radix2 1). rewrite <- bpow_plus. apply bpow_le. lia. }
  split; [exact F|]. rewrite E. destruct (rnd_err (B2R t * B2R radius)) as (e & h & He & Hh & ->).
  replace (B2R t * B2R radius * (1 + e) + h - B2R t * B2R radius) with (B2R t * B2R radius * e + h) by ring.
  eapply Rle_trans; [apply Rabs_triang|]. rewrite !Rabs_mult.
  assert (Rabs (B2R t) * Rabs (B2R radius) * Rabs e <= Rabs (B2R t) * Rabs (B2R radius) * u).
  { apply Rmult_le_compat_l; [apply Rmult_le_pos; apply Rabs_pos|exact He]. }
  lra.
Qed.

Theorem C85_distance_accuracy : forall dot arcsin a b q radius m,
  good_dot dot -> good_arcsin arcsin -> near_unit a -> near_unit b -> near_unit q ->
  is_finite radius = true -> Rabs (B2R radius) <= bpow radix2 1000 ->
  let s := vnorm (vcross (vec_of a) (vec_of b)) in
  let err := 16 * u + 9 * u / s in
  let sine := track_sine (vec_of a) (vec_of b) (vec_of q) in
  10 * u <= s -> 0 <= m < 1 -> Rabs sine + err <= m ->
  is_finite (fcross_track_distance dot arcsin a b q radius) = true /\
  Rabs (B2R (fcross_track_distance dot arcsin a b q radius) - asin sine * B2R radius) <= (err / sqrt (1 - m * m) + 6 * u) * Rabs (B2R radius) + eta.
Proof.
  intros dot arcsin a b q radius m GD GA Na Nb Nq Fr Hr s err sine Hs Hm Hb. pose proof u_pos as Pu. pose proof u_small as Su. pose proof eta_pos as Pe.
  pose proof tiny_consts as TC. pose proof (bpow_gt_0 radix2 (-399)) as P399.
  destruct (C85_sine_accuracy dot a b q GD Na Nb Nq Hs) as (F & D). fold s in D.
  destruct (normal_err a b Na Nb Hs) as (_ & NX & _).
  assert (Lq : Rabs (vnorm (vec_of q) - 1) <= 6 * u).
  { destruct q as [[q0 q1] q2]. destruct Nq as (_ & _ & _ & L). rewrite length3_vnorm in L. exact L. }
  set (Q := vec_of q) in *. set (n := direction (vcross (vec_of a) (vec_of b))) in *.
  assert (NQ : Q <> v0). { intros E. rewrite E, vnorm_v0 in Lq. apply Rabs_le_inv in Lq. lra. }
  assert (Ps : 0 < u / s) by (apply Rdiv_lt_0_compat; lra).
  assert (K : Rabs (vdot n Q - vdot n (direction Q)) <= 6 * u).
  { pose proof (vnorm_nz _ NQ) as PQ. replace (vdot n Q) with (vnorm Q * vdot n (direction Q)).
    2:{ unfold direction. replace (vdot n (vscale (/ vnorm Q) Q)) with (/ vnorm Q * vdot n Q) by (generalize (/ vnorm Q); clear; intros; vring). field. lra. }
    replace (vnorm Q * vdot n (direction Q) - vdot n (direction Q)) with ((vnorm Q - 1) * vdot n (direction Q)) by ring. rewrite Rabs_mult.
    assert (C : Rabs (vdot n (direction Q)) <= 1). { pose proof (track_sine_bound (vec_of a) (vec_of b) Q NX NQ) as T. unfold track_sine in T. rewrite Rabs_Ropp in T. exact T. }
    replace (6 * u) with (6 * u * 1) by ring. apply Rmult_le_compat; auto using Rabs_pos. }
  set (x := fsin_theta dot a b q) in *.
  assert (D' : Rabs (B2R x - sine) <= err).
  { unfold sine, track_sine. fold n. fold Q. unfold err. apply Rabs_le_inv in K. apply Rabs_le_inv in D. apply Rabs_le. lra. }
  assert (Pr : 0 <= err). { unfold err. replace (9 * u / s) with (9 * (u / s)) by (unfold Rdiv; ring). lra. }
  assert (Bx : Rabs (B2R x) <= m). { pose proof (Rabs_triang (B2R x - sine) sine) as T. replace (B2R x - sine + sine) with (B2R x) in T by ring. lra. }
  destruct (GA x F) as (Fa & Da). { apply Rabs_le_inv in Bx. lra. }
  pose proof (asin_spread (B2R x) sine m Hm Bx ltac:(lra)) as AS.
  assert (Psq : 0 < sqrt (1 - m * m)) by (apply sqrt_lt_R0; nra).
  assert (AS' : Rabs (asin (B2R x) - asin sine) <= err / sqrt (1 - m * m)).
  { eapply Rle_trans; [exact AS|]. unfold Rdiv. apply Rmult_le_compat_r; [left; apply Rinv_0_lt_compat; auto|exact D']. }
  assert (Bp : Rabs (asin (B2R x)) <= 17 / 10). { pose proof (asin_bound (B2R x)). pose proof PI_33. apply Rabs_le. lra. }
  assert (Da' : Rabs (B2R (arcsin x) - asin (B2R x)) <= 35 / 10 * u). { eapply Rle_trans; [exact Da|]. nra. }
  assert (Bt : Rabs (B2R (arcsin x)) <= 18 / 10).
  { pose proof (Rabs_triang (B2R (arcsin x) - asin (B2R x)) (asin (B2R x))) as T. replace (B2R (arcsin x) - asin (B2R x) + asin (B2R x)) with (B2R (arcsin x)) in T by ring. lra. }
  unfold fcross_track_distance. fold x. destruct (mul_radius (arcsin x) radius Fa Fr ltac:(lra) Hr) as (Fm & Em). split; [exact Fm|].
  set (R := Rabs (B2R radius)) in *. assert (PR : 0 <= R) by apply Rabs_pos.
  assert (E1 : Rabs (B2R (arcsin x) * B2R radius - asin sine * B2R radius) <= (35 / 10 * u + err / sqrt (1 - m * m)) * R).
  { replace (B2R (arcsin x) * B2R radius - asin sine * B2R radius) with ((B2R (arcsin x) - asin (B2R x) + (asin (B2R x) - asin sine)) * B2R radius) by ring.
    rewrite Rabs_mult. apply Rmult_le_compat_r; [exact PR|]. eapply Rle_trans; [apply Rabs_triang|]. lra. }
  assert (E2 : u * Rabs (B2R (arcsin x)) * R <= u * (18 / 10) * R).
  { apply Rmult_le_compat_r; auto. apply Rmult_le_compat_l; lra. }
  assert (0 <= u * R) by (apply Rmult_le_pos; lra).
  replace (B2R (fmul (arcsin x) radius) - asin sine * B2R radius) with
    ((B2R (fmul (arcsin x) radius) - B2R (arcsin x) * B2R radius) + (B2R (arcsin x) * B2R radius - asin sine * B2R radius)) by ring.
  eapply Rle_trans; [apply Rabs_triang|]. lra.
Qed.
Print Assumptions C85_distance_accuracy.

(** on the Earth: a path of at least about 100 km, and as far from half a turn; a point up to 4900 km from its great circle: 1 micrometre *)
Theorem C85_earth : forall dot arcsin a b q, good_dot dot -> good_arcsin arcsin -> near_unit a -> near_unit b -> near_unit q ->
  let sine := track_sine (vec_of a) (vec_of b) (vec_of q) in
  1 / 64 <= vnorm (vcross (vec_of a) (vec_of b)) -> Rabs sine <= 7 / 10 ->
  Rabs (B2R (fcross_track_distance dot arcsin a b q earth_radius) - asin sine * 6371009) <= / 1000000.
Proof.
  intros dot arcsin a b q GD GA Na Nb Nq sine Hs Hb. pose proof u_pos as Pu. pose proof u_small as Su. set (s := vnorm _) in *.
  assert (U : u <= / 9000000000000000). { unfold u. apply Rle_trans with (/ 9007199254740992); [cbn; lra|lra]. }
  assert (E9 : 9 * u / s <= 576 * u).
  { apply Rmult_le_reg_r with s; [lra|]. replace (9 * u / s * s) with (9 * u) by (field; lra). nra. }
  assert (P9 : 0 < 9 * u / s) by (apply Rdiv_lt_0_compat; lra).
  destruct (C85_distance_accuracy dot arcsin a b q earth_radius (71 / 100) GD GA Na Nb Nq) as (_ & D); auto.
  { rewrite earth_radius_val, Rabs_right by lra. apply Rle_trans with (bpow radix2 30); [cbn; lra|apply bpow_le; lia]. }
  { fold s. lra. } { lra. } { fold s. fold sine. lra. }
  fold s sine in D. rewrite earth_radius_val in D. rewrite (Rabs_right 6371009) in D by lra.
  eapply Rle_trans; [exact D|].
  assert (Sq : 7 / 10 <= sqrt (1 - 71 / 100 * (71 / 100))).
  { rewrite <- (sqrt_square (7 / 10)) by lra. apply sqrt_le_1_alt. lra. }
  assert (Dv : (16 * u + 9 * u / s) / sqrt (1 - 71 / 100 * (71 / 100)) <= 592 * u / (7 / 10)).
  { unfold Rdiv at 1 5. apply Rmult_le_compat; [lra| |lra|apply Rinv_le_contravar; lra]. left. apply Rinv_0_lt_compat. lra. }
  pose proof tiny_consts as TC. pose proof (bpow_gt_0 radix2 (-399)) as P399. pose proof eta_pos. lra.
Qed.
Print Assumptions C85_earth.
