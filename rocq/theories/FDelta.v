(** * C92: the vector from A to B, in E and in North-East-Down at A, in binary64 *)
From Coq Require Import ZArith Reals Lra Lia Bool Psatz Nsatz.
From Flocq Require Import Core BinarySingleNaN Relative.
From Verif Require Import Spec LVec LAngle FTiny FZero FBase FRel FRel2 FUnit FPi FAngle FDist FGreat FLatLon FInv FEcef FEcef2 FNed FNed2 FNed3.
Local Open Scope R_scope.

(** n_EA_E_and_n_EB_E2p_AB_E, core.py 294-297, one pair of positions, default R_Ee; objects.delta_E (objects.py 74-78) is the same subtraction *)
Definition fdelta_E (nA nB : vec64) (zA zB a f : float64) : vec64 := fsubv (fn_EB_E2p_EB_E nB zB a f) (fn_EB_E2p_EB_E nA zA a f).
(** ECEFvector.change_frame, objects.py 771-773, to the frame with columns north, east, down; [dot] is the sum of three products inside einsum *)
Definition fchange_frame (dot : vec64 -> vec64 -> float64) (R_EN : vec64 * vec64 * vec64) (p : vec64) : vec64 :=
  let '(north, east, down) := R_EN in (dot north p, dot east p, dot down p).
(** delta_N, objects.py 89-103 *)
Definition fdelta_N dot (nA nB : vec64) (zA zB a f : float64) : vec64 := fchange_frame dot (fn_E2R_EN nA) (fdelta_E nA nB zA zB a f).

(** ** exact laws: no distance from a point to itself, and the way back is the opposite *)
Theorem C92_zero : forall n z a f, finite_vec (fn_EB_E2p_EB_E n z a f) -> fdelta_E n n z z a f = (fzero, fzero, fzero).
Proof.
  intros n z a f. unfold fdelta_E. destruct (fn_EB_E2p_EB_E n z a f) as [[x y] w]. intros (F0 & F1 & F2). unfold fsubv. rewrite !fsub_self by auto. reflexivity.
Qed.
Lemma fsub_anti_val p q : B2R (fsub q p) = - B2R (fsub p q).
Proof.
  destruct (fsub_anti p q) as [E|(s & t & E1 & E2)]; [rewrite E; unfold fneg; apply B2R_Bopp|]. rewrite E1, E2. cbn [B2R]. lra.
Qed.
Theorem C92_antisymmetric : forall nA nB zA zB a f, vec_of (fdelta_E nB nA zB zA a f) = vneg (vec_of (fdelta_E nA nB zA zB a f)).
Proof.
  intros nA nB zA zB a f. unfold fdelta_E. destruct (fn_EB_E2p_EB_E nA zA a f) as [[x y] w]. destruct (fn_EB_E2p_EB_E nB zB a f) as [[x' y'] w'].
  unfold fsubv, vec_of, vneg. cbn [Spec.vx Spec.vy Spec.vz]. rewrite (fsub_anti_val x' x), (fsub_anti_val y' y), (fsub_anti_val w' w). reflexivity.
Qed.

(** ** a sum of three products: 4 units of roundoff of the sum of the magnitudes, in whatever order and with or without fused operations *)
Definition magnitude (a p : vec) : R := Rabs (Spec.vx a * Spec.vx p) + Rabs (Spec.vy a * Spec.vy p) + Rabs (Spec.vz a * Spec.vz p).
Definition good_mdot (dot : vec64 -> vec64 -> float64) : Prop :=
  forall a p, finite_vec a -> finite_vec p -> vnorm (vec_of a) <= 2 -> vnorm (vec_of p) <= bpow radix2 400 ->
    is_finite (dot a p) = true /\ Rabs (B2R (dot a p) - vdot (vec_of a) (vec_of p)) <= 4 * u * magnitude (vec_of a) (vec_of p) + 8 * eta.
Lemma magnitude_cs a p : magnitude a p <= vnorm a * vnorm p.
Proof.
  unfold magnitude. rewrite !Rabs_mult. pose proof (cauchy_schwarz (V (Rabs (Spec.vx a)) (Rabs (Spec.vy a)) (Rabs (Spec.vz a))) (V (Rabs (Spec.vx p)) (Rabs (Spec.vy p)) (Rabs (Spec.vz p)))) as C.
  rewrite !abs_vec_norm in C. unfold vdot in C; cbn [Spec.vx Spec.vy Spec.vz] in C. eapply Rle_trans; [apply Rle_abs|exact C].
Qed.
Lemma comp_le_vnorm v : Rabs (Spec.vx v) <= vnorm v /\ Rabs (Spec.vy v) <= vnorm v /\ Rabs (Spec.vz v) <= vnorm v.
Proof.
  assert (K : forall q, 0 <= vdot v v - q * q -> Rabs q <= vnorm v).
  { intros q H. unfold vnorm. rewrite <- sqrt_Rsqr_abs. apply sqrt_le_1_alt. unfold Rsqr. lra. }
  unfold vdot in K. split; [|split]; apply K; nra.
Qed.
Lemma dot_seq_mdot : good_mdot dot_seq.
Proof.
  intros [[a0 a1] a2] [[p0 p1] p2] (A0 & A1 & A2) (P0 & P1 & P2) NA NP. pose proof u_pos as Pu. pose proof u_tiny as Su. pose proof eta_pos as Pe. pose proof tiny_eta as Te.
  destruct (comp_le_vnorm (vec_of (a0, a1, a2))) as (B0 & B1 & B2). destruct (comp_le_vnorm (vec_of (p0, p1, p2))) as (C0 & C1 & C2). unfold vec_of in NA, NP, B0, B1, B2, C0, C1, C2; cbn [Spec.vx Spec.vy Spec.vz] in *.
  assert (H2 : 2 <= bpow radix2 400) by (change 2 with (bpow radix2 1); apply bpow_le; lia).
  assert (K : forall a p : float64, is_finite a = true -> is_finite p = true -> Rabs (B2R a) <= 2 -> Rabs (B2R p) <= bpow radix2 400 ->
    is_finite (fmul a p) = true /\ near (1 + / 500) eta (B2R (fmul a p)) (B2R a * B2R p) /\ Rabs (B2R a * B2R p) <= bpow radix2 401).
  { intros a p Fa Fp Ba Bp. destruct (fmul_near a p 0 0 0 (B2R a) (B2R p)) as (F & N); auto using near_exact; try lra. split; auto. split; [eapply near_weaken; [| |exact N]; lra|].
    rewrite Rabs_mult. change 401%Z with (1 + 400)%Z. rewrite bpow_plus. apply Rmult_le_compat; auto; try apply Rabs_pos. }
  destruct (K a0 p0) as (F0 & N0 & M0); auto; try lra. destruct (K a1 p1) as (F1 & N1 & M1); auto; try lra. destruct (K a2 p2) as (F2 & N2 & M2); auto; try lra. clear K.
  unfold dot_seq. set (x := fmul a0 p0) in *. set (y := fmul a1 p1) in *. set (z := fmul a2 p2) in *. set (X := B2R a0 * B2R p0) in *. set (Y := B2R a1 * B2R p1) in *. set (Z := B2R a2 * B2R p2) in *.
  assert (U9 : bpow radix2 401 <= bpow radix2 900) by (apply bpow_le; lia). assert (U4 : 4 * bpow radix2 401 <= bpow radix2 900). { change 4 with (bpow radix2 2). rewrite <- bpow_plus. apply bpow_le; lia. }
  assert (U3 : 1 <= bpow radix2 401) by (change 1 with (bpow radix2 0); apply bpow_le; lia).
  destruct (fadd_near_t x y (1 + / 500) (1 + / 500) eta eta X Y) as (G & E1); auto; try lra. set (s := fadd x y) in *.
  pose proof (Rabs_triang X Y) as T1. pose proof (Rabs_pos X) as PX. pose proof (Rabs_pos Y) as PY. pose proof (Rabs_pos Z) as PZ.
  assert (0 <= u * Rabs X) by (apply Rmult_le_pos; lra). assert (0 <= u * Rabs Y) by (apply Rmult_le_pos; lra). assert (0 <= u * Rabs Z) by (apply Rmult_le_pos; lra).
  assert (D1 : Rabs (B2R s - (X + Y)) <= (2 + 4 / 1000) * u * (Rabs X + Rabs Y) + 203 / 100 * eta). { assert (u * Rabs (X + Y) <= u * (Rabs X + Rabs Y)) by (apply Rmult_le_compat_l; lra). lra. }
  assert (US : (2 + 4 / 1000) * u * (Rabs X + Rabs Y) <= / 1000 * (Rabs X + Rabs Y)) by (apply Rmult_le_compat_r; lra).
  assert (BS : Rabs (B2R s) <= 3 * bpow radix2 401). { replace (B2R s) with ((B2R s - (X + Y)) + (X + Y)) by ring. eapply Rle_trans; [apply Rabs_triang|]. lra. }
  destruct (fadd_near_t s z 0 (1 + / 500) 0 eta (B2R s) Z) as (G2 & E2); auto using near_exact; try lra. split; auto.
  unfold vdot, magnitude, vec_of; cbn [Spec.vx Spec.vy Spec.vz]. fold X Y Z.
  replace (B2R (fadd s z) - (X + Y + Z)) with ((B2R (fadd s z) - (B2R s + Z)) + (B2R s - (X + Y))) by ring. eapply Rle_trans; [apply Rabs_triang|].
  assert (S1 : Rabs (B2R s) <= (1 + / 1000) * (Rabs X + Rabs Y) + 203 / 100 * eta). { replace (B2R s) with ((B2R s - (X + Y)) + (X + Y)) by ring. eapply Rle_trans; [apply Rabs_triang|]. lra. }
  pose proof (Rabs_triang (B2R s) Z) as T2.
  assert (Q1 : u * Rabs (B2R s + Z) <= u * ((1 + / 1000) * (Rabs X + Rabs Y) + 203 / 100 * eta + Rabs Z)) by (apply Rmult_le_compat_l; lra).
  assert (Q2 : u * Rabs (B2R s) <= u * ((1 + / 1000) * (Rabs X + Rabs Y) + 203 / 100 * eta)) by (apply Rmult_le_compat_l; lra).
  assert (Q3 : u * eta <= / 1000 * eta) by (apply Rmult_le_compat_r; lra).
  clear - E2 D1 Q1 Q2 Q3 H H0 H1 Pe. lra.
Qed.

(** ** the change of axes *)
Lemma norm3_le d x y z : Rabs (Spec.vx d) <= x -> Rabs (Spec.vy d) <= y -> Rabs (Spec.vz d) <= z -> vnorm d <= vnorm (V x y z).
Proof. intros. apply norm_le_comp; cbn [Spec.vx Spec.vy Spec.vz]; auto. Qed.
Lemma row_err dot q Q k p : good_mdot dot -> finite_vec q -> finite_vec p -> vnorm Q = 1 -> 0 <= k <= 100 -> vnorm (vsub (vec_of q) Q) <= k * u -> vnorm (vec_of p) <= bpow radix2 400 ->
  is_finite (dot q p) = true /\ Rabs (B2R (dot q p) - vdot Q (vec_of p)) <= (k + 41 / 10) * u * vnorm (vec_of p) + 8 * eta.
Proof.
  intros GD Fq Fp U Hk D B. pose proof u_pos as Pu. pose proof u_tiny as Su. pose proof (norm_perturb Q (vsub (vec_of q) Q)) as NP. rewrite <- vadd_sub_id, U in NP. apply Rabs_le_inv in NP.
  assert (KU : k * u <= / 1000) by nra. assert (NQ : vnorm (vec_of q) <= 1 + / 1000) by lra.
  destruct (GD q p Fq Fp ltac:(lra) B) as (F & E). split; auto. pose proof (magnitude_cs (vec_of q) (vec_of p)) as MC. pose proof (vnorm_pos (vec_of p)) as PP.
  assert (M : magnitude (vec_of q) (vec_of p) <= (1 + / 1000) * vnorm (vec_of p)). { eapply Rle_trans; [exact MC|]. apply Rmult_le_compat_r; lra. }
  replace (B2R (dot q p) - vdot Q (vec_of p)) with ((B2R (dot q p) - vdot (vec_of q) (vec_of p)) + vdot (vsub (vec_of q) Q) (vec_of p)) by (generalize (vec_of q) (vec_of p) (B2R (dot q p)); clear; intros [? ? ?] [? ? ?] ?; destruct Q; unfold vdot, vsub; cbn [Spec.vx Spec.vy Spec.vz]; ring).
  eapply Rle_trans; [apply Rabs_triang|]. pose proof (cauchy_schwarz (vsub (vec_of q) Q) (vec_of p)) as C.
  assert (C2 : vnorm (vsub (vec_of q) Q) * vnorm (vec_of p) <= k * u * vnorm (vec_of p)) by (apply Rmult_le_compat_r; lra).
  assert (M2 : u * magnitude (vec_of q) (vec_of p) <= u * ((1 + / 1000) * vnorm (vec_of p))) by (apply Rmult_le_compat_l; lra).
  assert (0 <= u * vnorm (vec_of p)) by (apply Rmult_le_pos; lra). lra.
Qed.
Lemma change_err dot N E D n e d p : good_mdot dot -> finite_vec N -> finite_vec E -> finite_vec D -> finite_vec p -> vnorm n = 1 -> vnorm e = 1 -> vnorm d = 1 ->
  vnorm (vsub (vec_of N) n) <= 65 * u -> vnorm (vsub (vec_of E) e) <= 44 * u -> vnorm (vsub (vec_of D) d) <= 27 * u -> vnorm (vec_of p) <= bpow radix2 400 ->
  finite_vec (fchange_frame dot (N, E, D) p) /\
  vnorm (vsub (vec_of (fchange_frame dot (N, E, D) p)) (mulv (Mt n e d) (vec_of p))) <= 90 * u * vnorm (vec_of p) + 24 * eta.
Proof.
  intros GD FN FE FD Fp Un Ue Ud DN DE DD B. pose proof u_pos as Pu. pose proof u_tiny as Su. pose proof eta_pos as Pe. pose proof (vnorm_pos (vec_of p)) as PP.
  destruct (row_err dot N n 65 p) as (G1 & R1); auto; try lra. destruct (row_err dot E e 44 p) as (G2 & R2); auto; try lra. destruct (row_err dot D d 27 p) as (G3 & R3); auto; try lra.
  unfold fchange_frame. split; [cbn; auto|]. set (L := vnorm (vec_of p)) in *. eapply Rle_trans.
  { apply (norm3_le _ ((65 + 41 / 10) * u * L + 8 * eta) ((44 + 41 / 10) * u * L + 8 * eta) ((27 + 41 / 10) * u * L + 8 * eta)); unfold vsub, mulv, vec_of at 1; cbn [Spec.vx Spec.vy Spec.vz r0 r1 r2]; assumption. }
  replace (V ((65 + 41 / 10) * u * L + 8 * eta) ((44 + 41 / 10) * u * L + 8 * eta) ((27 + 41 / 10) * u * L + 8 * eta)) with
    (vadd (vscale (u * L) (V (691 / 10) (481 / 10) (311 / 10))) (V (8 * eta) (8 * eta) (8 * eta))) by (unfold vadd, vscale; apply vec_eq; cbn [Spec.vx Spec.vy Spec.vz]; lra).
  eapply Rle_trans; [apply norm_triangle|]. rewrite vnorm_scale, Rabs_right by (apply Rle_ge, Rmult_le_pos; lra).
  pose proof (norm_sum3 (V (8 * eta) (8 * eta) (8 * eta))) as S. cbn [Spec.vx Spec.vy Spec.vz] in S. rewrite Rabs_right in S by lra.
  assert (NV : vnorm (V (691 / 10) (481 / 10) (311 / 10)) <= 90). { unfold vnorm, vdot; cbn [Spec.vx Spec.vy Spec.vz]. apply Rle_trans with (sqrt (90 * 90)); [apply sqrt_le_1_alt; lra|rewrite sqrt_square; lra]. }
  assert (u * L * vnorm (V (691 / 10) (481 / 10) (311 / 10)) <= u * L * 90) by (apply Rmult_le_compat_l; [apply Rmult_le_pos; lra|exact NV]). lra.
Qed.
Lemma sub_err (p q : vec64) : finite_vec p -> finite_vec q -> vnorm (vec_of p) <= bpow radix2 400 -> vnorm (vec_of q) <= bpow radix2 400 ->
  finite_vec (fsubv p q) /\ vnorm (vsub (vec_of (fsubv p q)) (vsub (vec_of p) (vec_of q))) <= u * vnorm (vsub (vec_of p) (vec_of q)).
Proof.
  destruct p as [[p0 p1] p2]. destruct q as [[q0 q1] q2]. intros (A0 & A1 & A2) (B0 & B1 & B2) NP NQ. pose proof u_pos as Pu.
  destruct (comp_le_vnorm (vec_of (p0, p1, p2))) as (C0 & C1 & C2). destruct (comp_le_vnorm (vec_of (q0, q1, q2))) as (D0 & D1 & D2). unfold vec_of in *; cbn [Spec.vx Spec.vy Spec.vz] in *.
  assert (H : 2 * bpow radix2 400 <= bpow radix2 1023). { change 2 with (bpow radix2 1). rewrite <- bpow_plus. apply bpow_le; lia. }
  assert (K : forall x y : float64, is_finite x = true -> is_finite y = true -> Rabs (B2R x) <= bpow radix2 400 -> Rabs (B2R y) <= bpow radix2 400 ->
    is_finite (fsub x y) = true /\ Rabs (B2R (fsub x y) - (B2R x - B2R y)) <= u * Rabs (B2R x - B2R y)).
  { intros x y Fx Fy Bx By. destruct (fsub_val x y Fx Fy) as (F & E). { unfold Rminus. eapply Rle_trans; [apply Rabs_triang|]. rewrite Rabs_Ropp. lra. }
    split; auto. rewrite E. destruct (rnd_add_err (B2R x) (- B2R y)) as (r & Hr & ER); [apply format64|apply generic_format_opp, format64|]. unfold Rminus at 2. rewrite ER.
    replace ((B2R x + - B2R y) * (1 + r) - (B2R x - B2R y)) with (r * (B2R x - B2R y)) by ring. rewrite Rabs_mult. apply Rmult_le_compat_r; [apply Rabs_pos|auto]. }
  destruct (K p0 q0) as (F0 & E0); auto; try lra. destruct (K p1 q1) as (F1 & E1); auto; try lra. destruct (K p2 q2) as (F2 & E2); auto; try lra.
  unfold fsubv, finite_vec. split; [auto|]. unfold vsub; cbn [Spec.vx Spec.vy Spec.vz]. set (G := V (B2R p0 - B2R q0) (B2R p1 - B2R q1) (B2R p2 - B2R q2)).
  rewrite <- (abs_vec_norm G). replace u with (Rabs u) at 1 by (apply Rabs_right; lra). rewrite <- vnorm_scale. apply norm_le_comp; unfold vscale, G; cbn [Spec.vx Spec.vy Spec.vz]; assumption.
Qed.

(** ** positions *)
(** [p] is the position at latitude [lat] and longitude [lon] (degrees) and depth [z] below the ellipsoid *)
Definition position (a f lat lon z : R) (p : vec) : Prop :=
  exists s, surface_point a f lat lon s /\ p = vsub s (vscale z (latlon_vec (lat * (PI / 180)) (lon * (PI / 180)))).
(** there is exactly one point of the ellipsoid with a given outward normal *)
Lemma surface_point_unique a f lat lon s s' : 0 < a -> f < 1 -> surface_point a f lat lon s -> surface_point a f lat lon s' -> s = s'.
Proof.
  intros Ha Hf (O & c & Hc & G) (O' & c' & Hc' & G'). set (N := latlon_vec (lat * (PI / 180)) (lon * (PI / 180))) in *. set (b := a * (1 - f)) in *.
  assert (Hb : 0 < b) by (unfold b; nra).
  assert (K : forall s c, ellipsoid_gradient a f (V 0 0 1) s = vscale c N -> s = vscale c (V (a ^ 2 * Spec.vx N) (a ^ 2 * Spec.vy N) (b ^ 2 * Spec.vz N))).
  { clearbody N. clear - Ha Hb. intros [x y z] c E. unfold ellipsoid_gradient, equatorial, Spec.polar, vdot, vscale, vsub, vadd in E; cbn [Spec.vx Spec.vy Spec.vz] in E. fold b in E. injection E as E1 E2 E3.
    unfold vscale; apply vec_eq; cbn [Spec.vx Spec.vy Spec.vz].
    - transitivity (a ^ 2 * (c * Spec.vx N)); [rewrite <- E1; field; lra|ring].
    - transitivity (a ^ 2 * (c * Spec.vy N)); [rewrite <- E2; field; lra|ring].
    - transitivity (b ^ 2 * (c * Spec.vz N)); [rewrite <- E3; field; lra|ring]. }
  pose proof (K _ _ G) as E. pose proof (K _ _ G') as E'. set (w := V (a ^ 2 * Spec.vx N) (a ^ 2 * Spec.vy N) (b ^ 2 * Spec.vz N)) in *.
  assert (Q : forall c, on_ellipsoid a f (V 0 0 1) (vscale c w) -> c * c * (Spec.vz w ^ 2 / b ^ 2 + (Spec.vx w ^ 2 + Spec.vy w ^ 2) / a ^ 2) = 1).
  { clear - Ha Hb. intros c H. unfold on_ellipsoid, equatorial, Spec.polar, vdot, vscale, vsub in H; cbn [Spec.vx Spec.vy Spec.vz] in H. fold b in H. rewrite <- H. field. lra. }
  rewrite E in O. rewrite E' in O'. pose proof (Q _ O) as Q1. pose proof (Q _ O') as Q2. rewrite E, E'. f_equal.
  set (m := Spec.vz w ^ 2 / b ^ 2 + (Spec.vx w ^ 2 + Spec.vy w ^ 2) / a ^ 2) in *. clear - Q1 Q2 Hc Hc'.
  assert (m <> 0) by (intros E; rewrite E in Q1; lra). assert (c * c = c' * c') by (apply (Rmult_eq_reg_r m); lra). nra.
Qed.
(** north, east and down as a matrix *)
Definition ned (lat lon : R) : mat := let la := lat * (PI / 180) in let lo := lon * (PI / 180) in Mt (north_dir la lo) (east_dir lo) (down_dir la lo).
Lemma ned_orthogonal lat lon : orthogonal (mT (ned lat lon)).
Proof.
  unfold ned. cbv zeta. set (a := lat * (PI / 180)). set (o := lon * (PI / 180)). pose proof (sin2_cos2 a) as A. pose proof (sin2_cos2 o) as B. unfold Rsqr in A, B.
  unfold orthogonal, mmul, mT, mI, north_dir, east_dir, down_dir, vdot; cbn [Spec.vx Spec.vy Spec.vz r0 r1 r2].
  set (S := sin a) in *. set (C := cos a) in *. set (s := sin o) in *. set (c := cos o) in *. clearbody S C s c.
  f_equal; apply vec_eq; cbn [Spec.vx Spec.vy Spec.vz]; nsatz.
Qed.
