(** * C89: n_EB_E2p_EB_E in binary64 *)
From Coq Require Import ZArith Reals Lra Lia Bool Psatz.
From Flocq Require Import Core BinarySingleNaN Relative.
From Verif Require Import Spec SpecArr LVec LAngle LEcef PEcef FTiny FBase FRel FUnit FDist FGreat FLatLon FInv.
Local Open Scope R_scope.

(** core.py 118-142, one column, default R_Ee (rows (0,0,1), (0,1,0), (-1,0,0)); the length warning is C55's matter.
    numpy evaluates [scale ** 2] as scale * scale and [b / denominator * n_EB_e / scale**2] from left to right *)
Definition fn_EB_E2p_EB_E (n : vec64) (depth a f : float64) : vec64 :=
  let '(e0, e1, e2) := unit64 (fdot3 (fzero, fzero, fone) n, fdot3 (fzero, fone, fzero) n, fdot3 (fneg fone, fzero, fzero) n) in
  let b := fmul a (fsub fone f) in
  let s0 := fone in let s1 := fsub fone f in let s2 := fsub fone f in
  let denominator := norm3 (fdiv e0 s0) (fdiv e1 s1) (fdiv e2 s2) in
  let p0 := fdiv (fmul (fdiv b denominator) e0) (fmul s0 s0) in
  let p1 := fdiv (fmul (fdiv b denominator) e1) (fmul s1 s1) in
  let p2 := fdiv (fmul (fdiv b denominator) e2) (fmul s2 s2) in
  let q := (fsub p0 (fmul e0 depth), fsub p1 (fmul e1 depth), fsub p2 (fmul e2 depth)) in
  (fdot3 (fzero, fzero, fneg fone) q, fdot3 (fzero, fone, fzero) q, fdot3 (fone, fzero, fzero) q).

Lemma near_vec_err k t g G : 0 <= k * u -> 0 <= t ->
  near k t (Spec.vx g) (Spec.vx G) -> near k t (Spec.vy g) (Spec.vy G) -> near k t (Spec.vz g) (Spec.vz G) -> vnorm (vsub g G) <= k * u * vnorm G + 3 * t.
Proof.
  intros Hk Ht A B C. unfold near in *.
  set (e := vadd (vscale (k * u) (V (Rabs (Spec.vx G)) (Rabs (Spec.vy G)) (Rabs (Spec.vz G)))) (V t t t)).
  assert (N : vnorm (vsub g G) <= vnorm e) by (apply norm_le_comp; unfold e, vsub, vadd, vscale; cbn [Spec.vx Spec.vy Spec.vz]; auto).
  eapply Rle_trans; [exact N|]. unfold e. eapply Rle_trans; [apply norm_triangle|]. rewrite vnorm_scale, (Rabs_right (k * u)) by lra.
  assert (E : vnorm (V (Rabs (Spec.vx G)) (Rabs (Spec.vy G)) (Rabs (Spec.vz G))) = vnorm G).
  { unfold vnorm. f_equal. unfold vdot; cbn [Spec.vx Spec.vy Spec.vz]. rewrite <- !Rabs_mult, !Rabs_right by nra. reflexivity. }
  rewrite E. pose proof (norm_sum3 (V t t t)) as S. cbn [Spec.vx Spec.vy Spec.vz] in S. rewrite Rabs_right in S by lra. lra.
Qed.

(** the unit vector of the rotated n-vector *)
Lemma rotated_unit n : ordinary_vec n -> exists e0 e1 e2,
  unit64 (fdot3 (fzero, fzero, fone) n, fdot3 (fzero, fone, fzero) n, fdot3 (fneg fone, fzero, fzero) n) = (e0, e1, e2) /\
  let w := mulv Me (direction (vec_of n)) in
  is_finite e0 = true /\ is_finite e1 = true /\ is_finite e2 = true /\
  near 5 eta (B2R e0) (Spec.vx w) /\ near 5 eta (B2R e1) (Spec.vy w) /\ near 5 eta (B2R e2) (Spec.vz w).
Proof.
  destruct n as [[x y] z]. intros O. pose proof O as (Fx & Fy & Fz & Bx & By & Bz & G).
  assert (L : bpow radix2 400 <= bpow radix2 1000) by (apply bpow_le; lia).
  destruct (pick2 x y z Fx Fy Fz ltac:(lra) ltac:(lra) ltac:(lra)) as ((F0 & V0) & (F1 & V1) & (F2 & V2)).
  match type of V0 with B2R ?t = _ => set (n0 := t) in * end. match type of V1 with B2R ?t = _ => set (n1 := t) in * end. match type of V2 with B2R ?t = _ => set (n2 := t) in * end.
  assert (O' : ordinary n0 n1 n2). { unfold ordinary. rewrite V0, V1, V2, Rabs_Ropp. tauto. }
  destruct (C76_unit_accuracy n0 n1 n2 O') as (Gx & Gy & Gz & Dx & Dy & Dz & _).
  assert (E : length3 n0 n1 n2 = vnorm (vec_of (x, y, z))).
  { rewrite <- length3_vnorm. unfold length3. rewrite V0, V1, V2. f_equal. ring. }
  rewrite E, V0 in Dx. rewrite E, V1 in Dy. rewrite E, V2 in Dz.
  exists (unit_entry n0 n0 n1 n2), (unit_entry n1 n0 n1 n2), (unit_entry n2 n0 n1 n2). split; [reflexivity|].
  assert (W : mulv Me (direction (vec_of (x, y, z))) = V (B2R z / vnorm (vec_of (x, y, z))) (B2R y / vnorm (vec_of (x, y, z))) (- B2R x / vnorm (vec_of (x, y, z)))).
  { unfold direction, mulv, Me, vdot, vscale. cbn [Spec.vx Spec.vy Spec.vz r0 r1 r2]. unfold Rdiv. cbn [vec_of Spec.vx Spec.vy Spec.vz]. apply vec_eq; cbn [Spec.vx Spec.vy Spec.vz]; ring. }
  cbv zeta. rewrite W. cbn [Spec.vx Spec.vy Spec.vz]. unfold near. tauto.
Qed.

Definition scaled (s : R) (w : vec) : vec := V (Spec.vx w / 1) (Spec.vy w / s) (Spec.vz w / s).
Lemma scaled_norm f w : f < 1 -> vnorm (scaled (1 - f) w) = den f w.
Proof. intros H. unfold vnorm, den, scaled, vdot, rho2; cbn [Spec.vx Spec.vy Spec.vz]. f_equal. field. lra. Qed.
Lemma den_bounds f w : 0 <= f <= 1 / 2 -> vnorm w = 1 -> 1 <= den f w <= 2.
Proof.
  intros Hf N. assert (U : Spec.vx w * Spec.vx w + rho2 w = 1). { pose proof (vnorm_sq w) as Q. rewrite N in Q. unfold vdot, rho2 in *. lra. }
  pose proof (rho2_pos w) as P. assert (I : 1 <= / ((1 - f) * (1 - f)) <= 4).
  { split; [rewrite <- Rinv_1 at 1; apply Rinv_le; nra|]. replace 4 with (/ (/ 4)) by field. apply Rinv_le; nra. }
  unfold den, Rdiv. split.
  - rewrite <- sqrt_1 at 1. apply sqrt_le_1_alt. nra.
  - replace 2 with (sqrt (2 * 2)) by (apply sqrt_square; lra). apply sqrt_le_1_alt. nra.
Qed.
Lemma unit_comp w : vnorm w = 1 -> Rabs (Spec.vx w) <= 1 /\ Rabs (Spec.vy w) <= 1 /\ Rabs (Spec.vz w) <= 1.
Proof.
  intros N. pose proof (vnorm_sq w) as Q. rewrite N in Q. unfold vdot in Q. repeat split; apply Rabs_le; nra.
Qed.

Lemma tiny_eta : 100000 * eta <= u / 100000.
Proof.
  unfold eta, u. assert (E : bpow radix2 (-1075) = bpow radix2 (-1022) * bpow radix2 (-53)) by (rewrite <- bpow_plus; reflexivity).
  rewrite E. assert (B : bpow radix2 (-1022) <= bpow radix2 (-50)) by (apply bpow_le; lia). change (bpow radix2 (-50)) with (/ 1125899906842624) in B.
  pose proof (bpow_gt_0 radix2 (-53)). nra.
Qed.

(** the denominator *)
Lemma denominator_err e0 e1 e2 (s : float64) f w : 0 <= f <= 1 / 2 -> vnorm w = 1 ->
  is_finite e0 = true -> is_finite e1 = true -> is_finite e2 = true ->
  near 5 eta (B2R e0) (Spec.vx w) -> near 5 eta (B2R e1) (Spec.vy w) -> near 5 eta (B2R e2) (Spec.vz w) ->
  near (101 / 100) 0 (B2R s) (1 - f) ->
  is_finite (norm3 (fdiv e0 fone) (fdiv e1 s) (fdiv e2 s)) = true /\
  near (101 / 10) 0 (B2R (norm3 (fdiv e0 fone) (fdiv e1 s) (fdiv e2 s))) (den f w).
Proof.
  intros Hf N F0 F1 F2 N0 N1 N2 Ns. pose proof u_pos as Pu. pose proof u_tiny as Su. pose proof eta_pos as Pe. pose proof tiny_eta as Te.
  destruct (unit_comp w N) as (W0 & W1 & W2). destruct (den_bounds f w Hf N) as (D1 & D2).
  assert (B1 : 1 <= bpow radix2 400). { change 1 with (bpow radix2 0). apply bpow_le; lia. }
  assert (B4 : bpow radix2 (-400) <= / 2). { change (/ 2) with (bpow radix2 (-1)). apply bpow_le; lia. }
  assert (I : 1 <= Rabs (/ (1 - f)) <= 2).
  { rewrite Rabs_right by (apply Rle_ge, Rlt_le, Rinv_0_lt_compat; lra). split; [rewrite <- Rinv_1 at 1; apply Rinv_le; lra|]. replace 2 with (/ (/ 2)) by field. apply Rinv_le; lra. }
  assert (NO : near 0 0 (B2R fone) 1) by (rewrite fone_val; apply near_exact).
  destruct (fdiv_near e0 fone 5 0 eta (Spec.vx w) 1) as (G0 & M0); auto; try lra. { rewrite Rabs_R1; lra. }
  destruct (fdiv_near e1 s 5 (101/100) eta (Spec.vy w) (1 - f)) as (G1 & M1); auto; try lra. { rewrite Rabs_right; lra. }
  destruct (fdiv_near e2 s 5 (101/100) eta (Spec.vz w) (1 - f)) as (G2 & M2); auto; try lra. { rewrite Rabs_right; lra. }
  set (g0 := fdiv e0 fone) in *. set (g1 := fdiv e1 s) in *. set (g2 := fdiv e2 s) in *.
  assert (K0 : near (7031/1000) (9 * eta) (B2R g0) (Spec.vx (scaled (1 - f) w))).
  { cbn [scaled Spec.vx]. eapply near_weaken; [| |exact M0]; [lra|]. rewrite Rinv_1, Rabs_R1. lra. }
  assert (K1 : near (7031/1000) (9 * eta) (B2R g1) (Spec.vy (scaled (1 - f) w))).
  { cbn [scaled Spec.vy]. eapply near_weaken; [| |exact M1]; [lra|]. nra. }
  assert (K2 : near (7031/1000) (9 * eta) (B2R g2) (Spec.vz (scaled (1 - f) w))).
  { cbn [scaled Spec.vz]. eapply near_weaken; [| |exact M2]; [lra|]. nra. }
  pose proof (near_vec_err (7031/1000) (9 * eta) (vec_of (g0, g1, g2)) (scaled (1 - f) w) ltac:(lra) ltac:(lra) K0 K1 K2) as V. rewrite scaled_norm in V by lra.
  pose proof (norm_perturb (scaled (1 - f) w) (vsub (vec_of (g0, g1, g2)) (scaled (1 - f) w))) as P. rewrite <- vadd_sub_id, scaled_norm in P by lra.
  assert (BV : vnorm (vec_of (g0, g1, g2)) <= 3). { apply Rabs_le_inv in P. nra. }
  assert (Q : forall c, Rabs c <= vnorm (vec_of (g0, g1, g2)) -> Rabs c <= bpow radix2 400).
  { intros c Hc. assert (bpow radix2 2 <= bpow radix2 400) by (apply bpow_le; lia). change (bpow radix2 2) with 4 in H. lra. }
  rewrite <- length3_vnorm in Q, P, BV. destruct (comp_le_length g0 g1 g2) as (C0 & C1 & C2).
  destruct (any_norm g0 g1 g2 G0 G1 G2 (Q _ C0) (Q _ C1) (Q _ C2)) as (F & _ & A). split; auto.
  unfold near. pose proof tiny_consts as TC. rewrite (Rabs_right (den f w)) by lra. set (nn := B2R (norm3 g0 g1 g2)) in *. set (l := length3 g0 g1 g2) in *. set (D := den f w) in *. set (dd := vnorm (vsub _ _)) in *.
  replace (nn - D) with ((nn - l) + (l - D)) by ring. eapply Rle_trans; [apply Rabs_triang|]. clear M0 M1 M2 K0 K1 K2 N0 N1 N2 C0 C1 C2 Q.
  assert (L1 : l <= D + dd) by (apply Rabs_le_inv in P; lra). assert (L2 : 3 * u * l <= 3 * u * (D + dd)) by (apply Rmult_le_compat_l; lra).
  assert (L3 : u * dd <= / 1000000000000000 * dd) by (apply Rmult_le_compat_r; [apply vnorm_pos|lra]). assert (L4 : u * 1 <= u * D) by (apply Rmult_le_compat_l; lra). lra.
Qed.

(** one coordinate *)
Lemma coordinate_err (c e sc depth : float64) C W S z : is_finite c = true -> is_finite e = true -> is_finite sc = true -> is_finite depth = true ->
  near (1315 / 100) 0 (B2R c) C -> near 5 eta (B2R e) W -> near (101 / 100) 0 (B2R sc) S -> B2R depth = z ->
  0 < C <= bpow radix2 301 -> Rabs W <= 1 -> 1 / 2 <= S <= 1 -> Rabs z <= bpow radix2 300 ->
  is_finite (fsub (fdiv (fmul c e) (fmul sc sc)) (fmul e depth)) = true /\
  Rabs (B2R (fsub (fdiv (fmul c e) (fmul sc sc)) (fmul e depth)) - (C * W / (S * S) - W * z))
    <= 245 / 10 * u * Rabs (C * W / (S * S)) + 75 / 10 * u * Rabs (W * z) + (400 * C + 400 + 10 * Rabs z) * eta.
Proof.
  intros Fc Fe Fs Fd Nc Ne Ns Ed HC HW HS Hz. pose proof u_pos as Pu. pose proof u_tiny as Su. pose proof eta_pos as Pe. pose proof tiny_eta as Te. pose proof (Rabs_pos z) as Pz. pose proof (Rabs_pos W) as PW.
  assert (B1 : 1 <= bpow radix2 300). { change 1 with (bpow radix2 0). apply bpow_le; lia. }
  assert (B2 : bpow radix2 300 <= bpow radix2 301) by (apply bpow_le; lia).
  assert (B3 : bpow radix2 301 <= bpow radix2 400) by (apply bpow_le; lia).
  assert (B4 : bpow radix2 (-400) <= / 4). { change (/ 4) with (bpow radix2 (-2)). apply bpow_le; lia. }
  assert (BE : bpow radix2 301 * eta <= / 100000).
  { unfold eta. rewrite <- bpow_plus. apply Rle_trans with (bpow radix2 (-20)); [apply bpow_le; lia|]. cbn. lra. }
  assert (CE : 0 <= C * eta <= / 100000). { split; [apply Rmult_le_pos; lra|]. eapply Rle_trans; [|exact BE]. apply Rmult_le_compat_r; lra. }
  assert (ZE : 0 <= Rabs z * eta <= / 100000). { split; [apply Rmult_le_pos; lra|]. eapply Rle_trans; [|exact BE]. apply Rmult_le_compat_r; lra. }
  destruct (fmul_near c e (1315/100) 5 eta C W) as (F1 & N1); auto; try lra. { rewrite Rabs_right; lra. }
  rewrite (Rabs_right C) in N1 by lra.
  destruct (fmul_near_n sc sc (101/100) (101/100) S S) as (F2 & N2); auto; try lra. { rewrite Rabs_right; lra. } { rewrite Rabs_right; lra. }
  { assert (bpow radix2 (-1000) <= bpow radix2 (-2)) by (apply bpow_le; lia). change (bpow radix2 (-2)) with (/ 4) in H. rewrite Rabs_right; nra. }
  assert (SS : 1 / 4 <= S * S <= 1) by nra.
  assert (IS : Rabs (/ (S * S)) <= 4). { rewrite Rabs_right by (apply Rle_ge, Rlt_le, Rinv_0_lt_compat; lra). replace 4 with (/ (/ 4)) by field. apply Rinv_le; lra. }
  assert (BCW : Rabs (C * W) <= bpow radix2 301). { rewrite Rabs_mult, (Rabs_right C) by lra. replace (bpow radix2 301) with (bpow radix2 301 * 1) by ring. apply Rmult_le_compat; lra. }
  destruct (fdiv_near (fmul c e) (fmul sc sc) (1315/100 + 5 + 1 + / 500) (101/100 + 101/100 + 1 + / 500) (4 * C * eta + eta) (C * W) (S * S)) as (F3 & N3); auto; try lra.
  { rewrite Rabs_right; lra. }
  destruct (fmul_near depth e 0 5 eta z W) as (F4 & N4); auto; try lra. { rewrite Ed. apply near_exact. }
  rewrite fmul_comm in F4, N4. rewrite (Rmult_comm z W) in N4.
  assert (P4 : 0 <= Rabs (/ (S * S))) by apply Rabs_pos.
  assert (T3 : Rabs (/ (S * S)) * (4 * C * eta + eta) <= 4 * (4 * C * eta + eta)) by (apply Rmult_le_compat_r; lra).
  assert (T3' : 0 <= Rabs (/ (S * S)) * (4 * C * eta + eta)) by (apply Rmult_le_pos; lra).
  destruct (fsub_near _ _ (1315/100 + 5 + 1 + / 500 + (101/100 + 101/100 + 1 + / 500) + 1 + / 50) (0 + 5 + 1 + / 500) (4 * Rabs (/ (S * S)) * (4 * C * eta + eta) + eta) (4 * Rabs z * eta + eta) (C * W / (S * S)) (W * z) F3 F4) as (F5 & N5); auto; try lra.
  { unfold Rdiv. rewrite Rabs_mult. apply Rle_trans with (bpow radix2 301 * 4); [apply Rmult_le_compat; auto; apply Rabs_pos|].
    change 4 with (bpow radix2 2). rewrite <- bpow_plus. apply bpow_le; lia. }
  { rewrite Rabs_mult. apply Rle_trans with (1 * bpow radix2 300); [apply Rmult_le_compat; auto|]. rewrite Rmult_1_l. apply bpow_le; lia. }
  split; auto. eapply Rle_trans; [exact N5|].
  pose proof (Rabs_pos (C * W / (S * S))) as Q1. pose proof (Rabs_pos (W * z)) as Q2. set (A := Rabs (C * W / (S * S))) in *. set (B := Rabs (W * z)) in *.
  assert (0 <= u * A) by (apply Rmult_le_pos; lra). assert (0 <= u * B) by (apply Rmult_le_pos; lra). lra.
Qed.

Lemma psurf_norm a f w : 0 < a -> 0 <= f <= 1 / 2 -> vnorm w = 1 -> vnorm (psurf a f w) <= a.
Proof.
  intros Pa Hf N. assert (Hw : w <> v0) by (apply vnorm_inv; auto).
  pose proof (den_sq f w ltac:(lra) Hw) as D2. pose proof (den_bounds f w Hf N) as DB. set (D := den f w) in *.
  assert (Q : vdot (psurf a f w) (psurf a f w) <= a * a).
  { assert (E : vdot (psurf a f w) (psurf a f w) = a * a * (((1 - f) * (1 - f) * (Spec.vx w * Spec.vx w) + rho2 w / ((1 - f) * (1 - f))) / (D * D))).
    { unfold psurf, cc, vdot, rho2. fold D. cbn [Spec.vx Spec.vy Spec.vz]. field. split; lra. }
    rewrite E. rewrite <- (Rmult_1_r (a * a)) at 2. apply Rmult_le_compat_l; [nra|]. apply (Rmult_le_reg_r (D * D)); [nra|].
    unfold Rdiv. rewrite Rmult_assoc, Rinv_l, Rmult_1_r, Rmult_1_l by nra. fold (Rdiv (rho2 w) ((1 - f) * (1 - f))). rewrite D2. apply Rplus_le_compat_r.
    rewrite <- (Rmult_1_l (Spec.vx w * Spec.vx w)) at 2. apply Rmult_le_compat_r; nra. }
  apply Rle_trans with (sqrt (a * a)); [apply sqrt_le_1_alt; auto|rewrite sqrt_square; lra].
Qed.
Lemma cc_bounds a f w : 0 < a -> 0 <= f <= 1 / 2 -> vnorm w = 1 -> a / 4 <= cc a f w <= a.
Proof.
  intros Pa Hf N. destruct (den_bounds f w Hf N) as (D1 & D2). unfold cc. set (D := den f w) in *. split.
  - apply (Rmult_le_reg_r D); [lra|]. replace (a * (1 - f) / D * D) with (a * (1 - f)) by (field; lra). nra.
  - apply (Rmult_le_reg_r D); [lra|]. replace (a * (1 - f) / D * D) with (a * (1 - f)) by (field; lra). nra.
Qed.

(** ** the accuracy *)
Definition finite_vec (p : vec64) : Prop := let '(x, y, z) := p in is_finite x = true /\ is_finite y = true /\ is_finite z = true.
(** the semi-major axis between 2^-100 and 2^300 metres and the flattening between 0 and 1/2 *)
Definition usual_ellipsoid (a f : float64) : Prop :=
  is_finite a = true /\ is_finite f = true /\ bpow radix2 (-100) <= B2R a <= bpow radix2 300 /\ 0 <= B2R f <= 1 / 2.

Lemma one_minus f : is_finite f = true -> 0 <= B2R f <= 1 / 2 -> is_finite (fsub fone f) = true /\ near (101 / 100) 0 (B2R (fsub fone f)) (1 - B2R f).
Proof.
  intros F H. pose proof u_pos as Pu. destruct (fsub_val fone f eq_refl F) as (G & E).
  { rewrite fone_val. assert (bpow radix2 0 <= bpow radix2 1023) by (apply bpow_le; lia). change (bpow radix2 0) with 1 in H0. rewrite Rabs_right; lra. }
  split; auto. rewrite E, fone_val. unfold Rminus at 1. destruct (rnd_add_err 1 (- B2R f)) as (e & He & Ee); [rewrite <- fone_val; apply format64|apply generic_format_opp, format64|].
  rewrite Ee. unfold near. replace ((1 + - B2R f) * (1 + e) - (1 - B2R f)) with ((1 - B2R f) * e) by ring. rewrite Rabs_mult, (Rabs_right (1 - B2R f)) by lra. nra.
Qed.

Lemma three_terms d S W z k1 k2 t : 0 <= k1 -> 0 <= k2 -> 0 <= t -> vnorm W = 1 ->
  Rabs (Spec.vx d) <= k1 * Rabs (Spec.vx S) + k2 * Rabs (Spec.vx W * z) + t ->
  Rabs (Spec.vy d) <= k1 * Rabs (Spec.vy S) + k2 * Rabs (Spec.vy W * z) + t ->
  Rabs (Spec.vz d) <= k1 * Rabs (Spec.vz S) + k2 * Rabs (Spec.vz W * z) + t -> vnorm d <= k1 * vnorm S + k2 * Rabs z + 3 * t.
Proof.
  intros H1 H2 Ht N A B C. assert (E : forall G, vnorm (V (Rabs (Spec.vx G)) (Rabs (Spec.vy G)) (Rabs (Spec.vz G))) = vnorm G).
  { intros G. unfold vnorm. f_equal. unfold vdot; cbn [Spec.vx Spec.vy Spec.vz]. rewrite <- !Rabs_mult, !Rabs_right by nra. reflexivity. }
  set (AS := V (Rabs (Spec.vx S)) (Rabs (Spec.vy S)) (Rabs (Spec.vz S))). set (AW := V (Rabs (Spec.vx W)) (Rabs (Spec.vy W)) (Rabs (Spec.vz W))).
  rewrite Rabs_mult in A, B, C.
  apply Rle_trans with (vnorm (vadd (vadd (vscale k1 AS) (vscale (k2 * Rabs z) AW)) (V t t t))).
  - apply norm_le_comp; unfold AS, AW, vadd, vscale; cbn [Spec.vx Spec.vy Spec.vz]; lra.
  - eapply Rle_trans; [apply norm_triangle|]. eapply Rle_trans; [apply Rplus_le_compat_r, norm_triangle|]. rewrite !vnorm_scale. unfold AS, AW. rewrite !E, N.
    pose proof (norm_sum3 (V t t t)) as T. cbn [Spec.vx Spec.vy Spec.vz] in T. rewrite Rabs_right in T by lra.
    rewrite (Rabs_right k1), (Rabs_right (k2 * Rabs z)) by (try apply Rle_ge, Rmult_le_pos; try apply Rabs_pos; lra). lra.
Qed.

Lemma Me_orthogonal : orthogonal Me.
Proof. unfold orthogonal, Me; vring. Qed.

Lemma position_err n depth a f : ordinary_vec n -> usual_ellipsoid a f -> is_finite depth = true -> Rabs (B2R depth) <= bpow radix2 300 ->
  finite_vec (fn_EB_E2p_EB_E n depth a f) /\
  vnorm (vsub (vec_of (fn_EB_E2p_EB_E n depth a f)) (mulv (mT Me) (pint (B2R a) (B2R f) (mulv Me (direction (vec_of n))) (B2R depth))))
    <= 25 * u * B2R a + 8 * u * Rabs (B2R depth).
Proof.
  intros O (Fa & Ff & Ba & Bf) Fd Bd. pose proof u_pos as Pu. pose proof u_tiny as Su. pose proof eta_pos as Pe. pose proof tiny_eta as Te.
  assert (NL : vec_of n <> v0).
  { destruct n as [[x y] z]. destruct O as (_ & _ & _ & _ & _ & _ & G). pose proof (bpow_gt_0 radix2 (-400)). intros E. injection E as Ex Ey Ez. rewrite Ex, Ey, Ez, Rabs_R0 in G. lra. }
  destruct (rotated_unit n O) as (e0 & e1 & e2 & EU & F0 & F1 & F2 & N0 & N1 & N2). unfold fn_EB_E2p_EB_E. rewrite EU. clear EU. cbv zeta.
  set (w := mulv Me (direction (vec_of n))) in *. assert (Nw : vnorm w = 1) by (unfold w; rewrite orthogonal_norm by apply Me_orthogonal; apply direction_unit; auto).
  destruct (one_minus f Ff Bf) as (Fs & Ns). set (s := fsub fone f) in *. set (A := B2R a) in *. set (fl := B2R f) in *. set (z := B2R depth) in *.
  pose proof (bpow_gt_0 radix2 (-100)) as P1. assert (PA : 0 < A) by lra.
  assert (B1 : 1 <= bpow radix2 300). { change 1 with (bpow radix2 0). apply bpow_le; lia. }
  assert (B2 : bpow radix2 300 <= bpow radix2 301) by (apply bpow_le; lia).
  assert (B3 : bpow radix2 301 <= bpow radix2 400) by (apply bpow_le; lia).
  assert (B4 : bpow radix2 (-1000) <= bpow radix2 (-100) / 4). { replace (bpow radix2 (-100) / 4) with (bpow radix2 (-102)); [apply bpow_le; lia|]. change (-102)%Z with (-100 + -2)%Z. rewrite bpow_plus. reflexivity. }
  assert (B5 : bpow radix2 (-400) <= 1). { change 1 with (bpow radix2 0). apply bpow_le; lia. }
  destruct (unit_comp w Nw) as (W0 & W1 & W2). destruct (den_bounds fl w Bf Nw) as (D1 & D2). destruct (cc_bounds A fl w PA Bf Nw) as (C1 & C2).
  destruct (fmul_near_n a s 0 (101/100) A (1 - fl)) as (Fb & Nb); auto; try lra. { apply near_exact. } { rewrite Rabs_right; lra. } { rewrite Rabs_right; lra. } { rewrite Rabs_right; nra. }
  destruct (denominator_err e0 e1 e2 s fl w Bf Nw F0 F1 F2 N0 N1 N2 Ns) as (FD & ND). set (d := norm3 (fdiv e0 fone) (fdiv e1 s) (fdiv e2 s)) in *.
  destruct (fdiv_near_n (fmul a s) d (0 + 101/100 + 1 + / 500) (101/10) (A * (1 - fl)) (den fl w)) as (Fc & Nc); auto; try lra.
  { rewrite Rabs_right; nra. } { rewrite Rabs_right; lra. } { fold (cc A fl w). rewrite Rabs_right; lra. }
  fold (cc A fl w) in Nc. set (c := fdiv (fmul a s) d) in *. set (C := cc A fl w) in *.
  assert (NC : near (1315/100) 0 (B2R c) C) by (eapply near_weaken; [| |exact Nc]; lra).
  assert (NO : near (101/100) 0 (B2R fone) 1) by (rewrite fone_val; eapply near_weaken; [| |apply near_exact]; lra).
  destruct (coordinate_err c e0 fone depth C (Spec.vx w) 1 z) as (G0 & Q0); auto; try lra.
  destruct (coordinate_err c e1 s depth C (Spec.vy w) (1 - fl) z) as (G1 & Q1); auto; try lra.
  destruct (coordinate_err c e2 s depth C (Spec.vz w) (1 - fl) z) as (G2 & Q2); auto; try lra.
  set (q0 := fsub (fdiv (fmul c e0) (fmul fone fone)) (fmul e0 depth)) in *. set (q1 := fsub (fdiv (fmul c e1) (fmul s s)) (fmul e1 depth)) in *. set (q2 := fsub (fdiv (fmul c e2) (fmul s s)) (fmul e2 depth)) in *.
  set (T := (400 * C + 400 + 10 * Rabs z) * eta) in *. pose proof (Rabs_pos z) as Pz.
  assert (T0 : 0 <= T) by (apply Rmult_le_pos; lra).
  set (dv := vsub (V (B2R q0) (B2R q1) (B2R q2)) (pint A fl w z)).
  assert (ER : vnorm dv <= 245/10 * u * vnorm (psurf A fl w) + 75/10 * u * Rabs z + 3 * T).
  { assert (R0 : C * Spec.vx w / (1 * 1) = C * Spec.vx w) by field. rewrite R0 in Q0.
    apply (three_terms dv (psurf A fl w) w z (245/10 * u) (75/10 * u) T); try lra; unfold dv, pint, psurf, vsub, vscale; fold C; cbn [Spec.vx Spec.vy Spec.vz]; rewrite (Rmult_comm z); auto. }
  pose proof (psurf_norm A fl w PA Bf Nw) as NS.
  assert (TA : 3 * T <= / 2 * u * A + / 2 * u * Rabs z).
  { unfold T. assert (E1 : C * eta <= A * eta) by (apply Rmult_le_compat_r; lra). assert (E2 : A * (100000 * eta) <= A * (u / 100000)) by (apply Rmult_le_compat_l; lra).
    assert (E3 : Rabs z * (100000 * eta) <= Rabs z * (u / 100000)) by (apply Rmult_le_compat_l; lra).
    assert (E4 : 100000 * eta <= u * A).
    { apply Rle_trans with (u * bpow radix2 (-100)); [|apply Rmult_le_compat_l; lra]. unfold u, eta. apply Rle_trans with (bpow radix2 20 * bpow radix2 (-1075)); [apply Rmult_le_compat_r; [apply bpow_ge_0|cbn; lra]|]. rewrite <- !bpow_plus. apply bpow_le; lia. }
    assert (0 <= u * A) by (apply Rmult_le_pos; lra). assert (0 <= u * Rabs z) by (apply Rmult_le_pos; lra). lra. }
  assert (EV : vnorm dv <= 25 * u * A + 8 * u * Rabs z).
  { assert (u * vnorm (psurf A fl w) <= u * A) by (apply Rmult_le_compat_l; lra). lra. }
  assert (BQ : vnorm (V (B2R q0) (B2R q1) (B2R q2)) <= bpow radix2 1000).
  { assert (X : V (B2R q0) (B2R q1) (B2R q2) = vadd (vadd (psurf A fl w) (vscale (- z) w)) dv) by (unfold dv, pint; clear; vring).
    rewrite X. eapply Rle_trans; [apply norm_triangle|]. eapply Rle_trans; [apply Rplus_le_compat_r, norm_triangle|]. rewrite vnorm_scale, Nw, Rabs_Ropp.
    assert (bpow radix2 1000 >= 8 * bpow radix2 300). { change 8 with (bpow radix2 3). rewrite <- bpow_plus. apply Rle_ge, bpow_le; lia. }
    assert (u * A <= / 1000000000000000 * A) by (apply Rmult_le_compat_r; lra). assert (u * Rabs z <= / 1000000000000000 * Rabs z) by (apply Rmult_le_compat_r; lra). lra. }
  assert (BC : Rabs (B2R q0) <= bpow radix2 1000 /\ Rabs (B2R q1) <= bpow radix2 1000 /\ Rabs (B2R q2) <= bpow radix2 1000).
  { change (V (B2R q0) (B2R q1) (B2R q2)) with (vec_of (q0, q1, q2)) in BQ. rewrite <- length3_vnorm in BQ. destruct (comp_le_length q0 q1 q2) as (X0 & X1 & X2). lra. }
  destruct BC as (X0 & X1 & X2). destruct (pick q0 q1 q2 G0 G1 G2 X0 X1 X2) as ((H0 & V0) & (H1 & V1) & (H2 & V2)). split; [unfold finite_vec; auto|].
  eapply Rle_trans; [|exact EV]. right.
  match goal with |- vnorm (vsub (vec_of ?t) _) = _ => assert (EP : vec_of t = V (- B2R q2) (B2R q1) (B2R q0)) by (apply vec_eq; [exact V0|exact V1|exact V2]); rewrite EP end.
  rewrite <- (orthogonal_norm (mT Me) dv). 2:{ unfold orthogonal, mT, Me; vring. }
  f_equal. unfold dv. rewrite mulv_sub. f_equal. unfold mulv, mT, Me, vdot; cbn [Spec.vx Spec.vy Spec.vz r0 r1 r2]. apply vec_eq; cbn [Spec.vx Spec.vy Spec.vz]; ring.
Qed.

Theorem C89_accuracy : forall n depth a f, ordinary_vec n -> usual_ellipsoid a f -> is_finite depth = true -> Rabs (B2R depth) <= bpow radix2 300 ->
  finite_vec (fn_EB_E2p_EB_E n depth a f) /\
  exists s, on_ellipsoid (B2R a) (B2R f) (V 0 0 1) s /\ same_direction (ellipsoid_gradient (B2R a) (B2R f) (V 0 0 1) s) (vec_of n) /\
    vnorm (vsub (vec_of (fn_EB_E2p_EB_E n depth a f)) (vsub s (vscale (B2R depth) (direction (vec_of n)))))
      <= 25 * u * B2R a + 8 * u * Rabs (B2R depth).
Proof.
  intros n depth a f O H Fd Bd. destruct (position_err n depth a f O H Fd Bd) as (F & E). split; auto.
  assert (NL : vec_of n <> v0).
  { destruct n as [[x y] z]. destruct O as (_ & _ & _ & _ & _ & _ & G). pose proof (bpow_gt_0 radix2 (-400)). intros E'. injection E' as Ex Ey Ez. rewrite Ex, Ey, Ez, Rabs_R0 in G. lra. }
  destruct H as (_ & _ & Ba & Bf). pose proof (bpow_gt_0 radix2 (-100)) as P1. set (w := mulv Me (direction (vec_of n))) in *.
  assert (Hw : w <> v0) by (apply orthogonal_nz; [apply Me_orthogonal|apply direction_nz; auto]).
  exists (mulv (mT Me) (psurf (B2R a) (B2R f) w)). change (V 0 0 1) with (north Me). split; [apply psurf_on_ellipsoid; auto using Me_orthogonal; lra|]. split.
  - eapply same_direction_trans; [apply psurf_normal; auto using Me_orthogonal; lra|]. unfold w. rewrite orthogonal_inv by apply Me_orthogonal. apply direction_same; auto.
  - unfold pint in E. rewrite mulv_sub, mulv_scale in E. unfold w at 2 in E. rewrite orthogonal_inv in E by apply Me_orthogonal. exact E.
Qed.
Print Assumptions C89_accuracy.
