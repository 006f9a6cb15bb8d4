(** * C90: p_EB_E2n_EB_E in binary64 *)
From Coq Require Import ZArith Reals Lra Lia Bool Psatz.
From Flocq Require Import Core BinarySingleNaN Relative.
From Verif Require LObj2.
From Verif Require Import Spec SpecArr SpecObj LVec LAngle LEcef PEcef LVerm FTiny FBase FRel FRel2 FUnit FDist FGreat FClose FLatLon FInv FEcef FEcef2 FGeodB FGeod FGeod2 FGeod3 FGeod4 FGeod5.
Local Open Scope R_scope.

(** the semi-major axis between 2^-100 and 2^100 metres; a sphere, or a flattening between 2^-100 and 1/200 *)
Definition usual_earth (a f : float64) : Prop :=
  is_finite a = true /\ is_finite f = true /\ bpow radix2 (-100) <= B2R a <= bpow radix2 100 /\ (B2R f = 0 \/ bpow radix2 (-100) <= B2R f) /\ B2R f <= / 200.

Lemma mid_ordinary m : finite_vec m -> / 2 <= vnorm (vec_of m) <= 2 -> ordinary_vec m.
Proof.
  destruct m as [[x y] z]. intros (Fx & Fy & Fz) (L & U). rewrite <- length3_vnorm in L, U. destruct (comp_le_length x y z) as (Cx & Cy & Cz).
  assert (B : 2 <= bpow radix2 400). { change 2 with (bpow radix2 1). apply bpow_le; lia. }
  assert (C : bpow radix2 (-400) <= / 4). { change (/ 4) with (bpow radix2 (-2)). apply bpow_le; lia. }
  unfold ordinary_vec, ordinary. repeat (split; [auto; lra|]).
  destruct (Rle_dec (bpow radix2 (-400)) (Rabs (B2R x))) as [|Gx]; auto. destruct (Rle_dec (bpow radix2 (-400)) (Rabs (B2R y))) as [|Gy]; auto.
  destruct (Rle_dec (bpow radix2 (-400)) (Rabs (B2R z))) as [|Gz]; auto. exfalso.
  rewrite length3_vnorm in L. pose proof (norm_sum3 (vec_of (x, y, z))) as S. cbn [vec_of Spec.vx Spec.vy Spec.vz] in S. apply Rnot_le_lt in Gx, Gy, Gz.
  assert (bpow radix2 (-400) <= / 8). { change (/ 8) with (bpow radix2 (-3)). apply bpow_le; lia. } cbn [vec_of] in L. lra.
Qed.
Lemma near_over k x lam w : 0 < lam -> 1 / 2 <= lam -> near k eta x (lam * w) -> Rabs (x / lam - w) <= k * u * Rabs w + 2 * eta.
Proof.
  intros P L N. pose proof eta_pos as Pe. unfold near in N. rewrite Rabs_mult, (Rabs_right lam) in N by lra. replace (x / lam - w) with ((x - lam * w) / lam) by (field; lra).
  unfold Rdiv. rewrite Rabs_mult, Rabs_inv, (Rabs_right lam) by lra. apply (Rmult_le_reg_r lam); [lra|]. rewrite Rmult_assoc, Rinv_l, Rmult_1_r by lra. eapply Rle_trans; [exact N|].
  assert (eta * (1 / 2) <= eta * lam) by (apply Rmult_le_compat_l; lra). lra.
Qed.
Lemma near_vec' q n : vnorm n = 1 ->
  Rabs (Spec.vx q - Spec.vx n) <= 51 / 10 * u * Rabs (Spec.vx n) + 10 * eta ->
  Rabs (Spec.vy q - Spec.vy n) <= 51 / 10 * u * Rabs (Spec.vy n) + 10 * eta ->
  Rabs (Spec.vz q - Spec.vz n) <= 51 / 10 * u * Rabs (Spec.vz n) + 10 * eta ->
  Rabs (vnorm q - 1) <= 52 / 10 * u /\ angle n q <= 53 / 10 * u.
Proof. exact (near_vec q n). Qed.

(** the geodetic quantities of a position *)
Lemma geo_facts A fl w d : 0 < A -> 0 <= fl <= / 200 -> ecc2 fl <= / 100 -> vnorm w = 1 -> - (524288 * A) <= d <= A / 2 ->
  let e := ecc2 fl in let c := cc A fl w in let K := (c - d) * (1 - e) / c in let h := c - d in let q := pint A fl w d in
  12 / 25 <= K <= 1048576 /\ 49 / 100 * A <= h <= 524289 * A /\ 0 < c <= A /\ h * (1 - e) / K = c /\
  q = V (h * Spec.vx w) (h * (K + e) / K * Spec.vy w) (h * (K + e) / K * Spec.vz w) /\
  rho2 q / (A * A) * K ^ 2 + (1 - e) * (Spec.vx q * Spec.vx q) / (A * A) * (K + e) ^ 2 = K ^ 2 * (K + e) ^ 2 /\
  Rabs (Spec.vx q) <= 524289 * A /\ Rabs (Spec.vy q) <= 1048576 * A /\ Rabs (Spec.vz q) <= 1048576 * A /\
  sqrt (rho2 q) * (K / (K + e)) * (sqrt (rho2 q) * (K / (K + e))) + Spec.vx q * Spec.vx q = h * h.
Proof.
  intros PA Bf Be Nw Bd e c K h q. assert (U : vdot w w = 1) by (rewrite <- vnorm_sq, Nw; ring).
  pose proof (cc_ge A fl w PA ltac:(lra) U) as Cg. pose proof (cc_bounds A fl w PA ltac:(lra) Nw) as (_ & Cb). fold c e in Cg, Cb. pose proof (ecc2_range fl ltac:(lra)) as Pe. fold e in Pe, Be.
  assert (Cl : 99 / 100 * A <= c) by nra. assert (Pc : 0 < c) by lra.
  assert (Ph : 49 / 100 * A <= h <= 524289 * A) by (unfold h; lra).
  assert (KC : K * c = h * (1 - e)) by (unfold K, h; field; lra).
  assert (BK : 12 / 25 <= K <= 1048576).
  { split; apply (Rmult_le_reg_r c); auto; rewrite KC; unfold h.
    - assert ((1 - e) * d <= (1 - e) * (A / 2)) by (apply Rmult_le_compat_l; lra). nra.
    - assert ((1 - e) * - d <= (1 - e) * (524288 * A)) by (apply Rmult_le_compat_l; lra). nra. }
  assert (Hk : ecc2 fl < (cc A fl w - d) * (1 - ecc2 fl) / cc A fl w) by (change (e < K); lra).
  pose proof (rec_q A fl d w PA ltac:(lra) U Hk) as RQ. pose proof (rec_quartic A fl d w PA ltac:(lra) U Hk) as RK. fold e c in RQ, RK. fold K q h in RQ, RK. fold q in RK.
  split; auto. split; auto. split; auto. split; [unfold K; fold h; field; repeat split; lra|]. split; auto. split; auto.
  destruct (unit_comp w Nw) as (W0 & W1 & W2).
  assert (HR : 0 <= h * (K + e) / K <= 1048576 * A).
  { split; [apply Rmult_le_pos; [apply Rmult_le_pos; lra|apply Rlt_le, Rinv_0_lt_compat; lra]|]. replace (h * (K + e) / K) with (h + h * (e / K)) by (field; lra).
    assert (e / K <= / 2). { apply (Rmult_le_reg_r K); [lra|]. unfold Rdiv. rewrite Rmult_assoc, Rinv_l, Rmult_1_r by lra. lra. } assert (h * (e / K) <= h * / 2) by (apply Rmult_le_compat_l; lra). lra. }
  split; [rewrite RQ; cbn [Spec.vx]; rewrite Rabs_mult, (Rabs_right h) by lra; rewrite <- (Rmult_1_r (524289 * A)); apply Rmult_le_compat; try lra; apply Rabs_pos|].
  split; [rewrite RQ; cbn [Spec.vy]; rewrite Rabs_mult, (Rabs_right (h * (K + e) / K)) by lra; rewrite <- (Rmult_1_r (1048576 * A)); apply Rmult_le_compat; try lra; apply Rabs_pos|].
  split; [rewrite RQ; cbn [Spec.vz]; rewrite Rabs_mult, (Rabs_right (h * (K + e) / K)) by lra; rewrite <- (Rmult_1_r (1048576 * A)); apply Rmult_le_compat; try lra; apply Rabs_pos|].
  assert (SS : sqrt (rho2 q) * sqrt (rho2 q) = rho2 q) by (apply sqrt_sqrt, rho2_pos).
  replace (sqrt (rho2 q) * (K / (K + e)) * (sqrt (rho2 q) * (K / (K + e)))) with (sqrt (rho2 q) * sqrt (rho2 q) * ((K / (K + e)) * (K / (K + e)))) by ring. rewrite SS, RQ. unfold rho2; cbn [Spec.vx Spec.vy Spec.vz].
  transitivity (h * h * vdot w w); [unfold vdot; field; lra|rewrite U; ring].
Qed.

Lemma scale_back x K e h w : 0 < K -> 0 < K + e -> x * h * w = x * (K / (K + e)) * (h * (K + e) / K * w).
Proof. intros. field. lra. Qed.
Lemma depth_back ht d c h A : h = c - d -> 0 < c <= A -> Rabs (ht - (h - c)) <= 137 / 10 * u * c + 118 / 10 * u * Rabs (h - c) -> Rabs (- ht - d) <= 14 * u * A + 12 * u * Rabs d.
Proof.
  intros -> Hc NH. pose proof u_pos. replace (- ht - d) with (- (ht - (c - d - c))) by ring. rewrite Rabs_Ropp. eapply Rle_trans; [exact NH|].
  replace (c - d - c) with (- d) by ring. rewrite Rabs_Ropp. assert (u * c <= u * A) by (apply Rmult_le_compat_l; lra). assert (0 <= u * A) by (apply Rmult_le_pos; lra). assert (0 <= u * Rabs d) by (apply Rmult_le_pos; [lra|apply Rabs_pos]). lra.
Qed.
Lemma equation23_err pow (a f p0 p1 p2 : float64) w d : good_pow pow -> usual_earth a f -> is_finite p0 = true -> is_finite p1 = true -> is_finite p2 = true -> vnorm w = 1 ->
  V (B2R p0) (B2R p1) (B2R p2) = pint (B2R a) (B2R f) w d -> - (524288 * B2R a) <= d <= B2R a / 2 ->
  let '(xs, ys, depth) := fequation23 pow a f p0 p1 p2 in
  (is_finite (fmul xs p0) = true /\ is_finite (fmul ys p1) = true /\ is_finite (fmul ys p2) = true) /\
  (exists lam, 9 / 10 <= lam <= 11 / 10 /\ near (436 / 100) eta (B2R (fmul xs p0)) (lam * Spec.vx w) /\ near (436 / 100) eta (B2R (fmul ys p1)) (lam * Spec.vy w) /\ near (436 / 100) eta (B2R (fmul ys p2)) (lam * Spec.vz w)) /\
  is_finite depth = true /\ Rabs (B2R depth - d) <= 14 * u * B2R a + 12 * u * Rabs d.
Proof.
  intros G (Fa & Ff & BA & Hf & Uf) F0 F1 F2 Nw EQ Bd. consts. pose proof (bpow_gt_0 radix2 (-100)) as P100.
  destruct (st_ecc f Ff Hf Uf) as (Fe & Ne & Be & He). set (A := B2R a) in *. set (fl := B2R f) in *. assert (PA : 0 < A) by lra. assert (Bf : 0 <= fl <= / 200) by lra.
  destruct (geo_facts A fl w d PA Bf ltac:(lra) Nw Bd) as (BK & Bh & Bc & Ec & RQ & RK & X0 & X1 & X2 & EH). rewrite <- EQ in RQ, RK, X0, X1, X2, EH. cbn [Spec.vx Spec.vy Spec.vz] in X0, X1, X2.
  set (e := ecc2 fl) in *. set (c := cc A fl w) in *. set (h := c - d) in *. set (K := h * (1 - e) / c) in *.
  assert (B0 : 524289 * A <= bpow radix2 130). { apply Rle_trans with (bpow radix2 20 * bpow radix2 100); [rewrite b20; apply Rmult_le_compat; lra|rewrite <- bpow_plus; apply b_le; lia]. }
  assert (B1 : 1048576 * A <= bpow radix2 130). { apply Rle_trans with (bpow radix2 20 * bpow radix2 100); [rewrite b20; apply Rmult_le_compat; lra|rewrite <- bpow_plus; apply b_le; lia]. }
  assert (Hh : bpow radix2 (-102) <= h <= bpow radix2 130). { split; [|lra]. change (-102)%Z with (-2 + -100)%Z. rewrite bpow_plus. change (bpow radix2 (-2)) with (/ 4). lra. }
  unfold fequation23. set (e2 := feccentricity2 f) in *. 
  destruct (st_yz p1 p2 F1 F2 ltac:(lra) ltac:(lra)) as (Fs & Ns & Ps & Fr & Nr). destruct (st_sq p0 F0 ltac:(lra)) as (Fx & Nx & Px). destruct (st_q pow a e2 p0 e) as (Fq & Nq & Pq); auto; try lra. fold A in Nq.
  set (s := fadd (fmul p1 p1) (fmul p2 p2)) in *. set (q := fmul (fdiv (fsub fone e2) (pow a ftwo)) (fmul p0 p0)) in *.
  set (R2 := B2R p1 * B2R p1 + B2R p2 * B2R p2) in *. change (rho2 (V (B2R p0) (B2R p1) (B2R p2))) with R2 in RK, EH. cbn [Spec.vx] in RK, EH.
  assert (PR2 : 0 <= R2) by (unfold R2; pose proof (Rle_0_sqr (B2R p1)); pose proof (Rle_0_sqr (B2R p2)); unfold Rsqr in *; lra).
  assert (IA : 0 < / (A * A)) by (apply Rinv_0_lt_compat, Rmult_lt_0_compat; lra).
  assert (BKp : 12 / 25 <= K <= bpow radix2 20) by (rewrite b20; auto).
  destruct (k_near pow a e2 q s e (R2 / (A * A)) ((1 - e) * (B2R p0 * B2R p0) / (A * A)) K) as (Fk & Nk); auto; try lra.
  { fold A. replace (A * A * (R2 / (A * A))) with R2 by (field; lra). exact Ns. } { apply Rmult_le_pos; lra. } { apply Rmult_le_pos; [apply Rmult_le_pos; [lra|apply Rle_0_sqr]|lra]. }
  set (k := fcompute_k pow a e2 q s) in *.
  assert (BR2 : 0 <= sqrt R2 <= bpow radix2 131).
  { split; [apply sqrt_pos|]. apply sqrt_bpow; auto. unfold R2. pose proof (sq_big (B2R p1) ltac:(lra)). pose proof (sq_big (B2R p2) ltac:(lra)). apply Rle_trans with (bpow radix2 2 * bpow radix2 260); [change (bpow radix2 2) with 4; lra|rewrite <- bpow_plus; apply b_le; lia]. }
  destruct (st_temp k e2 (fsqrt s) (fmul p0 p0) K e (sqrt R2 * (K / (K + e))) (sqrt R2) (B2R p0) h) as (Ft & Nt); auto. cbv zeta in Ft, Nt.
  set (t0 := fsqrt (fadd (fmul (fdiv (fmul k (fsqrt s)) (fadd k e2)) (fdiv (fmul k (fsqrt s)) (fadd k e2))) (fmul p0 p0))) in *.
  destruct (st_scale k e2 t0 K e h) as (FX & FY & NX & NY); auto. destruct (st_height k e2 t0 K e h) as (FH & NH); auto. cbv zeta in *. rewrite Ec in NH.
  set (xs := fdiv fone t0) in *. set (ys := fdiv (fmul xs k) (fadd k e2)) in *. set (ht := fmul (fdiv (fsub (fadd k e2) fone) k) t0) in *.
  assert (IH : 0 < / h) by (apply Rinv_0_lt_compat; lra).
  pose proof (near_low (85 / 10) 0 _ (/ h) ltac:(lra) ltac:(lra) NX) as LX. pose proof (near_abs (85 / 10) 0 _ _ ltac:(lra) NX) as UX. rewrite (Rabs_right (/ h)) in UX by lra. assert (PX : 0 < B2R xs) by lra. rewrite (Rabs_right (B2R xs)) in UX by lra.
  set (x := B2R xs) in *. set (lam := x * h).
  assert (Bl : 9 / 10 <= lam <= 11 / 10).
  { unfold lam. assert (/ h * (1 - / 1000000) * h <= x * h <= / h * (1 + / 1000000) * h) by (split; apply Rmult_le_compat_r; lra). rewrite !(Rmult_comm (/ h)), !Rmult_assoc, !Rinv_l in H by lra. lra. }
  assert (Bx : x <= bpow radix2 400).
  { assert (/ h <= bpow radix2 102). { change 102%Z with (- (-102))%Z. rewrite bpow_opp. apply Rinv_le; [apply bpow_gt_0|lra]. }
    apply Rle_trans with (bpow radix2 1 * bpow radix2 102); [change (bpow radix2 1) with 2; lra|rewrite <- bpow_plus; apply b_le; lia]. }
  assert (B400 : bpow radix2 130 <= bpow radix2 400) by (apply b_le; lia).
  assert (PKe : 0 < K / (K + e) <= 1). { split; [apply Rmult_lt_0_compat; [lra|apply Rinv_0_lt_compat; lra]|]. apply (Rmult_le_reg_r (K + e)); [lra|]. unfold Rdiv. rewrite Rmult_assoc, Rinv_l, Rmult_1_r by lra. lra. }
  injection RQ as Q0 Q1 Q2.
  destruct (fmul_near_t xs p0 0 0 0 0 x (B2R p0)) as (G0 & M0); auto; try lra; try apply near_exact. { rewrite Rabs_right; lra. }
  assert (XK : 0 <= x * (K / (K + e)) <= bpow radix2 400). { split; [apply Rmult_le_pos; lra|]. rewrite <- (Rmult_1_r (bpow radix2 400)). apply Rmult_le_compat; lra. }
  destruct (fmul_near_t ys p1 (334 / 100) 0 0 0 (x * (K / (K + e))) (B2R p1)) as (G1 & M1); auto; try lra; try apply near_exact. { rewrite Rabs_right; lra. }
  destruct (fmul_near_t ys p2 (334 / 100) 0 0 0 (x * (K / (K + e))) (B2R p2)) as (G2 & M2); auto; try lra; try apply near_exact. { rewrite Rabs_right; lra. }
  split; auto. split; [|split].
  - exists lam. split; auto. split; [|split].
    + assert (QE : lam * Spec.vx w = x * B2R p0) by (unfold lam; rewrite Rmult_assoc; f_equal; symmetry; exact Q0). rewrite QE. clear - M0. eapply near_weaken; [| |exact M0]; lra.
    + assert (QE : lam * Spec.vy w = x * (K / (K + e)) * B2R p1) by (unfold lam; rewrite Q1; apply scale_back; lra). rewrite QE. clear - M1. eapply near_weaken; [| |exact M1]; lra.
    + assert (QE : lam * Spec.vz w = x * (K / (K + e)) * B2R p2) by (unfold lam; rewrite Q2; apply scale_back; lra). rewrite QE. clear - M2. eapply near_weaken; [| |exact M2]; lra.
  - unfold fneg. rewrite is_finite_Bopp. auto.
  - unfold fneg. rewrite B2R_Bopp. apply (depth_back (B2R ht) d c h A); [reflexivity|exact Bc|exact NH].
Qed.

(** ** the accuracy *)
Theorem C90_accuracy : forall pow p a f N d s, good_pow pow -> usual_earth a f -> finite_vec p ->
  vnorm N = 1 -> on_ellipsoid (B2R a) (B2R f) (V 0 0 1) s -> same_direction (ellipsoid_gradient (B2R a) (B2R f) (V 0 0 1) s) N ->
  vec_of p = vsub s (vscale d N) -> - (524288 * B2R a) <= d <= B2R a / 2 ->
  let '(n, depth) := fp_EB_E2n_EB_E pow p a f in
  near_unit n /\ angle N (vec_of n) <= 105 / 10 * u /\ is_finite depth = true /\ Rabs (B2R depth - d) <= 14 * u * B2R a + 12 * u * Rabs d.
Proof.
  intros pow p a f N d s G HE Fp NN OE SD EP Bd. consts. pose proof HE as (Fa & Ff & BA & Hf & Uf). pose proof (bpow_gt_0 radix2 (-100)) as P100.
  pose proof Me_orthogonal as OM. assert (NZ : N <> v0) by (apply vnorm_inv; auto).
  assert (PP : vec_of p = pos (B2R a) (B2R f) Me N d).
  { apply LObj2.at_depth_eq; auto; try lra. exists s. split; [exact OE|]. split; [exact SD|]. rewrite direction_of_unit by auto. exact EP. }
  unfold pos in PP. rewrite direction_of_unit in PP by auto. set (w := mulv Me N) in *. assert (Nw : vnorm w = 1) by (unfold w; rewrite orthogonal_norm; auto).
  destruct p as [[x y] z]. destruct Fp as (Fx & Fy & Fz).
  assert (PQ : V (B2R z) (B2R y) (- B2R x) = pint (B2R a) (B2R f) w d).
  { rewrite <- (orthogonal_inv' Me (pint (B2R a) (B2R f) w d)) by auto. rewrite <- PP. unfold mulv, Me, vdot, vec_of; cbn [Spec.vx Spec.vy Spec.vz r0 r1 r2]. apply vec_eq; cbn [Spec.vx Spec.vy Spec.vz]; ring. }
  assert (Be : ecc2 (B2R f) <= / 100) by (apply (st_ecc f Ff Hf Uf)).
  destruct (geo_facts (B2R a) (B2R f) w d ltac:(lra) ltac:(lra) Be Nw Bd) as (_ & _ & _ & _ & _ & _ & X0 & X1 & X2 & _). rewrite <- PQ in X0, X1, X2. cbn [Spec.vx Spec.vy Spec.vz] in X0, X1, X2. rewrite Rabs_Ropp in X2.
  assert (B1 : 1048576 * B2R a <= bpow radix2 1000). { apply Rle_trans with (bpow radix2 20 * bpow radix2 100); [rewrite b20; apply Rmult_le_compat; lra|rewrite <- bpow_plus; apply b_le; lia]. }
  destruct (pick2 x y z Fx Fy Fz ltac:(lra) ltac:(lra) ltac:(lra)) as ((F0 & V0) & (F1 & V1) & (F2 & V2)).
  unfold fp_EB_E2n_EB_E. cbv zeta.
  match type of V0 with B2R ?t = _ => set (p0 := t) in * end. match type of V1 with B2R ?t = _ => set (p1 := t) in * end. match type of V2 with B2R ?t = _ => set (p2 := t) in * end.
  rewrite <- V0, <- V1, <- V2 in PQ.
  change (let '(n, depth) := (let '(xs, ys, depth) := fequation23 pow a f p0 p1 p2 in
    (unit64 (fdot3 (fzero, fzero, fneg fone) (fmul xs p0, fmul ys p1, fmul ys p2), fdot3 (fzero, fone, fzero) (fmul xs p0, fmul ys p1, fmul ys p2), fdot3 (fone, fzero, fzero) (fmul xs p0, fmul ys p1, fmul ys p2)), depth)) in
    near_unit n /\ angle N (vec_of n) <= 105 / 10 * u /\ is_finite depth = true /\ Rabs (B2R depth - d) <= 14 * u * B2R a + 12 * u * Rabs d).
  pose proof (equation23_err pow a f p0 p1 p2 w d G HE F0 F1 F2 Nw PQ Bd) as EE. destruct (fequation23 pow a f p0 p1 p2) as [[xs ys] depth].
  destruct EE as ((G0 & G1 & G2) & (lam & Bl & N0 & N1 & N2) & FD & ED).
  destruct (unit_comp w Nw) as (W0 & W1 & W2).
  assert (CB : forall v t, near (436 / 100) eta v (lam * t) -> Rabs t <= 1 -> Rabs v <= bpow radix2 1000).
  { intros v t Nv Ht. apply near_abs in Nv; [|lra]. rewrite Rabs_mult, (Rabs_right lam) in Nv by lra. assert (lam * Rabs t <= 11 / 10 * 1) by (apply Rmult_le_compat; try lra; apply Rabs_pos). apply Rle_trans with (bpow radix2 42); [rewrite b40; lra|apply b_le; lia]. }
  destruct (pick (fmul xs p0) (fmul ys p1) (fmul ys p2) G0 G1 G2 (CB _ _ N0 W0) (CB _ _ N1 W1) (CB _ _ N2 W2)) as ((H0 & U0) & (H1 & U1) & (H2 & U2)).
  match type of U0 with B2R ?t = _ => set (m0 := t) in * end. match type of U1 with B2R ?t = _ => set (m1 := t) in * end. match type of U2 with B2R ?t = _ => set (m2 := t) in * end.
  set (m := (m0, m1, m2)).
  change (near_unit (unit64 m) /\ angle N (vec_of (unit64 m)) <= 105 / 10 * u /\ is_finite depth = true /\ Rabs (B2R depth - d) <= 14 * u * B2R a + 12 * u * Rabs d).
  assert (EW : N = V (- Spec.vz w) (Spec.vy w) (Spec.vx w)).
  { rewrite <- (orthogonal_inv Me N) by auto. fold w. unfold mulv, mT, Me, vdot; cbn [Spec.vx Spec.vy Spec.vz r0 r1 r2]. apply vec_eq; cbn [Spec.vx Spec.vy Spec.vz]; ring. }
  destruct (near_vec' (vscale (/ lam) (vec_of m)) N NN) as (L & AN).
  { rewrite EW. unfold vscale, m, vec_of; cbn [Spec.vx Spec.vy Spec.vz]. rewrite U0. pose proof (near_over (436 / 100) _ lam _ ltac:(lra) ltac:(lra) N2) as O.
    replace (/ lam * - B2R (fmul ys p2) - - Spec.vz w) with (- (B2R (fmul ys p2) / lam - Spec.vz w)) by (unfold Rdiv; ring). rewrite !Rabs_Ropp. eapply Rle_trans; [exact O|]. assert (0 <= u * Rabs (Spec.vz w)) by (apply Rmult_le_pos; [lra|apply Rabs_pos]). lra. }
  { rewrite EW. unfold vscale, m, vec_of; cbn [Spec.vx Spec.vy Spec.vz]. rewrite U1. pose proof (near_over (436 / 100) _ lam _ ltac:(lra) ltac:(lra) N1) as O.
    replace (/ lam * B2R (fmul ys p1) - Spec.vy w) with (B2R (fmul ys p1) / lam - Spec.vy w) by (unfold Rdiv; ring). eapply Rle_trans; [exact O|]. assert (0 <= u * Rabs (Spec.vy w)) by (apply Rmult_le_pos; [lra|apply Rabs_pos]). lra. }
  { rewrite EW. unfold vscale, m, vec_of; cbn [Spec.vx Spec.vy Spec.vz]. rewrite U2. pose proof (near_over (436 / 100) _ lam _ ltac:(lra) ltac:(lra) N0) as O.
    replace (/ lam * B2R (fmul xs p0) - Spec.vx w) with (B2R (fmul xs p0) / lam - Spec.vx w) by (unfold Rdiv; ring). eapply Rle_trans; [exact O|]. assert (0 <= u * Rabs (Spec.vx w)) by (apply Rmult_le_pos; [lra|apply Rabs_pos]). lra. }
  assert (IL : 0 < / lam) by (apply Rinv_0_lt_compat; lra).
  rewrite vnorm_scale, (Rabs_right (/ lam)) in L by lra. apply Rabs_le_inv in L.
  assert (LM : / 2 <= vnorm (vec_of m) <= 2).
  { assert (EM : vnorm (vec_of m) = lam * (/ lam * vnorm (vec_of m))) by (field; lra). rewrite EM. split; [apply Rle_trans with (9 / 10 * (1 - / 100)); [lra|apply Rmult_le_compat; lra]|apply Rle_trans with (11 / 10 * (1 + / 100)); [apply Rmult_le_compat; lra|lra]]. }
  assert (OV : ordinary_vec m) by (apply mid_ordinary; auto; unfold m, finite_vec; auto).
  destruct (unit64_direction m OV) as (Mz & AM). split; [apply unit64_near; auto|]. split; [|split; [exact FD|exact ED]].
  rewrite angle_scale_r in AN by auto.
  assert (UN : vec_of (unit64 m) <> v0). { intros E. pose proof (unit64_near m OV) as NU. destruct (unit64 m) as [[g0 g1] g2]. destruct NU as (_ & _ & _ & LU). rewrite length3_vnorm, E, vnorm_v0 in LU. apply Rabs_le_inv in LU. lra. }
  pose proof (angle_triangle N (vec_of m) (vec_of (unit64 m)) NZ Mz UN) as TR. lra.
Qed.
Print Assumptions C90_accuracy.
