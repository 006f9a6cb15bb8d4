(** * C95: along a great circle by a distance in a direction, in binary64 (n_EA_E_distance_and_azimuth2n_EB_E, core.py 779-822) *)
From Coq Require Import ZArith Reals Lra Lia Bool Psatz.
From Flocq Require Import Core BinarySingleNaN Relative.
From Verif Require Import Spec LVec LAngle FTiny FZero FBase FRel FRel2 FUnit FPi FAngle FDist FGreat FLatLon FInv FEcef FEcef2 FNed FNed2 FNed3 FDelta FDelta2 FDelta3 FMove.
Local Open Scope R_scope.

(** p * c + q * s, componentwise *)
Definition flin (p : vec64) (c : float64) (q : vec64) (s : float64) : vec64 :=
  let '(p0, p1, p2) := p in let '(q0, q1, q2) := q in (fadd (fmul p0 c) (fmul q0 s), fadd (fmul p1 c) (fmul q1 s), fadd (fmul p2 c) (fmul q2 s)).
(** core.py 806-821, one position, default R_Ee *)
Definition fway (fsin fcos : float64 -> float64) (n : vec64) (distance_rad azimuth : float64) : vec64 :=
  let k_east := unit64 (fcross (fback (fone, fzero, fzero)) n) in
  let k_north := fcross n k_east in
  let d := flin k_north (fcos azimuth) k_east (fsin azimuth) in
  flin n (fcos distance_rad) d (fsin distance_rad).

(** ** a linear combination of two vectors *)
Lemma lin_comp (p q c s : float64) kc ks C S' : is_finite p = true -> is_finite q = true -> is_finite c = true -> is_finite s = true ->
  Rabs (B2R p) <= 2 -> Rabs (B2R q) <= 2 -> Rabs C <= 1 -> Rabs S' <= 1 -> 0 <= kc <= 100 -> 0 <= ks <= 100 ->
  near kc (2 * eta) (B2R c) C -> near ks (2 * eta) (B2R s) S' ->
  is_finite (fadd (fmul p c) (fmul q s)) = true /\
  Rabs (B2R (fadd (fmul p c) (fmul q s)) - (B2R p * C + B2R q * S')) <= (kc + 2 + / 100) * u * Rabs (B2R p * C) + (ks + 2 + / 100) * u * Rabs (B2R q * S') + 40 * eta.
Proof.
  intros Fp Fq Fc Fs Bp Bq BC BS Hc Hs Nc Ns. pose proof u_pos as Pu. pose proof u_tiny as Su. pose proof eta_pos as Pe. pose proof tiny_eta as Te.
  assert (B4 : 2 <= bpow radix2 400) by (change 2 with (bpow radix2 1); apply bpow_le; lia). assert (B9 : bpow radix2 400 <= bpow radix2 900) by (apply bpow_le; lia).
  destruct (fmul_near p c 0 kc (2 * eta) (B2R p) C Fp Fc ltac:(lra) ltac:(lra) ltac:(lra) (near_exact _) Nc ltac:(lra) ltac:(lra)) as (F1 & N1).
  destruct (fmul_near q s 0 ks (2 * eta) (B2R q) S' Fq Fs ltac:(lra) ltac:(lra) ltac:(lra) (near_exact _) Ns ltac:(lra) ltac:(lra)) as (F2 & N2).
  assert (T1 : 0 <= 4 * Rabs (B2R p) * (2 * eta) + eta <= 17 * eta). { pose proof (Rabs_pos (B2R p)). assert (0 <= Rabs (B2R p) * eta <= 2 * eta) by (split; [apply Rmult_le_pos; lra|apply Rmult_le_compat_r; lra]). lra. }
  assert (T2 : 0 <= 4 * Rabs (B2R q) * (2 * eta) + eta <= 17 * eta). { pose proof (Rabs_pos (B2R q)). assert (0 <= Rabs (B2R q) * eta <= 2 * eta) by (split; [apply Rmult_le_pos; lra|apply Rmult_le_compat_r; lra]). lra. }
  assert (P1 : Rabs (B2R p * C) <= 2). { rewrite Rabs_mult. pose proof (Rabs_pos (B2R p)). pose proof (Rabs_pos C). nra. }
  assert (P2 : Rabs (B2R q * S') <= 2). { rewrite Rabs_mult. pose proof (Rabs_pos (B2R q)). pose proof (Rabs_pos S'). nra. }
  destruct (fadd_near_t (fmul p c) (fmul q s) (0 + kc + 1 + / 500) (0 + ks + 1 + / 500) (4 * Rabs (B2R p) * (2 * eta) + eta) (4 * Rabs (B2R q) * (2 * eta) + eta) (B2R p * C) (B2R q * S') F1 F2 ltac:(lra) ltac:(lra) ltac:(lra) ltac:(lra) N1 N2 ltac:(lra) ltac:(lra)) as (F & E). split; auto.
  set (X := B2R p * C) in *. set (Y := B2R q * S') in *. eapply Rle_trans; [exact E|]. pose proof (Rabs_triang X Y) as TR. pose proof (Rabs_pos X). pose proof (Rabs_pos Y).
  assert (u * Rabs (X + Y) <= u * (Rabs X + Rabs Y)) by (apply Rmult_le_compat_l; lra). assert (0 <= u * Rabs X) by (apply Rmult_le_pos; lra). assert (0 <= u * Rabs Y) by (apply Rmult_le_pos; lra). nra.
Qed.

(** the sum of weights against the components of a direction *)
Lemma weigh a b C S' : 0 <= a -> 0 <= b -> C * C + S' * S' = 1 -> a * Rabs C + b * Rabs S' <= sqrt (a * a + b * b).
Proof.
  intros Ha Hb E. pose proof (Rabs_pos C). pose proof (Rabs_pos S'). rewrite <- (sqrt_square (a * Rabs C + b * Rabs S')) by nra. apply sqrt_le_1_alt.
  assert (E' : Rabs C * Rabs C + Rabs S' * Rabs S' = 1) by (rewrite <- !Rabs_mult, !Rabs_right; nra). set (x := Rabs C) in *. set (y := Rabs S') in *. clearbody x y.
  replace (a * a + b * b) with ((a * a + b * b) * (x * x + y * y)) by (rewrite E'; ring). pose proof (Rle_0_sqr (a * y - b * x)) as Q. unfold Rsqr in Q. nra.
Qed.

Lemma lin_err p c q s P Q C S' kp kq m : finite_vec p -> finite_vec q -> is_finite c = true -> is_finite s = true ->
  vnorm P = 1 -> vnorm Q = 1 -> C * C + S' * S' = 1 -> 0 <= kp <= 100 -> 0 <= kq <= 100 ->
  vnorm (vsub (vec_of p) P) <= kp * u -> vnorm (vsub (vec_of q) Q) <= kq * u -> near 2 (2 * eta) (B2R c) C -> near 2 (2 * eta) (B2R s) S' ->
  0 <= m -> (kp + 402 / 100) * (kp + 402 / 100) + (kq + 402 / 100) * (kq + 402 / 100) <= m * m ->
  finite_vec (flin p c q s) /\ vnorm (vsub (vec_of (flin p c q s)) (vadd (vscale C P) (vscale S' Q))) <= (m + / 100) * u.
Proof.
  destruct p as [[p0 p1] p2]. destruct q as [[q0 q1] q2]. intros (Fp0 & Fp1 & Fp2) (Fq0 & Fq1 & Fq2) Fc Fs UP UQ CS Hp Hq DP DQ Nc Ns Hm HM.
  pose proof u_pos as Pu. pose proof u_tiny as Su. pose proof eta_pos as Pe. pose proof tiny_eta as Te.
  assert (BC : Rabs C <= 1) by (apply Rabs_le; nra). assert (BS : Rabs S' <= 1) by (apply Rabs_le; nra).
  set (p := vec_of (p0, p1, p2)) in *. set (q := vec_of (q0, q1, q2)) in *.
  assert (NP : vnorm p <= 1 + / 1000). { rewrite (via P p). eapply Rle_trans; [apply norm_triangle|]. rewrite UP. assert (kp * u <= 100 * / 1000000000000000) by (apply Rmult_le_compat; lra). lra. }
  assert (NQ : vnorm q <= 1 + / 1000). { rewrite (via Q q). eapply Rle_trans; [apply norm_triangle|]. rewrite UQ. assert (kq * u <= 100 * / 1000000000000000) by (apply Rmult_le_compat; lra). lra. }
  destruct (comp_le_vnorm p) as (A0 & A1 & A2). destruct (comp_le_vnorm q) as (B0 & B1 & B2). unfold p, q, vec_of in A0, A1, A2, B0, B1, B2; cbn [Spec.vx Spec.vy Spec.vz] in A0, A1, A2, B0, B1, B2. change (V (B2R p0) (B2R p1) (B2R p2)) with p in A0, A1, A2. change (V (B2R q0) (B2R q1) (B2R q2)) with q in B0, B1, B2.
  destruct (lin_comp p0 q0 c s 2 2 C S') as (G0 & E0); auto; try lra. destruct (lin_comp p1 q1 c s 2 2 C S') as (G1 & E1); auto; try lra. destruct (lin_comp p2 q2 c s 2 2 C S') as (G2 & E2); auto; try lra.
  unfold flin. split; [cbn; auto|]. set (y := vec_of _).
  set (mid := vadd (vscale C p) (vscale S' q)).
  assert (R1 : vnorm (vsub y mid) <= 402 / 100 * u * (Rabs C + Rabs S') + 121 * eta).
  { set (e := vadd (vadd (vscale (401 / 100 * u * Rabs C) (V (Rabs (B2R p0)) (Rabs (B2R p1)) (Rabs (B2R p2)))) (vscale (401 / 100 * u * Rabs S') (V (Rabs (B2R q0)) (Rabs (B2R q1)) (Rabs (B2R q2))))) (V (40 * eta) (40 * eta) (40 * eta))).
    assert (K : forall x a b X, X = a * C + b * S' -> Rabs (x - X) <= (2 + 2 + / 100) * u * Rabs (a * C) + (2 + 2 + / 100) * u * Rabs (b * S') + 40 * eta -> Rabs (x - X) <= 401 / 100 * u * Rabs C * Rabs a + 401 / 100 * u * Rabs S' * Rabs b + 40 * eta).
    { intros x a b X -> H. rewrite !Rabs_mult in H. lra. }
    apply Rle_trans with (vnorm e).
    - apply norm_le_comp; unfold e, y, mid, p, q, vsub, vadd, vscale, vec_of; cbn [Spec.vx Spec.vy Spec.vz].
      + replace (C * B2R p0 + S' * B2R q0) with (B2R p0 * C + B2R q0 * S') by ring. apply K; auto.
      + replace (C * B2R p1 + S' * B2R q1) with (B2R p1 * C + B2R q1 * S') by ring. apply K; auto.
      + replace (C * B2R p2 + S' * B2R q2) with (B2R p2 * C + B2R q2 * S') by ring. apply K; auto.
    - unfold e. eapply Rle_trans; [apply norm_triangle|]. eapply Rle_trans; [apply Rplus_le_compat_r, norm_triangle|]. rewrite !vnorm_scale.
      pose proof (abs_vec_norm p) as AP. pose proof (abs_vec_norm q) as AQ. unfold p, q, vec_of in AP, AQ; cbn [Spec.vx Spec.vy Spec.vz] in AP, AQ. change (V (B2R p0) (B2R p1) (B2R p2)) with p in AP. change (V (B2R q0) (B2R q1) (B2R q2)) with q in AQ. rewrite AP, AQ.
      pose proof (norm_sum3 (V (40 * eta) (40 * eta) (40 * eta))) as N3. cbn [Spec.vx Spec.vy Spec.vz] in N3. rewrite (Rabs_right (40 * eta)) in N3 by lra.
      assert (PC : 0 <= u * Rabs C) by (apply Rmult_le_pos; [lra|apply Rabs_pos]). assert (PS : 0 <= u * Rabs S') by (apply Rmult_le_pos; [lra|apply Rabs_pos]).
      rewrite (Rabs_right (401 / 100 * u * Rabs C)), (Rabs_right (401 / 100 * u * Rabs S')) by lra.
      assert (u * Rabs C * vnorm p <= u * Rabs C * (1 + / 1000)) by (apply Rmult_le_compat_l; lra). assert (u * Rabs S' * vnorm q <= u * Rabs S' * (1 + / 1000)) by (apply Rmult_le_compat_l; lra). lra. }
  assert (R2 : vnorm (vsub mid (vadd (vscale C P) (vscale S' Q))) <= Rabs C * (kp * u) + Rabs S' * (kq * u)).
  { replace (vsub mid (vadd (vscale C P) (vscale S' Q))) with (vadd (vscale C (vsub p P)) (vscale S' (vsub q Q))) by (unfold mid; generalize p q; intros; vring).
    eapply Rle_trans; [apply norm_triangle|]. rewrite !vnorm_scale. apply Rplus_le_compat; apply Rmult_le_compat_l; auto; apply Rabs_pos. }
  rewrite (sub_via _ y mid). eapply Rle_trans; [apply norm_triangle|].
  pose proof (weigh (kp + 402 / 100) (kq + 402 / 100) C S' ltac:(lra) ltac:(lra) CS) as W.
  assert (SM : sqrt ((kp + 402 / 100) * (kp + 402 / 100) + (kq + 402 / 100) * (kq + 402 / 100)) <= m). { rewrite <- (sqrt_square m) by lra. apply sqrt_le_1_alt. exact HM. }
  assert (u * ((kp + 402 / 100) * Rabs C + (kq + 402 / 100) * Rabs S') <= u * m) by (apply Rmult_le_compat_l; lra). lra.
Qed.

(** ** the east direction: a horizontal vector made a unit *)
Lemma planar_unit d0 d1 d2 r s c k t : is_finite d0 = true -> is_finite d1 = true -> is_finite d2 = true ->
  c * c + s * s = 1 -> bpow radix2 (-300) <= r <= 2 -> 0 <= k <= 20 -> 0 <= t <= 100 * eta ->
  near k t (B2R d0) (- (r * s)) -> near k t (B2R d1) (r * c) -> B2R d2 = 0 ->
  near_v (2 * k + 51 / 10) wee (unit64 (d0, d1, d2)) (V (- s) c 0).
Proof.
  intros G0 G1 G2 CS Hr Hk Ht N1 N2 Z. pose proof u_pos as Pu. pose proof u_tiny as Su. pose proof eta_pos as Pe. pose proof eta_wee as EW. pose proof eta_wee1 as EW1. pose proof wee_pos as PW.
  assert (Bs : Rabs s <= 1) by (apply Rabs_le; nra). assert (Bc : Rabs c <= 1) by (apply Rabs_le; nra).
  assert (T4 : bpow radix2 (-400) <= bpow radix2 (-300) / 4). { replace (bpow radix2 (-300) / 4) with (bpow radix2 (-302)); [apply bpow_le; lia|]. change (-302)%Z with (-300 + -2)%Z. rewrite bpow_plus. reflexivity. }
  assert (P3 : 0 < bpow radix2 (-300)) by apply bpow_gt_0. assert (P300 : 0 < bpow radix2 300) by apply bpow_gt_0.
  assert (S300 : 1 <= bpow radix2 300) by (change 1 with (bpow radix2 0); apply bpow_le; lia).
  assert (ER : eta * 1000000 <= u / 1000 * r).
  { apply Rle_trans with (u / 1000 * bpow radix2 (-300)); [|apply Rmult_le_compat_l; lra]. unfold eta, u. apply Rle_trans with (bpow radix2 (-1075) * bpow radix2 20); [apply Rmult_le_compat_l; [apply bpow_ge_0|cbn; lra]|].
    apply Rle_trans with (bpow radix2 (-53) * bpow radix2 (-10) * bpow radix2 (-300)); [rewrite <- !bpow_plus; apply bpow_le; lia|]. apply Rmult_le_compat_r; [lra|]. unfold Rdiv. apply Rmult_le_compat_l; [apply bpow_ge_0|cbn; lra]. }
  assert (Prs : Rabs (- (r * s)) <= r). { rewrite Rabs_Ropp, Rabs_mult, (Rabs_right r) by lra. nra. }
  assert (Prc : Rabs (r * c) <= r). { rewrite Rabs_mult, (Rabs_right r) by lra. nra. }
  pose proof (near_abs k t _ _ ltac:(lra) N1) as A1. pose proof (near_abs k t _ _ ltac:(lra) N2) as A2.
  assert (K2 : 4 <= bpow radix2 400) by (change 4 with (bpow radix2 2); apply bpow_le; lia).
  assert (UR : u / 1000 * r <= / 1000) by (clear - Hr Su Pu; nra).
  assert (E1 : Rabs (B2R d0) <= 4) by lra. assert (E2 : Rabs (B2R d1) <= 4) by lra.
  assert (NG : vnorm (V (- (r * s)) (r * c) 0) = r). { apply vnorm_eq; [lra|]. unfold vdot; cbn [Spec.vx Spec.vy Spec.vz]. transitivity (r * r * (c * c + s * s)); [ring|rewrite CS; ring]. }
  assert (VE : vnorm (vsub (V (B2R d0) (B2R d1) 0) (V (- (r * s)) (r * c) 0)) <= k * u * r + 3 * t).
  { rewrite <- NG at 3. apply near_vec_err; [apply Rmult_le_pos; lra|lra|cbn [Spec.vx Spec.vy Spec.vz]; exact N1|cbn [Spec.vx Spec.vy Spec.vz]; exact N2|]. cbn [Spec.vx Spec.vy Spec.vz].
    unfold near. rewrite Rminus_0_r, Rabs_R0. lra. }
  assert (EL : length3 d0 d1 d2 = vnorm (V (B2R d0) (B2R d1) 0)).
  { unfold length3, vnorm, vdot. rewrite Z. cbn [Spec.vx Spec.vy Spec.vz]. f_equal. }
  assert (NL : near (k + / 100) 0 (length3 d0 d1 d2) r).
  { pose proof (norm_perturb (V (- (r * s)) (r * c) 0) (vsub (V (B2R d0) (B2R d1) 0) (V (- (r * s)) (r * c) 0))) as P. rewrite <- vadd_sub_id, <- EL in P.
    rewrite NG in P. unfold near. rewrite (Rabs_right r) by lra. lra. }
  assert (O : ordinary d0 d1 d2).
  { unfold ordinary. rewrite Z, Rabs_R0. do 3 (split; [auto|]). do 3 (split; [try apply bpow_ge_0; lra|]).
    destruct (Rle_dec (bpow radix2 (-400)) (Rabs (B2R d1))) as [|H2]; auto. destruct (Rle_dec (bpow radix2 (-400)) (Rabs (B2R d0))) as [|H1]; auto. exfalso.
    apply Rnot_le_lt in H1, H2. pose proof (norm_sum3 (V (B2R d0) (B2R d1) 0)) as S. cbn [Spec.vx Spec.vy Spec.vz] in S. rewrite Rabs_R0, <- EL in S.
    pose proof (near_low (k + / 100) 0 (length3 d0 d1 d2) r ltac:(lra) ltac:(lra) NL) as LL. clear - S LL H1 H2 T4 Hr P3. nra. }
  destruct (C76_unit_accuracy d0 d1 d2 O) as (U0 & U1 & U2 & D0 & D1 & D2 & _). unfold unit64, near_v. do 3 (split; [assumption|]).
  rewrite Z in D2. set (L := length3 d0 d1 d2) in *. cbn [Spec.vx Spec.vy Spec.vz].
  assert (Nr : r <> 0) by lra. assert (Ir : Rabs (/ r) <= bpow radix2 300).
  { rewrite Rabs_right by (apply Rle_ge, Rlt_le, Rinv_0_lt_compat; lra). replace (bpow radix2 300) with (/ bpow radix2 (-300)) by (rewrite <- bpow_opp; reflexivity). apply Rinv_le; lra. }
  assert (TT : 2 * Rabs (/ r) * t <= wee / 10). { assert (Rabs (/ r) * t <= bpow radix2 300 * (100 * eta)) by (apply Rmult_le_compat; try apply Rabs_pos; lra). lra. }
  assert (TP : 0 <= 2 * Rabs (/ r) * t) by (apply Rmult_le_pos; [apply Rmult_le_pos; [lra|apply Rabs_pos]|lra]).
  split; [|split].
  - destruct (near_div k (k + / 100) t _ _ _ _ ltac:(lra) ltac:(lra) ltac:(lra) Nr N1 NL) as (_ & Q). replace (- (r * s) / r) with (- s) in Q by (field; auto).
    pose proof (near_trans 5 eta (k + (k + / 100) + / 100) (2 * Rabs (/ r) * t) _ _ _ ltac:(lra) ltac:(lra) TP D0 Q) as W. eapply near_weaken; [| |exact W]; lra.
  - destruct (near_div k (k + / 100) t _ _ _ _ ltac:(lra) ltac:(lra) ltac:(lra) Nr N2 NL) as (_ & Q). replace (r * c / r) with c in Q by (field; auto).
    pose proof (near_trans 5 eta (k + (k + / 100) + / 100) (2 * Rabs (/ r) * t) _ _ _ ltac:(lra) ltac:(lra) TP D1 Q) as W. eapply near_weaken; [| |exact W]; lra.
  - unfold near. unfold Rdiv in D2. rewrite Rmult_0_l, Rminus_0_r, Rabs_R0 in D2. rewrite Rminus_0_r, Rabs_R0. lra.
Qed.
