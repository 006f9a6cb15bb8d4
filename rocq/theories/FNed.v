(** * C91: n_E2R_EN in binary64 (rotation.py 427-479) *)
From Coq Require Import ZArith Reals Lra Lia Bool Psatz.
From Flocq Require Import Core BinarySingleNaN Relative.
From Verif Require Import Spec LVec LAngle FTiny FZero FBase FRel FRel2 FUnit FDist FGreat FLatLon FInv FEcef.
From Verif Require SpecArr SpecGeo.
Local Open Scope R_scope.

(** a vector from the axes of R_Ee back to E: np.dot(R_Ee.T, .), rows (0,0,-1), (0,1,0), (1,0,0) (rotation.py 477) *)
Definition fback (q : vec64) : vec64 := (fdot3 (fzero, fzero, fneg fone) q, fdot3 (fzero, fone, fzero) q, fdot3 (fone, fzero, fzero) q).
Definition fnegv (a : vec64) : vec64 := let '(x, y, z) := a in (fneg x, fneg y, fneg z).
(** rotation.py 449-479, one column, default R_Ee; the three columns of R_EN: north, east, down *)
Definition fn_E2R_EN (n : vec64) : vec64 * vec64 * vec64 :=
  let e := unit64 (fdot3 (fzero, fzero, fone) n, fdot3 (fzero, fone, fzero) n, fdot3 (fneg fone, fzero, fzero) n) in
  let Nz := fnegv e in
  let Ny_direction := fcross (fone, fzero, fzero) e in
  let Ny := if is_zero_f (fnorm Ny_direction) then (fzero, fone, fzero) else unit64 Ny_direction in
  let Nx := fcross Ny Nz in
  (fback Nx, fback Ny, fback Nz).

(** ** elementary steps *)
Lemma sub_exact (x y : float64) r : is_finite x = true -> is_finite y = true -> B2R x - B2R y = r -> F64 r -> Rabs r <= bpow radix2 1000 ->
  is_finite (fsub x y) = true /\ B2R (fsub x y) = r.
Proof.
  intros Fx Fy E Fr Br. destruct (fsub_val x y Fx Fy) as (F & V). { rewrite E. eapply Rle_trans; [exact Br|]. apply bpow_le; lia. }
  split; auto. rewrite V, E. apply round_generic; auto with typeclass_instances.
Qed.
Lemma cross_axis e0 e1 e2 : is_finite e0 = true -> is_finite e1 = true -> is_finite e2 = true ->
  Rabs (B2R e0) <= bpow radix2 1000 -> Rabs (B2R e1) <= bpow radix2 1000 -> Rabs (B2R e2) <= bpow radix2 1000 ->
  exists d0 d1 d2, fcross (fone, fzero, fzero) (e0, e1, e2) = (d0, d1, d2) /\
    is_finite d0 = true /\ is_finite d1 = true /\ is_finite d2 = true /\ B2R d0 = 0 /\ B2R d1 = - B2R e2 /\ B2R d2 = B2R e1.
Proof.
  intros F0 F1 F2 B0 B1 B2. unfold fcross.
  destruct (mul_zero_l e0 F0) as (G0 & Z0). destruct (mul_zero_l e1 F1) as (G1 & Z1). destruct (mul_zero_l e2 F2) as (G2 & Z2).
  destruct (mul_one_l fone e1 1 eq_refl fone_val ltac:(auto) F1 B1) as (H1 & V1). destruct (mul_one_l fone e2 1 eq_refl fone_val ltac:(auto) F2 B2) as (H2 & V2).
  destruct (sub_exact (fmul fzero e2) (fmul fzero e1) 0) as (K0 & E0); auto. { rewrite Z1, Z2; lra. } { apply generic_format_0. } { rewrite Rabs_R0. apply bpow_ge_0. }
  destruct (sub_exact (fmul fzero e0) (fmul fone e2) (- B2R e2)) as (K1 & E1); auto. { rewrite Z0, V2; lra. } { apply generic_format_opp, format64. } { rewrite Rabs_Ropp; auto. }
  destruct (sub_exact (fmul fone e1) (fmul fzero e0) (B2R e1)) as (K2 & E2); auto. { rewrite Z0, V1; lra. } { apply format64. }
  do 3 eexists. split; [reflexivity|]. auto 10.
Qed.

(** ** the absolute error terms, all below 2^-700 *)
Definition wee : R := bpow radix2 (-700).
Lemma wee_pos : 0 < wee. Proof. apply bpow_gt_0. Qed.
Lemma wee_small : wee <= u / 1000000000000.
Proof. unfold wee, u. apply Rle_trans with (bpow radix2 (-100)); [apply bpow_le; lia|]. change (-100)%Z with (-53 + -47)%Z. rewrite bpow_plus. change (bpow radix2 (-47)) with (/ 140737488355328). pose proof (bpow_gt_0 radix2 (-53)). lra. Qed.
Lemma eta_wee : bpow radix2 300 * (1000000 * eta) <= wee.
Proof. unfold eta, wee. apply Rle_trans with (bpow radix2 300 * (bpow radix2 20 * bpow radix2 (-1075))); [|rewrite <- !bpow_plus; apply bpow_le; lia]. apply Rmult_le_compat_l; [apply bpow_ge_0|]. apply Rmult_le_compat_r; [apply bpow_ge_0|]. cbn; lra. Qed.
Lemma eta_wee1 : 1000000 * eta <= wee.
Proof. eapply Rle_trans; [|apply eta_wee]. pose proof eta_pos. assert (1 <= bpow radix2 300) by (change 1 with (bpow radix2 0); apply bpow_le; lia). nra. Qed.

(** ** the east axis *)
Lemma east_err e0 e1 e2 r s c k t : is_finite e0 = true -> is_finite e1 = true -> is_finite e2 = true ->
  Rabs (B2R e0) <= 2 -> c * c + s * s = 1 -> bpow radix2 (-300) <= r <= 1 -> 0 <= k <= 20 -> 0 <= t <= 100 * eta ->
  near k t (B2R e1) (r * s) -> near k t (B2R e2) (- (r * c)) ->
  is_zero_f (fnorm (fcross (fone, fzero, fzero) (e0, e1, e2))) = false /\
  exists y0 y1 y2, unit64 (fcross (fone, fzero, fzero) (e0, e1, e2)) = (y0, y1, y2) /\
    is_finite y0 = true /\ is_finite y1 = true /\ is_finite y2 = true /\
    near 0 wee (B2R y0) 0 /\ near (2 * k + 51 / 10) wee (B2R y1) c /\ near (2 * k + 51 / 10) wee (B2R y2) s.
Proof.
  intros F0 F1 F2 B0 CS Hr Hk Ht N1 N2. pose proof u_pos as Pu. pose proof u_tiny as Su. pose proof eta_pos as Pe. pose proof eta_wee as EW. pose proof eta_wee1 as EW1. pose proof wee_pos as PW.
  assert (Bs : Rabs s <= 1) by (apply Rabs_le; nra). assert (Bc : Rabs c <= 1) by (apply Rabs_le; nra).
  assert (T4 : bpow radix2 (-400) <= bpow radix2 (-300) / 4). { replace (bpow radix2 (-300) / 4) with (bpow radix2 (-302)); [apply bpow_le; lia|]. change (-302)%Z with (-300 + -2)%Z. rewrite bpow_plus. reflexivity. }
  assert (P3 : 0 < bpow radix2 (-300)) by apply bpow_gt_0. assert (P300 : 0 < bpow radix2 300) by apply bpow_gt_0.
  assert (I3 : bpow radix2 300 * bpow radix2 (-300) = 1) by (rewrite <- bpow_plus; reflexivity).
  assert (S300 : 1 <= bpow radix2 300) by (change 1 with (bpow radix2 0); apply bpow_le; lia).
  assert (ER : eta * 1000000 <= u / 1000 * r).
  { apply Rle_trans with (u / 1000 * bpow radix2 (-300)); [|apply Rmult_le_compat_l; lra]. unfold eta, u. apply Rle_trans with (bpow radix2 (-1075) * bpow radix2 20); [apply Rmult_le_compat_l; [apply bpow_ge_0|cbn; lra]|].
    apply Rle_trans with (bpow radix2 (-53) * bpow radix2 (-10) * bpow radix2 (-300)); [rewrite <- !bpow_plus; apply bpow_le; lia|]. apply Rmult_le_compat_r; [lra|]. unfold Rdiv. apply Rmult_le_compat_l; [apply bpow_ge_0|cbn; lra]. }
  assert (Prs : Rabs (r * s) <= r). { rewrite Rabs_mult, (Rabs_right r) by lra. nra. }
  assert (Prc : Rabs (- (r * c)) <= r). { rewrite Rabs_Ropp, Rabs_mult, (Rabs_right r) by lra. nra. }
  pose proof (near_abs k t _ _ ltac:(lra) N1) as A1. pose proof (near_abs k t _ _ ltac:(lra) N2) as A2.
  assert (K2 : 2 <= bpow radix2 400) by (change 2 with (bpow radix2 1); apply bpow_le; lia). assert (K3 : bpow radix2 400 <= bpow radix2 1000) by (apply bpow_le; lia).
  assert (E1 : Rabs (B2R e1) <= 2) by (clear - A1 Prs Ht ER Hr Su Pu; nra). assert (E2 : Rabs (B2R e2) <= 2) by (clear - A2 Prc Ht ER Hr Su Pu; nra).
  destruct (cross_axis e0 e1 e2) as (d0 & d1 & d2 & EC & G0 & G1 & G2 & V0 & V1 & V2); auto; try lra. rewrite EC.
  assert (VE : vnorm (vsub (V 0 (B2R e1) (B2R e2)) (V 0 (r * s) (- (r * c)))) <= k * u * r + 3 * t).
  { assert (NG : vnorm (V 0 (r * s) (- (r * c))) = r). { apply vnorm_eq; [lra|]. unfold vdot; cbn [Spec.vx Spec.vy Spec.vz]. transitivity (r * r * (c * c + s * s)); [ring|rewrite CS; ring]. }
    rewrite <- NG at 3. apply near_vec_err; [apply Rmult_le_pos; lra|lra| |cbn [Spec.vx Spec.vy Spec.vz]; exact N1|cbn [Spec.vx Spec.vy Spec.vz]; exact N2]. cbn [Spec.vx Spec.vy Spec.vz].
    unfold near. rewrite Rminus_0_r, Rabs_R0. lra. }
  assert (EL : length3 d0 d1 d2 = vnorm (V 0 (B2R e1) (B2R e2))).
  { unfold length3, vnorm, vdot. rewrite V0, V1, V2. cbn [Spec.vx Spec.vy Spec.vz]. f_equal. ring. }
  assert (NL : near (k + / 100) 0 (length3 d0 d1 d2) r).
  { pose proof (norm_perturb (V 0 (r * s) (- (r * c))) (vsub (V 0 (B2R e1) (B2R e2)) (V 0 (r * s) (- (r * c))))) as P. rewrite <- vadd_sub_id, <- EL in P.
    assert (NG : vnorm (V 0 (r * s) (- (r * c))) = r). { apply vnorm_eq; [lra|]. unfold vdot; cbn [Spec.vx Spec.vy Spec.vz]. transitivity (r * r * (c * c + s * s)); [ring|rewrite CS; ring]. }
    rewrite NG in P. unfold near. rewrite (Rabs_right r) by lra. lra. }
  assert (O : ordinary d0 d1 d2).
  { unfold ordinary. rewrite V0, V1, V2, Rabs_R0, Rabs_Ropp. do 3 (split; [auto|]). do 3 (split; [try apply bpow_ge_0; lra|]).
    destruct (Rle_dec (bpow radix2 (-400)) (Rabs (B2R e2))) as [|H2]; auto. destruct (Rle_dec (bpow radix2 (-400)) (Rabs (B2R e1))) as [|H1]; auto. exfalso.
    apply Rnot_le_lt in H1, H2. pose proof (norm_sum3 (V 0 (B2R e1) (B2R e2))) as S. cbn [Spec.vx Spec.vy Spec.vz] in S. rewrite Rabs_R0, <- EL in S.
    pose proof (near_low (k + / 100) 0 (length3 d0 d1 d2) r ltac:(lra) ltac:(lra) NL) as LL. clear - S LL H1 H2 T4 Hr P3. nra. }
  split.
  - unfold fnorm. destruct (C76_norm_accuracy d0 d1 d2 O) as (_ & NN & LL). destruct (is_zero_f (norm3 d0 d1 d2)) eqn:Z; auto. exfalso.
    assert (Z' : B2R (norm3 d0 d1 d2) = 0) by (destruct (norm3 d0 d1 d2); cbn in Z; try discriminate; reflexivity). rewrite Z' in NN.
    pose proof (bpow_gt_0 radix2 (-400)). unfold rel in NN. match type of NN with Rabs ?a <= _ => assert (Rabs a = length3 d0 d1 d2) by (rewrite Rabs_minus_sym, Rabs_right; lra) end. try rewrite (Rabs_right (length3 d0 d1 d2)) in NN by lra. clear - H H0 NN LL Pu Su. nra.
  - destruct (C76_unit_accuracy d0 d1 d2 O) as (U0 & U1 & U2 & D0 & D1 & D2 & _). unfold unit64. do 3 eexists. split; [reflexivity|]. do 3 (split; [assumption|]).
    rewrite V0 in D0. rewrite V1 in D1. rewrite V2 in D2. set (L := length3 d0 d1 d2) in *.
    assert (Nr : r <> 0) by lra. assert (Ir : Rabs (/ r) <= bpow radix2 300).
    { rewrite Rabs_right by (apply Rle_ge, Rlt_le, Rinv_0_lt_compat; lra). replace (bpow radix2 300) with (/ bpow radix2 (-300)) by (rewrite <- bpow_opp; reflexivity). apply Rinv_le; lra. }
    assert (TT : 2 * Rabs (/ r) * t <= wee / 10). { assert (Rabs (/ r) * t <= bpow radix2 300 * (100 * eta)) by (apply Rmult_le_compat; try apply Rabs_pos; lra). lra. }
    assert (TP : 0 <= 2 * Rabs (/ r) * t) by (apply Rmult_le_pos; [apply Rmult_le_pos; [lra|apply Rabs_pos]|lra]).
    split; [|split].
    + unfold near. unfold Rdiv in D0. rewrite Rmult_0_l, Rminus_0_r, Rabs_R0 in D0. rewrite Rminus_0_r, Rabs_R0. lra.
    + destruct (near_div k (k + / 100) t _ _ _ _ ltac:(lra) ltac:(lra) ltac:(lra) Nr (near_opp _ _ _ _ N2) NL) as (_ & Q). rewrite Ropp_involutive in Q. replace (r * c / r) with c in Q by (field; auto).
      pose proof (near_trans 5 eta (k + (k + / 100) + / 100) (2 * Rabs (/ r) * t) _ _ _ ltac:(lra) ltac:(lra) TP D1 Q) as W. eapply near_weaken; [| |exact W]; lra.
    + destruct (near_div k (k + / 100) t _ _ _ _ ltac:(lra) ltac:(lra) ltac:(lra) Nr N1 NL) as (_ & Q). replace (r * s / r) with s in Q by (field; auto).
      pose proof (near_trans 5 eta (k + (k + / 100) + / 100) (2 * Rabs (/ r) * t) _ _ _ ltac:(lra) ltac:(lra) TP D2 Q) as W. eapply near_weaken; [| |exact W]; lra.
Qed.

(** ** the whole matrix *)
Lemma prod_err (x y : float64) k1 k2 t1 t2 X Y : is_finite x = true -> is_finite y = true -> 0 <= k1 <= 100 -> 0 <= k2 <= 100 -> 0 <= t1 <= wee -> 0 <= t2 <= wee ->
  Rabs X <= 1 -> Rabs Y <= 1 -> near k1 t1 (B2R x) X -> near k2 t2 (B2R y) Y ->
  is_finite (fmul x y) = true /\ near (k1 + k2 + 1 + / 500) (5 / 2 * wee) (B2R (fmul x y)) (X * Y).
Proof.
  intros Fx Fy H1 H2 T1 T2 BX BY NX NY. pose proof wee_pos as PW. pose proof wee_small as SW. pose proof u_tiny as Su. pose proof u_pos as Pu. pose proof eta_wee1 as EW. pose proof eta_pos as Pe.
  assert (B : 1 <= bpow radix2 400) by (change 1 with (bpow radix2 0); apply bpow_le; lia).
  destruct (fmul_near_t x y k1 k2 t1 t2 X Y) as (F & N); auto; try lra. split; auto. eapply near_weaken; [apply Rle_refl| |exact N].
  pose proof (Rabs_pos X). pose proof (Rabs_pos Y). assert (Rabs X * t2 <= 1 * wee) by (apply Rmult_le_compat; lra). assert (Rabs Y * t1 <= 1 * wee) by (apply Rmult_le_compat; lra). assert (t1 * t2 <= wee * wee) by (apply Rmult_le_compat; lra). assert (wee * wee <= / 1000 * wee) by (apply Rmult_le_compat_r; lra). lra.
Qed.
Lemma diff_err (x y : float64) k X Y : is_finite x = true -> is_finite y = true -> 0 <= k <= 200 -> Rabs X <= 1 -> Rabs Y <= 1 -> Rabs X + Rabs Y = Rabs (X - Y) ->
  near k (5 / 2 * wee) (B2R x) X -> near k (5 / 2 * wee) (B2R y) Y ->
  is_finite (fsub x y) = true /\ near (k + 1 + / 1000) (6 * wee) (B2R (fsub x y)) (X - Y).
Proof.
  intros Fx Fy Hk BX BY E NX NY. pose proof wee_pos as PW. pose proof wee_small as SW. pose proof u_tiny as Su. pose proof u_pos as Pu.
  assert (B : 1 <= bpow radix2 900) by (change 1 with (bpow radix2 0); apply bpow_le; lia).
  destruct (fsub_near_t x y k k (5 / 2 * wee) (5 / 2 * wee) X Y) as (F & N); auto; try lra. split; auto. unfold near. eapply Rle_trans; [exact N|]. rewrite <- E.
  pose proof (Rabs_pos X). pose proof (Rabs_pos Y). assert (0 <= u * Rabs X) by (apply Rmult_le_pos; lra). assert (0 <= u * Rabs Y) by (apply Rmult_le_pos; lra). nra.
Qed.
Lemma back_err q0 q1 q2 : is_finite q0 = true -> is_finite q1 = true -> is_finite q2 = true ->
  Rabs (B2R q0) <= bpow radix2 1000 -> Rabs (B2R q1) <= bpow radix2 1000 -> Rabs (B2R q2) <= bpow radix2 1000 ->
  exists x y z, fback (q0, q1, q2) = (x, y, z) /\ is_finite x = true /\ is_finite y = true /\ is_finite z = true /\ B2R x = - B2R q2 /\ B2R y = B2R q1 /\ B2R z = B2R q0.
Proof.
  intros F0 F1 F2 B0 B1 B2. destruct (pick q0 q1 q2 F0 F1 F2 B0 B1 B2) as ((G0 & V0) & (G1 & V1) & (G2 & V2)). unfold fback. do 3 eexists. split; [reflexivity|]. auto 10.
Qed.
Definition near_v (k t : R) (q : vec64) (Q : vec) : Prop :=
  let '(x, y, z) := q in is_finite x = true /\ is_finite y = true /\ is_finite z = true /\ near k t (B2R x) (Spec.vx Q) /\ near k t (B2R y) (Spec.vy Q) /\ near k t (B2R z) (Spec.vz Q).
Lemma back_near k t q Q : 0 <= k <= 1000 -> 0 <= t <= 1 -> Rabs (Spec.vx Q) <= 1 -> Rabs (Spec.vy Q) <= 1 -> Rabs (Spec.vz Q) <= 1 ->
  near_v k t q Q -> near_v k t (fback q) (V (- Spec.vz Q) (Spec.vy Q) (Spec.vx Q)).
Proof.
  destruct q as [[q0 q1] q2]. intros Hk Ht B0 B1 B2 (F0 & F1 & F2 & N0 & N1 & N2).
  assert (B : 4 <= bpow radix2 1000) by (change 4 with (bpow radix2 2); apply bpow_le; lia).
  assert (K : forall x X, Rabs X <= 1 -> near k t x X -> Rabs x <= bpow radix2 1000). { intros x X HX NX. pose proof (near_abs k t x X Hk NX). lra. }
  destruct (back_err q0 q1 q2 F0 F1 F2 (K _ _ B0 N0) (K _ _ B1 N1) (K _ _ B2 N2)) as (x & y & z & E & Fx & Fy & Fz & Vx & Vy & Vz).
  match goal with |- near_v _ _ ?b _ => replace b with (x, y, z) by (symmetry; exact E) end. unfold near_v. cbn [Spec.vx Spec.vy Spec.vz]. rewrite Vx, Vy, Vz. do 3 (split; [assumption|]). split; [apply near_opp; assumption|]. auto.
Qed.

(** north, east and down at latitude [lat] and longitude [lon] *)
Lemma frame_err e0 e1 e2 S r s c k t : is_finite e0 = true -> is_finite e1 = true -> is_finite e2 = true ->
  S * S + r * r = 1 -> c * c + s * s = 1 -> bpow radix2 (-300) <= r -> 0 <= k <= 20 -> 0 <= t <= 100 * eta ->
  near k t (B2R e0) S -> near k t (B2R e1) (r * s) -> near k t (B2R e2) (- (r * c)) ->
  let Nz := fnegv (e0, e1, e2) in let d := fcross (fone, fzero, fzero) (e0, e1, e2) in
  let Ny := if is_zero_f (fnorm d) then (fzero, fone, fzero) else unit64 d in
  near_v (3 * k + 72 / 10) (6 * wee) (fback (fcross Ny Nz)) (V (- (S * c)) (- (S * s)) r) /\
  near_v (2 * k + 51 / 10) wee (fback Ny) (V (- s) c 0) /\
  near_v k wee (fback Nz) (V (- (r * c)) (- (r * s)) (- S)).
Proof.
  intros F0 F1 F2 U CS Hr Hk Ht N0 N1 N2 Nz d Ny. pose proof wee_pos as PW. pose proof wee_small as SW. pose proof u_tiny as Su. pose proof u_pos as Pu. pose proof eta_wee1 as EW. pose proof eta_pos as Pe.
  pose proof (bpow_gt_0 radix2 (-300)) as P3.
  assert (Bs : Rabs s <= 1) by (apply Rabs_le; nra). assert (Bc : Rabs c <= 1) by (apply Rabs_le; nra). assert (BS : Rabs S <= 1) by (apply Rabs_le; nra).
  assert (Br : r <= 1) by nra. assert (Prs : Rabs (r * s) <= 1). { rewrite Rabs_mult, (Rabs_right r) by lra. pose proof (Rabs_pos s). nra. }
  assert (Prc : Rabs (r * c) <= 1). { rewrite Rabs_mult, (Rabs_right r) by lra. pose proof (Rabs_pos c). nra. }
  pose proof (near_abs k t _ _ ltac:(lra) N0) as A0.
  destruct (east_err e0 e1 e2 r s c k t) as (Z & y0 & y1 & y2 & EY & G0 & G1 & G2 & Y0 & Y1 & Y2); auto; try lra.
  fold d in Z, EY. unfold Ny. rewrite Z, EY. clear Z.
  assert (FN : forall x : float64, is_finite x = true -> is_finite (fneg x) = true) by (intros; unfold fneg; rewrite is_finite_Bopp; auto).
  assert (NN : forall (x : float64) X, near k t (B2R x) X -> near k t (B2R (fneg x)) (- X)) by (intros; unfold fneg; rewrite B2R_Bopp; apply near_opp; auto).
  assert (M0 := NN _ _ N0). assert (M1 := NN _ _ N1). assert (M2 := NN _ _ N2). rewrite Ropp_involutive in M2.
  assert (BmS : Rabs (- S) <= 1) by (rewrite Rabs_Ropp; auto). assert (Bmrs : Rabs (- (r * s)) <= 1) by (rewrite Rabs_Ropp; auto). assert (B00 : Rabs 0 <= 1) by (rewrite Rabs_R0; lra).
  split; [|split].
  - set (ky := 2 * k + 51 / 10) in *. assert (Hky : 0 <= ky <= 60) by (unfold ky; lra).
    assert (Y0' : near ky wee (B2R y0) 0) by (eapply near_weaken; [| |exact Y0]; lra).
    assert (P : forall x y X Y, is_finite x = true -> is_finite y = true -> Rabs X <= 1 -> Rabs Y <= 1 -> near ky wee (B2R x) X -> near k t (B2R y) Y ->
      is_finite (fmul x y) = true /\ near (ky + k + 1 + / 500) (5 / 2 * wee) (B2R (fmul x y)) (X * Y)).
    { intros. apply prod_err with wee t; auto; lra. }
    destruct (P y1 (fneg e2) c (r * c)) as (H1 & Q1); auto. destruct (P y2 (fneg e1) s (- (r * s))) as (H2 & Q2); auto.
    destruct (P y2 (fneg e0) s (- S)) as (H3 & Q3); auto. destruct (P y0 (fneg e2) 0 (r * c)) as (H4 & Q4); auto.
    destruct (P y0 (fneg e1) 0 (- (r * s))) as (H5 & Q5); auto. destruct (P y1 (fneg e0) c (- S)) as (H6 & Q6); auto. clear P.
    assert (ML : forall a b, Rabs a <= 1 -> Rabs b <= 1 -> Rabs (a * b) <= 1). { intros a b Ha Hb. rewrite Rabs_mult. pose proof (Rabs_pos a). pose proof (Rabs_pos b). nra. }
    destruct (diff_err _ _ (ky + k + 1 + / 500) (c * (r * c)) (s * - (r * s)) H1 H2) as (I0 & X0); auto; try lra.
    { assert (0 <= c * (r * c)) by nra. assert (s * - (r * s) <= 0) by nra. rewrite (Rabs_right (c * (r * c))), (Rabs_left1 (s * - (r * s))), Rabs_right by lra. lra. }
    destruct (diff_err _ _ (ky + k + 1 + / 500) (s * - S) (0 * (r * c)) H3 H4) as (I1 & X1); auto; try lra.
    { rewrite Rmult_0_l, Rminus_0_r, Rabs_R0. lra. }
    destruct (diff_err _ _ (ky + k + 1 + / 500) (0 * - (r * s)) (c * - S) H5 H6) as (I2 & X2); auto; try lra.
    { rewrite Rmult_0_l. unfold Rminus. rewrite Rplus_0_l, Rabs_R0, Rabs_Ropp. lra. }
    change (fcross (y0, y1, y2) Nz) with (fsub (fmul y1 (fneg e2)) (fmul y2 (fneg e1)), fsub (fmul y2 (fneg e0)) (fmul y0 (fneg e2)), fsub (fmul y0 (fneg e1)) (fmul y1 (fneg e0))).
    replace (c * (r * c) - s * - (r * s)) with r in X0 by (transitivity (r * (c * c + s * s)); [rewrite CS|]; ring).
    replace (s * - S - 0 * (r * c)) with (- (S * s)) in X1 by ring. replace (0 * - (r * s) - c * - S) with (S * c) in X2 by ring.
    change (V (- (S * c)) (- (S * s)) r) with (V (- Spec.vz (V r (- (S * s)) (S * c))) (Spec.vy (V r (- (S * s)) (S * c))) (Spec.vx (V r (- (S * s)) (S * c)))).
    apply back_near; cbn [Spec.vx Spec.vy Spec.vz]; try lra; auto. { rewrite Rabs_right; lra. } { rewrite Rabs_Ropp. auto. }
    unfold near_v. cbn [Spec.vx Spec.vy Spec.vz]. do 3 (split; [assumption|]).
    split; [|split]; (eapply near_weaken; [| |eassumption]; unfold ky; lra).
  - change (V (- s) c 0) with (V (- Spec.vz (V 0 c s)) (Spec.vy (V 0 c s)) (Spec.vx (V 0 c s))). apply back_near; cbn [Spec.vx Spec.vy Spec.vz]; try lra; auto.
    unfold near_v. cbn [Spec.vx Spec.vy Spec.vz]. do 3 (split; [assumption|]). split; [eapply near_weaken; [| |exact Y0]; lra|]. auto.
  - change (V (- (r * c)) (- (r * s)) (- S)) with (V (- Spec.vz (V (- S) (- (r * s)) (r * c))) (Spec.vy (V (- S) (- (r * s)) (r * c))) (Spec.vx (V (- S) (- (r * s)) (r * c)))).
    apply back_near; cbn [Spec.vx Spec.vy Spec.vz]; try lra; auto. unfold Nz, fnegv, near_v. cbn [Spec.vx Spec.vy Spec.vz]. do 3 (split; [auto|]).
    split; [|split]; (eapply near_weaken; [| |eassumption]; lra).
Qed.
