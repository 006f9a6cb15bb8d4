(** * C98: accuracy of the closest point and of the crossing *)
From Coq Require Import ZArith Reals Lra Lia Bool Psatz.
From Flocq Require Import Core BinarySingleNaN Relative.
From Verif Require Import Spec LVec LAngle LCircle PTrack FTiny FZero FBase FRel FRel2 FUnit FPi FAngle FDist FGreat FTrack FLatLon FInv FEcef FEcef2 FNed FNed2 FNed3 FDelta FDelta2 FDelta3 FMove FWay FWay2 FWay3 FWay4 FInterp FMean FPoint.
Local Open Scope R_scope.

Lemma foot_scale c k b : foot c (vscale k b) = vscale k (foot c b). Proof. unfold foot. vring. Qed.
Lemma bpow100 : bpow radix2 (-100) <= / 1000000. Proof. apply Rle_trans with (bpow radix2 (-30)); [apply bpow_le; lia|]. cbn [bpow]. change (Z.pow_pos radix2 30) with 1073741824%Z. lra. Qed.

(** the arithmetic of the errors *)
Lemma closest_arith e1 de R nc nx E eta' : 0 < u -> u <= / 1000000000000000 -> 0 <= eta' <= u / 1000000000000 -> 0 <= de <= / 100000 -> 0 <= R <= 1 + 6 * u ->
  0 <= e1 <= 401 / 100 * u + (1 + 6 * u) * de -> 0 <= nc <= 1 + 6 * u -> 0 <= nx <= R + e1 -> E = 4001 / 1000 * u * (nc * nx) + 9 * eta' + de * nx + 1 * e1 ->
  E <= (403 / 100 * u + 1001 / 1000 * de) * (1 + R).
Proof.
  intros Pu Su He Hd HR H1 Hc Hx ->.
  assert (K1 : nc * nx <= (1 + 6 * u) * (R + e1)) by (apply Rmult_le_compat; lra).
  assert (K2 : de * nx <= de * (R + e1)) by (apply Rmult_le_compat_l; lra).
  assert (K3 : u * (nc * nx) <= u * ((1 + 6 * u) * (R + e1))) by (apply Rmult_le_compat_l; lra).
  assert (Hud : 0 <= u * de <= / 100000 * u) by nra.
  assert (S1 : e1 <= 402 / 100 * u + de) by nra.
  assert (S2 : e1 <= 2 / 100000) by lra.
  assert (Q1 : u * e1 <= 2 / 100000 * u) by nra. assert (Q2 : de * e1 <= 2 / 100000 * de) by nra.
  assert (Q3 : u * u <= / 1000000000 * u) by nra.
  assert (Q4 : 0 <= u * R <= u * (1 + 6 * u)) by (split; [apply Rmult_le_pos; lra|apply Rmult_le_compat_l; lra]).
  assert (Q5 : 0 <= de * R) by (apply Rmult_le_pos; lra).
  assert (Q6 : u * (u * R) <= / 1000000000 * (u * R)) by (apply Rmult_le_compat_r; lra).
  assert (Q7 : u * (u * e1) <= / 1000000000 * (u * e1)) by (apply Rmult_le_compat_r; [apply Rmult_le_pos; lra|lra]).
  replace (u * ((1 + 6 * u) * (R + e1))) with (u * R + u * e1 + 6 * (u * (u * R)) + 6 * (u * (u * e1))) in K3 by ring. lra.
Qed.

Theorem C98_closest_point : forall dot a b q, good_dot dot -> near_unit a -> near_unit b -> near_unit q ->
  let s := vnorm (vcross (vec_of a) (vec_of b)) in let c := direction (vcross (vec_of a) (vec_of b)) in let Q := direction (vec_of q) in let r := vnorm (vcross Q c) in
  10 * u <= s -> / 100000 <= r -> (10 + 9 / s) * (1 + / r) * u <= / 1000000 ->
  near_unit (fclosest dot a b q) /\
  exists p, on_circle (vec_of a) (vec_of b) p /\ (forall p', on_circle (vec_of a) (vec_of b) p' -> angle Q p <= angle Q p') /\
    angle p (vec_of (fclosest dot a b q)) <= (52 / 10 + (91 / 10 + 81 / 10 / s) * (1 + / r)) * u.
Proof.
  intros dot a b q GD Na Nb Nq s c Q r Hs Hr Hk. pose proof u_pos as Pu. pose proof u_tiny as Su. pose proof eta_um as EU. pose proof eta_pos as EP.
  destruct (normal_err a b Na Nb Hs) as (Nn & NX & En). fold s c in En. set (n := fnormal a b) in *.
  destruct (near_unit_len n Nn) as (Fn & Ln). destruct (near_unit_len q Nq) as (Fq & Lq). destruct (near_unit_near q Nq) as (_ & Q0 & _).
  assert (Uc : vnorm c = 1) by (apply direction_unit; auto). assert (UQ : vnorm Q = 1) by (apply direction_unit; auto).
  set (de := 501 / 100 * u + 804 / 100 * u / s) in *.
  assert (Ps : 0 < / s) by (apply Rinv_0_lt_compat; lra). assert (Pr : 0 < / r) by (apply Rinv_0_lt_compat; lra).
  assert (Ede : de = (501 / 100 + 804 / 100 * / s) * u) by (unfold de, Rdiv; ring).
  unfold Rdiv in Hk. assert (Hus : 0 < / s * u) by (apply Rmult_lt_0_compat; lra). 
  assert (Hde : 0 <= de <= / 1000000).
  { split; [rewrite Ede; nra|]. eapply Rle_trans; [|exact Hk]. rewrite Ede. apply Rmult_le_compat_r; [lra|]. 
    assert (0 <= 9 * / s * / r) by (apply Rmult_le_pos; lra). lra. }
  (* first cross product *)
  assert (D0 : vnorm (vsub (vec_of q) (vec_of q)) <= 0). { right. replace (vsub (vec_of q) (vec_of q)) with v0 by (generalize (vec_of q); clear; intros w; unfold v0; vring). apply vnorm_v0. }
  destruct (cross_inexact q n (vec_of q) c 0 de Fq Fn ltac:(lra) ltac:(lra) D0 En) as (Fx & Ex). set (x := fcross q n) in *. set (X := vcross (vec_of q) c) in *.
  set (e1 := vnorm (vsub (vec_of x) X)) in *.
  assert (P1 : 0 <= e1) by apply vnorm_pos.
  assert (E1 : e1 <= 401 / 100 * u + (1 + 6 * u) * de).
  { eapply Rle_trans; [exact Ex|]. rewrite Rmult_0_l, Rplus_0_r.
    assert (vnorm (vec_of q) * de <= (1 + 6 * u) * de) by (apply Rmult_le_compat_r; lra).
    assert (vnorm (vec_of q) * vnorm (vec_of n) <= (1 + 6 * u) * (1 + 6 * u)) by (apply Rmult_le_compat; try apply vnorm_pos; lra).
    assert (u * (vnorm (vec_of q) * vnorm (vec_of n)) <= u * (1001 / 1000)) by (apply Rmult_le_compat_l; [lra|]; nra). lra. }
  assert (XR : vnorm X <= 1 + 6 * u). { unfold X. eapply Rle_trans; [apply vcross_le|]. rewrite Uc. lra. }
  assert (Xr : vnorm X = vnorm (vec_of q) * r).
  { unfold X, r. rewrite (direction_decomp _ Q0) at 1. fold Q. rewrite vcross_scale_l, vnorm_scale, Rabs_right; [reflexivity|]. apply Rle_ge, vnorm_pos. }
  assert (Nx : vnorm (vec_of x) <= vnorm X + e1). { rewrite (via X (vec_of x)). apply norm_triangle. }
  (* second cross product *)
  destruct (cross_inexact n x c X de e1 Fn Fx ltac:(lra) ltac:(nra) En ltac:(unfold e1; lra)) as (Fy & Ey). rewrite Uc in Ey.
  pose proof (closest_arith e1 de (vnorm X) (vnorm (vec_of n)) (vnorm (vec_of x)) _ eta Pu Su ltac:(lra) ltac:(lra) (conj (vnorm_pos X) XR) (conj P1 E1) (conj (vnorm_pos _) (proj2 Ln)) (conj (vnorm_pos _) Nx) eq_refl) as AR.
  set (y := fcross n x) in *. assert (TY : vcross c X = foot c (vec_of q)) by (unfold X; apply foot_triple; auto). rewrite TY in Ey.
  set (Y := foot c (vec_of q)) in *.
  assert (NY : vnorm Y = vnorm X).
  { rewrite <- TY. pose proof (vcross_norm_sq c X) as LG. assert (O : vdot c X = 0). { unfold X. generalize (vec_of q) c. clear. intros w k. vring. }
    rewrite O, Uc in LG. pose proof (vnorm_pos (vcross c X)). pose proof (vnorm_pos X). nra. }
  assert (YF : Y = vscale (vnorm (vec_of q)) (foot c Q)). { unfold Y. rewrite (direction_decomp _ Q0) at 1. apply foot_scale. }
  assert (R1 : / 200000 <= vnorm X) by (rewrite Xr; nra).
  assert (IX : / vnorm X <= (1 + 7 * u) * / r).
  { rewrite Xr. rewrite Rinv_mult. apply Rmult_le_compat_r; [lra|]. apply Rmult_le_reg_r with (vnorm (vec_of q)); [lra|]. rewrite Rinv_l by lra. nra. }
  set (e := (403 / 100 * u + 1001 / 1000 * de) * (1 + / vnorm X)).
  assert (EY : vnorm (vsub (vec_of y) Y) <= e * vnorm Y).
  { eapply Rle_trans; [exact Ey|]. eapply Rle_trans; [exact AR|]. rewrite NY. unfold e. right. field. lra. }
  assert (E2 : e <= (908 / 100 + 807 / 100 * / s) * (1 + / r) * u).
  { unfold e. apply Rle_trans with ((905 / 100 + 805 / 100 * / s) * u * (1 + (1 + 7 * u) * / r)).
    - pose proof (Rinv_0_lt_compat (vnorm X) ltac:(lra)) as IP. apply Rmult_le_compat; lra.
    - assert (7 * u * / r <= / 1000 * / r) by (apply Rmult_le_compat_r; lra).
      apply Rle_trans with ((905 / 100 + 805 / 100 * / s) * u * ((1 + / r) * (1001 / 1000))); [apply Rmult_le_compat_l; [apply Rmult_le_pos; lra|lra]|].
      replace ((905 / 100 + 805 / 100 * / s) * u * ((1 + / r) * (1001 / 1000))) with ((905 / 100 + 805 / 100 * / s) * (1001 / 1000) * ((1 + / r) * u)) by ring.
      replace ((908 / 100 + 807 / 100 * / s) * (1 + / r) * u) with ((908 / 100 + 807 / 100 * / s) * ((1 + / r) * u)) by ring.
      apply Rmult_le_compat_r; [apply Rmult_le_pos; lra|lra]. }
  assert (E3 : 0 <= e <= / 1000000).
  { split; [unfold e; apply Rmult_le_pos; [lra|pose proof (Rinv_0_lt_compat (vnorm X) ltac:(lra)); lra]|]. eapply Rle_trans; [exact E2|]. eapply Rle_trans; [|exact Hk]. apply Rmult_le_compat_r; [lra|]. apply Rmult_le_compat_r; lra. }
  pose proof bpow100 as B1.
  destruct (unit_inexact' y Y e Fy ltac:(lra) ltac:(lra) EY ltac:(lra)) as (NU & AU & VU).
  assert (Y0 : Y <> v0). { intros Z. rewrite Z, vnorm_v0 in NY. lra. }
  assert (FQ0 : foot c Q <> v0). { intros Z. rewrite YF, Z in Y0. apply Y0. unfold v0. vring. }
  (* the sign *)
  destruct (GD _ _ NU Nq) as (Fd & Ed). fold y in Fd, Ed.
  assert (DP : vdot (direction Y) (vec_of q) = vnorm Y).
  { unfold direction. rewrite vdot_scale_l. assert (vdot Y (vec_of q) = vnorm Y * vnorm Y); [|rewrite H; field; lra].
    rewrite vnorm_sq. assert (O : vdot Y c = 0) by (apply foot_orth; auto). unfold Y at 3. unfold foot. rewrite vdot_sub_r, vdot_scale_r, O. ring. }
  assert (PS : 0 < B2R (dot (unit64 y) q)).
  { assert (K : Rabs (vdot (vsub (vec_of (unit64 y)) (direction Y)) (vec_of q)) <= 3 / 1000000).
    { eapply Rle_trans; [apply cauchy_schwarz|]. apply Rle_trans with ((2 * e + 501 / 100 * u) * (1 + 6 * u)); [apply Rmult_le_compat; try apply vnorm_pos; lra|].
      apply Rle_trans with (25 / 10000000 * (11 / 10)); [apply Rmult_le_compat; lra|lra]. }
    replace (vdot (vsub (vec_of (unit64 y)) (direction Y)) (vec_of q)) with (vdot (vec_of (unit64 y)) (vec_of q) - vdot (direction Y) (vec_of q)) in K by (generalize (vec_of (unit64 y)) (direction Y) (vec_of q); clear; intros; vring).
    rewrite DP in K. apply Rabs_le_inv in K. apply Rabs_le_inv in Ed. lra. }
  assert (EF : fclosest dot a b q = fscalev fone (unit64 y)). { unfold fclosest. fold n. change (fcross n (fcross q n)) with y. rewrite fsign_pos; auto. }
  destruct (signed fone 1 (unit64 y) eq_refl fone_val (or_introl eq_refl) NU) as (NS & VS). rewrite EF. split; [exact NS|]. rewrite VS, vscale_1.
  exists (direction (foot c Q)). split; [|split].
  - apply on_circle_dir; auto. split; [apply direction_unit; auto|]. unfold direction at 1. rewrite vdot_scale_l. fold c. rewrite foot_orth by auto. ring.
  - intros p' Hp. rewrite foot_near by auto. apply on_circle_dir in Hp; auto. destruct Hp. apply circle_far; auto.
  - assert (SD : angle (direction (foot c Q)) (vec_of (unit64 y)) = angle Y (vec_of (unit64 y))).
    { unfold direction. rewrite angle_scale_l by (apply Rinv_0_lt_compat, vnorm_nz; auto). rewrite YF, angle_scale_l; [reflexivity|lra]. }
    rewrite SD. eapply Rle_trans; [exact AU|]. unfold Rdiv at 4. 
    apply Rle_trans with ((908 / 100 + 807 / 100 * / s) * (1 + / r) * u * (1 + 2 / 1000000) + 51 / 10 * u); [apply Rplus_le_compat_r, Rmult_le_compat_r; lra|].
    assert (W : 0 <= (1 + / r) * u) by (apply Rmult_le_pos; lra). assert (W2 : 0 <= / s * ((1 + / r) * u)) by (apply Rmult_le_pos; lra).
    replace ((908 / 100 + 807 / 100 * / s) * (1 + / r) * u * (1 + 2 / 1000000) + 51 / 10 * u) with (908 / 100 * (1 + 2 / 1000000) * ((1 + / r) * u) + 807 / 100 * (1 + 2 / 1000000) * (/ s * ((1 + / r) * u)) + 51 / 10 * u) by ring.
    replace ((52 / 10 + (91 / 10 + 81 / 10 * / s) * (1 + / r)) * u) with (52 / 10 * u + 91 / 10 * ((1 + / r) * u) + 81 / 10 * (/ s * ((1 + / r) * u))) by ring. lra.
Qed.

(** ** the crossing *)
Lemma cross_arith sa sb na nb k E eta' : 0 < u -> u <= / 1000000000000000 -> 0 <= eta' <= u / 1000000000000 * (sa + sb) -> 100000 * u <= sa <= 2 -> 100000 * u <= sb <= 2 ->
  0 <= k <= 401 / 100 * u -> 0 <= na <= sa + k -> 0 <= nb <= sb + k -> E = 4001 / 1000 * u * (na * nb) + 9 * eta' + k * nb + sa * k ->
  E <= 402 / 100 * u * (sa * sb + sa + sb).
Proof.
  intros Pu Su He Ha Hb Hk Hna Hnb ->.
  assert (N1 : na <= sa * (10001 / 10000)) by lra. assert (N2 : nb <= sb * (10001 / 10000)) by lra.
  assert (K1 : na * nb <= sa * (10001 / 10000) * (sb * (10001 / 10000))) by (apply Rmult_le_compat; lra).
  assert (K2 : k * nb <= 401 / 100 * u * (sb * (10001 / 10000))) by (apply Rmult_le_compat; lra).
  assert (K3 : sa * k <= sa * (401 / 100 * u)) by (apply Rmult_le_compat_l; lra).
  assert (K4 : u * (na * nb) <= u * (sa * (10001 / 10000) * (sb * (10001 / 10000)))) by (apply Rmult_le_compat_l; lra).
  assert (P1 : 0 <= u * (sa * sb)) by (apply Rmult_le_pos; [lra|apply Rmult_le_pos; lra]). assert (P2 : 0 <= u * sa) by (apply Rmult_le_pos; lra). assert (P3 : 0 <= u * sb) by (apply Rmult_le_pos; lra).
  replace (u * (sa * (10001 / 10000) * (sb * (10001 / 10000)))) with (100020001 / 100000000 * (u * (sa * sb))) in K4 by field. lra.
Qed.
Lemma etau : 100000000000000 * eta <= u * u.
Proof.
  unfold eta, u. rewrite <- bpow_plus. apply Rle_trans with (bpow radix2 50 * bpow radix2 (-1075)); [|rewrite <- bpow_plus; apply bpow_le; lia].
  apply Rmult_le_compat_r; [apply bpow_ge_0|]. cbn [bpow]. change (Z.pow_pos radix2 50) with 1125899906842624%Z. lra.
Qed.

Theorem C98_intersect : forall dot a1 a2 b1 b2, good_dot dot -> near_unit a1 -> near_unit a2 -> near_unit b1 -> near_unit b2 ->
  let A := vcross (vec_of a1) (vec_of a2) in let B := vcross (vec_of b1) (vec_of b2) in
  let sa := vnorm A in let sb := vnorm B in let t := vnorm (vcross (direction A) (direction B)) in
  A <> v0 -> B <> v0 -> 0 < t -> (1 + / sa + / sb) / t * u <= / 5000000 -> / 100000 <= Rabs (vdot (direction (vcross A B)) (vec_of a1)) ->
  near_unit (fintersect dot a1 a2 b1 b2) /\
  exists p, on_circle (vec_of a1) (vec_of a2) p /\ on_circle (vec_of b1) (vec_of b2) p /\ 0 < vdot p (vec_of a1) /\
    angle p (vec_of (fintersect dot a1 a2 b1 b2)) <= (51 / 10 + 41 / 10 * (1 + / sa + / sb) / t) * u.
Proof.
  intros dot a1 a2 b1 b2 GD Na1 Na2 Nb1 Nb2 A B sa sb t A0 B0 Pt Hk Hd. pose proof u_pos as Pu. pose proof u_tiny as Su. pose proof eta_um as EU. pose proof eta_pos as EP.
  destruct (near_unit_len a1 Na1) as (Fa1 & La1). destruct (near_unit_len a2 Na2) as (Fa2 & La2). destruct (near_unit_len b1 Nb1) as (Fb1 & Lb1). destruct (near_unit_len b2 Nb2) as (Fb2 & Lb2).
  pose proof (vnorm_nz _ A0) as PA. pose proof (vnorm_nz _ B0) as PB. fold sa in PA. fold sb in PB.
  assert (K : forall p q, near_unit p -> near_unit q -> finite_vec (fcross p q) /\ vnorm (vsub (vec_of (fcross p q)) (vcross (vec_of p) (vec_of q))) <= 401 / 100 * u /\ vnorm (vcross (vec_of p) (vec_of q)) <= 1001 / 1000).
  { intros p q Np Nq. destruct (near_unit_len p Np) as (Fp & Lp). destruct (near_unit_len q Nq) as (Fq & Lq). destruct (cross_any p q Fp Fq ltac:(lra) ltac:(lra)) as (F & E). split; auto.
    assert (Z : vnorm (vec_of p) * vnorm (vec_of q) <= 10001 / 10000 * (10001 / 10000)) by (apply Rmult_le_compat; try apply vnorm_pos; lra).
    assert (u * (vnorm (vec_of p) * vnorm (vec_of q)) <= u * (10001 / 10000 * (10001 / 10000))) by (apply Rmult_le_compat_l; lra). split; [lra|]. eapply Rle_trans; [apply vcross_le|]. lra. }
  destruct (K a1 a2 Na1 Na2) as (Fa & Ea & Ua). destruct (K b1 b2 Nb1 Nb2) as (Fb & Eb & Ub). fold A in Ea, Ua. fold B in Eb, Ub. fold sa in Ua. fold sb in Ub. clear K.
  set (X := vcross A B) in *.
  assert (NX : vnorm X = sa * sb * t).
  { unfold X. rewrite (direction_decomp A A0), (direction_decomp B B0) at 1. fold sa sb. rewrite vcross_scale_l, vcross_scale_r, !vnorm_scale, !Rabs_right by lra. fold t. ring. }
  assert (T1 : t <= 1). { unfold t. eapply Rle_trans; [apply vcross_le|]. rewrite !direction_unit by auto. lra. }
  assert (Ia : 0 < / sa) by (apply Rinv_0_lt_compat; auto). assert (Ib : 0 < / sb) by (apply Rinv_0_lt_compat; auto). assert (It : 0 < / t) by (apply Rinv_0_lt_compat; auto).
  assert (It1 : 1 <= / t). { rewrite <- Rinv_1. apply Rinv_le; lra. }
  set (w := (1 + / sa + / sb) / t) in *. assert (Ew : w = (1 + / sa + / sb) * / t) by reflexivity.
  assert (Wa : / sa * / t <= w). { rewrite Ew. apply Rmult_le_compat_r; lra. } assert (Wb : / sb * / t <= w). { rewrite Ew. apply Rmult_le_compat_r; lra. }
  assert (W1 : / sa * u <= / 5000000). { eapply Rle_trans; [|exact Hk]. apply Rmult_le_compat_r; [lra|]. eapply Rle_trans; [|exact Wa]. rewrite <- (Rmult_1_r (/ sa)) at 1. apply Rmult_le_compat_l; lra. }
  assert (W2 : / sb * u <= / 5000000). { eapply Rle_trans; [|exact Hk]. apply Rmult_le_compat_r; [lra|]. eapply Rle_trans; [|exact Wb]. rewrite <- (Rmult_1_r (/ sb)) at 1. apply Rmult_le_compat_l; lra. }
  assert (Wt : / sa * / t * u <= / 5000000). { eapply Rle_trans; [|exact Hk]. apply Rmult_le_compat_r; lra. }
  assert (Sa : 5000000 * u <= sa). { apply Rmult_le_reg_l with (/ sa); auto. rewrite Rinv_l by lra. lra. }
  assert (Sb : 5000000 * u <= sb). { apply Rmult_le_reg_l with (/ sb); auto. rewrite Rinv_l by lra. lra. }
  assert (St : 5000000 * u <= sa * t). { apply Rmult_le_reg_l with (/ sa * / t); [apply Rmult_lt_0_compat; auto|]. replace (/ sa * / t * (sa * t)) with 1 by (field; lra). lra. }
  assert (NXL : bpow radix2 (-100) <= vnorm X).
  { rewrite NX. replace (sa * sb * t) with (sa * t * sb) by ring. apply Rle_trans with (5000000 * u * (5000000 * u)); [|apply Rmult_le_compat; lra].
    apply Rle_trans with (1024 * (u * u)); [|assert (0 < u * u) by (apply Rmult_lt_0_compat; lra); lra]. change 1024 with (bpow radix2 10). unfold u. rewrite <- !bpow_plus. apply bpow_le. lia. }
  assert (X0 : X <> v0). { intros Z. pose proof (bpow_gt_0 radix2 (-100)). rewrite Z, vnorm_v0 in NXL. lra. }
  set (ca := fcross a1 a2) in *. set (cb := fcross b1 b2) in *.
  assert (Ka : vnorm (vec_of ca) <= sa + vnorm (vsub (vec_of ca) A)). { rewrite (via A (vec_of ca)) at 1. apply norm_triangle. }
  assert (Kb : vnorm (vec_of cb) <= sb + vnorm (vsub (vec_of cb) B)). { rewrite (via B (vec_of cb)) at 1. apply norm_triangle. }
  destruct (cross_inexact ca cb A B _ _ Fa Fb ltac:(lra) ltac:(lra) Ea Eb) as (Fx & Ex). fold X in Ex. fold sa in Ex.
  assert (EE : vnorm (vsub (vec_of (fcross ca cb)) X) <= 402 / 100 * u * (sa * sb + sa + sb)).
  { eapply Rle_trans; [exact Ex|]. apply (cross_arith sa sb (vnorm (vec_of ca)) (vnorm (vec_of cb)) (401 / 100 * u) _ eta); try lra; try (split; [apply vnorm_pos|lra]).
    split; [lra|]. pose proof etau as T. assert (Q : u * (10000000 * u) <= u * (sa + sb)) by (apply Rmult_le_compat_l; lra). replace (u * (10000000 * u)) with (10000000 * (u * u)) in Q by ring.
    replace (u / 1000000000000 * (sa + sb)) with (u * (sa + sb) / 1000000000000) by field. clear - T Q EP. set (q := u * (sa + sb)) in *. set (qq := u * u) in *. clearbody q qq. lra. }
  set (e := 402 / 100 * w * u).
  assert (EX : vnorm (vsub (vec_of (fcross ca cb)) X) <= e * vnorm X).
  { eapply Rle_trans; [exact EE|]. rewrite NX. unfold e. rewrite Ew. right. field. lra. }
  assert (Pw : 0 < w) by (rewrite Ew; apply Rmult_lt_0_compat; lra).
  assert (He : 0 <= e <= / 1000000). { unfold e. split; [apply Rmult_le_pos; lra|lra]. }
  assert (XU : vnorm X <= 1000000000000). { unfold X. eapply Rle_trans; [apply vcross_le|]. fold sa sb. apply Rle_trans with (2 * 2); [apply Rmult_le_compat; lra|lra]. }
  destruct (unit_inexact' (fcross ca cb) X e Fx NXL XU EX (proj2 He)) as (NU & AU & VU). set (n := unit64 (fcross ca cb)) in *.
  destruct (GD _ _ NU Na1) as (Fd & Ed).
  assert (KD : Rabs (vdot (vsub (vec_of n) (direction X)) (vec_of a1)) <= 3 / 1000000).
  { eapply Rle_trans; [apply cauchy_schwarz|]. apply Rle_trans with ((2 * e + 501 / 100 * u) * (1 + 6 * u)); [apply Rmult_le_compat; try apply vnorm_pos; lra|].
    apply Rle_trans with (25 / 10000000 * (11 / 10)); [apply Rmult_le_compat; lra|lra]. }
  replace (vdot (vsub (vec_of n) (direction X)) (vec_of a1)) with (vdot (vec_of n) (vec_of a1) - vdot (direction X) (vec_of a1)) in KD by (generalize (vec_of n) (direction X) (vec_of a1); clear; intros; vring).
  set (d := vdot (direction X) (vec_of a1)) in *. apply Rabs_le_inv in KD. apply Rabs_le_inv in Ed.
  assert (SG : exists o s, fsign (dot n a1) = o /\ is_finite o = true /\ B2R o = s /\ (s = 1 \/ s = -1) /\ 0 < s * d).
  { destruct (Rle_lt_dec 0 d) as [G|G].
    - rewrite Rabs_right in Hd by lra. exists fone, 1. split; [apply fsign_pos; auto; lra|]. split; [reflexivity|]. split; [apply fone_val|]. split; [auto|lra].
    - rewrite Rabs_left in Hd by lra. exists (fneg fone), (-1). split; [apply fsign_neg; auto; lra|]. split; [reflexivity|]. split; [unfold fneg; rewrite B2R_Bopp, fone_val; ring|]. split; [auto|lra]. }
  destruct SG as (o & s & Eo & Fo & Vo & Hs & Ps). destruct (signed o s n Fo Vo Hs NU) as (NS & VS).
  assert (EF : fintersect dot a1 a2 b1 b2 = fscalev o n) by (rewrite <- Eo; reflexivity). rewrite EF. split; [exact NS|].
  assert (SU : vnorm (vscale s (direction X)) = 1). { rewrite vnorm_scale, direction_unit by auto. destruct Hs as [-> | ->]; [rewrite Rabs_R1|rewrite Rabs_left]; lra. }
  exists (vscale s (direction X)). split; [|split; [|split]].
  - split; auto. unfold direction. rewrite !vdot_scale_l. fold A. replace (vdot X A) with 0; [ring|]. unfold X. generalize A B. clear. intros; vring.
  - split; auto. unfold direction. rewrite !vdot_scale_l. fold B. replace (vdot X B) with 0; [ring|]. unfold X. generalize A B. clear. intros; vring.
  - rewrite vdot_scale_l. exact Ps.
  - rewrite VS. assert (AE : angle (vscale s (direction X)) (vscale s (vec_of n)) = angle X (vec_of n)).
    { assert (AD : angle (direction X) (vec_of n) = angle X (vec_of n)) by (unfold direction; apply angle_scale_l, Rinv_0_lt_compat, vnorm_nz; auto).
      destruct Hs as [-> | ->]; [rewrite !vscale_1; auto|]. rewrite <- AD. unfold angle. rewrite vdot_scale_l, vdot_scale_r, !vnorm_scale. f_equal. rewrite Rabs_left by lra. f_equal; [ring|]. ring. }
    rewrite AE. eapply Rle_trans; [exact AU|]. unfold e. replace (41 / 10 * (1 + / sa + / sb) / t) with (41 / 10 * w) by (unfold w, Rdiv; ring).
    assert (0 <= w * u) by (apply Rmult_le_pos; lra). lra.
Qed.

(** The hypotheses of both theorems are met: the circle of the equator, the circle of the zero meridian, and the position on the equator at longitude 0. *)
Lemma nrm1 x y z : x * x + y * y + z * z = 1 -> vnorm (V x y z) = 1. Proof. intros E. unfold vnorm, vdot; cbn [Spec.vx Spec.vy Spec.vz]. rewrite E. apply sqrt_1. Qed.
Lemma dir1 w : vnorm w = 1 -> direction w = w. Proof. intros E. unfold direction. rewrite E, Rinv_1. apply vscale_1. Qed.
Example C98_example : let a1 := (fone, fzero, fzero) in let a2 := (fzero, fone, fzero) in let b2 := (fzero, fzero, fone) in
  good_dot dot_seq /\ near_unit a1 /\ near_unit a2 /\ near_unit b2 /\
  let A := vcross (vec_of a1) (vec_of a2) in let B := vcross (vec_of a1) (vec_of b2) in
  vnorm A = 1 /\ vnorm B = 1 /\ A <> v0 /\ B <> v0 /\ vnorm (vcross (direction A) (direction B)) = 1 /\
  vdot (direction (vcross A B)) (vec_of a1) = 1 /\ vnorm (vcross (direction (vec_of a1)) (direction A)) = 1 /\
  10 * u <= vnorm A /\ (10 + 9 / 1) * (1 + / 1) * u <= / 1000000 /\ (1 + / 1 + / 1) / 1 * u <= / 5000000.
Proof.
  cbv zeta. pose proof u_pos as Pu. pose proof u_tiny as Su.
  assert (NX : near_unit (fone, fzero, fzero)) by (apply axis_unit; auto; rewrite fone_val, fzero_val; ring).
  assert (NY : near_unit (fzero, fone, fzero)) by (apply axis_unit; auto; rewrite fone_val, fzero_val; ring).
  assert (NZ : near_unit (fzero, fzero, fone)) by (apply axis_unit; auto; rewrite fone_val, fzero_val; ring).
  split; [apply good_dot_seq|]. split; [exact NX|]. split; [exact NY|]. split; [exact NZ|].
  assert (EA : vcross (vec_of (fone, fzero, fzero)) (vec_of (fzero, fone, fzero)) = V 0 0 1). { cbn [vec_of]. rewrite fone_val, fzero_val. unfold vcross; cbn [Spec.vx Spec.vy Spec.vz]. f_equal; ring. }
  assert (EB : vcross (vec_of (fone, fzero, fzero)) (vec_of (fzero, fzero, fone)) = V 0 (-1) 0). { cbn [vec_of]. rewrite fone_val, fzero_val. unfold vcross; cbn [Spec.vx Spec.vy Spec.vz]. f_equal; ring. }
  rewrite EA, EB. assert (N1 : vnorm (V 0 0 1) = 1) by (apply nrm1; ring). assert (N2 : vnorm (V 0 (-1) 0) = 1) by (apply nrm1; ring). assert (N3 : vnorm (V 1 0 0) = 1) by (apply nrm1; ring).
  assert (EX : vcross (V 0 0 1) (V 0 (-1) 0) = V 1 0 0) by (unfold vcross; cbn [Spec.vx Spec.vy Spec.vz]; f_equal; ring).
  assert (EV : vec_of (fone, fzero, fzero) = V 1 0 0) by (cbn [vec_of]; rewrite fone_val, fzero_val; auto).
  split; [exact N1|]. split; [exact N2|]. split; [unfold v0; intros Z; injection Z; lra|]. split; [unfold v0; intros Z; injection Z; lra|].
  rewrite (dir1 _ N1), (dir1 _ N2), EX, EV, (dir1 _ N3). split; [exact N3|]. split; [unfold vdot; cbn [Spec.vx Spec.vy Spec.vz]; ring|].
  split; [unfold vcross; cbn [Spec.vx Spec.vy Spec.vz]; apply nrm1; ring|]. rewrite N1, Rinv_1. repeat split; lra.
Qed.
