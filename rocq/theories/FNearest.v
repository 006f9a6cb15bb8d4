(** * C114: GeoPath.closest_point_on_path in binary64 (objects.py 1054-1060, 1143-1154) *)
From Coq Require Import ZArith Reals Lra Lia Bool Psatz.
From Flocq Require Import Core BinarySingleNaN Relative.
From Verif Require Import Spec LVec LAngle LCircle FTiny FZero FBase FRel FRel2 FUnit FPi FAngle FMod FDist FClose FGreat FLatLon FInv FInv2 FTrack FOnCircle FEcef FEcef2 FNed FNed2 FNed3 FDelta FDelta2 FDelta3
  FMove FWay FWay2 FWay3 FWay4 FInterp FPoint FPoint2 FGeod FEqual FOnPath PTrack.
Local Open Scope R_scope.

(** ** the model *)
(** what is returned: the point of the great circle (its n-vector and depth), or one of the ends *)
Inductive nearest : Type := Foot (n : vec64) (z : float64) | EndA | EndB.
(** objects.py 1054-1060 and 1143-1154: [a], [b], [q] are the n-vectors of the ends and of the point, [zA], [zB] the depths of the ends, [radius] the mean radius *)
Definition fclosest_on_path (dot : vec64 -> vec64 -> float64) (arcsin : float64 -> float64) (arctan2 : float64 -> float64 -> float64) (a b q : vec64) (zA zB radius : float64) : nearest :=
  let z := fmul (fadd zA zB) fhalf in
  let c := fclosest dot a b q in
  if fon_great_circle_path dot arcsin a b c radius default_atol && fisclose rtol6_64 default_atol false z (fmul (fadd zA zB) fhalf) then Foot c z
  else let d1 := fgreat_circle_distance dot arctan2 a q radius in
       let d2 := fgreat_circle_distance dot arctan2 b q radius in
       if flt d1 d2 then EndA else EndB.

(** ** the computed foot is on the computed great circle *)
Lemma cross_tilt n x : near_unit n -> finite_vec x -> vnorm (vec_of x) <= 2 -> finite_vec (fcross n x) /\
  vnorm (vsub (vec_of (fcross n x)) (vcross (vec_of n) (vec_of x))) <= 4002 / 1000 * u * vnorm (vec_of x) + 9 * eta /\
  Rabs (vdot (vec_of n) (vec_of (fcross n x))) <= 4003 / 1000 * u * vnorm (vec_of x) + 10 * eta.
Proof.
  intros Nn Fx Hx. pose proof u_pos as Pu. pose proof u_tiny as Su. pose proof eta_pos as Pe. destruct (near_unit_len n Nn) as (Fn & Ln).
  destruct (cross_any n x Fn Fx ltac:(lra) Hx) as (F & E). set (y := fcross n x) in *. clearbody y. set (N := vec_of n) in *. set (X := vec_of x) in *. set (Y := vec_of y) in *. clearbody N X Y.
  pose proof (vnorm_pos X) as PX. set (lx := vnorm X) in *. assert (E' : vnorm (vsub Y (vcross N X)) <= 4002 / 1000 * u * lx + 9 * eta).
  { eapply Rle_trans; [exact E|]. apply Rplus_le_compat_r. assert (vnorm N * lx <= (1 + 6 * u) * lx) by (apply Rmult_le_compat_r; lra).
    assert (u * (vnorm N * lx) <= u * ((1 + 6 * u) * lx)) by (apply Rmult_le_compat_l; lra). assert (0 <= u * lx) by (apply Rmult_le_pos; lra). assert (u * (u * lx) <= / 1000000 * (u * lx)) by (apply Rmult_le_compat_r; lra). lra. }
  split; auto. split; auto. replace (vdot N Y) with (vdot N (vsub Y (vcross N X))) by (clear; unfold vdot, vsub, vcross; cbn [Spec.vx Spec.vy Spec.vz]; ring).
  eapply Rle_trans; [apply cauchy_schwarz|]. apply Rle_trans with ((1 + 6 * u) * (4002 / 1000 * u * lx + 9 * eta)); [apply Rmult_le_compat; try apply vnorm_pos; lra|].
  assert (0 <= u * lx) by (apply Rmult_le_pos; lra). assert (u * (u * lx) <= / 1000000 * (u * lx)) by (apply Rmult_le_compat_r; lra). assert (u * eta <= / 1000000 * eta) by (apply Rmult_le_compat_r; lra). lra.
Qed.

(** a division by the computed norm leaves the direction to within u *)
Lemma unit_tilt y : finite_vec y -> / 1000000 <= vnorm (vec_of y) <= 3 -> exists w, / (1 + 5 * u) <= w * vnorm (vec_of y) <= / (1 - 5 * u) /\ 0 < w /\
  finite_vec (unit64 y) /\ vnorm (vsub (vec_of (unit64 y)) (vscale w (vec_of y))) <= 1001 / 1000 * u.
Proof.
  destruct y as [[y0 y1] y2]. intros (F0 & F1 & F2) L. pose proof u_pos as Pu. pose proof u_tiny as Su. pose proof eta_pos as Pe. pose proof eta_um as EU.
  destruct (comp_le_vnorm (vec_of (y0, y1, y2))) as (C0 & C1 & C2). set (l := vnorm (vec_of (y0, y1, y2))) in *. change (Spec.vx (vec_of (y0, y1, y2))) with (B2R y0) in C0. change (Spec.vy (vec_of (y0, y1, y2))) with (B2R y1) in C1. change (Spec.vz (vec_of (y0, y1, y2))) with (B2R y2) in C2.
  pose proof big400 as B4. destruct (any_norm y0 y1 y2 F0 F1 F2 ltac:(lra) ltac:(lra) ltac:(lra)) as (FN & PN & EN). rewrite length3_vnorm in EN. fold l in EN. set (m := norm3 y0 y1 y2) in *.
  assert (T399 : bpow radix2 (-399) <= u * / 1000000 / 1000000). { unfold u. apply Rle_trans with (bpow radix2 (-53) * bpow radix2 (-60)); [rewrite <- bpow_plus; apply bpow_le; lia|]. unfold Rdiv. rewrite Rmult_assoc. apply Rmult_le_compat_l; [apply bpow_ge_0|cbn; lra]. }
  assert (TT : is_finite tiny = true /\ 0 <= B2R tiny <= u * / 1000000 / 1000000). { split; [reflexivity|]. assert (B2R tiny = bpow radix2 (-1022)) as ->. { unfold tiny, B2R, F2R; cbn [cond_Zopp Fnum Fexp]. change (IZR (Z.pos 4503599627370496)) with (bpow radix2 52). rewrite <- bpow_plus. reflexivity. } split; [apply bpow_ge_0|]. eapply Rle_trans; [|exact T399]. apply bpow_le; lia. }
  destruct TT as (FT & BT). apply Rabs_le_inv in EN.
  assert (UL : 0 <= u * l <= 3 * u) by (split; [apply Rmult_le_pos; lra|apply Rle_trans with (u * 3); [apply Rmult_le_compat_l; lra|lra]]). assert (UL' : u * / 1000000 <= u * l) by (apply Rmult_le_compat_l; lra).
  assert (Big : 100000000 <= bpow radix2 1023). { apply Rle_trans with (bpow radix2 27); [cbn; lra|apply bpow_le; lia]. }
  destruct (fadd_val m tiny FN FT) as (Fd & Ed). { rewrite Rabs_right by lra. lra. } destruct (rnd_add_err (B2R m) (B2R tiny) (format64 _) (format64 _)) as (e & He & Ee). rewrite Ee in Ed. clear Ee. apply Rabs_le_inv in He.
  set (d := fadd m tiny) in *. set (M := B2R m + B2R tiny) in *. assert (BM : (1 - 31 / 10 * u) * l <= M <= (1 + 31 / 10 * u) * l) by (unfold M; lra).
  assert (BD : (1 - 5 * u) * l <= B2R d <= (1 + 5 * u) * l).
  { rewrite Ed. assert (UU : u * (u * l) <= / 1000000 * (u * l)) by (apply Rmult_le_compat_r; lra). assert (XM : Rabs (M * e) <= (1 + 31 / 10 * u) * l * u). { rewrite Rabs_mult. apply Rmult_le_compat; auto using Rabs_pos; [apply Rabs_le; lra|apply Rabs_le; lra]. } apply Rabs_le_inv in XM. lra. }
  assert (PD : 0 < B2R d) by nra. set (w := / B2R d). exists w. assert (Pw : 0 < w) by (apply Rinv_0_lt_compat; exact PD).
  assert (BW : / (1 + 5 * u) <= w * l <= / (1 - 5 * u)).
  { assert (WD : w * B2R d = 1) by (apply Rinv_l; lra). split.
    - apply (Rmult_le_reg_r (1 + 5 * u)); [lra|]. rewrite Rinv_l by lra. apply Rle_trans with (w * B2R d); [lra|]. rewrite Rmult_assoc. apply Rmult_le_compat_l; lra.
    - apply (Rmult_le_reg_r (1 - 5 * u)); [lra|]. rewrite Rinv_l by lra. apply Rle_trans with (w * B2R d); [|lra]. rewrite Rmult_assoc. apply Rmult_le_compat_l; lra. }
  split; [exact BW|]. split; [exact Pw|]. assert (WL : w * l <= 1 + 6 * u). { eapply Rle_trans; [apply BW|]. apply (Rmult_le_reg_r (1 - 5 * u)); [lra|]. rewrite Rinv_l by lra. assert (u * u <= / 1000000 * u) by (apply Rmult_le_compat_r; lra). lra. }
  assert (K : forall c : float64, is_finite c = true -> Rabs (B2R c) <= l -> is_finite (fdiv c d) = true /\ Rabs (B2R (fdiv c d) - w * B2R c) <= u * Rabs (w * B2R c) + eta).
  { intros c Fc Bc. assert (Q : Rabs (B2R c / B2R d) <= 2). { unfold Rdiv. fold w. rewrite Rabs_mult, (Rabs_right w) by lra. apply Rle_trans with (l * w); [apply Rmult_le_compat_r; lra|lra]. }
    destruct (fdiv_val c d Fc ltac:(lra)) as (F & E). { lra. } split; auto. rewrite E. destruct (rnd_err (B2R c / B2R d)) as (r & h & Hr & Hh & ER). rewrite ER.
    replace (B2R c / B2R d) with (w * B2R c) by (unfold w; field; lra). replace (w * B2R c * (1 + r) + h - w * B2R c) with (r * (w * B2R c) + h) by ring. eapply Rle_trans; [apply Rabs_triang|]. rewrite (Rabs_mult r).
    apply Rplus_le_compat; auto. apply Rmult_le_compat_r; [apply Rabs_pos|auto]. }
  destruct (K y0 F0 C0) as (G0 & E0). destruct (K y1 F1 C1) as (G1 & E1). destruct (K y2 F2 C2) as (G2 & E2). unfold unit64, unit_entry. fold m d. split; [unfold finite_vec; auto|].
  set (G := V (w * B2R y0) (w * B2R y1) (w * B2R y2)).
  apply Rle_trans with (vnorm (vadd (vscale u (V (Rabs (Spec.vx G)) (Rabs (Spec.vy G)) (Rabs (Spec.vz G)))) (V eta eta eta))).
  { apply norm_le_comp; unfold vec_of, vsub, vadd, vscale, G; cbn [Spec.vx Spec.vy Spec.vz]; assumption. }
  eapply Rle_trans; [apply norm_triangle|]. rewrite vnorm_scale, abs_vec_norm, (Rabs_right u) by lra.
  assert (EG : vnorm G = w * l). { change G with (vscale w (vec_of (y0, y1, y2))). rewrite vnorm_scale, Rabs_right by lra. reflexivity. }
  rewrite EG. pose proof (norm_sum3 (V eta eta eta)) as S. cbn [Spec.vx Spec.vy Spec.vz] in S. rewrite Rabs_right in S by lra. assert (u * (w * l) <= u * (1 + 6 * u)) by (apply Rmult_le_compat_l; lra). assert (u * u <= / 1000000 * u) by (apply Rmult_le_compat_r; lra). lra.
Qed.

(** the computed foot, tested against the computed normal of the circle: the sine of its angle from the circle *)
Lemma foot_sine dot a b q : good_dot dot -> near_unit a -> near_unit b -> near_unit q ->
  let s := vnorm (vcross (vec_of a) (vec_of b)) in let c := direction (vcross (vec_of a) (vec_of b)) in let Q := direction (vec_of q) in let r := vnorm (vcross Q c) in
  10 * u <= s -> / 100000 <= r -> (10 + 9 / s) * (1 + / r) * u <= / 1000000 ->
  near_unit (fclosest dot a b q) /\ is_finite (fsin_theta dot a b (fclosest dot a b q)) = true /\ Rabs (B2R (fsin_theta dot a b (fclosest dot a b q))) <= 91 / 10 * u.
Proof.
  intros GD Na Nb Nq s c Q r Hs Hr Hk. destruct (C98_closest_point dot a b q GD Na Nb Nq Hs Hr Hk) as (NC & _). split; [exact NC|].
  pose proof u_pos as Pu. pose proof u_tiny as Su. pose proof eta_pos as Pe. pose proof eta_um as EU.
  destruct (normal_err a b Na Nb Hs) as (Nn & NX & En). fold s c in En.
  destruct (GD (fnormal a b) (fclosest dot a b q) Nn NC) as (FD & ED). unfold fsin_theta, fneg. rewrite is_finite_Bopp, B2R_Bopp, Rabs_Ropp. split; [exact FD|].
  set (d := dot (fnormal a b) (fclosest dot a b q)) in *. clearbody d. unfold fclosest in NC, ED. set (n := fnormal a b) in *.
  destruct (near_unit_len n Nn) as (Fn & Ln). destruct (near_unit_len q Nq) as (Fq & Lq). destruct (near_unit_near q Nq) as (_ & Q0 & _).
  assert (Uc : vnorm c = 1) by (apply direction_unit; auto). assert (UQ : vnorm Q = 1) by (apply direction_unit; auto).
  assert (DE : vnorm (vsub (vec_of n) c) <= / 1000000).
  { eapply Rle_trans; [exact En|]. eapply Rle_trans; [|exact Hk]. assert (Ps : 0 < / s) by (apply Rinv_0_lt_compat; lra). assert (Pr : 0 < / r) by (apply Rinv_0_lt_compat; lra). unfold Rdiv.
    replace (501 * / 100 * u + 804 * / 100 * u * / s) with ((501 * / 100 + 804 * / 100 * / s) * u) by ring. apply Rmult_le_compat_r; [lra|].
    assert (0 <= (10 + 9 * / s) * / r) by (apply Rmult_le_pos; lra). lra. }
  assert (XR : vnorm (vcross (vec_of q) (vec_of n)) >= 85 / 10000000).
  { assert (E1 : vcross (vec_of q) (vec_of n) = vadd (vscale (vnorm (vec_of q)) (vcross Q c)) (vcross (vec_of q) (vsub (vec_of n) c))).
    { rewrite <- vcross_scale_l. unfold Q. rewrite <- (direction_decomp _ Q0). generalize (vec_of q) (vec_of n) c. clear. intros. vring. }
    pose proof (norm_perturb (vscale (vnorm (vec_of q)) (vcross Q c)) (vcross (vec_of q) (vsub (vec_of n) c))) as NP. rewrite <- E1, vnorm_scale, (Rabs_right (vnorm (vec_of q))) in NP by lra. fold r in NP. apply Rabs_le_inv in NP.
    pose proof (vcross_le (vec_of q) (vsub (vec_of n) c)) as VL. assert (vnorm (vec_of q) * vnorm (vsub (vec_of n) c) <= (1 + 6 * u) * / 1000000) by (apply Rmult_le_compat; try apply vnorm_pos; lra).
    assert ((1 - 6 * u) * / 100000 <= vnorm (vec_of q) * r) by (apply Rmult_le_compat; lra). lra. }
  destruct (cross_any q n Fq Fn ltac:(lra) ltac:(lra)) as (Fx & Ex). set (x := fcross q n) in *.
  assert (QN : vnorm (vec_of q) * vnorm (vec_of n) <= 1 + / 1000000). { apply Rle_trans with ((1 + 6 * u) * (1 + 6 * u)); [apply Rmult_le_compat; try apply vnorm_pos; lra|]. assert (u * u <= / 1000000 * u) by (apply Rmult_le_compat_r; lra). lra. }
  assert (EX : vnorm (vsub (vec_of x) (vcross (vec_of q) (vec_of n))) <= 4002 / 1000 * u). { eapply Rle_trans; [exact Ex|]. assert (u * (vnorm (vec_of q) * vnorm (vec_of n)) <= u * (1 + / 1000000)) by (apply Rmult_le_compat_l; lra). lra. }
  pose proof (norm_perturb (vcross (vec_of q) (vec_of n)) (vsub (vec_of x) (vcross (vec_of q) (vec_of n)))) as NP. rewrite <- via in NP. apply Rabs_le_inv in NP.
  pose proof (vcross_le (vec_of q) (vec_of n)) as VL. assert (LX : 8 / 1000000 <= vnorm (vec_of x) <= 2) by lra.
  assert (OX : Rabs (vdot (vec_of n) (vec_of x)) <= 4003 / 1000 * u).
  { replace (vdot (vec_of n) (vec_of x)) with (vdot (vec_of n) (vsub (vec_of x) (vcross (vec_of q) (vec_of n)))) by (generalize (vec_of n) (vec_of x) (vec_of q); clear; intros; unfold vdot, vsub, vcross; cbn [Spec.vx Spec.vy Spec.vz]; ring).
    eapply Rle_trans; [apply cauchy_schwarz|]. apply Rle_trans with ((1 + 6 * u) * (4002 / 1000 * u)); [apply Rmult_le_compat; try apply vnorm_pos; lra|]. assert (u * u <= / 1000000 * u) by (apply Rmult_le_compat_r; lra). lra. }
  destruct (cross_tilt n x Nn Fx (proj2 LX)) as (Fy & EY & OY). set (y := fcross n x) in *. clearbody y. set (lx := vnorm (vec_of x)) in *.
  assert (UX : 0 <= u * lx <= 2 * u /\ u * (8 / 1000000) <= u * lx) by (split; [split; [apply Rmult_le_pos; lra|]|]; [apply Rle_trans with (u * 2); [apply Rmult_le_compat_l|]|apply Rmult_le_compat_l]; lra).
  assert (CX : 999 / 1000 * lx <= vnorm (vcross (vec_of n) (vec_of x)) <= 11 / 10 * lx).
  { pose proof (vcross_norm_sq (vec_of n) (vec_of x)) as LG. fold lx in LG. set (w := vnorm (vcross (vec_of n) (vec_of x))) in *. assert (Pw : 0 <= w) by apply vnorm_pos. set (o := vdot (vec_of n) (vec_of x)) in *.
    assert (O2 : 0 <= o * o <= / 1000000 * (lx * lx)). { split; [apply Rle_0_sqr|]. replace (o * o) with (Rabs o * Rabs o) by (rewrite <- Rabs_mult; apply Rabs_right, Rle_ge, Rle_0_sqr). apply Rle_trans with ((/ 1000 * lx) * (/ 1000 * lx)); [apply Rmult_le_compat; try apply Rabs_pos; lra|lra]. }
    assert (N2 : (1 - 12 * u) * (lx * lx) <= vnorm (vec_of n) * vnorm (vec_of n) * (lx * lx) <= (1 + 13 * u) * (lx * lx)).
    { assert (u * u <= / 1000000 * u) by (apply Rmult_le_compat_r; lra). assert ((1 - 6 * u) * (1 - 6 * u) <= vnorm (vec_of n) * vnorm (vec_of n)) by (apply Rmult_le_compat; lra). assert (vnorm (vec_of n) * vnorm (vec_of n) <= (1 + 6 * u) * (1 + 6 * u)) by (apply Rmult_le_compat; lra). split; apply Rmult_le_compat_r; nra. }
    assert (L2 : 0 < lx * lx) by (apply Rmult_lt_0_compat; lra). assert (u * (lx * lx) <= / 1000000 * (lx * lx)) by (apply Rmult_le_compat_r; lra). split; nra. }
  pose proof (norm_perturb (vcross (vec_of n) (vec_of x)) (vsub (vec_of y) (vcross (vec_of n) (vec_of x)))) as NP2. rewrite <- via in NP2. apply Rabs_le_inv in NP2.
  assert (LY : 998 / 1000 * lx <= vnorm (vec_of y) <= 12 / 10 * lx) by lra.
  assert (Y0 : vnorm (vsub (vec_of y) (vec_of y)) <= 0 * vnorm (vec_of y)). { rewrite Rmult_0_l. right. replace (vsub (vec_of y) (vec_of y)) with v0 by (generalize (vec_of y); clear; intros w; unfold v0; vring). apply vnorm_v0. }
  pose proof bpow100 as B1. destruct (unit_inexact' y (vec_of y) 0 Fy ltac:(lra) ltac:(lra) Y0 ltac:(lra)) as (NU & _).
  destruct (unit_tilt y Fy ltac:(lra)) as (w & BW & Pw & _ & EW). set (c' := unit64 y) in *. clearbody c'.
  assert (T : Rabs (vdot (vec_of n) (vec_of c')) <= 504 / 100 * u).
  { rewrite (via (vscale w (vec_of y)) (vec_of c')). rewrite vdot_add_r, vdot_scale_r. eapply Rle_trans; [apply Rabs_triang|]. rewrite Rabs_mult, (Rabs_right w) by lra.
    assert (K1 : Rabs (vdot (vec_of n) (vsub (vec_of c') (vscale w (vec_of y)))) <= 1002 / 1000 * u). { eapply Rle_trans; [apply cauchy_schwarz|]. apply Rle_trans with ((1 + 6 * u) * (1001 / 1000 * u)); [apply Rmult_le_compat; try apply vnorm_pos; lra|]. assert (u * u <= / 1000000 * u) by (apply Rmult_le_compat_r; lra). lra. }
    assert (K2 : w * Rabs (vdot (vec_of n) (vec_of y)) <= 403 / 100 * u).
    { apply Rle_trans with (w * (402 / 100 * u * vnorm (vec_of y))).
      - apply Rmult_le_compat_l; [lra|]. eapply Rle_trans; [exact OY|]. assert (u * (998 / 1000 * lx) <= u * vnorm (vec_of y)) by (apply Rmult_le_compat_l; lra). lra.
      - replace (w * (402 / 100 * u * vnorm (vec_of y))) with (402 / 100 * (u * (w * vnorm (vec_of y)))) by ring. assert (I : / (1 - 5 * u) <= 1001 / 1000). { apply (Rmult_le_reg_r (1 - 5 * u)); [lra|]. rewrite Rinv_l by lra. lra. }
        assert (u * (w * vnorm (vec_of y)) <= u * (1001 / 1000)) by (apply Rmult_le_compat_l; lra). lra. }
    lra. }
  assert (FDq : is_finite (dot c' q) = true) by (apply GD; auto). set (o := dot c' q) in *. clearbody o.
  assert (V : exists sg, (sg = 1 \/ sg = -1) /\ vec_of (fscalev (fsign o) c') = vscale sg (vec_of c')).
  { destruct (Rtotal_order (B2R o) 0) as [L|[L|L]].
    - exists (-1). split; auto. rewrite (fsign_neg o FDq L). apply (signed (fneg fone) (-1) c'); auto. unfold fneg. rewrite B2R_Bopp, fone_val. reflexivity.
    - exfalso. assert (S0 : fsign o = fzero). { unfold fsign. rewrite Bcompare_correct by auto. change (B2R fzero) with 0. rewrite Rcompare_Eq by auto. reflexivity. }
      rewrite S0 in NC. destruct (near_unit_len _ NC) as (_ & LN). destruct c' as [[c0 c1] c2]. destruct (near_unit_len _ NU) as ((G0 & G1 & G2) & _).
      assert (Z : forall t : float64, is_finite t = true -> B2R (fmul fzero t) = 0). { intros t Ft. destruct (fmul_val fzero t eq_refl Ft) as (_ & E). { change (B2R fzero) with 0. rewrite Rmult_0_l, Rabs_R0. apply bpow_ge_0. } rewrite E. change (B2R fzero) with 0. rewrite Rmult_0_l. apply round_0; auto with typeclass_instances. }
      unfold fscalev in LN. assert (ZV : vec_of (fmul fzero c0, fmul fzero c1, fmul fzero c2) = v0). { unfold vec_of. rewrite !Z by auto. reflexivity. } rewrite ZV, vnorm_v0 in LN. lra.
    - exists 1. split; auto. rewrite (fsign_pos o FDq L). apply (signed fone 1 c'); auto using fone_val. }
  destruct V as (sg & HS & VE). rewrite VE, vdot_scale_r in ED. assert (AS : Rabs (sg * vdot (vec_of n) (vec_of c')) <= 504 / 100 * u). { rewrite Rabs_mult. destruct HS as [->| ->]; [rewrite Rabs_R1|rewrite (Rabs_left (-1)) by lra]; lra. }
  pose proof (Rabs_triang (B2R d - sg * vdot (vec_of n) (vec_of c')) (sg * vdot (vec_of n) (vec_of c'))) as TR. replace (B2R d - sg * vdot (vec_of n) (vec_of c') + sg * vdot (vec_of n) (vec_of c')) with (B2R d) in TR by ring. lra.
Qed.

(** The point closest_point_on_great_circle returns passes the on_great_circle test at the default tolerance of 1e-8 m, for any radius up to 9000 km *)
Theorem C114_foot_on_circle : forall dot arcsin a b q radius, good_dot dot -> good_arcsin arcsin -> near_unit a -> near_unit b -> near_unit q ->
  is_finite radius = true -> 0 <= B2R radius <= 9000000 ->
  let s := vnorm (vcross (vec_of a) (vec_of b)) in let c := direction (vcross (vec_of a) (vec_of b)) in let r := vnorm (vcross (direction (vec_of q)) c) in
  10 * u <= s -> / 100000 <= r -> (10 + 9 / s) * (1 + / r) * u <= / 1000000 ->
  fon_great_circle dot arcsin a b (fclosest dot a b q) radius default_atol = true.
Proof.
  intros dot arcsin a b q radius GD GA Na Nb Nq Fr Br s c r Hs Hr Hk. destruct (foot_sine dot a b q GD Na Nb Nq Hs Hr Hk) as (NC & FX & EX).
  unfold fon_great_circle, fcross_track_distance. set (x := fsin_theta dot a b (fclosest dot a b q)) in *. clearbody x.
  pose proof u_pos as Pu. assert (U : u <= / 9000000000000000). { unfold u. apply Rle_trans with (/ 9007199254740992); [cbn; lra|lra]. } pose proof eta_um as EU. pose proof eta_pos as Pe.
  destruct (GA x FX) as (Fa & Da). { apply Rabs_le_inv in EX. lra. }
  pose proof (asin_spread (B2R x) 0 (/ 10) ltac:(lra) ltac:(lra) ltac:(rewrite Rabs_R0; lra)) as AS. rewrite asin_0, !Rminus_0_r in AS.
  assert (Sq : 99 / 100 <= sqrt (1 - / 10 * / 10)). { rewrite <- (sqrt_square (99 / 100)) by lra. apply sqrt_le_1_alt. lra. }
  assert (A1 : Rabs (asin (B2R x)) <= 93 / 10 * u). { eapply Rle_trans; [exact AS|]. apply Rmult_le_reg_r with (sqrt (1 - / 10 * / 10)); [lra|]. unfold Rdiv at 1. rewrite Rmult_assoc, Rinv_l by lra. assert (u * (99 / 100) <= u * sqrt (1 - / 10 * / 10)) by (apply Rmult_le_compat_l; lra). lra. }
  assert (A2 : Rabs (B2R (arcsin x)) <= 94 / 10 * u).
  { pose proof (Rabs_triang (B2R (arcsin x) - asin (B2R x)) (asin (B2R x))) as T. replace (B2R (arcsin x) - asin (B2R x) + asin (B2R x)) with (B2R (arcsin x)) in T by ring.
    assert (2 * u * Rabs (asin (B2R x)) <= / 1000 * Rabs (asin (B2R x))) by (apply Rmult_le_compat_r; [apply Rabs_pos|lra]). lra. }
  destruct (mul_radius (arcsin x) radius Fa Fr ltac:(lra)) as (Fm & Em). { rewrite Rabs_right by lra. apply Rle_trans with (bpow radix2 30); [cbn; lra|apply bpow_le; lia]. }
  apply fle_val; [rewrite fabs_fin; exact Fm|reflexivity|]. rewrite fabs_val. pose proof default_atol_val as DV. apply Rabs_le_inv in DV.
  pose proof (Rabs_triang (B2R (fmul (arcsin x) radius) - B2R (arcsin x) * B2R radius) (B2R (arcsin x) * B2R radius)) as T.
  replace (B2R (fmul (arcsin x) radius) - B2R (arcsin x) * B2R radius + B2R (arcsin x) * B2R radius) with (B2R (fmul (arcsin x) radius)) in T by ring. rewrite (Rabs_mult (B2R (arcsin x))) in T. rewrite (Rabs_right (B2R radius)) in * by lra.
  assert (T1 : Rabs (B2R (arcsin x)) * B2R radius <= 94 / 10 * u * 9000000) by (apply Rmult_le_compat; try apply Rabs_pos; lra).
  assert (T2 : u * (Rabs (B2R (arcsin x)) * B2R radius) <= / 1000 * (Rabs (B2R (arcsin x)) * B2R radius)) by (apply Rmult_le_compat_r; [apply Rmult_le_pos; [apply Rabs_pos|lra]|lra]). lra.
Qed.
Print Assumptions C114_foot_on_circle.

(** hence the foot is returned exactly when it is between the ends *)
Lemma foot_or_end dot arcsin arctan2 a b q zA zB radius : good_dot dot -> good_arcsin arcsin -> near_unit a -> near_unit b -> near_unit q ->
  is_finite radius = true -> 0 <= B2R radius <= 9000000 -> is_nan (fmul (fadd zA zB) fhalf) = false ->
  let s := vnorm (vcross (vec_of a) (vec_of b)) in let c := direction (vcross (vec_of a) (vec_of b)) in let r := vnorm (vcross (direction (vec_of q)) c) in
  10 * u <= s -> / 100000 <= r -> (10 + 9 / s) * (1 + / r) * u <= / 1000000 ->
  fclosest_on_path dot arcsin arctan2 a b q zA zB radius =
    if fbetween a b (fclosest dot a b q) then Foot (fclosest dot a b q) (fmul (fadd zA zB) fhalf)
    else if flt (fgreat_circle_distance dot arctan2 a q radius) (fgreat_circle_distance dot arctan2 b q radius) then EndA else EndB.
Proof.
  intros GD GA Na Nb Nq Fr Br HZ s c r Hs Hr Hk. unfold fclosest_on_path, fon_great_circle_path. cbv zeta. rewrite (C114_foot_on_circle dot arcsin a b q radius GD GA Na Nb Nq Fr Br Hs Hr Hk), andb_true_r.
  rewrite C83_reflexive, HZ.
  - cbn [negb orb]. rewrite andb_true_r. reflexivity.
  - reflexivity.
  - reflexivity.
  - pose proof default_atol_val as DV. apply Rabs_le_inv in DV. lra.
  - unfold rtol6_64, f, B2R, F2R; cbn. lra.
Qed.
