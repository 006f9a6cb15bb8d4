(** * C94: degrees and metres in, degrees out; there and back *)
From Coq Require Import ZArith Reals Lra Lia Bool Psatz.
From Flocq Require Import Core BinarySingleNaN Relative.
From Verif Require Import Spec LVec LAngle FTiny FZero FBase FRel FRel2 FUnit FPi FAngle FDist FGreat FLatLon FInv FEcef FEcef2 FNed FNed2 FNed3 FDelta FDelta2 FDelta3
  FGeodB FGeod FGeod2 FGeod3 FGeod4 FGeod5 FGeod6 FGeod7 FGeod8 FGeod9 FGeod10 FMove.
Local Open Scope R_scope.

(** Pvector.to_ecef_vector, objects.py 645-658: R_EN times the vector; the rows of R_EN are made of the components of the columns *)
Definition fto_ecef (dot : vec64 -> vec64 -> float64) (R_EN : vec64 * vec64 * vec64) (p : vec64) : vec64 :=
  let '((n0, n1, n2), (e0, e1, e2), (d0, d1, d2)) := R_EN in (dot (n0, e0, d0) p, dot (n1, e1, d1) p, dot (n2, e2, d2) p).
(** the point reached from the GeoPoint A (degrees) by the Pvector p in A's North-East-Down frame: (p.to_ecef_vector() + A.to_ecef_vector()).to_geo_point(),
    latitude and longitude read in degrees (objects.py 206-261, 645-658, 806-809, 778-802, 553-565) *)
Definition fmove_deg dot fsin fcos pow arctan2 (latA lonA zA : float64) (p : vec64) (a f : float64) : float64 * float64 * float64 :=
  let '(n, depth) := fp_EB_E2n_EB_E pow (faddv (fto_ecef dot (fR_EN_deg fsin fcos latA lonA) p) (fgeo_point_to_ecef fsin fcos latA lonA zA a f)) a f in
  let r := fn_E2lat_lon arctan2 n in (fdeg (fst r), fdeg (snd r), depth).

Lemma comp_diff x y z n : let t := vnorm (vsub (vec_of (x, y, z)) n) in Rabs (B2R x - Spec.vx n) <= t /\ Rabs (B2R y - Spec.vy n) <= t /\ Rabs (B2R z - Spec.vz n) <= t.
Proof. exact (comp_le_vnorm (vsub (vec_of (x, y, z)) n)). Qed.
Lemma to_ecef_err dot N E D n e d p : good_mdot dot -> finite_vec N -> finite_vec E -> finite_vec D -> finite_vec p -> orthogonal (Mt n e d) ->
  vnorm (vsub (vec_of N) n) <= 65 * u -> vnorm (vsub (vec_of E) e) <= 44 * u -> vnorm (vsub (vec_of D) d) <= 27 * u -> vnorm (vec_of p) <= bpow radix2 400 ->
  finite_vec (fto_ecef dot (N, E, D) p) /\
  vnorm (vsub (vec_of (fto_ecef dot (N, E, D) p)) (mulv (mT (Mt n e d)) (vec_of p))) <= 96 * u * vnorm (vec_of p) + 24 * eta.
Proof.
  destruct N as [[n0 n1] n2]. destruct E as [[e0 e1] e2]. destruct D as [[d0 d1] d2]. intros GD (Fn0 & Fn1 & Fn2) (Fe0 & Fe1 & Fe2) (Fd0 & Fd1 & Fd2) Fp O DN DE DD B.
  pose proof u_pos as Pu. pose proof u_tiny as Su. pose proof eta_pos as Pe. set (L := vnorm (vec_of p)) in *. assert (PP : 0 <= L) by apply vnorm_pos.
  destruct (comp_diff n0 n1 n2 n) as (N0 & N1 & N2). destruct (comp_diff e0 e1 e2 e) as (E0 & E1 & E2). destruct (comp_diff d0 d1 d2 d) as (D0 & D1 & D2).
  (* rows are units *)
  assert (RU : vnorm (V (Spec.vx n) (Spec.vx e) (Spec.vx d)) = 1 /\ vnorm (V (Spec.vy n) (Spec.vy e) (Spec.vy d)) = 1 /\ vnorm (V (Spec.vz n) (Spec.vz e) (Spec.vz d)) = 1).
  { pose proof O as OT'. unfold orthogonal, mmul, mT, mI in OT'; cbn [r0 r1 r2] in OT'. injection OT' as a00 _ _ _ a11 _ _ _ a22.
    split; [|split]; apply vnorm_eq; try lra; unfold vdot in *; cbn [Spec.vx Spec.vy Spec.vz] in *; lra. }
  destruct RU as (U0 & U1 & U2).
  assert (K : forall x y z X Y Z, is_finite x = true -> is_finite y = true -> is_finite z = true -> vnorm (V X Y Z) = 1 -> Rabs (B2R x - X) <= 65 * u -> Rabs (B2R y - Y) <= 44 * u -> Rabs (B2R z - Z) <= 27 * u ->
    is_finite (dot (x, y, z) p) = true /\ Rabs (B2R (dot (x, y, z) p) - vdot (vec_of (x, y, z)) (vec_of p)) <= 401 / 100 * u * L + 8 * eta).
  { intros x y z X Y Z Fx Fy Fz U Hx Hy Hz. assert (NR : vnorm (vec_of (x, y, z)) <= 1 + / 1000).
    { rewrite (via (V X Y Z) (vec_of (x, y, z))). eapply Rle_trans; [apply norm_triangle|]. rewrite U. pose proof (norm_sum3 (vsub (vec_of (x, y, z)) (V X Y Z))) as S. unfold vsub, vec_of in S; cbn [Spec.vx Spec.vy Spec.vz] in S. unfold vsub, vec_of; cbn [Spec.vx Spec.vy Spec.vz]. lra. }
    destruct (GD (x, y, z) p ltac:(cbn; auto) Fp ltac:(lra) B) as (F & E). split; auto. pose proof (magnitude_cs (vec_of (x, y, z)) (vec_of p)) as MC. fold L in MC.
    assert (M : magnitude (vec_of (x, y, z)) (vec_of p) <= (1 + / 1000) * L). { eapply Rle_trans; [exact MC|]. apply Rmult_le_compat_r; lra. }
    assert (M2 : u * magnitude (vec_of (x, y, z)) (vec_of p) <= u * ((1 + / 1000) * L)) by (apply Rmult_le_compat_l; lra). assert (0 <= u * L) by (apply Rmult_le_pos; lra). lra. }
  destruct (K n0 e0 d0 _ _ _ Fn0 Fe0 Fd0 U0 ltac:(lra) ltac:(lra) ltac:(lra)) as (G0 & H0). destruct (K n1 e1 d1 _ _ _ Fn1 Fe1 Fd1 U1 ltac:(lra) ltac:(lra) ltac:(lra)) as (G1 & H1). destruct (K n2 e2 d2 _ _ _ Fn2 Fe2 Fd2 U2 ltac:(lra) ltac:(lra) ltac:(lra)) as (G2 & H2).
  unfold fto_ecef. split; [cbn; auto|]. set (y := vec_of (dot (n0, e0, d0) p, dot (n1, e1, d1) p, dot (n2, e2, d2) p)).
  set (mid := vadd (vadd (vscale (Spec.vx (vec_of p)) (vec_of (n0, n1, n2))) (vscale (Spec.vy (vec_of p)) (vec_of (e0, e1, e2)))) (vscale (Spec.vz (vec_of p)) (vec_of (d0, d1, d2)))).
  assert (R1 : vnorm (vsub y mid) <= 1203 / 100 * u * L + 24 * eta).
  { pose proof (norm_sum3 (vsub y mid)) as S. eapply Rle_trans; [exact S|].
    replace (Spec.vx (vsub y mid)) with (B2R (dot (n0, e0, d0) p) - vdot (vec_of (n0, e0, d0)) (vec_of p)) by (unfold y, mid, vsub, vadd, vscale, vdot, vec_of; destruct p as [[p0 p1] p2]; cbn [Spec.vx Spec.vy Spec.vz]; ring).
    replace (Spec.vy (vsub y mid)) with (B2R (dot (n1, e1, d1) p) - vdot (vec_of (n1, e1, d1)) (vec_of p)) by (unfold y, mid, vsub, vadd, vscale, vdot, vec_of; destruct p as [[p0 p1] p2]; cbn [Spec.vx Spec.vy Spec.vz]; ring).
    replace (Spec.vz (vsub y mid)) with (B2R (dot (n2, e2, d2) p) - vdot (vec_of (n2, e2, d2)) (vec_of p)) by (unfold y, mid, vsub, vadd, vscale, vdot, vec_of; destruct p as [[p0 p1] p2]; cbn [Spec.vx Spec.vy Spec.vz]; ring).
    eapply Rle_trans; [apply Rplus_le_compat; [apply Rplus_le_compat; [exact H0|exact H1]|exact H2]|]. right. field. }
  assert (R2 : vnorm (vsub mid (mulv (mT (Mt n e d)) (vec_of p))) <= 834 / 10 * u * L).
  { replace (vsub mid (mulv (mT (Mt n e d)) (vec_of p))) with
      (vadd (vadd (vscale (Spec.vx (vec_of p)) (vsub (vec_of (n0, n1, n2)) n)) (vscale (Spec.vy (vec_of p)) (vsub (vec_of (e0, e1, e2)) e))) (vscale (Spec.vz (vec_of p)) (vsub (vec_of (d0, d1, d2)) d)))
      by (unfold mid; generalize (vec_of p) (vec_of (n0, n1, n2)) (vec_of (e0, e1, e2)) (vec_of (d0, d1, d2)); intros [? ? ?] [? ? ?] [? ? ?] [? ? ?]; destruct n, e, d; unfold mulv, mT, vsub, vadd, vscale, vdot; cbn [Spec.vx Spec.vy Spec.vz r0 r1 r2]; apply vec_eq; cbn [Spec.vx Spec.vy Spec.vz]; ring).
    eapply Rle_trans; [apply norm_triangle|]. pose proof (norm_triangle (vscale (Spec.vx (vec_of p)) (vsub (vec_of (n0, n1, n2)) n)) (vscale (Spec.vy (vec_of p)) (vsub (vec_of (e0, e1, e2)) e))) as T. rewrite !vnorm_scale in *.
    set (X := Rabs (Spec.vx (vec_of p))) in *. set (Y := Rabs (Spec.vy (vec_of p))) in *. set (Z := Rabs (Spec.vz (vec_of p))) in *.
    assert (X * vnorm (vsub (vec_of (n0, n1, n2)) n) <= X * (65 * u)) by (apply Rmult_le_compat_l; [apply Rabs_pos|auto]). assert (Y * vnorm (vsub (vec_of (e0, e1, e2)) e) <= Y * (44 * u)) by (apply Rmult_le_compat_l; [apply Rabs_pos|auto]).
    assert (Z * vnorm (vsub (vec_of (d0, d1, d2)) d) <= Z * (27 * u)) by (apply Rmult_le_compat_l; [apply Rabs_pos|auto]).
    assert (CS : 65 * X + 44 * Y + 27 * Z <= 834 / 10 * L).
    { assert (NX : vnorm (V X Y Z) = L) by apply abs_vec_norm. pose proof (cauchy_schwarz (V 65 44 27) (V X Y Z)) as C. rewrite NX in C. apply Rabs_le_inv in C. unfold vdot in C; cbn [Spec.vx Spec.vy Spec.vz] in C.
      assert (NV : vnorm (V 65 44 27) <= 834 / 10). { unfold vnorm, vdot; cbn [Spec.vx Spec.vy Spec.vz]. apply Rle_trans with (sqrt (834 / 10 * (834 / 10))); [apply sqrt_le_1_alt; lra|rewrite sqrt_square; lra]. }
      assert (vnorm (V 65 44 27) * L <= 834 / 10 * L) by (apply Rmult_le_compat_r; lra). lra. }
    assert (u * (65 * X + 44 * Y + 27 * Z) <= u * (834 / 10 * L)) by (apply Rmult_le_compat_l; lra). lra. }
  rewrite (sub_via _ y mid). eapply Rle_trans; [apply norm_triangle|]. assert (0 <= u * L) by (apply Rmult_le_pos; lra). lra.
Qed.
