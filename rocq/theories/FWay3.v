(** * C95: along a great circle by a distance in a direction: n-vectors, degrees, metres *)
From Coq Require Import ZArith Reals Lra Lia Bool Psatz.
From Flocq Require Import Core BinarySingleNaN Relative.
From Verif Require Import Spec LVec LAngle FTiny FZero FBase FRel FRel2 FUnit FPi FAngle FDist FGreat FLatLon FInv FInv2 FEcef FEcef2 FNed FNed2 FNed3 FDelta FDelta2 FDelta3 FGeod10 FMove FWay FWay2.
From Verif Require SpecArr SpecGeo.
Local Open Scope R_scope.

(** ** chords and angles *)
Lemma tilt n q e : vnorm n = 1 -> vnorm (vsub q n) <= e -> e <= / 1000000 -> angle n q <= e * (1 + 2 / 1000000).
Proof.
  intros N1 HD He. set (d := vsub q n) in *. assert (Eq : q = vadd n d) by apply vadd_sub_id. assert (Pe : 0 <= e) by (eapply Rle_trans; [apply vnorm_pos|exact HD]).
  pose proof (norm_perturb n d) as NP. rewrite <- Eq, N1 in NP. assert (L : Rabs (vnorm q - 1) <= e) by lra. apply Rabs_le_inv in L.
  assert (Zn : n <> v0) by (apply vnorm_inv; auto). assert (Zq : q <> v0). { intros E. rewrite E, vnorm_v0 in L. lra. }
  pose proof (sin_angle n q Zn Zq) as S. pose proof (dot_angle n q Zn Zq) as C. pose proof (angle_range n q) as B. rewrite N1, Rmult_1_l in S, C.
  assert (X : vcross n q = vcross n d) by (unfold d; clear; vring).
  assert (SX : vnorm (vcross n d) <= vnorm d).
  { pose proof (vcross_norm_sq n d) as W. rewrite N1 in W. pose proof (vnorm_pos d). pose proof (vnorm_pos (vcross n d)). assert (0 <= vdot n d * vdot n d) by nra. nra. }
  assert (CX : vdot n q = 1 + vdot n d). { assert (I : vdot n n = 1) by (rewrite <- vnorm_sq, N1; ring). rewrite <- I. unfold d. clear; vring. }
  pose proof (cauchy_schwarz n d) as CS. rewrite N1, Rmult_1_l in CS. apply Rabs_le_inv in CS.
  assert (Cpos : 1 - e <= vnorm q * cos (angle n q)) by lra. assert (P0 : 0 < cos (angle n q)) by nra.
  pose proof (abs_angle (angle n q) ltac:(lra) P0) as AA. rewrite (Rabs_right (angle n q)) in AA by lra. rewrite (Rabs_right (sin (angle n q))) in AA by (apply Rle_ge, sin_ge_0; lra).
  assert (K : angle n q * (1 - e) <= e).
  { apply Rle_trans with (angle n q * (vnorm q * cos (angle n q))); [apply Rmult_le_compat_l; lra|]. replace (angle n q * (vnorm q * cos (angle n q))) with (vnorm q * (angle n q * cos (angle n q))) by ring.
    eapply Rle_trans; [apply Rmult_le_compat_l; [lra|exact AA]|]. rewrite <- S, X. lra. }
  apply (Rmult_le_reg_r (1 - e)); [lra|]. eapply Rle_trans; [exact K|]. nra.
Qed.

Lemma rot_move P Q T a b : vdot P Q = 0 -> vnorm P = vnorm Q -> vnorm P <= 1 ->
  vnorm (vsub (vadd (vadd (vscale (cos a) P) (vscale (sin a) Q)) T) (vadd (vadd (vscale (cos b) P) (vscale (sin b) Q)) T)) <= Rabs (a - b).
Proof.
  intros O E H. pose proof (vnorm_pos P) as PP. set (m := vnorm P) in *. set (d := vsub _ _).
  assert (SQ : vdot d d = m * m * (4 * (sin ((a - b) / 2) * sin ((a - b) / 2)))).
  { assert (D1 : vdot P P = m * m) by (unfold m; symmetry; apply vnorm_sq). assert (D2 : vdot Q Q = m * m) by (rewrite E; symmetry; apply vnorm_sq).
    transitivity ((cos a - cos b) * (cos a - cos b) * vdot P P + 2 * ((cos a - cos b) * (sin a - sin b)) * vdot P Q + (sin a - sin b) * (sin a - sin b) * vdot Q Q).
    { unfold d. generalize (cos a) (cos b) (sin a) (sin b). clear. intros. destruct P, Q, T. unfold vdot, vsub, vadd, vscale; cbn [Spec.vx Spec.vy Spec.vz]. ring. }
    rewrite D1, D2, O. pose proof (sin2_cos2 a) as A. pose proof (sin2_cos2 b) as B. pose proof (sin2_cos2 ((a - b) / 2)) as C. unfold Rsqr in A, B, C.
    assert (CD : cos (a - b) = 1 - 2 * (sin ((a - b) / 2) * sin ((a - b) / 2))). { replace (a - b) with (2 * ((a - b) / 2)) at 1 by field. rewrite cos_2a_sin. ring. }
    rewrite cos_minus in CD. transitivity (m * m * (2 - 2 * (cos a * cos b + sin a * sin b))); [|rewrite CD; ring].
    transitivity (m * m * ((sin a * sin a + cos a * cos a) + (sin b * sin b + cos b * cos b) - 2 * (cos a * cos b + sin a * sin b))); [ring|rewrite A, B; ring]. }
  unfold vnorm. rewrite SQ. rewrite <- (sqrt_Rsqr_abs (a - b)). apply sqrt_le_1_alt. unfold Rsqr.
  pose proof (abs_sin_le ((a - b) / 2)) as S. assert (S2 : sin ((a - b) / 2) * sin ((a - b) / 2) <= (a - b) / 2 * ((a - b) / 2)).
  { pose proof (Rsqr_le_abs_1 _ _ S) as Q'. unfold Rsqr in Q'. exact Q'. }
  assert (0 <= sin ((a - b) / 2) * sin ((a - b) / 2)) by nra. assert (m * m <= 1) by nra. nra.
Qed.

(** ** the destination from latitude, longitude, azimuth and arc length (radians) *)
Definition destination (lat lon az D : R) : vec := arc (latlon_vec lat lon) (tangent (north_dir lat lon) (east_dir lon) az) D.
Lemma dest_unit la lo az D : vnorm (destination la lo az D) = 1.
Proof.
  apply vnorm_eq; [lra|]. unfold destination, arc, tangent, latlon_vec, north_dir, east_dir, vdot, vadd, vscale; cbn [Spec.vx Spec.vy Spec.vz].
  pose proof (sin2_cos2 la) as A. pose proof (sin2_cos2 lo) as B. pose proof (sin2_cos2 az) as C. pose proof (sin2_cos2 D) as E. unfold Rsqr in A, B, C, E.
  set (x1 := sin la) in *. set (y1 := cos la) in *. set (x2 := sin lo) in *. set (y2 := cos lo) in *. set (x3 := sin az) in *. set (y3 := cos az) in *. set (x4 := sin D) in *. set (y4 := cos D) in *. clearbody x1 y1 x2 y2 x3 y3 x4 y4.
  transitivity ((x2 * x2 + y2 * y2) * ((y4 * y1 - x4 * y3 * x1) * (y4 * y1 - x4 * y3 * x1) + x4 * x3 * (x4 * x3)) + (y4 * x1 + x4 * y3 * y1) * (y4 * x1 + x4 * y3 * y1)); [ring|]. rewrite B.
  transitivity ((x1 * x1 + y1 * y1) * (y4 * y4 + x4 * y3 * (x4 * y3)) + x4 * x3 * (x4 * x3)); [ring|]. rewrite A. transitivity (y4 * y4 + x4 * x4 * (x3 * x3 + y3 * y3)); [ring|]. rewrite C. lra.
Qed.
Lemma dest_moves la lo az D la' lo' az' D' :
  vnorm (vsub (destination la' lo' az' D') (destination la lo az D)) <= Rabs (la' - la) + Rabs (lo' - lo) + Rabs (az' - az) + Rabs (D' - D).
Proof.
  assert (M1 : vnorm (vsub (destination la' lo' az' D') (destination la lo' az' D')) <= Rabs (la' - la)).
  { set (w := sin D' * cos az'). set (H := V (cos lo') (sin lo') 0). set (Z := V 0 0 1). pose proof (sin2_cos2 lo') as B. pose proof (sin2_cos2 az') as C. pose proof (sin2_cos2 D') as E. unfold Rsqr in B, C, E.
    pose proof (rot_move (vadd (vscale (cos D') H) (vscale w Z)) (vadd (vscale (cos D') Z) (vscale (- w) H)) (vscale (sin D' * sin az') (east_dir lo')) la' la) as R.
    assert (N : forall p q, vnorm (vadd (vscale p H) (vscale q Z)) = sqrt (p * p + q * q)).
    { intros p q. unfold vnorm. f_equal. unfold H, Z, vdot, vadd, vscale; cbn [Spec.vx Spec.vy Spec.vz]. transitivity (p * p * (sin lo' * sin lo' + cos lo' * cos lo') + q * q); [ring|rewrite B; ring]. }
    assert (N' : vnorm (vadd (vscale (cos D') Z) (vscale (- w) H)) = sqrt (cos D' * cos D' + w * w)).
    { replace (vadd (vscale (cos D') Z) (vscale (- w) H)) with (vadd (vscale (- w) H) (vscale (cos D') Z)) by (unfold H, Z; clear; vring). rewrite N. f_equal. ring. }
    assert (W : w * w <= sin D' * sin D'). { unfold w. assert (cos az' * cos az' <= 1) by nra. assert (0 <= sin D' * sin D') by nra. nra. }
    replace (destination la' lo' az' D') with (vadd (vadd (vscale (cos la') (vadd (vscale (cos D') H) (vscale w Z))) (vscale (sin la') (vadd (vscale (cos D') Z) (vscale (- w) H)))) (vscale (sin D' * sin az') (east_dir lo'))).
    2:{ unfold w, H, Z, destination, arc, tangent, latlon_vec, north_dir, east_dir, vadd, vscale; cbn [Spec.vx Spec.vy Spec.vz]. apply vec_eq; cbn [Spec.vx Spec.vy Spec.vz]; ring. }
    replace (destination la lo' az' D') with (vadd (vadd (vscale (cos la) (vadd (vscale (cos D') H) (vscale w Z))) (vscale (sin la) (vadd (vscale (cos D') Z) (vscale (- w) H)))) (vscale (sin D' * sin az') (east_dir lo'))).
    2:{ unfold w, H, Z, destination, arc, tangent, latlon_vec, north_dir, east_dir, vadd, vscale; cbn [Spec.vx Spec.vy Spec.vz]. apply vec_eq; cbn [Spec.vx Spec.vy Spec.vz]; ring. }
    apply R. - unfold H, Z, vdot, vadd, vscale; cbn [Spec.vx Spec.vy Spec.vz]. transitivity (cos D' * w * (1 - (sin lo' * sin lo' + cos lo' * cos lo'))); [ring|rewrite B; ring].
    - rewrite N, N'. reflexivity. - rewrite N. rewrite <- sqrt_1. apply sqrt_le_1_alt. lra. }
  assert (M2 : vnorm (vsub (destination la lo' az' D') (destination la lo az' D')) <= Rabs (lo' - lo)).
  { set (X := cos D' * cos la - sin D' * cos az' * sin la). set (Y := sin D' * sin az'). set (W := cos D' * sin la + sin D' * cos az' * cos la).
    pose proof (rot_move (V X Y 0) (V (- Y) X 0) (V 0 0 W) lo' lo) as R.
    assert (ED : forall o, destination la o az' D' = vadd (vadd (vscale (cos o) (V X Y 0)) (vscale (sin o) (V (- Y) X 0))) (V 0 0 W)).
    { intros o. unfold X, Y, W, destination, arc, tangent, latlon_vec, north_dir, east_dir, vadd, vscale; cbn [Spec.vx Spec.vy Spec.vz]. apply vec_eq; cbn [Spec.vx Spec.vy Spec.vz]; ring. }
    assert (N1 : X * X + Y * Y <= 1).
    { pose proof (dest_unit la 0 az' D') as U. rewrite ED in U. pose proof (vnorm_sq (vadd (vadd (vscale (cos 0) (V X Y 0)) (vscale (sin 0) (V (- Y) X 0))) (V 0 0 W))) as S. rewrite U in S. unfold vdot, vadd, vscale in S; cbn [Spec.vx Spec.vy Spec.vz] in S. rewrite cos_0, sin_0 in S. assert (0 <= W * W) by nra. lra. }
    rewrite !ED. apply R. - unfold vdot; cbn [Spec.vx Spec.vy Spec.vz]. ring. - unfold vnorm, vdot; cbn [Spec.vx Spec.vy Spec.vz]. f_equal. ring.
    - rewrite <- sqrt_1. unfold vnorm, vdot; cbn [Spec.vx Spec.vy Spec.vz]. apply sqrt_le_1_alt. lra. }
  assert (O : vnorm (north_dir la lo) = 1 /\ vnorm (east_dir lo) = 1 /\ vdot (north_dir la lo) (east_dir lo) = 0 /\ vdot (latlon_vec la lo) (north_dir la lo) = 0 /\ vdot (latlon_vec la lo) (east_dir lo) = 0).
  { pose proof (sin2_cos2 la) as A. pose proof (sin2_cos2 lo) as B. unfold Rsqr in A, B. set (x1 := sin la) in *. set (y1 := cos la) in *. set (x2 := sin lo) in *. set (y2 := cos lo) in *.
    unfold north_dir, east_dir, latlon_vec. fold x1 y1 x2 y2. clearbody x1 y1 x2 y2. split; [|split; [|split; [|split]]]; try (apply vnorm_eq; [lra|]); unfold vdot; cbn [Spec.vx Spec.vy Spec.vz]; [transitivity (x1 * x1 * (x2 * x2 + y2 * y2) + y1 * y1)| |transitivity 0|transitivity (x1 * y1 * (1 - (x2 * x2 + y2 * y2)))|transitivity 0]; try ring; try lra; rewrite B; lra. }
  destruct O as (NN & NE & O1 & O2 & O3).
  assert (M3 : vnorm (vsub (destination la lo az' D') (destination la lo az D')) <= Rabs (az' - az)).
  { pose proof (rot_move (vscale (sin D') (north_dir la lo)) (vscale (sin D') (east_dir lo)) (vscale (cos D') (latlon_vec la lo)) az' az) as R.
    assert (ED : forall o, destination la lo o D' = vadd (vadd (vscale (cos o) (vscale (sin D') (north_dir la lo))) (vscale (sin o) (vscale (sin D') (east_dir lo)))) (vscale (cos D') (latlon_vec la lo))).
    { intros o. unfold destination, arc, tangent. generalize (latlon_vec la lo) (north_dir la lo) (east_dir lo). clear. intros. vring. }
    rewrite !ED. apply R. - transitivity (sin D' * sin D' * vdot (north_dir la lo) (east_dir lo)); [generalize (north_dir la lo) (east_dir lo); clear; intros; vring|rewrite O1; ring].
    - rewrite !vnorm_scale, NN, NE. ring. - rewrite vnorm_scale, NN, Rmult_1_r. apply Rabs_le, SIN_bound. }
  assert (M4 : vnorm (vsub (destination la lo az D') (destination la lo az D)) <= Rabs (D' - D)).
  { set (T := tangent (north_dir la lo) (east_dir lo) az). pose proof (rot_move (latlon_vec la lo) T v0 D' D) as R.
    assert (ED : forall o, destination la lo az o = vadd (vadd (vscale (cos o) (latlon_vec la lo)) (vscale (sin o) T)) v0).
    { intros o. unfold destination, arc. fold T. generalize (latlon_vec la lo) T. clear. intros. unfold v0. vring. }
    assert (NT : vnorm T = 1).
    { apply vnorm_eq; [lra|]. unfold T, tangent. pose proof (sin2_cos2 az) as A. unfold Rsqr in A. pose proof (vnorm_sq (north_dir la lo)) as S1. pose proof (vnorm_sq (east_dir lo)) as S2. rewrite NN in S1. rewrite NE in S2.
      transitivity (cos az * cos az * vdot (north_dir la lo) (north_dir la lo) + 2 * (cos az * sin az) * vdot (north_dir la lo) (east_dir lo) + sin az * sin az * vdot (east_dir lo) (east_dir lo)); [generalize (north_dir la lo) (east_dir lo); clear; intros; vring|]. rewrite O1. rewrite <- S1, <- S2. lra. }
    rewrite !ED. apply R. - unfold T, tangent. transitivity (cos az * vdot (latlon_vec la lo) (north_dir la lo) + sin az * vdot (latlon_vec la lo) (east_dir lo)); [generalize (latlon_vec la lo) (north_dir la lo) (east_dir lo); clear; intros; vring|rewrite O2, O3; ring].
    - rewrite latlon_unit, NT. reflexivity. - rewrite latlon_unit. lra. }
  rewrite (sub_via _ _ (destination la lo' az' D')). eapply Rle_trans; [apply norm_triangle|]. rewrite (sub_via _ (destination la lo' az' D') (destination la lo az' D')). pose proof (norm_triangle (vsub (destination la lo' az' D') (destination la lo az' D')) (vsub (destination la lo az' D') (destination la lo az D))) as T1.
  rewrite (sub_via _ (destination la lo az' D') (destination la lo az D')) in T1 at 2. rewrite (sub_via _ (destination la lo az' D') (destination la lo az D')).
  pose proof (norm_triangle (vsub (destination la lo az' D') (destination la lo az D')) (vsub (destination la lo az D') (destination la lo az D))) as T2. rewrite (sub_via _ (destination la lo az' D') (destination la lo az D')) in T1. lra.
Qed.
