(** * C81: from latitudes and longitudes to n-vectors and distances in binary64 (core.py 65-72, 698-702, util.py 318-321) *)
From Coq Require Import ZArith Reals Lia Lra Bool Psatz.
From Flocq Require Import Core BinarySingleNaN.
From Verif Require Import Spec LVec LAngle FTiny FZero FBase FUnit FDist FGreat FPi FAngle.
Local Open Scope R_scope.

(** ** specification: the unit vector normal to the surface at a latitude and longitude (axes 'e': z to the North pole) *)
Definition latlon_vec (lat lon : R) : vec := V (cos lon * cos lat) (sin lon * cos lat) (sin lat).
(** what is required of the C library: sin and cos good to one unit in the last place for angles of a full turn *)
Definition good_trig (fsin : float64 -> float64) (sine : R -> R) : Prop :=
  forall x, is_finite x = true -> Rabs (B2R x) <= 4 ->
    is_finite (fsin x) = true /\ Rabs (B2R (fsin x) - sine (B2R x)) <= 2 * u * Rabs (sine (B2R x)) + 2 * eta.

(** ** lat_lon2n_E, core.py 65-72, one position, default R_Ee (rows of R_Ee.T: (0,0,-1), (0,1,0), (1,0,0)) *)
Definition fzero : float64 := B754_zero false.
Definition fone : float64 := f 4503599627370496 (-52) eq_refl.
(** np.dot of a row of a 3 x 3 matrix with a vector, e.g. core.py 72; in sequence here, any good order in the later files *)
Definition fdot3 (a b : vec64) : float64 := dot_seq a b.
(** lat_lon2n_E with the default axes, core.py 65-73, one position; R_Ee is the matrix of E_rotation *)
Definition flat_lon2n_E (fsin fcos : float64 -> float64) (lat lon : float64) : vec64 :=
  let nvec := (fsin lat, fmul (fsin lon) (fcos lat), fmul (fneg (fcos lon)) (fcos lat)) in
  (fdot3 (fzero, fzero, fneg fone) nvec, fdot3 (fzero, fone, fzero) nvec, fdot3 (fone, fzero, fzero) nvec).

(** ** a row of zeros and one 1 or -1 picks an entry exactly *)
Lemma fone_val : B2R fone = 1. Proof. unfold fone, f, B2R, F2R; cbn. lra. Qed.
Lemma mul_zero_l (x : float64) : is_finite x = true -> is_finite (fmul fzero x) = true /\ B2R (fmul fzero x) = 0.
Proof.
  intros Fx. destruct (fmul_val fzero x eq_refl Fx) as (F & E). { cbn [B2R fzero]. rewrite Rmult_0_l, Rabs_R0. apply bpow_ge_0. }
  split; auto. rewrite E. cbn [B2R fzero]. rewrite Rmult_0_l. apply round_0; auto with typeclass_instances.
Qed.
Lemma mul_one_l (o x : float64) s : is_finite o = true -> B2R o = s -> s = 1 \/ s = -1 -> is_finite x = true -> Rabs (B2R x) <= bpow radix2 1000 ->
  is_finite (fmul o x) = true /\ B2R (fmul o x) = s * B2R x.
Proof.
  intros Fo Eo Hs Fx Bx. destruct (fmul_val o x Fo Fx) as (F & E).
  { rewrite Eo, Rabs_mult. replace (Rabs s) with 1 by (destruct Hs as [-> | ->]; [rewrite Rabs_R1|rewrite Rabs_left]; lra). rewrite Rmult_1_l. eapply Rle_trans; [exact Bx|]. apply bpow_le; lia. }
  split; auto. rewrite E, Eo. apply round_generic; auto with typeclass_instances.
  destruct Hs as [-> | ->]; [rewrite Rmult_1_l; apply format64|]. replace (-1 * B2R x) with (- B2R x) by ring. apply generic_format_opp, format64.
Qed.
Lemma add_exact (x y : float64) r : is_finite x = true -> is_finite y = true -> B2R x + B2R y = r -> F64 r -> Rabs r <= bpow radix2 1000 ->
  is_finite (fadd x y) = true /\ B2R (fadd x y) = r.
Proof.
  intros Fx Fy E Fr Br. destruct (fadd_val x y Fx Fy) as (F & V). { rewrite E. eapply Rle_trans; [exact Br|]. apply bpow_le; lia. }
  split; auto. rewrite V, E. apply round_generic; auto with typeclass_instances.
Qed.

Lemma pick x y z : is_finite x = true -> is_finite y = true -> is_finite z = true ->
  Rabs (B2R x) <= bpow radix2 1000 -> Rabs (B2R y) <= bpow radix2 1000 -> Rabs (B2R z) <= bpow radix2 1000 ->
  (is_finite (fdot3 (fzero, fzero, fneg fone) (x, y, z)) = true /\ B2R (fdot3 (fzero, fzero, fneg fone) (x, y, z)) = - B2R z) /\
  (is_finite (fdot3 (fzero, fone, fzero) (x, y, z)) = true /\ B2R (fdot3 (fzero, fone, fzero) (x, y, z)) = B2R y) /\
  (is_finite (fdot3 (fone, fzero, fzero) (x, y, z)) = true /\ B2R (fdot3 (fone, fzero, fzero) (x, y, z)) = B2R x).
Proof.
  intros Fx Fy Fz Bx By Bz. unfold fdot3, dot_seq.
  destruct (mul_zero_l x Fx) as (F0x & V0x). destruct (mul_zero_l y Fy) as (F0y & V0y). destruct (mul_zero_l z Fz) as (F0z & V0z).
  assert (Vn : B2R (fneg fone) = -1) by (unfold fneg; rewrite B2R_Bopp, fone_val; lra).
  destruct (mul_one_l (fneg fone) z (-1) eq_refl Vn ltac:(auto) Fz Bz) as (F1 & V1).
  destruct (mul_one_l fone y 1 eq_refl fone_val ltac:(auto) Fy By) as (F2 & V2).
  destruct (mul_one_l fone x 1 eq_refl fone_val ltac:(auto) Fx Bx) as (F3 & V3).
  assert (P : 0 <= bpow radix2 1000) by apply bpow_ge_0.
  repeat match goal with |- _ /\ _ => split end.
  all: repeat match goal with |- context [fadd (fadd ?a ?b) ?c] =>
    first [ destruct (add_exact a b (B2R a + B2R b)) as (Fs & Vs);
      [ assumption | assumption | reflexivity
      | rewrite ?V0x, ?V0y, ?V0z, ?V1, ?V2, ?V3, ?Rplus_0_l, ?Rplus_0_r, ?Rmult_1_l; first [apply generic_format_0 | apply format64]
      | rewrite ?V0x, ?V0y, ?V0z, ?V1, ?V2, ?V3, ?Rplus_0_l, ?Rplus_0_r, ?Rmult_1_l, ?Rabs_R0; assumption |];
      destruct (add_exact (fadd a b) c (B2R a + B2R b + B2R c)) as (Ft & Vt);
      [ assumption | assumption | rewrite Vs; reflexivity
      | rewrite ?V0x, ?V0y, ?V0z, ?V1, ?V2, ?V3, ?Rplus_0_l, ?Rplus_0_r, ?Rmult_1_l; first [apply format64 | replace (-1 * B2R z) with (- B2R z) by ring; apply generic_format_opp, format64]
      | rewrite ?V0x, ?V0y, ?V0z, ?V1, ?V2, ?V3, ?Rplus_0_l, ?Rplus_0_r, ?Rmult_1_l; first [assumption | replace (-1 * B2R z) with (- B2R z) by ring; rewrite Rabs_Ropp; assumption] |];
      first [exact Ft | rewrite Vt, ?V0x, ?V0y, ?V0z, ?V1, ?V2, ?V3; ring] ]
    end.
Qed.

(** ** accuracy of the components *)
Lemma trig_bound x s : Rabs (x - s) <= 2 * u * Rabs s + 2 * eta -> Rabs s <= 1 -> Rabs x <= 2.
Proof.
  intros H S. pose proof u_pos. pose proof u_small. pose proof eta_pos. pose proof tiny_consts. pose proof (bpow_gt_0 radix2 (-399)).
  replace x with (x - s + s) by ring. eapply Rle_trans; [apply Rabs_triang|]. nra.
Qed.
Lemma mul_trig (p q : float64) a b : is_finite p = true -> is_finite q = true -> Rabs a <= 1 -> Rabs b <= 1 ->
  Rabs (B2R p - a) <= 2 * u * Rabs a + 2 * eta -> Rabs (B2R q - b) <= 2 * u * Rabs b + 2 * eta ->
  is_finite (fmul p q) = true /\ Rabs (B2R (fmul p q)) <= 4 /\ Rabs (B2R (fmul p q) - a * b) <= 51 / 10 * u * Rabs (a * b) + 10 * eta.
Proof.
  intros Fp Fq Ha Hb Dp Dq. pose proof u_pos as Pu. pose proof u_small as Su. pose proof eta_pos as Pe. pose proof tiny_consts as TC. pose proof (bpow_gt_0 radix2 (-399)) as P3.
  pose proof (trig_bound _ _ Dp Ha) as Bp. pose proof (trig_bound _ _ Dq Hb) as Bq.
  assert (W : Rabs (B2R p * B2R q) <= bpow radix2 2).
  { rewrite Rabs_mult. change (bpow radix2 2) with (2 * 2). apply Rmult_le_compat; auto; apply Rabs_pos. }
  destruct (fmul_val p q Fp Fq) as (F & E). { eapply Rle_trans; [exact W|]. apply bpow_le; lia. }
  split; auto. split. { rewrite E. change 4 with (bpow radix2 2). apply rnd_abs_le; [lia|auto]. }
  rewrite E. destruct (rnd_err (B2R p * B2R q)) as (e & h & He & Hh & ->).
  set (x := B2R p - a) in *. set (y := B2R q - b) in *.
  replace (B2R p * B2R q * (1 + e) + h - a * b) with (x * b + a * y + x * y + (a * b + x * b + a * y + x * y) * e + h) by (unfold x, y; ring).
  rewrite Rabs_mult. pose proof (Rabs_pos a) as PA. pose proof (Rabs_pos b) as PB. pose proof (Rabs_pos x) as PX. pose proof (Rabs_pos y) as PY. pose proof (Rabs_pos e) as PE.
  set (A := Rabs a) in *. set (B := Rabs b) in *.
  assert (X1 : Rabs (x * b) <= 2 * u * (A * B) + 2 * eta).
  { rewrite Rabs_mult. fold B. assert (Rabs x * B <= (2 * u * A + 2 * eta) * B) by (apply Rmult_le_compat_r; auto). nra. }
  assert (X2 : Rabs (a * y) <= 2 * u * (A * B) + 2 * eta).
  { rewrite Rabs_mult. fold A. assert (A * Rabs y <= A * (2 * u * B + 2 * eta)) by (apply Rmult_le_compat_l; auto). nra. }
  assert (AB : 0 <= A * B <= 1) by nra.
  assert (X3 : Rabs (x * y) <= u / 100 * (A * B) + eta).
  { rewrite Rabs_mult. assert (Rabs x * Rabs y <= (2 * u * A + 2 * eta) * (2 * u * B + 2 * eta)) by (apply Rmult_le_compat; auto).
    assert (4 * u * u * (A * B) <= u / 100 * (A * B)) by (apply Rmult_le_compat_r; nra).
    assert (PUE : 0 <= u * eta) by (apply Rmult_le_pos; lra).
    assert (u * eta * A <= u * eta * 1) by (apply Rmult_le_compat_l; auto). assert (u * eta * B <= u * eta * 1) by (apply Rmult_le_compat_l; auto).
    assert (u * eta <= / 1000000000 * eta) by (apply Rmult_le_compat_r; lra). assert (eta * eta <= / 1000000000 * eta) by (apply Rmult_le_compat_r; lra). lra. }
  assert (X4 : Rabs ((a * b + x * b + a * y + x * y) * e) <= (A * B * (1 + 1 / 100) + 5 * eta) * u).
  { rewrite Rabs_mult. apply Rmult_le_compat; auto; try apply Rabs_pos.
    assert (M0 : Rabs (a * b) = A * B) by apply Rabs_mult.
    eapply Rle_trans; [apply Rabs_triang|]. eapply Rle_trans; [apply Rplus_le_compat_r, Rabs_triang|]. eapply Rle_trans; [apply Rplus_le_compat_r, Rplus_le_compat_r, Rabs_triang|].
    assert (5 * u * (A * B) <= 1 / 100 * (A * B)) by (apply Rmult_le_compat_r; lra). lra. }
  eapply Rle_trans; [apply Rabs_triang|]. eapply Rle_trans; [apply Rplus_le_compat_r, Rabs_triang|].
  eapply Rle_trans; [apply Rplus_le_compat_r, Rplus_le_compat_r, Rabs_triang|]. eapply Rle_trans; [apply Rplus_le_compat_r, Rplus_le_compat_r, Rplus_le_compat_r, Rabs_triang|].
  assert (5 * eta * u <= eta) by nra. assert (0 <= u * (A * B)) by (apply Rmult_le_pos; lra). lra.
Qed.

(** ** a vector whose components are right to 5.1u *)
Lemma near_vec q n : vnorm n = 1 ->
  Rabs (vx q - vx n) <= 51 / 10 * u * Rabs (vx n) + 10 * eta ->
  Rabs (vy q - vy n) <= 51 / 10 * u * Rabs (vy n) + 10 * eta ->
  Rabs (vz q - vz n) <= 51 / 10 * u * Rabs (vz n) + 10 * eta ->
  Rabs (vnorm q - 1) <= 52 / 10 * u /\ angle n q <= 53 / 10 * u.
Proof.
  intros N1 Dx Dy Dz. pose proof u_pos as Pu. pose proof u_small as Su. pose proof eta_pos as Pe. pose proof tiny_consts as TC. pose proof (bpow_gt_0 radix2 (-399)) as P3.
  assert (E30 : 30 * eta <= u / 10) by lra.
  set (d := vsub q n). set (e := vadd (vscale (51 / 10 * u) (V (Rabs (vx n)) (Rabs (vy n)) (Rabs (vz n)))) (V (10 * eta) (10 * eta) (10 * eta))).
  assert (ND : vnorm d <= vnorm e) by (apply norm_le_comp; unfold d, e, vsub, vadd, vscale; cbn [Spec.vx Spec.vy Spec.vz]; auto).
  assert (NE : vnorm e <= 51 / 10 * u + 30 * eta).
  { unfold e. eapply Rle_trans; [apply norm_triangle|]. rewrite vnorm_scale, (Rabs_right (51 / 10 * u)) by lra.
    assert (N2 : vnorm (V (Rabs (vx n)) (Rabs (vy n)) (Rabs (vz n))) = 1).
    { rewrite <- N1. unfold vnorm. f_equal. unfold vdot; cbn [Spec.vx Spec.vy Spec.vz]. rewrite <- !Rabs_mult, !Rabs_right by nra. reflexivity. }
    rewrite N2. pose proof (norm_sum3 (V (10 * eta) (10 * eta) (10 * eta))) as S. cbn [Spec.vx Spec.vy Spec.vz] in S. rewrite Rabs_right in S by lra. lra. }
  assert (Eq : q = vadd n d) by apply vadd_sub_id.
  pose proof (norm_perturb n d) as NP. rewrite <- Eq, N1 in NP.
  assert (L : Rabs (vnorm q - 1) <= 52 / 10 * u) by lra. split; auto. apply Rabs_le_inv in L.
  assert (Zn : n <> v0) by (apply vnorm_inv; auto). assert (Zq : q <> v0). { intros E. rewrite E, vnorm_v0 in L. lra. }
  pose proof (sin_angle n q Zn Zq) as S. pose proof (dot_angle n q Zn Zq) as C. pose proof (angle_range n q) as B. rewrite N1, Rmult_1_l in S, C.
  assert (X : vcross n q = vcross n d) by (unfold d; clear; vring).
  assert (SX : vnorm (vcross n d) <= vnorm d).
  { pose proof (vcross_norm_sq n d) as W. rewrite N1 in W. pose proof (vnorm_pos d). pose proof (vnorm_pos (vcross n d)).
    assert (0 <= vdot n d * vdot n d) by nra. nra. }
  assert (CX : vdot n q = 1 + vdot n d).
  { assert (I : vdot n n = 1) by (rewrite <- vnorm_sq, N1; ring). rewrite <- I. unfold d. clear; vring. }
  pose proof (cauchy_schwarz n d) as CS. rewrite N1, Rmult_1_l in CS. apply Rabs_le_inv in CS.
  assert (Cpos : 1 - 6 * u <= vnorm q * cos (angle n q)) by lra.
  assert (P0 : 0 < cos (angle n q)) by nra.
  pose proof (abs_angle (angle n q) ltac:(lra) P0) as AA. rewrite (Rabs_right (angle n q)) in AA by lra.
  rewrite (Rabs_right (sin (angle n q))) in AA by (apply Rle_ge, sin_ge_0; lra).
  assert (K : angle n q * (1 - 6 * u) <= 52 / 10 * u).
  { apply Rle_trans with (angle n q * (vnorm q * cos (angle n q))); [apply Rmult_le_compat_l; lra|].
    replace (angle n q * (vnorm q * cos (angle n q))) with (vnorm q * (angle n q * cos (angle n q))) by ring.
    eapply Rle_trans; [apply Rmult_le_compat_l; [lra|exact AA]|]. rewrite <- S, X. lra. }
  pose proof PI_33. nra.
Qed.

Lemma latlon_unit lat lon : vnorm (latlon_vec lat lon) = 1.
Proof.
  apply vnorm_eq; [lra|]. unfold vdot, latlon_vec; cbn [Spec.vx Spec.vy Spec.vz].
  pose proof (sin2_cos2 lat) as A. pose proof (sin2_cos2 lon) as B. unfold Rsqr in A, B.
  transitivity ((sin lon * sin lon + cos lon * cos lon) * (cos lat * cos lat) + sin lat * sin lat); [ring|rewrite B; lra].
Qed.

(** the n-vector is a unit vector within 5.2u and points in the right direction within 5.3u *)
Theorem C81_n_vector : forall fsin fcos lat lon, good_trig fsin sin -> good_trig fcos cos ->
  is_finite lat = true -> is_finite lon = true -> Rabs (B2R lat) <= 4 -> Rabs (B2R lon) <= 4 ->
  near_unit (flat_lon2n_E fsin fcos lat lon) /\ angle (latlon_vec (B2R lat) (B2R lon)) (vec_of (flat_lon2n_E fsin fcos lat lon)) <= 53 / 10 * u.
Proof.
  intros fsin fcos lat lon GS GC Fa Fo Ba Bo. pose proof u_pos as Pu. pose proof eta_pos as Pe.
  destruct (GS lat Fa Ba) as (F1 & D1). destruct (GS lon Fo Bo) as (F2 & D2). destruct (GC lat Fa Ba) as (F3 & D3). destruct (GC lon Fo Bo) as (F4 & D4).
  assert (S1 : forall t, Rabs (sin t) <= 1) by (intros; apply Rabs_le, SIN_bound). assert (C1 : forall t, Rabs (cos t) <= 1) by (intros; apply Rabs_le, COS_bound).
  destruct (mul_trig (fsin lon) (fcos lat) (sin (B2R lon)) (cos (B2R lat))) as (Fy & By & Dy); auto.
  destruct (mul_trig (fneg (fcos lon)) (fcos lat) (- cos (B2R lon)) (cos (B2R lat))) as (Fz & Bz & Dz); auto.
  { unfold fneg. rewrite is_finite_Bopp. auto. } { rewrite Rabs_Ropp. auto. }
  { unfold fneg. rewrite B2R_Bopp. replace (- B2R (fcos lon) - - cos (B2R lon)) with (- (B2R (fcos lon) - cos (B2R lon))) by ring. rewrite !Rabs_Ropp. auto. }
  pose proof (trig_bound _ _ D1 (S1 _)) as Bx.
  assert (Big : 4 <= bpow radix2 1000). { apply Rle_trans with (bpow radix2 2); [cbn; lra|apply bpow_le; lia]. }
  destruct (pick (fsin lat) (fmul (fsin lon) (fcos lat)) (fmul (fneg (fcos lon)) (fcos lat))) as ((G1 & V1) & (G2 & V2) & (G3 & V3)); auto; try lra.
  unfold flat_lon2n_E. set (c1 := fdot3 (fzero, fzero, fneg fone) _) in *. set (c2 := fdot3 (fzero, fone, fzero) _) in *. set (c3 := fdot3 (fone, fzero, fzero) _) in *.
  assert (NV : Rabs (vnorm (vec_of (c1, c2, c3)) - 1) <= 52 / 10 * u /\ angle (latlon_vec (B2R lat) (B2R lon)) (vec_of (c1, c2, c3)) <= 53 / 10 * u).
  { apply near_vec; [apply latlon_unit| | |]; unfold vec_of, latlon_vec; cbn [Spec.vx Spec.vy Spec.vz].
    - rewrite V1. replace (- cos (B2R lon) * cos (B2R lat)) with (- (cos (B2R lon) * cos (B2R lat))) in Dz by ring. rewrite Rabs_Ropp in Dz.
      rewrite <- Rabs_Ropp. match goal with |- Rabs ?a <= _ => match type of Dz with Rabs ?b <= _ => replace a with b by ring end end. exact Dz.
    - rewrite V2. exact Dy.
    - rewrite V3. eapply Rle_trans; [exact D1|]. pose proof (Rabs_pos (sin (B2R lat))). nra. }
  destruct NV as (NL & NA). split; auto.
  unfold near_unit. repeat (split; auto). rewrite length3_vnorm. lra.
Qed.

(** ** the distance of two positions given by latitude and longitude in radians *)
Theorem C81_distance_from_radians : forall fsin fcos dot arctan2 lat1 lon1 lat2 lon2 radius,
  good_trig fsin sin -> good_trig fcos cos -> good_arctan2 arctan2 -> good_dot dot ->
  is_finite lat1 = true -> is_finite lon1 = true -> Rabs (B2R lat1) <= 4 -> Rabs (B2R lon1) <= 4 ->
  is_finite lat2 = true -> is_finite lon2 = true -> Rabs (B2R lat2) <= 4 -> Rabs (B2R lon2) <= 4 ->
  is_finite radius = true -> Rabs (B2R radius) <= bpow radix2 1000 ->
  Rabs (B2R (fgreat_circle_distance dot arctan2 (flat_lon2n_E fsin fcos lat1 lon1) (flat_lon2n_E fsin fcos lat2 lon2) radius)
        - angle (latlon_vec (B2R lat1) (B2R lon1)) (latlon_vec (B2R lat2) (B2R lon2)) * B2R radius)
  <= 33 * u * Rabs (B2R radius) + eta.
Proof.
  intros fsin fcos dot arctan2 lat1 lon1 lat2 lon2 radius GS GC GA GD Fa1 Fo1 Ba1 Bo1 Fa2 Fo2 Ba2 Bo2 FR BR.
  pose proof u_pos as Pu. pose proof u_small as Su.
  destruct (C81_n_vector fsin fcos lat1 lon1 GS GC Fa1 Fo1 Ba1 Bo1) as (N1 & A1). destruct (C81_n_vector fsin fcos lat2 lon2 GS GC Fa2 Fo2 Ba2 Bo2) as (N2 & A2).
  destruct (C78_great_circle_accuracy dot arctan2 _ _ radius GA GD N1 N2 FR BR) as (_ & D).
  assert (NZ : forall w, near_unit w -> vec_of w <> v0).
  { intros [[x y] z] (_ & _ & _ & L) E. rewrite length3_vnorm, E, vnorm_v0 in L. apply Rabs_le_inv in L. lra. }
  pose proof (NZ _ N1) as Y1. pose proof (NZ _ N2) as Y2.
  pose proof (vnorm_inv _ (latlon_unit (B2R lat1) (B2R lon1))) as Z1. pose proof (vnorm_inv _ (latlon_unit (B2R lat2) (B2R lon2))) as Z2.
  set (P := latlon_vec (B2R lat1) (B2R lon1)) in *. set (Q := latlon_vec (B2R lat2) (B2R lon2)) in *.
  set (P' := vec_of (flat_lon2n_E fsin fcos lat1 lon1)) in *. set (Q' := vec_of (flat_lon2n_E fsin fcos lat2 lon2)) in *.
  assert (T : Rabs (angle P' Q' - angle P Q) <= 106 / 10 * u).
  { pose proof (angle_triangle P' P Q' Y1 Z1 Y2). pose proof (angle_triangle P Q Q' Z1 Z2 Y2).
    pose proof (angle_triangle P P' Q Z1 Y1 Z2). pose proof (angle_triangle P' Q' Q Y1 Y2 Z2).
    rewrite (angle_sym P' P), (angle_sym Q' Q) in *. apply Rabs_le. lra. }
  set (g := B2R (fgreat_circle_distance _ _ _ _ _)) in *. pose proof (Rabs_pos (B2R radius)) as PR.
  replace (g - angle P Q * B2R radius) with (g - angle P' Q' * B2R radius + (angle P' Q' - angle P Q) * B2R radius) by ring.
  eapply Rle_trans; [apply Rabs_triang|]. rewrite (Rabs_mult (angle P' Q' - angle P Q)).
  assert (Rabs (angle P' Q' - angle P Q) * Rabs (B2R radius) <= 106 / 10 * u * Rabs (B2R radius)) by (apply Rmult_le_compat_r; auto).
  assert (0 <= u * Rabs (B2R radius)) by (apply Rmult_le_pos; lra). lra.
Qed.

(** ** how far a position moves with its coordinates *)
Lemma acos_le_abs x c : Rabs x <= PI -> cos x <= c <= 1 -> acos c <= Rabs x.
Proof.
  intros Hx (L & U). assert (E : Rabs x = acos (cos x)).
  { unfold Rabs in *. destruct (Rcase_abs x). - rewrite <- (cos_neg x). rewrite acos_cos by lra. reflexivity. - rewrite acos_cos by lra. reflexivity. }
  rewrite E. pose proof (COS_bound x). apply Rnot_lt_le. intros N. 
  assert (cos (acos c) < cos (acos (cos x))). { apply cos_decreasing_1; auto; apply acos_bound. }
  rewrite !cos_acos in H0 by lra. lra.
Qed.
Lemma latlon_moves lat lon lat' lon' : Rabs (lat' - lat) <= PI -> Rabs (lon' - lon) <= PI ->
  angle (latlon_vec lat lon) (latlon_vec lat' lon') <= Rabs (lat' - lat) + Rabs (lon' - lon).
Proof.
  intros H1 H2. pose proof (fun a b => vnorm_inv _ (latlon_unit a b)) as NZ.
  eapply Rle_trans; [apply (angle_triangle _ (latlon_vec lat' lon)); apply NZ|]. apply Rplus_le_compat.
  - rewrite angle_unit by apply latlon_unit. apply acos_le_abs; auto. rewrite cos_minus. unfold vdot, latlon_vec; cbn [Spec.vx Spec.vy Spec.vz].
    pose proof (sin2_cos2 lon) as B. unfold Rsqr in B.
    replace (cos lon * cos lat * (cos lon * cos lat') + sin lon * cos lat * (sin lon * cos lat') + sin lat * sin lat')
      with ((sin lon * sin lon + cos lon * cos lon) * (cos lat' * cos lat) + sin lat' * sin lat) by ring.
    rewrite B, Rmult_1_l, <- cos_minus. split; [lra|apply COS_bound].
  - rewrite angle_unit by apply latlon_unit. apply acos_le_abs; auto. unfold vdot, latlon_vec; cbn [Spec.vx Spec.vy Spec.vz].
    pose proof (sin2_cos2 lat') as B. unfold Rsqr in B. pose proof (COS_bound (lon' - lon)) as CB.
    replace (cos lon * cos lat' * (cos lon' * cos lat') + sin lon * cos lat' * (sin lon' * cos lat') + sin lat' * sin lat')
      with (cos (lon' - lon) * (cos lat' * cos lat') + sin lat' * sin lat') by (rewrite cos_minus; ring).
    assert (0 <= cos lat' * cos lat') by nra. assert (0 <= sin lat' * sin lat') by nra. nra.
Qed.

(** ** end to end: latitudes and longitudes in degrees, a distance in metres *)
Definition fdistance_deg fsin fcos dot arctan2 (lat1 lon1 lat2 lon2 radius : float64) : float64 :=
  fgreat_circle_distance dot arctan2 (flat_lon2n_E fsin fcos (frad lat1) (frad lon1)) (flat_lon2n_E fsin fcos (frad lat2) (frad lon2)) radius.
(** the true central angle, from degrees *)
Definition central_angle_deg (lat1 lon1 lat2 lon2 : R) : R :=
  angle (latlon_vec (lat1 * (PI / 180)) (lon1 * (PI / 180))) (latlon_vec (lat2 * (PI / 180)) (lon2 * (PI / 180))).

Lemma rad_moves x b : is_finite x = true -> Rabs (B2R x) <= b -> b <= 180 ->
  is_finite (frad x) = true /\ Rabs (B2R (frad x)) <= 4 /\ Rabs (B2R (frad x) - B2R x * (PI / 180)) <= 22 / 10 * u * (b * (PI / 180)) + eta.
Proof.
  intros Fx Bx Hb. pose proof u_pos as Pu. pose proof PI_33 as PU. pose proof PI_RGT_0 as P0. pose proof (Rabs_pos (B2R x)).
  assert (M : moderate x). { split; auto. apply Rle_trans with (bpow radix2 8); [cbn; lra|apply bpow_le; lia]. }
  destruct (C79_accuracy x M) as (F & _ & D & _). destruct (C79_range x Fx) as (_ & R & _). pose proof (R ltac:(lra)) as R'. rewrite pi64_val in R'.
  split; auto. split; [lra|]. eapply Rle_trans; [exact D|]. rewrite Rabs_mult, (Rabs_right (PI / 180)) by lra.
  assert (Rabs (B2R x) * (PI / 180) <= b * (PI / 180)) by (apply Rmult_le_compat_r; lra).
  assert (0 <= Rabs (B2R x) * (PI / 180)) by (apply Rmult_le_pos; lra). nra.
Qed.

Theorem C81_distance_from_degrees : forall fsin fcos dot arctan2 lat1 lon1 lat2 lon2 radius,
  good_trig fsin sin -> good_trig fcos cos -> good_arctan2 arctan2 -> good_dot dot ->
  is_finite lat1 = true -> is_finite lon1 = true -> Rabs (B2R lat1) <= 90 -> Rabs (B2R lon1) <= 180 ->
  is_finite lat2 = true -> is_finite lon2 = true -> Rabs (B2R lat2) <= 90 -> Rabs (B2R lon2) <= 180 ->
  is_finite radius = true -> Rabs (B2R radius) <= bpow radix2 1000 ->
  Rabs (B2R (fdistance_deg fsin fcos dot arctan2 lat1 lon1 lat2 lon2 radius)
        - central_angle_deg (B2R lat1) (B2R lon1) (B2R lat2) (B2R lon2) * B2R radius) <= 56 * u * Rabs (B2R radius) + eta.
Proof.
  intros fsin fcos dot arctan2 lat1 lon1 lat2 lon2 radius GS GC GA GD Fa1 Fo1 Ba1 Bo1 Fa2 Fo2 Ba2 Bo2 FR BR.
  pose proof u_pos as Pu. pose proof u_small as Su. pose proof PI_33 as PU. pose proof PI_RGT_0 as P0. pose proof pi_bounds as PB. rewrite pi64_val in PB.
  pose proof eta_pos as Pe. pose proof tiny_consts as TC. pose proof (bpow_gt_0 radix2 (-399)) as P3.
  destruct (rad_moves lat1 90 Fa1 Ba1 ltac:(lra)) as (G1 & R1 & D1). destruct (rad_moves lon1 180 Fo1 Bo1 ltac:(lra)) as (G2 & R2 & D2).
  destruct (rad_moves lat2 90 Fa2 Ba2 ltac:(lra)) as (G3 & R3 & D3). destruct (rad_moves lon2 180 Fo2 Bo2 ltac:(lra)) as (G4 & R4 & D4).
  pose proof (C81_distance_from_radians fsin fcos dot arctan2 _ _ _ _ radius GS GC GA GD G1 G2 R1 R2 G3 G4 R3 R4 FR BR) as D.
  unfold fdistance_deg. set (g := B2R (fgreat_circle_distance _ _ _ _ _)) in *.
  set (a1 := B2R lat1 * (PI / 180)) in *. set (o1 := B2R lon1 * (PI / 180)) in *. set (a2 := B2R lat2 * (PI / 180)) in *. set (o2 := B2R lon2 * (PI / 180)) in *.
  assert (M1 : angle (latlon_vec a1 o1) (latlon_vec (B2R (frad lat1)) (B2R (frad lon1))) <= 110 / 10 * u).
  { eapply Rle_trans; [apply latlon_moves; nra|]. nra. }
  assert (M2 : angle (latlon_vec a2 o2) (latlon_vec (B2R (frad lat2)) (B2R (frad lon2))) <= 110 / 10 * u).
  { eapply Rle_trans; [apply latlon_moves; nra|]. nra. }
  unfold central_angle_deg. fold a1 o1 a2 o2.
  pose proof (fun a b => vnorm_inv _ (latlon_unit a b)) as NZ.
  set (P := latlon_vec a1 o1) in *. set (Q := latlon_vec a2 o2) in *. set (P' := latlon_vec (B2R (frad lat1)) (B2R (frad lon1))) in *. set (Q' := latlon_vec (B2R (frad lat2)) (B2R (frad lon2))) in *.
  assert (T : Rabs (angle P' Q' - angle P Q) <= 220 / 10 * u).
  { assert (Y1 : P' <> v0) by apply NZ. assert (Z1 : P <> v0) by apply NZ. assert (Y2 : Q' <> v0) by apply NZ. assert (Z2 : Q <> v0) by apply NZ.
    pose proof (angle_triangle P' P Q' Y1 Z1 Y2). pose proof (angle_triangle P Q Q' Z1 Z2 Y2).
    pose proof (angle_triangle P P' Q Z1 Y1 Z2). pose proof (angle_triangle P' Q' Q Y1 Y2 Z2).
    rewrite (angle_sym P' P), (angle_sym Q' Q) in *. apply Rabs_le. lra. }
  pose proof (Rabs_pos (B2R radius)) as PR.
  replace (g - angle P Q * B2R radius) with (g - angle P' Q' * B2R radius + (angle P' Q' - angle P Q) * B2R radius) by ring.
  eapply Rle_trans; [apply Rabs_triang|]. rewrite (Rabs_mult (angle P' Q' - angle P Q)).
  assert (Rabs (angle P' Q' - angle P Q) * Rabs (B2R radius) <= 220 / 10 * u * Rabs (B2R radius)) by (apply Rmult_le_compat_r; auto).
  assert (0 <= u * Rabs (B2R radius)) by (apply Rmult_le_pos; lra). lra.
Qed.

(** on the Earth: 40 nanometres, for every two positions *)
Theorem C81_earth : forall fsin fcos dot arctan2 lat1 lon1 lat2 lon2,
  good_trig fsin sin -> good_trig fcos cos -> good_arctan2 arctan2 -> good_dot dot ->
  is_finite lat1 = true -> is_finite lon1 = true -> Rabs (B2R lat1) <= 90 -> Rabs (B2R lon1) <= 180 ->
  is_finite lat2 = true -> is_finite lon2 = true -> Rabs (B2R lat2) <= 90 -> Rabs (B2R lon2) <= 180 ->
  Rabs (B2R (fdistance_deg fsin fcos dot arctan2 lat1 lon1 lat2 lon2 earth_radius)
        - central_angle_deg (B2R lat1) (B2R lon1) (B2R lat2) (B2R lon2) * 6371009) <= 40 / 1000000000.
Proof.
  intros fsin fcos dot arctan2 lat1 lon1 lat2 lon2 GS GC GA GD Fa1 Fo1 Ba1 Bo1 Fa2 Fo2 Ba2 Bo2.
  assert (BR : Rabs (B2R earth_radius) <= bpow radix2 1000).
  { rewrite earth_radius_val, Rabs_right by lra. apply Rle_trans with (bpow radix2 23); [cbn; lra|apply bpow_le; lia]. }
  pose proof (C81_distance_from_degrees fsin fcos dot arctan2 lat1 lon1 lat2 lon2 earth_radius GS GC GA GD Fa1 Fo1 Ba1 Bo1 Fa2 Fo2 Ba2 Bo2 eq_refl BR) as D.
  rewrite earth_radius_val, (Rabs_right 6371009) in D by lra. eapply Rle_trans; [exact D|].
  pose proof tiny_consts. pose proof (bpow_gt_0 radix2 (-399)). rewrite u_val in *. lra.
Qed.

(** correctly rounded sine and cosine meet the requirement *)
Lemma ideal_trig_good sine : (forall t, Rabs (sine t) <= 1) -> good_trig (fun x => round64 (sine (B2R x))) sine.
Proof.
  intros B x Fx _. destruct (round64_val (sine (B2R x))) as (F & E).
  { apply Rle_trans with (bpow radix2 0); [apply B|apply bpow_le; lia]. }
  split; auto. rewrite E. set (t := sine (B2R x)). destruct (rnd_err t) as (e & h & He & Hh & ->).
  replace (t * (1 + e) + h - t) with (t * e + h) by ring. eapply Rle_trans; [apply Rabs_triang|]. rewrite Rabs_mult.
  pose proof u_pos. pose proof eta_pos. pose proof (Rabs_pos t). assert (Rabs t * Rabs e <= Rabs t * u) by (apply Rmult_le_compat_l; auto). nra.
Qed.
Example C81_example : good_trig (fun x => round64 (sin (B2R x))) sin /\ good_trig (fun x => round64 (cos (B2R x))) cos /\ good_arctan2 ideal_arctan2 /\ good_dot dot_seq /\
  Rabs (B2R f90) <= 90 /\ Rabs (B2R (fneg f180)) <= 180.
Proof.
  split; [apply ideal_trig_good; intros; apply Rabs_le, SIN_bound|]. split; [apply ideal_trig_good; intros; apply Rabs_le, COS_bound|].
  split; [apply ideal_arctan2_good|]. split; [apply good_dot_seq|].
  assert (V90 : B2R f90 = 90) by (unfold f90, f, B2R, F2R; cbn; lra). unfold fneg. rewrite B2R_Bopp, V90, f180_val. rewrite Rabs_Ropp, !Rabs_right by lra. lra.
Qed.
