(** * C86: on_great_circle in binary64 (core.py 601-602): are the two points of a path on its great circle? *)
From Coq Require Import ZArith Reals Lia Lra Bool Psatz.
From Flocq Require Import Core BinarySingleNaN.
From Verif Require Import Spec LVec LAngle FTiny FZero FBase FUnit FDist FGreat FLatLon FClose FTrack.
Local Open Scope R_scope.

(** core.py 601-602: distance = np.abs(cross_track_distance(...)); return distance <= atol *)
Definition fon_great_circle (dot : vec64 -> vec64 -> float64) (arcsin : float64 -> float64) (a b q : vec64) (radius atol : float64) : bool :=
  fle (fabs (fcross_track_distance dot arcsin a b q radius)) atol.

Lemma dot_normal_l a b : vdot (direction (vcross a b)) a = 0.
Proof. unfold direction. generalize (/ vnorm (vcross a b)). intros. vring. Qed.
Lemma dot_normal_r a b : vdot (direction (vcross a b)) b = 0.
Proof. unfold direction. generalize (/ vnorm (vcross a b)). intros. vring. Qed.

(** the computed cross track distance of a point of the path *)
Lemma own_point dot arcsin a b q radius : good_dot dot -> good_arcsin arcsin -> near_unit a -> near_unit b -> near_unit q ->
  is_finite radius = true -> Rabs (B2R radius) <= bpow radix2 1000 ->
  vdot (direction (vcross (vec_of a) (vec_of b))) (vec_of q) = 0 ->
  let s := vnorm (vcross (vec_of a) (vec_of b)) in 20 * u <= s ->
  is_finite (fcross_track_distance dot arcsin a b q radius) = true /\
  Rabs (B2R (fcross_track_distance dot arcsin a b q radius)) <= 12 * u * (1 + / s) * Rabs (B2R radius) + eta.
Proof.
  intros GD GA Na Nb Nq Fr Hr Z s Hs. pose proof u_pos as Pu. pose proof u_small as Su. pose proof eta_pos as Pe.
  pose proof tiny_consts as TC. pose proof (bpow_gt_0 radix2 (-399)) as P399.
  destruct (C85_sine_accuracy dot a b q GD Na Nb Nq ltac:(fold s; lra)) as (F & D). fold s in D. rewrite Z, Ropp_0, Rminus_0_r in D.
  set (x := fsin_theta dot a b q) in *. assert (Ps : 0 < / s) by (apply Rinv_0_lt_compat; lra).
  assert (Us : u * / s <= / 20). { apply Rmult_le_reg_r with s; [lra|]. rewrite Rmult_assoc, Rinv_l by lra. lra. }
  assert (P0 : 0 < u * / s) by (apply Rmult_lt_0_compat; lra).
  set (e := 10 * u + 9 * (u * / s)). assert (D' : Rabs (B2R x) <= e) by (unfold e, Rdiv in *; lra).
  assert (He : 0 < e <= 46 / 100) by (unfold e; lra).
  destruct (GA x F) as (Fa & Da). { apply Rabs_le_inv in D'. lra. }
  pose proof (asin_spread (B2R x) 0 (46 / 100) ltac:(lra) ltac:(lra) ltac:(rewrite Rabs_R0; lra)) as AS. rewrite asin_0, !Rminus_0_r in AS.
  assert (Sq : 88 / 100 <= sqrt (1 - 46 / 100 * (46 / 100))).
  { rewrite <- (sqrt_square (88 / 100)) by lra. apply sqrt_le_1_alt. lra. }
  assert (A1 : Rabs (asin (B2R x)) <= 114 / 100 * e).
  { eapply Rle_trans; [exact AS|]. apply Rmult_le_reg_r with (sqrt (1 - 46 / 100 * (46 / 100))); [lra|].
    unfold Rdiv at 1. rewrite Rmult_assoc, Rinv_l by lra. nra. }
  assert (A2 : Rabs (B2R (arcsin x)) <= 115 / 100 * e).
  { pose proof (Rabs_triang (B2R (arcsin x) - asin (B2R x)) (asin (B2R x))) as T. replace (B2R (arcsin x) - asin (B2R x) + asin (B2R x)) with (B2R (arcsin x)) in T by ring.
    assert (10 * u <= e) by (unfold e; lra). assert (2 * u * Rabs (asin (B2R x)) <= 1 / 1000 * Rabs (asin (B2R x))) by (apply Rmult_le_compat_r; [apply Rabs_pos|lra]). lra. }
  unfold fcross_track_distance. fold x. destruct (mul_radius (arcsin x) radius Fa Fr ltac:(lra) Hr) as (Fm & Em). split; [exact Fm|].
  set (R := Rabs (B2R radius)) in *. assert (PR : 0 <= R) by apply Rabs_pos.
  pose proof (Rabs_triang (B2R (fmul (arcsin x) radius) - B2R (arcsin x) * B2R radius) (B2R (arcsin x) * B2R radius)) as T.
  replace (B2R (fmul (arcsin x) radius) - B2R (arcsin x) * B2R radius + B2R (arcsin x) * B2R radius) with (B2R (fmul (arcsin x) radius)) in T by ring.
  rewrite (Rabs_mult (B2R (arcsin x))) in T. fold R in T.
  assert (B1 : Rabs (B2R (arcsin x)) * R <= 115 / 100 * e * R) by (apply Rmult_le_compat_r; auto).
  assert (B2 : u * Rabs (B2R (arcsin x)) * R <= 1 / 1000 * (e * R)).
  { replace (1 / 1000 * (e * R)) with (1 / 1000 * e * R) by ring. apply Rmult_le_compat_r; auto. pose proof (Rabs_pos (B2R (arcsin x))). nra. }
  assert (B3 : 116 / 100 * e * R <= 12 * u * (1 + / s) * R) by (apply Rmult_le_compat_r; [auto|unfold e; lra]).
  assert (0 <= e * R) by (apply Rmult_le_pos; lra). lra.
Qed.

(** With a tolerance of at least 12 u (1 + 1/sin) times the radius (sin: the sine of the path's central angle), the end points of a path are on its great circle *)
Theorem C86_own_points_on_circle : forall dot arcsin a b radius atol, good_dot dot -> good_arcsin arcsin -> near_unit a -> near_unit b ->
  is_finite radius = true -> Rabs (B2R radius) <= bpow radix2 1000 -> is_finite atol = true ->
  let s := vnorm (vcross (vec_of a) (vec_of b)) in 20 * u <= s ->
  12 * u * (1 + / s) * Rabs (B2R radius) + eta <= B2R atol ->
  fon_great_circle dot arcsin a b a radius atol = true /\ fon_great_circle dot arcsin a b b radius atol = true.
Proof.
  intros dot arcsin a b radius atol GD GA Na Nb Fr Hr Ft s Hs Ha.
  destruct (own_point dot arcsin a b a radius GD GA Na Nb Na Fr Hr (dot_normal_l _ _) Hs) as (F1 & E1).
  destruct (own_point dot arcsin a b b radius GD GA Na Nb Nb Fr Hr (dot_normal_r _ _) Hs) as (F2 & E2). fold s in E1, E2.
  unfold fon_great_circle. split; apply fle_val; rewrite ?fabs_fin, ?fabs_val; auto; lra.
Qed.
Print Assumptions C86_own_points_on_circle.

(** the default tolerance: 1e-8 metres *)
Definition default_atol : float64 := f 6044629098073146 (-79) eq_refl.
Lemma default_atol_val : Rabs (B2R default_atol - / 100000000) <= / 1000000000000000000000000.
Proof. unfold default_atol, f, B2R, F2R; cbn. apply Rabs_le. lra. Qed.

(** ** with the default tolerance the starting point of a path need not be on its great circle *)
Definition f9000 : float64 := f 4947802324992000 (-39) eq_refl.
Definition f6000 : float64 := f 6597069766656000 (-40) eq_refl.
Definition f9001 : float64 := f 4948352080805888 (-39) eq_refl.
Lemma f9000_val : B2R f9000 = 9000. Proof. unfold f9000, f, B2R, F2R; cbn. lra. Qed.
Lemma f6000_val : B2R f6000 = 6000. Proof. unfold f6000, f, B2R, F2R; cbn. lra. Qed.
Lemma f9001_val : B2R f9001 = 9001. Proof. unfold f9001, f, B2R, F2R; cbn. lra. Qed.
Definition short_a : vec64 := unit64 (f9000, f6000, f9000).
Definition short_b : vec64 := unit64 (f9000, f6000, f9001).
Definition fthr : float64 := f 4503599627370496 (-94) eq_refl.
Definition flen : float64 := f 4503599627370496 (-67) eq_refl.
Lemma fthr_val : B2R fthr = / 4398046511104. Proof. unfold fthr, f, B2R, F2R; cbn. lra. Qed.
Lemma flen_val : B2R flen = / 32768. Proof. unfold flen, f, B2R, F2R; cbn. lra. Qed.
Lemma big_ok r : 1 <= r <= 10000 -> bpow radix2 (-400) <= Rabs r /\ Rabs r <= bpow radix2 400.
Proof.
  intros H. rewrite Rabs_right by lra. split.
  - apply Rle_trans with (bpow radix2 0); [apply bpow_le; lia|cbn; lra].
  - apply Rle_trans with (bpow radix2 20); [cbn; lra|apply bpow_le; lia].
Qed.
Lemma short_units : near_unit short_a /\ near_unit short_b.
Proof.
  split; apply unit64_near; unfold ordinary_vec, ordinary; rewrite ?f9000_val, ?f6000_val, ?f9001_val;
    pose proof (big_ok 9000 ltac:(lra)); pose proof (big_ok 6000 ltac:(lra)); pose proof (big_ok 9001 ltac:(lra)); intuition reflexivity.
Qed.

Lemma far_from_circle dot arcsin a b q : good_arcsin arcsin -> is_finite (fsin_theta dot a b q) = true ->
  fgt (fabs (fsin_theta dot a b q)) fthr = true -> fgt fhalf (fabs (fsin_theta dot a b q)) = true ->
  / 1000000 < Rabs (B2R (fcross_track_distance dot arcsin a b q earth_radius)) /\
  fon_great_circle dot arcsin a b q earth_radius default_atol = false.
Proof.
  intros GA F G H. unfold fon_great_circle, fcross_track_distance. set (x := fsin_theta dot a b q) in *.
  apply fgt_spec in G; [|rewrite fabs_fin; auto|reflexivity]. apply fgt_spec in H; [|reflexivity|rewrite fabs_fin; auto].
  rewrite fabs_val in G, H. rewrite fthr_val in G. rewrite fhalf_val in H.
  pose proof u_pos as Pu. pose proof u_small as Su. pose proof eta_pos as Pe. pose proof tiny_consts as TC. pose proof (bpow_gt_0 radix2 (-399)) as P399.
  destruct (GA x F) as (Fa & Da). { apply Rlt_le, Rabs_le_inv in H. lra. }
  assert (A : Rabs (B2R x) <= Rabs (asin (B2R x)) /\ Rabs (asin (B2R x)) <= 17 / 10).
  { pose proof (asin_bound (B2R x)) as B. pose proof PI_33. split; [|apply Rabs_le; lra].
    rewrite <- (sin_asin (B2R x)) at 1 by (apply Rlt_le, Rabs_le_inv in H; lra). generalize (asin (B2R x)) B. intros t Bt.
    destruct (Rle_dec 0 t) as [P|P].
    - rewrite (Rabs_right t) by lra. rewrite Rabs_right by (apply Rle_ge, sin_ge_0; lra). destruct (Req_dec t 0) as [->|]; [rewrite sin_0; lra|]. left. apply sin_lt_x. lra.
    - rewrite <- (Rabs_Ropp t), <- (Rabs_Ropp (sin t)), <- sin_neg. rewrite (Rabs_right (- t)) by lra. rewrite Rabs_right by (apply Rle_ge, sin_ge_0; lra). left. apply sin_lt_x. lra. }
  destruct A as (A1 & A2).
  assert (U : u <= / 9000000000000000). { unfold u. apply Rle_trans with (/ 9007199254740992); [cbn; lra|lra]. }
  assert (Da' : Rabs (B2R (arcsin x) - asin (B2R x)) <= 35 / 10 * u). { eapply Rle_trans; [exact Da|]. nra. }
  assert (L : / 5000000000000 <= Rabs (B2R (arcsin x)) <= 2).
  { split.
    - pose proof (Rabs_triang (asin (B2R x) - B2R (arcsin x)) (B2R (arcsin x))) as T. replace (asin (B2R x) - B2R (arcsin x) + B2R (arcsin x)) with (asin (B2R x)) in T by ring.
      rewrite Rabs_minus_sym in T. lra.
    - pose proof (Rabs_triang (B2R (arcsin x) - asin (B2R x)) (asin (B2R x))) as T. replace (B2R (arcsin x) - asin (B2R x) + asin (B2R x)) with (B2R (arcsin x)) in T by ring. lra. }
  destruct (mul_radius (arcsin x) earth_radius Fa eq_refl (proj2 L)) as (Fm & Em).
  { rewrite earth_radius_val, Rabs_right by lra. apply Rle_trans with (bpow radix2 30); [cbn; lra|apply bpow_le; lia]. }
  rewrite earth_radius_val, (Rabs_right 6371009) in Em by lra.
  pose proof (Rabs_triang (B2R (arcsin x) * 6371009 - B2R (fmul (arcsin x) earth_radius)) (B2R (fmul (arcsin x) earth_radius))) as T.
  replace (B2R (arcsin x) * 6371009 - B2R (fmul (arcsin x) earth_radius) + B2R (fmul (arcsin x) earth_radius)) with (B2R (arcsin x) * 6371009) in T by ring.
  rewrite Rabs_minus_sym, Rabs_mult, (Rabs_right 6371009) in T by lra.
  assert (u * Rabs (B2R (arcsin x)) <= u * 2) by (apply Rmult_le_compat_l; lra).
  assert (Big : / 1000000 < Rabs (B2R (fmul (arcsin x) earth_radius))) by lra.
  split; [exact Big|]. destruct (fle _ default_atol) eqn:E; [|reflexivity]. exfalso.
  apply fle_val in E; [|rewrite fabs_fin; exact Fm|reflexivity]. rewrite fabs_val in E. pose proof default_atol_val as V. apply Rabs_le_inv in V. lra.
Qed.

(** on_great_circle with the default tolerance of 1e-8 m says that neither end of this path (more than 190 m long) is on its great circle,
    whichever way the dot product is computed and for any accurate arcsin: the computed distances exceed one micrometre *)
Theorem C86_default_tolerance_refuted : exists a b, near_unit a /\ near_unit b /\
  190 / 6371009 <= vnorm (vcross (vec_of a) (vec_of b)) /\
  forall arcsin dot q, good_arcsin arcsin -> dot = dot_seq \/ dot = dot_fma -> q = a \/ q = b ->
    / 1000000 < Rabs (B2R (fcross_track_distance dot arcsin a b q earth_radius)) /\
    fon_great_circle dot arcsin a b q earth_radius default_atol = false.
Proof.
  exists short_a, short_b. destruct short_units as (Na & Nb). split; [exact Na|]. split; [exact Nb|]. split.
  - destruct (cross_err _ _ Na Nb) as (F & _ & _ & E). apply Rabs_le_inv in E. pose proof u_small.
    assert (G : B2R flen < B2R (fnorm (fcross short_a short_b))) by (apply fgt_spec; [exact F|reflexivity|vm_compute; reflexivity]).
    rewrite flen_val in G. lra.
  - intros arcsin dot q GA [->| ->] [->| ->]; apply far_from_circle; auto; vm_compute; reflexivity.
Qed.
Print Assumptions C86_default_tolerance_refuted.

(** an arcsin meeting the requirement: the rounded exact one *)
Definition ideal_arcsin (x : float64) : float64 := round64 (asin (B2R x)).
Lemma ideal_arcsin_good : good_arcsin ideal_arcsin.
Proof.
  intros x F H. unfold ideal_arcsin. pose proof (asin_bound (B2R x)) as B. pose proof PI_33. pose proof u_pos. pose proof eta_pos.
  destruct (round64_val (asin (B2R x))) as (Fr & ->).
  { apply Rle_trans with (bpow radix2 1); [apply Rabs_le; change (bpow radix2 1) with 2; lra|apply bpow_le; lia]. }
  split; [exact Fr|]. destruct (rnd_err (asin (B2R x))) as (e & h & He & Hh & ->).
  replace (asin (B2R x) * (1 + e) + h - asin (B2R x)) with (asin (B2R x) * e + h) by ring. eapply Rle_trans; [apply Rabs_triang|]. rewrite Rabs_mult.
  assert (Rabs (asin (B2R x)) * Rabs e <= Rabs (asin (B2R x)) * u) by (apply Rmult_le_compat_l; [apply Rabs_pos|auto]).
  assert (0 <= Rabs (asin (B2R x)) * u) by (apply Rmult_le_pos; [apply Rabs_pos|lra]). lra.
Qed.
(** the hypotheses of C85 and C86 are met: two points 26 degrees and more apart, an arcsin that is NaN outside its domain *)
Example C85_example : good_dot dot_seq /\ good_arcsin ideal_arcsin /\ near_unit path_a /\ near_unit path_b /\
  1 / 64 <= vnorm (vcross (vec_of path_a) (vec_of path_b)) /\ Rabs (track_sine (vec_of path_a) (vec_of path_b) (vec_of path_a)) <= 7 / 10 /\
  arcsin_domain (fun x => if fgt1 x then B754_nan else if is_finite x then ideal_arcsin x else B754_nan).
Proof.
  split; [apply good_dot_seq|]. split; [apply ideal_arcsin_good|]. split; [apply path_a_unit|]. split; [apply path_b_unit|]. pose proof path_long.
  split; [lra|]. split.
  - unfold track_sine. replace (vdot (direction (vcross (vec_of path_a) (vec_of path_b))) (direction (vec_of path_a))) with 0; [rewrite Ropp_0, Rabs_R0; lra|].
    symmetry. unfold direction at 2. set (n := direction _). replace (vdot n (vscale (/ vnorm (vec_of path_a)) (vec_of path_a))) with (/ vnorm (vec_of path_a) * vdot n (vec_of path_a))
      by (generalize (/ vnorm (vec_of path_a)) (vec_of path_a); clear; intros; vring). unfold n. rewrite dot_normal_l. ring.
  - intros x Hx. destruct (fgt1 x) eqn:E; [reflexivity|]. destruct (is_finite x) eqn:F; [|reflexivity]. exfalso.
    unfold fgt1 in E. rewrite Bcompare_correct in E; [|rewrite fabs_fin; exact F|reflexivity]. rewrite fabs_val, fone_val in E.
    destruct (Rcompare_spec (Rabs (B2R x)) 1); try discriminate; lra.
Qed.
