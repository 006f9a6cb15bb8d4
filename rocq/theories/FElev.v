(** * C111: Pvector.elevation in binary64 (objects.py 709-715) *)
From Coq Require Import ZArith Reals Lra Lia Bool Psatz.
From Flocq Require Import Core BinarySingleNaN Relative.
From Verif Require Import Spec LVec LAngle FTiny FZero FBase FRel FRel2 FUnit FNan FPi FAngle FDist FGreat FTrack FOnCircle FLatLon FInv FEcef FEcef2 FNed FNed2 FNed3 FDelta FDelta2 FDelta3 FMove FMove2.
Local Open Scope R_scope.

(** objects.py 714: np.arcsin(z / self.length) *)
Definition felevation (arcsin : float64 -> float64) (p : vec64) : float64 := let '(x, y, z) := p in arcsin (felevation_sin x y z).
(** objects.py 707 *)
Definition felevation_deg (arcsin : float64 -> float64) (p : vec64) : float64 := fdeg (felevation arcsin p).
(** [el] is the angle of [q] with the xy-plane, positive on the side of the z-axis *)
Definition elevation_of (q : vec) (el : R) : Prop := Spec.vz q = vnorm q * sin el /\ - (PI / 2) <= el <= PI / 2.

(** the angle from the sine *)
Lemma from_sine x y : - (PI / 2) <= x <= PI / 2 -> - (PI / 2) <= y <= PI / 2 -> x <= y ->
  (cos x + cos y) * (y - x) <= 2 * (sin y - sin x) /\ (y - x) * (y - x) <= 8 * (sin y - sin x).
Proof.
  intros Hx Hy L. set (m := (x + y) / 2). set (h := (y - x) / 2). assert (Ph : 0 <= h <= PI / 2) by (unfold h; lra).
  assert (Ey : y = m + h) by (unfold m, h; lra). assert (Ex : x = m - h) by (unfold m, h; lra). rewrite Ey, Ex, sin_plus, sin_minus, cos_plus, cos_minus. replace (m + h - (m - h)) with (2 * h) by ring.
  assert (Cm : 0 <= cos m) by (apply cos_ge_0; unfold m; lra). pose proof (xcos_le_sin h Ph) as X1. assert (CH : 0 <= cos h) by (apply cos_ge_0; lra). split.
  - replace ((cos m * cos h + sin m * sin h + (cos m * cos h - sin m * sin h)) * (2 * h)) with (4 * (cos m * (h * cos h))) by ring.
    replace (2 * (sin m * cos h + cos m * sin h - (sin m * cos h - cos m * sin h))) with (4 * (cos m * sin h)) by ring. apply Rmult_le_compat_l; [lra|]. apply Rmult_le_compat_l; auto.
  - assert (SC : sin h <= cos m).
    { rewrite <- cos_shift. destruct (Rle_dec 0 m) as [P|P]; [apply cos_decr_1; unfold m, h in *; lra|]. rewrite <- (cos_neg m). apply cos_decr_1; unfold m, h in *; lra. }
    assert (SH : h / 2 <= sin h).
    { replace h with (2 * (h / 2)) at 2 by lra. rewrite sin_2a. pose proof (xcos_le_sin (h / 2) ltac:(lra)) as X2. assert (C2 : 0 <= cos (h / 2)) by (apply cos_ge_0; lra).
      pose proof (cos_2a_cos (h / 2)) as C3. replace (2 * (h / 2)) with h in C3 by lra. assert (C4 : 1 <= 2 * (cos (h / 2) * cos (h / 2))) by lra.
      assert (h / 2 * cos (h / 2) * cos (h / 2) <= sin (h / 2) * cos (h / 2)) by (apply Rmult_le_compat_r; auto). assert (h / 2 * 1 <= h / 2 * (2 * (cos (h / 2) * cos (h / 2)))) by (apply Rmult_le_compat_l; lra). lra. }
    replace (8 * (sin m * cos h + cos m * sin h - (sin m * cos h - cos m * sin h))) with (16 * (cos m * sin h)) by ring.
    assert (sin h * sin h <= cos m * sin h) by (apply Rmult_le_compat_r; lra). assert (h / 2 * (h / 2) <= sin h * sin h) by (apply Rmult_le_compat; lra). lra.
Qed.
Lemma from_sine_abs x y : - (PI / 2) <= x <= PI / 2 -> - (PI / 2) <= y <= PI / 2 ->
  cos x * Rabs (y - x) <= 2 * Rabs (sin y - sin x) /\ Rabs (y - x) * Rabs (y - x) <= 8 * Rabs (sin y - sin x).
Proof.
  intros Hx Hy. assert (Cx : 0 <= cos x) by (apply cos_ge_0; lra). assert (Cy : 0 <= cos y) by (apply cos_ge_0; lra). destruct (Rle_dec x y) as [L|L].
  - destruct (from_sine x y Hx Hy L) as (A & B). assert (S : 0 <= sin y - sin x) by nra. rewrite (Rabs_right (y - x)), (Rabs_right (sin y - sin x)) by lra.
    assert (0 <= cos y * (y - x)) by (apply Rmult_le_pos; lra). split; lra.
  - destruct (from_sine y x Hy Hx ltac:(lra)) as (A & B). assert (S : 0 <= sin x - sin y) by nra. rewrite (Rabs_left1 (y - x)), (Rabs_left1 (sin y - sin x)) by lra.
    assert (0 <= cos y * (x - y)) by (apply Rmult_le_pos; lra). split; lra.
Qed.

(** the sine *)
Lemma elev_sine x y z : ordinary x y z -> let v := vec_of (x, y, z) in
  0 < vnorm v /\ Rabs (B2R (felevation_sin x y z) - B2R z / vnorm v) <= 41 / 10 * u * Rabs (B2R z / vnorm v) + eta.
Proof.
  intros O v. pose proof O as (Fx & Fy & Fz & _). destruct (C76_norm_accuracy x y z O) as (Fn & Acc & Ln). rewrite length3_vnorm in Acc, Ln. fold v in Acc, Ln.
  destruct (norm_ge_comp x y z O) as (_ & _ & Hz). destruct (ratio_le_1 x y z z O Fz Hz) as (F & _ & E). unfold felevation_sin. rewrite E. pose proof (bpow_gt_0 radix2 (-400)) as P4. split; [lra|].
  pose proof u_pos as Pu. pose proof u_tiny as Su. set (N := B2R (norm3 x y z)) in *. set (L := vnorm v) in *. assert (PL : 0 < L) by lra.
  assert (E0 : exists e0, Rabs e0 <= 3 * u /\ N = L * (1 + e0)).
  { exists ((N - L) / L). split; [|field; lra]. unfold Rdiv. rewrite Rabs_mult, Rabs_inv, (Rabs_right L) by lra. apply (Rmult_le_reg_r L); [lra|]. rewrite Rmult_assoc, Rinv_l, Rmult_1_r by lra. exact Acc. }
  destruct E0 as (e0 & B0 & EN). apply Rabs_le_inv in B0. set (s := B2R z / L) in *. assert (ES : B2R z / N = s * / (1 + e0)) by (rewrite EN; unfold s; field; split; lra).
  destruct (rnd_err (B2R z / N)) as (e1 & h & B1 & Bh & R). rewrite R, ES. apply Rabs_le_inv in B1.
  replace (s * / (1 + e0) * (1 + e1) + h - s) with (s * ((e1 - e0) * / (1 + e0)) + h) by (field; lra). eapply Rle_trans; [apply Rabs_triang|]. apply Rplus_le_compat; [|exact Bh].
  rewrite Rabs_mult, Rmult_comm. apply Rmult_le_compat_r; [apply Rabs_pos|]. rewrite Rabs_mult. assert (IV : Rabs (/ (1 + e0)) <= 1001 / 1000).
  { rewrite Rabs_inv, Rabs_right by lra. replace (1001 / 1000) with (/ (1000 / 1001)) by field. apply Rinv_le; lra. }
  apply Rle_trans with (4 * u * (1001 / 1000)); [|lra]. apply Rmult_le_compat; try apply Rabs_pos; auto. apply Rabs_le. lra.
Qed.

(** the elevation of a vector within [e] of [q] *)
Lemma elev_core arcsin x y z q e el : good_arcsin arcsin -> ordinary x y z -> q <> v0 -> vnorm (vsub (vec_of (x, y, z)) q) <= e -> elevation_of q el ->
  let el' := felevation arcsin (x, y, z) in let d := 2 * e / vnorm q + 42 / 10 * u in
  is_finite el' = true /\ cos el * Rabs (B2R el' - el) <= 2 * d + 4 * u /\ Rabs (B2R el' - el) <= sqrt (8 * d) + 4 * u.
Proof.
  intros GA O Nq D (Ez & Be) el' d. destruct (elev_sine x y z O) as (PL & ES). destruct (C84_elevation_in_domain x y z O) as (Fs & Bs). destruct (GA _ Fs Bs) as (Fe & EA). fold (felevation arcsin (x, y, z)) in Fe. split; [exact Fe|].
  change (arcsin (felevation_sin x y z)) with el' in EA. set (s := B2R (felevation_sin x y z)) in *. set (v := vec_of (x, y, z)) in *.
  pose proof u_pos as Pu. pose proof tiny_eta as Te. pose proof eta_pos as Pe. pose proof (vnorm_nz _ Nq) as Pq. pose proof PI_33 as P3.
  assert (Nv : v <> v0) by (intros E; rewrite E, vnorm_v0 in PL; lra). assert (Pd : 0 <= e) by (pose proof (vnorm_pos (vsub v q)); lra).
  pose proof (direction_perturb q v Nq Nv) as DP. assert (CZ : Rabs (B2R z / vnorm v - sin el) <= 2 * e / vnorm q).
  { replace (sin el) with (Spec.vz q / vnorm q) by (rewrite Ez; field; lra). replace (B2R z) with (Spec.vz v) by reflexivity.
    replace (Spec.vz v / vnorm v - Spec.vz q / vnorm q) with (Spec.vz (vsub (direction v) (direction q))) by (unfold direction, vsub, vscale; cbn [Spec.vz]; unfold Rdiv; ring).
    eapply Rle_trans; [apply comp_le_vnorm|]. eapply Rle_trans; [exact DP|]. unfold Rdiv. apply Rmult_le_compat_r; [left; apply Rinv_0_lt_compat; lra|lra]. }
  assert (B1 : Rabs (B2R z / vnorm v) <= 1). { unfold Rdiv. rewrite Rabs_mult, Rabs_inv, (Rabs_right (vnorm v)) by lra. apply (Rmult_le_reg_r (vnorm v)); [lra|]. rewrite Rmult_assoc, Rinv_l, Rmult_1_r, Rmult_1_l by lra. replace (B2R z) with (Spec.vz v) by reflexivity. apply comp_le_vnorm. }
  assert (DS : Rabs (s - sin el) <= d).
  { replace (s - sin el) with ((s - B2R z / vnorm v) + (B2R z / vnorm v - sin el)) by ring. eapply Rle_trans; [apply Rabs_triang|]. assert (41 / 10 * u * Rabs (B2R z / vnorm v) <= 41 / 10 * u * 1) by (apply Rmult_le_compat_l; lra). unfold d. lra. }
  pose proof (asin_bound s) as AB. destruct (from_sine_abs el (asin s) Be AB) as (A1 & A2). rewrite sin_asin in A1, A2 by exact Bs.
  assert (AS : Rabs (asin s) <= 165 / 100) by (apply Rabs_le; lra). assert (EA' : Rabs (B2R el' - asin s) <= 4 * u). { eapply Rle_trans; [exact EA|]. assert (2 * u * Rabs (asin s) <= 2 * u * (165 / 100)) by (apply Rmult_le_compat_l; lra). lra. }
  assert (TR : Rabs (B2R el' - el) <= Rabs (B2R el' - asin s) + Rabs (asin s - el)). { replace (B2R el' - el) with ((B2R el' - asin s) + (asin s - el)) by ring. apply Rabs_triang. }
  assert (C0 : 0 <= cos el <= 1) by (split; [apply cos_ge_0; lra|apply COS_bound]). split.
  - apply Rle_trans with (cos el * (Rabs (B2R el' - asin s) + Rabs (asin s - el))); [apply Rmult_le_compat_l; lra|]. pose proof (Rabs_pos (B2R el' - asin s)). assert (cos el * Rabs (B2R el' - asin s) <= 1 * (4 * u)) by (apply Rmult_le_compat; lra). lra.
  - assert (Rabs (asin s - el) <= sqrt (8 * d)); [|lra]. rewrite <- (sqrt_square (Rabs (asin s - el))) by apply Rabs_pos. apply sqrt_le_1_alt. lra.
Qed.

(** ** the elevation of a vector of doubles *)
Theorem C111_accuracy : forall arcsin x y z el, good_arcsin arcsin -> ordinary x y z -> elevation_of (vec_of (x, y, z)) el ->
  let el' := felevation arcsin (x, y, z) in
  is_finite el' = true /\ cos el * Rabs (B2R el' - el) <= 11 * u * Rabs el + 5 * eta /\ Rabs (B2R el' - el) <= 62 / 1000000000.
Proof.
  intros arcsin x y z el GA O EL el'. destruct (elev_sine x y z O) as (PL & ES). set (v := vec_of (x, y, z)) in *. assert (Nv : v <> v0) by (intros E; rewrite E, vnorm_v0 in PL; lra).
  assert (Z : vnorm (vsub (vec_of (x, y, z)) v) <= 0). { fold v. replace (vsub v v) with v0 by (generalize v; intros; vring). rewrite vnorm_v0. lra. }
  destruct (elev_core arcsin x y z v 0 el GA O Nv Z EL) as (F & _ & W). fold el' in F, W. split; [exact F|]. pose proof u_pos as Pu. pose proof u_tiny as Su. pose proof eta_pos as Pe. split.
  - destruct EL as (Ez & Be). destruct (C84_elevation_in_domain x y z O) as (Fs & Bs). destruct (GA _ Fs Bs) as (_ & EA). change (arcsin (felevation_sin x y z)) with el' in EA. set (s := B2R (felevation_sin x y z)) in *.
    replace (B2R z / vnorm v) with (sin el) in ES by (replace (B2R z) with (Spec.vz v) by reflexivity; rewrite Ez; field; lra).
    pose proof (asin_bound s) as AB. destruct (from_sine_abs el (asin s) Be AB) as (A1 & _). rewrite sin_asin in A1 by exact Bs. pose proof (abs_sin_le el) as SL.
    assert (C0 : 0 <= cos el <= 1) by (split; [apply cos_ge_0; lra|apply COS_bound]).
    assert (TR : Rabs (B2R el' - el) <= Rabs (B2R el' - asin s) + Rabs (asin s - el)). { replace (B2R el' - el) with ((B2R el' - asin s) + (asin s - el)) by ring. apply Rabs_triang. }
    assert (TS : Rabs (asin s) <= Rabs el + Rabs (asin s - el)). { replace (asin s) with (el + (asin s - el)) at 1 by ring. apply Rabs_triang. }
    set (X := Rabs (asin s - el)) in *. pose proof (Rabs_pos (asin s - el)) as PX. fold X in PX. pose proof (Rabs_pos el) as PE.
    assert (Q1 : cos el * X <= 82 / 10 * u * Rabs el + 2 * eta). { assert (41 / 10 * u * Rabs (sin el) <= 41 / 10 * u * Rabs el) by (apply Rmult_le_compat_l; lra). lra. }
    assert (Q2 : Rabs (B2R el' - el) <= X * (1 + 2 * u) + 2 * u * Rabs el + 2 * eta). { assert (2 * u * Rabs (asin s) <= 2 * u * (Rabs el + X)) by (apply Rmult_le_compat_l; lra). lra. }
    assert (Q3 : cos el * Rabs (B2R el' - el) <= cos el * X * (1 + 2 * u) + cos el * (2 * u * Rabs el + 2 * eta)).
    { apply Rle_trans with (cos el * (X * (1 + 2 * u) + 2 * u * Rabs el + 2 * eta)); [apply Rmult_le_compat_l; lra|lra]. }
    assert (UE : 0 <= u * Rabs el) by (apply Rmult_le_pos; lra).
    assert (Q4 : cos el * (2 * u * Rabs el + 2 * eta) <= 1 * (2 * u * Rabs el + 2 * eta)) by (apply Rmult_le_compat_r; lra).
    assert (Q5 : cos el * X * (1 + 2 * u) <= (82 / 10 * u * Rabs el + 2 * eta) * (1 + 2 * u)) by (apply Rmult_le_compat_r; lra).
    assert (Q6 : (82 / 10 * u * Rabs el + 2 * eta) * (2 * u) <= (82 / 10 * u * Rabs el + 2 * eta) * (1 / 100)) by (apply Rmult_le_compat_l; lra). lra.
  - eapply Rle_trans; [exact W|]. assert (S : sqrt (8 * (2 * 0 / vnorm v + 42 / 10 * u)) <= 615 / 10000000000).
    { rewrite <- (sqrt_square (615 / 10000000000)) by lra. apply sqrt_le_1_alt. replace (2 * 0 / vnorm v) with 0 by (unfold Rdiv; ring). rewrite u_val. lra. }
    assert (4 * u <= / 1000000000000) by (rewrite u_val; lra). lra.
Qed.
Print Assumptions C111_accuracy.

(** close to the vertical half of the digits are lost, whatever the quality of arcsin: 2^-27 to the side of a vertical unit vector the elevation comes out as 90 degrees,
    7.4 nanoradians too much *)
Theorem C111_near_vertical : exists x y z el, ordinary x y z /\ elevation_of (vec_of (x, y, z)) el /\
  forall arcsin, good_arcsin arcsin -> 74 / 10000000000 <= Rabs (B2R (felevation arcsin (x, y, z)) - el).
Proof.
  set (x := f 4503599627370496 (-79) eq_refl). set (z := f 4503599627370496 (-52) eq_refl). set (t := 134217728).
  assert (Vx : B2R x = / t) by (unfold x, t, f, B2R, F2R; cbn; lra). assert (Vz : B2R z = 1) by (unfold z, f, B2R, F2R; cbn; lra).
  exists x, fzero, z, (atan t). assert (ES : felevation_sin x fzero z = z) by (apply B2SF_inj; vm_compute; reflexivity).
  assert (Q : 0 < 1 + t * t) by (unfold t; lra). assert (QS : sqrt (1 + t * t) <= 134217729) by (rewrite <- (sqrt_square 134217729) by lra; apply sqrt_le_1_alt; unfold t; lra). pose proof (sqrt_lt_R0 _ Q) as PQ. pose proof (sqrt_sqrt (1 + t * t) ltac:(lra)) as SQ.
  pose proof (atan_bound t) as AB. split; [|split].
  - unfold ordinary. rewrite Vx, Vz. change (B2R fzero) with 0. rewrite Rabs_R0, Rabs_R1. assert (P4 : 1 <= bpow radix2 400) by (change 1 with (bpow radix2 0); apply bpow_le; lia). assert (M4 : bpow radix2 (-400) <= 1) by (change 1 with (bpow radix2 0); apply bpow_le; lia).
    rewrite Rabs_right by (unfold t; lra). repeat split; auto; unfold t; lra.
  - split; [|lra]. assert (NV : vnorm (vec_of (x, fzero, z)) = / t * sqrt (1 + t * t)).
    { apply vnorm_eq; [apply Rmult_le_pos; [unfold t; lra|lra]|]. unfold vec_of, vdot; cbn [Spec.vx Spec.vy Spec.vz]. rewrite Vx, Vz. change (B2R fzero) with 0. replace (/ t * sqrt (1 + t * t) * (/ t * sqrt (1 + t * t))) with (/ t * / t * (sqrt (1 + t * t) * sqrt (1 + t * t))) by ring. rewrite SQ. field. unfold t; lra. }
    rewrite NV, sin_atan. unfold Rsqr. change (Spec.vz (vec_of (x, fzero, z))) with (B2R z). rewrite Vz. field. split; [lra|unfold t; lra].
  - intros arcsin GA. unfold felevation. rewrite ES. destruct (GA z eq_refl ltac:(lra)) as (_ & D). rewrite Vz, asin_1 in D. pose proof u_pos as Pu. pose proof tiny_eta as Te. pose proof eta_pos as Pe. pose proof PI_33 as P3. rewrite (Rabs_right (PI / 2)) in D by lra.
    assert (G : / 134217729 <= PI / 2 - atan t).
    { eapply Rle_trans; [|apply sin_le_x; lra]. rewrite sin_shift, cos_atan. unfold Rsqr. unfold Rdiv. rewrite Rmult_1_l. apply Rinv_le; lra. }
    apply Rabs_le_inv in D. assert (u * (PI / 2) <= u * 2) by (apply Rmult_le_compat_l; lra). eapply Rle_trans; [|apply Rle_abs]. assert (u <= / 1000000000000000) by apply u_tiny. lra.
Qed.
Print Assumptions C111_near_vertical.

Lemma ordinary_of p : finite_vec p -> vnorm (vec_of p) <= bpow radix2 400 -> 4 * bpow radix2 (-400) <= vnorm (vec_of p) -> let '(x, y, z) := p in ordinary x y z.
Proof.
  destruct p as [[x y] z]. intros (Fx & Fy & Fz) U L. destruct (comp_of (x, y, z)) as (C0 & C1 & C2). unfold ordinary. repeat split; auto; try lra.
  pose proof (norm_sum3 (vec_of (x, y, z))) as S. cbn [vec_of Spec.vx Spec.vy Spec.vz] in S. pose proof (bpow_gt_0 radix2 (-400)) as P4.
  destruct (Rle_dec (bpow radix2 (-400)) (Rabs (B2R x))); auto. destruct (Rle_dec (bpow radix2 (-400)) (Rabs (B2R y))); auto. destruct (Rle_dec (bpow radix2 (-400)) (Rabs (B2R z))); auto. exfalso. unfold vec_of in L, S. cbn [Spec.vx Spec.vy Spec.vz] in S. lra.
Qed.
(** ** how high B stands over the horizon of A (negative: above it, the z-axis points down), on the Earth *)
Theorem C111_from_degrees : forall dot fsin fcos arcsin latA lonA zA latB lonB zB pA pB el,
  good_mdot dot -> good_trig fsin sin -> good_trig fcos cos -> good_arcsin arcsin -> valid latA lonA zA -> valid latB lonB zB -> Rabs (B2R zA) <= 1000000 -> Rabs (B2R zB) <= 1000000 ->
  position 6378137 (B2R wgs84_f) (B2R latA) (B2R lonA) (B2R zA) pA -> position 6378137 (B2R wgs84_f) (B2R latB) (B2R lonB) (B2R zB) pB ->
  let L := vnorm (vsub pB pA) in / 1000000 <= L -> elevation_of (mulv (ned (B2R latA) (B2R lonA)) (vsub pB pA)) el ->
  let el' := felevation arcsin (fdelta_to_deg dot fsin fcos latA lonA zA latB lonB zB wgs84_a wgs84_f) in
  is_finite el' = true /\ cos el * Rabs (B2R el' - el) <= 88 / 100000000 / L + 2 / 1000000000000000 /\ Rabs (B2R el' - el) <= sqrt (36 / 10000000 / L + 4 / 1000000000000000) + / 1000000000000000.
Proof.
  intros dot fsin fcos arcsin latA lonA zA latB lonB zB pA pB el GD GS GC GA VA VB BA BB HA HB L HL EL.
  pose proof (C92_wgs84 dot fsin fcos latA lonA zA latB lonB zB pA pB GD GS GC VA VB BA BB HA HB) as C. cbv zeta in C. destruct C as (FP & _ & E2). set (p' := fdelta_to_deg _ _ _ _ _ _ _ _ _ _ _) in *. clearbody p'.
  pose proof wgs84_f_val as (_ & Vf). assert (PA : vnorm pA <= 7378137) by (pose proof (position_norm 6378137 (B2R wgs84_f) (B2R latA) (B2R lonA) (B2R zA) pA ltac:(lra) ltac:(lra) HA); lra).
  assert (PB : vnorm pB <= 7378137) by (pose proof (position_norm 6378137 (B2R wgs84_f) (B2R latB) (B2R lonB) (B2R zB) pB ltac:(lra) ltac:(lra) HB); lra).
  assert (NP : L <= 14756274). { unfold L. rewrite sub_neg. eapply Rle_trans; [apply norm_triangle|]. rewrite vnorm_neg. lra. }
  set (q := mulv _ _) in *. assert (NQ : vnorm q = L) by (unfold q, L; apply orthogonal_norm; rewrite <- mT_mT; apply orthogonal_T, ned_orthogonal). clearbody q.
  pose proof (norm_perturb q (vsub (vec_of p') q)) as N. rewrite <- via in N. apply Rabs_le_inv in N. assert (B4 : 16000000 <= bpow radix2 400). { apply Rle_trans with (bpow radix2 24); [cbn; lra|apply bpow_le; lia]. }
  assert (M4 : 4 * bpow radix2 (-400) <= / 10000000). { apply Rle_trans with (4 * bpow radix2 (-30)); [apply Rmult_le_compat_l; [lra|apply bpow_le; lia]|cbn; lra]. }
  pose proof (ordinary_of p' FP ltac:(lra) ltac:(lra)) as O. destruct p' as [[x y] z]. assert (Nq : q <> v0) by (intros E; rewrite E, vnorm_v0 in NQ; lra).
  destruct (elev_core arcsin x y z q _ el GA O Nq E2 EL) as (F & A & B). split; [exact F|]. rewrite NQ in A, B. set (e' := felevation arcsin (x, y, z)) in *. set (X := Rabs (B2R e' - el)) in *. clearbody X. rewrite u_val in *. set (i := / L). unfold Rdiv in A, B |- *. fold i in A, B |- *. assert (PI' : 0 <= i) by (left; apply Rinv_0_lt_compat; lra). clearbody i. split; [lra|].
  eapply Rle_trans; [exact B|]. apply Rplus_le_compat; [apply sqrt_le_1_alt; lra|lra].
Qed.
Print Assumptions C111_from_degrees.

(** a concrete case: from (0 N, 0 E) to (0 N, 90 E) on the surface the line dips by 45 degrees *)
From Verif Require Import FCourse.
Example C111_example : good_mdot dot_seq /\ good_arcsin ideal_arcsin /\ good_trig (fun x => round64 (sin (B2R x))) sin /\ good_trig (fun x => round64 (cos (B2R x))) cos /\
  valid fzero fzero fzero /\ valid fzero f90 fzero /\ Rabs (B2R fzero) <= 1000000 /\
  let pA := V 6378137 0 0 in let pB := V 0 6378137 0 in
  position 6378137 (B2R wgs84_f) (B2R fzero) (B2R fzero) (B2R fzero) pA /\ position 6378137 (B2R wgs84_f) (B2R fzero) (B2R f90) (B2R fzero) pB /\
  / 1000000 <= vnorm (vsub pB pA) /\ elevation_of (mulv (ned (B2R fzero) (B2R fzero)) (vsub pB pA)) (PI / 4) /\
  ordinary fone fone fone /\ elevation_of (vec_of (fone, fone, fone)) (asin (/ sqrt 3)).
Proof.
  destruct C105_example as (GM & _ & GS & GC & _ & _ & VA & VB & BZ & C). cbv zeta in C |- *. destruct C as (HA & HB & _).
  split; [exact GM|]. split; [apply ideal_arcsin_good|]. split; [exact GS|]. split; [exact GC|]. split; [exact VA|]. split; [exact VB|]. split; [exact BZ|]. split; [exact HA|]. split; [exact HB|].
  assert (P2 : 0 < sqrt 2) by (apply sqrt_lt_R0; lra). pose proof (sqrt_sqrt 2 ltac:(lra)) as S2. pose proof PI_RGT_0 as P0.
  assert (ND : vnorm (vsub (V 0 6378137 0) (V 6378137 0 0)) = 6378137 * sqrt 2).
  { apply vnorm_eq; [lra|]. unfold vdot, vsub; cbn [Spec.vx Spec.vy Spec.vz]. replace (6378137 * sqrt 2 * (6378137 * sqrt 2)) with (6378137 * 6378137 * (sqrt 2 * sqrt 2)) by ring. rewrite S2. ring. }
  split. { rewrite ND. assert (1 <= sqrt 2) by (rewrite <- sqrt_1 at 1; apply sqrt_le_1_alt; lra). lra. }
  split. { change (B2R fzero) with 0. unfold ned. cbv zeta. assert (Z : 0 * (PI / 180) = 0) by ring. rewrite Z.
    assert (Q : mulv (Mt (north_dir 0 0) (east_dir 0) (down_dir 0 0)) (vsub (V 0 6378137 0) (V 6378137 0 0)) = V 0 6378137 6378137).
    { unfold north_dir, east_dir, down_dir. rewrite sin_0, cos_0. unfold mulv, vsub, vdot; cbn [r0 r1 r2 Spec.vx Spec.vy Spec.vz]. apply vec_eq; cbn [Spec.vx Spec.vy Spec.vz]; ring. }
    rewrite Q. split; [|lra]. assert (NQ : vnorm (V 0 6378137 6378137) = 6378137 * sqrt 2).
    { apply vnorm_eq; [lra|]. unfold vdot; cbn [Spec.vx Spec.vy Spec.vz]. replace (6378137 * sqrt 2 * (6378137 * sqrt 2)) with (6378137 * 6378137 * (sqrt 2 * sqrt 2)) by ring. rewrite S2. ring. }
    rewrite NQ, sin_PI4. cbn [Spec.vz]. field. lra. }
  assert (P3 : 1 < sqrt 3) by (rewrite <- sqrt_1 at 1; apply sqrt_lt_1_alt; lra). pose proof (sqrt_sqrt 3 ltac:(lra)) as S3.
  split. { unfold ordinary. rewrite fone_val, Rabs_R1. assert (1 <= bpow radix2 400) by (change 1 with (bpow radix2 0); apply bpow_le; lia). assert (bpow radix2 (-400) <= 1) by (change 1 with (bpow radix2 0); apply bpow_le; lia). repeat split; auto. }
  assert (IV : 0 < / sqrt 3 <= 1). { split; [apply Rinv_0_lt_compat; lra|]. rewrite <- Rinv_1. apply Rinv_le; lra. }
  split; [|pose proof (asin_bound (/ sqrt 3)); lra]. rewrite sin_asin by lra. assert (NV : vnorm (vec_of (fone, fone, fone)) = sqrt 3) by (apply vnorm_eq; [lra|]; unfold vdot, vec_of; cbn [Spec.vx Spec.vy Spec.vz]; rewrite fone_val; lra).
  rewrite NV. change (Spec.vz (vec_of (fone, fone, fone))) with (B2R fone). rewrite fone_val. field. lra.
Qed.
