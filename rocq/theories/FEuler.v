(** * C103: Euler angles in binary64 (rotation.py 86-140, 143-190, 262-306, 309-385): the rotation matrix of three angles is
    accurate, and the angles come back from it *)
From Coq Require Import ZArith Reals Lra Lia Bool Psatz.
From Flocq Require Import Core BinarySingleNaN Relative.
From Verif Require Import Spec LVec LAngle FTiny FBase FUnit FPi FAngle FDist FGreat FLatLon FInv FInv2 FRel FRel2.
Local Open Scope R_scope.

(** ** the code, one set of angles or one matrix *)
(** a 3 x 3 array of doubles, by rows *)
Definition mat64 : Type := vec64 * vec64 * vec64.
Definition mT64 (m : mat64) : mat64 :=
  let '((a, b, c), (d, e, g), (h, i, j)) := m in ((a, d, h), (b, e, i), (c, g, j)).
(** rotation.py 298-306 *)
Definition fxyz2R (fsin fcos : float64 -> float64) (x y z : float64) : mat64 :=
  let sx := fsin x in let sy := fsin y in let sz := fsin z in let cx := fcos x in let cy := fcos y in let cz := fcos z in
  ((fmul cy cz, fmul (fneg cy) sz, sy),
   (fadd (fmul (fmul sy sx) cz) (fmul cx sz), fadd (fmul (fmul (fneg sy) sx) sz) (fmul cx cz), fmul (fneg cy) sx),
   (fadd (fmul (fmul (fneg sy) cx) cz) (fmul sx sz), fadd (fmul (fmul sy cx) sz) (fmul sx cz), fmul cy cx)).
(** rotation.py 375-383 *)
Definition fzyx2R (fsin fcos : float64 -> float64) (z y x : float64) : mat64 :=
  let sx := fsin x in let sy := fsin y in let sz := fsin z in let cx := fcos x in let cy := fcos y in let cz := fcos z in
  ((fmul cz cy, fadd (fmul (fneg sz) cx) (fmul (fmul cz sy) sx), fadd (fmul sz sx) (fmul (fmul cz sy) cx)),
   (fmul sz cy, fadd (fmul cz cx) (fmul (fmul sz sy) sx), fadd (fmul (fneg cz) sx) (fmul (fmul sz sy) cx)),
   (fneg sy, fmul cy sx, fmul cy cx)).
(** rotation.py 125-137; x**2 of numpy is x*x; the result is (x, y, z) *)
(** the literal 2 of rotation.py 125-137 *)
Definition ftwo : float64 := f 4503599627370496 (-51) eq_refl.
Definition fR2xyz (arctan2 : float64 -> float64 -> float64) (m : mat64) : float64 * float64 * float64 :=
  let '((m00, m01, m02), (m10, m11, m12), (m20, m21, m22)) := m in
  let z := arctan2 (fneg m01) m00 in
  let x := arctan2 (fneg m12) m22 in
  let cos_y := fsqrt (fdiv (fadd (fadd (fadd (fmul m00 m00) (fmul m01 m01)) (fmul m12 m12)) (fmul m22 m22)) ftwo) in
  (x, arctan2 m02 cos_y, z).
(** rotation.py 189-190; the result is (z, y, x) *)
Definition fR2zyx (arctan2 : float64 -> float64 -> float64) (m : mat64) : float64 * float64 * float64 :=
  let '(x, y, z) := fR2xyz arctan2 (mT64 m) in (fneg z, fneg y, fneg x).

(** ** specification *)
Definition mat_of (m : mat64) : mat := let '(a, b, c) := m in Mt (vec_of a) (vec_of b) (vec_of c).
Definition vec_within (e : R) (a b : vec) : Prop := Rabs (vx a - vx b) <= e /\ Rabs (vy a - vy b) <= e /\ Rabs (vz a - vz b) <= e.
(** every entry of [a] is within [e] of the entry of [b] *)
Definition mat_within (e : R) (a b : mat) : Prop := vec_within e (r0 a) (r0 b) /\ vec_within e (r1 a) (r1 b) /\ vec_within e (r2 a) (r2 b).
Definition fin_mat (m : mat64) : Prop := let '((a, b, c), (d, e, g), (h, i, j)) := m in
  is_finite a = true /\ is_finite b = true /\ is_finite c = true /\ is_finite d = true /\ is_finite e = true /\ is_finite g = true /\
  is_finite h = true /\ is_finite i = true /\ is_finite j = true.

(** ** numbers of size at most 1 with a small relative error *)
Definition fn (k m : R) (x : float64) (X : R) : Prop := is_finite x = true /\ near k (m * eta) (B2R x) X /\ Rabs X <= 1.
Lemma eta_tiny : 1000000 * eta <= / 1000000000.
Proof. apply Rle_trans with (1000000 * bpow radix2 (-60)); [apply Rmult_le_compat_l; [lra|unfold eta; apply bpow_le; lia]|cbn; lra]. Qed.
Lemma one_big e : (0 <= e)%Z -> 1 <= bpow radix2 e.
Proof. intros H. change 1 with (bpow radix2 0). apply bpow_le; auto. Qed.
Lemma fn_weaken k k' m m' x X : k <= k' -> m <= m' -> fn k m x X -> fn k' m' x X.
Proof. intros Hk Hm (F & N & B). pose proof eta_pos. split; [|split]; auto. eapply near_weaken; [exact Hk| |exact N]. apply Rmult_le_compat_r; lra. Qed.
Lemma fn_neg k m x X : fn k m x X -> fn k m (fneg x) (- X).
Proof. intros (F & N & B). unfold fn, fneg. rewrite is_finite_Bopp, B2R_Bopp, Rabs_Ropp. split; [|split]; auto. apply near_opp; auto. Qed.
Lemma fn_trig fsin sine x : good_trig fsin sine -> (forall t, -1 <= sine t <= 1) -> is_finite x = true -> Rabs (B2R x) <= 4 -> fn 2 2 (fsin x) (sine (B2R x)).
Proof. intros G B F H. destruct (G x F H) as (F' & D). split; [|split]; auto. apply Rabs_le, B. Qed.
Lemma fn_mul k1 k2 m1 m2 x y X Y : 0 <= k1 <= 100 -> 0 <= k2 <= 100 -> 0 <= m1 <= 1000 -> 0 <= m2 <= 1000 -> fn k1 m1 x X -> fn k2 m2 y Y ->
  fn (k1 + k2 + 1 + / 500) (2 * (m1 + m2) + 1) (fmul x y) (X * Y).
Proof.
  intros K1 K2 M1 M2 (Fx & Nx & Bx) (Fy & Ny & By). pose proof eta_pos as Pe. pose proof eta_tiny as Te. pose proof (one_big 400 ltac:(lia)) as O.
  destruct (fmul_near_t x y k1 k2 (m1 * eta) (m2 * eta) X Y) as (F & N); auto; try lra; try (split; nra).
  split; [|split]; auto.
  - eapply near_weaken; [apply Rle_refl| |exact N].
    assert (m1 * eta * (m2 * eta) <= / 1000 * (m2 * eta)) by (apply Rmult_le_compat_r; nra).
    assert (Rabs X * (m2 * eta) <= 1 * (m2 * eta)) by (apply Rmult_le_compat_r; nra). assert (Rabs Y * (m1 * eta) <= 1 * (m1 * eta)) by (apply Rmult_le_compat_r; nra).
    assert (0 <= m1 * eta) by nra. assert (0 <= m2 * eta) by nra. lra.
  - rewrite Rabs_mult. pose proof (Rabs_pos X). pose proof (Rabs_pos Y). nra.
Qed.
(** a sum of two terms whose sizes add up to at most 1 *)
Lemma fn_sum k m x y X Y : 0 <= k <= 100 -> 0 <= m <= 1000 -> fn k m x X -> fn k m y Y -> Rabs X + Rabs Y <= 1 ->
  is_finite (fadd x y) = true /\ Rabs (B2R (fadd x y) - (X + Y)) <= (k + 11 / 10) * u.
Proof.
  intros K M (Fx & Nx & Bx) (Fy & Ny & By) S. pose proof eta_pos as Pe. pose proof eta_tiny as Te. pose proof (one_big 900 ltac:(lia)) as O. pose proof u_pos as Pu.
  destruct (fadd_near_t x y k k (m * eta) (m * eta) X Y) as (F & N); auto; try lra; try (split; nra).
  split; auto. eapply Rle_trans; [exact N|]. pose proof (Rabs_triang X Y). pose proof (Rabs_pos X). pose proof (Rabs_pos Y).
  assert (E : 10000 * eta <= / 100 * u). { rewrite u_val. apply Rle_trans with (10000 * bpow radix2 (-200)); [apply Rmult_le_compat_l; [lra|unfold eta; apply bpow_le; lia]|cbn; lra]. }
  assert ((k + / 1000) * u * (Rabs X + Rabs Y) <= (k + / 1000) * u * 1) by (apply Rmult_le_compat_l; nra). assert (u * Rabs (X + Y) <= u * 1) by (apply Rmult_le_compat_l; lra).
  assert (m * eta <= 1000 * eta) by (apply Rmult_le_compat_r; lra). lra.
Qed.
Lemma fn_abs k m x X : 0 <= k <= 100 -> 0 <= m <= 1000 -> fn k m x X -> is_finite x = true /\ Rabs (B2R x - X) <= (k + 1 / 10) * u.
Proof.
  intros K M (F & N & B). split; auto. unfold near in N. pose proof u_pos. pose proof eta_pos.
  assert (E : 10000 * eta <= / 100 * u). { rewrite u_val. apply Rle_trans with (10000 * bpow radix2 (-200)); [apply Rmult_le_compat_l; [lra|unfold eta; apply bpow_le; lia]|cbn; lra]. }
  assert (k * u * Rabs X <= k * u * 1) by (apply Rmult_le_compat_l; nra). assert (m * eta <= 1000 * eta) by (apply Rmult_le_compat_r; lra). lra.
Qed.
Lemma cs1 a b c d q : Rabs q <= 1 -> a * a + b * b = 1 -> c * c + d * d = 1 -> Rabs (q * a * c) + Rabs (b * d) <= 1.
Proof.
  intros Q H1 H2. rewrite !Rabs_mult. pose proof (Rabs_pos q). pose proof (Rabs_pos a) as A. pose proof (Rabs_pos b) as B. pose proof (Rabs_pos c) as C. pose proof (Rabs_pos d) as D.
  assert (E1 : Rabs a * Rabs a + Rabs b * Rabs b = 1) by (rewrite <- !Rabs_mult, !Rabs_right by nra; lra).
  assert (E2 : Rabs c * Rabs c + Rabs d * Rabs d = 1) by (rewrite <- !Rabs_mult, !Rabs_right by nra; lra).
  set (a' := Rabs a) in *. set (b' := Rabs b) in *. set (c' := Rabs c) in *. set (d' := Rabs d) in *.
  assert (a' * c' + b' * d' <= 1). { pose proof (Rle_0_sqr (a' - c')) as Q1. pose proof (Rle_0_sqr (b' - d')) as Q2. unfold Rsqr in *. lra. }
  assert (Rabs q * (a' * c') <= 1 * (a' * c')) by (apply Rmult_le_compat_r; [apply Rmult_le_pos; auto|lra]). lra.
Qed.
Lemma sc t : sin t * sin t + cos t * cos t = 1. Proof. pose proof (sin2_cos2 t) as T. unfold Rsqr in T. lra. Qed.
Lemma cs t : cos t * cos t + sin t * sin t = 1. Proof. pose proof (sc t). lra. Qed.

(** the products of the elementary rotations, entry by entry *)
Lemma mmul_rows a b c d g h i j k A B C D G H I J K : mmul (Mt (V a b c) (V d g h) (V i j k)) (Mt (V A B C) (V D G H) (V I J K)) =
  Mt (V (a * A + b * D + c * I) (a * B + b * G + c * J) (a * C + b * H + c * K)) (V (d * A + g * D + h * I) (d * B + g * G + h * J) (d * C + g * H + h * K))
     (V (i * A + j * D + k * I) (i * B + j * G + k * J) (i * C + j * H + k * K)).
Proof. reflexivity. Qed.
(** nine entries *)
Definition ent_ok (e : R) (a : float64) (E : R) : Prop := is_finite a = true /\ Rabs (B2R a - E) <= e.
Lemma mat_ok e (a b c d g h i j k : float64) A B C D G H I J K M :
  ent_ok e a A -> ent_ok e b B -> ent_ok e c C -> ent_ok e d D -> ent_ok e g G -> ent_ok e h H -> ent_ok e i I -> ent_ok e j J -> ent_ok e k K ->
  M = Mt (V A B C) (V D G H) (V I J K) -> fin_mat ((a, b, c), (d, g, h), (i, j, k)) /\ mat_within e (mat_of ((a, b, c), (d, g, h), (i, j, k))) M.
Proof.
  intros (Fa & Da) (Fb & Db) (Fc & Dc) (Fd & Dd) (Fg & Dg) (Fh & Dh) (Fi & Di) (Fj & Dj) (Fk & Dk) ->.
  unfold fin_mat, mat_within, vec_within, mat_of, vec_of; cbn [r0 r1 r2 Spec.vx Spec.vy Spec.vz]. repeat split; auto.
Qed.

(** ** the matrices are accurate: every entry to 10u (u = 2^-53), for all angles of at most 4 radians *)
Section Angles.
Variables (fsin fcos : float64 -> float64) (x y z : float64).
Hypotheses (GS : good_trig fsin sin) (GC : good_trig fcos cos) (Fx : is_finite x = true) (Fy : is_finite y = true) (Fz : is_finite z = true)
  (Bx : Rabs (B2R x) <= 4) (By : Rabs (B2R y) <= 4) (Bz : Rabs (B2R z) <= 4).
Let sx := fn_trig fsin sin x GS SIN_bound Fx Bx. Let sy := fn_trig fsin sin y GS SIN_bound Fy By. Let sz := fn_trig fsin sin z GS SIN_bound Fz Bz.
Let cx := fn_trig fcos cos x GC COS_bound Fx Bx. Let cy := fn_trig fcos cos y GC COS_bound Fy By. Let cz := fn_trig fcos cos z GC COS_bound Fz Bz.
Lemma fn_p2 (p q : float64) X Y : fn 2 2 p X -> fn 2 2 q Y -> fn (51 / 10) 10 (fmul p q) (X * Y).
Proof. intros A B. eapply fn_weaken; [| |apply (fn_mul 2 2 2 2); eauto]; lra. Qed.
Lemma fn_p3 (p q r : float64) X Y Z : fn 2 2 p X -> fn 2 2 q Y -> fn 2 2 r Z -> fn (82 / 10) 100 (fmul (fmul p q) r) (X * Y * Z).
Proof. intros A B C. eapply fn_weaken; [| |apply (fn_mul (51 / 10) 2 10 2); [lra|lra|lra|lra|apply fn_p2; eauto|eauto]]; lra. Qed.
Lemma ent2 (p q : float64) X Y E : fn 2 2 p X -> fn 2 2 q Y -> E = X * Y -> ent_ok (10 * u) (fmul p q) E.
Proof. intros A B ->. destruct (fn_abs (51 / 10) 10 _ _ ltac:(lra) ltac:(lra) (fn_p2 _ _ _ _ A B)) as (F & D). split; auto. pose proof u_pos. lra. Qed.
Lemma ent1 (p : float64) X E : fn 2 2 p X -> E = X -> ent_ok (10 * u) p E.
Proof. intros A ->. destruct (fn_abs 2 2 _ _ ltac:(lra) ltac:(lra) A) as (F & D). split; auto. pose proof u_pos. lra. Qed.
Lemma ent32 (p q r s t : float64) P Q R' S T E : fn 2 2 p P -> fn 2 2 q Q -> fn 2 2 r R' -> fn 2 2 s S -> fn 2 2 t T ->
  Rabs (P * Q * R') + Rabs (S * T) <= 1 -> E = P * Q * R' + S * T -> ent_ok (10 * u) (fadd (fmul (fmul p q) r) (fmul s t)) E.
Proof.
  intros A B C D G L ->. destruct (fn_sum (82 / 10) 100 _ _ _ _ ltac:(lra) ltac:(lra) (fn_p3 _ _ _ _ _ _ A B C) (fn_weaken (51 / 10) (82 / 10) 10 100 _ _ ltac:(lra) ltac:(lra) (fn_p2 _ _ _ _ D G)) L) as (F & H).
  split; auto. pose proof u_pos. lra.
Qed.
Lemma ent23 (p q r s t : float64) P Q R' S T E : fn 2 2 p P -> fn 2 2 q Q -> fn 2 2 r R' -> fn 2 2 s S -> fn 2 2 t T ->
  Rabs (P * Q * R') + Rabs (S * T) <= 1 -> E = P * Q * R' + S * T -> ent_ok (10 * u) (fadd (fmul s t) (fmul (fmul p q) r)) E.
Proof.
  intros A B C D G L ->. destruct (fn_sum (82 / 10) 100 _ _ _ _ ltac:(lra) ltac:(lra) (fn_weaken (51 / 10) (82 / 10) 10 100 _ _ ltac:(lra) ltac:(lra) (fn_p2 _ _ _ _ D G)) (fn_p3 _ _ _ _ _ _ A B C)) as (F & H).
  { lra. }
  split; auto. rewrite (Rplus_comm (P * Q * R')). pose proof u_pos. lra.
Qed.
Ltac c1 := first [apply cs1; [apply Rabs_le; first [apply SIN_bound|apply COS_bound|pose proof (SIN_bound (B2R y)); lra]|first [apply sc|apply cs]|first [apply sc|apply cs]]].
Lemma xyz_entries : fin_mat (fxyz2R fsin fcos x y z) /\ mat_within (10 * u) (mat_of (fxyz2R fsin fcos x y z)) (mmul (Rx (B2R x)) (mmul (Ry (B2R y)) (Rz (B2R z)))).
Proof.
  assert (ny := fn_neg _ _ _ _ sy). assert (nc := fn_neg _ _ _ _ cy).
  assert (D00 := ent2 _ _ _ _ (cos (B2R y) * cos (B2R z)) cy cz eq_refl). assert (D01 := ent2 _ _ _ _ (- cos (B2R y) * sin (B2R z)) nc sz eq_refl).
  assert (D02 := ent1 _ _ _ sy eq_refl).
  assert (D10 := ent32 _ _ _ _ _ _ _ _ _ _ (sin (B2R y) * sin (B2R x) * cos (B2R z) + cos (B2R x) * sin (B2R z)) sy sx cz cx sz ltac:(c1) eq_refl).
  assert (D11 := ent32 _ _ _ _ _ _ _ _ _ _ (- sin (B2R y) * sin (B2R x) * sin (B2R z) + cos (B2R x) * cos (B2R z)) ny sx sz cx cz ltac:(c1) eq_refl).
  assert (D12 := ent2 _ _ _ _ (- cos (B2R y) * sin (B2R x)) nc sx eq_refl).
  assert (D20 := ent32 _ _ _ _ _ _ _ _ _ _ (- sin (B2R y) * cos (B2R x) * cos (B2R z) + sin (B2R x) * sin (B2R z)) ny cx cz sx sz ltac:(c1) eq_refl).
  assert (D21 := ent32 _ _ _ _ _ _ _ _ _ _ (sin (B2R y) * cos (B2R x) * sin (B2R z) + sin (B2R x) * cos (B2R z)) sy cx sz sx cz ltac:(c1) eq_refl).
  assert (D22 := ent2 _ _ _ _ (cos (B2R y) * cos (B2R x)) cy cx eq_refl).
  eapply mat_ok; eauto. unfold Rx, Ry, Rz. rewrite !mmul_rows. f_equal; f_equal; ring.
Qed.
Lemma zyx_entries : fin_mat (fzyx2R fsin fcos z y x) /\ mat_within (10 * u) (mat_of (fzyx2R fsin fcos z y x)) (mmul (Rz (B2R z)) (mmul (Ry (B2R y)) (Rx (B2R x)))).
Proof.
  assert (ny := fn_neg _ _ _ _ sy). assert (nc := fn_neg _ _ _ _ cz). assert (ns := fn_neg _ _ _ _ sz).
  assert (CSc : forall a b, Rabs (cos a * sin (B2R y) * b) = Rabs (sin (B2R y) * cos a * b)) by (intros; f_equal; ring).
  assert (CSs : forall a b, Rabs (sin a * sin (B2R y) * b) = Rabs (sin (B2R y) * sin a * b)) by (intros; f_equal; ring).
  assert (Nm : forall a b, Rabs (- a * b) = Rabs (a * b)) by (intros; rewrite <- Rabs_Ropp; f_equal; ring).
  assert (D00 := ent2 _ _ _ _ (cos (B2R z) * cos (B2R y)) cz cy eq_refl).
  assert (D01 := ent23 _ _ _ _ _ _ _ _ _ _ (cos (B2R z) * sin (B2R y) * sin (B2R x) + - sin (B2R z) * cos (B2R x)) cz sy sx ns cx ltac:(rewrite CSc, Nm; c1) eq_refl).
  assert (D02 := ent23 _ _ _ _ _ _ _ _ _ _ (cos (B2R z) * sin (B2R y) * cos (B2R x) + sin (B2R z) * sin (B2R x)) cz sy cx sz sx ltac:(rewrite CSc; c1) eq_refl).
  assert (D10 := ent2 _ _ _ _ (sin (B2R z) * cos (B2R y)) sz cy eq_refl).
  assert (D11 := ent23 _ _ _ _ _ _ _ _ _ _ (sin (B2R z) * sin (B2R y) * sin (B2R x) + cos (B2R z) * cos (B2R x)) sz sy sx cz cx ltac:(rewrite CSs; c1) eq_refl).
  assert (D12 := ent23 _ _ _ _ _ _ _ _ _ _ (sin (B2R z) * sin (B2R y) * cos (B2R x) + - cos (B2R z) * sin (B2R x)) sz sy cx nc sx ltac:(rewrite CSs, Nm; c1) eq_refl).
  assert (D20 := ent1 _ _ _ ny eq_refl).
  assert (D21 := ent2 _ _ _ _ (cos (B2R y) * sin (B2R x)) cy sx eq_refl).
  assert (D22 := ent2 _ _ _ _ (cos (B2R y) * cos (B2R x)) cy cx eq_refl).
  eapply mat_ok; eauto. unfold Rx, Ry, Rz. rewrite !mmul_rows. f_equal; f_equal; ring.
Qed.
End Angles.

(** ** the angle of a vector of the plane whose components have small relative errors *)
Definition tol : R := bpow radix2 (-500).
Lemma tol_small : 0 < tol /\ 1000 * tol <= u * / 100000000000000000 /\ 1000 * eta <= tol /\ tol <= / 1000000.
Proof.
  split; [apply bpow_gt_0|]. unfold tol. split; [|split].
  - rewrite u_val. apply Rle_trans with (1000 * bpow radix2 (-200)); [apply Rmult_le_compat_l; [lra|apply bpow_le; lia]|cbn; lra].
  - apply Rle_trans with (bpow radix2 10 * eta); [apply Rmult_le_compat_r; [pose proof eta_pos; lra|cbn; lra]|]. unfold eta. rewrite <- bpow_plus. apply bpow_le; lia.
  - apply Rle_trans with (bpow radix2 (-60)); [apply bpow_le; lia|cbn; lra].
Qed.
Lemma ang_sens k1 k2 c o x y r t : / 100000000000000000 <= c <= 1 -> - PI <= t <= PI -> Rabs o <= PI -> 0 <= r -> 0 <= k1 <= 50 -> 0 <= k2 <= 50 ->
  near k1 tol x (c * cos o) -> near k2 tol y (c * sin o) ->
  x = r * cos t -> y = r * sin t -> exists k : Z, Rabs (t - o - 2 * IZR k * PI) <= ((k1 + k2) / 2 + 1 / 10) * u.
Proof.
  intros Pc Bt Bo Pr K1 K2 Dx Dy Ex Ey. pose proof u_pos as Pu. pose proof u_tiny as Su. pose proof PI_RGT_0 as PP. destruct tol_small as (Pe & Te & _).
  unfold near in *. set (dx := x - c * cos o) in *. set (dy := y - c * sin o) in *.
  assert (exists k : Z, Rabs (t - o - 2 * IZR k * PI) <= PI) as (k & Hk).
  { apply Rabs_le_inv in Bo. destruct (Rlt_dec PI (t - o)); [exists 1%Z; apply Rabs_le; lra|]. destruct (Rlt_dec (t - o) (- PI)); [exists (-1)%Z; apply Rabs_le; lra|]. exists 0%Z; apply Rabs_le; lra. }
  exists k. set (d := t - o - 2 * IZR k * PI) in *.
  assert (Sd : sin d = sin (t - o) /\ cos d = cos (t - o)).
  { unfold d. replace (t - o - 2 * IZR k * PI) with (t - o + 2 * IZR (- k) * PI) by (rewrite opp_IZR; ring). split; [apply sin_period_Z|apply cos_period_Z]. }
  destruct Sd as (Sd & Cd). pose proof (sc o) as T. pose proof (SIN_bound o) as SB. pose proof (COS_bound o) as CB.
  assert (S : r * sin d = dy * cos o - dx * sin o).
  { rewrite Sd, sin_minus. transitivity (r * sin t * cos o - r * cos t * sin o); [ring|]. rewrite <- Ex, <- Ey. unfold dx, dy. ring. }
  assert (C : r * cos d = c + (dx * cos o + dy * sin o)).
  { rewrite Cd, cos_minus. transitivity (r * cos t * cos o + r * sin t * sin o); [ring|]. rewrite <- Ex, <- Ey. unfold dx, dy.
    transitivity (c * (sin o * sin o + cos o * cos o) + (x * cos o + y * sin o - c * (sin o * sin o + cos o * cos o))); [ring|]. rewrite T at 1. ring. }
  rewrite Rabs_mult, (Rabs_right c) in Dx, Dy by lra.
  set (A := Rabs (cos o)) in *. set (B := Rabs (sin o)) in *.
  assert (PA : 0 <= A <= 1) by (split; [apply Rabs_pos|apply Rabs_le; lra]). assert (PB : 0 <= B <= 1) by (split; [apply Rabs_pos|apply Rabs_le; lra]).
  assert (AB : A * A + B * B = 1). { unfold A, B. rewrite <- !Rabs_mult, !Rabs_right by nra. lra. }
  set (m1 := k1 * u * c) in *. set (m2 := k2 * u * c) in *.
  assert (Pm1 : 0 <= m1) by (unfold m1; apply Rmult_le_pos; [apply Rmult_le_pos; lra|lra]). assert (Pm2 : 0 <= m2) by (unfold m2; apply Rmult_le_pos; [apply Rmult_le_pos; lra|lra]).
  replace (k1 * u * (c * A)) with (m1 * A) in Dx by (unfold m1; ring). replace (k2 * u * (c * B)) with (m2 * B) in Dy by (unfold m2; ring).
  assert (M1 : Rabs (dy * cos o) <= m2 * (A * B) + tol).
  { rewrite Rabs_mult. fold A. assert (Rabs dy * A <= (m2 * B + tol) * A) by (apply Rmult_le_compat_r; lra). nra. }
  assert (M2 : Rabs (dx * sin o) <= m1 * (A * B) + tol).
  { rewrite Rabs_mult. fold B. assert (Rabs dx * B <= (m1 * A + tol) * B) by (apply Rmult_le_compat_r; lra). nra. }
  assert (M3 : Rabs (dx * cos o) <= m1 + tol).
  { rewrite Rabs_mult. fold A. assert (Rabs dx * A <= (m1 * A + tol) * A) by (apply Rmult_le_compat_r; lra). assert (m1 * (A * A) <= m1 * 1) by (apply Rmult_le_compat_l; nra). nra. }
  assert (M4 : Rabs (dy * sin o) <= m2 + tol).
  { rewrite Rabs_mult. fold B. assert (Rabs dy * B <= (m2 * B + tol) * B) by (apply Rmult_le_compat_r; lra). assert (m2 * (B * B) <= m2 * 1) by (apply Rmult_le_compat_l; nra). nra. }
  assert (AB2 : 2 * (A * B) <= 1). { pose proof (Rle_0_sqr (A - B)) as Q. unfold Rsqr in Q. lra. }
  assert (KS : Rabs (r * sin d) <= (m1 + m2) / 2 + 2 * tol).
  { rewrite S. replace (dy * cos o - dx * sin o) with (dy * cos o + - (dx * sin o)) by ring. eapply Rle_trans; [apply Rabs_triang|]. rewrite Rabs_Ropp.
    assert ((m1 + m2) * (2 * (A * B)) <= (m1 + m2) * 1) by (apply Rmult_le_compat_l; lra). lra. }
  assert (KC : c - (m1 + m2) - 2 * tol <= r * cos d).
  { rewrite C. assert (Rabs (dx * cos o + dy * sin o) <= m1 + m2 + 2 * tol) by (eapply Rle_trans; [apply Rabs_triang|]; lra).
    apply Rabs_le_inv in H. lra. }
  assert (UC : u * / 100000000000000000 <= u * c) by (apply Rmult_le_compat_l; lra).
  set (K := (k1 + k2) / 2 + / 100). assert (PK : 0 <= K <= 51) by (unfold K; lra).
  assert (KS' : Rabs (r * sin d) <= K * (u * c)) by (unfold m1, m2, K in *; lra).
  assert (U2 : u * c <= / 1000000000000000 * c) by (apply Rmult_le_compat_r; lra).
  assert (KC' : (1 - 101 * u) * c <= r * cos d).
  { unfold m1, m2 in *. assert (k1 * (u * c) <= 50 * (u * c)) by (apply Rmult_le_compat_r; [apply Rmult_le_pos; lra|lra]). assert (k2 * (u * c) <= 50 * (u * c)) by (apply Rmult_le_compat_r; [apply Rmult_le_pos; lra|lra]). lra. }
  assert (P0 : 0 < cos d). { assert (0 < (1 - 101 * u) * c) by (apply Rmult_lt_0_compat; lra). apply Rnot_le_lt. intros N. assert (r * cos d <= 0) by nra. lra. }
  pose proof (abs_angle d (Rabs_le_inv _ _ Hk) P0) as AA. rewrite Rabs_mult, (Rabs_right r) in KS' by lra. pose proof (Rabs_pos d) as PD.
  assert (Q : Rabs d * ((1 - 101 * u) * c) <= K * (u * c)).
  { apply Rle_trans with (Rabs d * (r * cos d)); [apply Rmult_le_compat_l; auto|]. replace (Rabs d * (r * cos d)) with (r * (Rabs d * cos d)) by ring.
    eapply Rle_trans; [apply Rmult_le_compat_l; [lra|exact AA]|]. exact KS'. }
  assert (Q2 : Rabs d * (1 - 101 * u) <= K * u) by (apply (Rmult_le_reg_r c); lra).
  assert (Q3 : Rabs d <= 52 * u). { assert (K * u <= 51 * u) by (apply Rmult_le_compat_r; lra). nra. }
  assert (Q4 : Rabs d * (101 * u) <= 52 * u * (101 * u)) by (apply Rmult_le_compat_r; lra).
  assert (Q5 : u * u <= / 1000000000000000 * u) by (apply Rmult_le_compat_r; lra). unfold K in *. lra.
Qed.
Lemma near_nonzero k c o x y : / 100000000000000000 <= c <= 1 -> 0 <= k <= 50 -> near k tol x (c * cos o) -> near k tol y (c * sin o) -> 0 < y * y + x * x.
Proof.
  intros Pc K Dx Dy. pose proof u_pos as Pu. pose proof u_tiny as Su. destruct tol_small as (Pe & Te & _).
  assert (0 <= y * y) by nra. assert (0 <= x * x) by nra.
  destruct (Req_EM_T x 0) as [Zx|]; [|nra]. destruct (Req_EM_T y 0) as [Zy|]; [|nra]. exfalso. unfold near in *. rewrite Zx in Dx. rewrite Zy in Dy.
  rewrite Rminus_0_l, Rabs_Ropp, Rabs_mult, (Rabs_right c) in Dx, Dy by lra.
  set (A := Rabs (cos o)) in *. set (B := Rabs (sin o)) in *.
  assert (AB : A * A + B * B = 1). { unfold A, B. rewrite <- !Rabs_mult, !Rabs_right by nra. apply cs. }
  assert (PA : 0 <= A) by apply Rabs_pos. assert (PBb : 0 <= B) by apply Rabs_pos.
  assert (X : forall a, 0 <= a -> c * a <= k * u * (c * a) + tol -> a <= / 2).
  { intros a Pa Ha. apply Rnot_lt_le. intros N. assert (Pca : 0 <= c * a) by (apply Rmult_le_pos; lra). assert (k * u <= / 1000000) by (pose proof (ku_small k ltac:(lra)); lra).
    assert (k * u * (c * a) <= / 1000000 * (c * a)) by (apply Rmult_le_compat_r; lra).
    assert (c * / 2 <= c * a) by (apply Rmult_le_compat_l; lra). assert (u * / 100000000000000000 <= 1 * / 100000000000000000) by (apply Rmult_le_compat_r; lra). lra. }
  pose proof (X A PA Dx). pose proof (X B PBb Dy). nra.
Qed.
Lemma atan_back arctan2 k1 k2 c o (q p : float64) : good_atan2 arctan2 -> is_finite q = true -> is_finite p = true ->
  / 100000000000000000 <= c <= 1 -> Rabs o <= PI -> 0 <= k1 <= 50 -> 0 <= k2 <= 50 -> near k1 tol (B2R q) (c * cos o) -> near k2 tol (B2R p) (c * sin o) ->
  exists r t, 0 < r /\ - PI <= t <= PI /\ B2R p = r * sin t /\ B2R q = r * cos t /\ is_finite (arctan2 p q) = true /\ Rabs (B2R (arctan2 p q) - t) <= 2 * u * Rabs t + 2 * eta /\
    exists k : Z, Rabs (t - o - 2 * IZR k * PI) <= ((k1 + k2) / 2 + 1 / 10) * u.
Proof.
  intros GA Fq Fp Pc Bo K1 K2 Nq Np. destruct (bsign_val p Fp) as (H0 & H1).
  assert (NZ : 0 < B2R p * B2R p + B2R q * B2R q). { apply (near_nonzero (Rmax k1 k2) c o); auto; [split; [apply Rle_trans with k1; [lra|apply Rmax_l]|apply Rmax_lub; lra]|eapply near_weaken; [apply Rmax_l| |exact Nq]; lra|eapply near_weaken; [apply Rmax_r| |exact Np]; lra]. }
  destruct (polar_signed (Bsign p) (B2R p) (B2R q) H0 H1 NZ) as (r & t & Pr & Bt & S0 & S1 & Es & Ec & _).
  destruct (GA p q t r Fp Fq Bt Pr S0 S1 Es Ec) as (F & D).
  exists r, t. repeat split; auto; try lra. apply (ang_sens k1 k2 c o (B2R q) (B2R p) r t); auto; lra.
Qed.
(** up to a whole number of turns *)
Lemma atan_turns arctan2 c o (q p : float64) : good_atan2 arctan2 -> / 100000000000000000 <= c <= 1 -> Rabs o <= PI ->
  fn (51 / 10) 10 q (c * cos o) -> fn (51 / 10) 10 p (c * sin o) ->
  is_finite (arctan2 p q) = true /\ Rabs (B2R (arctan2 p q)) <= 3142 / 1000 /\ exists k : Z, Rabs (B2R (arctan2 p q) - o - 2 * IZR k * PI) <= 12 * u.
Proof.
  intros GA Pc Bo (Fq & Nq & _) (Fp & Np & _). destruct tol_small as (_ & _ & Et & _). pose proof eta_pos as Pe. pose proof u_pos as Pu. pose proof u_small as Su. pose proof tiny_consts as TC. pose proof pi_bounds as PB. rewrite pi64_val in PB.
  destruct (atan_back arctan2 (51 / 10) (51 / 10) c o q p GA Fq Fp Pc Bo) as (r & t & _ & Bt & _ & _ & F & D & k & Hk); try lra; [eapply near_weaken; [| |exact Nq]; lra|eapply near_weaken; [| |exact Np]; lra|].
  assert (L1 : Rabs t <= PI) by (apply Rabs_le; lra). assert (L2 : u * Rabs t <= u * (3142 / 1000)) by (apply Rmult_le_compat_l; lra).
  split; auto. split. { replace (B2R (arctan2 p q)) with ((B2R (arctan2 p q) - t) + t) by ring. eapply Rle_trans; [apply Rabs_triang|]. pose proof (bpow_gt_0 radix2 (-399)). lra. }
  exists k. replace (B2R (arctan2 p q) - o - 2 * IZR k * PI) with ((B2R (arctan2 p q) - t) + (t - o - 2 * IZR k * PI)) by ring. eapply Rle_trans; [apply Rabs_triang|]. pose proof (bpow_gt_0 radix2 (-399)). lra.
Qed.
(** for an angle of at most a quarter turn and a cosine that is not negative *)
Lemma atan_quarter arctan2 o (q p : float64) : good_atan2 arctan2 -> Rabs o <= PI / 2 -> is_finite q = true -> 0 <= B2R q ->
  near 9 tol (B2R q) (cos o) -> fn 2 2 p (sin o) ->
  is_finite (arctan2 p q) = true /\ Rabs (B2R (arctan2 p q) - o) <= 9 * u.
Proof.
  intros GA Bo Fq Pq Nq (Fp & Np & _). destruct tol_small as (_ & _ & Et & _). pose proof eta_pos as Pe. pose proof u_pos as Pu. pose proof u_small as Su. pose proof tiny_consts as TC. pose proof pi_bounds as PB. rewrite pi64_val in PB. pose proof (bpow_gt_0 radix2 (-399)) as P3.
  destruct (atan_back arctan2 9 2 1 o q p GA Fq Fp) as (r & t & Pr & Bt & _ & Ec & F & D & k & Hk); try lra; [rewrite Rmult_1_l; auto|rewrite Rmult_1_l; eapply near_weaken; [| |exact Np]; lra|].
  assert (Ht : - (PI / 2) <= t <= PI / 2). { apply half_plane; auto. apply Rnot_lt_le. intros N. assert (r * cos t < 0) by nra. lra. }
  assert (k = 0%Z).
  { apply Rabs_le_inv in Hk. apply Rabs_le_inv in Bo. destruct (Z.eq_dec k 0) as [|N]; auto. exfalso.
    assert (1 <= k \/ k <= -1)%Z as [G|G] by lia; apply IZR_le in G; nra. }
  subst k. assert (L1 : Rabs t <= PI / 2) by (apply Rabs_le; lra). assert (L2 : u * Rabs t <= u * (1571 / 1000)) by (apply Rmult_le_compat_l; lra).
  split; auto. replace (B2R (arctan2 p q) - o) with ((B2R (arctan2 p q) - t) + (t - o - 2 * IZR 0 * PI)) by (cbn; ring). eapply Rle_trans; [apply Rabs_triang|]. lra.
Qed.

(** ** the cosine of y out of four entries *)
Lemma ftwo_val : B2R ftwo = 2. Proof. unfold ftwo, f, B2R, F2R; cbn. lra. Qed.
Lemma cosy_near (a b c d : float64) o x z : 0 <= cos o -> fn (51 / 10) 10 a (cos o * cos z) -> fn (51 / 10) 10 b (cos o * sin z) ->
  fn (51 / 10) 10 c (cos o * sin x) -> fn (51 / 10) 10 d (cos o * cos x) ->
  let q := fsqrt (fdiv (fadd (fadd (fadd (fmul a a) (fmul b b)) (fmul c c)) (fmul d d)) ftwo) in
  is_finite q = true /\ 0 <= B2R q /\ near 9 tol (B2R q) (cos o).
Proof.
  intros Po Ha Hb Hc Hd q. destruct tol_small as (Pt & _ & Et & _). pose proof eta_pos as Pe. pose proof eta_tiny as Te. pose proof (one_big 400 ltac:(lia)) as B4. pose proof (one_big 900 ltac:(lia)) as B9.
  assert (SQ : forall (w : float64) W, fn (51 / 10) 10 w W -> is_finite (fmul w w) = true /\ 0 <= B2R (fmul w w) /\ near (113 / 10) (41 * eta) (B2R (fmul w w)) (W * W) /\ 0 <= W * W <= 1).
  { intros w W H. destruct (fn_mul (51 / 10) (51 / 10) 10 10 w w W W ltac:(lra) ltac:(lra) ltac:(lra) ltac:(lra) H H) as (F & N & B). destruct H as (Fw & _).
    split; auto. split; [apply fmul_sq_nonneg; auto|]. split; [eapply near_weaken; [| |exact N]; lra|]. split; [nra|]. apply Rabs_le_inv in B. lra. }
  destruct (SQ _ _ Ha) as (Fa & Pa & Na & Ba). destruct (SQ _ _ Hb) as (Fb & Pb & Nb & Bb). destruct (SQ _ _ Hc) as (Fc & Pc & Nc & Bc). destruct (SQ _ _ Hd) as (Fd & Pd & Nd & Bd). clear SQ.
  unfold q; clear q. set (aa := fmul a a) in *. set (bb := fmul b b) in *. set (cc := fmul c c) in *. set (dd := fmul d d) in *. clearbody aa bb cc dd.
  pose (A2 := cos o * cos z * (cos o * cos z)). pose (B2 := cos o * sin z * (cos o * sin z)). pose (C2' := cos o * sin x * (cos o * sin x)). pose (D2 := cos o * cos x * (cos o * cos x)).
  fold A2 in Na, Ba. fold B2 in Nb, Bb. fold C2' in Nc, Bc. fold D2 in Nd, Bd.
  destruct (fadd_near_pos aa bb (113 / 10) (41 * eta) (41 * eta) A2 B2 Fa Fb) as (F1 & N1); [lra|lra|lra|exact Na|exact Nb|lra|lra|].
  destruct (fadd_near_pos (fadd aa bb) cc (1233 / 100) (164 * eta) (41 * eta) (A2 + B2) C2' F1 Fc) as (F2 & N2); [lra|lra|lra|eapply near_weaken; [| |exact N1]; lra|eapply near_weaken; [| |exact Nc]; lra|split; [lra|]; apply Rle_trans with (bpow radix2 1); [cbn; lra|apply bpow_le; lia]|lra|].
  destruct (fadd_near_pos (fadd (fadd aa bb) cc) dd (1334 / 100) (410 * eta) (41 * eta) (A2 + B2 + C2') D2 F2 Fd) as (F3 & N3); [lra|lra|lra|eapply near_weaken; [| |exact N2]; lra|eapply near_weaken; [| |exact Nd]; lra|split; [lra|]; apply Rle_trans with (bpow radix2 2); [cbn; lra|apply bpow_le; lia]|lra|].
  assert (P3 : 0 <= B2R (fadd (fadd (fadd aa bb) cc) dd)) by (repeat apply fadd_nonneg; auto).
  set (s := fadd (fadd (fadd aa bb) cc) dd) in *. clearbody s.
  assert (ES : cos o * cos z * (cos o * cos z) + cos o * sin z * (cos o * sin z) + cos o * sin x * (cos o * sin x) + cos o * cos x * (cos o * cos x) = 2 * (cos o * cos o)).
  { transitivity (cos o * cos o * (cos z * cos z + sin z * sin z) + cos o * cos o * (sin x * sin x + cos x * cos x)); [ring|]. rewrite sc, cs. ring. }
  unfold A2, B2, C2', D2 in N3. rewrite ES in N3. pose proof (COS_bound o) as CB. assert (C2 : 0 <= cos o * cos o <= 1) by nra.
  destruct (fdiv_near s ftwo (1435 / 100) 0 (902 * eta) (2 * (cos o * cos o)) 2 F3) as (F4 & N4); try lra.
  { eapply near_weaken; [| |exact N3]; lra. } { rewrite ftwo_val. apply near_exact. } { rewrite Rabs_right by lra. apply Rle_trans with (bpow radix2 1); [cbn; lra|apply bpow_le; lia]. }
  { rewrite Rabs_right by lra. apply Rle_trans with (bpow radix2 1); [apply bpow_le; lia|cbn; lra]. }
  assert (P4 : 0 <= B2R (fdiv s ftwo)) by (apply fdiv_nonneg; auto; rewrite ftwo_val; lra).
  replace (2 * (cos o * cos o) / 2) with (cos o * cos o) in N4 by field.
  destruct (fsqrt_near0 (fdiv s ftwo) (154 / 10) (1805 * eta) (cos o * cos o) F4) as (F5 & P5 & N5); try lra.
  { eapply near_weaken; [| |exact N4]; [lra|]. rewrite Rabs_right by lra. lra. }
  split; auto. split; auto. rewrite sqrt_square in N5 by auto. eapply near_weaken; [| |exact N5]; [lra|].
  assert (S : sqrt (1805 * eta) <= bpow radix2 (-532)).
  { rewrite <- (sqrt_square (bpow radix2 (-532))) by apply bpow_ge_0. apply sqrt_le_1_alt. rewrite <- bpow_plus. apply Rle_trans with (bpow radix2 11 * eta); [apply Rmult_le_compat_r; [lra|cbn; lra]|]. unfold eta. rewrite <- bpow_plus. apply bpow_le; lia. }
  assert (4 * bpow radix2 (-532) <= tol). { unfold tol. change 4 with (bpow radix2 2). rewrite <- bpow_plus. apply bpow_le; lia. } pose proof (bpow_gt_0 radix2 (-532)). lra.
Qed.

(** ** the angles come back *)
(** [a] is [b] up to whole turns and an error of [e] *)
Definition same_angle (e a b : R) : Prop := exists k : Z, Rabs (a - b - 2 * IZR k * PI) <= e.
Definition turns_back (t : float64) (o e : R) : Prop := is_finite t = true /\ Rabs (B2R t) <= 3142 / 1000 /\ same_angle e (B2R t) o.
Definition comes_back (t : float64) (o e : R) : Prop := is_finite t = true /\ Rabs (B2R t - o) <= e.
Lemma R2xyz_back arctan2 (a b c d g h i j k : float64) X Y Z : good_atan2 arctan2 -> Rabs X <= B2R pi64 -> Rabs Y <= B2R half_pi64 -> Rabs Z <= B2R pi64 ->
  fn (51 / 10) 10 a (cos Y * cos Z) -> fn (51 / 10) 10 b (- (cos Y * sin Z)) -> fn 2 2 c (sin Y) ->
  fn (51 / 10) 10 h (- (cos Y * sin X)) -> fn (51 / 10) 10 k (cos Y * cos X) ->
  exists x y z, fR2xyz arctan2 ((a, b, c), (d, g, h), (i, j, k)) = (x, y, z) /\ turns_back x X (12 * u) /\ comes_back y Y (9 * u) /\ turns_back z Z (12 * u).
Proof.
  intros GA BX BY BZ Ha Hb Hc Hh Hk. pose proof (cos_lat_pos _ BY) as PC. pose proof (COS_bound Y) as CB. pose proof pi_bounds as PB.
  assert (VH : B2R half_pi64 = 7074237752028440 / 4503599627370496) by (unfold half_pi64, f, B2R, F2R; cbn; lra).
  pose proof (fn_neg _ _ _ _ Hb) as Nb. rewrite Ropp_involutive in Nb. pose proof (fn_neg _ _ _ _ Hh) as Nh. rewrite Ropp_involutive in Nh.
  destruct (atan_turns arctan2 (cos Y) Z a (fneg b) GA ltac:(lra) ltac:(lra) Ha Nb) as (F1 & B1 & D1).
  destruct (atan_turns arctan2 (cos Y) X k (fneg h) GA ltac:(lra) ltac:(lra) Hk Nh) as (F2 & B2 & D2).
  assert (Q := cosy_near a b h k Y (- X) (- Z) ltac:(lra)). rewrite !sin_neg, !cos_neg in Q.
  replace (cos Y * - sin Z) with (- (cos Y * sin Z)) in Q by ring. replace (cos Y * - sin X) with (- (cos Y * sin X)) in Q by ring.
  specialize (Q Ha Hb Hh Hk). cbv zeta in Q. destruct Q as (Fq & Pq & Nq).
  destruct (atan_quarter arctan2 Y _ c GA ltac:(rewrite pi64_val in PB; lra) Fq Pq Nq Hc) as (F3 & D3).
  do 3 eexists. split; [reflexivity|]. split; [|split]; [split; [exact F2|split; [exact B2|exact D2]]|split; [exact F3|exact D3]|split; [exact F1|split; [exact B1|exact D1]]].
Qed.
Lemma fn_eq k m x X Y : X = Y -> fn k m x X -> fn k m x Y. Proof. intros ->. auto. Qed.
Lemma turns_neg t o e : turns_back t (- o) e -> turns_back (fneg t) o e.
Proof.
  intros (F & B & k & D). unfold fneg, turns_back, same_angle. rewrite is_finite_Bopp, B2R_Bopp, Rabs_Ropp. split; auto. split; auto. exists (- k)%Z. rewrite opp_IZR, <- Rabs_Ropp.
  replace (- (- B2R t - o - 2 * - IZR k * PI)) with (B2R t - - o - 2 * IZR k * PI) by ring. exact D.
Qed.
Lemma comes_neg t o e : comes_back t (- o) e -> comes_back (fneg t) o e.
Proof.
  intros (F & D). unfold fneg, comes_back. rewrite is_finite_Bopp, B2R_Bopp. split; auto. rewrite <- Rabs_Ropp. replace (- (- B2R t - o)) with (B2R t - - o) by ring. exact D.
Qed.

(** angles as the functions name them: |x|, |z| at most the double nearest pi and |y| at most the double nearest pi / 2 *)
Definition euler_range (x y z : float64) : Prop :=
  is_finite x = true /\ is_finite y = true /\ is_finite z = true /\ Rabs (B2R x) <= B2R pi64 /\ Rabs (B2R y) <= B2R half_pi64 /\ Rabs (B2R z) <= B2R pi64.
Lemma range_4 x y z : euler_range x y z -> Rabs (B2R x) <= 4 /\ Rabs (B2R y) <= 4 /\ Rabs (B2R z) <= 4.
Proof.
  intros (_ & _ & _ & A & B & C). assert (VH : B2R half_pi64 = 7074237752028440 / 4503599627370496) by (unfold half_pi64, f, B2R, F2R; cbn; lra). rewrite pi64_val in *. lra.
Qed.

Theorem C103_xyz_round_trip : forall fsin fcos arctan2 x y z, good_trig fsin sin -> good_trig fcos cos -> good_atan2 arctan2 -> euler_range x y z ->
  exists x' y' z', fR2xyz arctan2 (fxyz2R fsin fcos x y z) = (x', y', z') /\
    turns_back x' (B2R x) (12 * u) /\ comes_back y' (B2R y) (9 * u) /\ turns_back z' (B2R z) (12 * u).
Proof.
  intros fsin fcos arctan2 x y z GS GC GA HR. destruct (range_4 _ _ _ HR) as (Bx & By & Bz). destruct HR as (Fx & Fy & Fz & Rx & Ry & Rz).
  pose proof (fn_trig fsin sin x GS SIN_bound Fx Bx) as sx. pose proof (fn_trig fsin sin y GS SIN_bound Fy By) as sy. pose proof (fn_trig fsin sin z GS SIN_bound Fz Bz) as sz.
  pose proof (fn_trig fcos cos x GC COS_bound Fx Bx) as cx. pose proof (fn_trig fcos cos y GC COS_bound Fy By) as cy. pose proof (fn_trig fcos cos z GC COS_bound Fz Bz) as cz.
  pose proof (fn_neg _ _ _ _ cy) as ny. unfold fxyz2R. cbv zeta. apply R2xyz_back; auto.
  - apply fn_p2; auto.
  - eapply fn_eq; [|apply fn_p2; eauto]. ring.
  - eapply fn_eq; [|apply fn_p2; eauto]. ring.
  - apply fn_p2; auto.
Qed.
Theorem C103_zyx_round_trip : forall fsin fcos arctan2 x y z, good_trig fsin sin -> good_trig fcos cos -> good_atan2 arctan2 -> euler_range x y z ->
  exists x' y' z', fR2zyx arctan2 (fzyx2R fsin fcos z y x) = (z', y', x') /\
    turns_back x' (B2R x) (12 * u) /\ comes_back y' (B2R y) (9 * u) /\ turns_back z' (B2R z) (12 * u).
Proof.
  intros fsin fcos arctan2 x y z GS GC GA HR. destruct (range_4 _ _ _ HR) as (Bx & By & Bz). destruct HR as (Fx & Fy & Fz & Rx & Ry & Rz).
  pose proof (fn_trig fsin sin x GS SIN_bound Fx Bx) as sx. pose proof (fn_trig fsin sin y GS SIN_bound Fy By) as sy. pose proof (fn_trig fsin sin z GS SIN_bound Fz Bz) as sz.
  pose proof (fn_trig fcos cos x GC COS_bound Fx Bx) as cx. pose proof (fn_trig fcos cos y GC COS_bound Fy By) as cy. pose proof (fn_trig fcos cos z GC COS_bound Fz Bz) as cz.
  pose proof (fn_neg _ _ _ _ sy) as ny. unfold fzyx2R, fR2zyx, mT64. cbv zeta. cbv iota beta.
  match goal with |- context [fR2xyz _ ((?a, ?b, ?c), (?d, ?g, ?h), (?i, ?j, ?k))] => destruct (R2xyz_back arctan2 a b c d g h i j k (- B2R x) (- B2R y) (- B2R z)) as (x' & y' & z' & E & Hx & Hy & Hz) end; rewrite ?Rabs_Ropp, ?sin_neg, ?cos_neg; auto.
  - eapply fn_eq; [|apply fn_p2; eauto]. ring.
  - eapply fn_eq; [|apply fn_p2; eauto]. ring.
  - eapply fn_eq; [|apply fn_p2; eauto]. ring.
  - apply fn_p2; auto.
  - rewrite E. do 3 eexists. split; [reflexivity|]. split; [apply turns_neg, Hx|split; [apply comes_neg, Hy|apply turns_neg, Hz]].
Qed.

(** ** the matrices: every entry to 10u for all angles up to 4 radians, and the columns are orthonormal to 61u *)
Lemma near_orthonormal e a M : 0 <= e <= 1 / 1000 -> mat_within e a M -> rotation M -> mat_within (61 / 10 * e) (mmul (mT a) a) mI.
Proof.
  intros He W (O & _). unfold orthogonal in O. destruct a as [[a b c] [d g h] [i j k]]. destruct M as [[A B C] [D G H] [I J K]].
  unfold mat_within, vec_within in W; cbn [r0 r1 r2 Spec.vx Spec.vy Spec.vz] in W. destruct W as ((Wa & Wb & Wc) & (Wd & Wg & Wh) & (Wi & Wj & Wk)).
  unfold mT, mI in *; cbn [r0 r1 r2 Spec.vx Spec.vy Spec.vz] in *. rewrite mmul_rows in *. injection O as O1 O2 O3 O4 O5 O6 O7 O8 O9.
  assert (U : forall p, p * p <= 1 -> Rabs p <= 1) by (intros p Hp; apply Rabs_le; nra).
  assert (UA : Rabs A <= 1) by (apply U; nra). assert (UB : Rabs B <= 1) by (apply U; nra). assert (UC : Rabs C <= 1) by (apply U; nra).
  assert (UD : Rabs D <= 1) by (apply U; nra). assert (UG : Rabs G <= 1) by (apply U; nra). assert (UH : Rabs H <= 1) by (apply U; nra).
  assert (UI : Rabs I <= 1) by (apply U; nra). assert (UJ : Rabs J <= 1) by (apply U; nra). assert (UK : Rabs K <= 1) by (apply U; nra). clear U.
  assert (E2 : e * e <= / 1000 * e) by (apply Rmult_le_compat_r; lra).
  assert (T1 : forall p q P Q, Rabs (p - P) <= e -> Rabs (q - Q) <= e -> Rabs P <= 1 -> Rabs Q <= 1 -> Rabs (p * q - P * Q) <= 201 / 100 * e).
  { intros p q P Q Hp Hq HP HQ. replace (p * q - P * Q) with ((p - P) * Q + P * (q - Q) + (p - P) * (q - Q)) by ring.
    eapply Rle_trans; [apply Rabs_triang|]. eapply Rle_trans; [apply Rplus_le_compat_r, Rabs_triang|]. rewrite !Rabs_mult.
    assert (Rabs (p - P) * Rabs Q <= e * 1) by (apply Rmult_le_compat; auto; apply Rabs_pos). assert (Rabs P * Rabs (q - Q) <= 1 * e) by (apply Rmult_le_compat; auto; apply Rabs_pos).
    assert (Rabs (p - P) * Rabs (q - Q) <= e * e) by (apply Rmult_le_compat; auto; apply Rabs_pos). lra. }
  assert (T3 : forall p q r s t v P Q R' S T V', Rabs (p - P) <= e -> Rabs (q - Q) <= e -> Rabs (r - R') <= e -> Rabs (s - S) <= e -> Rabs (t - T) <= e -> Rabs (v - V') <= e ->
    Rabs P <= 1 -> Rabs Q <= 1 -> Rabs R' <= 1 -> Rabs S <= 1 -> Rabs T <= 1 -> Rabs V' <= 1 -> Rabs (p * q + r * s + t * v - (P * Q + R' * S + T * V')) <= 61 / 10 * e).
  { intros. replace (p * q + r * s + t * v - (P * Q + R' * S + T * V')) with ((p * q - P * Q) + (r * s - R' * S) + (t * v - T * V')) by ring.
    eapply Rle_trans; [apply Rabs_triang|]. eapply Rle_trans; [apply Rplus_le_compat_r, Rabs_triang|].
    pose proof (T1 p q P Q). pose proof (T1 r s R' S). pose proof (T1 t v T V'). lra. }
  unfold mat_within, vec_within; cbn [r0 r1 r2 Spec.vx Spec.vy Spec.vz].
  rewrite <- O1, <- O2, <- O3, <- O4, <- O5, <- O6, <- O7, <- O8, <- O9 at 1. 
  repeat split; apply T3; auto.
Qed.
