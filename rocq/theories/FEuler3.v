(** * C103: Euler angles in binary64 out of any matrix that is near a rotation (rotation.py 86-140, 143-190): y to twice the error
    of the entries everywhere, x and z to 1.5 times the error over cos y *)
From Coq Require Import ZArith Reals Lra Lia Bool Psatz.
From Flocq Require Import Core BinarySingleNaN Relative.
From Verif Require Import Spec LVec LAngle LMat LRot FTiny FBase FUnit FPi FAngle FDist FGreat FLatLon FInv FInv2 FInv3 FRel FRel2 FEuler FEuler2.
Local Open Scope R_scope.

(** ** the angle of a vector of the plane of length about [c], moved by at most [E] *)
Lemma ang_abs c E o x y r t : 0 < c -> 0 <= E < c -> - PI <= t <= PI -> Rabs o <= PI -> 0 <= r ->
  (x - c * cos o) * (x - c * cos o) + (y - c * sin o) * (y - c * sin o) <= E * E ->
  x = r * cos t -> y = r * sin t -> exists k : Z, Rabs (t - o - 2 * IZR k * PI) * (c - E) <= E /\ Rabs (t - o - 2 * IZR k * PI) <= PI.
Proof.
  intros Pc PE Bt Bo Pr D Ex Ey. pose proof PI_RGT_0 as PP. set (dx := x - c * cos o) in *. set (dy := y - c * sin o) in *.
  assert (exists k : Z, Rabs (t - o - 2 * IZR k * PI) <= PI) as (k & Hk).
  { apply Rabs_le_inv in Bo. destruct (Rlt_dec PI (t - o)); [exists 1%Z; apply Rabs_le; lra|]. destruct (Rlt_dec (t - o) (- PI)); [exists (-1)%Z; apply Rabs_le; lra|]. exists 0%Z; apply Rabs_le; lra. }
  exists k. split; auto. set (d := t - o - 2 * IZR k * PI) in *.
  assert (Sd : sin d = sin (t - o) /\ cos d = cos (t - o)).
  { unfold d. replace (t - o - 2 * IZR k * PI) with (t - o + 2 * IZR (- k) * PI) by (rewrite opp_IZR; ring). split; [apply sin_period_Z|apply cos_period_Z]. }
  destruct Sd as (Sd & Cd). pose proof (sc o) as T.
  assert (S : r * sin d = dy * cos o - dx * sin o).
  { rewrite Sd, sin_minus. transitivity (r * sin t * cos o - r * cos t * sin o); [ring|]. rewrite <- Ex, <- Ey. unfold dx, dy. ring. }
  assert (C : r * cos d = c + (dx * cos o + dy * sin o)).
  { rewrite Cd, cos_minus. transitivity (r * cos t * cos o + r * sin t * sin o); [ring|]. rewrite <- Ex, <- Ey. unfold dx, dy.
    transitivity (c * (sin o * sin o + cos o * cos o) + (x * cos o + y * sin o - c * (sin o * sin o + cos o * cos o))); [ring|]. rewrite T at 1. ring. }
  set (p := dy * cos o - dx * sin o) in *. set (q := dx * cos o + dy * sin o) in *.
  assert (PQ : p * p + q * q = dx * dx + dy * dy).
  { unfold p, q. transitivity ((dx * dx + dy * dy) * (sin o * sin o + cos o * cos o)); [ring|]. rewrite T. ring. }
  assert (Bp : Rabs p <= E) by (apply Rabs_le; nra). assert (Bq : Rabs q <= E) by (apply Rabs_le; nra). apply Rabs_le_inv in Bq.
  assert (P0 : 0 < cos d). { apply Rnot_le_lt. intros N. assert (r * cos d <= 0) by nra. lra. }
  pose proof (abs_angle d (Rabs_le_inv _ _ Hk) P0) as AA. pose proof (Rabs_pos d) as PD.
  apply Rle_trans with (Rabs d * (r * cos d)); [apply Rmult_le_compat_l; lra|]. replace (Rabs d * (r * cos d)) with (r * (Rabs d * cos d)) by ring.
  apply Rle_trans with (r * Rabs (sin d)); [apply Rmult_le_compat_l; auto|]. rewrite <- (Rabs_right r) at 1 by lra. rewrite <- Rabs_mult, S. exact Bp.
Qed.

(** ** the cosine of y out of four entries that may be wrong by [e] *)
Lemma cauchy4 a b c d A B C D : (a * A + b * B + c * C + d * D) * (a * A + b * B + c * C + d * D) <= (a * a + b * b + c * c + d * d) * (A * A + B * B + C * C + D * D).
Proof.
  assert (0 <= (a * B - b * A) * (a * B - b * A) + (a * C - c * A) * (a * C - c * A) + (a * D - d * A) * (a * D - d * A) + (b * C - c * B) * (b * C - c * B) + (b * D - d * B) * (b * D - d * B) + (c * D - d * C) * (c * D - d * C)).
  { repeat apply Rplus_le_le_0_compat; apply Rle_0_sqr. }
  match goal with H : 0 <= ?l |- ?p <= ?q => assert (E : q - p = l) by ring end. lra.
Qed.
Lemma norm4 a b c d A B C D e : 0 <= e -> Rabs (a - A) <= e -> Rabs (b - B) <= e -> Rabs (c - C) <= e -> Rabs (d - D) <= e ->
  Rabs (sqrt (a * a + b * b + c * c + d * d) - sqrt (A * A + B * B + C * C + D * D)) <= 2 * e.
Proof.
  intros Pe Ha Hb Hc Hd. pose proof (cauchy4 a b c d A B C D) as CS. set (S := a * a + b * b + c * c + d * d) in *. set (T := A * A + B * B + C * C + D * D) in *. set (P := a * A + b * B + c * C + d * D) in *.
  assert (PS : 0 <= S) by (unfold S; nra). assert (PT : 0 <= T) by (unfold T; nra).
  pose proof (sqrt_pos S) as S1. pose proof (sqrt_pos T) as T1. pose proof (sqrt_sqrt S PS) as S2. pose proof (sqrt_sqrt T PT) as T2.
  assert (L : P <= sqrt S * sqrt T). { apply Rnot_lt_le. intros N. assert (0 <= sqrt S * sqrt T) by (apply Rmult_le_pos; auto). assert (sqrt S * sqrt T * (sqrt S * sqrt T) < P * P) by nra. assert (sqrt S * sqrt T * (sqrt S * sqrt T) = S * T) by (transitivity (sqrt S * sqrt S * (sqrt T * sqrt T)); [ring|rewrite S2, T2; reflexivity]). lra. }
  assert (Q : forall p q, Rabs (p - q) <= e -> (p - q) * (p - q) <= e * e) by (intros p q H; apply Rabs_le_inv in H; nra).
  assert (W : S + T - 2 * P <= 4 * (e * e)). { pose proof (Q _ _ Ha). pose proof (Q _ _ Hb). pose proof (Q _ _ Hc). pose proof (Q _ _ Hd). unfold S, T, P. lra. }
  assert (M : (sqrt S - sqrt T) * (sqrt S - sqrt T) <= 2 * e * (2 * e)) by (replace ((sqrt S - sqrt T) * (sqrt S - sqrt T)) with (sqrt S * sqrt S + sqrt T * sqrt T - 2 * (sqrt S * sqrt T)) by ring; lra).
  apply Rabs_le. nra.
Qed.
Lemma cosy_any (a b c d : float64) : is_finite a = true -> is_finite b = true -> is_finite c = true -> is_finite d = true ->
  Rabs (B2R a) <= 2 -> Rabs (B2R b) <= 2 -> Rabs (B2R c) <= 2 -> Rabs (B2R d) <= 2 ->
  let q := fsqrt (fdiv (fadd (fadd (fadd (fmul a a) (fmul b b)) (fmul c c)) (fmul d d)) ftwo) in
  is_finite q = true /\ 0 <= B2R q /\ near (37 / 10) tol (B2R q) (sqrt ((B2R a * B2R a + B2R b * B2R b + B2R c * B2R c + B2R d * B2R d) / 2)).
Proof.
  intros Fa' Fb' Fc' Fd' Ba' Bb' Bc' Bd' q. destruct tol_small as (Pt & _ & Et & _). pose proof eta_pos as Pe. pose proof eta_tiny as Te.
  assert (B9 : 64 <= bpow radix2 900). { apply Rle_trans with (bpow radix2 6); [cbn; lra|apply bpow_le; lia]. }
  assert (SQ : forall (w : float64), is_finite w = true -> Rabs (B2R w) <= 2 -> is_finite (fmul w w) = true /\ 0 <= B2R (fmul w w) /\ near (102 / 100) (2 * eta) (B2R (fmul w w)) (B2R w * B2R w) /\ 0 <= B2R w * B2R w <= 4).
  { intros w F B. assert (B4 : 2 <= bpow radix2 400). { apply Rle_trans with (bpow radix2 1); [cbn; lra|apply bpow_le; lia]. }
    destruct (fmul_near_t w w 0 0 0 0 (B2R w) (B2R w) F F) as (F' & N); try lra; try apply near_exact.
    split; auto. split; [apply fmul_sq_nonneg; auto|]. split; [eapply near_weaken; [| |exact N]; [lra|]; rewrite !Rmult_0_r, !Rplus_0_r, Rmult_0_r; lra|]. apply Rabs_le_inv in B. nra. }
  destruct (SQ _ Fa' Ba') as (Fa & Pa & Na & Ba). destruct (SQ _ Fb' Bb') as (Fb & Pb & Nb & Bb). destruct (SQ _ Fc' Bc') as (Fc & Pc & Nc & Bc). destruct (SQ _ Fd' Bd') as (Fd & Pd & Nd & Bd). clear SQ.
  unfold q; clear q. set (aa := fmul a a) in *. set (bb := fmul b b) in *. set (cc := fmul c c) in *. set (dd := fmul d d) in *. clearbody aa bb cc dd.
  set (A2 := B2R a * B2R a) in *. set (B2 := B2R b * B2R b) in *. set (C2 := B2R c * B2R c) in *. set (D2 := B2R d * B2R d) in *. clearbody A2 B2 C2 D2.
  destruct (fadd_near_pos aa bb (102 / 100) (2 * eta) (2 * eta) A2 B2 Fa Fb) as (F1 & N1); [lra|lra|lra|exact Na|exact Nb|lra|lra|].
  destruct (fadd_near_pos (fadd aa bb) cc (203 / 100) (8 * eta) (2 * eta) (A2 + B2) C2 F1 Fc) as (F2 & N2); [lra|lra|lra|eapply near_weaken; [| |exact N1]; lra|eapply near_weaken; [| |exact Nc]; lra|lra|lra|].
  destruct (fadd_near_pos (fadd (fadd aa bb) cc) dd (304 / 100) (20 * eta) (2 * eta) (A2 + B2 + C2) D2 F2 Fd) as (F3 & N3); [lra|lra|lra|eapply near_weaken; [| |exact N2]; lra|eapply near_weaken; [| |exact Nd]; lra|lra|lra|].
  assert (P3 : 0 <= B2R (fadd (fadd (fadd aa bb) cc) dd)) by (repeat apply fadd_nonneg; auto).
  set (s := fadd (fadd (fadd aa bb) cc) dd) in *. clearbody s. set (SS := A2 + B2 + C2 + D2) in *. assert (BS : 0 <= SS <= 16) by (unfold SS; lra). clearbody SS.
  destruct (fdiv_near s ftwo (405 / 100) 0 (44 * eta) SS 2 F3) as (F4 & N4); try lra.
  { eapply near_weaken; [| |exact N3]; lra. } { rewrite ftwo_val. apply near_exact. } { rewrite Rabs_right by lra. apply Rle_trans with (bpow radix2 4); [cbn; lra|apply bpow_le; lia]. }
  { rewrite Rabs_right by lra. apply Rle_trans with (bpow radix2 1); [apply bpow_le; lia|cbn; lra]. }
  assert (P4 : 0 <= B2R (fdiv s ftwo)) by (apply fdiv_nonneg; auto; rewrite ftwo_val; lra).
  destruct (fsqrt_near0 (fdiv s ftwo) (51 / 10) (1805 * eta) (SS / 2) F4) as (F5 & P5 & N5); try lra.
  { eapply near_weaken; [| |exact N4]; [lra|]. rewrite Rabs_right by lra. lra. }
  split; auto. split; auto. eapply near_weaken; [| |exact N5]; [lra|].
  assert (S : sqrt (1805 * eta) <= bpow radix2 (-532)).
  { rewrite <- (sqrt_square (bpow radix2 (-532))) by apply bpow_ge_0. apply sqrt_le_1_alt. rewrite <- bpow_plus. apply Rle_trans with (bpow radix2 11 * eta); [apply Rmult_le_compat_r; [lra|cbn; lra]|]. unfold eta. rewrite <- bpow_plus. apply bpow_le; lia. }
  assert (4 * bpow radix2 (-532) <= tol). { unfold tol. change 4 with (bpow radix2 2). rewrite <- bpow_plus. apply bpow_le; lia. } pose proof (bpow_gt_0 radix2 (-532)). lra.
Qed.

(** ** arctan2 *)
Lemma atan_abs arctan2 c E o (q p : float64) : good_atan2 arctan2 -> is_finite q = true -> is_finite p = true -> 0 < c -> 0 <= E < c -> Rabs o <= PI ->
  (B2R q - c * cos o) * (B2R q - c * cos o) + (B2R p - c * sin o) * (B2R p - c * sin o) <= E * E ->
  exists r t, 0 < r /\ - PI <= t <= PI /\ B2R q = r * cos t /\ is_finite (arctan2 p q) = true /\ Rabs (B2R (arctan2 p q) - t) <= 2 * u * Rabs t + 2 * eta /\
    exists k : Z, Rabs (t - o - 2 * IZR k * PI) * (c - E) <= E /\ Rabs (t - o - 2 * IZR k * PI) <= PI.
Proof.
  intros GA Fq Fp Pc PE Bo D. destruct (bsign_val p Fp) as (H0 & H1).
  assert (NZ : 0 < B2R p * B2R p + B2R q * B2R q).
  { destruct (Req_EM_T (B2R p) 0) as [Zp|]; [|nra]. destruct (Req_EM_T (B2R q) 0) as [Zq|]; [|nra]. exfalso. rewrite Zp, Zq in D. pose proof (sc o).
    replace ((0 - c * cos o) * (0 - c * cos o) + (0 - c * sin o) * (0 - c * sin o)) with (c * c * (sin o * sin o + cos o * cos o)) in D by ring. nra. }
  destruct (polar_signed (Bsign p) (B2R p) (B2R q) H0 H1 NZ) as (r & t & Pr & Bt & S0 & S1 & Es & Ec & _).
  destruct (GA p q t r Fp Fq Bt Pr S0 S1 Es Ec) as (F & G).
  exists r, t. repeat split; auto; try lra. apply (ang_abs c E o (B2R q) (B2R p) r t); auto; lra.
Qed.

Lemma two_sq a b e : 0 <= e -> Rabs a <= e -> Rabs b <= e -> a * a + b * b <= 1415 / 1000 * e * (1415 / 1000 * e).
Proof. intros P A B. apply Rabs_le_inv in A. apply Rabs_le_inv in B. assert (a * a <= e * e) by nra. assert (b * b <= e * e) by nra. nra. Qed.
Lemma atan_any arctan2 c e o (q p : float64) : good_atan2 arctan2 -> is_finite q = true -> is_finite p = true -> 0 < c -> 0 <= e <= c / 100 -> Rabs o <= PI ->
  Rabs (B2R q - c * cos o) <= e -> Rabs (B2R p - c * sin o) <= e -> turns_back (arctan2 p q) o (15 / 10 * e / c + 7 * u).
Proof.
  intros GA Fq Fp Pc Pe Bo Dq Dp. pose proof (two_sq _ _ e ltac:(lra) Dq Dp) as D2.
  destruct (atan_abs arctan2 c (1415 / 1000 * e) o q p GA Fq Fp Pc ltac:(lra) Bo D2) as (r & t & _ & Bt & _ & F & D & k & Hk & _).
  pose proof u_pos as Pu. pose proof u_small as Su. pose proof tiny_consts as TC. pose proof (bpow_gt_0 radix2 (-399)) as P3. pose proof pi_bounds as PB. rewrite pi64_val in PB. pose proof eta_pos as Pet.
  assert (L1 : Rabs t <= PI) by (apply Rabs_le; lra). assert (L2 : u * Rabs t <= u * (3142 / 1000)) by (apply Rmult_le_compat_l; lra).
  split; auto. split. { replace (B2R (arctan2 p q)) with ((B2R (arctan2 p q) - t) + t) by ring. eapply Rle_trans; [apply Rabs_triang|]. lra. }
  exists k. replace (B2R (arctan2 p q) - o - 2 * IZR k * PI) with ((B2R (arctan2 p q) - t) + (t - o - 2 * IZR k * PI)) by ring. eapply Rle_trans; [apply Rabs_triang|].
  assert (Rabs (t - o - 2 * IZR k * PI) <= 15 / 10 * e / c).
  { apply (Rmult_le_reg_r c); auto. replace (15 / 10 * e / c * c) with (15 / 10 * e) by (field; lra). pose proof (Rabs_pos (t - o - 2 * IZR k * PI)). set (w := Rabs (t - o - 2 * IZR k * PI)) in *.
    assert (w * (98585 / 100000 * c) <= w * (c - 1415 / 1000 * e)) by (apply Rmult_le_compat_l; lra). lra. }
  lra.
Qed.
Lemma atan_any_quarter arctan2 e o (q p : float64) : good_atan2 arctan2 -> is_finite q = true -> is_finite p = true -> 0 <= B2R q -> 0 <= e <= 1 / 100 -> Rabs o <= PI / 2 ->
  Rabs (B2R q - cos o) <= 1415 / 1000 * e + 4 * u -> Rabs (B2R p - sin o) <= e -> comes_back (arctan2 p q) o (2 * e + 9 * u).
Proof.
  intros GA Fq Fp Pq Pe Bo Dq Dp. pose proof u_pos as Pu. pose proof u_tiny as Su. pose proof tiny_consts as TC. pose proof (bpow_gt_0 radix2 (-399)) as P3. pose proof pi_bounds as PB. rewrite pi64_val in PB. pose proof eta_pos as Pet.
  set (E := 1733 / 1000 * e + 4 * u). assert (PE : 0 <= E <= 2 / 100) by (unfold E; lra).
  assert (D2 : (B2R q - 1 * cos o) * (B2R q - 1 * cos o) + (B2R p - 1 * sin o) * (B2R p - 1 * sin o) <= E * E).
  { rewrite !Rmult_1_l. apply Rabs_le_inv in Dq. apply Rabs_le_inv in Dp. set (a := B2R q - cos o) in *. set (b := B2R p - sin o) in *.
    assert (a * a <= (1415 / 1000 * e + 4 * u) * (1415 / 1000 * e + 4 * u)) by nra. assert (b * b <= e * e) by nra. unfold E. assert (0 <= e * u) by nra. nra. }
  destruct (atan_abs arctan2 1 E o q p GA Fq Fp ltac:(lra) ltac:(lra) ltac:(lra) D2) as (r & t & Pr & Bt & Ec & F & D & k & Hk & _).
  assert (Ht : - (PI / 2) <= t <= PI / 2). { apply half_plane; auto. apply Rnot_lt_le. intros N. assert (r * cos t < 0) by nra. lra. }
  assert (W : Rabs (t - o - 2 * IZR k * PI) <= 178 / 100 * e + 41 / 10 * u).
  { pose proof (Rabs_pos (t - o - 2 * IZR k * PI)). set (w := Rabs (t - o - 2 * IZR k * PI)) in *. assert (w <= 3 / 100) by nra.
    assert (w * E <= 3 / 100 * E) by (apply Rmult_le_compat_r; lra). assert (w <= 103 / 100 * E) by lra. assert (w * E <= 103 / 100 * E * E) by (apply Rmult_le_compat_r; lra).
    assert (E * E <= 174 / 10000 * E) by (apply Rmult_le_compat_r; [lra|unfold E; lra]). unfold E in *. lra. }
  assert (k = 0%Z).
  { apply Rabs_le_inv in W. apply Rabs_le_inv in Bo. destruct (Z.eq_dec k 0) as [|N]; auto. exfalso.
    assert (1 <= k \/ k <= -1)%Z as [G|G] by lia; apply IZR_le in G; nra. }
  subst k. assert (L1 : Rabs t <= PI / 2) by (apply Rabs_le; lra). assert (L2 : u * Rabs t <= u * (1571 / 1000)) by (apply Rmult_le_compat_l; lra).
  split; auto. replace (B2R (arctan2 p q) - o) with ((B2R (arctan2 p q) - t) + (t - o - 2 * IZR 0 * PI)) by (cbn; ring). eapply Rle_trans; [apply Rabs_triang|]. lra.
Qed.

Lemma extract arctan2 (a b c d g h i j k : float64) X Y Z e : good_atan2 arctan2 ->
  is_finite a = true -> is_finite b = true -> is_finite c = true -> is_finite h = true -> is_finite k = true ->
  Rabs X <= PI -> Rabs Y <= PI / 2 -> Rabs Z <= PI -> 0 <= e <= 1 / 100 ->
  Rabs (B2R a - cos Y * cos Z) <= e -> Rabs (B2R b - - (cos Y * sin Z)) <= e -> Rabs (B2R c - sin Y) <= e -> Rabs (B2R h - - (cos Y * sin X)) <= e -> Rabs (B2R k - cos Y * cos X) <= e ->
  exists x y z, fR2xyz arctan2 ((a, b, c), (d, g, h), (i, j, k)) = (x, y, z) /\ comes_back y Y (2 * e + 9 * u) /\
    (100 * e <= cos Y -> 0 < cos Y -> turns_back x X (15 / 10 * e / cos Y + 7 * u) /\ turns_back z Z (15 / 10 * e / cos Y + 7 * u)).
Proof.
  intros GA Fa Fb Fc Fh Fk BX BY BZ He Da Db Dc Dh Dk. pose proof u_pos as Pu. pose proof u_tiny as Su. destruct tol_small as (Pt & Tu & _ & Ts).
  pose proof (COS_bound Y) as CY. assert (C0 : 0 <= cos Y) by (apply Rabs_le_inv in BY; apply cos_ge_0; lra).
  assert (L : forall (w : float64) v, Rabs (B2R w - v) <= e -> Rabs v <= 1 -> Rabs (B2R w) <= 2).
  { intros w v H1 H2. replace (B2R w) with ((B2R w - v) + v) by ring. eapply Rle_trans; [apply Rabs_triang|]. lra. }
  assert (U1 : forall p q, Rabs p <= 1 -> Rabs q <= 1 -> Rabs (p * q) <= 1). { intros p q P Q. rewrite Rabs_mult. pose proof (Rabs_pos p). pose proof (Rabs_pos q). nra. }
  assert (S1 : forall t, Rabs (sin t) <= 1) by (intros; apply Rabs_le, SIN_bound). assert (C1 : forall t, Rabs (cos t) <= 1) by (intros; apply Rabs_le, COS_bound).
  destruct (cosy_any a b h k Fa Fb Fh Fk) as (Fq & Pq & Nq).
  { eapply L; [exact Da|auto]. } { eapply L; [exact Db|rewrite Rabs_Ropp; auto]. } { eapply L; [exact Dh|rewrite Rabs_Ropp; auto]. } { eapply L; [exact Dk|auto]. }
  set (q := fsqrt _) in *.
  assert (E2 : sqrt (cos Y * cos Z * (cos Y * cos Z) + - (cos Y * sin Z) * - (cos Y * sin Z) + - (cos Y * sin X) * - (cos Y * sin X) + cos Y * cos X * (cos Y * cos X)) = sqrt 2 * cos Y).
  { match goal with |- sqrt ?w = _ => replace w with (2 * (cos Y * cos Y)) end; [rewrite sqrt_mult, sqrt_square by nra; reflexivity|].
    symmetry. transitivity (cos Y * cos Y * (sin Z * sin Z + cos Z * cos Z) + cos Y * cos Y * (sin X * sin X + cos X * cos X)); [ring|]. rewrite !sc. ring. }
  pose proof (norm4 _ _ _ _ _ _ _ _ e ltac:(lra) Da Db Dh Dk) as N4. rewrite E2 in N4. set (S := B2R a * B2R a + B2R b * B2R b + B2R h * B2R h + B2R k * B2R k) in *.
  assert (PS : 0 <= S) by (unfold S; nra). pose proof (sqrt_pos 2) as R0. pose proof (sqrt_sqrt 2 ltac:(lra)) as R2.
  assert (R14 : 14141 / 10000 <= sqrt 2 <= 14143 / 10000) by (split; nra).
  assert (E3 : sqrt S = sqrt 2 * sqrt (S / 2)). { rewrite <- sqrt_mult by lra. f_equal. field. }
  rewrite E3 in N4. replace (sqrt 2 * sqrt (S / 2) - sqrt 2 * cos Y) with (sqrt 2 * (sqrt (S / 2) - cos Y)) in N4 by ring. rewrite Rabs_mult, (Rabs_right (sqrt 2)) in N4 by lra.
  set (w := sqrt (S / 2)) in *. pose proof (sqrt_pos (S / 2) : 0 <= w) as Pw.
  assert (Dw : Rabs (w - cos Y) <= 1415 / 1000 * e). { pose proof (Rabs_pos (w - cos Y)). nra. }
  assert (Bw : w <= 102 / 100). { apply Rabs_le_inv in Dw. lra. }
  assert (Dq : Rabs (B2R q - cos Y) <= 1415 / 1000 * e + 4 * u).
  { unfold near in Nq. rewrite (Rabs_right w) in Nq by lra. assert (u * w <= u * (102 / 100)) by (apply Rmult_le_compat_l; lra).
    replace (B2R q - cos Y) with ((B2R q - w) + (w - cos Y)) by ring. eapply Rle_trans; [apply Rabs_triang|]. lra. }
  pose proof (atan_any_quarter arctan2 e Y q c GA Fq Fc Pq He BY Dq Dc) as HY.
  do 3 eexists. split; [reflexivity|]. split; [exact HY|]. intros H100 PY.
  assert (Fn : forall v : float64, is_finite v = true -> is_finite (fneg v) = true) by (intros; unfold fneg; rewrite is_finite_Bopp; auto).
  assert (Dn : forall (v : float64) V, Rabs (B2R v - - V) <= e -> Rabs (B2R (fneg v) - V) <= e).
  { intros v V H. unfold fneg. rewrite B2R_Bopp, <- Rabs_Ropp. replace (- (- B2R v - V)) with (B2R v - - V) by ring. exact H. }
  split; apply atan_any; auto; lra.
Qed.

Theorem C103_near_rotation : forall arctan2 m x y z e, good_atan2 arctan2 -> fin_mat m -> Rabs x <= PI -> Rabs y <= PI / 2 -> Rabs z <= PI -> 0 <= e <= 1 / 100 ->
  (mat_within e (mat_of m) (mmul (Rx x) (mmul (Ry y) (Rz z))) ->
   exists x' y' z', fR2xyz arctan2 m = (x', y', z') /\ comes_back y' y (2 * e + 9 * u) /\
     (100 * e <= cos y -> 0 < cos y -> turns_back x' x (15 / 10 * e / cos y + 7 * u) /\ turns_back z' z (15 / 10 * e / cos y + 7 * u))) /\
  (mat_within e (mat_of m) (mmul (Rz z) (mmul (Ry y) (Rx x))) ->
   exists x' y' z', fR2zyx arctan2 m = (z', y', x') /\ comes_back y' y (2 * e + 9 * u) /\
     (100 * e <= cos y -> 0 < cos y -> turns_back x' x (15 / 10 * e / cos y + 7 * u) /\ turns_back z' z (15 / 10 * e / cos y + 7 * u))).
Proof.
  intros arctan2 [[[[a b] c] [[d g] h]] [[i j] k]] x y z e GA (Fa & Fb & Fc & Fd & Fg & Fh & Fi & Fj & Fk) Bx By Bz He. split; intros W; unfold Rx, Ry, Rz in W; rewrite !mmul_rows in W;
  unfold mat_of, vec_of, mat_within, vec_within in W; cbn [r0 r1 r2 Spec.vx Spec.vy Spec.vz] in W; destruct W as ((Wa & Wb & Wc) & (Wd & Wg & Wh) & (Wi & Wj & Wk)).
  - destruct (extract arctan2 a b c d g h i j k x y z e) as (x' & y' & z' & E & Hy & Hxz); auto; try (match goal with |- Rabs (B2R ?v - _) <= _ => match goal with H : Rabs (B2R v - _) <= _ |- _ => eapply Rle_trans; [|exact H]; right; f_equal; f_equal; ring end end).
    exists x', y', z'. auto.
  - unfold fR2zyx, mT64. destruct (extract arctan2 a d i b g j c h k (- x) (- y) (- z) e) as (x' & y' & z' & E & Hy & Hxz); rewrite ?Rabs_Ropp, ?cos_neg, ?sin_neg in *; auto;
    try (match goal with |- Rabs (B2R ?v - _) <= _ => match goal with H : Rabs (B2R v - _) <= _ |- _ => eapply Rle_trans; [|exact H]; right; f_equal; f_equal; ring end end).
    rewrite E. exists (fneg x'), (fneg y'), (fneg z'). split; auto. split; [apply comes_neg; auto|]. intros H1 H2. destruct (Hxz H1 H2). split; apply turns_neg; auto.
Qed.
Print Assumptions C103_near_rotation.
