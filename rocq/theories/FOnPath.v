(** * C112: on_great_circle_path and GeoPath.on_path(method='greatcircle') in binary64 (core.py 640-644, objects.py 991-1001) *)
From Coq Require Import ZArith Reals Lra Lia Bool Psatz.
From Flocq Require Import Core BinarySingleNaN Relative.
From Verif Require Import Spec LVec LAngle LCircle FTiny FZero FBase FRel FRel2 FUnit FPi FAngle FMod FDist FClose FGreat FLatLon FInv FInv2 FTrack FOnCircle FEcef FEcef2 FNed FNed2 FNed3 FDelta FDelta2 FDelta3
  FInterp FPoint FWay FWay2 FWay3 FWay4 FGeodB FGeod FGeod2 FGeod3 FGeod4 FGeod5 FGeod6 FGeod7 FGeod8 FGeod9 FGeod10 FMove FMove2 FMove3 FEuler FEuler2 FBody FBody2 FBody3 PPath3 FInv3 FCourse FGeoPath.
Local Open Scope R_scope.

(** ** the model *)
(** core.py 640-644, one column: the two tests made besides on_great_circle *)
Definition fbetween (a b q : vec64) : bool :=
  let scale := fnorm (fsubv b a) in
  let ti1 := fdiv (fnorm (fsubv q a)) scale in
  let ti2 := fdiv (fnorm (fsubv q b)) scale in
  fle ti1 fone && fle ti2 fone.
(** core.py 640-644 *)
Definition fon_great_circle_path dot arcsin (a b q : vec64) (radius atol : float64) : bool :=
  fbetween a b q && fon_great_circle dot arcsin a b q radius atol.
(** objects.py 991-1001 with radius=None: positions in degrees, depths in metres *)
Definition fgeo_on_path dot fsin fcos arcsin (latA lonA zA latB lonB zB latC lonC zC a f rtol atol : float64) : bool :=
  fon_great_circle_path dot arcsin (nvec_deg fsin fcos latA lonA) (nvec_deg fsin fcos latB lonB) (nvec_deg fsin fcos latC lonC) (fgeo_radius fsin fcos latA lonA zA latB lonB zB a f) atol
  && fisclose rtol atol false zC (fmul (fadd zA zB) fhalf).

(** ** the ends of a path are between its ends, exactly *)
Lemma fdiv_self x : is_finite x = true -> B2R x <> 0 -> is_finite (fdiv x x) = true /\ B2R (fdiv x x) = 1.
Proof.
  intros F N. assert (E1 : B2R x / B2R x = 1) by (field; auto). assert (L : 1 <= bpow radix2 1023) by (apply Rle_trans with (bpow radix2 0); [cbn; lra|apply bpow_le; lia]).
  destruct (fdiv_val x x F N) as (Fd & Ed); [rewrite E1, Rabs_R1; exact L|]. split; auto. rewrite Ed, E1. apply round_generic; auto with typeclass_instances.
  change 1 with (bpow radix2 0). apply generic_format_bpow. unfold fexp64, FLT_exp. lia.
Qed.
Lemma fnorm_sub_sym a b : fnorm (fsubv a b) = fnorm (fsubv b a).
Proof. destruct a as [[a0 a1] a2]. destruct b as [[b0 b1] b2]. unfold fnorm, fsubv, norm3. rewrite (fsub_sq a0), (fsub_sq a1), (fsub_sq a2). reflexivity. Qed.
Lemma fnorm_sub_self a : finite_vec a -> fnorm (fsubv a a) = B754_zero false.
Proof. destruct a as [[a0 a1] a2]. intros (F0 & F1 & F2). unfold fnorm, fsubv. rewrite !fsub_self by auto. reflexivity. Qed.

Theorem C112_ends_between : forall a b, finite_vec a -> finite_vec b -> is_finite (fnorm (fsubv b a)) = true -> B2R (fnorm (fsubv b a)) <> 0 ->
  fbetween a b a = true /\ fbetween a b b = true.
Proof.
  intros a b Fa Fb Fs Ns. unfold fbetween. rewrite (fnorm_sub_sym a b), !fnorm_sub_self by auto. set (s := fnorm (fsubv b a)) in *. clearbody s.
  destruct (fdiv_self s Fs Ns) as (F1 & E1). destruct (fdiv_val (B754_zero false) s eq_refl Ns) as (F0 & E0).
  { cbn [B2R]. unfold Rdiv. rewrite Rmult_0_l, Rabs_R0. apply bpow_ge_0. }
  assert (Z : B2R (fdiv (B754_zero false) s) = 0). { rewrite E0. cbn [B2R]. unfold Rdiv. rewrite Rmult_0_l. apply round_0; auto with typeclass_instances. }
  assert (L1 : fle (fdiv s s) fone = true) by (apply fle_val; auto; rewrite E1, fone_val; lra).
  assert (L0 : fle (fdiv (B754_zero false) s) fone = true) by (apply fle_val; auto; rewrite Z, fone_val; lra). rewrite L1, L0. auto.
Qed.
Print Assumptions C112_ends_between.

(** ** a path of length zero contains no position, not even its own ends; nor does the test raise *)
Lemma sqrt_sign (x : float64) : match fsqrt x with B754_finite true _ _ _ => False | B754_infinity true => False | _ => True end.
Proof.
  destruct x as [s|s| |s m e H]; try (destruct s; exact I); try exact I. destruct s; [exact I|].
  assert (P : 0 < B2R (@B754_finite 53 1024 false m e H)) by (cbn; apply F2R_gt_0; reflexivity).
  destruct (fsqrt_val (B754_finite false m e H) eq_refl P) as (F & E). set (y := fsqrt _) in *. clearbody y. destruct y as [s|s| |s m' e' H']; auto; [destruct s; auto; discriminate|]. destruct s; auto.
  assert (N : B2R (@B754_finite 53 1024 true m' e' H') < 0) by (cbn; apply F2R_lt_0; reflexivity). rewrite E in N.
  assert (0 <= rnd (sqrt (B2R (@B754_finite 53 1024 false m e H)))) by (rewrite <- (round_0 radix2 fexp64 ZnearestE); apply round_le; auto with typeclass_instances; apply sqrt_pos). unfold rnd in *. lra.
Qed.
Lemma div_zero x : fle (fdiv (fsqrt x) (B754_zero false)) fone = false.
Proof. pose proof (sqrt_sign x) as S. destruct (fsqrt x) as [s|s| |s m e H]; try reflexivity; destruct s; try contradiction; reflexivity. Qed.
Lemma div_nan x : fle (fdiv x B754_nan) fone = false.
Proof. destruct x; reflexivity. Qed.
Lemma fsub_diag p : fsub p p = B754_zero false \/ fsub p p = B754_nan.
Proof. destruct p as [s|s| |s m e H]; try (left; apply fsub_self; reflexivity); right; [destruct s|]; reflexivity. Qed.
Lemma fnorm_diag a : fnorm (fsubv a a) = B754_zero false \/ fnorm (fsubv a a) = B754_nan.
Proof.
  destruct a as [[a0 a1] a2]. unfold fnorm, fsubv. destruct (fsub_diag a0) as [-> | ->], (fsub_diag a1) as [-> | ->], (fsub_diag a2) as [-> | ->]; auto.
Qed.
Theorem C112_no_length : forall dot arcsin a q radius atol, fbetween a a q = false /\ fon_great_circle_path dot arcsin a a q radius atol = false.
Proof.
  intros dot arcsin a q radius atol. assert (E : fbetween a a q = false).
  { unfold fbetween. destruct (fnorm_diag a) as [-> | ->]; [|rewrite div_nan; reflexivity].
    destruct (fsubv q a) as [[x y] z]. unfold fnorm at 1, norm3 at 1. rewrite div_zero. reflexivity. }
  split; auto. unfold fon_great_circle_path. rewrite E. reflexivity.
Qed.
Print Assumptions C112_no_length.

(** ** the decision *)
Lemma chord_err a b : near_unit a -> near_unit b -> is_finite (fnorm (fsubv b a)) = true /\ 0 <= B2R (fnorm (fsubv b a)) <= 3 /\
  Rabs (B2R (fnorm (fsubv b a)) - vnorm (vsub (vec_of b) (vec_of a))) <= 9 * u.
Proof.
  intros Na Nb. pose proof u_pos as Pu. pose proof u_tiny as Su. pose proof big400 as B4. destruct (near_unit_len a Na) as (Fa & La). destruct (near_unit_len b Nb) as (Fb & Lb).
  destruct (sub_err b a Fb Fa ltac:(lra) ltac:(lra)) as (Fd & Ed). set (D := vsub (vec_of b) (vec_of a)) in *.
  assert (ND : vnorm D <= 2 + 12 * u). { unfold D. rewrite sub_neg. eapply Rle_trans; [apply norm_triangle|]. rewrite vnorm_neg. lra. }
  pose proof (vnorm_pos D) as P0. set (d := fsubv b a) in *. clearbody d D. destruct d as [[x y] z]. destruct Fd as (Fx & Fy & Fz).
  pose proof (norm_perturb D (vsub (vec_of (x, y, z)) D)) as NP. rewrite <- vadd_sub_id in NP. apply Rabs_le_inv in NP. set (N := vnorm (vec_of (x, y, z))) in *.
  assert (UD : u * vnorm D <= u * (2 + 12 * u)) by (apply Rmult_le_compat_l; lra).
  assert (UU : u * u <= u * / 1000000) by (apply Rmult_le_compat_l; lra). assert (NB : N <= 3) by lra.
  assert (CB : forall t, t * t <= N * N -> Rabs t <= bpow radix2 400). { intros t Ht. apply Rle_trans with 3; [|lra]. apply Rabs_le. assert (0 <= N) by apply vnorm_pos. split; nra. }
  assert (SN : N * N = B2R x * B2R x + B2R y * B2R y + B2R z * B2R z). { unfold N, vnorm. rewrite sqrt_sqrt; [reflexivity|]. unfold vdot, vec_of; cbn [Spec.vx Spec.vy Spec.vz]. nra. }
  destruct (any_norm x y z Fx Fy Fz) as (F & P & E); try (apply CB; nra). rewrite length3_vnorm in E. fold N in E. unfold fnorm. split; [exact F|].
  pose proof wee_small as WS. assert (TB : bpow radix2 (-399) <= u / 1000). { unfold u. replace (bpow radix2 (-53) / 1000) with (bpow radix2 (-53) * / 1000) by reflexivity. apply Rle_trans with (bpow radix2 (-53) * bpow radix2 (-10)); [rewrite <- bpow_plus; apply bpow_le; lia|apply Rmult_le_compat_l; [apply bpow_ge_0|cbn; lra]]. }
  assert (UN : u * N <= u * (2 + 20 * u)) by (apply Rmult_le_compat_l; lra). apply Rabs_le_inv in E. split; [lra|]. apply Rabs_le. lra.
Qed.

(** [a'], [b'], [q']: the computed n-vectors of the directions [a], [b], [q] *)
Lemma place_dist a' b' a b : near_unit a' -> near_unit b' -> vec_of a' <> v0 -> vec_of b' <> v0 -> vnorm (vsub (direction (vec_of a')) a) <= 163 / 10 * u -> vnorm (vsub (direction (vec_of b')) b) <= 163 / 10 * u ->
  is_finite (fnorm (fsubv b' a')) = true /\ 0 <= B2R (fnorm (fsubv b' a')) <= 3 /\ Rabs (B2R (fnorm (fsubv b' a')) - vnorm (vsub b a)) <= 54 * u.
Proof.
  intros Ua Ub Na Nb Da Db. pose proof u_pos as Pu. destruct (chord_err a' b' Ua Ub) as (F & B & E). split; auto. split; auto.
  destruct (near_unit_near a' Ua) as (_ & _ & Ea). destruct (near_unit_near b' Ub) as (_ & _ & Eb).
  assert (K : forall p r : vec, forall v : vec, vnorm (vsub p r) <= 6 * u -> vnorm (vsub r v) <= 163 / 10 * u -> vnorm (vsub p v) <= 223 / 10 * u).
  { intros p r v H1 H2. replace (vsub p v) with (vadd (vsub p r) (vsub r v)) by vring. eapply Rle_trans; [apply norm_triangle|]. lra. }
  pose proof (K _ _ _ Ea Da) as Ka. pose proof (K _ _ _ Eb Db) as Kb. set (A := vec_of a') in *. set (B' := vec_of b') in *. clearbody A B'.
  pose proof (norm_perturb (vsub b a) (vsub (vsub B' b) (vsub A a))) as NP. replace (vadd (vsub b a) (vsub (vsub B' b) (vsub A a))) with (vsub B' A) in NP by vring.
  assert (vnorm (vsub (vsub B' b) (vsub A a)) <= 446 / 10 * u). { rewrite sub_neg. eapply Rle_trans; [apply norm_triangle|]. rewrite vnorm_neg. lra. }
  apply Rabs_le_inv in NP. apply Rabs_le_inv in E. apply Rabs_le. lra.
Qed.
Lemma ratio_le n s : is_finite n = true -> is_finite s = true -> 0 <= B2R n <= 3 -> u <= B2R s <= 3 ->
  (fle (fdiv n s) fone = true -> B2R n <= B2R s + 4 * u) /\ (B2R n <= B2R s -> fle (fdiv n s) fone = true).
Proof.
  intros Fn Fs Bn Bs. pose proof u_pos as Pu. pose proof u_tiny as Su. pose proof eta_pos as Pe. pose proof eta_um as Te.
  assert (L : 3 * bpow radix2 53 <= bpow radix2 1023). { apply Rle_trans with (bpow radix2 2 * bpow radix2 53); [apply Rmult_le_compat_r; [apply bpow_ge_0|cbn; lra]|rewrite <- bpow_plus; apply bpow_le; lia]. }
  assert (F1 : rnd 1 = 1). { apply round_generic; auto with typeclass_instances. change 1 with (bpow radix2 0). apply generic_format_bpow. unfold fexp64, FLT_exp. lia. }
  assert (IS : 0 < / B2R s) by (apply Rinv_0_lt_compat; lra). assert (IU : / B2R s <= bpow radix2 53). { replace (bpow radix2 53) with (/ u) by (unfold u; rewrite <- bpow_opp; reflexivity). apply Rinv_le; lra. }
  assert (Q0 : 0 <= B2R n / B2R s) by (apply Rmult_le_pos; lra).
  assert (QB : Rabs (B2R n / B2R s) <= bpow radix2 1023). { rewrite Rabs_right by lra. eapply Rle_trans; [|exact L]. unfold Rdiv. apply Rmult_le_compat; lra. }
  destruct (fdiv_val n s Fn ltac:(lra) QB) as (Fd & Ed).
  assert (QN : B2R n = B2R n / B2R s * B2R s) by (field; lra). set (q := B2R n / B2R s) in *. clearbody q.
  split; intros H.
  - apply fle_val in H; auto. rewrite fone_val, Ed in H. destruct (rnd_err q) as (e & h & B1 & B2 & E). rewrite E in H. apply Rabs_le_inv in B1. apply Rabs_le_inv in B2.
    assert (q * (1 - u) <= 1 + u / 1000). { assert (q * (1 - u) <= q * (1 + e)) by (apply Rmult_le_compat_l; lra). lra. }
    assert (q <= 1 + 11 / 10 * u). { apply (Rmult_le_reg_r (1 - u)); [lra|]. assert (u * u <= u * / 1000000) by (apply Rmult_le_compat_l; lra). lra. }
    rewrite QN. assert (q * B2R s <= (1 + 11 / 10 * u) * B2R s) by (apply Rmult_le_compat_r; lra). assert (u * B2R s <= u * 3) by (apply Rmult_le_compat_l; lra). lra.
  - apply fle_val; auto. rewrite fone_val, Ed, <- F1. apply round_le; auto with typeclass_instances. apply (Rmult_le_reg_r (B2R s)); lra.
Qed.
Lemma between_core a' b' q' a b q : near_unit a' -> near_unit b' -> near_unit q' -> vec_of a' <> v0 -> vec_of b' <> v0 -> vec_of q' <> v0 ->
  vnorm (vsub (direction (vec_of a')) a) <= 163 / 10 * u -> vnorm (vsub (direction (vec_of b')) b) <= 163 / 10 * u -> vnorm (vsub (direction (vec_of q')) q) <= 163 / 10 * u ->
  112 * u <= vnorm (vsub b a) ->
  (fbetween a' b' q' = true -> vnorm (vsub q a) <= vnorm (vsub b a) + 112 * u /\ vnorm (vsub q b) <= vnorm (vsub b a) + 112 * u) /\
  (vnorm (vsub q a) <= vnorm (vsub b a) - 108 * u -> vnorm (vsub q b) <= vnorm (vsub b a) - 108 * u -> fbetween a' b' q' = true).
Proof.
  intros Ua Ub Uq Na Nb Nq Da Db Dq H. pose proof u_pos as Pu.
  destruct (place_dist a' b' a b Ua Ub Na Nb Da Db) as (F1 & B1 & E1). destruct (place_dist a' q' a q Ua Uq Na Nq Da Dq) as (F2 & B2 & E2). destruct (place_dist b' q' b q Ub Uq Nb Nq Db Dq) as (F3 & B3 & E3).
  apply Rabs_le_inv in E1. apply Rabs_le_inv in E2. apply Rabs_le_inv in E3. unfold fbetween.
  set (s := fnorm (fsubv b' a')) in *. set (n1 := fnorm (fsubv q' a')) in *. set (n2 := fnorm (fsubv q' b')) in *. clearbody s n1 n2.
  destruct (ratio_le n1 s F2 F1 B2 ltac:(lra)) as (P1 & Q1). destruct (ratio_le n2 s F3 F1 B3 ltac:(lra)) as (P2 & Q2). split.
  - intros X. apply andb_prop in X. destruct X as (X1 & X2). apply P1 in X1. apply P2 in X2. split; lra.
  - intros X1 X2. rewrite Q1, Q2 by lra. reflexivity.
Qed.

(** positions in degrees: a position is between the ends of a path if it is no further from either than they are from each other (in a straight line, unit sphere); 112 u is some 80 nanometres on the Earth *)
Theorem C112_between : forall fsin fcos latA lonA latB lonB latC lonC, good_trig fsin sin -> good_trig fcos cos -> valid_at latA lonA -> valid_at latB lonB -> valid_at latC lonC ->
  let A := place (B2R latA) (B2R lonA) in let B := place (B2R latB) (B2R lonB) in let C := place (B2R latC) (B2R lonC) in 112 * u <= vnorm (vsub B A) ->
  let answer := fbetween (nvec_deg fsin fcos latA lonA) (nvec_deg fsin fcos latB lonB) (nvec_deg fsin fcos latC lonC) in
  (answer = true -> vnorm (vsub C A) <= vnorm (vsub B A) + 112 * u /\ vnorm (vsub C B) <= vnorm (vsub B A) + 112 * u) /\
  (vnorm (vsub C A) <= vnorm (vsub B A) - 108 * u -> vnorm (vsub C B) <= vnorm (vsub B A) - 108 * u -> answer = true).
Proof.
  intros fsin fcos latA lonA latB lonB latC lonC GS GC WA WB WC A B C H answer.
  destruct (nvec_near fsin fcos latA lonA GS GC WA) as (U1 & N1 & _ & D1). destruct (nvec_near fsin fcos latB lonB GS GC WB) as (U2 & N2 & _ & D2). destruct (nvec_near fsin fcos latC lonC GS GC WC) as (U3 & N3 & _ & D3).
  exact (between_core _ _ _ A B C U1 U2 U3 N1 N2 N3 D1 D2 D3 H).
Qed.
Print Assumptions C112_between.

(** the depth: isclose(zC, (zA + zB) * 0.5) *)
Lemma mean_depth zA zB : is_finite zA = true -> is_finite zB = true -> Rabs (B2R zA) <= 1000000 -> Rabs (B2R zB) <= 1000000 ->
  let z := fmul (fadd zA zB) fhalf in is_finite z = true /\ Rabs (B2R z - (B2R zA + B2R zB) / 2) <= 3 / 10000000000.
Proof.
  intros FA FB BA BB z. apply Rabs_le_inv in BA. apply Rabs_le_inv in BB. pose proof u_pos as Pu. pose proof tiny_eta as Te. pose proof eta_pos as Pe.
  assert (Big : 32000000 <= bpow radix2 1023). { apply Rle_trans with (bpow radix2 25); [cbn; lra|apply bpow_le; lia]. }
  destruct (fadd_val zA zB FA FB) as (Fs & Es). { apply Rabs_le; lra. } destruct (rnd_err (B2R zA + B2R zB)) as (e1 & h1 & B1 & B2 & E1). rewrite E1 in Es. clear E1. apply Rabs_le_inv in B2.
  assert (AE : Rabs ((B2R zA + B2R zB) * e1) <= 2000000 * u) by (rewrite Rabs_mult; apply Rmult_le_compat; auto using Rabs_pos; apply Rabs_le; lra). apply Rabs_le_inv in AE.
  unfold z in *. clear z. set (s := fadd zA zB) in *. clearbody s. assert (Es' : B2R s = B2R zA + B2R zB + (B2R zA + B2R zB) * e1 + h1) by (rewrite Es; ring). clear Es.
  assert (UB : 2000000 * u <= 1) by (rewrite u_val; lra). assert (EB : 2000000 * eta <= 1) by lra.
  destruct (fmul_val s fhalf Fs eq_refl) as (Fr & Er). { rewrite fhalf_val. apply Rabs_le. lra. }
  destruct (rnd_err (B2R s * B2R fhalf)) as (e2 & h2 & B3 & B4 & E2). rewrite E2 in Er. clear E2. rewrite fhalf_val in Er. apply Rabs_le_inv in B4.
  set (r := fmul s fhalf) in *. clearbody r. split; [exact Fr|].
  assert (AE2 : Rabs (B2R s * / 2 * e2) <= 1000001 * u) by (rewrite Rabs_mult; apply Rmult_le_compat; auto using Rabs_pos; apply Rabs_le; lra). apply Rabs_le_inv in AE2.
  assert (Er' : B2R r = B2R s * / 2 + B2R s * / 2 * e2 + h2) by (rewrite Er; ring). clear Er.
  rewrite u_val in *. apply Rabs_le. lra.
Qed.
Lemma rmax_move x y y' d : Rabs (y - y') <= d -> Rmax x y <= Rmax x y' + d.
Proof. intros H. apply Rabs_le_inv in H. assert (0 <= d) by lra. pose proof (Rmax_l x y'). pose proof (Rmax_r x y'). apply Rmax_lub; lra. Qed.
Lemma same_depth rtol atol zA zB zC : is_finite rtol = true -> is_finite atol = true -> 0 <= B2R rtol <= 1 -> 0 <= B2R atol <= 1000000 ->
  is_finite zA = true -> is_finite zB = true -> is_finite zC = true -> Rabs (B2R zA) <= 1000000 -> Rabs (B2R zB) <= 1000000 -> Rabs (B2R zC) <= 1000000 ->
  let Z := (B2R zA + B2R zB) / 2 in let tol := Rmax (B2R atol) (B2R rtol * Rmax (Rabs (B2R zC)) (Rabs Z)) in let answer := fisclose rtol atol false zC (fmul (fadd zA zB) fhalf) in
  (answer = true -> Rabs (B2R zC - Z) <= tol + / 1000000000) /\ (Rabs (B2R zC - Z) <= tol - / 1000000000 -> answer = true).
Proof.
  intros Fr Ft Br Bt FA FB FC BA BB BC Z tol answer. destruct (mean_depth zA zB FA FB BA BB) as (Fz & Ez). unfold answer. clear answer. set (z := fmul (fadd zA zB) fhalf) in *. clearbody z. fold Z in Ez.
  assert (BZ : Rabs Z <= 1000000). { unfold Z. apply Rabs_le_inv in BA. apply Rabs_le_inv in BB. apply Rabs_le. lra. }
  pose proof u_pos as Pu. pose proof tiny_eta as Te. pose proof eta_pos as Pe. assert (Us : u <= / 9000000000000000) by (rewrite u_val; lra).
  assert (Big : 32000000 <= bpow radix2 1000). { apply Rle_trans with (bpow radix2 25); [cbn; lra|apply bpow_le; lia]. }
  pose proof (Rabs_triang_inv2 (B2R z) Z) as TZ. assert (T0 : Rabs (Rabs (B2R z) - Rabs Z) <= 3 / 10000000000) by lra. apply Rabs_le_inv in Ez.
  pose proof T0 as T1. apply Rabs_le_inv in T1.
  destruct (C83_decision rtol atol false zC z FC Fz Fr Ft ltac:(lra) ltac:(lra) Br ltac:(lra)) as (P & Q). cbv zeta in P, Q.
  set (c := Rabs (B2R zC)) in *. assert (C0 : 0 <= c) by apply Rabs_pos. assert (Z0 : 0 <= Rabs Z) by apply Rabs_pos. assert (z0 : 0 <= Rabs (B2R z)) by apply Rabs_pos.
  set (m' := Rmax c (Rabs (B2R z))) in *. set (m := Rmax c (Rabs Z)) in *.
  assert (M1 : m' <= m + 3 / 10000000000) by (apply rmax_move; exact T0). assert (M2 : m <= m' + 3 / 10000000000) by (apply rmax_move; rewrite Rabs_minus_sym; exact T0).
  assert (M3 : 0 <= m) by (eapply Rle_trans; [exact C0|apply Rmax_l]).
  assert (MR : Rabs (B2R rtol * m' - B2R rtol * m) <= 3 / 10000000000). { rewrite <- Rmult_minus_distr_l, Rabs_mult, (Rabs_right (B2R rtol)) by lra. assert (Rabs (m' - m) <= 3 / 10000000000) by (apply Rabs_le; lra). pose proof (Rabs_pos (m' - m)). apply Rle_trans with (1 * Rabs (m' - m)); [apply Rmult_le_compat_r; lra|lra]. }
  set (T' := Rmax (B2R atol) (B2R rtol * m')) in *. assert (K1 : T' <= tol + 3 / 10000000000) by (apply rmax_move; exact MR). assert (K2 : tol <= T' + 3 / 10000000000) by (apply rmax_move; rewrite Rabs_minus_sym; exact MR).
  assert (K3 : tol <= 1000000). { unfold tol. apply Rmax_lub; [lra|]. apply Rle_trans with (1 * m); [apply Rmult_le_compat_r; lra|]. rewrite Rmult_1_l. unfold m. apply Rmax_lub; lra. }
  assert (K0 : 0 <= T') by (eapply Rle_trans; [apply (proj1 Bt)|apply Rmax_l]). assert (UT : 0 <= u * T' <= 1000001 / 9000000000000000). { split; [apply Rmult_le_pos; lra|]. unfold Rdiv. rewrite Rmult_comm. apply Rmult_le_compat; lra. }
  pose proof (Rabs_triang_inv2 (B2R zC - B2R z) (B2R zC - Z)) as W. replace (B2R zC - B2R z - (B2R zC - Z)) with (- (B2R z - Z)) in W by ring. rewrite (Rabs_Ropp (B2R z - Z)) in W.
  assert (EA : Rabs (B2R z - Z) <= 3 / 10000000000) by (apply Rabs_le; lra). apply Rabs_le_inv in W. split; intros H.
  - apply P in H. lra.
  - apply Q. lra.
Qed.

(** ** GeoPath(A, B).on_path(C): on a path of at least some 100 km (and as far from half a turn), for a position less than 44 degrees from its great circle *)
Theorem C112_on_path : forall dot fsin fcos arcsin latA lonA zA latB lonB zB latC lonC zC pA pB rtol atol,
  good_dot dot -> good_trig fsin sin -> good_trig fcos cos -> good_arcsin arcsin -> valid latA lonA zA -> valid latB lonB zB -> valid latC lonC zC ->
  Rabs (B2R zA) <= 1000000 -> Rabs (B2R zB) <= 1000000 -> Rabs (B2R zC) <= 1000000 ->
  position 6378137 (B2R wgs84_f) (B2R latA) (B2R lonA) (B2R zA) pA -> position 6378137 (B2R wgs84_f) (B2R latB) (B2R lonB) (B2R zB) pB ->
  is_finite rtol = true -> is_finite atol = true -> 0 <= B2R rtol <= 1 -> 0 <= B2R atol <= 1000000 ->
  let A := place (B2R latA) (B2R lonA) in let B := place (B2R latB) (B2R lonB) in let C := place (B2R latC) (B2R lonC) in
  / 64 <= vnorm (vcross A B) -> Rabs (track_sine A B C) <= 7 / 10 ->
  let distance := Rabs (asin (track_sine A B C) * ((vnorm pA + vnorm pB) / 2)) in
  let Z := (B2R zA + B2R zB) / 2 in let depth_tol := Rmax (B2R atol) (B2R rtol * Rmax (Rabs (B2R zC)) (Rabs Z)) in
  let length := vnorm (vsub B A) in
  let answer := fgeo_on_path dot fsin fcos arcsin latA lonA zA latB lonB zB latC lonC zC wgs84_a wgs84_f rtol atol in
  (answer = true -> vnorm (vsub C A) <= length + 112 * u /\ vnorm (vsub C B) <= length + 112 * u /\ distance <= B2R atol + 6 / 1000000 /\ Rabs (B2R zC - Z) <= depth_tol + / 1000000000) /\
  (vnorm (vsub C A) <= length - 108 * u -> vnorm (vsub C B) <= length - 108 * u -> distance <= B2R atol - 6 / 1000000 -> Rabs (B2R zC - Z) <= depth_tol - / 1000000000 -> answer = true).
Proof.
  intros dot fsin fcos arcsin latA lonA zA latB lonB zB latC lonC zC pA pB rtol atol GD GS GC GA VA VB VC BA BB BC HA HB Fr Ft Br Bt A B C Hs Hb D Z tol len answer.
  assert (WA : valid_at latA lonA) by (destruct VA as (? & ? & ? & ? & _); repeat split; auto). assert (WB : valid_at latB lonB) by (destruct VB as (? & ? & ? & ? & _); repeat split; auto). assert (WC : valid_at latC lonC) by (destruct VC as (? & ? & ? & ? & _); repeat split; auto).
  destruct (C106_cross_track_earth dot fsin fcos arcsin latA lonA zA latB lonB zB latC lonC pA pB GD GS GC GA VA VB WC BA BB HA HB Hs Hb) as (Fd & Ed). fold A B C in Ed.
  assert (TD : Rabs (Rabs (B2R (fgeo_cross_track dot fsin fcos arcsin latA lonA zA latB lonB zB latC lonC wgs84_a wgs84_f)) - D) <= 6 / 1000000) by (unfold D; eapply Rle_trans; [apply Rabs_triang_inv2|exact Ed]). apply Rabs_le_inv in TD.
  assert (HL : 112 * u <= len).
  { assert (X : vnorm (vcross A B) <= len). { replace (vcross A B) with (vcross A (vsub B A)) by (generalize A B; intros; vring). eapply Rle_trans; [apply vcross_le|]. unfold A at 1. rewrite place_unit. fold len. lra. }
    rewrite u_val. lra. }
  pose proof (C112_between fsin fcos latA lonA latB lonB latC lonC GS GC WA WB WC) as BT. cbv zeta in BT. fold A B C in BT. fold len in BT. destruct (BT HL) as (P1 & Q1). clear BT.
  assert (FA : is_finite zA = true) by apply VA. assert (FB : is_finite zB = true) by apply VB. assert (FC : is_finite zC = true) by apply VC.
  destruct (same_depth rtol atol zA zB zC Fr Ft Br Bt FA FB FC BA BB BC) as (P3 & Q3). fold Z in P3, Q3. fold tol in P3, Q3.
  unfold answer, fgeo_on_path, fon_great_circle_path, fon_great_circle. fold (fgeo_cross_track dot fsin fcos arcsin latA lonA zA latB lonB zB latC lonC wgs84_a wgs84_f).
  set (d := fgeo_cross_track _ _ _ _ _ _ _ _ _ _ _ _ _ _) in *. set (bt := fbetween _ _ _) in *. set (dp := fisclose _ _ _ _ _) in *. clearbody d bt dp.
  pose proof (fle_val (fabs d) atol ltac:(rewrite fabs_fin; exact Fd) Ft) as LE. rewrite fabs_val in LE. split.
  - intros H. apply andb_prop in H. destruct H as (H & H3). apply andb_prop in H. destruct H as (H1 & H2). apply P1 in H1. apply P3 in H3. apply LE in H2. split; [apply H1|]. split; [apply H1|]. split; [lra|exact H3].
  - intros H1 H1' H2 H3. rewrite Q1, Q3 by assumption. rewrite (proj2 LE) by lra. reflexivity.
Qed.
Print Assumptions C112_on_path.

(** the zero-length finding, for GeoPath.on_path: no position is on the path from A to A, whatever the tolerances *)
Theorem C112_point_path : forall dot fsin fcos arcsin lat lon zA zB latC lonC zC a f rtol atol,
  fgeo_on_path dot fsin fcos arcsin lat lon zA lat lon zB latC lonC zC a f rtol atol = false.
Proof. intros. unfold fgeo_on_path. destruct (C112_no_length dot arcsin (nvec_deg fsin fcos lat lon) (nvec_deg fsin fcos latC lonC) (fgeo_radius fsin fcos lat lon zA lat lon zB a f) atol) as (_ & ->). reflexivity. Qed.
Print Assumptions C112_point_path.

(** with the default tolerance the ends of a path more than 190 m long need not be on the path *)
Theorem C112_default_tolerance_refuted : exists a b, near_unit a /\ near_unit b /\ 190 / 6371009 <= vnorm (vcross (vec_of a) (vec_of b)) /\ fbetween a b a = true /\ fbetween a b b = true /\
  forall arcsin dot q, good_arcsin arcsin -> dot = dot_seq \/ dot = dot_fma -> q = a \/ q = b -> fon_great_circle_path dot arcsin a b q earth_radius default_atol = false.
Proof.
  exists short_a, short_b. destruct short_units as (Na & Nb). split; [exact Na|]. split; [exact Nb|]. split.
  - destruct (cross_err _ _ Na Nb) as (F & _ & _ & E). apply Rabs_le_inv in E. pose proof u_small.
    assert (G : B2R flen < B2R (fnorm (fcross short_a short_b))) by (apply fgt_spec; [exact F|reflexivity|vm_compute; reflexivity]).
    rewrite flen_val in G. lra.
  - split; [vm_compute; reflexivity|]. split; [vm_compute; reflexivity|]. intros arcsin dot q GA HD HQ. unfold fon_great_circle_path.
    assert (X : fon_great_circle dot arcsin short_a short_b q earth_radius default_atol = false).
    { destruct HD as [->| ->], HQ as [->| ->]; apply far_from_circle; auto; vm_compute; reflexivity. }
    rewrite X. apply andb_false_r.
Qed.
Print Assumptions C112_default_tolerance_refuted.

(** the path from (0 N, 0 E) to (0 N, 90 E) and the position (0 N, 45 E) of C106_example: the hypotheses hold, and with a tolerance of one metre it is on the path *)
Definition rtol6_64 : float64 := f 4722366482869645 (-72) eq_refl.
Example C112_example : valid fzero f45 fzero /\ is_finite rtol6_64 = true /\ 0 <= B2R rtol6_64 <= 1 /\ Rabs (B2R rtol6_64 - / 1000000) <= / 10000000000000000000000 /\
  (let A := place (B2R fzero) (B2R fzero) in let B := place (B2R fzero) (B2R f90) in let C := place (B2R fzero) (B2R f45) in
   112 * u <= vnorm (vsub B A) /\ vnorm (vsub C A) <= vnorm (vsub B A) - 108 * u /\ vnorm (vsub C B) <= vnorm (vsub B A) - 108 * u) /\
  fgeo_on_path dot_seq (fun x => round64 (sin (B2R x))) (fun x => round64 (cos (B2R x))) ideal_arcsin fzero fzero fzero fzero f90 fzero fzero f45 fzero wgs84_a wgs84_f rtol6_64 fone = true.
Proof.
  destruct C106_example as (E1 & E2 & E3 & E4 & _ & E5 & E6 & E7 & E8 & E9 & _ & _ & E10). cbv zeta in E10. destruct E10 as (PA & PB & E11 & E12).
  assert (V0 : B2R fzero = 0) by reflexivity. assert (V90 : B2R f90 = 90) by (unfold f90, f, B2R, F2R; cbn; lra).
  assert (VC : valid fzero f45 fzero). { destruct E8 as (G1 & G2 & G3 & G4). split; auto. split; auto. split; auto. split; auto. split; [reflexivity|]. rewrite V0, Rabs_R0. apply bpow_ge_0. }
  split; [exact VC|]. split; [reflexivity|]. assert (R6 : 0 <= B2R rtol6_64 <= 1 /\ Rabs (B2R rtol6_64 - / 1000000) <= / 10000000000000000000000) by (unfold rtol6_64, f, B2R, F2R; cbn; split; [lra|apply Rabs_le; lra]).
  split; [apply R6|]. split; [apply R6|].
  assert (PUS : place 0 0 = V 1 0 0 /\ place 0 90 = V 0 1 0 /\ place 0 45 = V (1 / sqrt 2) (1 / sqrt 2) 0).
  { unfold place, latlon_vec. replace (0 * (PI / 180)) with 0 by ring. replace (90 * (PI / 180)) with (PI / 2) by field. replace (45 * (PI / 180)) with (PI / 4) by field. rewrite sin_0, cos_0, cos_PI2, sin_PI2, cos_PI4, sin_PI4.
    repeat split; apply vec_eq; cbn [Spec.vx Spec.vy Spec.vz]; ring. }
  destruct PUS as (X1 & X2 & X3). pose proof u_pos as Pu. pose proof u_tiny as Su.
  assert (S2 : 141 / 100 <= sqrt 2 <= 142 / 100). { split; [rewrite <- (sqrt_square (141 / 100)) by lra|rewrite <- (sqrt_square (142 / 100)) by lra]; apply sqrt_le_1_alt; lra. }
  assert (SS : sqrt 2 * sqrt 2 = 2) by (apply sqrt_sqrt; lra). assert (I2 : 7 / 10 <= 1 / sqrt 2). { apply (Rmult_le_reg_r (sqrt 2)); [lra|]. unfold Rdiv at 2. rewrite Rmult_1_l, Rinv_l by lra. lra. }
  assert (I3 : (1 / sqrt 2) * (1 / sqrt 2) = 1 / 2). { replace (1 / sqrt 2 * (1 / sqrt 2)) with (1 / (sqrt 2 * sqrt 2)) by (field; lra). rewrite SS. reflexivity. }
  assert (NB : vnorm (vsub (V 0 1 0) (V 1 0 0)) = sqrt 2). { unfold vnorm, vdot, vsub; cbn [Spec.vx Spec.vy Spec.vz]. f_equal. ring. }
  set (h := 1 / sqrt 2) in *. clearbody h.
  assert (NC : forall p, p = V 1 0 0 \/ p = V 0 1 0 -> vnorm (vsub (V h h 0) p) <= 1).
  { intros p Hp. unfold vnorm. rewrite <- sqrt_1. apply sqrt_le_1_alt. destruct Hp as [-> | ->]; unfold vdot, vsub; cbn [Spec.vx Spec.vy Spec.vz]; lra. }
  assert (BET : 112 * u <= vnorm (vsub (V 0 1 0) (V 1 0 0)) /\ vnorm (vsub (V h h 0) (V 1 0 0)) <= vnorm (vsub (V 0 1 0) (V 1 0 0)) - 108 * u /\ vnorm (vsub (V h h 0) (V 0 1 0)) <= vnorm (vsub (V 0 1 0) (V 1 0 0)) - 108 * u).
  { rewrite NB. pose proof (NC _ (or_introl eq_refl)). pose proof (NC _ (or_intror eq_refl)). repeat split; lra. }
  split. { cbv zeta. rewrite V0, V90, E7, X1, X2, X3. exact BET. }
  destruct (C112_on_path dot_seq (fun x => round64 (sin (B2R x))) (fun x => round64 (cos (B2R x))) ideal_arcsin fzero fzero fzero fzero f90 fzero fzero f45 fzero _ _ rtol6_64 fone E1 E2 E3 E4 E5 E6 VC E9 E9 E9 PA PB eq_refl eq_refl (proj1 R6) ltac:(rewrite fone_val; lra)
    ltac:(rewrite E11; lra) ltac:(rewrite E12, Rabs_R0; lra)) as (_ & Q). apply Q; clear Q.
  - rewrite V0, V90, E7, X1, X2, X3. apply BET.
  - rewrite V0, V90, E7, X1, X2, X3. apply BET.
  - rewrite E12, asin_0, Rmult_0_l, Rabs_R0, fone_val. lra.
  - rewrite V0. replace (0 - (0 + 0) / 2) with 0 by field. rewrite Rabs_R0. eapply Rle_trans; [|apply Rplus_le_compat_r, Rmax_l]. rewrite fone_val. lra.
Qed.
