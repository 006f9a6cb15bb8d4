(** * C108: GeoPath.interpolate, closest_point_on_great_circle and intersect in binary64, positions in degrees (objects.py 947-974, 1054-1060, 1156-1174) *)
From Coq Require Import ZArith Reals Lra Lia Bool Psatz.
From Flocq Require Import Core BinarySingleNaN Relative.
From Verif Require Import Spec LVec LAngle LCircle PTrack FTiny FZero FBase FRel FRel2 FUnit FPi FAngle FMod FDist FClose FGreat FLatLon FInv FInv2 FTrack FOnCircle FEcef FEcef2 FNed FNed2 FNed3 FDelta FDelta2 FDelta3
  FInterp FPoint FPoint2 FWay FWay2 FWay3 FWay4 FGeodB FGeod FGeod2 FGeod3 FGeod4 FGeod5 FGeod6 FGeod7 FGeod8 FGeod9 FGeod10 FMove FMove2 FMove3 FEuler FEuler2 FBody FBody2 FBody3 PPath3 FInv3 FCourse FGeoPath.
Local Open Scope R_scope.

(** ** moved vectors *)
Lemma angle_perturb p q k : p <> v0 -> q <> v0 -> vnorm (vsub q p) <= k * vnorm p -> k <= / 20 -> angle p q <= 2006 / 1000 * k.
Proof.
  intros Np Nq H Hk. pose proof (vnorm_nz _ Np) as P. assert (DP : vnorm (vsub (direction q) (direction p)) <= 2 * k).
  { eapply Rle_trans; [apply direction_perturb; auto|]. apply (Rmult_le_reg_r (vnorm p)); [exact P|]. unfold Rdiv. rewrite Rmult_assoc, Rinv_l by lra. lra. }
  pose proof (angle_chord (direction p) (direction q) (2 * k) (direction_unit _ Np) (direction_unit _ Nq) DP ltac:(lra)) as A.
  rewrite angle_dir_r in A by auto. rewrite angle_sym in A. rewrite angle_dir_r in A by auto. rewrite angle_sym. lra.
Qed.
Lemma near_place a A : near_unit a -> vec_of a <> v0 -> vnorm (vsub (direction (vec_of a)) A) <= 163 / 10 * u -> vnorm (vsub (vec_of a) A) <= 223 / 10 * u.
Proof.
  intros NU NZ D. destruct (near_unit_len a NU) as (_ & L). pose proof (vnorm_nz _ NZ) as P.
  replace (vsub (vec_of a) A) with (vadd (vsub (vec_of a) (direction (vec_of a))) (vsub (direction (vec_of a)) A)) by (generalize (vec_of a) (direction (vec_of a)) A; intros; vring).
  eapply Rle_trans; [apply norm_triangle|]. assert (E : vnorm (vsub (vec_of a) (direction (vec_of a))) <= 6 * u); [|lra].
  rewrite (direction_decomp _ NZ) at 1. set (n := direction (vec_of a)). set (k := vnorm (vec_of a)) in *. replace (vsub (vscale k n) n) with (vscale (k - 1) n) by (generalize n k; intros; vring).
  rewrite vnorm_scale. unfold n. rewrite direction_unit by auto. rewrite Rmult_1_r. apply Rabs_le. lra.
Qed.

(** ** interpolate: point_a + (point_b - point_a) * ti, the normal normalised *)
Definition fgeo_interpolate fsin fcos (latA lonA latB lonB ti : float64) : vec64 := finterpolate (nvec_deg fsin fcos latA lonA) (nvec_deg fsin fcos latB lonB) ti.
(** the depth of GeoPath.interpolate: the z of point_a + (point_b - point_a) * ti, objects.py 1171-1174 *)
Definition finterp_depth (zA zB ti : float64) : float64 := fadd zA (fmul (fsub zB zA) ti).

Lemma interp_core a b A B ti : near_unit a -> near_unit b -> vnorm A = 1 -> vnorm B = 1 -> vnorm (vsub (vec_of a) A) <= 223 / 10 * u -> vnorm (vsub (vec_of b) B) <= 223 / 10 * u ->
  is_finite ti = true -> 0 <= B2R ti <= 1 -> let v := chord A B (B2R ti) in / 100000 <= vnorm v ->
  near_unit (finterpolate a b ti) /\ angle v (vec_of (finterpolate a b ti)) <= (7 + 50 / vnorm v) * u.
Proof.
  intros Ua Ub VA VB Da Db Ft Ht v Hv. pose proof u_pos as Pu. pose proof u_tiny as Su. assert (Us : u <= / 9000000000000000) by (rewrite u_val; lra). set (t := B2R ti) in *. set (v' := chord (vec_of a) (vec_of b) t).
  assert (DV : vnorm (vsub v' v) <= 223 / 10 * u).
  { replace (vsub v' v) with (vadd (vscale (1 - t) (vsub (vec_of a) A)) (vscale t (vsub (vec_of b) B))) by (unfold v', v, chord; generalize (vec_of a) (vec_of b) A B t; intros; vring).
    eapply Rle_trans; [apply norm_triangle|]. rewrite !vnorm_scale, !Rabs_right by lra.
    assert ((1 - t) * vnorm (vsub (vec_of a) A) <= (1 - t) * (223 / 10 * u)) by (apply Rmult_le_compat_l; lra). assert (t * vnorm (vsub (vec_of b) B) <= t * (223 / 10 * u)) by (apply Rmult_le_compat_l; lra). lra. }
  pose proof (norm_perturb v (vsub v' v)) as NP. rewrite <- vadd_sub_id in NP. apply Rabs_le_inv in NP.
  assert (V0 : v <> v0) by (intros E; rewrite E, vnorm_v0 in Hv; lra). assert (V1 : v' <> v0) by (intros E; rewrite E in NP, DV; rewrite vnorm_v0 in NP; lra).
  assert (IV : 0 < / vnorm v) by (apply Rinv_0_lt_compat; lra). assert (IU : / vnorm v <= 100000) by (replace 100000 with (/ / 100000) by field; apply Rinv_le; lra).
  destruct (C97_interpolate a b ti Ua Ub Ft Ht) as (N & E). { fold t. fold v'. lra. } fold t v' in E. split; [exact N|].
  destruct (near_unit_near _ N) as (_ & Q0 & _). eapply Rle_trans; [apply (angle_triangle v v' _ V0 V1 Q0)|].
  assert (A1 : angle v v' <= 2006 / 1000 * (223 / 10 * u * / vnorm v)).
  { apply angle_perturb; auto.
    - rewrite Rmult_assoc, Rinv_l by lra. lra.
    - assert (u * / vnorm v <= u * 100000) by (apply Rmult_le_compat_l; lra). lra. }
  destruct (near_unit_len a Ua) as (_ & La). destruct (near_unit_len b Ub) as (_ & Lb).
  assert (ND : vnorm (vsub (vec_of b) (vec_of a)) <= 20001 / 10000). { rewrite sub_neg. eapply Rle_trans; [apply norm_triangle|]. rewrite vnorm_neg. lra. }
  pose proof (vnorm_pos (vsub (vec_of b) (vec_of a))) as PD. assert (PV : 0 < vnorm v') by lra.
  assert (IR : / vnorm v' <= 1001 / 1000 * / vnorm v).
  { apply (Rmult_le_reg_l (vnorm v')); [lra|]. rewrite Rinv_r by lra. replace (vnorm v' * (1001 / 1000 * / vnorm v)) with (1001 / 1000 * (vnorm v' * / vnorm v)) by ring.
    assert (999 / 1000 * (1001 / 1000) >= 0) by lra. assert (9995 / 10000 <= vnorm v' * / vnorm v). { apply (Rmult_le_reg_r (vnorm v)); [lra|]. rewrite Rmult_assoc, Rinv_l by lra. lra. } lra. }
  assert (E2 : t * vnorm (vsub (vec_of b) (vec_of a)) / vnorm v' <= 20001 / 10000 * (1001 / 1000 * / vnorm v)).
  { unfold Rdiv. apply Rmult_le_compat; [apply Rmult_le_pos; lra|left; apply Rinv_0_lt_compat; lra| |exact IR]. apply Rle_trans with (1 * (20001 / 10000)); [apply Rmult_le_compat; lra|lra]. }
  set (q := t * vnorm (vsub (vec_of b) (vec_of a)) / vnorm v') in *. assert (E3 : (611 / 100 + 201 / 100 * q) * u <= (611 / 100 + 201 / 100 * (20001 / 10000 * (1001 / 1000 * / vnorm v))) * u) by (apply Rmult_le_compat_r; lra).
  assert (0 < u * / vnorm v) by (apply Rmult_lt_0_compat; lra). unfold Rdiv. lra.
Qed.

(** the depth of the interpolated position *)
Lemma interp_depth zA zB ti : is_finite zA = true -> is_finite zB = true -> is_finite ti = true -> Rabs (B2R zA) <= 1000000 -> Rabs (B2R zB) <= 1000000 -> 0 <= B2R ti <= 1 ->
  is_finite (finterp_depth zA zB ti) = true /\ Rabs (B2R (finterp_depth zA zB ti) - ((1 - B2R ti) * B2R zA + B2R ti * B2R zB)) <= / 1000000000.
Proof.
  intros FA FB Ft BA BB Ht. apply Rabs_le_inv in BA. apply Rabs_le_inv in BB. pose proof u_pos as Pu. pose proof tiny_eta as Te. pose proof eta_pos as Pe. assert (Us : u <= / 9000000000000000) by (rewrite u_val; lra).
  assert (Big : 32000000 <= bpow radix2 1000). { apply Rle_trans with (bpow radix2 25); [cbn; lra|apply bpow_le; lia]. } assert (Big' : bpow radix2 1000 <= bpow radix2 1023) by (apply bpow_le; lia).
  unfold finterp_depth.
  destruct (fsub_val zB zA FB FA) as (Fs & Es). { apply Rabs_le; lra. } destruct (rnd_err (B2R zB - B2R zA)) as (e1 & h1 & B1 & B1' & E1). rewrite E1 in Es. clear E1. apply Rabs_le_inv in B1'.
  assert (AE : Rabs ((B2R zB - B2R zA) * e1) <= 2000000 * u) by (rewrite Rabs_mult; apply Rmult_le_compat; auto using Rabs_pos; apply Rabs_le; lra). apply Rabs_le_inv in AE.
  set (s := fsub zB zA) in *. clearbody s. assert (Es' : B2R s = B2R zB - B2R zA + (B2R zB - B2R zA) * e1 + h1) by (rewrite Es; ring). clear Es. set (k1 := (B2R zB - B2R zA) * e1) in *. clearbody k1.
  assert (PB : Rabs (B2R s * B2R ti) <= 2000001 * 1) by (rewrite Rabs_mult; apply Rmult_le_compat; auto using Rabs_pos; apply Rabs_le; lra).
  destruct (fmul_val s ti Fs Ft) as (Fm & Em). { lra. } destruct (rnd_err (B2R s * B2R ti)) as (e2 & h2 & B2 & B2' & E2). rewrite E2 in Em. clear E2. apply Rabs_le_inv in B2'.
  assert (AE2 : Rabs (B2R s * B2R ti * e2) <= 2000001 * 1 * u) by (rewrite Rabs_mult; apply Rmult_le_compat; auto using Rabs_pos). apply Rabs_le_inv in AE2. apply Rabs_le_inv in PB.
  set (m := fmul s ti) in *. clearbody m. assert (Em' : B2R m = B2R s * B2R ti + B2R s * B2R ti * e2 + h2) by (rewrite Em; ring). clear Em. set (k2 := B2R s * B2R ti * e2) in *. clearbody k2.
  destruct (fadd_val zA m FA Fm) as (Fa & Ea). { apply Rabs_le; lra. } destruct (rnd_err (B2R zA + B2R m)) as (e3 & h3 & B3 & B3' & E3). rewrite E3 in Ea. clear E3. apply Rabs_le_inv in B3'.
  assert (AE3 : Rabs ((B2R zA + B2R m) * e3) <= 3000002 * u) by (rewrite Rabs_mult; apply Rmult_le_compat; auto using Rabs_pos; apply Rabs_le; lra). apply Rabs_le_inv in AE3.
  split; [exact Fa|]. replace (B2R (fadd zA m) - ((1 - B2R ti) * B2R zA + B2R ti * B2R zB)) with ((k1 + h1) * B2R ti + k2 + h2 + ((B2R zA + B2R m) * e3 + h3)) by (rewrite Ea, Em', Es'; ring).
  assert (AK : Rabs ((k1 + h1) * B2R ti) <= (2000000 * u + eta) * 1) by (rewrite Rabs_mult; apply Rmult_le_compat; auto using Rabs_pos; apply Rabs_le; lra). apply Rabs_le_inv in AK.
  apply Rabs_le. lra.
Qed.

Lemma half_turn_chord A B t : vnorm A = 1 -> vnorm B = 1 -> 0 <= t <= 1 -> 0 <= vdot A B -> 7 / 10 <= vnorm (chord A B t).
Proof.
  intros HA HB Ht P. apply vnorm_unit in HA. apply vnorm_unit in HB. unfold vnorm. rewrite <- (sqrt_square (7 / 10)) by lra. apply sqrt_le_1_alt.
  assert (E : vdot (chord A B t) (chord A B t) = (1 - t) * (1 - t) * vdot A A + t * t * vdot B B + 2 * (t * (1 - t)) * vdot A B) by (unfold chord; generalize A B t; intros; unfold vdot, vadd, vscale, vsub; cbn [Spec.vx Spec.vy Spec.vz]; ring).
  rewrite E, HA, HB. assert (0 <= t * (1 - t) * vdot A B) by (apply Rmult_le_pos; [apply Rmult_le_pos; lra|lra]). pose proof (Rle_0_sqr (t - 1 / 2)) as S2; unfold Rsqr in S2. lra.
Qed.

Theorem C108_interpolate : forall fsin fcos latA lonA zA latB lonB zB ti,
  good_trig fsin sin -> good_trig fcos cos -> valid latA lonA zA -> valid latB lonB zB -> Rabs (B2R zA) <= 1000000 -> Rabs (B2R zB) <= 1000000 -> is_finite ti = true -> 0 <= B2R ti <= 1 ->
  let A := place (B2R latA) (B2R lonA) in let B := place (B2R latB) (B2R lonB) in
  let P := vadd (vscale (1 - B2R ti) A) (vscale (B2R ti) B) in let q := fgeo_interpolate fsin fcos latA lonA latB lonB ti in let z := finterp_depth zA zB ti in
  / 100000 <= vnorm P -> near_unit q /\ angle P (vec_of q) <= (7 + 50 / vnorm P) * u /\ on_arc A B (direction P) /\
    (0 <= vdot A B -> angle P (vec_of q) <= / 100000000000000) /\
    is_finite z = true /\ Rabs (B2R z - ((1 - B2R ti) * B2R zA + B2R ti * B2R zB)) <= / 1000000000.
Proof.
  intros fsin fcos latA lonA zA latB lonB zB ti GS GC VA VB BA BB Ft Ht A B P q z HP. pose proof u_pos as Pu.
  assert (WA : valid_at latA lonA) by (destruct VA as (? & ? & ? & ? & _); repeat split; auto). assert (WB : valid_at latB lonB) by (destruct VB as (? & ? & ? & ? & _); repeat split; auto).
  destruct (nvec_near fsin fcos latA lonA GS GC WA) as (U1 & N1 & _ & D1). destruct (nvec_near fsin fcos latB lonB GS GC WB) as (U2 & N2 & _ & D2). fold A in D1. fold B in D2.
  assert (PC : chord A B (B2R ti) = P) by (unfold P, chord; generalize A B (B2R ti); intros; vring).
  assert (UA : vnorm A = 1) by apply place_unit. assert (UB : vnorm B = 1) by apply place_unit.
  destruct (interp_core _ _ A B ti U1 U2 UA UB (near_place _ _ U1 N1 D1) (near_place _ _ U2 N2 D2) Ft Ht) as (NQ & AQ). { rewrite PC. exact HP. } rewrite PC in AQ.
  fold (fgeo_interpolate fsin fcos latA lonA latB lonB ti) in NQ, AQ. fold q in NQ, AQ. clearbody q.
  assert (P0 : P <> v0) by (intros E; rewrite E, vnorm_v0 in HP; lra). pose proof (vnorm_nz _ P0) as PP. assert (IP : 0 < / vnorm P) by (apply Rinv_0_lt_compat; lra).
  split; [exact NQ|]. split; [exact AQ|]. split; [|split].
  - split; [apply direction_unit; auto|]. exists (/ vnorm P * (1 - B2R ti)), (/ vnorm P * B2R ti). split; [apply Rmult_le_pos; lra|]. split; [apply Rmult_le_pos; lra|].
    unfold direction. unfold P at 2. generalize (/ vnorm P) A B (B2R ti). intros. vring.
  - intros Dp. pose proof (half_turn_chord A B (B2R ti) UA UB Ht Dp) as L. rewrite PC in L. eapply Rle_trans; [exact AQ|].
    assert (/ vnorm P <= 10 / 7). { replace (10 / 7) with (/ (7 / 10)) by field. apply Rinv_le; lra. } assert (u * / vnorm P <= u * (10 / 7)) by (apply Rmult_le_compat_l; lra). unfold Rdiv at 1. rewrite u_val in *. lra.
  - destruct VA as (_ & _ & _ & _ & FzA & _). destruct VB as (_ & _ & _ & _ & FzB & _). apply interp_depth; auto.
Qed.
Print Assumptions C108_interpolate.
