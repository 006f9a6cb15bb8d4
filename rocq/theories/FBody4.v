(** * C104: the position of a target seen from a vehicle *)
From Coq Require Import ZArith Reals Lra Lia Bool Psatz.
From Flocq Require Import Core BinarySingleNaN Relative.
From Verif Require Import Spec LVec LAngle LRot FTiny FZero FBase FRel FRel2 FUnit FPi FAngle FDist FGreat FLatLon FInv FInv2 FEcef FEcef2 FNed FNed2 FNed3 FDelta FDelta2 FDelta3
  FGeodB FGeod FGeod2 FGeod3 FGeod4 FGeod5 FGeod6 FGeod7 FGeod8 FGeod9 FGeod10 FMove FMove2 FMove3 FEuler FEuler2 FBody FBody2 FBody3.
Local Open Scope R_scope.

Lemma move_any dot fsin fcos latA lonA zA pA p P e F M k : good_mdot dot -> good_trig fsin sin -> good_trig fcos cos -> valid latA lonA zA -> Rabs (B2R zA) <= 1000000 ->
  position 6378137 (B2R wgs84_f) (B2R latA) (B2R lonA) (B2R zA) pA -> finite_vec p -> vnorm P <= 7378137 -> e <= 1 -> orthogonal M -> 0 <= k <= 1000 -> cols_ok k F M ->
  vnorm (vsub (vadd (mulv M (vec_of p)) pA) P) <= e ->
  let q := faddv (fto_ecef dot F p) (fgeo_point_to_ecef fsin fcos latA lonA zA wgs84_a wgs84_f) in
  finite_vec q /\ vnorm (vec_of p) <= vnorm (vsub P pA) + e /\ vnorm (vsub (vec_of q) P) <= 101 / 100 * e + 339 / 10000000000 + (1733 / 1000 * k + 1213 / 100) * u * vnorm (vec_of p).
Proof.
  intros GD GS GC VA BA HA Fp NP Be O Hk CK HP. pose proof VA as (FaA & FoA & BaA & BoA & FzA & BzA). pose proof u_pos as Pu. pose proof u_tiny as Su. pose proof eta_pos as Pe. pose proof tiny_eta as Te.
  assert (PE : 0 <= e) by (eapply Rle_trans; [apply vnorm_pos|exact HP]).
  pose proof wgs84_f_val as (_ & Vf). assert (NA : vnorm pA <= 7378137) by (pose proof (position_norm 6378137 (B2R wgs84_f) (B2R latA) (B2R lonA) (B2R zA) pA ltac:(lra) ltac:(lra) HA); lra).
  set (Q := mulv M (vec_of p)) in *. assert (NQ : vnorm Q = vnorm (vec_of p)) by (apply orthogonal_norm; auto).
  assert (LP : vnorm (vec_of p) <= vnorm (vsub P pA) + e).
  { rewrite <- NQ. replace Q with (vadd (vsub P pA) (vsub (vadd Q pA) P)) by (generalize Q P pA; intros; vring). eapply Rle_trans; [apply norm_triangle|]. lra. }
  assert (NPA : vnorm (vsub P pA) <= 14756274). { rewrite sub_neg. eapply Rle_trans; [apply norm_triangle|]. rewrite vnorm_neg. lra. }
  assert (B400 : 134217728 <= bpow radix2 400). { apply Rle_trans with (bpow radix2 27); [cbn; lra|apply bpow_le; lia]. }
  set (L := vnorm (vec_of p)) in *. assert (PL : 0 <= L) by apply vnorm_pos. assert (PUL : 0 <= u * L) by (apply Rmult_le_pos; lra).
  destruct (to_ecef_any dot F M p k GD Fp O Hk CK ltac:(fold L; lra)) as (FQ & EQ). fold L Q in EQ. set (K := 1733 / 1000 * k + 1203 / 100) in *. assert (HK : 0 <= K <= 1800) by (unfold K; lra).
  replace (K * u * L) with (K * (u * L)) in EQ by ring.
  destruct HA as (sA & SA & EA). destruct (C89_from_degrees fsin fcos latA lonA zA wgs84_a wgs84_f GS GC FaA FoA BaA BoA FzA BzA wgs84_usual) as (FV & _).
  destruct (C89_wgs84 fsin fcos latA lonA zA GS GC FaA FoA BaA BoA FzA BA) as (s & S & EV).
  rewrite (surface_point_unique 6378137 (B2R wgs84_f) (B2R latA) (B2R lonA) s sA ltac:(lra) ltac:(lra) S SA) in EV. rewrite <- EA in EV. clear s S SA EA.
  set (y := fto_ecef dot F p) in *. set (g := fgeo_point_to_ecef fsin fcos latA lonA zA wgs84_a wgs84_f) in *.
  assert (SU : u * L <= / 1000000000000000 * L) by (apply Rmult_le_compat_r; lra). assert (KL : 0 <= K * (u * L) <= 1800 * (u * L)) by (split; [apply Rmult_le_pos; lra|apply Rmult_le_compat_r; lra]).
  assert (Ny : vnorm (vec_of y) <= bpow radix2 400). { rewrite (via Q (vec_of y)). eapply Rle_trans; [apply norm_triangle|]. lra. }
  assert (Ng : vnorm (vec_of g) <= bpow radix2 400). { rewrite (via pA (vec_of g)). eapply Rle_trans; [apply norm_triangle|]. lra. }
  destruct (sum_err y g Q pA _ _ FQ FV Ny Ng EQ EV) as (FS & ES). cbv zeta. split; auto. split; auto.
  assert (NS : vnorm (vadd Q pA) <= 7378138). { rewrite (via P (vadd Q pA)). eapply Rle_trans; [apply norm_triangle|]. lra. }
  rewrite (sub_via _ _ (vadd Q pA)). eapply Rle_trans; [apply norm_triangle|].
  assert (u * vnorm (vadd Q pA) <= u * 7378138) by (apply Rmult_le_compat_l; lra).
  assert (u * (K * (u * L) + 24 * eta + 33 / 1000000000) <= / 1000000000000000 * (K * (u * L) + 24 * eta + 33 / 1000000000)) by (apply Rmult_le_compat_r; lra).
  replace ((1733 / 1000 * k + 1213 / 100) * u * L) with (K * (u * L) + 1 / 10 * (u * L)) by (unfold K; field). set (W := K * (u * L)) in *. rewrite u_val in *.
  clear - ES HP H H0 PUL PL Te Pe PE KL. lra.
Qed.

(** FrameB(point, yaw, pitch, roll, degrees=True).Pvector(p).to_ecef_vector() + point.to_ecef_vector(), and its to_geo_point in degrees: the position of a target seen
    from a vehicle (objects.py 206-261, 645-658, 778-802, 806-809, 553-565, 1513-1530; the second example of the documentation) *)
Definition ftarget_deg dot fsin fcos pow arctan2 (latB lonB zB yaw pitch roll : float64) (p : vec64) (a f : float64) : float64 * float64 * float64 :=
  let '(n, depth) := fp_EB_E2n_EB_E pow (faddv (fto_ecef dot (fR_EB_deg dot fsin fcos latB lonB yaw pitch roll) p) (fgeo_point_to_ecef fsin fcos latB lonB zB a f)) a f in
  let r := fn_E2lat_lon arctan2 n in (fdeg (fst r), fdeg (snd r), depth).

(** ** the latitude, longitude and depth answered are those of the target, to less than half a micrometre *)
Theorem C104_target : forall dot fsin fcos pow arctan2 latB lonB zB yaw pitch roll pB p lat lon d,
  good_mdot dot -> good_trig fsin sin -> good_trig fcos cos -> good_pow pow -> good_atan2 arctan2 -> valid latB lonB zB -> Rabs (B2R zB) <= 1000000 -> degrees_range yaw pitch roll -> finite_vec p ->
  position 6378137 (B2R wgs84_f) (B2R latB) (B2R lonB) (B2R zB) pB ->
  position 6378137 (B2R wgs84_f) lat lon d (vadd pB (mulv (body_axes (B2R latB) (B2R lonB) (deg (B2R yaw)) (deg (B2R pitch)) (deg (B2R roll))) (vec_of p))) -> Rabs d <= 1000000 ->
  let L := vnorm (vec_of p) in
  let '(lat', lon', z') := ftarget_deg dot fsin fcos pow arctan2 latB lonB zB yaw pitch roll p wgs84_a wgs84_f in
  let off := central_angle_deg lat lon (B2R lat') (B2R lon') * 6378137 in
  is_finite z' = true /\ off <= 67 / 1000000000 + 33 / 1000000000000000 * L /\ off <= 550 / 1000000000 /\
  Rabs (B2R z' - d) <= 47 / 1000000000 + 28 / 1000000000000000 * L /\ Rabs (B2R z' - d) <= 450 / 1000000000.
Proof.
  intros dot fsin fcos pow arctan2 latB lonB zB yaw pitch roll pB p lat lon d GD GS GC GP GA VB BB DR Fp HB HP Bd L. set (M := body_axes _ _ _ _ _) in *. set (P := vadd pB _) in *. pose proof u_pos as Pu.
  pose proof VB as (Fa & Fo & Ba & Bo & _). pose proof (C104_body_axes dot fsin fcos latB lonB yaw pitch roll GD GS GC Fa Fo Ba Bo DR) as CK. fold M in CK. assert (O : orthogonal M) by apply body_orth.
  pose proof wgs84_f_val as (_ & Vf). assert (NP : vnorm P <= 7378137) by (pose proof (position_norm 6378137 (B2R wgs84_f) lat lon d P ltac:(lra) ltac:(lra) HP); lra).
  assert (NB : vnorm pB <= 7378137) by (pose proof (position_norm 6378137 (B2R wgs84_f) (B2R latB) (B2R lonB) (B2R zB) pB ltac:(lra) ltac:(lra) HB); lra).
  assert (Z : vnorm (vsub (vadd (mulv M (vec_of p)) pB) P) <= 0).
  { unfold P. replace (vsub _ _) with v0 by (generalize (mulv M (vec_of p)) pB; intros; vring). rewrite vnorm_v0. lra. }
  destruct (move_any dot fsin fcos latB lonB zB pB p P 0 _ M 133 GD GS GC VB BB HB Fp NP ltac:(lra) O ltac:(lra) CK Z) as (FQ & LP & EQ). fold L in LP, EQ.
  assert (NPA : vnorm (vsub P pB) <= 14756274). { rewrite sub_neg. eapply Rle_trans; [apply norm_triangle|]. rewrite vnorm_neg. lra. }
  assert (PL : 0 <= L) by apply vnorm_pos. unfold ftarget_deg. set (q := faddv _ _) in *.
  pose proof (near_to_degrees pow arctan2 q lat lon d P (339 / 10000000000 + (1733 / 1000 * 133 + 1213 / 100) * u * L) GP GA FQ HP Bd ltac:(lra)) as C. assert (UL : u * L <= u * 14756274) by (apply Rmult_le_compat_l; lra). rewrite u_val in *. specialize (C ltac:(lra)).
  destruct (fp_EB_E2n_EB_E pow q wgs84_a wgs84_f) as [n depth]. cbv zeta in *. set (r := fn_E2lat_lon arctan2 n) in *. destruct C as (C1 & C2 & C3). clear - C1 C2 C3 UL PL. repeat split; auto; lra.
Qed.
Print Assumptions C104_target.

(** ** seen and placed again: the vector from the vehicle to B in the vehicle's own axes, turned back into a position, is B *)
Theorem C104_seen_and_placed : forall dot fsin fcos pow arctan2 latA lonA zA yaw pitch roll latB lonB zB pA pB,
  good_mdot dot -> good_trig fsin sin -> good_trig fcos cos -> good_pow pow -> good_atan2 arctan2 -> valid latA lonA zA -> valid latB lonB zB -> Rabs (B2R zA) <= 1000000 -> Rabs (B2R zB) <= 1000000 -> degrees_range yaw pitch roll ->
  position 6378137 (B2R wgs84_f) (B2R latA) (B2R lonA) (B2R zA) pA -> position 6378137 (B2R wgs84_f) (B2R latB) (B2R lonB) (B2R zB) pB ->
  let L := vnorm (vsub pB pA) in let p := fdelta_B_deg dot fsin fcos latA lonA yaw pitch roll latA lonA zA latB lonB zB wgs84_a wgs84_f in
  let '(lat', lon', z') := ftarget_deg dot fsin fcos pow arctan2 latA lonA zA yaw pitch roll p wgs84_a wgs84_f in
  let off := central_angle_deg (B2R latB) (B2R lonB) (B2R lat') (B2R lon') * 6378137 in
  is_finite z' = true /\ off <= 149 / 1000000000 + 66 / 1000000000000000 * L /\ off <= 1130 / 1000000000 /\
  Rabs (B2R z' - B2R zB) <= 116 / 1000000000 + 56 / 1000000000000000 * L /\ Rabs (B2R z' - B2R zB) <= 950 / 1000000000.
Proof.
  intros dot fsin fcos pow arctan2 latA lonA zA yaw pitch roll latB lonB zB pA pB GD GS GC GP GA VA VB BA BB DR HA HB L p. pose proof u_pos as Pu. pose proof VA as (Fa & Fo & Ba & Bo & _).
  assert (VC : valid_at latA lonA) by (unfold valid_at; auto).
  assert (FP : finite_vec p). { pose proof HA as HA'. pose proof HB as HB'. rewrite <- wgs84_a_val in HA', HB'. apply (C104_delta_body dot fsin fcos latA lonA yaw pitch roll latA lonA zA latB lonB zB wgs84_a wgs84_f pA pB GD GS GC VC DR VA VB wgs84_usual HA' HB'). }
  assert (F0 : is_finite fzero = true) by reflexivity. assert (B0 : Rabs (B2R fzero) <= 4) by (cbn; rewrite Rabs_R0; lra).
  destruct (C104_wgs84 dot fsin fcos arctan2 latA lonA yaw pitch roll fzero latA lonA zA latB lonB zB pA pB GD GS GC GA VC DR F0 B0 VA VB BA BB HA HB) as (E1 & E2 & _). fold p L in E1, E2.
  pose proof (C104_body_axes dot fsin fcos latA lonA yaw pitch roll GD GS GC Fa Fo Ba Bo DR) as CK. set (M := body_axes _ _ _ _ _) in *. assert (O : orthogonal M) by apply body_orth.
  pose proof wgs84_f_val as (_ & Vf). assert (NB : vnorm pB <= 7378137) by (pose proof (position_norm 6378137 (B2R wgs84_f) (B2R latB) (B2R lonB) (B2R zB) pB ltac:(lra) ltac:(lra) HB); lra).
  assert (NA : vnorm pA <= 7378137) by (pose proof (position_norm 6378137 (B2R wgs84_f) (B2R latA) (B2R lonA) (B2R zA) pA ltac:(lra) ltac:(lra) HA); lra).
  set (e := vnorm (vsub (vec_of p) (mulv (mT M) (vsub pB pA)))) in *.
  assert (Z : vnorm (vsub (vadd (mulv M (vec_of p)) pA) pB) <= e).
  { unfold e. rewrite <- (orthogonal_norm M (vsub (vec_of p) (mulv (mT M) (vsub pB pA)))) by auto. rewrite mulv_sub, orthogonal_inv' by auto. right. f_equal. generalize (mulv M (vec_of p)); intros; vring. }
  destruct (move_any dot fsin fcos latA lonA zA pA p pB e _ M 133 GD GS GC VA BA HA FP NB ltac:(lra) O ltac:(lra) CK Z) as (FQ & LP & EQ). fold L in LP. set (l := vnorm (vec_of p)) in *.
  assert (NPA : L <= 14756274). { unfold L. rewrite sub_neg. eapply Rle_trans; [apply norm_triangle|]. rewrite vnorm_neg. lra. }
  assert (PL : 0 <= L) by apply vnorm_pos. assert (Pl : 0 <= l) by apply vnorm_pos. unfold ftarget_deg. set (q := faddv _ _) in *.
  assert (UL : u * l <= u * (L + e)) by (apply Rmult_le_compat_l; lra). assert (PE : 0 <= e) by apply vnorm_pos.
  pose proof (near_to_degrees pow arctan2 q (B2R latB) (B2R lonB) (B2R zB) pB _ GP GA FQ HB BB EQ) as C. rewrite u_val in *. specialize (C ltac:(lra)).
  destruct (fp_EB_E2n_EB_E pow q wgs84_a wgs84_f) as [n depth]. cbv zeta in *. set (r := fn_E2lat_lon arctan2 n) in *. destruct C as (C1 & C2 & C3). clear - C1 C2 C3 UL PL Pl NPA PE E1 E2. repeat split; auto; lra.
Qed.
Print Assumptions C104_seen_and_placed.

(** the hypotheses can be met: a vehicle at one degree north, one degree east, one metre deep, heading one degree to the west of north *)
Example C104_example : good_mdot dot_seq /\ good_trig (fun x => round64 (sin (B2R x))) sin /\ good_trig (fun x => round64 (cos (B2R x))) cos /\ good_pow ideal_pow /\
  valid fone fone fone /\ valid_at fone fone /\ degrees_range (fneg fone) fone fone /\ finite_vec (fzero, fzero, fone) /\
  exists pA, position 6378137 (B2R wgs84_f) (B2R fone) (B2R fone) (B2R fone) pA.
Proof.
  destruct valid_one as (VA & _). split; [apply dot_seq_mdot|]. split; [apply good_sin|]. split; [apply good_cos|]. split; [apply ideal_pow_good|]. split; auto.
  assert (V1 : B2R (fneg fone) = -1) by (unfold fneg; rewrite B2R_Bopp, fone_val; lra).
  split; [pose proof VA as (? & ? & ? & ? & _); unfold valid_at; auto|]. split; [unfold degrees_range; rewrite V1, fone_val, Rabs_R1, Rabs_left by lra; repeat split; auto; lra|]. split; [cbn; auto|].
  rewrite <- wgs84_a_val. destruct (position_exists _ _ _ _ _ _ _ good_sin good_cos VA wgs84_usual) as (pA & HA). exists pA. auto.
Qed.
