(** * C94: degrees, metres and a vector in, degrees and metres out; there and back *)
From Coq Require Import ZArith Reals Lra Lia Bool Psatz.
From Flocq Require Import Core BinarySingleNaN Relative.
From Verif Require Import Spec LVec LAngle FTiny FZero FBase FRel FRel2 FUnit FPi FAngle FDist FGreat FLatLon FInv FEcef FEcef2 FNed FNed2 FNed3 FDelta FDelta2 FDelta3
  FGeodB FGeod FGeod2 FGeod3 FGeod4 FGeod5 FGeod6 FGeod7 FGeod8 FGeod9 FGeod10 FMove FMove2.
Local Open Scope R_scope.

(** ECEF coordinates within [eps] of the point at latitude lat, longitude lon and depth d give degrees and metres close to lat, lon, d *)
Lemma near_to_degrees pow arctan2 p lat lon d P eps : good_pow pow -> good_atan2 arctan2 -> finite_vec p ->
  position 6378137 (B2R wgs84_f) lat lon d P -> Rabs d <= 1000000 -> vnorm (vsub (vec_of p) P) <= eps -> eps <= 1 ->
  let '(n, depth) := fp_EB_E2n_EB_E pow p wgs84_a wgs84_f in let r := fn_E2lat_lon arctan2 n in
  central_angle_deg lat lon (B2R (fdeg (fst r))) (B2R (fdeg (snd r))) * 6378137 <= 1208 / 1000 * eps + 25 / 1000000000 /\
  is_finite depth = true /\ Rabs (B2R depth - d) <= 101 / 100 * eps + 12 / 1000000000.
Proof.
  intros GP GA Fp (s & (OE & SD) & EP) Bd D He. pose proof (Rabs_le_inv _ _ Bd) as Bd'. assert (Pe : 0 <= eps) by (eapply Rle_trans; [apply vnorm_pos|exact D]).
  set (N := latlon_vec (lat * (PI / 180)) (lon * (PI / 180))) in *. assert (NN : vnorm N = 1) by apply latlon_unit. rewrite <- wgs84_a_val in OE, SD. rewrite EP in D.
  pose proof (C90_near pow p wgs84_a wgs84_f N d s eps GP wgs84_earth Fp NN OE SD D) as C. rewrite wgs84_a_val in C. specialize (C ltac:(lra) ltac:(lra)).
  destruct (fp_EB_E2n_EB_E pow p wgs84_a wgs84_f) as [n depth]. destruct C as (NU & AN & FD & ED). cbv zeta. set (r := fn_E2lat_lon arctan2 n).
  destruct wgs84_f_val as (_ & FV'). rewrite FV' in AN. split; [|split; auto; rewrite u_val in ED; lra].
  pose proof (latlon_back arctan2 n GA NU) as LB. cbv zeta in LB. fold r in LB. unfold central_angle_deg.
  assert (NZ : forall x y, latlon_vec x y <> v0) by (intros; apply vnorm_inv, latlon_unit).
  assert (NZn : vec_of n <> v0). { intros E. destruct n as [[g0 g1] g2]. destruct NU as (_ & _ & _ & LU). rewrite length3_vnorm, E, vnorm_v0 in LU. apply Rabs_le_inv in LU. pose proof u_small. pose proof u_pos. lra. }
  pose proof (angle_triangle _ (vec_of n) _ (NZ (lat * (PI / 180)) (lon * (PI / 180))) NZn (NZ (B2R (fdeg (fst r)) * (PI / 180)) (B2R (fdeg (snd r)) * (PI / 180)))) as TR. fold N in TR.
  assert (R : 5335000 <= 6378137 * ((1 - 966381879065637 / 288230376151711744) * (1 - 966381879065637 / 288230376151711744)) - d - eps) by lra.
  set (q := 6378137 * ((1 - 966381879065637 / 288230376151711744) * (1 - 966381879065637 / 288230376151711744)) - d - eps) in *.
  assert (101 / 100 * eps / q <= 101 / 100 * eps / 5335000) by (apply Rmult_le_compat_l; [lra|apply Rinv_le; lra]). rewrite u_val in *. fold N. lra.
Qed.

(** the ECEF coordinates of the point reached *)
Lemma move_ecef dot fsin fcos latA lonA zA pA p P e : good_mdot dot -> good_trig fsin sin -> good_trig fcos cos -> valid latA lonA zA -> Rabs (B2R zA) <= 1000000 ->
  position 6378137 (B2R wgs84_f) (B2R latA) (B2R lonA) (B2R zA) pA -> finite_vec p -> vnorm P <= 7378137 -> e <= 1 ->
  vnorm (vsub (vadd (mulv (mT (ned (B2R latA) (B2R lonA))) (vec_of p)) pA) P) <= e ->
  let q := faddv (fto_ecef dot (fR_EN_deg fsin fcos latA lonA) p) (fgeo_point_to_ecef fsin fcos latA lonA zA wgs84_a wgs84_f) in
  finite_vec q /\ vnorm (vec_of p) <= vnorm (vsub P pA) + e /\ vnorm (vsub (vec_of q) P) <= 101 / 100 * e + 339 / 10000000000 + 961 / 10 * u * vnorm (vec_of p).
Proof.
  intros GD GS GC VA BA HA Fp NP Be HP. pose proof VA as (FaA & FoA & BaA & BoA & FzA & BzA). pose proof u_pos as Pu. pose proof u_tiny as Su. pose proof eta_pos as Pe. pose proof tiny_eta as Te.
  assert (PE : 0 <= e) by (eapply Rle_trans; [apply vnorm_pos|exact HP]).
  pose proof wgs84_f_val as (_ & Vf). assert (NA : vnorm pA <= 7378137) by (pose proof (position_norm 6378137 (B2R wgs84_f) (B2R latA) (B2R lonA) (B2R zA) pA ltac:(lra) ltac:(lra) HA); lra).
  pose proof (ned_orthogonal (B2R latA) (B2R lonA)) as OT. assert (O : orthogonal (ned (B2R latA) (B2R lonA))) by (apply orthogonal_T in OT; rewrite mT_mT in OT; exact OT).
  set (M := ned (B2R latA) (B2R lonA)) in *. set (Q := mulv (mT M) (vec_of p)) in *. assert (NQ : vnorm Q = vnorm (vec_of p)) by (apply orthogonal_norm; auto).
  assert (LP : vnorm (vec_of p) <= vnorm (vsub P pA) + e).
  { rewrite <- NQ. replace Q with (vadd (vsub P pA) (vsub (vadd Q pA) P)) by (generalize Q P pA; intros; vring). eapply Rle_trans; [apply norm_triangle|]. lra. }
  assert (NPA : vnorm (vsub P pA) <= 14756274). { rewrite sub_neg. eapply Rle_trans; [apply norm_triangle|]. rewrite vnorm_neg. lra. }
  assert (B400 : 134217728 <= bpow radix2 400). { apply Rle_trans with (bpow radix2 27); [cbn; lra|apply bpow_le; lia]. }
  set (L := vnorm (vec_of p)) in *. assert (PL : 0 <= L) by apply vnorm_pos. assert (PUL : 0 <= u * L) by (apply Rmult_le_pos; lra).
  pose proof (C91_from_degrees fsin fcos latA lonA GS GC FaA FoA BaA BoA) as H. destruct (fR_EN_deg fsin fcos latA lonA) as [[Nv Ev] Dv]. cbv zeta in H. destruct H as ((FN & FE & FD) & HN & HE' & HD).
  destruct (to_ecef_err dot Nv Ev Dv _ _ _ p GD FN FE FD Fp O HN HE' HD ltac:(fold L; lra)) as (FQ & EQ). fold L in EQ.
  change (mulv (mT (Mt (north_dir (B2R latA * (PI / 180)) (B2R lonA * (PI / 180))) (east_dir (B2R lonA * (PI / 180))) (down_dir (B2R latA * (PI / 180)) (B2R lonA * (PI / 180))))) (vec_of p)) with Q in EQ.
  destruct HA as (sA & SA & EA). destruct (C89_from_degrees fsin fcos latA lonA zA wgs84_a wgs84_f GS GC FaA FoA BaA BoA FzA BzA wgs84_usual) as (FV & _).
  destruct (C89_wgs84 fsin fcos latA lonA zA GS GC FaA FoA BaA BoA FzA BA) as (s & S & EV).
  rewrite (surface_point_unique 6378137 (B2R wgs84_f) (B2R latA) (B2R lonA) s sA ltac:(lra) ltac:(lra) S SA) in EV. rewrite <- EA in EV. clear s S SA EA.
  set (y := fto_ecef dot (Nv, Ev, Dv) p) in *. set (g := fgeo_point_to_ecef fsin fcos latA lonA zA wgs84_a wgs84_f) in *.
  assert (SU : u * L <= / 1000000000000000 * L) by (apply Rmult_le_compat_r; lra).
  assert (Ny : vnorm (vec_of y) <= bpow radix2 400). { rewrite (via Q (vec_of y)). eapply Rle_trans; [apply norm_triangle|]. lra. }
  assert (Ng : vnorm (vec_of g) <= bpow radix2 400). { rewrite (via pA (vec_of g)). eapply Rle_trans; [apply norm_triangle|]. lra. }
  destruct (sum_err y g Q pA _ _ FQ FV Ny Ng EQ EV) as (FS & ES). cbv zeta. split; auto. split; auto.
  assert (NS : vnorm (vadd Q pA) <= 7378138). { rewrite (via P (vadd Q pA)). eapply Rle_trans; [apply norm_triangle|]. lra. }
  rewrite (sub_via _ _ (vadd Q pA)). eapply Rle_trans; [apply norm_triangle|].
  assert (u * vnorm (vadd Q pA) <= u * 7378138) by (apply Rmult_le_compat_l; lra).
  assert (u * (96 * (u * L) + 24 * eta + 33 / 1000000000) <= / 1000000000000000 * (96 * (u * L) + 24 * eta + 33 / 1000000000)) by (apply Rmult_le_compat_r; lra).
  rewrite u_val in *. clear - ES HP H H0 PUL PL Te Pe PE. lra.
Qed.

(** ** from A by a vector in A's North-East-Down frame: the latitude, longitude and depth answered are those of the point the vector leads to *)
Theorem C94_degrees : forall dot fsin fcos pow arctan2 latA lonA zA pA p lat lon d,
  good_mdot dot -> good_trig fsin sin -> good_trig fcos cos -> good_pow pow -> good_atan2 arctan2 -> valid latA lonA zA -> Rabs (B2R zA) <= 1000000 -> finite_vec p ->
  position 6378137 (B2R wgs84_f) (B2R latA) (B2R lonA) (B2R zA) pA ->
  position 6378137 (B2R wgs84_f) lat lon d (vadd pA (mulv (mT (ned (B2R latA) (B2R lonA))) (vec_of p))) -> Rabs d <= 1000000 ->
  let L := vnorm (vec_of p) in
  let '(lat', lon', z') := fmove_deg dot fsin fcos pow arctan2 latA lonA zA p wgs84_a wgs84_f in
  let off := central_angle_deg lat lon (B2R lat') (B2R lon') * 6378137 in
  is_finite z' = true /\ off <= 67 / 1000000000 + 13 / 1000000000000000 * L /\ off <= 260 / 1000000000 /\
  Rabs (B2R z' - d) <= 47 / 1000000000 + 11 / 1000000000000000 * L /\ Rabs (B2R z' - d) <= 207 / 1000000000.
Proof.
  intros dot fsin fcos pow arctan2 latA lonA zA pA p lat lon d GD GS GC GP GA VA BA Fp HA HP Bd L. set (P := vadd pA _) in *. pose proof u_pos as Pu.
  pose proof wgs84_f_val as (_ & Vf). assert (NP : vnorm P <= 7378137) by (pose proof (position_norm 6378137 (B2R wgs84_f) lat lon d P ltac:(lra) ltac:(lra) HP); lra).
  assert (NA : vnorm pA <= 7378137) by (pose proof (position_norm 6378137 (B2R wgs84_f) (B2R latA) (B2R lonA) (B2R zA) pA ltac:(lra) ltac:(lra) HA); lra).
  assert (Z : vnorm (vsub (vadd (mulv (mT (ned (B2R latA) (B2R lonA))) (vec_of p)) pA) P) <= 0).
  { unfold P. replace (vsub _ _) with v0 by (generalize (mulv (mT (ned (B2R latA) (B2R lonA))) (vec_of p)) pA; intros; vring). rewrite vnorm_v0. lra. }
  destruct (move_ecef dot fsin fcos latA lonA zA pA p P 0 GD GS GC VA BA HA Fp NP ltac:(lra) Z) as (FQ & LP & EQ). fold L in LP, EQ.
  assert (NPA : vnorm (vsub P pA) <= 14756274). { rewrite sub_neg. eapply Rle_trans; [apply norm_triangle|]. rewrite vnorm_neg. lra. }
  assert (PL : 0 <= L) by apply vnorm_pos. unfold fmove_deg. set (q := faddv _ _) in *.
  pose proof (near_to_degrees pow arctan2 q lat lon d P (339 / 10000000000 + 961 / 10 * u * L) GP GA FQ HP Bd ltac:(lra)) as C. assert (UL : u * L <= u * 14756274) by (apply Rmult_le_compat_l; lra). rewrite u_val in *. specialize (C ltac:(lra)).
  destruct (fp_EB_E2n_EB_E pow q wgs84_a wgs84_f) as [n depth]. cbv zeta in *. set (r := fn_E2lat_lon arctan2 n) in *. destruct C as (C1 & C2 & C3). clear - C1 C2 C3 UL PL. repeat split; auto; lra.
Qed.
Print Assumptions C94_degrees.

(** ** there: the vector the library finds from A to B, added to A by the library, leads to B *)
Theorem C94_there : forall dot fsin fcos pow arctan2 latA lonA zA latB lonB zB pA pB,
  good_mdot dot -> good_trig fsin sin -> good_trig fcos cos -> good_pow pow -> good_atan2 arctan2 -> valid latA lonA zA -> valid latB lonB zB -> Rabs (B2R zA) <= 1000000 -> Rabs (B2R zB) <= 1000000 ->
  position 6378137 (B2R wgs84_f) (B2R latA) (B2R lonA) (B2R zA) pA -> position 6378137 (B2R wgs84_f) (B2R latB) (B2R lonB) (B2R zB) pB ->
  let L := vnorm (vsub pB pA) in let p := fdelta_to_deg dot fsin fcos latA lonA zA latB lonB zB wgs84_a wgs84_f in
  let '(lat', lon', z') := fmove_deg dot fsin fcos pow arctan2 latA lonA zA p wgs84_a wgs84_f in
  let off := central_angle_deg (B2R latB) (B2R lonB) (B2R lat') (B2R lon') * 6378137 in
  is_finite z' = true /\ off <= 148 / 1000000000 + 26 / 1000000000000000 * L /\ off <= 530 / 1000000000 /\
  Rabs (B2R z' - B2R zB) <= 115 / 1000000000 + 22 / 1000000000000000 * L /\ Rabs (B2R z' - B2R zB) <= 433 / 1000000000.
Proof.
  intros dot fsin fcos pow arctan2 latA lonA zA latB lonB zB pA pB GD GS GC GP GA VA VB BA BB HA HB L p. pose proof u_pos as Pu.
  pose proof (C92_wgs84 dot fsin fcos latA lonA zA latB lonB zB pA pB GD GS GC VA VB BA BB HA HB) as C. cbv zeta in C. fold p L in C. destruct C as (FP & E1 & E2).
  pose proof wgs84_f_val as (_ & Vf). assert (NB : vnorm pB <= 7378137) by (pose proof (position_norm 6378137 (B2R wgs84_f) (B2R latB) (B2R lonB) (B2R zB) pB ltac:(lra) ltac:(lra) HB); lra).
  assert (NA : vnorm pA <= 7378137) by (pose proof (position_norm 6378137 (B2R wgs84_f) (B2R latA) (B2R lonA) (B2R zA) pA ltac:(lra) ltac:(lra) HA); lra).
  pose proof (ned_orthogonal (B2R latA) (B2R lonA)) as OT. assert (O : orthogonal (ned (B2R latA) (B2R lonA))) by (apply orthogonal_T in OT; rewrite mT_mT in OT; exact OT).
  set (M := ned (B2R latA) (B2R lonA)) in *. set (e := vnorm (vsub (vec_of p) (mulv M (vsub pB pA)))) in *.
  assert (Z : vnorm (vsub (vadd (mulv (mT M) (vec_of p)) pA) pB) <= e).
  { unfold e. rewrite <- (orthogonal_norm (mT M) (vsub (vec_of p) (mulv M (vsub pB pA)))) by auto. rewrite mulv_sub, orthogonal_inv by auto. right. f_equal. generalize (mulv (mT M) (vec_of p)); intros; vring. }
  destruct (move_ecef dot fsin fcos latA lonA zA pA p pB e GD GS GC VA BA HA FP NB ltac:(lra) Z) as (FQ & LP & EQ). fold L in LP. set (l := vnorm (vec_of p)) in *.
  assert (NPA : L <= 14756274). { unfold L. rewrite sub_neg. eapply Rle_trans; [apply norm_triangle|]. rewrite vnorm_neg. lra. }
  assert (PL : 0 <= L) by apply vnorm_pos. assert (Pl : 0 <= l) by apply vnorm_pos. unfold fmove_deg. set (q := faddv _ _) in *.
  assert (UL : u * l <= u * (L + e)) by (apply Rmult_le_compat_l; lra). assert (PE : 0 <= e) by apply vnorm_pos.
  pose proof (near_to_degrees pow arctan2 q (B2R latB) (B2R lonB) (B2R zB) pB _ GP GA FQ HB BB EQ) as C. rewrite u_val in *. specialize (C ltac:(lra)).
  destruct (fp_EB_E2n_EB_E pow q wgs84_a wgs84_f) as [n depth]. cbv zeta in *. set (r := fn_E2lat_lon arctan2 n) in *. destruct C as (C1 & C2 & C3). clear - C1 C2 C3 UL PL Pl NPA PE E1 E2. repeat split; auto; lra.
Qed.
Print Assumptions C94_there.

(** the hypotheses can be met: one metre down from the point one degree north, one degree east, one metre deep *)
Example C94_example : good_mdot dot_seq /\ good_trig (fun x => round64 (sin (B2R x))) sin /\ good_trig (fun x => round64 (cos (B2R x))) cos /\ good_pow ideal_pow /\
  valid fone fone fone /\ usual_earth wgs84_a wgs84_f /\ Rabs (B2R fone) <= 1000000 /\ finite_vec (fzero, fzero, fone) /\
  exists pA, position 6378137 (B2R wgs84_f) (B2R fone) (B2R fone) (B2R fone) pA /\
    position 6378137 (B2R wgs84_f) (B2R fone) (B2R fone) 2 (vadd pA (mulv (mT (ned (B2R fone) (B2R fone))) (vec_of (fzero, fzero, fone)))).
Proof.
  destruct valid_one as (VA & _). split; [apply dot_seq_mdot|]. split; [apply good_sin|]. split; [apply good_cos|]. split; [apply ideal_pow_good|]. split; auto. split; [apply wgs84_earth|]. split; [rewrite fone_val, Rabs_R1; lra|]. split; [cbn; auto|].
  rewrite <- wgs84_a_val. destruct (position_exists _ _ _ _ _ _ _ good_sin good_cos VA wgs84_usual) as (pA & HA). exists pA. split; auto.
  destruct HA as (s & S & ->). exists s. split; auto. rewrite fone_val. unfold ned, vadd, vsub, vscale, mulv, mT, vdot, vec_of, down_dir, north_dir, east_dir, latlon_vec; cbn [Spec.vx Spec.vy Spec.vz r0 r1 r2]. rewrite fone_val. unfold fzero; cbn [B2R].
  apply vec_eq; cbn [Spec.vx Spec.vy Spec.vz]; ring.
Qed.
