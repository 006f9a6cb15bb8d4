(** * C48-C50: conversions between the classes, spherical coordinates, base_angle *)
From Coq Require Import String List Arith Lia Bool Reals Lra ZArith.
From Verif Require Import Num Py Nd MUtil MRotation MCore MObjects Spec SpecArr SpecObj LNum LTrig LVec LArr LLatLon LMat LRot
  LAngle PUtil LEq LEcef PEcef PRot PFrame PEq LObj PEq2 LDirect LObj2 PObj.
Import ListNotations.
Local Open Scope R_scope.

(** ** Nvector.to_geo_point *)
Lemma bidx_nn n j : bidx [n] [j] = [cl n j]. Proof. reflexivity. Qed.
Lemma nv_to_geo_spec v n u z a f M : is_nv v n u z a f M ->
  exists ws g la lo, nv_to_geo v = (ws, inl g) /\ is_geo g n la lo z a f M /\ g_frame g = n_frame v /\
    (forall j, (j < n)%nat -> lat_of (mulv M (u j)) (la j) /\ lon_of (mulv M (u j)) (lo j)) /\
    shape (g_z g) = (if (ndim (n_z v) =? 0)%nat && (n =? 1)%nat then [] else [n]).
Proof.
  intros (Hn & HN & Nz & (m & r & Vz & D & Hz) & HF). unfold nv_to_geo.
  destruct (n_E2lat_lon_spec _ _ _ _ _ (frame_axes _ _ _ _ HF) HN Hn) as (la & lo & E & Hla & Hlo).
  rewrite E, bind_inl, (nv_scalar_spec _ _ _ HN), bind_ret.
  apply list1P_list1 in Hla as [[Sla Gla] Pla]. apply list1P_list1 in Hlo as [[Slo Glo] Plo].
  exists (length_warning (vnorm (u 0%nat))).
  destruct ((ndim (n_z v) =? 0)%nat && (n =? 1)%nat) eqn:Q.
  - apply andb_prop in Q as [Q1 Q2]. apply Nat.eqb_eq in Q1, Q2. subst n.
    unfold first. rewrite Sla, Slo. cbn [Nat.ltb Nat.leb]. rewrite !bind_ret.
    assert (Sz : shape (n_z v) = []) by (unfold ndim in Q1; destruct (shape (n_z v)); [reflexivity|discriminate]).
    unfold GeoPoint, broadcast3, default_frame. cbn [shape]. rewrite Sz, !bshape_nil_l, !bind_ret. cbn [fst snd].
    eexists. exists (entries la), (entries lo). split; [rewrite app_nil_r; reflexivity|]. cbn [g_frame g_z shape].
    split; [|split; [reflexivity|split; [auto|reflexivity]]].
    split; [lia|]. split; [reflexivity|]. split; [reflexivity|]. cbn [g_lat g_lon g_z g_frame]. split; [|split; [|split; [|exact HF]]].
    + left. split; auto. split; [reflexivity|]. cbn. apply Gla. lia.
    + left. split; auto. split; [reflexivity|]. cbn. apply Glo. lia.
    + left. split; auto. split; [reflexivity|]. cbn [get broadcast_to]. rewrite Sz, bidx_nil. rewrite Hz by lia.
      destruct Vz as [[-> [_ Vz]]|[Vs _]]; [exact Vz|rewrite Sz in Vs; discriminate].
  - unfold GeoPoint, broadcast3, default_frame. rewrite Sla, Slo, bshape_refl.
    assert (B : bshape [n] (shape (n_z v)) = Some [n]).
    { destruct Vz as [[-> [-> _]]|[-> _]]; [apply bshape_nil_r|apply bshape_n_m; auto]. }
    rewrite B, !bind_ret. cbn [fst snd]. eexists. exists (entries la), (entries lo). split; [rewrite app_nil_r; reflexivity|].
    cbn [g_frame g_z shape]. split; [|split; [reflexivity|split; [auto|reflexivity]]].
    split; [lia|]. split; [reflexivity|]. split; [reflexivity|]. cbn [g_lat g_lon g_z g_frame]. split; [|split; [|split; [|exact HF]]].
    + right. split; [reflexivity|]. intros j Hj. cbn [get broadcast_to]. rewrite Sla, bidx_nn, (cl_id n j Hj). auto.
    + right. split; [reflexivity|]. intros j Hj. cbn [get broadcast_to]. rewrite Slo, bidx_nn, (cl_id n j Hj). auto.
    + right. split; [reflexivity|]. intros j Hj. cbn [get broadcast_to]. rewrite Hz by auto.
      destruct Vz as [[-> [-> Vz]]|[-> Vz]]; [rewrite bidx_nil; exact Vz|]. rewrite bidx_nn. apply Vz. eapply cl_lt_r; eauto.
Qed.

Lemma lat_lon_normal M u la lo : orthogonal M -> u <> v0 -> lat_of (mulv M u) la -> lon_of (mulv M u) lo ->
  normal_at M la lo = direction u.
Proof.
  intros HM Hu A B. unfold normal_at. change (V _ _ _) with (nvec_int la lo).
  rewrite (lat_lon_direction (mulv M u)); auto; [|apply orthogonal_nz; auto].
  rewrite orthogonal_direction, orthogonal_inv by auto. reflexivity.
Qed.

(** ** C48 *)
(** every conversion of a point, of any class, keeps its n positions and its frame *)
Theorem C48_conversions_preserve_position : forall pt n p a f M, ellipsoid a f -> locatable pt n p a f M ->
  ends_with (to_nvector pt) (fun v => is_point (PNv v) n p a f M) /\
  ends_with (to_ecef_vector pt) (fun e => is_point (PEcef e) n p a f M) /\
  ends_with (to_geo_point pt) (fun g => is_point (PGeo g) n p a f M).
Proof.
  intros pt n p a f M El H. pose proof El as (Pa & F0 & F1).
  destruct (to_nvector_spec _ _ _ _ _ _ H El) as (ws & v & u & z & E & Hv & Hp).
  pose proof Hv as (_ & _ & Nz & _ & HF). pose proof (frame_orth _ _ _ _ HF) as HM.
  split; [|split].
  - exists v. split; [rewrite E; reflexivity|]. exists u, z. split; auto. intros j Hj. rewrite Hp by auto. apply at_depth_pos; auto.
  - destruct (to_ecef_spec _ _ _ _ _ _ (proj1 H) El) as (w & e & E' & He). exists e. split; [rewrite E'; reflexivity|exact He].
  - destruct (nv_to_geo_spec _ _ _ _ _ _ _ Hv) as (w2 & g & la & lo & Eg & Hg & _ & L & _).
    assert (X : exists la lo z, is_geo g n la lo z a f M /\ forall j, (j < n)%nat -> at_depth a f M (normal_at M (la j) (lo j)) (z j) (p j)).
    { exists la, lo, z. split; auto. intros j Hj. destruct (L j Hj) as [L1 L2]. rewrite (lat_lon_normal M (u j)) by auto.
      rewrite Hp, <- pos_direction by auto. apply at_depth_pos; auto. apply direction_nz; auto. }
    destruct pt as [g0|v0'|e0|q]; cbn [to_geo_point to_nvector] in *.
    + exists g0. split; [reflexivity|]. exact (proj1 H).
    + injection E as <- <-. exists g. split; [rewrite Eg; reflexivity|exact X].
    + exists g. split; [|exact X]. unfold ecef_to_geo. rewrite E, bind_inl, Eg. reflexivity.
    + destruct H as [[] _].
Qed.
Print Assumptions C48_conversions_preserve_position.

(** GeoPoint -> Nvector -> GeoPoint: the same numbers, the same shape, the same frame *)
Theorem C48_geo_nvector_geo : forall g n la lo z a f M, is_geo g n la lo z a f M ->
  (forall j, (j < n)%nat -> - (PI / 2) < la j < PI / 2 /\ - PI < lo j < PI) ->
  ends_with (v <- geo_to_nvector g ;; nv_to_geo v) (fun h =>
    is_geo h n la lo z a f M /\ shape (g_z h) = shape (g_z g) /\ g_frame h = g_frame g).
Proof.
  intros g n la lo z a f M H Rg. destruct (geo_to_nvector_spec _ _ _ _ _ _ _ _ H) as (v & E & Hv & Ez & Ef).
  destruct (nv_to_geo_spec _ _ _ _ _ _ _ Hv) as (w2 & h & la' & lo' & Eg & Hg & Fg & L & S).
  pose proof H as (Hn & S1 & S2 & Vla & Vlo & Vz & HF). pose proof (frame_orth _ _ _ _ HF) as HM.
  exists h. split; [rewrite E, bind_ret, Eg; reflexivity|].
  assert (X : forall j, (j < n)%nat -> la' j = la j /\ lo' j = lo j).
  { intros j Hj. destruct (L j Hj) as [L1 L2]. unfold normal_at in L1, L2. rewrite orthogonal_inv' in L1, L2 by auto.
    destruct (Rg j Hj). split; [apply (lat_recover _ (lo j)); auto; lra|apply (lon_recover (la j)); auto]. }
  split; [|split].
  - destruct Hg as (A & B & C & D & E' & F & G). repeat (split; auto).
    + eapply vals_ext; [|exact D]. intros j Hj. apply X; auto.
    + eapply vals_ext; [|exact E']. intros j Hj. apply X; auto.
  - rewrite S, Ez. destruct Vz as [[-> [Sz _]]|[Sz _]]; unfold ndim; rewrite Sz; reflexivity.
  - congruence.
Qed.
Print Assumptions C48_geo_nvector_geo.

(** GeoPoint -> ECEFvector -> GeoPoint, for depths above the core *)
Theorem C48_geo_ecef_geo : forall g n la lo z a f M, is_geo g n la lo z a f M -> ellipsoid a f -> ecc2 f <= 1 / 2 ->
  (forall j, (j < n)%nat -> - (PI / 2) < la j < PI / 2 /\ - PI < lo j < PI /\ z j < a * (1 - 2 * ecc2 f)) ->
  ends_with (e <- geo_to_ecef g ;; ecef_to_geo e) (fun h =>
    is_geo h n la lo z a f M /\ shape (g_z h) = shape (g_z g) /\ g_frame h = g_frame g).
Proof.
  intros g n la lo z a f M H El E2 Rg. pose proof El as (Pa & F0 & F1).
  destruct (geo_to_ecef_spec _ _ _ _ _ _ _ _ H F1) as (e & E & He & Fe & Se).
  pose proof H as (Hn & S1 & S2 & Vla & Vlo & Vz & HF). pose proof (frame_orth _ _ _ _ HF) as HM.
  set (w := fun j => nvec_int (la j) (lo j)).
  assert (U : forall j, vdot (w j) (w j) = 1) by (intros j; apply nvec_int_unit).
  assert (K : forall j, (j < n)%nat -> ecc2 f < (cc a f (w j) - z j) * (1 - ecc2 f) / cc a f (w j)).
  { intros j Hj. apply deep_k; auto. split; auto. apply Rg; auto. }
  assert (Q : forall j, mulv M (pos a f M (normal_at M (la j) (lo j)) (z j)) = pint a f (w j) (z j)).
  { intros j. unfold pos. rewrite orthogonal_inv' by auto. rewrite direction_of_unit by (apply normal_at_unit; auto).
    unfold normal_at. rewrite orthogonal_inv' by auto. reflexivity. }
  pose proof He as (_ & HP & HFe & HSe).
  assert (G : exists v u z', ecef_to_nvector e = ret v /\ is_nv v n u z' a f M /\ n_frame v = e_frame e /\
     (forall j, (j < n)%nat -> u j = normal_at M (la j) (lo j) /\ z' j = z j) /\ ndim (n_z v) = (if e_scalar e then 0 else 1)%nat).
  { assert (Oc : forall j, (j < n)%nat -> clear_of_core a f M (pos a f M (normal_at M (la j) (lo j)) (z j))).
    { intros j Hj. unfold clear_of_core. cbv zeta. rewrite equatorial_int, polar_int, Q by auto.
      pose proof (rec_outside a f (z j) (w j) Pa (conj F0 F1) (U j) (K j Hj)) as O. unfold outside in O.
      assert (X2 : forall t, t ^ 2 = t * t) by (intros; ring). rewrite !X2. exact O. }
    destruct (ecef_to_nvector_spec _ _ _ _ _ _ He El Oc) as (v & u & z' & Ev & Hv & Fv & C & Dv).
    exists v, u, z'. repeat (split; auto); destruct (C j H0) as (C1 & C2 & C3); rewrite Q in C3;
      destruct (rec_unique a f (z j) (w j) Pa (conj F0 F1) (U j) (K j H0) _ _ C3) as [Y1 Y2]; auto.
    unfold normal_at. change (V _ _ _) with (w j). rewrite <- Y1, orthogonal_inv; auto. }
  destruct G as (v & u & z' & Ev & Hv & Fv & C & Dv).
  destruct (nv_to_geo_spec _ _ _ _ _ _ _ Hv) as (w2 & h & la' & lo' & Eg & Hg & Fg & L & S).
  exists h. split; [rewrite E, bind_ret; unfold ecef_to_geo; rewrite Ev, bind_ret, Eg; reflexivity|].
  assert (X : forall j, (j < n)%nat -> la' j = la j /\ lo' j = lo j /\ z' j = z j).
  { intros j Hj. destruct (L j Hj) as [L1 L2]. destruct (C j Hj) as [C1 C2]. rewrite C1 in L1, L2. unfold normal_at in L1, L2. rewrite orthogonal_inv' in L1, L2 by auto.
    destruct (Rg j Hj) as (R1 & R2 & _). split; [apply (lat_recover _ (lo j)); auto; lra|split; [apply (lon_recover (la j)); auto|auto]]. }
  split; [|split].
  - destruct Hg as (A & B & D & I & J & P & G). split; auto. split; auto. split; auto. split; [|split; [|split; auto]].
    + eapply vals_ext; [|exact I]. intros j Hj. apply X; auto.
    + eapply vals_ext; [|exact J]. intros j Hj. apply X; auto.
    + eapply vals_ext; [|exact P]. intros j Hj. apply X; auto.
  - rewrite S, Dv, Se. destruct Vz as [[-> [Sz _]]|[Sz _]]; unfold ndim; rewrite Sz; cbn [length Nat.eqb andb].
    + reflexivity. + reflexivity.
  - congruence.
Qed.
Print Assumptions C48_geo_ecef_geo.

(** scalar points stay scalar, in the sense of the [scalar] properties of the classes *)
Theorem C48_scalar_stays_scalar : forall g la lo z a f M, is_geo g 1 la lo z a f M -> ellipsoid a f -> ecc2 f <= 1 / 2 ->
  - (PI / 2) < la 0%nat < PI / 2 -> - PI < lo 0%nat < PI -> z 0%nat < a * (1 - 2 * ecc2 f) ->
  geo_scalar g = true ->
  exists v e h, ends (geo_to_nvector g) v /\ ends (nv_scalar v) true /\
    ends (geo_to_ecef g) e /\ e_scalar e = true /\ ends (ecef_to_geo e) h /\ geo_scalar h = true.
Proof.
  intros g la lo z a f M H El E2 R1 R2 R3 Sg. pose proof El as (Pa & F0 & F1).
  destruct (geo_to_nvector_spec _ _ _ _ _ _ _ _ H) as (v & E & Hv & Ez & Ef).
  destruct (geo_to_ecef_spec _ _ _ _ _ _ _ _ H F1) as (e & E' & He & Fe & Se).
  assert (Dz : (ndim (g_z g) =? 0)%nat = true).
  { unfold geo_scalar in Sg. apply andb_prop in Sg as [Sg _]. apply andb_prop in Sg as [Sg _]. exact Sg. }
  destruct (C48_geo_ecef_geo _ _ _ _ _ _ _ _ H El E2) as (h & Eh & Hh & Sh & _).
  { intros j Hj. assert (j = 0%nat) by lia. subst. auto. }
  rewrite E' in Eh. rewrite bind_ret in Eh.
  exists v, e, h. split; [rewrite E; reflexivity|]. split.
  { rewrite (nv_scalar_spec v 1 (fun j => normal_at M (la j) (lo j))) by apply Hv. rewrite Ez, Dz. reflexivity. }
  split; [rewrite E'; reflexivity|]. split; [rewrite Se, Dz; reflexivity|]. split; [exact Eh|].
  destruct Hh as (_ & S1 & S2 & _). apply Nat.eqb_eq in Dz. unfold ndim in Dz.
  assert (Z : shape (g_z h) = []) by (rewrite Sh; destruct (shape (g_z g)); [reflexivity|discriminate]).
  unfold geo_scalar, ndim, size. rewrite S1, S2, Z. reflexivity.
Qed.
Print Assumptions C48_scalar_stays_scalar.

Example C48_example : is_geo ex_geo 1 (fun _ => / 2) (fun _ => 1) (fun _ => 100) 6378137 (/ 298) Me /\
  ellipsoid 6378137 (/ 298) /\ ecc2 (/ 298) <= 1 / 2 /\ - (PI / 2) < / 2 < PI / 2 /\ - PI < 1 < PI /\
  100 < 6378137 * (1 - 2 * ecc2 (/ 298)) /\ geo_scalar ex_geo = true.
Proof.
  pose proof PI2_1. split; [apply ex_geo_ok|]. split; [apply ex_ellipsoid|]. unfold ecc2. repeat split; try lra. 
Qed.

(** ** C49 *)
(** entry j of a result: a scalar when [sc], a list of n numbers otherwise *)
Definition holds (x : arr num) (sc : bool) (n : nat) (r : nat -> R) : Prop :=
  if sc then scalar x (r 0%nat) else list1 x n r.

Lemma opt_first_spec x sc n r : (sc = true -> n = 1%nat) -> list1 x n r -> exists y, opt_first sc x = ret y /\ holds y sc n r.
Proof.
  intros S [Sx G]. unfold opt_first, holds. destruct sc.
  - rewrite (S eq_refl) in *. unfold first. rewrite Sx. eexists. split; [reflexivity|]. split; [reflexivity|]. cbn. apply G. lia.
  - eexists. split; [reflexivity|]. split; auto.
Qed.
Lemma length_spec P n p sc : (sc = true -> n = 1%nat) -> cols P n p ->
  exists l, length_ P sc = ret l /\ holds l sc n (fun j => vnorm (p j)).
Proof.
  intros S H. unfold length_. destruct (norm0_list1 _ _ _ H) as (C & E & HC). rewrite E, bind_ret. apply opt_first_spec; auto.
Qed.
Lemma azimuth_prop_spec P n p sc : (sc = true -> n = 1%nat) -> cols P n p ->
  exists l t, azimuth_ P sc = ret l /\ holds l sc n t /\ forall j, (j < n)%nat -> arg_of (vy (p j)) (vx (p j)) (t j).
Proof.
  intros S H. unfold azimuth_. destruct (row_cols _ _ _ H) as ((X & EX & HX) & (Y & EY & HY) & _).
  rewrite EY, bind_ret, EX, bind_ret.
  destruct (map2_list1P narctan2 Y X n _ _ (fun j => arg_of (vy (p j)) (vx (p j))) HY HX) as (C & EC & HC).
  { intros j x y Hj Hx Hy. apply narctan2_arg; auto. }
  rewrite EC, bind_ret. apply list1P_list1 in HC as [H1 H2].
  destruct (opt_first_spec _ _ _ _ S H1) as (y & Ey & Hy). exists y, (entries C). auto.
Qed.
Lemma elevation_spec P n p sc : (sc = true -> n = 1%nat) -> cols P n p -> (forall j, (j < n)%nat -> p j <> v0) ->
  exists l, elevation_ P sc = ret l /\ holds l sc n (fun j => asin (vz (p j) / vnorm (p j))).
Proof.
  intros S H Nz. unfold elevation_. destruct (row_cols _ _ _ H) as (_ & _ & (Z & EZ & HZ)). rewrite EZ, bind_ret.
  destruct (length_spec P n p sc S H) as (l & El & Hl). rewrite El, bind_ret.
  assert (V : vals l n (fun j => vnorm (p j))).
  { unfold holds in Hl. destruct sc; [left; split; auto|right; auto]. }
  assert (Pn : forall j, (j < n)%nat -> vnorm (p j) <> 0).
  { intros j Hj Q. apply (Nz j Hj). apply vnorm_0; auto. }
  destruct (map2_list1_vals ndiv Rdiv (fun r => r <> 0) Z l n n n _ _ (fun x y a b Hx Hy Q => fin_div x y a b Hx Hy Q) HZ V (bdim_refl n) Pn) as (Q & EQ & HQ).
  rewrite EQ, bind_ret. apply opt_first_spec; auto. destruct HQ as [SQ GQ]. split; [exact SQ|]. intros j Hj. cbn [get map1].
  specialize (GQ j Hj). rewrite (cl_id n j Hj) in GQ. apply fin_asin; auto.
  assert (B : Rabs (vz (p j)) <= vnorm (p j)).
  { unfold vnorm. rewrite <- sqrt_sq_abs. apply sqrt_le_1_alt. unfold vdot. nra. }
  pose proof (vnorm_nz _ (Nz j Hj)) as Pp. apply Rabs_le_inv in B || (unfold Rabs in B; destruct (Rcase_abs (vz (p j)))).
  all: split; apply Rmult_le_reg_r with (vnorm (p j)); auto; unfold Rdiv; rewrite Rmult_assoc, Rinv_l by lra; lra.
Qed.

(** n vectors p j (one, when the object is scalar): length, azimuth and elevation are the spherical
    coordinates of p j *)
Theorem C49_spherical_coordinates : forall P n p sc, cols P n p -> (sc = true -> n = 1%nat) ->
  (forall j, (j < n)%nat -> p j <> v0) ->
  exists L A E len az el, length_ P sc = ret L /\ azimuth_ P sc = ret A /\ elevation_ P sc = ret E /\
    holds L sc n len /\ holds A sc n az /\ holds E sc n el /\
    forall j, (j < n)%nat ->
      - PI <= az j <= PI /\ - (PI / 2) <= el j <= PI / 2 /\ 0 < len j /\
      p j = vscale (len j) (V (cos (el j) * cos (az j)) (cos (el j) * sin (az j)) (sin (el j))).
Proof.
  intros P n p sc H S Nz. destruct (length_spec P n p sc S H) as (L & EL & HL).
  destruct (azimuth_prop_spec P n p sc S H) as (A & t & EA & HA & Ht). destruct (elevation_spec P n p sc S H Nz) as (E & EE & HE).
  exists L, A, E. do 3 eexists. split; [exact EL|]. split; [exact EA|]. split; [exact EE|]. split; [exact HL|]. split; [exact HA|]. split; [exact HE|].
  intros j Hj. cbn beta. destruct (Ht j Hj) as (Rg & Cx & Cy). pose proof (vnorm_nz _ (Nz j Hj)) as Pn. pose proof (vnorm_sq (p j)) as Sq.
  set (r := vnorm (p j)) in *. set (s := vz (p j) / r).
  assert (Ez : vz (p j) = r * s) by (unfold s; field; lra).
  assert (B : -1 <= s <= 1).
  { unfold vdot in Sq. rewrite Ez in Sq. assert (s * s <= 1).
    { apply Rmult_le_reg_l with (r * r); [nra|]. pose proof (Rle_0_sqr (vx (p j))) as Q1. pose proof (Rle_0_sqr (vy (p j))) as Q2. unfold Rsqr in Q1, Q2. nra. }
    nra. }
  split; auto. split; [apply asin_bound|]. split; auto.
  rewrite sin_asin, cos_asin by auto.
  assert (Eh : sqrt (vx (p j) * vx (p j) + vy (p j) * vy (p j)) = r * sqrt (1 - s²)).
  { replace (vx (p j) * vx (p j) + vy (p j) * vy (p j)) with (r * r * (1 - s²)).
    - rewrite sqrt_mult by (try nra; unfold Rsqr; nra). rewrite sqrt_square by lra. reflexivity.
    - unfold Rsqr. unfold vdot in Sq. rewrite Ez in Sq. lra. }
  rewrite Eh in Cx, Cy. apply vec_eq; unfold vscale; cbn [vx vy vz]; [rewrite Cx at 1|rewrite Cy at 1|]; lra.
Qed.
Print Assumptions C49_spherical_coordinates.

(** for the zero vector the elevation is NaN, as documented nowhere *)
Theorem C49_zero_vector : forall P p, cols P 1 p -> p 0%nat = v0 ->
  exists E, elevation_ P true = ret E /\ shape E = [] /\ get E [] = NaN.
Proof.
  intros P p H Z. unfold elevation_. destruct (row_cols _ _ _ H) as (_ & _ & (C & EC & [SC GC])). rewrite EC, bind_ret.
  destruct (norm0_cols _ _ _ H) as (L & EL & SL & GL).
  unfold length_. rewrite EL, bind_ret. unfold opt_first, first. rewrite SL. cbn [Nat.ltb Nat.leb]. rewrite bind_ret.
  unfold map2. cbn [shape]. rewrite SC, bshape_nil_r, bind_ret. cbn [map1 shape].
  eexists. split; [reflexivity|]. split; [reflexivity|]. cbn [map1 get].
  rewrite bidx_nn, bidx_nil. change (cl 1 0) with 0%nat. rewrite GL by lia. rewrite Z, vnorm_v0.
  specialize (GC 0%nat ltac:(lia)). cbn beta in GC. rewrite Z in GC. cbn in GC.
  assert (is_zero (Fin 0) = true) by (cbn; destruct (Req_EM_T 0 0); lra || reflexivity).
  destruct (fin_inv _ _ GC) as [->|[-> _]]; unfold ndiv; rewrite H0; try rewrite H0; reflexivity.
Qed.
Print Assumptions C49_zero_vector.

(** a scalar ECEFvector changed to a frame at several positions gives several vectors but keeps the flag
    [scalar], so that length, azimuth and elevation report the first of them only *)
Theorem C49_wide_frame_refuted : forall e l n p a f M, is_ecef e 1 p a f M -> e_scalar e = true ->
  is_local l n a f M -> (1 < n)%nat ->
  exists v q A, ends (change_frame e l) v /\ cols (p_p v) n q /\ p_scalar v = true /\
    azimuth_ (p_p v) (p_scalar v) = ret A /\ shape A = [].
Proof.
  intros e l n p a f M He S Hl Hn. destruct (R_EN_rotation _ _ _ _ _ Hl) as (ws & R & F & ER & HR & HF).
  destruct (is_nv_local _ _ _ _ _ Hl) as (u & z & Hv). pose proof Hv as (Hm & _ & _ & _ & HL).
  destruct (change_frame_spec e l 1 n n p F ws R a f M He HL ER HR (bdim_1_r n) Hm) as (v & E & Hc & Ef & Es).
  destruct (azimuth_prop_spec _ _ _ false ltac:(discriminate) Hc) as (A & t & EA & HA & _).
  unfold azimuth_ in EA. 
  destruct (row_cols _ _ _ Hc) as ((X & EX & HX) & (Y & EY & HY) & _).
  rewrite EY, bind_ret, EX, bind_ret in EA.
  destruct (map2_list1P narctan2 Y X n _ _ (fun _ _ => True) HY HX) as (C & EC & HC).
  { intros j x y Hj Hx Hy. destruct (narctan2_arg _ _ _ _ Hx Hy) as (r & Hr & _). eauto. }
  destruct HC as [SC _].
  exists v. eexists. exists (Arr [] (fun ix => get C (0%nat :: ix))). split; [rewrite E; reflexivity|]. split; [exact Hc|].
  split; [congruence|]. split; [|reflexivity]. rewrite Es, S. unfold azimuth_. rewrite EY, bind_ret, EX, bind_ret, EC, bind_ret.
  unfold opt_first, first. rewrite SC. replace (0 <? n)%nat with true by (symmetry; apply Nat.ltb_lt; lia). reflexivity.
Qed.
Print Assumptions C49_wide_frame_refuted.

Example C49_example : cols (col3 (Fin 1) (Fin 2) (Fin (-2))) 1 (fun _ => V 1 2 (-2)) /\ V 1 2 (-2) <> v0.
Proof. split; [apply col3_cols|intros [=]; lra]. Qed.

(** ** C50 *)
Theorem C50_base_angle : forall x r, x ≈ r ->
  exists t, base_angle x ≈ t /\ - PI <= t < PI /\ exists k : Z, t = r + 2 * PI * IZR k.
Proof.
  intros x r H. pose proof PI_RGT_0 as P. unfold base_angle.
  rewrite (nmod_fin _ (r + PI) (2 * PI)) by (try lra; apply fin_add; auto; reflexivity).
  eexists. split; [apply fin_sub; reflexivity|].
  set (q := (r + PI) / (2 * PI)). assert (Eq : r + PI = 2 * PI * q) by (unfold q; field; lra).
  pose proof (Rfloor_bounds q). split; [nra|]. exists (- Int_part q)%Z. rewrite opp_IZR. unfold Rfloor. ring.
Qed.
Print Assumptions C50_base_angle.

(** the reduced angle is unique: two reductions of congruent angles agree *)
Theorem C50_unique : forall s t (k : Z), - PI <= s < PI -> - PI <= t < PI -> s = t + 2 * PI * IZR k -> s = t.
Proof.
  intros s t k A B E. pose proof PI_RGT_0 as P.
  assert (-1 < IZR k < 1) by (split; nra). destruct H as [H1 H2]. apply lt_IZR in H1, H2. assert (k = 0%Z) by lia. subst. lra.
Qed.
Print Assumptions C50_unique.
Example C50_example : Fin 7 ≈ 7. Proof. reflexivity. Qed.
