(** * C73: from A and a delta vector back to B;  C74: degree accessors, factories, GeoPath accessors *)
From Coq Require Import String List Arith Lia Bool Reals Lra.
From Verif Require Import Num Py Nd MUtil MRotation MCore MObjects MAccess Spec SpecArr SpecObj LNum LTrig LVec LArr LLatLon LMat LRot
  LAngle PUtil LEq LEcef PEcef PRot PFrame PEq LObj PEq2 LDirect LObj2 PObj PObj2 PGeod.
Import ListNotations.
Local Open Scope R_scope.

(** ** C73 *)
(** The delta from A to B, decomposed in any local frame, taken back to E and added to A's ECEF vector, is B. *)
Theorem C73_delta_in_any_frame_leads_to_B : forall A B l n m w k p q a f M, ellipsoid a f ->
  is_point A n p a f M -> is_point B m q a f M -> is_local l w a f M ->
  bdim m n = Some k -> bdim w k = Some k ->
  exists d v e s pA, ends (delta_E A B) d /\ ends (change_frame d l) v /\ ends (to_ecef_vector (PPv v)) e /\
    ends (to_ecef_vector A) pA /\ ends (ecef_add pA e) s /\
    is_point (PEcef s) k (fun j => q (cl m j)) a f M /\
    ((forall j, (j < m)%nat -> clear_of_core a f M (q j)) ->
       ends_with (to_geo_point (PEcef s)) (fun g => is_point (PGeo g) k (fun j => q (cl m j)) a f M) /\
       ends_with (to_nvector (PEcef s)) (fun g => is_point (PNv g) k (fun j => q (cl m j)) a f M)).
Proof.
  intros A B l n m w k p q a f M El HA HB HL D1 D2.
  destruct (delta_E_spec _ _ _ _ _ _ _ _ _ _ El HA HB D1) as (ws & d & Ed & Hd).
  destruct (C46_change_frame_isometry _ _ _ _ _ _ _ _ _ Hd HL D2) as (v & x & e & Ev & Cx & _ & _ & Ee & Ce & Fe & Se).
  destruct (to_ecef_spec _ _ _ _ _ _ HA El) as (ws' & pA & EA & HpA).
  pose proof Hd as (Pk & _ & _ & Sd). pose proof (bdim_absorb_r _ _ _ D1) as D3.
  exists d, v, e.
  assert (He : is_ecef e k (fun j => vsub (q (cl m (cl k j))) (p (cl n (cl k j)))) a f M).
  { split; [auto|]. split; [exact Ce|]. split; [exact Fe|]. rewrite Se. exact Sd. }
  destruct (ecef_add_spec _ _ _ _ _ _ _ _ _ _ HpA He D3) as (s & Es & Hs). exists s, pA.
  split; [unfold ends; rewrite Ed; reflexivity|]. split; [exact Ev|]. split; [exact Ee|].
  split; [unfold ends; rewrite EA; reflexivity|]. split; [unfold ends; rewrite Es; reflexivity|].
  assert (Hs' : is_ecef s k (fun j => q (cl m j)) a f M).
  { destruct Hs as (S1 & S2 & S3 & S4). split; auto. split; auto. eapply cols_ext; [|exact S2]. intros j Hj. cbn beta.
    rewrite !(cl_id k j Hj). generalize (q (cl m j)) (p (cl n j)). intros [x1 x2 x3] [y1 y2 y3]. unfold vadd, vsub; cbn [Spec.vx Spec.vy Spec.vz]. f_equal; ring. }
  split; [exact Hs'|]. intros Clr.
  assert (L : locatable (PEcef s) k (fun j => q (cl m j)) a f M).
  { split; [exact Hs'|]. intros j Hj. apply Clr. eapply cl_lt_l; eauto. }
  destruct (C48_conversions_preserve_position _ _ _ _ _ _ El L) as (G1 & _ & G3). split; auto.
Qed.
Print Assumptions C73_delta_in_any_frame_leads_to_B.

(** the same with the frame that delta_N / delta_to chooses itself: North-East-Down at A *)
Theorem C73_delta_to_leads_to_B : forall A B n m k p q a f M, ellipsoid a f ->
  locatable A n p a f M -> is_point B m q a f M -> bdim m n = Some k ->
  exists v e s pA, ends (delta_to A B) v /\ ends (to_ecef_vector (PPv v)) e /\
    ends (to_ecef_vector A) pA /\ ends (ecef_add pA e) s /\ is_point (PEcef s) k (fun j => q (cl m j)) a f M.
Proof.
  intros A B n m k p q a f M El HA HB D.
  destruct (FrameN_spec A _ _ _ _ _ HA El) as (ws & v & u & EN & Hv & _).
  destruct (C73_delta_in_any_frame_leads_to_B A B (LocalN v) n m n k p q a f M El (proj1 HA) HB) as (d & pv & e & s & pA & Ed & Ev & Ee & EA & Es & Hs & _); auto.
  { exists u, (fun _ => 0). exact Hv. }
  { eapply bdim_absorb_r; eauto. }
  exists pv, e, s, pA. split; [|auto]. unfold delta_to, delta_N.
  eapply ends_bind_i; [exact Ed|]. eapply ends_bind_i; [rewrite EN; reflexivity|]. exact Ev.
Qed.
Print Assumptions C73_delta_to_leads_to_B.

(** the frame may be any body frame anywhere, e.g. that of a vehicle at a third position *)
Example C73_example : ellipsoid 6378137 (/ 298) /\ (exists p, is_point (PGeo ex_geo) 1 p 6378137 (/ 298) Me) /\
  is_point (PEcef ex_ecef) 1 (fun _ => V 6000000 1000 2) 6378137 (/ 298) Me /\ clear_of_core 6378137 (/ 298) Me (V 6000000 1000 2) /\
  is_local (LocalB ex_nv (scal (Fin 1)) (scal (Fin 2)) z0) 1 6378137 (/ 298) Me.
Proof.
  destruct C45_example as (X & Y & _). split; auto. split; auto. split; [apply ex_ecef_ok|]. split.
  - unfold clear_of_core, equatorial, polar, north, Me, vdot, vsub, vscale, ecc2; cbn [vx vy vz r0]. lra.
  - apply C46_example.
Qed.

(** ** C74 *)
(** a point constructed from degrees reports exactly these degrees: its latlon_deg is what latlon reports for the
    point constructed from the same numbers taken as radians.  No hypotheses: any arrays, NaN and infinities included. *)
Theorem C74_degrees_in_degrees_out : forall la lo z fr ws g, GeoPoint la lo z fr true = (ws, inl g) ->
  exists h, GeoPoint la lo z fr false = (ws, inl h) /\ latlon_deg g = latlon h /\ g_frame g = g_frame h.
Proof.
  intros la lo z fr ws g. unfold GeoPoint, broadcast3.
  change (shape (rad1 la)) with (shape la). change (shape (rad1 lo)) with (shape lo).
  destruct (bshape (shape la) (shape lo)) as [s|]; [|discriminate].
  destruct (bshape s (shape z)) as [t|]; [|discriminate]. rewrite !bind_ret. intros E.
  destruct (default_frame fr) as [w [x|]] eqn:F; [|discriminate]. rewrite bind_inl in *. injection E as <- <-.
  eexists. split; [reflexivity|]. cbn [g_frame]. split; [|reflexivity].
  unfold latlon_deg, latlon, latitude_deg, longitude_deg. cbn [g_lat g_lon g_z].
  assert (K : forall x, deg1 (broadcast_to (rad1 x) t) = broadcast_to x t).
  { intros y. transitivity (broadcast_to (deg1 (rad1 y)) t); [reflexivity|]. rewrite deg1_rad1. reflexivity. }
  rewrite !K. reflexivity.
Qed.
Print Assumptions C74_degrees_in_degrees_out.

(** scalars: GeoPoint(la, lo, z, degrees=True) holds la and lo in radians and reports la and lo *)
Theorem C74_degrees_scalar : forall la lo z fr x y w, scalar la x -> scalar lo y -> scalar z w ->
  ends_with (GeoPoint la lo z (Some fr) true) (fun g =>
    scalar (g_lat g) (x * PI / 180) /\ scalar (g_lon g) (y * PI / 180) /\ scalar (g_z g) w /\ g_frame g = fr /\
    scalar (latitude_deg g) x /\ scalar (longitude_deg g) y).
Proof.
  intros la lo z fr x y w [Sa Ga] [So Go] [Sz Gz]. unfold GeoPoint, broadcast3.
  change (shape (rad1 la)) with (shape la). change (shape (rad1 lo)) with (shape lo). rewrite Sa, So, Sz, !bshape_nil_l, !bind_ret. unfold default_frame. rewrite bind_ret.
  eexists. split; [reflexivity|]. cbn [g_lat g_lon g_z g_frame].
  assert (K : forall a r, shape a = [] -> get a [] ≈ r -> scalar (broadcast_to (rad1 a) []) (r * PI / 180)).
  { intros a r Hs Hg. split; [reflexivity|]. cbn [get broadcast_to]. change (shape (rad1 a)) with (shape a). rewrite Hs. 
    change (get (rad1 a) (bidx [] [])) with (deg2rad (get a [])). replace (r * PI / 180) with (r * (PI / 180)) by (field). apply fin_mul; auto. reflexivity. }
  assert (K2 : forall a r, shape a = [] -> get a [] ≈ r -> scalar (deg1 (broadcast_to (rad1 a) [])) r).
  { intros a r Hs Hg. split; [reflexivity|]. cbn [get broadcast_to deg1 map1]. change (shape (rad1 a)) with (shape a). rewrite Hs. 
    change (get (rad1 a) (bidx [] [])) with (deg2rad (get a [])). rewrite rad_deg_id. exact Hg. }
  split; [apply K; auto|]. split; [apply K; auto|]. split. { split; [reflexivity|]. cbn [get broadcast_to]. rewrite Sz. exact Gz. }
  split; [reflexivity|]. unfold latitude_deg, longitude_deg. cbn [g_lat g_lon]. split; apply K2; auto.
Qed.
Print Assumptions C74_degrees_scalar.

Lemma deg_holds x sc n r : holds x sc n r -> holds (deg1 x) sc n (fun j => r j * 180 / PI).
Proof.
  pose proof PI_RGT_0. assert (K : forall y t, y ≈ t -> rad2deg y ≈ t * 180 / PI).
  { intros y t Hy. replace (t * 180 / PI) with (t * (180 / PI)) by (field; lra). apply fin_mul; auto. reflexivity. }
  destruct sc; unfold holds.
  - intros [S G]; split; auto. apply K. apply G.
  - intros [S G]; split; auto. intros j Hj. apply K. apply G; auto.
Qed.

(** azimuth_deg is in [-180, 180], elevation_deg in [-90, 90], and with the length they are the spherical coordinates *)
Theorem C74_azimuth_and_elevation_in_degrees : forall P n p sc, cols P n p -> (sc = true -> n = 1%nat) ->
  (forall j, (j < n)%nat -> p j <> v0) ->
  exists A E az el, azimuth_deg P sc = ret A /\ elevation_deg P sc = ret E /\ holds A sc n az /\ holds E sc n el /\
    forall j, (j < n)%nat -> -180 <= az j <= 180 /\ -90 <= el j <= 90 /\
      let r x := x * PI / 180 in
      direction (p j) = V (cos (r (el j)) * cos (r (az j))) (cos (r (el j)) * sin (r (az j))) (sin (r (el j))).
Proof.
  intros P n p sc C S Nz. pose proof PI_RGT_0 as HP.
  destruct (C49_spherical_coordinates P n p sc C S Nz) as (L & A & E & len & az & el & EL & EA & EE & HL & HA & HE & G).
  exists (deg1 A), (deg1 E), (fun j => az j * 180 / PI), (fun j => el j * 180 / PI).
  unfold azimuth_deg, elevation_deg. rewrite EA, EE, !bind_ret. split; [reflexivity|]. split; [reflexivity|].
  split; [apply deg_holds; auto|]. split; [apply deg_holds; auto|]. intros j Hj. destruct (G j Hj) as (B1 & B2 & B3 & B4). cbv zeta.
  assert (K : forall x b, - (b * PI / 180) <= x <= b * PI / 180 -> - b <= x * 180 / PI <= b).
  { intros x b [X1 X2]. split.
    - apply (Rmult_le_reg_r PI); auto. replace (x * 180 / PI * PI) with (x * 180) by (field; lra). lra.
    - apply (Rmult_le_reg_r PI); auto. replace (x * 180 / PI * PI) with (x * 180) by (field; lra). lra. }
  split; [apply K; lra|]. split; [apply K; lra|].
  replace (el j * 180 / PI * PI / 180) with (el j) by (field; lra). replace (az j * 180 / PI * PI / 180) with (az j) by (field; lra).
  set (w := V (cos (el j) * cos (az j)) (cos (el j) * sin (az j)) (sin (el j))) in *.
  assert (Hw : vdot w w = 1).
  { unfold w, vdot; cbn [Spec.vx Spec.vy Spec.vz].
    pose proof (sin2_cos2 (el j)) as Q1. pose proof (sin2_cos2 (az j)) as Q2. unfold Rsqr in Q1, Q2.
    transitivity (cos (el j) * cos (el j) * (sin (az j) * sin (az j) + cos (az j) * cos (az j)) + sin (el j) * sin (el j)); [ring|]. rewrite Q2. lra. }
  rewrite B4. rewrite direction_scale; [apply direction_of_unit; auto; apply vnorm_unit; auto|lra|].
  intros C0. rewrite C0 in Hw. unfold vdot, v0 in Hw; cbn [Spec.vx Spec.vy Spec.vz] in Hw. lra.
Qed.
Print Assumptions C74_azimuth_and_elevation_in_degrees.

(** geographical coordinates computed from an n-vector are in range in degrees *)
Theorem C74_latlon_deg_in_range : forall v n u z a f M, is_nv v n u z a f M ->
  ends_with (nv_to_geo v) (fun g => exists la lo, vals (latitude_deg g) n la /\ vals (longitude_deg g) n lo /\ vals (g_z g) n z /\
    forall j, (j < n)%nat -> -90 <= la j <= 90 /\ -180 <= lo j <= 180 /\
      normal_at M (la j * PI / 180) (lo j * PI / 180) = direction (u j)).
Proof.
  intros v n u z a f M H. pose proof PI_RGT_0 as HP.
  destruct (nv_to_geo_spec _ _ _ _ _ _ _ H) as (ws & g & la & lo & E & Hg & _ & Hll & _).
  exists g. split; [unfold ends; rewrite E; reflexivity|].
  destruct Hg as (_ & _ & _ & Vla & Vlo & Vz & Fr). destruct H as (_ & _ & Nz & _ & _).
  pose proof (frame_orth _ _ _ _ Fr) as HO.
  assert (K : forall y t, y ≈ t -> rad2deg y ≈ t * 180 / PI).
  { intros y t Hy. replace (t * 180 / PI) with (t * (180 / PI)) by (field; lra). apply fin_mul; auto. reflexivity. }
  exists (fun j => la j * 180 / PI), (fun j => lo j * 180 / PI). split; [apply (vals_map1 rad2deg (fun t => t * 180 / PI)); auto|].
  split; [apply (vals_map1 rad2deg (fun t => t * 180 / PI)); auto|]. split; [exact Vz|].
  intros j Hj. destruct (Hll j Hj) as (A & B).
  assert (Q : forall x b, - (b * PI / 180) <= x <= b * PI / 180 -> - b <= x * 180 / PI <= b).
  { intros x b [X1 X2]. split.
    - apply (Rmult_le_reg_r PI); auto. replace (x * 180 / PI * PI) with (x * 180) by (field; lra). lra.
    - apply (Rmult_le_reg_r PI); auto. replace (x * 180 / PI * PI) with (x * 180) by (field; lra). lra. }
  split. { apply Q. pose proof (lat_of_range _ _ (orthogonal_nz _ _ HO (Nz j Hj)) A). lra. }
  split. { apply Q. pose proof (lon_of_range _ _ B). lra. }
  replace (la j * 180 / PI * PI / 180) with (la j) by (field; lra). replace (lo j * 180 / PI * PI / 180) with (lo j) by (field; lra).
  apply lat_lon_normal; auto.
Qed.
Print Assumptions C74_latlon_deg_in_range.

(** objects made by a frame are in that frame, whatever frame= keyword is passed along *)
Theorem C74_frame_factories : forall fr kw,
  (forall la lo z d ws g, frameE_GeoPoint fr la lo z d kw false = (ws, inl g) ->
     g_frame g = fr /\ forall o, GeoPoint la lo z (Some fr) d = (ws, inl o) -> o = g) /\
  (forall n z, frameE_Nvector fr n z kw false = ret (MkNv n z fr)) /\
  (forall p s ws e, frameE_ECEFvector fr p s kw false = (ws, inl e) -> e_frame e = fr /\ e_p e = p) /\
  (* a frame as positional argument is refused *)
  (forall la lo z d, raises (frameE_GeoPoint fr la lo z d kw true) TypeError) /\
  (forall n z, raises (frameE_Nvector fr n z kw true) TypeError) /\
  (forall p s, raises (frameE_ECEFvector fr p s kw true) TypeError).
Proof.
  intros fr kw. split; [|split; [|split; [|split; [|split]]]].
  - intros la lo z d ws g E. cbn [frameE_GeoPoint] in E. split; [|congruence].
    unfold frameE_GeoPoint, GeoPoint, broadcast3 in E. destruct (if d then (rad1 la, rad1 lo) else (la, lo)) as [x y].
    destruct (bshape (shape x) (shape y)) as [s|]; [|discriminate]. destruct (bshape s (shape z)) as [t|]; [|discriminate].
    cbn in E. injection E as <- <-. reflexivity.
  - reflexivity.
  - intros p s ws e E. unfold frameE_ECEFvector, ECEFvector, default_frame in E. rewrite bind_ret in E. destruct s as [s|].
    + cbn in E. injection E as <- <-. auto.
    + destruct (shape1 p) as [w [c|]]; cbn in E; [|discriminate]. injection E as <- <-. auto.
  - reflexivity.
  - reflexivity.
  - reflexivity.
Qed.
Print Assumptions C74_frame_factories.

(** a Pvector made by a local frame is in that frame and is scalar exactly when it holds one vector *)
Theorem C74_local_Pvector : forall l p n q, cols p n q ->
  ends_with (local_Pvector l p) (fun v => p_p v = p /\ p_frame v = l /\ (p_scalar v = true <-> n = 1%nat)).
Proof.
  intros l p n q C. unfold local_Pvector, Pvector. rewrite (shape1_cols _ _ _ C), !bind_ret.
  eexists. split; [reflexivity|]. cbn [p_p p_frame p_scalar]. rewrite Nat.eqb_eq. tauto.
Qed.

(** the three views of a path stand for the same two positions, and the n-vectors are those used everywhere *)
Theorem C74_path_accessors : forall A B n m p q a f M, ellipsoid a f -> locatable A n p a f M -> locatable B m q a f M ->
  ends_with (path_geo_points (GeoPath A B)) (fun g => is_point (PGeo (fst g)) n p a f M /\ is_point (PGeo (snd g)) m q a f M) /\
  ends_with (path_ecef_vectors (GeoPath A B)) (fun g => is_point (PEcef (fst g)) n p a f M /\ is_point (PEcef (snd g)) m q a f M) /\
  ends_with (path_nvectors (GeoPath A B)) (fun g => is_point (PNv (fst g)) n p a f M /\ is_point (PNv (snd g)) m q a f M /\
    ends (path_nvector_normals (GeoPath A B)) (n_normal (fst g), n_normal (snd g))) /\
  positionA (GeoPath A B) = ([WDeprecated], inl A) /\ positionB (GeoPath A B) = ([WDeprecated], inl B).
Proof.
  intros A B n m p q a f M El HA HB.
  destruct (C48_conversions_preserve_position _ _ _ _ _ _ El HA) as ((a1 & Ea1 & Ha1) & (a2 & Ea2 & Ha2) & (a3 & Ea3 & Ha3)).
  destruct (C48_conversions_preserve_position _ _ _ _ _ _ El HB) as ((b1 & Eb1 & Hb1) & (b2 & Eb2 & Hb2) & (b3 & Eb3 & Hb3)).
  split; [|split; [|split; [|split]]]; try reflexivity.
  - exists (a3, b3). split; auto. eapply ends_bind_i; [exact Ea3|]. eapply ends_bind_i; [exact Eb3|]. reflexivity.
  - exists (a2, b2). split; auto. eapply ends_bind_i; [exact Ea2|]. eapply ends_bind_i; [exact Eb2|]. reflexivity.
  - assert (E : ends (path_nvectors (GeoPath A B)) (a1, b1)).
    { eapply ends_bind_i; [exact Ea1|]. eapply ends_bind_i; [exact Eb1|]. reflexivity. }
    exists (a1, b1). split; auto. split; auto. split; auto. eapply ends_bind_i; [exact E|]. reflexivity.
Qed.
Print Assumptions C74_path_accessors.

Example C74_example : scalar (scal (Fin 60)) 60 /\ cols (col3 (Fin 1) (Fin 2) (Fin (-2))) 1 (fun _ => V 1 2 (-2)) /\ V 1 2 (-2) <> v0 /\
  is_nv ex_nv 1 (fun _ => V 1 2 2) (fun _ => 0) 6378137 (/ 298) Me.
Proof. split; [split; reflexivity|]. split; [apply C49_example|]. split; [apply C49_example|apply ex_nv_ok]. Qed.
