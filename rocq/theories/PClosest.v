(** * C55: GeoPath.closest_point_on_path *)
From Coq Require Import Ascii String List Arith Lia Bool Reals Lra Psatz ZArith.
From Verif Require Import Num Py Nd MUtil MRotation MCore MObjects Spec SpecArr SpecObj SpecGeo LNum LTrig LVec LArr LLatLon LMat LRot
  LAngle LDist PDist PUtil LCircle PCircle PTrack PArc LEq LEcef PEcef PRot PFrame PEq LObj PEq2 LDirect PDirect LObj2 PObj PObj2 POps PGeod LGreat PGreat PPath.
Import ListNotations.
Local Open Scope R_scope.

(** a unit vector c = x a1 + y a2 of the plane of a1, a2 beats both ends of the arc at an interior point q = s a1 + t a2
    only if it is itself on the arc *)
Lemma cone_real g x y s t : -1 < g < 1 -> 0 <= s -> 0 <= t -> s * s + t * t + 2 * s * t * g = 1 ->
  let A := x + y * g in let B := x * g + y in
  A < s * A + t * B -> B < s * A + t * B -> 0 <= x /\ 0 <= y.
Proof.
  intros Hg Hs Ht Hq A B H1 H2.
  assert (G : 0 < 1 - g * g) by nra.
  assert (I1 : (1 + s + t * g) * (s * A + t * B - A) = t * (1 - g * g) * (y * (1 + s) - x * t)).
  { replace ((1 + s + t * g) * (s * A + t * B - A)) with
      (t * ((1 + s + t * g) * B - (g + s * g + t) * A) + A * (s * s + t * t + 2 * s * t * g - 1)) by ring.
    rewrite Hq. unfold A, B. ring. }
  assert (I2 : (1 + t + s * g) * (s * A + t * B - B) = s * (1 - g * g) * (x * (1 + t) - y * s)).
  { replace ((1 + t + s * g) * (s * A + t * B - B)) with
      (s * ((1 + t + s * g) * A - (g + t * g + s) * B) + B * (s * s + t * t + 2 * s * t * g - 1)) by ring.
    rewrite Hq. unfold A, B. ring. }
  assert (Bs : (s + t * g) * (s + t * g) <= 1 /\ (t + s * g) * (t + s * g) <= 1) by (split; nra).
  assert (P1 : 0 < t * (y * (1 + s) - x * t)).
  { assert (Q : 0 <= 1 + s + t * g) by nra.
    destruct (Req_dec (1 + s + t * g) 0) as [E|E].
    - exfalso. assert (W : t * t * (1 - g * g) = 0) by (replace (t * t * (1 - g * g)) with (1 - (s + t * g) * (s + t * g) + (s * s + t * t + 2 * s * t * g - 1)) by ring; rewrite Hq; replace (s + t * g) with (-1) by lra; ring).
      assert (t = 0) by nra. subst t. lra.
    - assert (0 < (1 + s + t * g) * (s * A + t * B - A)) by (apply Rmult_lt_0_compat; lra).
      rewrite I1 in H. replace (t * (1 - g * g) * (y * (1 + s) - x * t)) with ((1 - g * g) * (t * (y * (1 + s) - x * t))) in H by ring. nra. }
  assert (P2 : 0 < s * (x * (1 + t) - y * s)).
  { assert (Q : 0 <= 1 + t + s * g) by nra.
    destruct (Req_dec (1 + t + s * g) 0) as [E|E].
    - exfalso. assert (W : s * s * (1 - g * g) = 0) by (replace (s * s * (1 - g * g)) with (1 - (t + s * g) * (t + s * g) + (s * s + t * t + 2 * s * t * g - 1)) by ring; rewrite Hq; replace (t + s * g) with (-1) by lra; ring).
      assert (s = 0) by nra. subst s. lra.
    - assert (0 < (1 + t + s * g) * (s * A + t * B - B)) by (apply Rmult_lt_0_compat; lra).
      rewrite I2 in H. replace (s * (1 - g * g) * (x * (1 + t) - y * s)) with ((1 - g * g) * (s * (x * (1 + t) - y * s))) in H by ring. nra. }
  assert (T : 0 < t) by (destruct Ht as [|E]; [auto|rewrite <- E in P1; lra]).
  assert (S : 0 < s) by (destruct Hs as [|E]; [auto|rewrite <- E in P2; lra]).
  assert (Q1 : x * t < y * (1 + s)) by (apply Rmult_lt_reg_l with t; nra).
  assert (Q2 : y * s < x * (1 + t)) by (apply Rmult_lt_reg_l with s; nra).
  assert (Q : 0 < x * (1 + s + t)).
  { assert (y * s * (1 + s) < x * (1 + t) * (1 + s)) by (apply Rmult_lt_compat_r; lra).
    assert (x * t * s < y * (1 + s) * s) by (apply Rmult_lt_compat_r; lra). nra. }
  assert (X : 0 < x) by (apply Rmult_lt_reg_r with (1 + s + t); lra).
  split; [lra|]. assert (0 < x * t) by (apply Rmult_lt_0_compat; lra).
  assert (0 < y * (1 + s)) by lra. destruct (Rle_dec 0 y); auto. exfalso. nra.
Qed.

Lemma vdot_comb x y a1 a2 v : vdot (vadd (vscale x a1) (vscale y a2)) v = x * vdot a1 v + y * vdot a2 v.
Proof. unfold vdot, vadd, vscale. cbn [Spec.vx Spec.vy Spec.vz]. ring. Qed.

Lemma arc_plane a1 a2 q : on_arc a1 a2 q -> on_circle a1 a2 q.
Proof.
  intros (Uq & s & t & _ & _ & ->). split; [auto|]. unfold vdot, vadd, vscale, vcross; cbn [Spec.vx Spec.vy Spec.vz]; ring.
Qed.

Section Ends.
Variables (a1 a2 : vec).
Hypothesis U1 : vnorm a1 = 1.
Hypothesis U2 : vnorm a2 = 1.
Hypothesis Z : vcross a1 a2 <> v0.

Lemma ends_beat c q : on_circle a1 a2 c -> ~ on_arc a1 a2 c -> on_arc a1 a2 q -> vdot c q <= vdot c a1 \/ vdot c q <= vdot c a2.
Proof.
  intros [Uc Oc] Na (Uq & s & t & Hs & Ht & Eq).
  destruct (Rle_dec (vdot c q) (vdot c a1)) as [|N1]; [auto|]. destruct (Rle_dec (vdot c q) (vdot c a2)) as [|N2]; [auto|].
  exfalso. apply Na. split; auto.
  assert (Oc' : vdot c (vcross a1 a2) = 0) by auto.
  pose proof (plane_coords a1 a2 U1 U2 Z c Oc') as Ec. set (x := _ / _) in Ec. set (y := (vdot c a2 - _) / _) in Ec.
  pose proof (g_lt a1 a2 U1 U2 Z) as G. exists x, y.
  assert (D1 : vdot a1 a1 = 1) by (apply vnorm_unit; auto). assert (D2 : vdot a2 a2 = 1) by (apply vnorm_unit; auto).
  assert (A : vdot c a1 = x + y * vdot a1 a2) by (rewrite Ec, vdot_comb, D1, (vdot_comm a2 a1); ring).
  assert (B : vdot c a2 = x * vdot a1 a2 + y) by (rewrite Ec, vdot_comb, D2; ring).
  assert (Q : vdot c q = s * vdot c a1 + t * vdot c a2) by (rewrite vdot_comm, Eq, vdot_comb, !(vdot_comm _ c); ring).
  assert (N : s * s + t * t + 2 * s * t * vdot a1 a2 = 1).
  { apply vnorm_unit in Uq. rewrite Eq, vdot_comb, !(vdot_comm _ (vadd _ _)), !vdot_comb, D1, D2, (vdot_comm a2 a1) in Uq. lra. }
  destruct (cone_real (vdot a1 a2) x y s t G Hs Ht N) as [? ?]; cbv zeta; rewrite <- ?A, <- ?B; try lra.
  auto.
Qed.
End Ends.

(** a boolean scalar or array of length one with value b *)
Definition flag (x : arr bool) (b : bool) : Prop := (shape x = [] /\ get x [] = b) \/ (shape x = [1%nat] /\ get x [0%nat] = b).
Lemma truth_flag x b : flag x b -> truth x = ret b.
Proof. intros [[S G]|[S G]]; unfold truth, size; rewrite S; cbn; rewrite G; reflexivity. Qed.
Lemma flag_blist x b : blist x 1 (fun _ => b) -> flag x b.
Proof. intros [S G]. right. split; auto. Qed.
Lemma and_flag x y b c : flag x b -> flag y c -> exists z, map2 andb x y = ret z /\ flag z (b && c).
Proof.
  intros [[S G]|[S G]] [[S' G']|[S' G']]; unfold map2; rewrite S, S'; unfold bshape; cbn [rev app bshape_rev];
    try change (bdim 1 1) with (Some 1%nat); cbn [rev app]; eexists; (split; [reflexivity|]).
  - left. split; auto. cbn. rewrite G, G'. reflexivity.
  - right. split; auto. cbn. rewrite G, G'. reflexivity.
  - right. split; auto. cbn. rewrite G, G'. reflexivity.
  - right. split; auto. cbn. rewrite G, G'. reflexivity.
Qed.
Lemma first_flag x b : flag x b -> shape x = [1%nat] -> exists y, first x = ret y /\ flag y b.
Proof.
  intros [[S G]|[S G]] E; [rewrite S in E; discriminate|]. unfold first. rewrite S. cbn. eexists. split; [reflexivity|]. left. split; auto.
Qed.
Lemma close_refl r t x : 0 <= t -> close r t x x.
Proof. intros Ht. unfold close. rewrite Rminus_diag_eq, Rabs_R0 by reflexivity. eapply Rle_trans; [exact Ht|apply Rmax_l]. Qed.
Lemma isclose_flag x y u xr xa r t e : vals x 1 (fun _ => u) -> vals y 1 (fun _ => u) -> xr ≈ r -> xa ≈ t -> 0 <= t ->
  exists z, isclose x y xr xa e = ret z /\ flag z true.
Proof.
  intros Hx Hy Hr Ha Ht.
  assert (K : forall p q, p ≈ u -> q ≈ u -> isclose1 xr xa e p q = true).
  { intros p q Hp Hq. apply (isclose1_fin _ _ e _ _ _ _ _ _ Hr Ha Hp Hq). apply close_refl; auto. }
  unfold isclose, map2. destruct Hx as [[_ [S G]]|[S G]], Hy as [[_ [S' G']]|[S' G']]; rewrite S, S';
    unfold bshape; cbn [rev app bshape_rev]; try change (bdim 1 1) with (Some 1%nat); cbn [rev app]; eexists; (split; [reflexivity|]).
  - left. split; auto. cbn. apply K; auto.
  - right. split; auto. cbn. apply K; try assumption; apply (G' 0%nat); lia.
  - right. split; auto. cbn. apply K; try assumption; apply (G 0%nat); lia.
  - right. split; auto. cbn. apply K; [apply (G 0%nat)|apply (G' 0%nat)]; lia.
Qed.
Lemma nlt_flag x y p q : list1 x 1 p -> list1 y 1 q ->
  exists z, map2 nlt x y = ret z /\ flag z (if Rlt_dec (p 0%nat) (q 0%nat) then true else false).
Proof.
  intros [S G] [S' G']. unfold map2. rewrite S, S'. unfold bshape; cbn [rev app bshape_rev]; change (bdim 1 1) with (Some 1%nat); cbn [rev app].
  eexists. split; [reflexivity|]. right. split; auto. cbn. apply nlt_fin; [apply (G 0%nat)|apply (G' 0%nat)]; lia.
Qed.

Lemma cols_1 A u : cols A 1 u -> cols A 1 (fun _ => u 0%nat).
Proof. intros H. eapply cols_ext; [|exact H]. intros j Hj. assert (j = 0%nat) by lia. subst; reflexivity. Qed.
Lemma spread_1 x z : spread x 1 z -> vals x 1 (fun _ => z 0%nat).
Proof.
  intros (m & r & V & D & E). assert (m = 1%nat) by (clear - D; bcases). subst m. eapply vals_ext; [|exact V].
  intros j Hj. assert (j = 0%nat) by lia. subst. rewrite E by lia. reflexivity.
Qed.

(** GeoPoints made from placed points are placed at the same position *)
Lemma to_geo_placed pt n p up a f M : placed pt n p up a f M -> ellipsoid a f -> ecc2 f <= 1 / 2 ->
  ends_with (to_geo_point pt) (fun g => placed (PGeo g) n p up a f M).
Proof.
  intros H El E2. pose proof El as (Pa & F0 & F1). destruct (placed_frame _ _ _ _ _ _ _ H) as (HM & _ & _).
  destruct (to_nvector_placed _ _ _ _ _ _ _ H El E2) as (ws & v & u & z & Ev & Hv & Cv & _).
  assert (G : forall g, placed (PGeo g) n p up a f M -> pt = PGeo g -> ends_with (to_geo_point pt) (fun g => placed (PGeo g) n p up a f M)).
  { intros g Hg ->. exists g. split; [reflexivity|auto]. }
  assert (K : ends_with (nv_to_geo v) (fun g => placed (PGeo g) n p up a f M)).
  { destruct (nv_to_geo_spec _ _ _ _ _ _ _ Hv) as (w & g & la & lo & Eg & Hg & _ & L & _). exists g. split; [rewrite Eg; reflexivity|].
    exists la, lo, z. split; auto. intros j Hj. destruct (Cv j Hj) as (D & U & S & P). destruct (L j Hj) as [L1 L2]. split; auto.
    assert (N : normal_at M (la j) (lo j) = up j). { rewrite <- D. apply lat_lon_normal; auto. apply Hv; auto. }
    split; [auto|]. rewrite P. apply at_depth_pos; auto. apply vnorm_inv; auto. }
  destruct pt as [g|v'|e|]; [apply (G g); auto| | |destruct H]; cbn [to_geo_point].
  - cbn [to_nvector] in Ev. injection Ev as _ <-. exact K.
  - unfold ecef_to_geo. cbn [to_nvector] in Ev. rewrite Ev, bind_inl. destruct K as (g & Eg & Pg). exists g. split; auto.
Qed.

Section Closest.
Variables (gi : solver) (A B P : point) (pA pB pP upA upB upP : nat -> vec) (a f : R) (M : mat).
Hypothesis El : ellipsoid a f.
Hypothesis E2 : ecc2 f <= 1 / 2.
Hypothesis HA : placed A 1 pA upA a f M.
Hypothesis HB : placed B 1 pB upB a f M.
Hypothesis HP : placed P 1 pP upP a f M.
Hypothesis UA : unit_normals A 1.
Hypothesis UB : unit_normals B 1.
Hypothesis UP : unit_normals P 1.
Let a1 := upA 0%nat.
Let a2 := upB 0%nat.
Let b := upP 0%nat.
Hypothesis Z : vcross a1 a2 <> v0.

Lemma path_data : exists ws va vb zA zB, path_nvectors (GeoPath A B) = (ws, inl (va, vb)) /\
  cols (n_normal va) 1 (fun _ => a1) /\ cols (n_normal vb) 1 (fun _ => a2) /\ is_frame (n_frame va) a f M /\
  vals (n_z va) 1 (fun _ => zA) /\ vals (n_z vb) 1 (fun _ => zB) /\ shallow a f zA /\ shallow a f zB /\
  pA 0%nat = pos a f M a1 zA /\ pB 0%nat = pos a f M a2 zB /\ vnorm a1 = 1 /\ vnorm a2 = 1.
Proof.
  destruct (to_nvector_unit _ _ _ _ _ _ _ HA El E2 UA) as (wa & va & zA & Ea & (_ & CA & _ & SA & FA) & Ca & _).
  destruct (to_nvector_unit _ _ _ _ _ _ _ HB El E2 UB) as (wb & vb & zB & Eb & (_ & CB & _ & SB & FB) & Cb & _).
  unfold path_nvectors. cbn [gp_a gp_b]. rewrite Ea, bind_inl, Eb, bind_inl.
  destruct (Ca 0%nat ltac:(lia)) as (? & ? & ?). destruct (Cb 0%nat ltac:(lia)) as (? & ? & ?).
  exists (wa ++ wb ++ []), va, vb, (zA 0%nat), (zB 0%nat). split; [reflexivity|].
  split; [apply cols_1; auto|]. split; [apply cols_1; auto|]. split; auto. split; [apply spread_1; auto|]. split; [apply spread_1; auto|].
  repeat (split; auto).
Qed.

Lemma radius_data : exists ws r R0, average_radius (GeoPath A B) = (ws, inl r) /\ vals r 1 (fun _ => R0) /\ 0 < R0 /\
  R0 = (vnorm (pA 0%nat) + vnorm (pB 0%nat)) / 2.
Proof.
  destruct (average_radius_spec _ _ _ _ _ _ _ _ _ _ _ _ El HA HB (bdim_refl 1)) as (ws & r & Er & Vr & _).
  destruct path_data as (_ & _ & _ & zA & zB & _ & _ & _ & _ & _ & _ & SA & SB & PA & PB & U1 & U2).
  destruct (placed_frame _ _ _ _ _ _ _ HA) as (HM & _).
  exists ws, r, ((vnorm (pA 0%nat) + vnorm (pB 0%nat)) / 2). split; auto. split.
  { eapply vals_ext; [|exact Vr]. intros j Hj. cbn beta. assert (j = 0%nat) by lia. subst. reflexivity. }
  split; auto.
  assert (0 < vnorm (pA 0%nat)) by (rewrite PA; apply vnorm_nz, shallow_nz; auto).
  assert (0 < vnorm (pB 0%nat)) by (rewrite PB; apply vnorm_nz, shallow_nz; auto). lra.
Qed.

Lemma half_sum_spec x y u v : vals x 1 (fun _ => u) -> vals y 1 (fun _ => v) -> exists h, half_sum x y = ret h /\ vals h 1 (fun _ => (u + v) / 2).
Proof.
  intros Hx Hy. unfold half_sum. destruct (add_vals _ _ _ _ _ _ _ Hx Hy (bdim_refl 1)) as (s & Es & Vs). rewrite Es, bind_ret.
  eexists. split; [reflexivity|].
  apply vals_map1 with (f := fun x => nmul x (Fin (/ 2))) (op := fun x => x * / 2) in Vs; [|intros; apply fin_mul; auto; apply fin_Fin].
  exact Vs.
Qed.

(** on_path for a unit n-vector of the great circle at the mean depth: exact *)
Lemma on_path_spec c p z : cols (n_normal c) 1 (fun _ => p) -> on_circle a1 a2 p ->
  (forall zA zB wA wB va vb ws, path_nvectors (GeoPath A B) = (ws, inl (va, vb)) -> wA = n_z va -> wB = n_z vb ->
     vals wA 1 (fun _ => zA) -> vals wB 1 (fun _ => zB) -> z = (zA + zB) / 2) ->
  vals (n_z c) 1 (fun _ => z) ->
  exists ws x, on_path gi (GeoPath A B) (PNv c) "greatcircle" rtol6 atol8 = (ws, inl x) /\
    flag x (rle (vnorm (vsub p a1)) (vnorm (vsub a2 a1)) && rle (vnorm (vsub p a2)) (vnorm (vsub a2 a1))).
Proof.
  intros Hc Oc Hz Vc.
  destruct path_data as (w2 & va & vb & zA & zB & Ev & CA & CB & _ & VA & VB & _ & _ & _ & _ & U1 & U2).
  destruct radius_data as (w1 & r & R0 & Er & Vr & PR & _).
  unfold on_path. change (is_exact "greatcircle") with false. cbv iota. unfold path_on_great_circle_path. cbn [radius_or_average].
  rewrite Er, bind_inl, Ev, bind_inl. cbn [to_nvector]. rewrite !bind_ret.
  destruct (half_sum_spec _ _ _ _ VA VB) as (h & Eh & Vh). rewrite Eh, bind_ret.
  rewrite (Hz _ _ _ _ _ _ _ Ev eq_refl eq_refl VA VB) in Vc.
  destruct (isclose_flag _ _ _ rtol6 atol8 _ _ false Vc Vh (fin_Fin _) (fin_Fin _)) as (s & Es & Fs).
  { left. apply Rinv_0_lt_compat, pow_lt. lra. }
  rewrite Es, bind_ret.
  destruct (ogcp_spec _ _ _ 1 _ _ _ r 1 _ atol8 _ CA CB Hc Z (fun _ _ => proj1 Oc) Vr eq_refl (fin_Fin _)) as (on & Eon & Bon).
  rewrite Eon, bind_ret.
  assert (Fon : flag on (rle (vnorm (vsub p a1)) (vnorm (vsub a2 a1)) && rle (vnorm (vsub p a2)) (vnorm (vsub a2 a1)))).
  { destruct Bon as [S G]. right. split; auto. rewrite (G 0%nat) by lia.
    assert (X : xsin a1 a2 p = 0) by (apply xsin_sign; auto; apply Oc).
    rewrite X, asin_0, Rmult_0_l, Rabs_R0. 
    replace (rle 0 (/ 10 ^ 8)) with true; [apply andb_true_r|]. symmetry. apply rle_iff. left. apply Rinv_0_lt_compat, pow_lt. lra. }
  destruct (and_flag _ _ _ _ Fon Fs) as (res & Eres & Fres). rewrite andb_true_r in Fres. rewrite Eres, bind_ret.
  destruct (ndim r =? 0)%nat; cbn [andb]; [|do 2 eexists; split; [reflexivity|exact Fres]].
  assert (Sr : shape res = [1%nat]).
  { destruct Bon as [So _]. unfold map2 in Eres. rewrite So in Eres. destruct Fs as [[S _]|[S _]]; rewrite S in Eres; unfold bshape in Eres; cbn [rev app bshape_rev] in Eres; injection Eres as <-; reflexivity. }
  unfold size. rewrite Sr. cbn [prod fold_right Nat.mul Nat.add Nat.eqb]. destruct (first_flag _ _ Fres Sr) as (y & Ey & Fy). rewrite Ey. do 2 eexists. split; [reflexivity|exact Fy].
Qed.

Lemma vals1_unique x u v : vals x 1 (fun _ => u) -> vals x 1 (fun _ => v) -> u = v.
Proof.
  intros [[_ [S G]]|[S G]] [[_ [S' G']]|[S' G']]; try (rewrite S in S'; discriminate).
  - eapply fin_unique; eauto.
  - eapply fin_unique; [apply (G 0%nat)|apply (G' 0%nat)]; lia.
Qed.
Lemma chord_arc u v w : vnorm u = 1 -> vnorm v = 1 -> vnorm w = 1 -> vnorm (vsub w u) <= vnorm (vsub v u) <-> vdot v u <= vdot w u.
Proof.
  intros Hu Hv Hw. apply vnorm_unit in Hu, Hv, Hw.
  assert (Q : forall x y, vdot x x = 1 -> vdot y y = 1 -> vdot (vsub x y) (vsub x y) = 2 - 2 * vdot x y).
  { intros x y Hx Hy. replace (vdot (vsub x y) (vsub x y)) with (vdot x x + vdot y y - 2 * vdot x y); [lra|]. unfold vdot, vsub; cbn [Spec.vx Spec.vy Spec.vz]; ring. }
  unfold vnorm. rewrite !Q by auto. split; intros H.
  - apply sqrt_le_0 in H; [lra| |]; rewrite <- Q by auto; apply vdot_pos.
  - apply sqrt_le_1_alt. lra.
Qed.

Hypothesis NP : vcross b (vcross a1 a2) <> v0.

Lemma closest_nv : exists ws c p z zA zB, path_closest_nv (GeoPath A B) P = (ws, inl c) /\ is_nv c 1 (fun _ => p) (fun _ => z) a f M /\
  z = (zA + zB) / 2 /\ shallow a f z /\ pA 0%nat = pos a f M a1 zA /\ pB 0%nat = pos a f M a2 zB /\
  on_circle a1 a2 p /\ 0 < vdot p b /\ (forall q, on_circle a1 a2 q -> angle b p <= angle b q) /\
  (forall w, vdot w (vcross a1 a2) = 0 -> vdot b w = vdot p b * vdot p w) /\
  exists ws' x, on_path gi (GeoPath A B) (PNv c) "greatcircle" rtol6 atol8 = (ws', inl x) /\
    flag x (rle (vnorm (vsub p a1)) (vnorm (vsub a2 a1)) && rle (vnorm (vsub p a2)) (vnorm (vsub a2 a1))).
Proof.
  destruct path_data as (w2 & va & vb & zA & zB & Ev & CA & CB & _ & VA & VB & SA & SB & PA & PB & U1 & U2).
  destruct (to_nvector_unit _ _ _ _ _ _ _ HP El E2 UP) as (w3 & vp & zP & Ep & (_ & CP & _ & _ & FP) & Cp & _).
  destruct (Cp 0%nat ltac:(lia)) as (Ub & _). fold b in Ub. apply cols_1 in CP. fold b in CP.
  unfold path_closest_nv. rewrite Ep, bind_inl, Ev, bind_inl.
  destruct (half_sum_spec _ _ _ _ VA VB) as (h & Eh & Vh). rewrite Eh, bind_ret.
  destruct (C20_closest_point_partial _ _ _ _ _ _ CA CB CP Z Ub NP) as (p & (C & EC & HC) & Op & Dp & Mp & _).
  rewrite EC, bind_inl. unfold Nvector, default_frame. rewrite bind_ret.
  set (c := MkNv C h (n_frame vp)).
  assert (Hc : exists ws' x, on_path gi (GeoPath A B) (PNv c) "greatcircle" rtol6 atol8 = (ws', inl x) /\
    flag x (rle (vnorm (vsub p a1)) (vnorm (vsub a2 a1)) && rle (vnorm (vsub p a2)) (vnorm (vsub a2 a1)))).
  { apply on_path_spec with ((zA + zB) / 2); auto. intros zA' zB' wA wB va' vb' ws Ev' -> -> VA' VB'. rewrite Ev in Ev'. injection Ev' as _ <- <-.
    rewrite (vals1_unique _ _ _ VA' VA), (vals1_unique _ _ _ VB' VB). reflexivity. }
  do 2 eexists. exists p, ((zA + zB) / 2), zA, zB. split; [reflexivity|]. fold c.
  split. { split; [lia|]. split; [exact HC|]. split; [intros; apply vnorm_inv, Op|]. split; [apply spread_vals; exact Vh|exact FP]. }
  split; auto. split. { unfold shallow in *. lra. }
  split; [auto|]. split; [auto|]. split; [auto|]. split; [auto|]. split; [auto|]. split; [|exact Hc]. 
  intros w Hw. destruct (closest_1 _ _ _ _ _ _ CA CB CP Z) as (C' & EC' & HC'). cbv zeta in HC'. rewrite EC in EC'. injection EC' as <-.
  pose proof (vcol_unique _ _ _ _ (proj2 HC 0%nat ltac:(lia)) (proj2 HC' 0%nat ltac:(lia))) as Q. cbv beta in Q.
  pose proof (c_unit a1 a2 Z) as Uc. set (k := direction (vcross a1 a2)) in *.
  assert (Nf : foot k b <> v0).
  { intros F. apply NP. apply (foot_zero _ _ Uc Ub) in F. rewrite (direction_decomp _ Z), vcross_scale_r. fold k. destruct F as [F|F]; rewrite F, ?vcross_neg_l, vcross_self; unfold vscale, vneg, v0; cbn [Spec.vx Spec.vy Spec.vz]; f_equal; ring. }
  assert (Kw : vdot k w = 0) by (unfold k, direction; rewrite vdot_scale_l, (vdot_comm _ w), Hw; ring).
  assert (Fw : vdot b w = vdot (foot k b) w) by (unfold foot; rewrite vdot_sub_l, vdot_scale_l, Kw; ring).
  pose proof (vnorm_nz _ Nf) as Pf. rewrite dir1_nz in Q by auto.
  assert (Df : vdot (direction (foot k b)) b = vnorm (foot k b)).
  { unfold direction. rewrite vdot_scale_l, foot_dot by auto. rewrite <- (foot_sq k b), <- vnorm_sq by auto. field. lra. }
  rewrite Df, rsign_pos, vscale_1 in Q by auto. rewrite Q, Df, Fw. unfold direction. rewrite vdot_scale_l. field. lra.
Qed.
End Closest.

(** segments shorter than 120 degrees, query points other than the two poles of the great circle *)
Theorem C55_closest_point_partial : forall gi A B P pA pB pP upA upB upP a f M,
  ellipsoid a f -> ecc2 f <= 1 / 2 ->
  placed A 1 pA upA a f M -> placed B 1 pB upB a f M -> placed P 1 pP upP a f M ->
  unit_normals A 1 -> unit_normals B 1 -> unit_normals P 1 ->
  let a1 := upA 0%nat in let a2 := upB 0%nat in let b := upP 0%nat in
  vcross a1 a2 <> v0 -> angle a1 a2 < 2 * PI / 3 -> vcross b (vcross a1 a2) <> v0 ->
  ends_with (closest_point_on_path gi (GeoPath A B) P) (fun h => exists p up,
    placed (PGeo h) 1 p up a f M /\
    on_arc a1 a2 (up 0%nat) /\
    (forall q, on_arc a1 a2 q -> angle b (up 0%nat) <= angle b q) /\
    (* an end of the path, or between them at the mean depth *)
    (p 0%nat = pA 0%nat \/ p 0%nat = pB 0%nat \/
     exists zA zB, pA 0%nat = pos a f M a1 zA /\ pB 0%nat = pos a f M a2 zB /\ p 0%nat = pos a f M (up 0%nat) ((zA + zB) / 2))).
Proof.
  intros gi A B P pA pB pP upA upB upP a f M El E2 HA HB HP UA UB UP a1 a2 b Z Short NP. pose proof El as (Pa & F0 & F1).
  destruct (closest_nv gi A B P pA pB pP upA upB upP a f M El E2 HA HB HP UA UB UP Z NP)
    as (w1 & c & p & z & zA & zB & Ec & Hc & Ez & Sz & PA & PB & Op & Dp & Mp & Kp & w2 & on & Eon & Fon).
  destruct (path_data A B pA pB upA upB a f M El E2 HA HB UA UB) as (w3 & va & vb & zA' & zB' & Ev & CA & CB & FrA & _ & _ & _ & _ & _ & _ & U1 & U2).
  fold a1 in CA, U1, Z, NP, PA, Op, Mp, Fon. pose proof Op as [Up Ov].
  destruct (placed_frame _ _ _ _ _ _ _ HA) as (HM & _).
  destruct (to_nvector_unit _ _ _ _ _ _ _ HP El E2 UP) as (w4 & vp & zP & Ep & (_ & CP & _ & _ & _) & Cp & _).
  destruct (Cp 0%nat ltac:(lia)) as (Ub & _). apply cols_1 in CP.
  pose proof (g_lt a1 a2 U1 U2 Z) as G.
  assert (Gs : -1/2 < vdot a1 a2).
  { rewrite <- (cos_angle_unit a1 a2) by auto. pose proof PI_RGT_0. pose proof (angle_range a1 a2) as RA. 
    replace (-1/2) with (cos (2 * (PI / 3))) by (rewrite cos_2PI3; lra).
    apply cos_decreasing_1; lra. }
  unfold closest_point_on_path. rewrite Ec, bind_inl, Eon, bind_inl, (truth_flag _ _ Fon), bind_ret.
  assert (Arc : rle (vnorm (vsub p a1)) (vnorm (vsub a2 a1)) && rle (vnorm (vsub p a2)) (vnorm (vsub a2 a1)) = true <-> on_arc a1 a2 p).
  { rewrite andb_true_iff, !rle_iff, (chord_arc a1 a2 p) by auto.
    replace (vnorm (vsub a2 a1)) with (vnorm (vsub a1 a2)) by (rewrite <- vnorm_neg; f_equal; unfold vneg, vsub; cbn [Spec.vx Spec.vy Spec.vz]; f_equal; ring).
    rewrite (chord_arc a2 a1 p), (vdot_comm a2 a1) by auto. split.
    - intros [X Y]. apply arc_sound; auto.
    - intros X. apply arc_complete in X; auto. tauto. }
  destruct (rle _ _ && _) eqn:Rl.
  - destruct (nv_to_geo_spec _ _ _ _ _ _ _ Hc) as (w5 & h & la & lo & Eh & Hh & _ & L & _). exists h. split; [rewrite Eh; reflexivity|].
    destruct (L 0%nat ltac:(lia)) as [L1 L2].
    assert (N : normal_at M (la 0%nat) (lo 0%nat) = p).
    { rewrite <- (direction_of_unit p) at 1 by auto. apply lat_lon_normal; auto. apply vnorm_inv; auto. }
    exists (fun j => pos a f M (normal_at M (la j) (lo j)) z), (fun j => normal_at M (la j) (lo j)).
    split. { exact (placed_geo h 1 la lo (fun _ => z) a f M Hh El (fun _ _ => Sz)). }
    rewrite N. split; [apply Arc; auto|]. split.
    + intros q Hq. apply Mp. apply arc_plane; auto.
    + right; right. exists zA, zB. rewrite <- Ez. auto.
  - assert (Na : ~ on_arc a1 a2 p) by (rewrite <- Arc; discriminate).
    rewrite Ep, bind_inl, Ev, bind_inl.
    destruct (radius_data A B pA pB upA upB a f M El E2 HA HB UA UB) as (w5 & r & R0 & Er & Vr & PR & _). rewrite Er, bind_inl.
    destruct (gcd_spec _ _ 1 _ _ _ _ _ CA CP (vnorm_inv _ U1) (fun _ _ => vnorm_inv _ Ub) Vr 1 eq_refl) as (d1 & E1 & L1).
    destruct (gcd_spec _ _ 1 _ _ _ _ _ CB CP (vnorm_inv _ U2) (fun _ _ => vnorm_inv _ Ub) Vr 1 eq_refl) as (d2 & E3 & L2).
    rewrite E1, bind_ret, E3, bind_ret. destruct (nlt_flag _ _ _ _ L1 L2) as (lt & Elt & Flt). rewrite Elt, bind_ret, (truth_flag _ _ Flt), bind_ret.
    assert (Plane : forall q, on_arc a1 a2 q -> vnorm q = 1 /\ vdot q (vcross a1 a2) = 0).
    { intros q Hq. apply arc_plane; auto. }
    assert (Arc1 : on_arc a1 a2 a1). { split; auto. exists 1, 0. split; [lra|]. split; [lra|]. unfold vadd, vscale. destruct a1; cbn; f_equal; ring. }
    assert (Arc2 : on_arc a1 a2 a2). { split; auto. exists 0, 1. split; [lra|]. split; [lra|]. unfold vadd, vscale. destruct a2; cbn; f_equal; ring. }
    assert (Ends : forall q, on_arc a1 a2 q -> vdot b q <= vdot b a1 \/ vdot b q <= vdot b a2).
    { intros q Hq. rewrite !Kp by (apply Plane; auto). destruct (ends_beat a1 a2 U1 U2 Z p q Op Na Hq); [left|right]; apply Rmult_le_compat_l; lra. }
    assert (Ang : forall u v, vnorm u = 1 -> vnorm v = 1 -> (vdot b v <= vdot b u <-> angle b u <= angle b v)).
    { intros u v Hu Hv. rewrite angle_le_iff by auto. rewrite (vdot_comm u b). reflexivity. }
    assert (Sym : forall u, vnorm u = 1 -> angle u b = angle b u) by (intros u Hu; unfold angle; rewrite vdot_comm, (Rmult_comm (vnorm u)); reflexivity).
    match goal with |- context [Rlt_dec ?x ?y] => change x with (angle a1 b * R0); change y with (angle a2 b * R0) end.
    rewrite (Sym a1), (Sym a2) by auto.
    destruct (Rlt_dec (angle b a1 * R0) (angle b a2 * R0)) as [Lt|Ge].
    + assert (D12 : angle b a1 <= angle b a2) by (apply Rlt_le, Rmult_lt_reg_r with R0; assumption).
      destruct (to_geo_placed _ _ _ _ _ _ _ HA El E2) as (h & Eh & Hh). exists h. split; auto. exists pA, upA. fold a1.
      split; auto. split; auto. split; auto. intros q Hq. destruct (Plane q Hq) as [Uq _]. destruct (Ends q Hq) as [L|L].
      * apply Ang; auto.
      * apply Rle_trans with (angle b a2); auto. apply Ang; auto.
    + assert (D12 : angle b a2 <= angle b a1). { destruct (Rle_dec (angle b a2) (angle b a1)); auto. exfalso. apply Ge. apply Rmult_lt_compat_r; lra. }
      destruct (to_geo_placed _ _ _ _ _ _ _ HB El E2) as (h & Eh & Hh). exists h. split; auto. exists pB, upB. fold a2.
      split; auto. split; auto. split; auto. intros q Hq. destruct (Plane q Hq) as [Uq _]. destruct (Ends q Hq) as [L|L].
      * apply Rle_trans with (angle b a1); auto. apply Ang; auto.
      * apply Ang; auto.
Qed.
Print Assumptions C55_closest_point_partial.

(** the direction opposite to the middle of a long segment passes the on-path test *)
Lemma long_geo a1 a2 : vcross a1 a2 <> v0 -> vnorm a1 = 1 -> vnorm a2 = 1 -> vdot a1 a2 <= -1/2 ->
  let b := direction (vneg (vadd a1 a2)) in
  vnorm b = 1 /\ vdot b (vcross a1 a2) = 0 /\ vdot a1 a2 <= vdot b a1 /\ vdot a1 a2 <= vdot b a2 /\ ~ on_arc a1 a2 b.
Proof.
  intros Z U1 U2 G b.
  assert (Wn : vneg (vadd a1 a2) <> v0).
  { intros E. pose proof (g_lt a1 a2 U1 U2 Z) as L. apply vnorm_unit in U1, U2.
    assert (W : vdot (vneg (vadd a1 a2)) (vneg (vadd a1 a2)) = 2 + 2 * vdot a1 a2).
    { rewrite vdot_neg_l, vdot_neg_r, vdot_add_l, !vdot_add_r, U1, U2, (vdot_comm a2 a1). ring. }
    rewrite E in W. replace (vdot v0 v0) with 0 in W by (unfold vdot, v0; cbn; ring). lra. }
  assert (Ub : vnorm b = 1) by (apply direction_unit; auto).
  pose proof (arr3_cols [a1]) as C1. pose proof (arr3_cols [a2]) as C2. pose proof (arr3_cols [b]) as C3.
  apply cols_1 in C1, C2, C3. cbn [length nth] in C1, C2, C3.
  assert (Sr : scalar (scal (Fin 1)) 1) by (split; reflexivity).
  destruct (C22_long_segment_refuted _ _ _ a1 a2 _ 1 (Fin 0) C1 C2 Z U1 U2 G C3 Sr ltac:(lra) (fin_Fin 0)) as [(D & ED & HD) Na].
  destruct (ogcp0 _ _ _ 1 a1 a2 (fun _ => b) _ 1 (fun _ => 1) (Fin 0) C1 C2 Z U1 U2 C3 (fun _ _ => Ub) (vals_scalar _ _ Sr) (or_introl eq_refl) ltac:(intros; lra) (fin_Fin 0))
    as (D' & ED' & _ & GD). rewrite ED in ED'. injection ED' as <-.
  apply (GD 0%nat ltac:(lia)) in HD as (X1 & X2 & X3). auto.
Qed.

(** finding: on segments of 120 degrees or more the point opposite to the middle of the segment is taken for a point of it *)
Theorem C55_long_segment_refuted : forall gi A B P pA pB pP upA upB upP a f M,
  ellipsoid a f -> ecc2 f <= 1 / 2 ->
  placed A 1 pA upA a f M -> placed B 1 pB upB a f M -> placed P 1 pP upP a f M ->
  unit_normals A 1 -> unit_normals B 1 -> unit_normals P 1 ->
  let a1 := upA 0%nat in let a2 := upB 0%nat in let b := upP 0%nat in
  vcross a1 a2 <> v0 -> vdot a1 a2 <= -1/2 -> b = direction (vneg (vadd a1 a2)) ->
  ends_with (closest_point_on_path gi (GeoPath A B) P) (fun h => exists p up,
    placed (PGeo h) 1 p up a f M /\ up 0%nat = b /\ ~ on_arc a1 a2 (up 0%nat)).
Proof.
  intros gi A B P pA pB pP upA upB upP a f M El E2 HA HB HP UA UB UP a1 a2 b Z G Eb.
  destruct (path_data A B pA pB upA upB a f M El E2 HA HB UA UB) as (w3 & va & vb & zA' & zB' & Ev & CA & CB & FrA & _ & _ & _ & _ & _ & _ & U1 & U2).
  destruct (long_geo a1 a2 Z U1 U2 G) as (Ub & Ob & G1 & G2 & Na). rewrite <- Eb in *.
  assert (NP : vcross b (vcross a1 a2) <> v0).
  { intros E. apply Z. apply vdot_0. apply vnorm_unit in Ub as Ub'.
    pose proof (cross_zero_parallel b (vcross a1 a2) (vnorm_inv _ Ub) E) as Q. rewrite Ob in Q. rewrite Q. unfold Rdiv. rewrite Rmult_0_l, vdot_scale_l. ring. }
  destruct (closest_nv gi A B P pA pB pP upA upB upP a f M El E2 HA HB HP UA UB UP Z NP)
    as (w1 & c & p & z & zA & zB & Ec & Hc & Ez & Sz & PA & PB & Op & Dp & Mp & Kp & w2 & on & Eon & Fon).
  fold b a1 a2 in Dp, Mp, Kp, Fon.
  destruct (placed_frame _ _ _ _ _ _ _ HA) as (HM & _). pose proof Op as [Up Ov].
  assert (p = b).
  { apply vdot_unit_1; auto. pose proof (Kp b Ob) as K. apply vnorm_unit in Ub as Ub'. rewrite Ub' in K. nra. }
  subst p.
  unfold closest_point_on_path. rewrite Ec, bind_inl, Eon, bind_inl, (truth_flag _ _ Fon), bind_ret.
  assert (Arc : rle (vnorm (vsub b a1)) (vnorm (vsub a2 a1)) && rle (vnorm (vsub b a2)) (vnorm (vsub a2 a1)) = true).
  { rewrite andb_true_iff, !rle_iff, (chord_arc a1 a2 b) by auto.
    replace (vnorm (vsub a2 a1)) with (vnorm (vsub a1 a2)) by (rewrite <- vnorm_neg; f_equal; unfold vneg, vsub; cbn [Spec.vx Spec.vy Spec.vz]; f_equal; ring).
    rewrite (chord_arc a2 a1 b), (vdot_comm a2 a1) by auto. auto. }
  rewrite Arc.
  destruct (nv_to_geo_spec _ _ _ _ _ _ _ Hc) as (w5 & h & la & lo & Eh & Hh & _ & L & _). exists h. split; [rewrite Eh; reflexivity|].
  destruct (L 0%nat ltac:(lia)) as [L1 L2].
  assert (N : normal_at M (la 0%nat) (lo 0%nat) = b).
  { rewrite <- (direction_of_unit b) at 1 by auto. apply lat_lon_normal; auto. apply vnorm_inv; auto. }
  exists (fun j => pos a f M (normal_at M (la j) (lo j)) z), (fun j => normal_at M (la j) (lo j)).
  split. { exact (placed_geo h 1 la lo (fun _ => z) a f M Hh El (fun _ _ => Sz)). }
  rewrite N. auto.
Qed.
Print Assumptions C55_long_segment_refuted.

(** a position on the Earth's surface given by a unit n-vector *)
Definition ex_at (v : vec) : point := PNv (MkNv (arr3 [v]) (scal (Fin 0)) ex_frame).
Lemma placed_ex v : vnorm v = 1 -> (exists p, placed (ex_at v) 1 p (fun _ => v) 6378137 (/ 298) Me) /\ unit_normals (ex_at v) 1.
Proof.
  intros U. assert (C : cols (arr3 [v]) 1 (fun _ => v)) by exact (cols_1 _ _ (arr3_cols [v])).
  destruct ex_ellipsoid as (Pa & F0 & F1). pose proof ex_frame_ok as HF.
  pose proof C48_example as (_ & _ & E2 & _). split.
  - exists (fun _ => pos 6378137 (/ 298) Me v 0), (fun _ => v), (fun _ => 0). split.
    { split; [lia|]. split; [exact C|]. split; [intros; apply vnorm_inv; auto|]. split; [|exact HF]. apply spread_scalar. split; reflexivity. }
    intros j _. split; [unfold shallow; unfold ecc2; lra|]. split; [rewrite direction_of_unit; auto|].
    apply at_depth_pos; auto. eapply frame_orth; eauto. apply vnorm_inv; auto.
  - intros j w Hj Hw. rewrite (vcol_unique _ _ _ _ Hw (proj2 C j Hj)). auto.
Qed.
Example C55_example : let u1 := V 1 0 0 in let u2 := V 0 1 0 in let u3 := V (-4/5) (3/5) 0 in let q := V (3/5) 0 (4/5) in
  vnorm u1 = 1 /\ vnorm u2 = 1 /\ vnorm u3 = 1 /\ vnorm q = 1 /\ vcross u1 u2 <> v0 /\ angle u1 u2 < 2 * PI / 3 /\
  vcross q (vcross u1 u2) <> v0 /\ vcross u1 u3 <> v0 /\ vdot u1 u3 <= -1/2 /\ vnorm (direction (vneg (vadd u1 u3))) = 1.
Proof.
  assert (N : forall x y z, x * x + y * y + z * z = 1 -> vnorm (V x y z) = 1).
  { intros x y z H. unfold vnorm, vdot. cbn. rewrite H. apply sqrt_1. }
  cbv zeta. split; [apply N; lra|]. split; [apply N; lra|]. split; [apply N; lra|]. split; [apply N; lra|].
  split. { unfold vcross, v0; cbn [Spec.vx Spec.vy Spec.vz]. intros E. injection E. lra. }
  split. { unfold angle. rewrite !N by lra. replace (vdot (V 1 0 0) (V 0 1 0) / (1 * 1)) with 0 by (unfold vdot; cbn [Spec.vx Spec.vy Spec.vz]; field). rewrite acos_0. pose proof PI_RGT_0. lra. }
  split. { unfold vcross, v0; cbn [Spec.vx Spec.vy Spec.vz]. intros E. injection E. lra. }
  split. { unfold vcross, v0; cbn [Spec.vx Spec.vy Spec.vz]. intros E. injection E. lra. }
  split. { unfold vdot; cbn [Spec.vx Spec.vy Spec.vz]. lra. }
  apply direction_unit. unfold vneg, vadd, v0; cbn [Spec.vx Spec.vy Spec.vz]. intros E. injection E. lra.
Qed.
