(** * Lemmas on points, conversions between their classes, and frame checks *)
From Coq Require Import String List Arith Lia Bool Reals Lra ZArith.
From Verif Require Import Num Py Nd MUtil MRotation MCore MObjects Spec SpecArr SpecObj LNum LTrig LVec LArr LLatLon LMat LRot
  LAngle PUtil LEq LEcef PEcef PRot PFrame PEq LObj PEq2.
Import ListNotations.
Local Open Scope R_scope.

(** ** at_depth determines the position *)
Lemma at_depth_pos a f M u z : orthogonal M -> 0 < a -> f < 1 -> u <> v0 -> at_depth a f M u z (pos a f M u z).
Proof.
  intros HM Pa Lf Hu. set (d := direction u).
  assert (Hd : d <> v0) by (apply direction_nz; auto).
  assert (Hw : mulv M d <> v0) by (apply orthogonal_nz; auto).
  exists (mulv (mT M) (psurf a f (mulv M d))). split; [apply psurf_on_ellipsoid; auto|]. split.
  - eapply same_direction_trans; [apply psurf_normal; auto|]. rewrite orthogonal_inv by auto.
    apply direction_same; auto.
  - unfold pos, pint. fold d. rewrite mulv_sub, mulv_scale, orthogonal_inv by auto. reflexivity.
Qed.

Lemma ellipsoid_point_unique a f M u s t : orthogonal M -> 0 < a -> f < 1 ->
  on_ellipsoid a f (north M) s -> same_direction (ellipsoid_gradient a f (north M) s) u ->
  on_ellipsoid a f (north M) t -> same_direction (ellipsoid_gradient a f (north M) t) u -> s = t.
Proof.
  intros HM Pa Lf Os (c & Pc & Gs) Ot (d & Pd & Gt).
  assert (Es : s = mulv (mT M) (mulv M s)) by (rewrite orthogonal_inv; auto).
  assert (Et : t = mulv (mT M) (mulv M t)) by (rewrite orthogonal_inv; auto).
  rewrite Es in Gs. rewrite gradient_int in Gs by auto. rewrite Et in Gt. rewrite gradient_int in Gt by auto.
  apply (f_equal (mulv M)) in Gs. apply (f_equal (mulv M)) in Gt.
  rewrite orthogonal_inv' in Gs by auto. rewrite orthogonal_inv' in Gt by auto.
  rewrite mulv_scale in Gs, Gt. unfold on_ellipsoid in Os, Ot. rewrite equatorial_int, polar_int in Os, Ot by auto.
  rewrite Es, Et. f_equal. set (p := mulv M s) in *. set (q := mulv M t) in *. set (w := mulv M u) in *.
  clearbody p q w. clear s t u Es Et. destruct p as [p0 p1 p2], q as [q0 q1 q2], w as [w0 w1 w2].
  unfold rho2, vscale in *; cbn [vx vy vz] in *. injection Gs as G0 G1 G2. injection Gt as K0 K1 K2.
  set (b := a * (1 - f)) in *. assert (Pb : 0 < b) by (unfold b; nra). clearbody b.
  assert (X0 : p0 = b * b * (c * w0)). { rewrite <- G0. field. lra. }
  assert (X1 : p1 = a * a * (c * w1)). { rewrite <- G1. field. lra. }
  assert (X2 : p2 = a * a * (c * w2)). { rewrite <- G2. field. lra. }
  assert (Y0 : q0 = b * b * (d * w0)). { rewrite <- K0. field. lra. }
  assert (Y1 : q1 = a * a * (d * w1)). { rewrite <- K1. field. lra. }
  assert (Y2 : q2 = a * a * (d * w2)). { rewrite <- K2. field. lra. }
  clear G0 G1 G2 K0 K1 K2. subst.
  assert (Cd : c = d).
  { set (k := b * b * (w0 * w0) + a * a * (w1 * w1 + w2 * w2)).
    assert (Kc : c * c * k = 1). { rewrite <- Os. unfold k. field. lra. }
    assert (Kd : d * d * k = 1). { rewrite <- Ot. unfold k. field. lra. }
    clearbody k. assert (k <> 0) by (intros ->; lra).
    assert (c * c = d * d). { apply Rmult_eq_reg_r with k; auto. lra. }
    nra. }
  rewrite Cd. reflexivity.
Qed.
Lemma at_depth_unique a f M u z p q : orthogonal M -> 0 < a -> f < 1 ->
  at_depth a f M u z p -> at_depth a f M u z q -> p = q.
Proof.
  intros HM Pa Lf (s & A & B & ->) (t & C & D & ->).
  rewrite (ellipsoid_point_unique a f M u s t); auto.
Qed.
Lemma at_depth_eq a f M u z p : orthogonal M -> 0 < a -> f < 1 -> u <> v0 ->
  at_depth a f M u z p -> p = pos a f M u z.
Proof. intros. eapply at_depth_unique; eauto. apply at_depth_pos; auto. Qed.
Lemma pos_direction a f M u z : u <> v0 -> pos a f M (direction u) z = pos a f M u z.
Proof. intros H. unfold pos. rewrite direction_of_unit; auto. apply direction_unit; auto. Qed.

(** ** frames *)
Lemma frame_orth fr a f M : is_frame fr a f M -> orthogonal M.
Proof. intros (_ & _ & _ & H & _). exact H. Qed.
Lemma frame_rot fr a f M : is_frame fr a f M -> rotation M.
Proof. intros (_ & _ & _ & H). exact H. Qed.
Lemma frame_axes fr a f M : is_frame fr a f M -> axes (Some (fe_R fr)) M.
Proof. intros (_ & _ & H & _). exact H. Qed.

Lemma frames_eq_same f g a b M : is_frame f a b M -> is_frame g a b M -> frameE_eq f (OFrameE g) = ret true.
Proof.
  intros (A & B & C & _) (A' & B' & C' & _).
  unfold frameE_eq, frameE_is_equal, attr_a, attr_f, attr_R_Ee, and_. rewrite !bind_ret.
  assert (X : forall x y r, x ≈ r -> y ≈ r -> aclose (scal x) (scal y) = ret true).
  { intros x y r Hx Hy. apply aclose_same; auto.
    - intros ix V. cbn. eapply fin_finite; eauto.
    - intros ix V t Ht. cbn in *. rewrite (fin_unique _ _ _ Ht Hx). exact Hy. }
  rewrite (X _ _ _ A A'), (X _ _ _ B B'), !bind_ret.
  rewrite (mats_aclose _ _ 1 (fun _ => M)); [reflexivity| |]; apply is_mat_mats; auto.
Qed.
Lemma check_frames_same f g a b M : is_frame f a b M -> is_frame g a b M -> check_frames f g = ret tt.
Proof. intros H K. unfold check_frames. rewrite (frames_eq_same _ _ _ _ _ H K), bind_ret. reflexivity. Qed.

(** ** conversions *)
Lemma vals_spread_self a n z : vals a n z -> spread a n z. Proof. apply spread_vals. Qed.

Lemma normal_at_unit M la lo : orthogonal M -> vnorm (normal_at M la lo) = 1.
Proof.
  intros H. unfold normal_at. rewrite orthogonal_norm by (apply orthogonal_T; auto).
  apply vnorm_unit. apply (nvec_int_unit la lo).
Qed.
Lemma normal_at_nz M la lo : orthogonal M -> normal_at M la lo <> v0.
Proof. intros H. apply vnorm_inv, normal_at_unit; auto. Qed.

Lemma geo_to_nvector_spec g n la lo z a f M : is_geo g n la lo z a f M ->
  exists v, geo_to_nvector g = ret v /\ is_nv v n (fun j => normal_at M (la j) (lo j)) z a f M /\
    n_z v = g_z g /\ n_frame v = g_frame g.
Proof.
  intros (Hn & _ & _ & Vla & Vlo & Vz & HF). unfold geo_to_nvector.
  destruct (lat_lon2n_E_spec _ _ _ M n n la lo (frame_axes _ _ _ _ HF) Vla Vlo (bdim_refl n)) as (A & E & HA).
  rewrite E, bind_ret. unfold Nvector, default_frame. rewrite bind_ret. eexists. split; [reflexivity|]. cbn [n_z n_frame].
  split; [|auto]. split; auto. cbn [n_normal n_z n_frame]. split; [|split; [|split; auto]].
  - eapply cols_ext; [|exact HA]. intros j Hj. cbn beta. rewrite (cl_id n j Hj). reflexivity.
  - intros j Hj. apply normal_at_nz. eapply frame_orth; eauto.
  - apply spread_vals; auto.
Qed.

Lemma shape1_cols A n u : cols A n u -> shape1 A = ret n.
Proof. intros [S _]. unfold shape1. rewrite S. reflexivity. Qed.

Lemma nv_scalar_spec v n u : cols (n_normal v) n u ->
  nv_scalar v = ret ((ndim (n_z v) =? 0)%nat && (n =? 1)%nat).
Proof.
  intros H. unfold nv_scalar. rewrite (shape1_cols _ _ _ H). destruct (ndim (n_z v) =? 0)%nat; [rewrite bind_ret|]; reflexivity.
Qed.

Lemma nv_to_ecef_spec v n u z a f M : is_nv v n u z a f M -> f < 1 ->
  exists e, nv_to_ecef v = (length_warning (vnorm (u 0%nat)), inl e) /\
    is_ecef e n (fun j => pos a f M (u j) (z j)) a f M /\
    e_frame e = n_frame v /\ e_scalar e = ((ndim (n_z v) =? 0)%nat && (n =? 1)%nat).
Proof.
  intros (Hn & HN & Nz & (m & r & Vz & D & Hz) & HF) Lf. unfold nv_to_ecef.
  pose proof HF as (Ha & Hf & HR & HM).
  destruct (n2p_spec _ _ _ _ _ _ _ _ _ _ _ (Some (fe_R (n_frame v))) M HR (proj1 HM) HN Hn Nz Vz D Ha Hf Lf) as (P & E & HP).
  rewrite E, bind_inl, (nv_scalar_spec _ _ _ HN). cbn [fst snd]. rewrite bind_ret. unfold ECEFvector, default_frame. rewrite !bind_ret.
  eexists. split; [cbn; rewrite app_nil_r; reflexivity|]. cbn [e_frame e_scalar]. split; auto.
  split; auto. cbn [e_p e_frame e_scalar]. split; [|split; auto].
  - eapply cols_ext; [|exact HP]. intros j Hj. cbn beta. rewrite (cl_id n j Hj), <- Hz by auto. reflexivity.
  - intros Q. apply andb_prop in Q as [_ Q]. apply Nat.eqb_eq in Q. exact Q.
Qed.

Lemma geo_to_ecef_spec g n la lo z a f M : is_geo g n la lo z a f M -> f < 1 ->
  exists e, geo_to_ecef g = ret e /\
    is_ecef e n (fun j => pos a f M (normal_at M (la j) (lo j)) (z j)) a f M /\
    e_frame e = g_frame g /\ e_scalar e = ((ndim (g_z g) =? 0)%nat && (n =? 1)%nat).
Proof.
  intros H Lf. unfold geo_to_ecef. destruct (geo_to_nvector_spec _ _ _ _ _ _ _ _ H) as (v & E & Hv & Ez & Ef).
  rewrite E, bind_ret. destruct (nv_to_ecef_spec _ _ _ _ _ _ _ Hv Lf) as (e & E' & He & Fe & Se).
  rewrite normal_at_unit, length_warning_unit in E' by (destruct H as (_ & _ & _ & _ & _ & _ & HF); eapply frame_orth; eauto).
  exists e. split; [exact E'|]. rewrite Ef in Fe. rewrite Ez in Se. auto.
Qed.

(** a point of any class becomes its ECEF position *)
Lemma to_ecef_spec pt n p a f M : is_point pt n p a f M -> ellipsoid a f ->
  exists ws e, to_ecef_vector pt = (ws, inl e) /\ is_ecef e n p a f M.
Proof.
  intros H (Pa & F0 & F1). destruct pt as [g|v|e|q]; cbn [is_point to_ecef_vector] in *.
  - destruct H as (la & lo & z & H & D). destruct (geo_to_ecef_spec _ _ _ _ _ _ _ _ H F1) as (e & E & (A & B & C & S) & _).
    exists [], e. split; [exact E|]. split; auto. split; [|split; auto].
    eapply cols_ext; [|exact B]. intros j Hj. cbn beta. symmetry. apply at_depth_eq; auto.
    + eapply frame_orth; eauto. + apply normal_at_nz. eapply frame_orth; eauto.
  - destruct H as (u & z & H & D). destruct (nv_to_ecef_spec _ _ _ _ _ _ _ H F1) as (e & E & (A & B & C & S) & _).
    exists (length_warning (vnorm (u 0%nat))), e. split; [exact E|]. split; auto. split; [|split; auto].
    eapply cols_ext; [|exact B]. intros j Hj. cbn beta. symmetry. apply at_depth_eq; auto.
    + eapply frame_orth; eauto. + apply H; auto.
  - exists [], e. split; [reflexivity|exact H].
  - destruct H.
Qed.

(** ** ECEF arithmetic *)
Lemma bdim_gt0 n m k : bdim n m = Some k -> (0 < n)%nat -> (0 < m)%nat -> (0 < k)%nat.
Proof.
  unfold bdim. destruct (n =? m)%nat; [intros [= <-]; auto|]. destruct (n =? 1)%nat; [intros [= <-]; auto|].
  destruct (m =? 1)%nat; [intros [= <-]; auto|discriminate].
Qed.
Lemma ecef_sub_spec s o n m k p q a f M : is_ecef s n p a f M -> is_ecef o m q a f M -> bdim n m = Some k ->
  exists e, ecef_sub s o = ret e /\ is_ecef e k (fun j => vsub (p (cl n j)) (q (cl m j))) a f M.
Proof.
  intros (Hn & Hp & Fs & Ss) (Hm & Hq & Fo & So) D. unfold ecef_sub. rewrite (check_frames_same _ _ _ _ _ Fs Fo), bind_ret.
  destruct (sub_cols _ _ _ _ _ _ _ Hp Hq D) as (C & E & HC). rewrite E, bind_ret. unfold ECEFvector, default_frame. rewrite !bind_ret.
  eexists. split; [reflexivity|]. split; [|split; [exact HC|split; [exact Fs|]]].
  - eapply bdim_gt0; eauto.
  - cbn. intros Q. apply andb_prop in Q as [Q1 Q2]. rewrite (Ss Q1), (So Q2) in D. injection D as <-. reflexivity.
Qed.
Lemma ecef_add_spec s o n m k p q a f M : is_ecef s n p a f M -> is_ecef o m q a f M -> bdim n m = Some k ->
  exists e, ecef_add s o = ret e /\ is_ecef e k (fun j => vadd (p (cl n j)) (q (cl m j))) a f M.
Proof.
  intros (Hn & Hp & Fs & Ss) (Hm & Hq & Fo & So) D. unfold ecef_add. rewrite (check_frames_same _ _ _ _ _ Fs Fo), bind_ret.
  destruct (add_cols _ _ _ _ _ _ _ Hp Hq D) as (C & E & HC). rewrite E, bind_ret. unfold ECEFvector, default_frame. rewrite !bind_ret.
  eexists. split; [reflexivity|]. split; [|split; [exact HC|split; [exact Fs|]]].
  - eapply bdim_gt0; eauto.
  - cbn. intros Q. apply andb_prop in Q as [Q1 Q2]. rewrite (Ss Q1), (So Q2) in D. injection D as <-. reflexivity.
Qed.
Lemma ecef_neg_spec s n p a f M : is_ecef s n p a f M ->
  exists e, ecef_neg s = ret e /\ is_ecef e n (fun j => vneg (p j)) a f M.
Proof.
  intros (Hn & Hp & Fs & Ss). unfold ecef_neg, ECEFvector, default_frame. rewrite !bind_ret.
  eexists. split; [reflexivity|]. split; auto. split; [apply cols_neg; auto|]. auto.
Qed.

Lemma delta_E_spec A B n m k p q a f M : ellipsoid a f ->
  is_point A n p a f M -> is_point B m q a f M -> bdim m n = Some k ->
  exists ws e, delta_E A B = (ws, inl e) /\ is_ecef e k (fun j => vsub (q (cl m j)) (p (cl n j))) a f M.
Proof.
  intros El HA HB D. unfold delta_E. destruct (to_ecef_spec _ _ _ _ _ _ HA El) as (wa & ea & EA & Ha).
  destruct (to_ecef_spec _ _ _ _ _ _ HB El) as (wb & eb & EB & Hb).
  destruct (ecef_sub_spec _ _ _ _ _ _ _ _ _ _ Hb Ha D) as (e & E & He).
  rewrite EA, bind_inl, EB, bind_inl, E. cbn [fst snd]. do 2 eexists. split; [reflexivity|exact He].
Qed.

(** ** change of frame *)
Lemma change_frame_spec s l n m k p F ws R a f M : is_ecef s n p a f M -> is_frame (n_frame (l_nvector l)) a f M ->
  R_EN l = (ws, inl R) -> mats R m F -> bdim m n = Some k -> (0 < m)%nat ->
  exists v, change_frame s l = (ws, inl v) /\ cols (p_p v) k (fun j => mulv (mT (F (cl m j))) (p (cl n j))) /\
    p_frame v = l /\ p_scalar v = e_scalar s.
Proof.
  intros (Hn & Hp & Fs & Ss) Fl ER HR D Hm. unfold change_frame. rewrite (check_frames_same _ _ _ _ _ Fs Fl), bind_ret, ER, bind_inl.
  destruct (gmats_swap _ _ _ (mats_gmats _ _ _ HR)) as (Rt & ERt & HRt). rewrite ERt, bind_ret.
  destruct (mdot_cols _ _ _ _ _ _ _ HRt Hp D) as (X & Y & C & EX & EY & EC & _ & HC).
  rewrite EX, bind_ret, EY, bind_ret, EC, bind_ret. unfold Pvector. rewrite bind_ret. cbn [fst snd]. rewrite app_nil_r.
  eexists. split; [reflexivity|]. cbn. auto.
Qed.
Lemma pv_to_ecef_spec v n m k p F ws R a f M : cols (p_p v) n p -> is_frame (n_frame (l_nvector (p_frame v))) a f M ->
  R_EN (p_frame v) = (ws, inl R) -> mats R m F -> bdim m n = Some k -> (0 < k)%nat -> (p_scalar v = true -> k = 1%nat) ->
  exists e, pv_to_ecef v = (ws, inl e) /\ is_ecef e k (fun j => mulv (F (cl m j)) (p (cl n j))) a f M /\ e_scalar e = p_scalar v.
Proof.
  intros Hp Fl ER HR D Hk Sk. unfold pv_to_ecef. rewrite ER, bind_inl.
  destruct (mdot_cols _ _ _ _ _ _ _ (mats_gmats _ _ _ HR) Hp D) as (X & Y & C & EX & EY & EC & _ & HC).
  rewrite EX, bind_ret, EY, bind_ret, EC, bind_ret. unfold ECEFvector, default_frame. rewrite !bind_ret. cbn [fst snd]. rewrite app_nil_r.
  eexists. split; [reflexivity|]. split; auto. split; auto.
Qed.

(** ** to_nvector *)
Lemma clear_outside a f M p : orthogonal M -> clear_of_core a f M p -> outside a f (mulv M p).
Proof.
  intros HM G. unfold clear_of_core in G. cbv zeta in G. rewrite equatorial_int, polar_int in G by auto.
  assert (X2 : forall t, t ^ 2 = t * t) by (intros; ring). rewrite !X2 in G. exact G.
Qed.
Lemma ecef_to_nvector_spec e n p a f M : is_ecef e n p a f M -> ellipsoid a f ->
  (forall j, (j < n)%nat -> clear_of_core a f M (p j)) ->
  exists v u z, ecef_to_nvector e = ret v /\ is_nv v n u z a f M /\ n_frame v = e_frame e /\
    (forall j, (j < n)%nat -> vnorm (u j) = 1 /\ p j = pos a f M (u j) (z j) /\ geod a f (mulv M (p j)) (mulv M (u j)) (z j)) /\
    ndim (n_z v) = (if e_scalar e then 0 else 1)%nat.
Proof.
  intros (Hn & Hp & HF & Hs) (Pa & F0 & F1) G. pose proof HF as (Ha & Hf & HR & HM). unfold ecef_to_nvector.
  destruct (p2n_spec (e_p e) n p _ _ a f (Some (fe_R (e_frame e))) M HR (proj1 HM) Hp Ha Hf Pa (conj F0 F1)) as (N & dep & w & z & E & HN & Hd & Gd).
  { intros j Hj. apply clear_outside; [apply HM|auto]. }
  rewrite E, bind_ret.
  assert (U : forall j, (j < n)%nat -> vnorm (mulv (mT M) (w j)) = 1).
  { intros j Hj. rewrite orthogonal_norm by (apply orthogonal_T, HM). apply vnorm_unit. eapply geod_unit; eauto. }
  assert (C : forall j, (j < n)%nat -> vnorm (mulv (mT M) (w j)) = 1 /\ p j = pos a f M (mulv (mT M) (w j)) (z j)
      /\ geod a f (mulv M (p j)) (mulv M (mulv (mT M) (w j))) (z j)).
  { intros j Hj. split; auto. split.
    - unfold pos. rewrite (direction_of_unit _ (U j Hj)), orthogonal_inv' by apply HM.
      rewrite (geod_sound a f (mulv M (p j))); auto. symmetry. apply orthogonal_inv, HM.
    - rewrite orthogonal_inv' by apply HM. auto. }
  assert (Nz : forall j, (j < n)%nat -> mulv (mT M) (w j) <> v0) by (intros j Hj; apply vnorm_inv; auto).
  destruct (e_scalar e).
  - specialize (Hs eq_refl). subst n. destruct Hd as [Sd Gz]. unfold first. rewrite Sd. cbn [Nat.ltb Nat.leb]. rewrite bind_ret.
    unfold Nvector, default_frame. rewrite bind_ret. do 3 eexists. split; [reflexivity|]. split; [|split; [reflexivity|split; [exact C|reflexivity]]].
    split; auto. split; [exact HN|]. split; [exact Nz|]. split; [|exact HF].
    exists 1%nat, z. split; [left; split; auto; split; [reflexivity|apply Gz; lia]|]. split; [reflexivity|].
    intros j Hj. assert (j = 0%nat) by lia. subst. reflexivity.
  - unfold Nvector, default_frame. rewrite bind_ret. do 3 eexists. split; [reflexivity|].
    split; [|split; [reflexivity|split; [exact C|cbn; unfold ndim; rewrite (proj1 Hd); reflexivity]]].
    split; auto. split; [exact HN|]. split; [exact Nz|]. split; [|exact HF]. apply spread_vals. right. exact Hd.
Qed.
Lemma to_nvector_spec pt n p a f M : locatable pt n p a f M -> ellipsoid a f ->
  exists ws v u z, to_nvector pt = (ws, inl v) /\ is_nv v n u z a f M /\
    forall j, (j < n)%nat -> p j = pos a f M (u j) (z j).
Proof.
  intros (H & G) El. pose proof El as (Pa & F0 & F1). destruct pt as [g|v|e|q]; cbn [is_point to_nvector] in *.
  - destruct H as (la & lo & z & H & D). destruct (geo_to_nvector_spec _ _ _ _ _ _ _ _ H) as (v & E & Hv & _ & Ef).
    do 4 eexists. split; [exact E|]. split; [exact Hv|]. intros j Hj. cbn beta.
    assert (orthogonal M) by (destruct H as (_ & _ & _ & _ & _ & _ & HF); eapply frame_orth; eauto).
    apply at_depth_eq; auto. apply normal_at_nz; auto.
  - destruct H as (u & z & H & D). do 4 eexists. split; [reflexivity|]. split; [exact H|]. intros j Hj.
    apply at_depth_eq; auto. + destruct H as (_ & _ & _ & _ & HF). eapply frame_orth; eauto. + apply H; auto.
  - destruct (ecef_to_nvector_spec _ _ _ _ _ _ H El G) as (v & u & z & E & Hv & _ & C & _).
    do 4 eexists. split; [exact E|]. split; [exact Hv|]. intros j Hj. apply C; auto.
  - destruct H.
Qed.
Lemma pos_pole a f M u z : orthogonal M -> u <> v0 -> vcross (north M) u = v0 ->
  equatorial (north M) (pos a f M u z) = v0.
Proof.
  intros HM Hu H. apply vdot_0. rewrite equatorial_int by auto. unfold pos. rewrite orthogonal_inv' by auto.
  assert (P : u = vscale (vdot (north M) u) (north M)) by (apply pole_parallel; auto; apply north_unit; auto).
  assert (W : exists c, mulv M (direction u) = V c 0 0).
  { exists (/ vnorm u * vdot (north M) u). unfold direction. rewrite P at 2. rewrite vscale_vscale, mulv_scale.
    rewrite <- (rows_e0 M), orthogonal_inv' by auto. unfold vscale; cbn. f_equal; ring. }
  destruct W as (c & ->). unfold pint, psurf, rho2, vsub, vscale; cbn [vx vy vz]. unfold Rdiv. ring.
Qed.

Lemma bdim_absorb_r m n k : bdim m n = Some k -> bdim n k = Some k.
Proof.
  intros H. destruct (bdim_inv _ _ _ H) as [_ [->| ->]]; [apply bdim_refl|apply bdim_1_l].
Qed.
Lemma nv_z0 v n u z a f M : is_nv v n u z a f M -> is_nv (MkNv (n_normal v) z0 (n_frame v)) n u (fun _ => 0) a f M.
Proof.
  intros (A & B & C & D & E). split; auto. split; auto. split; auto. split; auto. apply spread_scalar. split; reflexivity.
Qed.
Lemma check_frames_spec f g a b M a' b' M' : is_frame f a b M -> is_frame g a' b' M' ->
  (frames_close a b M a' b' M' -> check_frames f g = ret tt) /\
  (~ frames_close a b M a' b' M' -> check_frames f g = raise ValueError).
Proof.
  intros H K. destruct (frameE_eq_spec _ _ _ _ _ _ _ _ H K) as (r & E & Hr). unfold check_frames. rewrite E, bind_ret.
  split; intros X.
  - apply Hr in X. rewrite X. reflexivity.
  - destruct r; [|reflexivity]. destruct X. apply Hr. reflexivity.
Qed.
Lemma close_sym r t x y : close r t x y -> close r t y x.
Proof. unfold close. intros H. rewrite Rabs_minus_sym, (Rmax_comm (Rabs y)). exact H. Qed.
Lemma frames_close_sym a f M a' f' M' : frames_close a f M a' f' M' -> frames_close a' f' M' a f M.
Proof. intros (A & B & C). split; [apply close_sym; auto|]. split; [apply close_sym; auto|]. intros. apply close_sym; auto. Qed.
