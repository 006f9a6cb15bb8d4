(** * Direct problem, azimuth, interpolation, mean *)
From Coq Require Import List Arith Lia Bool Reals Lra Psatz.
From Verif Require Import Num Py Nd MUtil MRotation MCore Spec SpecArr LNum LTrig LVec LArr LLatLon LMat LRot LEcef PEcef PFrame.
Import ListNotations.
Local Open Scope R_scope.

Definition dirB (M : mat) (u : vec) (d az : R) : vec :=
  let K := dir1 (vcross (north M) u) in
  vadd (vscale (cos d) u) (vscale (sin d) (vadd (vscale (cos az) (vcross u K)) (vscale (sin az) K))).

Lemma cl_cl n m k j : bdim n m = Some k -> (j < k)%nat -> cl n (cl k j) = cl n j.
Proof. intros D Hj. assert (E : cl k j = j) by (apply cl_id; auto). rewrite E. reflexivity. Qed.

Lemma widths3 n m1 m2 k : bdim3 n m1 m2 = Some k ->
  exists k1 k2 k3, bdim n m2 = Some k1 /\ bdim n m1 = Some k2 /\ bdim k1 m1 = Some k3 /\ bdim k2 k3 = Some k /\
    (k1 = k \/ k1 = 1%nat) /\ (k2 = k \/ k2 = 1%nat) /\ (k3 = k \/ k3 = 1%nat).
Proof.
  unfold bdim3. destruct (bdim n m1) as [k2|] eqn:E2; [|discriminate]. intros E.
  apply bdim_inv in E2 as X. destruct X as [Hn Hm1]. apply bdim_inv in E as Y. destruct Y as [Hk2 Hm2].
  assert (C : (n = k \/ n = 1%nat) /\ (m1 = k \/ m1 = 1%nat) /\ (m2 = k \/ m2 = 1%nat)).
  { destruct Hn, Hm1, Hk2, Hm2; subst; auto. }
  assert (D1 : exists k1, bdim n m2 = Some k1 /\ (k1 = k \/ k1 = 1%nat)).
  { destruct C as ([->| ->] & _ & [->| ->]); eexists; (split; [first [apply bdim_refl|apply bdim_1_l|apply bdim_1_r]|]); auto. }
  destruct D1 as (k1 & D1 & C1).
  assert (D3 : exists k3, bdim k1 m1 = Some k3 /\ (k3 = k \/ k3 = 1%nat)).
  { destruct C as (_ & [->| ->] & _), C1 as [->| ->]; eexists; (split; [first [apply bdim_refl|apply bdim_1_l|apply bdim_1_r]|]); auto. }
  destruct D3 as (k3 & D3 & C3).
  exists k1, k2, k3. repeat (split; auto).
  destruct Hk2 as [->| ->], C3 as [->| ->]; try apply bdim_refl; try apply bdim_1_l; try apply bdim_1_r.
  (* k2 = 1, k3 = 1: then k = 1 *)
  apply bdim_inv in D3 as [[->| ->] Y]; apply bdim_inv in D1 as [X Z].
  all: destruct (Nat.eq_dec k 1) as [->|Nk]; [apply bdim_refl|exfalso].
  all: unfold bdim in E; destruct (1 =? m2) eqn:Q; [congruence|]; cbn in E; injection E as ->.
  all: destruct Z as [Z|Z]; subst; cbn in Q; congruence.
Qed.

Lemma direct_spec A n u d m1 dl az m2 al R_Ee M k :
  axes R_Ee M -> orthogonal M -> cols A n u -> vals d m1 dl -> vals az m2 al -> bdim3 n m1 m2 = Some k ->
  exists B, n_EA_E_distance_and_azimuth2n_EB_E A d az R_Ee = ret B /\
    cols B k (fun j => dirB M (u (cl n j)) (dl (cl m1 j)) (al (cl m2 j))).
Proof.
  intros HR HM HA Hd Haz D3. destruct (widths3 _ _ _ _ D3) as (k1 & k2 & k3 & D1 & D2 & D4 & D & C1 & C2 & C3).
  unfold n_EA_E_distance_and_azimuth2n_EB_E.
  step (default_R_axes _ _ HR) Rm HRm.
  step (dot_mat_cols _ _ _ _ _ (is_mat_transpose _ _ HRm) (col3_cols 1 0 0)) pole Hpole.
  step (cross_cols _ _ _ _ _ _ _ Hpole HA (bdim_1_l n)) ke Hke.
  step (unit1_cols _ _ _ Hke) K HK.
  step (cross_cols _ _ _ _ _ _ _ HA HK (bdim_refl n)) Nn HN.
  step (mul_cols_vals _ _ _ _ _ _ _ HN (vals_map1 ncos cos _ _ _ fin_cos Haz) D1) d1 Hd1.
  step (mul_cols_vals _ _ _ _ _ _ _ HK (vals_map1 nsin sin _ _ _ fin_sin Haz) D1) d2 Hd2.
  step (add_cols _ _ _ _ _ _ _ Hd1 Hd2 (bdim_refl k1)) dE HdE.
  step (mul_cols_vals _ _ _ _ _ _ _ HA (vals_map1 ncos cos _ _ _ fin_cos Hd) D2) b1 Hb1.
  step (mul_cols_vals _ _ _ _ _ _ _ HdE (vals_map1 nsin sin _ _ _ fin_sin Hd) D4) b2 Hb2.
  destruct (add_cols _ _ _ _ _ _ _ Hb1 Hb2 D) as (B & E & HB). exists B; split; [exact E|].
  eapply cols_ext; [|exact HB]. intros j Hj. cbn beta.
  assert (cc1 : forall q w, (q = k \/ q = 1%nat) -> (w = q \/ w = 1%nat) -> cl w (cl q j) = cl w j).
  { intros q w [->| ->] [->| ->]; try reflexivity.
    - assert (Q : cl k j = j) by (apply cl_id; auto). rewrite !Q; auto. }
  apply bdim_inv in D1 as [Dn1 Dm2]. apply bdim_inv in D2 as [Dn2 Dm1]. apply bdim_inv in D4 as [Dk1 Dm1'].
  assert (Wn : n = k \/ n = 1%nat) by (clear - Dn1 C1; destruct Dn1 as [->| ->]; auto).
  assert (Wm1 : m1 = k \/ m1 = 1%nat) by (clear - Dm1 C2; destruct Dm1 as [->| ->]; auto).
  assert (Wm2 : m2 = k \/ m2 = 1%nat) by (clear - Dm2 C1; destruct Dm2 as [->| ->]; auto).
  assert (L : forall q, (q = k \/ q = 1%nat) -> (cl q j < q)%nat).
  { clear - Hj. intros q [->| ->]; [rewrite (cl_id k j Hj); auto|cbn; lia]. }
  rewrite (cc1 k2 n C2 Dn2), (cc1 k2 m1 C2 Dm1), (cc1 k3 m1 C3 Dm1'), (cc1 k3 k1 C3 Dk1).
  rewrite (cl_id k1 (cl k1 j)) by (apply L; assumption).
  rewrite (cc1 k1 n C1 Dn1), (cc1 k1 m2 C1 Dm2).
  rewrite !(cl_id n (cl n j) (L n Wn)).
  replace (mulv (mT M) (V 1 0 0)) with (north M) by (symmetry; apply rows_e0).
  unfold dirB. reflexivity.
Qed.

(** ** azimuth *)
(** East and North components of the delta vector at A *)
Definition az_of (M : mat) (u p : vec) (t : R) : Prop :=
  arg_of (vdot (c1 (NED M u)) p) (vdot (c0 (NED M u)) p) t.

Lemma azimuth_spec A B n m k u v xa xf a f R_Ee M :
  axes R_Ee M -> rotation M -> cols A n u -> cols B m v -> (0 < n)%nat -> (0 < m)%nat ->
  (forall j, (j < n)%nat -> u j <> v0) -> (forall j, (j < m)%nat -> v j <> v0) ->
  bdim m n = Some k -> xa ≈ a -> xf ≈ f -> f < 1 ->
  exists Z, n_EA_E_and_n_EB_E2azimuth A B xa xf R_Ee =
      (length_warning (vnorm (u 0%nat)) ++ length_warning (vnorm (v 0%nat)) ++ length_warning (vnorm (u 0%nat)), inl Z) /\
    list1P Z k (fun j => az_of M (direction (u (cl n j))) (vsub (pos a f M (v (cl m j)) 0) (pos a f M (u (cl n j)) 0))).
Proof.
  intros HR HM HA HB Hn Hm Nu Nv D Ha Hf Lf. unfold n_EA_E_and_n_EB_E2azimuth.
  step (default_R_axes _ _ HR) Rm HRm.
  destruct (delta_spec A B n m k u v (scal (Fin 0)) (scal (Fin 0)) 1 1 (fun _ => 0) (fun _ => 0) xa xf a f (Some Rm) M n m) as (P & E & HP);
    auto using bdim_1_r, vals_scalar, scal_scalar. { exact (proj1 HM). }
  rewrite E, bind_inl; clear E.
  destruct (n_E2R_EN_spec A n u (Some Rm) M HRm HM HA Hn Nu) as (R & E & HF). rewrite E, bind_inl; clear E.
  destruct (gmats_swap _ _ _ (mats_gmats _ _ _ HF)) as (Rt & E & HRt). rewrite E, bind_ret; clear E.
  assert (Dk : bdim n k = Some k).
  { apply bdim_inv in D. destruct D as [_ [->| ->]]; [apply bdim_refl|apply bdim_1_l]. }
  destruct (mdot_cols _ _ _ _ _ _ _ HRt HP Dk) as (X & Y & C & E1 & E2 & E3 & _ & HC).
  rewrite E1, bind_ret, E2, bind_ret, E3, bind_ret; clear E1 E2 E3.
  destruct (row_cols _ _ _ HC) as ((q0 & E0 & H0) & (q1 & E1 & H1) & _).
  rewrite E1, bind_ret, E0, bind_ret; clear E1 E0.
  destruct (map2_list1P narctan2 q1 q0 k _ _
    (fun j => az_of M (direction (u (cl n j))) (vsub (pos a f M (v (cl m j)) 0) (pos a f M (u (cl n j)) 0))) H1 H0) as (Z & E & HZ).
  { intros j x y Hj Hx Hy.
    assert (Lm : (cl m j < m)%nat) by (eapply cl_lt_l; eauto). assert (Ln : (cl n j < n)%nat) by (eapply cl_lt_r; eauto).
    rewrite (cl_id k j Hj) in Hx, Hy. rewrite (cl_id m _ Lm), (cl_id n _ Ln) in Hx, Hy.
    apply narctan2_arg; auto. }
  rewrite E. exists Z. split; auto. cbn [fst snd ret]. rewrite app_nil_r, <- app_assoc. reflexivity.
Qed.

(** the geometry of the direct problem, for East direction K orthogonal to u *)
Section Geo.
Variables u K : vec. Hypothesis Hu : vdot u u = 1. Hypothesis HK : vdot K K = 1. Hypothesis Ho : vdot u K = 0.
Let N := vcross u K.
Lemma Nn : vdot N N = 1. Proof. unfold N. rewrite lagrange, Hu, HK, Ho. ring. Qed.
Lemma Nu0 : vdot u N = 0. Proof. apply vdot_cross_l. Qed.
Lemma NK0 : vdot K N = 0. Proof. apply vdot_cross_r. Qed.
Definition dd (al : R) : vec := vadd (vscale (cos al) N) (vscale (sin al) K).
Lemma dd_unit al : vdot (dd al) (dd al) = 1.
Proof.
  unfold dd. rewrite !vdot_add_l, !vdot_add_r, !vdot_scale_l, !vdot_scale_r, Nn, HK, (vdot_comm N K), NK0.
  pose proof (sin2_cos2 al) as S; unfold Rsqr in S. lra.
Qed.
Lemma dd_u al : vdot u (dd al) = 0.
Proof. unfold dd. rewrite vdot_add_r, !vdot_scale_r, Nu0, Ho. ring. Qed.
Lemma dd_K al : vdot K (dd al) = sin al.
Proof. unfold dd. rewrite vdot_add_r, !vdot_scale_r, NK0, HK. ring. Qed.
Lemma dd_N al : vdot N (dd al) = cos al.
Proof. unfold dd. rewrite vdot_add_r, !vdot_scale_r, Nn, (vdot_comm N K), NK0. ring. Qed.
Definition BB (d al : R) : vec := vadd (vscale (cos d) u) (vscale (sin d) (dd al)).
Lemma BB_unit d al : vdot (BB d al) (BB d al) = 1.
Proof.
  unfold BB. rewrite !vdot_add_l, !vdot_add_r, !vdot_scale_l, !vdot_scale_r, dd_unit, Hu, (vdot_comm (dd al) u), dd_u.
  pose proof (sin2_cos2 d) as S; unfold Rsqr in S. lra.
Qed.
Lemma BB_u d al : vdot u (BB d al) = cos d.
Proof. unfold BB. rewrite !vdot_add_r, !vdot_scale_r, Hu, dd_u. ring. Qed.
Lemma BB_K d al : vdot K (BB d al) = sin d * sin al.
Proof. unfold BB. rewrite vdot_add_r, !vdot_scale_r, dd_K, (vdot_comm K u), Ho. ring. Qed.
Lemma BB_N d al : vdot N (BB d al) = sin d * cos al.
Proof. unfold BB. rewrite vdot_add_r, !vdot_scale_r, dd_N, (vdot_comm N u), Nu0. ring. Qed.
End Geo.

(** the East direction the direct problem uses is orthogonal to A, except at a pole when
    the x axis points to a pole *)
Definition regular (M : mat) (u : vec) : Prop := vcross (north M) u <> v0 \/ vx (north M) = 0.
Lemma dir1_east M u : orthogonal M -> regular M u ->
  vdot (dir1 (vcross (north M) u)) (dir1 (vcross (north M) u)) = 1 /\ vdot u (dir1 (vcross (north M) u)) = 0.
Proof.
  intros HO HR. destruct (vec_eq_dec (vcross (north M) u) v0) as [E|E].
  - destruct HR as [H|H]; [contradiction|]. rewrite E, dir1_v0. split.
    + unfold vdot; cbn [vx vy vz]. ring.
    + rewrite (pole_parallel _ _ (north_unit M HO) E). unfold vdot, vscale; cbn [vx vy vz]. rewrite H. ring.
  - rewrite dir1_nz by auto. split; [apply vnorm_unit, direction_unit; auto|].
    unfold direction. rewrite vdot_scale_r, vdot_cross_r. ring.
Qed.
