(** * C44-C47: frame checks, delta_E, change of frame, delta_N and delta_L *)
From Coq Require Import String List Arith Lia Bool Reals Lra ZArith.
From Verif Require Import Num Py Nd MUtil MRotation MCore MObjects Spec SpecArr SpecObj LNum LTrig LVec LArr LLatLon LMat LRot
  LAngle PUtil LEq LEcef PEcef PRot PFrame PEq LObj PEq2 LDirect LObj2.
Import ListNotations.
Local Open Scope R_scope.

(** ** C44 *)
(** two arrays can be combined elementwise *)
Definition compatible (x y : arr num) : Prop := bshape (shape x) (shape y) <> None.

Lemma map2_compatible f x y : compatible x y -> exists z : arr num, map2 f x y = ret z.
Proof. unfold compatible, map2. destruct (bshape _ _); [eexists; reflexivity|congruence]. Qed.

(** + and - of ECEFvectors and of Nvectors, arrays of any shape:
    unequal frames are refused whatever the arrays, equal frames are accepted *)
Theorem C44_ecef_arithmetic : forall s o a f M a' f' M',
  is_frame (e_frame s) a f M -> is_frame (e_frame o) a' f' M' ->
  (~ frames_close a f M a' f' M' -> raises (ecef_add s o) ValueError /\ raises (ecef_sub s o) ValueError) /\
  (frames_close a f M a' f' M' -> compatible (e_p s) (e_p o) ->
     ends_with (ecef_add s o) (fun e => e_frame e = e_frame s) /\ ends_with (ecef_sub s o) (fun e => e_frame e = e_frame s)).
Proof.
  intros s o a f M a' f' M' H K. destruct (check_frames_spec _ _ _ _ _ _ _ _ H K) as [C1 C2]. split.
  - intros X. unfold ecef_add, ecef_sub. rewrite (C2 X), !bind_raise. split; reflexivity.
  - intros X Y. unfold ecef_add, ecef_sub. rewrite (C1 X), !bind_ret.
    destruct (map2_compatible nadd _ _ Y) as (z1 & ->). destruct (map2_compatible nsub _ _ Y) as (z2 & ->). rewrite !bind_ret.
    split; eexists; split; reflexivity.
Qed.
Print Assumptions C44_ecef_arithmetic.

Theorem C44_nvector_arithmetic : forall s o a f M a' f' M',
  is_frame (n_frame s) a f M -> is_frame (n_frame o) a' f' M' ->
  (~ frames_close a f M a' f' M' -> raises (nv_add s o) ValueError /\ raises (nv_sub s o) ValueError) /\
  (frames_close a f M a' f' M' -> compatible (n_normal s) (n_normal o) -> compatible (n_z s) (n_z o) ->
     ends_with (nv_add s o) (fun e => n_frame e = n_frame s) /\ ends_with (nv_sub s o) (fun e => n_frame e = n_frame s)).
Proof.
  intros s o a f M a' f' M' H K. destruct (check_frames_spec _ _ _ _ _ _ _ _ H K) as [C1 C2]. split.
  - intros X. unfold nv_add, nv_sub. rewrite (C2 X), !bind_raise. split; reflexivity.
  - intros X Y Z. unfold nv_add, nv_sub. rewrite (C1 X), !bind_ret.
    destruct (map2_compatible nadd _ _ Y) as (z1 & ->). destruct (map2_compatible nsub _ _ Y) as (z2 & ->). rewrite !bind_ret.
    destruct (map2_compatible nadd _ _ Z) as (z3 & ->). destruct (map2_compatible nsub _ _ Z) as (z4 & ->). rewrite !bind_ret.
    split; eexists; split; reflexivity.
Qed.
Print Assumptions C44_nvector_arithmetic.

(** change_frame: n vectors, a local frame (N, L or B) at m positions *)
Theorem C44_change_frame : forall s l n m k p a f M a' f' M',
  is_ecef s n p a f M -> is_local l m a' f' M' -> bdim m n = Some k ->
  (~ frames_close a f M a' f' M' -> raises (change_frame s l) ValueError) /\
  (frames_close a f M a' f' M' -> ends_with (change_frame s l) (fun v => p_frame v = l /\ exists q, cols (p_p v) k q)).
Proof.
  intros s l n m k p a f M a' f' M' (Hn & Hp & HF & _) Hl D.
  destruct (is_nv_local _ _ _ _ _ Hl) as (u & z & Hv). pose proof Hv as (_ & _ & _ & _ & HL).
  destruct (check_frames_spec _ _ _ _ _ _ _ _ HF HL) as [C1 C2]. split.
  - intros X. unfold change_frame. rewrite (C2 X), bind_raise. reflexivity.
  - intros X. unfold change_frame. rewrite (C1 X), bind_ret.
    destruct (R_EN_rotation _ _ _ _ _ Hl) as (ws & R & F & ER & HR & _). rewrite ER, bind_inl.
    destruct (gmats_swap _ _ _ (mats_gmats _ _ _ HR)) as (Rt & ERt & HRt). rewrite ERt, bind_ret.
    destruct (mdot_cols _ _ _ _ _ _ _ HRt Hp D) as (Y & Z & C & EX & EY & EC & _ & HC).
    rewrite EX, bind_ret, EY, bind_ret, EC, bind_ret. unfold Pvector. rewrite bind_ret.
    eexists. split; [reflexivity|]. split; [reflexivity|]. eexists. exact HC.
Qed.
Print Assumptions C44_change_frame.

(** delta_E, delta_N, delta_L of points of any classes *)
Lemma raises_bind_l {A B} (m : M A) (g : A -> M B) e : raises m e -> raises (bind m g) e.
Proof. unfold raises, bind. destruct m as [w [x|y]]; cbn; congruence. Qed.
Lemma raises_bind_r {A B} (m : M A) (g : A -> M B) e a : ends m a -> raises (g a) e -> raises (bind m g) e.
Proof.
  unfold raises, ends, bind. destruct m as [w [x|y]]; cbn; [|discriminate]. intros [= ->]. destruct (g a) as [w' r]. auto.
Qed.
Lemma FrameN_spec A n p a f M : locatable A n p a f M -> ellipsoid a f ->
  exists ws v u, FrameN A = (ws, inl (LocalN v)) /\ is_nv v n u (fun _ => 0) a f M /\
    forall j, (j < n)%nat -> exists z, p j = pos a f M (u j) z.
Proof.
  intros H El. destruct (to_nvector_spec _ _ _ _ _ _ H El) as (ws & v & u & z & E & Hv & Hp).
  unfold FrameN, Nvector, default_frame. rewrite E, bind_inl, !bind_ret. cbn [fst snd].
  do 3 eexists. split; [reflexivity|]. split; [eapply nv_z0; eauto|]. intros j Hj. exists (z j). auto.
Qed.
Lemma FrameL_spec A wa n p a f M : locatable A n p a f M -> ellipsoid a f ->
  exists ws v u, FrameL A wa = (ws, inl (LocalL v wa)) /\ FrameN A = (ws, inl (LocalN v)) /\ is_nv v n u (fun _ => 0) a f M /\
    forall j, (j < n)%nat -> exists z, p j = pos a f M (u j) z.
Proof.
  intros H El. destruct (to_nvector_spec _ _ _ _ _ _ H El) as (ws & v & u & z & E & Hv & Hp).
  unfold FrameN, FrameL, Nvector, default_frame. rewrite E, !bind_inl, !bind_ret. cbn [fst snd].
  do 3 eexists. split; [reflexivity|]. split; [reflexivity|]. split; [eapply nv_z0; eauto|]. intros j Hj. exists (z j). auto.
Qed.

Theorem C44_delta : forall A B n m k p q a f M a' f' M' wa w,
  ellipsoid a f -> ellipsoid a' f' -> locatable A n p a f M -> is_point B m q a' f' M' ->
  bdim m n = Some k -> spread wa n w ->
  (~ frames_close a f M a' f' M' ->
     raises (delta_E A B) ValueError /\ raises (delta_N A B) ValueError /\ raises (delta_L A B wa) ValueError) /\
  (frames_close a f M a' f' M' ->
     (exists e, ends (delta_E A B) e) /\ (exists v, ends (delta_N A B) v) /\ (exists v, ends (delta_L A B wa) v)).
Proof.
  intros A B n m k p q a f M a' f' M' wa w El El' HA HB D Hw.
  destruct (to_ecef_spec _ _ _ _ _ _ (proj1 HA) El) as (w1 & e1 & E1 & He1).
  destruct (to_ecef_spec _ _ _ _ _ _ HB El') as (w2 & e2 & E2 & He2).
  pose proof He1 as (N1 & P1 & F1 & _). pose proof He2 as (N2 & P2 & F2 & _).
  assert (DE : delta_E A B = (w1 ++ w2 ++ fst (ecef_sub e2 e1), snd (ecef_sub e2 e1))).
  { unfold delta_E. rewrite E1, bind_inl, E2, bind_inl. reflexivity. }
  destruct (FrameL_spec A wa _ _ _ _ _ HA El) as (w3 & v & u & EL & EN & Hv & _).
  destruct (check_frames_spec _ _ _ _ _ _ _ _ F2 F1) as [C1 C2]. split.
  - intros X. assert (X' : ~ frames_close a' f' M' a f M) by (intros Y; apply X, frames_close_sym; auto).
    assert (R : raises (delta_E A B) ValueError).
    { rewrite DE. unfold ecef_sub. rewrite (C2 X'), bind_raise. reflexivity. }
    split; auto. split; [unfold delta_N; apply raises_bind_l; auto|].
    unfold delta_L. eapply raises_bind_r; [rewrite EL; reflexivity|]. apply raises_bind_l. auto.
  - intros X. pose proof (frames_close_sym _ _ _ _ _ _ X) as X'.
    destruct (sub_cols _ _ _ _ _ _ _ P2 P1 D) as (C & EC & HC).
    assert (SE : ecef_sub e2 e1 = ret (MkEcef C (e_frame e2) (e_scalar e2 && e_scalar e1))).
    { unfold ecef_sub. rewrite (C1 X'), bind_ret, EC, bind_ret. reflexivity. }
    set (d := MkEcef C (e_frame e2) (e_scalar e2 && e_scalar e1)) in *.
    assert (Ed : ends (delta_E A B) d) by (rewrite DE, SE; reflexivity).
    assert (Hk : (0 < k)%nat) by (eapply bdim_gt0; eauto).
    assert (Hd : is_ecef d k (fun j => vsub (q (cl m j)) (p (cl n j))) a' f' M').
    { split; auto. split; [exact HC|]. split; [exact F2|]. cbn. destruct He1 as (_ & _ & _ & S1), He2 as (_ & _ & _ & S2).
      intros Q. apply andb_prop in Q as [Q1 Q2]. rewrite (S1 Q2), (S2 Q1) in D. injection D as <-. reflexivity. }
    split; [eauto|]. split.
    + destruct (C44_change_frame d (LocalN v) k n k _ a' f' M' a f M Hd) as [_ G]; [do 2 eexists; exact Hv|eapply bdim_absorb_r; eauto|].
      destruct (G X') as (r & Er & _). exists r. unfold delta_N. eapply ends_bind_i; [exact Ed|].
      eapply ends_bind_i; [rewrite EN; reflexivity|exact Er].
    + destruct (C44_change_frame d (LocalL v wa) k n k _ a' f' M' a f M Hd) as [_ G];
        [do 3 eexists; split; [exact Hv|exact Hw]|eapply bdim_absorb_r; eauto|].
      destruct (G X') as (r & Er & _). exists r. unfold delta_L. eapply ends_bind_i; [rewrite EL; reflexivity|].
      eapply ends_bind_i; [exact Ed|exact Er].
Qed.
Print Assumptions C44_delta.

(** GeoPoint.distance_and_azimuth: the frames are checked before anything is computed, for every method
    string and every geodesic solver; a Pvector argument is always refused (its frame is a local frame) *)
Definition frame_of (pt : point) : option frameE :=
  match pt with PGeo g => Some (g_frame g) | PNv v => Some (n_frame v) | PEcef e => Some (e_frame e) | PPv _ => None end.
Theorem C44_distance_and_azimuth : forall gi g pt unroll degrees method a f M,
  is_frame (g_frame g) a f M ->
  match frame_of pt with
  | Some fr => forall a' f' M', is_frame fr a' f' M' -> ~ frames_close a f M a' f' M' ->
      distance_and_azimuth gi g pt unroll degrees method = raise ValueError
  | None => distance_and_azimuth gi g pt unroll degrees method = raise ValueError
  end.
Proof.
  intros gi g pt unroll degrees method a f M H.
  assert (X : forall fr a' f' M', is_frame fr a' f' M' -> ~ frames_close a f M a' f' M' ->
     frameE_eq (g_frame g) (OFrameE fr) = ret false).
  { intros fr a' f' M' K N. destruct (frameE_eq_spec _ _ _ _ _ _ _ _ H K) as ([|] & E & Hr); [|exact E].
    destruct N. apply Hr. reflexivity. }
  destruct pt as [h|v|e|p]; cbn [frame_of].
  1-3: intros a' f' M' K N; unfold distance_and_azimuth, check_frames_pt; rewrite (X _ _ _ _ K N), bind_ret; reflexivity.
  unfold distance_and_azimuth, check_frames_pt. reflexivity.
Qed.
Print Assumptions C44_distance_and_azimuth.

(** two frames with the same axes but semi-major axes one metre apart are unequal *)
Example C44_example : ~ frames_close 6378137 (/ 298) Me 6378138 (/ 298) Me /\ frames_close 6378137 (/ 298) Me 6378137 (/ 298) Me.
Proof.
  split.
  - intros (H & _). unfold close in H. rewrite (Rabs_left (_ - _)), (Rabs_right 6378137), (Rabs_right 6378138) in H by lra.
    rewrite (Rmax_right 6378137) in H by lra.
    assert (Q : Rmax (/ 10 ^ 14) (/ 10 ^ 12 * 6378138) <= 1 / 2) by (apply Rmax_lub; lra). lra.
  - assert (P : 0 < / 10 ^ 14) by (apply Rinv_0_lt_compat, pow_lt; lra).
    assert (Q : forall x, close (/ 10 ^ 12) (/ 10 ^ 14) x x).
    { intros x. unfold close. replace (x - x) with 0 by ring. rewrite Rabs_R0. eapply Rle_trans; [left; exact P|apply Rmax_l]. }
    split; auto.
Qed.

(** ** C45 *)
(** delta_E(a, b) is the difference of the positions of b and a, for points of any classes *)
Theorem C45_delta_E : forall A B n m k p q a f M, ellipsoid a f ->
  is_point A n p a f M -> is_point B m q a f M -> bdim m n = Some k ->
  ends_with (delta_E A B) (fun e => is_ecef e k (fun j => vsub (q (cl m j)) (p (cl n j))) a f M).
Proof.
  intros A B n m k p q a f M El HA HB D. destruct (delta_E_spec _ _ _ _ _ _ _ _ _ _ El HA HB D) as (ws & e & E & He).
  exists e. split; [rewrite E; reflexivity|exact He].
Qed.
Print Assumptions C45_delta_E.

(** delta_E(b, a) = - delta_E(a, b) *)
Theorem C45_antisymmetric : forall A B n m k p q a f M, ellipsoid a f ->
  is_point A n p a f M -> is_point B m q a f M -> bdim m n = Some k ->
  exists ab ba nab d, ends (delta_E A B) ab /\ ends (delta_E B A) ba /\ ends (ecef_neg ab) nab /\
    is_ecef ba k d a f M /\ is_ecef nab k d a f M.
Proof.
  intros A B n m k p q a f M El HA HB D.
  destruct (delta_E_spec _ _ _ _ _ _ _ _ _ _ El HA HB D) as (w1 & ab & E1 & H1).
  assert (D' : bdim n m = Some k) by (rewrite bdim_comm; auto).
  destruct (delta_E_spec _ _ _ _ _ _ _ _ _ _ El HB HA D') as (w2 & ba & E2 & H2).
  destruct (ecef_neg_spec _ _ _ _ _ _ H1) as (nab & E3 & (X1 & X2 & X3 & X4)).
  exists ab, ba, nab. eexists. rewrite E1, E2, E3. split; [reflexivity|]. split; [reflexivity|]. split; [reflexivity|].
  split; [exact H2|]. split; auto. split; auto. eapply cols_ext; [|exact X2]. intros j Hj. cbn beta. vring.
Qed.
Print Assumptions C45_antisymmetric.

(** delta_E(a, b) + delta_E(b, c) = delta_E(a, c); when b is wider than a and c the single
    vector from a to c is repeated in the sum *)
Theorem C45_triangle : forall A B C n m l kab kbc kac k p q r a f M, ellipsoid a f ->
  is_point A n p a f M -> is_point B m q a f M -> is_point C l r a f M ->
  bdim m n = Some kab -> bdim l m = Some kbc -> bdim l n = Some kac -> bdim kab kbc = Some k ->
  exists ab bc ac sum d, ends (delta_E A B) ab /\ ends (delta_E B C) bc /\ ends (delta_E A C) ac /\
    ends (ecef_add ab bc) sum /\ is_ecef ac kac d a f M /\ is_ecef sum k (fun j => d (cl kac j)) a f M.
Proof.
  intros A B C n m l kab kbc kac k p q r a f M El HA HB HC D1 D2 D3 D4.
  destruct (delta_E_spec _ _ _ _ _ _ _ _ _ _ El HA HB D1) as (w1 & ab & E1 & H1).
  destruct (delta_E_spec _ _ _ _ _ _ _ _ _ _ El HB HC D2) as (w2 & bc & E2 & H2).
  destruct (delta_E_spec _ _ _ _ _ _ _ _ _ _ El HA HC D3) as (w3 & ac & E3 & H3).
  destruct (ecef_add_spec _ _ _ _ _ _ _ _ _ _ H1 H2 D4) as (s & E4 & (X1 & X2 & X3 & X4)).
  exists ab, bc, ac, s. eexists. rewrite E1, E2, E3, E4. do 4 (split; [reflexivity|]). split; [exact H3|].
  split; auto. split; auto. eapply cols_ext; [|exact X2]. intros j Hj. cbn beta.
  pose proof (cl_lt_l _ _ _ _ D4 Hj) as L1. pose proof (cl_lt_r _ _ _ _ D4 Hj) as L2.
  assert (Q1 : cl m (cl kab j) = cl m j).
  { destruct (bdim_inv _ _ _ D1) as [[->| ->] _]; [unfold cl; destruct (kab =? 1)%nat eqn:Q; rewrite ?Q; auto|reflexivity]. }
  assert (Q2 : cl m (cl kbc j) = cl m j).
  { destruct (bdim_inv _ _ _ D2) as [_ [->| ->]]; [unfold cl; destruct (kbc =? 1)%nat eqn:Q; rewrite ?Q; auto|reflexivity]. }
  assert (Q3 : cl n (cl kab j) = cl n j).
  { destruct (bdim_inv _ _ _ D1) as [_ [->| ->]]; [unfold cl; destruct (kab =? 1)%nat eqn:Q; rewrite ?Q; auto|reflexivity]. }
  assert (Q4 : cl l (cl kbc j) = cl l j).
  { destruct (bdim_inv _ _ _ D2) as [[->| ->] _]; [unfold cl; destruct (kbc =? 1)%nat eqn:Q; rewrite ?Q; auto|reflexivity]. }
  assert (Q5 : cl n (cl kac j) = cl n j).
  { destruct (bdim_inv _ _ _ D3) as [_ [->| ->]]; [unfold cl; destruct (kac =? 1)%nat eqn:Q; rewrite ?Q; auto|reflexivity]. }
  assert (Q6 : cl l (cl kac j) = cl l j).
  { destruct (bdim_inv _ _ _ D3) as [[->| ->] _]; [unfold cl; destruct (kac =? 1)%nat eqn:Q; rewrite ?Q; auto|reflexivity]. }
  rewrite ?Q1, ?Q2, ?Q3, ?Q4, ?Q5, ?Q6. vring.
Qed.
Print Assumptions C45_triangle.

(** the distance between identical positions is the zero vector, whatever the classes *)
Theorem C45_self : forall A B n p a f M, ellipsoid a f -> is_point A n p a f M -> is_point B n p a f M ->
  ends_with (delta_E A B) (fun e => is_ecef e n (fun _ => v0) a f M).
Proof.
  intros A B n p a f M El HA HB. destruct (delta_E_spec _ _ _ _ _ _ _ _ _ _ El HA HB (bdim_refl n)) as (w & e & E & (X1 & X2 & X3 & X4)).
  exists e. split; [rewrite E; reflexivity|]. split; auto. split; auto. eapply cols_ext; [|exact X2]. intros j Hj. cbn beta.
  rewrite (cl_id n j Hj). apply vsub_self.
Qed.
Print Assumptions C45_self.

(** a GeoPoint, an Nvector and an ECEFvector that are points in the sense of these theorems *)
Definition ex_geo : geoPoint := MkGeo (scal (Fin (/ 2))) (scal (Fin 1)) (scal (Fin 100)) ex_frame.
Lemma ex_geo_ok : is_geo ex_geo 1 (fun _ => / 2) (fun _ => 1) (fun _ => 100) 6378137 (/ 298) Me.
Proof.
  assert (V : forall r, vals (scal (Fin r)) 1 (fun _ => r)) by (intros r; left; split; [auto|split; reflexivity]).
  split; [lia|]. split; [reflexivity|]. split; [reflexivity|]. split; [apply V|]. split; [apply V|]. split; [apply V|]. apply ex_frame_ok.
Qed.
Definition ex_ecef : ecef := MkEcef (col3 (Fin 6000000) (Fin 1000) (Fin 2)) ex_frame true.
Lemma ex_ecef_ok : is_ecef ex_ecef 1 (fun _ => V 6000000 1000 2) 6378137 (/ 298) Me.
Proof. split; [lia|]. split; [apply col3_cols|]. split; [apply ex_frame_ok|]. auto. Qed.
Lemma ex_ellipsoid : ellipsoid 6378137 (/ 298). Proof. unfold ellipsoid. lra. Qed.
Example C45_example : ellipsoid 6378137 (/ 298) /\ (exists p, is_point (PGeo ex_geo) 1 p 6378137 (/ 298) Me) /\
  (exists p, is_point (PNv ex_nv) 1 p 6378137 (/ 298) Me) /\ (exists p, is_point (PEcef ex_ecef) 1 p 6378137 (/ 298) Me).
Proof.
  pose proof ex_ellipsoid as El. pose proof (proj1 Me_rotation) as O. pose proof El as (E1 & E2 & E3).
  split; auto. split; [|split].
  - eexists. exists (fun _ => / 2), (fun _ => 1), (fun _ => 100). split; [apply ex_geo_ok|]. intros j Hj.
    apply (at_depth_pos 6378137 (/ 298) Me _ 100); auto. apply normal_at_nz; auto.
  - eexists. do 2 eexists. split; [apply ex_nv_ok|]. intros j Hj. apply (at_depth_pos 6378137 (/ 298) Me _ 0); auto.
    intros [=]; lra.
  - eexists. apply ex_ecef_ok.
Qed.

(** ** C46 *)
(** n vectors, a local frame N, L or B at m positions *)
Theorem C46_change_frame_isometry : forall e l n m k p a f M,
  is_ecef e n p a f M -> is_local l m a f M -> bdim m n = Some k ->
  exists v q back, ends (change_frame e l) v /\ cols (p_p v) k q /\
    (forall j, (j < k)%nat -> vnorm (q j) = vnorm (p (cl n j))) /\
    (forall i j, (i < k)%nat -> (j < k)%nat -> cl m i = cl m j -> vdot (q i) (q j) = vdot (p (cl n i)) (p (cl n j))) /\
    ends (pv_to_ecef v) back /\ cols (e_p back) k (fun j => p (cl n j)) /\
    is_frame (e_frame back) a f M /\ e_scalar back = e_scalar e.
Proof.
  intros e l n m k p a f M He Hl D. destruct (R_EN_rotation _ _ _ _ _ Hl) as (ws & R & F & ER & HR & HF).
  destruct (is_nv_local _ _ _ _ _ Hl) as (u & z & Hv). pose proof Hv as (Hm & _ & _ & _ & HL).
  destruct (change_frame_spec e l n m k p F ws R a f M He HL ER HR D Hm) as (v & E & Hc & Ef & Es).
  assert (FL : is_frame (n_frame (l_nvector (p_frame v))) a f M) by (rewrite Ef; exact HL).
  assert (ER' : R_EN (p_frame v) = (ws, inl R)) by (rewrite Ef; exact ER).
  assert (Dk : bdim m k = Some k) by (destruct (bdim_inv _ _ _ D) as [[->| ->] _]; [apply bdim_refl|apply bdim_1_l]).
  assert (Fo : forall j, (j < k)%nat -> orthogonal (F (cl m j))).
  { intros j Hj. apply HF. eapply cl_lt_l; eauto. }
  exists v. eexists. 
  destruct (mdot_cols _ _ _ _ _ _ _ (mats_gmats _ _ _ HR) Hc Dk) as (X & Y & C & EX & EY & EC & _ & HC).
  exists (MkEcef C (n_frame (l_nvector (p_frame v))) (p_scalar v)).
  split; [rewrite E; reflexivity|]. split; [exact Hc|]. split; [|split; [|split; [|split; [|split]]]].
  - intros j Hj. cbn beta. apply orthogonal_norm, orthogonal_T, Fo; auto.
  - intros i j Hi Hj Q. cbn beta. rewrite Q. apply orthogonal_dot, orthogonal_T, Fo; auto.
  - unfold pv_to_ecef. rewrite ER', bind_inl, EX, bind_ret, EY, bind_ret, EC, bind_ret. reflexivity.
  - eapply cols_ext; [|exact HC]. intros j Hj. cbn beta. rewrite (cl_id k j Hj). apply orthogonal_inv', Fo; auto.
  - exact FL.
  - exact Es.
Qed.
Print Assumptions C46_change_frame_isometry.

(** FrameN: away from the poles the components are those along north, east and down *)
Theorem C46_north_east_down_components : forall e v n m k p u z a f M,
  is_ecef e n p a f M -> is_nv v m u z a f M -> bdim m n = Some k ->
  exists pv q, ends (change_frame e (LocalN v)) pv /\ cols (p_p pv) k q /\
    forall j, (j < k)%nat -> 
      let up := direction (u (cl m j)) in
      vz (q j) = - vdot up (p (cl n j)) /\
      (vcross (north M) up <> v0 ->
       let east := direction (vcross (north M) up) in
       vy (q j) = vdot east (p (cl n j)) /\ vx (q j) = vdot (vcross up east) (p (cl n j))).
Proof.
  intros e v n m k p u z a f M He Hv D. destruct (R_EN_N _ _ _ _ _ _ _ Hv) as (ws & R & ER & HR).
  pose proof Hv as (Hm & _ & Nz & _ & HL).
  destruct (change_frame_spec e (LocalN v) n m k p _ ws R a f M He HL ER HR D Hm) as (pv & E & Hc & Ef & Es).
  exists pv. eexists. split; [rewrite E; reflexivity|]. split; [exact Hc|]. intros j Hj up.
  cbn beta. set (d := direction (u (cl m j))) in *. set (w := p (cl n j)).
  assert (X : mulv (mT (NED M d)) w = V (vdot (vcross (eastv M d) (vneg d)) w) (vdot (eastv M d) w) (vdot (vneg d) w)).
  { unfold NED. rewrite mT_mT. reflexivity. }
  rewrite X. cbn [vx vy vz]. split; [apply vdot_neg_l|]. intros Np. unfold eastv.
  destruct (Req_EM_T (vnorm (vcross (north M) d)) 0) as [Q|Q]; [apply vnorm_0 in Q; contradiction|].
  split; [reflexivity|]. rewrite vcross_neg_r, <- vcross_anti. reflexivity.
Qed.
Print Assumptions C46_north_east_down_components.

Example C46_example : is_ecef ex_ecef 1 (fun _ => V 6000000 1000 2) 6378137 (/ 298) Me /\
  is_local (LocalB ex_nv (scal (Fin 1)) (scal (Fin 2)) z0) 1 6378137 (/ 298) Me.
Proof.
  split; [apply ex_ecef_ok|]. exists (fun _ => V 1 2 2), (fun _ => 0), (fun _ => 1), (fun _ => 2), (fun _ => 0).
  split; [apply ex_nv_ok|]. repeat split; apply spread_scalar; split; reflexivity.
Qed.

(** ** C47 *)
Lemma mulv_mTmul A B v : mulv (mT (mmul A B)) v = mulv (mT B) (mulv (mT A) v).
Proof. rewrite mT_mmul, mulv_mmul. reflexivity. Qed.
Lemma vz_mT A x : vz (mulv (mT A) x) = vdot (c2 A) x. Proof. reflexivity. Qed.
Lemma Rz_T w : mT (Rz w) = Rz (- w).
Proof. unfold Rz, mT; cbn. rewrite sin_neg, cos_neg, Ropp_involutive. reflexivity. Qed.

(** A at n positions, B at m positions, wander azimuths w j *)
Theorem C47_delta_L_is_rotated_delta_N : forall A B n m k p q a f M wa w, ellipsoid a f ->
  locatable A n p a f M -> is_point B m q a f M -> bdim m n = Some k -> spread wa n w ->
  exists N L dN dL, ends (delta_N A B) N /\ ends (delta_L A B wa) L /\ cols (p_p N) k dN /\ cols (p_p L) k dL /\
    p_scalar L = p_scalar N /\
    forall j, (j < k)%nat ->
      vz (dL j) = vz (dN j) /\ vnorm (dL j) = vnorm (dN j) /\
      (equatorial (north M) (p (cl n j)) <> v0 -> dL j = mulv (Rz (- w (cl n j))) (dN j)).
Proof.
  intros A B n m k p q a f M wa w El HA HB D Hw.
  destruct (delta_E_spec _ _ _ _ _ _ _ _ _ _ El (proj1 HA) HB D) as (w1 & d & E1 & Hd).
  destruct (FrameL_spec A wa _ _ _ _ _ HA El) as (w3 & v & u & EL & EN & Hv & Hp).
  destruct (R_EN_N _ _ _ _ _ _ _ Hv) as (ws & R & ER & HR).
  destruct (R_EN_L v wa _ _ _ _ _ _ _ Hv Hw) as (ws' & R' & la & lo & ER' & Hll & HR').
  pose proof Hv as (Hn & _ & Nz & _ & HL). pose proof (bdim_absorb_r _ _ _ D) as Dk.
  destruct (change_frame_spec d (LocalN v) k n k _ _ ws R a f M Hd HL ER HR Dk Hn) as (N & ECN & HN & _ & SN).
  destruct (change_frame_spec d (LocalL v wa) k n k _ _ ws' R' a f M Hd HL ER' HR' Dk Hn) as (L & ECL & HLc & _ & SL).
  exists N, L. do 2 eexists. split; [|split; [|split; [exact HN|split; [exact HLc|split]]]].
  - unfold delta_N. eapply ends_bind_i; [rewrite E1; reflexivity|]. eapply ends_bind_i; [rewrite EN; reflexivity|]. rewrite ECN. reflexivity.
  - unfold delta_L. eapply ends_bind_i; [rewrite EL; reflexivity|]. eapply ends_bind_i; [rewrite E1; reflexivity|]. rewrite ECL. reflexivity.
  - congruence.
  - intros j Hj. cbn beta. pose proof (cl_lt_l _ _ _ _ Dk Hj) as Ln. set (i := cl n j) in *. rewrite (cl_id k j Hj).
    set (x := vsub (q (cl m j)) (p i)). pose proof (frame_rot _ _ _ _ HL) as HM.
    assert (RN : rotation (NED M (direction (u i)))) by (apply NED_rotation; auto; apply direction_unit; auto).
    assert (RL : rotation (mmul (mT M) (Mxyz (lo i) (- la i) (w i)))).
    { apply rotation_mul; [apply rotation_T; auto|apply Mxyz_rotation]. }
    destruct (Hll i Ln) as (Hla & Hlo). split; [|split].
    + rewrite !vz_mT.
      rewrite c2_mmul, Mxyz_c2, (EL_c2 M (u i)), NED_c2 by auto. reflexivity.
    + rewrite !orthogonal_norm; auto; apply orthogonal_T; [apply RN|apply RL].
    + intros Q. rewrite Mxyz_split, <- mmul_assoc. rewrite (NED_xyz M (u i)); auto.
      * rewrite mulv_mTmul, Rz_T. reflexivity.
      * intros Y. apply Q. destruct (Hp i Ln) as (z & ->). apply pos_pole; auto. apply HM.
Qed.
Print Assumptions C47_delta_L_is_rotated_delta_N.

(** with wander azimuth zero and A off the polar axis, delta_L is delta_N *)
Theorem C47_zero_wander : forall A B n m k p q a f M wa, ellipsoid a f ->
  locatable A n p a f M -> is_point B m q a f M -> bdim m n = Some k -> spread wa n (fun _ => 0) ->
  (forall j, (j < n)%nat -> equatorial (north M) (p j) <> v0) ->
  exists N L d, ends (delta_N A B) N /\ ends (delta_L A B wa) L /\ cols (p_p N) k d /\ cols (p_p L) k d.
Proof.
  intros A B n m k p q a f M wa El HA HB D Hw Np.
  destruct (C47_delta_L_is_rotated_delta_N _ _ _ _ _ _ _ _ _ _ _ _ El HA HB D Hw) as (N & L & dN & dL & EN & ELL & HN & HL & _ & G).
  exists N, L, dN. split; auto. split; auto. split; auto. eapply cols_ext; [|exact HL]. intros j Hj.
  destruct (G j Hj) as (_ & _ & X). rewrite X; [|apply Np; rewrite bdim_comm in D; eapply cl_lt_l; eauto].
  rewrite Ropp_0. replace (Rz 0) with mI; [apply mulv_mI|]. unfold Rz, mI. rewrite sin_0, cos_0, Ropp_0. reflexivity.
Qed.
Print Assumptions C47_zero_wander.

Example C47_example : locatable (PEcef ex_ecef) 1 (fun _ => V 6000000 1000 2) 6378137 (/ 298) Me /\
  equatorial (north Me) (V 6000000 1000 2) <> v0 /\ spread (scal (Fin 3)) 1 (fun _ => 3).
Proof.
  split; [split; [apply ex_ecef_ok|]|split].
  - intros j Hj. unfold clear_of_core, equatorial, polar, north, Me, vdot, vsub, vscale, ecc2; cbn [vx vy vz r0]. lra.
  - unfold equatorial, polar, north, Me, vdot, vsub, vscale, v0; cbn [vx vy vz r0]. intros [=]; lra.
  - apply spread_scalar. split; reflexivity.
Qed.
