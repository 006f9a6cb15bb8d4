(** * C41 (refutation), C42, C43: == on library objects *)
From Coq Require Import String List Arith Lia Bool Reals Lra ZArith.
From Verif Require Import Num Py Nd MUtil MRotation MCore MObjects Spec SpecArr SpecObj LNum LTrig LVec LArr LLatLon LMat LRot
  LAngle PUtil LEq LEcef PEcef PRot PFrame PEq LObj.
Import ListNotations.
Local Open Scope R_scope.

(** ** finite objects *)
Lemma vals_finite a n z : vals a n z -> finite_arr a.
Proof.
  intros [[-> [S G]]|[S G]] ix V; rewrite S in V.
  - inversion V; subst. eapply fin_finite; eauto.
  - inversion V as [|j ? l ? Hj V1]; subst. inversion V1; subst. eapply fin_finite; eauto.
Qed.
Lemma cols_finite a n u : cols a n u -> finite_arr a.
Proof.
  intros [S G] ix V; rewrite S in V. inversion V as [|i ? l ? Hi V1]; subst. inversion V1 as [|j ? l' ? Hj V2]; subst.
  inversion V2; subst. destruct (G j Hj) as (x & y & z).
  destruct (lt3 i Hi) as [->|[->| ->]]; eapply fin_finite; eauto.
Qed.
Lemma spread_finite a n z : spread a n z -> finite_arr a.
Proof. intros (m & r & H & _). eapply vals_finite; eauto. Qed.
Lemma scal_finite x : isfinite x = true -> finite_arr (scal x).
Proof. intros H ix V. exact H. Qed.

Definition finite_frame (f : frameE) : Prop :=
  isfinite (fe_a f) = true /\ isfinite (fe_f f) = true /\ finite_arr (fe_R f).
Definition finite_nv (v : nvector) : Prop := finite_arr (n_normal v) /\ finite_arr (n_z v) /\ finite_frame (n_frame v).
Definition finite_local (l : local) : Prop :=
  finite_nv (l_nvector l) /\ (exists R, ends (R_EN l) R /\ finite_arr R) /\
  match l with LocalB _ y p r => finite_arr y /\ finite_arr p /\ finite_arr r | _ => True end.
(** every number held by the object, and the matrix R_EN of its local frame, is finite *)
Definition finite_obj (o : obj) : Prop :=
  match o with
  | OGeo g => finite_arr (g_lat g) /\ finite_arr (g_lon g) /\ finite_arr (g_z g) /\ finite_frame (g_frame g)
  | ONv v => finite_nv v
  | OEcef e => finite_arr (e_p e) /\ finite_frame (e_frame e)
  | OPv p => finite_arr (p_p p) /\ finite_local (p_frame p)
  | OFrameE f => finite_frame f
  | OLocal l => finite_local l
  end.

Lemma frameE_eq_refl f : finite_frame f -> frameE_eq f (OFrameE f) = ret true.
Proof.
  intros (A & B & C). unfold frameE_eq, frameE_is_equal, attr_a, attr_f, attr_R_Ee, and_.
  rewrite !bind_ret, !aclose_refl by (auto using scal_finite). rewrite !bind_ret. reflexivity.
Qed.
Lemma nv_eq_refl v : finite_nv v -> nv_eq v (ONv v) = ret true.
Proof.
  intros (A & B & C). unfold nv_eq, nv_is_equal, attr_normal, attr_z, attr_frame, and_.
  rewrite !bind_ret, !aclose_refl by auto. rewrite !bind_ret. rewrite frameE_eq_refl by auto. reflexivity.
Qed.
Lemma cmpR_refl l R : ends (R_EN l) R -> finite_arr R -> ends (cmpR l l) true.
Proof.
  intros E F. unfold cmpR. eapply ends_bind_i; [exact E|]. cbn beta. eapply ends_bind_i; [exact E|].
  rewrite aclose_refl by auto. reflexivity.
Qed.
Lemma ends_and_true A B : ends A true -> ends B true -> ends (and_ A B) true.
Proof. intros. apply ends_and. auto. Qed.
Lemma ends_catch_true m : ends m true -> ends (catch_attr m) true.
Proof. intros. apply ends_catch. auto. Qed.
Lemma local_eq_refl l : finite_local l -> ends (local_eq l (OLocal l)) true.
Proof.
  intros (A & (R & E & FR) & B). unfold local_eq. apply ends_catch_true.
  pose proof (cmpR_refl _ _ E FR) as C. unfold cmpR in C.
  destruct l as [v|v wa|v y p r]; unfold local_is_equal; cbn [attr_R_EN attr_nvector attr_yaw attr_pitch attr_roll l_nvector] in *.
  - apply ends_and_true; [exact C|]. rewrite bind_ret, nv_eq_refl by auto. reflexivity.
  - apply ends_and_true; [exact C|]. rewrite bind_ret, nv_eq_refl by auto. reflexivity.
  - destruct B as (By & Bp & Br).
    repeat (apply ends_and_true; [first [exact C|rewrite bind_ret, aclose_refl by auto; reflexivity]|]).
    rewrite bind_ret, nv_eq_refl by auto. reflexivity.
Qed.

(** ** C41: the failing direction.
    With depth zero, FrameN(p) == FrameB(p, 0, 0, 0) is True but FrameB(p, 0, 0, 0) == FrameN(p) is False. *)
Lemma Mzyx_000 : Mzyx 0 0 0 = mI.
Proof. rewrite Mzyx_eq, sin_0, cos_0. unfold Czyx, mI. f_equal; apply vec_eq; cbn; ring. Qed.

Lemma finite_is_frame fr a f M : is_frame fr a f M -> finite_frame fr.
Proof.
  intros (A & B & C & _). split; [eapply fin_finite; eauto|]. split; [eapply fin_finite; eauto|].
  apply (mats_finite _ 1 (fun _ => M)). apply is_mat_mats; auto.
Qed.
Lemma finite_is_nv v n u z a f M : is_nv v n u z a f M -> finite_nv v.
Proof.
  intros (_ & A & _ & B & C). split; [eapply cols_finite; eauto|]. split; [eapply spread_finite; eauto|].
  eapply finite_is_frame; eauto.
Qed.

Theorem C41_frame_N_and_B_refuted : forall v n u a f M, is_nv v n u (fun _ => 0) a f M -> n_z v = z0 ->
  forall N B, FrameN (PNv v) = ret N -> FrameB (PNv v) z0 z0 z0 false = ret B ->
  equal_objs (OLocal N) (OLocal B) true /\ equal_objs (OLocal B) (OLocal N) false.
Proof.
  intros v n u a f M H Z N B HN HB.
  assert (N = LocalN v) as ->.
  { unfold FrameN, to_nvector, Nvector, default_frame in HN. rewrite !bind_ret, <- Z in HN. destruct v; injection HN as <-. reflexivity. }
  assert (B = LocalB v z0 z0 z0) as ->.
  { unfold FrameB, to_nvector in HB. rewrite bind_ret in HB. injection HB as <-. reflexivity. }
  clear HN HB. split; [|reflexivity].
  assert (S0 : spread z0 n (fun _ => 0)) by (apply spread_scalar; split; reflexivity).
  destruct (R_EN_N _ _ _ _ _ _ _ H) as (w & R & E & HR).
  destruct (R_EN_B v z0 z0 z0 n u _ _ _ _ a f M H S0 S0 S0) as (w' & R' & E' & HR').
  assert (X : mats R' n (fun j => NED M (direction (u j)))).
  { eapply mats_ext; [|exact HR']. intros j Hj. cbn beta. rewrite Mzyx_000, mmul_mI_r. reflexivity. }
  unfold equal_objs, py_eq. apply ends_catch_true. unfold is_equal_to, local_is_equal. cbn [attr_R_EN attr_nvector].
  apply ends_and_true.
  - eapply ends_bind_i; [rewrite E; apply ends_inl|]. eapply ends_bind_i; [rewrite E'; apply ends_inl|].
    rewrite (mats_aclose _ _ _ _ HR X). reflexivity.
  - rewrite bind_ret. cbn [l_nvector]. rewrite nv_eq_refl by (eapply finite_is_nv; eauto). reflexivity.
Qed.
Print Assumptions C41_frame_N_and_B_refuted.

(** the hypotheses are met by the Nvector (1, 2, 2) at depth 0 in the WGS84 frame *)
Definition ex_frame : frameE := MkFrameE (Fin 6378137) (Fin (/ 298)) (KStr "x") (mat33 (Fin 0) (Fin 0) (Fin 1) (Fin 0) (Fin 1) (Fin 0) (Fin (-1)) (Fin 0) (Fin 0)).
Definition ex_nv : nvector := MkNv (col3 (Fin 1) (Fin 2) (Fin 2)) z0 ex_frame.
Lemma Me_rotation : rotation Me.
Proof. split; [unfold orthogonal, Me; vring|unfold Me, mdet, vdot, vcross; cbn; ring]. Qed.
Lemma ex_frame_ok : is_frame ex_frame 6378137 (/ 298) Me.
Proof. split; [reflexivity|]. split; [reflexivity|]. split; [repeat split|apply Me_rotation]. Qed.
Lemma ex_nv_ok : is_nv ex_nv 1 (fun _ => V 1 2 2) (fun _ => 0) 6378137 (/ 298) Me.
Proof.
  split; [lia|]. split; [apply col3_cols|]. split; [intros j _ [=]; lra|]. split; [|apply ex_frame_ok].
  apply spread_scalar. split; reflexivity.
Qed.
Example C41_example : exists N B, FrameN (PNv ex_nv) = ret N /\ FrameB (PNv ex_nv) z0 z0 z0 false = ret B /\
  equal_objs (OLocal N) (OLocal B) true /\ equal_objs (OLocal B) (OLocal N) false.
Proof.
  do 2 eexists. split; [reflexivity|]. split; [reflexivity|].
  apply (C41_frame_N_and_B_refuted ex_nv 1 _ _ _ _ ex_nv_ok eq_refl); reflexivity.
Qed.
(** and the hypotheses of C41_symmetric_partial by the two objects FrameN and FrameL there *)
Example C41_partial_example : let x := OLocal (LocalN ex_nv) in let y := OLocal (LocalL ex_nv z0) in
  frame_ok x /\ frame_ok y /\ ~ mixed x y.
Proof.
  cbv zeta. cbn [frame_ok mixed is_B]. split; [|split].
  - destruct (R_EN_N _ _ _ _ _ _ _ ex_nv_ok) as (w & R & E & _). exists R. rewrite E. reflexivity.
  - destruct (R_EN_L ex_nv z0 _ _ _ (fun _ => 0) _ _ _ ex_nv_ok) as (w & R & la & lo & E & _).
    { apply spread_scalar. split; reflexivity. }
    exists R. rewrite E. reflexivity.
  - intros K. apply K. reflexivity.
Qed.

(** == is not transitive: depths 0, 1e-14 and 2e-14 *)
Definition with_z (r : R) : obj := ONv (MkNv (col3 (Fin 1) (Fin 2) (Fin 2)) (scal (Fin r)) ex_frame).
Lemma aclose_scal x y a b : x ≈ a -> y ≈ b ->
  exists r, aclose (scal x) (scal y) = ret r /\ (r = true <-> close (/ 10 ^ 12) (/ 10 ^ 14) a b).
Proof.
  intros Hx Hy. destruct (C36_allclose_finite (scal x) (scal y) [] (fun _ => a) (fun _ => b) rtol12 atol14 (/ 10 ^ 12) (/ 10 ^ 14) false)
    as (r & E & H); auto; try reflexivity.
  exists r. split; [exact E|]. rewrite H. split; [intros K; apply (K []); constructor|auto].
Qed.
Theorem C41_not_transitive : exists x y z,
  equal_objs x y true /\ equal_objs y z true /\ equal_objs x z false.
Proof.
  assert (X : forall s t, exists b, equal_objs (with_z s) (with_z t) b /\
     (b = true <-> close (/ 10 ^ 12) (/ 10 ^ 14) s t)).
  { intros s t. destruct (aclose_scal (Fin s) (Fin t) s t (fin_Fin s) (fin_Fin t)) as (b & E & H).
    exists b. split; auto. unfold equal_objs, py_eq. apply ends_catch. left.
    unfold with_z, is_equal_to, nv_is_equal. cbn [attr_normal attr_z attr_frame n_normal n_z n_frame]. rewrite !bind_ret.
    unfold and_ at 1. rewrite aclose_refl by (eapply cols_finite; apply col3_cols). rewrite bind_ret.
    unfold and_. rewrite E, bind_ret. destruct b; [|reflexivity].
    rewrite frameE_eq_refl by (eapply finite_is_frame; apply ex_frame_ok). reflexivity. }
  exists (with_z 0), (with_z (/ 10 ^ 14)), (with_z (2 * / 10 ^ 14)).
  destruct (X 0 (/ 10 ^ 14)) as (b1 & E1 & H1). destruct (X (/ 10 ^ 14) (2 * / 10 ^ 14)) as (b2 & E2 & H2).
  destruct (X 0 (2 * / 10 ^ 14)) as (b3 & E3 & H3). unfold close in *.
  assert (P : 0 < / 10 ^ 14) by (apply Rinv_0_lt_compat, pow_lt; lra).
  assert (b1 = true) as ->.
  { apply H1. rewrite Rabs_left by lra. eapply Rle_trans; [|apply Rmax_l]. lra. }
  assert (b2 = true) as ->.
  { apply H2. rewrite Rabs_left by lra. eapply Rle_trans; [|apply Rmax_l]. lra. }
  assert (b3 = false) as ->.
  { destruct b3; auto. exfalso. pose proof (proj1 H3 eq_refl) as K. rewrite Rabs_R0 in K.
    rewrite (Rabs_left (0 - _)) in K by lra. rewrite (Rabs_right (2 * _)) in K by lra.
    rewrite (Rmax_right 0) in K by lra.
    assert (/ 10 ^ 12 * (2 * / 10 ^ 14) < 1 * / 10 ^ 14).
    { assert (/ 10 ^ 12 < 1 / 2) by lra. nra. }
    rewrite Rmax_left in K by lra. lra. }
  auto.
Qed.
Print Assumptions C41_not_transitive.

(** ** C42 *)
(** the very same object *)
Theorem C42_same_object : forall x, py_eq true x x = ret true.
Proof. reflexivity. Qed.
(** another object with the same, finite contents *)
Theorem C42_copies_are_equal : forall x, finite_obj x -> equal_objs x x true.
Proof.
  intros x F. unfold equal_objs, py_eq.
  destruct x as [g|v|e|p|f|l]; cbn [finite_obj] in F.
  - apply ends_catch_true. destruct F as (A & B & C & D). unfold is_equal_to, geo_is_equal.
    cbn [attr_latitude attr_longitude attr_z attr_frame]. rewrite !bind_ret. unfold map2. rewrite !bshape_refl, !bind_ret.
    assert (Z : forall a : arr num, finite_arr a ->
      aclose (Arr (shape a) (fun ix => angle_diff (get a (bidx (shape a) ix)) (get a (bidx (shape a) ix)))) z0 = ret true).
    { intros a Fa. set (d := Arr _ _).
      assert (V : forall ix, Forall2 lt ix (shape a) -> get d ix ≈ 0).
      { intros ix V. unfold d; cbn [get]. rewrite bidx_refl_valid by (auto; eapply F2len; eauto).
        destruct (finite_fin _ (Fa ix V)) as [x Hx]. destruct (angle_diff_fin _ _ _ _ Hx Hx) as (r & E & Br & k & K).
        rewrite E. cbn [is_fin]. apply (near_unique r 0 (x - x) k 0 Br); auto; pose proof PI_RGT_0; lra. }
      unfold aclose, allclose, isclose, map2. rewrite bshape_nil_r, bind_ret. apply f_equal. apply all_iff. cbn [shape get].
      intros ix Vx. assert (P : 0 < / 10 ^ 14) by (apply Rinv_0_lt_compat, pow_lt; lra).
      apply (isclose1_fin (/ 10 ^ 12) (/ 10 ^ 14) false _ _ _ _ 0 0); try reflexivity.
      - change (shape d) with (shape a). rewrite bidx_refl_valid by (auto; eapply F2len; eauto). apply V; auto.
      - unfold close. rewrite Rminus_0_r, Rabs_R0. eapply Rle_trans; [left; exact P|apply Rmax_l]. }
    rewrite (bshape_refl (shape (g_lon g))), bind_ret. unfold and_. rewrite !Z by auto. rewrite !bind_ret, aclose_refl by auto. rewrite bind_ret.
    rewrite frameE_eq_refl by auto. reflexivity.
  - change (ends (nv_eq v (ONv v)) true). rewrite nv_eq_refl by auto. reflexivity.
  - apply ends_catch_true. destruct F as (A & B). unfold is_equal_to, pv_is_equal. cbn [attr_pvector attr_frame].
    rewrite !bind_ret. apply ends_and_true; [rewrite aclose_refl by auto; reflexivity|].
    unfold frame_eq. rewrite frameE_eq_refl by auto. reflexivity.
  - apply ends_catch_true. destruct F as (A & B). unfold is_equal_to, pv_is_equal. cbn [attr_pvector attr_frame].
    rewrite !bind_ret. apply ends_and_true; [rewrite aclose_refl by auto; reflexivity|].
    unfold frame_eq. apply local_eq_refl; auto.
  - change (ends (frameE_eq f (OFrameE f)) true). rewrite frameE_eq_refl by auto. reflexivity.
  - change (ends (local_eq l (OLocal l)) true). apply local_eq_refl; auto.
Qed.
Print Assumptions C42_copies_are_equal.

(** x != y is the negation of x == y *)
Theorem C42_not_equal : forall same x y b, ends (py_ne same x y) (negb b) <-> ends (py_eq same x y) b.
Proof.
  intros same x y b. unfold py_ne. rewrite ends_bind. split.
  - intros (c & H & K). unfold ends in K; cbn in K. assert (c = b) by (destruct c, b; simpl in K; congruence). subst; auto.
  - intros H. exists b. split; auto. reflexivity.
Qed.
Print Assumptions C42_not_equal.

(** a missing attribute never surfaces as an exception *)
Theorem C42_no_AttributeError : forall same x y, ~ raises (py_eq same x y) AttributeError /\ ~ raises (py_ne same x y) AttributeError.
Proof.
  intros same x y.
  assert (H : noattr (py_eq same x y)).
  { unfold py_eq, catch_attr, noattr. destruct (if same then _ else _) as [w [b|e]]; simpl; [discriminate|].
    destruct e; simpl; discriminate. }
  split; [exact H|]. apply (na_bind _ _ H). intros; apply na_ret.
Qed.
Print Assumptions C42_no_AttributeError.

(** the six kinds of objects *)
Inductive kind := KGeo | KNv | KEcef | KPv | KFrameE | KLocal.
Definition kind_of (x : obj) : kind :=
  match x with OGeo _ => KGeo | ONv _ => KNv | OEcef _ => KEcef | OPv _ => KPv | OFrameE _ => KFrameE | OLocal _ => KLocal end.

(** objects of different kinds are unequal; for an ECEFvector and a Pvector this assumes
    arrays that broadcast, otherwise the comparison raises ValueError *)
Definition broadcastable (x y : obj) : Prop :=
  match x, y with
  | OEcef e, OPv p => bshape (shape (e_p e)) (shape (p_p p)) <> None
  | OPv p, OEcef e => bshape (shape (p_p p)) (shape (e_p e)) <> None
  | _, _ => True
  end.
Lemma aclose_broad a b : bshape (shape a) (shape b) <> None -> exists r, aclose a b = ret r.
Proof.
  intros H. unfold aclose, allclose, isclose, map2. destruct (bshape _ _); [|contradiction]. rewrite bind_ret. eexists; reflexivity.
Qed.
Theorem C42_different_kinds : forall x y, kind_of x <> kind_of y -> frame_ok x -> broadcastable x y ->
  equal_objs x y false.
Proof.
  intros x y K Ok Br. unfold equal_objs, py_eq.
  destruct x as [g|v|e|p|f|l], y as [g'|v'|e'|p'|f'|l']; try (destruct K; reflexivity); try reflexivity;
    cbn [frame_ok broadcastable] in *.
  - unfold is_equal_to, pv_is_equal. cbn [attr_pvector attr_frame]. rewrite !bind_ret.
    destruct (aclose_broad _ _ Br) as [[|] ->]; unfold and_; rewrite bind_ret; reflexivity.
  - unfold is_equal_to, pv_is_equal. cbn [attr_pvector attr_frame]. rewrite !bind_ret.
    destruct (aclose_broad _ _ Br) as [[|] ->]; unfold and_; rewrite bind_ret; [|reflexivity].
    unfold frame_eq, local_eq. apply ends_catch. left. apply ok_false; auto; discriminate.
  - apply ok_false; auto; discriminate.
  - apply ok_false; auto; discriminate.
  - apply ok_false; auto; discriminate.
  - apply ok_false; auto; discriminate.
  - apply ok_false; auto; discriminate.
Qed.
Print Assumptions C42_different_kinds.
(** comparing arrays that do not broadcast raises ValueError instead of answering False *)
Theorem C42_incompatible_shapes_raise : forall v w, bshape (shape (n_normal v)) (shape (n_normal w)) = None ->
  raises (py_eq false (ONv v) (ONv w)) ValueError.
Proof.
  intros v w H. unfold py_eq, is_equal_to, nv_is_equal. cbn [attr_normal]. rewrite bind_ret.
  unfold aclose, allclose, isclose, map2. rewrite H. reflexivity.
Qed.
Print Assumptions C42_incompatible_shapes_raise.

Example C42_example : finite_obj (ONv ex_nv) /\ finite_obj (OLocal (LocalN ex_nv)).
Proof.
  pose proof (finite_is_nv _ _ _ _ _ _ _ ex_nv_ok) as F. split; [exact F|]. split; [exact F|]. split; [|exact I].
  destruct (R_EN_N _ _ _ _ _ _ _ ex_nv_ok) as (w & R & E & H). exists R. split; [rewrite E; reflexivity|].
  eapply mats_finite; eauto.
Qed.

(** ** C43 *)
(** two frames agree within the tolerances of == *)
Definition frames_close (a f : R) (M : mat) (a' f' : R) (M' : mat) : Prop :=
  close (/ 10 ^ 12) (/ 10 ^ 14) a a' /\ close (/ 10 ^ 12) (/ 10 ^ 14) f f' /\
  forall i k, (i < 3)%nat -> (k < 3)%nat -> close (/ 10 ^ 12) (/ 10 ^ 14) (ent M i k) (ent M' i k).

Lemma aclose_is_mat A B M N : is_mat A M -> is_mat B N ->
  exists r, aclose A B = ret r /\ (r = true <-> forall i k, (i < 3)%nat -> (k < 3)%nat -> close (/ 10 ^ 12) (/ 10 ^ 14) (ent M i k) (ent N i k)).
Proof.
  intros HA HB. apply is_mat_gmats in HA as [SA GA]. apply is_mat_gmats in HB as [SB GB].
  assert (V : forall ix, Forall2 lt ix [3%nat; 3%nat] -> exists i k, ix = [i; k] /\ (i < 3)%nat /\ (k < 3)%nat).
  { intros ix V. inversion V as [|i ? l ? Hi V1]; subst. inversion V1 as [|k ? l' ? Hk V2]; subst. inversion V2; subst. eauto. }
  destruct (C36_allclose_finite A B [3%nat; 3%nat] (fun ix => ent M (at_ ix 0) (at_ ix 1)) (fun ix => ent N (at_ ix 0) (at_ ix 1))
    rtol12 atol14 (/ 10 ^ 12) (/ 10 ^ 14) false) as (r & E & H); auto; try reflexivity.
  - intros ix Vx. destruct (V ix Vx) as (i & k & -> & Hi & Hk). apply GA; auto.
  - intros ix Vx. destruct (V ix Vx) as (i & k & -> & Hi & Hk). apply GB; auto.
  - exists r. split; [exact E|]. rewrite H. split.
    + intros K i k Hi Hk. apply (K [i; k]). auto.
    + intros K ix Vx. destruct (V ix Vx) as (i & k & -> & Hi & Hk). apply K; auto.
Qed.
Lemma frameE_eq_spec fr fr' a f M a' f' M' : is_frame fr a f M -> is_frame fr' a' f' M' ->
  exists r, frameE_eq fr (OFrameE fr') = ret r /\ (r = true <-> frames_close a f M a' f' M').
Proof.
  intros (A & B & C & _) (A' & B' & C' & _). unfold frameE_eq, frameE_is_equal, attr_a, attr_f, attr_R_Ee, and_.
  rewrite !bind_ret.
  destruct (aclose_scal _ _ _ _ A A') as (ra & -> & Ha). destruct (aclose_scal _ _ _ _ B B') as (rb & -> & Hb).
  destruct (aclose_is_mat _ _ _ _ C C') as (rc & -> & Hc). rewrite bind_ret.
  unfold frames_close. destruct ra; [rewrite bind_ret; destruct rb|]; (eexists; split; [reflexivity|]).
  - rewrite Hc. split; [intros H; split; [apply Ha|split; [apply Hb|]]|]; auto. tauto.
  - split; [discriminate|]. intros (_ & H & _). apply Hb in H. discriminate.
  - split; [discriminate|]. intros (H & _). apply Ha in H. discriminate.
Qed.

(** equality of angles: for some whole number of turns they differ by at most 1e-14 *)
Definition same_angle (x y : R) : Prop := exists k : Z, Rabs (x - y - 2 * PI * IZR k) <= / 10 ^ 14.

Lemma close_zero d : close (/ 10 ^ 12) (/ 10 ^ 14) d 0 <-> Rabs d <= / 10 ^ 14.
Proof.
  unfold close. rewrite Rminus_0_r, Rabs_R0. pose proof (Rabs_pos d). rewrite (Rmax_left (Rabs d)) by lra.
  assert (P : 0 < / 10 ^ 14) by (apply Rinv_0_lt_compat, pow_lt; lra).
  assert (Q : / 10 ^ 12 < 1 / 2) by lra. split; intros K.
  - destruct (Rle_dec (/ 10 ^ 12 * Rabs d) (/ 10 ^ 14)) as [L|L]; [rewrite Rmax_left in K by auto; auto|].
    rewrite Rmax_right in K by lra. nra.
  - eapply Rle_trans; [exact K|apply Rmax_l].
Qed.
Lemma angle_diff_spec x y a b : x ≈ a -> y ≈ b ->
  exists d, angle_diff x y = Fin d /\ (close (/ 10 ^ 12) (/ 10 ^ 14) d 0 <-> same_angle a b).
Proof.
  intros Hx Hy. destruct (angle_diff_fin _ _ _ _ Hx Hy) as (d & E & B & k & K). exists d. split; auto. rewrite close_zero.
  rewrite (Rabs_right d) by lra. split.
  - intros H. exists k. destruct K as [<-|K]; [rewrite Rabs_right; lra|]. rewrite <- (Ropp_involutive (a - b - _)), <- K, Rabs_Ropp, Rabs_right; lra.
  - intros (k' & H). pose proof PI_RGT_0 as P. pose proof PI2_1 as P1. assert (T : / 10 ^ 14 < 1) by lra.
    set (t := a - b - 2 * PI * IZR k') in *.
    assert (d = Rabs t).
    { apply (near_unique d (Rabs t) (a - b) k k'); auto.
      - split; [apply Rabs_pos|lra].
      - fold t. unfold Rabs. destruct (Rcase_abs t); [right|left]; lra. }
    lra.
Qed.
(** the three arrays of a GeoPoint have one shape s *)
Definition shaped (g : geoPoint) (s : list nat) : Prop := shape (g_lat g) = s /\ shape (g_lon g) = s /\ shape (g_z g) = s.
Definition entries_of (x : arr num) (s : list nat) (r : list nat -> R) : Prop := forall ix, Forall2 lt ix s -> get x ix ≈ r ix.

Lemma angle_arr x y s r t : shape x = s -> shape y = s -> entries_of x s r -> entries_of y s t ->
  exists d b, map2 angle_diff x y = ret d /\ aclose d z0 = ret b /\
    (b = true <-> forall ix, Forall2 lt ix s -> same_angle (r ix) (t ix)).
Proof.
  intros Sx Sy Hr Ht. unfold map2. rewrite Sx, Sy, bshape_refl.
  set (d := Arr s _). exists d.
  assert (V : forall ix, Forall2 lt ix s -> exists e, get d ix = Fin e /\ (close (/ 10 ^ 12) (/ 10 ^ 14) e 0 <-> same_angle (r ix) (t ix))).
  { intros ix V. unfold d; cbn [get]. rewrite !bidx_refl_valid by (auto; eapply F2len; eauto). apply angle_diff_spec; auto. }
  eexists. split; [reflexivity|]. unfold aclose, allclose, isclose, map2. rewrite bshape_nil_r, bind_ret. split; [reflexivity|].
  rewrite all_iff. cbn [shape get]. change (shape d) with s.
  split; intros H ix Vx; specialize (H ix Vx); destruct (V ix Vx) as (e & E & K).
  - rewrite bidx_refl_valid in H by (auto; eapply F2len; eauto). rewrite E in H. apply K.
    apply (isclose1_fin (/ 10 ^ 12) (/ 10 ^ 14) false rtol12 atol14 (Fin e) (Fin 0) e 0) in H; auto; reflexivity.
  - rewrite bidx_refl_valid by (auto; eapply F2len; eauto). rewrite E.
    apply (isclose1_fin (/ 10 ^ 12) (/ 10 ^ 14) false rtol12 atol14 (Fin e) (Fin 0) e 0); try reflexivity. apply K; auto.
Qed.

(** GeoPoints (of one shape, any number of dimensions, finite) are == exactly when all
    latitudes and longitudes agree up to whole turns and 1e-14, the depths are close and the frames are close *)
Theorem C43_equality_criterion : forall g h s la lo z la' lo' z' a f M a' f' M',
  shaped g s -> shaped h s ->
  entries_of (g_lat g) s la -> entries_of (g_lon g) s lo -> entries_of (g_z g) s z ->
  entries_of (g_lat h) s la' -> entries_of (g_lon h) s lo' -> entries_of (g_z h) s z' ->
  is_frame (g_frame g) a f M -> is_frame (g_frame h) a' f' M' ->
  exists b, equal_objs (OGeo g) (OGeo h) b /\
    (b = true <-> (forall ix, Forall2 lt ix s ->
                     same_angle (la ix) (la' ix) /\ same_angle (lo ix) (lo' ix) /\
                     close (/ 10 ^ 12) (/ 10 ^ 14) (z ix) (z' ix)) /\ frames_close a f M a' f' M').
Proof.
  intros g h s la lo z la' lo' z' a f M a' f' M' (S1 & S2 & S3) (T1 & T2 & T3) A B C A' B' C' F F'.
  destruct (angle_arr _ _ _ _ _ S1 T1 A A') as (d1 & b1 & E1 & Q1 & H1).
  destruct (angle_arr _ _ _ _ _ S2 T2 B B') as (d2 & b2 & E2 & Q2 & H2).
  destruct (C36_allclose_finite _ _ s z z' rtol12 atol14 (/ 10 ^ 12) (/ 10 ^ 14) false ltac:(reflexivity) ltac:(reflexivity) S3 T3 C C')
    as (b3 & E3 & H3). change (aclose (g_z g) (g_z h) = ret b3) in E3.
  destruct (frameE_eq_spec _ _ _ _ _ _ _ _ F F') as (b4 & E4 & H4).
  exists (b1 && (b2 && (b3 && b4))). split.
  - unfold equal_objs, py_eq. apply ends_catch. left. unfold is_equal_to, geo_is_equal.
    cbn [attr_latitude attr_longitude attr_z attr_frame]. rewrite !bind_ret, E1, !bind_ret, E2, bind_ret. unfold and_.
    rewrite Q1, bind_ret. destruct b1; [|reflexivity]. rewrite Q2, bind_ret. destruct b2; [|reflexivity].
    rewrite E3, bind_ret. destruct b3; [|reflexivity]. rewrite E4. reflexivity.
  - rewrite !andb_true_iff, H1, H2, H3, H4. split.
    + intros (P1 & P2 & P3 & P4). split; auto.
    + intros (P & P4). split; [intros; apply P; auto|]. split; [intros; apply P; auto|]. split; [intros; apply P; auto|auto].
Qed.
Print Assumptions C43_equality_criterion.

(** whole turns of latitude and longitude do not matter *)
Theorem C43_whole_turns : forall g h s la lo z a f M (k l : list nat -> Z),
  shaped g s -> shaped h s ->
  entries_of (g_lat g) s la -> entries_of (g_lon g) s lo -> entries_of (g_z g) s z ->
  entries_of (g_lat h) s (fun ix => la ix + 2 * PI * IZR (k ix)) ->
  entries_of (g_lon h) s (fun ix => lo ix + 2 * PI * IZR (l ix)) -> entries_of (g_z h) s z ->
  is_frame (g_frame g) a f M -> is_frame (g_frame h) a f M ->
  equal_objs (OGeo g) (OGeo h) true.
Proof.
  intros g h s la lo z a f M k l S T A B C A' B' C' F F'.
  destruct (C43_equality_criterion _ _ _ _ _ _ _ _ _ _ _ _ _ _ _ S T A B C A' B' C' F F') as (b & E & H).
  assert (P : 0 < / 10 ^ 14) by (apply Rinv_0_lt_compat, pow_lt; lra).
  assert (W : forall x (j : Z), same_angle x (x + 2 * PI * IZR j)).
  { intros x j. exists (- j)%Z. rewrite opp_IZR. replace (x - _ - _) with 0 by ring. rewrite Rabs_R0. lra. }
  assert (Q : forall x, close (/ 10 ^ 12) (/ 10 ^ 14) x x).
  { intros x. unfold close. replace (x - x) with 0 by ring. rewrite Rabs_R0. eapply Rle_trans; [left; exact P|apply Rmax_l]. }
  assert (b = true) as <-; auto. apply H. split; [|split; [|split]]; auto.
Qed.
Print Assumptions C43_whole_turns.

(** angles that differ by more than 1e-12 from every whole number of turns are told apart *)
Theorem C43_distinct : forall g h s la lo z la' lo' z' a f M a' f' M' ix,
  shaped g s -> shaped h s ->
  entries_of (g_lat g) s la -> entries_of (g_lon g) s lo -> entries_of (g_z g) s z ->
  entries_of (g_lat h) s la' -> entries_of (g_lon h) s lo' -> entries_of (g_z h) s z' ->
  is_frame (g_frame g) a f M -> is_frame (g_frame h) a' f' M' ->
  Forall2 lt ix s ->
  (forall k : Z, / 10 ^ 12 < Rabs (la ix - la' ix - 2 * PI * IZR k)) \/
  (forall k : Z, / 10 ^ 12 < Rabs (lo ix - lo' ix - 2 * PI * IZR k)) ->
  equal_objs (OGeo g) (OGeo h) false.
Proof.
  intros g h s la lo z la' lo' z' a f M a' f' M' ix S T A B C A' B' C' F F' V D.
  destruct (C43_equality_criterion _ _ _ _ _ _ _ _ _ _ _ _ _ _ _ S T A B C A' B' C' F F') as (b & E & H).
  destruct b; auto. exfalso. destruct (proj1 H eq_refl) as [G _]. destruct (G ix V) as ((k & K) & (l & L) & _).
  assert (/ 10 ^ 14 < / 10 ^ 12) by lra. destruct D as [D|D]; [specialize (D k)|specialize (D l)]; lra.
Qed.
Print Assumptions C43_distinct.

Example C43_example : exists g h, shaped g [] /\ shaped h [] /\ entries_of (g_lat g) [] (fun _ => 1) /\
  entries_of (g_lat h) [] (fun _ => 1 + 2 * PI * IZR (-3)) /\ is_frame (g_frame g) 6378137 (/ 298) Me /\
  is_frame (g_frame h) 6378137 (/ 298) Me.
Proof.
  exists (MkGeo (scal (Fin 1)) (scal (Fin 0)) z0 ex_frame), (MkGeo (scal (Fin (1 + 2 * PI * IZR (-3)))) (scal (Fin 0)) z0 ex_frame).
  pose proof ex_frame_ok. unfold shaped; repeat match goal with |- _ /\ _ => split end; auto; try reflexivity; try (intros ix V; reflexivity).
Qed.
