(** * Lemmas on library objects *)
From Coq Require Import String List Arith Lia Bool Reals Lra ZArith.
From Verif Require Import Num Py Nd MUtil MRotation MCore MObjects Spec SpecArr SpecObj LNum LTrig LVec LArr LLatLon LMat LRot
  LAngle PUtil LEq LEcef PEcef PRot PFrame PEq.
Import ListNotations.
Local Open Scope R_scope.

Lemma ends_inl {A} w (a : A) : ends (w, inl a) a. Proof. reflexivity. Qed.
Lemma ends_bind_i {A B} (m : M A) (f : A -> M B) a b : ends m a -> ends (f a) b -> ends (bind m f) b.
Proof. intros H K. apply ends_bind. eauto. Qed.
Lemma ends_fun {A} (m : M A) a b : ends m a -> ends m b -> a = b.
Proof. unfold ends. congruence. Qed.

(** ** spread values *)
Lemma spread_vals a n z : vals a n z -> spread a n z.
Proof.
  intros H. exists n, z. split; auto. split; [apply bdim_refl|]. intros j Hj. rewrite (cl_id n j Hj). reflexivity.
Qed.
Lemma spread_scalar a n r : scalar a r -> spread a n (fun _ => r).
Proof. intros H. exists 1%nat, (fun _ => r). split; [apply vals_scalar; auto|]. split; [apply bdim_1_r|]. auto. Qed.

(** ** matrices *)
Lemma mdot_mats A B n m k F G : mats A n F -> mats B m G -> bdim n m = Some k ->
  exists C, mdot A B = ret C /\ mats C k (fun j => mmul (F (cl n j)) (G (cl m j))).
Proof.
  intros HA HB D. destruct (mdot_gmats A B n m k F G (mats_gmats _ _ _ HA) (mats_gmats _ _ _ HB) D) as (C & E & HC).
  exists C. split; auto.
  assert (S : k = 1%nat -> shape C = [3%nat; 3%nat]).
  { intros ->. apply bdim_inv in D.
    destruct HA as [[-> [SA _]]|[NA [SA _]]]; [|lia]. destruct HB as [[-> [SB _]]|[NB [SB _]]]; [|lia].
    unfold mdot, einsum_ij_jk in E. rewrite SA, SB in E. cbn in E. injection E as <-. reflexivity. }
  destruct HC as (s & SC & Cs & G'). destruct (Nat.eq_dec k 1) as [->|N].
  - left. split; auto. apply is_mat_gmats. split; [auto|]. rewrite S in SC by auto. injection SC as <-.
    intros i l Hi Hl. apply (G' i l 0%nat Hi Hl). lia.
  - right. split; auto. destruct Cs as [[_ K]| ->]; [lia|]. apply mats3_ent. split; auto.
    intros i l j Hi Hl Hj. specialize (G' i l j Hi Hl Hj). rewrite bidx_1, (cl_id k j Hj) in G'. exact G'.
Qed.
Lemma mats_valid A n F ix : mats A n F -> Forall2 lt ix (shape A) ->
  exists i k j, (i < 3)%nat /\ (k < 3)%nat /\ (j < n)%nat /\ get A ix ≈ ent (F j) i k /\
    ix = i :: k :: (if (n =? 1)%nat then [] else [j]).
Proof.
  intros [[-> H]|[N H]] V.
  - apply is_mat_gmats in H as [S G]. rewrite S in V.
    inversion V as [|i ? l ? Hi V1]; subst. inversion V1 as [|k ? l' ? Hk V2]; subst. inversion V2; subst.
    exists i, k, 0%nat. repeat split; auto.
  - apply mats3_ent in H as [S G]. rewrite S in V.
    inversion V as [|i ? l ? Hi V1]; subst. inversion V1 as [|k ? l' ? Hk V2]; subst.
    inversion V2 as [|j ? l'' ? Hj V3]; subst. inversion V3; subst.
    exists i, k, j. apply Nat.eqb_neq in N. rewrite N. repeat split; auto.
Qed.
Lemma mats_shape A n F : mats A n F -> shape A = 3%nat :: 3%nat :: (if (n =? 1)%nat then [] else [n]).
Proof.
  intros [[-> [S _]]|[N [S _]]]; rewrite S; auto. apply Nat.eqb_neq in N. rewrite N. reflexivity.
Qed.
Lemma mats_finite A n F : mats A n F -> finite_arr A.
Proof. intros H ix V. destruct (mats_valid _ _ _ _ H V) as (i & k & j & _ & _ & _ & G & _). eapply fin_finite; eauto. Qed.
Lemma mats_aclose A B n F : mats A n F -> mats B n F -> aclose A B = ret true.
Proof.
  intros HA HB. apply aclose_same.
  - rewrite (mats_shape _ _ _ HA), (mats_shape _ _ _ HB). reflexivity.
  - eapply mats_finite; eauto.
  - intros ix V r Hr. destruct (mats_valid _ _ _ _ HA V) as (i & k & j & Hi & Hk & Hj & G & ->).
    rewrite (mats_shape _ _ _ HA), <- (mats_shape _ _ _ HB) in V.
    destruct (mats_valid _ _ _ _ HB V) as (i' & k' & j' & Hi' & Hk' & Hj' & G' & E).
    rewrite (fin_unique _ _ _ Hr G). injection E as <- <- E.
    destruct (n =? 1)%nat eqn:Q.
    + apply Nat.eqb_eq in Q. subst. assert (j = 0%nat) by lia. assert (j' = 0%nat) by lia. subst. exact G'.
    + injection E as <-. exact G'.
Qed.
Lemma is_mat_mats A M : is_mat A M -> mats A 1 (fun _ => M).
Proof. intros H. left. auto. Qed.

(** ** R_EN *)
Lemma bdim_n1 n m k : bdim n m = Some n -> bdim n k = Some n -> exists l, bdim m k = Some l /\ bdim n l = Some n /\
  (forall j, (j < n)%nat -> cl m (cl l j) = cl m j /\ cl k (cl l j) = cl k j).
Proof.
  intros Hm Hk. pose proof (bdim_inv _ _ _ Hm) as [_ Cm]. pose proof (bdim_inv _ _ _ Hk) as [_ Ck].
  destruct Cm as [->| ->], Ck as [->| ->].
  - exists n. split; [apply bdim_refl|]. split; [apply bdim_refl|]. intros j Hj. rewrite !(cl_id n j Hj). auto.
  - exists n. split; [apply bdim_1_r|]. split; [apply bdim_refl|]. intros j Hj. rewrite !(cl_id n j Hj). auto.
  - exists n. split; [apply bdim_1_l|]. split; [apply bdim_refl|]. intros j Hj. rewrite !(cl_id n j Hj). auto.
  - exists 1%nat. split; [apply bdim_refl|]. split; [apply bdim_1_r|]. intros j Hj. auto.
Qed.

Definition wander (l : local) : arr num := match l with LocalL _ wa => wa | _ => z0 end.

Lemma is_nv_local l n a f M : is_local l n a f M -> exists u z, is_nv (l_nvector l) n u z a f M.
Proof.
  destruct l; cbn [is_local l_nvector].
  - auto.
  - intros (u & z & w & H & _). eauto.
  - intros (u & z & y & p & r & H & _). eauto.
Qed.

Lemma R_EN_N v n u z a f M : is_nv v n u z a f M ->
  exists w R, R_EN (LocalN v) = (w, inl R) /\ mats R n (fun j => NED M (direction (u j))).
Proof.
  intros (Hn & Hc & Nz & _ & (_ & _ & HR & HM)).
  destruct (n_E2R_EN_spec (n_normal v) n u (Some (fe_R (n_frame v))) M HR HM Hc Hn Nz) as (R & E & H).
  do 2 eexists. split; [exact E|exact H].
Qed.
Lemma R_EN_L v wa n u z w a f M : is_nv v n u z a f M -> spread wa n w ->
  exists ws R la lo, R_EN (LocalL v wa) = (ws, inl R) /\
    (forall j, (j < n)%nat -> lat_of (mulv M (u j)) (la j) /\ lon_of (mulv M (u j)) (lo j)) /\
    mats R n (fun j => mmul (mT M) (Mxyz (lo j) (- la j) (w j))).
Proof.
  intros (Hn & Hc & Nz & _ & (_ & _ & HR & HM)) (m & r & Hv & D & Hw).
  destruct (n_E_and_wa2R_EL_spec (n_normal v) n u wa m r (Some (fe_R (n_frame v))) M HR HM Hc Hn Hv D)
    as (R & la & lo & E & L & H).
  exists (length_warning (vnorm (u 0%nat))), R, la, lo. split; [exact E|]. split; auto.
  eapply mats_ext; [|exact H]. intros j Hj. cbn beta. rewrite Hw by auto. reflexivity.
Qed.
Lemma R_EN_B v yaw pitch roll n u z y p r a f M : is_nv v n u z a f M ->
  spread yaw n y -> spread pitch n p -> spread roll n r ->
  exists ws R, R_EN (LocalB v yaw pitch roll) = (ws, inl R) /\
    mats R n (fun j => mmul (NED M (direction (u j))) (Mzyx (y j) (p j) (r j))).
Proof.
  intros (Hn & Hc & Nz & _ & (_ & _ & HR & HM)) (my & ry & Vy & Dy & Hy) (mp & rp & Vp & Dp & Hp) (mr & rr & Vr & Dr & Hr).
  destruct (bdim_n1 _ _ _ Dr Dp) as (l & Dl & Dnl & Cl). destruct (bdim_n1 _ _ _ Dnl Dy) as (k & Dk & Dnk & Ck).
  assert (D3 : bdim3 mr mp my = Some k) by (unfold bdim3; rewrite Dl; exact Dk).
  destruct (zyx2R_spec yaw pitch roll mr mp my k rr rp ry Vr Vp Vy D3) as (B & EB & HB).
  destruct (n_E2R_EN_spec (n_normal v) n u (Some (fe_R (n_frame v))) M HR HM Hc Hn Nz) as (R & E & H).
  destruct (mdot_mats _ _ _ _ _ _ _ H HB Dnk) as (C & EC & HC).
  unfold R_EN. rewrite EB, bind_ret, E, bind_inl, EC. do 2 eexists. split; [reflexivity|].
  eapply mats_ext; [|exact HC]. intros j Hj. cbn beta. rewrite (cl_id n j Hj).
  assert (X : k = n \/ (my = 1 /\ mp = 1 /\ mr = 1)%nat).
  { destruct (bdim_inv _ _ _ Dnk) as [_ [->| ->]]; [auto|]. right.
    destruct (bdim_inv _ _ _ Dk) as [[->| ->] [->| ->]]; destruct (bdim_inv _ _ _ Dl) as [[->| ->] [->| ->]]; auto. }
  assert (X1 : cl my (cl k j) = cl my j) by (destruct X as [->|(-> & -> & ->)]; [rewrite (cl_id n j Hj)|]; reflexivity).
  assert (X2 : cl mp (cl k j) = cl mp j) by (destruct X as [->|(-> & -> & ->)]; [rewrite (cl_id n j Hj)|]; reflexivity).
  assert (X3 : cl mr (cl k j) = cl mr j) by (destruct X as [->|(-> & -> & ->)]; [rewrite (cl_id n j Hj)|]; reflexivity).
  rewrite X1, X2, X3, <- Hy, <- Hp, <- Hr by auto. reflexivity.
Qed.

(** every well-formed local frame gives rotation matrices whose columns are orthonormal *)
Lemma R_EN_rotation l n a f M : is_local l n a f M ->
  exists ws R F, R_EN l = (ws, inl R) /\ mats R n F /\ forall j, (j < n)%nat -> rotation (F j).
Proof.
  destruct l as [v|v wa|v yaw pitch roll]; cbn [is_local].
  - intros (u & z & H). destruct (R_EN_N _ _ _ _ _ _ _ H) as (w & R & E & HF). exists w, R. eexists. split; [exact E|].
    split; [exact HF|]. destruct H as (_ & _ & Nz & _ & (_ & _ & _ & HM)). intros j Hj. apply NED_rotation; auto.
    apply direction_unit; auto.
  - intros (u & z & w & H & S). destruct (R_EN_L _ _ _ _ _ _ _ _ _ H S) as (ws & R & la & lo & E & _ & HF).
    exists ws, R. eexists. split; [exact E|]. split; [exact HF|]. intros j Hj. destruct H as (_ & _ & _ & _ & (_ & _ & _ & HM)).
    apply rotation_mul; [apply rotation_T; auto|apply Mxyz_rotation].
  - intros (u & z & y & p & r & H & Sy & Sp & Sr). destruct (R_EN_B _ _ _ _ _ _ _ _ _ _ _ _ _ H Sy Sp Sr) as (ws & R & E & HF).
    exists ws, R. eexists. split; [exact E|]. split; [exact HF|]. intros j Hj. destruct H as (_ & _ & Nz & _ & (_ & _ & _ & HM)).
    apply rotation_mul; [apply NED_rotation; auto; apply direction_unit; auto|apply Mzyx_rotation].
Qed.
