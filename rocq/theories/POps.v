(** * C57: arithmetic of Nvectors;  C58: FrameE parameters *)
From Coq Require Import String List Arith Lia Bool Reals Lra ZArith QArith Qreals FunctionalExtensionality.
From Verif Require Import Num Py Nd MUtil MRotation MCore MObjects Spec SpecArr SpecObj LNum LTrig LVec LArr LLatLon LMat LRot
  LAngle PUtil LEq LEcef PEcef PRot PFrame PEq LObj PEq2 LDirect LObj2 PObj PObj2.
Import ListNotations.
Local Open Scope R_scope.

(** ** C57 *)
(** n normals u j and l depths z j (l = n, or l = 1) in a frame (a, f, M); nothing is assumed about
    the lengths of the normals *)
Definition holds_nv (v : nvector) (n : nat) (u : nat -> Spec.vec) (l : nat) (z : nat -> R) (fr : frameE) : Prop :=
  cols (n_normal v) n u /\ vals (n_z v) l z /\ n_frame v = fr.

Lemma sub_vals a z n m k u r : vals a n u -> vals z m r -> bdim n m = Some k ->
  exists C, map2 nsub a z = ret C /\ vals C k (fun j => u (cl n j) - r (cl m j)).
Proof. intros Ha Hz D. apply (map2_vals nsub Rminus (fun _ => True)) with (1 := fun x y p q Hx Hy _ => fin_sub x y p q Hx Hy); auto. Qed.
Lemma add_vals a z n m k u r : vals a n u -> vals z m r -> bdim n m = Some k ->
  exists C, map2 nadd a z = ret C /\ vals C k (fun j => u (cl n j) + r (cl m j)).
Proof. intros Ha Hz D. apply (map2_vals nadd Rplus (fun _ => True)) with (1 := fun x y p q Hx Hy _ => fin_add x y p q Hx Hy); auto. Qed.
Lemma mul_vals a z n m k u r : vals a n u -> vals z m r -> bdim n m = Some k ->
  exists C, map2 nmul a z = ret C /\ vals C k (fun j => u (cl n j) * r (cl m j)).
Proof. intros Ha Hz D. apply (map2_vals nmul Rmult (fun _ => True)) with (1 := fun x y p q Hx Hy _ => fin_mul x y p q Hx Hy); auto. Qed.
Lemma div_vals a z n m k u r : vals a n u -> vals z m r -> bdim n m = Some k -> (forall j, (j < m)%nat -> r j <> 0) ->
  exists C, map2 ndiv a z = ret C /\ vals C k (fun j => u (cl n j) / r (cl m j)).
Proof. intros Ha Hz D N. apply (map2_vals ndiv Rdiv (fun b => b <> 0)) with (1 := fun x y p q Hx Hy => fin_div x y p q Hx Hy); auto. Qed.

(** + and - are componentwise, with broadcasting of widths *)
Theorem C57_add_sub_componentwise : forall v w n m k u u' l l' h z z' fv fw a f M,
  holds_nv v n u l z fv -> holds_nv w m u' l' z' fw -> is_frame fv a f M -> is_frame fw a f M ->
  bdim n m = Some k -> bdim l l' = Some h ->
  returns (nv_add v w) [] (fun r => holds_nv r k (fun j => vadd (u (cl n j)) (u' (cl m j))) h (fun j => z (cl l j) + z' (cl l' j)) fv) /\
  returns (nv_sub v w) [] (fun r => holds_nv r k (fun j => vsub (u (cl n j)) (u' (cl m j))) h (fun j => z (cl l j) - z' (cl l' j)) fv).
Proof.
  intros v w n m k u u' l l' h z z' fv fw a f M (A1 & A2 & A3) (B1 & B2 & B3) F G D D'. unfold nv_add, nv_sub.
  rewrite A3, B3, (check_frames_same _ _ _ _ _ F G), !bind_ret. split.
  - destruct (add_cols _ _ _ _ _ _ _ A1 B1 D) as (C & E & HC). rewrite E, bind_ret.
    destruct (add_vals _ _ _ _ _ _ _ A2 B2 D') as (Z & EZ & HZ). rewrite EZ, bind_ret. unfold Nvector, default_frame. rewrite bind_ret.
    eexists. split; [reflexivity|]. split; [exact HC|split; [exact HZ|exact A3 || reflexivity]].
  - destruct (sub_cols _ _ _ _ _ _ _ A1 B1 D) as (C & E & HC). rewrite E, bind_ret.
    destruct (sub_vals _ _ _ _ _ _ _ A2 B2 D') as (Z & EZ & HZ). rewrite EZ, bind_ret. unfold Nvector, default_frame. rewrite bind_ret.
    eexists. split; [reflexivity|]. split; [exact HC|split; [exact HZ|exact A3 || reflexivity]].
Qed.
Print Assumptions C57_add_sub_componentwise.

(** unary minus *)
Theorem C57_neg_componentwise : forall v n u l z fr, holds_nv v n u l z fr ->
  returns (nv_neg v) [] (fun r => holds_nv r n (fun j => vneg (u j)) l (fun j => - z j) fr).
Proof.
  intros v n u l z fr (A1 & A2 & A3). unfold nv_neg, Nvector, default_frame. rewrite bind_ret. eexists. split; [reflexivity|].
  split; [apply cols_neg; auto|]. split; auto. cbn [n_z]. apply (vals_map1 nneg Ropp); auto. apply fin_neg.
Qed.
Print Assumptions C57_neg_componentwise.

(** * and / by numbers: one number c j per column, or one for all *)
Theorem C57_mul_div_componentwise : forall v n u l z fr x m c k h, holds_nv v n u l z fr -> vals x m c ->
  bdim n m = Some k -> bdim l m = Some h ->
  returns (nv_mul v (AScalar x)) [] (fun r => holds_nv r k (fun j => vscale (c (cl m j)) (u (cl n j))) h (fun j => z (cl l j) * c (cl m j)) fr) /\
  ((forall j, (j < m)%nat -> c j <> 0) ->
   returns (nv_div v (AScalar x)) [] (fun r => holds_nv r k (fun j => vscale (/ c (cl m j)) (u (cl n j))) h (fun j => z (cl l j) / c (cl m j)) fr)).
Proof.
  intros v n u l z fr x m c k h (A1 & A2 & A3) Hx D D'. split.
  - unfold nv_mul. destruct (mul_cols_vals _ _ _ _ _ _ _ A1 Hx D) as (C & E & HC). rewrite E, bind_ret.
    destruct (mul_vals _ _ _ _ _ _ _ A2 Hx D') as (Z & EZ & HZ). rewrite EZ, bind_ret. unfold Nvector, default_frame. rewrite bind_ret.
    eexists. split; [reflexivity|]. split; [exact HC|split; [exact HZ|exact A3 || reflexivity]].
  - intros N. unfold nv_div.
    destruct (map2_cols_vals ndiv Rdiv (fun b => b <> 0) _ _ _ _ _ _ _ (fun x y a b Hx Hy => fin_div x y a b Hx Hy) A1 Hx D N) as (C & E & HC).
    rewrite E, bind_ret.
    destruct (div_vals _ _ _ _ _ _ _ A2 Hx D' N) as (Z & EZ & HZ). rewrite EZ, bind_ret. unfold Nvector, default_frame. rewrite bind_ret.
    eexists. split; [reflexivity|]. split; [|split; auto]. eapply cols_ext; [|exact HC]. intros j Hj. unfold vmap, vscale.
    f_equal; unfold Rdiv; ring.
Qed.
Print Assumptions C57_mul_div_componentwise.

(** multiplying or dividing by an Nvector is refused *)
Theorem C57_mul_nvector_refused : forall v w,
  raises (nv_mul v (AnNvector w)) NotImplementedError /\ raises (nv_div v (AnNvector w)) NotImplementedError.
Proof. split; reflexivity. Qed.
Print Assumptions C57_mul_nvector_refused.

Lemma nadd_comm x y : nadd x y = nadd y x.
Proof. destruct x as [r| |b|], y as [s| |c|]; cbn [nadd fval]; try reflexivity; try (f_equal; ring). destruct b, c; reflexivity. Qed.
Lemma map2_comm f (x y : arr num) : (forall a b : num, f a b = f b a :> num) -> map2 f x y = map2 f y x.
Proof.
  intros H. unfold map2. rewrite (bshape_comm (shape y)). destruct (bshape _ _); [|reflexivity].
  do 2 f_equal. apply functional_extensionality. intros ix. apply H.
Qed.
(** a + b and b + a hold the same arrays, for all contents (NaN and infinities included) and all shapes;
    with incompatible shapes both raise ValueError *)
Theorem C57_add_commutative : forall v w a f M, is_frame (n_frame v) a f M -> is_frame (n_frame w) a f M ->
  (exists r s, nv_add v w = ret r /\ nv_add w v = ret s /\ n_normal r = n_normal s /\ n_z r = n_z s) \/
  (raises (nv_add v w) ValueError /\ raises (nv_add w v) ValueError).
Proof.
  intros v w a f M F G. unfold nv_add. rewrite (check_frames_same _ _ _ _ _ F G), (check_frames_same _ _ _ _ _ G F), !bind_ret.
  rewrite (map2_comm nadd (n_normal w)), (map2_comm nadd (n_z w)) by apply nadd_comm. unfold map2.
  destruct (bshape (shape (n_normal v)) (shape (n_normal w))); [|right; split; reflexivity]. rewrite !bind_ret.
  destruct (bshape (shape (n_z v)) (shape (n_z w))); [|right; split; reflexivity]. rewrite !bind_ret. left.
  unfold Nvector, default_frame. rewrite !bind_ret. do 2 eexists. repeat (split; [reflexivity|]). reflexivity.
Qed.
Print Assumptions C57_add_commutative.

(** a - b is a + (- b): same arrays, same frame, same exceptions, for all contents and shapes *)
Theorem C57_sub_is_add_neg : forall v w, nv_sub v w = (x <- nv_neg w ;; nv_add v x).
Proof.
  intros v w. assert (E : nv_neg w = ret (MkNv (map1 nneg (n_normal w)) (map1 nneg (n_z w)) (n_frame w))) by reflexivity.
  rewrite E, bind_ret. reflexivity.
Qed.
Print Assumptions C57_sub_is_add_neg.

Definition ex_nv : nvector := MkNv (col3 (Fin 1) (Fin 2) (Fin (-2))) (scal (Fin 3)) ex_frame.
Example C57_example : holds_nv ex_nv 1 (fun _ => V 1 2 (-2)) 1 (fun _ => 3) ex_frame /\ is_frame ex_frame 6378137 (/ 298) Me /\
  vals (arr1 [2; 5; 7]) 3 (fun j => nth j [2; 5; 7] 0) /\ bdim 1 3 = Some 3%nat /\ forall j, (j < 3)%nat -> nth j [2; 5; 7] 0 <> 0.
Proof.
  split. { split; [apply col3_cols|]. split; [|reflexivity]. apply vals_scalar, scal_scalar. }
  split; [apply ex_frame_ok|]. split; [right; apply arr1_list1|]. split; [reflexivity|].
  intros j Hj. destruct j as [|[|[|j]]]; cbn; try lra. lia.
Qed.

(** ** C58 *)
(** axes = 'e' (z axis to the North pole) or 'E' (x axis to the North pole) *)
Definition axes_matrix (axes : string) (M : mat) : Prop := (axes = "e"%string /\ M = Me) \/ (axes = "E"%string /\ M = ME).

Lemma R_e_mat : is_mat R_e Me. Proof. apply mat33_is_mat. Qed.
Lemma R_E_mat : is_mat R_E ME. Proof. apply mat33_is_mat. Qed.
Lemma Me_rot : rotation Me.
Proof. split; [unfold orthogonal, Me, mmul, mT, mI, vdot; cbn [vx vy vz r0 r1 r2]; f_equal; f_equal; ring|]. unfold mdet, Me, vdot, vcross; cbn. ring. Qed.
Lemma ME_rot : rotation ME.
Proof. split; [unfold orthogonal, ME, mmul, mT, mI, vdot; cbn [vx vy vz r0 r1 r2]; f_equal; f_equal; ring|]. unfold mdet, ME, mI, vdot, vcross; cbn. ring. Qed.
Lemma E_rotation_spec axes : 
  (forall M, axes_matrix axes M -> exists R, E_rotation axes = ret R /\ is_mat R M /\ rotation M) /\
  ((forall M, ~ axes_matrix axes M) -> E_rotation axes = raise KeyError).
Proof.
  unfold E_rotation. split.
  - intros M [[-> ->]|[-> ->]]; cbn [String.eqb Ascii.eqb Bool.eqb]; eexists; (split; [reflexivity|]).
    + split; [apply R_e_mat|apply Me_rot]. + split; [apply R_E_mat|apply ME_rot].
  - intros H. destruct (String.eqb axes "e") eqn:E1.
    + apply String.eqb_eq in E1. exfalso. apply (H Me). left; auto.
    + destruct (String.eqb axes "E") eqn:E2; [|reflexivity].
      apply String.eqb_eq in E2. exfalso. apply (H ME). right; auto.
Qed.

(** both parameters given: they are used, whatever the name *)
Theorem C58_explicit_parameters : forall xa xf a f name axes M, xa ≈ a -> xf ≈ f -> axes_matrix axes M ->
  returns (FrameE (Some xa) (Some xf) name axes) [] (fun fr => is_frame fr a f M /\ fe_name fr = name).
Proof.
  intros xa xf a f name axes M Ha Hf HM. destruct (proj1 (E_rotation_spec axes) M HM) as (R & E & HR & Rot).
  unfold FrameE. rewrite bind_ret, E, bind_ret. eexists. split; [reflexivity|]. split; [split; [auto; reflexivity|split; [auto; reflexivity|split; [exact HR|exact Rot]]]|reflexivity].
Qed.
Print Assumptions C58_explicit_parameters.

(** no parameter given: those of the named ellipsoid; an unknown name or unknown axes raise KeyError *)
Theorem C58_named_ellipsoid : forall name axes,
  (forall e M, ends (get_ellipsoid name) e -> axes_matrix axes M ->
     returns (FrameE None None name axes) [] (fun fr => is_frame fr (Q2R (el_a e)) (Q2R (el_f e)) M /\ fe_name fr = name)) /\
  (raises (get_ellipsoid name) KeyError -> raises (FrameE None None name axes) KeyError) /\
  ((forall M, ~ axes_matrix axes M) -> forall a f, raises (FrameE (Some a) (Some f) name axes) KeyError /\ raises (FrameE None None name axes) KeyError).
Proof.
  intros name axes. assert (W : fst (get_ellipsoid name) = []).
  { unfold get_ellipsoid. destruct name; [destruct (lookup _ _) as [i|]; [|reflexivity]|]; destruct (ELLIPSOID i); reflexivity. }
  assert (X : forall e, raises (get_ellipsoid name) e -> e = KeyError).
  { unfold get_ellipsoid, raises. intros e. destruct name; [destruct (lookup _ _) as [i|]; [|cbn; congruence]|]; destruct (ELLIPSOID i); cbn; congruence. }
  unfold ends, raises in *. destruct (get_ellipsoid name) as [ws r] eqn:G. cbn [fst snd] in *. subst ws.
  split; [|split].
  - intros e M -> HM. destruct (proj1 (E_rotation_spec axes) M HM) as (R & E & HR & Rot).
    unfold FrameE. rewrite G; cbn [bind ret app]; rewrite E; cbn [bind ret app]. eexists. split; [reflexivity|]. split; [split; [auto; reflexivity|split; [auto; reflexivity|split; [exact HR|exact Rot]]]|reflexivity].
  - intros ->. unfold FrameE. rewrite G. reflexivity.
  - intros H a f. pose proof (proj2 (E_rotation_spec axes) H) as E. split; unfold FrameE.
    + rewrite bind_ret, E. reflexivity.
    + rewrite G. destruct r as [e|e]; [cbn [bind ret app]; rewrite E; reflexivity|]. cbn. rewrite (X e eq_refl). reflexivity.
Qed.
Print Assumptions C58_named_ellipsoid.

(** only one of a and f given: it is silently ignored *)
Theorem C58_single_parameter_refuted : forall x name axes,
  FrameE (Some x) None name axes = FrameE None None name axes /\ FrameE None (Some x) name axes = FrameE None None name axes.
Proof. split; reflexivity. Qed.
Print Assumptions C58_single_parameter_refuted.
(** e.g. FrameE(a=1) has the semi-major axis of WGS84 *)
Example C58_example : returns (FrameE (Some (Fin 1)) None (KStr "WGS84") "e") [] (fun fr => fe_a fr ≈ 6378137) /\
  axes_matrix "E" ME /\ ends (get_ellipsoid (KStr "WGS 84")) (Ellipsoid (dec 63781370 1) (1 / dec 298257223563 9) "GRS80 / WGS84  (NAD83)").
Proof.
  split; [|split; [right; auto|reflexivity]]. eexists. split; [reflexivity|]. cbn [fe_a]. cbn -[Q2R].
  unfold Q2R; cbn. lra.
Qed.
