(** * Lemmas on == : symmetry and reflexivity of the tolerance comparisons *)
From Coq Require Import String List Arith Lia Bool Reals Lra ZArith.
From Verif Require Import Num Py Nd MUtil MRotation MCore MObjects Spec SpecArr LNum LTrig LVec LArr LMat PUtil.
Import ListNotations.
Local Open Scope R_scope.

(** ** pointwise equal boolean arrays *)
Lemma allb_ext n f g : (forall k, (k < n)%nat -> f k = g k) -> allb n f = allb n g.
Proof. induction n; simpl; intros H; auto. rewrite IHn, H; auto. Qed.
Lemma all_ext a b : shape a = shape b -> (forall ix, Forall2 lt ix (shape a) -> get a ix = get b ix) -> all_ a = all_ b.
Proof.
  intros S G. unfold all_, size. rewrite <- S. apply allb_ext. intros k Hk. apply G. apply unravel_valid. exact Hk.
Qed.

Lemma allclose_sym a b r t e : allclose a b r t e = allclose b a r t e.
Proof.
  unfold allclose. destruct (C35_symmetric a b r t e) as [[H1 H2]|(c & d & -> & -> & S & G)].
  - unfold isclose, map2, raises in *. rewrite (bshape_comm (shape b)) in *.
    destruct (bshape (shape a) (shape b)); [discriminate|reflexivity].
  - rewrite !bind_ret. rewrite (all_ext c d); auto.
Qed.
Lemma aclose_sym a b : aclose a b = aclose b a.
Proof. apply allclose_sym. Qed.

(** aclose emits no warning and raises nothing but ValueError *)
Lemma aclose_total a b : (exists r, aclose a b = ret r) \/ aclose a b = raise ValueError.
Proof.
  unfold aclose, allclose, isclose, map2. destruct (bshape (shape a) (shape b)); [left|right; reflexivity].
  rewrite bind_ret. eexists; reflexivity.
Qed.

(** every entry is finite *)
Definition finite_arr (a : arr num) : Prop := forall ix, Forall2 lt ix (shape a) -> isfinite (get a ix) = true.

Lemma aclose_refl a : finite_arr a -> aclose a a = ret true.
Proof.
  intros F. unfold aclose.
  assert (P : 0 < / 10 ^ 14) by (apply Rinv_0_lt_compat, pow_lt; lra).
  destruct (C35_reflexive a rtol12 atol14 (/ 10 ^ 12) (/ 10 ^ 14) false (fin_Fin _) (fin_Fin _) ltac:(lra)) as (c & E & S & H).
  unfold allclose. change (isclose a a rtol12 atol14 false = ret c) in E. rewrite E, bind_ret. f_equal. f_equal.
  assert (X : all_ c = true); [|rewrite X; reflexivity].
  apply all_iff. rewrite S. intros ix V. apply H; auto. left. intros N. specialize (F ix V). rewrite N in F. discriminate.
Qed.

(** two arrays holding the same finite numbers *)
Lemma aclose_same a b : shape a = shape b -> finite_arr a ->
  (forall ix, Forall2 lt ix (shape a) -> forall r, get a ix ≈ r -> get b ix ≈ r) -> aclose a b = ret true.
Proof.
  intros S F G.
  assert (P : 0 < / 10 ^ 14) by (apply Rinv_0_lt_compat, pow_lt; lra).
  set (f := fun ix => fval (get a ix)).
  destruct (C36_allclose_finite a b (shape a) f f rtol12 atol14 (/ 10 ^ 12) (/ 10 ^ 14) false) as (r & E & H); auto;
    try apply fin_Fin.
  - intros ix V. unfold f. destruct (finite_fin _ (F ix V)) as [x Hx]. rewrite (fin_fval _ _ Hx). exact Hx.
  - intros ix V. apply G; auto. unfold f. destruct (finite_fin _ (F ix V)) as [x Hx]. rewrite (fin_fval _ _ Hx). exact Hx.
  - unfold aclose. rewrite E. unfold ret. f_equal. f_equal. apply H. intros ix V. unfold close.
    replace (f ix - f ix) with 0 by ring. rewrite Rabs_R0. eapply Rle_trans; [left; exact P|apply Rmax_l].
Qed.

(** ** no AttributeError comes out of the numerical functions *)
Definition noattr {A} (m : M A) : Prop := snd m <> inr AttributeError.
Lemma na_ret {A} (a : A) : noattr (ret a). Proof. unfold noattr; simpl; discriminate. Qed.
Lemma na_bind {A B} (m : M A) (f : A -> M B) : noattr m -> (forall a, noattr (f a)) -> noattr (bind m f).
Proof.
  unfold noattr, bind. destruct m as [w [a|e]]; simpl; intros H G.
  - specialize (G a). destruct (f a); simpl in *. auto.
  - intros E. apply H. congruence.
Qed.
Lemma na_map2 {A B C} (f : A -> B -> C) a b : noattr (map2 f a b).
Proof. unfold map2, noattr. destruct (bshape _ _); simpl; discriminate. Qed.
Ltac na1 := match goal with
  | |- noattr (ret _) => apply na_ret
  | |- noattr (bind _ _) => apply na_bind; [|intros ?]
  | |- noattr (map2 _ _ _) => apply na_map2
  | |- noattr (let '(_, _) := ?p in _) => destruct p
  | |- noattr (match ?p with (_, _) => _ end) => destruct p
  end.
Ltac naprim := unfold noattr; repeat (match goal with |- context [match ?x with _ => _ end] => destruct x end); simpl; discriminate.
Lemma na_default R : noattr (default_R R). Proof. destruct R; simpl; [apply na_ret|unfold E_rotation; simpl; apply na_ret]. Qed.
Lemma na_dot a b : noattr (dot a b). Proof. unfold dot. naprim. Qed.
Lemma na_norm0 a : noattr (norm0 a). Proof. unfold norm0. naprim. Qed.
Lemma na_norm0k a : noattr (norm0_keep a). Proof. unfold norm0_keep. naprim. Qed.
Lemma na_col0 {A} (a : arr A) : noattr (col0 a). Proof. unfold col0. naprim. Qed.
Lemma na_row {A} i (a : arr A) : noattr (row i a). Proof. unfold row. naprim. Qed.
Lemma na_setcols {A} (a : arr A) m x : noattr (set_cols a m x). Proof. unfold set_cols. naprim. Qed.
Lemma na_cross a b : noattr (cross0 a b). Proof. unfold cross0. naprim. Qed.
Lemma na_newaxis {A} (a : arr A) : noattr (newaxis1 a). Proof. unfold newaxis1. naprim. Qed.
Lemma na_hstack {A} (a b c : arr A) : noattr (hstack3 a b c). Proof. unfold hstack3. naprim. Qed.
Lemma na_swap {A} (a : arr A) : noattr (swapaxes10 a). Proof. unfold swapaxes10. naprim. Qed.
Lemma na_mdot a b : noattr (mdot a b). Proof. unfold mdot, einsum_ij_jk. naprim. Qed.
Lemma na_cld a : noattr (check_length_deviation a).
Proof.
  unfold check_length_deviation. na1; [apply na_col0|]. na1; [apply na_norm0|].
  destruct (nlt _ _); unfold noattr; simpl; discriminate.
Qed.
Lemma na_unit a x : noattr (nv_unit a x).
Proof. unfold nv_unit. na1; [apply na_norm0k|]. na1; [na1|]. apply na_setcols. Qed.
Lemma na_b3 {A B C} (a : arr A) (b : arr B) (c : arr C) : noattr (broadcast3 a b c).
Proof. unfold broadcast3. naprim. Qed.
Lemma na_n_E2R_EN n R : noattr (n_E2R_EN n R).
Proof.
  unfold n_E2R_EN.
  repeat first [apply na_default|apply na_cld|apply na_dot|apply na_unit|apply na_cross|apply na_norm0
    |apply na_setcols|apply na_newaxis|apply na_hstack|apply na_swap|apply na_mdot|na1].
Qed.
Lemma na_a3d x y z : noattr (atleast_3d3 x y z).
Proof. unfold atleast_3d3. na1; [apply na_b3|]. repeat na1. Qed.
Lemma na_R_EN l : noattr (R_EN l).
Proof.
  destruct l; unfold R_EN, n_E_and_wa2R_EL, n_E2lat_lon, zyx2R, xyz2R;
  repeat first [apply na_n_E2R_EN|apply na_a3d|apply na_default|apply na_cld|apply na_dot|apply na_row|apply na_mdot|na1].
Qed.
