(** * Lemmas on scalars: finite operands give the exact real result *)
From Coq Require Import Reals Lra Lia Bool List.
From Verif Require Import Num.
Local Open Scope R_scope.

Lemma fin_Fin r : Fin r ≈ r. Proof. reflexivity. Qed.

Lemma fin_inv x a : x ≈ a -> x = Fin a \/ (x = NZ /\ a = 0).
Proof. destruct x; simpl; intros H; try contradiction; subst; auto. Qed.

Lemma fin_fval x a : x ≈ a -> fval x = a.
Proof. destruct x; simpl; intros H; try contradiction; subst; auto. Qed.

Lemma fin_unique x a b : x ≈ a -> x ≈ b -> a = b.
Proof. destruct x; simpl; intros; try contradiction; congruence. Qed.

Lemma fin_eq x a b : x ≈ a -> a = b -> x ≈ b.
Proof. intros; subst; auto. Qed.

Lemma fin_finite x a : x ≈ a -> isfinite x = true.
Proof. destruct x; simpl; tauto. Qed.

Lemma fin_not_nan x a : x ≈ a -> isnan x = false.
Proof. destruct x; simpl; tauto. Qed.

Lemma finite_fin x : isfinite x = true -> exists a, x ≈ a.
Proof. destruct x; simpl; intros; try discriminate; eexists; reflexivity. Qed.

Lemma fin_zero b : zero b ≈ 0.
Proof. destruct b; reflexivity. Qed.

Ltac fin_cases :=
  repeat match goal with
         | H : ?x ≈ ?a |- _ =>
             apply fin_inv in H; destruct H as [H | [H ?]]; subst
         end.

Lemma fin_neg x a : x ≈ a -> nneg x ≈ - a.
Proof.
  intros H; fin_cases; simpl.
  - destruct (Req_EM_T a 0); simpl; lra.
  - lra.
Qed.

Lemma fin_add x y a b : x ≈ a -> y ≈ b -> nadd x y ≈ a + b.
Proof. intros Hx Hy; fin_cases; simpl; lra. Qed.

Lemma fin_sub x y a b : x ≈ a -> y ≈ b -> nsub x y ≈ a - b.
Proof. intros Hx Hy. unfold nsub. apply fin_add; auto. apply fin_neg; auto. Qed.

Lemma fin_mul x y a b : x ≈ a -> y ≈ b -> nmul x y ≈ a * b.
Proof.
  intros Hx Hy; fin_cases; cbn [nmul fval sbit];
    match goal with |- context [Req_EM_T ?p 0] => destruct (Req_EM_T p 0) as [E|E] end;
    try (eapply fin_eq; [apply fin_zero|lra]); simpl; try lra.
Qed.

Lemma is_zero_fin x a : x ≈ a -> is_zero x = if Req_EM_T a 0 then true else false.
Proof. intros H; fin_cases; simpl; auto. destruct (Req_EM_T 0 0); auto; lra. Qed.

Lemma fin_div x y a b : x ≈ a -> y ≈ b -> b <> 0 -> ndiv x y ≈ a / b.
Proof.
  intros Hx Hy Hb.
  pose proof (is_zero_fin _ _ Hy) as Z.
  fin_cases; try lra; cbn [ndiv fval]; rewrite Z;
    (destruct (Req_EM_T b 0); [lra|]);
    match goal with |- context [Req_EM_T ?p 0] => destruct (Req_EM_T p 0) as [E|E] end;
    try (eapply fin_eq; [apply fin_zero|lra]); simpl; auto.
Qed.

Lemma fin_sqrt x a : x ≈ a -> 0 <= a -> nsqrt x ≈ sqrt a.
Proof.
  intros H Ha; fin_cases; simpl.
  - destruct (Rlt_dec a 0); simpl; auto; lra.
  - apply sqrt_0.
Qed.

Lemma fin_abs x a : x ≈ a -> nabs x ≈ Rabs a.
Proof. intros H; fin_cases; simpl; auto. rewrite Rabs_R0; auto. Qed.

Lemma fin_sin x a : x ≈ a -> nsin x ≈ sin a.
Proof. intros H; fin_cases; simpl; auto. apply sin_0. Qed.

Lemma fin_cos x a : x ≈ a -> ncos x ≈ cos a.
Proof. intros H; fin_cases; simpl; auto. symmetry; apply cos_0. Qed.

Lemma fin_asin x a : x ≈ a -> -1 <= a <= 1 -> narcsin x ≈ asin a.
Proof.
  intros H Ha; fin_cases; simpl.
  - destruct (Rle_dec (-1) a); [|lra]. destruct (Rle_dec a 1); simpl; auto; lra.
  - apply asin_0.
Qed.

Lemma nle_fin x y a b : x ≈ a -> y ≈ b -> nle x y = if Rle_dec a b then true else false.
Proof. intros Hx Hy; fin_cases; simpl; auto. Qed.

Lemma nlt_fin x y a b : x ≈ a -> y ≈ b -> nlt x y = if Rlt_dec a b then true else false.
Proof.
  intros Hx Hy. pose proof (nle_fin _ _ _ _ Hy Hx) as L.
  assert (nlt x y = negb (nle y x)) as -> by (fin_cases; reflexivity).
  rewrite L. destruct (Rle_dec b a), (Rlt_dec a b); simpl; auto; lra.
Qed.

Lemma neqb_fin x y a b : x ≈ a -> y ≈ b -> neqb x y = if Req_EM_T a b then true else false.
Proof. intros Hx Hy; fin_cases; simpl; auto. Qed.

Lemma fin_max x y a b : x ≈ a -> y ≈ b -> nmax x y ≈ Rmax a b.
Proof.
  intros Hx Hy. pose proof (nle_fin _ _ _ _ Hx Hy) as L.
  assert (nmax x y = if nle x y then y else x) as -> by (fin_cases; reflexivity).
  rewrite L. unfold Rmax. destruct (Rle_dec a b); auto.
Qed.

Definition rsign (a : R) : R := if Rlt_dec a 0 then -1 else if Rlt_dec 0 a then 1 else 0.
Lemma fin_sign x a : x ≈ a -> nsign x ≈ rsign a.
Proof.
  intros H; unfold rsign; fin_cases; simpl.
  - destruct (Rlt_dec a 0); simpl; auto. destruct (Rlt_dec 0 a); simpl; auto.
  - destruct (Rlt_dec 0 0); lra.
Qed.

Lemma fin_pow x a n : x ≈ a -> npow x n ≈ a ^ n.
Proof.
  intros H. induction n as [|n IH]; [reflexivity|].
  destruct n as [|n].
  - simpl. eapply fin_eq; [apply H|ring].
  - change (npow x (S (S n))) with (nmul (npow x (S n)) x).
    eapply fin_eq; [apply fin_mul; [apply IH|apply H]|]. simpl; ring.
Qed.

(** NaN propagates *)
Lemma nan_mul_r x : nmul x NaN = NaN. Proof. destruct x; reflexivity. Qed.
Lemma nan_mul_l x : nmul NaN x = NaN. Proof. destruct x; reflexivity. Qed.
Lemma nan_add_r x : nadd x NaN = NaN. Proof. destruct x as [| |[]|]; reflexivity. Qed.
Lemma nan_add_l x : nadd NaN x = NaN. Proof. destruct x; reflexivity. Qed.
Lemma nan_div_r x : ndiv x NaN = NaN. Proof. destruct x; reflexivity. Qed.
Lemma nan_div_l x : ndiv NaN x = NaN. Proof. destruct x; reflexivity. Qed.

(** Finite steps are chosen by shape *)
Ltac fin :=
  first
    [ eassumption
    | apply fin_Fin
    | apply fin_add; fin
    | apply fin_sub; fin
    | apply fin_mul; fin
    | apply fin_neg; fin
    | apply fin_abs; fin
    | apply fin_sin; fin
    | apply fin_cos; fin
    | apply fin_sign; fin
    | apply fin_max; fin ].

(** prove [e ≈ r] where the real computed from the shape of [e] equals [r] by ring *)
Ltac finr := eapply fin_eq; [fin | try ring].
