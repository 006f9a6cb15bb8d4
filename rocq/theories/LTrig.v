(** * atan2 and polar coordinates *)
From Coq Require Import Reals Lra Lia Bool.
From Verif Require Import Num LNum.
Local Open Scope R_scope.

(** [t] is an argument of the point (x, y), in [-PI, PI] *)
Definition arg_of (y x t : R) : Prop :=
  - PI <= t <= PI /\ x = sqrt (x * x + y * y) * cos t /\ y = sqrt (x * x + y * y) * sin t.

Lemma sqrt_sq_abs x : sqrt (x * x) = Rabs x.
Proof. rewrite <- (sqrt_Rsqr_abs x). reflexivity. Qed.

Lemma cos_atan_hyp x y : 0 < x -> x = sqrt (x * x + y * y) * cos (atan (y / x)).
Proof.
  intros Hx. rewrite cos_atan.
  assert (H : 0 < 1 + (y / x)²) by (pose proof (Rle_0_sqr (y/x)); lra).
  replace (x * x + y * y) with (x * x * (1 + (y / x)²)) by (unfold Rsqr; field; lra).
  rewrite sqrt_mult; [|nra|lra]. rewrite sqrt_sq_abs, Rabs_right by lra.
  field. apply Rgt_not_eq, sqrt_lt_R0; auto.
Qed.

Lemma sin_atan_hyp x y : 0 < x -> y = sqrt (x * x + y * y) * sin (atan (y / x)).
Proof.
  intros Hx. rewrite sin_atan.
  assert (H : 0 < 1 + (y / x)²) by (pose proof (Rle_0_sqr (y/x)); lra).
  replace (x * x + y * y) with (x * x * (1 + (y / x)²)) by (unfold Rsqr; field; lra).
  rewrite sqrt_mult; [|nra|lra]. rewrite sqrt_sq_abs, Rabs_right by lra.
  field. split; [lra | apply Rgt_not_eq, sqrt_lt_R0; auto].
Qed.

Lemma atan2_arg y x : arg_of y x (atan2 y x).
Proof.
  unfold arg_of, atan2. pose proof PI_RGT_0 as HP.
  destruct (Rlt_dec 0 x) as [Hx|Hx].
  { pose proof (atan_bound (y / x)). split; [lra|]. split.
    - apply cos_atan_hyp; auto. - apply sin_atan_hyp; auto. }
  destruct (Rlt_dec x 0) as [Hx'|Hx'].
  { assert (E1 := cos_atan_hyp (- x) (- y) ltac:(lra)).
    assert (E2 := sin_atan_hyp (- x) (- y) ltac:(lra)).
    replace (- y / - x) with (y / x) in E1, E2 by (field; lra).
    replace (- x * - x + - y * - y) with (x * x + y * y) in E1, E2 by ring.
    pose proof (atan_bound (y / x)) as B.
    destruct (Rlt_dec y 0) as [Hy|Hy].
    - assert (0 < y / x).
      { replace (y / x) with ((- y) * / (- x)) by (field; lra).
        apply Rmult_lt_0_compat; [lra|apply Rinv_0_lt_compat; lra]. }
      assert (0 < atan (y / x)) by (rewrite <- atan_0; apply atan_increasing; auto).
      split; [lra|]. rewrite cos_minus, sin_minus, cos_PI, sin_PI. split; lra.
    - assert (y / x <= 0).
      { replace (y / x) with (- (y * / (- x))) by (field; lra).
        assert (0 <= y * / - x); [|lra].
        apply Rmult_le_pos; [lra|left; apply Rinv_0_lt_compat; lra]. }
      assert (atan (y / x) <= 0).
      { destruct H as [H|H]; [left; rewrite <- atan_0; apply atan_increasing; auto|].
        rewrite H, atan_0; lra. }
      split; [lra|]. rewrite cos_plus, sin_plus, cos_PI, sin_PI. split; lra. }
  assert (x = 0) by lra. subst x.
  replace (0 * 0 + y * y) with (y * y) by ring. rewrite sqrt_sq_abs.
  destruct (Rlt_dec 0 y).
  { rewrite cos_PI2, sin_PI2, Rabs_right by lra. lra. }
  destruct (Rlt_dec y 0).
  { rewrite cos_neg, sin_neg, cos_PI2, sin_PI2, Rabs_left by lra. lra. }
  assert (y = 0) by lra; subst. rewrite Rabs_R0. rewrite cos_0, sin_0. lra.
Qed.

(** numpy's arctan2 of finite numbers is an argument of the point *)
Lemma signed_fin b r : signed b r ≈ if b then - r else r.
Proof. destruct b; unfold signed; [apply fin_neg|]; apply fin_Fin. Qed.

Lemma sbit_fin_neg x a : x ≈ a -> sbit x = true -> a <= 0.
Proof. intros H; fin_cases; simpl; [destruct (Rlt_dec a 0)|]; intros; try discriminate; lra. Qed.
Lemma sbit_fin_pos x a : x ≈ a -> sbit x = false -> 0 <= a.
Proof. intros H; fin_cases; simpl; [destruct (Rlt_dec a 0)|]; intros; try discriminate; lra. Qed.

Lemma narctan2_fin_eq y x b a : y ≈ b -> x ≈ a ->
  narctan2 y x = if is_zero y then (if sbit x then signed (sbit y) PI else signed (sbit y) 0)
                 else Fin (atan2 (fval y) (fval x)).
Proof. intros Hy Hx; fin_cases; reflexivity. Qed.

Lemma narctan2_nz y x b a : y ≈ b -> x ≈ a -> b <> 0 -> narctan2 y x ≈ atan2 b a.
Proof.
  intros Hy Hx Hb. rewrite (narctan2_fin_eq _ _ _ _ Hy Hx), (is_zero_fin _ _ Hy).
  destruct (Req_EM_T b 0); [lra|].
  rewrite (fin_fval _ _ Hy), (fin_fval _ _ Hx). apply fin_Fin.
Qed.

(** positive abscissa: no ambiguity *)
Lemma atan2_0_pos x : 0 < x -> atan2 0 x = 0.
Proof.
  intros Hx. unfold atan2. destruct (Rlt_dec 0 x); [|lra].
  replace (0 / x) with 0 by (field; lra). apply atan_0.
Qed.
Lemma narctan2_pos y x b a : y ≈ b -> x ≈ a -> 0 < a -> narctan2 y x ≈ atan2 b a.
Proof.
  intros Hy Hx Ha. destruct (Req_EM_T b 0) as [->|Hb]; [|apply narctan2_nz; auto].
  rewrite (narctan2_fin_eq _ _ _ _ Hy Hx), (is_zero_fin _ _ Hy).
  destruct (Req_EM_T 0 0); [|lra].
  destruct (sbit x) eqn:S.
  - apply (sbit_fin_neg _ _ Hx) in S; lra.
  - eapply fin_eq; [apply signed_fin|]. rewrite atan2_0_pos by auto. destruct (sbit y); lra.
Qed.

Lemma narctan2_arg y x b a : y ≈ b -> x ≈ a -> exists t, narctan2 y x ≈ t /\ arg_of b a t.
Proof.
  intros Hy Hx. destruct (Req_EM_T b 0) as [E|Hb].
  2:{ exists (atan2 b a). split; [apply narctan2_nz; auto|apply atan2_arg]. }
  rewrite (narctan2_fin_eq _ _ _ _ Hy Hx), (is_zero_fin _ _ Hy).
  pose proof PI_RGT_0 as HP.
  destruct (Req_EM_T b 0); [|lra]. subst b.
  destruct (sbit x) eqn:S.
  - apply (sbit_fin_neg _ _ Hx) in S.
    exists (if sbit y then - PI else PI). split; [apply signed_fin|].
    unfold arg_of. replace (a * a + 0 * 0) with (a * a) by ring.
    rewrite sqrt_sq_abs, Rabs_left1 by lra.
    destruct (sbit y); rewrite ?cos_neg, ?sin_neg, cos_PI, sin_PI; lra.
  - apply (sbit_fin_pos _ _ Hx) in S.
    exists (if sbit y then - 0 else 0). split; [apply signed_fin|].
    unfold arg_of. replace (a * a + 0 * 0) with (a * a) by ring.
    rewrite sqrt_sq_abs, Rabs_right by lra.
    destruct (sbit y); rewrite ?cos_neg, ?sin_neg, cos_0, sin_0; lra.
Qed.

(** uniqueness of the argument *)
Lemma cos_sin_inj s t : - PI < s < PI -> - PI < t < PI -> cos s = cos t -> sin s = sin t -> s = t.
Proof.
  intros Hs Ht Ec Es.
  assert (H : cos (s - t) = 1).
  { rewrite cos_minus, Ec, Es. pose proof (sin2_cos2 t) as E. unfold Rsqr in E. lra. }
  set (d := (s - t) / 2).
  assert (Hd : - PI < d < PI) by (unfold d; lra).
  replace (s - t) with (2 * d) in H by (unfold d; field).
  rewrite cos_2a_sin in H.
  assert (S0 : sin d = 0) by nra.
  assert (D0 : d = 0).
  { destruct (Rtotal_order d 0) as [L|[E|G]]; auto.
    - assert (0 < sin (- d)) by (apply sin_gt_0; lra). rewrite sin_neg in *; lra.
    - assert (0 < sin d) by (apply sin_gt_0; lra). lra. }
  unfold d in D0; lra.
Qed.

(** [arg_of] with polar data: if x = r cos t, y = r sin t with r > 0 then the argument is t *)
Lemma arg_of_polar r t s : 0 < r -> - PI < t < PI ->
  arg_of (r * sin t) (r * cos t) s -> s = t.
Proof.
  intros Hr Ht (Hs & Ex & Ey).
  assert (Q : r * cos t * (r * cos t) + r * sin t * (r * sin t) = r * r).
  { pose proof (sin2_cos2 t) as E; unfold Rsqr in E. nra. }
  rewrite Q, sqrt_sq_abs, Rabs_right in Ex, Ey by lra.
  assert (cos s = cos t) by (apply Rmult_eq_reg_l with r; lra).
  assert (sin s = sin t) by (apply Rmult_eq_reg_l with r; lra).
  destruct (Req_dec s PI) as [->|].
  { rewrite cos_PI in *. exfalso.
    assert (sin t = 0) by (rewrite <- sin_PI; auto).
    assert (t = 0).
    { destruct (Rtotal_order t 0) as [L|[E|G]]; auto.
      - assert (0 < sin (- t)) by (apply sin_gt_0; lra). rewrite sin_neg in *; lra.
      - assert (0 < sin t) by (apply sin_gt_0; lra). lra. }
    subst. rewrite cos_0 in *. lra. }
  destruct (Req_dec s (- PI)) as [->|].
  { rewrite cos_neg, cos_PI in *. exfalso.
    assert (sin t = 0) by (rewrite sin_neg, sin_PI in *; lra).
    assert (t = 0).
    { destruct (Rtotal_order t 0) as [L|[E|G]]; auto.
      - assert (0 < sin (- t)) by (apply sin_gt_0; lra). rewrite sin_neg in *; lra.
      - assert (0 < sin t) by (apply sin_gt_0; lra). lra. }
    subst. rewrite cos_0 in *. lra. }
  apply cos_sin_inj; auto; lra.
Qed.

Lemma narctan2_polar y x r t : 0 < r -> - PI < t < PI ->
  y ≈ r * sin t -> x ≈ r * cos t -> narctan2 y x ≈ t.
Proof.
  intros Hr Ht Hy Hx. destruct (narctan2_arg _ _ _ _ Hy Hx) as (s & Hs & A).
  rewrite <- (arg_of_polar r t s); auto.
Qed.

(** closed half: ordinate nonnegative, argument in [0, PI] *)
Lemma cos_inj_0_PI s t : 0 <= s <= PI -> 0 <= t <= PI -> cos s = cos t -> s = t.
Proof.
  intros Hs Ht E.
  destruct (Rtotal_order s t) as [L|[?|G]]; auto; exfalso.
  - pose proof (cos_decreasing_1 s t). lra.
  - pose proof (cos_decreasing_1 t s). lra.
Qed.

Lemma acos_unique c t : 0 <= t <= PI -> cos t = c -> acos c = t.
Proof.
  intros Ht E. subst c. apply acos_cos; auto.
Qed.

(** arctan2(y, x) with y >= 0 (a norm, hence not -0) is acos(x / r) *)
Lemma atan2_acos y x : 0 <= y -> 0 < x * x + y * y -> (y = 0 -> 0 < x) ->
  atan2 y x = acos (x / sqrt (x * x + y * y)).
Proof.
  intros Hy Hr Hyx. destruct (atan2_arg y x) as (B & Ex & Ey).
  set (r := sqrt (x * x + y * y)) in *.
  assert (0 < r) by (apply sqrt_lt_R0; auto).
  symmetry. apply acos_unique.
  - assert (0 <= sin (atan2 y x)) by nra.
    split; [|lra].
    destruct (Rle_lt_dec 0 (atan2 y x)) as [?|L]; auto. exfalso.
    destruct (Req_dec (atan2 y x) (- PI)) as [E|NE].
    + rewrite E, sin_neg, sin_PI in Ey. rewrite E, cos_neg, cos_PI in Ex.
      assert (y = 0) by lra. specialize (Hyx H1). lra.
    + assert (0 < sin (- atan2 y x)) by (apply sin_gt_0; lra).
      rewrite sin_neg in *; lra.
  - rewrite Ex at 2. field. lra.
Qed.

(** latitude-type arguments: with nonnegative abscissa the argument is in [-PI/2, PI/2] *)
Lemma arg_of_right y x t : 0 <= x -> 0 < x * x + y * y -> arg_of y x t -> - (PI / 2) <= t <= PI / 2.
Proof.
  intros Hx Hr (B & Ex & _). pose proof PI_RGT_0.
  assert (0 < sqrt (x * x + y * y)) by (apply sqrt_lt_R0; auto).
  assert (C : 0 <= cos t) by nra.
  split.
  - destruct (Rle_lt_dec (- (PI / 2)) t); auto. exfalso.
    assert (cos (- t) < 0) by (apply cos_lt_0; lra). rewrite cos_neg in *; lra.
  - destruct (Rle_lt_dec t (PI / 2)); auto. exfalso.
    assert (cos t < 0) by (apply cos_lt_0; lra). lra.
Qed.
