(** * C84: Pvector.elevation never leaves the domain of arcsin in binary64 (objects.py 709-715);
    the length of a vector along an axis is exact *)
From Coq Require Import ZArith Reals Lia Lra Bool Psatz.
From Flocq Require Import Core BinarySingleNaN.
From Verif Require Import FTiny FZero FBase FUnit.
Local Open Scope R_scope.

(** the unit in the last place of x > 0, against x *)
Lemma ulp_facts x : F64 x -> bpow radix2 (-1022) <= x ->
  let h := ulp radix2 fexp64 x in 0 < h /\ h <= 2 * u * x /\ x * u <= h * (1 - u).
Proof.
  intros Fx Hx h. assert (Px : 0 < x) by (pose proof (bpow_gt_0 radix2 (-1022)); lra).
  assert (Mx : (-1021 <= mag radix2 x)%Z).
  { change (-1021)%Z with (-1022 + 1)%Z. apply (mag_ge_bpow radix2). replace (-1022 + 1 - 1)%Z with (-1022)%Z by lia. rewrite Rabs_right; lra. }
  assert (E : h = bpow radix2 (mag radix2 x - 53)).
  { unfold h. rewrite ulp_neq_0 by lra. unfold cexp, fexp64, FLT_exp. f_equal. lia. }
  assert (Eu : h = u * bpow radix2 (mag radix2 x)). { rewrite E. unfold u. rewrite <- bpow_plus. f_equal. lia. }
  pose proof u_pos as Pu. pose proof (bpow_gt_0 radix2 (mag radix2 x)) as PM.
  split; [rewrite Eu; apply Rmult_lt_0_compat; lra|]. split.
  - pose proof (bpow_mag_le radix2 x ltac:(lra)) as L. rewrite (Rabs_right x) in L by lra.
    replace (mag radix2 x - 1)%Z with (mag radix2 x + -1)%Z in L by lia. rewrite bpow_plus in L. change (bpow radix2 (-1)) with (/ 2) in L. rewrite Eu. nra.
  - assert (U : x + h <= bpow radix2 (mag radix2 x)).
    { pose proof (bpow_mag_gt radix2 x) as G. rewrite (Rabs_right x) in G by lra. apply id_p_ulp_le_bpow; auto with typeclass_instances. }
    rewrite Eu in *. nra.
Qed.

Lemma rnd_sq_err x : bpow radix2 (-450) <= x -> exists e, Rabs e <= u /\ rnd (x * x) = x * x * (1 + e).
Proof.
  intros H. apply rnd_err_normal. pose proof (bpow_gt_0 radix2 (-450)). rewrite Rabs_right by nra.
  apply Rle_trans with (bpow radix2 (-450) * bpow radix2 (-450)); [rewrite <- bpow_plus; apply bpow_le; lia|]. apply Rmult_le_compat; lra.
Qed.
Lemma sqrt_gt a p : 0 <= a -> a * a < p -> a < sqrt p.
Proof. intros Ha H. rewrite <- (sqrt_square a) by auto. apply sqrt_lt_1_alt. split; [nra|auto]. Qed.
Lemma sqrt_lt a p : 0 < a -> p < a * a -> sqrt p < a.
Proof.
  intros Ha H. rewrite <- (sqrt_square a) by lra. destruct (Rlt_le_dec p 0) as [N|N].
  - rewrite sqrt_neg by lra. apply sqrt_lt_R0. nra.
  - apply sqrt_lt_1_alt. lra.
Qed.

(** the rounded root of the rounded square is the number *)
Lemma sqrt_sq_ge x : F64 x -> bpow radix2 (-450) <= x -> x <= rnd (sqrt (rnd (x * x))).
Proof.
  intros Fx Hx. pose proof (bpow_gt_0 radix2 (-450)) as P45. assert (Px : 0 < x) by lra.
  assert (Hn : bpow radix2 (-1022) <= x) by (eapply Rle_trans; [apply bpow_le|apply Hx]; lia).
  destruct (ulp_facts x Fx Hn) as (Ph & H2 & H3). set (h := ulp radix2 fexp64 x) in *.
  pose proof u_pos as Pu. pose proof u_small as Su.
  apply round_N_ge_midp; auto with typeclass_instances.
  destruct (Req_dec x (bpow radix2 (mag radix2 x - 1))) as [E|N].
  - rewrite (round_generic _ _ _ (x * x)); auto with typeclass_instances.
    + rewrite sqrt_square by lra. pose proof (pred_lt_id radix2 fexp64 x ltac:(lra)). lra.
    + rewrite E, <- bpow_plus. apply generic_format_bpow. unfold fexp64, FLT_exp.
      assert (-449 <= mag radix2 x)%Z.
      { change (-449)%Z with (-450 + 1)%Z. apply (mag_ge_bpow radix2). replace (-450 + 1 - 1)%Z with (-450)%Z by lia. rewrite Rabs_right; lra. }
      lia.
  - rewrite pred_eq_pos by lra. unfold pred_pos. rewrite Req_bool_false by exact N. fold h.
    destruct (rnd_sq_err x Hx) as (e & He & ->). apply Rabs_le_inv in He.
    apply sqrt_gt; [nra|].
    assert (A : x * x * (1 - u) <= x * x * (1 + e)) by (apply Rmult_le_compat_l; nra).
    eapply Rlt_le_trans; [|exact A].
    assert (B : u * (x * x) + u * u * (x * x) < x * h).
    { assert (x * (x * u) <= x * (h * (1 - u))) by (apply Rmult_le_compat_l; lra).
      assert (D : 0 < x * h) by (apply Rmult_lt_0_compat; lra).
      assert (u * (u * (x * x)) <= u * (x * h * (1 - u))) by (apply Rmult_le_compat_l; lra).
      assert (0 < u * (u * (x * h))) by (repeat apply Rmult_lt_0_compat; lra). lra. }
    assert (C : h * h <= (2 * u * x) * (2 * u * x)) by (apply Rmult_le_compat; lra).
    nra.
Qed.
Lemma sqrt_sq_le x : F64 x -> bpow radix2 (-450) <= x -> rnd (sqrt (rnd (x * x))) <= x.
Proof.
  intros Fx Hx. pose proof (bpow_gt_0 radix2 (-450)) as P45. assert (Px : 0 < x) by lra.
  assert (Hn : bpow radix2 (-1022) <= x) by (eapply Rle_trans; [apply bpow_le|apply Hx]; lia).
  destruct (ulp_facts x Fx Hn) as (Ph & H2 & H3). pose proof u_pos as Pu. pose proof u_small as Su.
  apply round_N_le_midp; auto with typeclass_instances. rewrite succ_eq_pos by lra. set (h := ulp radix2 fexp64 x) in *.
  destruct (rnd_sq_err x Hx) as (e & He & ->). apply Rabs_le_inv in He. apply sqrt_lt; [lra|].
  assert (A : x * x * (1 + e) <= x * x * (1 + u)) by (apply Rmult_le_compat_l; nra).
  assert (x * (x * u) <= x * (h * (1 - u))) by (apply Rmult_le_compat_l; lra).
  assert (0 < x * h) by nra. nra.
Qed.

(** sums of squares only grow *)
Lemma rnd_add_ge a b : F64 b -> 0 <= a -> b <= rnd (a + b).
Proof. intros Fb Ha. apply round_ge_generic; auto with typeclass_instances. lra. Qed.

(** the computed length is at least the magnitude of every component *)
Lemma abs_sq r : r * r = Rabs r * Rabs r.
Proof. rewrite <- Rabs_mult. symmetry. apply Rabs_right. nra. Qed.
Lemma F64_abs (x : float64) : F64 (Rabs (B2R x)).
Proof. apply generic_format_abs. apply format64. Qed.

Lemma norm_ge_comp x y z : ordinary x y z ->
  Rabs (B2R x) <= B2R (norm3 x y z) /\ Rabs (B2R y) <= B2R (norm3 x y z) /\ Rabs (B2R z) <= B2R (norm3 x y z).
Proof.
  intros O. pose proof O as (Fx & Fy & Fz & Hx & Hy & Hz & Hm).
  destruct (C76_norm_accuracy x y z O) as (Fn & Acc & Ln).
  assert (Big : bpow radix2 (-401) <= B2R (norm3 x y z)).
  { apply Rabs_le_inv in Acc. pose proof u_small. change (-401)%Z with (-400 + -1)%Z. rewrite bpow_plus. change (bpow radix2 (-1)) with (/ 2).
    pose proof (bpow_gt_0 radix2 (-400)). nra. }
  destruct (sq_val x Fx Hx) as (a & Fa & Ea & _ & Ba). destruct (sq_val y Fy Hy) as (b & Fb & Eb & _ & Bb).
  destruct (sq_val z Fz Hz) as (c & Fc & Ec & _ & Bc).
  assert (P8 : forall k, k <= 4 -> k * bpow radix2 800 <= bpow radix2 1023).
  { intros k Hk. apply Rle_trans with (bpow radix2 2 * bpow radix2 800); [apply Rmult_le_compat_r; [apply bpow_ge_0|cbn; lra]|].
    rewrite <- bpow_plus. apply bpow_le. lia. }
  assert (Xa : a = rnd (B2R x * B2R x)). { rewrite <- Ea. apply fmul_val; auto. rewrite abs_sq, Rabs_mult, !Rabs_Rabsolu, <- abs_sq.
    rewrite (abs_sq (B2R x)). pose proof (P8 1 ltac:(lra)). pose proof (Rabs_pos (B2R x)).
    apply Rle_trans with (bpow radix2 400 * bpow radix2 400); [apply Rmult_le_compat; auto|]. rewrite <- bpow_plus. apply bpow_le. lia. }
  assert (Xb : b = rnd (B2R y * B2R y)). { rewrite <- Eb. apply fmul_val; auto. rewrite abs_sq, Rabs_mult, !Rabs_Rabsolu, <- abs_sq.
    rewrite (abs_sq (B2R y)). pose proof (Rabs_pos (B2R y)).
    apply Rle_trans with (bpow radix2 400 * bpow radix2 400); [apply Rmult_le_compat; auto|]. rewrite <- bpow_plus. apply bpow_le. lia. }
  assert (Xc : c = rnd (B2R z * B2R z)). { rewrite <- Ec. apply fmul_val; auto. rewrite abs_sq, Rabs_mult, !Rabs_Rabsolu, <- abs_sq.
    rewrite (abs_sq (B2R z)). pose proof (Rabs_pos (B2R z)).
    apply Rle_trans with (bpow radix2 400 * bpow radix2 400); [apply Rmult_le_compat; auto|]. rewrite <- bpow_plus. apply bpow_le. lia. }
  destruct (fadd_val (fmul x x) (fmul y y) Fa Fb) as (F1 & E1).
  { rewrite Ea, Eb, Rabs_right by lra. pose proof (P8 2 ltac:(lra)). lra. }
  rewrite Ea, Eb in E1.
  assert (G1 : a <= rnd (a + b) /\ b <= rnd (a + b) <= 2 * bpow radix2 800).
  { assert (F64 a) by (rewrite Xa; apply generic_format_round; auto with typeclass_instances).
    assert (F64 b) by (rewrite Xb; apply generic_format_round; auto with typeclass_instances).
    split; [rewrite Rplus_comm; apply rnd_add_ge; auto; lra|]. split; [apply rnd_add_ge; auto; lra|].
    replace (2 * bpow radix2 800) with (bpow radix2 801) by (change 801%Z with (1 + 800)%Z; rewrite bpow_plus; reflexivity).
    apply Rle_trans with (Rabs (rnd (a + b))); [apply Rle_abs|]. apply rnd_abs_le; [lia|]. rewrite Rabs_right by lra.
    change 801%Z with (1 + 800)%Z. rewrite bpow_plus. change (bpow radix2 1) with 2. lra. }
  destruct (fadd_val (fadd (fmul x x) (fmul y y)) (fmul z z) F1 Fc) as (F2 & E2).
  { rewrite E1, Ec, Rabs_right by lra. pose proof (P8 3 ltac:(lra)). lra. }
  rewrite E1, Ec in E2. set (s := rnd (rnd (a + b) + c)) in *.
  assert (G2 : a <= s /\ b <= s /\ c <= s).
  { assert (F64 c) by (rewrite Xc; apply generic_format_round; auto with typeclass_instances).
    assert (rnd (a + b) <= s). { unfold s. rewrite (Rplus_comm _ c). apply rnd_add_ge; [apply generic_format_round; auto with typeclass_instances|lra]. }
    assert (c <= s) by (apply rnd_add_ge; auto; lra). lra. }
  assert (K : forall w : float64, rnd (B2R w * B2R w) <= s -> Rabs (B2R w) <= B2R (norm3 x y z)).
  { intros w Hw. destruct (Rle_lt_dec (bpow radix2 (-450)) (Rabs (B2R w))) as [L|L].
    - eapply Rle_trans; [apply sqrt_sq_ge; [apply F64_abs|exact L]|].
      assert (Ps : 0 < s). 
      { apply Rlt_le_trans with (rnd (B2R w * B2R w)); auto. rewrite (abs_sq (B2R w)). destruct (rnd_sq_err _ L) as (e & He & ->).
        apply Rabs_le_inv in He. pose proof u_small. pose proof (bpow_gt_0 radix2 (-450)). apply Rmult_lt_0_compat; [apply Rmult_lt_0_compat|]; lra. }
      unfold norm3. destruct (fsqrt_val (fadd (fadd (fmul x x) (fmul y y)) (fmul z z)) F2) as (_ & ->); [rewrite E2; auto|]. rewrite E2.
      apply round_le; auto with typeclass_instances. apply sqrt_le_1_alt. rewrite <- abs_sq. exact Hw.
    - apply Rle_trans with (bpow radix2 (-450)); [lra|]. apply Rle_trans with (bpow radix2 (-401)); [apply bpow_le; lia|exact Big]. }
  destruct G2 as (G2 & G3 & G4). split; [|split]; apply K; [rewrite <- Xa|rewrite <- Xb|rewrite <- Xc]; assumption.
Qed.

(** |c| / length is at most 1, for every component c of every ordinary vector *)
Lemma ratio_le_1 x y z c : ordinary x y z -> is_finite c = true -> Rabs (B2R c) <= B2R (norm3 x y z) ->
  is_finite (fdiv c (norm3 x y z)) = true /\ Rabs (B2R (fdiv c (norm3 x y z))) <= 1 /\
  B2R (fdiv c (norm3 x y z)) = rnd (B2R c / B2R (norm3 x y z)).
Proof.
  intros O Fc H. destruct (C76_norm_accuracy x y z O) as (Fn & Acc & Ln).
  assert (Big : 0 < B2R (norm3 x y z)).
  { apply Rabs_le_inv in Acc. pose proof u_small. pose proof (bpow_gt_0 radix2 (-400)). nra. }
  assert (Q : Rabs (B2R c / B2R (norm3 x y z)) <= bpow radix2 0).
  { change (bpow radix2 0) with 1. unfold Rdiv. rewrite Rabs_mult, (Rabs_right (/ _)) by (apply Rle_ge; left; apply Rinv_0_lt_compat; auto).
    apply Rmult_le_reg_r with (B2R (norm3 x y z)); auto. rewrite Rmult_assoc, Rinv_l by lra. lra. }
  destruct (fdiv_val c (norm3 x y z) Fc) as (F & E); [lra| |].
  { eapply Rle_trans; [exact Q|]. apply bpow_le. lia. }
  split; [exact F|]. split; [|exact E]. rewrite E. change 1 with (bpow radix2 0). apply rnd_abs_le; [lia|exact Q].
Qed.

(** Pvector.elevation, objects.py 710-715: arcsin(z / length).  The argument of arcsin. *)
Definition felevation_sin (x y z : float64) : float64 := fdiv z (norm3 x y z).

(** ** C84 *)
(** the argument handed to arcsin lies in [-1, 1] for every ordinary vector, so arcsin never returns NaN *)
Theorem C84_elevation_in_domain : forall x y z, ordinary x y z ->
  is_finite (felevation_sin x y z) = true /\ -1 <= B2R (felevation_sin x y z) <= 1.
Proof.
  intros x y z O. pose proof O as (_ & _ & Fz & _). destruct (norm_ge_comp x y z O) as (_ & _ & H).
  destruct (ratio_le_1 x y z z O Fz H) as (F & B & _). split; [exact F|]. apply Rabs_le_inv. exact B.
Qed.
Print Assumptions C84_elevation_in_domain.

(** any arcsin that answers on [-1, 1] makes the elevation a number *)
Theorem C84_elevation_is_a_number : forall (farcsin : float64 -> float64) x y z,
  (forall t, is_finite t = true -> -1 <= B2R t <= 1 -> is_finite (farcsin t) = true) ->
  ordinary x y z -> is_finite (farcsin (felevation_sin x y z)) = true.
Proof. intros farcsin x y z H O. destruct (C84_elevation_in_domain x y z O). auto. Qed.
Print Assumptions C84_elevation_is_a_number.

(** the length of a vector along an axis is exact *)
Lemma zero_val v : B2R v = 0 -> is_finite v = true -> forall w, is_finite w = true ->
  B2R (fmul v w) = 0 /\ is_finite (fmul v w) = true.
Proof.
  intros Z F w Fw. destruct (fmul_val v w F Fw) as (G & E).
  { rewrite Z, Rmult_0_l, Rabs_R0. apply bpow_ge_0. }
  split; auto. rewrite E, Z, Rmult_0_l. apply round_0; auto with typeclass_instances.
Qed.
Lemma rnd_id r : F64 r -> rnd r = r.
Proof. intros. apply round_generic; auto with typeclass_instances. Qed.

Theorem C84_axis_length_is_exact : forall x y z, ordinary x y z ->
  (B2R y = 0 -> B2R z = 0 -> B2R (norm3 x y z) = Rabs (B2R x)) /\
  (B2R x = 0 -> B2R z = 0 -> B2R (norm3 x y z) = Rabs (B2R y)) /\
  (B2R x = 0 -> B2R y = 0 -> B2R (norm3 x y z) = Rabs (B2R z) /\
     (0 < B2R z -> B2R (felevation_sin x y z) = 1) /\ (B2R z < 0 -> B2R (felevation_sin x y z) = -1)).
Proof.
  intros x y z O. pose proof O as (Fx & Fy & Fz & Hx & Hy & Hz & Hm). pose proof (bpow_gt_0 radix2 (-400)) as P4.
  assert (Sq : forall w : float64, is_finite w = true -> Rabs (B2R w) <= bpow radix2 400 -> is_finite (fmul w w) = true /\ B2R (fmul w w) = rnd (B2R w * B2R w)).
  { intros w Fw Hw. apply fmul_val; auto. rewrite Rabs_mult. pose proof (Rabs_pos (B2R w)).
    apply Rle_trans with (bpow radix2 400 * bpow radix2 400); [apply Rmult_le_compat; auto|]. rewrite <- bpow_plus. apply bpow_le. lia. }
  destruct (Sq x Fx Hx) as (Fa & Ea). destruct (Sq y Fy Hy) as (Fb & Eb). destruct (Sq z Fz Hz) as (Fc & Ec).
  assert (K : forall (s w : float64), is_finite s = true -> bpow radix2 (-400) <= Rabs (B2R w) -> B2R s = rnd (B2R w * B2R w) -> B2R (fsqrt s) = Rabs (B2R w)).
  { intros s w Fs Hw Es. assert (L : bpow radix2 (-450) <= Rabs (B2R w)) by (eapply Rle_trans; [apply bpow_le|exact Hw]; lia).
    destruct (fsqrt_val s Fs) as (_ & ->).
    - rewrite Es, abs_sq. destruct (rnd_sq_err _ L) as (e & He & ->).
      apply Rabs_le_inv in He. pose proof u_small. apply Rmult_lt_0_compat; [apply Rmult_lt_0_compat|]; lra.
    - rewrite Es, abs_sq. apply Rle_antisym; [apply sqrt_sq_le|apply sqrt_sq_ge]; auto using F64_abs. }
  assert (S2 : forall p q : float64, is_finite p = true -> is_finite q = true -> (B2R p = 0 \/ B2R q = 0) -> is_finite (fadd p q) = true /\ B2R (fadd p q) = B2R p + B2R q).
  { intros p q Fp Fq Z.
    assert (Fs : F64 (B2R p + B2R q)) by (destruct Z as [-> | ->]; rewrite ?Rplus_0_l, ?Rplus_0_r; apply format64).
    pose proof (Bplus_correct 53 1024 prec64 emax64 mode_NE p q Fp Fq) as C. fold (fadd p q) in C.
    cbn [round_mode] in C. change (SpecFloat.fexp 53 1024) with fexp64 in C. rewrite (rnd_id _ Fs) in C.
    rewrite Rlt_bool_true in C.
    - destruct C as (B & F & _). auto.
    - destruct Z as [-> | ->]; rewrite ?Rplus_0_l, ?Rplus_0_r; apply abs_B2R_lt_emax. }
  assert (Z0 : forall w : float64, B2R w = 0 -> rnd (B2R w * B2R w) = 0).
  { intros w ->. rewrite Rmult_0_l. apply round_0; auto with typeclass_instances. }
  split; [|split].
  - intros Y Z. rewrite Y, Z, Rabs_R0 in Hm.
    destruct (S2 (fmul x x) (fmul y y) Fa Fb) as (F1 & E1); [right; rewrite Eb; apply Z0; auto|].
    destruct (S2 (fadd (fmul x x) (fmul y y)) (fmul z z) F1 Fc) as (F2 & E2); [right; rewrite Ec; apply Z0; auto|].
    apply K; auto; [destruct Hm as [?|[?|?]]; lra|]. rewrite E2, E1, Ea, Eb, Ec, (Z0 y), (Z0 z) by auto. ring.
  - intros X Z. rewrite X, Z, Rabs_R0 in Hm.
    destruct (S2 (fmul x x) (fmul y y) Fa Fb) as (F1 & E1); [left; rewrite Ea; apply Z0; auto|].
    destruct (S2 (fadd (fmul x x) (fmul y y)) (fmul z z) F1 Fc) as (F2 & E2); [right; rewrite Ec; apply Z0; auto|].
    apply K; auto; [destruct Hm as [?|[?|?]]; lra|]. rewrite E2, E1, Ea, Eb, Ec, (Z0 x), (Z0 z) by auto. ring.
  - intros X Y. rewrite X, Y, Rabs_R0 in Hm.
    destruct (S2 (fmul x x) (fmul y y) Fa Fb) as (F1 & E1); [left; rewrite Ea; apply Z0; auto|].
    destruct (S2 (fadd (fmul x x) (fmul y y)) (fmul z z) F1 Fc) as (F2 & E2); [left; rewrite E1, Ea, Eb, (Z0 x), (Z0 y) by auto; ring|].
    assert (N : B2R (norm3 x y z) = Rabs (B2R z)).
    { apply K; auto; [destruct Hm as [?|[?|?]]; lra|]. rewrite E2, E1, Ea, Eb, Ec, (Z0 x), (Z0 y) by auto. ring. }
    split; [exact N|].
    destruct (ratio_le_1 x y z z O Fz) as (_ & _ & Ed); [rewrite N; apply Rle_refl|].
    assert (F1' : F64 1) by (change 1 with (bpow radix2 0); apply generic_format_bpow; cbn; lia).
    split; intros Sg; unfold felevation_sin; rewrite Ed, N.
    + rewrite Rabs_right by lra. unfold Rdiv. rewrite Rinv_r by lra. apply rnd_id; auto.
    + rewrite Rabs_left by lra. replace (B2R z / - B2R z) with (-1) by (field; lra). apply rnd_id. 
      change (-1) with (- (1)). apply generic_format_opp. exact F1'.
Qed.
Print Assumptions C84_axis_length_is_exact.

(** a vector with components 3, 4, 0 meets the hypothesis, and its mirror image on the z axis *)
Example C84_example : ordinary (f 6755399441055744 (-51) eq_refl) (f 4503599627370496 (-50) eq_refl) (B754_zero false) /\
  ordinary (B754_zero false) (B754_zero true) (f 6755399441055744 (-51) eq_refl).
Proof.
  split; [exact C76_example|]. destruct C76_example as (A & _ & B & C & _ & D & _ ).
  repeat (split; [first [reflexivity|assumption]|]). right. right.
  change (B2R (f 6755399441055744 (-51) eq_refl)) with (F2R (Float radix2 6755399441055744 (-51))). unfold F2R; cbn [Fnum Fexp].
  rewrite Rabs_right by (apply Rle_ge, Rmult_le_pos; [apply IZR_le; lia|apply bpow_ge_0]).
  apply Rle_trans with (1 * bpow radix2 (-51)); [rewrite Rmult_1_l; apply bpow_le; lia|]. apply Rmult_le_compat_r; [apply bpow_ge_0|apply IZR_le; lia].
Qed.
