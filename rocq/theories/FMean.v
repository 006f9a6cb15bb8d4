(** * C97: the mean of several positions in binary64, whatever the order of the additions *)
From Coq Require Import ZArith Reals Lra Lia Bool Psatz List Permutation.
From Flocq Require Import Core BinarySingleNaN Relative.
From Verif Require Import Spec LVec LAngle FTiny FZero FBase FRel FRel2 FUnit FPi FAngle FDist FGreat FTrack FLatLon FInv FEcef FEcef2 FNed FNed2 FNed3 FDelta FDelta2 FDelta3 FMove FWay FWay2 FWay3 FWay4 FInterp.
Import ListNotations.
Local Open Scope R_scope.

(** s is the sum of the numbers of l, added up in some order by a tree of additions of depth d
    (np.sum adds in blocks and in pairs, in an order that depends on the memory layout; from left to right is depth n - 1) *)
Inductive added : nat -> list float64 -> float64 -> Prop :=
| added_one x : added 0 [x] x
| added_two d1 d2 l1 l2 s1 s2 : added d1 l1 s1 -> added d2 l2 s2 -> added (S (Nat.max d1 d2)) (l1 ++ l2) (fadd s1 s2)
| added_perm d l l' s : Permutation l l' -> added d l s -> added d l' s.
Definition cx (p : vec64) : float64 := let '(x, _, _) := p in x.
Definition cy (p : vec64) : float64 := let '(_, y, _) := p in y.
Definition cz (p : vec64) : float64 := let '(_, _, z) := p in z.
(** mean_horizontal_position, core.py 846, and Nvector.mean, objects.py 587 *)
Definition is_mean (d : nat) (l : list vec64) (q : vec64) : Prop :=
  exists sx sy sz, added d (map cx l) sx /\ added d (map cy l) sy /\ added d (map cz l) sz /\ q = unit64 (sx, sy, sz).

Fixpoint rsum (l : list float64) : R := match l with [] => 0 | x :: l => B2R x + rsum l end.
Fixpoint asum (l : list float64) : R := match l with [] => 0 | x :: l => Rabs (B2R x) + asum l end.
Lemma rsum_app l l' : rsum (l ++ l') = rsum l + rsum l'. Proof. induction l; cbn; lra. Qed.
Lemma asum_app l l' : asum (l ++ l') = asum l + asum l'. Proof. induction l; cbn; lra. Qed.
Lemma rsum_perm l l' : Permutation l l' -> rsum l = rsum l'. Proof. induction 1; cbn; lra. Qed.
Lemma asum_perm l l' : Permutation l l' -> asum l = asum l'. Proof. induction 1; cbn; lra. Qed.
Lemma asum_pos l : 0 <= asum l. Proof. induction l as [|x l]; cbn; [lra|]. pose proof (Rabs_pos (B2R x)). lra. Qed.
Lemma rsum_abs l : Rabs (rsum l) <= asum l. Proof. induction l as [|x l]; cbn; [rewrite Rabs_R0; lra|]. pose proof (Rabs_triang (B2R x) (rsum l)). lra. Qed.

(** growth of the error with the depth *)
Definition gam (d : nat) : R := INR d * u / (1 - INR d * u).
Lemma gam_mono d d' : (d <= d')%nat -> INR d' * u <= / 1000 -> gam d <= gam d'.
Proof.
  intros H B. apply le_INR in H. pose proof (pos_INR d) as P. pose proof u_pos as Pu. assert (X : INR d * u <= INR d' * u) by (apply Rmult_le_compat_r; lra).
  assert (0 <= INR d * u) by (apply Rmult_le_pos; lra). unfold gam, Rdiv. apply Rmult_le_compat; auto; [left; apply Rinv_0_lt_compat; lra|apply Rinv_le; lra].
Qed.
Lemma gam_pos d : INR d * u <= / 1000 -> 0 <= gam d.
Proof. intros B. pose proof (pos_INR d) as P. pose proof u_pos as Pu. assert (0 <= INR d * u) by (apply Rmult_le_pos; lra). unfold gam, Rdiv. apply Rmult_le_pos; auto. left; apply Rinv_0_lt_compat; lra. Qed.
Lemma gam_le d : INR d * u <= / 1000 -> gam d <= 1002 / 1000 * (INR d * u).
Proof.
  intros B. pose proof (pos_INR d) as P. pose proof u_pos as Pu. assert (0 <= INR d * u) by (apply Rmult_le_pos; lra). unfold gam. set (x := INR d * u) in *.
  apply Rmult_le_reg_r with (1 - x); [lra|]. unfold Rdiv. rewrite Rmult_assoc, Rinv_l by lra. nra.
Qed.
Lemma gam_step d : INR (S d) * u <= / 1000 -> gam d + u * (1 + gam d) <= gam (S d).
Proof.
  intros B. rewrite S_INR in B. unfold gam. rewrite S_INR. pose proof (pos_INR d) as P. pose proof u_pos as Pu. assert (X : 0 <= INR d * u) by (apply Rmult_le_pos; lra).
  set (x := INR d * u) in *. replace ((INR d + 1) * u) with (x + u) in * by (unfold x; ring).
  replace (x / (1 - x) + u * (1 + x / (1 - x))) with ((x + u) / (1 - x)) by (field; lra).
  unfold Rdiv. apply Rmult_le_compat_l; [lra|]. apply Rinv_le; lra.
Qed.

Lemma added_err d l s : added d l s -> Forall (fun x => is_finite x = true) l -> asum l <= bpow radix2 300 -> INR d * u <= / 1000 ->
  is_finite s = true /\ Rabs (B2R s - rsum l) <= gam d * asum l.
Proof.
  induction 1 as [x|d1 d2 l1 l2 s1 s2 H1 IH1 H2 IH2|d l l' s Pm H IH]; intros F B D.
  - inversion F; subst. split; auto. cbn [rsum asum]. replace (B2R x - (B2R x + 0)) with 0 by ring. rewrite Rabs_R0. unfold gam. cbn [INR]. unfold Rdiv. rewrite !Rmult_0_l. lra.
  - apply Forall_app in F as [F1 F2]. rewrite asum_app in *. rewrite rsum_app. pose proof (asum_pos l1) as P1. pose proof (asum_pos l2) as P2. pose proof u_pos as Pu. pose proof u_tiny as Su.
    set (m := Nat.max d1 d2) in *. assert (Dm : INR m * u <= / 1000). { rewrite S_INR in D. pose proof (pos_INR m). lra. }
    assert (M1 : (d1 <= m)%nat) by apply Nat.le_max_l. assert (M2 : (d2 <= m)%nat) by apply Nat.le_max_r.
    assert (D1 : INR d1 * u <= / 1000). { apply le_INR in M1. apply Rle_trans with (INR m * u); auto. apply Rmult_le_compat_r; lra. } assert (D2 : INR d2 * u <= / 1000). { apply le_INR in M2. apply Rle_trans with (INR m * u); auto. apply Rmult_le_compat_r; lra. }
    destruct IH1 as (G1 & E1); auto; [lra|]. destruct IH2 as (G2 & E2); auto; [lra|].
    pose proof (gam_mono _ _ M1 Dm) as W1. pose proof (gam_mono _ _ M2 Dm) as W2. pose proof (gam_pos m Dm) as PG. pose proof (gam_le m Dm) as LG.
    assert (E1' : Rabs (B2R s1 - rsum l1) <= gam m * asum l1) by (eapply Rle_trans; [exact E1|apply Rmult_le_compat_r; auto]).
    assert (E2' : Rabs (B2R s2 - rsum l2) <= gam m * asum l2) by (eapply Rle_trans; [exact E2|apply Rmult_le_compat_r; auto]).
    pose proof (rsum_abs l1) as R1. pose proof (rsum_abs l2) as R2.
    set (A := asum l1 + asum l2) in *. assert (PA : 0 <= A) by (unfold A; lra). set (T := rsum l1 + rsum l2) in *.
    assert (ES : Rabs (B2R s1 + B2R s2 - T) <= gam m * A). { replace (B2R s1 + B2R s2 - T) with ((B2R s1 - rsum l1) + (B2R s2 - rsum l2)) by (unfold T; ring). eapply Rle_trans; [apply Rabs_triang|]. unfold A. lra. }
    assert (TA : Rabs T <= A). { unfold T, A. eapply Rle_trans; [apply Rabs_triang|]. lra. }
    assert (SB : Rabs (B2R s1 + B2R s2) <= (1 + gam m) * A). { replace (B2R s1 + B2R s2) with (T + (B2R s1 + B2R s2 - T)) by ring. eapply Rle_trans; [apply Rabs_triang|]. lra. }
    destruct (fadd_val s1 s2 G1 G2) as (Fs & Es).
    { eapply Rle_trans; [exact SB|]. apply Rle_trans with (2 * bpow radix2 300); [apply Rmult_le_compat; lra|]. change 2 with (bpow radix2 1). rewrite <- bpow_plus. apply bpow_le; lia. }
    split; auto. rewrite Es. destruct (rnd_add_err (B2R s1) (B2R s2)) as (r & Hr & ER); [apply format64|apply format64|]. rewrite ER.
    replace ((B2R s1 + B2R s2) * (1 + r) - T) with ((B2R s1 + B2R s2 - T) + r * (B2R s1 + B2R s2)) by ring.
    eapply Rle_trans; [apply Rabs_triang|]. rewrite Rabs_mult.
    assert (K : Rabs r * Rabs (B2R s1 + B2R s2) <= u * ((1 + gam m) * A)) by (apply Rmult_le_compat; auto; apply Rabs_pos).
    apply Rle_trans with ((gam m + u * (1 + gam m)) * A); [lra|]. apply Rmult_le_compat_r; [unfold A; lra|]. apply gam_step; auto.
  - rewrite <- (rsum_perm _ _ Pm), <- (asum_perm _ _ Pm) in *. apply IH; auto. eapply Permutation_Forall; [apply Permutation_sym; exact Pm|auto].
Qed.

(** the exact sum of the vectors *)
Fixpoint vsum (l : list vec) : vec := match l with [] => v0 | v :: l => vadd v (vsum l) end.
Definition vabs (v : vec) : vec := V (Rabs (Spec.vx v)) (Rabs (Spec.vy v)) (Rabs (Spec.vz v)).
Lemma vsum_comp l : vsum (map vec_of l) = V (rsum (map cx l)) (rsum (map cy l)) (rsum (map cz l)).
Proof. induction l as [|[[x y] z] l IH]; [reflexivity|]. cbn [map vsum rsum]. rewrite IH. reflexivity. Qed.
Lemma vabs_comp l : vsum (map (fun p => vabs (vec_of p)) l) = V (asum (map cx l)) (asum (map cy l)) (asum (map cz l)).
Proof. induction l as [|[[x y] z] l IH]; [reflexivity|]. cbn [map vsum asum]. rewrite IH. reflexivity. Qed.
Lemma vabs_norm l : Forall near_unit l -> vnorm (vsum (map (fun p => vabs (vec_of p)) l)) <= INR (length l) * (1 + 6 * u).
Proof.
  induction 1 as [|p l Hp H IH]; [cbn; rewrite vnorm_v0; lra|]. cbn [map vsum length]. rewrite S_INR. eapply Rle_trans; [apply norm_triangle|].
  destruct (near_unit_len p Hp) as (_ & L). unfold vabs at 1. rewrite abs_vec_norm. lra.
Qed.

(** ** the mean of n positions *)
Theorem C97_mean : forall l d q, l <> [] -> Forall near_unit l -> INR (length l) <= 1000000000 -> is_mean d l q ->
  let S := vsum (map vec_of l) in let spread := INR (length l) / vnorm S in
  / 1000000 <= vnorm S -> INR d * spread * u <= / 10000000 ->
  near_unit q /\ angle S (vec_of q) <= (51 / 10 + 101 / 100 * (INR d * spread)) * u.
Proof.
  intros l d q NE H N2 (sx & sy & sz & Ax & Ay & Az & ->) S spread L B. pose proof u_pos as Pu. pose proof u_tiny as Su.
  assert (Fin : Forall finite_vec l) by (eapply Forall_impl; [|exact H]; intros p Hp; apply near_unit_len; auto).
  pose proof (vabs_norm l H) as VA. set (A := vsum (map (fun p => vabs (vec_of p)) l)) in *.
  assert (N1 : 1 <= INR (length l)). { destruct l as [|p l]; [congruence|]. cbn [length]. rewrite S_INR. pose proof (pos_INR (length l)). lra. }
  assert (SA : vnorm S <= vnorm A). { unfold S, A. rewrite vsum_comp, vabs_comp. apply norm_le_comp; cbn [Spec.vx Spec.vy Spec.vz]; apply rsum_abs. }
  assert (U : vnorm S <= 2000000000) by nra.
  assert (SP : 1 / 2 <= spread). { unfold spread. apply Rmult_le_reg_r with (vnorm S); [lra|]. unfold Rdiv at 2. rewrite Rmult_assoc, Rinv_l by lra. nra. }
  assert (Dd : INR d * u <= / 1000). { pose proof (pos_INR d). assert (INR d * u * (1 / 2) <= INR d * u * spread) by (apply Rmult_le_compat_l; [apply Rmult_le_pos; lra|lra]). lra. }
  assert (BA : Rabs (Spec.vx A) <= bpow radix2 300 /\ Rabs (Spec.vy A) <= bpow radix2 300 /\ Rabs (Spec.vz A) <= bpow radix2 300).
  { destruct (comp_le_vnorm A) as (Cx & Cy & Cz). assert (X : 2000000000 <= bpow radix2 300). { apply Rle_trans with (bpow radix2 50); [|apply bpow_le; lia]. cbn [bpow]. change (Z.pow_pos radix2 50) with 1125899906842624%Z. lra. }
    assert (vnorm A <= 2000000000) by nra. lra. }
  unfold A in BA. rewrite vabs_comp in BA. cbn [Spec.vx Spec.vy Spec.vz] in BA. destruct BA as (BX & BY & BZ). rewrite Rabs_right in BX, BY, BZ by (apply Rle_ge, asum_pos).
  destruct (added_err _ _ _ Ax) as (Fx & Ex); auto. { apply Forall_map. eapply Forall_impl; [|exact Fin]. intros [[x y] z] (h & _ & _). exact h. }
  destruct (added_err _ _ _ Ay) as (Fy & Ey); auto. { apply Forall_map. eapply Forall_impl; [|exact Fin]. intros [[x y] z] (_ & h & _). exact h. }
  destruct (added_err _ _ _ Az) as (Fz & Ez); auto. { apply Forall_map. eapply Forall_impl; [|exact Fin]. intros [[x y] z] (_ & _ & h). exact h. }
  pose proof (gam_pos d Dd) as PG. pose proof (gam_le d Dd) as LG.
  assert (E : vnorm (vsub (vec_of (sx, sy, sz)) S) <= 1003 / 1000 * (INR d * spread) * u * vnorm S).
  { apply Rle_trans with (vnorm (vscale (gam d) A)).
    { unfold S, A. rewrite vsum_comp, vabs_comp. apply norm_le_comp; unfold vsub, vscale, vec_of; cbn [Spec.vx Spec.vy Spec.vz]; assumption. }
    rewrite vnorm_scale, Rabs_right by lra. unfold spread. replace (1003 / 1000 * (INR d * (INR (length l) / vnorm S)) * u * vnorm S) with (1003 / 1000 * (INR d * u) * INR (length l)) by (field; lra).
    pose proof (pos_INR d). assert (0 <= INR d * u) by (apply Rmult_le_pos; lra).
    apply Rle_trans with (1002 / 1000 * (INR d * u) * (INR (length l) * (1 + 6 * u))); [apply Rmult_le_compat; auto; apply vnorm_pos|].
    assert (0 <= INR d * u * INR (length l)) by (apply Rmult_le_pos; lra).
    replace (1002 / 1000 * (INR d * u) * (INR (length l) * (1 + 6 * u))) with (1002 / 1000 * (INR d * u * INR (length l)) * (1 + 6 * u)) by ring. nra. }
  destruct (unit_inexact (sx, sy, sz) S _ ltac:(repeat split; auto) L ltac:(lra) E) as (N & AN). { lra. }
  split; auto. eapply Rle_trans; [exact AN|]. pose proof (pos_INR d). assert (0 <= INR d * spread * u) by (apply Rmult_le_pos; [apply Rmult_le_pos; lra|lra]). lra.
Qed.
Print Assumptions C97_mean.

Lemma vsum_dot l w : vdot (vsum l) w = fold_right (fun v t => vdot v w + t) 0 l.
Proof. induction l as [|v l IH]; cbn [vsum fold_right]; [unfold vdot, v0; cbn [Spec.vx Spec.vy Spec.vz]; ring|]. rewrite <- IH. unfold vdot, vadd; cbn [Spec.vx Spec.vy Spec.vz]; ring. Qed.

(** positions within 60 degrees of some point: within 2.03 d + 5.1 units of roundoff, d the depth of the additions *)
Theorem C97_mean_cap : forall l d q w, l <> [] -> Forall near_unit l -> INR (length l) <= 1000000000 -> INR d <= 10000000 -> is_mean d l q ->
  vnorm w = 1 -> Forall (fun p => / 2 <= vdot (vec_of p) w) l ->
  near_unit q /\ angle (vsum (map vec_of l)) (vec_of q) <= (51 / 10 + 203 / 100 * INR d) * u.
Proof.
  intros l d q w NE H LN LD M W C. pose proof u_pos as Pu. pose proof u_tiny as Su.
  assert (N1 : 1 <= INR (length l)). { destruct l as [|p l]; [congruence|]. cbn [length]. rewrite S_INR. pose proof (pos_INR (length l)). lra. }
  set (S := vsum (map vec_of l)).
  assert (SW : INR (length l) / 2 <= vdot S w).
  { unfold S. rewrite vsum_dot. clear - C. induction C as [|p l Hp C IH]; cbn [map fold_right length]; [cbn; lra|]. rewrite S_INR. lra. }
  assert (SN : INR (length l) / 2 <= vnorm S). { pose proof (cauchy_schwarz S w) as CS. pose proof (Rle_abs (vdot S w)). rewrite W in CS. lra. }
  assert (SP : 0 <= INR (length l) / vnorm S <= 2).
  { split; [apply Rmult_le_pos; [lra|left; apply Rinv_0_lt_compat; lra]|]. apply Rmult_le_reg_r with (vnorm S); [lra|]. unfold Rdiv. rewrite Rmult_assoc, Rinv_l by lra. lra. }
  pose proof (pos_INR d) as PD. assert (K : INR d * (INR (length l) / vnorm S) <= INR d * 2) by (apply Rmult_le_compat_l; lra).
  destruct (C97_mean l d q NE H LN M) as (N & A). { fold S. lra. } { fold S. apply Rle_trans with (INR d * 2 * u); [apply Rmult_le_compat_r; lra|]. nra. }
  split; auto. eapply Rle_trans; [exact A|]. fold S. apply Rmult_le_compat_r; lra.
Qed.
Print Assumptions C97_mean_cap.

(** ** A concrete case: three positions, added from left to right; and an interpolation *)
Lemma axis_unit x y z : is_finite x = true -> is_finite y = true -> is_finite z = true -> B2R x * B2R x + B2R y * B2R y + B2R z * B2R z = 1 -> near_unit (x, y, z).
Proof. intros Fx Fy Fz E. repeat split; auto. unfold length3. rewrite E, sqrt_1. pose proof u_pos. rewrite Rminus_eq_0, Rabs_R0. lra. Qed.
Lemma fone_val : B2R fone = 1. Proof. unfold fone, f, B2R, F2R; cbn. lra. Qed.
Example C97_example : let l := [(fone, fzero, fzero); (fzero, fone, fzero); (fone, fzero, fzero)] in
  Forall near_unit l /\ is_mean 2 l (unit64 (fadd (fadd fone fzero) fone, fadd (fadd fzero fone) fzero, fadd (fadd fzero fzero) fzero)) /\
  / 1000000 <= vnorm (vsum (map vec_of l)) /\ 0 <= vdot (vec_of (fone, fzero, fzero)) (vec_of (fzero, fone, fzero)) /\ is_finite fhalf = true /\ 0 <= B2R fhalf <= 1.
Proof.
  assert (X : near_unit (fone, fzero, fzero)) by (apply axis_unit; auto; rewrite fone_val, fzero_val; ring).
  assert (Y : near_unit (fzero, fone, fzero)) by (apply axis_unit; auto; rewrite fone_val, fzero_val; ring).
  cbv zeta. split; [apply Forall_cons; [exact X|apply Forall_cons; [exact Y|apply Forall_cons; [exact X|apply Forall_nil]]]|]. split.
  { exists (fadd (fadd fone fzero) fone), (fadd (fadd fzero fone) fzero), (fadd (fadd fzero fzero) fzero). cbn [map cx cy cz].
    assert (K : forall x y z, added 2 [x; y; z] (fadd (fadd x y) z)) by (intros x y z; exact (added_two 1 0 [x; y] [z] _ _ (added_two 0 0 [x] [y] _ _ (added_one x) (added_one y)) (added_one z))).
    repeat split; apply K. }
  split. { cbn [map vsum vec_of]. rewrite fone_val, fzero_val. unfold vadd, v0, vnorm, vdot; cbn [Spec.vx Spec.vy Spec.vz]. rewrite <- (sqrt_square (/ 1000000)) by lra. apply sqrt_le_1_alt. lra. }
  split. { cbn [vec_of]. rewrite fone_val, fzero_val. unfold vdot; cbn [Spec.vx Spec.vy Spec.vz]. lra. }
  split; [reflexivity|]. rewrite fhalf_val. lra.
Qed.
