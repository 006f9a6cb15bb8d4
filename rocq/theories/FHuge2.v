(** * C99: unit() on one column, all finite magnitudes: the column function of FHuge.v on ordinary and on tiny columns *)
From Coq Require Import ZArith Reals Lia Lra Bool Psatz.
From Flocq Require Import Core BinarySingleNaN.
From Verif Require Import FTiny FZero FBase FUnit FHuge.
Local Open Scope R_scope.

(** ordinary columns (C76): each component is the true one to five units of roundoff, and the result has length one, whatever the norm of the zero vector *)
Theorem C99_ordinary_vectors : forall nzv x y z, ordinary x y z ->
  let '(a, b, c) := unit_col nzv x y z in let L := length3 x y z in
  Rabs (B2R a - B2R x / L) <= 5 * u * Rabs (B2R x / L) + eta /\ Rabs (B2R b - B2R y / L) <= 5 * u * Rabs (B2R y / L) + eta /\
  Rabs (B2R c - B2R z / L) <= 5 * u * Rabs (B2R z / L) + eta /\ Rabs (length3 a b c - 1) <= 6 * u.
Proof.
  intros nzv x y z O. pose proof (C76_unit_accuracy x y z O) as (_ & _ & _ & A). unfold unit_col.
  assert (NZ : is_zero_f (norm3 x y z) = false).
  { destruct (C76_norm_accuracy x y z O) as (F & E & L). apply Rabs_le_inv in E. pose proof (bpow_gt_0 radix2 (-400)). pose proof u_small. pose proof u_pos.
    destruct (norm3 x y z); auto. cbn in E. nra. }
  rewrite NZ. unfold unit_entry in A. exact A.
Qed.
Print Assumptions C99_ordinary_vectors.

(** columns whose components are all at most 2^-538, the zero vector among them: the vector of length [nzv] along the first axis *)
Theorem C99_tiny_vectors : forall nzv x y z, all_finite x y z -> is_finite nzv = true -> Rabs (B2R nzv) <= bpow radix2 1023 ->
  Rabs (B2R x) <= bpow radix2 (-538) -> Rabs (B2R y) <= bpow radix2 (-538) -> Rabs (B2R z) <= bpow radix2 (-538) ->
  let '(a, b, c) := unit_col nzv x y z in B2R a = B2R nzv /\ is_finite a = true /\ is_zero_f b = true /\ is_zero_f c = true.
Proof.
  intros nzv x y z (Fx & Fy & Fz) Fn Bn Hx Hy Hz. unfold unit_col. rewrite C62_tiny_vectors_taken_for_zero_refuted by auto.
  assert (Z : is_zero_f (fmul fzero1 nzv) = true) by (destruct nzv; try discriminate; reflexivity).
  assert (V1 : B2R fone1 = 1) by (unfold fone1, B2R, F2R; cbn; lra).
  destruct (fmul_val fone1 nzv eq_refl Fn) as (F & E). { rewrite V1, Rmult_1_l. exact Bn. }
  rewrite V1, Rmult_1_l in E. split; [|auto]. rewrite E. apply round_generic; auto with typeclass_instances. apply format64.
Qed.
Print Assumptions C99_tiny_vectors.
Example C99_tiny_example : all_finite fzero1 fzero1 fzero1 /\ is_finite fone1 = true /\ Rabs (B2R fone1) <= bpow radix2 1023 /\ Rabs (B2R fzero1) <= bpow radix2 (-538).
Proof.
  split; [repeat split|]. split; [reflexivity|]. split.
  - assert (V1 : B2R fone1 = 1) by (unfold fone1, B2R, F2R; cbn; lra). rewrite V1, Rabs_R1. apply Rle_trans with (bpow radix2 0); [cbn; lra|apply bpow_le; lia].
  - replace (B2R fzero1) with 0 by reflexivity. rewrite Rabs_R0. apply bpow_ge_0.
Qed.
