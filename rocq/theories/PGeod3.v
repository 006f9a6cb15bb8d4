(** * C53: FrameE.inverse and FrameE.direct on arrays whose lengths do not match *)
From Coq Require Import List Arith Lia Bool Reals.
From Verif Require Import Spec Num Nd Py MUtil MCore MObjects PGeod.
Import ListNotations.

(** a scalar or a one-dimensional array *)
Definition flat (s : list nat) : Prop := s = [] \/ exists k, s = [k].
Lemma bshape_flat s t r : flat s -> flat t -> bshape s t = Some r ->
  flat r /\ (forall n, n <> 1 -> s = [n] \/ t = [n] -> r = [n]).
Proof.
  intros [->|(a & ->)] [->|(b & ->)]; unfold bshape; cbn [rev app bshape_rev].
  - intros [= <-]. split; [left; reflexivity|]. intros n Hn [H|H]; discriminate.
  - intros [= <-]. cbn [rev app]. split; [right; eauto|]. intros n Hn [H|H]; [discriminate|auto].
  - intros [= <-]. cbn [rev app]. split; [right; eauto|]. intros n Hn [H|H]; [auto|discriminate].
  - unfold bdim. destruct (Nat.eqb_spec a b) as [->|N].
    + intros [= <-]. cbn [rev app]. split; [right; eauto|]. intros n Hn [H|H]; auto.
    + destruct (Nat.eqb_spec a 1) as [->|N1]; [|destruct (Nat.eqb_spec b 1) as [->|N2]]; intros [= <-]; cbn [rev app]; (split; [right; eauto|]); intros n Hn [[= <-]|[= <-]]; auto; congruence.
Qed.
Lemma broadcast5_incompatible x1 x2 x3 x4 x5 n m : flat (shape x1) -> flat (shape x2) -> flat (shape x3) -> flat (shape x4) -> flat (shape x5) ->
  n <> m -> n <> 1 -> m <> 1 -> one_of [n] x1 x2 x3 x4 x5 -> one_of [m] x1 x2 x3 x4 x5 -> broadcast5 x1 x2 x3 x4 x5 = raise ValueError.
Proof.
  intros H1 H2 H3 H4 H5 D N M ON OM. unfold broadcast5.
  destruct (bshape (shape x1) (shape x2)) as [r1|] eqn:E1; auto. destruct (bshape_flat _ _ _ H1 H2 E1) as (F1 & K1).
  destruct (bshape r1 (shape x3)) as [r2|] eqn:E2; auto. destruct (bshape_flat _ _ _ F1 H3 E2) as (F2 & K2).
  destruct (bshape r2 (shape x4)) as [r3|] eqn:E3; auto. destruct (bshape_flat _ _ _ F2 H4 E3) as (F3 & K3).
  destruct (bshape r3 (shape x5)) as [r4|] eqn:E4; auto. destruct (bshape_flat _ _ _ F3 H5 E4) as (F4 & K4).
  assert (K : forall k, k <> 1 -> one_of [k] x1 x2 x3 x4 x5 -> r4 = [k]).
  { intros k Hk [O|[O|[O|[O|O]]]]; apply K4; auto; left; apply K3; auto; left; apply K2; auto. }
  pose proof (K n N ON) as A. pose proof (K m M OM) as B. congruence.
Qed.

(** two of the arguments have different lengths, neither of them 1: ValueError, before the solver is asked anything *)
Theorem C53_incompatible : forall gi gd fr x1 x2 x3 x4 z unroll degrees n m,
  flat (shape x1) -> flat (shape x2) -> flat (shape x3) -> flat (shape x4) -> flat (shape z) ->
  n <> m -> n <> 1 -> m <> 1 -> one_of [n] x1 x2 x3 x4 z -> one_of [m] x1 x2 x3 x4 z ->
  inverse gi fr x1 x2 x3 x4 z unroll degrees = raise ValueError /\ direct gd fr x1 x2 x3 x4 z unroll degrees = raise ValueError.
Proof.
  intros gi gd fr x1 x2 x3 x4 z unroll degrees n m H1 H2 H3 H4 H5 D N M ON OM.
  assert (K : forall g y1 y2 y3 y4 p1 p2 p3, shape y1 = shape x1 -> shape y2 = shape x2 -> shape y3 = shape x3 -> shape y4 = shape x4 ->
    pointwise g fr y1 y2 y3 y4 z unroll p1 p2 p3 = raise ValueError).
  { intros g y1 y2 y3 y4 p1 p2 p3 E1 E2 E3 E4. unfold pointwise. rewrite (broadcast5_incompatible y1 y2 y3 y4 z n m); unfold one_of in *; rewrite ?E1, ?E2, ?E3, ?E4; auto. }
  unfold inverse, direct. destruct degrees; split; apply K; auto.
Qed.
Print Assumptions C53_incompatible.

Example C53_incompatible_example : let two := vec NaN [Fin 0%R; Fin 1%R] in let three := vec NaN [Fin 0%R; Fin 1%R; Fin 2%R] in let s := scal (Fin 0%R) in
  flat (shape two) /\ flat (shape three) /\ flat (shape s) /\ one_of [2] two s three s s /\ one_of [3] two s three s s.
Proof. cbv zeta. unfold one_of, flat; cbn. repeat split; eauto 6. Qed.
