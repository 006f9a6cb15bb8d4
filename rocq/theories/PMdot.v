(** * C33: mdot *)
From Coq Require Import List Arith Lia Bool Reals Lra.
From Verif Require Import Num Py Nd MUtil Spec SpecArr LNum LArr.
Import ListNotations.
Local Open Scope R_scope.

(** specification: the real sum f 0 + ... + f (n-1) and the product of real matrices given as functions *)
Fixpoint rsum (n : nat) (f : nat -> R) : R := match n with O => 0 | S m => rsum m f + f m end.
Definition matmul (q : nat) (f g : nat -> nat -> R) : nat -> nat -> R :=
  fun i l => rsum q (fun m => f i m * g m l).

(** [A] is p x q x s (or p x q, then s = 1) and slice t holds the matrix [f t] *)
Definition stack_of (A : arr num) (p q s : nat) (f : nat -> nat -> nat -> R) : Prop :=
  exists sl, shape A = p :: q :: sl /\ ((sl = [] /\ s = 1%nat) \/ sl = [s]) /\
  forall i k t, (i < p)%nat -> (k < q)%nat -> (t < s)%nat ->
    get A (i :: k :: match sl with [] => [] | _ => [t] end) ≈ f t i k.

Lemma rsum_ext n f g : (forall i, (i < n)%nat -> f i = g i) -> rsum n f = rsum n g.
Proof. induction n; simpl; intros H; auto. rewrite IHn, H; auto. Qed.
Lemma rsum_mul_r n f c : rsum n f * c = rsum n (fun i => f i * c).
Proof. induction n; simpl; [ring|]. rewrite <- IHn. ring. Qed.
Lemma rsum_mul_l n f c : c * rsum n f = rsum n (fun i => c * f i).
Proof. induction n; simpl; [ring|]. rewrite <- IHn. ring. Qed.
Lemma rsum_add n f g : rsum n f + rsum n g = rsum n (fun i => f i + g i).
Proof. induction n; simpl; [ring|]. rewrite <- IHn. ring. Qed.
Lemma rsum_0 n : rsum n (fun _ => 0) = 0.
Proof. induction n; simpl; auto. rewrite IHn. ring. Qed.
Lemma rsum_swap n m f : rsum n (fun i => rsum m (fun j => f i j)) = rsum m (fun j => rsum n (fun i => f i j)).
Proof.
  induction n; simpl; [rewrite rsum_0; reflexivity|]. rewrite IHn, rsum_add. reflexivity.
Qed.
Lemma nsum_rsum n f g : (forall i, (i < n)%nat -> f i ≈ g i) -> nsum n f ≈ rsum n g.
Proof.
  induction n as [|n IH]; intros H; [reflexivity|].
  destruct n as [|n].
  - cbn [nsum rsum]. eapply fin_eq; [apply H; lia|ring].
  - change (nsum (S (S n)) f) with (nadd (nsum (S n) f) (f (S n))).
    change (rsum (S (S n)) g) with (rsum (S n) g + g (S n)). apply fin_add; [apply IH; intros; apply H; lia|apply H; lia].
Qed.

Theorem C33_slicewise_product : forall A B p q r s t k f g,
  stack_of A p q s f -> stack_of B q r t g -> bdim s t = Some k ->
  returns (mdot A B) [] (fun C =>
    stack_of C p r k (fun j => matmul q (f (cl s j)) (g (cl t j))) /\ ndim C = Nat.max (ndim A) (ndim B)).
Proof.
  intros A B p q r s t k f g (sa & SA & CA & GA) (sb & SB & CB & GB) D.
  unfold mdot, einsum_ij_jk. rewrite SA, SB, bdim_refl.
  assert (E : exists e, bshape sa sb = Some e /\ ((e = [] /\ k = 1%nat /\ sa = [] /\ sb = []) \/ e = [k])
      /\ length e = Nat.max (length sa) (length sb)).
  { destruct CA as [[-> ->]| ->], CB as [[-> ->]| ->].
    - exists []. split; [reflexivity|]. injection D as <-. split; auto.
    - exists [t]. rewrite bdim_1_l in D. injection D as <-. split; [apply bshape_nil_l|]. split; auto.
    - exists [s]. rewrite bdim_1_r in D. injection D as <-. split; [apply bshape_nil_r|]. split; auto.
    - exists [k]. split; [apply bshape_n_m; auto|]. split; auto. }
  destruct E as (e & E & Ce & Le). rewrite E. eexists; split; [reflexivity|]. split.
  - exists e. split; [reflexivity|]. split; [tauto|].
    intros i l j Hi Hl Hj. cbn [get]. unfold at_; cbn [nth tl]. unfold matmul. apply nsum_rsum.
    intros m Hm. assert (Cq : cl q m = m) by (apply cl_id; auto). rewrite Cq.
    pose proof (cl_lt_l _ _ _ _ D Hj) as La. pose proof (cl_lt_r _ _ _ _ D Hj) as Lb.
    specialize (GA i m (cl s j) Hi Hm La). specialize (GB m l (cl t j) Hm Hl Lb).
    apply fin_mul.
    + destruct CA as [[-> ->]| ->]; [exact GA|]. destruct Ce as [(-> & -> & X & _)| ->]; [discriminate|].
      rewrite bidx_1. exact GA.
    + destruct CB as [[-> ->]| ->]; [exact GB|]. destruct Ce as [(-> & -> & _ & X)| ->]; [discriminate|].
      rewrite bidx_1. exact GB.
  - unfold ndim. rewrite SA, SB. cbn [shape length]. rewrite Le. reflexivity.
Qed.
Print Assumptions C33_slicewise_product.

Theorem C33_associative : forall A B C p q r w s f g h,
  stack_of A p q s f -> stack_of B q r s g -> stack_of C r w s h ->
  exists L R, (X <- mdot A B ;; mdot X C)%py = ret L /\ (Y <- mdot B C ;; mdot A Y)%py = ret R /\
    exists d, stack_of L p w s d /\ stack_of R p w s d.
Proof.
  intros A B C p q r w s f g h HA HB HC.
  destruct (C33_slicewise_product _ _ _ _ _ _ _ _ _ _ HA HB (bdim_refl s)) as (X & EX & HX & _).
  destruct (C33_slicewise_product _ _ _ _ _ _ _ _ _ _ HX HC (bdim_refl s)) as (L & EL & HL & _).
  destruct (C33_slicewise_product _ _ _ _ _ _ _ _ _ _ HB HC (bdim_refl s)) as (Y & EY & HY & _).
  destruct (C33_slicewise_product _ _ _ _ _ _ _ _ _ _ HA HY (bdim_refl s)) as (R & ER & HR & _).
  exists L, R. change (mdot A B = ret X) in EX. change (mdot B C = ret Y) in EY.
  rewrite EX, EY, !bind_ret. split; [exact EL|]. split; [exact ER|].
  eexists; split; [exact HL|]. destruct HR as (sl & S & Cs & G). exists sl. split; auto. split; auto.
  intros i k t Hi Hk Ht. eapply fin_eq; [apply G; auto|]. cbn beta. unfold matmul.
  pose proof (cl_id s t Ht) as E. rewrite !E.
  rewrite (rsum_ext q _ (fun m => rsum r (fun j => f t i m * (g t m j * h t j k)))) by (intros; apply rsum_mul_l).
  rewrite rsum_swap. apply rsum_ext. intros j Hj. rewrite rsum_mul_r. apply rsum_ext. intros; ring.
Qed.
Print Assumptions C33_associative.

(** mismatched inner dimensions or numbers of slices are refused ... *)
Theorem C33_mismatch_refused_partial : forall A B n j ra j' m rb,
  shape A = n :: j :: ra -> shape B = j' :: m :: rb ->
  j <> j' -> j <> 1%nat -> j' <> 1%nat -> mdot A B = raise ValueError.
Proof.
  intros A B n j ra j' m rb SA SB N1 N2 N3. unfold mdot, einsum_ij_jk. rewrite SA, SB.
  unfold bdim. apply Nat.eqb_neq in N1, N2, N3. rewrite N1, N2, N3. reflexivity.
Qed.
Print Assumptions C33_mismatch_refused_partial.
Theorem C33_slices_refused : forall A B n j s m t,
  shape A = [n; j; s] -> shape B = [j; m; t] -> s <> t -> s <> 1%nat -> t <> 1%nat -> mdot A B = raise ValueError.
Proof.
  intros A B n j s m t SA SB N1 N2 N3. unfold mdot, einsum_ij_jk. rewrite SA, SB, bdim_refl.
  unfold bshape; cbn [rev app bshape_rev]. unfold bdim. apply Nat.eqb_neq in N1, N2, N3. rewrite N1, N2, N3. reflexivity.
Qed.
Print Assumptions C33_slices_refused.

(** ... except that a column times a matrix with several rows is accepted: einsum broadcasts
    the summed axis, and every column of the result is the column times a column sum *)
Theorem C33_column_times_matrix_refuted : forall A B p q r f g,
  stack_of A p 1 1 f -> stack_of B q r 1 g -> q <> 1%nat ->
  returns (mdot A B) [] (fun C =>
    stack_of C p r 1 (fun _ i l => f 0%nat i 0%nat * rsum q (fun m => g 0%nat m l))).
Proof.
  intros A B p q r f g (sa & SA & CA & GA) (sb & SB & CB & GB) Nq.
  unfold mdot, einsum_ij_jk. rewrite SA, SB, bdim_1_l.
  assert (E : exists e, bshape sa sb = Some e /\ ((e = [] /\ sa = [] /\ sb = []) \/ e = [1%nat])).
  { destruct CA as [[-> _]| ->], CB as [[-> _]| ->]; eexists; (split; [reflexivity|]); auto. }
  destruct E as (e & E & Ce). rewrite E. eexists; split; [reflexivity|].
  exists e. split; [reflexivity|]. split; [tauto|].
  intros i l j Hi Hl Hj. cbn [get]. unfold at_; cbn [nth tl]. rewrite rsum_mul_l. apply nsum_rsum.
  intros m Hm. assert (Cq : cl q m = m) by (apply cl_id; auto). rewrite Cq. change (cl 1 m) with 0%nat.
  specialize (GA i 0%nat 0%nat Hi ltac:(lia) ltac:(lia)). specialize (GB m l 0%nat Hm Hl ltac:(lia)).
  apply fin_mul.
  - destruct CA as [[-> _]| ->]; [exact GA|]. destruct Ce as [(-> & X & _)| ->]; [discriminate|]. exact GA.
  - destruct CB as [[-> _]| ->]; [exact GB|]. destruct Ce as [(-> & _ & X)| ->]; [discriminate|]. exact GB.
Qed.
Print Assumptions C33_column_times_matrix_refuted.

Example C33_example : exists A B, stack_of A 2 3 4 (fun t i k => INR (t + i * k)) /\ stack_of B 3 5 1 (fun _ i k => INR (i - k))
  /\ bdim 4 1 = Some 4%nat.
Proof.
  exists (Arr [2%nat; 3%nat; 4%nat] (fun ix => Fin (INR (at_ ix 2 + at_ ix 0 * at_ ix 1)))), (Arr [3%nat; 5%nat] (fun ix => Fin (INR (at_ ix 0 - at_ ix 1)))).
  split; [|split; [|reflexivity]].
  - exists [4%nat]. split; [reflexivity|]. split; [auto|]. intros; reflexivity.
  - exists []. split; [reflexivity|]. split; [auto|]. intros; reflexivity.
Qed.
