(** * Arrays of 3 x 3 matrices *)
From Coq Require Import List Arith Lia Bool Reals Lra.
From Verif Require Import Num Py Nd MUtil MRotation Spec SpecArr LNum LVec LArr.
Import ListNotations.
Local Open Scope R_scope.

(** component and entry access *)
Definition comp (v : vec) (i : nat) : R := match i with O => vx v | 1%nat => vy v | _ => vz v end.
Definition mrow (m : mat) (i : nat) : vec := match i with O => r0 m | 1%nat => r1 m | _ => r2 m end.
Definition ent (m : mat) (i j : nat) : R := comp (mrow m i) j.

Lemma ent_T m i j : (i < 3)%nat -> (j < 3)%nat -> ent (mT m) i j = ent m j i.
Proof.
  intros Hi Hj. destruct (lt3 i Hi) as [->|[->| ->]], (lt3 j Hj) as [->|[->| ->]]; reflexivity.
Qed.
Lemma ent_mul a b i k : (i < 3)%nat -> (k < 3)%nat ->
  ent (mmul a b) i k = ent a i 0 * ent b 0 k + ent a i 1 * ent b 1 k + ent a i 2 * ent b 2 k.
Proof.
  intros Hi Hj. destruct (lt3 i Hi) as [->|[->| ->]], (lt3 k Hj) as [->|[->| ->]]; unfold ent; simpl; unfold vdot; simpl; ring.
Qed.
Lemma comp_mulv a u i : (i < 3)%nat ->
  comp (mulv a u) i = ent a i 0 * vx u + ent a i 1 * vy u + ent a i 2 * vz u.
Proof. intros Hi. destruct (lt3 i Hi) as [->|[->| ->]]; unfold ent; simpl; unfold vdot; simpl; ring. Qed.
Lemma mat_ent_eq a b : (forall i j, (i < 3)%nat -> (j < 3)%nat -> ent a i j = ent b i j) -> a = b.
Proof.
  intros H. destruct a as [[] [] []], b as [[] [] []].
  pose proof (H 0 0 ltac:(lia) ltac:(lia))%nat. pose proof (H 0 1 ltac:(lia) ltac:(lia))%nat. pose proof (H 0 2 ltac:(lia) ltac:(lia))%nat.
  pose proof (H 1 0 ltac:(lia) ltac:(lia))%nat. pose proof (H 1 1 ltac:(lia) ltac:(lia))%nat. pose proof (H 1 2 ltac:(lia) ltac:(lia))%nat.
  pose proof (H 2 0 ltac:(lia) ltac:(lia))%nat. pose proof (H 2 1 ltac:(lia) ltac:(lia))%nat. pose proof (H 2 2 ltac:(lia) ltac:(lia))%nat.
  unfold ent in *; simpl in *. congruence.
Qed.

(** [gmats A n F]: 3 x 3 (then n = 1) or 3 x 3 x n, holding the matrices F j *)
Definition gmats (A : arr num) (n : nat) (F : nat -> mat) : Prop :=
  exists s, shape A = 3%nat :: 3%nat :: s /\ ((s = [] /\ n = 1%nat) \/ s = [n]) /\
  forall i k j, (i < 3)%nat -> (k < 3)%nat -> (j < n)%nat -> get A (i :: k :: bidx s [j]) ≈ ent (F j) i k.

Lemma is_mat_gmats A M : is_mat A M <-> shape A = [3%nat; 3%nat] /\
  forall i k, (i < 3)%nat -> (k < 3)%nat -> get A [i; k] ≈ ent M i k.
Proof.
  unfold is_mat, vcol, c0, c1, c2, mT, ent; cbn [vx vy vz r0 r1 r2]. split.
  - intros (S & (a & b & c) & (d & e & f) & (g & h & l)). split; auto. intros i k Hi Hk.
    destruct (lt3 i Hi) as [->|[->| ->]], (lt3 k Hk) as [->|[->| ->]]; simpl; assumption.
  - intros [S G]. split; auto. repeat split; match goal with |- get _ [?i; ?k] ≈ _ => apply (G i k); lia end.
Qed.
Lemma mats3_ent A n F : mats3 A n F <-> shape A = [3%nat; 3%nat; n] /\
  forall i k j, (i < 3)%nat -> (k < 3)%nat -> (j < n)%nat -> get A [i; k; j] ≈ ent (F j) i k.
Proof.
  unfold mats3, scol, c0, c1, c2, mT, ent; cbn [vx vy vz r0 r1 r2]. split.
  - intros (S & G). split; auto. intros i k j Hi Hk Hj. destruct (G j Hj) as ((a & b & c) & (d & e & f) & (g & h & l)).
    destruct (lt3 i Hi) as [->|[->| ->]], (lt3 k Hk) as [->|[->| ->]]; simpl; assumption.
  - intros [S G]. split; auto. intros j Hj. repeat split; match goal with |- get _ [?i; ?k; ?l] ≈ _ => apply (G i k l); lia end.
Qed.

Lemma gmats_ext A n F G : (forall j, (j < n)%nat -> F j = G j) -> gmats A n F -> gmats A n G.
Proof.
  intros E (s & S & C & H). exists s. split; auto. split; auto. intros. rewrite <- E by auto. auto.
Qed.
Lemma mats_ext A n F G : (forall j, (j < n)%nat -> F j = G j) -> mats A n F -> mats A n G.
Proof.
  intros E [[-> H]|[N H]]; [left|right]; split; auto.
  - rewrite <- E by lia. auto.
  - apply mats3_ent. apply mats3_ent in H as [S H]. split; auto. intros. rewrite <- E; auto.
Qed.

Lemma mats_gmats A n F : mats A n F -> gmats A n F.
Proof.
  intros [[-> H]|[N H]].
  - apply is_mat_gmats in H as [S G]. exists []. split; auto. split; auto. intros i k j Hi Hk Hj.
    rewrite bidx_nil. assert (j = 0)%nat by lia; subst. auto.
  - apply mats3_ent in H as [S G]. exists [n]. split; auto. split; auto. intros i k j Hi Hk Hj.
    rewrite bidx_1, (cl_id n j Hj). auto.
Qed.

Lemma squeeze_gmats A n F : gmats A n F -> mats (squeeze A) n F.
Proof.
  intros (s & S & [[-> ->]| ->] & G).
  - left. split; auto. apply is_mat_gmats. unfold squeeze; cbn [shape get]. rewrite S. split; [reflexivity|].
    intros i k Hi Hk. cbn [unsqueeze_ix Nat.eqb]. apply (G i k 0%nat Hi Hk). lia.
  - destruct (Nat.eq_dec n 1) as [->|N].
    + left. split; auto. apply is_mat_gmats. unfold squeeze; cbn [shape get]. rewrite S. split; [reflexivity|].
      intros i k Hi Hk. cbn [unsqueeze_ix Nat.eqb]. apply (G i k 0%nat Hi Hk). lia.
    + right. split; auto. apply mats3_ent. unfold squeeze; cbn [shape get]. rewrite S.
      apply Nat.eqb_neq in N. cbn [filter Nat.eqb negb]. rewrite N. cbn [negb]. split; [reflexivity|].
      intros i k j Hi Hk Hj. cbn [unsqueeze_ix Nat.eqb]. rewrite N.
      specialize (G i k j Hi Hk Hj). rewrite bidx_1, (cl_id n j Hj) in G. exact G.
Qed.

(** reading a slice through broadcasting *)
Lemma gmats_get A s n F : shape A = 3%nat :: 3%nat :: s -> ((s = [] /\ n = 1%nat) \/ s = [n]) ->
  (forall i k j, (i < 3)%nat -> (k < 3)%nat -> (j < n)%nat -> get A (i :: k :: bidx s [j]) ≈ ent (F j) i k) ->
  forall i k j, (i < 3)%nat -> (k < 3)%nat -> (cl n j < n)%nat -> get A (i :: k :: bidx s [j]) ≈ ent (F (cl n j)) i k.
Proof.
  intros S [[-> ->]| ->] G i k j Hi Hk Hj.
  - rewrite bidx_nil. specialize (G i k 0%nat Hi Hk ltac:(lia)). rewrite bidx_nil in G. exact G.
  - specialize (G i k _ Hi Hk Hj). rewrite bidx_1 in *.
    assert (X : cl n (cl n j) = cl n j) by (apply cl_id; exact Hj). rewrite X in G. exact G.
Qed.

Lemma bshape_slices s t n m k : ((s = [] /\ n = 1%nat) \/ s = [n]) -> ((t = [] /\ m = 1%nat) \/ t = [m]) ->
  bdim n m = Some k ->
  exists e, bshape s t = Some e /\ ((e = [] /\ k = 1%nat /\ s = [] /\ t = []) \/ e = [k]).
Proof.
  intros Hs Ht D. destruct Hs as [[-> ->]| ->], Ht as [[-> ->]| ->].
  - exists []. split; [reflexivity|]. left. rewrite bdim_refl in D. injection D as <-. auto.
  - exists [m]. rewrite bdim_1_l in D. injection D as <-. split; [apply bshape_nil_l|]. auto.
  - exists [n]. rewrite bdim_1_r in D. injection D as <-. split; [apply bshape_nil_r|]. auto.
  - exists [k]. split; [apply bshape_n_m; auto|]. auto.
Qed.

Lemma mdot_gmats A B n m k F G : gmats A n F -> gmats B m G -> bdim n m = Some k ->
  exists C, mdot A B = ret C /\ gmats C k (fun j => mmul (F (cl n j)) (G (cl m j))).
Proof.
  intros (s & SA & Cs & GA) (t & SB & Ct & GB) D. unfold mdot, einsum_ij_jk. rewrite SA, SB.
  destruct (bshape_slices s t n m k Cs Ct D) as (e & E & Ce). rewrite bdim_refl, E.
  eexists; split; [reflexivity|]. exists e. split; [reflexivity|]. split; [tauto|].
  intros i l j Hi Hl Hj. cbn [get]. rewrite nsum3. unfold at_; cbn [nth tl].
  change (cl 3 0) with 0%nat. change (cl 3 1) with 1%nat. change (cl 3 2) with 2%nat.
  assert (X : bidx s (bidx e [j]) = bidx s [j] /\ bidx t (bidx e [j]) = bidx t [j]).
  { destruct Ce as [(-> & -> & -> & ->)| ->]; [split; reflexivity|].
    rewrite bidx_1, (cl_id k j Hj). split; reflexivity. }
  destruct X as [-> ->].
  pose proof (cl_lt_l _ _ _ _ D Hj) as La. pose proof (cl_lt_r _ _ _ _ D Hj) as Lb.
  rewrite ent_mul by auto.
  pose proof (gmats_get A s n F SA Cs GA) as QA. pose proof (gmats_get B t m G SB Ct GB) as QB.
  repeat first [apply fin_add | apply fin_mul]; first [apply QA|apply QB]; auto.
Qed.

(** matrices applied to the columns of a 3 x m array: mdot(R, p[:, None, ...]).reshape(3, -1) *)
Lemma mdot_cols A B n m k F u : gmats A n F -> cols B m u -> bdim n m = Some k ->
  exists X Y C, newaxis1 B = ret X /\ mdot A X = ret Y /\ reshape_rows 3 Y = ret C /\
    shape Y = [3%nat; 1%nat; k] /\
    cols C k (fun j => mulv (F (cl n j)) (u (cl m j))).
Proof.
  intros (s & SA & Cs & GA) [SB CB] D. unfold newaxis1. rewrite SB.
  exists (Arr [3%nat; 1%nat; m] (fun ix => get B (at_ ix 0 :: tl (tl ix)))).
  unfold mdot, einsum_ij_jk. cbn [shape]. rewrite SA, bdim_refl.
  destruct (bshape_slices s [m] n m k Cs (or_intror eq_refl) D) as (e & E & Ce).
  assert (e = [k]) as -> by (destruct Ce as [(-> & -> & _ & T)| ->]; [discriminate|reflexivity]).
  rewrite E.
  eexists. eexists. split; [reflexivity|]. split; [reflexivity|].
  unfold reshape_rows, size; cbn [shape prod fold_right].
  replace (3 * (1 * (k * 1)))%nat with (k * 3)%nat by lia.
  rewrite Nat.mod_mul by lia. rewrite Nat.eqb_refl. rewrite Nat.div_mul by lia.
  split; [reflexivity|]. split; [reflexivity|]. split; [reflexivity|].
  intros j Hj.
  pose proof (cl_lt_l _ _ _ _ D Hj) as La. pose proof (cl_lt_r _ _ _ _ D Hj) as Lb.
  destruct (CB _ Lb) as (x & y & z).
  pose proof (gmats_get A s n F SA Cs GA) as QA.
  assert (Un : forall i, (i < 3)%nat -> unravel [3%nat; 1%nat; k] (i * k + j) = [i; 0%nat; j]).
  { intros i Hi. cbn [unravel prod fold_right]. replace (1 * (k * 1))%nat with k by lia. replace (k * 1)%nat with k by lia.
    rewrite Nat.div_1_r, Nat.add_comm, Nat.div_add, (Nat.div_small j k), Nat.mod_add, (Nat.mod_small j k) by lia.
    rewrite (Nat.div_small j k) by lia. rewrite (Nat.mod_small j k) by lia. reflexivity. }
  assert (Ent : forall i, (i < 3)%nat ->
    nsum 3 (fun l => nmul (get A (at_ [i; 0%nat; j] 0 :: cl 3 l :: bidx s (tl (tl [i; 0%nat; j]))))
                          (get B (at_ (cl 3 l :: at_ [i; 0%nat; j] 1 :: bidx [m] (tl (tl [i; 0%nat; j]))) 0 ::
                                  tl (tl (cl 3 l :: at_ [i; 0%nat; j] 1 :: bidx [m] (tl (tl [i; 0%nat; j]))))))) ≈
      comp (mulv (F (cl n j)) (u (cl m j))) i).
  { intros i Hi. rewrite nsum3. unfold at_; cbn [nth tl].
    change (cl 3 0) with 0%nat. change (cl 3 1) with 1%nat. change (cl 3 2) with 2%nat. rewrite !bidx_1.
    rewrite comp_mulv by auto.
    repeat first [apply fin_add | apply fin_mul]; first [apply QA; auto|assumption]. }
  unfold vcol; cbn [get]. unfold at_ at 1 2 7 8 13 14; cbn [nth].
  pose proof (Ent 0%nat ltac:(lia)) as E0. pose proof (Ent 1%nat ltac:(lia)) as E1. pose proof (Ent 2%nat ltac:(lia)) as E2.
  rewrite <- (Un 0%nat ltac:(lia)) in E0. rewrite <- (Un 1%nat ltac:(lia)) in E1. rewrite <- (Un 2%nat ltac:(lia)) in E2.
  split; [exact E0|]. split; [exact E1|exact E2].
Qed.

Lemma gmats_swap A n F : gmats A n F -> exists C, swapaxes10 A = ret C /\ gmats C n (fun j => mT (F j)).
Proof.
  intros (s & SA & Cs & GA). unfold swapaxes10. rewrite SA. eexists; split; [reflexivity|].
  exists s. split; [reflexivity|]. split; auto. intros i k j Hi Hk Hj. cbn [get]. unfold at_; cbn [nth tl].
  rewrite ent_T by auto. auto.
Qed.

Lemma gmats_1 A M : is_mat A M -> gmats A 1 (fun _ => M).
Proof. intros H. apply mats_gmats. left. auto. Qed.

(** three columns put side by side *)
Lemma hstack_cols X Y Z n u v w : cols X n u -> cols Y n v -> cols Z n w ->
  exists x y z H, newaxis1 X = ret x /\ newaxis1 Y = ret y /\ newaxis1 Z = ret z /\ hstack3 x y z = ret H /\
    gmats H n (fun j => mT (Mt (u j) (v j) (w j))).
Proof.
  intros [SX CX] [SY CY] [SZ CZ]. unfold newaxis1. rewrite SX, SY, SZ.
  exists (Arr [3%nat; 1%nat; n] (fun ix => get X (at_ ix 0 :: tl (tl ix)))), (Arr [3%nat; 1%nat; n] (fun ix => get Y (at_ ix 0 :: tl (tl ix)))),
    (Arr [3%nat; 1%nat; n] (fun ix => get Z (at_ ix 0 :: tl (tl ix)))).
  eexists. split; [reflexivity|]. split; [reflexivity|]. split; [reflexivity|].
  unfold hstack3; cbn [shape]. rewrite !Nat.eqb_refl. cbn [andb]. split; [reflexivity|].
  exists [n]. split; [reflexivity|]. split; auto. intros i k j Hi Hk Hj. cbn [get].
  rewrite bidx_1, (cl_id n j Hj). unfold at_; cbn [nth tl].
  destruct (CX j Hj) as (x0 & x1 & x2), (CY j Hj) as (y0 & y1 & y2), (CZ j Hj) as (z0 & z1 & z2).
  rewrite ent_T by auto.
  destruct (lt3 i Hi) as [->|[->| ->]], (lt3 k Hk) as [->|[->| ->]]; cbn [Nat.eqb]; unfold ent; simpl; assumption.
Qed.
