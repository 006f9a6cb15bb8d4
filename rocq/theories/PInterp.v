(** * C56: interpolated trajectories *)
From Coq Require Import List Arith Lia Bool Reals Lra ZArith Sorted.
From Verif Require Import Num Py Nd MUtil MRotation MCore MObjects MInterp Spec SpecArr SpecObj LNum LTrig LVec LArr LMat.
Import ListNotations.
Local Open Scope R_scope.

(** ** Specification: neighbouring nodes, and the chord between them *)
(** [k], [k'] are nodes with no node in between; nodes may be given in any order *)
Definition neighbours (n : nat) (T : nat -> R) (k k' : nat) : Prop :=
  (k < n)%nat /\ (k' < n)%nat /\ T k < T k' /\ forall i, (i < n)%nat -> T i <= T k \/ T k' <= T i.
Definition between {A} (mix : R -> A -> A -> A) (T : nat -> R) (y : nat -> A) (k k' : nat) (s : R) : A :=
  mix ((s - T k) / (T k' - T k)) (y k) (y k').
Definition mixR (l a b : R) : R := (1 - l) * a + l * b.
Definition mixV (l : R) (a b : vec) : vec := vadd (vscale (1 - l) a) (vscale l b).
Definition distinct (n : nat) (T : nat -> R) : Prop :=
  forall i j, (i < n)%nat -> (j < n)%nat -> T i = T j -> i = j.
Definition in_range (n : nat) (T : nat -> R) (s : R) : Prop :=
  exists a b, (a < n)%nat /\ (b < n)%nat /\ T a <= s <= T b.

(** ** Sorting *)
Section Sort.
Variables (n : nat) (x : nat -> num) (T : nat -> R).
Hypothesis HT : forall k, (k < n)%nat -> x k ≈ T k.
Hypothesis HD : distinct n T.

Lemma insert_in k l y : In y (insert_node x k l) <-> y = k \/ In y l.
Proof.
  induction l as [|h l IH]; cbn; [intuition|]. destruct (nlt (x k) (x h)); cbn; rewrite ?IH; intuition.
Qed.
Lemma insert_length k l : length (insert_node x k l) = S (length l).
Proof. induction l as [|h l IH]; cbn; auto. destruct (nlt _ _); cbn; rewrite ?IH; auto. Qed.
Lemma insert_sorted k l : (k < n)%nat -> ~ In k l -> (forall y, In y l -> (y < n)%nat) ->
  StronglySorted (fun a b => T a < T b) l -> StronglySorted (fun a b => T a < T b) (insert_node x k l).
Proof.
  intros Hk. induction l as [|h l IH]; intros Nin Hl S; cbn.
  - constructor; constructor.
  - inversion S as [|? ? S' F]; subst.
    assert (Hh : (h < n)%nat) by (apply Hl; left; auto).
    rewrite (nlt_fin _ _ _ _ (HT k Hk) (HT h Hh)). destruct (Rlt_dec (T k) (T h)) as [L|L].
    + constructor; [constructor; auto|]. constructor; auto.
      eapply Forall_impl; [|exact F]. intros y. cbn. lra.
    + assert (Hne : T h < T k).
      { destruct (Req_dec (T h) (T k)) as [E|E]; [|lra].
        apply HD in E; auto. subst. exfalso. apply Nin. left; auto. }
      constructor.
      * apply IH; auto; [intros H; apply Nin; right; auto|intros y H; apply Hl; right; auto].
      * apply Forall_forall. intros y Hy. apply insert_in in Hy as [->|Hy]; auto.
        rewrite Forall_forall in F. apply F; auto.
Qed.
Lemma argsort_spec m : (m <= n)%nat ->
  length (argsort m x) = m /\ (forall y, In y (argsort m x) <-> (y < m)%nat) /\
  StronglySorted (fun a b => T a < T b) (argsort m x).
Proof.
  induction m as [|m IH]; intros Hm; cbn.
  - split; auto. split; [intros; split; [tauto|lia]|constructor].
  - destruct IH as (L & I & S); [lia|]. split; [rewrite insert_length, L; auto|]. split.
    + intros y. rewrite insert_in, I. lia.
    + apply insert_sorted; auto; [rewrite I; lia|]. intros y Hy. apply I in Hy. lia.
Qed.

Lemma sorted_nth l i j : StronglySorted (fun a b => T a < T b) l -> (i < j < length l)%nat ->
  T (nth i l 0%nat) < T (nth j l 0%nat).
Proof.
  intros S. revert i j. induction S as [|h l S IH F]; intros i j H; cbn in H; [lia|].
  destruct j as [|j]; [lia|]. cbn [nth]. destruct i as [|i].
  - rewrite Forall_forall in F. apply F. apply nth_In. lia.
  - apply IH. lia.
Qed.
Lemma sorted_nth_le l i j : StronglySorted (fun a b => T a < T b) l -> (i <= j < length l)%nat ->
  T (nth i l 0%nat) <= T (nth j l 0%nat).
Proof.
  intros S H. destruct (Nat.eq_dec i j) as [->|]; [lra|]. left. apply sorted_nth; auto. lia.
Qed.

Lemma search_spec l s S : s ≈ S -> (forall y, In y l -> (y < n)%nat) ->
  StronglySorted (fun a b => T a < T b) l -> forall i, (i < length l)%nat ->
  ((i < searchsorted x l s)%nat -> T (nth i l 0%nat) < S) /\
  ((searchsorted x l s <= i)%nat -> S <= T (nth i l 0%nat)).
Proof.
  intros Hs Hl St. induction St as [|h l St IH F]; intros i Hi; cbn in Hi; [lia|].
  unfold searchsorted. cbn [filter].
  assert (Hh : (h < n)%nat) by (apply Hl; left; auto).
  rewrite (nlt_fin _ _ _ _ (HT h Hh) Hs). destruct (Rlt_dec (T h) S) as [L|L].
  - cbn [length]. destruct i as [|i]; [split; [auto|lia]|]. cbn [nth].
    assert (Hi' : (i < length l)%nat) by lia.
    destruct (IH ltac:(intros y Hy; apply Hl; right; auto) i Hi') as (A & B). unfold searchsorted in A, B.
    split; intros H; [apply A|apply B]; lia.
  - assert (G : forall y, In y (h :: l) -> S <= T y).
    { intros y [<-|Hy]; [lra|]. rewrite Forall_forall in F. specialize (F y Hy). cbn in F. lra. }
    assert (Z : filter (fun k => nlt (x k) s) l = []).
    { clear - G Hl HT Hs. induction l as [|g l IH]; auto. cbn [filter].
      assert (Hg : (g < n)%nat) by (apply Hl; right; left; auto).
      rewrite (nlt_fin _ _ _ _ (HT g Hg) Hs).
      destruct (Rlt_dec (T g) S) as [L|L].
      - specialize (G g ltac:(right; left; auto)). lra.
      - apply IH; intros y Hy; [apply Hl|apply G]; destruct Hy as [<-|Hy]; cbn; auto. }
    rewrite Z. cbn [length]. split; [lia|]. intros _. apply G, nth_In. cbn. lia.
Qed.

Definition node (i : nat) : nat := nth i (argsort n x) 0%nat.
Definition slot (s : num) : nat := Nat.min (n - 1) (Nat.max 1 (searchsorted x (argsort n x) s)).

Lemma node_lt i : (i < n)%nat -> (node i < n)%nat.
Proof.
  intros H. destruct (argsort_spec n (le_n n)) as (L & I & _). apply I. apply nth_In. lia.
Qed.
Lemma node_onto k : (k < n)%nat -> exists i, (i < n)%nat /\ node i = k.
Proof.
  intros H. destruct (argsort_spec n (le_n n)) as (L & I & _). apply I in H.
  apply (In_nth _ _ 0%nat) in H as (i & Hi & E). exists i. split; [lia|exact E].
Qed.
Lemma node_lo k : (k < n)%nat -> T (node 0) <= T k.
Proof.
  intros H. destruct (node_onto k H) as (i & Hi & <-). destruct (argsort_spec n (le_n n)) as (L & I & S).
  apply sorted_nth_le; auto. lia.
Qed.
Lemma node_hi k : (k < n)%nat -> T k <= T (node (n - 1)).
Proof.
  intros H. destruct (node_onto k H) as (i & Hi & <-). destruct (argsort_spec n (le_n n)) as (L & I & S).
  apply sorted_nth_le; auto. lia.
Qed.
Lemma node_neighbours i : (S i < n)%nat -> neighbours n T (node i) (node (S i)).
Proof.
  intros H. destruct (argsort_spec n (le_n n)) as (L & I & S).
  split; [apply node_lt; lia|]. split; [apply node_lt; lia|]. split; [apply sorted_nth; auto; lia|].
  intros k Hk. destruct (node_onto k Hk) as (j & Hj & <-).
  destruct (le_lt_dec j i); [left|right]; apply sorted_nth_le; auto; lia.
Qed.
Lemma slot_brackets s S : (2 <= n)%nat -> s ≈ S -> T (node 0) <= S <= T (node (n - 1)) ->
  (1 <= slot s <= n - 1)%nat /\ T (node (slot s - 1)) <= S <= T (node (slot s)).
Proof.
  intros H2 Hs R. destruct (argsort_spec n (le_n n)) as (L & I & St).
  pose proof (search_spec (argsort n x) s S Hs ltac:(intros y Hy; apply I; auto) St) as Q.
  rewrite L in Q. unfold slot. set (c := searchsorted x (argsort n x) s) in *.
  assert (1 <= Nat.min (n - 1) (Nat.max 1 c) <= n - 1)%nat by lia. split; auto.
  destruct (Nat.eq_dec c 0) as [E|E].
  - replace (Nat.min (n - 1) (Nat.max 1 c)) with 1%nat by lia. cbn [Nat.sub].
    split; [apply R|]. apply Q; lia.
  - destruct (le_lt_dec n c) as [G|G].
    + replace (Nat.min (n - 1) (Nat.max 1 c)) with (n - 1)%nat by lia.
      split; [|apply R]. left. apply (Q (n - 1 - 1)%nat); lia.
    + replace (Nat.min (n - 1) (Nat.max 1 c)) with c by lia.
      split; [left; apply (Q (c - 1)%nat); lia|apply Q; lia].
Qed.
End Sort.

Lemma unravel_2 r m i j : (j < m)%nat -> unravel [r; m] (i * m + j) = [i; j].
Proof.
  intros H. cbn [unravel prod fold_right]. rewrite !Nat.mul_1_r.
  rewrite Nat.div_add_l, (Nat.div_small j m), Nat.add_0_r by lia.
  rewrite Nat.add_comm, Nat.mod_add, (Nat.mod_small j m) by lia. rewrite Nat.div_1_r. reflexivity.
Qed.
Lemma reshape_rows_2 r m (A : arr num) : (0 < r)%nat -> shape A = [r; m] ->
  exists B, reshape_rows r A = ret B /\ shape B = [r; m] /\
    forall i j, (i < r)%nat -> (j < m)%nat -> get B [i; j] = get A [i; j].
Proof.
  intros Hr S. unfold reshape_rows, size. rewrite S. cbn [prod fold_right]. rewrite Nat.mul_1_r, (Nat.mul_comm r m).
  rewrite Nat.mod_mul, Nat.div_mul by lia. cbn [Nat.eqb].
  eexists; split; [reflexivity|]. split; [reflexivity|]. intros i j Hi Hj. cbn [get]. unfold at_. cbn [nth].
  rewrite unravel_2; auto.
Qed.
Lemma reshape_rows_1 r (A : arr num) : (0 < r)%nat -> shape A = [r] ->
  exists B, reshape_rows r A = ret B /\ shape B = [r; 1%nat] /\
    forall i, (i < r)%nat -> get B [i; 0%nat] = get A [i].
Proof.
  intros Hr S. unfold reshape_rows, size. rewrite S. cbn [prod fold_right]. rewrite Nat.mul_1_r.
  rewrite Nat.mod_same, Nat.div_same by lia. cbn [Nat.eqb].
  eexists; split; [reflexivity|]. split; [reflexivity|]. intros i Hi. cbn [get]. unfold at_. cbn [nth unravel prod fold_right].
  rewrite Nat.mul_1_r, Nat.add_0_r, Nat.div_1_r. reflexivity.
Qed.

(** the times of [t_i], one per output column *)
Lemma vals_get ti m s j : vals ti m s -> (j < m)%nat ->
  (shape ti = [] /\ m = 1%nat /\ j = 0%nat /\ get ti [] ≈ s j) \/ (shape ti = [m] /\ get ti [j] ≈ s j).
Proof.
  intros [[-> [S H]]|[S H]] Hj; [left|right]; auto. assert (j = 0)%nat by lia. subst. auto.
Qed.

Lemma interp_vectors_linear savgol A r n y t T ti m s wl :
  (0 < r)%nat -> shape A = [r; n] -> (forall i k, (i < r)%nat -> (k < n)%nat -> get A [i; k] ≈ y i k) ->
  (2 <= n)%nat -> list1 t n T -> distinct n T -> vals ti m s -> (wl <= 0)%Z ->
  exists B, interp_vectors savgol (interp1d_linear t ti) A wl = ret B /\ shape B = [r; m] /\
    forall j, (j < m)%nat ->
      (in_range n T (s j) -> exists k k', neighbours n T k k' /\ T k <= s j <= T k' /\
         forall i, (i < r)%nat -> get B [i; j] ≈ between mixR T (y i) k k' (s j)) /\
      (~ in_range n T (s j) -> forall i, (i < r)%nat -> get B [i; j] = NaN).
Proof.
  intros Hr SA HA H2 [St Ht] HD Hti Hwl.
  unfold interp_vectors, smoothing_window.
  replace (wl >? 0)%Z with false by (symmetry; rewrite Z.gtb_ltb; apply Z.ltb_ge; lia).
  rewrite bind_ret. unfold interp1d_linear. rewrite SA, St, Nat.eqb_refl.
  replace (2 <=? n)%nat with true by (symmetry; apply Nat.leb_le; lia). cbn [andb].
  rewrite bind_ret.
  set (x := fun k => get t [k]).
  assert (HT : forall k, (k < n)%nat -> x k ≈ T k) by exact Ht.
  set (E := fun i w => if nlt w (x (nth 0 (argsort n x) 0%nat)) || nlt (x (nth (n - 1) (argsort n x) 0%nat)) w then NaN
     else nadd (nmul (ndiv (nsub (get A [i; nth (Nat.min (n - 1) (Nat.max 1 (searchsorted x (argsort n x) w))) (argsort n x) 0%nat])
                                 (get A [i; nth (Nat.min (n - 1) (Nat.max 1 (searchsorted x (argsort n x) w)) - 1) (argsort n x) 0%nat]))
                           (nsub (x (nth (Nat.min (n - 1) (Nat.max 1 (searchsorted x (argsort n x) w))) (argsort n x) 0%nat))
                                 (x (nth (Nat.min (n - 1) (Nat.max 1 (searchsorted x (argsort n x) w)) - 1) (argsort n x) 0%nat))))
                     (nsub w (x (nth (Nat.min (n - 1) (Nat.max 1 (searchsorted x (argsort n x) w)) - 1) (argsort n x) 0%nat))))
               (get A [i; nth (Nat.min (n - 1) (Nat.max 1 (searchsorted x (argsort n x) w)) - 1) (argsort n x) 0%nat])).
  assert (Spec : forall w S, w ≈ S ->
      (in_range n T S -> exists k k', neighbours n T k k' /\ T k <= S <= T k' /\
         forall i, (i < r)%nat -> E i w ≈ between mixR T (y i) k k' S) /\
      (~ in_range n T S -> forall i, (i < r)%nat -> E i w = NaN)).
  { intros w S Hw. unfold E. change (nth 0 (argsort n x) 0%nat) with (node n x 0).
    change (nth (n - 1) (argsort n x) 0%nat) with (node n x (n - 1)).
    change (Nat.min (n - 1) (Nat.max 1 (searchsorted x (argsort n x) w))) with (slot n x w).
    change (nth (slot n x w) (argsort n x) 0%nat) with (node n x (slot n x w)).
    change (nth (slot n x w - 1) (argsort n x) 0%nat) with (node n x (slot n x w - 1)).
    pose proof (node_lt n x T HT HD 0 ltac:(lia)) as B0. pose proof (node_lt n x T HT HD (n - 1) ltac:(lia)) as B1.
    rewrite (nlt_fin _ _ _ _ Hw (HT _ B0)), (nlt_fin _ _ _ _ (HT _ B1) Hw).
    split.
    - intros (a & b & Ha & Hb & R).
      pose proof (node_lo n x T HT HD a Ha). pose proof (node_hi n x T HT HD b Hb).
      destruct (Rlt_dec S (T (node n x 0))); [lra|]. destruct (Rlt_dec (T (node n x (n - 1))) S); [lra|]. cbn [orb].
      destruct (slot_brackets n x T HT HD w S H2 Hw ltac:(lra)) as (Sl & Br).
      pose proof (node_neighbours n x T HT HD (slot n x w - 1) ltac:(lia)) as NB.
      replace (Datatypes.S (slot n x w - 1)) with (slot n x w) in NB by lia.
      exists (node n x (slot n x w - 1)), (node n x (slot n x w)).
      split; [exact NB|]. split; [exact Br|]. intros i Hi.
      destruct NB as (La & Lb & Lt & _).
      eapply fin_eq.
      + apply fin_add; [apply fin_mul; [apply fin_div; [apply fin_sub; apply HA; auto|apply fin_sub; apply HT; auto|lra]|apply fin_sub; [exact Hw|apply HT; auto]]|apply HA; auto].
      + unfold between, mixR. field. lra.
    - intros NR i Hi. destruct (Rlt_dec S (T (node n x 0))) as [L|L]; [reflexivity|].
      destruct (Rlt_dec (T (node n x (n - 1))) S) as [L'|L']; [reflexivity|].
      exfalso. apply NR. exists (node n x 0), (node n x (n - 1)). split; auto. split; auto. lra. }
  set (P := Arr _ _).
  destruct Hti as [[-> [Sti Hti]]|[Sti Hti]].
  - destruct (reshape_rows_1 r P Hr ltac:(unfold P; cbn [shape]; rewrite Sti; reflexivity)) as (B & EB & SB & GB).
    exists B. split; [exact EB|]. split; [exact SB|]. intros j Hj. assert (j = 0)%nat by lia. subst j.
    destruct (Spec _ _ Hti) as (U & W). split.
    + intros IR. destruct (U IR) as (k & k' & NB & Br & V). exists k, k'. split; auto. split; auto.
      intros i Hi. rewrite GB by auto. exact (V i Hi).
    + intros NR i Hi. rewrite GB by auto. exact (W NR i Hi).
  - destruct (reshape_rows_2 r m P Hr ltac:(unfold P; cbn [shape]; rewrite Sti; reflexivity)) as (B & EB & SB & GB).
    exists B. split; [exact EB|]. split; [exact SB|]. intros j Hj.
    destruct (Spec _ _ (Hti j Hj)) as (U & W). split.
    + intros IR. destruct (U IR) as (k & k' & NB & Br & V). exists k, k'. split; auto. split; auto.
      intros i Hi. rewrite GB by auto. exact (V i Hi).
    + intros NR i Hi. rewrite GB by auto. exact (W NR i Hi).
Qed.

(** ** unit() on arbitrary columns *)
Definition colnorm (A : arr num) (j : nat) : num :=
  nsqrt (nadd (nadd (nmul (get A [0%nat; j]) (get A [0%nat; j])) (nmul (get A [1%nat; j]) (get A [1%nat; j])))
              (nmul (get A [2%nat; j]) (get A [2%nat; j]))).
Lemma unit_explicit A n z : shape A = [3%nat; n] ->
  exists C, nv_unit A z = ret C /\ shape C = [3%nat; n] /\
    forall i j, (i < 3)%nat -> (j < n)%nat ->
      get C [i; j] = if neqb (colnorm A j) (Fin 0)
                     then (if (i =? 0)%nat then nmul (Fin 1) z else nmul (Fin 0) z)
                     else ndiv (get A [i; j]) (add_tiny (colnorm A j)).
Proof.
  intros SA. unfold nv_unit, norm0_keep. rewrite SA, bind_ret. unfold map2. cbn [shape map1].
  rewrite SA, (bshape_3n_1m n n n (bdim_refl n)), bind_ret. unfold set_cols. cbn [shape].
  eexists; split; [reflexivity|]. split; [reflexivity|]. intros i j Hi Hj.
  unfold at_; cbn [get nth tl nsum]. rewrite !bidx_2, (cl_id n j Hj).
  assert (Er : cl 3 i = i) by reflexivity. rewrite Er. unfold map1; cbn [get tl nsum]. reflexivity.
Qed.
Lemma unit_nan_col A n z : shape A = [3%nat; n] ->
  exists C, nv_unit A z = ret C /\ shape C = [3%nat; n] /\
    forall j, (j < n)%nat -> (exists i, (i < 3)%nat /\ get A [i; j] = NaN) -> nancol C j.
Proof.
  intros SA. destruct (unit_explicit A n z SA) as (C & E & S & G). exists C. split; auto. split; auto.
  intros j Hj (i & Hi & N).
  assert (Q : colnorm A j = NaN).
  { unfold colnorm. destruct i as [|[|[|i]]]; [| | |lia]; rewrite N, ?nan_mul_l, ?nan_mul_r, ?nan_add_l, ?nan_add_r, ?nan_add_l; reflexivity. }
  unfold nancol. rewrite !G by lia. rewrite Q. unfold neqb, add_tiny. cbn. rewrite !nan_div_r. auto.
Qed.

(** ** For every kind of interpolation and every filter: 3 x m, each column a unit vector or with NaN *)
Lemma num_cases x : isfinite x = true \/ x = NaN \/ exists b, x = Inf b.
Proof. destruct x; cbn; eauto. Qed.
Lemma inf_sq b : nmul (Inf b) (Inf b) = Inf false.
Proof. destruct b; reflexivity. Qed.
Lemma sq_cases x : (exists a, nmul x x ≈ a) \/ nmul x x = NaN \/ nmul x x = Inf false.
Proof.
  destruct (num_cases x) as [F|[->|(b & ->)]].
  - apply finite_fin in F as (a & Ha). left. eexists. apply fin_mul; eauto.
  - auto.
  - right. right. apply inf_sq.
Qed.
Definition cases3 (x : num) : Prop := (exists a, x ≈ a) \/ x = NaN \/ x = Inf false.
Lemma add_cases x y : cases3 x -> cases3 y ->
  cases3 (nadd x y) /\ ((x = Inf false \/ y = Inf false) -> nadd x y = NaN \/ nadd x y = Inf false).
Proof.
  intros Cx Cy. split.
  - destruct Cx as [(a & A)|[->| ->]], Cy as [(b & B)|[->| ->]];
      try (left; eexists; apply fin_add; eassumption); right;
      rewrite ?nan_add_l, ?nan_add_r; auto;
      try (apply fin_inv in A as [->|[-> _]]; cbn; auto);
      try (apply fin_inv in B as [->|[-> _]]; cbn; auto).
  - intros [-> | ->].
    + destruct Cy as [(b & B)|[->| ->]]; cbn; auto. apply fin_inv in B as [->|[-> _]]; cbn; auto.
    + destruct Cx as [(b & B)|[->| ->]]; cbn; auto. apply fin_inv in B as [->|[-> _]]; cbn; auto.
Qed.

Lemma inf_norm A j i b : (i < 3)%nat -> get A [i; j] = Inf b -> colnorm A j = NaN \/ colnorm A j = Inf false.
Proof.
  intros Hi H. unfold colnorm.
  set (x := nmul (get A [0%nat; j]) (get A [0%nat; j])).
  set (y := nmul (get A [1%nat; j]) (get A [1%nat; j])).
  set (z := nmul (get A [2%nat; j]) (get A [2%nat; j])).
  assert (Cx : cases3 x) by apply sq_cases. assert (Cy : cases3 y) by apply sq_cases. assert (Cz : cases3 z) by apply sq_cases.
  assert (Q : nadd (nadd x y) z = NaN \/ nadd (nadd x y) z = Inf false).
  { destruct (add_cases x y Cx Cy) as (Cxy & Ixy). destruct (add_cases (nadd x y) z Cxy Cz) as (_ & I).
    destruct i as [|[|[|i]]]; [| | |lia].
    - assert (X : x = Inf false) by (unfold x; rewrite H; apply inf_sq).
      destruct (Ixy (or_introl X)) as [N|N]; [rewrite N, nan_add_l; auto|apply I; auto].
    - assert (X : y = Inf false) by (unfold y; rewrite H; apply inf_sq).
      destruct (Ixy (or_intror X)) as [N|N]; [rewrite N, nan_add_l; auto|apply I; auto].
    - apply I. right. unfold z; rewrite H; apply inf_sq. }
  destruct Q as [-> | ->]; cbn; auto.
Qed.

Lemma unit_col_cases A n j : shape A = [3%nat; n] -> (j < n)%nat ->
  exists C, nv_unit A NaN = ret C /\ shape C = [3%nat; n] /\
    ((exists w, vcol C j w /\ vnorm w = 1) \/ (exists i, (i < 3)%nat /\ get C [i; j] = NaN)).
Proof.
  intros SA Hj. destruct (unit_explicit A n NaN SA) as (C & E & S & G). exists C. split; auto. split; auto.
  destruct (num_cases (get A [0%nat; j])) as [F0|[N|(b & B)]].
  2:{ right. exists 0%nat. split; [lia|]. destruct (unit_nan_col A n NaN SA) as (C' & E' & _ & N').
      rewrite E in E'. injection E' as <-. apply N'; auto. exists 0%nat. split; auto; lia. }
  2:{ right. exists 0%nat. split; [lia|]. rewrite G by lia.
      destruct (inf_norm A j 0 b ltac:(lia) B) as [Q|Q]; rewrite Q, B; reflexivity. }
  destruct (num_cases (get A [1%nat; j])) as [F1|[N|(b & B)]].
  2:{ right. exists 0%nat. split; [lia|]. destruct (unit_nan_col A n NaN SA) as (C' & E' & _ & N').
      rewrite E in E'. injection E' as <-. apply N'; auto. exists 1%nat. split; auto; lia. }
  2:{ right. exists 1%nat. split; [lia|]. rewrite G by lia.
      destruct (inf_norm A j 1 b ltac:(lia) B) as [Q|Q]; rewrite Q, B; reflexivity. }
  destruct (num_cases (get A [2%nat; j])) as [F2|[N|(b & B)]].
  2:{ right. exists 0%nat. split; [lia|]. destruct (unit_nan_col A n NaN SA) as (C' & E' & _ & N').
      rewrite E in E'. injection E' as <-. apply N'; auto. exists 2%nat. split; auto; lia. }
  2:{ right. exists 2%nat. split; [lia|]. rewrite G by lia.
      destruct (inf_norm A j 2 b ltac:(lia) B) as [Q|Q]; rewrite Q, B; reflexivity. }
  apply finite_fin in F0 as (a0 & A0). apply finite_fin in F1 as (a1 & A1). apply finite_fin in F2 as (a2 & A2).
  set (A' := Arr [3%nat; 1%nat] (fun ix => get A [at_ ix 0; j])).
  assert (C' : cols A' 1 (fun _ => V a0 a1 a2)).
  { split; [reflexivity|]. intros k Hk. unfold vcol, A'; cbn. auto. }
  destruct (unit_spec A' 1 _ NaN C') as (D & ED & SD & GD). specialize (GD 0%nat ltac:(lia)). cbv beta in GD.
  destruct (unit_explicit A' 1 NaN eq_refl) as (D' & ED' & _ & GD'). rewrite ED in ED'. injection ED' as <-.
  assert (Sm : forall i, (i < 3)%nat -> get C [i; j] = get D [i; 0%nat]).
  { intros i Hi. rewrite G, GD' by lia. reflexivity. }
  destruct (vec_eq_dec (V a0 a1 a2) v0) as [Z|NZ].
  - right. exists 0%nat. split; [lia|]. rewrite Sm by lia. destruct GD as [_ GD]. destruct (GD Z) as (-> & _). reflexivity.
  - left. exists (direction (V a0 a1 a2)). split; [|apply direction_unit; auto].
    destruct GD as [GD _]. specialize (GD NZ). unfold vcol in *. rewrite !Sm by lia. exact GD.
Qed.

Lemma reshape_rows_shape r (A B : arr num) : reshape_rows r A = ret B -> exists m, shape B = [r; m].
Proof.
  unfold reshape_rows. destruct (_ =? 0)%nat; intros H; inversion H; subst. eexists; reflexivity.
Qed.
Lemma bind_inv {A B} (m : M A) (f : A -> M B) ws b : bind m f = (ws, inl b) ->
  exists w1 a w2, m = (w1, inl a) /\ f a = (w2, inl b).
Proof.
  destruct m as [w1 [a|e]]; cbn; [|intros H; discriminate]. destruct (f a) as [w2 [b'|e]] eqn:E; cbn; intros H; inversion H; subst.
  exists w1, a, w2. auto.
Qed.

Theorem C56_columns_are_unit_or_nan : forall savgol interp N n window_length ws C,
  shape N = [3%nat; n] -> interp_nvectors savgol interp N window_length = (ws, inl C) ->
  exists m, shape C = [3%nat; m] /\ forall j, (j < m)%nat ->
    (exists w, vcol C j w /\ vnorm w = 1) \/ (exists i, (i < 3)%nat /\ get C [i; j] = NaN).
Proof.
  intros savgol interp N n wl ws C SN H. unfold interp_nvectors in H.
  apply bind_inv in H as (w1 & A & w2 & HA & HU). unfold interp_vectors in HA.
  apply bind_inv in HA as (w3 & B & w4 & _ & HA). apply bind_inv in HA as (w5 & D & w6 & _ & HA).
  rewrite SN in HA. assert (R : reshape_rows 3 D = ret A).
  { unfold reshape_rows in *. destruct (_ =? 0)%nat; inversion HA; subst; reflexivity. }
  destruct (reshape_rows_shape _ _ _ R) as (m & SA). exists m.
  destruct (unit_explicit A m NaN SA) as (C' & E' & S' & _). rewrite E' in HU. injection HU as <- <-. split; auto.
  intros j Hj. destruct (unit_col_cases A m j SA Hj) as (C'' & E'' & _ & Q). rewrite E' in E''. injection E'' as <-. exact Q.
Qed.
Print Assumptions C56_columns_are_unit_or_nan.

(** ** The smoothing filter is consulted only with an odd window, the requested length or one more;
    with window_length <= 0 it is not consulted at all.  (Extensionally: what the filter would do
    with any other window cannot influence the result.) *)
Theorem C56_smoothing_window_is_odd : forall savgol savgol' interp N window_length,
  (forall A w, Z.Odd w -> (window_length <= w <= window_length + 1)%Z -> (0 < window_length)%Z ->
     savgol A w = savgol' A w) ->
  interp_nvectors savgol interp N window_length = interp_nvectors savgol' interp N window_length.
Proof.
  intros savgol savgol' interp N wl H. unfold interp_nvectors, interp_vectors, smoothing_window.
  destruct (Z.gtb_spec wl 0) as [G|G]; [|reflexivity].
  rewrite H; auto.
  - rewrite <- Z.odd_spec. rewrite Zodd_mod. apply Zeq_is_eq_bool.
    pose proof (Z.mod_pos_bound wl 2 ltac:(lia)) as B. pose proof (Z.div_mod wl 2 ltac:(lia)) as D.
    assert (Q : (wl mod 2 = 0 \/ wl mod 2 = 1)%Z) by lia. destruct Q as [Q|Q].
    + assert (E : ((wl + 1) mod 2 = 1)%Z) by (rewrite D, Q; symmetry; apply (Z.mod_unique _ _ (wl / 2)); lia).
      rewrite E. rewrite E. reflexivity.
    + assert (E : ((wl + 1) mod 2 = 0)%Z) by (symmetry; apply (Z.mod_unique _ _ (wl / 2 + 1)); lia).
      rewrite E, Z.add_0_r. exact Q.
  - pose proof (Z.mod_pos_bound (wl + 1) 2 ltac:(lia)). lia.
Qed.
Print Assumptions C56_smoothing_window_is_odd.

(** ** ... and what the filter returns, not the raw data, is what is interpolated: with a window,
    the result is that of interpolating the filtered vectors with no window. *)
Theorem C56_smoothing_applied : forall savgol interp N window_length w N' n n',
  (0 < window_length)%Z -> Z.Odd w -> (window_length <= w <= window_length + 1)%Z ->
  savgol N w = ret N' -> shape N = [3%nat; n] -> shape N' = [3%nat; n'] ->
  interp_nvectors savgol interp N window_length = interp_nvectors savgol interp N' 0.
Proof.
  intros savgol interp N wl w N' n n' P O B E SN SN'. unfold interp_nvectors, interp_vectors, smoothing_window.
  destruct (Z.gtb_spec wl 0) as [G|G]; [|lia]. change (0 >? 0)%Z with false. cbv iota.
  assert (W : (wl + (wl + 1) mod 2 = w)%Z).
  { pose proof (Z.mod_pos_bound (wl + 1) 2 ltac:(lia)) as Q. pose proof (Z.div_mod (wl + 1) 2 ltac:(lia)) as D.
    destruct O as [k Hk]. lia. }
  rewrite W, E, bind_ret, bind_ret, SN, SN'. reflexivity.
Qed.
Print Assumptions C56_smoothing_applied.

(** ** kind='linear', no smoothing *)
Lemma chord_on_arc l a b : 0 <= l <= 1 -> mixV l a b <> v0 -> on_arc a b (direction (mixV l a b)).
Proof.
  intros Hl Nz. split; [apply direction_unit; auto|].
  pose proof (vnorm_nz _ Nz) as P. exists ((1 - l) / vnorm (mixV l a b)), (l / vnorm (mixV l a b)).
  split; [apply Rmult_le_pos; [lra|left; apply Rinv_0_lt_compat; auto]|].
  split; [apply Rmult_le_pos; [lra|left; apply Rinv_0_lt_compat; auto]|].
  unfold direction. unfold mixV at 2. generalize (vnorm (mixV l a b)); intros q.
  destruct a, b. unfold vadd, vscale, Rdiv; cbn [Spec.vx Spec.vy Spec.vz]; f_equal; ring.
Qed.
Lemma frac_range n T k k' s : neighbours n T k k' -> T k <= s <= T k' -> 0 <= (s - T k) / (T k' - T k) <= 1.
Proof.
  intros (_ & _ & L & _) B. split.
  - apply Rmult_le_pos; [lra|left; apply Rinv_0_lt_compat; lra].
  - apply (Rmult_le_reg_r (T k' - T k)); [lra|]. unfold Rdiv. rewrite Rmult_assoc, Rinv_l by lra. lra.
Qed.
Lemma node_value n T (u : nat -> vec) k k' i s : distinct n T -> neighbours n T k k' -> T k <= s <= T k' ->
  (i < n)%nat -> s = T i -> between mixV T u k k' s = u i.
Proof.
  intros HD (Hk & Hk' & L & NB) B Hi ->. unfold between.
  destruct (NB i Hi) as [Q|Q].
  - assert (E : T i = T k) by lra. apply HD in E; auto. subst i.
    replace ((T k - T k) / (T k' - T k)) with 0 by (field; lra). unfold mixV.
    destruct (u k), (u k'). unfold vadd, vscale; cbn [Spec.vx Spec.vy Spec.vz]; f_equal; ring.
  - assert (E : T i = T k') by lra. apply HD in E; auto. subst i.
    replace ((T k' - T k) / (T k' - T k)) with 1 by (field; lra). unfold mixV.
    destruct (u k), (u k'). unfold vadd, vscale; cbn [Spec.vx Spec.vy Spec.vz]; f_equal; ring.
Qed.

(** the value of an interpolated n-vector column at time [s] *)
Definition interpolated (n : nat) (T : nat -> R) (u : nat -> vec) (s : R) (C : arr num) (j : nat) : Prop :=
  (forall i, (i < n)%nat -> s = T i -> u i <> v0 -> vcol C j (direction (u i))) /\
  (in_range n T s -> exists k k', neighbours n T k k' /\ T k <= s <= T k' /\
     let v := between mixV T u k k' s in
     (v <> v0 -> exists w, vcol C j w /\ on_arc (u k) (u k') w /\ same_direction w v) /\
     (v = v0 -> nancol C j)) /\
  (~ in_range n T s -> nancol C j).

Lemma cols_entries N n u : cols N n u ->
  forall i k, (i < 3)%nat -> (k < n)%nat -> get N [i; k] ≈ nth i [vx (u k); vy (u k); vz (u k)] 0.
Proof.
  intros [S H] i k Hi Hk. destruct (H k Hk) as (a & b & c). destruct i as [|[|[|i]]]; [| | |lia]; assumption.
Qed.

Lemma unit_interpolated B m n T u s : shape B = [3%nat; m] -> distinct n T ->
  (forall j, (j < m)%nat ->
      (in_range n T (s j) -> exists k k', neighbours n T k k' /\ T k <= s j <= T k' /\
         vcol B j (between mixV T u k k' (s j))) /\
      (~ in_range n T (s j) -> nancol B j)) ->
  exists C, nv_unit B NaN = ret C /\ shape C = [3%nat; m] /\ forall j, (j < m)%nat -> interpolated n T u (s j) C j.
Proof.
  intros SB HD HB. destruct (unit_explicit B m NaN SB) as (C & E & S & G). exists C. split; auto. split; auto.
  intros j Hj. destruct (HB j Hj) as (In & Out).
  assert (Uv : forall v, vcol B j v -> (v <> v0 -> vcol C j (direction v)) /\ (v = v0 -> nancol C j)).
  { intros v (A0 & A1 & A2).
    set (A' := Arr [3%nat; 1%nat] (fun ix => get B [at_ ix 0; j])).
    assert (C' : cols A' 1 (fun _ => v)).
    { split; [reflexivity|]. intros k Hk. unfold vcol, A'; cbn. auto. }
    destruct (unit_spec A' 1 _ NaN C') as (D & ED & SD & GD). specialize (GD 0%nat ltac:(lia)). cbv beta in GD.
    destruct (unit_explicit A' 1 NaN eq_refl) as (D' & ED' & _ & GD'). rewrite ED in ED'. injection ED' as <-.
    assert (Sm : forall i, (i < 3)%nat -> get C [i; j] = get D [i; 0%nat]).
    { intros i Hi. rewrite G, GD' by lia. reflexivity. }
    destruct GD as [G1 G2]. split; intros H.
    - specialize (G1 H). unfold vcol in *. rewrite !Sm by lia. exact G1.
    - destruct (G2 H) as (a & b & c). unfold nancol. rewrite !Sm, a, b, c by lia. auto. }
  split; [|split].
  - intros i Hi Es Nz. destruct (In ltac:(exists i, i; split; auto; split; auto; lra)) as (k & k' & NB & Br & V).
    rewrite (node_value n T u k k' i (s j) HD NB Br Hi Es) in V. apply Uv; auto.
  - intros IR. destruct (In IR) as (k & k' & NB & Br & V). exists k, k'. split; auto. split; auto. cbv zeta.
    destruct (Uv _ V) as (U1 & U2). split; auto. intros Nz. exists (direction (between mixV T u k k' (s j))).
    split; [auto|]. split; [|apply direction_same; auto].
    unfold between. apply chord_on_arc; auto. eapply frac_range; eauto.
  - intros NR. destruct (unit_nan_col B m NaN SB) as (C' & E' & _ & N'). rewrite E in E'. injection E' as <-.
    apply N'; auto. exists 0%nat. split; [lia|]. apply Out; auto.
Qed.

Theorem C56_linear_interpolation : forall savgol N n u t T t_i m s window_length,
  cols N n u -> (2 <= n)%nat -> list1 t n T -> distinct n T -> vals t_i m s -> (window_length <= 0)%Z ->
  returns (interp_nvectors savgol (interp1d_linear t t_i) N window_length) [] (fun C =>
    shape C = [3%nat; m] /\ forall j, (j < m)%nat -> interpolated n T u (s j) C j).
Proof.
  intros savgol N n u t T ti m s wl HN H2 Ht HD Hti Hwl.
  destruct (interp_vectors_linear savgol N 3 n (fun i k => nth i [vx (u k); vy (u k); vz (u k)] 0) t T ti m s wl
              ltac:(lia) (proj1 HN) (cols_entries N n u HN) H2 Ht HD Hti Hwl) as (B & EB & SB & GB).
  unfold interp_nvectors. rewrite EB, bind_ret.
  destruct (unit_interpolated B m n T u s SB HD) as (C & EC & SC & GC).
  { intros j Hj. destruct (GB j Hj) as (In & Out). split.
    - intros IR. destruct (In IR) as (k & k' & NB & Br & V). exists k, k'. split; auto. split; auto.
      split; [|split]; [apply (V 0%nat)|apply (V 1%nat)|apply (V 2%nat)]; lia.
    - intros NR. split; [|split]; apply Out; auto. }
  exists C. split; [exact EC|]. split; [exact SC|exact GC].
Qed.
Print Assumptions C56_linear_interpolation.

(** nodes on the unit sphere that are not antipodal never produce the undefined case *)
Theorem C56_chord_is_never_zero : forall T u k k' s n,
  neighbours n T k k' -> T k <= s <= T k' -> vnorm (u k) = 1 -> vnorm (u k') = 1 -> u k' <> vneg (u k) ->
  between mixV T u k k' s <> v0.
Proof.
  intros T u k k' s n NB Br U1 U2 NA Z. pose proof (frac_range _ _ _ _ _ NB Br) as F.
  unfold between in Z. set (l := (s - T k) / (T k' - T k)) in *. unfold mixV in Z.
  set (a := u k) in *. set (b := u k') in *.
  assert (E : vscale l b = vscale (-1) (vscale (1 - l) a)).
  { destruct a as [a1 a2 a3], b as [b1 b2 b3]. unfold vadd, vscale, v0 in *. cbn [Spec.vx Spec.vy Spec.vz] in *. injection Z as Z1 Z2 Z3. f_equal; lra. }
  assert (Nn : l = 1 - l).
  { apply (f_equal vnorm) in E. rewrite !vnorm_scale, U1, U2 in E. rewrite (Rabs_right l), (Rabs_right (1 - l)), Rabs_left in E by lra. lra. }
  apply NA. rewrite <- vscale_m1. rewrite vscale_vscale in E.
  transitivity (vscale (/ l) (vscale l b)); [rewrite vscale_vscale, Rinv_l, vscale_1 by lra; auto|].
  rewrite E, vscale_vscale. f_equal. rewrite <- Nn. field. lra.
Qed.

(** ** Nvector.interpolate: the same for the n-vectors; depths are interpolated linearly; same frame *)
Theorem C56_interpolate_method : forall savgol p n u z t T t_i m s window_length,
  cols (n_normal p) n u -> list1 (n_z p) n z ->
  (2 <= n)%nat -> list1 t n T -> distinct n T -> vals t_i m s -> (window_length <= 0)%Z ->
  returns (nv_interpolate savgol (interp1d_linear t t_i) p window_length) [] (fun q =>
    n_frame q = n_frame p /\ shape (n_normal q) = [3%nat; m] /\ shape (n_z q) = [m] /\
    forall j, (j < m)%nat -> interpolated n T u (s j) (n_normal q) j /\
      (in_range n T (s j) -> exists k k', neighbours n T k k' /\ T k <= s j <= T k' /\
          get (n_z q) [j] ≈ between mixR T z k k' (s j)) /\
      (~ in_range n T (s j) -> get (n_z q) [j] = NaN)).
Proof.
  intros savgol p n u z t T ti m s wl HN [Sz Hz] H2 Ht HD Hti Hwl.
  pose proof HN as [SN CN].
  unfold nv_interpolate, vstack2, atleast_2d. rewrite SN, Sz. unfold vcat. cbn [shape]. rewrite SN, Nat.eqb_refl, bind_ret.
  set (A := Arr _ _).
  destruct (interp_vectors_linear savgol A 4 n (fun i k => nth i [vx (u k); vy (u k); vz (u k); z k] 0) t T ti m s wl
              ltac:(lia) eq_refl) as (B & EB & SB & GB); auto.
  { intros i k Hi Hk. destruct (CN k Hk) as (a & b & c). unfold A. cbn [get]. unfold at_; cbn [nth].
    destruct i as [|[|[|[|i]]]]; [| | | |lia]; cbn; auto. }
  rewrite EB, bind_ret. unfold rows3. rewrite SB, bind_ret. cbn [Nat.min].
  set (B3 := Arr _ _).
  destruct (unit_interpolated B3 m n T u s eq_refl HD) as (C & EC & SC & GC).
  { intros j Hj. destruct (GB j Hj) as (In & Out). split.
    - intros IR. destruct (In IR) as (k & k' & NB & Br & V). exists k, k'. split; auto. split; auto.
      split; [|split]; [apply (V 0%nat)|apply (V 1%nat)|apply (V 2%nat)]; lia.
    - intros NR. split; [|split]; apply Out; auto. }
  rewrite EC, bind_ret. unfold row. rewrite SB. change (3 <? 4)%nat with true. cbv iota. rewrite bind_ret.
  unfold Nvector, default_frame. rewrite bind_ret.
  eexists. split; [reflexivity|]. cbn [n_frame n_normal n_z shape].
  split; [reflexivity|]. split; [exact SC|]. split; [reflexivity|].
  intros j Hj. split; [apply GC; auto|]. destruct (GB j Hj) as (In & Out). split.
  - intros IR. destruct (In IR) as (k & k' & NB & Br & V). exists k, k'. split; auto. split; auto. apply (V 3%nat). lia.
  - intros NR. apply Out; auto.
Qed.
Print Assumptions C56_interpolate_method.

(** three nodes given out of order; the middle one is a neighbour of both others *)
Example C56_example :
  let T := fun j => nth j [0; 4; 1] 0 in
  distinct 3 T /\ list1 (arr1 [0; 4; 1]) 3 T /\ neighbours 3 T 0 2 /\ neighbours 3 T 2 1 /\ ~ neighbours 3 T 0 1 /\
  in_range 3 T (7 / 2) /\ ~ in_range 3 T 5.
Proof.
  intros T. unfold T. split; [|split; [|split; [|split; [|split; [|split]]]]].
  - intros [|[|[|i]]] [|[|[|j]]] Hi Hj; cbn [nth]; intros E; try lia; lra.
  - apply arr1_list1.
  - split; [lia|]. split; [lia|]. split; [cbn; lra|]. intros [|[|[|i]]] Hi; cbn [nth]; try lia; lra.
  - split; [lia|]. split; [lia|]. split; [cbn; lra|]. intros [|[|[|i]]] Hi; cbn [nth]; try lia; lra.
  - intros (_ & _ & _ & H). destruct (H 2%nat ltac:(lia)) as [Q|Q]; cbn in Q; lra.
  - exists 0%nat, 1%nat. split; [lia|]. split; [lia|]. cbn. lra.
  - intros (a & b & Ha & Hb & Q). destruct b as [|[|[|b]]]; [| | |lia]; cbn in Q; lra.
Qed.
