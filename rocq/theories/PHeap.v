(** * C39: array_to_list_dict *)
From Coq Require Import String ZArith List Lia Bool.
From Verif Require Import MUtil MHeap.
Import ListNotations.

(** ** Specification *)
(** no array and no tuple anywhere *)
Inductive plain : pyval -> Prop :=
| plain_leaf i : plain (VLeaf i)
| plain_list l : Forall plain l -> plain (VList l)
| plain_dict kv : Forall (fun p => plain (snd p)) kv -> plain (VDict kv).

(** [v] and [w] have the same keys, lengths and leaves: w is v with arrays and tuples
    replaced by lists *)
Inductive same_data : pyval -> pyval -> Prop :=
| sd_leaf i : same_data (VLeaf i) (VLeaf i)
| sd_dict kv kv' : Forall2 (fun p q => fst p = fst q /\ same_data (snd p) (snd q)) kv kv' ->
    same_data (VDict kv) (VDict kv')
| sd_list l l' : Forall2 same_data l l' -> same_data (VList l) (VList l')
| sd_tuple l l' : Forall2 same_data l l' -> same_data (VTuple l) (VList l')
| sd_scalar i : same_data (VArr (TLeaf i)) (VLeaf i)
| sd_array l l' : Forall2 (fun t v => same_data (VArr t) v) l l' -> same_data (VArr (TList l)) (VList l').

(** the value a reference stands for in a heap (finite, so without cycles; shared parts allowed) *)
Inductive denotes (h : heap) : hval -> pyval -> Prop :=
| d_leaf i : denotes h (HLeaf i) (VLeaf i)
| d_arr t : denotes h (HArr t) (VArr t)
| d_dict l kv tv : nth_error h l = Some (NDict kv) -> NoDup (map fst kv) ->
    Forall2 (fun p q => fst p = fst q /\ denotes h (snd p) (snd q)) kv tv ->
    denotes h (HRef l) (VDict tv)
| d_list l vs ts : nth_error h l = Some (NList vs) -> Forall2 (denotes h) vs ts ->
    denotes h (HRef l) (VList ts)
| d_tuple l vs ts : nth_error h l = Some (NTuple vs) -> Forall2 (denotes h) vs ts ->
    denotes h (HRef l) (VTuple ts).

(** [part T T']: T' is T with some of its parts converted *)
Inductive part : pyval -> pyval -> Prop :=
| part_same T : part T T
| part_conv T : part T (array_to_list_dict T)
| part_dict tv tv' : Forall2 (fun p q => fst p = fst q /\ part (snd p) (snd q)) tv tv' ->
    part (VDict tv) (VDict tv')
| part_list l l' : Forall2 part l l' -> part (VList l) (VList l')
| part_tuple l l' : Forall2 part l l' -> part (VTuple l) (VTuple l').

(** ** Induction on values *)
Section Ind.
  Variable P : pyval -> Prop.
  Hypothesis HD : forall kv, Forall (fun p => P (snd p)) kv -> P (VDict kv).
  Hypothesis HL : forall l, Forall P l -> P (VList l).
  Hypothesis HT : forall l, Forall P l -> P (VTuple l).
  Hypothesis HA : forall t, P (VArr t).
  Hypothesis HI : forall i, P (VLeaf i).
  Fixpoint pyval_rec' (v : pyval) : P v :=
    match v with
    | VDict kv => HD kv ((fix go l : Forall (fun p => P (snd p)) l :=
        match l with [] => Forall_nil _ | p :: l' => Forall_cons p (pyval_rec' (snd p)) (go l') end) kv)
    | VList l => HL l ((fix go l : Forall P l :=
        match l with [] => Forall_nil _ | p :: l' => Forall_cons p (pyval_rec' p) (go l') end) l)
    | VTuple l => HT l ((fix go l : Forall P l :=
        match l with [] => Forall_nil _ | p :: l' => Forall_cons p (pyval_rec' p) (go l') end) l)
    | VArr t => HA t
    | VLeaf i => HI i
    end.
End Ind.
Section IndT.
  Variable P : tl_val -> Prop.
  Hypothesis HL : forall l, Forall P l -> P (TList l).
  Hypothesis HI : forall i, P (TLeaf i).
  Fixpoint tl_rec' (v : tl_val) : P v :=
    match v with
    | TList l => HL l ((fix go l : Forall P l :=
        match l with [] => Forall_nil _ | p :: l' => Forall_cons p (tl_rec' p) (go l') end) l)
    | TLeaf i => HI i
    end.
End IndT.

Notation a2l := array_to_list_dict.

(** ** The value returned *)
Lemma plain_of_tl t : plain (of_tl t).
Proof.
  induction t as [l IH|i] using tl_rec'; simpl; constructor.
  rewrite Forall_map. exact IH.
Qed.
Lemma plain_a2l v : plain (a2l v).
Proof.
  induction v using pyval_rec'; simpl.
  - constructor. rewrite Forall_map. eapply Forall_impl; [|exact H]. auto.
  - constructor. rewrite Forall_map. exact H.
  - constructor. rewrite Forall_map. exact H.
  - apply plain_of_tl.
  - constructor.
Qed.
Lemma a2l_plain v : plain v -> a2l v = v.
Proof.
  induction v using pyval_rec'; intros P; simpl.
  - inversion P; subst. f_equal. rewrite <- (map_id kv) at 2. apply map_ext_in. intros [k x] I. cbn.
    rewrite Forall_forall in H, H1. f_equal. apply (H _ I). apply (H1 _ I).
  - inversion P; subst. f_equal. rewrite <- (map_id l) at 2. apply map_ext_in. intros x I.
    rewrite Forall_forall in H, H1. auto.
  - inversion P.
  - inversion P.
  - reflexivity.
Qed.
Lemma same_data_of_tl t : same_data (VArr t) (of_tl t).
Proof.
  induction t as [l IH|i] using tl_rec'; simpl; constructor.
  induction IH; simpl; constructor; auto.
Qed.

Theorem C39_no_arrays_or_tuples : forall v, plain (array_to_list_dict v).
Proof. exact plain_a2l. Qed.
Print Assumptions C39_no_arrays_or_tuples.

Theorem C39_idempotent : forall v, array_to_list_dict (array_to_list_dict v) = array_to_list_dict v.
Proof. intros v. apply a2l_plain, plain_a2l. Qed.
Print Assumptions C39_idempotent.

Theorem C39_keeps_structure : forall v, same_data v (array_to_list_dict v).
Proof.
  induction v using pyval_rec'; simpl.
  - constructor. induction H; simpl; constructor; auto.
  - constructor. induction H; simpl; constructor; auto.
  - constructor. induction H; simpl; constructor; auto.
  - apply same_data_of_tl.
  - constructor.
Qed.
Print Assumptions C39_keeps_structure.

(** the result is determined by the two properties *)
Lemma same_data_plain_unique v : forall w, plain w -> same_data v w -> w = a2l v.
Proof.
  assert (T : forall t w, same_data (VArr t) w -> w = of_tl t).
  { induction t as [l IH|i] using tl_rec'; intros w H; inversion H; subst; simpl; auto.
    f_equal. clear H. revert IH. match goal with F : Forall2 _ _ _ |- _ => rename F into FF end.
    induction FF as [|t w l l' Ht FF IHF]; intros I; auto. inversion I; subst. simpl. f_equal; auto. }
  induction v using pyval_rec'; intros w P S.
  - inversion S; subst; simpl. inversion P; subst. f_equal. clear S P. revert H2 H. 
    induction H1 as [|[k x] [k' x'] l l' [E D] F IH]; intros P I; auto. cbn in E. subst k'.
    inversion P; inversion I; subst. simpl. f_equal; [f_equal; cbn in *; auto|auto].
  - inversion S; subst; simpl. inversion P; subst. f_equal. clear S P. revert H2 H.
    induction H1; intros P I; auto. inversion P; inversion I; subst. simpl. f_equal; auto.
  - inversion S; subst; simpl. inversion P; subst. f_equal. clear S P. revert H2 H.
    induction H1; intros P I; auto. inversion P; inversion I; subst. simpl. f_equal; auto.
  - apply T; auto.
  - inversion S; subst; auto.
Qed.
Theorem C39_characterised : forall v w, plain w -> same_data v w -> w = array_to_list_dict v.
Proof. intros; apply same_data_plain_unique; auto. Qed.
Print Assumptions C39_characterised.

(** ** The heap *)
Fixpoint ht_tl (t : tl_val) : nat :=
  match t with TLeaf _ => 1 | TList l => S (fold_right max 0 (map ht_tl l)) end.
Fixpoint ht (v : pyval) : nat :=
  match v with
  | VDict kv => S (fold_right max 0 (map (fun p => ht (snd p)) kv))
  | VList l | VTuple l => S (fold_right max 0 (map ht l))
  | VArr t => ht_tl t
  | VLeaf _ => 1
  end.
Lemma ht_of_tl t : ht (of_tl t) = ht_tl t.
Proof.
  induction t as [l IH|i] using tl_rec'; simpl; auto. f_equal. f_equal. rewrite map_map.
  apply map_ext_in. rewrite Forall_forall in IH. auto.
Qed.
Lemma ht_a2l v : ht (a2l v) = ht v.
Proof.
  induction v using pyval_rec'; simpl; auto.
  - f_equal. f_equal. rewrite map_map. apply map_ext_in. rewrite Forall_forall in H. intros; cbn; auto.
  - f_equal. f_equal. rewrite map_map. apply map_ext_in. rewrite Forall_forall in H. auto.
  - f_equal. f_equal. rewrite map_map. apply map_ext_in. rewrite Forall_forall in H. auto.
  - apply ht_of_tl.
Qed.
Lemma max_in (l : list nat) x : In x l -> x <= fold_right max 0 l.
Proof. induction l; simpl; [tauto|]. intros [->|H]; [lia|]. specialize (IHl H). lia. Qed.
Lemma ht_dict_in kv p : In p kv -> ht (snd p) < ht (VDict kv).
Proof. intros I. simpl. apply le_n_S. apply max_in. apply in_map_iff. exists p; auto. Qed.
Lemma ht_list_in l p : In p l -> ht p < ht (VList l).
Proof. intros I. simpl. apply le_n_S. apply max_in. apply in_map_iff. exists p; auto. Qed.
Lemma ht_tuple_in l p : In p l -> ht p < ht (VTuple l).
Proof. intros I. simpl. apply le_n_S. apply max_in. apply in_map_iff. exists p; auto. Qed.
Lemma ht_pos v : 0 < ht v.
Proof. destruct v; simpl; try lia. destruct tolist; simpl; lia. Qed.

(** Forall2 helpers *)
Lemma F2_impl {A B} (P Q : A -> B -> Prop) l l' :
  (forall a b, In b l' -> P a b -> Q a b) -> Forall2 P l l' -> Forall2 Q l l'.
Proof. intros H F. induction F; constructor; [apply H; simpl; auto|apply IHF; intros; apply H; simpl; auto]. Qed.
(** replace the right-hand list through a relation *)
Lemma F2_step {A B C} (P : A -> B -> Prop) (Q : A -> C -> Prop) (S : B -> C -> Prop) l l' :
  (forall a b, In b l' -> P a b -> exists c, Q a c /\ S b c) -> Forall2 P l l' ->
  exists l'', Forall2 Q l l'' /\ Forall2 S l' l''.
Proof.
  intros H F. induction F; [exists []; auto|].
  destruct (H x y) as (c & Qc & Sc); simpl; auto.
  destruct IHF as (l'' & Q2 & S2). { intros; apply H; simpl; auto. }
  exists (c :: l''); split; constructor; auto.
Qed.
Lemma F2_eq {A B} (P : A -> B -> Prop) l l' m :
  (forall a b c, In b l' -> P a b -> P a c -> b = c) -> Forall2 P l l' -> Forall2 P l m -> l' = m.
Proof.
  intros H F. revert m. induction F; intros m G; inversion G; subst; auto.
  f_equal; [eapply H; simpl; eauto|apply IHF; auto]. intros; eapply H; simpl; eauto.
Qed.

Lemma denotes_det h : forall v T T', denotes h v T -> denotes h v T' -> T = T'.
Proof.
  assert (G : forall n v T T', ht T <= n -> denotes h v T -> denotes h v T' -> T = T').
  { induction n as [|n IH]; intros v T T' L D D'. { pose proof (ht_pos T); lia. }
    inversion D; subst; inversion D'; subst; auto; try congruence.
    - f_equal. assert (kv0 = kv) by congruence. subst. eapply F2_eq; [|exact H1|exact H5].
      intros [k a] [k1 b] [k2 c] I [E Da] [E' Da']. cbn [fst snd] in *. subst. f_equal.
      eapply IH; eauto. pose proof (ht_dict_in _ _ I). cbn [snd] in *. lia.
    - f_equal. assert (vs0 = vs) by congruence. subst. eapply F2_eq; [|exact H0|exact H3].
      intros a b c I Da Da'. eapply IH; eauto. pose proof (ht_list_in _ _ I). lia.
    - f_equal. assert (vs0 = vs) by congruence. subst. eapply F2_eq; [|exact H0|exact H3].
      intros a b c I Da Da'. eapply IH; eauto. pose proof (ht_tuple_in _ _ I). lia. }
  intros v T T'. apply (G (ht T)). lia.
Qed.

(** *** part *)
Ltac getF := match goal with F : Forall2 _ _ _ |- _ => rename F into FF end.
Lemma part_a2l T T' : part T T' -> a2l T' = a2l T.
Proof.
  revert T'. induction T using pyval_rec'; intros T' P; inversion P; subst; auto; try apply C39_idempotent;
    getF; simpl; f_equal; clear P; revert H.
  - induction FF as [|[k x] [k' x'] l l' [E Q] F IH]; intros I; auto.
    inversion I; subst. simpl. cbn in E. subst. f_equal; [f_equal; cbn in *; auto|auto].
  - induction FF; intros I; auto. inversion I; subst. simpl. f_equal; auto.
  - induction FF; intros I; auto. inversion I; subst. simpl. f_equal; auto.
Qed.
Lemma part_plain T T' : part T T' -> a2l T = T -> T' = T.
Proof.
  revert T'. induction T using pyval_rec'; intros T' P N; inversion P; subst; auto; try discriminate;
    simpl in N; injection N as N; getF; f_equal; clear P; revert H N.
  - induction FF as [|[k x] [k' x'] l l' [E Q] F IH]; intros I N; auto.
    inversion I; subst. simpl in N. injection N as N1 N2. cbn in E, N1. subst. f_equal; [f_equal; cbn in *; auto|auto].
  - induction FF; intros I N; auto. inversion I; subst. simpl in N. injection N as N1 N2. f_equal; auto.
Qed.
Lemma part_of_dict tv T' : part (VDict tv) T' ->
  exists tv', T' = VDict tv' /\ Forall2 (fun p q => fst p = fst q /\ part (snd p) (snd q)) tv tv'.
Proof.
  intros P. inversion P; subst.
  - exists tv. split; auto. induction tv; constructor; auto. split; auto. constructor. apply IHtv; constructor.
  - simpl. eexists; split; [reflexivity|]. induction tv; simpl; constructor; auto. split; auto. constructor.
    apply IHtv. constructor.
  - eauto.
Qed.
Lemma F2_part_trans l : Forall (fun T => forall T' T'', part T T' -> part T' T'' -> part T T'') l ->
  forall l' l'', Forall2 part l l' -> Forall2 part l' l'' -> Forall2 part l l''.
Proof.
  induction 1; intros l' l'' A B; inversion A; subst; inversion B; subst; constructor; eauto.
Qed.
Lemma part_trans T : forall T' T'', part T T' -> part T' T'' -> part T T''.
Proof.
  induction T using pyval_rec'; intros T' T'' P Q.
  - destruct (part_of_dict _ _ P) as (tv' & -> & F). destruct (part_of_dict _ _ Q) as (tv'' & -> & G).
    apply part_dict. clear P Q. revert tv'' G H. induction F; intros tv'' G I; inversion G; subst; constructor.
    + inversion I; subst. destruct H, H2. split; [congruence|]. eauto.
    + apply IHF; auto. inversion I; auto.
  - inversion P; subst; auto.
    + assert (T'' = a2l (VList l)) as -> by (apply part_plain; auto; apply C39_idempotent). constructor.
    + inversion Q; subst; auto.
      * rewrite (part_a2l _ _ P). constructor.
      * apply part_list. eapply F2_part_trans; eauto.
  - inversion P; subst; auto.
    + assert (T'' = a2l (VTuple l)) as -> by (apply part_plain; auto; apply C39_idempotent). constructor.
    + inversion Q; subst; auto.
      * rewrite (part_a2l _ _ P). constructor.
      * apply part_tuple. eapply F2_part_trans; eauto.
  - inversion P; subst; auto. assert (T'' = a2l (VArr t)) as -> by (apply part_plain; auto; apply C39_idempotent).
    constructor.
  - inversion P; subst; auto. 
Qed.

Definition leads (h h' : heap) : Prop :=
  forall w T, denotes h w T -> exists T', denotes h' w T' /\ part T T'.
Lemma leads_refl h : leads h h.
Proof. intros w T D. exists T. split; auto. constructor. Qed.
Lemma leads_trans h1 h2 h3 : leads h1 h2 -> leads h2 h3 -> leads h1 h3.
Proof.
  intros A B w T D. destruct (A _ _ D) as (T' & D' & P). destruct (B _ _ D') as (T'' & D'' & P').
  exists T''. split; auto. eapply part_trans; eauto.
Qed.

(** *** allocation *)
Lemma denotes_app h m : forall w T, denotes h w T -> denotes (h ++ m) w T.
Proof.
  assert (N : forall l n, nth_error h l = Some n -> nth_error (h ++ m) l = Some n).
  { intros l n E. rewrite nth_error_app1; auto. apply nth_error_Some. congruence. }
  assert (G : forall n w T, ht T <= n -> denotes h w T -> denotes (h ++ m) w T).
  { induction n as [|n IH]; intros w T L D. { pose proof (ht_pos T); lia. }
    inversion D; subst.
    - constructor.
    - constructor.
    - apply d_dict with kv; auto. eapply F2_impl; [|exact H1]. intros a b I [E Db]. split; auto.
      apply IH; auto. pose proof (ht_dict_in _ _ I). lia.
    - apply d_list with vs; auto. eapply F2_impl; [|exact H0]. intros a b I Db. apply IH; auto.
      pose proof (ht_list_in _ _ I). lia.
    - apply d_tuple with vs; auto. eapply F2_impl; [|exact H0]. intros a b I Db. apply IH; auto.
      pose proof (ht_tuple_in _ _ I). lia. }
  intros w T. apply (G (ht T)). lia.
Qed.
Lemma leads_app h m : leads h (h ++ m).
Proof. intros w T D. exists T. split; [apply denotes_app; auto|constructor]. Qed.

Lemma alloc_tl_spec t : forall h, exists m v, alloc_tl h t = (h ++ m, v) /\ denotes (h ++ m) v (of_tl t).
Proof.
  induction t as [l IH|i] using tl_rec'; intros h.
  2:{ exists [], (HLeaf i). rewrite app_nil_r. split; [reflexivity|constructor]. }
  cbn [alloc_tl of_tl].
  match goal with |- context [let (_, _) := ?g h l in _] => set (go := g) end.
  assert (G : exists m vs, go h l = (h ++ m, vs) /\ Forall2 (denotes (h ++ m)) vs (map of_tl l)).
  { revert h. induction l as [|t l IHl]; intros h.
    - exists [], []. rewrite app_nil_r. split; [reflexivity|constructor].
    - inversion IH; subst. destruct (H1 h) as (m1 & v1 & E1 & D1).
      destruct (IHl H2 (h ++ m1)) as (m2 & vs & E2 & D2). clear IHl.
      exists (m1 ++ m2), (v1 :: vs). cbn [go]. fold go. rewrite E1, E2, app_assoc. split; auto.
      simpl. constructor; auto. apply denotes_app. auto. }
  destruct G as (m & vs & -> & F). unfold alloc.
  exists (m ++ [NList vs]), (HRef (length (h ++ m))). rewrite app_assoc. split; [reflexivity|].
  apply d_list with vs.
  - rewrite nth_error_app2, Nat.sub_diag by lia. reflexivity.
  - eapply F2_impl; [|exact F]. intros a b _ Da. apply denotes_app; auto.
Qed.

(** *** update *)
Lemma upd_same h l n : l < length h -> nth_error (upd h l n) l = Some n.
Proof. revert l; induction h; intros [|l] H; simpl in *; try lia; auto. apply IHh; lia. Qed.
Lemma upd_other h l l' n : l <> l' -> nth_error (upd h l n) l' = nth_error h l'.
Proof. revert l l'; induction h; intros [|l] [|l'] H; simpl; auto; try congruence. Qed.
Lemma dset_keys k v kv : map fst (dset k v kv) = map fst kv.
Proof. induction kv as [|[k' v'] kv IH]; simpl; auto. destruct (String.eqb k k'); simpl; congruence. Qed.
Lemma dget_not_in k kv : ~ In k (map fst kv) -> dget k kv = None.
Proof.
  induction kv as [|[k' v'] kv IH]; simpl; auto. intros N. destruct (String.eqb_spec k k'); [subst; tauto|].
  apply IH; tauto.
Qed.
Lemma dget_in_F2 h k kv tv : Forall2 (fun p q => fst p = fst q /\ denotes h (snd p) (snd q)) kv tv ->
  In k (map fst tv) -> exists x T, dget k kv = Some x /\ denotes h x T /\ In (k, T) tv.
Proof.
  induction 1 as [|[k1 x1] [k2 T2] l l' [E D] F IH]; simpl; [tauto|]. cbn in E, D. subst k2.
  intros I. destruct (String.eqb_spec k k1).
  - subst. exists x1, T2. auto.
  - destruct I as [->|I]; [congruence|]. destruct (IH I) as (x & T & A & B & C). exists x, T. auto.
Qed.

(** entries of the dict after d[k] = x1 *)
Lemma dset_F2 h h2 k x1 kv tv :
  NoDup (map fst kv) ->
  Forall2 (fun p q => fst p = fst q /\ denotes h (snd p) (snd q)) kv tv ->
  (forall p T, In T tv -> fst p = fst T -> denotes h (snd p) (snd T) -> 
     exists T', denotes h2 (snd p) T' /\ part (snd T) T') ->
  (forall T, In (k, T) tv -> denotes h2 x1 (a2l T)) ->
  exists tv', Forall2 (fun p q => fst p = fst q /\ denotes h2 (snd p) (snd q)) (dset k x1 kv) tv' /\
    Forall2 (fun p q => fst p = fst q /\ part (snd p) (snd q) /\ (fst p = k -> snd q = a2l (snd p))) tv tv'.
Proof.
  intros ND F. induction F as [|[k1 y1] [k2 T2] l l' [E D] F IH]; intros H1 H2; [exists []; simpl; auto|].
  cbn [fst snd] in E, D. subst k2. simpl. inversion ND; subst.
  destruct (String.eqb_spec k k1) as [->|N].
  - assert (R : exists tv', Forall2 (fun p q => fst p = fst q /\ denotes h2 (snd p) (snd q)) l tv' /\
      Forall2 (fun p q => fst p = fst q /\ part (snd p) (snd q)) l' tv').
    { apply F2_step with (P := fun p q => fst p = fst q /\ denotes h (snd p) (snd q)); auto.
      intros [ka a] [kb b] I [Eab Dab]. cbn in *. subst kb.
      destruct (H1 (ka, a) (ka, b)) as (T' & DT & PT); cbn; auto. exists (ka, T'). cbn. auto. }
    destruct R as (tv' & R1 & R2). exists ((k1, a2l T2) :: tv').
    split; (constructor; cbn [fst snd]; [|auto]).
    + split; auto. apply H2. left; auto.
    + split; auto. split; [constructor|auto].
    + clear - R2 F H3. revert tv' R2. induction F as [|[a b] [c d] l l' [E D] F IH]; intros tv' R2; inversion R2; subst; constructor.
      * destruct H1 as [H1 H2]. split; auto. split; auto. intros Ek. exfalso. apply H3. cbn in *. left. congruence.
      * apply IH; auto. intros I. apply H3. right. auto.
  - destruct (H1 (k1, y1) (k1, T2)) as (T' & DT & PT); cbn; auto.
    destruct IH as (tv' & R1 & R2); auto.
    { intros. apply H1; simpl; auto. }
    { intros. apply H2; simpl; auto. }
    exists ((k1, T') :: tv'). split; (constructor; cbn [fst snd]; auto).
    split; auto. split; auto. congruence.
Qed.

Lemma upd_leads h l kv k x1 tv :
  nth_error h l = Some (NDict kv) -> denotes h (HRef l) (VDict tv) ->
  (forall T, In (k, T) tv -> denotes h x1 (a2l T)) ->
  leads h (upd h l (NDict (dset k x1 kv))).
Proof.
  intros El Dl Hx. set (h2 := upd h l (NDict (dset k x1 kv))).
  assert (Ll : l < length h) by (apply nth_error_Some; congruence).
  assert (G : forall n w T, ht T <= n -> denotes h w T -> exists T', denotes h2 w T' /\ part T T').
  { induction n as [|n IH]; intros w T L D. { pose proof (ht_pos T); lia. }
    destruct w as [l'| |].
    2:{ inversion D; subst. eexists; split; [apply d_arr|constructor]. }
    2:{ inversion D; subst. eexists; split; [apply d_leaf|constructor]. }
    destruct (Nat.eq_dec l l') as [<-|Nl].
    - assert (T = VDict tv) by (eapply denotes_det; eauto). subst T.
      inversion D; subst. assert (kv0 = kv) by congruence. subst kv0.
      destruct (dset_F2 h h2 k x1 kv tv) as (tv' & A & B); auto.
      + intros p T I _ Dp. apply IH; auto. pose proof (ht_dict_in _ _ I). lia.
      + intros T I. destruct (IH x1 (a2l T)) as (T' & DT & PT).
        * rewrite ht_a2l. pose proof (ht_dict_in _ _ I). cbn [snd] in *. lia.
        * auto.
        * rewrite <- (part_plain _ _ PT (C39_idempotent T)). exact DT.
      + exists (VDict tv'). split.
        * eapply d_dict; [apply upd_same; auto|rewrite dset_keys; auto|exact A].
        * apply part_dict. eapply F2_impl; [|exact B]. intros a b _ (? & ? & _); auto.
    - inversion D; subst.
      + assert (R : exists tv', Forall2 (fun p q => fst p = fst q /\ denotes h2 (snd p) (snd q)) kv0 tv' /\
          Forall2 (fun p q => fst p = fst q /\ part (snd p) (snd q)) tv0 tv').
        { eapply F2_step; [|eassumption]. intros [ka a] [kb b] I [Eab Dab]. cbn [fst snd] in *. subst kb.
          destruct (IH a b) as (T' & DT & PT); auto; [pose proof (ht_dict_in _ _ I); cbn [fst snd] in *; lia|].
          exists (ka, T'). cbn. auto. }
        destruct R as (tv' & A & B). exists (VDict tv'). split; [|apply part_dict; auto].
        apply d_dict with kv0; auto. unfold h2. rewrite upd_other; auto.
      + assert (R : exists tv', Forall2 (denotes h2) vs tv' /\ Forall2 part ts tv').
        { eapply F2_step; [|eassumption]. intros a b I Dab. apply IH; auto. pose proof (ht_list_in _ _ I). lia. }
        destruct R as (tv' & A & B). exists (VList tv'). split; [|apply part_list; auto].
        apply d_list with vs; auto. unfold h2. rewrite upd_other; auto.
      + assert (R : exists tv', Forall2 (denotes h2) vs tv' /\ Forall2 part ts tv').
        { eapply F2_step; [|eassumption]. intros a b I Dab. apply IH; auto. pose proof (ht_tuple_in _ _ I). lia. }
        destruct R as (tv' & A & B). exists (VTuple tv'). split; [|apply part_tuple; auto].
        apply d_tuple with vs; auto. unfold h2. rewrite upd_other; auto. }
  intros w T. apply (G (ht T)). lia.
Qed.

(** ** The whole function *)
(** entries already converted *)
Definition done (ks : list string) (tv : list (string * pyval)) : Prop :=
  forall p, In p tv -> ~ In (fst p) ks -> a2l (snd p) = snd p.

Lemma F2_done (ks : list string) (tv tv' : list (string * pyval)) :
  Forall2 (fun p q => fst p = fst q /\ part (snd p) (snd q)) tv tv' -> done ks tv -> done ks tv'.
Proof.
  intros F D [k T'] I N. cbn [fst snd] in *.
  assert (X : exists T, In (k, T) tv /\ part T T').
  { clear D. induction F as [|[a b] [c d] l l' [E Q] F IH]; [destruct I|]. cbn in E, Q. subst c.
    destruct I as [I|I]; [injection I as -> ->; exists b; simpl; auto|]. destruct (IH I) as (T & A & B). exists T; simpl; auto. }
  destruct X as (T & IT & PT). pose proof (D _ IT N) as E. cbn in E.
  rewrite (part_plain _ _ PT E). exact E.
Qed.

Lemma F2_keys h (kv : list (string * hval)) (tv : list (string * pyval)) :
  Forall2 (fun p q => fst p = fst q /\ denotes h (snd p) (snd q)) kv tv -> map fst kv = map fst tv.
Proof. induction 1 as [|? ? ? ? [E _]]; simpl; congruence. Qed.

(** the two loops of [conv] *)
Definition items_go (n : nat) := fix go (h : heap) (vs : list hval) {struct vs} : option (heap * list hval) :=
  match vs with
  | [] => Some (h, [])
  | x :: vs' =>
      match conv n h x with
      | Some (h1, x1) =>
          match go h1 vs' with Some (h2, xs) => Some (h2, x1 :: xs) | None => None end
      | None => None
      end
  end.
Definition dict_go (n l : nat) := fix go (h : heap) (ks : list string) {struct ks} : option (heap * hval) :=
  match ks with
  | [] => Some (h, HRef l)
  | k :: ks' =>
      match nth_error h l with
      | Some (NDict kv) =>
          match dget k kv with
          | Some x =>
              match conv n h x with
              | Some (h1, x1) =>
                  match nth_error h1 l with
                  | Some (NDict kv1) => go (upd h1 l (NDict (dset k x1 kv1))) ks'
                  | _ => None
                  end
              | None => None
              end
          | None => None
          end
      | _ => None
      end
  end.
Lemma conv_eq n h v : conv (S n) h v =
  match v with
  | HRef l =>
      match nth_error h l with
      | Some (NDict kv) => dict_go n l h (map fst kv)
      | Some (NList vs) | Some (NTuple vs) =>
          match items_go n h vs with Some (h', xs) => Some (alloc h' (NList xs)) | None => None end
      | None => None
      end
  | HArr t => Some (alloc_tl h t)
  | HLeaf i => Some (h, HLeaf i)
  end.
Proof. reflexivity. Qed.

Section Step.
  Variable n : nat.
  Hypothesis IH : forall h v T, denotes h v T -> ht T <= n ->
    exists h' v', conv n h v = Some (h', v') /\ denotes h' v' (a2l T) /\ leads h h' /\
      ((exists tv, T = VDict tv) -> v' = v).

  Lemma items_spec vs : forall h ts, Forall2 (denotes h) vs ts -> (forall t, In t ts -> ht t <= n) ->
    exists h' xs, items_go n h vs = Some (h', xs) /\ Forall2 (denotes h') xs (map a2l ts) /\ leads h h'.
  Proof.
    induction vs as [|x l IHvs]; intros h ts F Hts; inversion F; subst.
    - exists h, []. split; [reflexivity|]. split; [constructor|apply leads_refl].
    - rename y into t. rename l' into ts. destruct (IH h x t) as (h1 & x1 & E1 & D1 & L1 & _); auto. { apply Hts; simpl; auto. }
      cbn [items_go]. fold (items_go n). rewrite E1.
      assert (R : exists ts', Forall2 (denotes h1) l ts' /\ Forall2 part ts ts').
      { eapply F2_step; [|eassumption]. intros a b I Dab. apply L1; auto. }
      destruct R as (ts' & F' & P').
      assert (X : map a2l ts' = map a2l ts /\ forall t, In t ts' -> ht t <= n).
      { assert (Hts' : forall t, In t ts -> ht t <= n) by (intros; apply Hts; simpl; auto).
        clear - P' Hts'. induction P' as [|a b l l' Pab P' IH]; [simpl; tauto|].
        destruct IH as [M1 M2]. { intros; apply Hts'; simpl; auto. }
        split; [simpl; rewrite M1, (part_a2l _ _ Pab); auto|].
        intros t [<-|I]; [|apply M2; auto]. rewrite <- ht_a2l, (part_a2l _ _ Pab), ht_a2l. apply Hts'; simpl; auto. }
      destruct X as [X1 X2]. destruct (IHvs h1 ts' F' X2) as (h' & xs & -> & F2 & L2).
      exists h', (x1 :: xs). split; [reflexivity|]. split.
      + simpl. constructor; [|rewrite <- X1; exact F2].
        destruct (L2 _ _ D1) as (T' & DT & PT). rewrite (part_plain _ _ PT (C39_idempotent t)) in DT. exact DT.
      + eapply leads_trans; eauto.
  Qed.

  Lemma dict_spec l TV ks : forall h tv, denotes h (HRef l) (VDict tv) -> a2l (VDict tv) = VDict TV ->
    ht (VDict TV) <= S n -> done ks tv -> incl ks (map fst TV) ->
    exists h', dict_go n l h ks = Some (h', HRef l) /\ denotes h' (HRef l) (VDict TV) /\ leads h h'.
  Proof.
    induction ks as [|k ks IHks]; intros h tv D E L DN I.
    - exists h. split; [reflexivity|]. split; [|apply leads_refl].
      replace (VDict TV) with (VDict tv); auto. rewrite <- E. simpl. f_equal.
      rewrite <- (map_id tv) at 1. apply map_ext_in. intros [k T] IT. cbn. f_equal.
      symmetry. apply (DN (k, T) IT). simpl; auto.
    - assert (Ktv : map fst tv = map fst TV).
      { simpl in E. injection E as <-. rewrite map_map. reflexivity. }
      assert (Htv : ht (VDict tv) <= S n) by (rewrite <- ht_a2l, E; auto).
      inversion D as [| |? kv ? H0 H2 H3| |]; subst. cbn [dict_go]. fold (dict_go n l). rewrite H0.
      destruct (dget_in_F2 _ k _ _ H3) as (x & T & Ex & Dx & IT). { rewrite Ktv. apply I; simpl; auto. }
      rewrite Ex. destruct (IH h x T Dx) as (h1 & x1 & E1 & D1 & L1 & _).
      { pose proof (ht_dict_in _ _ IT). cbn [snd] in *. lia. }
      rewrite E1. destruct (L1 _ _ D) as (T1 & Dl1 & P1). destruct (part_of_dict _ _ P1) as (tv1 & -> & F1).
      assert (Et1 : a2l (VDict tv1) = VDict TV) by (rewrite (part_a2l _ _ P1); auto).
      inversion Dl1 as [| |? kv1 ? N1 ND1 F1'| |]; subst. rewrite N1.
      assert (Key1 : forall T', In (k, T') tv1 -> a2l T' = a2l T).
      { intros T' IT'. assert (IN : In (k, a2l T') TV /\ In (k, a2l T) TV).
        { simpl in E, Et1. injection E as E. injection Et1 as Et1. split.
          - rewrite <- Et1. apply in_map_iff. exists (k, T'). auto.
          - rewrite <- E. apply in_map_iff. exists (k, T). auto. }
        assert (NDT : NoDup (map fst TV)) by (rewrite <- Ktv, <- (F2_keys _ _ _ H3); auto).
        destruct IN as [I1 I2]. clear - I1 I2 NDT. induction TV as [|[a b] TV IHT]; [destruct I1|].
        simpl in NDT. inversion NDT; subst. destruct I1 as [I1|I1], I2 as [I2|I2].
        - congruence.
        - injection I1 as -> ->. exfalso. apply H1. apply in_map_iff. exists (k, a2l T); auto.
        - injection I2 as -> ->. exfalso. apply H1. apply in_map_iff. exists (k, a2l T'); auto.
        - auto. }
      pose proof (upd_leads h1 l kv1 k x1 tv1 N1 Dl1) as U. cbv zeta in U.
      assert (U' := U ltac:(intros T' IT'; rewrite (Key1 T' IT'); exact D1)). clear U.
      set (h2 := upd h1 l (NDict (dset k x1 kv1))) in *.
      (* the dict after the assignment *)
      assert (X : exists tv2, Forall2 (fun p q => fst p = fst q /\ denotes h2 (snd p) (snd q)) (dset k x1 kv1) tv2 /\
        Forall2 (fun p q => fst p = fst q /\ part (snd p) (snd q) /\ (fst p = k -> snd q = a2l (snd p))) tv1 tv2).
      { apply dset_F2 with h1; auto.
        intros T' IT'. rewrite (Key1 T' IT'). destruct (U' _ _ D1) as (T'' & DT & PT).
        rewrite (part_plain _ _ PT (C39_idempotent T)) in DT. exact DT. }
      destruct X as (tv2 & A & B).
      assert (Dl2 : denotes h2 (HRef l) (VDict tv2)).
      { eapply d_dict; [apply upd_same; apply nth_error_Some; congruence|rewrite dset_keys; auto|exact A]. }
      assert (P2 : part (VDict tv1) (VDict tv2)).
      { apply part_dict. eapply F2_impl; [|exact B]. intros a b _ (? & ? & _); auto. }
      destruct (IHks h2 tv2) as (h' & E' & D' & L'); auto.
      + rewrite (part_a2l _ _ P2). exact Et1.
      + assert (DN1 : done (k :: ks) tv1) by (eapply F2_done; eauto).
        intros [k' T'] I' N'. cbn [fst snd] in *. destruct (string_dec k' k) as [->|Nk].
        * clear - B I'. induction B as [|[a b] [c d] l l' (E & Q & R) F IHF]; [destruct I'|]. cbn in *. subst c.
          destruct I' as [I'|I']; [injection I' as -> ->; rewrite (R eq_refl); apply C39_idempotent|auto].
        * assert (DN2 : done (k :: ks) tv2).
          { eapply F2_done; [|exact DN1]. eapply F2_impl; [|exact B]. intros a b _ (? & ? & _); auto. }
          apply (DN2 (k', T') I'). cbn. intros [Ek|Ik]; [congruence|auto].
      + intros z Hz. apply I. simpl; auto.
      + exists h'. split; auto. split; auto. eapply leads_trans; [exact L1|]. eapply leads_trans; eauto.
  Qed.
End Step.

Lemma conv_spec : forall n h v T, denotes h v T -> ht T <= n ->
  exists h' v', conv n h v = Some (h', v') /\ denotes h' v' (a2l T) /\ leads h h' /\
    ((exists tv, T = VDict tv) -> v' = v).
Proof.
  induction n as [|n IH]; intros h v T D L. { pose proof (ht_pos T); lia. }
  rewrite conv_eq.
  assert (ITEMS : forall vs ts, Forall2 (denotes h) vs ts -> (forall t, In t ts -> ht t <= n) ->
    exists h' v', match items_go n h vs with Some (h', xs) => Some (alloc h' (NList xs)) | None => None end
      = Some (h', v') /\ denotes h' v' (VList (map a2l ts)) /\ leads h h').
  { intros vs ts F H. destruct (items_spec n IH vs h ts F H) as (h' & xs & -> & F' & L').
    unfold alloc. do 2 eexists. split; [reflexivity|]. split.
    - apply d_list with xs; [rewrite nth_error_app2, Nat.sub_diag by lia; reflexivity|].
      eapply F2_impl; [|exact F']. intros a b _ Dab. apply denotes_app; auto.
    - eapply leads_trans; [exact L'|apply leads_app]. }
  inversion D; subst.
  - do 2 eexists. split; [reflexivity|]. split; [constructor|]. split; [apply leads_refl|]. intros [tv [=]].
  - destruct (alloc_tl_spec t h) as (m & v & -> & Dv). do 2 eexists. split; [reflexivity|].
    split; [exact Dv|]. split; [apply leads_app|]. intros [tv [=]].
  - rewrite H. destruct (dict_spec n IH l (map (fun p => (fst p, a2l (snd p))) tv) (map fst kv) h tv) as (h' & E' & D' & L'); auto.
    + change (VDict (map (fun p => (fst p, a2l (snd p))) tv)) with (a2l (VDict tv)). rewrite ht_a2l. exact L.
    + intros p I N. exfalso. apply N. rewrite (F2_keys _ _ _ H1). apply in_map. exact I.
    + rewrite map_map, (F2_keys _ _ _ H1). cbn. intros z Hz; exact Hz.
    + exists h', (HRef l). split; [exact E'|]. split; [exact D'|]. split; auto.
  - rewrite H. destruct (ITEMS vs ts H0) as (h' & v' & E & D' & L').
    { intros t I. pose proof (ht_list_in _ _ I). lia. }
    exists h', v'. split; [exact E|]. split; [exact D'|]. split; auto. intros [tv [=]].
  - rewrite H. destruct (ITEMS vs ts H0) as (h' & v' & E & D' & L').
    { intros t I. pose proof (ht_tuple_in _ _ I). lia. }
    exists h', v'. split; [exact E|]. split; [exact D'|]. split; auto. intros [tv [=]].
Qed.

(** In a heap, with sharing: the reference returned stands for the converted value; a dict is
    updated in place (the reference returned is the one passed in); what any other reference
    stands for is changed at most by converting some of its parts. *)
Theorem C39_in_place : forall h v T, denotes h v T ->
  exists n0, forall n, n0 <= n ->
  exists h' v', conv n h v = Some (h', v') /\ denotes h' v' (array_to_list_dict T) /\
    ((exists tv, T = VDict tv) -> v' = v) /\
    (forall w W, denotes h w W -> exists W', denotes h' w W' /\ part W W').
Proof.
  intros h v T D. exists (ht T). intros n Hn.
  destruct (conv_spec n h v T D Hn) as (h' & v' & A & B & C & E). exists h', v'. auto.
Qed.
Print Assumptions C39_in_place.

(** a dict sharing a sub-dict with an array in it *)
Example C39_example :
  let h := [NDict [("x"%string, HArr (TList [TLeaf 1; TLeaf 2]))];
            NDict [("a"%string, HRef 0); ("b"%string, HRef 0)]] in
  denotes h (HRef 1) (VDict [("a"%string, VDict [("x"%string, VArr (TList [TLeaf 1; TLeaf 2]))]);
                             ("b"%string, VDict [("x"%string, VArr (TList [TLeaf 1; TLeaf 2]))])]).
Proof.
  intros h.
  assert (D0 : denotes h (HRef 0) (VDict [("x"%string, VArr (TList [TLeaf 1; TLeaf 2]))])).
  { eapply d_dict; [reflexivity| |]; repeat constructor; simpl; tauto. }
  eapply d_dict; [reflexivity| |].
  - repeat constructor; simpl; intuition discriminate.
  - repeat constructor; auto.
Qed.
