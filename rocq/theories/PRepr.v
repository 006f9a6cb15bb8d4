(** * C75: repr() shows the attributes as lists and leaves the object alone *)
From Coq Require Import Ascii String ZArith List Lia Bool.
From Verif Require Import MUtil MHeap MRepr PHeap.
Import ListNotations.

(** no dict anywhere in the value *)
Inductive no_dict : pyval -> Prop :=
| nd_leaf i : no_dict (VLeaf i)
| nd_arr t : no_dict (VArr t)
| nd_list l : Forall no_dict l -> no_dict (VList l)
| nd_tuple l : Forall no_dict l -> no_dict (VTuple l).

Lemma conv_appends : forall n h v T h' v', denotes h v T -> no_dict T -> conv n h v = Some (h', v') -> exists m, h' = h ++ m.
Proof.
  induction n as [|n IH]; intros h v T h' v' D N E; [discriminate|]. rewrite conv_eq in E.
  assert (L : forall vs h ts h' xs, Forall2 (denotes h) vs ts -> Forall no_dict ts -> items_go n h vs = Some (h', xs) -> exists m, h' = h ++ m).
  { clear - IH. induction vs as [|x vs IHv]; intros h ts h' xs F Fn E; cbn in E.
    - injection E as <- <-. exists []. rewrite app_nil_r; auto.
    - inversion F as [|? t ? ts' Hx Hv]; subst. inversion Fn as [|? ? Hn Hns]; subst.
      destruct (conv n h x) as [[h1 x1]|] eqn:C; [|discriminate]. destruct (IH _ _ _ _ _ Hx Hn C) as (m & ->).
      destruct (items_go n (h ++ m) vs) as [[h2 ys]|] eqn:G; [|discriminate]. injection E as <- <-.
      destruct (IHv (h ++ m) ts' h2 ys) as (m' & ->); auto.
      + eapply F2_impl; [|exact Hv]. intros; apply denotes_app; auto.
      + exists (m ++ m'). rewrite app_assoc; auto. }
  destruct v as [l|t|i].
  - inversion D as [| |? ? ? E1|l0 vs ts E1 F|l0 vs ts E1 F]; subst; rewrite E1 in E.
    + inversion N.
    + inversion N as [| |? Fn|]; subst. destruct (items_go n h vs) as [[h1 xs]|] eqn:G; [|discriminate].
      destruct (L _ _ _ _ _ F Fn G) as (m & ->). unfold alloc in E. injection E as <- <-. eexists. rewrite <- app_assoc. reflexivity.
    + inversion N as [| | |? Fn]; subst. destruct (items_go n h vs) as [[h1 xs]|] eqn:G; [|discriminate].
      destruct (L _ _ _ _ _ F Fn G) as (m & ->). unfold alloc in E. injection E as <- <-. eexists. rewrite <- app_assoc. reflexivity.
  - destruct (alloc_tl_spec t h) as (m & w & A & _). rewrite A in E. injection E as <- <-. eauto.
  - injection E as <- <-. exists []. rewrite app_nil_r; auto.
Qed.

Lemma upd_mid h0 c m c' : upd (h0 ++ c :: m) (length h0) c' = h0 ++ c' :: m.
Proof. induction h0 as [|x h0 IH]; cbn; auto. rewrite IH; auto. Qed.
Lemma dget_dset k k' x kv : k <> k' -> dget k' (dset k x kv) = dget k' kv.
Proof.
  intros H. induction kv as [|[a v] kv IH]; cbn; auto. destruct (String.eqb_spec k a) as [<-|Ha]; cbn.
  - destruct (String.eqb_spec k' k); congruence.
  - destruct (String.eqb k' a); auto.
Qed.

(** the dict that is converted is a new one: only it changes *)
Lemma dict_go_keeps n h0 : forall ks kv m h' v,
  (forall k x, In k ks -> dget k kv = Some x -> exists T, denotes h0 x T /\ no_dict T) -> NoDup ks ->
  dict_go n (length h0) (h0 ++ NDict kv :: m) ks = Some (h', v) ->
  exists kv' m', h' = h0 ++ NDict kv' :: m'.
Proof.
  induction ks as [|k ks IH]; intros kv m h' v HT ND E.
  - cbn in E. injection E as <- <-. eauto.
  - cbn in E. rewrite nth_error_app2, Nat.sub_diag in E by lia. cbn [nth_error] in E.
    destruct (dget k kv) as [x|] eqn:Dk; [|discriminate].
    destruct (HT k x (or_introl eq_refl) Dk) as (T & DT & NT).
    destruct (conv n (h0 ++ NDict kv :: m) x) as [[h1 x1]|] eqn:C; [|discriminate].
    destruct (conv_appends _ _ _ _ _ _ (denotes_app h0 _ _ _ DT) NT C) as (m1 & ->).
    rewrite <- app_assoc in E. cbn [app] in E. rewrite nth_error_app2, Nat.sub_diag in E by lia. cbn [nth_error] in E.
    rewrite upd_mid in E. inversion ND as [|? ? Nk ND']; subst.
    apply (IH (dset k x1 kv) (m ++ m1) h' v); auto.
    intros k' x' Hk' Dk'. apply (HT k' x'); [right; auto|]. rewrite <- Dk'. symmetry. apply dget_dset. intros <-. contradiction.
Qed.

(** a name is hidden exactly when its first character is an underscore *)
Definition hidden (name : string) : bool := match name with String c _ => Ascii.eqb c "_"%char | EmptyString => false end.
Lemma public_hidden name : public name = negb (hidden name).
Proof.
  unfold public, hidden. f_equal. destruct name as [|c s]; [reflexivity|].
  destruct c as [[] [] [] [] [] [] [] []]; try reflexivity. destruct s; reflexivity.
Qed.

(** repr succeeds for every object with distinct attribute names and shows the public attributes, in order,
    arrays and tuples as lists *)
Theorem C75_shows_public_attributes : forall h d tv, denotes h (HRef d) (VDict tv) ->
  exists n0, forall n, n0 <= n -> exists h' ps, repr_params n h d = Some (h', ps) /\
    Forall2 (fun p q => fst p = fst q /\ denotes h' (snd p) (array_to_list_dict (snd q))) ps
      (filter (fun q => negb (hidden (fst q))) tv).
Proof.
  intros h d tv D. inversion D as [| |? kv ? E ND F| |]; subst. unfold repr_params. rewrite E. unfold alloc.
  assert (D' : denotes (h ++ [NDict kv]) (HRef (length h)) (VDict tv)).
  { apply d_dict with kv; auto.
    - rewrite nth_error_app2, Nat.sub_diag by lia. reflexivity.
    - eapply F2_impl; [|exact F]. intros a b _ [X Y]; split; auto. apply denotes_app; auto. }
  exists (ht (VDict tv)). intros n Hn. destruct (conv_spec _ _ _ _ D' Hn) as (h' & v' & C & Dv & _ & Sv). rewrite C.
  rewrite (Sv (ex_intro _ tv eq_refl)) in *. cbn [a2l] in Dv. inversion Dv as [| |? kv' ? E' ND' F'| |]; subst. rewrite E'.
  eexists _, _. split; [reflexivity|]. clear - F'.
  revert kv' F'. induction tv as [|[k T] tv IH]; intros kv' F'; inversion F' as [|p ? kv'' ? Hp Hr]; subst; cbn; auto.
  destruct Hp as [X Y]. cbn in X, Y. rewrite X, public_hidden. destruct (negb (hidden k)); [constructor; cbn; auto|]; apply IH; auto.
Qed.

(** repr changes nothing that existed before, if no attribute value contains a dict (library objects have none) *)
Theorem C75_repr_is_pure : forall n h d tv h' ps, denotes h (HRef d) (VDict tv) ->
  Forall (fun p => no_dict (snd p)) tv -> repr_params n h d = Some (h', ps) ->
  exists new, h' = h ++ new.
Proof.
  intros n h d tv h' ps D N R. inversion D as [| |? kv ? E ND F| |]; subst. unfold repr_params in R. rewrite E in R. unfold alloc in R.
  destruct (conv n (h ++ [NDict kv]) (HRef (length h))) as [[h1 w]|] eqn:C; [|discriminate].
  assert (h1 = h') as ->.
  { destruct w as [l| |]; try discriminate. destruct (nth_error h1 l) as [[]|]; try discriminate. congruence. }
  destruct n as [|n]; [discriminate|]. rewrite conv_eq, nth_error_app2, Nat.sub_diag in C by lia. cbn [nth_error] in C.
  apply dict_go_keeps in C; auto.
  - destruct C as (kv' & m & ->). eauto.
  - intros k x Hk Dk. destruct (dget_in_F2 h k kv tv F) as (x' & T & Dk' & DT & IT).
    + rewrite <- (F2_keys _ _ _ F). auto.
    + rewrite Dk in Dk'. injection Dk' as <-. exists T. split; auto. rewrite Forall_forall in N. apply (N _ IT).
Qed.

(** finding: a dict that the user put on an object is converted in place by repr(): looking at the object replaces
    the arrays in it by lists *)
Theorem C75_dict_attribute_refuted : forall h d meta name key t,
  nth_error h d = Some (NDict [(name, HRef meta)]) -> nth_error h meta = Some (NDict [(key, HArr (TList t))]) ->
  exists h' ps l vs, repr_params 3 h d = Some (h', ps) /\
    nth_error h' meta = Some (NDict [(key, HRef l)]) /\ nth_error h' l = Some (NList vs) /\ length vs = length t.
Proof.
  intros h d meta name key t E1 E2. unfold repr_params. rewrite E1. unfold alloc.
  assert (Lm : meta < length h) by (apply nth_error_Some; congruence).
  rewrite conv_eq, nth_error_app2, Nat.sub_diag by lia. cbn [nth_error map fst dict_go].
  rewrite nth_error_app2, Nat.sub_diag by lia. cbn [nth_error dget]. rewrite String.eqb_refl.
  rewrite conv_eq, nth_error_app1, E2 by lia. cbn [map fst dict_go].
  rewrite nth_error_app1, E2 by lia. cbn [dget]. rewrite String.eqb_refl. cbn [conv].
  destruct (alloc_tl_spec (TList t) (h ++ [NDict [(name, HRef meta)]])) as (m & v & A & Dv). rewrite A.
  rewrite <- app_assoc in *. rewrite nth_error_app1, E2 by auto. cbn [dset]. rewrite String.eqb_refl.
  set (c := NDict [(key, v)]). set (g := h ++ [NDict [(name, HRef meta)]] ++ m) in *.
  assert (Lg : length h < length g) by (unfold g; rewrite !app_length; cbn; lia).
  rewrite (upd_other g meta (length h)) by lia.
  assert (Gh : nth_error g (length h) = Some (NDict [(name, HRef meta)])).
  { unfold g. rewrite nth_error_app2, Nat.sub_diag by lia. reflexivity. }
  rewrite Gh. cbn [dset]. rewrite String.eqb_refl.
  set (c' := NDict [(name, HRef meta)]).
  rewrite upd_same. 2:{ clear - Lg Lm. assert (U : forall x l n, length (upd x l n) = length x) by (induction x; destruct l; cbn; auto). rewrite U. auto. }
  cbn [of_tl] in Dv. inversion Dv as [| | |l vs ts El F|]; subst.
  assert (Gm : nth_error g meta = Some (NDict [(key, HArr (TList t))])) by (unfold g; rewrite nth_error_app1; auto).
  eexists _, _, l, vs. split; [reflexivity|]. rewrite !upd_other by (intros <-; congruence || lia).
  assert (l <> meta) by (intros ->; congruence). assert (l <> length h) by (intros ->; congruence).
  rewrite upd_same by lia. split; [reflexivity|]. rewrite !upd_other by auto. split; auto.
  clear - F. revert vs F. induction t; intros vs F; inversion F; subst; cbn; auto.
Qed.

Example C75_example : let h := [NDict [("p"%string, HArr (TList [TLeaf 1; TLeaf 2])); ("_x"%string, HLeaf 3); ("frame"%string, HLeaf 4)]] in
  denotes h (HRef 0) (VDict [("p"%string, VArr (TList [TLeaf 1; TLeaf 2])); ("_x"%string, VLeaf 3); ("frame"%string, VLeaf 4)]) /\
  exists h', repr_params 5 h 0 = Some (h', [("p"%string, HRef 2); ("frame"%string, HLeaf 4)]) /\
    nth_error h' 2 = Some (NList [HLeaf 1; HLeaf 2]) /\ nth_error h' 0 = nth_error h 0.
Proof.
  cbv zeta. split.
  - eapply d_dict; [reflexivity|repeat constructor; cbn; intuition discriminate|]. repeat constructor.
  - eexists. split; [reflexivity|]. split; reflexivity.
Qed.
