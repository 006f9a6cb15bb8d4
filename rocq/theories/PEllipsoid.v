(** * C37, C38: get_ellipsoid *)
From Coq Require Import String Ascii ZArith QArith Qreals List Arith Lia Bool Reals Lra.
From Verif Require Import Num Py MUtil.
Import ListNotations.
Local Open Scope string_scope.

(** two (ASCII) characters are the same letter up to case: equal, or 'A'..'Z' against 'a'..'z' *)
Definition same_letter (c d : ascii) : Prop :=
  c = d
  \/ ((65 <= nat_of_ascii c <= 90)%nat /\ nat_of_ascii d = (nat_of_ascii c + 32)%nat)
  \/ ((65 <= nat_of_ascii d <= 90)%nat /\ nat_of_ascii c = (nat_of_ascii d + 32)%nat).

(** [s ~ t]: the same text up to case and spaces *)
Inductive same_text : string -> string -> Prop :=
| st_nil : same_text "" ""
| st_space_l s t : same_text s t -> same_text (String " " s) t
| st_space_r s t : same_text s t -> same_text s (String " " t)
| st_char c d s t : same_letter c d -> same_text s t -> same_text (String c s) (String d t).

Lemma lower_same c d : same_letter c d -> lower_ascii c = lower_ascii d.
Proof.
  assert (U : forall c d, (65 <= nat_of_ascii c <= 90)%nat -> nat_of_ascii d = (nat_of_ascii c + 32)%nat ->
    lower_ascii c = lower_ascii d).
  { intros c' d' R E. unfold lower_ascii. rewrite E.
    destruct (Nat.leb_spec 65 (nat_of_ascii c')); [|lia]. destruct (Nat.leb_spec (nat_of_ascii c') 90); [|lia].
    destruct (Nat.leb_spec (nat_of_ascii c' + 32) 90); [lia|]. rewrite andb_false_r. cbn.
    rewrite <- E. apply ascii_nat_embedding. }
  intros [->|[[R E]|[R E]]]; auto. symmetry; auto.
Qed.
Lemma lower_space c : Ascii.eqb (lower_ascii c) " " = Ascii.eqb c " ".
Proof. destruct c as [[] [] [] [] [] [] [] []]; reflexivity. Qed.
Definition norm (s : string) : string := remove_spaces (lower s).
Lemma norm_cons c s : norm (String c s) = if Ascii.eqb c " " then norm s else String (lower_ascii c) (norm s).
Proof. unfold norm. cbn [lower remove_spaces]. rewrite lower_space. reflexivity. Qed.
Lemma same_text_norm s t : same_text s t -> norm s = norm t.
Proof.
  induction 1; auto; rewrite ?norm_cons; auto.
  rewrite (lower_same _ _ H), <- (lower_space c), (lower_same _ _ H), lower_space, IHsame_text. reflexivity.
Qed.
Lemma lower_letter c : same_letter c (lower_ascii c).
Proof.
  unfold same_letter, lower_ascii.
  destruct (Nat.leb_spec 65 (nat_of_ascii c)), (Nat.leb_spec (nat_of_ascii c) 90); cbn; auto.
  right; left. split; [lia|]. apply nat_ascii_embedding. lia.
Qed.
Lemma same_text_refl_norm s : same_text s (norm s).
Proof.
  induction s as [|c s IH]; [constructor|]. rewrite norm_cons.
  destruct (Ascii.eqb_spec c " "); [subst; constructor; auto|]. constructor; auto. apply lower_letter.
Qed.
Lemma norm_same_text s t : norm s = norm t -> same_text s t.
Proof.
  revert t. induction s as [|c s IH].
  - induction t as [|d t IHt]; intros E; [constructor|].
    rewrite norm_cons in E. destruct (Ascii.eqb_spec d " "); [subst; constructor; apply IHt; exact E|discriminate].
  - intros t E. rewrite norm_cons in E. destruct (Ascii.eqb_spec c " ") as [->|Nc]; [constructor; auto|].
    induction t as [|d t IHt].
    + discriminate.
    + rewrite norm_cons in E. destruct (Ascii.eqb_spec d " ") as [->|Nd].
      * constructor. apply IHt. exact E.
      * injection E as E1 E2. constructor; [|apply IH; exact E2].
        clear - E1. destruct (lower_letter c) as [A|[A|A]], (lower_letter d) as [B|[B|B]].
        -- left. congruence.
        -- right; right. rewrite <- E1, <- A in B. auto.
        -- right; left. rewrite <- E1, <- A in B. auto.
        -- right; left. rewrite E1, <- B in A. auto.
        -- left. apply (f_equal nat_of_ascii) in E1.
           rewrite <- (ascii_nat_embedding c), <- (ascii_nat_embedding d). f_equal. lia.
        -- apply (f_equal nat_of_ascii) in E1. lia.
        -- right; right. rewrite E1, <- B in A. auto.
        -- apply (f_equal nat_of_ascii) in E1. lia.
        -- left. apply (f_equal nat_of_ascii) in E1.
           rewrite <- (ascii_nat_embedding c), <- (ascii_nat_embedding d). f_equal. lia.
Qed.

Theorem C37_ignores_case_and_spaces : forall s t, same_text s t ->
  get_ellipsoid (KStr s) = get_ellipsoid (KStr t).
Proof.
  intros s t H. unfold get_ellipsoid. change (remove_spaces (lower s)) with (norm s).
  change (remove_spaces (lower t)) with (norm t). rewrite (same_text_norm _ _ H). reflexivity.
Qed.
Print Assumptions C37_ignores_case_and_spaces.

Lemma lookup_in k l i : lookup k l = Some i -> In (k, i) l.
Proof.
  induction l as [|[k' v] l IH]; simpl; [discriminate|].
  destruct (String.eqb_spec k k'); [intros [= ->]; subst; auto|auto].
Qed.

(** the accepted texts and the ellipsoid each of them stands for (in the words of util.py 43-71) *)
Definition accepted : list (string * Z) :=
  [("Airy 1858", 1); ("Airy Modified", 2); ("Australian National", 3); ("Bessel", 4);
   ("Bessel 1841", 4); ("Clarke 1880", 5); ("Everest 1830", 6); ("Everest Modified", 7);
   ("Fisher 1960", 8); ("Fisher 1968", 9); ("Hough 1956", 10); ("Hough", 10);
   ("International", 11); ("Hayford", 11); ("ED50", 11); ("Krassovsky", 12);
   ("Krassovsky 1938", 12); ("NWL-9D", 13); ("WGS 66", 13); ("South American 1969", 14);
   ("SAD69", 14); ("Soviet Geod. System 1985", 15); ("WGS 72", 16); ("Clarke 1866", 17);
   ("NAD27", 17); ("GRS80", 18); ("WGS84", 18); ("NAD83", 18)]%Z.

Lemma accepted_ok : map (fun p => (norm (fst p), snd p)) accepted = ELLIPSOID_IX.
Proof. reflexivity. Qed.

Theorem C37_strings : forall s,
  (exists t i e, In (t, i) accepted /\ same_text s t /\
     get_ellipsoid (KStr s) = ret e /\ get_ellipsoid (KInt i) = ret e) \/
  ((forall t i, In (t, i) accepted -> ~ same_text s t) /\ raises (get_ellipsoid (KStr s)) KeyError).
Proof.
  intros s. unfold get_ellipsoid. change (remove_spaces (lower s)) with (norm s).
  destruct (lookup (norm s) ELLIPSOID_IX) as [i|] eqn:L.
  - left. pose proof (lookup_in _ _ _ L) as I. rewrite <- accepted_ok in I. apply in_map_iff in I.
    destruct I as ([t j] & E & I). cbn in E. injection E as E1 E2. subst j. exists t, i.
    assert (X : exists e, ELLIPSOID i = Some e).
    { clear - I. unfold accepted in I. repeat (destruct I as [I|I]; [injection I as <- <-; eexists; reflexivity|]).
      destruct I. }
    destruct X as [e X]. exists e. split; auto. split; [apply norm_same_text; auto|]. rewrite X. auto.
  - right. split; [|reflexivity]. intros t i I ST. apply same_text_norm in ST.
    assert (L' : lookup (norm t) ELLIPSOID_IX = Some i).
    { clear - I. unfold accepted in I. repeat (destruct I as [I|I]; [injection I as <- <-; reflexivity|]). destruct I. }
    rewrite ST, L' in L. discriminate.
Qed.
Print Assumptions C37_strings.

Theorem C37_integers : forall i,
  ((1 <= i <= 19)%Z -> exists e, get_ellipsoid (KInt i) = ret e) /\
  (~ (1 <= i <= 19)%Z -> raises (get_ellipsoid (KInt i)) KeyError).
Proof.
  intros i. split.
  - intros H. assert (D : In i [1;2;3;4;5;6;7;8;9;10;11;12;13;14;15;16;17;18;19]%Z).
    { cbn [In]. lia. }
    unfold get_ellipsoid. cbn [In] in D. repeat (destruct D as [<-|D]; [eexists; reflexivity|]). destruct D.
  - intros H. unfold get_ellipsoid, raises. destruct (ELLIPSOID i) eqn:E; [|reflexivity]. exfalso. apply H.
    clear - E. unfold ELLIPSOID in E.
    destruct i as [|p|p]; [discriminate| |discriminate].
    do 5 (destruct p as [p|p|]; try discriminate; try lia).
Qed.
Print Assumptions C37_integers.

(** the deprecated alias gives the same result, after a DeprecationWarning *)
Theorem C37_alias : forall k, select_ellipsoid k =
  (WDeprecated :: fst (get_ellipsoid k), snd (get_ellipsoid k)).
Proof. intros k. unfold select_ellipsoid. destruct (get_ellipsoid k); reflexivity. Qed.
Print Assumptions C37_alias.

Example C37_example : same_text " wgs 72" "WGS72" /\ ~ same_text "WGS 72" "WGS 73".
Proof.
  split; [apply norm_same_text; reflexivity|]. intros H. apply same_text_norm in H. discriminate.
Qed.

(** ** C38 *)
(** the numbered names in the docstring of get_ellipsoid, util.py 424-443 *)
Definition documented (i : Z) : option string :=
  match i with
  | 1 => Some "Airy 1858" | 2 => Some "Airy Modified" | 3 => Some "Australian National"
  | 4 => Some "Bessel 1841" | 5 => Some "Clarke 1880" | 6 => Some "Everest 1830"
  | 7 => Some "Everest Modified" | 8 => Some "Fisher 1960" | 9 => Some "Fisher 1968"
  | 10 => Some "Hough 1956" | 11 => Some "International (Hayford)/European Datum (ED50)"
  | 12 => Some "Krassovsky 1938" | 13 => Some "NWL-9D (WGS 66)" | 14 => Some "South American 1969"
  | 15 => Some "Soviet Geod. System 1985" | 16 => Some "WGS 72" | 17 => Some "Clarke 1866    (NAD27)"
  | 18 => Some "GRS80 / WGS84  (NAD83)" | 19 => Some "ETRS89" | _ => None
  end%Z.

(** a plausible Earth ellipsoid *)
Definition valid (e : ellipsoid) : Prop := (0 < el_a e)%Q /\ (0 < el_f e)%Q /\ (el_f e < 1)%Q.
Definition earth_like (e : ellipsoid) : Prop :=
  (6377276 < el_a e)%Q /\ (el_a e < 6378389)%Q /\ (1 # 301 < el_f e)%Q /\ (el_f e < 1 # 293)%Q.

(** documented names that are accepted; they give the ellipsoid of that number *)
Theorem C38_documented_names_partial : forall i s, documented i = Some s ->
  ~ In i [11; 13; 17; 18; 19]%Z ->
  exists e, get_ellipsoid (KStr s) = ret e /\ get_ellipsoid (KInt i) = ret e /\ earth_like e.
Proof.
  intros i s D N.
  assert (I : In i [1;2;3;4;5;6;7;8;9;10;11;12;13;14;15;16;17;18;19]%Z).
  { destruct i as [|p|p]; [discriminate| |discriminate].
    cbn [In]. do 5 (destruct p as [p|p|]; try discriminate; try tauto). }
  cbn [In] in I, N.
  repeat (destruct I as [<-|I]; [first [exfalso; apply N; tauto | injection D as <-;
    eexists; split; [reflexivity|]; split; [reflexivity|]; repeat split; reflexivity]|]).
  destruct I.
Qed.
Print Assumptions C38_documented_names_partial.

(** the other five are refused although the docstring lists them as valid options *)
Theorem C38_documented_names_refuted : forall i s, documented i = Some s ->
  In i [11; 13; 17; 18; 19]%Z -> raises (get_ellipsoid (KStr s)) KeyError.
Proof.
  intros i s D I. cbn [In] in I.
  repeat (destruct I as [<-|I]; [injection D as <-; reflexivity|]). destruct I.
Qed.
Print Assumptions C38_documented_names_refuted.

(** every string that is accepted gives a valid ellipsoid *)
Theorem C38_strings_give_valid_ellipsoids : forall s e, get_ellipsoid (KStr s) = ret e ->
  valid e /\ earth_like e.
Proof.
  intros s e H. destruct (C37_strings s) as [(t & i & e' & I & _ & E & Ei)|[_ R]].
  - rewrite E in H. injection H as <-. clear s E.
    assert (V : earth_like e').
    { unfold accepted in I. cbn [In] in I.
      repeat (destruct I as [I|I]; [injection I as <- <-; injection Ei as <-; repeat split; reflexivity|]). destruct I. }
    split; auto. destruct V as (A & _ & B & C). repeat split.
    + eapply Qlt_trans; [|exact A]; reflexivity.
    + eapply Qlt_trans; [|exact B]; reflexivity.
    + eapply Qlt_trans; [exact C|]; reflexivity.
  - unfold raises in R. rewrite H in R. discriminate.
Qed.
Print Assumptions C38_strings_give_valid_ellipsoids.

(** so do the integers, except 19 *)
Theorem C38_integers_partial : forall i e, get_ellipsoid (KInt i) = ret e -> i <> 19%Z ->
  earth_like e.
Proof.
  intros i e H N.
  assert (I : In i [1;2;3;4;5;6;7;8;9;10;11;12;13;14;15;16;17;18;19]%Z).
  { destruct (C37_integers i) as [_ X]. cbn [In].
    destruct (Z_le_dec 1 i), (Z_le_dec i 19); try lia;
      (assert (X' := X ltac:(lia)); unfold raises in X'; rewrite H in X'; discriminate). }
  cbn [In] in I.
  repeat (destruct I as [<-|I]; [first [exfalso; apply N; reflexivity | injection H as <-; repeat split; reflexivity]|]).
  destruct I.
Qed.
Print Assumptions C38_integers_partial.

(** get_ellipsoid(19), documented as ETRS89, has flattening 298.257222101 instead of its inverse *)
Theorem C38_etrs89_flattening_refuted : exists e, get_ellipsoid (KInt 19) = ret e /\
  el_name e = "ETRS89" /\ (el_f e == 298257222101 # 1000000000)%Q /\ ~ valid e.
Proof.
  eexists. split; [reflexivity|]. split; [reflexivity|]. split; [reflexivity|].
  intros (_ & _ & H). cbn in H. vm_compute in H. discriminate.
Qed.
Print Assumptions C38_etrs89_flattening_refuted.
