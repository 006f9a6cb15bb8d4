(** * C41-C43: == on library objects *)
From Coq Require Import String List Arith Lia Bool Reals Lra ZArith.
From Verif Require Import Num Py Nd MUtil MRotation MCore MObjects Spec SpecArr SpecObj LNum LTrig LVec LArr LMat LRot
  LAngle PUtil LEq PRot PFrame.
Import ListNotations.
Local Open Scope R_scope.

Lemma ends_ret {A} (a b : A) : ends (ret a) b <-> a = b.
Proof. unfold ends; simpl. split; congruence. Qed.
Lemma ends_raise {A} e (b : A) : ends (raise e) b <-> False.
Proof. unfold ends; simpl. split; [discriminate|tauto]. Qed.
Lemma ends_bind {A B} (m : M A) (f : A -> M B) b : ends (bind m f) b <-> exists a, ends m a /\ ends (f a) b.
Proof.
  unfold ends, bind. destruct m as [w [a|e]]; cbn [snd].
  - destruct (f a) as [w' r] eqn:E; cbn [snd]. split.
    + intros ->. exists a. rewrite E. auto.
    + intros (a' & K & H). injection K as <-. rewrite E in H. exact H.
  - split; [discriminate|]. intros (a & H & _). discriminate.
Qed.
Lemma ends_and A B b : ends (and_ A B) b <-> (ends A false /\ b = false) \/ (ends A true /\ ends B b).
Proof.
  unfold and_. rewrite ends_bind. split.
  - intros ([|] & H & K); [right; split; [exact H|exact K]|left]. unfold ends in K; cbn in K. split; [exact H|congruence].
  - intros [[H ->]|[H K]]; [exists false|exists true]; (split; [exact H|]); [reflexivity|exact K].
Qed.
Lemma ends_catch m b : ends (catch_attr m) b <-> ends m b \/ (snd m = inr AttributeError /\ b = false).
Proof.
  unfold ends, catch_attr. destruct m as [w [a|e]]; simpl.
  - split; [auto|]. intros [H|[H _]]; [auto|discriminate].
  - destruct e; simpl; split; try (intros H; discriminate); try (intros [H|[H _]]; discriminate).
    + intros [= <-]. auto.
    + intros [H|[_ ->]]; [discriminate|reflexivity].
Qed.
Lemma ends_catch_na m b : noattr m -> (ends (catch_attr m) b <-> ends m b).
Proof. intros N. rewrite ends_catch. split; [intros [H|[H _]]; [auto|contradiction]|auto]. Qed.
Lemma na_aclose a b : noattr (aclose a b).
Proof. destruct (aclose_total a b) as [[r ->]| ->]; unfold noattr; simpl; discriminate. Qed.
Lemma na_and A B : noattr A -> noattr B -> noattr (and_ A B).
Proof. intros H K. unfold and_. apply na_bind; auto. intros [|]; auto. apply na_ret. Qed.

(** ** symmetry, class by class *)
Lemma frameE_eq_sym f g : frameE_eq f (OFrameE g) = frameE_eq g (OFrameE f).
Proof.
  unfold frameE_eq, frameE_is_equal, attr_a, attr_f, attr_R_Ee. rewrite !bind_ret.
  rewrite (aclose_sym (scal (fe_a g))), (aclose_sym (scal (fe_f g))), (aclose_sym (fe_R g)). reflexivity.
Qed.
Lemma nv_eq_sym v w : nv_eq v (ONv w) = nv_eq w (ONv v).
Proof.
  unfold nv_eq, nv_is_equal, attr_normal, attr_z, attr_frame. rewrite !bind_ret.
  rewrite (aclose_sym (n_normal w)), (aclose_sym (n_z w)), (frameE_eq_sym (n_frame w)). reflexivity.
Qed.

Lemma nmod_fin x a p : 0 < p -> x ≈ a ->
  nmod x (Fin p) = Fin (a - p * Rfloor (a / p)).
Proof.
  intros P H. unfold nmod.
  assert (Z : is_zero (Fin p) = false) by (simpl; destruct (Req_EM_T p 0); auto; lra).
  assert (S : sbit (Fin p) = false) by (simpl; destruct (Rlt_dec p 0); auto; lra).
  destruct (fin_inv _ _ H) as [->|[-> ->]]; rewrite Z, S; cbn [fval zero];
    match goal with |- context [Req_EM_T ?m 0] => destruct (Req_EM_T m 0) as [E|E]; [rewrite E|]; reflexivity end.
Qed.
(** the fractional part *)
Lemma Rfloor_bounds x : Rfloor x <= x < Rfloor x + 1.
Proof.
  unfold Rfloor. destruct (base_Int_part x) as [A B]. split; lra.
Qed.
Lemma Rfloor_unique x (z : Z) : IZR z <= x < IZR z + 1 -> Rfloor x = IZR z.
Proof.
  intros [A B]. destruct (Rfloor_bounds x) as [C D]. unfold Rfloor in *.
  assert (IZR (Int_part x) < IZR (z + 1)) by (rewrite plus_IZR; lra).
  assert (IZR z < IZR (Int_part x + 1)) by (rewrite plus_IZR; lra).
  apply lt_IZR in H, H0. f_equal. lia.
Qed.

(** specification of the angle difference: the distance of a - b to the nearest multiple of 2 PI *)
Lemma angle_diff_fin x y a b : x ≈ a -> y ≈ b ->
  exists d, angle_diff x y = Fin d /\ 0 <= d <= PI /\
    (exists k : Z, d = a - b - 2 * PI * IZR k \/ d = - (a - b - 2 * PI * IZR k)).
Proof.
  intros Hx Hy. pose proof PI_RGT_0 as P. unfold angle_diff.
  rewrite (nmod_fin _ (a - b) (2 * PI)) by (try lra; apply fin_sub; auto).
  set (q := (a - b) / (2 * PI)). set (m := a - b - 2 * PI * Rfloor q).
  assert (B : 0 <= m < 2 * PI).
  { pose proof (Rfloor_bounds q). unfold m. assert (a - b = 2 * PI * q) by (unfold q; field; lra). nra. }
  rewrite (nlt_fin _ _ PI m (fin_Fin _) (fin_Fin _)). destruct (Rlt_dec PI m) as [L|L].
  - exists (2 * PI - m). split.
    { unfold nsub, nneg. destruct (Req_EM_T m 0); [lra|]. cbn. f_equal. }
    split; [lra|]. exists (Int_part q + 1)%Z. right. unfold m, Rfloor. rewrite plus_IZR. ring.
  - exists m. split; auto. split; [lra|]. exists (Int_part q). left. unfold m, Rfloor. ring.
Qed.
Lemma near_unique d d' t (k k' : Z) : 0 <= d <= PI -> 0 <= d' <= PI ->
  (d = t - 2 * PI * IZR k \/ d = - (t - 2 * PI * IZR k)) ->
  (d' = t - 2 * PI * IZR k' \/ d' = - (t - 2 * PI * IZR k')) -> d = d'.
Proof.
  intros B B' H H'. pose proof PI_RGT_0 as P.
  assert (X : forall z : Z, (z <= -1 \/ z = 0 \/ 1 <= z)%Z) by lia.
  assert (Y : IZR (k - k') = IZR k - IZR k') by apply minus_IZR.
  destruct (X (k - k')%Z) as [L|[L|L]].
  - apply IZR_le in L. rewrite Y in L. destruct H, H'; nra.
  - assert (k = k') by lia. subst. destruct H, H'; nra.
  - apply IZR_le in L. rewrite Y in L. destruct H, H'; nra.
Qed.
Lemma angle_diff_sym x y : angle_diff x y = angle_diff y x.
Proof.
  destruct (isfinite x && isfinite y) eqn:F.
  - apply andb_true_iff in F. destruct F as [Fx Fy].
    destruct (finite_fin _ Fx) as [a Ha], (finite_fin _ Fy) as [b Hb].
    destruct (angle_diff_fin x y a b Ha Hb) as (d & -> & B & k & K).
    destruct (angle_diff_fin y x b a Hb Ha) as (d' & -> & B' & k' & K'). f_equal.
    apply (near_unique d d' (a - b) k (- k')); auto. rewrite opp_IZR. destruct K'; [right|left]; lra.
  - apply andb_false_iff in F.
    assert (N : forall u v, isfinite u = false \/ isfinite v = false -> angle_diff u v = NaN).
    { intros u v H. unfold angle_diff.
      assert (E : nmod (nsub u v) (Fin (2 * PI)) = NaN).
      { destruct u as [| |[]|], v as [rr| |[]|]; simpl in H; try (destruct H; discriminate); try reflexivity;
          unfold nsub, nneg; try (destruct (Req_EM_T rr 0)); reflexivity. }
      rewrite E. reflexivity. }
    rewrite !N by tauto. reflexivity.
Qed.
Lemma map2_sym {A B} (f : A -> A -> B) (Hf : forall x y, f x y = f y x) a b :
  (exists c d, map2 f a b = ret c /\ map2 f b a = ret d /\ shape c = shape d /\ forall ix, get c ix = get d ix)
  \/ (map2 f a b = raise ValueError /\ map2 f b a = raise ValueError).
Proof.
  unfold map2. rewrite (bshape_comm (shape b)). destruct (bshape (shape a) (shape b)); [left|right; auto].
  do 2 eexists. split; [reflexivity|]. split; [reflexivity|]. split; [reflexivity|]. intros ix. cbn. apply Hf.
Qed.
Lemma aclose_ext a b c : shape a = shape b -> (forall ix, get a ix = get b ix) -> aclose a c = aclose b c.
Proof.
  intros S G. unfold aclose, allclose, isclose, map2. rewrite S. destruct (bshape _ _); [|reflexivity].
  rewrite !bind_ret. apply f_equal. apply all_ext; auto. intros ix V. cbn [get]. rewrite G. reflexivity.
Qed.
Lemma geo_sym g h : geo_is_equal g (OGeo h) = geo_is_equal h (OGeo g).
Proof.
  unfold geo_is_equal, attr_latitude, attr_longitude, attr_z, attr_frame. rewrite !bind_ret.
  destruct (map2_sym angle_diff angle_diff_sym (g_lat g) (g_lat h)) as [(c & d & -> & -> & S & G)|[-> ->]]; [|reflexivity].
  rewrite !bind_ret.
  destruct (map2_sym angle_diff angle_diff_sym (g_lon g) (g_lon h)) as [(c' & d' & -> & -> & S' & G')|[-> ->]]; [|reflexivity].
  rewrite !bind_ret. rewrite (aclose_ext c d) by auto. rewrite (aclose_ext c' d') by auto.
  rewrite (aclose_sym (g_z h)), (frameE_eq_sym (g_frame h)). reflexivity.
Qed.

Lemma na_frameE_eq f o : noattr (frameE_eq f o).
Proof.
  unfold frameE_eq, catch_attr, noattr. destruct (frameE_is_equal f o) as [w [b|e]]; simpl; [discriminate|].
  destruct e; simpl; discriminate.
Qed.
Lemma na_nv_eq f o : noattr (nv_eq f o).
Proof.
  unfold nv_eq, catch_attr, noattr. destruct (nv_is_equal f o) as [w [b|e]]; simpl; [discriminate|].
  destruct e; simpl; discriminate.
Qed.

(** the comparison of two R_EN matrices *)
Definition cmpR (s t : local) : M bool := r <- R_EN s ;; x <- R_EN t ;; aclose r x.
Lemma cmpR_sym s t b : ends (cmpR s t) b <-> ends (cmpR t s) b.
Proof.
  assert (H : forall s t, ends (cmpR s t) b -> ends (cmpR t s) b).
  { intros s0 t0. unfold cmpR. rewrite !ends_bind. intros (r & Hr & K). apply ends_bind in K. destruct K as (x & Hx & K).
    exists x. split; auto. apply ends_bind. exists r. split; auto. rewrite aclose_sym. exact K. }
  split; apply H.
Qed.
Lemma na_cmpR s t : noattr (cmpR s t).
Proof. unfold cmpR. apply na_bind; [apply na_R_EN|]. intros. apply na_bind; [apply na_R_EN|]. intros. apply na_aclose. Qed.

Definition is_B (l : local) : bool := match l with LocalB _ _ _ _ => true | _ => false end.

Lemma local_eq_sym s t b : is_B s = is_B t -> (ends (local_eq s (OLocal t)) b <-> ends (local_eq t (OLocal s)) b).
Proof.
  intros E. unfold local_eq.
  assert (NA : forall s t, noattr (and_ (cmpR s t) (nv_eq (l_nvector s) (ONv (l_nvector t))))).
  { intros. apply na_and; [apply na_cmpR|apply na_nv_eq]. }
  assert (SY : ends (and_ (cmpR s t) (nv_eq (l_nvector s) (ONv (l_nvector t)))) b
           <-> ends (and_ (cmpR t s) (nv_eq (l_nvector t) (ONv (l_nvector s)))) b).
  { rewrite !ends_and. rewrite (cmpR_sym s t true), (cmpR_sym s t false), nv_eq_sym. tauto. }
  assert (NL : forall s t, is_B s = false -> local_is_equal s (OLocal t) = and_ (cmpR s t) (nv_eq (l_nvector s) (ONv (l_nvector t)))).
  { intros s0 t0 H. destruct s0; try discriminate; unfold local_is_equal, cmpR, attr_nvector, attr_R_EN; rewrite bind_ret; reflexivity. }
  destruct (is_B s) eqn:Bs.
  2:{ rewrite !NL by auto. rewrite !ends_catch_na by apply NA. exact SY. }
  destruct s as [| |v y p r]; try discriminate. destruct t as [| |v' y' p' r']; try discriminate.
  set (s := LocalB v y p r) in *. set (t := LocalB v' y' p' r') in *.
  change (local_is_equal s (OLocal t)) with
    (and_ (x <- ret y' ;; aclose y x) (and_ (x <- ret p' ;; aclose p x) (and_ (x <- ret r' ;; aclose r x)
      (and_ (cmpR s t) (x <- ret v' ;; nv_eq v (ONv x)))))).
  change (local_is_equal t (OLocal s)) with
    (and_ (x <- ret y ;; aclose y' x) (and_ (x <- ret p ;; aclose p' x) (and_ (x <- ret r ;; aclose r' x)
      (and_ (cmpR t s) (x <- ret v ;; nv_eq v' (ONv x)))))).
  rewrite !bind_ret. rewrite !ends_catch_na by (repeat (apply na_and; [apply na_aclose|]); apply NA).
  cbn [l_nvector s t] in SY. fold s t in SY.
  rewrite (aclose_sym y'), (aclose_sym p'), (aclose_sym r'). repeat rewrite (ends_and (aclose _ _)). rewrite SY. tauto.
Qed.

(** ** C41 *)
(** the frame of [o], if local, can be evaluated *)
Definition frame_ok (o : obj) : Prop :=
  match o with
  | OLocal l => exists r, ends (R_EN l) r
  | OPv p => exists r, ends (R_EN (p_frame p)) r
  | _ => True
  end.
(** one of the two is a FrameB (or a Pvector in one), the other a FrameN or FrameL *)
Definition mixed (x y : obj) : Prop :=
  match x, y with
  | OLocal s, OLocal t => is_B s <> is_B t
  | OPv p, OPv q => is_B (p_frame p) <> is_B (p_frame q)
  | _, _ => False
  end.

Lemma ok_false l o : (exists r, ends (R_EN l) r) -> (forall k, o <> OLocal k) -> forall b,
  ends (catch_attr (local_is_equal l o)) b <-> b = false.
Proof.
  intros [r Hr] N b. rewrite ends_catch.
  assert (A : snd (local_is_equal l o) = inr AttributeError).
  { destruct l as [v|v w|v y p q].
    - unfold local_is_equal. unfold ends in Hr. destruct (R_EN (LocalN v)) as [w [x|e]]; [|discriminate].
      destruct o; try reflexivity. destruct (N l); auto.
    - unfold local_is_equal. unfold ends in Hr. destruct (R_EN (LocalL v w)) as [w' [x|e]]; [|discriminate].
      destruct o; try reflexivity. destruct (N l); auto.
    - destruct o; try reflexivity. destruct (N l); auto. }
  unfold ends. rewrite A. split; [intros [H|H]; [discriminate|tauto]|auto].
Qed.

Lemma frameE_local f l b : ends (frameE_eq f (OLocal l)) b <-> b = false.
Proof. unfold frameE_eq, frameE_is_equal. cbn. unfold ends; cbn. split; congruence. Qed.

Theorem C41_symmetric_partial : forall x y, frame_ok x -> frame_ok y -> ~ mixed x y ->
  forall same b, ends (py_eq same x y) b <-> ends (py_eq same y x) b.
Proof.
  intros x y Ox Oy NM same b. destruct same; [reflexivity|]. unfold py_eq.
  destruct x as [g|v|e|p|f|l], y as [g'|v'|e'|p'|f'|l'];
    try (unfold is_equal_to, geo_is_equal, nv_is_equal, pv_is_equal, frameE_is_equal; cbn; unfold ends; cbn; split; congruence).
  - unfold is_equal_to. rewrite geo_sym. reflexivity.
  - unfold is_equal_to. (* Geo / local *)
    cbn [frame_ok] in Oy. rewrite (ok_false l') by (auto; discriminate).
    unfold geo_is_equal; cbn; unfold ends; cbn; split; congruence.
  - change (is_equal_to (ONv v) (ONv v')) with (nv_is_equal v (ONv v')).
    change (is_equal_to (ONv v') (ONv v)) with (nv_is_equal v' (ONv v)).
    fold (nv_eq v (ONv v')). fold (nv_eq v' (ONv v)). rewrite nv_eq_sym. reflexivity.
  - unfold is_equal_to. cbn [frame_ok] in Oy. rewrite (ok_false l') by (auto; discriminate).
    unfold nv_is_equal; cbn; unfold ends; cbn; split; congruence.
  - unfold is_equal_to, pv_is_equal, attr_pvector, attr_frame. rewrite !bind_ret. unfold frame_eq.
    rewrite (aclose_sym (e_p e')), (frameE_eq_sym (e_frame e')). reflexivity.
  - (* ECEF / Pvector *)
    unfold is_equal_to, pv_is_equal, attr_pvector, attr_frame. rewrite !bind_ret. unfold frame_eq.
    rewrite !ends_catch_na by (apply na_and; [apply na_aclose|]; first [apply na_frameE_eq|
      unfold noattr, local_eq, catch_attr; destruct (local_is_equal _ _) as [w [bb|[]]]; simpl; discriminate]).
    rewrite !ends_and, frameE_local, (aclose_sym (p_p p')). unfold local_eq.
    rewrite (ok_false (p_frame p')) by (auto; discriminate). tauto.
  - unfold is_equal_to. cbn [frame_ok] in Oy. rewrite (ok_false l') by (auto; discriminate).
    unfold pv_is_equal; cbn; unfold ends; cbn; split; congruence.
  - (* Pvector / ECEF *)
    unfold is_equal_to, pv_is_equal, attr_pvector, attr_frame. rewrite !bind_ret. unfold frame_eq.
    rewrite !ends_catch_na by (apply na_and; [apply na_aclose|]; first [apply na_frameE_eq|
      unfold noattr, local_eq, catch_attr; destruct (local_is_equal _ _) as [w [bb|[]]]; simpl; discriminate]).
    rewrite !ends_and, frameE_local, (aclose_sym (e_p e')). unfold local_eq.
    rewrite (ok_false (p_frame p)) by (auto; discriminate). tauto.
  - unfold is_equal_to, pv_is_equal, attr_pvector, attr_frame. rewrite !bind_ret. unfold frame_eq.
    rewrite !ends_catch_na by (apply na_and; [apply na_aclose|];
      unfold noattr, local_eq, catch_attr; destruct (local_is_equal _ _) as [w [bb|[]]]; simpl; discriminate).
    rewrite !ends_and, (aclose_sym (p_p p')).
    assert (B : is_B (p_frame p) = is_B (p_frame p')).
    { cbn [mixed] in NM. destruct (is_B (p_frame p)), (is_B (p_frame p')); auto; destruct NM; discriminate. }
    rewrite (local_eq_sym _ _ b B). reflexivity.
  - unfold is_equal_to. cbn [frame_ok] in Oy. rewrite (ok_false l') by (auto; discriminate).
    unfold pv_is_equal; cbn; unfold ends; cbn; split; congruence.
  - change (is_equal_to (OFrameE f) (OFrameE f')) with (frameE_is_equal f (OFrameE f')).
    change (is_equal_to (OFrameE f') (OFrameE f)) with (frameE_is_equal f' (OFrameE f)).
    fold (frameE_eq f (OFrameE f')). fold (frameE_eq f' (OFrameE f)). rewrite frameE_eq_sym. reflexivity.
  - unfold is_equal_to. cbn [frame_ok] in Oy. rewrite (ok_false l') by (auto; discriminate).
    unfold frameE_is_equal; cbn; unfold ends; cbn; split; congruence.
  - unfold is_equal_to. cbn [frame_ok] in Ox. rewrite (ok_false l) by (auto; discriminate).
    unfold geo_is_equal; cbn; unfold ends; cbn; split; congruence.
  - unfold is_equal_to. cbn [frame_ok] in Ox. rewrite (ok_false l) by (auto; discriminate).
    unfold nv_is_equal; cbn; unfold ends; cbn; split; congruence.
  - unfold is_equal_to. cbn [frame_ok] in Ox. rewrite (ok_false l) by (auto; discriminate).
    unfold pv_is_equal; cbn; unfold ends; cbn; split; congruence.
  - unfold is_equal_to. cbn [frame_ok] in Ox. rewrite (ok_false l) by (auto; discriminate).
    unfold pv_is_equal; cbn; unfold ends; cbn; split; congruence.
  - unfold is_equal_to. cbn [frame_ok] in Ox. rewrite (ok_false l) by (auto; discriminate).
    unfold frameE_is_equal; cbn; unfold ends; cbn; split; congruence.
  - change (is_equal_to (OLocal l) (OLocal l')) with (local_is_equal l (OLocal l')).
    change (is_equal_to (OLocal l') (OLocal l)) with (local_is_equal l' (OLocal l)).
    apply local_eq_sym. cbn [mixed] in NM. destruct (is_B l), (is_B l'); auto; destruct NM; discriminate.
Qed.
Print Assumptions C41_symmetric_partial.
