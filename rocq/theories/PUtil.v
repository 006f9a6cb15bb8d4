(** * C34-C38, C40: deg/rad, isclose, allclose, get_ellipsoid, nthroot *)
From Coq Require Import String Ascii ZArith QArith Qreals List Arith Lia Bool Reals Lra Psatz.
From Verif Require Import Num Py Nd MUtil Spec SpecArr LNum LArr LEcef.
Import ListNotations.
Local Open Scope R_scope.

(** ** C34 *)
Lemma mul_inv_exact x c d : 0 < c -> d = / c -> nmul (nmul x (Fin c)) (Fin d) = x.
Proof.
  intros Hc ->. assert (Hd : 0 < / c) by (apply Rinv_0_lt_compat; auto).
  assert (Sc : sbit (Fin c) = false) by (simpl; destruct (Rlt_dec c 0); auto; lra).
  assert (Sd : sbit (Fin (/ c)) = false) by (simpl; destruct (Rlt_dec (/ c) 0); auto; lra).
  assert (Zc : is_zero (Fin c) = false) by (simpl; destruct (Req_EM_T c 0); auto; lra).
  assert (Zd : is_zero (Fin (/ c)) = false) by (simpl; destruct (Req_EM_T (/ c) 0); auto; lra).
  destruct x as [r| |b|].
  - unfold nmul. cbn [fval]. rewrite Sc, Sd, !xorb_false_r.
    destruct (Req_EM_T (r * c) 0) as [E|E].
    + assert (r = 0) by (apply Rmult_integral in E; destruct E; auto; lra). subst r.
      simpl. destruct (Rlt_dec 0 0); [lra|]. cbn [zero fval].
      destruct (Req_EM_T (0 * / c) 0) as [_|N]; [|destruct N; ring]. cbn.
      destruct (Rlt_dec 0 0); [lra|reflexivity].
    + assert (EE : r * c * / c = r) by (field; lra). cbn [fval sbit].
      destruct (Req_EM_T (r * c * / c) 0) as [E'|E'].
      * rewrite EE in E'. subst r. destruct E. ring.
      * rewrite EE. reflexivity.
  - unfold nmul. cbn [fval]. rewrite Sc, Sd. cbn [sbit xorb].
    destruct (Req_EM_T (0 * c) 0) as [_|N]; [|destruct N; ring]. cbn [zero fval sbit xorb].
    destruct (Req_EM_T (0 * / c) 0) as [_|N]; [|destruct N; ring]. reflexivity.
  - unfold nmul. rewrite Zc, Sc. cbn [xorb]. rewrite xorb_false_r. rewrite Zd, Sd. rewrite xorb_false_r. reflexivity.
  - reflexivity.
Qed.
Lemma deg_rad1 x : rad2deg (deg2rad x) = x.
Proof. pose proof PI_RGT_0. apply mul_inv_exact; [lra|field; lra]. Qed.
Lemma rad_deg1 x : deg2rad (rad2deg x) = x.
Proof. pose proof PI_RGT_0. apply mul_inv_exact; [apply Rdiv_lt_0_compat; lra|field; lra]. Qed.

(** the arrays in the value returned for the given arguments: the object itself for one
    argument, a tuple otherwise *)
Definition same_entries (x y : arr num) : Prop := shape x = shape y /\ forall ix, get x ix = get y ix.

Theorem C34_one_argument : forall x,
  (exists y, deg [x] = One y /\ shape y = shape x /\
     forall ix r, get x ix ≈ r -> get y ix ≈ r * 180 / PI) /\
  (exists y, rad [x] = One y /\ shape y = shape x /\
     forall ix r, get x ix ≈ r -> get y ix ≈ r * PI / 180).
Proof.
  intros x. split; (eexists; split; [reflexivity|]; split; [reflexivity|]; intros ix r H; cbn [map1 get]).
  - eapply fin_eq; [apply fin_mul; [exact H|apply fin_Fin]|]. field. apply PI_neq0.
  - eapply fin_eq; [apply fin_mul; [exact H|apply fin_Fin]|]. field.
Qed.
Print Assumptions C34_one_argument.

Lemma Forall2_map {A B} (P : A -> B -> Prop) f l : (forall x, P x (f x)) -> Forall2 P l (map f l).
Proof. induction l; simpl; constructor; auto. Qed.

Theorem C34_several_arguments : forall xs, length xs <> 1%nat ->
  (exists ys, deg xs = Tuple ys /\
     Forall2 (fun x y => shape y = shape x /\ forall ix r, get x ix ≈ r -> get y ix ≈ r * 180 / PI) xs ys) /\
  (exists ys, rad xs = Tuple ys /\
     Forall2 (fun x y => shape y = shape x /\ forall ix r, get x ix ≈ r -> get y ix ≈ r * PI / 180) xs ys).
Proof.
  intros xs L.
  assert (D : deg xs = Tuple (map (map1 rad2deg) xs) /\ rad xs = Tuple (map (map1 deg2rad) xs)).
  { destruct xs as [|a [|b l]]; auto. destruct L; auto. }
  destruct D as [-> ->]. split; (eexists; split; [reflexivity|]; apply Forall2_map; intros x; split; [reflexivity|];
    intros ix r H; cbn [map1 get]; eapply fin_eq; [apply fin_mul; [exact H|apply fin_Fin]|]; field).
  apply PI_neq0.
Qed.
Print Assumptions C34_several_arguments.

(** converting and converting back gives the same numbers, for every number including
    infinities, NaN and signed zeros, and for any number of arguments *)
Theorem C34_inverse : forall xs,
  (exists ys, length ys = length xs /\
     (deg xs = Tuple ys \/ exists y, ys = [y] /\ deg xs = One y) /\
     exists zs, Forall2 same_entries xs zs /\ (rad ys = Tuple zs \/ exists z, zs = [z] /\ rad ys = One z)) /\
  (exists ys, length ys = length xs /\
     (rad xs = Tuple ys \/ exists y, ys = [y] /\ rad xs = One y) /\
     exists zs, Forall2 same_entries xs zs /\ (deg ys = Tuple zs \/ exists z, zs = [z] /\ deg ys = One z)).
Proof.
  intros xs. split.
  - exists (map (map1 rad2deg) xs). split; [apply map_length|]. split.
    + destruct xs as [|a [|b l]]; [left|right; eexists; split|left]; reflexivity.
    + exists (map (map1 deg2rad) (map (map1 rad2deg) xs)). split.
      * rewrite map_map. apply Forall2_map. intros x; split; [reflexivity|]. intros ix. cbn. symmetry; apply rad_deg1.
      * destruct xs as [|a [|b l]]; [left|right; eexists; split|left]; reflexivity.
  - exists (map (map1 deg2rad) xs). split; [apply map_length|]. split.
    + destruct xs as [|a [|b l]]; [left|right; eexists; split|left]; reflexivity.
    + exists (map (map1 rad2deg) (map (map1 deg2rad) xs)). split.
      * rewrite map_map. apply Forall2_map. intros x; split; [reflexivity|]. intros ix. cbn. symmetry; apply deg_rad1.
      * destruct xs as [|a [|b l]]; [left|right; eexists; split|left]; reflexivity.
Qed.
Print Assumptions C34_inverse.

(** ** C35 *)
(** the documented test *)
Definition close (rtol atol x y : R) : Prop := Rabs (x - y) <= Rmax atol (rtol * Rmax (Rabs x) (Rabs y)).

Lemma isclose1_fin rtol atol e xr xa x y a b : xr ≈ rtol -> xa ≈ atol -> x ≈ a -> y ≈ b ->
  isclose1 xr xa e x y = true <-> close rtol atol a b.
Proof.
  intros Hr Ha Hx Hy. unfold isclose1. rewrite (fin_finite _ _ Hx), (fin_finite _ _ Hy). cbn [andb].
  rewrite (nle_fin _ _ (Rabs (a - b)) (Rmax atol (rtol * Rmax (Rabs a) (Rabs b)) + 0 * Rabs b)).
  - rewrite Rmult_0_l, Rplus_0_r. unfold close. destruct (Rle_dec _ _); split; auto; discriminate.
  - apply fin_abs, fin_sub; auto.
  - apply fin_add; [apply fin_max; auto; apply fin_mul; auto; apply fin_max; apply fin_abs; auto|].
    apply fin_mul; [apply fin_Fin|apply fin_abs; auto].
Qed.

(** [c] at index [ix] compares entry [i] of a with entry [j] of b *)
Theorem C35_finite_entries : forall a b xr xa rtol atol e s, xr ≈ rtol -> xa ≈ atol ->
  bshape (shape a) (shape b) = Some s ->
  returns (isclose a b xr xa e) [] (fun c => shape c = s /\
    forall ix x y, get a (bidx (shape a) ix) ≈ x -> get b (bidx (shape b) ix) ≈ y ->
      (get c ix = true <-> close rtol atol x y)).
Proof.
  intros a b xr xa rtol atol e s Hr Ha Hs. unfold isclose, map2. rewrite Hs.
  eexists; split; [reflexivity|]. split; [reflexivity|]. intros ix x y Hx Hy. cbn [get].
  apply isclose1_fin; auto.
Qed.
Print Assumptions C35_finite_entries.

Theorem C35_nonfinite_entries : forall a b xr xa e s,
  bshape (shape a) (shape b) = Some s ->
  returns (isclose a b xr xa e) [] (fun c => shape c = s /\
    forall ix x y, get a (bidx (shape a) ix) = x -> get b (bidx (shape b) ix) = y ->
      isfinite x = false \/ isfinite y = false ->
      (get c ix = true <-> (x = NaN /\ y = NaN /\ e = true) \/ exists sg, x = Inf sg /\ y = Inf sg)).
Proof.
  intros a b xr xa e s Hs. unfold isclose, map2. rewrite Hs.
  eexists; split; [reflexivity|]. split; [reflexivity|]. intros ix x y Hx Hy Hxy. cbn [get]. rewrite Hx, Hy. clear Hx Hy.
  unfold isclose1. assert (isfinite x && isfinite y = false) as -> by (destruct Hxy as [-> | ->]; [|rewrite andb_false_r]; auto).
  destruct x as [r| |sx|], y as [r'| |sy|]; cbn [isfinite isnan andb orb neqb] in *; try (exfalso; destruct Hxy; discriminate); split; intros H;
    try discriminate;
    try (destruct H as [(h & h' & _)|(sg & h & h')]; discriminate).
  - right. exists sx. destruct sx, sy; try discriminate; auto.
  - destruct H as [(h & _)|(sg & h & h')]; [discriminate|]. injection h as ->. injection h' as ->. destruct sg; reflexivity.
  - left. destruct e; auto; discriminate.
  - destruct H as [(_ & _ & ->)|(sg & h & _)]; [reflexivity|discriminate].
Qed.
Print Assumptions C35_nonfinite_entries.

Lemma isclose1_sym xr xa e x y : isclose1 xr xa e x y = isclose1 xr xa e y x.
Proof.
  unfold isclose1. rewrite (andb_comm (isfinite y)), (andb_comm (isnan y)).
  destruct (isfinite x && isfinite y) eqn:F.
  - apply andb_true_iff in F. destruct F as [Fx Fy].
    assert (N1 : nabs (nsub x y) = nabs (nsub y x)).
    { destruct (finite_fin _ Fx) as [a Ha], (finite_fin _ Fy) as [b Hb].
      pose proof (fin_sub _ _ _ _ Ha Hb) as S1. pose proof (fin_sub _ _ _ _ Hb Ha) as S2.
      assert (A : forall u r, u ≈ r -> nabs u = Fin (Rabs r)).
      { intros u r Hu. destruct (fin_inv _ _ Hu) as [->|[-> ->]]; simpl; auto. rewrite Rabs_R0; auto. }
      rewrite (A _ _ S1), (A _ _ S2). f_equal. apply Rabs_minus_sym. }
    assert (A : forall u, isfinite u = true -> exists r, nabs u = Fin r).
    { intros [r| |?|] Hu; try discriminate; simpl; eauto. }
    destruct (A _ Fx) as [a Ha], (A _ Fy) as [b Hb]. rewrite N1, Ha, Hb.
    assert (N2 : nmax (Fin a) (Fin b) = nmax (Fin b) (Fin a)).
    { unfold nmax, nle; cbn [fval]. destruct (Rle_dec a b), (Rle_dec b a); auto; f_equal; lra. }
    rewrite N2. f_equal. f_equal. unfold nmul; cbn [fval is_zero sbit].
    destruct (Req_EM_T (0 * b) 0) as [_|N]; [|destruct N; ring].
    destruct (Req_EM_T (0 * a) 0) as [_|N]; [|destruct N; ring].
    assert (Pa : 0 <= a). { destruct x as [r| |?|]; try discriminate; injection Ha as <-; [apply Rabs_pos|lra]. }
    assert (Pb : 0 <= b). { destruct y as [r| |?|]; try discriminate; injection Hb as <-; [apply Rabs_pos|lra]. }
    destruct (Rlt_dec b 0); [lra|]. destruct (Rlt_dec a 0); [lra|]. reflexivity.
  - f_equal. destruct x as [| |[]|], y as [| |[]|]; try reflexivity; discriminate.
Qed.

(** symmetric for all values and tolerances, also when it raises *)
Theorem C35_symmetric : forall a b xr xa e,
  (raises (isclose a b xr xa e) ValueError /\ raises (isclose b a xr xa e) ValueError) \/
  exists c d, isclose a b xr xa e = ret c /\ isclose b a xr xa e = ret d /\
    shape c = shape d /\ forall ix, get c ix = get d ix.
Proof.
  intros. unfold isclose, map2, raises. rewrite (bshape_comm (shape b)).
  destruct (bshape (shape a) (shape b)) as [s|]; [right|left; auto].
  do 2 eexists. split; [reflexivity|]. split; [reflexivity|]. split; [reflexivity|].
  intros ix. cbn [get]. apply isclose1_sym.
Qed.
Print Assumptions C35_symmetric.

Lemma F2len {A B} (P : A -> B -> Prop) l l' : Forall2 P l l' -> length l = length l'.
Proof. induction 1; simpl; auto. Qed.
Lemma bidx_refl_valid s : forall ix, length ix = length s -> (Forall2 lt ix s) -> bidx s ix = ix.
Proof.
  intros ix L V. unfold bidx. rewrite L, Nat.sub_diag. cbn [skipn]. clear L.
  induction V; cbn [clamp]; auto. rewrite IHV. f_equal. apply cl_id; auto.
Qed.

Theorem C35_reflexive : forall a xr xa rtol atol e, xr ≈ rtol -> xa ≈ atol -> 0 <= atol ->
  returns (isclose a a xr xa e) [] (fun c => shape c = shape a /\
    forall ix, Forall2 lt ix (shape a) ->
      (get c ix = true <-> get a ix <> NaN \/ e = true)).
Proof.
  intros a xr xa rtol atol e Hr Ha P. unfold isclose, map2. rewrite bshape_refl.
  eexists; split; [reflexivity|]. split; [reflexivity|]. intros ix V. cbn [get].
  rewrite bidx_refl_valid by (auto; eapply F2len; eauto).
  destruct (isfinite (get a ix)) eqn:F.
  - destruct (finite_fin _ F) as [x Hx]. rewrite (isclose1_fin rtol atol e xr xa _ _ x x) by auto.
    split; intros _.
    + left. intros N. rewrite N in F. discriminate.
    + unfold close. replace (x - x) with 0 by ring. rewrite Rabs_R0. eapply Rle_trans; [exact P|apply Rmax_l].
  - unfold isclose1. rewrite F. cbn [andb]. destruct (get a ix) as [| |sg|]; try discriminate; cbn.
    + split; intros _; [left; discriminate|destruct sg; reflexivity].
    + destruct e; cbn; split; auto; try discriminate. intros [H|H]; [destruct H; auto|discriminate].
Qed.
Print Assumptions C35_reflexive.

Theorem C35_monotone : forall a b xr xa xr' xa' rtol atol rtol' atol' e,
  xr ≈ rtol -> xa ≈ atol -> xr' ≈ rtol' -> xa' ≈ atol' -> rtol <= rtol' -> atol <= atol' ->
  forall c d, isclose a b xr xa e = ret c -> isclose a b xr' xa' e = ret d ->
  forall ix, get c ix = true -> get d ix = true.
Proof.
  intros a b xr xa xr' xa' rtol atol rtol' atol' e Hr Ha Hr' Ha' Lr La c d Ec Ed ix.
  unfold isclose, map2 in Ec, Ed. destruct (bshape (shape a) (shape b)); [|discriminate].
  injection Ec as <-. injection Ed as <-. cbn [get].
  set (x := get a _). set (y := get b _).
  destruct (isfinite x && isfinite y) eqn:F.
  - apply andb_true_iff in F. destruct F as [Fx Fy].
    destruct (finite_fin _ Fx) as [u Hu], (finite_fin _ Fy) as [v Hv].
    rewrite (isclose1_fin rtol atol e xr xa x y u v), (isclose1_fin rtol' atol' e xr' xa' x y u v) by auto.
    unfold close. intros H. eapply Rle_trans; [exact H|]. apply Rmax_case.
    + eapply Rle_trans; [exact La|apply Rmax_l].
    + eapply Rle_trans; [|apply Rmax_r]. apply Rmult_le_compat_r; auto.
      eapply Rle_trans; [apply Rabs_pos|apply Rmax_l].
  - unfold isclose1. rewrite F. auto.
Qed.
Print Assumptions C35_monotone.

(** a concrete case: NaN, infinity and finite entries against scalars *)
Example C35_example : close (1/10) 0 10 11 /\ ~ close (1/100) 0 10 11 /\
  bshape [2%nat; 3%nat] [3%nat] = Some [2%nat; 3%nat].
Proof.
  unfold close. replace (Rabs (10 - 11)) with 1 by (rewrite Rabs_left; lra).
  rewrite !(Rabs_pos_eq 10), !(Rabs_pos_eq 11) by lra. rewrite !(Rmax_right 10 11) by lra.
  split; [apply Rle_trans with (1 / 10 * 11); [lra|apply Rmax_r]|]. split; [|reflexivity].
  intros H. rewrite Rmax_right in H; lra.
Qed.

(** ** C36 *)
Lemma unravel_onto s : forall ix, Forall2 lt ix s -> exists k, (k < prod s)%nat /\ unravel s k = ix.
Proof.
  intros ix V. induction V as [|i d ix s Hi V (k & Hk & E)].
  - exists 0%nat. split; [simpl; lia|reflexivity].
  - exists (i * prod s + k)%nat. split.
    + simpl. nia.
    + simpl. rewrite Nat.div_add_l by lia. rewrite (Nat.div_small k) by lia.
      replace (i * prod s + k)%nat with (k + i * prod s)%nat by lia.
      rewrite Nat.mod_add by lia. rewrite Nat.mod_small by lia. rewrite E. f_equal. lia.
Qed.
Lemma unravel_valid s : forall k, (k < prod s)%nat -> Forall2 lt (unravel s k) s.
Proof.
  induction s as [|d s IH]; intros k Hk; simpl; constructor.
  - simpl in Hk. apply Nat.div_lt_upper_bound; lia.
  - apply IH. apply Nat.mod_upper_bound. simpl in Hk. lia.
Qed.
Lemma allb_iff n f : allb n f = true <-> forall k, (k < n)%nat -> f k = true.
Proof.
  induction n; simpl.
  - split; auto. intros _ k Hk; lia.
  - rewrite andb_true_iff, IHn. split.
    + intros [H1 H2] k Hk. destruct (Nat.eq_dec k n) as [->|]; auto. apply H1; lia.
    + intros H. split; [intros; apply H; lia|apply H; lia].
Qed.
Lemma all_iff a : all_ a = true <-> forall ix, Forall2 lt ix (shape a) -> get a ix = true.
Proof.
  unfold all_. rewrite allb_iff. split.
  - intros H ix V. destruct (unravel_onto _ _ V) as (k & Hk & <-). apply H. exact Hk.
  - intros H k Hk. apply H. apply unravel_valid. exact Hk.
Qed.

Theorem C36_allclose_is_conjunction : forall a b xr xa e,
  (exists c, isclose a b xr xa e = ret c /\
    returns (allclose a b xr xa e) [] (fun r =>
      r = true <-> forall ix, Forall2 lt ix (shape c) -> get c ix = true)) \/
  (bshape (shape a) (shape b) = None /\ raises (allclose a b xr xa e) ValueError).
Proof.
  intros. unfold allclose, isclose, map2, raises. destruct (bshape (shape a) (shape b)) as [s|].
  - left. eexists. split; [reflexivity|]. rewrite bind_ret. eexists; split; [reflexivity|]. apply all_iff.
  - right. split; auto.
Qed.
Print Assumptions C36_allclose_is_conjunction.

(** in terms of the numbers: arrays of finite numbers of one shape *)
Theorem C36_allclose_finite : forall a b s f g xr xa rtol atol e, xr ≈ rtol -> xa ≈ atol ->
  shape a = s -> shape b = s ->
  (forall ix, Forall2 lt ix s -> get a ix ≈ f ix) -> (forall ix, Forall2 lt ix s -> get b ix ≈ g ix) ->
  returns (allclose a b xr xa e) [] (fun r =>
    r = true <-> forall ix, Forall2 lt ix s -> close rtol atol (f ix) (g ix)).
Proof.
  intros a b s f g xr xa rtol atol e Hr Ha Sa Sb Fa Fb.
  assert (B : bshape (shape a) (shape b) = Some s) by (rewrite Sa, Sb; apply bshape_refl).
  destruct (C35_finite_entries a b xr xa rtol atol e s Hr Ha B) as (c & Ec & Sc & Hc).
  destruct (C36_allclose_is_conjunction a b xr xa e) as [(c' & Ec' & (r & Er & Hrr))|[N _]]; [|congruence].
  assert (c' = c) by (rewrite Ec in Ec'; injection Ec'; auto). subst c'.
  exists r. split; [exact Er|]. rewrite Hrr, Sc.
  split; intros H ix V; specialize (H ix V);
    (assert (La : length ix = length s) by (eapply F2len; eauto));
    specialize (Hc ix (f ix) (g ix)); rewrite Sa, Sb, !bidx_refl_valid in Hc by auto;
    apply Hc; auto.
Qed.
Print Assumptions C36_allclose_finite.

Example C36_example : bshape [2%nat] [3%nat] = None /\ Forall2 lt [1%nat; 2%nat] [2%nat; 3%nat].
Proof. split; [reflexivity|]. repeat constructor. Qed.

(** ** C40 *)
Theorem C40_nthroot : forall x n f, (0 < n)%nat ->
  (forall ix, Forall2 lt ix (shape x) -> get x ix ≈ f ix /\ 0 <= f ix) ->
  shape (nthroot x n) = shape x /\
  forall ix, Forall2 lt ix (shape x) -> exists y, get (nthroot x n) ix ≈ y /\ 0 <= y /\ y ^ n = f ix.
Proof.
  intros x n f Hn H. split; [reflexivity|]. intros ix V. destruct (H ix V) as [Hx P].
  exact (nthroot1_spec n _ _ Hn Hx P).
Qed.
Print Assumptions C40_nthroot.

(** the root is unique, so the value returned is the root *)
Theorem C40_unique : forall n y z, (0 < n)%nat -> 0 <= y -> 0 <= z -> y ^ n = z ^ n -> y = z.
Proof.
  assert (L : forall n y z, (0 < n)%nat -> 0 <= y -> y < z -> y ^ n < z ^ n).
  { intros n y z Hn Hy Hyz. induction n as [|n IH]; [lia|]. destruct n as [|n]; [simpl; lra|].
    assert (IH' := IH ltac:(lia)). change (y * y ^ S n < z * z ^ S n).
    assert (0 <= y ^ S n) by (apply pow_le; auto). nra. }
  intros n y z Hn Hy Hz E. destruct (Rtotal_order y z) as [h|[h|h]]; auto.
  - pose proof (L n y z Hn Hy h). lra.
  - pose proof (L n z y Hn Hz h). lra.
Qed.

(** The correction of lines 412-413 makes the result insensitive to rounding in the power
    on line 411: started from any approximation [y] of the root [r], it returns a value with
    quadratically smaller error (and never below the root). *)
Lemma pow_excess n t : (1 <= n)%nat -> 0 < t ->
  0 <= t ^ n - 1 - INR n * (t - 1)
    <= INR n * (INR n - 1) / 2 * (t - 1) ^ 2 * Rmax 1 t ^ (n - 2).
Proof.
  intros Hn Ht. set (m := Rmax 1 t).
  assert (M1 : 1 <= m) by apply Rmax_l. assert (Mt : t <= m) by apply Rmax_r.
  induction n as [|n IH]; [lia|]. destruct n as [|n].
  { simpl. split; [right; ring|]. replace (1 * (1 - 1) / 2) with 0 by field. right; ring. }
  assert (IH' := IH ltac:(lia)). clear IH. set (N := S n) in *.
  assert (E : t ^ S N - 1 - INR (S N) * (t - 1)
            = t * (t ^ N - 1 - INR N * (t - 1)) + INR N * (t - 1) ^ 2).
  { rewrite S_INR. simpl. ring. }
  rewrite E. destruct IH' as [L U].
  assert (PN : 0 <= INR N) by apply pos_INR.
  assert (PN1 : 0 <= INR N - 1). { unfold N. rewrite S_INR. pose proof (pos_INR n). lra. }
  assert (SQ : 0 <= (t - 1) ^ 2) by (apply pow2_ge_0).
  assert (PM : 1 <= m ^ (S N - 2)) by (apply pow_R1_Rle; auto).
  assert (B : t * m ^ (N - 2) <= m ^ (S N - 2) \/ N = 1%nat).
  { destruct n as [|n]; [right; reflexivity|left].
    replace (S N - 2)%nat with (S (N - 2)) by (unfold N; lia). simpl.
    apply Rmult_le_compat_r; auto. apply pow_le; lra. }
  split; [nra|].
  rewrite S_INR. set (X := INR N) in *. set (s := (t - 1) ^ 2) in *.
  destruct B as [B|B].
  - apply Rle_trans with (X * (X - 1) / 2 * s * (t * m ^ (N - 2)) + X * s * m ^ (S N - 2)).
    + assert (0 <= X * s) by nra. nra.
    + assert (0 <= X * (X - 1) / 2 * s) by (apply Rmult_le_pos; auto; nra).
      assert (X * (X - 1) / 2 * s * (t * m ^ (N - 2)) <= X * (X - 1) / 2 * s * m ^ (S N - 2))
        by (apply Rmult_le_compat_l; auto).
      replace ((X + 1) * (X + 1 - 1) / 2 * s * m ^ (S N - 2))
        with (X * (X - 1) / 2 * s * m ^ (S N - 2) + X * s * m ^ (S N - 2)) by field. lra.
  - assert (X1 : X = 1) by (unfold X; rewrite B; reflexivity).
    rewrite X1 in *. replace (1 * (1 - 1) / 2) with 0 in U by field.
    replace ((1 + 1) * (1 + 1 - 1) / 2) with 1 by field.
    assert (Z : t ^ N - 1 - 1 * (t - 1) = 0) by lra. rewrite Z. nra.
Qed.

Theorem C40_correction_is_quadratic : forall n x xy r y, (1 <= n)%nat ->
  0 < r -> 0 < y -> r ^ n < 2 ^ 52 -> x ≈ r ^ n -> xy ≈ y ->
  exists y', nthroot_step n x xy ≈ y' /\
    0 <= y' - r <= y * ((INR n - 1) / 2) * (1 - r / y) ^ 2 * Rmax 1 (r / y) ^ (n - 2).
Proof.
  intros n x xy r y Hn Hr Hy Hs Hx Hxy. unfold nthroot_step.
  assert (Pr : 0 < r ^ n) by (apply pow_lt; auto).
  assert (Py : 0 < y ^ (n - 1)) by (apply pow_lt; auto).
  assert (PN : 0 < INR n) by (apply lt_0_INR; lia).
  rewrite (neqb_fin _ _ _ _ Hx (fin_Fin 0)). destruct (Req_EM_T (r ^ n) 0); [lra|].
  unfold EPS. rewrite (nlt_fin _ _ (/ 2 ^ 52 * Rabs (r ^ n)) 1 (fin_mul _ _ _ _ (fin_Fin _) (fin_abs _ _ Hx)) (fin_Fin 1)).
  rewrite (Rabs_pos_eq (r ^ n)) by lra.
  destruct (Rlt_dec (/ 2 ^ 52 * r ^ n) 1) as [_|N].
  2:{ destruct N. apply Rmult_lt_reg_l with (2 ^ 52); [apply pow_lt; lra|].
      rewrite <- Rmult_assoc, Rinv_r, Rmult_1_l, Rmult_1_r by (apply pow_nonzero; lra). exact Hs. }
  cbn [negb andb]. eexists. split.
  { apply fin_sub; [exact Hxy|]. apply fin_div; [apply fin_sub; [apply fin_pow; exact Hxy|exact Hx]| |].
    - apply fin_mul; [apply fin_Fin|apply fin_pow; exact Hxy].
    - apply Rmult_integral_contrapositive. split; lra. }
  set (t := r / y). assert (Ht : 0 < t) by (apply Rdiv_lt_0_compat; auto).
  assert (Ert : r = t * y) by (unfold t; field; lra).
  assert (E : y - (y ^ n - r ^ n) / (INR n * y ^ (n - 1)) - r
            = y * (t ^ n - 1 - INR n * (t - 1)) / INR n).
  { rewrite Ert at 1 2. rewrite Rpow_mult_distr.
    replace (y ^ n) with (y * y ^ (n - 1)) by (replace n with (S (n - 1)) at 2 by lia; reflexivity).
    field. split; lra. }
  rewrite E. destruct (pow_excess n t Hn Ht) as [L U]. split.
  - apply Rmult_le_pos; [apply Rmult_le_pos; lra|left; apply Rinv_0_lt_compat; auto].
  - apply Rle_trans with (y * (INR n * (INR n - 1) / 2 * (t - 1) ^ 2 * Rmax 1 t ^ (n - 2)) / INR n).
    + apply Rmult_le_compat_r; [left; apply Rinv_0_lt_compat; auto|]. apply Rmult_le_compat_l; lra.
    + right. field. lra.
Qed.
Print Assumptions C40_correction_is_quadratic.

Example C40_example : 0 <= 27 /\ (3 ^ 3 = 27)%R. Proof. split; lra. Qed.
