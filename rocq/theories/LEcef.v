(** * ECEF <-> n-vector and depth *)
From Coq Require Import List Arith Lia Bool Reals Lra.
From Verif Require Import Num Py Nd MUtil MRotation MCore Spec SpecArr LNum LTrig LVec LArr LVerm.
Import ListNotations.
Local Open Scope R_scope.

(** ** n-vector and depth -> position, in the internal axes (x towards the North pole) *)
Definition rho2 (w : vec) : R := vy w * vy w + vz w * vz w.
Definition den (f : R) (w : vec) : R := sqrt (vx w * vx w + rho2 w / ((1 - f) * (1 - f))).
Definition cc (a f : R) (w : vec) : R := a * (1 - f) / den f w.
Definition psurf (a f : R) (w : vec) : vec :=
  V (cc a f w * vx w) (cc a f w * vy w / ((1 - f) * (1 - f))) (cc a f w * vz w / ((1 - f) * (1 - f))).
Definition pint (a f : R) (w : vec) (d : R) : vec := vsub (psurf a f w) (vscale d w).

Lemma rho2_pos w : 0 <= rho2 w. Proof. unfold rho2. nra. Qed.
Lemma den_arg_pos f w : 0 < 1 - f -> w <> v0 -> 0 < vx w * vx w + rho2 w / ((1 - f) * (1 - f)).
Proof.
  intros Hf Hw. pose proof (rho2_pos w) as R.
  assert (I : 0 < / ((1 - f) * (1 - f))) by (apply Rinv_0_lt_compat; nra).
  unfold Rdiv.
  destruct (Req_dec (vx w) 0) as [E|E].
  - assert (0 < rho2 w).
    { destruct R as [|R]; auto. exfalso. apply Hw, vdot_0. unfold vdot, rho2 in *. nra. }
    nra.
  - nra.
Qed.
Lemma den_pos f w : 0 < 1 - f -> w <> v0 -> 0 < den f w.
Proof. intros. apply sqrt_lt_R0, den_arg_pos; auto. Qed.
Lemma den_sq f w : 0 < 1 - f -> w <> v0 ->
  den f w * den f w = vx w * vx w + rho2 w / ((1 - f) * (1 - f)).
Proof. intros. apply sqrt_sqrt. left. apply den_arg_pos; auto. Qed.
Lemma cc_pos a f w : 0 < a -> 0 < 1 - f -> w <> v0 -> 0 < cc a f w.
Proof. intros. apply Rmult_lt_0_compat; [nra|]. apply Rinv_0_lt_compat, den_pos; auto. Qed.

(** elementwise division by a 3 x 1 column *)
Lemma div_col3_cols A n u a b c xa xb xc :
  cols A n u -> xa ≈ a -> xb ≈ b -> xc ≈ c -> a <> 0 -> b <> 0 -> c <> 0 ->
  exists C, map2 ndiv A (col3 xa xb xc) = ret C /\
    cols C n (fun j => V (vx (u j) / a) (vy (u j) / b) (vz (u j) / c)).
Proof.
  intros HA Ha Hb Hc Na Nb Nc.
  assert (HB : cols (col3 xa xb xc) 1 (fun _ => V a b c)).
  { split; [reflexivity|]. intros j Hj. repeat split; auto. }
  destruct (map2_cols ndiv Rdiv (fun b => b <> 0) _ _ _ _ _ _ _
     (fun x y a b Hx Hy Hb => fin_div x y a b Hx Hy Hb) HA HB (bdim_1_r n)) as (C & E & HC).
  - intros j Hj. simpl. auto.
  - exists C; split; auto. eapply cols_ext; [|apply HC]. intros j Hj. simpl.
    rewrite (cl_id n j Hj). reflexivity.
Qed.

Lemma sq_col3 xa xb xc : map1 (fun s => nmul s s) (col3 xa xb xc)
   = Arr [3%nat; 1%nat] (fun ix => (fun s => nmul s s) (nth (at_ ix 0) [xa; xb; xc] xa)).
Proof. reflexivity. Qed.

Lemma div_sqcol3_cols A n u a b c xa xb xc :
  cols A n u -> xa ≈ a -> xb ≈ b -> xc ≈ c -> a <> 0 -> b <> 0 -> c <> 0 ->
  exists C, map2 ndiv A (map1 (fun s => nmul s s) (col3 xa xb xc)) = ret C /\
    cols C n (fun j => V (vx (u j) / (a * a)) (vy (u j) / (b * b)) (vz (u j) / (c * c))).
Proof.
  intros HA Ha Hb Hc Na Nb Nc.
  assert (HB : cols (map1 (fun s => nmul s s) (col3 xa xb xc)) 1 (fun _ => V (a * a) (b * b) (c * c))).
  { split; [reflexivity|]. intros j Hj. unfold vcol; simpl. repeat split; fin. }
  destruct (map2_cols ndiv Rdiv (fun b => b <> 0) _ _ _ _ _ _ _
     (fun x y a b Hx Hy Hb => fin_div x y a b Hx Hy Hb) HA HB (bdim_1_r n)) as (C & E & HC).
  - intros j Hj. simpl. repeat split; apply Rmult_integral_contrapositive; auto.
  - exists C; split; auto. eapply cols_ext; [|apply HC]. intros j Hj. simpl.
    rewrite (cl_id n j Hj). reflexivity.
Qed.

Lemma n2p_spec N n u depth m k z xa xf a f R_Ee M :
  axes R_Ee M -> orthogonal M -> cols N n u -> (0 < n)%nat ->
  (forall j, (j < n)%nat -> u j <> v0) -> vals depth m z -> bdim n m = Some k ->
  xa ≈ a -> xf ≈ f -> f < 1 ->
  exists Pp, n_EB_E2p_EB_E N depth xa xf R_Ee = (length_warning (vnorm (u 0%nat)), inl Pp) /\
    cols Pp k (fun j => mulv (mT M) (pint a f (mulv M (direction (u (cl n j)))) (z (cl m j)))).
Proof.
  intros HR HM HN Hn Hu Hz D Ha Hf Lf. unfold n_EB_E2p_EB_E.
  step (default_R_axes _ _ HR) Rm HRm.
  rewrite (cld_spec _ _ _ HN Hn), bind_inl.
  step (dot_mat_cols _ _ _ _ _ HRm HN) rot Hrot.
  step (unit1_cols_nz _ _ _ Hrot (fun j Hj => orthogonal_nz M (u j) HM (Hu j Hj))) w Hw.
  assert (F1 : nsub (Fin 1) xf ≈ 1 - f) by fin.
  assert (Hdir : forall j, (j < n)%nat -> mulv M (direction (u j)) <> v0).
  { intros j Hj. apply orthogonal_nz; auto. apply direction_nz; auto. }
  assert (Hw' : cols w n (fun j => mulv M (direction (u j)))).
  { eapply cols_ext; [|apply Hw]. intros j Hj. simpl. apply orthogonal_direction; auto. }
  clear Hw. rename Hw' into Hw.
  step (div_col3_cols _ _ _ 1 (1 - f) (1 - f) (Fin 1) _ _ Hw (fin_Fin 1) F1 F1 ltac:(lra) ltac:(lra) ltac:(lra)) sc Hsc.
  destruct (norm0_keep_cols _ _ _ Hsc) as (dn & E & Sdn & Gdn). rewrite E, bind_ret; clear E.
  assert (Hq : keep (map1 (ndiv (nmul xa (nsub (Fin 1) xf))) dn) n
                 (fun j => cc a f (mulv M (direction (u j))))).
  { split; [apply Sdn|]. intros j Hj. unfold map1; cbn [get]. rewrite Gdn by auto. unfold cc.
    apply fin_div; [fin| |apply Rgt_not_eq, den_pos; auto; lra].
    cbn beta iota delta [is_fin]. generalize (mulv M (direction (u j))); intros ww. unfold den, vnorm, vdot, rho2; cbn [vx vy vz].
    f_equal. field. lra. }
  step (mul_keep_cols _ _ _ _ _ _ _ Hq Hw (bdim_refl n)) t1 Ht1.
  step (div_sqcol3_cols _ _ _ 1 (1 - f) (1 - f) (Fin 1) _ _ Ht1 (fin_Fin 1) F1 F1 ltac:(lra) ltac:(lra) ltac:(lra)) pe Hpe.
  step (mul_cols_vals _ _ _ _ _ _ _ Hw Hz D) t2 Ht2.
  assert (Dk : bdim n k = Some k).
  { apply bdim_inv in D. destruct D as [[->| ->] _]; [apply bdim_refl|apply bdim_1_l]. }
  step (sub_cols _ _ _ _ _ _ _ Hpe Ht2 Dk) t3 Ht3.
  destruct (dot_mat_cols _ _ _ _ _ (is_mat_transpose _ _ HRm) Ht3) as (Pp & E & HP).
  rewrite E. cbn [fst snd]. exists Pp. split; [unfold ret; cbn [fst snd]; rewrite app_nil_r; reflexivity|].
  eapply cols_ext; [|apply HP]. intros j Hj. cbn beta. f_equal.
  rewrite (cl_id k j Hj). pose proof (cl_lt_l _ _ _ _ D Hj) as L. rewrite (cl_id n _ L).
  unfold pint. f_equal. unfold psurf, vscale; cbn [vx vy vz]. f_equal; field; lra.
Qed.

(** ** the n-th root *)
Lemma nroot_spec n x X : (0 < n)%nat -> x ≈ X -> 0 <= X ->
  exists y, nroot x n ≈ y /\ 0 <= y /\ y ^ n = X /\ (X <> 0 -> y <> 0).
Proof.
  intros Hn Hx HX. apply fin_inv in Hx. destruct Hx as [->|[-> HX0]]; simpl.
  - destruct (Nat.eqb n 1) eqn:E1.
    { apply Nat.eqb_eq in E1; subst. exists X. repeat split; auto. simpl; ring. }
    apply Nat.eqb_neq in E1. destruct (Rlt_dec X 0); [lra|].
    destruct (Req_EM_T X 0) as [Z|NZ0].
    + exists 0. repeat split; try lra. rewrite Z. apply pow_i; lia.
    + exists (Rpower X (/ INR n)).
      assert (P : 0 < Rpower X (/ INR n)) by apply exp_pos.
      repeat split; try lra. rewrite <- Rpower_pow by auto. rewrite Rpower_mult.
      rewrite Rinv_l by (apply not_0_INR; lia). apply Rpower_1. lra.
  - destruct (Nat.eqb n 1) eqn:E1; exists 0; (split; [reflexivity|]); subst X;
      (split; [lra|split; [apply pow_i; lia|auto]]).
Qed.

Lemma nthroot1_spec n x X : (0 < n)%nat -> x ≈ X -> 0 <= X ->
  exists y, nthroot1 n x ≈ y /\ 0 <= y /\ y ^ n = X.
Proof.
  intros Hn Hx HX. destruct (nroot_spec n x X Hn Hx HX) as (y & Hy & P & E & NZy).
  exists y. split; [|auto]. unfold nthroot1, nthroot_step.
  destruct (negb (neqb x (Fin 0)) && nlt (nmul EPS (nabs x)) (Fin 1)) eqn:B; auto.
  apply andb_true_iff in B. destruct B as [B _].
  rewrite (neqb_fin _ _ _ _ Hx (fin_Fin 0)) in B. destruct (Req_EM_T X 0); [discriminate|].
  assert (Ny : y <> 0) by auto.
  eapply fin_eq.
  - apply fin_sub; [apply Hy|]. apply fin_div.
    + apply fin_sub; [apply fin_pow; apply Hy|apply Hx].
    + apply fin_mul; [apply fin_Fin|apply fin_pow; apply Hy].
    + apply Rmult_integral_contrapositive; split; [apply not_0_INR; lia|apply pow_nonzero; auto].
  - rewrite E. replace (X - X) with 0 by ring. unfold Rdiv. rewrite Rmult_0_l. ring.
Qed.

(** ** compute_k *)
Lemma compute_k_spec xa xe xq xY a e Q Y : xa ≈ a -> xe ≈ e -> xq ≈ Q -> xY ≈ Y ->
  0 < a -> 0 <= e -> 0 <= Q -> 0 <= Y -> e * e < Y / (a * a) + Q ->
  exists k, compute_k xa xe xq xY ≈ k /\ 0 < k /\
    Y / (a * a) * k ^ 2 + Q * (k + e) ^ 2 = k ^ 2 * (k + e) ^ 2.
Proof.
  intros Ha He Hq HY Pa Pe PQ PY G. set (P := Y / (a * a)) in *.
  assert (PP : 0 <= P).
  { unfold P. apply Rmult_le_pos; auto. left. apply Rinv_0_lt_compat. nra. }
  pose proof (vr_pos e P Q G) as Rp. pose proof (vr3_pos e P Q G) as R3.
  pose proof (vs_pos e P Q Pe PP PQ G) as Sp.
  assert (H4 : nmul xe xe ≈ e * e) by fin.
  assert (Hp : ndiv xY (nmul xa xa) ≈ P) by (apply fin_div; [auto|fin|nra]).
  assert (Hr : ndiv (nsub (nadd (ndiv xY (nmul xa xa)) xq) (nmul xe xe)) (Fin 6) ≈ vr e P Q).
  { apply fin_div; [fin|fin|lra]. }
  set (xr := ndiv (nsub (nadd (ndiv xY (nmul xa xa)) xq) (nmul xe xe)) (Fin 6)) in *.
  assert (Hs : ndiv (nmul (nmul (nmul xe xe) (ndiv xY (nmul xa xa))) xq) (nmul (Fin 4) (npow xr 3)) ≈ vs e P Q).
  { apply fin_div; [fin| |lra]. apply fin_mul; [fin|apply fin_pow; auto]. }
  set (xs := ndiv _ (nmul (Fin 4) (npow xr 3))) in *.
  assert (Hx : nadd (nadd (Fin 1) xs) (nsqrt (nmul xs (nadd (Fin 2) xs))) ≈ vxx e P Q).
  { apply fin_add; [fin|]. apply fin_sqrt; [fin|]. apply vss_pos; auto. }
  assert (X1 : 1 <= vxx e P Q) by (apply vxx_ge1; auto).
  destruct (nthroot1_spec 3 _ _ ltac:(lia) Hx ltac:(lra)) as (t & Ht & Pt & Et).
  assert (Nt : 0 < t).
  { destruct Pt as [|<-]; auto. simpl in Et. lra. }
  pose proof (vu_pos e P Q G t Nt) as Up.
  pose proof (vv_pos e P Q PQ G t Nt) as Vp.
  set (xt := nthroot1 3 _) in *.
  assert (Hu : nmul xr (nadd (nadd (Fin 1) xt) (ndiv (Fin 1) xt)) ≈ vu e P Q t).
  { apply fin_mul; auto. apply fin_add; [fin|]. apply fin_div; [fin|fin|lra]. }
  set (xu := nmul xr _) in *.
  assert (Hv : nsqrt (nadd (nmul xu xu) (nmul (nmul xe xe) xq)) ≈ vv e P Q t).
  { apply fin_sqrt; [fin|]. pose proof (eeQ_pos e Q PQ). nra. }
  set (xv := nsqrt (nadd (nmul xu xu) (nmul (nmul xe xe) xq))) in *.
  assert (Hw : ndiv (nmul xe (nsub (nadd xu xv) xq)) (nmul (Fin 2) xv) ≈ vw e P Q t).
  { apply fin_div; [fin|fin|lra]. }
  set (xw := ndiv (nmul xe (nsub (nadd xu xv) xq)) (nmul (Fin 2) xv)) in *.
  exists (vk e P Q t). split; [|split].
  - unfold compute_k. fold xr. fold xs. fold xt. fold xu. fold xv. fold xw.
    apply fin_sub; auto. apply fin_sqrt; [fin|]. nra.
  - apply vk_pos; auto.
  - apply vk_quartic; auto.
Qed.

(** ** equation (23) *)
(** [geod a f q w d]: what the code computes from the internal position [q] *)
Definition geod (a f : R) (q w : vec) (d : R) : Prop :=
  exists k T, 0 < k /\ 0 < T /\
    rho2 q / (a * a) * k ^ 2 + (1 - ecc2 f) * (vx q * vx q) / (a * a) * (k + ecc2 f) ^ 2
      = k ^ 2 * (k + ecc2 f) ^ 2 /\
    T * T = (k / (k + ecc2 f)) * (k / (k + ecc2 f)) * rho2 q + vx q * vx q /\
    w = V (vx q / T) (k / (k + ecc2 f) * vy q / T) (k / (k + ecc2 f) * vz q / T) /\
    d = - ((k + ecc2 f - 1) / k * T).

(** outside the central core *)
Definition outside (a f : R) (q : vec) : Prop :=
  ecc2 f * ecc2 f * (a * a) < rho2 q + (1 - ecc2 f) * (vx q * vx q).

Lemma ecc2_range f : 0 <= f < 1 -> 0 <= ecc2 f < 1.
Proof. unfold ecc2. nra. Qed.
Lemma ecc2_1f f : 1 - ecc2 f = (1 - f) * (1 - f).
Proof. unfold ecc2. ring. Qed.

Lemma eq23_spec xa xf xx xy xz a f q : xa ≈ a -> xf ≈ f ->
  xx ≈ vx q -> xy ≈ vy q -> xz ≈ vz q -> 0 < a -> 0 <= f < 1 -> outside a f q ->
  exists w d, geod a f q w d /\
    nmul (fst (fst (equation23 xa xf xx xy xz))) xx ≈ vx w /\
    nmul (snd (fst (equation23 xa xf xx xy xz))) xy ≈ vy w /\
    nmul (snd (fst (equation23 xa xf xx xy xz))) xz ≈ vz w /\
    snd (equation23 xa xf xx xy xz) ≈ d.
Proof.
  intros Ha Hf Hx Hy Hz Pa Rf G. pose proof (ecc2_range f Rf) as Re. set (e := ecc2 f) in *.
  assert (He : eccentricity2 xf ≈ e).
  { unfold eccentricity2, e, ecc2. eapply fin_eq; [fin|ring]. }
  assert (HY : nadd (nmul xy xy) (nmul xz xz) ≈ rho2 q) by (unfold rho2; fin).
  assert (HX : nmul xx xx ≈ vx q * vx q) by fin.
  assert (a2 : 0 < a * a) by nra.
  set (Q := (1 - e) * (vx q * vx q) / (a * a)).
  assert (HQ : nmul (ndiv (nsub (Fin 1) (eccentricity2 xf)) (nmul xa xa)) (nmul xx xx) ≈ Q).
  { eapply fin_eq; [apply fin_mul; [apply fin_div; [fin|fin|lra]|fin]|]. unfold Q. field. lra. }
  assert (PQ : 0 <= Q).
  { unfold Q. apply Rmult_le_pos; [nra|left; apply Rinv_0_lt_compat; auto]. }
  pose proof (rho2_pos q) as PY.
  assert (G' : e * e < rho2 q / (a * a) + Q).
  { unfold outside in G. fold e in G. unfold Q. apply Rmult_lt_reg_r with (a * a); auto.
    field_simplify; [|lra]. nra. }
  destruct (compute_k_spec _ _ _ _ _ _ _ _ Ha He HQ HY Pa (proj1 Re) PQ PY G') as (k & Hk & Pk & Ek).
  set (kk := k / (k + e)). assert (Pke : 0 < k + e) by lra.
  assert (Pkk : 0 < kk) by (apply Rmult_lt_0_compat; auto; apply Rinv_0_lt_compat; auto).
  set (T := sqrt (kk * kk * rho2 q + vx q * vx q)).
  assert (A0 : 0 < kk * kk * rho2 q + vx q * vx q).
  { destruct (Req_dec (vx q) 0) as [Z|NZ0].
    - assert (0 < rho2 q).
      { unfold outside in G. fold e in G. rewrite Z in G. nra. }
      assert (0 < kk * kk) by nra. nra.
    - assert (0 < vx q * vx q) by nra. assert (0 <= kk * kk * rho2 q) by (apply Rmult_le_pos; nra). lra. }
  assert (PT : 0 < T) by (apply sqrt_lt_R0; auto).
  unfold equation23. cbn [fst snd].
  set (xk := compute_k _ _ _ _) in *.
  assert (HR : nsqrt (nadd (nmul xy xy) (nmul xz xz)) ≈ sqrt (rho2 q)) by (apply fin_sqrt; auto).
  assert (Hd : ndiv (nmul xk (nsqrt (nadd (nmul xy xy) (nmul xz xz)))) (nadd xk (eccentricity2 xf))
               ≈ kk * sqrt (rho2 q)).
  { eapply fin_eq; [apply fin_div; [fin|fin|lra]|]. unfold kk. field. lra. }
  set (xd := ndiv (nmul xk _) _) in *.
  assert (HT : nsqrt (nadd (nmul xd xd) (nmul xx xx)) ≈ T).
  { assert (Sq : kk * sqrt (rho2 q) * (kk * sqrt (rho2 q)) = kk * kk * rho2 q).
    { rewrite <- (sqrt_sqrt (rho2 q) PY) at 3. ring. }
    unfold T. rewrite <- Sq. apply fin_sqrt; [fin|]. rewrite Sq. lra. }
  set (xT := nsqrt (nadd (nmul xd xd) (nmul xx xx))) in *.
  assert (Hxs : ndiv (Fin 1) xT ≈ 1 / T) by (apply fin_div; [fin|fin|lra]).
  assert (Hys : ndiv (nmul (ndiv (Fin 1) xT) xk) (nadd xk (eccentricity2 xf)) ≈ kk / T).
  { eapply fin_eq; [apply fin_div; [fin|fin|lra]|]. unfold kk. field. lra. }
  exists (V (vx q / T) (kk * vy q / T) (kk * vz q / T)), (- ((k + e - 1) / k * T)).
  split; [|cbn [vx vy vz]; split; [|split; [|split]]].
  - exists k, T. fold e. split; [exact Pk|]. split; [exact PT|]. split; [exact Ek|]. split; [|split; reflexivity].
    unfold T. rewrite sqrt_sqrt by (left; exact A0). reflexivity.
  - eapply fin_eq; [fin|field; lra].
  - eapply fin_eq; [fin|field; lra].
  - eapply fin_eq; [fin|field; lra].
  - apply fin_neg. apply fin_mul; [|exact HT]. apply fin_div; [fin|fin|lra].
Qed.

(** ** consequences *)
Lemma geod_unit a f q w d : geod a f q w d -> vdot w w = 1.
Proof.
  intros (k & T & Pk & PT & _ & ET & -> & _). unfold vdot; cbn [vx vy vz].
  generalize dependent (k / (k + ecc2 f)). intros kk ET.
  apply Rmult_eq_reg_r with (T * T); [|nra]. rewrite Rmult_1_l. rewrite ET at 2. unfold rho2.
  field. lra.
Qed.

Lemma geod_sound a f q w d : 0 < a -> 0 <= f < 1 -> geod a f q w d -> pint a f w d = q.
Proof.
  intros Pa Rf H. pose proof (geod_unit _ _ _ _ _ H) as U.
  destruct H as (k & T & Pk & PT & Ek & ET & Ew & Ed).
  pose proof (ecc2_range f Rf) as Re. set (e := ecc2 f) in *.
  assert (Pke : 0 < k + e) by lra.
  assert (e1 : (1 - f) * (1 - f) = 1 - e) by (unfold e; rewrite ecc2_1f; ring).
  set (kk := k / (k + e)) in *.
  assert (Dq : den f w = a * k / ((1 - f) * T)).
  { unfold den. rewrite e1.
    assert (X : vx w * vx w + rho2 w / (1 - e) = (a * k / ((1 - f) * T)) * (a * k / ((1 - f) * T))).
    { rewrite Ew. unfold rho2; cbn [vx vy vz].
      assert (K : vx q * vx q * (1 - e) + kk * kk * rho2 q = a * a * (k * k)).
      { apply Rmult_eq_reg_r with ((k + e) ^ 2 / (a * a)); [|apply Rgt_not_eq; apply Rmult_lt_0_compat; [apply pow_lt; auto|apply Rinv_0_lt_compat; nra]].
        transitivity (k ^ 2 * (k + e) ^ 2); [rewrite <- Ek; unfold kk; field; lra|field; lra]. }
      replace (a * k / ((1 - f) * T) * (a * k / ((1 - f) * T))) with (a * a * (k * k) / ((1 - f) * (1 - f) * (T * T)))
        by (field; lra).
      rewrite <- K, e1. unfold rho2. field. lra. }
    rewrite X, sqrt_sq_abs, Rabs_right; auto.
    apply Rle_ge. apply Rmult_le_pos; [nra|]. left. apply Rinv_0_lt_compat. nra. }
  assert (C : cc a f w = (1 - e) * T / k).
  { unfold cc. rewrite Dq, <- e1. field. lra. }
  unfold pint, psurf. rewrite C, e1, Ed, Ew. destruct q as [qx qy qz].
  unfold vsub, vscale; cbn [vx vy vz] in *. unfold kk. f_equal; field; lra.
Qed.

(** the transverse radius N = c / (1-e) and the bound N >= a *)
Lemma cc_sq a f w : 0 < a -> f < 1 -> vdot w w = 1 ->
  cc a f w * cc a f w * (rho2 w + (1 - ecc2 f) * (vx w * vx w)) = a * a * ((1 - ecc2 f) * (1 - ecc2 f)).
Proof.
  intros Pa Lf U. assert (Hw : w <> v0) by (apply vnorm_inv, vnorm_unit; auto).
  pose proof (den_sq f w ltac:(lra) Hw) as D. pose proof (den_pos f w ltac:(lra) Hw) as Dp.
  assert (X : rho2 w + (1 - ecc2 f) * (vx w * vx w) = (1 - ecc2 f) * (den f w * den f w)).
  { rewrite D, ecc2_1f. field. lra. }
  rewrite X. unfold cc. rewrite ecc2_1f. field. lra.
Qed.
Lemma cc_ge a f w : 0 < a -> 0 <= f < 1 -> vdot w w = 1 -> a * (1 - ecc2 f) <= cc a f w.
Proof.
  intros Pa Rf U. assert (Hw : w <> v0) by (apply vnorm_inv, vnorm_unit; auto).
  pose proof (cc_pos a f w Pa ltac:(lra) Hw) as Cp. pose proof (cc_sq a f w Pa ltac:(lra) U) as C2.
  pose proof (ecc2_range f Rf) as Re. set (e := ecc2 f) in *.
  assert (S : rho2 w + (1 - e) * (vx w * vx w) <= 1).
  { unfold vdot in U. unfold rho2. nra. }
  assert (Sp : 0 < rho2 w + (1 - e) * (vx w * vx w)).
  { destruct (Rle_lt_dec (rho2 w + (1 - e) * (vx w * vx w)) 0); auto. exfalso.
    assert (0 < a * a * ((1 - e) * (1 - e))) by (apply Rmult_lt_0_compat; nra).
    assert (0 < cc a f w * cc a f w) by nra. nra. }
  assert (0 <= a * (1 - e)) by nra.
  apply Rsqr_incr_0_var; [|lra]. unfold Rsqr.
  assert (0 < cc a f w * cc a f w) by nra. nra.
Qed.

(** the true position determines k, hence the code recovers normal and depth *)
Definition deep_ok (a f z : R) : Prop := ecc2 f <= 1 / 2 /\ z < a * (1 - 2 * ecc2 f).

Lemma deep_k a f w z : 0 < a -> 0 <= f < 1 -> vdot w w = 1 -> deep_ok a f z ->
  ecc2 f < (cc a f w - z) * (1 - ecc2 f) / cc a f w.
Proof.
  intros Pa Rf U [E2 Hz]. assert (Hw : w <> v0) by (apply vnorm_inv, vnorm_unit; auto).
  pose proof (cc_pos a f w Pa ltac:(lra) Hw) as Cp. pose proof (cc_ge a f w Pa Rf U) as Cg.
  pose proof (ecc2_range f Rf) as Re. set (e := ecc2 f) in *. set (c := cc a f w) in *.
  apply Rmult_lt_reg_r with c; auto. unfold Rdiv. rewrite Rmult_assoc, Rinv_l, Rmult_1_r by lra.
  assert (z * (1 - e) < a * (1 - 2 * e) * (1 - e)) by (apply Rmult_lt_compat_r; lra).
  assert (a * (1 - e) * (1 - 2 * e) <= c * (1 - 2 * e)) by (apply Rmult_le_compat_r; lra).
  nra.
Qed.

Section Recover.
Variables (a f z : R) (w : vec).
Hypothesis Pa : 0 < a.
Hypothesis Rf : 0 <= f < 1.
Hypothesis U : vdot w w = 1.
Hypothesis Hk : ecc2 f < (cc a f w - z) * (1 - ecc2 f) / cc a f w.
Let e := ecc2 f.
Let c := cc a f w.
Let k := (c - z) * (1 - e) / c.
Let q := pint a f w z.

Lemma rec_c : 0 < c.
Proof. apply cc_pos; auto; [lra|]. apply vnorm_inv, vnorm_unit; auto. Qed.
Lemma rec_e : 0 <= e < 1. Proof. apply ecc2_range; auto. Qed.
Lemma rec_k : e < k. Proof. exact Hk. Qed.
Lemma rec_h : 0 < c - z.
Proof.
  pose proof rec_c. pose proof rec_e. pose proof rec_k as K. unfold k in K.
  assert (0 < (c - z) * (1 - e) / c * c) by (apply Rmult_lt_0_compat; lra).
  unfold Rdiv in H1. rewrite Rmult_assoc, Rinv_l, Rmult_1_r in H1 by lra. nra.
Qed.
Lemma rec_q : q = V ((c - z) * vx w) ((c - z) * (k + e) / k * vy w) ((c - z) * (k + e) / k * vz w).
Proof.
  pose proof rec_c. pose proof rec_e. pose proof rec_k. pose proof rec_h.
  unfold q, pint, psurf. fold c. rewrite <- ecc2_1f. fold e. unfold vsub, vscale; cbn [vx vy vz].
  assert (X : (c - z) * (k + e) / k = c / (1 - e) - z).
  { unfold k. field. repeat split; try lra; try (apply Rgt_not_eq; nra). }
  rewrite X. f_equal; field; lra.
Qed.
Lemma rec_quartic : rho2 q / (a * a) * k ^ 2 + (1 - e) * (vx q * vx q) / (a * a) * (k + e) ^ 2
      = k ^ 2 * (k + e) ^ 2.
Proof.
  pose proof rec_c. pose proof rec_e. pose proof rec_k. pose proof rec_h.
  pose proof (cc_sq a f w Pa ltac:(lra) U) as C2. fold e c in C2.
  rewrite rec_q. unfold rho2 in *; cbn [vx vy vz].
  assert (X : (c - z) = k * c / (1 - e)) by (unfold k; field; lra).
  rewrite X.
  transitivity (c * c * (vy w * vy w + vz w * vz w + (1 - e) * (vx w * vx w)) * k ^ 2 * (k + e) ^ 2 / (a * a * ((1 - e) * (1 - e)))).
  - field. lra.
  - rewrite C2. field. lra.
Qed.
Lemma rec_outside : outside a f q.
Proof.
  pose proof rec_c. pose proof rec_e. pose proof rec_k. pose proof rec_h. pose proof rec_quartic as Qk.
  unfold outside. fold e.
  assert (a2 : 0 < a * a) by nra.
  set (Y := rho2 q) in *. set (X := (1 - e) * (vx q * vx q)) in *.
  assert (PY : 0 <= Y) by apply rho2_pos.
  assert (PX : 0 <= X) by (unfold X; nra).
  (* k^2 (k+e)^2 a^2 = Y k^2 + X (k+e)^2 <= (Y + X) (k+e)^2 *)
  assert (K : Y * k ^ 2 + X * (k + e) ^ 2 = a * a * (k ^ 2 * (k + e) ^ 2)).
  { rewrite <- Qk. field. lra. }
  assert (L : k ^ 2 <= (k + e) ^ 2) by (simpl; nra).
  assert (a * a * k ^ 2 <= Y + X).
  { apply Rmult_le_reg_r with ((k + e) ^ 2); [apply pow_lt; lra|].
    assert (Y * k ^ 2 <= Y * (k + e) ^ 2) by (apply Rmult_le_compat_l; auto). lra. }
  assert (e * e < k ^ 2) by (simpl; nra).
  assert (a * a * (e * e) < a * a * k ^ 2) by (apply Rmult_lt_compat_l; auto).
  lra.
Qed.
Lemma rec_unique w' z' : geod a f q w' z' -> w' = w /\ z' = z.
Proof.
  pose proof rec_c. pose proof rec_e. pose proof rec_k. pose proof rec_h as Hh.
  intros (k' & T & Pk & PT & Ek & ET & Ew & Ed). fold e in Ek, ET, Ew, Ed.
  assert (PQ0 : 0 <= (1 - e) * (vx q * vx q) / (a * a)).
  { apply Rmult_le_pos; [nra|]. left; apply Rinv_0_lt_compat; nra. }
  assert (PP0 : 0 <= rho2 q / (a * a)).
  { apply Rmult_le_pos; [apply rho2_pos|]. left; apply Rinv_0_lt_compat; nra. }
  assert (k' = k).
  { apply (quartic_unique e (rho2 q / (a * a)) ((1 - e) * (vx q * vx q) / (a * a))); auto; try lra.
    apply rec_quartic. }
  subst k'. rewrite rec_q in *. unfold rho2 in ET; cbn [vx vy vz] in *.
  assert (TT : T * T = (c - z) * (c - z)).
  { rewrite ET. transitivity ((c - z) * (c - z) * vdot w w); [unfold vdot; field; lra|rewrite U; ring]. }
  assert (ETc : T = c - z) by nra.
  split.
  - rewrite Ew, ETc. destruct w as [w0 w1 w2]; cbn [vx vy vz]. f_equal; field; lra.
  - rewrite Ed, ETc. unfold k. field. repeat split; try lra; try (apply Rgt_not_eq; nra).
Qed.
End Recover.

(** ** p_EB_E2n_EB_E *)
Lemma p2n_spec Pp n p xa xf a f R_Ee M :
  axes R_Ee M -> orthogonal M -> cols Pp n p -> xa ≈ a -> xf ≈ f -> 0 < a -> 0 <= f < 1 ->
  (forall j, (j < n)%nat -> outside a f (mulv M (p j))) ->
  exists N dep w z, p_EB_E2n_EB_E Pp xa xf R_Ee = ret (N, dep) /\
    cols N n (fun j => mulv (mT M) (w j)) /\ list1 dep n z /\
    forall j, (j < n)%nat -> geod a f (mulv M (p j)) (w j) (z j).
Proof.
  intros HR HM HP Ha Hf Pa Rf G. unfold p_EB_E2n_EB_E.
  step (default_R_axes _ _ HR) Rm HRm.
  step (dot_mat_cols _ _ _ _ _ HRm HP) pe Hpe.
  pose proof Hpe as [Spe Cpe]. rewrite Spe. unfold row. rewrite Spe.
  cbn [Nat.ltb Nat.leb]. rewrite !bind_ret. cbn [get].
  set (E := fun j => equation23 xa xf (get pe [0%nat; j]) (get pe [1%nat; j]) (get pe [2%nat; j])).
  assert (X : forall j, (j < n)%nat -> exists w d, geod a f (mulv M (p j)) w d /\
     nmul (fst (fst (E j))) (get pe [0%nat; j]) ≈ vx w /\
     nmul (snd (fst (E j))) (get pe [1%nat; j]) ≈ vy w /\
     nmul (snd (fst (E j))) (get pe [2%nat; j]) ≈ vz w /\ snd (E j) ≈ d).
  { intros j Hj. destruct (Cpe j Hj) as (x & y & z). apply eq23_spec; auto. }
  set (wf := fun j => V (fval (nmul (fst (fst (E j))) (get pe [0%nat; j])))
                        (fval (nmul (snd (fst (E j))) (get pe [1%nat; j])))
                        (fval (nmul (snd (fst (E j))) (get pe [2%nat; j])))).
  set (zf := fun j => fval (snd (E j))).
  assert (X' : forall j, (j < n)%nat -> geod a f (mulv M (p j)) (wf j) (zf j)).
  { intros j Hj. destruct (X j Hj) as (w & d & Hg & a0 & a1 & a2 & a3). unfold wf, zf.
    rewrite (fin_fval _ _ a0), (fin_fval _ _ a1), (fin_fval _ _ a2), (fin_fval _ _ a3).
    destruct w; exact Hg. }
  unfold map2. cbn [shape]. rewrite !(bshape_n_m _ _ _ (bdim_refl n)), !bind_ret.
  match goal with |- context [vstack3 ?A ?B ?C] =>
    assert (HA : list1 A n (fun j => vx (wf j)));
    [|assert (HB : list1 B n (fun j => vy (wf j)));
    [|assert (HC : list1 C n (fun j => vz (wf j)))]]
  end.
  1-3: split; [reflexivity|]; intros j Hj; cbn [get]; rewrite !bidx_1, !(cl_id n j Hj);
      destruct (X j Hj) as (w & d & _ & a0 & a1 & a2 & _); unfold wf; cbn [vx vy vz].
  - rewrite (fin_fval _ _ a0). exact a0.
  - rewrite (fin_fval _ _ a1). exact a1.
  - rewrite (fin_fval _ _ a2). exact a2.
  - step (vstack3_vals _ _ _ _ _ _ _ (list1_vals _ _ _ HA) (list1_vals _ _ _ HB) (list1_vals _ _ _ HC)) ne Hne.
    step (dot_mat_cols _ _ _ _ _ (is_mat_transpose _ _ HRm) Hne) m Hm.
    assert (Uw : forall j, (j < n)%nat -> vnorm (mulv (mT M) (wf j)) = 1).
    { intros j Hj. rewrite orthogonal_norm by (apply orthogonal_T; auto). apply vnorm_unit.
      eapply geod_unit; eauto. }
    assert (Hm' : cols m n (fun j => mulv (mT M) (wf j))).
    { eapply cols_ext; [|apply Hm]. intros j Hj. cbn beta. f_equal. }
    step (unit1_cols_nz _ _ _ Hm' (fun j Hj => vnorm_inv _ (Uw j Hj))) N HN.
    eexists N, _, wf, zf. split; [reflexivity|]. split; [|split; auto].
    + eapply cols_ext; [|apply HN]. intros j Hj. cbn beta. apply direction_of_unit; auto.
    + split; [reflexivity|]. intros j Hj. cbn [get].
      destruct (X j Hj) as (w & d & _ & _ & _ & _ & a3). unfold zf. fold (E j).
      rewrite (fin_fval _ _ a3). exact a3.
Qed.
