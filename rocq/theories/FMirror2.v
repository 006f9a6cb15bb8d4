(** * C100: exact symmetries in binary64, the theorems *)
From Coq Require Import ZArith Reals Lra Lia Bool Psatz.
From Flocq Require Import Core BinarySingleNaN Relative Operations.
From Verif Require Import Spec LVec LAngle LCircle PTrack FTiny FZero FBase FRel FRel2 FUnit FPi FAngle FDist FGreat FTrack FLatLon FInv FEcef FEcef2 FNed FNed2 FNed3 FDelta FDelta2 FPoint FMirror.
Local Open Scope R_scope.

(** mirror image: the components whose flag is set change sign *)
Definition flags : Type := (bool * bool * bool)%type.
Definition mirror (m : flags) (a : vec64) : vec64 := let '(s0, s1, s2) := m in let '(x, y, z) := a in (sg s0 x, sg s1 y, sg s2 z).
(** equal components, up to the signs of zeros *)
Definition eqv (a b : vec64) : Prop := let '(x, y, z) := a in let '(x', y', z') := b in eqz x x' /\ eqz y y' /\ eqz z z'.
(** the number of mirrored axes is odd *)
Definition odd (m : flags) : bool := let '(s0, s1, s2) := m in xorb s0 (xorb s1 s2).
Definition flip (s : bool) (m : flags) : flags := let '(s0, s1, s2) := m in (xorb s s0, xorb s s1, xorb s s2).

Lemma eqv_refl a : eqv a a. Proof. destruct a as [[x y] z]. repeat split; apply eqz_refl. Qed.
Lemma eqv_trans a b c : eqv a b -> eqv b c -> eqv a c.
Proof. destruct a as [[? ?] ?], b as [[? ?] ?], c as [[? ?] ?]. intros (A & B & C) (D & E & F). repeat split; eapply eqz_trans; eauto. Qed.
Lemma cross_pm m a a' b b' : eqv a (mirror m a') -> eqv b (mirror m b') -> eqv (fcross a b) (mirror (flip (odd m) m) (fcross a' b')).
Proof.
  destruct m as [[s0 s1] s2], a as [[a0 a1] a2], a' as [[c0 c1] c2], b as [[b0 b1] b2], b' as [[d0 d1] d2]. intros (A0 & A1 & A2) (B0 & B1 & B2).
  cbn [mirror flip odd fcross eqv].
  replace (xorb (xorb s0 (xorb s1 s2)) s0) with (xorb s1 s2) by (destruct s0, s1, s2; reflexivity).
  replace (xorb (xorb s0 (xorb s1 s2)) s1) with (xorb s0 s2) by (destruct s0, s1, s2; reflexivity).
  replace (xorb (xorb s0 (xorb s1 s2)) s2) with (xorb s0 s1) by (destruct s0, s1, s2; reflexivity).
  split; [|split]; apply sub_pm; try (apply mul_pm; assumption); rewrite xorb_comm; apply mul_pm; assumption.
Qed.
Lemma norm_pm m a a' : eqv a (mirror m a') -> fnorm a = fnorm a'.
Proof.
  destruct m as [[s0 s1] s2], a as [[a0 a1] a2], a' as [[c0 c1] c2]. intros (A0 & A1 & A2). unfold fnorm, norm3.
  rewrite (sq_pm _ _ _ A0), (sq_pm _ _ _ A1), (sq_pm _ _ _ A2). reflexivity.
Qed.
Lemma unit_pm m a a' : eqv a (mirror m a') -> eqv (unit64 a) (mirror m (unit64 a')).
Proof.
  intros H. pose proof (norm_pm m a a' H) as N. destruct m as [[s0 s1] s2], a as [[a0 a1] a2], a' as [[c0 c1] c2]. destruct H as (A0 & A1 & A2).
  unfold fnorm in N. cbn [unit64 mirror eqv]. unfold unit_entry. rewrite N. repeat split; apply div_pm; auto.
Qed.
Lemma subv_pm m a a' b b' : eqv a (mirror m a') -> eqv b (mirror m b') -> eqv (fsubv a b) (mirror m (fsubv a' b')).
Proof.
  destruct m as [[s0 s1] s2], a as [[a0 a1] a2], a' as [[c0 c1] c2], b as [[b0 b1] b2], b' as [[d0 d1] d2]. intros (A0 & A1 & A2) (B0 & B1 & B2).
  cbn. repeat split; apply sub_pm; auto.
Qed.

(** What is used of the inner product: it does not see common changes of sign of a pair of components, and a change of sign of one
    factor changes its sign.  Sums of the three products have these properties in any order and with fused operations. *)
Definition mirror_dot (dot : vec64 -> vec64 -> float64) : Prop := forall m a b, dot (mirror m a) (mirror m b) = dot a b.
Definition signed_dot (dot : vec64 -> vec64 -> float64) : Prop :=
  forall s m a a' b b', eqv a (mirror m a') -> eqv b (mirror (flip s m) b') -> eqz (dot a b) (sg s (dot a' b')).
Lemma dot_seq_mirror : mirror_dot dot_seq.
Proof.
  intros [[s0 s1] s2] [[a0 a1] a2] [[b0 b1] b2]. unfold dot_seq, mirror. rewrite !mul_sg, !xorb_nilpotent. reflexivity.
Qed.
Lemma dot_seq_signed : signed_dot dot_seq.
Proof.
  intros s [[s0 s1] s2] [[a0 a1] a2] [[c0 c1] c2] [[b0 b1] b2] [[d0 d1] d2] (A0 & A1 & A2) (B0 & B1 & B2). unfold dot_seq.
  assert (X : forall t, s = xorb t (xorb s t)) by (intros []; destruct s; reflexivity).
  apply add_pm; [apply add_pm|]; [rewrite (X s0)|rewrite (X s1)|rewrite (X s2)]; apply mul_pm; auto.
Qed.
Lemma ffma_neg x y z : ffma (fneg x) (fneg y) z = ffma x y z.
Proof.
  unfold ffma, Bfma. destruct x as [s|s| |s m e H], y as [t|t| |t m' e' H']; try reflexivity;
    destruct z as [w|w| |w mz ez Hz]; try reflexivity; unfold Bfma_szero, Fmult, fneg; cbn [Bopp Bsign Fnum Fexp];
    try (replace (xorb (negb s) (negb t)) with (xorb s t) by (destruct s, t; reflexivity); try reflexivity);
    replace (cond_Zopp (negb s) (Z.pos m) * cond_Zopp (negb t) (Z.pos m'))%Z with (cond_Zopp s (Z.pos m) * cond_Zopp t (Z.pos m'))%Z by (destruct s, t; cbn [cond_Zopp negb]; lia); reflexivity.
Qed.
Lemma dot_fma_mirror : mirror_dot dot_fma.
Proof.
  intros [[s0 s1] s2] [[a0 a1] a2] [[b0 b1] b2]. unfold dot_fma, mirror. rewrite !mul_sg, !xorb_nilpotent. destruct s1, s2; cbn [sg]; rewrite ?ffma_neg; reflexivity.
Qed.

(** ** distances *)
Theorem C100_distance_of_mirror_images : forall dot arctan2 m a b radius, mirror_dot dot ->
  fgreat_circle_distance dot arctan2 (mirror m a) (mirror m b) radius = fgreat_circle_distance dot arctan2 a b radius.
Proof.
  intros dot arctan2 m a b radius D. unfold fgreat_circle_distance. rewrite D. f_equal. f_equal.
  apply (norm_pm (flip (odd m) m)). apply cross_pm; apply eqv_refl.
Qed.
Theorem C100_chord_of_mirror_images : forall m a b radius, feuclidean_distance (mirror m a) (mirror m b) radius = feuclidean_distance a b radius.
Proof. intros m a b radius. unfold feuclidean_distance. f_equal. apply (norm_pm m). apply subv_pm; apply eqv_refl. Qed.

(** ** positions *)
Lemma pick_pm (r0 r1 r2 : float64) (i : nat) m a a' : eqv a (mirror m a') ->
  (match i with 0%nat => is_zero_f r1 = true /\ is_zero_f r2 = true | 1%nat => is_zero_f r0 = true /\ is_zero_f r2 = true | _ => is_zero_f r0 = true /\ is_zero_f r1 = true end) ->
  eqz (fdot3 (r0, r1, r2) a) (sg (let '(s0, s1, s2) := m in match i with 0%nat => s0 | 1%nat => s1 | _ => s2 end) (fdot3 (r0, r1, r2) a')).
Proof.
  destruct m as [[s0 s1] s2], a as [[a0 a1] a2], a' as [[c0 c1] c2]. intros (A0 & A1 & A2) H.
  assert (Z : forall r x x' s t, is_zero_f r = true -> eqz x (sg s x') -> eqz (fmul r x) (sg t (fmul r x'))).
  { intros r x x' s t Hr Hx. apply eqz_trans with (sg s (fmul r x')); [rewrite <- (xorb_false_l s); apply mul_pm; [apply eqz_refl|auto]|].
    destruct r as [k| | |]; try discriminate. destruct x'; cbn; destruct s, t; cbn; (left; reflexivity) || (right; auto). }
  assert (N : forall r x x' s, eqz x (sg s x') -> eqz (fmul r x) (sg s (fmul r x'))). { intros r x x' s Hx. rewrite <- (xorb_false_l s). apply mul_pm; [apply eqz_refl|auto]. }
  unfold fdot3, dot_seq. destruct i as [|[|i]]; destruct H as (H1 & H2); (apply add_pm; [apply add_pm|]); eauto.
Qed.
(** odd and even functions, up to the sign of zero: what is used of the C library's sin, arcsin and cos *)
Definition odd_function (g : float64 -> float64) : Prop := (forall x, eqz (g (fneg x)) (fneg (g x))) /\ (forall x, is_zero_f x = true -> is_zero_f (g x) = true).
Definition even_function (g : float64 -> float64) : Prop := forall x, g (fneg x) = g x.
Lemma odd_pm g s x x' : odd_function g -> eqz x (sg s x') -> eqz (g x) (sg s (g x')).
Proof.
  intros (O & Z) [->|(A & B)]; [destruct s; cbn [sg]; [apply O|apply eqz_refl]|]. rewrite is_zero_sg in B. right. rewrite is_zero_sg. auto.
Qed.
Lemma latlon_south fsin fcos lat lon : odd_function fsin -> even_function fcos ->
  eqv (flat_lon2n_E fsin fcos (fneg lat) lon) (mirror (false, false, true) (flat_lon2n_E fsin fcos lat lon)).
Proof.
  intros OS EC. unfold flat_lon2n_E. rewrite EC.
  assert (E : eqv (fsin (fneg lat), fmul (fsin lon) (fcos lat), fmul (fneg (fcos lon)) (fcos lat)) (mirror (true, false, false) (fsin lat, fmul (fsin lon) (fcos lat), fmul (fneg (fcos lon)) (fcos lat)))) by (split; [apply (odd_pm fsin true); auto; apply eqz_refl|split; apply eqz_refl]).
  split; [|split]; [apply (pick_pm _ _ _ 2 _ _ _ E); auto|apply (pick_pm _ _ _ 1 _ _ _ E); auto|apply (pick_pm _ _ _ 0 _ _ _ E); auto].
Qed.
Lemma latlon_west fsin fcos lat lon : odd_function fsin -> even_function fcos ->
  eqv (flat_lon2n_E fsin fcos lat (fneg lon)) (mirror (false, true, false) (flat_lon2n_E fsin fcos lat lon)).
Proof.
  intros OS EC. unfold flat_lon2n_E. rewrite EC.
  assert (E : eqv (fsin lat, fmul (fsin (fneg lon)) (fcos lat), fmul (fneg (fcos lon)) (fcos lat)) (mirror (false, true, false) (fsin lat, fmul (fsin lon) (fcos lat), fmul (fneg (fcos lon)) (fcos lat)))) by (split; [apply eqz_refl|split; [|apply eqz_refl]]; apply (mul_pm true false); [apply (odd_pm fsin true); auto; apply eqz_refl|apply eqz_refl]).
  split; [|split]; [apply (pick_pm _ _ _ 2 _ _ _ E); auto|apply (pick_pm _ _ _ 1 _ _ _ E); auto|apply (pick_pm _ _ _ 0 _ _ _ E); auto].
Qed.
(** The n-vector of the mirror image of a position at the equator, or at the zero meridian, is the mirror image of its n-vector. *)
Theorem C100_n_vector_of_mirror_images : forall fsin fcos lat lon, odd_function fsin -> even_function fcos ->
  eqv (flat_lon2n_E fsin fcos (fneg lat) lon) (mirror (false, false, true) (flat_lon2n_E fsin fcos lat lon)) /\
  eqv (flat_lon2n_E fsin fcos lat (fneg lon)) (mirror (false, true, false) (flat_lon2n_E fsin fcos lat lon)).
Proof. intros fsin fcos lat lon OS EC. split; [apply latlon_south|apply latlon_west]; auto. Qed.

Theorem C100_ecef_of_mirror_images : forall m n depth a f, eqv (fn_EB_E2p_EB_E (mirror m n) depth a f) (mirror m (fn_EB_E2p_EB_E n depth a f)).
Proof.
  intros [[s0 s1] s2] n depth a f. unfold fn_EB_E2p_EB_E.
  assert (E : eqv (mirror (s0, s1, s2) n) (mirror (s0, s1, s2) n)) by apply eqv_refl.
  pose proof (pick_pm fzero fzero fone 2 _ _ _ E (conj eq_refl eq_refl)) as E2. pose proof (pick_pm fzero fone fzero 1 _ _ _ E (conj eq_refl eq_refl)) as E1.
  pose proof (pick_pm (fneg fone) fzero fzero 0 _ _ _ E (conj eq_refl eq_refl)) as E0. cbv beta iota zeta in E0, E1, E2.
  set (N := mirror (s0, s1, s2) n) in *.
  assert (EN : eqv (fdot3 (fzero, fzero, fone) N, fdot3 (fzero, fone, fzero) N, fdot3 (fneg fone, fzero, fzero) N)
    (mirror (s2, s1, s0) (fdot3 (fzero, fzero, fone) n, fdot3 (fzero, fone, fzero) n, fdot3 (fneg fone, fzero, fzero) n))) by (repeat split; auto).
  apply unit_pm in EN. destruct (unit64 (fdot3 (fzero, fzero, fone) N, _, _)) as [[e0 e1] e2]. destruct (unit64 (fdot3 (fzero, fzero, fone) n, _, _)) as [[g0 g1] g2].
  destruct EN as (G0 & G1 & G2). set (s := fsub fone f). set (b := fmul a s).
  assert (D : norm3 (fdiv e0 fone) (fdiv e1 s) (fdiv e2 s) = norm3 (fdiv g0 fone) (fdiv g1 s) (fdiv g2 s)).
  { apply (norm_pm (s2, s1, s0) (fdiv e0 fone, fdiv e1 s, fdiv e2 s) (fdiv g0 fone, fdiv g1 s, fdiv g2 s)). repeat split; apply div_pm; auto. }
  rewrite D. set (k := fdiv b _).
  assert (NM : forall t r x x', eqz x (sg t x') -> eqz (fmul r x) (sg t (fmul r x'))). { intros t r x x' Hx. rewrite <- (xorb_false_l t). apply mul_pm; [apply eqz_refl|auto]. }
  assert (NM' : forall t r x x', eqz x (sg t x') -> eqz (fmul x r) (sg t (fmul x' r))). { intros t r x x' Hx. rewrite (fmul_comm x), (fmul_comm x'). apply NM. auto. }
  assert (EQ : eqv (fsub (fdiv (fmul k e0) (fmul fone fone)) (fmul e0 depth), fsub (fdiv (fmul k e1) (fmul s s)) (fmul e1 depth), fsub (fdiv (fmul k e2) (fmul s s)) (fmul e2 depth))
     (mirror (s2, s1, s0) (fsub (fdiv (fmul k g0) (fmul fone fone)) (fmul g0 depth), fsub (fdiv (fmul k g1) (fmul s s)) (fmul g1 depth), fsub (fdiv (fmul k g2) (fmul s s)) (fmul g2 depth)))).
  { split; [|split]; (apply sub_pm; [apply div_pm, NM; auto|apply NM'; auto]). }
  split; [|split]; [apply (pick_pm _ _ _ 2 _ _ _ EQ); auto|apply (pick_pm _ _ _ 1 _ _ _ EQ); auto|apply (pick_pm _ _ _ 0 _ _ _ EQ); auto].
Qed.
Theorem C100_delta_of_mirror_images : forall m nA nB zA zB a f, eqv (fdelta_E (mirror m nA) (mirror m nB) zA zB a f) (mirror m (fdelta_E nA nB zA zB a f)).
Proof. intros m nA nB zA zB a f. unfold fdelta_E. apply subv_pm; apply C100_ecef_of_mirror_images. Qed.

(** ** paths *)
Lemma normal_pm m a b : eqv (fnormal (mirror m a) (mirror m b)) (mirror (flip (odd m) m) (fnormal a b)).
Proof. unfold fnormal. apply unit_pm, cross_pm; apply eqv_refl. Qed.
Lemma cross_swap a b : eqv (fcross b a) (mirror (true, true, true) (fcross a b)).
Proof.
  destruct a as [[a0 a1] a2], b as [[b0 b1] b2]. cbn [fcross mirror eqv]. rewrite (fmul_comm b1 a2), (fmul_comm b2 a1), (fmul_comm b2 a0), (fmul_comm b0 a2), (fmul_comm b0 a1), (fmul_comm b1 a0).
  repeat split; apply sub_swap.
Qed.
Lemma normal_swap a b : eqv (fnormal b a) (mirror (true, true, true) (fnormal a b)). Proof. unfold fnormal. apply unit_pm, cross_swap. Qed.
Lemma pm_weaken s (x x' : float64) : eqz x (sg s x') -> eqz (fneg x) (sg s (fneg x')).
Proof. intros H. apply eqz_neg in H. eapply eqz_trans; [exact H|]. left. destruct s; reflexivity. Qed.
Lemma mul_r_pm s x x' r : eqz x (sg s x') -> eqz (fmul x r) (sg s (fmul x' r)).
Proof. intros H. rewrite <- (xorb_false_r s). apply mul_pm; [exact H|apply eqz_refl]. Qed.
(** The cross-track distance of the mirror image has the other sign for one or three mirrored axes, and the same for two. *)
Theorem C100_cross_track_of_mirror_images : forall dot arcsin m a b q radius, signed_dot dot -> odd_function arcsin ->
  eqz (fcross_track_distance dot arcsin (mirror m a) (mirror m b) (mirror m q) radius) (sg (odd m) (fcross_track_distance dot arcsin a b q radius)).
Proof.
  intros dot arcsin m a b q radius D O. unfold fcross_track_distance, fsin_theta. apply mul_r_pm, odd_pm, pm_weaken; auto.
  apply (D (odd m) (flip (odd m) m)); [apply normal_pm|].
  replace (flip (odd m) (flip (odd m) m)) with m by (destruct m as [[[] []] []]; reflexivity). apply eqv_refl.
Qed.
(** From B to A instead of from A to B: the same number with the other sign. *)
Theorem C100_cross_track_of_reversed_path : forall dot arcsin a b q radius, signed_dot dot -> odd_function arcsin ->
  eqz (fcross_track_distance dot arcsin b a q radius) (fneg (fcross_track_distance dot arcsin a b q radius)).
Proof.
  intros dot arcsin a b q radius D O. unfold fcross_track_distance, fsin_theta. change (fneg (fmul ?x radius)) with (sg true (fmul x radius)). apply mul_r_pm, odd_pm, pm_weaken; auto.
  apply (D true (true, true, true)); [apply normal_swap|]. destruct q as [[x y] z]. repeat split; apply eqz_refl.
Qed.
(** ... and the same closest point. *)
Lemma sign_eqz x y : eqz x y -> eqz (fsign x) (fsign y).
Proof.
  intros [->|(A & B)]; [apply eqz_refl|]. destruct x, y; try discriminate. apply eqz_refl.
Qed.
Lemma scalev_eqv o o' a a' : eqz o o' -> eqv a a' -> eqv (FInterp.fscalev o a) (FInterp.fscalev o' a').
Proof. destruct a as [[x y] z], a' as [[x' y'] z']. intros H (A & B & C). cbn. repeat split; apply mul_eqz; auto. Qed.
Lemma mirror0 a : mirror (false, false, false) a = a. Proof. destruct a as [[x y] z]. reflexivity. Qed.
Theorem C100_closest_point_of_reversed_path : forall dot a b q, signed_dot dot -> eqv (fclosest dot b a q) (fclosest dot a b q).
Proof.
  intros dot a b q D. unfold fclosest. set (c := fnormal a b). set (c' := fnormal b a). pose proof (normal_swap a b) as N. fold c c' in N.
  assert (C2 : eqv (fcross q c') (mirror (true, true, true) (fcross q c))).
  { destruct q as [[q0 q1] q2], c as [[c0 c1] c2], c' as [[d0 d1] d2]. destruct N as (N0 & N1 & N2). cbn [fcross mirror eqv]. repeat split; apply sub_pm; change true with (xorb false true); apply mul_pm; auto; apply eqz_refl. }
  pose proof (cross_pm _ _ _ _ _ N C2) as C3. cbn [flip odd xorb] in C3. apply unit_pm in C3. 
  set (n := unit64 (fcross c (fcross q c))) in *. set (n' := unit64 (fcross c' (fcross q c'))) in *. rewrite mirror0 in C3. apply scalev_eqv; auto. apply sign_eqz.
  apply (D false (false, false, false)); [rewrite mirror0; auto|]. cbn [flip xorb]. rewrite mirror0. apply eqv_refl.
Qed.
