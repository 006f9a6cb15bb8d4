(** * C110: == of Nvector, ECEFvector and FrameE in binary64 (objects.py 142-149, 594-598, 640-643, 1215-1218) *)
From Coq Require Import ZArith Reals Lia Lra Bool Psatz List.
From Flocq Require Import Core BinarySingleNaN.
From Verif Require Import Spec LVec FTiny FZero FBase FPi FAngle FMod FDist FGreat FClose FGeod FEqual.
Import ListNotations.
Local Open Scope R_scope.

(** util.py 181-222: allclose of two arrays of the same shape, entry by entry *)
Fixpoint fallclose (a b : list float64) : bool :=
  match a, b with
  | x :: a', y :: b' => fisclose eq_rtol eq_atol false x y && fallclose a' b'
  | _, _ => true
  end.
(** a FrameE as far as == looks at it: a, f and the nine entries of R_Ee (objects.py 1215-1218; the name is not compared) *)
Record fframe := Fframe { fr_a : float64; fr_f : float64; fr_R : list float64 }.
Definition fframe_equal (p q : fframe) : bool :=
  fallclose [fr_a p] [fr_a q] && fallclose [fr_f p] [fr_f q] && fallclose (fr_R p) (fr_R q).
(** an Nvector of n positions: 3n numbers, n depths and a frame (objects.py 594-598) *)
Record fnvec := Fnvec { nv_normal : list float64; nv_z : list float64; nv_frame : fframe }.
Definition fnvec_equal (p q : fnvec) : bool :=
  fallclose (nv_normal p) (nv_normal q) && fallclose (nv_z p) (nv_z q) && fframe_equal (nv_frame p) (nv_frame q).
(** an ECEFvector or Pvector: 3n numbers and a frame (objects.py 640-643) *)
Record fpvec := Fpvec { pv_vector : list float64; pv_frame : fframe }.
Definition fpvec_equal (p q : fpvec) : bool := fallclose (pv_vector p) (pv_vector q) && fframe_equal (pv_frame p) (pv_frame q).

Lemma allclose_sym a : forall b, fallclose a b = fallclose b a.
Proof. induction a as [|x a IH]; intros [|y b]; cbn [fallclose]; auto. rewrite C83_symmetric, IH. reflexivity. Qed.
(** the answer does not depend on the order, bit for bit, NaN, infinities and zeros of either sign included *)
Theorem C110_symmetric : (forall p q, fframe_equal p q = fframe_equal q p) /\ (forall p q, fnvec_equal p q = fnvec_equal q p) /\ (forall p q, fpvec_equal p q = fpvec_equal q p).
Proof.
  assert (F : forall p q, fframe_equal p q = fframe_equal q p). { intros p q. unfold fframe_equal. rewrite (allclose_sym [fr_a p]), (allclose_sym [fr_f p]), (allclose_sym (fr_R p)). reflexivity. }
  split; auto. split; intros p q.
  - unfold fnvec_equal. rewrite (allclose_sym (nv_normal p)), (allclose_sym (nv_z p)), F. reflexivity.
  - unfold fpvec_equal. rewrite (allclose_sym (pv_vector p)), F. reflexivity.
Qed.
Definition no_nan (l : list float64) : bool := forallb (fun x => negb (is_nan x)) l.
Definition frame_no_nan (p : fframe) : bool := no_nan [fr_a p] && no_nan [fr_f p] && no_nan (fr_R p).
Lemma allclose_refl a : fallclose a a = no_nan a.
Proof.
  induction a as [|x a IH]; [reflexivity|]. cbn [fallclose no_nan forallb]. rewrite IH, C83_reflexive; try reflexivity;
  [rewrite orb_false_r; reflexivity|unfold eq_atol, f, B2R, F2R; cbn; lra|unfold eq_rtol, f, B2R, F2R; cbn; lra].
Qed.
(** an object equals another one with the same numbers if and only if there is no NaN among them *)
Theorem C110_reflexive : (forall p, fframe_equal p p = frame_no_nan p) /\ (forall p, fnvec_equal p p = no_nan (nv_normal p) && no_nan (nv_z p) && frame_no_nan (nv_frame p)) /\
  (forall p, fpvec_equal p p = no_nan (pv_vector p) && frame_no_nan (pv_frame p)).
Proof.
  assert (F : forall p, fframe_equal p p = frame_no_nan p). { intros p. unfold fframe_equal, frame_no_nan. rewrite !allclose_refl. reflexivity. }
  split; auto. split; intros p; [unfold fnvec_equal|unfold fpvec_equal]; rewrite !allclose_refl, F; reflexivity.
Qed.

(** one pair of numbers *)
Lemma close_bound x y : moderate x -> moderate y ->
  (fisclose eq_rtol eq_atol false x y = true -> Rabs (B2R x - B2R y) <= 1001 / 1000 * (/ 1000000000000 * Rabs (B2R x) + / 100000000000000)) /\
  (Rabs (B2R x - B2R y) <= 999 / 1000 * Rmax (/ 1000000000000 * Rabs (B2R x)) (/ 100000000000000) -> fisclose eq_rtol eq_atol false x y = true).
Proof.
  intros (Fx & Bx) (Fy & By). assert (R1 : Rabs (B2R eq_rtol - / 1000000000000) <= / 1000000000000 * (/ 1000000)) by (unfold eq_rtol, f, B2R, F2R; cbn; apply Rabs_le; lra).
  assert (R2 : Rabs (B2R eq_atol - / 100000000000000) <= / 100000000000000 * (/ 1000000)) by (unfold eq_atol, f, B2R, F2R; cbn; apply Rabs_le; lra). apply Rabs_le_inv in R1. apply Rabs_le_inv in R2.
  assert (Big : 1 <= bpow radix2 1000) by (change 1 with (bpow radix2 0); apply bpow_le; lia).
  destruct (C83_decision eq_rtol eq_atol false x y Fx Fy eq_refl eq_refl Bx By ltac:(lra) ltac:(lra)) as (A & B).
  pose proof u_pos as Pu. pose proof u_small as Su. pose proof eta_pos as Pe.
  assert (ET : 2 * eta <= / 100000000000000 * (/ 1000000)). { unfold eta. apply Rle_trans with (2 * bpow radix2 (-70)); [apply Rmult_le_compat_l; [lra|apply bpow_le; lia]|cbn; lra]. }
  set (X := Rabs (B2R x)) in *. set (Y := Rabs (B2R y)) in *. set (D := Rabs (B2R x - B2R y)) in *. assert (PX : 0 <= X) by apply Rabs_pos. assert (PY : 0 <= Y) by apply Rabs_pos. assert (PD : 0 <= D) by apply Rabs_pos.
  assert (YX : Y <= X + D). { pose proof (Rabs_triang (B2R x) (- (B2R x - B2R y))) as TR. rewrite Rabs_Ropp in TR. replace (B2R x + - (B2R x - B2R y)) with (B2R y) in TR by ring. exact TR. }
  set (M := Rmax X Y) in *. assert (MX : X <= M) by apply Rmax_l. assert (MU : M <= X + D) by (apply Rmax_lub; lra).
  set (r := B2R eq_rtol) in *. set (t := B2R eq_atol) in *. set (T := Rmax t (r * M)) in *.
  assert (rM : r * M <= / 1000000000000 * (1000001 / 1000000) * (X + D)). { apply Rmult_le_compat; lra. }
  assert (rL : / 1000000000000 * (999999 / 1000000) * X <= r * M). { apply Rmult_le_compat; lra. }
  split.
  - intros H. specialize (A H). assert (TU : T <= / 1000000000000 * (1000001 / 1000000) * (X + D) + / 100000000000000 * (1000001 / 1000000)) by (unfold T; apply Rmax_lub; lra).
    assert (T * (1 + 3 * u) <= (/ 1000000000000 * (1000001 / 1000000) * (X + D) + / 100000000000000 * (1000001 / 1000000)) * (1000001 / 1000000)).
    { apply Rmult_le_compat; try lra. unfold T. eapply Rle_trans; [|apply Rmax_l]. lra. }
    lra.
  - intros H. apply B. assert (TL1 : t <= T) by apply Rmax_l. assert (TL2 : r * M <= T) by apply Rmax_r.
    assert (TT : T * (999999 / 1000000) <= T * (1 - 3 * u)) by (apply Rmult_le_compat_l; lra). revert H. unfold Rmax. destruct (Rle_dec _ _); intros; lra.
Qed.
(** what == says about where two positions are: [p == q] puts them within 1e-12 of their length (6.4 micrometres on the surface of the Earth), and positions within 1e-14 are == *)
Theorem C110_decision : forall p0 p1 p2 q0 q1 q2, moderate p0 -> moderate p1 -> moderate p2 -> moderate q0 -> moderate q1 -> moderate q2 ->
  let p := vec_of (p0, p1, p2) in let q := vec_of (q0, q1, q2) in
  (fallclose [p0; p1; p2] [q0; q1; q2] = true -> vnorm (vsub p q) <= 1001 / 1000 * (/ 1000000000000 * vnorm p + 174 / 100 * / 100000000000000)) /\
  (vnorm (vsub p q) <= 999 / 1000 * / 100000000000000 -> fallclose [p0; p1; p2] [q0; q1; q2] = true).
Proof.
  intros p0 p1 p2 q0 q1 q2 P0 P1 P2 Q0 Q1 Q2 p q. destruct (close_bound p0 q0 P0 Q0) as (A0 & B0). destruct (close_bound p1 q1 P1 Q1) as (A1 & B1). destruct (close_bound p2 q2 P2 Q2) as (A2 & B2).
  cbn [fallclose]. rewrite andb_true_r. split.
  - intros H. apply andb_prop in H. destruct H as (H0 & H). apply andb_prop in H. destruct H as (H1 & H2). specialize (A0 H0). specialize (A1 H1). specialize (A2 H2).
    set (w := V (Rabs (vx p)) (Rabs (vy p)) (Rabs (vz p))). set (o := V 1 1 1).
    assert (W : vnorm w = vnorm p). { unfold vnorm. f_equal. unfold w, vdot; cbn [Spec.vx Spec.vy Spec.vz]. rewrite <- !Rabs_mult, !Rabs_right by nra. reflexivity. }
    assert (O : vnorm o <= 174 / 100). { unfold vnorm, o, vdot; cbn [Spec.vx Spec.vy Spec.vz]. rewrite <- (sqrt_square (174 / 100)) by lra. apply sqrt_le_1_alt. lra. }
    apply Rle_trans with (vnorm (vscale (1001 / 1000) (vadd (vscale (/ 1000000000000) w) (vscale (/ 100000000000000) o)))).
    + apply norm_le_comp; [change (Rabs (B2R p0 - B2R q0) <= 1001 / 1000 * (/ 1000000000000 * Rabs (B2R p0) + / 100000000000000 * 1)); lra | change (Rabs (B2R p1 - B2R q1) <= 1001 / 1000 * (/ 1000000000000 * Rabs (B2R p1) + / 100000000000000 * 1)); lra | change (Rabs (B2R p2 - B2R q2) <= 1001 / 1000 * (/ 1000000000000 * Rabs (B2R p2) + / 100000000000000 * 1)); lra].
    + rewrite vnorm_scale, Rabs_right by lra. apply Rmult_le_compat_l; [lra|]. eapply Rle_trans; [apply norm_triangle|]. rewrite !vnorm_scale, !Rabs_right, W by lra. lra.
  - intros H. assert (C : forall a b c, Rabs a <= vnorm (V a b c) /\ Rabs b <= vnorm (V a b c) /\ Rabs c <= vnorm (V a b c)).
    { intros a b c. unfold vnorm, vdot; cbn [Spec.vx Spec.vy Spec.vz]. repeat split; rewrite <- sqrt_Rsqr_abs; apply sqrt_le_1_alt; unfold Rsqr; nra. }
    destruct (C (B2R p0 - B2R q0) (B2R p1 - B2R q1) (B2R p2 - B2R q2)) as (C0 & C1 & C2). change (V (B2R p0 - B2R q0) (B2R p1 - B2R q1) (B2R p2 - B2R q2)) with (vsub p q) in *.
    assert (L : forall x : float64, 999 / 1000 * / 100000000000000 <= 999 / 1000 * Rmax (/ 1000000000000 * Rabs (B2R x)) (/ 100000000000000)) by (intros; apply Rmult_le_compat_l; [lra|apply Rmax_r]).
    pose proof (L p0). pose proof (L p1). pose proof (L p2). rewrite B0, B1, B2 by lra. reflexivity.
Qed.
(** frames that are == have semi-major axes within 1e-12 relative, flattenings within 1e-12 relative or 1e-14, and R_Ee within the same *)
Theorem C110_frame : forall a1 f1 R1 a2 f2 R2, moderate a1 -> moderate f1 -> moderate a2 -> moderate f2 -> Forall moderate R1 -> Forall moderate R2 -> length R1 = length R2 ->
  let near (x y : float64) := Rabs (B2R x - B2R y) <= 1001 / 1000 * (/ 1000000000000 * Rabs (B2R x) + / 100000000000000) in
  let same (x y : float64) := Rabs (B2R x - B2R y) <= 999 / 1000 * Rmax (/ 1000000000000 * Rabs (B2R x)) (/ 100000000000000) in
  (fframe_equal (Fframe a1 f1 R1) (Fframe a2 f2 R2) = true -> near a1 a2 /\ near f1 f2 /\ Forall2 near R1 R2) /\
  (same a1 a2 -> same f1 f2 -> Forall2 same R1 R2 -> fframe_equal (Fframe a1 f1 R1) (Fframe a2 f2 R2) = true).
Proof.
  intros a1 f1 R1 a2 f2 R2 Ma1 Mf1 Ma2 Mf2 MR1 MR2 L near same. unfold fframe_equal. cbn [fr_a fr_f fr_R fallclose]. rewrite !andb_true_r.
  destruct (close_bound a1 a2 Ma1 Ma2) as (A1 & A2). destruct (close_bound f1 f2 Mf1 Mf2) as (F1 & F2). split.
  - intros H. apply andb_prop in H. destruct H as (H & HR). apply andb_prop in H. destruct H as (HA & HF). split; [apply A1; auto|split; [apply F1; auto|]].
    clear - MR1 MR2 L HR. revert R2 MR2 L HR. induction R1 as [|x R1 IH]; intros [|y R2] MR2 L HR; try discriminate; constructor; cbn [fallclose] in HR; apply andb_prop in HR; destruct HR as (H1 & H2); inversion MR1; inversion MR2; subst.
    + apply (proj1 (close_bound x y ltac:(auto) ltac:(auto))); auto.
    + apply IH; auto.
  - intros HA HF HR. rewrite A2, F2 by auto. cbn [andb]. clear - MR1 MR2 HR. induction HR as [|x y R1 R2 H HR IH]; [reflexivity|]. inversion MR1; inversion MR2; subst. cbn [fallclose]. rewrite IH by auto.
    rewrite (proj2 (close_bound x y ltac:(auto) ltac:(auto))) by auto. reflexivity.
Qed.

(** two frames a micrometre apart in the semi-major axis are ==, 10 micrometres apart they are not; the WGS84 and GRS80 flattenings differ; the name plays no part *)
Definition ell (a_ f_ : float64) : fframe := Fframe a_ f_ [B754_zero false; B754_zero false; f 4503599627370496 (-52) eq_refl; B754_zero false; f 4503599627370496 (-52) eq_refl; B754_zero false; fneg (f 4503599627370496 (-52) eq_refl); B754_zero false; B754_zero false].
Example C110_example :
  let a0 := f 6848472456101888 (-30) eq_refl in let wgs := f 7731055032525096 (-61) eq_refl in
  fframe_equal (ell a0 wgs) (ell (f 6848472456102962 (-30) eq_refl) wgs) = true /\ fframe_equal (ell a0 wgs) (ell (f 6848472456112625 (-30) eq_refl) wgs) = false /\
  fframe_equal (ell a0 wgs) (ell a0 (f 7731055070421253 (-61) eq_refl)) = false /\ moderate a0 /\ moderate wgs /\
  fnvec_equal (Fnvec [B754_zero false; B754_zero false; f 4503599627370496 (-52) eq_refl] [a0] (ell a0 wgs)) (Fnvec [B754_zero true; B754_zero false; f 4503599627370497 (-52) eq_refl] [a0] (ell a0 wgs)) = true /\
  fpvec_equal (Fpvec [B754_nan; a0; a0] (ell a0 wgs)) (Fpvec [B754_nan; a0; a0] (ell a0 wgs)) = false.
Proof.
  cbv zeta. assert (B : 8388608 <= bpow radix2 1000). { apply Rle_trans with (bpow radix2 23); [cbn; lra|apply bpow_le; lia]. }
  split; [vm_compute; reflexivity|]. split; [vm_compute; reflexivity|]. split; [vm_compute; reflexivity|].
  split; [split; [reflexivity|]; eapply Rle_trans; [|exact B]; unfold f, B2R, F2R; cbn; rewrite Rabs_right; lra|].
  split; [split; [reflexivity|]; eapply Rle_trans; [|exact B]; unfold f, B2R, F2R; cbn; rewrite Rabs_right; lra|].
  split; vm_compute; reflexivity.
Qed.
