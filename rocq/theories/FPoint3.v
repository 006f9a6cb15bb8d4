(** * C98: crossings that are a quarter turn away from the start of the first path, in binary64 *)
From Coq Require Import ZArith Reals Lra Lia Bool Psatz.
From Flocq Require Import Core BinarySingleNaN Relative.
From Verif Require Import Spec LVec LAngle LCircle FTiny FZero FBase FRel FRel2 FUnit FPi FAngle FDist FGreat FTrack FLatLon FInv FEcef FEcef2 FNed FNed2 FNed3 FDelta FDelta2 FInterp FPoint FPoint2.
Local Open Scope R_scope.

Lemma fsign_zero x : is_finite x = true -> B2R x = 0 -> fsign x = fzero.
Proof. intros F E. unfold fsign. rewrite Bcompare_correct by auto. rewrite E. change (B2R fzero) with 0. rewrite Rcompare_Eq by auto. reflexivity. Qed.
(** where the computed scalar product of the crossing and the start of the first path is zero, the zero vector comes back: not a position at all *)
Theorem C98_quarter_turn : forall dot a1 a2 b1 b2,
  let n := unit64 (fcross (fcross a1 a2) (fcross b1 b2)) in finite_vec n -> is_finite (dot n a1) = true -> B2R (dot n a1) = 0 ->
  vec_of (fintersect dot a1 a2 b1 b2) = v0.
Proof.
  intros dot a1 a2 b1 b2 n Fn Fd Ed. unfold fintersect. fold n. rewrite fsign_zero by auto. destruct n as [[x y] z]. destruct Fn as (Fx & Fy & Fz).
  unfold fscalev, vec_of, v0. assert (K : forall c, is_finite c = true -> B2R (fmul fzero c) = 0) by (intros c F; destruct c; try discriminate; reflexivity).
  rewrite !K by auto. reflexivity.
Qed.
Print Assumptions C98_quarter_turn.

(** the equator from (0 N, 0 E) eastwards and the meridian of 90 E cross at (0 N, 90 E) *)
Example C98_quarter_turn_example : let a1 := (fone, fzero, fzero) in let a2 := (fzero, fone, fzero) in let b1 := (fzero, fone, fzero) in let b2 := (fzero, fzero, fone) in
  let n := unit64 (fcross (fcross a1 a2) (fcross b1 b2)) in
  finite_vec n /\ is_finite (dot_seq n a1) = true /\ B2R (dot_seq n a1) = 0 /\ vec_of n = V 0 1 0 /\ on_circle (vec_of a1) (vec_of a2) (V 0 1 0) /\ on_circle (vec_of b1) (vec_of b2) (V 0 1 0).
Proof.
  cbv zeta.
  assert (E : B2SF (fst (fst (unit64 (fcross (fcross (fone, fzero, fzero) (fzero, fone, fzero)) (fcross (fzero, fone, fzero) (fzero, fzero, fone)))))) = SpecFloat.S754_zero false /\
    B2SF (snd (fst (unit64 (fcross (fcross (fone, fzero, fzero) (fzero, fone, fzero)) (fcross (fzero, fone, fzero) (fzero, fzero, fone)))))) = B2SF fone /\
    B2SF (snd (unit64 (fcross (fcross (fone, fzero, fzero) (fzero, fone, fzero)) (fcross (fzero, fone, fzero) (fzero, fzero, fone))))) = SpecFloat.S754_zero false) by (vm_compute; auto).
  set (n := unit64 _) in *. clearbody n. destruct n as [[x y] z]. cbn [fst snd] in E. destruct E as (Ex & Ey & Ez). apply B2SF_inj in Ey. subst y.
  destruct x as [sx| | |]; try discriminate. destruct z as [sz| | |]; try discriminate. injection Ex as ->. injection Ez as ->.
  assert (V1 : B2R fone = 1) by apply fone_val. assert (U : vnorm (V 0 1 0) = 1) by (apply vnorm_eq; [lra|unfold vdot; cbn [Spec.vx Spec.vy Spec.vz]; ring]).
  split; [cbn; auto|]. split; [reflexivity|]. split; [reflexivity|]. unfold vec_of, on_circle. rewrite V1. change (B2R fzero) with 0. change (B2R (B754_zero false)) with 0.
  split; [reflexivity|]. split; (split; [exact U|]); unfold vdot, vcross; cbn [Spec.vx Spec.vy Spec.vz]; ring.
Qed.
