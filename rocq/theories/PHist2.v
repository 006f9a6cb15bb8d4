(** * C87: what a method call answers does not depend on what was done before *)
From Coq Require Import String List Arith Lia Bool Reals Lra.
From Verif Require Import POps Num Py Nd MUtil MRotation MCore MObjects MHist Spec SpecArr SpecObj SpecGeo SpecPath LNum LTrig LVec LArr LLatLon LMat LRot
  LAngle LEq LEcef PEcef PRot PFrame PEq LObj PEq2 LObj2 PObj PObj2 PPath PPath3 PHist.
Import ListNotations.
Local Open Scope R_scope.

(** the call [c], made when the store is [h], gives an object [r] of a store [h'] with [P h' r];
    [h'] contains every object of [h] unchanged *)
Definition gives (c : call) (h : store) (P : store -> ref -> Prop) : Prop :=
  exists h' r, step c h = (h', inl (Some r)) /\ (forall i x, nth_error h i = Some x -> nth_error h' i = Some x) /\ P h' r.

Lemma keep {A} (h k : list A) i x : nth_error h i = Some x -> nth_error (h ++ k) i = Some x.
Proof. intros H. rewrite app_nth; auto. apply nth_error_Some. congruence. Qed.
Lemma last_new {A} (h : list A) x : nth_error (h ++ [x]) (length h) = Some x.
Proof. rewrite nth_error_app2, Nat.sub_diag by lia. reflexivity. Qed.

Lemma locatable_later cs h r pt n p a f M : point_at h r = Some pt -> locatable pt n p a f M ->
  exists pt', point_at (run cs h) r = Some pt' /\ locatable pt' n p a f M /\
    match pt with PNv _ => exists w, pt' = PNv w | _ => pt' = pt end.
Proof.
  intros H [P L]. destruct (C72_points_stay_in_place cs _ _ _ _ _ _ _ _ H P) as (pt' & E & P' & K).
  exists pt'. split; auto. destruct pt.
  - subst pt'. split; [split; auto|auto].
  - destruct K as (w & -> & _). split; [split; auto|eauto].
  - subst pt'. split; [split; auto|auto].
  - subst pt'. split; [split; auto|auto].
Qed.

(** ** conversions: the position that the object had when it was made *)
Theorem C87_conversions : forall cs h r pt n p a f M, ellipsoid a f ->
  point_at h r = Some pt -> locatable pt n p a f M ->
  gives (ToNvector r) (run cs h) (fun h' o => exists v, point_at h' o = Some (PNv v) /\ is_point (PNv v) n p a f M) /\
  gives (ToEcef r) (run cs h) (fun h' o => exists e, point_at h' o = Some (PEcef e) /\ is_point (PEcef e) n p a f M) /\
  gives (ToGeo r) (run cs h) (fun h' o => exists g, point_at h' o = Some (PGeo g) /\ is_point (PGeo g) n p a f M).
Proof.
  intros cs h r pt n p a f M El H L. destruct (locatable_later cs _ _ _ _ _ _ _ _ H L) as (pt' & E & L' & _).
  destruct (C48_conversions_preserve_position _ _ _ _ _ _ El L') as ((v & Ev & Pv) & (e & Ee & Pe) & (g & Eg & Pg)).
  set (h1 := run cs h) in *. unfold ends in *.
  assert (Nw : forall x q, match x with CNv v => q = PNv v | CEcef e => q = PEcef e | CGeo g => q = PGeo g | _ => False end ->
    point_at (h1 ++ [x]) (length h1) = Some q).
  { intros x q Hx. unfold point_at. rewrite last_new. destruct x; try contradiction; subst q; reflexivity. }
  split; [|split]; unfold gives; cbn [step]; unfold to_nvector_at, to_geo_at; rewrite E; cbn [need].
  - destruct pt' as [g0|v0'|e0|q].
    1,3,4: unfold with_; rewrite Ev; do 2 eexists; split; [reflexivity|]; split; [intros; apply keep; auto|];
      exists v; split; [apply Nw; reflexivity|auto].
    cbn [to_nvector ret snd] in Ev. injection Ev as <-. exists h1, r. split; [reflexivity|]. split; auto. exists v0'. auto.
  - destruct pt' as [g0|v0'|e0|q].
    1,2,4: unfold with_; rewrite Ee; do 2 eexists; split; [reflexivity|]; split; [intros; apply keep; auto|];
      exists e; split; [apply Nw; reflexivity|auto].
    cbn [to_ecef_vector ret snd] in Ee. injection Ee as <-. exists h1, r. split; [reflexivity|]. split; auto. exists e0. auto.
  - destruct pt' as [g0|v0'|e0|q].
    2,3,4: unfold with_; rewrite Eg; do 2 eexists; split; [reflexivity|]; split; [intros; apply keep; auto|];
      exists g; split; [apply Nw; reflexivity|auto].
    cbn [to_geo_point ret snd] in Eg. injection Eg as <-. exists h1, r. split; [reflexivity|]. split; auto. exists g0. auto.
Qed.
Print Assumptions C87_conversions.

(** ** differences: delta_E, delta_N and delta_L between the original positions.
    The answers of delta_N and delta_L are vectors in a new frame of the right class at the first point,
    with an Nvector of its own; turned back to ECEF they are the difference of the positions. *)
Theorem C87_differences : forall cs h i j A B n m k p q a f M wa w, ellipsoid a f ->
  point_at h i = Some A -> point_at h j = Some B -> locatable A n p a f M -> is_point B m q a f M ->
  bdim m n = Some k -> spread wa n w ->
  let d := fun l => vsub (q (cl m l)) (p (cl n l)) in
  gives (DeltaE i j) (run cs h) (fun h' o => exists e, point_at h' o = Some (PEcef e) /\ is_ecef e k d a f M) /\
  gives (DeltaN i j) (run cs h) (fun h' o => exists v nv u own back, point_at h' o = Some (PPv v) /\
    p_frame v = LocalN nv /\ is_nv nv n u (fun _ => 0) a f M /\
    (forall l, (l < n)%nat -> exists z, at_depth a f M (u l) z (p l)) /\
    (exists fr, step (AttrFrame o) h' = (h', inl (Some fr)) /\ step (AttrNvector fr) h' = (h', inl (Some own)) /\
       nv_at h' own = Some nv) /\ ~ (own < length (run cs h))%nat /\
    ends (pv_to_ecef v) back /\ is_ecef back k d a f M) /\
  gives (DeltaL i j wa) (run cs h) (fun h' o => exists v nv u own back, point_at h' o = Some (PPv v) /\
    p_frame v = LocalL nv wa /\ is_nv nv n u (fun _ => 0) a f M /\
    (forall l, (l < n)%nat -> exists z, at_depth a f M (u l) z (p l)) /\
    (exists fr, step (AttrFrame o) h' = (h', inl (Some fr)) /\ step (AttrNvector fr) h' = (h', inl (Some own)) /\
       nv_at h' own = Some nv) /\ ~ (own < length (run cs h))%nat /\
    ends (pv_to_ecef v) back /\ is_ecef back k d a f M).
Proof.
  intros cs h i j A B n m k p q a f M wa w El HA HB LA PB D Sw d.
  destruct (locatable_later cs _ _ _ _ _ _ _ _ HA LA) as (A' & EA & LA' & _).
  destruct (C72_points_stay_in_place cs _ _ _ _ _ _ _ _ HB PB) as (B' & EB & PB' & _).
  set (h1 := run cs h) in *.
  destruct (delta_E_spec _ _ _ _ _ _ _ _ _ _ El (proj1 LA') PB' D) as (w1 & e & Ee & He).
  destruct (FrameL_spec A' wa _ _ _ _ _ LA' El) as (w3 & nv & u & EL & EN & Hv & Hp).
  pose proof Hv as (Hn & _ & Nz & _ & HL). pose proof El as (Pa & F0 & F1). pose proof (frame_orth _ _ _ _ HL) as HM.
  pose proof (bdim_absorb_r _ _ _ D) as Dk.
  assert (At : forall l, (l < n)%nat -> exists z, at_depth a f M (u l) z (p l)).
  { intros l Hl. destruct (Hp l Hl) as (z & ->). exists z. apply at_depth_pos; auto. }
  assert (G : forall l, is_local l n a f M -> l_nvector l = nv -> exists wr v back, change_frame e l = (wr, inl v) /\ p_frame v = l /\
    ends (pv_to_ecef v) back /\ is_ecef back k d a f M).
  { intros l Hl En. destruct (R_EN_rotation _ _ _ _ _ Hl) as (wr & R & F & ER & HR & HF).
    assert (FL : is_frame (n_frame (l_nvector l)) a f M) by (rewrite En; auto).
    destruct (change_frame_spec e l k n k _ F wr R a f M He FL ER HR Dk Hn) as (v & E & Hc & Ef & Es).
    assert (Dk' : bdim n k = Some k) by (destruct (bdim_inv _ _ _ Dk) as [[->| ->] _]; [apply bdim_refl|apply bdim_1_l]).
    destruct He as (He1 & He2 & He3 & He4).
    destruct (pv_to_ecef_spec v k n k _ F wr R a f M Hc) as (back & Eb & Hb & _); auto.
    { rewrite Ef. auto. } { rewrite Ef. auto. } { rewrite Es. auto. }
    exists wr, v, back. split; auto. split; auto. split; [unfold ends; rewrite Eb; reflexivity|].
    destruct Hb as (B1 & B2 & B3 & B4). split; auto. split; auto. eapply cols_ext; [|exact B2]. intros x Hx. cbn beta.
    rewrite !(cl_id k x Hx). rewrite orthogonal_inv'; [reflexivity|]. apply HF. eapply cl_lt_l; eauto. }
  assert (N3 : forall c1 c2 c3 : cell, nth_error (h1 ++ [c1; c2; c3]) (length h1) = Some c1 /\
    nth_error (h1 ++ [c1; c2; c3]) (S (length h1)) = Some c2 /\ nth_error (h1 ++ [c1; c2; c3]) (S (S (length h1))) = Some c3).
  { intros c1 c2 c3. rewrite !nth_error_app2 by lia. rewrite Nat.sub_diag.
    replace (S (length h1) - length h1)%nat with 1%nat by lia. replace (S (S (length h1)) - length h1)%nat with 2%nat by lia. auto. }
  split; [|split]; unfold gives; cbn [step]; rewrite EA, EB; cbn [need].
  - unfold with_. rewrite Ee. cbn [snd]. do 2 eexists. split; [reflexivity|]. split; [intros; apply keep; auto|].
    exists e. split; [unfold point_at; rewrite last_new; reflexivity|exact He].
  - destruct (G (LocalN nv)) as (wr & v & back & Ec & Ef & Eb & Hb); [exists u, (fun _ => 0); auto|reflexivity|].
    assert (DN : snd (delta_N A' B') = inl v) by (unfold delta_N; rewrite Ee, bind_inl, EN, bind_inl, Ec; reflexivity).
    unfold with_. rewrite DN. destruct v as [pp fr sc]. cbn [p_frame] in Ef. subst fr. cbn [p_p p_scalar p_frame l_nvector].
    destruct (N3 (CNv nv) (CFrameN (length h1)) (CPv pp (S (length h1)) sc)) as (X1 & X2 & X3).
    do 2 eexists. split; [reflexivity|]. split; [intros; apply keep; auto|].
    exists (MkPv pp (LocalN nv) sc), nv, u, (length h1), back.
    split. { unfold point_at, local_at, nv_at. rewrite X3, X2, X1. reflexivity. }
    split; [reflexivity|]. split; [exact Hv|]. split; [exact At|]. split; [|split; [lia|split; auto]].
    exists (S (length h1)). cbn [step]. rewrite X3, X2. unfold nv_at. rewrite X1. auto.
  - destruct (G (LocalL nv wa)) as (wr & v & back & Ec & Ef & Eb & Hb); [exists u, (fun _ => 0), w; auto|reflexivity|].
    assert (DN : snd (delta_L A' B' wa) = inl v) by (unfold delta_L; rewrite EL, bind_inl, Ee, bind_inl, Ec; reflexivity).
    unfold with_. rewrite DN. destruct v as [pp fr sc]. cbn [p_frame] in Ef. subst fr. cbn [p_p p_scalar p_frame l_nvector].
    destruct (N3 (CNv nv) (CFrameL (length h1) wa) (CPv pp (S (length h1)) sc)) as (X1 & X2 & X3).
    do 2 eexists. split; [reflexivity|]. split; [intros; apply keep; auto|].
    exists (MkPv pp (LocalL nv wa) sc), nv, u, (length h1), back.
    split. { unfold point_at, local_at, nv_at. rewrite X3, X2, X1. reflexivity. }
    split; [reflexivity|]. split; [exact Hv|]. split; [exact At|]. split; [|split; [lia|split; auto]].
    exists (S (length h1)). cbn [step]. rewrite X3, X2. unfold nv_at. rewrite X1. auto.
Qed.
Print Assumptions C87_differences.

(** ** sums, differences and negatives of ECEF vectors *)
Theorem C87_ecef_arithmetic : forall cs h i j e o n m k p q a f M,
  point_at h i = Some (PEcef e) -> point_at h j = Some (PEcef o) ->
  is_ecef e n p a f M -> is_ecef o m q a f M -> bdim n m = Some k ->
  gives (EcefAdd i j) (run cs h) (fun h' r => exists x, point_at h' r = Some (PEcef x) /\
    is_ecef x k (fun l => vadd (p (cl n l)) (q (cl m l))) a f M) /\
  gives (EcefSub i j) (run cs h) (fun h' r => exists x, point_at h' r = Some (PEcef x) /\
    is_ecef x k (fun l => vsub (p (cl n l)) (q (cl m l))) a f M) /\
  gives (EcefNeg i) (run cs h) (fun h' r => exists x, point_at h' r = Some (PEcef x) /\
    is_ecef x n (fun l => vneg (p l)) a f M).
Proof.
  intros cs h i j e o n m k p q a f M Hi Hj He Ho D.
  assert (X : forall r x n p, point_at h r = Some (PEcef x) -> is_ecef x n p a f M -> ecef_at (run cs h) r = Some x).
  { intros r x n' p' H P. destruct (C72_points_stay_in_place cs _ _ (PEcef x) n' p' a f M H P) as (pt' & E & _ & ->).
    unfold point_at, ecef_at in *. destruct (nth_error (run cs h) r) as [[]|]; try discriminate; try congruence.
    destruct (local_at (run cs h) frame); discriminate. }
  pose proof (X _ _ _ _ Hi He) as Ei. pose proof (X _ _ _ _ Hj Ho) as Ej. clear X. set (h1 := run cs h) in *.
  destruct (ecef_add_spec _ _ _ _ _ _ _ _ _ _ He Ho D) as (s & Es & Hs).
  destruct (ecef_sub_spec _ _ _ _ _ _ _ _ _ _ He Ho D) as (t & Et & Ht).
  destruct (ecef_neg_spec _ _ _ _ _ _ He) as (g & Eg & Hg).
  split; [|split]; unfold gives; cbn [step]; rewrite Ei, ?Ej; cbn [need]; unfold with_; rewrite ?Es, ?Et, ?Eg; cbn [ret snd];
    (do 2 eexists; split; [reflexivity|]; split; [intros; apply keep; auto|]; eexists; split; [unfold point_at; rewrite last_new; reflexivity|]; auto).
Qed.

(** ** vectors expressed in a frame: the same components as if nothing had been done before *)
Theorem C87_change_frame : forall cs h i fr e l n m k p a f M,
  point_at h i = Some (PEcef e) -> local_at h fr = Some l -> is_ecef e n p a f M -> is_local l m a f M -> off_axis l m M ->
  bdim m n = Some k ->
  exists v c, ends (change_frame e l) v /\ cols (p_p v) k c /\
    gives (ChangeFrame i fr) (run cs h) (fun h' r => exists v', point_at h' r = Some (PPv v') /\
      cols (p_p v') k c /\ p_scalar v' = p_scalar v /\ step (AttrFrame r) h' = (h', inl (Some fr))).
Proof.
  intros cs h i fr e l n m k p a f M Hi Hl He L O D.
  assert (Ei : ecef_at (run cs h) i = Some e).
  { destruct (C72_points_stay_in_place cs _ _ (PEcef e) n p a f M Hi He) as (pt' & E & _ & ->).
    unfold point_at, ecef_at in *. destruct (nth_error (run cs h) i) as [[]|]; try discriminate; try congruence.
    destruct (local_at (run cs h) frame); discriminate. }
  destruct (local_later cs h fr l Hl) as (w & Ew & N).
  destruct (local_orientation l w m a f M L O N) as (F & R & R' & ER & ER' & HR & HR').
  destruct (is_nv_local _ _ _ _ _ L) as (u & z & Hv). pose proof Hv as (Hm & _ & _ & _ & Fr).
  destruct (normalised_nv _ _ N _ _ _ _ _ _ Hv) as (_ & Ef & _ & _).
  assert (Ln : l_nvector (with_nv l w) = w) by (destruct l; reflexivity).
  unfold ends in ER, ER'. destruct (R_EN l) as [ws1 r1] eqn:E1, (R_EN (with_nv l w)) as [ws2 r2] eqn:E2. cbn in ER, ER'. subst r1 r2.
  destruct (change_frame_spec e l n m k p F ws1 R a f M He Fr E1 HR D Hm) as (v & Ev & Hc & Efr & Es).
  destruct (change_frame_spec e (with_nv l w) n m k p F ws2 R' a f M He) as (v' & Ev' & Hc' & Efr' & Es'); auto.
  { rewrite Ln, Ef. exact Fr. }
  exists v. eexists. split; [unfold ends; rewrite Ev; reflexivity|]. split; [exact Hc|].
  unfold gives. cbn [step]. rewrite Ei, Ew. cbn [need]. unfold with_. rewrite Ev'. cbn [snd].
  do 2 eexists. split; [reflexivity|]. split; [intros; apply keep; auto|].
  assert (La : local_at (run cs h ++ [CPv (p_p v') fr (p_scalar v')]) fr = Some (with_nv l w)).
  { assert (K : forall r x, nv_at (run cs h) r = Some x -> nv_at (run cs h ++ [CPv (p_p v') fr (p_scalar v')]) r = Some x).
    { intros r x Hr. unfold nv_at in *. destruct (nth_error (run cs h) r) as [c|] eqn:En; [|discriminate]. rewrite (keep _ _ _ _ En). auto. }
    clear - Ew K. unfold local_at in *. destruct (nth_error (run cs h) fr) as [c|] eqn:En; [|discriminate]. rewrite (keep _ _ _ _ En).
    destruct c; try discriminate; destruct (nv_at (run cs h) nv) as [x|] eqn:Ex; try discriminate; rewrite (K _ _ Ex); auto. }
  exists (MkPv (p_p v') (with_nv l w) (p_scalar v')). cbn [p_p p_scalar]. split; [|split; [exact Hc'|split; [congruence|]]].
  - unfold point_at. rewrite last_new, La. reflexivity.
  - cbn [step]. rewrite last_new. reflexivity.
Qed.
Print Assumptions C87_change_frame.

(** ** paths: a path goes on joining the same two objects, and these the same two positions *)
Theorem C87_paths : forall cs h i j A B n m p q a f M,
  point_at h i = Some A -> point_at h j = Some B -> is_point A n p a f M -> is_point B m q a f M ->
  gives (NewPath i j) h (fun h' r =>
    step (AttrA r) (run cs h') = (run cs h', inl (Some i)) /\ step (AttrB r) (run cs h') = (run cs h', inl (Some j)) /\
    exists A' B', point_at (run cs h') i = Some A' /\ point_at (run cs h') j = Some B' /\
      path_at (run cs h') r = Some (GeoPath A' B') /\ is_point A' n p a f M /\ is_point B' m q a f M).
Proof.
  intros cs h i j A B n m p q a f M Hi Hj PA PB. unfold gives. cbn [step]. rewrite Hi, Hj. cbn [need].
  do 2 eexists. split; [reflexivity|]. split; [intros; apply keep; auto|].
  assert (K : forall r x n p, point_at h r = Some x -> is_point x n p a f M -> point_at (h ++ [CPath i j]) r = Some x).
  { intros r x n' p' H P. unfold point_at in *. destruct (nth_error h r) as [c|] eqn:E; [|discriminate]. rewrite (keep _ _ _ _ E).
    destruct c; auto. destruct (local_at h frame); [|discriminate]. injection H as <-. destruct P. }
  set (h1 := h ++ [CPath i j]) in *.
  destruct (C72_points_stay_in_place cs h1 i A n p a f M (K _ _ _ _ Hi PA) PA) as (A' & EA & PA' & _).
  destruct (C72_points_stay_in_place cs h1 j B m q a f M (K _ _ _ _ Hj PB) PB) as (B' & EB & PB' & _).
  assert (Er : nth_error (run cs h1) (length h) = Some (CPath i j)).
  { destruct (run_cell cs h1 (length h) (CPath i j)) as [X|(v & w & X & _)]; auto; [apply last_new|discriminate]. }
  cbn [step]. rewrite Er. split; auto. split; auto. exists A', B'. split; auto. split; auto. split; auto.
  unfold path_at. rewrite Er, EA, EB. reflexivity.
Qed.
Print Assumptions C87_paths.

(** ** new frames: at the position the point had when it was made, with the given angles *)
Theorem C87_new_frames : forall cs h r pt n p a f M wa yaw pitch roll (degrees : bool), ellipsoid a f ->
  point_at h r = Some pt -> locatable pt n p a f M ->
  let there (v : nvector) := exists u z, is_nv v n u z a f M /\ forall j, (j < n)%nat -> exists z', at_depth a f M (u j) z' (p j) in
  let rd (x : arr num) := if degrees then rad1 x else x in
  gives (NewFrameN r) (run cs h) (fun h' o => exists v, local_at h' o = Some (LocalN v) /\ there v) /\
  gives (NewFrameL r wa) (run cs h) (fun h' o => exists v, local_at h' o = Some (LocalL v wa) /\ there v) /\
  gives (NewFrameB r yaw pitch roll degrees) (run cs h) (fun h' o => exists v,
    local_at h' o = Some (LocalB v (rd yaw) (rd pitch) (rd roll)) /\ there v /\ is_point (PNv v) n p a f M).
Proof.
  intros cs h r pt n p a f M wa yaw pitch roll degrees El H L there rd.
  pose proof (proj1 (C87_conversions cs _ _ _ _ _ _ _ _ El H L)) as TN.
  destruct (locatable_later cs _ _ _ _ _ _ _ _ H L) as (pt' & E & L' & _). set (h1 := run cs h) in *.
  destruct (FrameL_spec pt' wa _ _ _ _ _ L' El) as (w3 & v & u & EL & EN & Hv & Hp).
  pose proof Hv as (Hn & _ & Nz & _ & HL). pose proof El as (Pa & F0 & F1). pose proof (frame_orth _ _ _ _ HL) as HM.
  assert (Th : there v).
  { exists u, (fun _ => 0). split; auto. intros j Hj. destruct (Hp j Hj) as (z & ->). exists z. apply at_depth_pos; auto. }
  assert (Nv : snd (v <- to_nvector pt' ;; Nvector (n_normal v) z0 (Some (n_frame v))) = inl v).
  { unfold FrameN in EN. unfold bind in EN |- *. destruct (to_nvector pt') as [s1 [x|]]; cbn in EN |- *; [|discriminate]. congruence. }
  assert (N2 : forall c1 c2 : cell, nth_error (h1 ++ [c1; c2]) (length h1) = Some c1 /\ nth_error (h1 ++ [c1; c2]) (S (length h1)) = Some c2).
  { intros c1 c2. rewrite !nth_error_app2 by lia. rewrite Nat.sub_diag. replace (S (length h1) - length h1)%nat with 1%nat by lia. auto. }
  split; [|split].
  - unfold gives. cbn [step]. rewrite E. cbn [need]. unfold new_frameN, with_. rewrite Nv. do 2 eexists. split; [reflexivity|].
    split; [intros; apply keep; auto|]. exists v. split; auto.
    destruct (N2 (CNv v) (CFrameN (length h1))) as [X1 X2]. unfold local_at, nv_at. rewrite X2, X1. reflexivity.
  - unfold gives. cbn [step]. rewrite E. cbn [need]. unfold new_frameN, with_. rewrite Nv. do 2 eexists. split; [reflexivity|].
    split; [intros; apply keep; auto|]. exists v. split; auto.
    destruct (N2 (CNv v) (CFrameL (length h1) wa)) as [X1 X2]. unfold local_at, nv_at. rewrite X2, X1. reflexivity.
  - destruct TN as (h2 & o & Es & Kp & v2 & Po & Pp). cbn [step] in Es.
    unfold gives. cbn [step]. rewrite Es.
    assert (Q : (if degrees then (rad1 yaw, rad1 pitch, rad1 roll) else (yaw, pitch, roll)) = (rd yaw, rd pitch, rd roll))
      by (unfold rd; destruct degrees; reflexivity).
    rewrite Q. do 2 eexists. split; [reflexivity|]. split; [intros; apply keep; auto|].
    exists v2. split.
    + unfold local_at. rewrite last_new. unfold nv_at.
      unfold point_at in Po. destruct (nth_error h2 o) as [c|] eqn:Eo; [|discriminate]. rewrite (keep _ _ _ _ Eo).
      destruct c; try discriminate; [injection Po as ->; reflexivity|]. destruct (local_at h2 frame); discriminate.
    + split; auto. destruct Pp as (u2 & z2 & Hv2 & A2). exists u2, z2. split; auto. intros j Hj. exists (z2 j). auto.
Qed.
Print Assumptions C87_new_frames.

(** ** arithmetic of Nvectors: componentwise on the n-vectors and depths that the operands hold at that moment *)
Theorem C87_nvector_arithmetic : forall h i j v w n m k u u' l l' d z z' fv fw a f M,
  nv_at h i = Some v -> nv_at h j = Some w ->
  holds_nv v n u l z fv -> holds_nv w m u' l' z' fw -> is_frame fv a f M -> is_frame fw a f M ->
  bdim n m = Some k -> bdim l l' = Some d ->
  gives (NvAdd i j) h (fun h' r => exists x, nv_at h' r = Some x /\
    holds_nv x k (fun j => vadd (u (cl n j)) (u' (cl m j))) d (fun j => z (cl l j) + z' (cl l' j)) fv) /\
  gives (NvSub i j) h (fun h' r => exists x, nv_at h' r = Some x /\
    holds_nv x k (fun j => vsub (u (cl n j)) (u' (cl m j))) d (fun j => z (cl l j) - z' (cl l' j)) fv) /\
  gives (NvNeg i) h (fun h' r => exists x, nv_at h' r = Some x /\ holds_nv x n (fun j => vneg (u j)) l (fun j => - z j) fv) /\
  forall t c, scalar t c ->
    gives (NvMul i t) h (fun h' r => exists x, nv_at h' r = Some x /\
      holds_nv x n (fun j => vscale c (u j)) l (fun j => z j * c) fv) /\
    (c <> 0 -> gives (NvDiv i t) h (fun h' r => exists x, nv_at h' r = Some x /\
      holds_nv x n (fun j => vscale (/ c) (u j)) l (fun j => z j / c) fv)).
Proof.
  intros h i j v w n m k u u' l l' d z z' fv fw a f M Hi Hj HV HW F G D D'.
  destruct (C57_add_sub_componentwise _ _ _ _ _ _ _ _ _ _ _ _ _ _ _ _ _ HV HW F G D D') as ((x & Ex & Hx) & (x' & Ex' & Hx')).
  destruct (C57_neg_componentwise _ _ _ _ _ _ HV) as (y & Ey & Hy).
  assert (N : forall c : nvector, nv_at (h ++ [CNv c]) (length h) = Some c) by (intros c; unfold nv_at; rewrite last_new; reflexivity).
  split; [|split; [|split]].
  1,2,3: unfold gives; cbn [step]; rewrite Hi, ?Hj; cbn [need]; unfold with_; rewrite ?Ex, ?Ex', ?Ey; cbn [snd];
    do 2 eexists; split; [reflexivity|]; split; [intros; apply keep; auto|]; eexists; split; [apply N|]; auto.
  intros t c Ht.
  assert (Vt : vals t 1 (fun _ => c)) by (left; split; auto).
  assert (X1 : forall q, bdim q 1 = Some q) by (intros q; apply bdim_1_r).
  destruct (C57_mul_div_componentwise _ _ _ _ _ _ _ _ _ _ _ HV Vt (X1 n) (X1 l)) as ((s & Es & Hs) & Dv).
  split.
  - unfold gives; cbn [step]; rewrite Hi; cbn [need]; unfold with_; rewrite Es; cbn [snd].
    do 2 eexists; split; [reflexivity|]; split; [intros; apply keep; auto|]; eexists; split; [apply N|].
    destruct Hs as (S1 & S2 & S3). split; [|split; auto].
    + eapply cols_ext; [|exact S1]. intros e He. cbn beta. rewrite (cl_id n e He). reflexivity.
    + eapply vals_ext; [|exact S2]. intros e He. cbn beta. rewrite (cl_id l e He). reflexivity.
  - intros Nc. destruct (Dv ltac:(intros; auto)) as (s' & Es' & S1 & S2 & S3).
    unfold gives; cbn [step]; rewrite Hi; cbn [need]; unfold with_; rewrite Es'; cbn [snd].
    do 2 eexists; split; [reflexivity|]; split; [intros; apply keep; auto|]; eexists; split; [apply N|].
    split; [|split; auto].
    + eapply cols_ext; [|exact S1]. intros e He. cbn beta. rewrite (cl_id n e He). reflexivity.
    + eapply vals_ext; [|exact S2]. intros e He. cbn beta. rewrite (cl_id l e He). reflexivity.
Qed.
Print Assumptions C87_nvector_arithmetic.

(** ... so a sum of Nvectors does depend on the history: unit() on an operand changes it *)
Theorem C87_nvector_sum_refuted : exists h i j o o' s s' w w',
  step (NvAdd i j) h = (h ++ [CNv s], inl (Some o)) /\
  step (NvAdd i j) (run [Unit i] h) = (run [Unit i] h ++ [CNv s'], inl (Some o')) /\
  cols (n_normal s) 1 (fun _ => w) /\ cols (n_normal s') 1 (fun _ => w') /\
  vcross w w' <> v0.   (* the two sums do not even point the same way *)
Proof.
  destruct (C70_unit_in_place _ _ _ _ _ _ _ ex_nv_ok) as (y & Ey & C & Yz & Yf & _).
  pose proof ex_nv_ok as (_ & Cn & _ & Sz & Fr).
  set (b := MkNv (col3 (Fin 1) (Fin 0) (Fin 0)) z0 ex_frame).
  assert (Cb : cols (n_normal b) 1 (fun _ => V 1 0 0)).
  { split; [reflexivity|]. intros j Hj. assert (j = 0%nat) by lia. subst j. repeat split. }
  assert (Vz : vals z0 1 (fun _ => 0)) by (left; repeat split).
  assert (Ad : forall v u, cols (n_normal v) 1 (fun _ => u) -> n_z v = z0 -> n_frame v = ex_frame ->
    exists s, nv_add v b = ret s /\ cols (n_normal s) 1 (fun _ => vadd u (V 1 0 0))).
  { intros v u Cv Zv Fv.
    assert (Hh : holds_nv v 1 (fun _ => u) 1 (fun _ => 0) ex_frame) by (repeat split; try apply Cv; try rewrite Zv; auto).
    assert (Hb : holds_nv b 1 (fun _ => V 1 0 0) 1 (fun _ => 0) ex_frame) by (split; [exact Cb|]; split; auto).
    destruct (C57_add_sub_componentwise v b 1 1 1 _ _ 1 1 1 _ _ _ _ _ _ _ Hh Hb Fr Fr eq_refl eq_refl) as [(s & Es & Cs & _) _].
    exists s. auto. }
  destruct (Ad ex_nv _ Cn eq_refl eq_refl) as (s & Es & Cs).
  destruct (Ad y _ C Yz Yf) as (s' & Es' & Cs').
  assert (R : run [Unit 0%nat] [CNv ex_nv; CNv b] = [CNv y; CNv b]).
  { cbn [run step nv_at nth_error need]. unfold with_. unfold ends in Ey. rewrite Ey. reflexivity. }
  exists [CNv ex_nv; CNv b], 0%nat, 1%nat, 2%nat, 2%nat, s, s'. do 2 eexists. rewrite R.
  split. { cbn [step nv_at nth_error need]. unfold with_. rewrite Es. reflexivity. }
  split. { cbn [step nv_at nth_error need]. unfold with_. rewrite Es'. reflexivity. }
  split; [exact Cs|]. split; [exact Cs'|].
  assert (N : vnorm (V 1 2 2) = 3).
  { unfold vnorm, vdot; cbn [Spec.vx Spec.vy Spec.vz]. replace (1*1+2*2+2*2) with (3*3) by ring. apply sqrt_square; lra. }
  unfold direction. rewrite N. unfold vadd, vscale, vcross, v0; cbn [Spec.vx Spec.vy Spec.vz]. intros [= X1 X2 X3]. lra.
Qed.
Print Assumptions C87_nvector_sum_refuted.

(** the store of C72_example meets the hypotheses; the unit() call in the history does change the Nvector *)
Example C87_example : exists p q,
  let h := [CNv ex_nv; CFrameB 0%nat (scal (Fin 1)) z0 z0; CGeo ex_geo; CEcef ex_ecef] in
  point_at h 0%nat = Some (PNv ex_nv) /\ locatable (PNv ex_nv) 1 p 6378137 (/ 298) Me /\
  point_at h 2%nat = Some (PGeo ex_geo) /\ is_point (PGeo ex_geo) 1 q 6378137 (/ 298) Me /\
  point_at h 3%nat = Some (PEcef ex_ecef) /\ is_ecef ex_ecef 1 (fun _ => V 6000000 1000 2) 6378137 (/ 298) Me /\
  (exists l, local_at h 1%nat = Some l /\ is_local l 1 6378137 (/ 298) Me /\ off_axis l 1 Me) /\
  ellipsoid 6378137 (/ 298) /\ spread z0 1 (fun _ => 0) /\ bdim 1 1 = Some 1%nat.
Proof.
  destruct C45_example as (_ & (q & Hq) & (p & Hp) & _). exists p, q. intros h.
  split; [reflexivity|]. split; [split; [exact Hp|exact I]|]. split; [reflexivity|]. split; [exact Hq|]. split; [reflexivity|].
  split; [apply ex_ecef_ok|]. split; [|split; [split; lra|split; [apply spread_scalar; split; reflexivity|reflexivity]]].
  eexists. split; [reflexivity|]. split; [|exact I]. exists (fun _ => V 1 2 2), (fun _ => 0), (fun _ => 1), (fun _ => 0), (fun _ => 0).
  split; [apply ex_nv_ok|]. repeat split; apply spread_scalar; split; reflexivity.
Qed.
