(** * C72: no history of method calls moves a point or turns a frame *)
From Coq Require Import String List Arith Lia Bool Reals Lra.
From Verif Require Import Num Py Nd MUtil MRotation MCore MObjects MHist Spec SpecArr SpecObj SpecGeo SpecPath LNum LTrig LVec LArr LLatLon LMat LRot
  LAngle LEq LEcef PEcef PRot PFrame PEq LObj PEq2 LObj2 PObj PObj2 PPath PPath3.
Import ListNotations.
Local Open Scope R_scope.

Lemma app_nth {A} (h k : list A) r : (r < length h)%nat -> nth_error (h ++ k) r = nth_error h r.
Proof. apply nth_error_app1. Qed.

Lemma put_nth {A} (h : list A) r w q : (r < length h)%nat ->
  nth_error (firstn r h ++ w :: skipn (S r) h) q = if (q =? r)%nat then Some w else nth_error h q.
Proof.
  revert r q. induction h as [|x h IH]; intros r q H; cbn in H; [lia|].
  destruct r as [|r]; destruct q as [|q]; cbn; auto. apply IH. lia.
Qed.

(** what a call can do to the store: nothing, append, or (Nvector.unit) overwrite one Nvector *)
Lemma step_cases c h :
  (exists new, fst (step c h) = h ++ new) \/
  (exists r v w, c = Unit r /\ nv_at h r = Some v /\ ends (nv_unit_inplace v) w /\
     fst (step c h) = firstn r h ++ CNv w :: skipn (S r) h).
Proof.
  assert (N : exists new, h = h ++ new) by (exists []; symmetry; apply app_nil_r).
  assert (G : forall A (m : M A) (k : A -> outcome), (forall a, exists new, fst (k a) = h ++ new) -> exists new, fst (with_ h m k) = h ++ new)
    by (intros A m k Hk; unfold with_; destruct (snd m); cbn; auto).
  assert (G' : forall A (m : option A) (k : A -> outcome), (forall a, exists new, fst (k a) = h ++ new) -> exists new, fst (need h m k) = h ++ new)
    by (intros A m k Hk; unfold need; destruct m; cbn; auto).
  assert (W : forall x, exists new, fst (MHist.new h x) = h ++ new) by (intros x; exists [x]; reflexivity).
  assert (T : forall r, exists new, fst (to_nvector_at h r) = h ++ new).
  { intros r. unfold to_nvector_at. apply G'. intros p. destruct p; auto. }
  destruct c.
  16: {
    cbn [step]. unfold need. destruct (nv_at h v) as [x|] eqn:E; [|left; auto].
    unfold with_. destruct (snd (nv_unit_inplace x)) as [w|] eqn:E2; [|left; auto].
    right. exists v, x, w. auto. }
  all: left; cbn [step]; unfold new_frameN, to_geo_at.
  all: repeat (first [apply G'; intros ? | apply G; intros ?]); auto.
  all: try (eexists; reflexivity).
  all: try (match goal with a : MObjects.point |- _ => destruct a end; auto; fail).
  all: try (match goal with |- context [match nth_error ?hh ?x with _ => _ end] => destruct (nth_error hh x) as [[]|] end; auto; fail).
  all: try (match goal with a : cell |- _ => destruct a end; auto; fail).
  destruct (if degrees then (rad1 yaw, rad1 pitch, rad1 roll) else (yaw, pitch, roll)) as [[y p'] q].
  destruct (T point) as (new & E). destruct (to_nvector_at h point) as [h' [[n|]|e]]; cbn in *; eauto.
  subst h'. eexists. rewrite <- app_assoc. reflexivity.
Qed.

Lemma nv_at_lt h r v : nv_at h r = Some v -> (r < length h)%nat.
Proof. unfold nv_at. intros H. apply nth_error_Some. destruct (nth_error h r); congruence. Qed.

(** ** Only unit() on the object itself ever changes an object *)
Theorem C72_only_unit_changes_an_object : forall cs h r, (r < length h)%nat -> ~ In (Unit r) cs ->
  nth_error (run cs h) r = nth_error h r.
Proof.
  induction cs as [|c cs IH]; intros h r Hr Hc; cbn [run]; auto.
  assert (L : (length h <= length (fst (step c h)))%nat /\ nth_error (fst (step c h)) r = nth_error h r).
  { destruct (step_cases c h) as [(new & ->)|(q & v & w & -> & E & _ & ->)].
    - rewrite app_length. split; [lia|]. apply app_nth; auto.
    - apply nv_at_lt in E. split.
      + rewrite app_length, firstn_length, <- (firstn_skipn q h) at 1. cbn [length]. rewrite app_length, firstn_length, !skipn_length. lia.
      + rewrite put_nth by auto. destruct (Nat.eqb_spec r q) as [->|]; auto. exfalso. apply Hc. left; auto. }
  destruct L as [L1 L2]. rewrite IH, L2; auto; [lia|]. intros I. apply Hc. right; auto.
Qed.
Print Assumptions C72_only_unit_changes_an_object.

(** [w] is what repeated unit() made of [v] *)
Inductive normalised : nvector -> nvector -> Prop :=
| norm_refl v : normalised v v
| norm_step v w x : normalised v w -> ends (nv_unit_inplace w) x -> normalised v x.

Lemma norm_trans v w x : normalised v w -> normalised w x -> normalised v x.
Proof. intros H G. induction G; auto. eapply norm_step; [apply IHG; auto|auto]. Qed.

Lemma step_cell c h r x : nth_error h r = Some x ->
  nth_error (fst (step c h)) r = Some x \/
  exists v w, x = CNv v /\ nth_error (fst (step c h)) r = Some (CNv w) /\ normalised v w.
Proof.
  intros H. assert (L : (r < length h)%nat) by (apply nth_error_Some; congruence).
  destruct (step_cases c h) as [(new & ->)|(q & v & w & -> & E & U & ->)].
  - left. rewrite app_nth; auto.
  - rewrite put_nth by (eapply nv_at_lt; eauto). destruct (Nat.eqb_spec r q) as [->|]; auto.
    right. unfold nv_at in E. rewrite H in E. destruct x; try discriminate. injection E as ->.
    exists v, w. repeat split. eapply norm_step; [apply norm_refl|auto].
Qed.

Lemma run_cell cs : forall h r x, nth_error h r = Some x ->
  nth_error (run cs h) r = Some x \/
  exists v w, x = CNv v /\ nth_error (run cs h) r = Some (CNv w) /\ normalised v w.
Proof.
  induction cs as [|c cs IH]; intros h r x H; cbn [run]; auto.
  destruct (step_cell c h r x H) as [E|(v & w & -> & E & N)].
  - apply IH; auto.
  - destruct (IH _ _ _ E) as [E'|(v' & w' & [= <-] & E' & N')]; right; [exists v, w; auto|].
    exists v, w'. repeat split; auto. eapply norm_trans; eauto.
Qed.

Lemma normalised_nv v w : normalised v w -> forall n u z a f M, is_nv v n u z a f M ->
  n_z w = n_z v /\ n_frame w = n_frame v /\
  (exists u', is_nv w n u' z a f M /\ forall j, (j < n)%nat -> direction (u' j) = direction (u j)) /\
  (forall p, is_point (PNv v) n p a f M -> is_point (PNv w) n p a f M).
Proof.
  intros N n u z a f M H. induction N as [v|v w x N IH E].
  - repeat split; auto. exists u. auto.
  - destruct (IH H) as (Ez & Ef & (u' & Hu & D) & P).
    destruct (C70_unit_in_place _ _ _ _ _ _ _ Hu) as (y & Ey & C & Yz & Yf & _ & Pt & _).
    pose proof (ends_fun _ _ _ E Ey) as <-.
    split; [congruence|]. split; [congruence|]. destruct Hu as (Hn & Cu & Nz & Sz & F). split.
    + exists (fun j => direction (u' j)). split.
      * split; auto. split; auto. split; [|split; congruence].
        intros j Hj. apply vnorm_inv, direction_unit, Nz, Hj.
      * intros j Hj. rewrite direction_of_unit by (apply direction_unit, Nz, Hj). auto.
    + intros p Hp. apply Pt; auto.
Qed.

(** ** Points stay where they are *)
Theorem C72_points_stay_in_place : forall cs h r pt n p a f M,
  point_at h r = Some pt -> is_point pt n p a f M ->
  exists pt', point_at (run cs h) r = Some pt' /\ is_point pt' n p a f M /\
    match pt with
    | PNv v => exists w, pt' = PNv w /\ n_z w = n_z v /\ n_frame w = n_frame v   (* only its n-vectors may have been scaled *)
    | _ => pt' = pt
    end.
Proof.
  intros cs h r pt n p a f M H P. unfold point_at in H.
  destruct (nth_error h r) as [x|] eqn:E; [|discriminate].
  destruct (run_cell cs h r x E) as [E'|(v & w & -> & E' & N)].
  - destruct x; try discriminate.
    + injection H as <-. eexists. unfold point_at. rewrite E'. auto.
    + injection H as <-. eexists. unfold point_at. rewrite E'. repeat split; eauto.
    + injection H as <-. eexists. unfold point_at. rewrite E'. auto.
    + destruct (local_at h frame); [|discriminate]. injection H as <-. destruct P.
  - injection H as <-. destruct P as (u & z & Hv & At).
    destruct (normalised_nv _ _ N _ _ _ _ _ _ Hv) as (Ez & Ef & _ & Pp).
    exists (PNv w). unfold point_at. rewrite E'. repeat split; eauto. apply Pp. exists u, z; auto.
Qed.
Print Assumptions C72_points_stay_in_place.

(** ** Local frames keep their orientation *)
(** the origin(s) of a wander azimuth frame are off the polar axis *)
Definition off_axis (l : local) (n : nat) (M : mat) : Prop :=
  match l with
  | LocalL v _ => forall u, cols (n_normal v) n u -> forall j, (j < n)%nat -> vcross (north M) (u j) <> v0
  | _ => True
  end.

Definition with_nv (l : local) (v : nvector) : local :=
  match l with LocalN _ => LocalN v | LocalL _ wa => LocalL v wa | LocalB _ y p r => LocalB v y p r end.

Lemma cross_direction N u w : direction u = direction w -> u <> v0 -> w <> v0 -> vcross N u <> v0 -> vcross N w <> v0.
Proof.
  intros E Hu Hw H Z. apply H. pose proof (vnorm_nz _ Hu) as Pu. pose proof (vnorm_nz _ Hw) as Pw.
  assert (X : u = vscale (vnorm u / vnorm w) w).
  { assert (Y : u = vscale (vnorm u) (direction u)).
    { unfold direction. destruct u; unfold vscale; cbn [Spec.vx Spec.vy Spec.vz]. f_equal; field; lra. }
    rewrite Y at 1. rewrite E. unfold direction. destruct w; unfold vscale; cbn [Spec.vx Spec.vy Spec.vz]. f_equal; field; lra. }
  rewrite X, vcross_scale_r, Z. unfold vscale, v0; cbn [Spec.vx Spec.vy Spec.vz]. f_equal; ring.
Qed.

Lemma local_orientation l w n a f M : is_local l n a f M -> off_axis l n M -> normalised (l_nvector l) w ->
  exists F R R', ends (R_EN l) R /\ ends (R_EN (with_nv l w)) R' /\ mats R n F /\ mats R' n F.
Proof.
  intros H O N. destruct l as [v|v wa|v y p r]; cbn [is_local l_nvector with_nv] in *.
  - destruct H as (u & z & Hv). destruct (normalised_nv _ _ N _ _ _ _ _ _ Hv) as (_ & _ & (u' & Hw & D) & _).
    destruct (R_EN_N _ _ _ _ _ _ _ Hv) as (ws & R & ER & HR). destruct (R_EN_N _ _ _ _ _ _ _ Hw) as (ws' & R' & ER' & HR').
    eexists _, R, R'. unfold ends. rewrite ER, ER'. split; [reflexivity|]. split; [reflexivity|]. split; [exact HR|].
    eapply mats_ext; [|exact HR']. intros j Hj. cbn beta. rewrite D; auto.
  - destruct H as (u & z & w0 & Hv & Sw). destruct (normalised_nv _ _ N _ _ _ _ _ _ Hv) as (_ & _ & (u' & Hw & D) & _).
    destruct (R_EN_L v wa _ _ _ _ _ _ _ Hv Sw) as (ws & R & la & lo & ER & Hll & HR).
    destruct (R_EN_L w wa _ _ _ _ _ _ _ Hw Sw) as (ws' & R' & la' & lo' & ER' & Hll' & HR').
    eexists _, R, R'. unfold ends. rewrite ER, ER'. split; [reflexivity|]. split; [reflexivity|]. split; [exact HR|].
    eapply mats_ext; [|exact HR']. intros j Hj. cbn beta.
    destruct Hv as (_ & Cv & Nv & _ & Fr). destruct Hw as (_ & Cw & Nw & _ & _). pose proof (frame_rot _ _ _ _ Fr) as HM.
    pose proof (O u Cv j Hj) as Np.
    destruct (Hll j Hj) as (Hla & Hlo). destruct (Hll' j Hj) as (Hla' & Hlo').
    rewrite (Mxyz_split (lo j)), (Mxyz_split (lo' j)), <- !mmul_assoc.
    assert (Np' : vcross (north M) (u' j) <> v0) by (apply (cross_direction _ (u j)); [symmetry; apply D|apply Nv|apply Nw|]; auto).
    rewrite (NED_xyz M (u j) (la j) (lo j)), (NED_xyz M (u' j) (la' j) (lo' j)); auto. rewrite D; auto.
  - destruct H as (u & z & y' & p' & r' & Hv & Sy & Sp & Sr).
    destruct (normalised_nv _ _ N _ _ _ _ _ _ Hv) as (_ & _ & (u' & Hw & D) & _).
    destruct (R_EN_B v y p r _ _ _ _ _ _ _ _ _ Hv Sy Sp Sr) as (ws & R & ER & HR).
    destruct (R_EN_B w y p r _ _ _ _ _ _ _ _ _ Hw Sy Sp Sr) as (ws' & R' & ER' & HR').
    eexists _, R, R'. unfold ends. rewrite ER, ER'. split; [reflexivity|]. split; [reflexivity|]. split; [exact HR|].
    eapply mats_ext; [|exact HR']. intros j Hj. cbn beta. rewrite D; auto.
Qed.

Lemma local_later cs h r l : local_at h r = Some l ->
  exists w, local_at (run cs h) r = Some (with_nv l w) /\ normalised (l_nvector l) w.
Proof.
  intros H. unfold local_at in H. destruct (nth_error h r) as [x|] eqn:E; [|discriminate].
  assert (K : forall n v, nv_at h n = Some v -> exists w, nv_at (run cs h) n = Some w /\ normalised v w).
  { intros n v Hn. unfold nv_at in Hn. destruct (nth_error h n) as [c|] eqn:En; [|discriminate].
    destruct c; try discriminate. injection Hn as ->.
    unfold nv_at. destruct (run_cell cs h n _ En) as [E'|(v' & w & [= <-] & E' & N)]; rewrite E'; eexists; split; eauto. apply norm_refl. }
  assert (E' : match x with CNv _ => True | _ => nth_error (run cs h) r = Some x end).
  { destruct (run_cell cs h r x E) as [E'|(v & w & -> & _)]; auto. destruct x; auto. }
  unfold local_at.
  destruct x; try discriminate; rewrite E'; destruct (nv_at h nv) as [v|] eqn:En; try discriminate;
    destruct (K _ _ En) as (w & Ew & N); rewrite Ew; injection H as <-; exists w; auto.
Qed.

Theorem C72_frames_keep_their_orientation : forall cs h r l n a f M,
  local_at h r = Some l -> is_local l n a f M -> off_axis l n M ->
  exists l' F R R', local_at (run cs h) r = Some l' /\
    ends (R_EN l) R /\ ends (R_EN l') R' /\ mats R n F /\ mats R' n F.
Proof.
  intros cs h r l n a f M H L O. destruct (local_later cs h r l H) as (w & E & N).
  destruct (local_orientation l w n a f M L O N) as (F & R & R' & G). exists (with_nv l w), F, R, R'. auto.
Qed.
Print Assumptions C72_frames_keep_their_orientation.

(** ** Vectors in local frames keep their components and stand for the same vector *)
Theorem C72_pvectors_stay : forall cs h r v n m k p a f M,
  point_at h r = Some (PPv v) -> cols (p_p v) n p -> is_local (p_frame v) m a f M -> off_axis (p_frame v) m M ->
  bdim m n = Some k -> (0 < n)%nat -> (p_scalar v = true -> k = 1%nat) ->
  exists v' e e' q, point_at (run cs h) r = Some (PPv v') /\ p_p v' = p_p v /\ p_scalar v' = p_scalar v /\
    ends (pv_to_ecef v) e /\ ends (pv_to_ecef v') e' /\ is_ecef e k q a f M /\ is_ecef e' k q a f M.
Proof.
  intros cs h r v n m k p a f M H Cp L O D Hn Sc. unfold point_at in H.
  destruct (nth_error h r) as [x|] eqn:E; [|discriminate]. destruct x; try discriminate.
  destruct (local_at h frame) as [l|] eqn:El; [|discriminate]. injection H as <-. cbn [p_p p_frame p_scalar] in *.
  destruct (local_later cs h frame l El) as (w & Ew & N).
  destruct (local_orientation l w m a f M L O N) as (F & R & R' & ER & ER' & HR & HR').
  exists (MkPv p0 (with_nv l w) scalar).
  destruct (is_nv_local _ _ _ _ _ L) as (u & z & Hv). pose proof Hv as (Hm & _ & _ & _ & Fr).
  destruct (normalised_nv _ _ N _ _ _ _ _ _ Hv) as (_ & Ef & _ & _).
  assert (Ln : l_nvector (with_nv l w) = w) by (destruct l; reflexivity).
  unfold ends in ER, ER'. destruct (R_EN l) as [ws1 r1] eqn:E1, (R_EN (with_nv l w)) as [ws2 r2] eqn:E2. cbn in ER, ER'. subst r1 r2.
  assert (Pk : (0 < k)%nat) by (eapply bdim_gt0; eauto).
  destruct (pv_to_ecef_spec (MkPv p0 l scalar) n m k p F ws1 R a f M Cp Fr E1 HR D Pk Sc) as (e & Ee & He & _).
  destruct (pv_to_ecef_spec (MkPv p0 (with_nv l w) scalar) n m k p F ws2 R' a f M Cp) as (e' & Ee' & He' & _); auto.
  { cbn [p_frame]. rewrite Ln, Ef. exact Fr. }
  exists e, e'. eexists. split.
  - unfold point_at. destruct (run_cell cs h r _ E) as [E'|(v & w' & [=] & _)]. rewrite E', Ew. reflexivity.
  - cbn [p_p p_scalar]. split; auto. split; auto. unfold ends. rewrite Ee, Ee'. split; [reflexivity|]. split; [reflexivity|]. split; [exact He|exact He'].
Qed.
Print Assumptions C72_pvectors_stay.

(** ** Who shares an object with whom *)
(** an Nvector's to_nvector(), and the nvector attribute of a FrameB made from it, are that very object:
    normalising one normalises the other *)
Theorem C72_body_frame_shares_the_nvector : forall h r v y p q d,
  nv_at h r = Some v ->
  step (ToNvector r) h = (h, inl (Some r)) /\
  exists h', step (NewFrameB r y p q d) h = (h', inl (Some (length h))) /\
    step (AttrNvector (length h)) h' = (h', inl (Some r)).
Proof.
  intros h r v y p q d H.
  assert (P : point_at h r = Some (PNv v)).
  { unfold point_at, nv_at in *. destruct (nth_error h r) as [[]|]; try discriminate. congruence. }
  assert (T : to_nvector_at h r = (h, inl (Some r))) by (unfold to_nvector_at, need; rewrite P; reflexivity).
  split; [exact T|]. cbn [step]. rewrite T.
  destruct (if d then (rad1 y, rad1 p, rad1 q) else (y, p, q)) as [[y' p'] q'].
  eexists. split; [reflexivity|]. rewrite nth_error_app2, Nat.sub_diag by lia. reflexivity.
Qed.

(** FrameN and FrameL have an Nvector of their own: whatever is done later to the point they were made from,
    also normalising it, leaves them exactly as they are *)
Theorem C72_level_frames_own_their_nvector : forall h c r wa fr h',
  c = NewFrameN r \/ c = NewFrameL r wa -> step c h = (h', inl (Some fr)) ->
  exists own l, step (AttrNvector fr) h' = (h', inl (Some own)) /\ own <> r /\ ~ (own < length h)%nat /\
    local_at h' fr = Some l /\ forall cs, ~ In (Unit own) cs -> local_at (run cs h') fr = Some l.
Proof.
  intros h c r wa fr h' Hc E.
  assert (X : exists mk w l, (mk = CFrameN \/ mk = (fun n => CFrameL n wa)) /\ (r < length h)%nat /\
    h' = h ++ [CNv w; mk (length h)] /\ fr = S (length h) /\ local_at h' fr = Some l).
  { assert (G : forall mk, need h (point_at h r) (fun p => new_frameN h p mk) = (h', inl (Some fr)) ->
       (mk = CFrameN \/ mk = (fun n => CFrameL n wa)) ->
       exists w l, (r < length h)%nat /\ h' = h ++ [CNv w; mk (length h)] /\ fr = S (length h) /\ local_at h' fr = Some l).
    { intros mk Em Hmk. unfold need in Em. destruct (point_at h r) as [p|] eqn:P; [|discriminate].
      unfold new_frameN, with_ in Em. destruct (snd _) as [w|]; [|discriminate]. injection Em as <- <-.
      assert (Lr : (r < length h)%nat). { apply nth_error_Some. unfold point_at in P. destruct (nth_error h r); congruence. }
      assert (N1 : nth_error (h ++ [CNv w; mk (length h)]) (S (length h)) = Some (mk (length h))).
      { rewrite nth_error_app2 by lia. replace (S (length h) - length h)%nat with 1%nat by lia. reflexivity. }
      assert (N0 : nv_at (h ++ [CNv w; mk (length h)]) (length h) = Some w).
      { unfold nv_at. rewrite nth_error_app2, Nat.sub_diag by lia. reflexivity. }
      exists w. destruct Hmk as [-> | ->].
      - exists (LocalN w). repeat split; auto. unfold local_at. rewrite N1, N0. reflexivity.
      - exists (LocalL w wa). repeat split; auto. unfold local_at. rewrite N1, N0. reflexivity. }
    destruct Hc as [-> | ->]; cbn [step] in E.
    - destruct (G CFrameN E (or_introl eq_refl)) as (w & l & ?). exists CFrameN, w, l. tauto.
    - destruct (G (fun n => CFrameL n wa) E (or_intror eq_refl)) as (w & l & ?). exists (fun n => CFrameL n wa), w, l. tauto. }
  destruct X as (mk & w & l & Hmk & Lr & Eh & -> & El). exists (length h), l.
  assert (N1 : nth_error h' (S (length h)) = Some (mk (length h))).
  { rewrite Eh, nth_error_app2 by lia. replace (S (length h) - length h)%nat with 1%nat by lia. reflexivity. }
  assert (Lh : length h' = (length h + 2)%nat) by (rewrite Eh, app_length; reflexivity).
  split. { cbn [step]. rewrite N1. destruct Hmk as [-> | ->]; reflexivity. }
  split; [lia|]. split; [lia|]. split; [exact El|].
  intros cs Hcs.
  assert (C0 : nth_error (run cs h') (length h) = nth_error h' (length h)) by (apply C72_only_unit_changes_an_object; auto; lia).
  assert (C1 : nth_error (run cs h') (S (length h)) = nth_error h' (S (length h))).
  { destruct (run_cell cs h' _ _ N1) as [X|(v & w' & X & _)]; [congruence|]. destruct Hmk as [-> | ->]; discriminate. }
  unfold local_at, nv_at in *. rewrite C1, N1 in *. destruct Hmk as [-> | ->]; rewrite C0; exact El.
Qed.
Print Assumptions C72_level_frames_own_their_nvector.

(** a store with an Nvector of length 3, a body frame sharing it and a path from it to a GeoPoint;
    calling unit() does change the object, but not the position *)
Example C72_example : exists p,
  let h := [CNv ex_nv; CFrameB 0%nat (scal (Fin 1)) z0 z0; CGeo ex_geo; CPath 0%nat 2%nat] in
  point_at h 0%nat = Some (PNv ex_nv) /\ is_point (PNv ex_nv) 1 p 6378137 (/ 298) Me /\
  (exists l, local_at h 1%nat = Some l /\ is_local l 1 6378137 (/ 298) Me /\ off_axis l 1 Me) /\
  nth_error (run [Unit 0%nat] h) 0%nat <> nth_error h 0%nat.
Proof.
  destruct C45_example as (_ & _ & (p & Hp) & _). exists p. intros h. split; [reflexivity|]. split; [exact Hp|]. split.
  - eexists. split; [reflexivity|]. split; [|exact I]. exists (fun _ => V 1 2 2), (fun _ => 0), (fun _ => 1), (fun _ => 0), (fun _ => 0).
    split; [apply ex_nv_ok|]. repeat split; apply spread_scalar; split; reflexivity.
  - destruct (C70_unit_in_place _ _ _ _ _ _ _ ex_nv_ok) as (w & Ew & C & _).
    assert (E : nth_error (run [Unit 0%nat] h) 0%nat = Some (CNv w)).
    { cbn [run step]. change (nv_at h 0%nat) with (Some ex_nv). cbn [need]. unfold with_. unfold ends in Ew. rewrite Ew. reflexivity. }
    rewrite E. intros [= X]. subst w.
    assert (Y : V 1 2 2 = direction (V 1 2 2)).
    { eapply vcol_unique; [apply (proj2 (proj1 (proj2 ex_nv_ok)) 0%nat); lia|apply (proj2 C 0%nat); lia]. }
    assert (U : vnorm (direction (V 1 2 2)) = 1) by (apply direction_unit; intros [=]; lra).
    rewrite <- Y in U. apply vnorm_unit in U. unfold vdot in U; cbn [Spec.vx Spec.vy Spec.vz] in U. lra.
Qed.
