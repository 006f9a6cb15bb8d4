(** * Array operations on families of real vectors, with broadcasting *)
From Coq Require Import List Arith Lia Bool Reals Lra.
From Verif Require Import Num Py Nd MUtil MRotation Spec SpecArr LNum LVec.
Import ListNotations.
Local Open Scope R_scope.

Local Notation "'Ok' C" := (ret C) (at level 10, only parsing).

(** ** monad *)
Lemma bind_inl {A B} w (a : A) (f : A -> M B) :
  bind (w, inl a) f = (w ++ fst (f a), snd (f a)).
Proof. simpl. destruct (f a); reflexivity. Qed.
Lemma bind_ret {A B} (a : A) (f : A -> M B) : bind (ret a) f = f a.
Proof. unfold ret. rewrite bind_inl. simpl. destruct (f a); reflexivity. Qed.
Lemma bind_raise {A B} e (f : A -> M B) : bind (raise e) f = raise e.
Proof. reflexivity. Qed.

(** use [H : exists C, m = ret C /\ P C] to advance a computation *)
Tactic Notation "step" constr(H) ident(C) ident(HC) :=
  let E := fresh "E" in
  destruct H as (C & E & HC); rewrite E, bind_ret; clear E.

(** ** broadcasting of one axis *)
Lemma bdim_refl n : bdim n n = Some n.
Proof. unfold bdim. rewrite Nat.eqb_refl. reflexivity. Qed.
Lemma bdim_1_l n : bdim 1 n = Some n.
Proof. unfold bdim. destruct n as [|[|n]]; reflexivity. Qed.
Lemma bdim_1_r n : bdim n 1 = Some n.
Proof. unfold bdim. destruct n as [|[|n]]; reflexivity. Qed.
Lemma bdim_comm n m : bdim n m = bdim m n.
Proof.
  unfold bdim. rewrite (Nat.eqb_sym m n).
  destruct (n =? m)%nat eqn:E; [apply Nat.eqb_eq in E; subst; reflexivity|].
  destruct (n =? 1)%nat eqn:E1, (m =? 1)%nat eqn:E2; auto.
  apply Nat.eqb_eq in E1, E2; subst. discriminate.
Qed.
Lemma bdim_inv n m k : bdim n m = Some k -> (n = k \/ n = 1%nat) /\ (m = k \/ m = 1%nat).
Proof.
  unfold bdim. destruct (n =? m)%nat eqn:E; [apply Nat.eqb_eq in E; intros [= <-]; subst; auto|].
  destruct (n =? 1)%nat eqn:E1; [apply Nat.eqb_eq in E1; intros [= <-]; auto|].
  destruct (m =? 1)%nat eqn:E2; [apply Nat.eqb_eq in E2; intros [= <-]; auto|discriminate].
Qed.
Lemma cl_lt_l n m k j : bdim n m = Some k -> (j < k)%nat -> (cl n j < n)%nat.
Proof.
  intros H Hj. apply bdim_inv in H. unfold cl.
  destruct (n =? 1)%nat eqn:E; [apply Nat.eqb_eq in E; lia|].
  apply Nat.eqb_neq in E. destruct H as [[|] _]; lia.
Qed.
Lemma cl_lt_r n m k j : bdim n m = Some k -> (j < k)%nat -> (cl m j < m)%nat.
Proof. rewrite bdim_comm. apply cl_lt_l. Qed.
Lemma cl_id n j : (j < n)%nat -> cl n j = j.
Proof. unfold cl. destruct (n =? 1)%nat eqn:E; auto. apply Nat.eqb_eq in E; lia. Qed.
Lemma cl_1 j : cl 1 j = 0%nat. Proof. reflexivity. Qed.
Lemma bdim_pos n m k : bdim n m = Some k -> (0 < k)%nat -> (0 < n)%nat /\ (0 < m)%nat.
Proof. intros H Hk. apply bdim_inv in H. lia. Qed.

(** ** shapes *)
Lemma bshape_3n_3m n m k : bdim n m = Some k -> bshape [3%nat; n] [3%nat; m] = Some [3%nat; k].
Proof. intros H. unfold bshape. simpl. rewrite H. reflexivity. Qed.
Lemma bshape_3n_1m n m k : bdim n m = Some k -> bshape [3%nat; n] [1%nat; m] = Some [3%nat; k].
Proof. intros H. unfold bshape. simpl. rewrite H. reflexivity. Qed.
Lemma bshape_1m_3n n m k : bdim n m = Some k -> bshape [1%nat; n] [3%nat; m] = Some [3%nat; k].
Proof. intros H. unfold bshape. simpl. rewrite H. reflexivity. Qed.
Lemma bshape_3n_m n m k : bdim n m = Some k -> bshape [3%nat; n] [m] = Some [3%nat; k].
Proof. intros H. unfold bshape. simpl. rewrite H. reflexivity. Qed.
Lemma bshape_n_m n m k : bdim n m = Some k -> bshape [n] [m] = Some [k].
Proof. intros H. unfold bshape. simpl. rewrite H. reflexivity. Qed.
Lemma bshape_m_nil n : bshape [n] [] = Some [n].
Proof. reflexivity. Qed.
Lemma bshape_nil_l s : bshape [] s = Some s.
Proof. unfold bshape. simpl. rewrite rev_involutive. reflexivity. Qed.
Lemma bshape_nil_r s : bshape s [] = Some s.
Proof.
  unfold bshape. simpl. destruct (rev s) eqn:E; simpl.
  - apply (f_equal (@rev nat)) in E. rewrite rev_involutive in E. simpl in E. subst. reflexivity.
  - rewrite <- (rev_involutive s), E. reflexivity.
Qed.
Lemma bshape_rev_refl s : bshape_rev s s = Some s.
Proof. induction s; simpl; auto. rewrite bdim_refl, IHs. reflexivity. Qed.
Lemma bshape_refl s : bshape s s = Some s.
Proof. unfold bshape. rewrite bshape_rev_refl, rev_involutive. reflexivity. Qed.
Lemma bshape_rev_comm s : forall t, bshape_rev s t = bshape_rev t s.
Proof.
  induction s as [|a s IH]; intros [|b t]; simpl; auto. rewrite bdim_comm, IH. reflexivity.
Qed.
Lemma bshape_comm s t : bshape s t = bshape t s.
Proof. unfold bshape. rewrite bshape_rev_comm. reflexivity. Qed.

Lemma bidx_2 a b i j : bidx [a; b] [i; j] = [cl a i; cl b j].
Proof. reflexivity. Qed.
Lemma bidx_1_2 b i j : bidx [b] [i; j] = [cl b j].
Proof. reflexivity. Qed.
Lemma bidx_1 b j : bidx [b] [j] = [cl b j].
Proof. reflexivity. Qed.
Lemma bidx_nil ix : bidx [] ix = [].
Proof. unfold bidx. destruct (skipn _ ix); reflexivity. Qed.

(** three rows *)
Lemma lt3 (i : nat) : (i < 3)%nat -> i = 0%nat \/ i = 1%nat \/ i = 2%nat.
Proof. lia. Qed.

(** ** elementwise maps *)
Definition vmap (op : R -> R) (u : vec) : vec := V (op (vx u)) (op (vy u)) (op (vz u)).
Definition vmap2 (op : R -> R -> R) (u v : vec) : vec :=
  V (op (vx u) (vx v)) (op (vy u) (vy v)) (op (vz u) (vz v)).

Lemma map1_cols f op A n u :
  (forall x a, x ≈ a -> f x ≈ op a) -> cols A n u -> cols (map1 f A) n (fun j => vmap op (u j)).
Proof.
  intros H [S C]. split; [exact S|]. intros j Hj. destruct (C j Hj) as (a & b & c).
  unfold vcol, map1, vmap; simpl; auto.
Qed.

Lemma cols_ext A n u v : (forall j, (j < n)%nat -> u j = v j) -> cols A n u -> cols A n v.
Proof. intros E [S C]. split; auto. intros j Hj. rewrite <- E; auto. Qed.
Lemma list1_ext A n u v : (forall j, (j < n)%nat -> u j = v j) -> list1 A n u -> list1 A n v.
Proof. intros E [S C]. split; auto. intros j Hj. rewrite <- E; auto. Qed.
Lemma vals_ext A n u v : (forall j, (j < n)%nat -> u j = v j) -> vals A n u -> vals A n v.
Proof.
  intros E [[-> [S C]]|L]; [left|right].
  - split; auto. split; auto. rewrite <- E by lia; auto.
  - eapply list1_ext; eauto.
Qed.
Lemma cols_neg A n u : cols A n u -> cols (map1 nneg A) n (fun j => vneg (u j)).
Proof. apply map1_cols. apply fin_neg. Qed.

Lemma map2_cols f op (P : R -> Prop) A B n m k u v :
  (forall x y a b, x ≈ a -> y ≈ b -> P b -> f x y ≈ op a b) ->
  cols A n u -> cols B m v -> bdim n m = Some k ->
  (forall j, (j < m)%nat -> P (vx (v j)) /\ P (vy (v j)) /\ P (vz (v j))) ->
  exists C, map2 f A B = ret C /\ cols C k (fun j => vmap2 op (u (cl n j)) (v (cl m j))).
Proof.
  intros H [SA CA] [SB CB] D HP. unfold map2. rewrite SA, SB, (bshape_3n_3m _ _ _ D).
  eexists; split; [reflexivity|]. split; [reflexivity|]. intros j Hj.
  pose proof (cl_lt_l _ _ _ _ D Hj) as La. pose proof (cl_lt_r _ _ _ _ D Hj) as Lb.
  destruct (CA _ La) as (a0 & a1 & a2), (CB _ Lb) as (b0 & b1 & b2), (HP _ Lb) as (p0 & p1 & p2).
  unfold vcol, vmap2; cbn [get vx vy vz]. rewrite !bidx_2. repeat split; apply H; auto.
Qed.

Definition any (_ : R) : Prop := True.
Lemma add_cols A B n m k u v : cols A n u -> cols B m v -> bdim n m = Some k ->
  exists C, map2 nadd A B = ret C /\ cols C k (fun j => vadd (u (cl n j)) (v (cl m j))).
Proof.
  intros HA HB D. apply (map2_cols nadd Rplus any _ _ _ _ _ _ _ (fun x y a b Hx Hy _ => fin_add x y a b Hx Hy) HA HB D).
  unfold any; auto.
Qed.
Lemma sub_cols A B n m k u v : cols A n u -> cols B m v -> bdim n m = Some k ->
  exists C, map2 nsub A B = ret C /\ cols C k (fun j => vsub (u (cl n j)) (v (cl m j))).
Proof.
  intros HA HB D. apply (map2_cols nsub Rminus any _ _ _ _ _ _ _ (fun x y a b Hx Hy _ => fin_sub x y a b Hx Hy) HA HB D).
  unfold any; auto.
Qed.

(** a 3 x n array with a scalar or vector along the last axis *)
Lemma map2_cols_vals f op (P : R -> Prop) A z n m k u r :
  (forall x y a b, x ≈ a -> y ≈ b -> P b -> f x y ≈ op a b) ->
  cols A n u -> vals z m r -> bdim n m = Some k ->
  (forall j, (j < m)%nat -> P (r j)) ->
  exists C, map2 f A z = ret C /\
    cols C k (fun j => vmap (fun x => op x (r (cl m j))) (u (cl n j))).
Proof.
  intros H [SA CA] Hz D HP. unfold map2. rewrite SA.
  destruct Hz as [[-> [SB CB]]|[SB CB]].
  - rewrite SB, bshape_nil_r. rewrite bdim_1_r in D. injection D as <-.
    eexists; split; [reflexivity|]. split; [reflexivity|]. intros j Hj.
    destruct (CA (cl n j)) as (a0 & a1 & a2); [rewrite cl_id; auto|].
    unfold vcol, vmap; cbn [get vx vy vz]. rewrite !bidx_2, !bidx_nil.
    assert (P (r 0%nat)) by (apply HP; lia).
    rewrite cl_1. repeat split; apply H; auto.
  - rewrite SB, (bshape_3n_m _ _ _ D).
    eexists; split; [reflexivity|]. split; [reflexivity|]. intros j Hj.
    pose proof (cl_lt_l _ _ _ _ D Hj) as La. pose proof (cl_lt_r _ _ _ _ D Hj) as Lb.
    destruct (CA _ La) as (a0 & a1 & a2). pose proof (CB _ Lb). pose proof (HP _ Lb).
    unfold vcol, vmap; cbn [get vx vy vz]. rewrite !bidx_2, !bidx_1_2.
    repeat split; apply H; auto.
Qed.

Lemma mul_cols_vals A z n m k u r : cols A n u -> vals z m r -> bdim n m = Some k ->
  exists C, map2 nmul A z = ret C /\ cols C k (fun j => vscale (r (cl m j)) (u (cl n j))).
Proof.
  intros HA HB D.
  destruct (map2_cols_vals nmul Rmult any _ _ _ _ _ _ _ (fun x y a b Hx Hy _ => fin_mul x y a b Hx Hy) HA HB D)
    as (C & E & HC); [unfold any; auto|].
  exists C. split; auto. eapply cols_ext; [|apply HC].
  intros j Hj. unfold vmap, vscale. f_equal; ring.
Qed.

(** a 1 x m row (keepdims) *)
Definition keep (a : arr num) (m : nat) (r : nat -> R) : Prop :=
  shape a = [1%nat; m] /\ forall j, (j < m)%nat -> get a [0%nat; j] ≈ r j.

Lemma mul_keep_cols D A n m k r u : keep D n r -> cols A m u -> bdim n m = Some k ->
  exists C, map2 nmul D A = ret C /\ cols C k (fun j => vscale (r (cl n j)) (u (cl m j))).
Proof.
  intros [SA CA] [SB CB] Hd. unfold map2. rewrite SA, SB, (bshape_1m_3n _ _ _ Hd).
  eexists; split; [reflexivity|]. split; [reflexivity|]. intros j Hj.
  pose proof (cl_lt_l _ _ _ _ Hd Hj) as La. pose proof (cl_lt_r _ _ _ _ Hd Hj) as Lb.
  pose proof (CA _ La). destruct (CB _ Lb) as (b0 & b1 & b2).
  unfold vcol; cbn [get]. rewrite !bidx_2. change (cl 1 0) with 0%nat. change (cl 1 1) with 0%nat. change (cl 1 2) with 0%nat.
  repeat split; apply fin_mul; auto.
Qed.

(** 1-d with 1-d or scalar *)
Lemma map2_list1_vals f op (P : R -> Prop) a z n m k u r :
  (forall x y p q, x ≈ p -> y ≈ q -> P q -> f x y ≈ op p q) ->
  list1 a n u -> vals z m r -> bdim n m = Some k -> (forall j, (j < m)%nat -> P (r j)) ->
  exists C, map2 f a z = ret C /\ list1 C k (fun j => op (u (cl n j)) (r (cl m j))).
Proof.
  intros H [SA CA] Hz D HP. unfold map2. rewrite SA. destruct Hz as [[-> [SB CB]]|[SB CB]].
  - rewrite SB, bshape_nil_r. rewrite bdim_1_r in D. injection D as <-.
    eexists; split; [reflexivity|]. split; [reflexivity|]. intros j Hj. cbn [get].
    rewrite bidx_1, bidx_nil, cl_1. apply H; auto. apply CA. rewrite cl_id; auto.
  - rewrite SB, (bshape_n_m _ _ _ D). eexists; split; [reflexivity|]. split; [reflexivity|].
    intros j Hj. cbn [get]. rewrite !bidx_1.
    pose proof (cl_lt_l _ _ _ _ D Hj) as La. pose proof (cl_lt_r _ _ _ _ D Hj) as Lb.
    apply H; auto.
Qed.
Lemma mul_list1_vals a z n m k u r : list1 a n u -> vals z m r -> bdim n m = Some k ->
  exists C, map2 nmul a z = ret C /\ list1 C k (fun j => u (cl n j) * r (cl m j)).
Proof.
  intros Ha Hz D.
  apply (map2_list1_vals nmul Rmult any _ _ _ _ _ _ _ (fun x y a b Hx Hy _ => fin_mul x y a b Hx Hy) Ha Hz D).
  unfold any; auto.
Qed.

(** values with values *)
Lemma vals_scalar_inv a r f : scalar a r -> vals a 1 f -> f 0%nat = r.
Proof.
  intros [S C] [[_ [S' C']]|[S' _]]; [|rewrite S in S'; discriminate].
  eapply fin_unique; eauto.
Qed.
Lemma map2_vals f op (P : R -> Prop) a z n m k u r :
  (forall x y p q, x ≈ p -> y ≈ q -> P q -> f x y ≈ op p q) ->
  vals a n u -> vals z m r -> bdim n m = Some k -> (forall j, (j < m)%nat -> P (r j)) ->
  exists C, map2 f a z = ret C /\ vals C k (fun j => op (u (cl n j)) (r (cl m j))).
Proof.
  intros H Ha Hz D HP. destruct Ha as [[-> [SA CA]]|HL].
  - rewrite bdim_1_l in D. injection D as <-. unfold map2. rewrite SA, bshape_nil_l.
    destruct Hz as [[-> [SB CB]]|[SB CB]]; rewrite SB; eexists; split; try reflexivity.
    + left. split; auto. split; auto. cbn [get]. apply H; auto.
    + right. split; auto. intros j Hj. cbn [get]. rewrite bidx_nil, bidx_1, cl_1.
      apply H; auto; [apply CB|apply HP]; rewrite cl_id; auto.
  - destruct (map2_list1_vals f op P _ _ _ _ _ _ _ H HL Hz D HP) as (C & E & HC).
    exists C; split; auto. right; auto.
Qed.

Lemma vals_scalar r c : scalar r c -> vals r 1 (fun _ => c).
Proof. left; auto. Qed.
Lemma scal_scalar c : scalar (scal (Fin c)) c.
Proof. split; [reflexivity|apply fin_Fin]. Qed.
Lemma vals_map1 f op a n u : (forall x p, x ≈ p -> f x ≈ op p) -> vals a n u ->
  vals (map1 f a) n (fun j => op (u j)).
Proof.
  intros H [[-> [S C]]|[S C]]; [left|right].
  - split; auto. split; auto. simpl. auto.
  - split; auto. intros j Hj. simpl; auto.
Qed.
Lemma list1_map1 f op a n u : (forall x p, x ≈ p -> f x ≈ op p) -> list1 a n u ->
  list1 (map1 f a) n (fun j => op (u j)).
Proof. intros H [S C]. split; auto. intros j Hj. simpl; auto. Qed.
Lemma list1_vals a n u : list1 a n u -> vals a n u.
Proof. right; auto. Qed.

(** ** linear algebra *)
Lemma nsum3 f : nsum 3 f = nadd (nadd (f 0%nat) (f 1%nat)) (f 2%nat).
Proof. reflexivity. Qed.

Lemma mat_entry R M i j : is_mat R M -> (i < 3)%nat -> (j < 3)%nat ->
  get R [i; j] ≈ nth j [nth i [vx (r0 M); vx (r1 M); vx (r2 M)] 0;
                        nth i [vy (r0 M); vy (r1 M); vy (r2 M)] 0;
                        nth i [vz (r0 M); vz (r1 M); vz (r2 M)] 0] 0.
Proof.
  intros (S & (a & b & c) & (d & e & f) & (g & h & l)) Hi Hj.
  destruct (lt3 i Hi) as [->|[->| ->]], (lt3 j Hj) as [->|[->| ->]]; simpl; assumption.
Qed.

Lemma dot_mat_cols R M A n u : is_mat R M -> cols A n u ->
  exists C, dot R A = ret C /\ cols C n (fun j => mulv M (u j)).
Proof.
  intros HR [SA CA]. pose proof HR as (SR & (a & b & c) & (d & e & f) & (g & h & l)).
  unfold dot. rewrite SR, SA. simpl (3 =? 3)%nat. cbv iota.
  eexists; split; [reflexivity|]. split; [reflexivity|]. intros j Hj.
  destruct (CA j Hj) as (x & y & z). unfold vcol; cbn [get at_ nth]. rewrite !nsum3.
  unfold at_; cbn [nth].
  unfold mulv, vdot, c0, c1, c2, mT in *; cbn [vx vy vz r0 r1 r2] in *.
  repeat split; finr.
Qed.

Lemma is_mat_transpose R M : is_mat R M -> is_mat (transpose R) (mT M).
Proof.
  intros (S & (a & b & c) & (d & e & f) & (g & h & l)).
  unfold c0, c1, c2, mT in *; cbn [vx vy vz r0 r1 r2] in *.
  split; [unfold transpose; cbn [shape]; rewrite S; reflexivity|].
  unfold vcol, transpose, c0, c1, c2, mT; simpl. auto 10.
Qed.

Lemma is_mat_swapaxes R M : is_mat R M -> exists C, swapaxes10 R = ret C /\ is_mat C (mT M).
Proof.
  intros (S & (a & b & c) & (d & e & f) & (g & h & l)).
  unfold c0, c1, c2, mT in *; cbn [vx vy vz r0 r1 r2] in *.
  unfold swapaxes10. rewrite S. eexists; split; [reflexivity|].
  split; [reflexivity|]. unfold vcol, c0, c1, c2, mT; simpl. auto 10.
Qed.

(** dot(A.T, B) is the table of all dot products *)
Lemma dot_T_cols A B n m u v : cols A n u -> cols B m v ->
  exists C, dot (transpose A) B = ret C /\ shape C = [n; m] /\
    forall i j, (i < n)%nat -> (j < m)%nat -> get C [i; j] ≈ vdot (u i) (v j).
Proof.
  intros [SA CA] [SB CB]. unfold dot, transpose; cbn [shape]. rewrite SA, SB. cbn [rev app Nat.eqb].
  eexists; split; [reflexivity|]. split; [reflexivity|]. intros i j Hi Hj.
  destruct (CA i Hi) as (x & y & z), (CB j Hj) as (x' & y' & z').
  cbn [get]. rewrite nsum3. unfold at_; cbn [nth rev app]. unfold vdot. fin.
Qed.

Lemma cross_cols A B n m k u v : cols A n u -> cols B m v -> bdim n m = Some k ->
  exists C, cross0 A B = ret C /\ cols C k (fun j => vcross (u (cl n j)) (v (cl m j))).
Proof.
  intros [SA CA] [SB CB] D. unfold cross0. rewrite SA, SB, (bshape_n_m _ _ _ D).
  eexists; split; [reflexivity|]. split; [reflexivity|]. intros j Hj.
  pose proof (cl_lt_l _ _ _ _ D Hj) as La. pose proof (cl_lt_r _ _ _ _ D Hj) as Lb.
  destruct (CA _ La) as (a0 & a1 & a2), (CB _ Lb) as (b0 & b1 & b2).
  unfold vcol, vcross; cbn [get vx vy vz at_ nth tl Nat.add Nat.modulo Nat.divmod fst snd Nat.sub].
  rewrite !bidx_1. repeat split; fin.
Qed.

Lemma sq_exact x a : x ≈ a -> nmul x x = Fin (a * a).
Proof.
  intros H; fin_cases; cbn [nmul fval sbit].
  - destruct (Req_EM_T (a * a) 0) as [E|E]; auto. rewrite xorb_nilpotent. simpl. rewrite E. reflexivity.
  - rewrite Rmult_0_l. destruct (Req_EM_T 0 0); auto; lra.
Qed.

Lemma norm_exact x y z v : x ≈ vx v -> y ≈ vy v -> z ≈ vz v ->
  nsqrt (nadd (nadd (nmul x x) (nmul y y)) (nmul z z)) = Fin (vnorm v).
Proof.
  intros Hx Hy Hz. rewrite (sq_exact _ _ Hx), (sq_exact _ _ Hy), (sq_exact _ _ Hz).
  cbn [nadd fval]. fold (vdot v v). simpl nsqrt.
  destruct (Rlt_dec (vdot v v) 0) as [L|L]; [pose proof (vdot_pos v); lra|]. reflexivity.
Qed.

Lemma norm0_cols A n u : cols A n u ->
  exists C, norm0 A = ret C /\ shape C = [n] /\ forall j, (j < n)%nat -> get C [j] = Fin (vnorm (u j)).
Proof.
  intros [SA CA]. unfold norm0. rewrite SA. eexists; split; [reflexivity|]. split; [reflexivity|].
  intros j Hj. destruct (CA j Hj) as (x & y & z). cbn [get]. rewrite nsum3. apply norm_exact; auto.
Qed.
Lemma norm0_list1 A n u : cols A n u ->
  exists C, norm0 A = ret C /\ list1 C n (fun j => vnorm (u j)).
Proof.
  intros H. destruct (norm0_cols _ _ _ H) as (C & E & S & G). exists C; split; auto. split; auto.
  intros j Hj. rewrite G by auto. reflexivity.
Qed.
Lemma norm0_keep_cols A n u : cols A n u ->
  exists C, norm0_keep A = ret C /\ shape C = [1%nat; n] /\
    forall j, (j < n)%nat -> get C [0%nat; j] = Fin (vnorm (u j)).
Proof.
  intros [SA CA]. unfold norm0_keep. rewrite SA. eexists; split; [reflexivity|]. split; [reflexivity|].
  intros j Hj. destruct (CA j Hj) as (x & y & z). cbn [get tl]. rewrite nsum3. apply norm_exact; auto.
Qed.

(** ** unit *)

Lemma unit_spec A n u nzv : cols A n u ->
  exists C, nv_unit A nzv = ret C /\ shape C = [3%nat; n] /\
    forall j, (j < n)%nat ->
      (u j <> v0 -> vcol C j (direction (u j))) /\
      (u j = v0 -> get C [0%nat; j] = nmul (Fin 1) nzv /\ get C [1%nat; j] = nmul (Fin 0) nzv
                   /\ get C [2%nat; j] = nmul (Fin 0) nzv).
Proof.
  intros HA. pose proof HA as [SA CA]. unfold nv_unit.
  destruct (norm0_keep_cols _ _ _ HA) as (N & E & SN & GN). rewrite E, bind_ret; clear E.
  unfold map2. cbn [shape map1]. rewrite SA, SN, (bshape_3n_1m n n n (bdim_refl n)), bind_ret.
  unfold set_cols; cbn [shape]. eexists; split; [reflexivity|]. split; [reflexivity|].
  intros j Hj. destruct (CA j Hj) as (x & y & z).
  assert (EZ : neqb (get N [0%nat; j]) (Fin 0) = if Req_EM_T (vnorm (u j)) 0 then true else false).
  { rewrite GN by auto. reflexivity. }
  split; intros Hu.
  - pose proof (vnorm_nz _ Hu) as P.
    assert (EZ' : neqb (get N [0%nat; j]) (Fin 0) = false).
    { rewrite EZ. destruct (Req_EM_T (vnorm (u j)) 0); auto; lra. }
    unfold vcol; cbn [get at_ nth]. rewrite EZ', !bidx_2, !(cl_id n j Hj).
    change (cl 3 0) with 0%nat; change (cl 3 1) with 1%nat; change (cl 3 2) with 2%nat.
    change (cl 1 0) with 0%nat; change (cl 1 1) with 0%nat; change (cl 1 2) with 0%nat.
    unfold map1; cbn [get]. rewrite !GN by auto.
    assert (T : add_tiny (Fin (vnorm (u j))) = Fin (vnorm (u j))).
    { unfold add_tiny. rewrite (is_zero_fin _ _ (fin_Fin _)). destruct (Req_EM_T _ 0); auto; lra. }
    rewrite T. unfold direction, vscale; cbn [vx vy vz].
    repeat split; (eapply fin_eq; [apply fin_div; [eassumption|apply fin_Fin|lra]|field; lra]).
  - assert (Z : vnorm (u j) = 0) by (rewrite Hu; apply vnorm_v0).
    assert (EZ' : neqb (get N [0%nat; j]) (Fin 0) = true).
    { rewrite EZ. destruct (Req_EM_T (vnorm (u j)) 0); auto; lra. }
    cbn [get at_ nth]. rewrite EZ'. repeat split.
Qed.

(** direction, with the documented value for zero columns *)
Definition dir1 (u : vec) : vec := if Req_EM_T (vnorm u) 0 then V 1 0 0 else direction u.
Lemma dir1_nz u : u <> v0 -> dir1 u = direction u.
Proof. intros H. unfold dir1. pose proof (vnorm_nz u H). destruct (Req_EM_T _ 0); auto; lra. Qed.
Lemma dir1_v0 : dir1 v0 = V 1 0 0.
Proof. unfold dir1. rewrite vnorm_v0. destruct (Req_EM_T 0 0); auto; lra. Qed.

Lemma vec_eq_dec (u v : vec) : {u = v} + {u <> v}.
Proof.
  destruct u as [a b c], v as [a' b' c'].
  destruct (Req_EM_T a a'), (Req_EM_T b b'), (Req_EM_T c c'); subst; auto; right; congruence.
Qed.

Lemma unit1_cols A n u : cols A n u ->
  exists C, nv_unit A (Fin 1) = ret C /\ cols C n (fun j => dir1 (u j)).
Proof.
  intros H. destruct (unit_spec A n u (Fin 1) H) as (C & E & S & G). exists C; split; auto.
  split; auto. intros j Hj. destruct (G j Hj) as [G1 G2].
  destruct (vec_eq_dec (u j) v0) as [Z|NZ].
  - rewrite Z, dir1_v0. destruct (G2 Z) as (a & b & c). unfold vcol; cbn [vx vy vz].
    rewrite a, b, c. repeat split; finr.
  - rewrite dir1_nz; auto.
Qed.

(** NaN-valued zero columns: columns are [Some v] (finite) or [None] (all NaN) *)
Definition ocols (A : arr num) (n : nat) (f : nat -> option vec) : Prop :=
  shape A = [3%nat; n] /\
  forall j, (j < n)%nat -> match f j with Some v => vcol A j v | None => nancol A j end.

Definition odir (u : vec) : option vec := if Req_EM_T (vnorm u) 0 then None else Some (direction u).
Lemma odir_nz u : u <> v0 -> odir u = Some (direction u).
Proof. intros H. unfold odir. pose proof (vnorm_nz u H). destruct (Req_EM_T _ 0); auto; lra. Qed.
Lemma odir_v0 : odir v0 = None.
Proof. unfold odir. rewrite vnorm_v0. destruct (Req_EM_T 0 0); auto; lra. Qed.

Lemma unitnan_cols A n u : cols A n u ->
  exists C, nv_unit A NaN = ret C /\ ocols C n (fun j => odir (u j)).
Proof.
  intros H. destruct (unit_spec A n u NaN H) as (C & E & S & G). exists C; split; auto.
  split; auto. intros j Hj. destruct (G j Hj) as [G1 G2].
  destruct (vec_eq_dec (u j) v0) as [Z|NZ].
  - rewrite Z, odir_v0. destruct (G2 Z) as (a & b & c). unfold nancol.
    rewrite a, b, c. auto.
  - rewrite odir_nz; auto.
Qed.

Lemma ocols_cols A n f u : ocols A n f -> (forall j, (j < n)%nat -> f j = Some (u j)) -> cols A n u.
Proof. intros [S C] H. split; auto. intros j Hj. specialize (C j Hj). rewrite H in C; auto. Qed.
Lemma cols_ocols A n u : cols A n u -> ocols A n (fun j => Some (u j)).
Proof. intros [S C]; split; auto. Qed.

Lemma unitnan_cols_nz A n u : cols A n u -> (forall j, (j < n)%nat -> u j <> v0) ->
  exists C, nv_unit A NaN = ret C /\ cols C n (fun j => direction (u j)).
Proof.
  intros H Z. destruct (unitnan_cols _ _ _ H) as (C & E & HC). exists C; split; auto.
  eapply ocols_cols; [apply HC|]. intros j Hj. simpl. apply odir_nz; auto.
Qed.
Lemma unit1_cols_nz A n u : cols A n u -> (forall j, (j < n)%nat -> u j <> v0) ->
  exists C, nv_unit A (Fin 1) = ret C /\ cols C n (fun j => direction (u j)).
Proof.
  intros H Z. destruct (unit1_cols _ _ _ H) as (C & E & HC). exists C; split; auto.
  eapply cols_ext; [|apply HC]. intros j Hj. simpl. apply dir1_nz; auto.
Qed.

(** ** literals *)
Lemma col3_cols a b c : cols (col3 (Fin a) (Fin b) (Fin c)) 1 (fun _ => V a b c).
Proof. split; [reflexivity|]. intros j Hj. repeat split. Qed.
Lemma mat33_is_mat a b c d e f g h i :
  is_mat (mat33 (Fin a) (Fin b) (Fin c) (Fin d) (Fin e) (Fin f) (Fin g) (Fin h) (Fin i))
         (Mt (V a b c) (V d e f) (V g h i)).
Proof. split; [reflexivity|]. repeat split. Qed.

(** ** rows *)
Lemma row_cols A n u : cols A n u ->
  (exists C, row 0 A = ret C /\ list1 C n (fun j => vx (u j))) /\
  (exists C, row 1 A = ret C /\ list1 C n (fun j => vy (u j))) /\
  (exists C, row 2 A = ret C /\ list1 C n (fun j => vz (u j))).
Proof.
  intros [S C]. unfold row. rewrite S. simpl.
  repeat split; eexists; (split; [reflexivity|]); split; try reflexivity;
    intros j Hj; destruct (C j Hj) as (x & y & z); auto.
Qed.

Lemma atleast_2d_vals a n u : vals a n u -> keep (atleast_2d a) n u.
Proof.
  intros [[-> [S C]]|[S C]]; unfold atleast_2d; rewrite S; (split; [reflexivity|]); intros j Hj; simpl.
  - assert (j = 0)%nat by lia; subst; auto.
  - auto.
Qed.
Lemma vstack3_vals a b c n u v w : vals a n u -> vals b n v -> vals c n w ->
  exists C, vstack3 a b c = ret C /\ cols C n (fun j => V (u j) (v j) (w j)).
Proof.
  intros Ha Hb Hc. apply atleast_2d_vals in Ha, Hb, Hc.
  destruct Ha as [Sa Ca], Hb as [Sb Cb], Hc as [Sc Cc]. unfold vstack3.
  unfold vcat at 1. rewrite Sa, Sb, Nat.eqb_refl, bind_ret. unfold vcat; cbn [shape]. rewrite Sc, Nat.eqb_refl.
  eexists; split; [reflexivity|]. split; [reflexivity|].
  intros j Hj. unfold vcol; simpl. auto.
Qed.

(** ** the length warning *)

Lemma cld_spec A n u : cols A n u -> (0 < n)%nat ->
  check_length_deviation A = (length_warning (vnorm (u 0%nat)), inl tt).
Proof.
  intros [S C] Hn. unfold check_length_deviation, col0. rewrite S.
  destruct (0 <? n)%nat eqn:E; [|apply Nat.ltb_ge in E; lia]. rewrite bind_ret.
  unfold norm0; cbn [shape]. rewrite bind_ret. unfold item, ndim; cbn [shape length repeat get].
  rewrite nsum3. unfold at_; cbn [nth]. destruct (C 0%nat Hn) as (x & y & z).
  rewrite (norm_exact _ _ _ _ x y z).
  rewrite (nlt_fin _ _ (1 / 10) (Rabs (vnorm (u 0%nat) - 1))).
  - unfold length_warning. destruct (Rlt_dec _ _); reflexivity.
  - apply fin_Fin.
  - apply fin_abs, fin_sub; apply fin_Fin.
Qed.
Lemma length_warning_unit : length_warning 1 = [].
Proof.
  unfold length_warning. replace (1 - 1) with 0 by ring. rewrite Rabs_R0.
  destruct (Rlt_dec _ _); auto; lra.
Qed.

(** default axes *)
Lemma default_R_axes (R_Ee : option (arr num)) (M : mat) :
  axes R_Ee M -> exists R, MRotation.default_R R_Ee = ret R /\ is_mat R M.
Proof.
  destruct R_Ee as [r|]; simpl.
  - intros H; exists r; auto.
  - intros ->. eexists; split; [reflexivity|]. apply mat33_is_mat.
Qed.

Definition entries (a : arr num) (j : nat) : R := fval (get a [j]).
Lemma list1P_list1 a n P : list1P a n P ->
  list1 a n (entries a) /\ forall j, (j < n)%nat -> P j (entries a j).
Proof.
  intros [S C]. split; [split; auto|]; intros j Hj; destruct (C j Hj) as (t & Ht & HP);
    unfold entries; rewrite (fin_fval _ _ Ht); auto.
Qed.
Lemma map2_list1P f a b n u v (P : nat -> R -> Prop) :
  list1 a n u -> list1 b n v ->
  (forall j x y, (j < n)%nat -> x ≈ u j -> y ≈ v j -> exists t, f x y ≈ t /\ P j t) ->
  exists C, map2 f a b = ret C /\ list1P C n P.
Proof.
  intros [Sa Ca] [Sb Cb] H. unfold map2. rewrite Sa, Sb, (bshape_n_m _ _ _ (bdim_refl n)).
  eexists; split; [reflexivity|]. split; [reflexivity|]. intros j Hj. cbn [get].
  rewrite !bidx_1, !(cl_id n j Hj). auto.
Qed.
Lemma map2_list1 f op a b n u v :
  list1 a n u -> list1 b n v ->
  (forall j x y, (j < n)%nat -> x ≈ u j -> y ≈ v j -> f x y ≈ op (u j) (v j)) ->
  exists C, map2 f a b = ret C /\ list1 C n (fun j => op (u j) (v j)).
Proof.
  intros [Sa Ca] [Sb Cb] H. unfold map2. rewrite Sa, Sb, (bshape_n_m _ _ _ (bdim_refl n)).
  eexists; split; [reflexivity|]. split; [reflexivity|]. intros j Hj. cbn [get].
  rewrite !bidx_1, !(cl_id n j Hj). auto.
Qed.
