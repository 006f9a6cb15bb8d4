(** * C107: arithmetic of ECEFvectors (objects.py 806-817) *)
From Coq Require Import String List Arith Lia Bool Reals Lra FunctionalExtensionality.
From Verif Require Import Num Py Nd MUtil MRotation MCore MObjects Spec SpecArr SpecObj LNum LTrig LVec LArr LLatLon LMat LRot
  LAngle PUtil LEq LEcef PEcef PRot PFrame PEq LObj PEq2 LDirect LObj2 PObj PObj2 POps.
Import ListNotations.
Local Open Scope R_scope.

(** an ECEFvector of the n vectors p j, in the frame fr, flagged scalar or not *)
Definition holds_ecef (e : ecef) (n : nat) (p : nat -> Spec.vec) (fr : frameE) (sc : bool) : Prop :=
  cols (e_p e) n p /\ e_frame e = fr /\ e_scalar e = sc.

(** + and - are componentwise, with broadcasting of widths; the answer carries the frame of the first and is scalar if both are;
    unary minus turns every vector round and keeps frame and flag; none of them warns *)
Theorem C107_componentwise : forall s o n m k p q fs fo ss so a f M,
  holds_ecef s n p fs ss -> holds_ecef o m q fo so -> is_frame fs a f M -> is_frame fo a f M -> bdim n m = Some k ->
  returns (ecef_add s o) [] (fun e => holds_ecef e k (fun j => vadd (p (cl n j)) (q (cl m j))) fs (ss && so)) /\
  returns (ecef_sub s o) [] (fun e => holds_ecef e k (fun j => vsub (p (cl n j)) (q (cl m j))) fs (ss && so)) /\
  returns (ecef_neg s) [] (fun e => holds_ecef e n (fun j => vneg (p j)) fs ss).
Proof.
  intros s o n m k p q fs fo ss so a f M (A1 & A2 & A3) (B1 & B2 & B3) F G D. unfold ecef_add, ecef_sub, ecef_neg.
  rewrite A2, A3, B2, B3, (check_frames_same _ _ _ _ _ F G), !bind_ret.
  destruct (add_cols _ _ _ _ _ _ _ A1 B1 D) as (C & E & HC). destruct (sub_cols _ _ _ _ _ _ _ A1 B1 D) as (C' & E' & HC').
  rewrite E, E', !bind_ret. unfold ECEFvector, default_frame. rewrite !bind_ret.
  split; [|split]; (eexists; split; [reflexivity|]; split; [first [exact HC|exact HC'|apply cols_neg; exact A1]|split; reflexivity]).
Qed.
Print Assumptions C107_componentwise.

(** s - o is s + (-o): same arrays, same flag, same exceptions, for all contents and shapes; and -(-s) is s *)
Theorem C107_sub_is_add_neg : forall s o, ecef_sub s o = (x <- ecef_neg o ;; ecef_add s x).
Proof.
  intros s o. assert (E : ecef_neg o = ret (MkEcef (map1 nneg (e_p o)) (e_frame o) (e_scalar o))) by reflexivity.
  rewrite E, bind_ret. reflexivity.
Qed.
Print Assumptions C107_sub_is_add_neg.
Theorem C107_neg_twice : forall s, returns (x <- ecef_neg s ;; ecef_neg x) [] (fun e => e = s).
Proof.
  intros [P fr sc]. exists (MkEcef P fr sc). split; [|reflexivity].
  assert (T : forall x, nneg (nneg x) = x). { intros [r| |b|]; cbn.
    - destruct (Req_EM_T r 0) as [->|N]; cbn; [reflexivity|]. destruct (Req_EM_T (- r) 0); [lra|]. f_equal. ring.
    - destruct (Req_EM_T 0 0); [reflexivity|lra].
    - rewrite negb_involutive. reflexivity.
    - reflexivity. }
  change (ret (MkEcef (map1 nneg (map1 nneg P)) fr sc) = ret (MkEcef P fr sc)). f_equal. f_equal. destruct P as [sh g]. unfold map1; cbn. f_equal. extensionality i. apply T.
Qed.
Print Assumptions C107_neg_twice.

(** the laws of vectors: order and grouping of sums do not matter, what is added can be taken away again *)
Theorem C107_vector_laws : forall s o t n p q r fs fo ft ss so st a f M,
  holds_ecef s n p fs ss -> holds_ecef o n q fo so -> holds_ecef t n r ft st -> is_frame fs a f M -> is_frame fo a f M -> is_frame ft a f M ->
  returns (ecef_add s o) [] (fun x => returns (ecef_add o s) [] (fun y => cols (e_p x) n (fun j => vadd (p j) (q j)) /\ cols (e_p y) n (fun j => vadd (p j) (q j)) /\ e_scalar x = e_scalar y)) /\
  returns (x <- ecef_add s o ;; ecef_add x t) [] (fun x => returns (y <- ecef_add o t ;; ecef_add s y) [] (fun y =>
    cols (e_p x) n (fun j => vadd (p j) (vadd (q j) (r j))) /\ cols (e_p y) n (fun j => vadd (p j) (vadd (q j) (r j))) /\ e_scalar x = e_scalar y /\ e_frame x = e_frame y)) /\
  returns (x <- ecef_add s o ;; ecef_sub x o) [] (fun x => holds_ecef x n p fs (ss && so)) /\
  returns (ecef_sub s s) [] (fun x => holds_ecef x n (fun _ => v0) fs ss).
Proof.
  intros s o t n p q r fs fo ft ss so st a f M HS HO HT FS FO FT.
  assert (D : bdim n n = Some n) by (unfold bdim; rewrite Nat.eqb_refl; reflexivity).
  assert (CL : forall j, (j < n)%nat -> cl n j = j). { intros j Hj. unfold cl. destruct (Nat.eqb_spec n 1); lia. }
  assert (FIX : forall X (F G : nat -> Spec.vec), cols X n F -> (forall j, (j < n)%nat -> F j = G j) -> cols X n G) by (intros X F G HX HE; eapply cols_ext; [exact HE|exact HX]).
  destruct (C107_componentwise _ _ _ _ _ _ _ _ _ _ _ _ _ _ HS HO FS FO D) as ((so' & E1 & H1) & (_ & _)).
  destruct (C107_componentwise _ _ _ _ _ _ _ _ _ _ _ _ _ _ HO HS FO FS D) as ((os & E2 & H2) & (_ & _)).
  destruct (C107_componentwise _ _ _ _ _ _ _ _ _ _ _ _ _ _ HO HT FO FT D) as ((ot & E3 & H3) & (_ & _)).
  destruct (C107_componentwise _ _ _ _ _ _ _ _ _ _ _ _ _ _ H1 HT FS FT D) as ((l & E4 & H4) & _).
  destruct (C107_componentwise _ _ _ _ _ _ _ _ _ _ _ _ _ _ HS H3 FS FO D) as ((g & E5 & H5) & _).
  destruct (C107_componentwise _ _ _ _ _ _ _ _ _ _ _ _ _ _ H1 HO FS FO D) as (_ & (b & E6 & H6) & _).
  destruct (C107_componentwise _ _ _ _ _ _ _ _ _ _ _ _ _ _ HS HS FS FS D) as (_ & (z & E7 & H7) & _).
  destruct H1 as (P1 & Q1 & R1), H2 as (P2 & Q2 & R2), H4 as (P4 & Q4 & R4), H5 as (P5 & Q5 & R5), H6 as (P6 & Q6 & R6), H7 as (P7 & Q7 & R7).
  split; [|split; [|split]].
  - exists so'. split; [exact E1|]. exists os. split; [exact E2|]. split; [|split].
    + eapply FIX; [exact P1|]. intros j Hj. cbn beta. rewrite (CL j Hj). reflexivity.
    + eapply FIX; [exact P2|]. intros j Hj. cbn beta. rewrite (CL j Hj). generalize (p j) (q j). intros. vring.
    + rewrite R1, R2. apply andb_comm.
  - exists l. split; [rewrite E1; cbn [fst snd]; unfold bind; rewrite E4; reflexivity|]. exists g. split; [rewrite E3; unfold bind; rewrite E5; reflexivity|]. split; [|split; [|split]].
    + eapply FIX; [exact P4|]. intros j Hj. cbn beta. rewrite !(CL j Hj). generalize (p j) (q j) (r j). intros. vring.
    + eapply FIX; [exact P5|]. intros j Hj. cbn beta. rewrite !(CL j Hj). reflexivity.
    + rewrite R4, R5. symmetry. apply andb_assoc.
    + congruence.
  - exists b. split; [rewrite E1; unfold bind; rewrite E6; reflexivity|]. split; [|split; [exact Q6|rewrite R6; destruct ss, so; reflexivity]].
    eapply FIX; [exact P6|]. intros j Hj. cbn beta. rewrite !(CL j Hj). generalize (p j) (q j). intros. vring.
  - exists z. split; [exact E7|]. split; [|split; [exact Q7|rewrite R7; destruct ss; reflexivity]].
    eapply FIX; [exact P7|]. intros j Hj. cbn beta. rewrite !(CL j Hj). generalize (p j). intros. vring.
Qed.
Print Assumptions C107_vector_laws.

Definition ex_ecef (x y z : R) : ecef := MkEcef (col3 (Fin x) (Fin y) (Fin z)) ex_frame true.
Example C107_example : holds_ecef (ex_ecef 1 2 (-2)) 1 (fun _ => V 1 2 (-2)) ex_frame true /\ holds_ecef (ex_ecef 3 0 5) 1 (fun _ => V 3 0 5) ex_frame true /\
  is_frame ex_frame 6378137 (/ 298) Me /\ bdim 1 1 = Some 1%nat.
Proof.
  destruct C57_example as (_ & H & _). split; [|split; [|split; [exact H|reflexivity]]]; (split; [apply col3_cols|split; reflexivity]).
Qed.
