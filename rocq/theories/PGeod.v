(** * C52: the degrees flags;  C53: FrameE.inverse and FrameE.direct solve pointwise *)
From Coq Require Import String List Arith Lia Bool Reals Lra ZArith FunctionalExtensionality.
From Verif Require Import Num Py Nd MUtil MRotation MCore MObjects Spec SpecArr SpecObj LNum LTrig LVec LArr LLatLon LMat LRot
  LAngle PUtil LEq LEcef PEcef PRot PFrame PEq LObj PEq2 LDirect LObj2 PObj PObj2.
Import ListNotations.
Local Open Scope R_scope.

(** ** C52 *)
Lemma nmul_inv x c d : c * d = 1 -> 0 < c -> 0 < d -> nmul (nmul x (Fin c)) (Fin d) = x.
Proof.
  intros E Pc Pd. destruct x as [r| |b|].
  - cbn [nmul fval]. destruct (Req_EM_T (r * c) 0) as [Z|Z].
    + assert (r = 0) by nra. subst r. cbn [sbit]. destruct (Rlt_dec 0 0) as [?|_]; [lra|]. destruct (Rlt_dec c 0) as [?|_]; [lra|].
      cbn [xorb zero nmul fval]. destruct (Req_EM_T (0 * d) 0) as [_|?]; [|lra]. cbn [sbit].
      destruct (Rlt_dec 0 0) as [?|_]; [lra|]. destruct (Rlt_dec d 0) as [?|_]; [lra|]. reflexivity.
    + cbn [nmul fval]. replace (r * c * d) with r by (rewrite Rmult_assoc, E; ring).
      destruct (Req_EM_T r 0) as [->|_]; [lra|reflexivity].
  - assert (S : forall t, 0 < t -> nmul NZ (Fin t) = NZ).
    { intros t Pt. cbn [nmul fval]. destruct (Req_EM_T (0 * t) 0) as [_|?]; [|lra]. cbn [sbit].
      destruct (Rlt_dec t 0) as [?|_]; [lra|reflexivity]. }
    rewrite !S by auto. reflexivity.
  - assert (S : forall t, 0 < t -> nmul (Inf b) (Fin t) = Inf b).
    { intros t Pt. cbn [nmul is_zero sbit]. destruct (Req_EM_T t 0) as [?|_]; [lra|].
      destruct (Rlt_dec t 0) as [?|_]; [lra|destruct b; reflexivity]. }
    rewrite !S by auto. reflexivity.
  - reflexivity.
Qed.
Lemma rad_deg_id x : rad2deg (deg2rad x) = x.
Proof. pose proof PI_RGT_0. apply nmul_inv; [field; lra| |]; apply Rdiv_lt_0_compat; lra. Qed.
Lemma deg_rad_id x : deg2rad (rad2deg x) = x.
Proof. pose proof PI_RGT_0. apply nmul_inv; [field; lra| |]; apply Rdiv_lt_0_compat; lra. Qed.
Lemma map1_id {A} (f : A -> A) (x : arr A) : (forall t, f t = t) -> map1 f x = x.
Proof. intros H. destruct x as [s g]. unfold map1. cbn [shape get]. f_equal. apply functional_extensionality. auto. Qed.
Lemma deg1_rad1 x : deg1 (rad1 x) = x.
Proof. unfold deg1, rad1. destruct x as [s g]. unfold map1. cbn [shape get]. f_equal. apply functional_extensionality. intros. apply rad_deg_id. Qed.
Lemma rad1_deg1 x : rad1 (deg1 x) = x.
Proof. unfold deg1, rad1. destruct x as [s g]. unfold map1. cbn [shape get]. f_equal. apply functional_extensionality. intros. apply deg_rad_id. Qed.

Lemma bind_assoc {A B C} (m : M A) (f : A -> M B) (g : B -> M C) : bind (bind m f) g = bind m (fun x => bind (f x) g).
Proof.
  destruct m as [w [a|e]]; cbn; [|reflexivity]. destruct (f a) as [w' [b|e]]; cbn; [|reflexivity].
  destruct (g b) as [w'' r]. rewrite app_assoc. reflexivity.
Qed.
Lemma bind_ext {A B} (m : M A) (f g : A -> M B) : (forall x, f x = g x) -> bind m f = bind m g.
Proof. intros H. destruct m as [w [a|e]]; cbn; [|reflexivity]. rewrite H. reflexivity. Qed.
Lemma first_map1 (f : num -> num) x : first (map1 f x) = bind (first x) (fun y => ret (map1 f y)).
Proof. unfold first, map1. cbn [shape get]. destruct (shape x) as [|n s]; [reflexivity|]. destruct (0 <? n)%nat; reflexivity. Qed.

(** conversion of the results *)
Lemma pointwise_post solve fr a1 a2 a3 a4 z unroll p1 p2 p3 :
  pointwise solve fr a1 a2 a3 a4 z unroll p1 p2 p3 =
  (t <- pointwise solve fr a1 a2 a3 a4 z unroll (fun x => x) (fun x => x) (fun x => x) ;;
   ret (map1 p1 (fst (fst t)), map1 p2 (snd (fst t)), map1 p3 (snd t))).
Proof.
  unfold pointwise. rewrite bind_assoc. apply bind_ext. intros [[[[b1 b2] b3] b4] bz].
  destruct (shape (atleast_1d b1)) as [|n [|? ?]]; [reflexivity| |reflexivity]. rewrite bind_assoc. apply bind_ext. intros l.
  destruct (n =? 0)%nat; [reflexivity|]. rewrite !(map1_id (fun x => x)) by auto.
  destruct (ndim b1 =? 0)%nat; [|reflexivity].
  rewrite bind_assoc, first_map1, bind_assoc. apply bind_ext. intros x. rewrite bind_ret, first_map1, !bind_assoc. apply bind_ext. intros y.
  rewrite bind_ret, first_map1, !bind_assoc. apply bind_ext. intros w. rewrite !bind_ret. reflexivity.
Qed.

(** degrees=False on angles in radians is degrees=True on the same angles in degrees: the same distance,
    the same azimuths (in radians); same exceptions and warnings; for every solver, all shapes and all
    contents, NaN included *)
Theorem C52_inverse : forall gi fr lat_a lon_a lat_b lon_b z unroll,
  inverse gi fr (rad1 lat_a) (rad1 lon_a) (rad1 lat_b) (rad1 lon_b) z unroll false =
  ('(s, azimuth_a, azimuth_b) <- inverse gi fr lat_a lon_a lat_b lon_b z unroll true ;;
   ret (s, rad1 azimuth_a, rad1 azimuth_b)).
Proof.
  intros. unfold inverse. rewrite !deg1_rad1, pointwise_post. apply bind_ext. intros [[s x] y]. cbn [fst snd].
  rewrite (map1_id (fun x => x)) by auto. reflexivity.
Qed.
Print Assumptions C52_inverse.

Theorem C52_direct : forall gd fr lat lon azimuth distance z unroll,
  direct gd fr (rad1 lat) (rad1 lon) (rad1 azimuth) distance z unroll false =
  ('(lat_b, lon_b, azimuth_b) <- direct gd fr lat lon azimuth distance z unroll true ;;
   ret (rad1 lat_b, rad1 lon_b, rad1 azimuth_b)).
Proof.
  intros. unfold direct. rewrite !deg1_rad1, pointwise_post. apply bind_ext. intros [[s x] y]. reflexivity.
Qed.
Print Assumptions C52_direct.

(** displace: the same point, the same azimuth at B *)
Theorem C52_displace : forall gd g distance azimuth unroll method,
  displace gd g distance (rad1 azimuth) unroll false method =
  ('(point_b, azimuth_b) <- displace gd g distance azimuth unroll true method ;; ret (point_b, rad1 azimuth_b)).
Proof.
  intros. unfold displace. destruct (starts_with_e method).
  - unfold displace_ellipsoid. rewrite deg1_rad1, bind_assoc. apply bind_ext. intros [[x y] w].
    rewrite bind_assoc. apply bind_ext. intros p. rewrite bind_ret. reflexivity.
  - unfold displace_great_circle. rewrite bind_assoc. apply bind_ext. intros n_a. rewrite bind_assoc. apply bind_ext. intros e_a.
    rewrite bind_assoc. apply bind_ext. intros r. rewrite bind_assoc. apply bind_ext. intros d.
    rewrite bind_assoc. apply bind_ext. intros nb. rewrite bind_assoc. apply bind_ext. intros v. rewrite bind_assoc. apply bind_ext. intros pb.
    rewrite bind_assoc. apply bind_ext. intros dn. rewrite bind_assoc. apply bind_ext. intros az.
    rewrite bind_ret, rad1_deg1. reflexivity.
Qed.
Print Assumptions C52_displace.

(** distance_and_azimuth: the same distance, the same azimuths *)
Theorem C52_distance_and_azimuth : forall gi g p unroll method,
  distance_and_azimuth gi g p unroll false method =
  ('(s, azimuth_a, azimuth_b) <- distance_and_azimuth gi g p unroll true method ;; ret (s, rad1 azimuth_a, rad1 azimuth_b)).
Proof.
  intros. unfold distance_and_azimuth. rewrite bind_assoc. apply bind_ext. intros _. rewrite bind_assoc. apply bind_ext. intros [].
  - unfold daa_ellipsoid. rewrite bind_assoc. apply bind_ext. intros gp. rewrite bind_assoc. apply bind_ext. intros s.
    rewrite <- C52_inverse, !rad1_deg1. reflexivity.
  - unfold daa_great_circle.
    do 12 (rewrite bind_assoc; apply bind_ext; intro).
    destruct (ndim _ =? 0)%nat; [|rewrite bind_ret, !rad1_deg1; reflexivity].
    rewrite bind_assoc. apply bind_ext. intros d. rewrite bind_ret, !rad1_deg1. reflexivity.
Qed.
Print Assumptions C52_distance_and_azimuth.

(** the constructors *)
Theorem C52_constructors : forall lat lon z frame p yaw pitch roll,
  GeoPoint lat lon z frame true = GeoPoint (rad1 lat) (rad1 lon) z frame false /\
  FrameB p yaw pitch roll true = FrameB p (rad1 yaw) (rad1 pitch) (rad1 roll) false.
Proof. split; reflexivity. Qed.
Print Assumptions C52_constructors.

(** ** C53 *)
(** the array x, broadcast to n entries, supplies c i to the i-th call *)
Definition feeds (x : arr num) (n : nat) (c : nat -> num) : Prop :=
  (shape x = [] /\ forall i, (i < n)%nat -> c i = get x []) \/
  (shape x = [1%nat] /\ forall i, (i < n)%nat -> c i = get x [0%nat]) \/
  (shape x = [n] /\ forall i, (i < n)%nat -> c i = get x [i]).

Definition W (n : nat) (s : list nat) : Prop := s = [] \/ s = [1%nat] \/ s = [n].
Lemma feeds_W x n c : feeds x n c -> W n (shape x).
Proof. intros [[H _]|[[H _]|[H _]]]; unfold W; auto. Qed.
Lemma W_join n s t : W n s -> W n t -> exists r, bshape s t = Some r /\ W n r /\ (s = [n] \/ t = [n] -> r = [n]) /\
  (s = [] -> t = [] -> r = []).
Proof.
  assert (E1 : bshape [1%nat] [n] = Some [n]) by (apply bshape_n_m, bdim_1_l).
  assert (E2 : bshape [n] [1%nat] = Some [n]) by (apply bshape_n_m, bdim_1_r).
  assert (E3 : bshape [n] [n] = Some [n]) by apply bshape_refl.
  assert (E4 : bshape [1%nat] [1%nat] = Some [1%nat]) by reflexivity.
  intros [E|[E|E]] [E5|[E5|E5]]; subst; rewrite ?bshape_nil_l, ?bshape_nil_r, ?E1, ?E2, ?E3, ?E4; eexists; (split; [reflexivity|]);
    unfold W; repeat split; auto; intros [?|?]; congruence || auto.
Qed.
Lemma feeds_get x n c i : feeds x n c -> (i < n)%nat -> get (broadcast_to x [n]) [i] = c i.
Proof.
  intros [[S H]|[[S H]|[S H]]] Hi; rewrite H by auto; cbn [get broadcast_to]; rewrite S.
  - rewrite bidx_nil. reflexivity.
  - rewrite bidx_1. reflexivity.
  - rewrite bidx_1, cl_id by auto. reflexivity.
Qed.

Lemma mapM_ends {A} (f : nat -> M A) n t : (forall i, (i < n)%nat -> ends (f i) (t i)) -> ends (mapM f n) (map t (seq 0 n)).
Proof.
  induction n as [|n IH]; intros H; [reflexivity|]. cbn [mapM]. eapply ends_bind_i; [apply IH; auto|].
  eapply ends_bind_i; [apply H; lia|]. rewrite seq_S, map_app. reflexivity.
Qed.
Lemma mapM_raises {A} (f : nat -> M A) n t i e : (i < n)%nat -> (forall j, (j < i)%nat -> ends (f j) (t j)) -> raises (f i) e ->
  raises (mapM f n) e.
Proof.
  induction n as [|n IH]; intros Hi H E; [lia|]. cbn [mapM]. destruct (Nat.eq_dec i n) as [->|].
  - eapply raises_bind_r; [apply mapM_ends; exact H|]. apply raises_bind_l; auto.
  - apply raises_bind_l. apply IH; auto; lia.
Qed.
Lemma nth_map_seq {A} (f : nat -> A) n i d : (i < n)%nat -> nth i (map f (seq 0 n)) d = f i.
Proof.
  intros H. rewrite (nth_indep _ d (f 0%nat)) by (rewrite map_length, seq_length; auto).
  rewrite (map_nth f), seq_nth by auto. reflexivity.
Qed.

(** one of five arrays has shape s *)
Definition one_of (s : list nat) (x1 x2 x3 x4 x5 : arr num) : Prop :=
  shape x1 = s \/ shape x2 = s \/ shape x3 = s \/ shape x4 = s \/ shape x5 = s.
Definition all_of (s : list nat) (x1 x2 x3 x4 x5 : arr num) : Prop :=
  shape x1 = s /\ shape x2 = s /\ shape x3 = s /\ shape x4 = s /\ shape x5 = s.

Lemma broadcast5_n x1 x2 x3 x4 x5 n : W n (shape x1) -> W n (shape x2) -> W n (shape x3) -> W n (shape x4) -> W n (shape x5) ->
  one_of [n] x1 x2 x3 x4 x5 ->
  broadcast5 x1 x2 x3 x4 x5 = ret (broadcast_to x1 [n], broadcast_to x2 [n], broadcast_to x3 [n], broadcast_to x4 [n], broadcast_to x5 [n]).
Proof.
  intros H1 H2 H3 H4 H5 O. unfold broadcast5.
  destruct (W_join n _ _ H1 H2) as (r1 & E1 & W1 & K1 & _). rewrite E1.
  destruct (W_join n _ _ W1 H3) as (r2 & E2 & W2 & K2 & _). rewrite E2.
  destruct (W_join n _ _ W2 H4) as (r3 & E3 & W3 & K3 & _). rewrite E3.
  destruct (W_join n _ _ W3 H5) as (r4 & E4 & W4 & K4 & _). rewrite E4.
  assert (r4 = [n]) by (destruct O as [O|[O|[O|[O|O]]]]; apply K4; auto; left; apply K3; auto; left; apply K2; auto). subst. reflexivity.
Qed.

Section Pointwise.
Variables (solve : solver) (fr : frameE) (a1 a2 a3 a4 z : arr num) (unroll : bool) (p1 p2 p3 : num -> num).
Variables (n : nat) (c1 c2 c3 c4 cz : nat -> num).
Let call (i : nat) := solve (nsub (fe_a fr) (cz i)) (fe_f fr) (c1 i) (c2 i) (c3 i) (c4 i) unroll.
Hypothesis F : feeds a1 n c1 /\ feeds a2 n c2 /\ feeds a3 n c3 /\ feeds a4 n c4 /\ feeds z n cz.

Lemma mapM_ext {A} (f g : nat -> M A) m : (forall i, (i < m)%nat -> f i = g i) -> mapM f m = mapM g m.
Proof. induction m as [|m IH]; intros H; [reflexivity|]. cbn [mapM]. rewrite IH by auto. apply bind_ext. intros l. rewrite H by lia. reflexivity. Qed.

Lemma pointwise_list (t : nat -> num * num * num) : one_of [n] a1 a2 a3 a4 z -> (0 < n)%nat ->
  (forall i, (i < n)%nat -> ends (call i) (t i)) ->
  ends_with (pointwise solve fr a1 a2 a3 a4 z unroll p1 p2 p3) (fun r =>
    shape (fst (fst r)) = [n] /\ shape (snd (fst r)) = [n] /\ shape (snd r) = [n] /\
    forall i, (i < n)%nat -> get (fst (fst r)) [i] = p1 (fst (fst (t i))) /\ get (snd (fst r)) [i] = p2 (snd (fst (t i))) /\
      get (snd r) [i] = p3 (snd (t i))).
Proof.
  intros O Hn H. destruct F as (F1 & F2 & F3 & F4 & F5). unfold pointwise.
  rewrite (broadcast5_n _ _ _ _ _ n) by eauto using feeds_W. rewrite bind_ret. 
  assert (AL : forall x : arr num, atleast_1d (broadcast_to x [n]) = broadcast_to x [n]) by reflexivity. rewrite AL. cbn [shape broadcast_to].
  replace (n =? 0)%nat with false by (symmetry; apply Nat.eqb_neq; lia). cbn [ndim shape length Nat.eqb].
  erewrite (mapM_ext _ call).
  2:{ intros i Hi. unfold call. 
      rewrite !AL, (feeds_get a1 n c1), (feeds_get a2 n c2), (feeds_get a3 n c3), (feeds_get a4 n c4), (feeds_get z n cz) by auto. reflexivity. }
  eexists. split.
  - eapply ends_bind_i; [apply mapM_ends; exact H|]. reflexivity.
  - cbn [fst snd map1 triples MObjects.triples shape Nd.vec]. unfold triples, Nd.vec. cbn [shape get map1].
    rewrite !map_length, seq_length. repeat (split; [reflexivity|]). intros i Hi. cbn [at_ nth].
    rewrite !map_map, !nth_map_seq by auto. auto.
Qed.

Lemma pointwise_raises (t : nat -> num * num * num) i e : one_of [n] a1 a2 a3 a4 z ->
  (i < n)%nat -> (forall j, (j < i)%nat -> ends (call j) (t j)) -> raises (call i) e ->
  raises (pointwise solve fr a1 a2 a3 a4 z unroll p1 p2 p3) e.
Proof.
  intros O Hi H E. destruct F as (F1 & F2 & F3 & F4 & F5). unfold pointwise.
  rewrite (broadcast5_n _ _ _ _ _ n) by eauto using feeds_W. rewrite bind_ret. 
  assert (AL : forall x : arr num, atleast_1d (broadcast_to x [n]) = broadcast_to x [n]) by reflexivity. rewrite AL. cbn [shape broadcast_to].
  apply raises_bind_l.
  erewrite (mapM_ext _ call).
  2:{ intros k Hk. unfold call.
      rewrite !AL, (feeds_get a1 n c1), (feeds_get a2 n c2), (feeds_get a3 n c3), (feeds_get a4 n c4), (feeds_get z n cz) by auto. reflexivity. }
  eapply mapM_raises; eauto.
Qed.
End Pointwise.

Lemma pointwise_scalar solve fr a1 a2 a3 a4 z unroll p1 p2 p3 t : all_of [] a1 a2 a3 a4 z ->
  ends (solve (nsub (fe_a fr) (get z [])) (fe_f fr) (get a1 []) (get a2 []) (get a3 []) (get a4 []) unroll) t ->
  ends_with (pointwise solve fr a1 a2 a3 a4 z unroll p1 p2 p3) (fun r =>
    (shape (fst (fst r)) = [] /\ get (fst (fst r)) [] = p1 (fst (fst t))) /\
    (shape (snd (fst r)) = [] /\ get (snd (fst r)) [] = p2 (snd (fst t))) /\
    (shape (snd r) = [] /\ get (snd r) [] = p3 (snd t))).
Proof.
  intros (S1 & S2 & S3 & S4 & S5) H. unfold pointwise, broadcast5. rewrite S1, S2, S3, S4, S5.
  cbn [bshape bshape_rev rev]. rewrite bind_ret. cbn [atleast_1d broadcast_to shape]. cbn [Nat.eqb ndim shape broadcast_to length].
  assert (B : forall x : arr num, shape x = [] -> forall ix, get (broadcast_to x []) ix = get x []).
  { intros x S ix. cbn [get broadcast_to]. rewrite S, bidx_nil. reflexivity. }
  eexists. split.
  - eapply ends_bind_i.
    + apply (mapM_ends _ 1 (fun _ => t)). intros i Hi. unfold atleast_1d. cbn [broadcast_to shape get].
      rewrite S1, S2, S3, S4, S5, !bidx_nil. exact H.
    + cbn [map seq]. unfold first, triples, Nd.vec. cbn [map1 shape length map Nat.ltb Nat.leb]. rewrite !bind_ret. reflexivity.
  - cbn. auto 10.
Qed.

(** an angle argument as the solver gets it (in degrees), a returned angle *)
Definition to_degrees (degrees : bool) (x : num) : num := if degrees then x else rad2deg x.
Definition from_degrees (degrees : bool) (x : num) : num := if degrees then x else deg2rad x.

Lemma feeds_map f x n c : feeds x n c -> feeds (map1 f x) n (fun i => f (c i)).
Proof.
  intros [[S H]|[[S H]|[S H]]]; [left|right; left|right; right]; (split; [exact S|]); intros i Hi; cbn [get map1]; rewrite H; auto.
Qed.

(** [s] are the shapes of the three results, [v i] the three results of the i-th call *)
Definition results (r : arr num * arr num * arr num) (n : nat) (v : nat -> num * num * num) : Prop :=
  let '(x, y, w) := r in
  shape x = [n] /\ shape y = [n] /\ shape w = [n] /\
  forall i, (i < n)%nat -> (get x [i], get y [i], get w [i]) = v i.
Definition scalar_results (r : arr num * arr num * arr num) (v : num * num * num) : Prop :=
  let '(x, y, w) := r in shape x = [] /\ shape y = [] /\ shape w = [] /\ (get x [], get y [], get w []) = v.

(** For five inputs that are numbers or arrays of n >= 1 numbers (at least one array), the i-th result is that of the
    i-th call of the solver: on the ellipsoid with semi-major axis a - z_i and flattening f, for the
    i-th inputs in degrees; [gi], [gd] and their warnings and results are arbitrary *)
Theorem C53_inverse_pointwise : forall gi fr x1 x2 x3 x4 z unroll degrees n c1 c2 c3 c4 cz t,
  feeds x1 n c1 -> feeds x2 n c2 -> feeds x3 n c3 -> feeds x4 n c4 -> feeds z n cz ->
  one_of [n] x1 x2 x3 x4 z -> (0 < n)%nat ->
  (forall i, (i < n)%nat ->
     ends (gi (nsub (fe_a fr) (cz i)) (fe_f fr) (to_degrees degrees (c1 i)) (to_degrees degrees (c2 i))
             (to_degrees degrees (c3 i)) (to_degrees degrees (c4 i)) unroll) (t i)) ->
  ends_with (inverse gi fr x1 x2 x3 x4 z unroll degrees) (fun r => results r n (fun i =>
    let '(s, a, b) := t i in (s, from_degrees degrees a, from_degrees degrees b))).
Proof.
  intros gi fr x1 x2 x3 x4 z unroll degrees n c1 c2 c3 c4 cz t H1 H2 H3 H4 Hz O Hn H. unfold inverse. destruct degrees.
  - destruct (pointwise_list gi fr x1 x2 x3 x4 z unroll (fun x => x) (fun x => x) (fun x => x) n c1 c2 c3 c4 cz
      (conj H1 (conj H2 (conj H3 (conj H4 Hz)))) t O Hn H) as ([[a b] d] & E & S1 & S2 & S3 & G).
    exists (a, b, d). split; auto. split; auto. split; auto. split; auto. intros i Hi. cbn [fst snd] in G.
    destruct (G i Hi) as (-> & -> & ->). destruct (t i) as [[? ?] ?]. reflexivity.
  - destruct (pointwise_list gi fr (deg1 x1) (deg1 x2) (deg1 x3) (deg1 x4) z unroll (fun x => x) deg2rad deg2rad n _ _ _ _ cz
      (conj (feeds_map rad2deg _ _ _ H1) (conj (feeds_map rad2deg _ _ _ H2) (conj (feeds_map rad2deg _ _ _ H3) (conj (feeds_map rad2deg _ _ _ H4) Hz)))) t O Hn H)
      as ([[a b] d] & E & S1 & S2 & S3 & G).
    exists (a, b, d). split; auto. split; auto. split; auto. split; auto. intros i Hi. cbn [fst snd] in G.
    destruct (G i Hi) as (-> & -> & ->). destruct (t i) as [[? ?] ?]. reflexivity.
Qed.
Print Assumptions C53_inverse_pointwise.

Theorem C53_direct_pointwise : forall gd fr x1 x2 x3 x4 z unroll degrees n c1 c2 c3 c4 cz t,
  feeds x1 n c1 -> feeds x2 n c2 -> feeds x3 n c3 -> feeds x4 n c4 -> feeds z n cz ->
  one_of [n] x1 x2 x3 x4 z -> (0 < n)%nat ->
  (forall i, (i < n)%nat ->
     ends (gd (nsub (fe_a fr) (cz i)) (fe_f fr) (to_degrees degrees (c1 i)) (to_degrees degrees (c2 i))
             (to_degrees degrees (c3 i)) (c4 i) unroll) (t i)) ->
  ends_with (direct gd fr x1 x2 x3 x4 z unroll degrees) (fun r => results r n (fun i =>
    let '(la, lo, b) := t i in (from_degrees degrees la, from_degrees degrees lo, from_degrees degrees b))).
Proof.
  intros gi fr x1 x2 x3 x4 z unroll degrees n c1 c2 c3 c4 cz t H1 H2 H3 H4 Hz O Hn H. unfold direct. destruct degrees.
  - destruct (pointwise_list gi fr x1 x2 x3 x4 z unroll (fun x => x) (fun x => x) (fun x => x) n c1 c2 c3 c4 cz
      (conj H1 (conj H2 (conj H3 (conj H4 Hz)))) t O Hn H) as ([[a b] d] & E & S1 & S2 & S3 & G).
    exists (a, b, d). split; auto. split; auto. split; auto. split; auto. intros i Hi. cbn [fst snd] in G.
    destruct (G i Hi) as (-> & -> & ->). destruct (t i) as [[? ?] ?]. reflexivity.
  - destruct (pointwise_list gi fr (deg1 x1) (deg1 x2) (deg1 x3) x4 z unroll deg2rad deg2rad deg2rad n _ _ _ c4 cz
      (conj (feeds_map rad2deg _ _ _ H1) (conj (feeds_map rad2deg _ _ _ H2) (conj (feeds_map rad2deg _ _ _ H3) (conj H4 Hz)))) t O Hn H)
      as ([[a b] d] & E & S1 & S2 & S3 & G).
    exists (a, b, d). split; auto. split; auto. split; auto. split; auto. intros i Hi. cbn [fst snd] in G.
    destruct (G i Hi) as (-> & -> & ->). destruct (t i) as [[? ?] ?]. reflexivity.
Qed.
Print Assumptions C53_direct_pointwise.

(** all inputs scalars: scalar results of one call *)
Theorem C53_scalar : forall gi gd fr x1 x2 x3 x4 z unroll degrees t s, all_of [] x1 x2 x3 x4 z ->
  let g x := get x [] in
  let an x := to_degrees degrees (g x) in
  ends (gi (nsub (fe_a fr) (g z)) (fe_f fr) (an x1) (an x2) (an x3) (an x4) unroll) t ->
  ends (gd (nsub (fe_a fr) (g z)) (fe_f fr) (an x1) (an x2) (an x3) (g x4) unroll) s ->
  ends_with (inverse gi fr x1 x2 x3 x4 z unroll degrees) (fun r => scalar_results r
    (let '(d, a, b) := t in (d, from_degrees degrees a, from_degrees degrees b))) /\
  ends_with (direct gd fr x1 x2 x3 x4 z unroll degrees) (fun r => scalar_results r
    (let '(la, lo, b) := s in (from_degrees degrees la, from_degrees degrees lo, from_degrees degrees b))).
Proof.
  intros gi gd fr x1 x2 x3 x4 z unroll degrees t s A g an Ht Hs. pose proof A as (S1 & S2 & S3 & S4 & S5). unfold inverse, direct.
  assert (Fin' : forall (m : M (arr num * arr num * arr num)) (q v : num * num * num) (p1 p2 p3 : num -> num),
     ends_with m (fun r => (shape (fst (fst r)) = [] /\ get (fst (fst r)) [] = p1 (fst (fst q))) /\
       (shape (snd (fst r)) = [] /\ get (snd (fst r)) [] = p2 (snd (fst q))) /\ (shape (snd r) = [] /\ get (snd r) [] = p3 (snd q))) ->
     v = (p1 (fst (fst q)), p2 (snd (fst q)), p3 (snd q)) -> ends_with m (fun r => scalar_results r v)).
  { intros m q v p1 p2 p3 ([[a b] d] & E & (A1 & A2) & (B1 & B2) & (C1 & C2)) Ef. exists (a, b, d). split; auto. cbn [fst snd] in *. unfold scalar_results.
    repeat (split; auto). rewrite A2, B2, C2. auto. }
  split; destruct degrees; eapply Fin'.
  - apply (pointwise_scalar gi); [exact A|exact Ht]. - destruct t as [[? ?] ?]; reflexivity.
  - apply (pointwise_scalar gi fr (deg1 x1) (deg1 x2) (deg1 x3) (deg1 x4)); [exact A|exact Ht]. - destruct t as [[? ?] ?]; reflexivity.
  - apply (pointwise_scalar gd); [exact A|exact Hs]. - destruct s as [[? ?] ?]; reflexivity.
  - apply (pointwise_scalar gd fr (deg1 x1) (deg1 x2) (deg1 x3) x4); [exact A|exact Hs]. - destruct s as [[? ?] ?]; reflexivity.
Qed.
Print Assumptions C53_scalar.

(** an exception of the solver at the i-th inputs is the exception of the call *)
Theorem C53_exception : forall gi fr x1 x2 x3 x4 z unroll degrees n c1 c2 c3 c4 cz t i e,
  feeds x1 n c1 -> feeds x2 n c2 -> feeds x3 n c3 -> feeds x4 n c4 -> feeds z n cz -> one_of [n] x1 x2 x3 x4 z ->
  let call i := gi (nsub (fe_a fr) (cz i)) (fe_f fr) (to_degrees degrees (c1 i)) (to_degrees degrees (c2 i))
             (to_degrees degrees (c3 i)) (to_degrees degrees (c4 i)) unroll in
  let calld i := gi (nsub (fe_a fr) (cz i)) (fe_f fr) (to_degrees degrees (c1 i)) (to_degrees degrees (c2 i))
             (to_degrees degrees (c3 i)) (c4 i) unroll in
  (i < n)%nat ->
  ((forall j, (j < i)%nat -> ends (call j) (t j)) -> raises (call i) e -> raises (inverse gi fr x1 x2 x3 x4 z unroll degrees) e) /\
  ((forall j, (j < i)%nat -> ends (calld j) (t j)) -> raises (calld i) e -> raises (direct gi fr x1 x2 x3 x4 z unroll degrees) e).
Proof.
  intros gi fr x1 x2 x3 x4 z unroll degrees n c1 c2 c3 c4 cz t i e H1 H2 H3 H4 Hz O call calld Hi. unfold inverse, direct.
  split; intros Hj He; destruct degrees.
  - apply (pointwise_raises gi fr x1 x2 x3 x4 z unroll _ _ _ n c1 c2 c3 c4 cz (conj H1 (conj H2 (conj H3 (conj H4 Hz)))) t i); auto.
  - apply (pointwise_raises gi fr (deg1 x1) (deg1 x2) (deg1 x3) (deg1 x4) z unroll _ _ _ n _ _ _ _ cz
      (conj (feeds_map rad2deg _ _ _ H1) (conj (feeds_map rad2deg _ _ _ H2) (conj (feeds_map rad2deg _ _ _ H3) (conj (feeds_map rad2deg _ _ _ H4) Hz)))) t i); auto.
  - apply (pointwise_raises gi fr x1 x2 x3 x4 z unroll _ _ _ n c1 c2 c3 c4 cz (conj H1 (conj H2 (conj H3 (conj H4 Hz)))) t i); auto.
  - apply (pointwise_raises gi fr (deg1 x1) (deg1 x2) (deg1 x3) x4 z unroll _ _ _ n _ _ _ _ cz
      (conj (feeds_map rad2deg _ _ _ H1) (conj (feeds_map rad2deg _ _ _ H2) (conj (feeds_map rad2deg _ _ _ H3) (conj H4 Hz)))) t i); auto.
Qed.
Print Assumptions C53_exception.

(** empty arrays are refused *)
Theorem C53_empty : forall gi fr x1 x2 x3 x4 z unroll degrees,
  (forall x, In x [x1; x2; x3; x4; z] -> shape x = [] \/ shape x = [1%nat] \/ shape x = [0%nat]) -> one_of [0%nat] x1 x2 x3 x4 z ->
  raises (inverse gi fr x1 x2 x3 x4 z unroll degrees) ValueError /\ raises (direct gi fr x1 x2 x3 x4 z unroll degrees) ValueError.
Proof.
  intros gi fr x1 x2 x3 x4 z unroll degrees H O.
  assert (X : forall y1 y2 y3 y4 p1 p2 p3, shape y1 = shape x1 -> shape y2 = shape x2 -> shape y3 = shape x3 -> shape y4 = shape x4 ->
     raises (pointwise gi fr y1 y2 y3 y4 z unroll p1 p2 p3) ValueError).
  { intros y1 y2 y3 y4 p1 p2 p3 E1 E2 E3 E4. unfold pointwise. rewrite (broadcast5_n _ _ _ _ _ 0%nat).
    - reflexivity.
    - rewrite E1. apply H. cbn; auto. - rewrite E2. apply H. cbn; auto. - rewrite E3. apply H. cbn; auto. - rewrite E4. apply H. cbn; auto 6. - apply H. cbn; auto 8.
    - unfold one_of. rewrite E1, E2, E3, E4. exact O. }
  unfold inverse, direct. destruct degrees; split; apply X; reflexivity.
Qed.
Print Assumptions C53_empty.

(** three points A against one point B, at one depth *)
Example C53_example : feeds (arr1 [1; 2; 3]) 3 (fun i => Fin (nth i [1; 2; 3] 0)) /\ feeds (scal (Fin 7)) 3 (fun _ => Fin 7) /\
  one_of [3%nat] (arr1 [1; 2; 3]) (scal (Fin 7)) (scal (Fin 7)) (scal (Fin 7)) (scal (Fin 0)).
Proof.
  split; [right; right; split; [reflexivity|]; intros; reflexivity|]. split; [left; split; [reflexivity|]; intros; reflexivity|]. left. reflexivity.
Qed.
