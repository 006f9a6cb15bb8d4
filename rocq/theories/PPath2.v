(** * C63-C65: GeoPath.cross_track_distance, on_great_circle, on_path *)
From Coq Require Import Ascii String List Arith Lia Bool Reals Lra Psatz ZArith.
From Verif Require Import Num Py Nd MUtil MRotation MCore MObjects Spec SpecArr SpecObj SpecGeo SpecPath LNum LTrig LVec LArr LLatLon LMat LRot
  LAngle LDist PDist PUtil LCircle PCircle PTrack PArc LEq LEcef PEcef PRot PFrame PEq LObj PEq2 LDirect PDirect LObj2 PObj PObj2 POps PGeod LGreat PGreat PPath PClosest.
Import ListNotations.
Local Open Scope R_scope.

(** the final unpacking: [d] is returned as a scalar if the radius is one and d has one entry *)
Lemma unpack (b : bool) D m P : list1P D m P -> (0 < m)%nat ->
  exists x d, (if b && (size D =? 1)%nat then first D else ret D) = ret x /\ vals x m d /\
    shape x = (if b && (m =? 1)%nat then [] else [m]) /\ forall j, (j < m)%nat -> P j (d j).
Proof.
  intros HD Hm. destruct (list1P_list1 _ _ _ HD) as [L PD]. pose proof L as [S G].
  assert (Z : size D = m) by (unfold size; rewrite S; cbn; lia). rewrite Z. clear Z.
  destruct b, (Nat.eqb_spec m 1); cbn [andb]; try solve [exists D, (entries D); auto using list1_vals].
  subst m. unfold first. rewrite S. cbn [Nat.ltb Nat.leb].
  eexists. exists (entries D). split; [reflexivity|]. split; [|auto].
  left. split; auto. split; [reflexivity|]. exact (G 0%nat ltac:(lia)).
Qed.

Lemma spread_widths x m z : spread x m z -> exists k r, vals x k r /\ (k = 1%nat \/ k = m) /\ bdim m k = Some m /\ forall j, (j < m)%nat -> z j = r (cl k j).
Proof. intros (k & r & V & D & E). exists k, r. split; auto. split; auto. destruct (bdim_inv _ _ _ D) as [_ [?|?]]; auto. Qed.

Lemma radii_pos m k (r rr : nat -> R) : (0 < m)%nat -> k = 1%nat \/ k = m -> (forall j, (j < m)%nat -> r j = rr (cl k j)) ->
  (forall j, (j < m)%nat -> 0 < r j) -> forall j, (j < k)%nat -> 0 < rr j.
Proof.
  intros Hm Hk Hr PR j Hj. destruct Hk as [->| ->].
  - assert (j = 0%nat) by lia. subst. specialize (Hr 0%nat Hm). rewrite cl_1 in Hr. rewrite <- Hr. auto.
  - specialize (Hr j Hj). rewrite cl_id in Hr by auto. rewrite <- Hr. auto.
Qed.
Lemma list1P_ext D m (P Q : nat -> R -> Prop) : (forall j, (j < m)%nat -> forall t, P j t -> Q j t) -> list1P D m P -> list1P D m Q.
Proof. intros H [S G]. split; auto. intros j Hj. destruct (G j Hj) as (t & Ht & Pt). exists t. auto. Qed.

Section Track.
Variables (A B P : point) (m : nat) (pA pB pP upA upB upP : nat -> vec) (a f : R) (M : mat) (radius : option (arr num)) (r : nat -> R).
Hypothesis El : ellipsoid a f.
Hypothesis E2 : ecc2 f <= 1 / 2.
Hypothesis HA : placed A 1 pA upA a f M.
Hypothesis HB : placed B 1 pB upB a f M.
Hypothesis HP : placed P m pP upP a f M.
Hypothesis UA : unit_normals A 1.
Hypothesis UB : unit_normals B 1.
Hypothesis UP : unit_normals P m.
Hypothesis HR : radii radius m (pA 0%nat) (pB 0%nat) r.
Let a1 := upA 0%nat.
Let a2 := upB 0%nat.

Lemma m_pos : (0 < m)%nat.
Proof. destruct (placed_frame _ _ _ _ _ _ _ HP) as (_ & _ & ?); auto. Qed.

Lemma radius_ok : exists ws x k rr, radius_or_average (GeoPath A B) radius = (ws, inl x) /\ vals x k rr /\ (k = 1%nat \/ k = m) /\
  bdim m k = Some m /\ (forall j, (j < m)%nat -> r j = rr (cl k j)) /\ (ndim x =? 0)%nat = scalar_radius radius A B.
Proof.
  destruct radius as [x|]; cbn [radii radius_or_average scalar_radius] in *.
  - destruct (spread_widths _ _ _ HR) as (k & rr & V & Hk & D & E). exists [], x, k, rr. repeat (split; auto).
  - destruct (average_radius_spec _ _ _ _ _ _ _ _ _ _ _ _ El HA HB (bdim_refl 1)) as (ws & x & Er & Vr & Sr).
    exists ws, x, 1%nat, (fun j => (vnorm (pA (cl 1 j)) + vnorm (pB (cl 1 j))) / 2). split; auto. split; auto. split; auto. split; [apply bdim_1_r|].
    split. { intros j Hj. rewrite HR by auto. rewrite !cl_1. reflexivity. }
    unfold ndim. rewrite Sr. cbn [Nat.eqb]. rewrite andb_true_r. destruct (is_scalar_point A && is_scalar_point B); reflexivity.
Qed.

Lemma query_ok : exists ws v z, to_nvector P = (ws, inl v) /\ cols (n_normal v) m upP /\ spread (n_z v) m z /\
  is_frame (n_frame v) a f M /\
  forall j, (j < m)%nat -> vnorm (upP j) = 1 /\ shallow a f (z j) /\ pP j = pos a f M (upP j) (z j).
Proof.
  destruct (to_nvector_unit _ _ _ _ _ _ _ HP El E2 UP) as (w & v & z & Ev & (_ & C & _ & S & F) & Cv & _).
  exists w, v, z. auto.
Qed.

Lemma xtd_path method (Q : nat -> R -> Prop) :
  (forall X1 X2 Y x k rr, cols X1 1 (fun _ => a1) -> cols X2 1 (fun _ => a2) -> cols Y m upP ->
     (forall j, (j < m)%nat -> vnorm (upP j) = 1) -> vals x k rr -> (k = 1%nat \/ k = m) -> (forall j, (j < m)%nat -> r j = rr (cl k j)) ->
     returns (cross_track_distance (X1, X2) Y method x) [] (fun D => list1P D m Q)) ->
  exists ws x d, path_cross_track_distance (GeoPath A B) P method radius = (ws, inl x) /\ vals x m d /\
    shape x = (if scalar_radius radius A B && (m =? 1)%nat then [] else [m]) /\ forall j, (j < m)%nat -> Q j (d j).
Proof.
  intros H. destruct radius_ok as (w1 & rx & k & rr & Er & Vr & Hk & Db & Hr & Nr).
  destruct (path_data A B pA pB upA upB a f M El E2 HA HB UA UB) as (w2 & va & vb & zA & zB & Ev & CA & CB & _).
  destruct query_ok as (w3 & vp & z & Ep & CP & _ & _ & Cp).
  unfold path_cross_track_distance. rewrite Er, bind_inl, Ev, bind_inl, Ep, bind_inl.
  destruct (H _ _ _ _ _ _ CA CB CP (fun j Hj => proj1 (Cp j Hj)) Vr Hk Hr) as (D & ED & HD). rewrite ED, bind_inl, Nr.
  destruct (unpack (scalar_radius radius A B) D m Q HD m_pos) as (x & d & Ex & Vx & Sx & Qx). rewrite Ex.
  eexists. exists x, d. split; [reflexivity|]. split; [exact Vx|]. split; [exact Sx|exact Qx].
Qed.
End Track.

Theorem C63_great_circle : forall A B P m pA pB pP upA upB upP a f M radius r c rest,
  ellipsoid a f -> ecc2 f <= 1 / 2 ->
  placed A 1 pA upA a f M -> placed B 1 pB upB a f M -> placed P m pP upP a f M ->
  unit_normals A 1 -> unit_normals B 1 -> unit_normals P m ->
  radii radius m (pA 0%nat) (pB 0%nat) r -> (forall j, (j < m)%nat -> 0 < r j) ->
  let a1 := upA 0%nat in let a2 := upB 0%nat in
  vcross a1 a2 <> v0 -> c <> "e"%char -> c <> "E"%char ->
  ends_with (path_cross_track_distance (GeoPath A B) P (String c rest) radius) (fun x => exists d,
    vals x m d /\ shape x = (if scalar_radius radius A B && (m =? 1)%nat then [] else [m]) /\
    forall j, (j < m)%nat ->
      (forall p, on_circle a1 a2 p -> Rabs (d j) <= r j * angle (upP j) p) /\
      (exists p, on_circle a1 a2 p /\ Rabs (d j) = r j * angle (upP j) p) /\
      (0 < d j <-> vdot (upP j) (vcross a1 a2) < 0) /\
      (d j = 0 <-> on_circle a1 a2 (upP j))).
Proof.
  intros A B P m pA pB pP upA upB upP a f M radius r c rest El E2 HA HB HP UA UB UP HR PR a1 a2 Z N1 N2.
  destruct (xtd_path A B P m pA pB pP upA upB upP a f M radius r El E2 HA HB HP UA UB UP HR (String c rest) (fun j d =>
    (forall p, on_circle a1 a2 p -> Rabs d <= r j * angle (upP j) p) /\
    (exists p, on_circle a1 a2 p /\ Rabs d = r j * angle (upP j) p) /\
    (0 < d <-> vdot (upP j) (vcross a1 a2) < 0) /\ (d = 0 <-> on_circle a1 a2 (upP j)))) as (ws & x & d & E & V & S & Q).
  - intros X1 X2 Y x k rr C1 C2 CY UY Vx Hk Hr.
    destruct (C19_distance_to_great_circle X1 X2 Y m a1 a2 upP c rest x k rr C1 C2 Z CY UY N1 N2 Vx Hk) as (D & ED & HD).
    { exact (radii_pos m k r rr (m_pos P m pP upP a f M HP) Hk Hr PR). }
    exists D. split; [exact ED|]. eapply list1P_ext; [|exact HD]. intros j Hj t. rewrite (Hr j Hj). auto.
  - exists x. split; [rewrite E; reflexivity|]. exists d. auto.
Qed.
Print Assumptions C63_great_circle.

Theorem C63_euclidean : forall A B P m pA pB pP upA upB upP a f M radius r c rest,
  ellipsoid a f -> ecc2 f <= 1 / 2 ->
  placed A 1 pA upA a f M -> placed B 1 pB upB a f M -> placed P m pP upP a f M ->
  unit_normals A 1 -> unit_normals B 1 -> unit_normals P m ->
  radii radius m (pA 0%nat) (pB 0%nat) r -> (forall j, (j < m)%nat -> 0 < r j) ->
  let a1 := upA 0%nat in let a2 := upB 0%nat in
  vcross a1 a2 <> v0 -> c = "e"%char \/ c = "E"%char ->
  ends_with (path_cross_track_distance (GeoPath A B) P (String c rest) radius) (fun x => exists d,
    vals x m d /\ shape x = (if scalar_radius radius A B && (m =? 1)%nat then [] else [m]) /\
    forall j, (j < m)%nat ->
      (forall q, vdot q (vcross a1 a2) = 0 -> Rabs (d j) <= r j * vnorm (vsub (upP j) q)) /\
      (exists q, vdot q (vcross a1 a2) = 0 /\ Rabs (d j) = r j * vnorm (vsub (upP j) q)) /\
      (0 < d j <-> vdot (upP j) (vcross a1 a2) < 0) /\
      (d j = 0 <-> on_circle a1 a2 (upP j))).
Proof.
  intros A B P m pA pB pP upA upB upP a f M radius r c rest El E2 HA HB HP UA UB UP HR PR a1 a2 Z N.
  destruct (xtd_path A B P m pA pB pP upA upB upP a f M radius r El E2 HA HB HP UA UB UP HR (String c rest) (fun j d =>
    (forall q, vdot q (vcross a1 a2) = 0 -> Rabs d <= r j * vnorm (vsub (upP j) q)) /\
    (exists q, vdot q (vcross a1 a2) = 0 /\ Rabs d = r j * vnorm (vsub (upP j) q)) /\
    (0 < d <-> vdot (upP j) (vcross a1 a2) < 0) /\ (d = 0 <-> on_circle a1 a2 (upP j)))) as (ws & x & d & E & V & S & Q).
  - intros X1 X2 Y x k rr C1 C2 CY UY Vx Hk Hr.
    destruct (C19_euclidean_distance_to_plane X1 X2 Y m a1 a2 upP c rest x k rr C1 C2 Z CY UY N Vx Hk) as (D & ED & HD).
    { exact (radii_pos m k r rr (m_pos P m pP upP a f M HP) Hk Hr PR). }
    exists D. split; [exact ED|]. eapply list1P_ext; [|exact HD]. intros j Hj t. rewrite (Hr j Hj). auto.
  - exists x. split; [rewrite E; reflexivity|]. exists d. auto.
Qed.
Print Assumptions C63_euclidean.

Theorem C63_empty_method : forall A B P m pA pB pP upA upB upP a f M radius r,
  ellipsoid a f -> ecc2 f <= 1 / 2 ->
  placed A 1 pA upA a f M -> placed B 1 pB upB a f M -> placed P m pP upP a f M ->
  unit_normals A 1 -> unit_normals B 1 -> unit_normals P m ->
  radii radius m (pA 0%nat) (pB 0%nat) r -> vcross (upA 0%nat) (upB 0%nat) <> v0 ->
  raises (path_cross_track_distance (GeoPath A B) P "" radius) IndexError.
Proof.
  intros A B P m pA pB pP upA upB upP a f M radius r El E2 HA HB HP UA UB UP HR Z.
  destruct (radius_ok A B m pA pB upA upB a f M radius r El HA HB HR) as (w1 & rx & k & rr & Er & Vr & Hk & Db & Hr & Nr).
  destruct (path_data A B pA pB upA upB a f M El E2 HA HB UA UB) as (w2 & va & vb & zA & zB & Ev & CA & CB & _).
  destruct (query_ok P m pP upP a f M El E2 HP UP) as (w3 & vp & z & Ep & CP & _ & _ & Cp).
  unfold path_cross_track_distance. rewrite Er, bind_inl, Ev, bind_inl, Ep, bind_inl.
  pose proof (C19_empty_method _ _ _ m _ _ upP rx CA CB Z CP) as X. destruct (cross_track_distance _ _ _ _) as [w [?|?]]; [discriminate X|].
  injection X as ->. reflexivity.
Qed.
Print Assumptions C63_empty_method.

(** ** boolean arrays *)
Lemma map2_answer {X Y} (g : X -> Y -> bool) (x : arr X) (y : arr Y) n l k (sx : (n = 1%nat /\ shape x = []) \/ shape x = [n])
  (sy : (l = 1%nat /\ shape y = []) \/ shape y = [l]) (P : nat -> Prop) : bdim n l = Some k ->
  (forall j, (j < k)%nat -> (g (get x (bidx (shape x) [j])) (get y (bidx (shape y) [j])) = true <-> P j)) ->
  exists z, map2 g x y = ret z /\ answer z k P /\ (shape x = [n] \/ shape y = [l] -> shape z = [k]).
Proof.
  intros D H. unfold map2.
  destruct sx as [[-> Sx]|Sx], sy as [[-> Sy]|Sy]; rewrite Sx, Sy in *.
  - change (bshape [] []) with (Some (@nil nat)). assert (k = 1%nat) by (clear - D; bcases). subst k. eexists. split; [reflexivity|].
    split; [|intros [Q|Q]; discriminate Q]. left. split; auto. split; [reflexivity|]. apply (H 0%nat ltac:(lia)).
  - rewrite bshape_nil_l. assert (k = l) by (clear - D; bcases). subst k. eexists. split; [reflexivity|].
    split; [|reflexivity]. right. split; [reflexivity|]. intros j Hj. apply (H j Hj).
  - rewrite bshape_nil_r. assert (k = n) by (clear - D; bcases). subst k. eexists. split; [reflexivity|].
    split; [|reflexivity]. right. split; [reflexivity|]. intros j Hj. apply (H j Hj).
  - rewrite (bshape_n_m _ _ _ D). eexists. split; [reflexivity|]. split; [|reflexivity]. right. split; [reflexivity|]. intros j Hj. apply (H j Hj).
Qed.

Lemma vals_shapes x n u : vals x n u -> ((n = 1%nat /\ shape x = []) \/ shape x = [n]) /\ (forall j, (j < n)%nat -> get x (bidx (shape x) [j]) ≈ u j).
Proof.
  intros [[-> [S G]]|[S G]]; (split; [auto|]); intros j Hj.
  - assert (j = 0%nat) by lia. subst. rewrite S. exact G.
  - rewrite S, bidx_1, cl_id by auto. auto.
Qed.
Lemma answer_shapes x n P : answer x n P -> ((n = 1%nat /\ shape x = []) \/ shape x = [n]) /\ (forall j, (j < n)%nat -> get x (bidx (shape x) [j]) = true <-> P j).
Proof.
  intros [[-> [S G]]|[S G]]; (split; [auto|]); intros j Hj.
  - assert (j = 0%nat) by lia. subst. rewrite S. exact G.
  - rewrite S, bidx_1, cl_id by auto. auto.
Qed.
Lemma bidx_cl s n k j : ((n = 1%nat /\ s = []) \/ s = [n]) -> (k = 1%nat \/ True) -> bidx s [j] = bidx s [cl n j].
Proof.
  intros [[-> ->]| ->] _; [reflexivity|]. rewrite !bidx_1. f_equal. unfold cl. destruct (n =? 1)%nat; reflexivity.
Qed.

Lemma isclose_answer x n u y l v k xr xa rt at' e : vals x n u -> vals y l v -> bdim n l = Some k -> xr ≈ rt -> xa ≈ at' ->
  exists z, isclose x y xr xa e = ret z /\ answer z k (fun j => close rt at' (u (cl n j)) (v (cl l j))) /\
    (shape x = [n] \/ shape y = [l] -> shape z = [k]).
Proof.
  intros Vx Vy D Hr Ha. destruct (vals_shapes _ _ _ Vx) as [Sx Gx]. destruct (vals_shapes _ _ _ Vy) as [Sy Gy].
  apply map2_answer; auto. intros j Hj. apply isclose1_fin; auto.
  - rewrite (bidx_cl _ n 1) by auto. apply Gx. eapply cl_lt_l; eauto.
  - rewrite (bidx_cl _ l 1) by auto. apply Gy. eapply cl_lt_r; eauto.
Qed.
Lemma and_answer x n P y l Q k : answer x n P -> answer y l Q -> bdim n l = Some k ->
  exists z, map2 andb x y = ret z /\ answer z k (fun j => P (cl n j) /\ Q (cl l j)) /\ (shape x = [n] \/ shape y = [l] -> shape z = [k]).
Proof.
  intros Vx Vy D. destruct (answer_shapes _ _ _ Vx) as [Sx Gx]. destruct (answer_shapes _ _ _ Vy) as [Sy Gy].
  apply map2_answer; auto. intros j Hj. rewrite andb_true_iff, (bidx_cl (shape x) n 1), (bidx_cl (shape y) l 1) by auto.
  rewrite Gx, Gy; [reflexivity| |]; [eapply cl_lt_r|eapply cl_lt_l]; eauto.
Qed.
Lemma or_answer x n P y l Q k : answer x n P -> answer y l Q -> bdim n l = Some k ->
  exists z, map2 orb x y = ret z /\ answer z k (fun j => P (cl n j) \/ Q (cl l j)) /\ (shape x = [n] \/ shape y = [l] -> shape z = [k]).
Proof.
  intros Vx Vy D. destruct (answer_shapes _ _ _ Vx) as [Sx Gx]. destruct (answer_shapes _ _ _ Vy) as [Sy Gy].
  apply map2_answer; auto. intros j Hj. rewrite orb_true_iff, (bidx_cl (shape x) n 1), (bidx_cl (shape y) l 1) by auto.
  rewrite Gx, Gy; [reflexivity| |]; [eapply cl_lt_r|eapply cl_lt_l]; eauto.
Qed.
Lemma ge_answer x n u y l v k : vals x n u -> vals y l v -> bdim n l = Some k ->
  exists z, map2 (fun p q => nle q p) x y = ret z /\ answer z k (fun j => v (cl l j) <= u (cl n j)).
Proof.
  intros Vx Vy D. destruct (vals_shapes _ _ _ Vx) as [Sx Gx]. destruct (vals_shapes _ _ _ Vy) as [Sy Gy].
  edestruct (map2_answer (fun p q => nle q p) x y n l k Sx Sy) as (z & Ez & Az & _); [exact D| |exists z; split; [exact Ez|exact Az]].
  intros j Hj. cbv beta. rewrite (nle_fin _ _ (v (cl l j)) (u (cl n j))).
  - destruct (Rle_dec _ _); split; intros; auto; discriminate.
  - rewrite (bidx_cl _ l 1) by auto. apply Gy. eapply cl_lt_r; eauto.
  - rewrite (bidx_cl _ n 1) by auto. apply Gx. eapply cl_lt_l; eauto.
Qed.
Lemma answer_ext x n P Q : answer x n P -> (forall j, (j < n)%nat -> P j <-> Q j) -> answer x n Q.
Proof.
  intros [[-> [S G]]|[S G]] H; [left|right].
  - split; auto. split; auto. rewrite G. apply H; lia.
  - split; auto. intros j Hj. rewrite <- (H j Hj). auto.
Qed.

(** closeness to zero with a relative tolerance below one is just the absolute tolerance *)
Lemma close_zero t d : 0 <= t -> close (/ 10 ^ 9) t d 0 <-> Rabs d <= t.
Proof.
  intros Ht. unfold close. rewrite Rminus_0_r, Rabs_R0. pose proof (Rabs_pos d) as Pd. rewrite (Rmax_left (Rabs d) 0) by auto.
  unfold Rmax. destruct (Rle_dec t (/ 10 ^ 9 * Rabs d)); [|reflexivity].
  assert (/ 10 ^ 9 <= 1 / 2) by lra. split; intros; [|lra]. nra.
Qed.

Theorem C64_on_great_circle : forall A B P m pA pB pP upA upB upP a f M xt t,
  ellipsoid a f -> ecc2 f <= 1 / 2 ->
  placed A 1 pA upA a f M -> placed B 1 pB upB a f M -> placed P m pP upP a f M ->
  unit_normals A 1 -> unit_normals B 1 -> unit_normals P m ->
  let a1 := upA 0%nat in let a2 := upB 0%nat in let radius := (vnorm (pA 0%nat) + vnorm (pB 0%nat)) / 2 in
  vcross a1 a2 <> v0 -> xt ≈ t -> 0 <= t ->
  ends_with (path_on_great_circle (GeoPath A B) P xt) (fun x =>
    answer x m (fun j => exists p, on_circle a1 a2 p /\ radius * angle (upP j) p <= t) /\
    shape x = (if is_scalar_point A && is_scalar_point B && (m =? 1)%nat then [] else [m])).
Proof.
  intros A B P m pA pB pP upA upB upP a f M xt t El E2 HA HB HP UA UB UP a1 a2 radius Z Ht T0.
  destruct (radius_data A B pA pB upA upB a f M El E2 HA HB UA UB) as (_ & _ & R0 & _ & _ & PR & ER).
  assert (PR' : 0 < radius) by (unfold radius; rewrite <- ER; auto).
  destruct (C63_great_circle A B P m pA pB pP upA upB upP a f M None (fun _ => radius) "g"%char "reatcircle" El E2 HA HB HP UA UB UP (fun _ _ => eq_refl) (fun _ _ => PR') Z)
    as (x & Ex & d & Vd & Sd & Q); try discriminate.
  unfold path_on_great_circle. destruct (path_cross_track_distance _ _ _ _) as [w [y|]]; [|discriminate Ex]. injection Ex as ->. rewrite bind_inl.
  assert (Va : vals (map1 nabs x) m (fun j => Rabs (d j))) by (eapply vals_map1; [|exact Vd]; intros; apply fin_abs; auto).
  destruct (isclose_answer _ _ _ z0 1 (fun _ => 0) m rtol9 xt (/ 10 ^ 9) t false Va (vals_scalar _ _ (scal_scalar 0)) (bdim_1_r m) (fin_Fin _) Ht) as (z & Ez & Az & Sz).
  exists z. rewrite Ez. split; [reflexivity|].
  split.
  - eapply answer_ext; [exact Az|]. intros j Hj. cbv beta. rewrite cl_id by auto. rewrite close_zero, Rabs_Rabsolu by auto.
    destruct (Q j Hj) as (Q1 & (p & Op & Ep) & _). split.
    + intros H. exists p. split; auto. lra.
    + intros (q & Oq & Eq). specialize (Q1 q Oq). lra.
  - change (shape (map1 nabs x)) with (shape x) in Sz. cbn [scalar_radius] in Sd. rewrite Sd in Sz.
    destruct (is_scalar_point A && is_scalar_point B && (m =? 1)%nat) eqn:Eb; [|apply Sz; auto].
    unfold isclose, map2 in Ez. change (shape (map1 nabs x)) with (shape x) in Ez. rewrite Sd in Ez. injection Ez as <-. reflexivity.
Qed.
Print Assumptions C64_on_great_circle.

(** a position and an outward normal determine the depth *)
Lemma at_depth_z a f M u z z' p : orthogonal M -> 0 < a -> f < 1 -> vnorm u = 1 -> at_depth a f M u z p -> at_depth a f M u z' p -> z = z'.
Proof.
  intros HM Pa F1 Hu (s & O & D & E) (s' & O' & D' & E').
  rewrite (ellipsoid_point_unique a f M u s' s) in E' by auto. rewrite direction_of_unit in * by auto.
  apply vnorm_unit in Hu. rewrite E in E'. 
  assert (Q : vdot (vsub s (vscale z u)) u = vdot (vsub s (vscale z' u)) u) by (rewrite E'; reflexivity).
  rewrite !vdot_sub_l, !vdot_scale_l, Hu in Q. lra.
Qed.

Section OnPath.
Variables (gi : solver) (A B P : point) (m : nat) (pA pB pP upA upB upP : nat -> vec) (a f : R) (M : mat) (zA zB : R) (zP : nat -> R).
Variables (xr xa : num) (rt at' : R) (method : string).
Hypothesis El : ellipsoid a f.
Hypothesis E2 : ecc2 f <= 1 / 2.
Hypothesis HA : placed A 1 pA upA a f M.
Hypothesis HB : placed B 1 pB upB a f M.
Hypothesis HP : placed P m pP upP a f M.
Hypothesis UA : unit_normals A 1.
Hypothesis UB : unit_normals B 1.
Hypothesis UP : unit_normals P m.
Let a1 := upA 0%nat.
Let a2 := upB 0%nat.
Let radius := (vnorm (pA 0%nat) + vnorm (pB 0%nat)) / 2.
Hypothesis Z : vcross a1 a2 <> v0.
Hypothesis DA : at_depth a f M a1 zA (pA 0%nat).
Hypothesis DB : at_depth a f M a2 zB (pB 0%nat).
Hypothesis DP : forall j, (j < m)%nat -> at_depth a f M (upP j) (zP j) (pP j).
Hypothesis Hr : xr ≈ rt.
Hypothesis Ha : xa ≈ at'.
Hypothesis Ne : String.prefix "ex" method = false.
Hypothesis Nl : String.prefix "el" method = false.

Lemma on_path_general :
  ends_with (on_path gi (GeoPath A B) P method xr xa) (fun x =>
    answer x m (fun j =>
      close rt at' (zP j) ((zA + zB) / 2) /\
      (exists p, on_circle a1 a2 p /\ radius * angle (upP j) p <= at') /\
      angle a1 (upP j) <= angle a1 a2 /\ angle a2 (upP j) <= angle a1 a2) /\
    shape x = (if is_scalar_point A && is_scalar_point B && (m =? 1)%nat then [] else [m])).
Proof.
  pose proof El as (Pa & F0 & F1). destruct (placed_frame _ _ _ _ _ _ _ HA) as (HM & _).
  pose proof (m_pos P m pP upP a f M HP) as Mp.
  destruct (radius_ok A B m pA pB upA upB a f M None (fun _ => radius) El HA HB (fun _ _ => eq_refl)) as (w1 & rx & k & rr & Er & Vr & Hk & Db & Hrr & Nr).
  destruct (path_data A B pA pB upA upB a f M El E2 HA HB UA UB) as (w2 & va & vb & zA' & zB' & Ev & CA & CB & _ & VA & VB & _ & _ & PA & PB & U1 & U2).
  destruct (radius_data A B pA pB upA upB a f M El E2 HA HB UA UB) as (_ & _ & R0 & _ & _ & PR & ER).
  destruct (query_ok P m pP upP a f M El E2 HP UP) as (w3 & vp & z & Ep & CP & Sz & _ & Cp).
  fold a1 in CA, U1, PA. fold a2 in CB, U2, PB.
  assert (zA' = zA). { apply (at_depth_z a f M a1 zA' zA (pA 0%nat)); auto. rewrite PA. apply at_depth_pos; auto. apply vnorm_inv; auto. }
  assert (zB' = zB). { apply (at_depth_z a f M a2 zB' zB (pB 0%nat)); auto. rewrite PB. apply at_depth_pos; auto. apply vnorm_inv; auto. }
  assert (Ez : forall j, (j < m)%nat -> z j = zP j).
  { intros j Hj. destruct (Cp j Hj) as (Uj & _ & Pj). apply (at_depth_z a f M (upP j) (z j) (zP j) (pP j)); auto. rewrite Pj. apply at_depth_pos; auto. apply vnorm_inv; auto. }
  subst zA' zB'.
  unfold on_path. rewrite exact_spec. unfold exact. rewrite Ne, Nl. cbn [orb]. unfold path_on_great_circle_path.
  rewrite Er, bind_inl, Ev, bind_inl, Ep, bind_inl.
  destruct (half_sum_spec _ _ _ _ VA VB) as (h & Eh & Vh). rewrite Eh, bind_ret.
  destruct (spread_widths _ _ _ Sz) as (l & zz & Vz & Hl & Dl & Ezz).
  destruct (isclose_answer _ _ _ _ _ _ l xr xa rt at' false Vz Vh (bdim_1_r l) Hr Ha) as (sz & Esz & Asz & _). rewrite Esz, bind_ret.
  destruct (C22_decision _ _ _ m a1 a2 upP rx k rr xa at' CA CB Z U1 U2 CP (fun j Hj => proj1 (Cp j Hj)) Vr Hk) as (D & ED & SD & GD); auto.
  { apply (radii_pos m k (fun _ => radius) rr Mp Hk Hrr). intros. unfold radius. rewrite <- ER. auto. }
  rewrite ED, bind_inl.
  assert (AD : answer D m (fun j => (exists p, on_circle a1 a2 p /\ radius * angle (upP j) p <= at') /\ angle a1 (upP j) <= angle a1 a2 /\ angle a2 (upP j) <= angle a1 a2)).
  { right. split; auto. intros j Hj. rewrite (GD j Hj), (Hrr j Hj). reflexivity. }
  destruct (and_answer _ _ _ _ _ _ m AD Asz Dl) as (res & Eres & Ares & Sres). specialize (Sres (or_introl SD)).
  rewrite Eres, bind_ret.
  change ((ndim rx =? 0)%nat = is_scalar_point A && is_scalar_point B) in Nr. rewrite Nr.
  unfold size. rewrite Sres. cbn [prod fold_right]. rewrite Nat.mul_1_r.
  assert (Ares' : answer res m (fun j =>
      close rt at' (zP j) ((zA + zB) / 2) /\
      (exists p, on_circle a1 a2 p /\ radius * angle (upP j) p <= at') /\
      angle a1 (upP j) <= angle a1 a2 /\ angle a2 (upP j) <= angle a1 a2)).
  { eapply answer_ext; [exact Ares|]. intros j Hj. cbv beta. rewrite cl_id by auto.
    replace (zz (cl l (cl l j))) with (zP j). 2: { rewrite <- Ez, Ezz by auto. f_equal. unfold cl. destruct (l =? 1)%nat; reflexivity. }
    tauto. }
  destruct (is_scalar_point A && is_scalar_point B && (m =? 1)%nat) eqn:Eb.
  - apply andb_true_iff in Eb as [_ Em]. apply Nat.eqb_eq in Em. subst m. unfold first. rewrite Sres. cbn [Nat.ltb Nat.leb].
    eexists. split; [reflexivity|]. split; [|reflexivity]. left. split; auto. split; [reflexivity|].
    destruct Ares' as [[_ [S _]]|[_ G]]; [rewrite Sres in S; discriminate|]. exact (G 0%nat ltac:(lia)).
  - exists res. split; [reflexivity|]. auto.
Qed.
End OnPath.

Theorem C65_great_circle_path : forall gi A B P m pA pB pP upA upB upP a f M zA zB zP xr xa rt at' method,
  ellipsoid a f -> ecc2 f <= 1 / 2 ->
  placed A 1 pA upA a f M -> placed B 1 pB upB a f M -> placed P m pP upP a f M ->
  unit_normals A 1 -> unit_normals B 1 -> unit_normals P m ->
  let a1 := upA 0%nat in let a2 := upB 0%nat in let radius := (vnorm (pA 0%nat) + vnorm (pB 0%nat)) / 2 in
  vcross a1 a2 <> v0 ->
  at_depth a f M a1 zA (pA 0%nat) -> at_depth a f M a2 zB (pB 0%nat) ->
  (forall j, (j < m)%nat -> at_depth a f M (upP j) (zP j) (pP j)) ->
  xr ≈ rt -> xa ≈ at' -> String.prefix "ex" method = false -> String.prefix "el" method = false ->
  ends_with (on_path gi (GeoPath A B) P method xr xa) (fun x =>
    answer x m (fun j =>
      close rt at' (zP j) ((zA + zB) / 2) /\
      (exists p, on_circle a1 a2 p /\ radius * angle (upP j) p <= at') /\
      angle a1 (upP j) <= angle a1 a2 /\ angle a2 (upP j) <= angle a1 a2) /\
    shape x = (if is_scalar_point A && is_scalar_point B && (m =? 1)%nat then [] else [m])).
Proof. intros. eapply on_path_general; eauto. Qed.
Print Assumptions C65_great_circle_path.

(** exact query points: on the great circle and at the mean depth of the path *)
Theorem C65_segment_partial : forall gi A B P m pA pB pP upA upB upP a f M zA zB xr xa rt at' method,
  ellipsoid a f -> ecc2 f <= 1 / 2 ->
  placed A 1 pA upA a f M -> placed B 1 pB upB a f M -> placed P m pP upP a f M ->
  unit_normals A 1 -> unit_normals B 1 -> unit_normals P m ->
  let a1 := upA 0%nat in let a2 := upB 0%nat in
  vcross a1 a2 <> v0 -> angle a1 a2 < 2 * PI / 3 ->
  at_depth a f M a1 zA (pA 0%nat) -> at_depth a f M a2 zB (pB 0%nat) ->
  (forall j, (j < m)%nat -> on_circle a1 a2 (upP j) /\ at_depth a f M (upP j) ((zA + zB) / 2) (pP j)) ->
  xr ≈ rt -> xa ≈ at' -> 0 <= at' -> String.prefix "ex" method = false -> String.prefix "el" method = false ->
  ends_with (on_path gi (GeoPath A B) P method xr xa) (fun x => answer x m (fun j => on_arc a1 a2 (upP j))).
Proof.
  intros gi A B P m pA pB pP upA upB upP a f M zA zB xr xa rt at' method El E2 HA HB HP UA UB UP a1 a2 Z An DA DB DP Hr Ha T0 Ne Nl.
  destruct (path_data A B pA pB upA upB a f M El E2 HA HB UA UB) as (w2 & va & vb & zA' & zB' & Ev & CA & CB & _ & VA & VB & _ & _ & PA & PB & U1 & U2).
  fold a1 in U1. fold a2 in U2.
  destruct (C65_great_circle_path gi A B P m pA pB pP upA upB upP a f M zA zB (fun _ => (zA + zB) / 2) xr xa rt at' method) as (x & Ex & Ax & _); auto.
  { intros j Hj. apply DP; auto. }
  exists x. split; auto. eapply answer_ext; [exact Ax|]. intros j Hj. cbv beta. fold a1 a2. destruct (DP j Hj) as [[Uj Oj] _].
  rewrite !angle_le_iff by auto.
  assert (Gh : -1/2 < vdot a1 a2).
  { rewrite <- cos_angle_unit by auto. pose proof (angle_range a1 a2). pose proof PI_RGT_0.
    assert (Co : cos (2 * (PI / 3)) = -1/2) by (rewrite cos_2PI3; field). rewrite <- Co. apply cos_decreasing_1; lra. }
  rewrite (angle_sym a1 a2), (angle_le_iff a2 a1 (upP j)), (vdot_comm a2 a1) by auto.
  split.
  - intros (_ & _ & L1 & L2). apply arc_sound; auto.
  - intros Hq. apply arc_complete in Hq as (_ & L1 & L2); auto. split; [apply close_refl; auto|]. split; [|auto].
    exists (upP j). split; [split; auto|]. rewrite angle_self by (apply vnorm_inv; auto). lra.
Qed.
Print Assumptions C65_segment_partial.

(** ** 'ex...' and 'el...': on the ellipsoid, with the external solver *)
Lemma daa_scalar gi g h la lo z la' lo' z' a f M s az :
  is_geo1 g la lo z a f M -> is_geo1 h la' lo' z' a f M ->
  solves gi (a - (z + z') / 2) f (la * (180 / PI)) (lo * (180 / PI)) (la' * (180 / PI)) (lo' * (180 / PI)) s az ->
  exists ws x y w, distance_and_azimuth gi g (PGeo h) false false "ellipsoid" = (ws, inl (x, y, w)) /\ scalar x s /\ scalar y (az * (PI / 180)).
Proof.
  intros ([S1 G1] & [S2 G2] & [S3 G3] & HF) ([S1' G1'] & [S2' G2'] & [S3' G3'] & HF') Hs.
  rewrite (daa_exact _ _ _ _ _ _ HF HF'). unfold daa_ellipsoid. cbn [to_geo_point]. rewrite bind_ret.
  assert (T : forall x t, x ≈ t -> to_degrees false x ≈ t * (180 / PI)) by (intros x t Hx; apply fin_mul; [exact Hx|apply fin_Fin]).
  set (hz := map1 (nmul (Fin (/ 2))) (Arr [] (fun ix => nadd (get (g_z g) []) (get (g_z h) [])))).
  assert (E : map2 nadd (g_z g) (g_z h) = ret (Arr [] (fun ix => nadd (get (g_z g) []) (get (g_z h) [])))).
  { unfold map2. rewrite S3, S3'. reflexivity. }
  rewrite E, bind_ret. cbv zeta. fold hz.
  assert (Hz : hz.(get) [] ≈ (z + z') / 2).
  { cbn [hz map1 get]. replace ((z + z') / 2) with (/ 2 * (z + z')) by field. apply fin_mul; [apply fin_Fin|]. apply fin_add; auto. }
  destruct HF as (Fa & Ff & _).
  destruct (Hs _ _ _ _ _ _ (fin_sub _ _ _ _ Fa Hz) Ff (T _ _ G1) (T _ _ G2) (T _ _ G1') (T _ _ G2')) as (t & Et & Es & Ea).
  destruct (C53_scalar gi (fun _ _ _ _ _ _ _ => ret t) (g_frame g) (g_lat g) (g_lon g) (g_lat h) (g_lon h) hz false false t t) as [(r & Er & Pr) _].
  { repeat split; auto. }
  { exact Et. }
  { reflexivity. }
  destruct r as [[x y] w]. destruct Pr as (Px & Py & _ & Q). destruct t as [[t1 t2] t3]. injection Q as Q1 Q2 _. cbn [fst snd] in *.
  destruct (inverse _ _ _ _ _ _ _ _ _) as [ws [v|]]; [|discriminate Er]. injection Er as ->.
  exists ws, x, y, w. split; [reflexivity|]. split; [split; auto; rewrite Q1; auto|]. split; auto. rewrite Q2. apply fin_mul; [auto|apply fin_Fin].
Qed.

Lemma answer_scalar x P : answer x 1 P -> shape x = [] -> (get x [] = true <-> P 0%nat).
Proof. intros [[_ [_ H]]|[S _]] E; auto. rewrite S in E. discriminate. Qed.
Lemma map2_nil {X Y Z} (g : X -> Y -> Z) (x : arr X) (y : arr Y) z : map2 g x y = ret z -> shape x = [] -> shape y = [] -> shape z = [].
Proof. unfold map2. intros E Sx Sy. rewrite Sx, Sy in E. injection E as <-. reflexivity. Qed.
Lemma half_sum_scalar x y u v : scalar x u -> scalar y v -> exists h, half_sum x y = ret h /\ scalar h ((u + v) / 2).
Proof.
  intros [S G] [S' G']. unfold half_sum, map2. rewrite S, S'. change (bshape [] []) with (Some (@nil nat)). cbv iota. rewrite bind_ret.
  eexists. split; [reflexivity|]. split; [reflexivity|]. cbn. apply fin_mul; [apply fin_add|apply fin_Fin]; auto.
Qed.

Theorem C65_ellipsoid_partial : forall gi g h q la lo zA la' lo' zB la'' lo'' zP a f M sAB azAB sAP azAP xr xa rt at' method,
  is_geo1 g la lo zA a f M -> is_geo1 h la' lo' zB a f M -> is_geo1 q la'' lo'' zP a f M ->
  solves gi (a - (zA + zB) / 2) f (la * (180 / PI)) (lo * (180 / PI)) (la' * (180 / PI)) (lo' * (180 / PI)) sAB azAB ->
  solves gi (a - (zA + zP) / 2) f (la * (180 / PI)) (lo * (180 / PI)) (la'' * (180 / PI)) (lo'' * (180 / PI)) sAP azAP ->
  xr ≈ rt -> xa ≈ at' -> 0 <= at' -> String.prefix "ex" method = true \/ String.prefix "el" method = true ->
  ends_with (on_path gi (GeoPath (PGeo g) (PGeo h)) (PGeo q) method xr xa) (fun x => shape x = [] /\
    (get x [] = true <->
       close rt at' ((zA + zB) / 2) zP /\
       (Rabs sAP <= at' \/ (sAP <= sAB /\ close rt at' (azAP * (PI / 180)) (azAB * (PI / 180)))))).
Proof.
  intros gi g h q la lo zA la' lo' zB la'' lo'' zP a f M sAB azAB sAP azAP xr xa rt at' method Hg Hh Hq HAB HAP Hr Ha T0 Hm.
  assert (He : exact method = true) by (unfold exact; destruct Hm as [H|H]; rewrite H; [reflexivity|apply orb_true_r]).
  unfold on_path. rewrite exact_spec, He. unfold on_ellipsoid_path. cbn [gp_a gp_b to_geo_point]. rewrite !bind_ret.
  destruct (daa_scalar _ _ _ _ _ _ _ _ _ _ _ _ _ _ Hg Hh HAB) as (w1 & dab & azab & y1 & E1 & D1 & Z1).
  destruct (daa_scalar _ _ _ _ _ _ _ _ _ _ _ _ _ _ Hg Hq HAP) as (w2 & dac & azac & y2 & E2 & D2 & Z2).
  destruct Hg as (_ & _ & V1 & _), Hh as (_ & _ & V2 & _), Hq as (_ & _ & V3 & _).
  destruct (half_sum_scalar _ _ _ _ V1 V2) as (hz & Ez & Vz). rewrite Ez, bind_ret, E1, bind_inl, E2, bind_inl.
  pose proof (bdim_refl 1) as Db.
  destruct (isclose_answer _ _ _ _ _ _ 1 xr xa rt at' false (vals_scalar _ _ Vz) (vals_scalar _ _ V3) Db Hr Ha) as (cz & Ecz & Acz & _).
  destruct (isclose_answer _ _ _ z0 1 (fun _ => 0) 1 rtol9 xa (/ 10 ^ 9) at' false (vals_scalar _ _ D2) (vals_scalar _ _ (scal_scalar 0)) Db (fin_Fin _) Ha) as (c0 & Ec0 & Ac0 & _).
  destruct (ge_answer _ _ _ _ _ _ 1 (vals_scalar _ _ D1) (vals_scalar _ _ D2) Db) as (ge & Ege & Age).
  destruct (isclose_answer _ _ _ _ _ _ 1 xr xa rt at' false (vals_scalar _ _ Z2) (vals_scalar _ _ Z1) Db Hr Ha) as (ca & Eca & Aca & _).
  rewrite Ecz, bind_ret, Ec0, bind_ret, Ege, bind_ret, Eca, bind_ret.
  destruct (and_answer _ _ _ _ _ _ _ Age Aca Db) as (t1 & Et1 & At1 & _). rewrite Et1, bind_ret.
  destruct (or_answer _ _ _ _ _ _ _ Ac0 At1 Db) as (t2 & Et2 & At2 & _). rewrite Et2, bind_ret.
  destruct (and_answer _ _ _ _ _ _ _ Acz At2 Db) as (t3 & Et3 & At3 & _). rewrite Et3.
  exists t3. split; [reflexivity|].
  destruct Vz as [Sz _], V3 as [S3 _], D1 as [Sd1 _], D2 as [Sd2 _], Z1 as [Sz1 _], Z2 as [Sz2 _].
  assert (S : shape t3 = []).
  { unfold isclose in Ecz, Ec0, Eca. eapply map2_nil; [exact Et3| |].
    - eapply map2_nil; [exact Ecz| |]; auto.
    - eapply map2_nil; [exact Et2| |].
      + eapply map2_nil; [exact Ec0| |]; auto.
      + eapply map2_nil; [exact Et1| |]; [eapply map2_nil; [exact Ege| |]|eapply map2_nil; [exact Eca| |]]; auto. }
  split; auto. rewrite (answer_scalar _ _ At3 S). cbv beta. rewrite ?cl_1. rewrite close_zero by auto. reflexivity.
Qed.
Print Assumptions C65_ellipsoid_partial.

(** finding: azimuths are compared as numbers, not as directions: a point next to a path that heads due south is
    rejected whatever small angle separates the two directions, if the solver reports them on both sides of 180 degrees *)
Theorem C65_azimuth_wrap_refuted : forall gi g h q la lo zA la' lo' zB la'' lo'' zP a f M sAB sAP e xr xa rt at' method,
  is_geo1 g la lo zA a f M -> is_geo1 h la' lo' zB a f M -> is_geo1 q la'' lo'' zP a f M ->
  solves gi (a - (zA + zB) / 2) f (la * (180 / PI)) (lo * (180 / PI)) (la' * (180 / PI)) (lo' * (180 / PI)) sAB 180 ->
  solves gi (a - (zA + zP) / 2) f (la * (180 / PI)) (lo * (180 / PI)) (la'' * (180 / PI)) (lo'' * (180 / PI)) sAP (-180 + e) ->
  0 <= e <= 90 -> at' < sAP -> at' < 1 -> 0 <= rt < 1 ->
  xr ≈ rt -> xa ≈ at' -> 0 <= at' -> String.prefix "ex" method = true \/ String.prefix "el" method = true ->
  ends_with (on_path gi (GeoPath (PGeo g) (PGeo h)) (PGeo q) method xr xa) (fun x => shape x = [] /\ get x [] = false).
Proof.
  intros gi g h q la lo zA la' lo' zB la'' lo'' zP a f M sAB sAP e xr xa rt at' method Hg Hh Hq HAB HAP He Ls La Lr Hr Ha T0 Hm.
  destruct (C65_ellipsoid_partial gi g h q la lo zA la' lo' zB la'' lo'' zP a f M sAB 180 sAP (-180 + e) xr xa rt at' method Hg Hh Hq HAB HAP Hr Ha T0 Hm) as (x & Ex & Sx & Gx).
  exists x. split; auto. split; auto. destruct (get x []) eqn:G; auto. exfalso. destruct Gx as [Gx _].
  destruct (Gx eq_refl) as (_ & [C|[_ C]]).
  - rewrite Rabs_right in C by lra. lra.
  - unfold close in C. pose proof PI_RGT_0 as Pp. pose proof PI_4 as P4.
    assert (P3 : 3 < PI) by (pose proof PI2_3_2; unfold PI2 in *; lra).
    replace (Rabs ((-180 + e) * (PI / 180) - 180 * (PI / 180))) with ((360 - e) * (PI / 180)) in C by (rewrite Rabs_left; nra).
    replace (Rabs ((-180 + e) * (PI / 180))) with ((180 - e) * (PI / 180)) in C by (rewrite Rabs_left; nra).
    replace (Rabs (180 * (PI / 180))) with (180 * (PI / 180)) in C by (rewrite Rabs_right; nra).
    rewrite (Rmax_right _ (180 * (PI / 180))) in C by nra.
    revert C. unfold Rmax. destruct (Rle_dec _ _); intros C; nra.
Qed.
Print Assumptions C65_azimuth_wrap_refuted.

Example C65_example : is_geo1 ex_geo (/ 2) 1 100 6378137 (/ 298) Me /\
  (forall a f la lo la' lo', solves (fun _ _ _ _ _ _ _ => ret (Fin 5, Fin 180, Fin 180)) a f la lo la' lo' 5 180) /\
  (let u1 := V 1 0 0 in let u2 := V 0 1 0 in vcross u1 u2 <> v0 /\ angle u1 u2 < 2 * PI / 3 /\
     exists p, placed (ex_at u1) 1 p (fun _ => u1) 6378137 (/ 298) Me) /\
  radii None 3 (V 1 0 0) (V 0 2 0) (fun _ => 3 / 2) /\ radii (Some (arr1 [5; 6; 7])) 3 v0 v0 (fun j => nth j [5; 6; 7] 0).
Proof.
  split. { unfold is_geo1, ex_geo; cbn [g_lat g_lon g_z g_frame]. do 3 (split; [apply scal_scalar|]). exact ex_frame_ok. }
  split. { intros a f la lo la' lo' xa xf x1 x2 x3 x4 _ _ _ _ _ _. eexists. split; [reflexivity|]. split; reflexivity. }
  destruct C55_example as (N1 & _ & _ & _ & Z & A & _). cbv zeta. split; [|split].
  - split; auto. split; auto. apply placed_ex; auto.
  - intros j _. unfold vnorm, vdot. cbn. replace (1 * 1 + 0 * 0 + 0 * 0) with (1 * 1) by ring. replace (0 * 0 + 2 * 2 + 0 * 0) with (2 * 2) by ring. rewrite !sqrt_square by lra. reflexivity.
  - apply spread_vals. right. apply arr1_list1.
Qed.
