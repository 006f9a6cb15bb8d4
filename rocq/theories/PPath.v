(** * C54: GeoPath.track_distance *)
From Coq Require Import Ascii String List Arith Lia Bool Reals Lra ZArith.
From Verif Require Import Num Py Nd MUtil MRotation MCore MObjects Spec SpecArr SpecObj SpecGeo LNum LTrig LVec LArr LLatLon LMat LRot
  LAngle LDist PDist PUtil LEq LEcef PEcef PRot PFrame PEq LObj PEq2 LDirect PDirect LObj2 PObj PObj2 POps PGeod LGreat PGreat.
Import ListNotations.
Local Open Scope R_scope.

Lemma vcol_unique A j u v : vcol A j u -> vcol A j v -> u = v.
Proof.
  intros (a & b & c) (a' & b' & c'). destruct u, v. cbn [Spec.vx Spec.vy Spec.vz] in *.
  f_equal; eapply fin_unique; eauto.
Qed.

(** for points with unit n-vectors, the normals used are the outward unit normals *)
Lemma to_nvector_unit pt n p up a f M : placed pt n p up a f M -> ellipsoid a f -> ecc2 f <= 1 / 2 -> unit_normals pt n ->
  exists ws v z, to_nvector pt = (ws, inl v) /\ is_nv v n up z a f M /\
    (forall j, (j < n)%nat -> vnorm (up j) = 1 /\ shallow a f (z j) /\ p j = pos a f M (up j) (z j)) /\
    (ndim (n_z v) =? 0)%nat = is_scalar_point pt.
Proof.
  intros H El E2 U. destruct (to_nvector_placed _ _ _ _ _ _ _ H El E2) as (ws & v & u & z & E & Hv & C & Nd).
  assert (K : forall j, (j < n)%nat -> vnorm (u j) = 1).
  { pose proof El as (Pa & F0 & F1). destruct (placed_frame _ _ _ _ _ _ _ H) as (HM & _ & _). intros j Hj.
    destruct Hv as (_ & [_ Cv] & _). specialize (Cv j Hj).
    destruct pt as [g|v'|e|]; cbn [placed to_nvector unit_normals] in *; [| | |destruct H].
    - destruct H as (la & lo & z' & H & _). destruct (geo_to_nvector_spec _ _ _ _ _ _ _ _ H) as (v1 & E1 & (_ & [_ Hv1] & _) & _).
      rewrite E1 in E. injection E as _ <-. rewrite (vcol_unique _ _ _ _ Cv (Hv1 j Hj)). apply normal_at_unit; auto.
    - injection E as _ <-. eapply U; eauto.
    - destruct H as (H & C').
      destruct (ecef_to_nvector_spec e n p a f M H El) as (v1 & u1 & z' & Ev & (_ & [_ Hv1] & _) & _ & G & _).
      { intros i Hi. destruct (C' i Hi) as (Ui & zi & S & D). rewrite (at_depth_eq _ _ _ _ _ _ HM Pa F1 (vnorm_inv _ Ui) D). apply shallow_clear; auto. }
      rewrite Ev in E. injection E as _ <-. rewrite (vcol_unique _ _ _ _ Cv (Hv1 j Hj)). apply G; auto. }
  exists ws, v, z. split; auto. split; [|split; auto].
  - destruct Hv as (H1 & H2 & H3 & H4). assert (Q : forall j, (j < n)%nat -> u j = up j).
    { intros j Hj. destruct (C j Hj) as (<- & _). rewrite direction_of_unit; auto. }
    split; auto. split; [eapply cols_ext; eauto|]. split; auto. intros j Hj. rewrite <- Q; auto.
  - intros j Hj. destruct (C j Hj) as (_ & ?). auto.
Qed.

Lemma to_ecef_placed pt n p up a f M : placed pt n p up a f M -> ellipsoid a f ->
  exists ws e, to_ecef_vector pt = (ws, inl e) /\ is_ecef e n p a f M /\ e_scalar e = is_scalar_point pt && (n =? 1)%nat.
Proof.
  intros H El. pose proof El as (Pa & F0 & F1). destruct (to_ecef_spec _ _ _ _ _ _ (placed_point _ _ _ _ _ _ _ H) El) as (ws & e & E & He).
  exists ws, e. split; auto. split; auto.
  destruct pt as [g|v|e'|]; cbn [placed to_ecef_vector is_scalar_point] in *; [| | |destruct H].
  - destruct H as (la & lo & z' & H & _). destruct (geo_to_ecef_spec _ _ _ _ _ _ _ _ H F1) as (e1 & E1 & _ & _ & S). rewrite E1 in E. injection E as _ <-. auto.
  - destruct H as (u & z & H & _). destruct (nv_to_ecef_spec _ _ _ _ _ _ _ H F1) as (e1 & E1 & _ & _ & S). rewrite E1 in E. injection E as _ <-. auto.
  - injection E as _ <-. destruct He as (_ & _ & _ & S). destruct (e_scalar e'); auto. rewrite S by auto. reflexivity.
Qed.

(** the mean of the distances from the Earth's centre *)
Lemma average_radius_spec A B n m k pA pB upA upB a f M : ellipsoid a f ->
  placed A n pA upA a f M -> placed B m pB upB a f M -> bdim n m = Some k ->
  exists ws r, average_radius (GeoPath A B) = (ws, inl r) /\
    vals r k (fun j => (vnorm (pA (cl n j)) + vnorm (pB (cl m j))) / 2) /\
    shape r = (if is_scalar_point A && is_scalar_point B && (k =? 1)%nat then [] else [k]).
Proof.
  intros El HA HB D. destruct (placed_frame _ _ _ _ _ _ _ HA) as (_ & _ & Hn). destruct (placed_frame _ _ _ _ _ _ _ HB) as (_ & _ & Hm).
  destruct (to_ecef_placed _ _ _ _ _ _ _ HA El) as (wa & ea & Ea & (_ & ColA & _ & SA) & Sea).
  destruct (to_ecef_placed _ _ _ _ _ _ _ HB El) as (wb & eb & Eb & (_ & ColB & _ & SB) & Seb).
  unfold average_radius. cbn [gp_a gp_b]. rewrite Ea, bind_inl, Eb, bind_inl.
  destruct (length_spec _ _ _ _ SA ColA) as (l1 & E1 & L1). destruct (length_spec _ _ _ _ SB ColB) as (l2 & E2' & L2).
  rewrite E1, bind_ret, E2', bind_ret. pose proof L1 as H1. pose proof L2 as H2. apply (holds_vals _ _ _ _ SA) in L1. apply (holds_vals _ _ _ _ SB) in L2.
  destruct (add_vals _ _ _ _ _ _ _ L1 L2 D) as (sm & Es & Vs). rewrite Es, bind_ret.
  do 2 eexists. split; [reflexivity|]. split.
  - apply vals_map1 with (f := fun x => ndiv x (Fin 2)) (op := fun x => x / 2) in Vs; [exact Vs|].
    intros x p Hx. apply fin_div; [auto|apply fin_Fin|lra].
  - cbn [map1 shape]. unfold map2 in Es. 
    destruct (bshape (shape l1) (shape l2)) as [sh|] eqn:Bs; [|discriminate]. injection Es as <-. cbn [shape].
    assert (Q : is_scalar_point A && is_scalar_point B && (k =? 1)%nat = e_scalar ea && e_scalar eb).
    { rewrite Sea, Seb. clear - D Hn Hm. assert (K : (k =? 1)%nat = (n =? 1)%nat && (m =? 1)%nat) by bcases. rewrite K. destruct (is_scalar_point A), (is_scalar_point B), (n =? 1)%nat, (m =? 1)%nat; reflexivity. }
    rewrite Q. unfold holds in H1, H2. destruct (e_scalar ea), (e_scalar eb); cbn [andb]; destruct H1 as [T1 _], H2 as [T2 _]; rewrite T1, T2 in Bs;
      unfold bshape in Bs; cbn [rev app bshape_rev] in Bs; try (injection Bs as <-; try reflexivity).
    + rewrite (SA eq_refl) in D. assert (m = k) by (clear - D; bcases). subst; reflexivity.
    + rewrite (SB eq_refl) in D. assert (n = k) by (clear - D; bcases). subst; reflexivity.
    + rewrite D in Bs. injection Bs as <-. reflexivity.
Qed.

Lemma prefix_2 c d m : String.prefix (String c (String d "")) m = String.eqb (prefix2 m) (String c (String d "")).
Proof.
  unfold prefix2. destruct m as [|x [|y r]]; cbn [String.prefix substring].
  - reflexivity.
  - cbn [String.eqb]. destruct (ascii_dec c x); [|destruct (Ascii.eqb_spec x c); [congruence|reflexivity]]. subst. rewrite Ascii.eqb_refl. reflexivity.
  - cbn [String.eqb]. assert (S : substring 0 0 r = EmptyString) by (destruct r; reflexivity). rewrite S.
    destruct (ascii_dec c x); [subst; rewrite Ascii.eqb_refl|destruct (Ascii.eqb_spec x c); [congruence|reflexivity]].
    destruct (ascii_dec d y); [subst; rewrite Ascii.eqb_refl; destruct r; reflexivity|destruct (Ascii.eqb_spec y d); [congruence|reflexivity]].
Qed.

(** the methods *)
Definition exact (method : string) : bool := String.prefix "ex" method || String.prefix "el" method.
Definition straight (method : string) : bool := String.prefix "eu" method.
Lemma exact_spec m : is_exact m = exact m.
Proof. unfold is_exact, exact. rewrite !prefix_2. reflexivity. Qed.
Lemma straight_not_exact m : straight m = true -> exact m = false.
Proof.
  unfold straight, exact. rewrite !prefix_2. intros H. apply String.eqb_eq in H. rewrite H. reflexivity.
Qed.

Lemma first_list (x : arr num) n r : list1 x n r -> (0 < n)%nat -> exists y, first x = ret y /\ scalar y (r 0%nat).
Proof.
  intros [S G] Hn. unfold first. rewrite S. destruct n; [lia|]. cbn [Nat.ltb Nat.leb]. eexists. split; [reflexivity|]. split; [reflexivity|]. apply (G 0%nat). lia.
Qed.

Lemma path_nvectors_unit A B n m pA pB upA upB a f M : ellipsoid a f -> ecc2 f <= 1 / 2 ->
  placed A n pA upA a f M -> placed B m pB upB a f M -> unit_normals A n -> unit_normals B m ->
  exists ws va vb zA zB, path_nvectors (GeoPath A B) = (ws, inl (va, vb)) /\ is_nv va n upA zA a f M /\ is_nv vb m upB zB a f M.
Proof.
  intros El E2 HA HB UA UB.
  destruct (to_nvector_unit _ _ _ _ _ _ _ HA El E2 UA) as (wa & va & zA & Ea & Ha & _).
  destruct (to_nvector_unit _ _ _ _ _ _ _ HB El E2 UB) as (wb & vb & zB & Eb & Hb & _).
  unfold path_nvectors. cbn [gp_a gp_b]. rewrite Ea, bind_inl, Eb, bind_inl.
  do 5 eexists. split; [reflexivity|]. split; [exact Ha|exact Hb].
Qed.

Lemma path_nvectors_placed A B n m pA pB upA upB a f M : ellipsoid a f -> ecc2 f <= 1 / 2 ->
  placed A n pA upA a f M -> placed B m pB upB a f M ->
  exists ws va vb uA uB zA zB, path_nvectors (GeoPath A B) = (ws, inl (va, vb)) /\ is_nv va n uA zA a f M /\ is_nv vb m uB zB a f M /\
    (forall j, (j < n)%nat -> direction (uA j) = upA j /\ vnorm (upA j) = 1 /\ shallow a f (zA j) /\ pA j = pos a f M (upA j) (zA j)) /\
    (forall j, (j < m)%nat -> direction (uB j) = upB j /\ vnorm (upB j) = 1 /\ shallow a f (zB j) /\ pB j = pos a f M (upB j) (zB j)).
Proof.
  intros El E2 HA HB.
  destruct (to_nvector_placed _ _ _ _ _ _ _ HA El E2) as (wa & va & uA & zA & Ea & Ha & Ca & _).
  destruct (to_nvector_placed _ _ _ _ _ _ _ HB El E2) as (wb & vb & uB & zB & Eb & Hb & Cb & _).
  unfold path_nvectors. cbn [gp_a gp_b]. rewrite Ea, bind_inl, Eb, bind_inl.
  do 7 eexists. split; [reflexivity|]. split; [exact Ha|]. split; [exact Hb|]. split; auto.
Qed.

(** the first element when the radius is a scalar, else all *)
Lemma first_if (r d : arr num) k l rr t : vals r l rr -> list1 d k t -> (0 < k)%nat -> (ndim r = 0%nat -> k = 1%nat) ->
  exists x, (if (ndim r =? 0)%nat then first d else ret d) = ret x /\ vals x k t /\ shape x = (if (ndim r =? 0)%nat then [] else [k]).
Proof.
  intros Vr Ld Hk Hn. destruct (Nat.eqb_spec (ndim r) 0) as [E|E].
  - rewrite (Hn E) in *. destruct (first_list1 d _ Ld) as (x & Ex & Vx). exists x. split; auto. split; [left; auto|apply Vx].
  - exists d. split; auto. split; [right; auto|apply Ld].
Qed.

Section Distances.
Variables (gi : solver) (A B : point) (n m k : nat) (pA pB upA upB : nat -> vec) (a f : R) (M : mat) (method : string).
Hypothesis El : ellipsoid a f.
Hypothesis E2 : ecc2 f <= 1 / 2.
Hypothesis HA : placed A n pA upA a f M.
Hypothesis HB : placed B m pB upB a f M.
Hypothesis D : bdim n m = Some k.

Lemma k_pos : (0 < k)%nat.
Proof. destruct (placed_frame _ _ _ _ _ _ _ HA) as (_ & _ & Hn). destruct (placed_frame _ _ _ _ _ _ _ HB) as (_ & _ & Hm). eapply bdim_gt0; eauto. Qed.


Lemma track_not_exact radius : exact method = false -> track_distance gi (GeoPath A B) method radius =
  (r <- radius_or_average (GeoPath A B) radius ;; '(a, b) <- path_nvectors (GeoPath A B) ;;
   d <- (if straight method then euclidean_distance (n_normal a) (n_normal b) r else great_circle_distance (n_normal a) (n_normal b) r) ;;
   if (ndim r =? 0)%nat then first d else ret d).
Proof.
  intros E. unfold track_distance. rewrite exact_spec, E. unfold straight. rewrite prefix_2. reflexivity.
Qed.

Lemma track_eu_core radius ws ra l r p : straight method = true -> unit_normals A n -> unit_normals B m ->
  radius_or_average (GeoPath A B) radius = (ws, inl ra) -> vals ra l r -> bdim k l = Some p -> (0 < p)%nat -> (ndim ra = 0%nat -> p = 1%nat) ->
  ends_with (track_distance gi (GeoPath A B) method radius) (fun x =>
    vals x p (fun j => r (cl l j) * vnorm (vsub (upB (cl m (cl k j))) (upA (cl n (cl k j))))) /\
    shape x = (if (ndim ra =? 0)%nat then [] else [p])).
Proof.
  intros Hs UA UB Er Vr Dp Hp Hn. rewrite track_not_exact by (apply straight_not_exact; auto). rewrite Er, bind_inl.
  destruct (path_nvectors_unit _ _ _ _ _ _ _ _ _ _ _ El E2 HA HB UA UB) as (w2 & va & vb & zA & zB & Ev & (_ & Ca & _) & (_ & Cb & _)).
  rewrite Ev, bind_inl, Hs. destruct (eud_spec _ _ _ _ _ _ _ _ _ _ _ Ca Cb D Vr Dp) as (Dd & ED & LD). rewrite ED, bind_ret.
  destruct (first_if ra Dd _ _ _ _ Vr LD Hp Hn) as (x & Ex & Vx & Sx). rewrite Ex. eexists. split; [reflexivity|]. split; auto.
  eapply vals_ext; [|exact Vx]. intros j Hj. cbn beta. ring.
Qed.

Lemma track_gc_core radius ws ra l r p : exact method = false -> straight method = false -> n = 1%nat ->
  radius_or_average (GeoPath A B) radius = (ws, inl ra) -> vals ra l r -> bdim m l = Some p -> (0 < p)%nat -> (ndim ra = 0%nat -> p = 1%nat) ->
  ends_with (track_distance gi (GeoPath A B) method radius) (fun x =>
    vals x p (fun j => r (cl l j) * angle (upA 0%nat) (upB (cl m j))) /\
    shape x = (if (ndim ra =? 0)%nat then [] else [p])).
Proof.
  intros He Hs -> Er Vr Dp Hp Hn. rewrite track_not_exact by auto. rewrite Er, bind_inl, Hs.
  destruct (path_nvectors_placed _ _ _ _ _ _ _ _ _ _ _ El E2 HA HB) as (w2 & va & vb & ua & ub & za & zb & Ev & (_ & CA & NA & _) & (Hm & CB & NB & _) & Ca & Cb).
  rewrite Ev, bind_inl.
  destruct (gcd_spec _ _ _ _ _ _ _ _ CA CB (NA 0%nat ltac:(lia)) NB Vr p Dp) as (Dd & ED & LD). rewrite ED, bind_ret.
  destruct (first_if ra Dd _ _ _ _ Vr LD Hp Hn) as (x & Ex & Vx & Sx). rewrite Ex. eexists. split; [reflexivity|]. split; auto.
  eapply vals_ext; [|exact Vx]. intros j Hj. cbn beta.
  assert (Hc : (cl m j < m)%nat) by (clear - Hj Dp Hm; bcases).
  destruct (Ca 0%nat ltac:(lia)) as (<- & _). destruct (Cb _ Hc) as (<- & _). rewrite angle_direction by auto. ring.
Qed.
End Distances.

Lemma shape_ndim (x : arr num) (b : bool) k : shape x = (if b then [] else [k]) -> (ndim x =? 0)%nat = b.
Proof. unfold ndim. intros ->. destruct b; reflexivity. Qed.

(** 'eu...': mean radius times the length of the chord between the unit normals, pairwise over the broadcast of the two
    ends of the path; a number if both points were given by numbers *)
Theorem C54_euclidean : forall gi A B n m k pA pB upA upB a f M method,
  ellipsoid a f -> ecc2 f <= 1 / 2 -> placed A n pA upA a f M -> placed B m pB upB a f M -> bdim n m = Some k ->
  String.prefix "eu" method = true -> unit_normals A n -> unit_normals B m ->
  ends_with (track_distance gi (GeoPath A B) method None) (fun x =>
    vals x k (fun j => (vnorm (pA (cl n j)) + vnorm (pB (cl m j))) / 2 * vnorm (vsub (upB (cl m j)) (upA (cl n j)))) /\
    shape x = (if is_scalar_point A && is_scalar_point B && (k =? 1)%nat then [] else [k])).
Proof.
  intros gi A B n m k pA pB upA upB a f M method El E2 HA HB D Hs UA UB. pose proof (k_pos _ _ _ _ _ _ _ _ _ _ _ _ HA HB D) as Hk.
  destruct (average_radius_spec _ _ _ _ _ _ _ _ _ _ _ _ El HA HB D) as (ws & r & Er & Vr & Sr).
  pose proof (shape_ndim _ _ _ Sr) as Nr.
  destruct (track_eu_core gi A B n m k pA pB upA upB a f M method El E2 HA HB D None ws r k _ k Hs UA UB Er Vr) as (x & Ex & Vx & Sx); auto.
  { clear. bcases. }
  { intros N. rewrite N in Nr. symmetry in Nr. apply andb_prop in Nr as [_ Nr]. apply Nat.eqb_eq; auto. }
  exists x. split; auto. rewrite Nr in Sx. split; auto. eapply vals_ext; [|exact Vx]. intros j Hj. cbn beta. rewrite !(cl_id k j Hj). reflexivity.
Qed.
Print Assumptions C54_euclidean.

(** any other method: mean radius times the angle between the normals; A must be a single position *)
Theorem C54_great_circle_partial : forall gi A B m pA pB upA upB a f M method,
  ellipsoid a f -> ecc2 f <= 1 / 2 -> placed A 1 pA upA a f M -> placed B m pB upB a f M ->
  String.prefix "ex" method = false -> String.prefix "el" method = false -> String.prefix "eu" method = false ->
  ends_with (track_distance gi (GeoPath A B) method None) (fun x =>
    vals x m (fun j => (vnorm (pA 0%nat) + vnorm (pB j)) / 2 * angle (upA 0%nat) (upB j)) /\
    shape x = (if is_scalar_point A && is_scalar_point B && (m =? 1)%nat then [] else [m])).
Proof.
  intros gi A B m pA pB upA upB a f M method El E2 HA HB H1 H2 H3.
  assert (D : bdim 1 m = Some m) by (clear; bcases). pose proof (k_pos _ _ _ _ _ _ _ _ _ _ _ _ HA HB D) as Hk.
  destruct (average_radius_spec _ _ _ _ _ _ _ _ _ _ _ _ El HA HB D) as (ws & r & Er & Vr & Sr).
  pose proof (shape_ndim _ _ _ Sr) as Nr.
  assert (He : exact method = false) by (unfold exact; rewrite H1, H2; reflexivity).
  destruct (track_gc_core gi A B 1 m m pA pB upA upB a f M method El E2 HA HB D None ws r m _ m He H3 eq_refl Er Vr) as (x & Ex & Vx & Sx); auto.
  { clear. bcases. }
  { intros N. rewrite N in Nr. symmetry in Nr. apply andb_prop in Nr as [_ Nr]. apply Nat.eqb_eq; auto. }
  exists x. split; auto. rewrite Nr in Sx. split; auto. eapply vals_ext; [|exact Vx]. intros j Hj. cbn beta. rewrite !(cl_id m j Hj), cl_1. reflexivity.
Qed.
Print Assumptions C54_great_circle_partial.

(** a radius given by the caller, on a path between single positions *)
Theorem C54_given_radius : forall gi A B pA pB upA upB a f M method radius r,
  ellipsoid a f -> ecc2 f <= 1 / 2 -> placed A 1 pA upA a f M -> placed B 1 pB upB a f M -> scalar radius r ->
  (String.prefix "eu" method = true -> unit_normals A 1 -> unit_normals B 1 ->
   ends_with (track_distance gi (GeoPath A B) method (Some radius)) (fun x => scalar x (r * vnorm (vsub (upB 0%nat) (upA 0%nat))))) /\
  (String.prefix "ex" method = false -> String.prefix "el" method = false -> String.prefix "eu" method = false ->
   ends_with (track_distance gi (GeoPath A B) method (Some radius)) (fun x => scalar x (r * angle (upA 0%nat) (upB 0%nat)))).
Proof.
  intros gi A B pA pB upA upB a f M method radius r El E2 HA HB Hr.
  assert (D : bdim 1 1 = Some 1%nat) by reflexivity.
  assert (K : forall x g, vals x 1 g -> shape x = [] -> scalar x (g 0%nat)).
  { intros x g [[_ H]|[S _]] Hx; auto. rewrite S in Hx. discriminate. }
  assert (N : (ndim radius =? 0)%nat = true) by (unfold ndim; rewrite (proj1 Hr); reflexivity).
  split.
  - intros Hs UA UB.
    destruct (track_eu_core gi A B 1 1 1 pA pB upA upB a f M method El E2 HA HB D (Some radius) [] radius 1 (fun _ => r) 1 Hs UA UB eq_refl) as (x & Ex & Vx & Sx); auto.
    { left; auto. }
    exists x. split; auto. rewrite N in Sx. apply (K _ _ Vx Sx).
  - intros H1 H2 H3. assert (He : exact method = false) by (unfold exact; rewrite H1, H2; reflexivity).
    destruct (track_gc_core gi A B 1 1 1 pA pB upA upB a f M method El E2 HA HB D (Some radius) [] radius 1 (fun _ => r) 1 He H3 eq_refl eq_refl) as (x & Ex & Vx & Sx); auto.
    { left; auto. }
    exists x. split; auto. rewrite N in Sx. apply (K _ _ Vx Sx).
Qed.
Print Assumptions C54_given_radius.

(** finding: with a scalar radius and a path of m >= 2 pairs only the distance of the first pair is returned *)
Theorem C54_scalar_radius_refuted : forall gi A B m pA pB upA upB a f M method radius r,
  ellipsoid a f -> ecc2 f <= 1 / 2 -> placed A 1 pA upA a f M -> placed B m pB upB a f M -> scalar radius r ->
  String.prefix "ex" method = false -> String.prefix "el" method = false -> String.prefix "eu" method = false ->
  ends_with (track_distance gi (GeoPath A B) method (Some radius)) (fun x => scalar x (r * angle (upA 0%nat) (upB 0%nat))).
Proof.
  intros gi A B m pA pB upA upB a f M method radius r El E2 HA HB Hr H1 H2 H3.
  assert (He : exact method = false) by (unfold exact; rewrite H1, H2; reflexivity).
  rewrite track_not_exact by auto. unfold straight. rewrite H3. cbn [radius_or_average]. rewrite bind_ret.
  destruct (path_nvectors_placed _ _ _ _ _ _ _ _ _ _ _ El E2 HA HB) as (w2 & va & vb & ua & ub & za & zb & Ev & (_ & CA & NA & _) & (Hm & CB & NB & _) & Ca & Cb).
  rewrite Ev, bind_inl.
  assert (Dm : bdim m 1 = Some m) by (clear; bcases).
  destruct (gcd_spec _ _ _ _ _ _ _ _ CA CB (NA 0%nat ltac:(lia)) NB (vals_scalar _ _ Hr) m Dm) as (Dd & ED & LD). rewrite ED, bind_ret.
  unfold ndim. rewrite (proj1 Hr). cbn [length Nat.eqb].
  destruct (first_list _ _ _ LD Hm) as (x & Ex & Vx). rewrite Ex. eexists. split; [reflexivity|].
  replace (r * angle (upA 0%nat) (upB 0%nat)) with (angle (ua 0%nat) (ub (cl m 0)) * r); [exact Vx|].
  replace (cl m 0) with 0%nat by (clear; bcases).
  destruct (Ca 0%nat ltac:(lia)) as (<- & _). destruct (Cb 0%nat Hm) as (<- & _). rewrite angle_direction; auto. ring.
Qed.
Print Assumptions C54_scalar_radius_refuted.

(** finding: a path that starts at n >= 2 positions has no great circle track distance: ValueError *)
Theorem C54_many_starts_refuted : forall gi A B n m pA pB upA upB a f M method,
  ellipsoid a f -> ecc2 f <= 1 / 2 -> (2 <= n)%nat -> placed A n pA upA a f M -> placed B m pB upB a f M -> (m = n \/ m = 1%nat) ->
  String.prefix "ex" method = false -> String.prefix "el" method = false -> String.prefix "eu" method = false ->
  raises (track_distance gi (GeoPath A B) method None) ValueError.
Proof.
  intros gi A B n m pA pB upA upB a f M method El E2 Hn HA HB Hmn H1 H2 H3.
  assert (He : exact method = false) by (unfold exact; rewrite H1, H2; reflexivity).
  assert (D : bdim n m = Some n) by (clear - Hmn Hn; destruct Hmn; subst; bcases).
  destruct (average_radius_spec _ _ _ _ _ _ _ _ _ _ _ _ El HA HB D) as (ws & r & Er & Vr & Sr).
  rewrite track_not_exact by auto. unfold straight. rewrite H3. cbn [radius_or_average]. rewrite Er, bind_inl.
  destruct (path_nvectors_placed _ _ _ _ _ _ _ _ _ _ _ El E2 HA HB) as (w2 & va & vb & ua & ub & za & zb & Ev & (_ & CA & NA & _) & (Hm & CB & NB & _) & Ca & Cb).
  rewrite Ev, bind_inl.
  destruct Vr as [[? _]|Vr]; [lia|].
  rewrite (gcd_raises _ _ _ _ _ _ _ _ CA CB Vr Hn D). reflexivity.
Qed.
Print Assumptions C54_many_starts_refuted.

Lemma daa_exact gi g h a f M : is_frame (g_frame g) a f M -> is_frame (g_frame h) a f M ->
  distance_and_azimuth gi g (PGeo h) false false "ellipsoid" = daa_ellipsoid gi g (PGeo h) false false.
Proof.
  intros HF HF'. unfold distance_and_azimuth, check_frames_pt. rewrite (frames_eq_same _ _ _ _ _ HF HF'), !bind_ret.
  change (first_is_e "ellipsoid") with (ret true). rewrite bind_ret. reflexivity.
Qed.

(** 'ex...' and 'el...': the distance of the external solver, on the ellipsoid shrunk to the mean depth *)
Theorem C54_ellipsoidal : forall gi g h n la lo z la' lo' z' a f M method radius s,
  is_geo g n la lo z a f M -> is_geo h n la' lo' z' a f M -> shape (g_z g) = shape (g_z h) ->
  String.prefix "ex" method = true \/ String.prefix "el" method = true ->
  (forall i, (i < n)%nat -> answers gi (a - (z i + z' i) / 2) f (la i * (180 / PI)) (lo i * (180 / PI)) (la' i * (180 / PI)) (lo' i * (180 / PI)) (s i)) ->
  ends_with (track_distance gi (GeoPath (PGeo g) (PGeo h)) method radius) (fun x =>
    (shape (g_z g) = [] -> shape x = [] /\ get x [] = s 0%nat) /\
    (shape (g_z g) = [n] -> shape x = [n] /\ forall i, (i < n)%nat -> get x [i] = s i)).
Proof.
  intros gi g h n la lo z la' lo' z' a f M method radius s (Hn & S1 & S2 & V1 & V2 & V3 & HF) (_ & S1' & S2' & V1' & V2' & V3' & HF') Ss Hm Hs.
  assert (He : exact method = true) by (unfold exact; destruct Hm as [H|H]; rewrite H; [reflexivity|apply orb_true_r]).
  unfold track_distance. rewrite exact_spec, He. cbn [gp_a gp_b to_geo_point]. rewrite !bind_ret.
  rewrite (daa_exact _ _ _ _ _ _ HF HF'). unfold daa_ellipsoid. cbn [to_geo_point]. rewrite bind_ret.
  assert (T : forall x t, x ≈ t -> to_degrees false x ≈ t * (180 / PI)) by (intros x t Hx; apply fin_mul; [exact Hx|apply fin_Fin]).
  destruct V3 as [[-> [Z1 Z2]]|[Z1 Z2]]; rewrite Z1 in *.
  - assert (Y : forall x v, vals x 1 v -> shape x = [] -> get x [] ≈ v 0%nat).
    { intros x v [[_ [_ H]]|[Q _]] Hx; auto. rewrite Q in Hx; discriminate. }
    symmetry in Ss. rewrite Ss in *.
    set (hz := map1 (nmul (Fin (/ 2))) (Arr [] (fun ix => nadd (get (g_z g) []) (get (g_z h) [])))).
    assert (E : map2 nadd (g_z g) (g_z h) = ret (Arr [] (fun ix => nadd (get (g_z g) []) (get (g_z h) [])))).
    { unfold map2. rewrite Z1, Ss. reflexivity. }
    rewrite E, bind_ret. cbv zeta. fold hz.
    assert (Hz : hz.(get) [] ≈ (z 0%nat + z' 0%nat) / 2).
    { cbn [hz map1 get]. replace ((z 0%nat + z' 0%nat) / 2) with (/ 2 * (z 0%nat + z' 0%nat)) by field. apply fin_mul; [apply fin_Fin|]. apply fin_add; auto. }
    destruct HF as (Fa & Ff & _).
    destruct (Hs 0%nat ltac:(lia) _ _ _ _ _ _ (fin_sub _ _ _ _ Fa Hz) Ff (T _ _ (Y _ _ V1 S1)) (T _ _ (Y _ _ V2 S2)) (T _ _ (Y _ _ V1' S1')) (T _ _ (Y _ _ V2' S2'))) as (t & Et & Es).
    destruct (C53_scalar gi (fun _ _ _ _ _ _ _ => ret t) (g_frame g) (g_lat g) (g_lon g) (g_lat h) (g_lon h) hz false false t t) as [(r & Er & Pr) _].
    { repeat split; auto. }
    { exact Et. }
    { reflexivity. }
    destruct r as [[x y] w]. exists x. split.
    + eapply ends_bind_i; [exact Er|]. reflexivity.
    + split; [|discriminate]. intros _. destruct Pr as (Px & _ & _ & Q). split; auto. destruct t as [[t1 t2] t3]. injection Q as Q1 _ _. rewrite Q1. exact Es.
  - assert (Y : forall x v, vals x n v -> shape x = [n] -> forall i, (i < n)%nat -> get x [i] ≈ v i).
    { intros x v [[_ [Q H]]|[_ H]] Hx; auto. rewrite Q in Hx; discriminate. }
    symmetry in Ss. rewrite Ss in *.
    assert (E : exists q, map2 nadd (g_z g) (g_z h) = ret q /\ list1 q n (fun i => z i + z' i)).
    { assert (Dn : bdim n n = Some n) by (clear; bcases).
      assert (L1 : vals (g_z g) n z) by (right; split; auto).
      destruct (add_vals _ _ _ _ _ _ _ L1 V3' Dn) as (q & Eq & Vq). exists q. split; auto.
      assert (Sq : shape q = [n]). { unfold map2 in Eq. rewrite Z1, Ss in Eq. unfold bshape in Eq. cbn [rev app bshape_rev] in Eq. rewrite Dn in Eq. injection Eq as <-. reflexivity. }
      destruct Vq as [[_ [Q _]]|Vq]; [rewrite Q in Sq; discriminate|]. eapply list1_ext; [|exact Vq]. intros j Hj. cbn beta. rewrite (cl_id n j Hj). reflexivity. }
    destruct E as (q & Eq & Lq). rewrite Eq, bind_ret. cbv zeta. set (hz := map1 (nmul (Fin (/ 2))) q).
    assert (Hz : list1 hz n (fun i => (z i + z' i) / 2)).
    { destruct Lq as [Sq Gq]. split; [exact Sq|]. intros i Hi. cbn [hz map1 get]. replace ((z i + z' i) / 2) with (/ 2 * (z i + z' i)) by field. apply fin_mul; [apply fin_Fin|]. apply Gq; auto. }
    destruct HF as (Fa & Ff & _).
    set (call := fun i => gi (nsub (fe_a (g_frame g)) (get hz [i])) (fe_f (g_frame g)) (to_degrees false (get (g_lat g) [i])) (to_degrees false (get (g_lon g) [i]))
      (to_degrees false (get (g_lat h) [i])) (to_degrees false (get (g_lon h) [i])) false).
    set (t := fun i => match snd (call i) with inl v => v | inr _ => (NaN, NaN, NaN) end).
    assert (K : forall i, (i < n)%nat -> ends (call i) (t i) /\ fst (fst (t i)) = s i).
    { intros i Hi. destruct (Hs i Hi _ _ _ _ _ _ (fin_sub _ _ _ _ Fa (proj2 Hz i Hi)) Ff (T _ _ (Y _ _ V1 S1 i Hi)) (T _ _ (Y _ _ V2 S2 i Hi)) (T _ _ (Y _ _ V1' S1' i Hi)) (T _ _ (Y _ _ V2' S2' i Hi))) as (ti & Et & Es).
      unfold t. fold (call i) in Et. unfold ends in *. rewrite Et. auto. }
    assert (Fd : forall x, shape x = [n] -> feeds x n (fun i => get x [i])) by (intros x Sx; right; right; auto).
    destruct (C53_inverse_pointwise gi (g_frame g) (g_lat g) (g_lon g) (g_lat h) (g_lon h) hz false false n _ _ _ _ _ t
      (Fd _ S1) (Fd _ S2) (Fd _ S1') (Fd _ S2') (Fd _ (proj1 Hz))) as ([[x y] w] & Er & Pr); auto.
    { left; auto. }
    { intros i Hi. apply K; auto. }
    exists x. split.
    + eapply ends_bind_i; [exact Er|]. reflexivity.
    + split; [intros Q; discriminate|]. intros _. destruct Pr as (Px & _ & _ & Q). split; auto. intros i Hi. specialize (Q i Hi). destruct (K i Hi) as [_ <-].
      destruct (t i) as [[t1 t2] t3]. injection Q as Q1 _ _. exact Q1.
Qed.
Print Assumptions C54_ellipsoidal.

(** the points of a path may be of any class: Nvector and ECEFvector ends are converted to GeoPoints first *)
Theorem C54_ellipsoidal_converts : forall gi A B g h method radius x,
  String.prefix "ex" method = true \/ String.prefix "el" method = true ->
  ends (to_geo_point A) g -> ends (to_geo_point B) h ->
  (ends (track_distance gi (GeoPath A B) method radius) x <-> ends (track_distance gi (GeoPath (PGeo g) (PGeo h)) method None) x).
Proof.
  intros gi A B g h method radius x Hm Hg Hh.
  assert (He : exact method = true) by (unfold exact; destruct Hm as [H|H]; rewrite H; [reflexivity|apply orb_true_r]).
  unfold track_distance. rewrite exact_spec, He. cbn [gp_a gp_b]. 
  unfold ends in *. destruct (to_geo_point A) as [w1 r1], (to_geo_point B) as [w2 r2]. cbn [snd] in *. subst r1 r2.
  rewrite !bind_inl. cbn [snd]. cbn [to_geo_point]. rewrite !bind_ret. reflexivity.
Qed.
Print Assumptions C54_ellipsoidal_converts.

(** a path between two scalar points and one to a pair of points; a method of each kind; capital letters are not recognised *)
Example C54_example : (exists p up, placed (PGeo ex_geo) 1 p up 6378137 (/ 298) Me) /\ (exists p up, placed (PGeo ex_geo2) 2 p up 6378137 (/ 298) Me) /\
  unit_normals (PGeo ex_geo2) 2 /\ bdim 1 2 = Some 2%nat /\
  is_geo ex_geo 1 (fun _ => / 2) (fun _ => 1) (fun _ => 100) 6378137 (/ 298) Me /\
  (forall a f la lo la' lo', answers (fun _ _ _ _ _ _ _ => ret (Fin 5, Fin 0, Fin 0)) a f la lo la' lo' (Fin 5)) /\
  String.prefix "el" "ellipsoid" = true /\ String.prefix "ex" "exact" = true /\ String.prefix "eu" "euclidean" = true /\
  String.prefix "ex" "Euclidean" = false /\ String.prefix "el" "Euclidean" = false /\ String.prefix "eu" "Euclidean" = false.
Proof.
  destruct C61_example as (A1 & A2 & _). split; [exact A1|]. split; [exact A2|]. split; [exact I|]. split; [reflexivity|]. split; [apply C51_example|].
  split. { intros a f la lo la' lo' xa xf x1 x2 x3 x4 _ _ _ _ _ _. eexists. split; reflexivity. }
  repeat (split; [reflexivity|]). reflexivity.
Qed.
