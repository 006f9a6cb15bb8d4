(** * C87, continued: paths, means and displacements after any history *)
From Coq Require Import String List Arith Lia Bool Reals Lra.
From Verif Require Import POps Num Py Nd MUtil MRotation MCore MObjects MHist Spec SpecArr SpecObj SpecGeo SpecPath LNum LTrig LVec LArr LLatLon LMat LRot
  LAngle LEq LEcef PEcef PRot PFrame PEq LObj PEq2 LObj2 PObj PObj2 LDirect PDirect LGreat PGreat LCircle PCircle PArc PPath PClosest PPath3 PHist PHist2.
Import ListNotations.
Local Open Scope R_scope.

Lemma normalised_unit v w : normalised v w -> forall n u z a f M, is_nv v n u z a f M ->
  unit_normals (PNv v) n -> unit_normals (PNv w) n.
Proof.
  intros N n u z a f M H U. induction N as [v|v w x N IH E]; auto.
  destruct (normalised_nv _ _ N _ _ _ _ _ _ H) as (_ & _ & (u' & Hw & _) & _).
  destruct (C70_unit_in_place _ _ _ _ _ _ _ Hw) as (y & Ey & _ & _ & _ & Uy & _).
  rewrite (ends_fun _ _ _ E Ey). exact Uy.
Qed.

Lemma placed_later cs h r pt n p up a f M : point_at h r = Some pt -> placed pt n p up a f M ->
  exists pt', point_at (run cs h) r = Some pt' /\ placed pt' n p up a f M /\ (unit_normals pt n -> unit_normals pt' n).
Proof.
  intros H P. unfold point_at in H. destruct (nth_error h r) as [x|] eqn:E; [|discriminate].
  destruct (run_cell cs h r x E) as [E'|(v & w & -> & E' & N)].
  - destruct x; try discriminate.
    1,2,3: injection H as <-; eexists; unfold point_at; rewrite E'; split; [reflexivity|]; split; auto.
    destruct (local_at h frame); [|discriminate]. injection H as <-. destruct P.
  - injection H as <-. destruct P as (u & z & Hv & G).
    destruct (normalised_nv _ _ N _ _ _ _ _ _ Hv) as (_ & _ & (u' & Hw & D) & _).
    exists (PNv w). unfold point_at. rewrite E'. split; [reflexivity|]. split.
    + exists u', z. split; auto. intros j Hj. rewrite D by auto. apply G; auto.
    + eapply normalised_unit; eauto.
Qed.

Lemma path_later cs h r A B n p up m q uq a f M : path_at h r = Some (GeoPath A B) ->
  placed A n p up a f M -> placed B m q uq a f M ->
  exists A' B', path_at (run cs h) r = Some (GeoPath A' B') /\ placed A' n p up a f M /\ placed B' m q uq a f M /\
    (unit_normals A n -> unit_normals A' n) /\ (unit_normals B m -> unit_normals B' m).
Proof.
  intros H PA PB. unfold path_at in H. destruct (nth_error h r) as [x|] eqn:E; [|discriminate]. destruct x; try discriminate.
  destruct (point_at h point_a) as [A0|] eqn:EA; [|discriminate]. destruct (point_at h point_b) as [B0|] eqn:EB; [|discriminate].
  injection H as -> ->.
  destruct (placed_later cs _ _ _ _ _ _ _ _ _ EA PA) as (A' & EA' & PA' & UA).
  destruct (placed_later cs _ _ _ _ _ _ _ _ _ EB PB) as (B' & EB' & PB' & UB).
  exists A', B'. split; auto. unfold path_at.
  destruct (run_cell cs h r _ E) as [E'|(v & w & X & _)]; [|discriminate]. rewrite E', EA', EB'. reflexivity.
Qed.

(** ** interpolate, intersect, closest points: along the great circle(s) through the original end points *)
Theorem C87_path_interpolate : forall cs h r A B pA pB upA upB a f M zA zB ti l t,
  ellipsoid a f -> ecc2 f <= 1 / 2 -> path_at h r = Some (GeoPath A B) ->
  placed A 1 pA upA a f M -> placed B 1 pB upB a f M -> unit_normals A 1 -> unit_normals B 1 ->
  let a1 := upA 0%nat in let a2 := upB 0%nat in
  at_depth a f M a1 zA (pA 0%nat) -> at_depth a f M a2 zB (pB 0%nat) -> vals ti l t ->
  gives (PathInterpolate r ti) (run cs h) (fun h' o => exists x, nv_at h' o = Some x /\
    is_frame (n_frame x) a f M /\ vals (n_z x) l (fun j => (1 - t j) * zA + t j * zB) /\
    (forall j, (j < l)%nat -> ~ (a2 = vneg a1 /\ t j = / 2) -> exists p, vcol (n_normal x) j p /\ on_circle a1 a2 p /\
          (t j = 0 -> p = a1) /\ (t j = 1 -> p = a2) /\ (0 <= t j <= 1 -> on_arc a1 a2 p))).
Proof.
  intros cs h r A B pA pB upA upB a f M zA zB ti l t El E2 H HA HB UA UB a1 a2 DA DB Ht.
  destruct (path_later cs _ _ _ _ _ _ _ _ _ _ _ _ _ H HA HB) as (A' & B' & E & HA' & HB' & UA' & UB').
  destruct (C66_interpolate A' B' pA pB upA upB a f M zA zB ti l t El E2 HA' HB' (UA' UA) (UB' UB) DA DB Ht) as (x & Ex & F & V & _ & G & _).
  unfold gives. cbn [step]. rewrite E. cbn [need]. unfold with_. rewrite Ex. do 2 eexists. split; [reflexivity|].
  split; [intros; apply keep; auto|]. exists x. split; [unfold nv_at; rewrite last_new; reflexivity|]. split; auto. split; auto.
  intros j Hj N. destruct (G j Hj) as [_ G2]. destruct (G2 N) as (p & P1 & P2 & P3 & P4 & P5 & _). exists p. auto 8.
Qed.
Print Assumptions C87_path_interpolate.

Theorem C87_path_intersect : forall cs h r r' A B C D pA pB pC pD upA upB upC upD a f M zA zB zC zD,
  ellipsoid a f -> ecc2 f <= 1 / 2 -> path_at h r = Some (GeoPath A B) -> path_at h r' = Some (GeoPath C D) ->
  placed A 1 pA upA a f M -> placed B 1 pB upB a f M -> placed C 1 pC upC a f M -> placed D 1 pD upD a f M ->
  unit_normals A 1 -> unit_normals B 1 -> unit_normals C 1 -> unit_normals D 1 ->
  let a1 := upA 0%nat in let a2 := upB 0%nat in let b1 := upC 0%nat in let b2 := upD 0%nat in
  at_depth a f M a1 zA (pA 0%nat) -> at_depth a f M a2 zB (pB 0%nat) -> at_depth a f M b1 zC (pC 0%nat) -> at_depth a f M b2 zD (pD 0%nat) ->
  distinct_circles a1 a2 b1 b2 ->
  vdot (vcross (vcross a1 a2) (vcross b1 b2)) a1 <> 0 ->
  gives (PathIntersect r r') (run cs h) (fun h' o => exists x p, nv_at h' o = Some x /\
    is_nv x 1 (fun _ => p) (fun _ => (zA + zB + zC + zD) / 4) a f M /\
    on_circle a1 a2 p /\ on_circle b1 b2 p /\
    (forall q, on_circle a1 a2 q -> on_circle b1 b2 q -> q = p \/ (q = vneg p /\ angle a1 p < angle a1 q))).
Proof.
  intros cs h r r' A B C D pA pB pC pD upA upB upC upD a f M zA zB zC zD El E2 H H' HA HB HC HD UA UB UC UD a1 a2 b1 b2 DA DB DC DD Dc N.
  destruct (path_later cs _ _ _ _ _ _ _ _ _ _ _ _ _ H HA HB) as (A' & B' & E & HA' & HB' & UA' & UB').
  destruct (path_later cs _ _ _ _ _ _ _ _ _ _ _ _ _ H' HC HD) as (C' & D' & E' & HC' & HD' & UC' & UD').
  destruct (C67_intersection_partial A' B' C' D' pA pB pC pD upA upB upC upD a f M zA zB zC zD El E2 HA' HB' HC' HD'
    (UA' UA) (UB' UB) (UC' UC) (UD' UD) DA DB DC DD Dc N) as (x & Ex & p & G).
  unfold gives. cbn [step]. rewrite E, E'. cbn [need]. unfold with_. rewrite Ex. do 2 eexists. split; [reflexivity|].
  split; [intros; apply keep; auto|]. exists x, p. split; [unfold nv_at; rewrite last_new; reflexivity|]. exact G.
Qed.
Print Assumptions C87_path_intersect.

Theorem C87_path_closest : forall cs h r i gi A B P pA pB pP upA upB upP a f M zA zB,
  ellipsoid a f -> ecc2 f <= 1 / 2 -> path_at h r = Some (GeoPath A B) -> point_at h i = Some P ->
  placed A 1 pA upA a f M -> placed B 1 pB upB a f M -> placed P 1 pP upP a f M ->
  unit_normals A 1 -> unit_normals B 1 -> unit_normals P 1 ->
  let a1 := upA 0%nat in let a2 := upB 0%nat in let b := upP 0%nat in
  at_depth a f M a1 zA (pA 0%nat) -> at_depth a f M a2 zB (pB 0%nat) ->
  vcross a1 a2 <> v0 -> vcross b (vcross a1 a2) <> v0 ->
  gives (PathClosestGC r i) (run cs h) (fun h' o => exists g p up, point_at h' o = Some (PGeo g) /\
    placed (PGeo g) 1 p up a f M /\ on_circle a1 a2 (up 0%nat) /\
    at_depth a f M (up 0%nat) ((zA + zB) / 2) (p 0%nat) /\
    (forall q, on_circle a1 a2 q -> angle b (up 0%nat) <= angle b q)) /\
  (angle a1 a2 < 2 * PI / 3 ->
   gives (PathClosest gi r i) (run cs h) (fun h' o => exists g p up, point_at h' o = Some (PGeo g) /\
     placed (PGeo g) 1 p up a f M /\ on_arc a1 a2 (up 0%nat) /\
     (forall q, on_arc a1 a2 q -> angle b (up 0%nat) <= angle b q))).
Proof.
  intros cs h r i gi A B P pA pB pP upA upB upP a f M zA zB El E2 H Hi HA HB HP UA UB UP a1 a2 b DA DB Z NP.
  destruct (path_later cs _ _ _ _ _ _ _ _ _ _ _ _ _ H HA HB) as (A' & B' & E & HA' & HB' & UA' & UB').
  destruct (placed_later cs _ _ _ _ _ _ _ _ _ Hi HP) as (P' & EP & HP' & UP').
  split.
  - destruct (C68_closest_point_partial A' B' P' pA pB pP upA upB upP a f M zA zB El E2 HA' HB' HP' (UA' UA) (UB' UB) (UP' UP) DA DB Z NP)
      as (g & Eg & p & up & G1 & G2 & G3 & G4 & _).
    unfold gives. cbn [step]. rewrite E, EP. cbn [need]. unfold with_. rewrite Eg. do 2 eexists. split; [reflexivity|].
    split; [intros; apply keep; auto|]. exists g, p, up. split; [unfold point_at; rewrite last_new; reflexivity|]. auto.
  - intros Short.
    destruct (C55_closest_point_partial gi A' B' P' pA pB pP upA upB upP a f M El E2 HA' HB' HP' (UA' UA) (UB' UB) (UP' UP) Z Short NP)
      as (g & Eg & p & up & G1 & G2 & G3 & _).
    unfold gives. cbn [step]. rewrite E, EP. cbn [need]. unfold with_. rewrite Eg. do 2 eexists. split; [reflexivity|].
    split; [intros; apply keep; auto|]. exists g, p, up. split; [unfold point_at; rewrite last_new; reflexivity|]. auto.
Qed.
Print Assumptions C87_path_closest.

(** ** mean: the direction of the sum of the n-vectors stored at that moment, the mean of the depths *)
Theorem C87_mean : forall h r v n u z a f M, nv_at h r = Some v -> is_nv v n u z a f M ->
  let sum := vsum (map u (seq 0 n)) in sum <> v0 ->
  gives (Mean r) h (fun h' o => exists x c, nv_at h' o = Some x /\
    is_nv x 1 (fun _ => c) (fun _ => rtotal n z / INR n) a f M /\ vnorm c = 1 /\ same_direction c sum).
Proof.
  intros h r v n u z a f M H Hv sum N. destruct (C69_mean _ _ _ _ _ _ _ Hv N) as (x & Ex & c & G1 & _ & _ & G2 & G3 & _).
  unfold gives. cbn [step]. rewrite H. cbn [need]. unfold with_. rewrite Ex. do 2 eexists. split; [reflexivity|].
  split; [intros; apply keep; auto|]. exists x, c. split; [unfold nv_at; rewrite last_new; reflexivity|]. auto.
Qed.

(** ** displace: the same GeoPoint (or the same exception) as on the untouched start *)
Theorem C87_displace : forall cs h r gd g n p a f M d az unroll degrees method,
  point_at h r = Some (PGeo g) -> is_point (PGeo g) n p a f M ->
  (forall b azb, ends (displace gd g d az unroll degrees method) (b, azb) ->
     gives (Displace gd r d az unroll degrees method) (run cs h) (fun h' o => point_at h' o = Some (PGeo b))) /\
  (forall e, raises (displace gd g d az unroll degrees method) e ->
     step (Displace gd r d az unroll degrees method) (run cs h) = (run cs h, inr e)).
Proof.
  intros cs h r gd g n p a f M d az unroll degrees method H P.
  destruct (C72_points_stay_in_place cs _ _ (PGeo g) n p a f M H P) as (pt' & E & _ & ->).
  split.
  - intros b azb D. unfold gives. cbn [step]. rewrite E. cbn [need]. unfold with_. rewrite D. do 2 eexists. split; [reflexivity|].
    split; [intros; apply keep; auto|]. unfold point_at. rewrite last_new. reflexivity.
  - intros e D. cbn [step]. rewrite E. cbn [need]. unfold with_. rewrite D. reflexivity.
Qed.
Print Assumptions C87_displace.

(** three Nvectors on the axes and two paths between them (the data of C66_example and C55_example), in a store;
    the remaining hypotheses of the theorems above are shown there *)
Example C87_paths_example : forall v1 v2 v3, ex_at (V 1 0 0) = PNv v1 -> ex_at (V 0 1 0) = PNv v2 -> ex_at (V 0 0 1) = PNv v3 ->
  let h := [CNv v1; CNv v2; CNv v3; CPath 0%nat 1%nat; CPath 2%nat 0%nat] in
  path_at h 3%nat = Some (GeoPath (ex_at (V 1 0 0)) (ex_at (V 0 1 0))) /\
  path_at h 4%nat = Some (GeoPath (ex_at (V 0 0 1)) (ex_at (V 1 0 0))) /\ point_at h 2%nat = Some (ex_at (V 0 0 1)).
Proof. intros v1 v2 v3 -> -> ->. repeat split. Qed.
