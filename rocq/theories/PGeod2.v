(** * C53 for the methods of GeoPoint: displace and distance_and_azimuth on the ellipsoid call the solver
    with the point's own coordinates, depth and frame, and pass long_unroll on *)
From Coq Require Import Ascii String List Arith Lia Bool Reals Lra ZArith FunctionalExtensionality.
From Verif Require Import Num Py Nd MUtil MRotation MCore MObjects Spec SpecArr SpecObj LNum LTrig LVec LArr LLatLon LMat LRot
  LAngle PUtil LEq LEcef PEcef PRot PFrame PEq LObj PEq2 LDirect LObj2 PObj PObj2 PGeod.
Import ListNotations.
Local Open Scope R_scope.
Local Open Scope string_scope.

Lemma results_rad x y w n t degrees : results (x, y, w) n t ->
  results (rad1 x, rad1 y, if degrees : bool then w else rad1 w) n
    (fun i => let '(la, lo, b) := t i in (deg2rad la, deg2rad lo, from_degrees degrees b)).
Proof.
  intros (S1 & S2 & S3 & G). unfold results. cbn [rad1 map1 shape get]. split; [exact S1|]. split; [exact S2|]. split; [destruct degrees; exact S3|].
  intros i Hi. specialize (G i Hi). destruct (t i) as [[la lo] b]. injection G as -> -> G.
  destruct degrees; cbn [from_degrees rad1 map1 get]; rewrite G; reflexivity.
Qed.
Lemma scalar_results_rad x y w t degrees : scalar_results (x, y, w) t ->
  scalar_results (rad1 x, rad1 y, if degrees : bool then w else rad1 w)
    (let '(la, lo, b) := t in (deg2rad la, deg2rad lo, from_degrees degrees b)).
Proof.
  intros (S1 & S2 & S3 & G). unfold scalar_results. cbn [rad1 map1 shape get]. split; [exact S1|]. split; [exact S2|]. split; [destruct degrees; exact S3|].
  destruct t as [[la lo] b]. injection G as -> -> G.
  destruct degrees; cbn [from_degrees rad1 map1 get]; rewrite G; reflexivity.
Qed.

Lemma bc3_n (x y z : arr num) n cz : shape x = [n] -> shape y = [n] -> feeds z n cz -> exists x' y' z',
  broadcast3 x y z = ret (x', y', z') /\ shape x' = [n] /\ shape y' = [n] /\ shape z' = [n] /\
  (forall i, (i < n)%nat -> get x' [i] = get x [i] /\ get y' [i] = get y [i] /\ get z' [i] = cz i).
Proof.
  intros Sx Sy Hz. exists (broadcast_to x [n]), (broadcast_to y [n]), (broadcast_to z [n]). split.
  - unfold broadcast3. rewrite Sx, Sy, bshape_refl.
    destruct (W_join n [n] (shape z)) as (r & -> & _ & K & _); [right; right; reflexivity|eapply feeds_W; eauto|].
    rewrite K by auto. reflexivity.
  - repeat (split; [reflexivity|]). intros i Hi. repeat split.
    + apply (feeds_get x n (fun i => get x [i])); auto. right; right; split; auto.
    + apply (feeds_get y n (fun i => get y [i])); auto. right; right; split; auto.
    + apply feeds_get; auto.
Qed.

(** displace on the ellipsoid.  n positions (or one), distances and azimuths: the i-th result is the solver's answer for the i-th
    position (in degrees), azimuth (in degrees) and distance on the ellipsoid with semi-major axis a - z_i
    of the point's own frame; the solver is told [unroll]; the depth and the frame are those of the point *)
Theorem C53_displace_pointwise : forall gd g distance azimuth unroll degrees rest n cla clo caz cs cz t,
  feeds (g_lat g) n cla -> feeds (g_lon g) n clo -> feeds azimuth n caz -> feeds distance n cs -> feeds (g_z g) n cz ->
  one_of [n] (g_lat g) (g_lon g) azimuth distance (g_z g) -> (0 < n)%nat ->
  (forall i, (i < n)%nat ->
     ends (gd (nsub (fe_a (g_frame g)) (cz i)) (fe_f (g_frame g)) (rad2deg (cla i)) (rad2deg (clo i))
             (to_degrees degrees (caz i)) (cs i) unroll) (t i)) ->
  ends_with (displace gd g distance azimuth unroll degrees (String "e"%char rest)) (fun r =>
    results (g_lat (fst r), g_lon (fst r), snd r) n (fun i =>
      let '(la, lo, b) := t i in (deg2rad la, deg2rad lo, from_degrees degrees b)) /\
    shape (g_z (fst r)) = [n] /\ (forall i, (i < n)%nat -> get (g_z (fst r)) [i] = cz i) /\
    g_frame (fst r) = g_frame g).
Proof.
  intros gd g distance azimuth unroll degrees rest n cla clo caz cs cz t H1 H2 H3 H4 Hz O Hn H.
  unfold displace. change (starts_with_e (String "e"%char rest)) with true. cbn iota. unfold displace_ellipsoid.
  set (az := if degrees then azimuth else deg1 azimuth).
  assert (Haz : feeds az n (fun i => to_degrees degrees (caz i))).
  { subst az. destruct degrees; [exact H3|]. exact (feeds_map rad2deg _ _ _ H3). }
  destruct (C53_direct_pointwise gd (g_frame g) (deg1 (g_lat g)) (deg1 (g_lon g)) az distance (g_z g) unroll true n
    (fun i => rad2deg (cla i)) (fun i => rad2deg (clo i)) _ cs cz t (feeds_map rad2deg _ _ _ H1) (feeds_map rad2deg _ _ _ H2) Haz H4 Hz)
    as ([[x y] w] & E & R).
  { unfold one_of in *. subst az. destruct degrees; exact O. }
  { exact Hn. } { exact H. }
  assert (R' : results (x, y, w) n t).
  { destruct R as (S1 & S2 & S3 & G). repeat (split; [assumption|]). intros i Hi. rewrite (G i Hi). destruct (t i) as [[? ?] ?]. reflexivity. }
  pose proof (results_rad x y w n t degrees R') as (S1 & S2 & S3 & G).
  destruct (bc3_n (rad1 x) (rad1 y) (g_z g) n cz S1 S2 Hz) as (x' & y' & z' & B & Sx & Sy & Sz & Gb).
  eexists. split.
  - eapply ends_bind_i; [exact E|]. eapply ends_bind_i.
    + unfold GeoPoint. rewrite B, bind_ret. cbn [default_frame]. rewrite bind_ret. reflexivity.
    + reflexivity.
  - cbn [fst snd g_lat g_lon g_z g_frame]. split.
    { repeat (split; [assumption|]). intros i Hi. destruct (Gb i Hi) as (-> & -> & _). apply G. exact Hi. }
    split; [exact Sz|]. split; [|reflexivity]. intros i Hi. apply Gb. exact Hi.
Qed.
Print Assumptions C53_displace_pointwise.

(** a scalar point, a scalar distance and azimuth: a scalar point *)
Theorem C53_displace_scalar : forall gd g distance azimuth unroll degrees rest t,
  all_of [] (g_lat g) (g_lon g) azimuth distance (g_z g) ->
  ends (gd (nsub (fe_a (g_frame g)) (get (g_z g) [])) (fe_f (g_frame g)) (rad2deg (get (g_lat g) [])) (rad2deg (get (g_lon g) []))
          (to_degrees degrees (get azimuth [])) (get distance []) unroll) t ->
  ends_with (displace gd g distance azimuth unroll degrees (String "e"%char rest)) (fun r =>
    scalar_results (g_lat (fst r), g_lon (fst r), snd r)
      (let '(la, lo, b) := t in (deg2rad la, deg2rad lo, from_degrees degrees b)) /\
    shape (g_z (fst r)) = [] /\ get (g_z (fst r)) [] = get (g_z g) [] /\ g_frame (fst r) = g_frame g).
Proof.
  intros gd g distance azimuth unroll degrees rest t (S1 & S2 & S3 & S4 & S5) H.
  unfold displace. change (starts_with_e (String "e"%char rest)) with true. cbn iota. unfold displace_ellipsoid.
  set (az := if degrees then azimuth else deg1 azimuth).
  destruct (C53_scalar (fun _ _ _ _ _ _ _ => ret t) gd (g_frame g) (deg1 (g_lat g)) (deg1 (g_lon g)) az distance (g_z g) unroll true t t)
    as [_ ([[x y] w] & E & R)].
  { unfold all_of. subst az. cbn [deg1 map1 shape]. destruct degrees; cbn [deg1 map1 shape]; auto. }
  { reflexivity. }
  { cbn beta zeta. cbn [to_degrees deg1 map1 get]. subst az. destruct degrees; exact H. }
  assert (R' : scalar_results (x, y, w) t).
  { destruct R as (T1 & T2 & T3 & G). repeat (split; [assumption|]). rewrite G. destruct t as [[? ?] ?]. reflexivity. }
  pose proof (scalar_results_rad x y w t degrees R') as (T1 & T2 & T3 & G).
  eexists. split.
  - eapply ends_bind_i; [exact E|]. eapply ends_bind_i.
    + unfold GeoPoint, broadcast3. rewrite T1, T2, S5. cbn [bshape bshape_rev rev]. rewrite bind_ret. cbn [default_frame]. rewrite bind_ret. reflexivity.
    + reflexivity.
  - cbn [fst snd g_lat g_lon g_z g_frame broadcast_to shape]. split.
    + split; [reflexivity|]. split; [reflexivity|]. split; [exact T3|]. cbn [get broadcast_to]. rewrite T1, T2, !bidx_nil. exact G.
    + split; [reflexivity|]. split; [|reflexivity]. cbn [get broadcast_to]. rewrite S5, bidx_nil. reflexivity.
Qed.
Print Assumptions C53_displace_scalar.

(** distance_and_azimuth on the ellipsoid, between a GeoPoint and anything that converts to the GeoPoint h of an equal frame:
    the solver runs on the ellipsoid with semi-major axis a - (z_i + z'_i)/2 of the first point's frame and is told [unroll] *)
Lemma daa_on_ellipsoid gi g p h unroll degrees rest r :
  ends (check_frames_pt (g_frame g) p) tt -> ends (to_geo_point p) h ->
  ends (daa_ellipsoid gi g (PGeo h) unroll degrees) r ->
  ends (distance_and_azimuth gi g p unroll degrees (String "e"%char rest)) r.
Proof.
  intros C T E. unfold distance_and_azimuth. eapply ends_bind_i; [exact C|]. cbn [first_is_e]. rewrite bind_ret.
  change (Ascii.eqb "e"%char "e"%char) with true. cbn iota. unfold daa_ellipsoid in *. eapply ends_bind_i; [exact T|]. cbn [to_geo_point] in E. rewrite bind_ret in E. exact E.
Qed.

Lemma feeds_add x y n cx cy : feeds x n cx -> feeds y n cy ->
  exists s, map2 nadd x y = ret s /\ feeds s n (fun i => nadd (cx i) (cy i)) /\ (shape x = [n] \/ shape y = [n] -> shape s = [n]).
Proof.
  assert (E1 : bshape [1%nat] [n] = Some [n]) by (apply bshape_n_m, bdim_1_l).
  assert (E2 : bshape [n] [1%nat] = Some [n]) by (apply bshape_n_m, bdim_1_r).
  assert (E3 : bshape [n] [n] = Some [n]) by apply bshape_refl.
  assert (E4 : bshape [1%nat] [1%nat] = Some [1%nat]) by reflexivity.
  intros [[Sx Gx]|[[Sx Gx]|[Sx Gx]]] [[Sy Gy]|[[Sy Gy]|[Sy Gy]]]; unfold map2; rewrite Sx, Sy, ?bshape_nil_l, ?bshape_nil_r, ?E1, ?E2, ?E3, ?E4;
    (eexists; split; [reflexivity|]); (split; [|cbn [shape]; intros [H|H]; congruence || reflexivity]).
  all: first [left; split; [reflexivity|]; intros i Hi; cbn [get]; rewrite Gx, Gy, ?bidx_nil by auto; reflexivity
             |right; left; split; [reflexivity|]; intros i Hi; cbn [get]; rewrite Gx, Gy, ?bidx_nil, ?bidx_1 by auto; reflexivity
             |right; right; split; [reflexivity|]; intros i Hi; cbn [get]; rewrite Gx, Gy, ?bidx_nil, ?bidx_1, ?(cl_id n i Hi) by auto; reflexivity].
Qed.

Theorem C53_distance_and_azimuth_pointwise : forall gi g p h unroll degrees rest n cla clo cz cla' clo' cz' t,
  ends (check_frames_pt (g_frame g) p) tt -> ends (to_geo_point p) h ->
  feeds (g_lat g) n cla -> feeds (g_lon g) n clo -> feeds (g_z g) n cz ->
  feeds (g_lat h) n cla' -> feeds (g_lon h) n clo' -> feeds (g_z h) n cz' ->
  one_of [n] (g_lat g) (g_lon g) (g_lat h) (g_lon h) (g_z g) -> (0 < n)%nat ->
  (forall i, (i < n)%nat ->
     ends (gi (nsub (fe_a (g_frame g)) (nmul (Fin (/ 2)) (nadd (cz i) (cz' i)))) (fe_f (g_frame g)) (rad2deg (cla i)) (rad2deg (clo i))
             (rad2deg (cla' i)) (rad2deg (clo' i)) unroll) (t i)) ->
  ends_with (distance_and_azimuth gi g p unroll degrees (String "e"%char rest)) (fun r => results r n (fun i =>
      let '(s, a, b) := t i in (s, from_degrees degrees a, from_degrees degrees b))).
Proof.
  intros gi g p h unroll degrees rest n cla clo cz cla' clo' cz' t C T H1 H2 H3 H4 H5 H6 O Hn H.
  destruct (feeds_add _ _ _ _ _ H3 H6) as (s & Es & Fs & Ks).
  assert (Fh : feeds (map1 (nmul (Fin (/ 2))) s) n (fun i => nmul (Fin (/ 2)) (nadd (cz i) (cz' i)))) by exact (feeds_map (nmul (Fin (/ 2))) _ _ _ Fs).
  assert (O' : one_of [n] (g_lat g) (g_lon g) (g_lat h) (g_lon h) (map1 (nmul (Fin (/ 2))) s)).
  { unfold one_of in *. cbn [map1 shape]. intuition auto. }
  assert (X : ends_with (daa_ellipsoid gi g (PGeo h) unroll degrees) (fun r => results r n (fun i =>
      let '(s, a, b) := t i in (s, from_degrees degrees a, from_degrees degrees b)))).
  { unfold daa_ellipsoid. cbn [to_geo_point]. rewrite bind_ret, Es, bind_ret. cbv zeta. destruct degrees.
    - apply (C53_inverse_pointwise gi (g_frame g) _ _ _ _ _ unroll true n (fun i => rad2deg (cla i)) (fun i => rad2deg (clo i))
        (fun i => rad2deg (cla' i)) (fun i => rad2deg (clo' i)) _ t (feeds_map rad2deg _ _ _ H1) (feeds_map rad2deg _ _ _ H2)
        (feeds_map rad2deg _ _ _ H4) (feeds_map rad2deg _ _ _ H5) Fh); auto.
    - apply (C53_inverse_pointwise gi (g_frame g) _ _ _ _ _ unroll false n _ _ _ _ _ t H1 H2 H4 H5 Fh); auto. }
  destruct X as (r & E & R). exists r. split; [|exact R]. eapply daa_on_ellipsoid; eauto.
Qed.
Print Assumptions C53_distance_and_azimuth_pointwise.

(** three positions displaced by one distance and azimuth; a solver that reports its mask *)
Definition mask_solver : solver := fun a f x1 x2 x3 x4 unroll => ret (x1, x2, if unroll then Fin 1 else Fin 0).
Example C53_methods_example :
  forall fr, let g := MkGeo (arr1 [1; 2; 3]) (arr1 [0; 0; 0]) (arr1 [10; 20; 30]) fr in
  one_of [3%nat] (g_lat g) (g_lon g) (scal (Fin 1)) (scal (Fin 1000)) (g_z g) /\ feeds (g_lat g) 3 (fun i => Fin (nth i [1; 2; 3] 0)) /\
  feeds (scal (Fin 1)) 3 (fun _ => Fin 1) /\
  (forall a f x1 x2 x3 x4 u, ends (mask_solver a f x1 x2 x3 x4 u) (x1, x2, if u then Fin 1 else Fin 0)).
Proof.
  intros fr. cbn zeta. split; [left; reflexivity|]. split; [right; right; split; [reflexivity|]; intros; reflexivity|].
  split; [left; split; [reflexivity|]; intros; reflexivity|]. intros. reflexivity.
Qed.
