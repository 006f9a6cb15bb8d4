(** * C66-C70: GeoPath.interpolate, intersect, closest_point_on_great_circle; Nvector.mean and unit *)
From Coq Require Import Ascii String List Arith Lia Bool Reals Lra Psatz ZArith.
From Verif Require Import Num Py Nd MUtil MRotation MCore MObjects Spec SpecArr SpecObj SpecGeo SpecPath LNum LTrig LVec LArr LLatLon LMat LRot
  LAngle LDist PDist PUtil LCircle PCircle PTrack PArc LEq LEcef PEcef PRot PFrame PEq LObj PEq2 LDirect PDirect LObj2 PObj PObj2 POps PGeod LGreat PGreat PPath PClosest PPath2 PMdot.
Import ListNotations.
Local Open Scope R_scope.

(** point at parameter t of the chord from a1 to a2 *)
Definition chord_point (a1 a2 : vec) (t : R) : vec := vadd (vscale (1 - t) a1) (vscale t a2).

Lemma chord_zero a1 a2 t : vnorm a1 = 1 -> vnorm a2 = 1 -> chord_point a1 a2 t = v0 <-> a2 = vneg a1 /\ t = / 2.
Proof.
  intros H1 H2. apply vnorm_unit in H1, H2. destruct a1 as [x y z], a2 as [x' y' z'].
  unfold chord_point, vdot, vneg, vadd, vscale, v0 in *; cbn [Spec.vx Spec.vy Spec.vz] in *. split.
  - intros E. injection E as E1 E2 E3.
    assert (T : (1 - t) * (1 - t) = t * t).
    { assert (Q : (1-t)*(1-t)*(x*x+y*y+z*z) = t*t*(x'*x'+y'*y'+z'*z')).
      { replace ((1-t)*(1-t)*(x*x+y*y+z*z)) with (((1-t)*x)*((1-t)*x) + ((1-t)*y)*((1-t)*y) + ((1-t)*z)*((1-t)*z)) by ring.
        replace ((1-t)*x) with (- (t * x')) by lra. replace ((1-t)*y) with (- (t * y')) by lra. replace ((1-t)*z) with (- (t * z')) by lra. ring. }
      rewrite H1, H2 in Q. lra. }
    assert (t = / 2) by nra. subst t. split; auto. f_equal; lra.
  - intros [E ->]. injection E as -> -> ->. f_equal; lra.
Qed.

Lemma chord_plane a1 a2 t : vdot (chord_point a1 a2 t) (vcross a1 a2) = 0.
Proof. destruct a1, a2. unfold chord_point, vdot, vcross, vadd, vscale; cbn [Spec.vx Spec.vy Spec.vz]. ring. Qed.


Lemma chord_cross a1 a2 t : vcross a1 (chord_point a1 a2 t) = vscale t (vcross a1 a2).
Proof. destruct a1, a2. unfold chord_point, vcross, vadd, vscale; cbn [Spec.vx Spec.vy Spec.vz]. f_equal; ring. Qed.
Lemma chord_dot a1 a2 t : vnorm a1 = 1 -> vdot a1 (chord_point a1 a2 t) = (1 - t) + t * vdot a1 a2.
Proof.
  intros H. apply vnorm_unit in H. transitivity ((1 - t) * vdot a1 a1 + t * vdot a1 a2); [|rewrite H; ring].
  destruct a1, a2. unfold chord_point, vdot, vadd, vscale; cbn [Spec.vx Spec.vy Spec.vz]. ring.
Qed.
Lemma chord_nz a1 a2 t : vnorm a1 = 1 -> vnorm a2 = 1 -> vcross a1 a2 <> v0 -> chord_point a1 a2 t <> v0.
Proof.
  intros H1 H2 Z E. apply chord_zero in E as [-> _]; auto. apply Z. destruct a1.
  unfold vcross, vneg, v0; cbn [Spec.vx Spec.vy Spec.vz]. f_equal; ring.
Qed.

Lemma chord_angle_lt a1 a2 s t : vnorm a1 = 1 -> vnorm a2 = 1 -> vcross a1 a2 <> v0 -> 0 <= s < t ->
  angle a1 (chord_point a1 a2 s) < angle a1 (chord_point a1 a2 t).
Proof.
  intros H1 H2 Z [Hs Ht]. set (c := chord_point a1 a2).
  pose proof (chord_nz a1 a2 s H1 H2 Z) as Ns. pose proof (chord_nz a1 a2 t H1 H2 Z) as Nt.
  pose proof (vnorm_inv _ H1) as N1. fold c in Ns, Nt. 
  pose proof (dot_angle a1 (c s) N1 Ns) as Ds. pose proof (dot_angle a1 (c t) N1 Nt) as Dt.
  pose proof (sin_angle a1 (c s) N1 Ns) as Ss. pose proof (sin_angle a1 (c t) N1 Nt) as St.
  pose proof (angle_range a1 (c s)) as Rs. pose proof (angle_range a1 (c t)) as Rt.
  unfold c in Ds, Dt, Ss, St. rewrite chord_dot in Ds, Dt by auto. rewrite chord_cross, vnorm_scale, Rabs_right in Ss, St by lra. fold c in Ds, Dt, Ss, St.
  rewrite H1, !Rmult_1_l in *. pose proof (vnorm_nz _ Ns) as Ps. pose proof (vnorm_nz _ Nt) as Pt. pose proof (vnorm_nz _ Z) as P.
  set (x := angle a1 (c s)) in *. set (y := angle a1 (c t)) in *.
  assert (K : 0 < vnorm (c s) * vnorm (c t) * sin (y - x)).
  { rewrite sin_minus.
    replace (vnorm (c s) * vnorm (c t) * (sin y * cos x - cos y * sin x)) with
      ((vnorm (c t) * sin y) * (vnorm (c s) * cos x) - (vnorm (c t) * cos y) * (vnorm (c s) * sin x)) by ring.
    rewrite <- Ds, <- Dt, <- Ss, <- St.
    match goal with |- 0 < ?e => replace e with ((t - s) * vnorm (vcross a1 a2)) by ring end. apply Rmult_lt_0_compat; lra. }
  destruct (Rlt_le_dec x y) as [|L]; auto. exfalso.
  assert (sin (y - x) <= 0).
  { replace (y - x) with (- (x - y)) by ring. rewrite sin_neg. assert (0 <= sin (x - y)) by (apply sin_ge_0; lra). lra. }
  assert (0 < vnorm (c s) * vnorm (c t)) by (apply Rmult_lt_0_compat; lra). nra.
Qed.

Lemma angle_dir_r u v : v <> v0 -> angle u (direction v) = angle u v.
Proof. intros H. unfold direction. apply angle_scale_r, Rinv_0_lt_compat, vnorm_nz, H. Qed.
Lemma direction_same v : v <> v0 -> same_direction (direction v) v.
Proof. intros H. exists (/ vnorm v). split; [apply Rinv_0_lt_compat, vnorm_nz, H|reflexivity]. Qed.

Lemma interpolate_spec A B pA pB upA upB a f M zA zB ti l t :
  ellipsoid a f -> ecc2 f <= 1 / 2 -> placed A 1 pA upA a f M -> placed B 1 pB upB a f M ->
  unit_normals A 1 -> unit_normals B 1 ->
  let a1 := upA 0%nat in let a2 := upB 0%nat in
  at_depth a f M a1 zA (pA 0%nat) -> at_depth a f M a2 zB (pB 0%nat) -> vals ti l t ->
  exists ws r, path_interpolate (GeoPath A B) ti = (ws, inl r) /\ vnorm a1 = 1 /\ vnorm a2 = 1 /\
    is_frame (n_frame r) a f M /\ vals (n_z r) l (fun j => (1 - t j) * zA + t j * zB) /\
    shape (n_normal r) = [3%nat; l] /\ forall j, (j < l)%nat ->
      let c := chord_point a1 a2 (t j) in (c = v0 -> nancol (n_normal r) j) /\ (c <> v0 -> vcol (n_normal r) j (direction c)).
Proof.
  intros El E2 HA HB UA UB a1 a2 DA DB Ht.
  destruct (to_nvector_unit _ _ _ _ _ _ _ HA El E2 UA) as (wa & va & yA & Ea & (_ & CA & _ & SA & FA) & Ca & _).
  destruct (to_nvector_unit _ _ _ _ _ _ _ HB El E2 UB) as (wb & vb & yB & Eb & (_ & CB & _ & SB & FB) & Cb & _).
  destruct (Ca 0%nat ltac:(lia)) as (U1 & _ & PA). destruct (Cb 0%nat ltac:(lia)) as (U2 & _ & PB).
  apply cols_1 in CA, CB. apply spread_1 in SA, SB. fold a1 in CA, U1. fold a2 in CB, U2.
  destruct (placed_frame _ _ _ _ _ _ _ HA) as (HM & _).
  destruct El as [Pa [F0 F1]].
  assert (yA 0%nat = zA). { apply (at_depth_z a f M a1 _ _ (pA 0%nat)); auto. rewrite PA. apply at_depth_pos; auto. apply vnorm_inv; auto. }
  assert (yB 0%nat = zB). { apply (at_depth_z a f M a2 _ _ (pB 0%nat)); auto. rewrite PB. apply at_depth_pos; auto. apply vnorm_inv; auto. }
  subst zA zB.
  unfold path_interpolate, path_nvectors. cbn [gp_a gp_b]. rewrite Ea, bind_inl, Eb, bind_inl.
  assert (HVA : holds_nv va 1 (fun _ => a1) 1 (fun _ => yA 0%nat) (n_frame va)) by (split; [exact CA|split; [exact SA|reflexivity]]).
  assert (HVB : holds_nv vb 1 (fun _ => a2) 1 (fun _ => yB 0%nat) (n_frame vb)) by (split; [exact CB|split; [exact SB|reflexivity]]).
  destruct (C57_add_sub_componentwise _ _ _ _ 1%nat _ _ _ _ 1%nat _ _ _ _ _ _ _ HVB HVA FB FA eq_refl eq_refl) as [_ (d & Ed & Hd)].
  destruct (C57_mul_div_componentwise _ _ _ _ _ _ _ _ _ l l Hd Ht (bdim_1_l l) (bdim_1_l l)) as [(m & Em & Hm) _].
  destruct (C57_add_sub_componentwise _ _ _ _ l _ _ _ _ l _ _ _ _ _ _ _ HVA Hm FA FB (bdim_1_l l) (bdim_1_l l)) as [(c & Ec & Cc & Vc & Fc) _].
  destruct (unit_spec _ _ _ NaN Cc) as (C & EC & SC & GC).
  do 2 eexists. split.
  { cbn [ret fst snd]. rewrite bind_inl. cbv beta iota. rewrite Ed, bind_inl, Em, bind_inl, Ec, bind_inl, EC, bind_ret. reflexivity. }
  cbn [n_frame n_z n_normal]. rewrite Fc. split; auto. split; auto. split; auto. split.
  { eapply vals_ext; [|exact Vc]. intros j Hj. cbn beta. rewrite !(cl_id l j) by auto. ring. }
  split; [exact SC|]. intros j Hj. set (c' := chord_point a1 a2 (t j)).
  assert (Q : vadd a1 (vscale (t (cl l j)) (vsub a2 a1)) = c').
  { rewrite (cl_id l j) by auto. unfold c', chord_point. destruct a1, a2. unfold vadd, vscale, vsub; cbn [Spec.vx Spec.vy Spec.vz]. f_equal; ring. }
  specialize (GC j Hj). cbv beta in GC. rewrite !(cl_id l j) in GC, Q by auto. rewrite ?(cl_id l j), Q in GC by auto. destruct GC as [G1 G2]. split; auto.
Qed.

(** ** C66: GeoPath.interpolate runs along the path from A to B *)
Theorem C66_interpolate : forall A B pA pB upA upB a f M zA zB ti l t,
  ellipsoid a f -> ecc2 f <= 1 / 2 -> placed A 1 pA upA a f M -> placed B 1 pB upB a f M ->
  unit_normals A 1 -> unit_normals B 1 ->
  let a1 := upA 0%nat in let a2 := upB 0%nat in
  at_depth a f M a1 zA (pA 0%nat) -> at_depth a f M a2 zB (pB 0%nat) -> vals ti l t ->
  ends_with (path_interpolate (GeoPath A B) ti) (fun r =>
    is_frame (n_frame r) a f M /\ vals (n_z r) l (fun j => (1 - t j) * zA + t j * zB) /\
    shape (n_normal r) = [3%nat; l] /\
    (forall j, (j < l)%nat ->
       (* undefined exactly half way between antipodes *)
       (a2 = vneg a1 /\ t j = / 2 -> nancol (n_normal r) j) /\
       (~ (a2 = vneg a1 /\ t j = / 2) -> exists p, vcol (n_normal r) j p /\ on_circle a1 a2 p /\
          (t j = 0 -> p = a1) /\ (t j = 1 -> p = a2) /\
          (0 <= t j <= 1 -> on_arc a1 a2 p) /\
          (t j = / 2 -> angle a1 p = angle p a2))) /\
    (* the points come in the order of t *)
    (vcross a1 a2 <> v0 -> forall i j p q, (i < l)%nat -> (j < l)%nat -> vcol (n_normal r) i p -> vcol (n_normal r) j q ->
       0 <= t i < t j -> angle a1 p < angle a1 q)).
Proof.
  intros A B pA pB upA upB a f M zA zB ti l t El E2 HA HB UA UB a1 a2 DA DB Ht.
  destruct (interpolate_spec _ _ _ _ _ _ _ _ _ _ _ _ _ _ El E2 HA HB UA UB DA DB Ht) as (ws & r & E & U1 & U2 & F & Vz & S & G).
  fold a1 a2 in U1, U2, G. exists r. split; [unfold ends; rewrite E; reflexivity|].
  split; [exact F|]. split; [exact Vz|]. split; [exact S|]. split.
  - intros j Hj. destruct (G j Hj) as [G1 G2]. clear G. split.
    + intros H. apply G1, chord_zero; auto.
    + intros H. assert (N : chord_point a1 a2 (t j) <> v0) by (intros K; apply H, chord_zero; auto).
      exists (direction (chord_point a1 a2 (t j))). split; auto. pose proof (direction_unit _ N) as Ud. pose proof (vnorm_nz _ N) as Pn.
      split. { split; auto. unfold direction. rewrite vdot_scale_l, chord_plane. ring. }
      split. { intros T. rewrite T. replace (chord_point a1 a2 0) with a1; [apply direction_of_unit; auto|].
        destruct a1, a2; unfold chord_point, vadd, vscale; cbn [Spec.vx Spec.vy Spec.vz]; f_equal; ring. }
      split. { intros T. rewrite T. replace (chord_point a1 a2 1) with a2; [apply direction_of_unit; auto|].
        destruct a1, a2; unfold chord_point, vadd, vscale; cbn [Spec.vx Spec.vy Spec.vz]; f_equal; ring. }
      split. { intros T. split; auto. pose proof (Rinv_0_lt_compat _ Pn). set (c := / vnorm (chord_point a1 a2 (t j))) in *.
        exists (c * (1 - t j)), (c * t j). split; [apply Rmult_le_pos; lra|]. split; [apply Rmult_le_pos; lra|].
        unfold direction. fold c. unfold chord_point, vadd, vscale; cbn [Spec.vx Spec.vy Spec.vz]; f_equal; ring. }
      intros T. rewrite (angle_sym _ a2), !angle_dir_r by auto. unfold angle. rewrite U1, U2. f_equal. f_equal.
      apply vnorm_unit in U1, U2. rewrite T.
      transitivity (/ 2 * vdot a1 a1 + / 2 * vdot a1 a2).
      * unfold chord_point, vdot, vadd, vscale; cbn [Spec.vx Spec.vy Spec.vz]. field.
      * rewrite U1, <- U2. unfold chord_point, vdot, vadd, vscale; cbn [Spec.vx Spec.vy Spec.vz]. field.
  - intros Z i j p q Hi Hj Hp Hq T.
    destruct (G i Hi) as [_ Gi]. destruct (G j Hj) as [_ Gj].
    specialize (Gi (chord_nz _ _ _ U1 U2 Z)). specialize (Gj (chord_nz _ _ _ U1 U2 Z)).
    rewrite (vcol_unique _ _ _ _ Hp Gi), (vcol_unique _ _ _ _ Hq Gj), !angle_dir_r by (apply chord_nz; auto).
    apply chord_angle_lt; auto.
Qed.

(** but not with constant speed: for ends a quarter of the great circle apart, a quarter of the time
    does not give a quarter of the way *)
Theorem C66_speed_not_constant : forall A B pA pB upA upB a f M zA zB ti,
  ellipsoid a f -> ecc2 f <= 1 / 2 -> placed A 1 pA upA a f M -> placed B 1 pB upB a f M ->
  unit_normals A 1 -> unit_normals B 1 ->
  let a1 := upA 0%nat in let a2 := upB 0%nat in
  at_depth a f M a1 zA (pA 0%nat) -> at_depth a f M a2 zB (pB 0%nat) -> scalar ti (/ 4) -> angle a1 a2 = PI / 2 ->
  ends_with (path_interpolate (GeoPath A B) ti) (fun r => exists p, vcol (n_normal r) 0 p /\
    on_arc a1 a2 p /\ angle a1 p <> / 4 * angle a1 a2).
Proof.
  intros A B pA pB upA upB a f M zA zB ti El E2 HA HB UA UB a1 a2 DA DB Ht Q.
  assert (Vt : vals ti 1 (fun _ => / 4)) by (left; auto).
  destruct (interpolate_spec _ _ _ _ _ _ _ _ _ _ _ _ _ _ El E2 HA HB UA UB DA DB Vt) as (ws & r & E & U1 & U2 & F & Vz & S & G).
  fold a1 a2 in U1, U2, G. exists r. split; [unfold ends; rewrite E; reflexivity|].
  specialize (G 0%nat ltac:(lia)). cbv beta zeta in G. destruct G as [_ G].
  assert (D : vdot a1 a2 = 0) by (rewrite <- cos_angle_unit, Q, cos_PI2 by auto; reflexivity).
  assert (N : chord_point a1 a2 (/ 4) <> v0) by (intros K; apply chord_zero in K; auto; lra).
  specialize (G N). exists (direction (chord_point a1 a2 (/ 4))). split; auto. pose proof (vnorm_nz _ N) as Pn. split.
  { split; [apply direction_unit; auto|]. pose proof (Rinv_0_lt_compat _ Pn). set (c := / vnorm (chord_point a1 a2 (/ 4))) in *.
    exists (c * (3 / 4)), (c * / 4). split; [lra|]. split; [lra|].
    unfold direction. fold c. unfold chord_point, vadd, vscale; cbn [Spec.vx Spec.vy Spec.vz]; f_equal; field. }
  rewrite angle_dir_r by auto. intros K. rewrite Q in K.
  pose proof (cos_angle a1 _ (vnorm_inv _ U1) N) as C. rewrite K, chord_dot, D, U1 in C by auto.
  assert (N2 : vnorm (chord_point a1 a2 (/ 4)) * vnorm (chord_point a1 a2 (/ 4)) = 10 / 16).
  { rewrite vnorm_sq. apply vnorm_unit in U1, U2.
    transitivity (9 / 16 * vdot a1 a1 + 6 / 16 * vdot a1 a2 + 1 / 16 * vdot a2 a2).
    - unfold chord_point, vdot, vadd, vscale; cbn [Spec.vx Spec.vy Spec.vz]. field.
    - rewrite U1, U2, D. field. }
  set (n := vnorm (chord_point a1 a2 (/ 4))) in *.
  assert (C2 : cos (/ 4 * (PI / 2)) * cos (/ 4 * (PI / 2)) = 9 / 10).
  { rewrite C. transitivity (9 / 16 / (n * n)); [field; lra|]. rewrite N2. field. }
  assert (H4 : cos (PI / 4) = 8 / 10).
  { replace (PI / 4) with (2 * (/ 4 * (PI / 2))) by field. rewrite cos_2a_cos. lra. }
  assert (cos (PI / 4) * cos (PI / 4) = / 2).
  { rewrite cos_PI4. pose proof (sqrt_sqrt 2 ltac:(lra)) as Sq. assert (0 < sqrt 2) by (apply sqrt_lt_R0; lra).
    transitivity (1 / (sqrt 2 * sqrt 2)); [field; lra|]. rewrite Sq. lra. }
  rewrite H4 in *. lra.
Qed.

(** ** C67: GeoPath.intersect *)
Lemma placed_frame_of pt n p up a f M : placed pt n p up a f M -> exists fr, point_frame pt = ret fr /\ is_frame fr a f M.
Proof.
  destruct pt as [g|v|e|q]; cbn [placed point_frame].
  - intros (la & lo & z & (_ & _ & _ & _ & _ & _ & F) & _). eexists; split; [reflexivity|auto].
  - intros (u & z & (_ & _ & _ & _ & F) & _). eexists; split; [reflexivity|auto].
  - intros ((_ & _ & F & _) & _). eexists; split; [reflexivity|auto].
  - intros [].
Qed.

Lemma nvector_at pt p up a f M z : ellipsoid a f -> ecc2 f <= 1 / 2 -> placed pt 1 p up a f M -> unit_normals pt 1 ->
  at_depth a f M (up 0%nat) z (p 0%nat) ->
  exists ws v, to_nvector pt = (ws, inl v) /\ cols (n_normal v) 1 (fun _ => up 0%nat) /\ vals (n_z v) 1 (fun _ => z) /\ vnorm (up 0%nat) = 1.
Proof.
  intros El E2 HA UA DA.
  destruct (to_nvector_unit _ _ _ _ _ _ _ HA El E2 UA) as (wa & va & yA & Ea & (_ & CA & _ & SA & FA) & Ca & _).
  destruct (Ca 0%nat ltac:(lia)) as (U1 & _ & PA). apply cols_1 in CA. apply spread_1 in SA.
  destruct (placed_frame _ _ _ _ _ _ _ HA) as (HM & _). destruct El as [Pa [F0 F1]].
  assert (yA 0%nat = z). { apply (at_depth_z a f M (up 0%nat) _ _ (p 0%nat)); auto. rewrite PA. apply at_depth_pos; auto. apply vnorm_inv; auto. }
  subst z. exists wa, va. auto.
Qed.

Lemma intersect_depths va vb vc vd zA zB zC zD :
  vals va 1 (fun _ => zA) -> vals vb 1 (fun _ => zB) -> vals vc 1 (fun _ => zC) -> vals vd 1 (fun _ => zD) ->
  exists s1 s2 s3, map2 nadd va vb = ret s1 /\ map2 nadd s1 vc = ret s2 /\ map2 nadd s2 vd = ret s3 /\
    vals (map1 (fun x => ndiv x (Fin 4)) s3) 1 (fun _ => (zA + zB + zC + zD) / 4).
Proof.
  intros H1 H2 H3 H4.
  destruct (add_vals _ _ _ _ _ _ _ H1 H2 (bdim_refl 1)) as (s1 & E1 & V1).
  destruct (add_vals _ _ _ _ _ _ _ V1 H3 (bdim_refl 1)) as (s2 & E2 & V2).
  destruct (add_vals _ _ _ _ _ _ _ V2 H4 (bdim_refl 1)) as (s3 & E3 & V3).
  exists s1, s2, s3. repeat (split; auto).
  apply vals_map1 with (f := fun x => ndiv x (Fin 4)) (op := fun x => x / 4) in V3; [exact V3|].
  intros x p Hx. apply fin_div; auto; try apply fin_Fin; lra.
Qed.

Lemma two_crossings m n p q : vcross m n <> v0 -> vnorm p = 1 -> vnorm q = 1 ->
  vdot p m = 0 -> vdot p n = 0 -> vdot q m = 0 -> vdot q n = 0 -> q = p \/ q = vneg p.
Proof.
  intros Z Up Uq pm pn qm qn. set (w := vcross m n) in *.
  assert (K : forall x, vdot x m = 0 -> vdot x n = 0 -> x = vscale (vdot w x / vdot w w) w).
  { intros x xm xn. apply cross_zero_parallel; auto. unfold w. 
    transitivity (vsub (vscale (vdot x m) n) (vscale (vdot x n) m)).
    - destruct m, n, x. unfold vcross, vsub, vscale, vdot; cbn [Spec.vx Spec.vy Spec.vz]. f_equal; ring.
    - rewrite xm, xn. unfold vsub, vscale, v0; cbn [Spec.vx Spec.vy Spec.vz]. f_equal; ring. }
  pose proof (K p pm pn) as Kp. pose proof (K q qm qn) as Kq. set (s := vdot w p / vdot w w) in *. set (t := vdot w q / vdot w w) in *.
  pose proof (vnorm_nz _ Z) as Pw. rewrite Kp, vnorm_scale in Up. rewrite Kq, vnorm_scale in Uq.
  assert (St : Rabs s = Rabs t) by (apply Rmult_eq_reg_r with (vnorm w); lra).
  assert (t = s \/ t = - s). { unfold Rabs in St. destruct (Rcase_abs s), (Rcase_abs t); lra. }
  rewrite Kp, Kq. destruct H as [-> | ->]; [left|right]; auto. unfold vneg, vscale; cbn [Spec.vx Spec.vy Spec.vz]. f_equal; ring.
Qed.

Section Intersect.
Variables (A B C D : point) (pA pB pC pD upA upB upC upD : nat -> vec) (a f a' f' : R) (M M' : mat) (zA zB zC zD : R).
Hypothesis El : ellipsoid a f.
Hypothesis E2 : ecc2 f <= 1 / 2.
Hypothesis El' : ellipsoid a' f'.
Hypothesis E2' : ecc2 f' <= 1 / 2.
Hypothesis HA : placed A 1 pA upA a f M.
Hypothesis HB : placed B 1 pB upB a f M.
Hypothesis HC : placed C 1 pC upC a' f' M'.
Hypothesis HD : placed D 1 pD upD a' f' M'.
Hypothesis UA : unit_normals A 1.
Hypothesis UB : unit_normals B 1.
Hypothesis UC : unit_normals C 1.
Hypothesis UD : unit_normals D 1.
Let a1 := upA 0%nat.
Let a2 := upB 0%nat.
Let b1 := upC 0%nat.
Let b2 := upD 0%nat.
Hypothesis DA : at_depth a f M a1 zA (pA 0%nat).
Hypothesis DB : at_depth a f M a2 zB (pB 0%nat).
Hypothesis DC : at_depth a' f' M' b1 zC (pC 0%nat).
Hypothesis DD : at_depth a' f' M' b2 zD (pD 0%nat).

Lemma intersect_general (R : arr num -> Prop) ws' :
  (forall X1 X2 Y1 Y2, cols X1 1 (fun _ => a1) -> cols X2 1 (fun _ => a2) -> cols Y1 1 (fun _ => b1) -> cols Y2 1 (fun _ => b2) ->
     returns (intersect (X1, X2) (Y1, Y2)) ws' R) ->
  exists ws r, path_intersect (GeoPath A B) (GeoPath C D) = (ws ++ ws', inl r) /\ R (n_normal r) /\
    vals (n_z r) 1 (fun _ => (zA + zB + zC + zD) / 4) /\ is_frame (n_frame r) a f M.
Proof.
  intros H.
  destruct (nvector_at _ _ _ _ _ _ _ El E2 HA UA DA) as (w1 & v1 & E1 & C1 & V1 & _).
  destruct (nvector_at _ _ _ _ _ _ _ El E2 HB UB DB) as (w2 & v2 & E2x & C2 & V2 & _).
  destruct (nvector_at _ _ _ _ _ _ _ El' E2' HC UC DC) as (w3 & v3 & E3 & C3 & V3 & _).
  destruct (nvector_at _ _ _ _ _ _ _ El' E2' HD UD DD) as (w4 & v4 & E4 & C4 & V4 & _).
  destruct (placed_frame_of _ _ _ _ _ _ _ HA) as (fr & Ef & Hf).
  destruct (intersect_depths _ _ _ _ _ _ _ _ V1 V2 V3 V4) as (s1 & s2 & s3 & F1 & F2 & F3 & V).
  destruct (H _ _ _ _ C1 C2 C3 C4) as (X & EX & HX).
  exists ((w1 ++ w2) ++ (w3 ++ w4)). eexists. split.
  - unfold path_intersect, path_nvectors. cbn [gp_a gp_b]. rewrite Ef, bind_ret, E1, bind_inl, E2x, bind_inl. cbn [ret fst snd]. rewrite bind_inl.
    cbv beta iota. rewrite E3, bind_inl, E4, bind_inl. cbn [ret fst snd]. rewrite bind_inl. cbv beta iota. rewrite EX, bind_inl.
    rewrite F1, bind_ret, F2, bind_ret, F3, bind_ret. unfold Nvector, default_frame. rewrite bind_ret. cbn [ret fst snd].
    rewrite !app_nil_r, <- !app_assoc. reflexivity.
  - cbn [n_normal n_z n_frame]. auto.
Qed.
End Intersect.

(** one of the two points common to the two great circles, at the mean of the four depths *)
Theorem C67_intersection_partial : forall A B C D pA pB pC pD upA upB upC upD a f M zA zB zC zD,
  ellipsoid a f -> ecc2 f <= 1 / 2 ->
  placed A 1 pA upA a f M -> placed B 1 pB upB a f M -> placed C 1 pC upC a f M -> placed D 1 pD upD a f M ->
  unit_normals A 1 -> unit_normals B 1 -> unit_normals C 1 -> unit_normals D 1 ->
  let a1 := upA 0%nat in let a2 := upB 0%nat in let b1 := upC 0%nat in let b2 := upD 0%nat in
  at_depth a f M a1 zA (pA 0%nat) -> at_depth a f M a2 zB (pB 0%nat) -> at_depth a f M b1 zC (pC 0%nat) -> at_depth a f M b2 zD (pD 0%nat) ->
  distinct_circles a1 a2 b1 b2 ->
  vdot (vcross (vcross a1 a2) (vcross b1 b2)) a1 <> 0 ->   (* the point looked for is not 90 degrees from A *)
  ends_with (path_intersect (GeoPath A B) (GeoPath C D)) (fun r => exists p,
    is_nv r 1 (fun _ => p) (fun _ => (zA + zB + zC + zD) / 4) a f M /\
    on_circle a1 a2 p /\ on_circle b1 b2 p /\
    (* the one nearer to A *)
    (forall q, on_circle a1 a2 q -> on_circle b1 b2 q -> q = p \/ (q = vneg p /\ angle a1 p < angle a1 q))).
Proof.
  intros A B C D pA pB pC pD upA upB upC upD a f M zA zB zC zD El E2 HA HB HC HD UA UB UC UD a1 a2 b1 b2 DA DB DC DD Dc N.
  destruct (nvector_at _ _ _ _ _ _ _ El E2 HA UA DA) as (_ & _ & _ & _ & _ & U1). fold a1 in U1.
  set (P := fun p => on_circle a1 a2 p /\ on_circle b1 b2 p /\ 0 < vdot p a1).
  destruct (intersect_general A B C D pA pB pC pD upA upB upC upD a f a f M M zA zB zC zD El E2 El E2 HA HB HC HD UA UB UC UD DA DB DC DD
    (fun X => exists p, cols X 1 (fun _ => p) /\ P p) []) as (ws & r & E & (p & Cp & O1 & O2 & Pp) & V & F).
  { intros X1 X2 Y1 Y2 H1 H2 H3 H4. destruct (C16_intersection_partial _ _ _ _ _ _ _ _ H1 H2 H3 H4 Dc N) as (p & (X & EX & HX) & Q).
    exists X. split; [exact EX|]. exists p. split; auto. }
  exists r. split; [unfold ends; rewrite E; reflexivity|]. exists p.
  split. { split; [lia|]. split; [exact Cp|]. split; [intros; apply vnorm_inv, O1|]. split; [apply spread_vals; exact V|exact F]. }
  split; auto. split; auto.
  intros q Q1 Q2. 
  assert (K : q = p \/ q = vneg p).
  { pose proof (proj1 (distinct_iff a1 a2 b1 b2) Dc) as Dn.
    apply (two_crossings (vcross a1 a2) (vcross b1 b2)); auto; (apply Q1 || apply Q2 || apply O1 || apply O2). }
  destruct K as [K|K]; [left; auto|right; split; auto]. subst q.
  destruct Q1 as [Uq _]. apply angle_lt; auto; [apply O1|]. 
  assert (vdot a1 (vneg p) = - vdot p a1) by (unfold vdot, vneg; cbn [Spec.vx Spec.vy Spec.vz]; ring). rewrite (vdot_comm a1 p). lra.
Qed.

(** coinciding or undetermined great circles: NaN and a warning *)
Theorem C67_undefined : forall A B C D pA pB pC pD upA upB upC upD a f M zA zB zC zD,
  ellipsoid a f -> ecc2 f <= 1 / 2 ->
  placed A 1 pA upA a f M -> placed B 1 pB upB a f M -> placed C 1 pC upC a f M -> placed D 1 pD upD a f M ->
  unit_normals A 1 -> unit_normals B 1 -> unit_normals C 1 -> unit_normals D 1 ->
  let a1 := upA 0%nat in let a2 := upB 0%nat in let b1 := upC 0%nat in let b2 := upD 0%nat in
  at_depth a f M a1 zA (pA 0%nat) -> at_depth a f M a2 zB (pB 0%nat) -> at_depth a f M b1 zC (pC 0%nat) -> at_depth a f M b2 zD (pD 0%nat) ->
  ~ distinct_circles a1 a2 b1 b2 ->
  In WPathsEqual (fst (path_intersect (GeoPath A B) (GeoPath C D))) /\
  ends_with (path_intersect (GeoPath A B) (GeoPath C D)) (fun r => shape (n_normal r) = [3%nat; 1%nat] /\ nancol (n_normal r) 0).
Proof.
  intros A B C D pA pB pC pD upA upB upC upD a f M zA zB zC zD El E2 HA HB HC HD UA UB UC UD a1 a2 b1 b2 DA DB DC DD Dc.
  destruct (intersect_general A B C D pA pB pC pD upA upB upC upD a f a f M M zA zB zC zD El E2 El E2 HA HB HC HD UA UB UC UD DA DB DC DD
    (fun X => shape X = [3%nat; 1%nat] /\ nancol X 0) [WPathsEqual]) as (ws & r & E & H & V & F).
  { intros X1 X2 Y1 Y2 H1 H2 H3 H4. destruct (C17_undefined_intersection _ _ _ _ _ _ _ _ H1 H2 H3 H4) as [K _]. exact (K Dc). }
  rewrite E. cbn [fst]. split; [apply in_or_app; right; left; reflexivity|]. exists r. split; [reflexivity|exact H].
Qed.

(** if the crossing points are 90 degrees from A, the answer is the zero vector: no position at all *)
Theorem C67_perpendicular_refuted : forall A B C D pA pB pC pD upA upB upC upD a f M zA zB zC zD,
  ellipsoid a f -> ecc2 f <= 1 / 2 ->
  placed A 1 pA upA a f M -> placed B 1 pB upB a f M -> placed C 1 pC upC a f M -> placed D 1 pD upD a f M ->
  unit_normals A 1 -> unit_normals B 1 -> unit_normals C 1 -> unit_normals D 1 ->
  let a1 := upA 0%nat in let a2 := upB 0%nat in let b1 := upC 0%nat in let b2 := upD 0%nat in
  at_depth a f M a1 zA (pA 0%nat) -> at_depth a f M a2 zB (pB 0%nat) -> at_depth a f M b1 zC (pC 0%nat) -> at_depth a f M b2 zD (pD 0%nat) ->
  distinct_circles a1 a2 b1 b2 -> vdot (vcross (vcross a1 a2) (vcross b1 b2)) a1 = 0 ->
  ends_with (path_intersect (GeoPath A B) (GeoPath C D)) (fun r => cols (n_normal r) 1 (fun _ => v0)).
Proof.
  intros A B C D pA pB pC pD upA upB upC upD a f M zA zB zC zD El E2 HA HB HC HD UA UB UC UD a1 a2 b1 b2 DA DB DC DD Dc N.
  destruct (intersect_general A B C D pA pB pC pD upA upB upC upD a f a f M M zA zB zC zD El E2 El E2 HA HB HC HD UA UB UC UD DA DB DC DD
    (fun X => cols X 1 (fun _ => v0)) []) as (ws & r & E & H & V & F).
  { intros X1 X2 Y1 Y2 H1 H2 H3 H4. exact (proj1 (C16_perpendicular_refuted _ _ _ _ _ _ _ _ H1 H2 H3 H4 Dc N)). }
  exists r. split; [unfold ends; rewrite E; reflexivity|exact H].
Qed.

(** ** C68: GeoPath.closest_point_on_great_circle *)
Theorem C68_closest_point_partial : forall A B P pA pB pP upA upB upP a f M zA zB,
  ellipsoid a f -> ecc2 f <= 1 / 2 ->
  placed A 1 pA upA a f M -> placed B 1 pB upB a f M -> placed P 1 pP upP a f M ->
  unit_normals A 1 -> unit_normals B 1 -> unit_normals P 1 ->
  let a1 := upA 0%nat in let a2 := upB 0%nat in let b := upP 0%nat in
  at_depth a f M a1 zA (pA 0%nat) -> at_depth a f M a2 zB (pB 0%nat) ->
  vcross a1 a2 <> v0 -> vcross b (vcross a1 a2) <> v0 ->   (* P is not a pole of the great circle *)
  ends_with (path_closest_point_on_great_circle (GeoPath A B) P) (fun h => exists p up,
    placed (PGeo h) 1 p up a f M /\ on_circle a1 a2 (up 0%nat) /\
    at_depth a f M (up 0%nat) ((zA + zB) / 2) (p 0%nat) /\
    (forall q, on_circle a1 a2 q -> angle b (up 0%nat) <= angle b q) /\
    (forall q, on_circle a1 a2 q -> angle b q = angle b (up 0%nat) -> q = up 0%nat)).
Proof.
  intros A B P pA pB pP upA upB upP a f M zA zB El E2 HA HB HP UA UB UP a1 a2 b DA DB Z NP.
  destruct (closest_nv (fun _ _ _ _ _ _ _ => raise ValueError) A B P pA pB pP upA upB upP a f M El E2 HA HB HP UA UB UP Z NP)
    as (ws & c & p & z & yA & yB & Ec & Hc & Ez & Sz & PA & PB & Op & Pp & Mp & Kp & _).
  fold a1 a2 b in PA, PB, Op, Pp, Mp, Kp.
  destruct (placed_frame _ _ _ _ _ _ _ HA) as (HM & _). pose proof El as [Pa [F0 F1]].
  destruct (nvector_at _ _ _ _ _ _ _ El E2 HA UA DA) as (_ & _ & _ & _ & _ & U1). fold a1 in U1.
  destruct (nvector_at _ _ _ _ _ _ _ El E2 HB UB DB) as (_ & _ & _ & _ & _ & U2). fold a2 in U2.
  assert (yA = zA). { apply (at_depth_z a f M a1 _ _ (pA 0%nat)); auto. rewrite PA. apply at_depth_pos; auto. apply vnorm_inv; auto. }
  assert (yB = zB). { apply (at_depth_z a f M a2 _ _ (pB 0%nat)); auto. rewrite PB. apply at_depth_pos; auto. apply vnorm_inv; auto. }
  subst yA yB.
  assert (Pl : placed (PNv c) 1 (fun _ => pos a f M p z) (fun _ => p) a f M).
  { exists (fun _ => p), (fun _ => z). split; auto. intros j Hj. split; auto. rewrite direction_of_unit by apply Op. split; auto.
    apply at_depth_pos; auto. apply vnorm_inv, Op. }
  destruct (to_geo_placed _ _ _ _ _ _ _ Pl El E2) as (h & Eh & Hh).
  exists h. split. { unfold ends, path_closest_point_on_great_circle. rewrite Ec, bind_inl. exact Eh. }
  exists (fun _ => pos a f M p z), (fun _ => p). split; auto. split; auto. split. { rewrite <- Ez. apply at_depth_pos; auto. apply vnorm_inv, Op. }
  split; auto. intros q Oq Aq.
  destruct (to_nvector_unit _ _ _ _ _ _ _ HP El E2 UP) as (w3 & vp & zP & _ & _ & Ca & _).
  destruct (Ca 0%nat ltac:(lia)) as (Ub & _). fold b in Ub.
  assert (Q : vdot b q = vdot b p).
  { rewrite <- !cos_angle_unit by (auto; first [apply Oq|apply Op]). rewrite Aq. reflexivity. }
  rewrite (Kp q (proj2 Oq)), (vdot_comm b p) in Q.
  assert (D1 : vdot p q = 1) by (apply Rmult_eq_reg_l with (vdot p b); lra).
  symmetry. apply vdot_unit_1; auto; [apply Op|apply Oq].
Qed.

(** for a pole of the great circle (all its points are equally near) the result is not on the circle *)
Theorem C68_pole_refuted : forall A B P pA pB pP upA upB upP a f M zA zB,
  ellipsoid a f -> ecc2 f <= 1 / 2 ->
  placed A 1 pA upA a f M -> placed B 1 pB upB a f M -> placed P 1 pP upP a f M ->
  unit_normals A 1 -> unit_normals B 1 -> unit_normals P 1 ->
  let a1 := upA 0%nat in let a2 := upB 0%nat in let b := upP 0%nat in
  at_depth a f M a1 zA (pA 0%nat) -> at_depth a f M a2 zB (pB 0%nat) ->
  vcross a1 a2 <> v0 -> vcross b (vcross a1 a2) = v0 ->
  ends_with (path_closest_nv (GeoPath A B) P) (fun c => exists p, cols (n_normal c) 1 (fun _ => p) /\ ~ on_circle a1 a2 p).
Proof.
  intros A B P pA pB pP upA upB upP a f M zA zB El E2 HA HB HP UA UB UP a1 a2 b DA DB Z NP.
  destruct (nvector_at _ _ _ _ _ _ _ El E2 HA UA DA) as (w1 & v1 & E1 & C1 & V1 & _).
  destruct (nvector_at _ _ _ _ _ _ _ El E2 HB UB DB) as (w2 & v2 & E2x & C2 & V2 & _).
  destruct (to_nvector_unit _ _ _ _ _ _ _ HP El E2 UP) as (w3 & vp & zP & Ep & (_ & CP & _) & Cp & _).
  destruct (Cp 0%nat ltac:(lia)) as (Ub & _). apply cols_1 in CP. fold b in CP, Ub.
  destruct (half_sum_spec _ _ _ _ V1 V2) as (h & Eh & Vh).
  destruct (C20_pole_refuted _ _ _ _ _ _ C1 C2 CP Z Ub NP) as (p & (C & EC & HC) & N).
  eexists. split.
  { unfold ends, path_closest_nv, path_nvectors. cbn [gp_a gp_b]. rewrite Ep, bind_inl, E1, bind_inl, E2x, bind_inl. cbn [ret fst snd]. rewrite bind_inl.
    cbv beta iota. rewrite Eh, bind_ret, EC, bind_inl. unfold Nvector, default_frame. rewrite bind_ret. reflexivity. }
  exists p. split; auto.
Qed.

(** ** C69: Nvector.mean *)
Definition rtotal (n : nat) (z : nat -> R) : R := fold_right Rplus 0 (map z (seq 0 n)).
Lemma rtotal_rsum n z : rtotal n z = rsum n z.
Proof.
  unfold rtotal. induction n; [reflexivity|]. rewrite seq_S, map_app, fold_right_app. cbn [map fold_right rsum].
  rewrite Rplus_0_r. rewrite <- IHn. cbn [Nat.add]. generalize (map z (seq 0 n)). intros l.
  induction l; cbn [fold_right]; [ring|]. rewrite IHl. ring.
Qed.
Lemma rsum_const n c : rsum n (fun _ => c) = INR n * c.
Proof. induction n; [simpl; ring|]. rewrite S_INR. cbn [rsum]. rewrite IHn. ring. Qed.

Lemma mean_vals x n z : (0 < n)%nat -> vals x n z -> mean x ≈ rtotal n z / INR n.
Proof.
  intros Hn H. rewrite rtotal_rsum. unfold mean.
  assert (Sz : size x = n /\ forall i, (i < n)%nat -> get x (unravel (shape x) i) ≈ z i).
  { destruct H as [[-> [S G]]|[S G]]; unfold size; rewrite S; cbn [prod fold_right].
    - split; [reflexivity|]. intros i Hi. assert (i = 0%nat) by lia. subst. exact G.
    - split; [lia|]. intros i Hi. replace (unravel [n] i) with [i]; [auto|]. cbn [unravel prod fold_right]. rewrite Nat.div_1_r. reflexivity. }
  destruct Sz as [-> G]. apply fin_div; [apply nsum_rsum; exact G|apply fin_Fin|]. apply not_0_INR. lia.
Qed.

Theorem C69_mean : forall v n u z a f M, is_nv v n u z a f M ->
  let sum := vsum (map u (seq 0 n)) in sum <> v0 ->
  ends_with (nv_mean v) (fun r => exists c,
    is_nv r 1 (fun _ => c) (fun _ => rtotal n z / INR n) a f M /\
    shape (n_z r) = [] /\ n_frame r = n_frame v /\
    vnorm c = 1 /\ same_direction c sum /\
    (* nearest to all positions together *)
    ((forall j, (j < n)%nat -> vnorm (u j) = 1) -> forall p, vnorm p = 1 ->
       rtotal n (fun j => cos (angle p (u j))) <= rtotal n (fun j => cos (angle c (u j))))).
Proof.
  intros v n u z a f M (Hn & C & Nz & Sz & F) sum Hs.
  set (l := map u (seq 0 n)) in *. assert (Ll : length l = n) by (unfold l; rewrite map_length, seq_length; reflexivity).
  assert (Hl : cols (n_normal v) (length l) (fun j => nth j l v0)).
  { rewrite Ll. split; [apply C|]. intros j Hj. replace (nth j l v0) with (u j); [apply C; auto|].
    unfold l. rewrite (nth_indep _ v0 (u 0%nat)) by (fold l; lia). rewrite map_nth, seq_nth by auto. reflexivity. }
  destruct (C26_mean_is_unit_sum _ l Hl Hs) as (X & EX & c & Hc & Uc & Dc & _ & Opt).
  destruct (spread_widths _ _ _ Sz) as (k & r & Vz & Hk & Dk & Ez).
  assert (Hk0 : (0 < k)%nat) by (destruct Hk; lia).
  pose proof (mean_vals _ _ _ Hk0 Vz) as Mz.
  assert (Q : rtotal k r / INR k = rtotal n z / INR n).
  { rewrite !rtotal_rsum. destruct Hk as [-> | ->].
    - replace (rsum n z) with (rsum n (fun _ => r 0%nat)).
      + rewrite rsum_const. cbn [rsum]. change (INR 1) with 1. field. apply not_0_INR; lia.
      + clear - Ez. assert (E : forall m, (m <= n)%nat -> rsum m (fun _ => r 0%nat) = rsum m z).
        { induction m; intros Hm; [reflexivity|]. cbn [rsum]. rewrite IHm by lia. rewrite (Ez m) by lia. unfold cl. cbn. reflexivity. }
        apply E; lia.
    - f_equal. clear - Ez. assert (E : forall m, (m <= n)%nat -> rsum m r = rsum m z).
      { induction m; intros Hm; [reflexivity|]. cbn [rsum]. rewrite IHm by lia. rewrite (Ez m), cl_id by lia. reflexivity. }
      apply E; lia. }
  rewrite Q in Mz.
  eexists. split. { unfold ends, nv_mean. rewrite EX, bind_inl. unfold Nvector, default_frame. rewrite bind_ret. reflexivity. }
  exists c. cbn [n_z n_frame n_normal].
  split. { split; [lia|]. split; [exact Hc|]. split; [intros; apply vnorm_inv; auto|]. split; [|exact F]. apply spread_scalar. split; [reflexivity|exact Mz]. }
  split; [reflexivity|]. split; [reflexivity|]. split; auto. split; auto.
  intros Hu p Hp. unfold rtotal. specialize (Opt ltac:(intros q Hq; unfold l in Hq; apply in_map_iff in Hq as (j & <- & Hj); apply in_seq in Hj; apply Hu; lia) p Hp).
  unfold l in Opt. rewrite !map_map in Opt. exact Opt.
Qed.

(** ** C70: Nvector.unit changes the stored n-vectors to unit length and nothing else *)
Theorem C70_unit_in_place : forall v n u z a f M, is_nv v n u z a f M ->
  ends_with (nv_unit_inplace v) (fun r =>
    cols (n_normal r) n (fun j => direction (u j)) /\ n_z r = n_z v /\ n_frame r = n_frame v /\
    unit_normals (PNv r) n /\
    (* the same positions *)
    (forall p, is_point (PNv v) n p a f M -> is_point (PNv r) n p a f M) /\
    (* doing it again changes nothing *)
    ends_with (nv_unit_inplace r) (fun s => cols (n_normal s) n (fun j => direction (u j)) /\ n_z s = n_z r /\ n_frame s = n_frame r)).
Proof.
  assert (G : forall A n u, cols A n u -> (forall j, (j < n)%nat -> u j <> v0) -> exists C, nv_unit A (Fin 1) = ret C /\ cols C n (fun j => direction (u j))).
  { intros A n u C N. destruct (unit_spec _ _ _ (Fin 1) C) as (X & EX & SX & GX). exists X. split; auto. split; auto. intros j Hj. apply GX; auto. }
  intros v n u z a f M (Hn & C & Nz & Sz & F).
  destruct (G _ _ _ C Nz) as (X & EX & CX).
  assert (Nd : forall j, (j < n)%nat -> direction (u j) <> v0) by (intros j Hj; apply vnorm_inv, direction_unit, Nz, Hj).
  destruct (G _ _ _ CX Nd) as (Y & EY & CY).
  exists (MkNv X (n_z v) (n_frame v)). split; [unfold ends, nv_unit_inplace; rewrite EX, bind_ret; reflexivity|].
  cbn [n_normal n_z n_frame]. split; auto. split; auto. split; auto.
  split. { intros j w Hj Hw. cbn [n_normal] in Hw. rewrite (vcol_unique _ _ _ _ Hw (proj2 CX j Hj)). apply direction_unit, Nz, Hj. }
  split.
  - intros p (u' & z' & (_ & C' & N' & S' & F') & D'). exists (fun j => direction (u j)), z'. split.
    + split; auto. 
    + intros j Hj. destruct (D' j Hj) as (s & O & Dr & E). rewrite (vcol_unique _ _ _ _ (proj2 C' j Hj) (proj2 C j Hj)) in *.
      exists s. split; auto. split.
      * destruct Dr as (c & Pc & Ec). pose proof (vnorm_nz _ (Nz j Hj)) as Pn. exists (c * vnorm (u j)). split; [apply Rmult_lt_0_compat; auto|].
        rewrite Ec. unfold direction, vscale; cbn [Spec.vx Spec.vy Spec.vz]. f_equal; field; lra.
      * rewrite direction_of_unit by (apply direction_unit, Nz, Hj). exact E.
  - exists (MkNv Y (n_z v) (n_frame v)). split; [unfold ends, nv_unit_inplace; cbn [n_normal n_z n_frame]; rewrite EY, bind_ret; reflexivity|].
    cbn [n_normal n_z n_frame]. split; auto. split; [apply CY|]. intros j Hj. 
    rewrite <- (direction_of_unit (direction (u j))) by (apply direction_unit, Nz, Hj). apply CY; auto.
Qed.

(** ** C71: mixed frames: interpolate refuses them *)
Theorem C71_interpolate_refuses : forall A B pA pB upA upB a f M a' f' M' ti,
  ellipsoid a f -> ecc2 f <= 1 / 2 -> ellipsoid a' f' -> ecc2 f' <= 1 / 2 ->
  placed A 1 pA upA a f M -> placed B 1 pB upB a' f' M' ->
  ~ frames_close a' f' M' a f M -> raises (path_interpolate (GeoPath A B) ti) ValueError.
Proof.
  intros A B pA pB upA upB a f M a' f' M' ti El E2 El' E2' HA HB N.
  destruct (to_nvector_placed _ _ _ _ _ _ _ HA El E2) as (wa & va & uA & zA & Ea & (_ & _ & _ & _ & FA) & _).
  destruct (to_nvector_placed _ _ _ _ _ _ _ HB El' E2') as (wb & vb & uB & zB & Eb & (_ & _ & _ & _ & FB) & _).
  destruct (check_frames_spec _ _ _ _ _ _ _ _ FB FA) as [_ C]. specialize (C N).
  unfold raises, path_interpolate, path_nvectors. cbn [gp_a gp_b]. rewrite Ea, bind_inl, Eb, bind_inl. cbn [ret fst snd]. rewrite bind_inl.
  cbv beta iota. unfold nv_sub. rewrite C, !bind_raise. reflexivity.
Qed.
(** ... but intersect does not look at them: paths on two different ellipsoids with different axes are
    intersected as if their n-vectors were in one frame *)
Theorem C71_intersect_mixed_frames_refuted : forall A B C D pA pB pC pD upA upB upC upD a f a' f' M M' zA zB zC zD,
  ellipsoid a f -> ecc2 f <= 1 / 2 -> ellipsoid a' f' -> ecc2 f' <= 1 / 2 ->
  placed A 1 pA upA a f M -> placed B 1 pB upB a f M -> placed C 1 pC upC a' f' M' -> placed D 1 pD upD a' f' M' ->
  unit_normals A 1 -> unit_normals B 1 -> unit_normals C 1 -> unit_normals D 1 ->
  let a1 := upA 0%nat in let a2 := upB 0%nat in let b1 := upC 0%nat in let b2 := upD 0%nat in
  at_depth a f M a1 zA (pA 0%nat) -> at_depth a f M a2 zB (pB 0%nat) -> at_depth a' f' M' b1 zC (pC 0%nat) -> at_depth a' f' M' b2 zD (pD 0%nat) ->
  distinct_circles a1 a2 b1 b2 ->
  ~ frames_close a f M a' f' M' ->
  ends_with (path_intersect (GeoPath A B) (GeoPath C D)) (fun r => exists p,
    cols (n_normal r) 1 (fun _ => p) /\ vals (n_z r) 1 (fun _ => (zA + zB + zC + zD) / 4) /\ is_frame (n_frame r) a f M).
Proof.
  intros A B C D pA pB pC pD upA upB upC upD a f a' f' M M' zA zB zC zD El E2 El' E2' HA HB HC HD UA UB UC UD a1 a2 b1 b2 DA DB DC DD Dc _.
  destruct (intersect_general A B C D pA pB pC pD upA upB upC upD a f a' f' M M' zA zB zC zD El E2 El' E2' HA HB HC HD UA UB UC UD DA DB DC DD
    (fun X => exists p, cols X 1 (fun _ => p)) []) as (ws & r & E & (p & H) & V & F).
  { intros X1 X2 Y1 Y2 H1 H2 H3 H4. destruct (C17_undefined_intersection _ _ _ _ _ _ _ _ H1 H2 H3 H4) as [_ K]. exact (K Dc). }
  exists r. split; [unfold ends; rewrite E; reflexivity|]. exists p. auto.
Qed.

Example C66_example : let u1 := V 1 0 0 in let u2 := V 0 1 0 in let u3 := V 0 0 1 in
  (exists p, placed (ex_at u1) 1 p (fun _ => u1) 6378137 (/ 298) Me /\ at_depth 6378137 (/ 298) Me u1 0 (p 0%nat)) /\
  unit_normals (ex_at u1) 1 /\ vcross u1 u2 <> v0 /\ angle u1 u2 = PI / 2 /\
  vals (arr1 [0; / 2; 1]) 3 (fun j => nth j [0; / 2; 1] 0) /\
  distinct_circles u1 u2 u3 u1 /\ vdot (vcross (vcross u1 u2) (vcross u3 u1)) u1 <> 0 /\ ~ distinct_circles u1 u2 u2 u1 /\
  ~ frames_close 6378138 (/ 298) Me 6378137 (/ 298) Me /\
  is_nv (MkNv (arr3 [u1; u2]) (arr1 [10; 20]) ex_frame) 2 (fun j => nth j [u1; u2] v0) (fun j => nth j [10; 20] 0) 6378137 (/ 298) Me /\
  vsum (map (fun j => nth j [u1; u2] v0) (seq 0 2)) <> v0.
Proof.
  cbv zeta. assert (U : vnorm (V 1 0 0) = 1) by (unfold vnorm, vdot; cbn; replace (1 * 1 + 0 * 0 + 0 * 0) with 1 by ring; apply sqrt_1).
  assert (U2 : vnorm (V 0 1 0) = 1) by (unfold vnorm, vdot; cbn; replace (0 * 0 + 1 * 1 + 0 * 0) with 1 by ring; apply sqrt_1).
  destruct ex_ellipsoid as (Pa & F0 & F1). pose proof ex_frame_ok as HF.
  split. { destruct (placed_ex _ U) as [(p & Hp) _]. exists p. split; auto.
    destruct Hp as (u & z & (_ & C & _ & Sz & _) & D). destruct (D 0%nat ltac:(lia)) as (_ & _ & D0). apply spread_1 in Sz.
    assert (V0 : vals (scal (Fin 0)) 1 (fun _ => 0)) by (left; split; auto; split; reflexivity).
    rewrite (vals1_unique _ _ _ Sz V0) in D0. exact D0. }
  split; [apply placed_ex; auto|].
  split. { unfold vcross, v0; cbn [Spec.vx Spec.vy Spec.vz]. intros E. injection E. lra. }
  split. { unfold angle. rewrite U, U2. replace (vdot (V 1 0 0) (V 0 1 0) / (1 * 1)) with 0 by (unfold vdot; cbn [Spec.vx Spec.vy Spec.vz]; field). apply acos_0. }
  split; [right; apply (arr1_list1 [0; / 2; 1])|].
  split; [apply C16_example|]. split; [apply C16_example|]. split; [apply C17_example|].
  split. { intros H. apply frames_close_sym in H. destruct C44_example as [K _]. auto. }
  split.
  - split; [lia|]. split; [apply (arr3_cols [V 1 0 0; V 0 1 0])|]. split.
    { intros [|[|]] Hj; cbn [nth]; [apply vnorm_inv; auto|apply vnorm_inv; auto|lia]. }
    split; [|exact HF]. apply spread_vals. right. apply (arr1_list1 [10; 20]).
  - cbn. unfold vadd, v0; cbn [Spec.vx Spec.vy Spec.vz]. intros E. injection E. lra.
Qed.
