(** * lat_lon2n_E and n_E2lat_lon *)
From Coq Require Import List Arith Lia Bool Reals Lra.
From Verif Require Import Num Py Nd MUtil MRotation MCore Spec SpecArr LNum LTrig LVec LArr.
Import ListNotations.
Local Open Scope R_scope.

(** internal axes: x towards the North pole *)
Definition nvec_int (lat lon : R) : vec :=
  V (sin lat) (sin lon * cos lat) (- (cos lon) * cos lat).

Lemma nvec_int_unit lat lon : vdot (nvec_int lat lon) (nvec_int lat lon) = 1.
Proof.
  unfold nvec_int, vdot; cbn [vx vy vz].
  pose proof (sin2_cos2 lat) as A. pose proof (sin2_cos2 lon) as B. unfold Rsqr in *. nra.
Qed.

Lemma lat_lon2n_E_spec lat lon R_Ee M n m la lo :
  axes R_Ee M -> vals lat n la -> vals lon m lo -> bdim n m = Some n ->
  exists A, lat_lon2n_E lat lon R_Ee = ret A /\
            cols A n (fun j => mulv (mT M) (nvec_int (la j) (lo (cl m j)))).
Proof.
  intros HR Hla Hlo D. unfold lat_lon2n_E.
  step (default_R_axes _ _ HR) Rm HRm.
  pose proof (vals_map1 nsin sin _ _ _ fin_sin Hla) as Hsl.
  pose proof (vals_map1 ncos cos _ _ _ fin_cos Hla) as Hcl.
  pose proof (vals_map1 nsin sin _ _ _ fin_sin Hlo) as Hso.
  pose proof (vals_map1 (fun l => nneg (ncos l)) (fun t => - cos t) _ _ _
                (fun x p H => fin_neg _ _ (fin_cos _ _ H)) Hlo) as Hco.
  rewrite bdim_comm in D.
  destruct (map2_vals nmul Rmult any _ _ _ _ _ _ _ (fun x y a b Hx Hy _ => fin_mul x y a b Hx Hy) Hso Hcl D)
    as (B1 & E1 & HB1); [unfold any; auto|]. rewrite E1, bind_ret; clear E1.
  destruct (map2_vals nmul Rmult any _ _ _ _ _ _ _ (fun x y a b Hx Hy _ => fin_mul x y a b Hx Hy) Hco Hcl D)
    as (B2 & E2 & HB2); [unfold any; auto|]. rewrite E2, bind_ret; clear E2.
  step (vstack3_vals _ _ _ _ _ _ _ Hsl HB1 HB2) N HN.
  destruct (dot_mat_cols _ _ _ _ _ (is_mat_transpose _ _ HRm) HN) as (A & E & HA).
  exists A; split; auto. eapply cols_ext; [|apply HA]. intros j Hj. simpl.
  rewrite (cl_id n j Hj). reflexivity.
Qed.

(** n_E2lat_lon: latitude and longitude are arguments of the rotated vector *)
Definition lat_of (q : vec) (t : R) : Prop := arg_of (vx q) (sqrt (vy q * vy q + vz q * vz q)) t.
Definition lon_of (q : vec) (t : R) : Prop := arg_of (vy q) (- vz q) t.

Lemma n_E2lat_lon_spec A n u R_Ee M :
  axes R_Ee M -> cols A n u -> (0 < n)%nat ->
  exists la lo, n_E2lat_lon A R_Ee = (length_warning (vnorm (u 0%nat)), inl (la, lo)) /\
    list1P la n (fun j => lat_of (mulv M (u j))) /\
    list1P lo n (fun j => lon_of (mulv M (u j))).
Proof.
  intros HR HA Hn. unfold n_E2lat_lon.
  step (default_R_axes _ _ HR) Rm HRm.
  rewrite (cld_spec _ _ _ HA Hn), bind_inl.
  step (dot_mat_cols _ _ _ _ _ HRm HA) Q HQ.
  destruct (row_cols _ _ _ HQ) as (H0 & H1 & H2).
  step H0 q0 Hq0. step H1 q1 Hq1. step H2 q2 Hq2.
  destruct (map2_list1P narctan2 q1 (map1 nneg q2) n _ _ (fun j => lon_of (mulv M (u j))) Hq1
              (list1_map1 nneg Ropp _ _ _ fin_neg Hq2)) as (LO & E & HLO).
  { intros j x y Hj Hx Hy. apply narctan2_arg; auto. }
  rewrite E, bind_ret; clear E.
  destruct (map2_list1 (fun a b => nadd (nmul a a) (nmul b b)) (fun a b => a * a + b * b) q1 q2 n _ _ Hq1 Hq2)
    as (E2 & EE & HE2).
  { intros j x y Hj Hx Hy. fin. }
  rewrite EE, bind_ret; clear EE.
  assert (HS : list1 (map1 nsqrt E2) n (fun j => sqrt (vy (mulv M (u j)) * vy (mulv M (u j)) + vz (mulv M (u j)) * vz (mulv M (u j))))).
  { destruct HE2 as [S C]. split; auto. intros j Hj. unfold map1; cbn [get].
    apply fin_sqrt; [apply C; auto|]. nra. }
  destruct (map2_list1P narctan2 q0 (map1 nsqrt E2) n _ _ (fun j => lat_of (mulv M (u j))) Hq0 HS) as (LA & E & HLA).
  { intros j x y Hj Hx Hy. apply narctan2_arg; auto. }
  rewrite E, bind_ret; clear E.
  exists LA, LO. split; [|split; auto]. unfold ret; cbn [fst snd]. rewrite app_nil_r. reflexivity.
Qed.

(** the angles determine the direction *)
Lemma sqrt2_sq a b : sqrt (a * a + b * b) * sqrt (a * a + b * b) = a * a + b * b.
Proof. apply sqrt_sqrt. nra. Qed.

Lemma lat_lon_direction q la lo : q <> v0 -> lat_of q la -> lon_of q lo ->
  nvec_int la lo = direction q.
Proof.
  intros Hq (Bla & Ex & Ey) (Blo & Ex' & Ey').
  replace (- vz q * - vz q) with (vz q * vz q) in Ex', Ey' by ring.
  replace (vz q * vz q + vy q * vy q) with (vy q * vy q + vz q * vz q) in Ex', Ey' by ring.
  rewrite sqrt2_sq in Ex, Ey.
  replace (vy q * vy q + vz q * vz q + vx q * vx q) with (vdot q q) in Ex, Ey by (unfold vdot; ring).
  fold (vnorm q) in Ex, Ey. set (e := sqrt (vy q * vy q + vz q * vz q)) in *.
  pose proof (vnorm_nz q Hq) as P.
  assert (C : cos la = e / vnorm q) by (rewrite Ex; field; lra).
  assert (S : sin la = vx q / vnorm q) by (rewrite Ey; field; lra).
  unfold nvec_int, direction, vscale. rewrite S, C. f_equal.
  - field; lra.
  - transitivity (/ vnorm q * (e * sin lo)); [field; lra|]. rewrite <- Ey'. reflexivity.
  - replace (vz q) with (- (e * cos lo)) by lra. field; lra.
Qed.

Lemma lat_of_range q t : q <> v0 -> lat_of q t -> - (PI / 2) <= t <= PI / 2.
Proof.
  intros Hq H. eapply arg_of_right; [| |apply H].
  - apply sqrt_pos.
  - rewrite sqrt2_sq. pose proof (vdot_nz q Hq). unfold vdot in *. lra.
Qed.
Lemma lon_of_range q t : lon_of q t -> - PI <= t <= PI.
Proof. intros [H _]; auto. Qed.

(** recovery of the angles *)
Lemma lat_recover lat lon t : - (PI / 2) <= lat <= PI / 2 ->
  lat_of (nvec_int lat lon) t -> t = lat.
Proof.
  intros Hl H. unfold lat_of, nvec_int in H; cbn [vx vy vz] in H.
  pose proof PI_RGT_0.
  assert (C : 0 <= cos lat) by (apply cos_ge_0; lra).
  replace (sqrt (sin lon * cos lat * (sin lon * cos lat) + - cos lon * cos lat * (- cos lon * cos lat)))
    with (cos lat) in H.
  - apply (arg_of_polar 1); [lra|lra|]. rewrite !Rmult_1_l. auto.
  - replace (sin lon * cos lat * (sin lon * cos lat) + - cos lon * cos lat * (- cos lon * cos lat))
      with (cos lat * cos lat).
    + symmetry. apply sqrt_square; auto.
    + pose proof (sin2_cos2 lon) as E. unfold Rsqr in E.
      transitivity (cos lat * cos lat * (sin lon * sin lon + cos lon * cos lon)); [rewrite E; ring|ring].
Qed.
Lemma lon_recover lat lon t : - (PI / 2) < lat < PI / 2 -> - PI < lon < PI ->
  lon_of (nvec_int lat lon) t -> t = lon.
Proof.
  intros Hl Hlo H. unfold lon_of, nvec_int in H; cbn [vx vy vz] in H.
  assert (C : 0 < cos lat) by (apply cos_gt_0; lra).
  apply (arg_of_polar (cos lat)); auto.
  replace (cos lat * sin lon) with (sin lon * cos lat) by ring.
  replace (cos lat * cos lon) with (- (- cos lon * cos lat)) by ring. auto.
Qed.
