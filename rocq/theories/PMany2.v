(** * C96: GeoPath.closest_point_on_path and closest_point_on_great_circle for several query positions *)
From Coq Require Import List Arith Lia Bool Reals Lra Psatz String Ascii.
From Verif Require Import Num Py Nd MUtil MRotation MCore MObjects Spec SpecArr SpecObj SpecGeo LNum LTrig LVec LArr LLatLon LMat LRot LAngle LDist PDist PUtil LCircle PCircle PTrack PArc LEq LEcef PEcef PRot PFrame PEq LObj PEq2 LDirect PDirect LObj2 PObj PObj2 POps PGeod LGreat PGreat PPath PClosest PMany.
Import ListNotations.
Local Open Scope R_scope.

(** shape of the answer of on_great_circle_path, whatever (finite) positions it is asked about *)
Lemma map2_nm {X Y Z0} (f : X -> Y -> Z0) (A : arr X) (B : arr Y) n m k : shape A = [n] -> shape B = [m] -> bdim n m = Some k -> exists C, map2 f A B = ret C /\ shape C = [k].
Proof. intros SA SB D. unfold map2. rewrite SA, SB, (bshape_n_m _ _ _ D). eexists; split; reflexivity. Qed.
Lemma map2_n0 {X Y Z0} (f : X -> Y -> Z0) (A : arr X) (B : arr Y) n : shape A = [n] -> shape B = [] -> exists C, map2 f A B = ret C /\ shape C = [n].
Proof. intros SA SB. unfold map2. rewrite SA, SB. unfold bshape; cbn [rev app bshape_rev]. eexists; split; reflexivity. Qed.
Lemma vals_shape1 r R0 : vals r 1 (fun _ => R0) -> shape r = [] \/ shape r = [1%nat].
Proof. intros [[_ [S _]]|[S _]]; auto. Qed.

Lemma ogc_shape A1 A2 B m a1 a2 v r R0 t : single A1 a1 -> single A2 a2 -> cols B m v -> vcross a1 a2 <> v0 -> vals r 1 (fun _ => R0) ->
  exists D, on_great_circle (A1, A2) B r t = ret D /\ shape D = [m].
Proof.
  intros H1 H2 HB Z Hr. unfold on_great_circle, cross_track_distance. cbn [fst snd].
  destruct (gcn_cols_nz _ _ _ _ _ _ _ H1 H2 (bdim_refl 1) (fun _ _ => Z)) as (C & E & HC). rewrite E, bind_ret; clear E.
  destruct (dot_T_cols _ _ _ _ _ _ HC HB) as (Dt & E & SD & _). rewrite E, bind_ret; clear E.
  rewrite (method_ok "greatcircle") by discriminate. rewrite bind_ret. change (euclid "greatcircle") with false. cbv iota. unfold great_circle_xtd.
  assert (SR : shape (map1 narcsin (ravel (map1 nneg Dt))) = [m]).
  { unfold map1, ravel, size; cbn [shape]. rewrite SD. unfold prod; cbn [fold_right]. f_equal. lia. }
  destruct (vals_shape1 _ _ Hr) as [S|S].
  - destruct (map2_n0 nmul _ r _ SR S) as (X & E & SX). rewrite E, bind_ret. eexists; split; [reflexivity|exact SX].
  - destruct (map2_nm nmul _ r _ _ m SR S (bdim_1_r m)) as (X & E & SX). rewrite E, bind_ret. eexists; split; [reflexivity|exact SX].
Qed.
Lemma ogcp_shape A1 A2 B m a1 a2 v r R0 t : single A1 a1 -> single A2 a2 -> cols B m v -> vcross a1 a2 <> v0 -> vals r 1 (fun _ => R0) ->
  exists D, on_great_circle_path (A1, A2) B r t = ret D /\ shape D = [m].
Proof.
  intros H1 H2 HB Z Hr. unfold on_great_circle_path.
  step (sub_cols _ _ _ _ _ _ _ H2 H1 (bdim_refl 1)) D12 H12.
  destruct (norm0_cols _ _ _ H12) as (Sc & E & SS & _). rewrite E, bind_ret; clear E.
  step (sub_cols _ _ _ _ _ _ _ HB H1 (bdim_1_r m)) DB1 HB1.
  destruct (norm0_cols _ _ _ HB1) as (N1 & E & S1 & _). rewrite E, bind_ret; clear E.
  destruct (map2_nm ndiv _ _ _ _ m S1 SS (bdim_1_r m)) as (T1 & E & ST1). rewrite E, bind_ret; clear E.
  step (sub_cols _ _ _ _ _ _ _ HB H2 (bdim_1_r m)) DB2 HB2.
  destruct (norm0_cols _ _ _ HB2) as (N2 & E & S2 & _). rewrite E, bind_ret; clear E.
  destruct (map2_nm ndiv _ _ _ _ m S2 SS (bdim_1_r m)) as (T2 & E & ST2). rewrite E, bind_ret; clear E.
  destruct (ogc_shape A1 A2 B m a1 a2 v r R0 t H1 H2 HB Z Hr) as (On & E & SO). rewrite E, bind_ret; clear E.
  destruct (map2_nm andb (map1 (fun t => nle t (Fin 1)) T1) (map1 (fun t => nle t (Fin 1)) T2) m m m ST1 ST2 (bdim_refl m)) as (Bo & E & SB). rewrite E, bind_ret; clear E.
  exact (map2_nm andb Bo On m m m SB SO (bdim_refl m)).
Qed.

Section Many.
Variables (gi : solver) (A B P : point) (pA pB pP upA upB upP : nat -> vec) (a f : R) (M : mat) (m : nat).
Hypothesis El : ellipsoid a f.
Hypothesis E2 : ecc2 f <= 1 / 2.
Hypothesis HA : placed A 1 pA upA a f M.
Hypothesis HB : placed B 1 pB upB a f M.
Hypothesis HP : placed P m pP upP a f M.
Hypothesis UA : unit_normals A 1.
Hypothesis UB : unit_normals B 1.
Hypothesis UP : unit_normals P m.
Let a1 := upA 0%nat.
Let a2 := upB 0%nat.
Hypothesis Z : vcross a1 a2 <> v0.
Hypothesis Hm : (2 <= m)%nat.

Lemma nv_raises : m <> 3%nat -> raises (path_closest_nv (GeoPath A B) P) ValueError.
Proof.
  intros N3. destruct (path_data A B pA pB upA upB a f M El E2 HA HB UA UB) as (w2 & va & vb & zA & zB & Ev & CA & CB & _ & VA & VB & _).
  destruct (to_nvector_unit _ _ _ _ _ _ _ HP El E2 UP) as (w3 & vp & zP & Ep & (_ & CP & _ & _ & FP) & Cp & _).
  unfold path_closest_nv. apply (raises_bind_r _ _ _ vp); [unfold ends; rewrite Ep; reflexivity|].
  apply (raises_bind_r _ _ _ (va, vb)); [unfold ends; rewrite Ev; reflexivity|].
  destruct (half_sum_spec _ _ _ _ VA VB) as (h & Eh & _). rewrite Eh, bind_ret. apply raises_bind_l.
  apply (C20_columns_refuted _ _ _ 1 m m _ _ _ CA CB CP (fun _ _ => Z) (bdim_1_l m) Hm N3).
Qed.

Lemma path_raises : raises (closest_point_on_path gi (GeoPath A B) P) ValueError.
Proof.
  destruct (Nat.eq_dec m 3) as [E3|N3]; [|apply raises_bind_l, nv_raises; auto].
  destruct (path_data A B pA pB upA upB a f M El E2 HA HB UA UB) as (w2 & va & vb & zA & zB & Ev & CA & CB & _ & VA & VB & _).
  destruct (radius_data A B pA pB upA upB a f M El E2 HA HB UA UB) as (w1 & r & R0 & Er & Vr & _).
  destruct (to_nvector_unit _ _ _ _ _ _ _ HP El E2 UP) as (w3 & vp & zP & Ep & (_ & CP & _ & _ & FP) & Cp & _).
  unfold closest_point_on_path. destruct (half_sum_spec _ _ _ _ VA VB) as (h & Eh & Vh).
  rewrite E3 in CP. destruct (closest_3 _ _ _ _ _ _ CA CB CP Z) as (X & EX & HX). cbv zeta in HX.
  apply (raises_bind_r _ _ _ (MkNv X h (n_frame vp))).
  { unfold path_closest_nv, ends. rewrite Ep, bind_inl, Ev, bind_inl, Eh, bind_ret, EX, bind_ret. reflexivity. }
  assert (K : exists ws on, on_path gi (GeoPath A B) (PNv (MkNv X h (n_frame vp))) "greatcircle" rtol6 atol8 = (ws, inl on) /\ shape on = [3%nat]).
  { unfold on_path. change (is_exact "greatcircle") with false. cbv iota. unfold path_on_great_circle_path. cbn [radius_or_average].
    rewrite Er, bind_inl, Ev, bind_inl. cbn [to_nvector]. rewrite !bind_ret, Eh, bind_ret. cbn [n_z n_normal].
    destruct (isclose_flag _ _ _ rtol6 atol8 _ _ false Vh Vh (fin_Fin _) (fin_Fin _)) as (s & Es & Fs).
    { left. apply Rinv_0_lt_compat, pow_lt. lra. }
    rewrite Es, bind_ret. destruct (ogcp_shape _ _ _ _ _ _ _ r R0 atol8 CA CB HX Z Vr) as (on & Eo & So). rewrite Eo, bind_ret.
    assert (Q : exists res, map2 andb on s = ret res /\ shape res = [3%nat]).
    { destruct Fs as [[S _]|[S _]]; [apply (map2_n0 andb on s 3 So S)|apply (map2_nm andb on s 3 1 3 So S (bdim_1_r 3))]. }
    destruct Q as (res & Eres & Sres). rewrite Eres, bind_ret. unfold size. rewrite Sres. change (prod [3%nat] =? 1)%nat with false. rewrite andb_false_r.
    do 2 eexists. split; [reflexivity|exact Sres]. }
  destruct K as (ws & on & Eon & Son). apply (raises_bind_r _ _ _ on); [unfold ends; rewrite Eon; reflexivity|].
  apply raises_bind_l. unfold truth, size. rewrite Son. reflexivity.
Qed.
End Many.

(** a query object holding two or more positions: closest_point_on_path raises, always; closest_point_on_great_circle raises unless there are exactly three *)
Theorem C96_closest_point_on_path_refuted : forall gi A B P pA pB pP upA upB upP a f M m,
  ellipsoid a f -> ecc2 f <= 1 / 2 -> placed A 1 pA upA a f M -> placed B 1 pB upB a f M -> placed P m pP upP a f M ->
  unit_normals A 1 -> unit_normals B 1 -> unit_normals P m -> vcross (upA 0%nat) (upB 0%nat) <> v0 -> (2 <= m)%nat ->
  raises (closest_point_on_path gi (GeoPath A B) P) ValueError /\
  (m <> 3%nat -> raises (path_closest_point_on_great_circle (GeoPath A B) P) ValueError).
Proof.
  intros. split; [eapply (path_raises gi A B P pA pB pP upA upB upP a f M m); auto|]. intros N3. unfold path_closest_point_on_great_circle. apply raises_bind_l.
  apply (nv_raises A B P pA pB pP upA upB upP a f M m); auto.
Qed.
Print Assumptions C96_closest_point_on_path_refuted.
