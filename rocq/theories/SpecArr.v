(** * What it means for an array to hold given real vectors / numbers / matrices *)
From Coq Require Import List Arith Reals.
From Verif Require Import Num Py Nd Spec.
Import ListNotations.
Local Open Scope R_scope.

(** column [j] of a 3 x n array holds the real vector [v] *)
Definition vcol (A : arr num) (j : nat) (v : vec) : Prop :=
  get A [0%nat; j] ≈ vx v /\ get A [1%nat; j] ≈ vy v /\ get A [2%nat; j] ≈ vz v.

(** [A] is a 3 x n array whose column j is [f j], for every j < n *)
Definition cols (A : arr num) (n : nat) (f : nat -> vec) : Prop :=
  shape A = [3%nat; n] /\ forall j, (j < n)%nat -> vcol A j (f j).

(** column [j] is all NaN *)
Definition nancol (A : arr num) (j : nat) : Prop :=
  get A [0%nat; j] = NaN /\ get A [1%nat; j] = NaN /\ get A [2%nat; j] = NaN.

(** [a] is a 1-d array of length n with entries [f j] *)
Definition list1 (a : arr num) (n : nat) (f : nat -> R) : Prop :=
  shape a = [n] /\ forall j, (j < n)%nat -> get a [j] ≈ f j.

(** [a] is a scalar (0-d array) with value r *)
Definition scalar (a : arr num) (r : R) : Prop := shape a = [] /\ get a [] ≈ r.

(** a scalar (then m = 1) or a 1-d array of length m *)
Definition vals (a : arr num) (m : nat) (f : nat -> R) : Prop :=
  (m = 1%nat /\ scalar a (f 0%nat)) \/ list1 a m f.

(** a 3 x 3 array holding the matrix [M] *)
Definition is_mat (A : arr num) (M : mat) : Prop :=
  shape A = [3%nat; 3%nat]
  /\ vcol A 0 (c0 M) /\ vcol A 1 (c1 M) /\ vcol A 2 (c2 M).

(** a 3 x 3 x n array holding the matrices [F j]; for n = 1 a plain 3 x 3 array,
    as produced by np.squeeze *)
Definition scol (A : arr num) (i j : nat) (v : vec) : Prop :=
  get A [0%nat; i; j] ≈ vx v /\ get A [1%nat; i; j] ≈ vy v /\ get A [2%nat; i; j] ≈ vz v.
Definition mats3 (A : arr num) (n : nat) (F : nat -> mat) : Prop :=
  shape A = [3%nat; 3%nat; n]
  /\ forall j, (j < n)%nat -> scol A 0 j (c0 (F j)) /\ scol A 1 j (c1 (F j)) /\ scol A 2 j (c2 (F j)).
Definition mats (A : arr num) (n : nat) (F : nat -> mat) : Prop :=
  (n = 1%nat /\ is_mat A (F 0%nat)) \/ (n <> 1%nat /\ mats3 A n F).

(** The optional R_Ee argument of the API: a 3 x 3 array for the matrix [M];
    omitted, it is the documented default (z axis towards the North pole, x axis
    towards latitude = longitude = 0): row 0 of [M] is then the z axis. *)
Definition Me : mat := Mt (V 0 0 1) (V 0 1 0) (V (-1) 0 0).
Definition ME : mat := mI.
Definition axes (R_Ee : option (arr num)) (M : mat) : Prop :=
  match R_Ee with None => M = Me | Some r => is_mat r M end.

(** the direction of the North pole, in frame E, for the axes matrix [M] *)
Definition north (M : mat) : vec := r0 M.

(** the 3 x n array with the given columns: every family of vectors is the content of an array *)
Definition arr3 (l : list vec) : arr num :=
  Arr [3%nat; length l] (fun ix =>
    let v := nth (at_ ix 1) l v0 in
    match at_ ix 0 with O => Fin (vx v) | 1%nat => Fin (vy v) | _ => Fin (vz v) end).
Lemma arr3_cols l : cols (arr3 l) (length l) (fun j => nth j l v0).
Proof. split; [reflexivity|]. intros j Hj. repeat split. Qed.

(** the 1-d array with the given entries *)
Definition arr1 (l : list R) : arr num := Arr [length l] (fun ix => Fin (nth (at_ ix 0) l 0)).
Lemma arr1_list1 l : list1 (arr1 l) (length l) (fun j => nth j l 0).
Proof. split; [reflexivity|]. intros j Hj. reflexivity. Qed.

(** a 1-d array of length n whose entry j is a finite number satisfying [P j] *)
Definition list1P (a : arr num) (n : nat) (P : nat -> R -> Prop) : Prop :=
  shape a = [n] /\ forall j, (j < n)%nat -> exists t, get a [j] ≈ t /\ P j t.

(** the documented warning for a first column whose length [r] deviates from 1 by more than 0.1 *)
Definition length_warning (r : R) : list warning :=
  if Rlt_dec (1 / 10) (Rabs (r - 1)) then [WLength] else [].

(** numpy's broadcast of three widths *)
Definition bdim3 (a b c : nat) : option nat :=
  match bdim a b with Some d => bdim d c | None => None end.
