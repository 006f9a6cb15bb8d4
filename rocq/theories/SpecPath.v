(** * What it means for boolean arrays to hold given answers, and for a path to have a radius *)
From Coq Require Import List Arith Bool Reals.
From Verif Require Import Num Py Nd MUtil MRotation MCore MObjects Spec SpecArr SpecObj SpecGeo.
Import ListNotations.
Local Open Scope R_scope.

(** [x] is a boolean scalar (then n = 1) or a boolean list of length n; entry j is true exactly when P j *)
Definition answer (x : arr bool) (n : nat) (P : nat -> Prop) : Prop :=
  (n = 1%nat /\ shape x = [] /\ (get x [] = true <-> P 0%nat)) \/
  (shape x = [n] /\ forall j, (j < n)%nat -> (get x [j] = true <-> P j)).

(** the radius used for [m] query points against one path from pA to pB: the given one (a scalar or a
    list of length 1 or m), or else the mean of the distances of the two ends from the Earth's centre *)
Definition radii (radius : option (arr num)) (m : nat) (pA pB : vec) (r : nat -> R) : Prop :=
  match radius with
  | None => forall j, (j < m)%nat -> r j = (vnorm pA + vnorm pB) / 2
  | Some x => spread x m r
  end.

(** no array was involved in the choice of the radius *)
Definition scalar_radius (radius : option (arr num)) (A B : point) : bool :=
  match radius with None => is_scalar_point A && is_scalar_point B | Some x => (ndim x =? 0)%nat end.

(** the external solver, called with numbers denoting these reals (degrees), answers the distance s
    and the azimuth az (degrees) at the first point *)
Definition solves (gi : solver) (a f la1 lo1 la2 lo2 s az : R) : Prop :=
  forall xa xf x1 x2 x3 x4, xa ≈ a -> xf ≈ f -> x1 ≈ la1 -> x2 ≈ lo1 -> x3 ≈ la2 -> x4 ≈ lo2 ->
    ends_with (gi xa xf x1 x2 x3 x4 false) (fun t => fst (fst t) ≈ s /\ snd (fst t) ≈ az).

(** a GeoPoint of scalars *)
Definition is_geo1 (g : geoPoint) (la lo z a f : R) (M : mat) : Prop :=
  scalar (g_lat g) la /\ scalar (g_lon g) lo /\ scalar (g_z g) z /\ is_frame (g_frame g) a f M.
