(** * Directions on the Earth and well-placed points *)
From Coq Require Import List Arith Reals.
From Verif Require Import Num Py Nd MUtil MRotation MCore MObjects Spec SpecArr SpecObj.
Local Open Scope R_scope.

(** East and North at a place with unit outward normal [up] (not a pole) *)
Definition east_at (M : mat) (up : vec) : vec := direction (vcross (north M) up).
Definition north_at (M : mat) (up : vec) : vec := vcross up (east_at M up).

(** the horizontal part of the vector [d], at a place with outward normal [up], has azimuth t
    (clockwise from North); if the horizontal part vanishes every t qualifies *)
Definition heads (M : mat) (up d : vec) (t : R) : Prop :=
  let h := sqrt (vdot (north_at M up) d ^ 2 + vdot (east_at M up) d ^ 2) in
  vdot (north_at M up) d = h * cos t /\ vdot (east_at M up) d = h * sin t.

(** away from the poles *)
Definition not_polar (M : mat) (up : vec) : Prop := vcross (north M) up <> v0.

(** A point object, of any class, for the n positions p j, with outward unit normals up j there.
    All depths are less than a (1 - 2 e^2) (6 293 km for the Earth: the whole Earth but a core of
    85 km): then normal and depth are determined by the position. *)
Definition shallow (a f z : R) : Prop := z < a * (1 - 2 * ecc2 f).
Definition placed (pt : point) (n : nat) (p up : nat -> vec) (a f : R) (M : mat) : Prop :=
  match pt with
  | PGeo g => exists la lo z, is_geo g n la lo z a f M /\
      forall j, (j < n)%nat -> shallow a f (z j) /\ up j = normal_at M (la j) (lo j) /\ at_depth a f M (up j) (z j) (p j)
  | PNv v => exists u z, is_nv v n u z a f M /\
      forall j, (j < n)%nat -> shallow a f (z j) /\ up j = direction (u j) /\ at_depth a f M (up j) (z j) (p j)
  | PEcef e => is_ecef e n p a f M /\
      forall j, (j < n)%nat -> vnorm (up j) = 1 /\ exists z, shallow a f z /\ at_depth a f M (up j) z (p j)
  | PPv _ => False
  end.

(** the point object stands for a single position given by scalars *)
Definition is_scalar_point (pt : point) : bool :=
  match pt with PGeo g => (ndim (g_z g) =? 0)%nat | PNv v => (ndim (n_z v) =? 0)%nat | PEcef e => e_scalar e | PPv p => p_scalar p end.

(** an Nvector's stored n-vectors have length 1 (the constructor does not normalise them);
    the other classes store no n-vectors *)
Definition unit_normals (pt : point) (n : nat) : Prop :=
  match pt with PNv v => forall j w, (j < n)%nat -> vcol (n_normal v) j w -> vnorm w = 1 | _ => True end.

(** the external solver, called with numbers denoting these reals, answers the distance s *)
Definition answers (gi : solver) (a f la1 lo1 la2 lo2 : R) (s : num) : Prop :=
  forall xa xf x1 x2 x3 x4, xa ≈ a -> xf ≈ f -> x1 ≈ la1 -> x2 ≈ lo1 -> x3 ≈ la2 -> x4 ≈ lo2 ->
    ends_with (gi xa xf x1 x2 x3 x4 false) (fun t => fst (fst t) = s).
