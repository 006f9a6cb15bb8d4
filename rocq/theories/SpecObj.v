(** * What it means for library objects to hold given real data *)
From Coq Require Import List Arith Reals String.
From Verif Require Import Num Py Nd MUtil MRotation MCore MObjects Spec SpecArr.
Import ListNotations.
Local Open Scope R_scope.

(** a call ends with the value [a] (whatever warnings it emits) *)
Definition ends {A} (m : M A) (a : A) : Prop := snd m = inl a.

(** a call ends with a value satisfying [P] *)
Definition ends_with {A} (m : M A) (P : A -> Prop) : Prop := exists a, ends m a /\ P a.

(** the ellipsoid/axes frame [fr] has semi-major axis a, flattening f and axes matrix M *)
Definition is_frame (fr : frameE) (a f : R) (M : mat) : Prop :=
  fe_a fr ≈ a /\ fe_f fr ≈ f /\ is_mat (fe_R fr) M /\ rotation M.

(** an admissible ellipsoid *)
Definition ellipsoid (a f : R) : Prop := 0 < a /\ 0 <= f < 1.

(** the array [a] broadcasts to a list of n numbers, z j for j < n:
    it is a scalar (then all equal), or has length 1 or n *)
Definition spread (a : arr num) (n : nat) (z : nat -> R) : Prop :=
  exists m r, vals a m r /\ bdim n m = Some n /\ forall j, (j < n)%nat -> z j = r (cl m j).

(** an Nvector of n positions: nonzero n-vectors u j (not necessarily unit) and depths z j *)
Definition is_nv (v : nvector) (n : nat) (u : nat -> vec) (z : nat -> R) (a f : R) (M : mat) : Prop :=
  (0 < n)%nat /\ cols (n_normal v) n u /\ (forall j, (j < n)%nat -> u j <> v0) /\
  spread (n_z v) n z /\ is_frame (n_frame v) a f M.

(** a GeoPoint of n positions, as built by its constructor: the three arrays have one shape *)
Definition is_geo (g : geoPoint) (n : nat) (la lo z : nat -> R) (a f : R) (M : mat) : Prop :=
  (0 < n)%nat /\ shape (g_lat g) = shape (g_z g) /\ shape (g_lon g) = shape (g_z g) /\
  vals (g_lat g) n la /\ vals (g_lon g) n lo /\ vals (g_z g) n z /\ is_frame (g_frame g) a f M.

(** an ECEFvector of n vectors *)
Definition is_ecef (e : ecef) (n : nat) (p : nat -> vec) (a f : R) (M : mat) : Prop :=
  (0 < n)%nat /\ cols (e_p e) n p /\ is_frame (e_frame e) a f M /\ (e_scalar e = true -> n = 1%nat).

(** the outward unit normal at geodetic latitude la and longitude lo *)
Definition normal_at (M : mat) (la lo : R) : vec :=
  mulv (mT M) (V (sin la) (sin lo * cos la) (- cos lo * cos la)).

(** [p] is the position at depth z below the point of the ellipsoid whose outward normal has direction u *)
Definition at_depth (a f : R) (M : mat) (u : vec) (z : R) (p : vec) : Prop :=
  exists s, on_ellipsoid a f (north M) s /\ same_direction (ellipsoid_gradient a f (north M) s) u /\
    p = vsub s (vscale z (direction u)).

(** the point object [pt], of class GeoPoint, Nvector or ECEFvector, stands for the n positions p j *)
Definition is_point (pt : point) (n : nat) (p : nat -> vec) (a f : R) (M : mat) : Prop :=
  match pt with
  | PGeo g => exists la lo z, is_geo g n la lo z a f M /\
      forall j, (j < n)%nat -> at_depth a f M (normal_at M (la j) (lo j)) (z j) (p j)
  | PNv v => exists u z, is_nv v n u z a f M /\ forall j, (j < n)%nat -> at_depth a f M (u j) (z j) (p j)
  | PEcef e => is_ecef e n p a f M
  | PPv _ => False
  end.

(** a local frame at n positions with orientation data of matching widths *)
Definition is_local (l : local) (n : nat) (a f : R) (M : mat) : Prop :=
  match l with
  | LocalN v => exists u z, is_nv v n u z a f M
  | LocalL v wa => exists u z w, is_nv v n u z a f M /\ spread wa n w
  | LocalB v yaw pitch roll =>
      exists u z y p r, is_nv v n u z a f M /\ spread yaw n y /\ spread pitch n p /\ spread roll n r
  end.

(** the value of the expression [x == y] for two different objects ([self is other] is False) *)
Definition equal_objs (x y : obj) (b : bool) : Prop := ends (py_eq false x y) b.

(** the position [p] is outside the small core around the Earth's centre in which the
    geodetic latitude is not unique (for the Earth: closer than about 43 km to the centre) *)
Definition clear_of_core (a f : R) (M : mat) (p : vec) : Prop :=
  let eq := equatorial (north M) p in
  (ecc2 f) ^ 2 * a ^ 2 < vdot eq eq + (1 - ecc2 f) * (polar (north M) p) ^ 2.

(** a point from which a local frame can be computed: an ECEFvector must not lie in the core *)
Definition locatable (pt : point) (n : nat) (p : nat -> vec) (a f : R) (M : mat) : Prop :=
  is_point pt n p a f M /\
  match pt with PEcef _ => forall j, (j < n)%nat -> clear_of_core a f M (p j) | _ => True end.
