(** * Independent specification: geometry of R^3

    Nothing here mentions the model of the code. *)
From Coq Require Import Reals.
Local Open Scope R_scope.

(** ** Vectors *)
Record vec := V { vx : R; vy : R; vz : R }.

Definition v0 : vec := V 0 0 0.
Definition vadd (u v : vec) : vec := V (vx u + vx v) (vy u + vy v) (vz u + vz v).
Definition vsub (u v : vec) : vec := V (vx u - vx v) (vy u - vy v) (vz u - vz v).
Definition vscale (c : R) (u : vec) : vec := V (c * vx u) (c * vy u) (c * vz u).
Definition vneg (u : vec) : vec := V (- vx u) (- vy u) (- vz u).
Definition vdot (u v : vec) : R := vx u * vx v + vy u * vy v + vz u * vz v.
Definition vcross (u v : vec) : vec :=
  V (vy u * vz v - vz u * vy v) (vz u * vx v - vx u * vz v) (vx u * vy v - vy u * vx v).
Definition vnorm (u : vec) : R := sqrt (vdot u u).

(** the unit vector in the direction of [u] (for [u] other than zero) *)
Definition direction (u : vec) : vec := vscale (/ vnorm u) u.

(** the angle between two nonzero vectors, in [0, PI] *)
Definition angle (u v : vec) : R := acos (vdot u v / (vnorm u * vnorm v)).

(** the great circle through a and b: unit vectors in the plane of a and b *)
Definition on_circle (a b p : vec) : Prop := vnorm p = 1 /\ vdot p (vcross a b) = 0.

(** the shorter great circle arc from a to b (for a, b unit and not antipodal):
    the unit vectors of the cone spanned by a and b *)
Definition on_arc (a b p : vec) : Prop :=
  vnorm p = 1 /\ exists s t, 0 <= s /\ 0 <= t /\ p = vadd (vscale s a) (vscale t b).

(** ** 3 x 3 matrices, by rows *)
Record mat := Mt { r0 : vec; r1 : vec; r2 : vec }.

Definition mI : mat := Mt (V 1 0 0) (V 0 1 0) (V 0 0 1).
Definition mT (m : mat) : mat :=
  Mt (V (vx (r0 m)) (vx (r1 m)) (vx (r2 m)))
     (V (vy (r0 m)) (vy (r1 m)) (vy (r2 m)))
     (V (vz (r0 m)) (vz (r1 m)) (vz (r2 m))).
Definition mulv (m : mat) (v : vec) : vec := V (vdot (r0 m) v) (vdot (r1 m) v) (vdot (r2 m) v).
Definition mmul (a b : mat) : mat :=
  let t := mT b in
  Mt (V (vdot (r0 a) (r0 t)) (vdot (r0 a) (r1 t)) (vdot (r0 a) (r2 t)))
     (V (vdot (r1 a) (r0 t)) (vdot (r1 a) (r1 t)) (vdot (r1 a) (r2 t)))
     (V (vdot (r2 a) (r0 t)) (vdot (r2 a) (r1 t)) (vdot (r2 a) (r2 t))).
Definition mdet (m : mat) : R := vdot (r0 m) (vcross (r1 m) (r2 m)).
(** columns *)
Definition c0 (m : mat) : vec := r0 (mT m).
Definition c1 (m : mat) : vec := r1 (mT m).
Definition c2 (m : mat) : vec := r2 (mT m).

Definition orthogonal (m : mat) : Prop := mmul (mT m) m = mI.
Definition rotation (m : mat) : Prop := orthogonal m /\ mdet m = 1.

(** elementary rotations about the x, y and z axes *)
Definition Rx (t : R) : mat :=
  Mt (V 1 0 0) (V 0 (cos t) (- sin t)) (V 0 (sin t) (cos t)).
Definition Ry (t : R) : mat :=
  Mt (V (cos t) 0 (sin t)) (V 0 1 0) (V (- sin t) 0 (cos t)).
Definition Rz (t : R) : mat :=
  Mt (V (cos t) (- sin t) 0) (V (sin t) (cos t) 0) (V 0 0 1).

(** ** Ellipsoid of revolution with semi-axes [a] (equatorial) and [a (1 - f)] (polar).
    [north] is the unit vector of the polar axis. *)
Definition polar (north p : vec) : R := vdot north p.
Definition equatorial (north p : vec) : vec := vsub p (vscale (polar north p) north).

Definition on_ellipsoid (a f : R) (north p : vec) : Prop :=
  (polar north p) ^ 2 / (a * (1 - f)) ^ 2 + vdot (equatorial north p) (equatorial north p) / a ^ 2 = 1.

(** half the gradient of the left-hand side of the equation: the outward normal direction at p *)
Definition ellipsoid_gradient (a f : R) (north p : vec) : vec :=
  vadd (vscale (polar north p / (a * (1 - f)) ^ 2) north)
       (vscale (/ a ^ 2) (equatorial north p)).

(** same direction: a positive multiple *)
Definition same_direction (u v : vec) : Prop := exists c, 0 < c /\ u = vscale c v.

(** first eccentricity squared *)
Definition ecc2 (f : R) : R := f * (2 - f).
