(** * Scalars: numpy float64 values, without rounding

    A [num] is an exact real number, the negative zero, an infinity or NaN.
    [Fin 0] is the positive zero.  The operation tables are those of IEEE 754 as
    used by numpy's ufuncs, except that (simplification) no operation rounds,
    overflows or underflows: finite operands give the exact real result.

    These definitions model numpy itself (an external library), not a file of
    /repo; they are used by the models of /repo/src/nvector/*.py. *)
From Coq Require Import Reals Lra Bool.
Local Open Scope R_scope.

Inductive num : Type :=
| Fin (r : R)        (** a finite value; [Fin 0] is +0.0 *)
| NZ                 (** -0.0 *)
| Inf (neg : bool)   (** +inf / -inf *)
| NaN.

(** sign bit *)
Definition sbit (x : num) : bool :=
  match x with
  | Fin r => if Rlt_dec r 0 then true else false
  | NZ => true
  | Inf b => b
  | NaN => false
  end.

(** the real value of a finite number (0 for the others, never used there) *)
Definition fval (x : num) : R := match x with Fin r => r | _ => 0 end.

Definition is_zero (x : num) : bool :=
  match x with Fin r => if Req_EM_T r 0 then true else false | NZ => true | _ => false end.

Definition zero (b : bool) : num := if b then NZ else Fin 0.

Definition isnan (x : num) : bool := match x with NaN => true | _ => false end.
Definition isfinite (x : num) : bool := match x with Fin _ | NZ => true | _ => false end.

Definition nneg (x : num) : num :=
  match x with
  | Fin r => if Req_EM_T r 0 then NZ else Fin (- r)
  | NZ => Fin 0
  | Inf b => Inf (negb b)
  | NaN => NaN
  end.

Definition nadd (x y : num) : num :=
  match x, y with
  | NaN, _ | _, NaN => NaN
  | Inf a, Inf b => if Bool.eqb a b then Inf a else NaN
  | Inf a, _ => Inf a
  | _, Inf b => Inf b
  | NZ, NZ => NZ
  | _, _ => Fin (fval x + fval y)
  end.

Definition nsub (x y : num) : num := nadd x (nneg y).

Definition nmul (x y : num) : num :=
  match x, y with
  | NaN, _ | _, NaN => NaN
  | Inf a, Inf b => Inf (xorb a b)
  | Inf a, _ => if is_zero y then NaN else Inf (xorb a (sbit y))
  | _, Inf b => if is_zero x then NaN else Inf (xorb (sbit x) b)
  | _, _ =>
      let p := fval x * fval y in
      if Req_EM_T p 0 then zero (xorb (sbit x) (sbit y)) else Fin p
  end.

Definition ndiv (x y : num) : num :=
  match x, y with
  | NaN, _ | _, NaN => NaN
  | Inf _, Inf _ => NaN
  | Inf a, _ => Inf (xorb a (sbit y))
  | _, Inf b => zero (xorb (sbit x) b)
  | _, _ =>
      if is_zero y then
        if is_zero x then NaN else Inf (xorb (sbit x) (sbit y))
      else
        let p := fval x / fval y in
        if Req_EM_T p 0 then zero (xorb (sbit x) (sbit y)) else Fin p
  end.

Definition nsqrt (x : num) : num :=
  match x with
  | Fin r => if Rlt_dec r 0 then NaN else Fin (sqrt r)
  | NZ => NZ
  | Inf false => Inf false
  | _ => NaN
  end.

Definition nabs (x : num) : num :=
  match x with
  | Fin r => Fin (Rabs r)
  | NZ => Fin 0
  | Inf _ => Inf false
  | NaN => NaN
  end.

(** np.sign: -1, 0, 1; NaN for NaN *)
Definition nsign (x : num) : num :=
  match x with
  | Fin r => if Rlt_dec r 0 then Fin (-1) else if Rlt_dec 0 r then Fin 1 else Fin 0
  | NZ => Fin 0
  | Inf b => if b then Fin (-1) else Fin 1
  | NaN => NaN
  end.

Definition nsin (x : num) : num :=
  match x with Fin r => Fin (sin r) | NZ => NZ | _ => NaN end.

Definition ncos (x : num) : num :=
  match x with Fin r => Fin (cos r) | NZ => Fin 1 | _ => NaN end.

Definition narcsin (x : num) : num :=
  match x with
  | Fin r => if Rle_dec (-1) r then if Rle_dec r 1 then Fin (asin r) else NaN else NaN
  | NZ => NZ
  | _ => NaN
  end.

(** ordering of non-NaN values; comparisons with NaN are false *)
Definition nle (x y : num) : bool :=
  match x, y with
  | NaN, _ | _, NaN => false
  | Inf true, _ => true
  | _, Inf false => true
  | Inf false, _ => false
  | _, Inf true => false
  | _, _ => if Rle_dec (fval x) (fval y) then true else false
  end.

Definition nlt (x y : num) : bool :=
  match x, y with
  | NaN, _ | _, NaN => false
  | _, _ => negb (nle y x)
  end.

Definition neqb (x y : num) : bool :=
  match x, y with
  | NaN, _ | _, NaN => false
  | Inf a, Inf b => Bool.eqb a b
  | Inf _, _ | _, Inf _ => false
  | _, _ => if Req_EM_T (fval x) (fval y) then true else false
  end.

(** np.maximum: NaN if either is NaN *)
Definition nmax (x y : num) : num :=
  match x, y with
  | NaN, _ | _, NaN => NaN
  | _, _ => if nle x y then y else x
  end.

(** The angle of the point (x, y), mathematical definition by quadrants;
    [atan2 0 0] = 0.  Its characterisation by sine and cosine is in LTrig.v *)
Definition atan2 (y x : R) : R :=
  if Rlt_dec 0 x then atan (y / x)
  else if Rlt_dec x 0 then
    if Rlt_dec y 0 then atan (y / x) - PI else atan (y / x) + PI
  else if Rlt_dec 0 y then PI / 2
  else if Rlt_dec y 0 then - (PI / 2)
  else 0.

(** copy the sign bit [b] on a nonnegative magnitude *)
Definition signed (b : bool) (r : R) : num := if b then nneg (Fin r) else Fin r.

(** np.arctan2(y, x), C99 table including signed zeros and infinities *)
Definition narctan2 (y x : num) : num :=
  match y, x with
  | NaN, _ | _, NaN => NaN
  | Inf b, Inf false => signed b (PI / 4)
  | Inf b, Inf true => signed b (3 * PI / 4)
  | Inf b, _ => signed b (PI / 2)
  | _, Inf false => signed (sbit y) 0
  | _, Inf true => signed (sbit y) PI
  | _, _ =>
      if is_zero y then if sbit x then signed (sbit y) PI else signed (sbit y) 0
      else Fin (atan2 (fval y) (fval x))
  end.

(** floor as a real *)
Definition Rfloor (x : R) : R := IZR (Int_part x).

(** np.mod(x, y): result has the sign of the divisor.  Python's float modulo;
    the zero result carries the divisor's sign; y = 0 gives NaN. *)
Definition nmod (x y : num) : num :=
  match x, y with
  | NaN, _ | _, NaN => NaN
  | Inf _, _ => NaN
  | _, Inf b => if is_zero x then zero b else if Bool.eqb (sbit x) b then x else Inf b
  | _, _ =>
      if is_zero y then NaN
      else
        let m := fval x - fval y * Rfloor (fval x / fval y) in
        if Req_EM_T m 0 then zero (sbit y) else Fin m
  end.

(** [x ** (1. / n)] for a positive integer [n] (numpy float power).
    Exact simplification: [1. / n] is the exact reciprocal. *)
Definition nroot (x : num) (n : nat) : num :=
  match x with
  | Fin r =>
      if Nat.eqb n 1 then x
      else if Rlt_dec r 0 then NaN
      else if Req_EM_T r 0 then Fin 0
      else Fin (Rpower r (/ INR n))
  | NZ => if Nat.eqb n 1 then NZ else Fin 0
  | Inf false => Inf false
  | Inf true => if Nat.eqb n 1 then Inf true else Inf false
  | NaN => NaN
  end.

(** [x ** n] for a natural exponent *)
Fixpoint npow (x : num) (n : nat) : num :=
  match n with
  | O => Fin 1
  | S O => x
  | S m => nmul (npow x m) x
  end.

(** ** Finite values *)

(** [x ≈ r]: the value [x] is finite and denotes the real [r] *)
Definition is_fin (x : num) (r : R) : Prop :=
  match x with Fin a => a = r | NZ => r = 0 | _ => False end.

Notation "x ≈ r" := (is_fin x r) (at level 70).
