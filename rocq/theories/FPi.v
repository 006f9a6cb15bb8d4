(** * Bounds on PI (lemmas) *)
From Coq Require Import ZArith Reals Lra Machin.
From Flocq Require Import Core BinarySingleNaN.
From Verif Require Import FTiny FBase.
Local Open Scope R_scope.

(** numpy's np.pi *)
Definition pi64 : float64 := f 7074237752028440 (-51) eq_refl.
Lemma pi64_val : B2R pi64 = 7074237752028440 / 2251799813685248.
Proof. unfold pi64, f, B2R, F2R; cbn. lra. Qed.

Lemma pi_bounds : B2R pi64 + 12 / 100000000000000000 <= PI <= B2R pi64 + 13 / 100000000000000000.
Proof.
  rewrite pi64_val. destruct (PI_2_3_7_ineq 8) as (L & _). destruct (PI_2_3_7_ineq 9) as (_ & U).
  cbn [sum_f_R0 Nat.mul Nat.add] in L, U. unfold tg_alt, PI_2_3_7_tg, Ratan_seq in L, U.
  cbn [pow Nat.mul Nat.add INR] in L, U. lra.
Qed.
