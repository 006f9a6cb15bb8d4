(** * scipy.interpolate.interp1d(t, y, axis=1, kind='linear', bounds_error=False)(t_i)

    Models the external function called at /repo/src/nvector/core.py 365 (and, through
    _interp_vectors, at objects.py 530) for the default kind='linear'.  scipy is not part of
    /repo: the algorithm is that of scipy's interp1d.__init__ (argsort of the nodes, because
    assume_sorted defaults to False), _call_linear and _evaluate/_check_bounds.
    Simplifications: exact arithmetic (see Num); fewer than two nodes raise ValueError. *)
From Coq Require Import List Arith Bool.
From Verif Require Import Num Py Nd.
Import ListNotations.
Local Open Scope nat_scope.
Local Open Scope py_scope.

(** np.argsort(x, kind="mergesort"): the indices 0..n-1 in the order of x, stable *)
Fixpoint insert_node (x : nat -> num) (k : nat) (l : list nat) : list nat :=
  match l with
  | [] => [k]
  | h :: l' => if nlt (x k) (x h) then k :: l else h :: insert_node x k l'
  end.
(** np.argsort(x, kind="mergesort") as scipy interp1d(assume_sorted=False) does, called on core.py 365-366 *)
Fixpoint argsort (n : nat) (x : nat -> num) : list nat :=
  match n with O => [] | S m => insert_node x m (argsort m x) end.

(** np.searchsorted(x, s): how many nodes lie before s *)
Definition searchsorted (x : nat -> num) (order : list nat) (s : num) : nat :=
  length (filter (fun k => nlt (x k) s) order).

(** scipy interp1d(t, y, kind="linear")(t_i), called on core.py 365-366 *)
Definition interp1d_linear (t t_i : arr num) (y : arr num) : M (arr num) :=
  match shape y, shape t with
  | [r; n], [n'] =>
      if (n =? n') && (2 <=? n) then
        let x := fun k => get t [k] in
        let order := argsort n x in
        let node := fun i => nth i order 0 in
        let at_time := fun i s =>
          (* _check_bounds, _evaluate: fill_value NaN outside the range of the nodes *)
          if nlt s (x (node 0)) || nlt (x (node (n - 1))) s then NaN
          else
            (* _call_linear: clip(1, len(x) - 1) *)
            let idx := Nat.min (n - 1) (Nat.max 1 (searchsorted x order s)) in
            let lo := node (idx - 1) in
            let hi := node idx in
            let slope := ndiv (nsub (get y [i; hi]) (get y [i; lo])) (nsub (x hi) (x lo)) in
            nadd (nmul slope (nsub s (x lo))) (get y [i; lo]) in
        ret (Arr (r :: shape t_i) (fun ix => at_time (at_ ix 0) (get t_i (tl ix))))
      else raise ValueError
  | _, _ => raise ValueError
  end.
