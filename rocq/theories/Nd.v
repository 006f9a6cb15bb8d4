(** * n-dimensional arrays with numpy's broadcasting

    An array is a shape and an index function; only indices inside the shape are
    meaningful.  Shape errors are the exceptions numpy raises.  This file models
    numpy (external), as used by /repo/src/nvector/*.py. *)
From Coq Require Import List Arith Bool Reals.
From Verif Require Import Num Py.
Import ListNotations.

Record arr (A : Type) : Type := Arr { shape : list nat; get : list nat -> A }.
Arguments Arr {A}. Arguments shape {A}. Arguments get {A}.

Definition prod (s : list nat) : nat := fold_right Nat.mul 1 s.
Definition size {A} (a : arr A) : nat := prod (shape a).
Definition ndim {A} (a : arr A) : nat := length (shape a).

(** component [k] of an index *)
Definition at_ (ix : list nat) (k : nat) : nat := nth k ix 0.

(** a Python scalar / 0-d array *)
Definition scal {A} (x : A) : arr A := Arr [] (fun _ => x).
Definition item {A} (a : arr A) : A := get a (repeat 0 (ndim a)).

(** ** Broadcasting *)
Definition bdim (a b : nat) : option nat :=
  if a =? b then Some a else if a =? 1 then Some b else if b =? 1 then Some a else None.

Fixpoint bshape_rev (s t : list nat) : option (list nat) :=
  match s, t with
  | [], t => Some t
  | s, [] => Some s
  | a :: s', b :: t' =>
      match bdim a b, bshape_rev s' t' with
      | Some d, Some r => Some (d :: r)
      | _, _ => None
      end
  end.

(** numpy aligns the trailing axes *)
Definition bshape (s t : list nat) : option (list nat) :=
  match bshape_rev (rev s) (rev t) with Some r => Some (rev r) | None => None end.

(** position along an axis of size [d] when the broadcast position is [k] *)
Definition cl (d k : nat) : nat := if d =? 1 then 0 else k.

Fixpoint clamp (s ix : list nat) : list nat :=
  match s, ix with d :: s', k :: ix' => cl d k :: clamp s' ix' | _, _ => [] end.

(** index into an operand of shape [s] from an index of the broadcast result *)
Definition bidx (s ix : list nat) : list nat := clamp s (skipn (length ix - length s) ix).

(** ** Elementwise functions *)
Definition map1 {A B} (f : A -> B) (a : arr A) : arr B :=
  Arr (shape a) (fun ix => f (get a ix)).

Definition map2 {A B C} (f : A -> B -> C) (a : arr A) (b : arr B) : M (arr C) :=
  match bshape (shape a) (shape b) with
  | Some s => ret (Arr s (fun ix => f (get a (bidx (shape a) ix)) (get b (bidx (shape b) ix))))
  | None => raise ValueError
  end.

(** np.broadcast_arrays restricted to one operand and a target shape *)
Definition broadcast_to {A} (a : arr A) (s : list nat) : arr A :=
  Arr s (fun ix => get a (bidx (shape a) ix)).

Definition broadcast2 {A B} (a : arr A) (b : arr B) : M (arr A * arr B) :=
  match bshape (shape a) (shape b) with
  | Some s => ret (broadcast_to a s, broadcast_to b s)
  | None => raise ValueError
  end.

Definition broadcast3 {A B C} (a : arr A) (b : arr B) (c : arr C)
  : M (arr A * arr B * arr C) :=
  match bshape (shape a) (shape b) with
  | Some s =>
      match bshape s (shape c) with
      | Some t => ret (broadcast_to a t, broadcast_to b t, broadcast_to c t)
      | None => raise ValueError
      end
  | None => raise ValueError
  end.

(** ** Reductions *)
(** left-to-right sum of [f 0 .. f (n-1)]; the empty sum is +0 *)
Fixpoint nsum (n : nat) (f : nat -> num) : num :=
  match n with
  | O => Fin 0
  | S O => f O
  | S m => nadd (nsum m f) (f m)
  end.

Fixpoint allb (n : nat) (f : nat -> bool) : bool :=
  match n with O => true | S m => allb m f && f m end.

(** multi-index of the flat (C order) position [k] in an array of shape [s] *)
Fixpoint unravel (s : list nat) (k : nat) : list nat :=
  match s with
  | [] => []
  | _ :: s' => (k / prod s') :: unravel s' (k mod prod s')
  end.

Definition ravel {A} (a : arr A) : arr A :=
  Arr [size a] (fun ix => get a (unravel (shape a) (at_ ix 0))).

(** np.all / np.any *)
Definition all_ (a : arr bool) : bool :=
  allb (size a) (fun k => get a (unravel (shape a) k)).
Definition any_ (a : arr bool) : bool :=
  negb (allb (size a) (fun k => negb (get a (unravel (shape a) k)))).

(** a.reshape(r, -1) *)
Definition reshape_rows {A} (r : nat) (a : arr A) : M (arr A) :=
  if size a mod r =? 0 then
    let c := size a / r in
    ret (Arr [r; c] (fun ix => get a (unravel (shape a) (at_ ix 0 * c + at_ ix 1))))
  else raise ValueError.

(** a.reshape((r, c)) *)
Definition reshape2 {A} (r c : nat) (a : arr A) : M (arr A) :=
  if size a =? r * c then
    ret (Arr [r; c] (fun ix => get a (unravel (shape a) (at_ ix 0 * c + at_ ix 1))))
  else raise ValueError.

(** numpy.linalg.norm(a, axis=0) and with keepdims, for arrays with at least one axis *)
Definition norm0 (a : arr num) : M (arr num) :=
  match shape a with
  | r :: s => ret (Arr s (fun ix => nsqrt (nsum r (fun l => nmul (get a (l :: ix)) (get a (l :: ix))))))
  | [] => raise NotModelled
  end.

Definition norm0_keep (a : arr num) : M (arr num) :=
  match shape a with
  | r :: s => ret (Arr (1 :: s) (fun ix =>
      nsqrt (nsum r (fun l => nmul (get a (l :: tl ix)) (get a (l :: tl ix))))))
  | [] => raise NotModelled
  end.

(** np.sum(a, axis=1) for 2-d arrays *)
Definition sum1 (a : arr num) : M (arr num) :=
  match shape a with
  | [r; c] => ret (Arr [r] (fun ix => nsum c (fun l => get a [at_ ix 0; l])))
  | _ => raise NotModelled
  end.

(** np.mean(a) over all entries *)
Definition mean (a : arr num) : num :=
  ndiv (nsum (size a) (fun k => get a (unravel (shape a) k))) (Fin (INR (size a))).

(** ** Linear algebra *)
(** np.dot of 2-d arrays; [None] of the other dimensionalities is needed *)
Definition dot (a b : arr num) : M (arr num) :=
  match shape a, shape b with
  | [n; k], [k'; m] =>
      if k =? k' then
        ret (Arr [n; m] (fun ix =>
          nsum k (fun l => nmul (get a [at_ ix 0; l]) (get b [l; at_ ix 1]))))
      else raise ValueError
  | _, _ => raise NotModelled
  end.

(** np.einsum('ij...,jk...->ik...', a, b); einsum broadcasts axes of size 1,
    also the summed one *)
Definition einsum_ij_jk (a b : arr num) : M (arr num) :=
  match shape a, shape b with
  | n :: j :: ra, j' :: m :: rb =>
      match bdim j j', bshape ra rb with
      | Some k, Some e =>
          ret (Arr (n :: m :: e) (fun ix =>
            nsum k (fun l =>
              nmul (get a (at_ ix 0 :: cl j l :: bidx ra (tl (tl ix))))
                   (get b (cl j' l :: at_ ix 1 :: bidx rb (tl (tl ix)))))))
      | _, _ => raise ValueError
      end
  | _, _ => raise ValueError
  end.

(** np.cross(a, b, axis=0) for first axes of size 3 *)
Definition cross0 (a b : arr num) : M (arr num) :=
  match shape a, shape b with
  | 3 :: s, 3 :: t =>
      match bshape s t with
      | Some e =>
          ret (Arr (3 :: e) (fun ix =>
            let i := at_ ix 0 in
            let ga k := get a (k :: bidx s (tl ix)) in
            let gb k := get b (k :: bidx t (tl ix)) in
            let p := (i + 1) mod 3 in
            let q := (i + 2) mod 3 in
            nsub (nmul (ga p) (gb q)) (nmul (ga q) (gb p))))
      | None => raise ValueError
      end
  | _, _ => raise NotModelled
  end.

(** a.T *)
Definition transpose {A} (a : arr A) : arr A :=
  Arr (rev (shape a)) (fun ix => get a (rev ix)).

(** np.swapaxes(a, 1, 0) *)
Definition swapaxes10 {A} (a : arr A) : M (arr A) :=
  match shape a with
  | n :: m :: s => ret (Arr (m :: n :: s) (fun ix =>
      get a (at_ ix 1 :: at_ ix 0 :: tl (tl ix))))
  | _ => raise ValueError
  end.

(** ** Indexing and stacking *)
(** a[i, :] / a[i] / a[i, ...]: drop the first axis *)
Definition row {A} (i : nat) (a : arr A) : M (arr A) :=
  match shape a with
  | r :: s => if i <? r then ret (Arr s (fun ix => get a (i :: ix))) else raise IndexError
  | [] => raise IndexError
  end.

(** a[:, 0] for 2-d arrays *)
Definition col0 {A} (a : arr A) : M (arr A) :=
  match shape a with
  | [r; c] => if 0 <? c then ret (Arr [r] (fun ix => get a [at_ ix 0; 0])) else raise IndexError
  | _ => raise NotModelled
  end.

(** a[i, j, ...] *)
Definition entry {A} (i j : nat) (a : arr A) : M (arr A) :=
  match shape a with
  | r :: c :: s =>
      if (i <? r) && (j <? c) then ret (Arr s (fun ix => get a (i :: j :: ix))) else raise IndexError
  | _ => raise IndexError
  end.

(** a[0] of a 1-d array, as a Python scalar (0-d array) *)
Definition first {A} (a : arr A) : M (arr A) :=
  match shape a with
  | n :: s => if 0 <? n then ret (Arr s (fun ix => get a (0 :: ix))) else raise IndexError
  | [] => raise IndexError
  end.

(** a[:, None, ...] *)
Definition newaxis1 {A} (a : arr A) : M (arr A) :=
  match shape a with
  | n :: s => ret (Arr (n :: 1 :: s) (fun ix => get a (at_ ix 0 :: tl (tl ix))))
  | [] => raise IndexError
  end.

(** np.atleast_1d, np.atleast_2d *)
Definition atleast_1d {A} (a : arr A) : arr A :=
  match shape a with [] => Arr [1] (fun _ => get a []) | _ => a end.

Definition atleast_2d {A} (a : arr A) : arr A :=
  match shape a with
  | [] => Arr [1; 1] (fun _ => get a [])
  | [n] => Arr [1; n] (fun ix => get a [at_ ix 1])
  | _ => a
  end.

(** np.vstack: concatenate along axis 0 after atleast_2d *)
Definition vcat {A} (a b : arr A) : M (arr A) :=
  match shape a, shape b with
  | [r; c], [r'; c'] =>
      if c =? c' then
        ret (Arr [r + r'; c] (fun ix =>
          if at_ ix 0 <? r then get a [at_ ix 0; at_ ix 1] else get b [at_ ix 0 - r; at_ ix 1]))
      else raise ValueError
  | _, _ => raise NotModelled
  end.

Definition vstack2 {A} (a b : arr A) : M (arr A) := vcat (atleast_2d a) (atleast_2d b).
Definition vstack3 {A} (a b c : arr A) : M (arr A) :=
  (x <- vcat (atleast_2d a) (atleast_2d b) ;; vcat x (atleast_2d c))%py.

(** np.hstack of three arrays with a middle axis of size 1: concatenate along axis 1 *)
Definition hstack3 {A} (a b c : arr A) : M (arr A) :=
  match shape a, shape b, shape c with
  | [r; 1; n], [r'; 1; n'], [r''; 1; n''] =>
      if (r =? r') && (r =? r'') && (n =? n') && (n =? n'') then
        ret (Arr [r; 3; n] (fun ix =>
          let j := at_ ix 1 in
          let k := [at_ ix 0; 0; at_ ix 2] in
          if j =? 0 then get a k else if j =? 1 then get b k else get c k))
      else raise ValueError
  | _, _, _ => raise NotModelled
  end.

(** np.squeeze *)
Fixpoint unsqueeze_ix (s ix : list nat) : list nat :=
  match s with
  | [] => []
  | d :: s' =>
      if d =? 1 then 0 :: unsqueeze_ix s' ix
      else match ix with k :: ix' => k :: unsqueeze_ix s' ix' | [] => [] end
  end.

Definition squeeze {A} (a : arr A) : arr A :=
  Arr (filter (fun d => negb (d =? 1)) (shape a)) (fun ix => get a (unsqueeze_ix (shape a) ix)).

(** a[:, idx] = x where idx = np.flatnonzero(mask), mask of shape (1, n) or (n,) *)
Definition set_cols {A} (a : arr A) (mask : nat -> bool) (x : nat -> A) : M (arr A) :=
  match shape a with
  | [r; c] => ret (Arr [r; c] (fun ix => if mask (at_ ix 1) then x (at_ ix 0) else get a ix))
  | _ => raise IndexError
  end.

(** np.array([[..],[..],[..]]) of nine broadcastable scalars' arrays of one common shape [s]:
    shape 3 x 3 x s *)
Definition array33 {A} (s : list nat) (g : nat -> nat -> list nat -> A) : arr A :=
  Arr (3 :: 3 :: s) (fun ix => g (at_ ix 0) (at_ ix 1) (tl (tl ix))).

(** a literal 3 x 3 matrix *)
Definition mat33 {A} (a b c d e f g h i : A) : arr A :=
  Arr [3; 3] (fun ix =>
    nth (at_ ix 1) (nth (at_ ix 0) [[a; b; c]; [d; e; f]; [g; h; i]] []) a).

(** a literal 3 x 1 column *)
Definition col3 {A} (a b c : A) : arr A := Arr [3; 1] (fun ix => nth (at_ ix 0) [a; b; c] a).

(** a literal 1-d array *)
Definition vec {A} (d : A) (l : list A) : arr A := Arr [length l] (fun ix => nth (at_ ix 0) l d).
