(** * array_to_list_dict with mutable, possibly shared objects; util.py 74-103

    [MUtil.array_to_list_dict] gives the value returned; here the containers live in a
    heap, so that in-place updates and aliasing are visible. *)
From Coq Require Import String ZArith List.
From Verif Require Import MUtil.
Import ListNotations.

(** a Python reference: to a container in the heap, to an array (immutable here: the
    function only reads it), or to an atom *)
Inductive hval := HRef (l : nat) | HArr (t : tl_val) | HLeaf (id : Z).

(** containers; the keys of a dict are distinct and keep their order *)
Inductive node :=
| NDict (kv : list (string * hval))
| NList (l : list hval)
| NTuple (l : list hval).

(** Python objects by address, util.py 74-103 *)
Definition heap := list node.

(** allocation of a new object *)
Definition alloc (h : heap) (n : node) : heap * hval := (h ++ [n], HRef (length h)).

(** assignment to an object, util.py 93-103 *)
Fixpoint upd (h : heap) (l : nat) (n : node) : heap :=
  match h, l with
  | [], _ => []
  | _ :: h', O => n :: h'
  | x :: h', S l' => x :: upd h' l' n
  end.

(** dict lookup and item assignment d[k] = v for a key that is present *)
Fixpoint dget (k : string) (kv : list (string * hval)) : option hval :=
  match kv with
  | [] => None
  | (k', v) :: r => if String.eqb k k' then Some v else dget k r
  end.
(** d[key] = value, util.py 93-103 *)
Fixpoint dset (k : string) (v : hval) (kv : list (string * hval)) : list (string * hval) :=
  match kv with
  | [] => []
  | (k', v') :: r => if String.eqb k k' then (k', v) :: r else (k', v') :: dset k v r
  end.

(** data.tolist(), line 99: fresh nested lists *)
Fixpoint alloc_tl (h : heap) (t : tl_val) : heap * hval :=
  match t with
  | TLeaf i => (h, HLeaf i)
  | TList l =>
      let fix go h l :=
        match l with
        | [] => (h, [])
        | t :: l' => let (h1, v) := alloc_tl h t in let (h2, vs) := go h1 l' in (h2, v :: vs)
        end in
      let (h', vs) := go h l in alloc h' (NList vs)
  end.

(** lines 93-103; [fuel] bounds the recursion depth (Python's own recursion limit is not modelled).
    [None]: out of fuel, dangling reference. *)
Fixpoint conv (fuel : nat) (h : heap) (v : hval) : option (heap * hval) :=
  match fuel with
  | O => None
  | S fuel =>
    match v with
    | HRef l =>
      match nth_error h l with
      | Some (NDict kv) =>                                   (* 93-95: for key in data: data[key] = ... *)
          let fix go h ks :=
            match ks with
            | [] => Some (h, HRef l)
            | k :: ks' =>
                match nth_error h l with
                | Some (NDict kv) =>
                    match dget k kv with
                    | Some x =>
                        match conv fuel h x with
                        | Some (h1, x1) =>
                            match nth_error h1 l with
                            | Some (NDict kv1) => go (upd h1 l (NDict (dset k x1 kv1))) ks'
                            | _ => None
                            end
                        | None => None
                        end
                    | None => None
                    end
                | _ => None
                end
            end in
          go h (map fst kv)
      | Some (NList vs) | Some (NTuple vs) =>                (* 96-97: a new list *)
          let fix go h vs :=
            match vs with
            | [] => Some (h, [])
            | x :: vs' =>
                match conv fuel h x with
                | Some (h1, x1) =>
                    match go h1 vs' with Some (h2, xs) => Some (h2, x1 :: xs) | None => None end
                | None => None
                end
            end in
          match go h vs with Some (h', xs) => Some (alloc h' (NList xs)) | None => None end
      | None => None
      end
    | HArr t => Some (alloc_tl h t)                          (* 98-100 *)
    | HLeaf i => Some (h, HLeaf i)                           (* 101-102 *)
    end
  end.
