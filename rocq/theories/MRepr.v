(** * __repr__ of the library's classes, objects.py 133-140

    The object's __dict__ is a dict of the heap of [MHeap]; attributes that are library objects are atoms there
    (they have no tolist method).  The text is represented by the (name, value) pairs it shows. *)
From Coq Require Import String ZArith List.
From Verif Require Import MUtil MHeap.
Import ListNotations.

(** not name.startswith('_'), line 138 *)
Definition public (name : string) : bool := negb (String.prefix "_" name).

(** _Common.__repr__, objects.py 133-140 *)
Definition repr_params (fuel : nat) (h : heap) (dict : nat) : option (heap * list (string * hval)) :=
  match nth_error h dict with
  | Some (NDict kv) =>
      let (h0, copy) := alloc h (NDict kv) in          (* self.__dict__.copy(), line 136: a new dict with the same values *)
      match conv fuel h0 copy with
      | Some (h1, HRef l) =>
          match nth_error h1 l with
          | Some (NDict kv1) => Some (h1, filter (fun p => public (fst p)) kv1)    (* 137-138 *)
          | _ => None
          end
      | _ => None
      end
  | _ => None
  end.
