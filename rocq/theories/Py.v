(** * Python effects: exceptions as values, warnings as a log *)
From Coq Require Import List String.
Import ListNotations.

(** the exceptions the library raises or lets through: objects.py 146, 391, 1540-1542, core.py 640-644, util.py 242-257, 416-473 *)
Inductive exn : Type :=
| ValueError | IndexError | KeyError | AttributeError | TypeError
| NotImplementedError
| NotModelled. (** a shape or argument the model does not cover; never claimed to be what Python does *)

(** the warnings the library issues: util.py 242-257, core.py 501, objects.py 81 *)
Inductive warning : Type :=
| WLength     (** 'n-vector should have unit length', util.py 256 *)
| WPathsEqual (** 'Paths are Equal. ...', core.py 501 *)
| WDeprecated (** DeprecationWarning of deprecated aliases *).

(** A call produces warnings, then a value or an exception. *)
Definition M (A : Type) : Type := (list warning * (A + exn))%type.

(** a Python expression that returns *)
Definition ret {A} (a : A) : M A := ([], inl a).
(** raise *)
Definition raise {A} (e : exn) : M A := ([], inr e).
(** warnings.warn *)
Definition warn (w : warning) : M unit := ([w], inl tt).
(** sequencing of Python statements: warnings accumulate, an exception stops *)
Definition bind {A B} (m : M A) (f : A -> M B) : M B :=
  match m with
  | (w, inl a) => let (w', r) := f a in (w ++ w', r)
  | (w, inr e) => (w, inr e)
  end.

Declare Scope py_scope.
Delimit Scope py_scope with py.
Notation "x <- e ;; f" := (bind e (fun x => f))
  (at level 61, e at next level, right associativity) : py_scope.
Notation "' p <- e ;; f" := (bind e (fun p => f))
  (at level 61, p pattern, e at next level, right associativity) : py_scope.
Notation "e ;;; f" := (bind e (fun _ : unit => f)) (at level 61, right associativity) : py_scope.
Open Scope py_scope.

(** [m] terminates normally with warnings [w] and a value satisfying [P] *)
Definition returns {A} (m : M A) (w : list warning) (P : A -> Prop) : Prop :=
  exists a, m = (w, inl a) /\ P a.

(** [m] raises [e] *)
Definition raises {A} (m : M A) (e : exn) : Prop := snd m = inr e.
