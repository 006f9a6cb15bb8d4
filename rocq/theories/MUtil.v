(** * Model of /repo/src/nvector/util.py *)
From Coq Require Import List Arith Bool Reals String Ascii ZArith QArith Qreals.
From Verif Require Import Num Py Nd.
Import ListNotations.
Local Open Scope R_scope.

(** util.py 18-19: [_EPS = np.finfo(float).eps = 2^-52], [_TINY = np.finfo(float).tiny = 2^-1022] *)
Definition EPS : num := Fin (/ (2 ^ 52)).
(** _TINY, util.py 19 *)
Definition TINY : num := Fin (/ (2 ^ 1022)).

(** ** array_to_list_dict, util.py 74-103 *)
(** Python values as far as array_to_list_dict distinguishes them.
    [VArr l] is any object with a [.tolist()] method (numpy array or numpy scalar),
    represented by the value its tolist() returns; [VLeaf] is everything else. *)
Inductive pyval : Type :=
| VDict (kv : list (string * pyval))
| VList (l : list pyval)
| VTuple (l : list pyval)
| VArr (tolist : tl_val)
| VLeaf (id : Z)
with tl_val : Type :=          (** what ndarray.tolist() can return: nested lists of plain leaves *)
| TLeaf (id : Z)
| TList (l : list tl_val).

(** the value obj.tolist() returned, util.py 99-100 *)
Fixpoint of_tl (t : tl_val) : pyval :=
  match t with TLeaf i => VLeaf i | TList l => VList (map of_tl l) end.

(** util.py 93-103.  The function updates a dict argument in place and returns it;
    the model returns the new contents (the in-place update is modelled in [MHeap.v]). *)
Fixpoint array_to_list_dict (d : pyval) : pyval :=
  match d with
  | VDict kv => VDict (map (fun p => (fst p, array_to_list_dict (snd p))) kv)  (* 93-95 *)
  | VList l | VTuple l => VList (map array_to_list_dict l)                     (* 96-97 *)
  | VArr t => of_tl t                                                          (* 98-100 *)
  | VLeaf i => VLeaf i                                                         (* 101-102 *)
  end.

(** ** isclose / allclose, util.py 106-239 *)
(** One element pair. util.py 169-178: finite pairs use
    np.isclose(a, b, rtol=0, atol=abs_tol), i.e. [abs(a-b) <= abs_tol + 0*abs(b)],
    the others np.isclose(a, b, equal_nan=...), i.e. [a == b] or both NaN. *)
Definition isclose1 (rtol atol : num) (equal_nan : bool) (a b : num) : bool :=
  if isfinite a && isfinite b then
    let abs_tol := nmax atol (nmul rtol (nmax (nabs a) (nabs b))) in      (* 174 *)
    nle (nabs (nsub a b)) (nadd abs_tol (nmul (Fin 0) (nabs b)))          (* 175 *)
  else
    (isnan a && isnan b && equal_nan) || neqb a b.                        (* 177 *)

(** util.py 106-178; broadcasting as np.broadcast_arrays on line 169 *)
Definition isclose (a b : arr num) (rtol atol : num) (equal_nan : bool) : M (arr bool) :=
  map2 (isclose1 rtol atol equal_nan) a b.

(** util.py 181-239 *)
Definition allclose (a b : arr num) (rtol atol : num) (equal_nan : bool) : M bool :=
  c <- isclose a b rtol atol equal_nan ;; ret (all_ c).

(** ** _check_length_deviation, util.py 242-257 (default limit=0.1) *)
Definition check_length_deviation (n_E : arr num) : M Datatypes.unit :=
  c <- col0 n_E ;;
  nrm <- norm0 c ;;
  let length_deviation := nabs (nsub (item nrm) (Fin 1)) in               (* 254 *)
  if nlt (Fin (1 / 10)) length_deviation then warn WLength else ret tt.   (* 255-257 *)

(** ** deg / rad, util.py 260-321 *)
Definition rad2deg (x : num) : num := nmul x (Fin (180 / PI)).
(** np.deg2rad on one number, util.py 318-321 *)
Definition deg2rad (x : num) : num := nmul x (Fin (PI / 180)).

(** value of a function returning one object for one argument and a tuple otherwise *)
Inductive one_or_tuple (A : Type) := One (a : A) | Tuple (l : list A).
Arguments One {A}. Arguments Tuple {A}.

(** deg, util.py 260-288 *)
Definition deg (args : list (arr num)) : one_or_tuple (arr num) :=
  match args with
  | [x] => One (map1 rad2deg x)                    (* 287-288 *)
  | _ => Tuple (map (map1 rad2deg) args)           (* 289 *)
  end.

(** rad, util.py 291-321 *)
Definition rad (args : list (arr num)) : one_or_tuple (arr num) :=
  match args with
  | [x] => One (map1 deg2rad x)                    (* 319-320 *)
  | _ => Tuple (map (map1 deg2rad) args)           (* 321 *)
  end.

(** one-argument uses *)
Definition deg1 (x : arr num) : arr num := map1 rad2deg x.
(** rad of one array, util.py 318-321 *)
Definition rad1 (x : arr num) : arr num := map1 deg2rad x.

(** ** mdot, util.py 324-392 *)
Definition mdot (a b : arr num) : M (arr num) := einsum_ij_jk a b.

(** ** nthroot, util.py 395-413, for a positive integer n *)
(** lines 412-413, for the value [y] computed by the power on line 411 *)
Definition nthroot_step (n : nat) (x y : num) : num :=
  if negb (neqb x (Fin 0)) && nlt (nmul EPS (nabs x)) (Fin 1) then             (* 412 *)
    nsub y (ndiv (nsub (npow y n) x) (nmul (Fin (INR n)) (npow y (n - 1))))    (* 413 *)
  else y.
Definition nthroot1 (n : nat) (x : num) : num := nthroot_step n x (nroot x n). (* 411 *)
Definition nthroot (x : arr num) (n : nat) : arr num := map1 (nthroot1 n) x.

(** ** Ellipsoids, util.py 20-71 and 416-473 *)
(** the decimal literals are kept exact, as rationals *)
Record ellipsoid := Ellipsoid { el_a : Q; el_f : Q; el_name : string }.

(** a decimal literal of the table, util.py 22-41 *)
Definition dec (m : Z) (k : nat) : Q := (inject_Z m / inject_Z (10 ^ Z.of_nat k))%Q.

Local Open Scope string_scope.
(** util.py 22-42 *)
Definition ELLIPSOID (i : Z) : option ellipsoid :=
  (match i with
  | 1 => Some (Ellipsoid (dec 63775633960 4) (1 / dec 2993249646 7) "Airy 1858")
  | 2 => Some (Ellipsoid (dec 6377340189 3) (1 / dec 2993249646 7) "Airy Modified")
  | 3 => Some (Ellipsoid (dec 6378160 0) (1 / dec 29825 2) "Australian National")
  | 4 => Some (Ellipsoid (dec 6377397155 3) (1 / dec 2991528128 7) "Bessel 1841")
  | 5 => Some (Ellipsoid (dec 6378249145 3) (1 / dec 293465 3) "Clarke 1880")
  | 6 => Some (Ellipsoid (dec 6377276345 3) (1 / dec 3008017 4) "Everest 1830")
  | 7 => Some (Ellipsoid (dec 6377304063 3) (1 / dec 3008017 4) "Everest Modified")
  | 8 => Some (Ellipsoid (dec 63781660 1) (1 / dec 2983 1) "Fisher 1960")
  | 9 => Some (Ellipsoid (dec 63781500 1) (1 / dec 2983 1) "Fisher 1968")
  | 10 => Some (Ellipsoid (dec 63782700 1) (1 / dec 297 0) "Hough 1956")
  | 11 => Some (Ellipsoid (dec 63783880 1) (1 / dec 297 0) "International (Hayford)/European Datum (ED50)")
  | 12 => Some (Ellipsoid (dec 63782450 1) (1 / dec 2983 1) "Krassovsky 1938")
  | 13 => Some (Ellipsoid (dec 6378145 0) (1 / dec 29825 2) "NWL-9D  (WGS 66)")
  | 14 => Some (Ellipsoid (dec 6378160 0) (1 / dec 29825 2) "South American 1969 (SAD69")
  | 15 => Some (Ellipsoid (dec 6378136 0) (1 / dec 298257 3) "Soviet Geod. System 1985")
  | 16 => Some (Ellipsoid (dec 6378135 0) (1 / dec 29826 2) "WGS 72")
  | 17 => Some (Ellipsoid (dec 63782064 1) (1 / dec 2949786982138 10) "Clarke 1866    (NAD27)")
  | 18 => Some (Ellipsoid (dec 63781370 1) (1 / dec 298257223563 9) "GRS80 / WGS84  (NAD83)")
  | 19 => Some (Ellipsoid (dec 6378137 0) (dec 298257222101 9) "ETRS89")   (* sic: f is not 1/298.257... *)
  | _ => None
  end)%Z%Q.

(** util.py 43-71 *)
Definition ELLIPSOID_IX : list (string * Z) :=
  [("airy1858", 1); ("airymodified", 2); ("australiannational", 3); ("bessel", 4);
   ("bessel1841", 4); ("clarke1880", 5); ("everest1830", 6); ("everestmodified", 7);
   ("fisher1960", 8); ("fisher1968", 9); ("hough1956", 10); ("hough", 10);
   ("international", 11); ("hayford", 11); ("ed50", 11); ("krassovsky", 12);
   ("krassovsky1938", 12); ("nwl-9d", 13); ("wgs66", 13); ("southamerican1969", 14);
   ("sad69", 14); ("sovietgeod.system1985", 15); ("wgs72", 16); ("clarke1866", 17);
   ("nad27", 17); ("grs80", 18); ("wgs84", 18); ("nad83", 18)]%Z.

(** dict.get on string keys *)
Fixpoint lookup (k : string) (l : list (string * Z)) : option Z :=
  match l with
  | [] => None
  | (k', v) :: l' => if String.eqb k k' then Some v else lookup k l'
  end.

(** str.lower() on ASCII characters (simplification: other characters are kept) *)
Definition lower_ascii (c : ascii) : ascii :=
  let n := nat_of_ascii c in
  if (65 <=? n)%nat && (n <=? 90)%nat then ascii_of_nat (n + 32) else c.
(** str.lower, util.py 466-467 *)
Fixpoint lower (s : string) : string :=
  match s with EmptyString => EmptyString | String c s' => String (lower_ascii c) (lower s') end.

(** s.replace(' ', '') *)
Fixpoint remove_spaces (s : string) : string :=
  match s with
  | EmptyString => EmptyString
  | String c s' =>
      if Ascii.eqb c " "%char then remove_spaces s' else String c (remove_spaces s')
  end.

(** the argument of get_ellipsoid: a string or an integer (other types are not modelled) *)
Inductive key := KStr (s : string) | KInt (i : Z).

(** util.py 416-470.  A string not in ELLIPSOID_IX is looked up in the integer-keyed
    ELLIPSOID and hence raises KeyError; an integer is not a key of ELLIPSOID_IX. *)
Definition get_ellipsoid (name : key) : M ellipsoid :=
  match name with
  | KStr s =>
      match lookup (remove_spaces (lower s)) ELLIPSOID_IX with      (* 466-468 *)
      | Some i => match ELLIPSOID i with Some e => ret e | None => raise KeyError end   (* 470 *)
      | None => raise KeyError
      end
  | KInt i => match ELLIPSOID i with Some e => ret e | None => raise KeyError end
  end.

(** util.py 473: deprecated alias, warns and delegates *)
Definition select_ellipsoid (name : key) : M ellipsoid :=
  warn WDeprecated ;;; get_ellipsoid name.
Local Close Scope string_scope.

(** ** unit, util.py 476-510 *)
(** [current_norm + _TINY] on line 506.  The sum is a rounded binary64 sum: for every
    computed norm other than 0 it returns the norm unchanged (theorem
    [C60_tiny_is_absorbed] in the binary64 file), so the model uses the rounded result. *)
Definition add_tiny (x : num) : num := if is_zero x then TINY else x.

(** unit, util.py 476-511 *)
Definition nv_unit (vector : arr num) (norm_zero_vector : num) : M (arr num) :=
  current_norm <- norm0_keep vector ;;                                          (* 504 *)
  let idx := fun j => neqb (get current_norm [0%nat; j]) (Fin 0) in             (* 505 *)
  unit_vector <- map2 ndiv vector (map1 add_tiny current_norm) ;;               (* 506 *)
  (* 508-509: unit_vector[:, idx] = 0 * nzv;  unit_vector[0, idx] = 1 * nzv *)
  set_cols unit_vector idx
    (fun i => if (i =? 0)%nat then nmul (Fin 1) norm_zero_vector
              else nmul (Fin 0) norm_zero_vector).
