(** * Histories: library objects in a store, with identity, sharing and in-place update

    [MObjects] models objects as values.  Here the objects live in a store, attributes that
    hold another object are references, and a history is a list of method calls.  What a call
    computes is what the corresponding function of [MObjects] computes from the current contents
    of the store; which objects it creates, returns or overwrites is modelled here.
    Simplifications: warnings are not tracked; FrameE objects are values (no method of the
    library assigns to an attribute of a FrameE); numpy arrays are values (no method of objects.py
    assigns to elements of an array it was given: Nvector.unit, objects.py 579-581, binds a new array). *)
From Coq Require Import String List Arith Reals.
From Verif Require Import Num Py Nd MUtil MRotation MCore MObjects.
Import ListNotations.

(** a name of an object (an address) *)
Definition ref := nat.

(** the attributes of an object; [ref]: attribute holding another object of the store *)
Inductive cell :=
| CGeo (g : geoPoint)                                   (* objects.py 206-210 *)
| CNv (v : nvector)                                     (* 465-468 *)
| CEcef (e : ecef)                                      (* 746-747 *)
| CPv (p : arr num) (frame : ref) (scalar : bool)       (* 633-638 *)
| CFrameN (nv : ref)                                    (* 1421-1423 *)
| CFrameL (nv : ref) (wander_azimuth : arr num)         (* 1474-1476 *)
| CFrameB (nv : ref) (yaw pitch roll : arr num)         (* 1516-1522 *)
| CPath (point_a point_b : ref).                        (* 842-844 *)

(** all objects *)
Definition store := list cell.

(** the object at [r] as a value: a local frame / a point of any class / a path *)
Definition nv_at (h : store) (r : ref) : option nvector :=
  match nth_error h r with Some (CNv v) => Some v | _ => None end.
(** the local frame a name refers to, objects.py 1380-1537 *)
Definition local_at (h : store) (r : ref) : option local :=
  match nth_error h r with
  | Some (CFrameN n) => option_map LocalN (nv_at h n)
  | Some (CFrameL n wa) => option_map (fun v => LocalL v wa) (nv_at h n)
  | Some (CFrameB n y p q) => option_map (fun v => LocalB v y p q) (nv_at h n)
  | _ => None
  end.
(** the position a name refers to, objects.py 152-817 *)
Definition point_at (h : store) (r : ref) : option point :=
  match nth_error h r with
  | Some (CGeo g) => Some (PGeo g)
  | Some (CNv v) => Some (PNv v)
  | Some (CEcef e) => Some (PEcef e)
  | Some (CPv p fr s) => option_map (fun l => PPv (MkPv p l s)) (local_at h fr)
  | _ => None
  end.

(** the calls of a program, objects.py 43-1374: one constructor per method, with the names of its arguments *)
Inductive call :=
| NewGeo (latitude longitude z : arr num) (frame : option frameE) (degrees : bool)
| NewNv (normal z : arr num) (frame : option frameE)
| NewEcef (p : arr num) (frame : option frameE) (scalar : option bool)
| NewPv (p : arr num) (frame : ref) (scalar : option bool)
| NewFrameN (point : ref)
| NewFrameL (point : ref) (wander_azimuth : arr num)
| NewFrameB (point : ref) (yaw pitch roll : arr num) (degrees : bool)
| NewPath (point_a point_b : ref)
| ToNvector (point : ref)
| ToEcef (point : ref)
| ToGeo (point : ref)
| AttrNvector (frame : ref)                             (* frame.nvector *)
| AttrFrame (pv : ref)                                  (* pvector.frame *)
| AttrA (path : ref) | AttrB (path : ref)               (* path.point_a, path.point_b *)
| Unit (v : ref)
| Mean (v : ref)
| ChangeFrame (e fr : ref)
| DeltaE (a b : ref) | DeltaN (a b : ref) | DeltaL (a b : ref) (wander_azimuth : arr num)
| EcefAdd (a b : ref) | EcefSub (a b : ref) | EcefNeg (a : ref)
| NvAdd (a b : ref) | NvSub (a b : ref) | NvNeg (a : ref) | NvMul (a : ref) (x : arr num) | NvDiv (a : ref) (x : arr num)
| Displace (gd : solver) (g : ref) (distance azimuth : arr num) (unroll degrees : bool) (method : string)
| PathInterpolate (path : ref) (ti : arr num)
| PathIntersect (path1 path2 : ref)
| PathClosestGC (path point : ref)
| PathClosest (gi : solver) (path point : ref)
| Read (r : ref)                                        (* ==, length, distances, ...: no object is created that can be reached *).

(** the object returned (None: a call that returns no library object), or the exception *)
Definition outcome : Type := (store * (option ref + exn))%type.

(** an exception leaves the objects as they are *)
Definition fail (h : store) (e : exn) : outcome := (h, inr e).
(** a new object is put at the end of the store and returned *)
Definition new (h : store) (c : cell) : outcome := (h ++ [c], inl (Some (length h))).
(** continue with the value of [m]; an exception leaves the store as it is *)
Definition with_ {A} (h : store) (m : M A) (k : A -> outcome) : outcome :=
  match snd m with inl a => k a | inr e => fail h e end.
(** the object at [r] must have the right class *)
Definition need {A} (h : store) (o : option A) (k : A -> outcome) : outcome :=
  match o with Some a => k a | None => fail h AttributeError end.

(** the ECEFvector a name refers to, objects.py 719-817 *)
Definition ecef_at (h : store) (r : ref) : option ecef :=
  match nth_error h r with Some (CEcef e) => Some e | _ => None end.
(** the GeoPath a name refers to, objects.py 821-1174 *)
Definition path_at (h : store) (r : ref) : option geoPath :=
  match nth_error h r with
  | Some (CPath a b) => match point_at h a, point_at h b with Some p, Some q => Some (GeoPath p q) | _, _ => None end
  | _ => None
  end.

(** a new FrameN at [p]: its own new Nvector object, then the frame (1421-1423) *)
Definition new_frameN (h : store) (p : point) (mk : ref -> cell) : outcome :=
  with_ h (v <- to_nvector p ;; Nvector (n_normal v) z0 (Some (n_frame v))) (fun w =>
    (h ++ [CNv w; mk (length h)], inl (Some (S (length h))))).

(** to_nvector: an Nvector returns itself (567-575), others a new object *)
Definition to_nvector_at (h : store) (r : ref) : outcome :=
  need h (point_at h r) (fun p =>
    match p with
    | PNv _ => (h, inl (Some r))
    | _ => with_ h (to_nvector p) (fun v => new h (CNv v))
    end).
(** to_geo_point: a GeoPoint returns itself (263-272), others a new object *)
Definition to_geo_at (h : store) (r : ref) : outcome :=
  need h (point_at h r) (fun p =>
    match p with
    | PGeo _ => (h, inl (Some r))
    | _ => with_ h (to_geo_point p) (fun g => new h (CGeo g))
    end).

(** one call: the objects after it and its result or exception, objects.py 43-1374 *)
Definition step (c : call) (h : store) : outcome :=
  match c with
  | NewGeo la lo z fr d => with_ h (GeoPoint la lo z fr d) (fun g => new h (CGeo g))          (* 206-210 *)
  | NewNv n z fr => with_ h (Nvector n z fr) (fun v => new h (CNv v))                         (* 465-468 *)
  | NewEcef p fr s => with_ h (ECEFvector p fr s) (fun e => new h (CEcef e))                  (* 746-747 *)
  | NewPv p fr s => need h (local_at h fr) (fun l =>
      with_ h (Pvector p l s) (fun v => new h (CPv (p_p v) fr (p_scalar v))))                 (* 633-638 *)
  | NewFrameN r => need h (point_at h r) (fun p => new_frameN h p CFrameN)                    (* 1421-1423 *)
  | NewFrameL r wa => need h (point_at h r) (fun p => new_frameN h p (fun n => CFrameL n wa)) (* 1474-1476 *)
  | NewFrameB r y p q d =>                                                                    (* 1516-1522 *)
      (* self.nvector = point.to_nvector(): for an Nvector the very same object *)
      let '(y, p', q) := if d then (rad1 y, rad1 p, rad1 q) else (y, p, q) in
      match to_nvector_at h r with
      | (h', inl (Some n)) => new h' (CFrameB n y p' q)
      | x => x
      end
  | NewPath a b => need h (point_at h a) (fun _ => need h (point_at h b) (fun _ => new h (CPath a b)))  (* 842-844 *)
  | ToNvector r => to_nvector_at h r
  | ToEcef r => need h (point_at h r) (fun p =>
      match p with
      | PEcef _ => (h, inl (Some r))                                                          (* 775-776 *)
      | _ => with_ h (to_ecef_vector p) (fun e => new h (CEcef e))
      end)
  | ToGeo r => to_geo_at h r
  | AttrNvector r =>
      match nth_error h r with
      | Some (CFrameN n) | Some (CFrameL n _) | Some (CFrameB n _ _ _) => (h, inl (Some n))
      | _ => fail h AttributeError
      end
  | AttrFrame r => match nth_error h r with Some (CPv _ fr _) => (h, inl (Some fr)) | _ => fail h AttributeError end
  | AttrA r => match nth_error h r with Some (CPath a _) => (h, inl (Some a)) | _ => fail h AttributeError end
  | AttrB r => match nth_error h r with Some (CPath _ b) => (h, inl (Some b)) | _ => fail h AttributeError end
  | Unit r => need h (nv_at h r) (fun v =>                                                    (* 579-581 *)
      with_ h (nv_unit_inplace v) (fun w => (firstn r h ++ CNv w :: skipn (S r) h, inl None)))
  | Mean r => need h (nv_at h r) (fun v => with_ h (nv_mean v) (fun w => new h (CNv w)))       (* 583-588 *)
  | ChangeFrame e fr => need h (ecef_at h e) (fun x => need h (local_at h fr) (fun l =>
      with_ h (change_frame x l) (fun v => new h (CPv (p_p v) fr (p_scalar v)))))             (* 769-773 *)
  | DeltaE a b => need h (point_at h a) (fun p => need h (point_at h b) (fun q =>
      with_ h (delta_E p q) (fun e => new h (CEcef e))))                                      (* 43-78 *)
  | DeltaN a b => need h (point_at h a) (fun p => need h (point_at h b) (fun q =>              (* 89-103 *)
      with_ h (delta_N p q) (fun v =>
        (h ++ [CNv (l_nvector (p_frame v)); CFrameN (length h); CPv (p_p v) (S (length h)) (p_scalar v)],
         inl (Some (S (S (length h))))))))
  | DeltaL a b wa => need h (point_at h a) (fun p => need h (point_at h b) (fun q =>           (* 111-128 *)
      with_ h (delta_L p q wa) (fun v =>
        (h ++ [CNv (l_nvector (p_frame v)); CFrameL (length h) wa; CPv (p_p v) (S (length h)) (p_scalar v)],
         inl (Some (S (S (length h))))))))
  | EcefAdd a b => need h (ecef_at h a) (fun x => need h (ecef_at h b) (fun y =>
      with_ h (ecef_add x y) (fun e => new h (CEcef e))))                                     (* 806-809 *)
  | EcefSub a b => need h (ecef_at h a) (fun x => need h (ecef_at h b) (fun y =>
      with_ h (ecef_sub x y) (fun e => new h (CEcef e))))                                     (* 811-814 *)
  | EcefNeg a => need h (ecef_at h a) (fun x => with_ h (ecef_neg x) (fun e => new h (CEcef e)))  (* 816-817 *)
  | NvAdd a b => need h (nv_at h a) (fun x => need h (nv_at h b) (fun y =>
      with_ h (nv_add x y) (fun v => new h (CNv v))))                                         (* 600-602 *)
  | NvSub a b => need h (nv_at h a) (fun x => need h (nv_at h b) (fun y =>
      with_ h (nv_sub x y) (fun v => new h (CNv v))))                                         (* 604-606 *)
  | NvNeg a => need h (nv_at h a) (fun x => with_ h (nv_neg x) (fun v => new h (CNv v)))       (* 608-609 *)
  | NvMul a t => need h (nv_at h a) (fun x => with_ h (nv_mul x (AScalar t)) (fun v => new h (CNv v)))  (* 611-616 *)
  | NvDiv a t => need h (nv_at h a) (fun x => with_ h (nv_div x (AScalar t)) (fun v => new h (CNv v)))  (* 618-623 *)
  | Displace gd r d az u dg m => need h (point_at h r) (fun p =>
      match p with
      | PGeo g => with_ h (displace gd g d az u dg m) (fun x => new h (CGeo (fst x)))         (* 303-331 *)
      | _ => fail h AttributeError
      end)
  | PathInterpolate r t => need h (path_at h r) (fun pa => with_ h (path_interpolate pa t) (fun v => new h (CNv v)))  (* 1156-1174 *)
  | PathIntersect r q => need h (path_at h r) (fun pa => need h (path_at h q) (fun pb =>
      with_ h (path_intersect pa pb) (fun v => new h (CNv v))))                               (* 941-966 *)
  | PathClosestGC r q => need h (path_at h r) (fun pa => need h (point_at h q) (fun p =>
      with_ h (path_closest_point_on_great_circle pa p) (fun g => new h (CGeo g))))           (* 1062-1101 *)
  | PathClosest gi r q => need h (path_at h r) (fun pa => need h (point_at h q) (fun p =>      (* 1103-1154 *)
      (* when an end of the path is the answer and is a GeoPoint, that same object is returned;
         the model then returns a copy *)
      with_ h (closest_point_on_path gi pa p) (fun g => new h (CGeo g))))
  | Read r => need h (nth_error h r) (fun _ => (h, inl None))
  end.

(** a history: exceptions are caught by the user, who goes on with the next call *)
Fixpoint run (cs : list call) (h : store) : store :=
  match cs with
  | [] => h
  | c :: cs' => run cs' (fst (step c h))
  end.
