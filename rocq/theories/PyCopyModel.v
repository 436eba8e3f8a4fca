(** * Planets as Python objects: construction, copy, deepcopy, pickling, extraction, and the SPICE kernel held by a de440s
    (pykep/core.cpp 186-201, 269; pykep/common_utils.hpp 57-86, 116-155; pykep/python_udpla.cpp 30-43; pykep/expose_udplas.hpp 24-46;
    pykep/_patch_planet.py 43-53; pykep/udpla/_spice.py 88-113).  Definitions only.

    Simplifications.  [S] is what the attributes of a Python udpla can hold, [C] a C++ udpla (null, keplerian, jpl_lp or vsop2013: the classes
    exposed in pykep/expose_udplas.cpp 28-69 have no method that changes them).  Objects die when the last name or planet that refers to them does
    (CPython's reference counts); the objects here refer to no other object.  One kernel file, de440s.bsp, is followed. *)
From Coq Require Import List Arith Bool.
From Verif Require Import Outcome.
Import ListNotations.

(** a class of the user's, or pykep.udpla.de440s *)
Inductive kind : Set := Plain | De440.

Section World.
Context {S C B : Type}.
Record obj : Type := Obj { o_kind : kind; o_val : S }.
(** what a kep3::planet wraps: a C++ udpla by value, or a pykep::python_udpla, whose only member is the py::object [m_obj]
    (pykep/python_udpla.hpp 23-24): a reference to the Python object at an address *)
Inductive holder : Type := InCpp (c : C) | InPy (a : nat).
(** a pykep.planet instance: the wrapped planet and its __dict__ (py::dynamic_attr, core.cpp 189) *)
Record pla : Type := Pla { p_holder : holder; p_attrs : list (nat * nat) }.
(** the heap of udplas, the names bound to udplas, the names bound to planets (None: died), and how often the kernel is loaded *)
Record world : Type := W { objs : list (option obj); vars : list (option nat); plas : list (option pla); kern : nat }.
Definition start : world := W [] [] [] 0.

Definition get {A : Type} (l : list (option A)) (i : nat) : outcome A := match nth_error l i with Some (Some x) => Ret x | _ => Throw OutOfRange end.
Fixpoint upd {A : Type} (l : list A) (i : nat) (x : A) : list A :=
  match l, i with [], _ => [] | _ :: t, O => x :: t | y :: t, Datatypes.S j => y :: upd t j x end.

(** pyspice.furnsh and pyspice.unload on one file.  [counted]: SPICE keeps one entry per furnsh and unload removes one;
    otherwise a second furnsh only moves the file to the front and one unload removes it.  The theorems treat both. *)
Definition load (counted : bool) (k : nat) : nat := if counted then Datatypes.S k else 1.
Definition unload (counted : bool) (k : nat) : nat := if counted then pred k else 0.
Fixpoint unloads (counted : bool) (n k : nat) : nat := match n with O => k | Datatypes.S m => unloads counted m (unload counted k) end.

(** names and planets that refer to an object *)
Definition held (vs : list (option nat)) (ps : list (option pla)) (a : nat) : bool :=
  existsb (fun v => match v with Some b => Nat.eqb a b | None => false end) vs ||
  existsb (fun p => match p with Some (Pla (InPy b) _) => Nat.eqb a b | _ => false end) ps.
(** objects nobody refers to are destroyed; returns how many of them were de440s *)
Fixpoint sweep (h : nat -> bool) (i : nat) (l : list (option obj)) : list (option obj) * nat :=
  match l with
  | [] => ([], 0)
  | x :: t => let (t', n) := sweep h (Datatypes.S i) t in
      match x with
      | Some o => if h i then (x :: t', n) else (None :: t', match o_kind o with De440 => Datatypes.S n | Plain => n end)
      | None => (None :: t', n)
      end
  end.
(** de440s.__del__ (_spice.py 108-112) unloads the kernel for each of them *)
Definition collect (counted : bool) (w : world) : world :=
  let (os, n) := sweep (held (vars w) (plas w)) 0 (objs w) in W os (vars w) (plas w) (unloads counted n (kern w)).

Inductive op : Type :=
| NewObj (k : kind) (s : S)        (* x = cls(...); de440s.__init__ loads the kernel (_spice.py 102-106) *)
| CopyObj (v : nat)                (* y = copy.copy(x) or copy.deepcopy(x): __init__ is not run *)
| Mut (v : nat) (s : S)            (* x.attr = ... *)
| DelVar (v : nat)
| NewCpp (c : C)                   (* pk.planet(udpla), C++ udpla: py::init<const Udpla &>, expose_udplas.hpp 37 *)
| NewPla (v : nat)                 (* pk.planet(x), core.cpp 269: python_udpla(o) keeps [o] itself *)
| CopyPla (p : nat)                (* copy.copy(pl): generic_copy_wrapper returns [x] by value *)
| DeepPla (p : nat)                (* copy.deepcopy(pl): generic_deepcopy_wrapper returns [x] by value *)
| PicklePla (p : nat)              (* pickle.loads(pickle.dumps(pl)) *)
| Extract (p : nat)                (* x = pl.extract(cls) *)
| SetAttr (p : nat) (k x : nat)    (* pl.name = ... *)
| DelPla (p : nat)
| Load | Unload.                   (* pk.utils.load_spice_kernels / unload_spice_kernels on the file *)

(** copying a kep3::planet copies the wrapped value (tanuki::wrap, copy constructor of the udpla; that of python_udpla copies the reference
    m_obj); the new Python instance has an empty __dict__ *)
Definition clone (p : pla) : pla := Pla (p_holder p) [].
Definition step (counted : bool) (o : op) (w : world) : outcome world :=
  match o with
  | NewObj k s => Ret (W (objs w ++ [Some (Obj k s)]) (vars w ++ [Some (length (objs w))]) (plas w)
                         (match k with De440 => load counted (kern w) | Plain => kern w end))
  | CopyObj v => bind (get (vars w) v) (fun a => bind (get (objs w) a) (fun x =>
      Ret (W (objs w ++ [Some x]) (vars w ++ [Some (length (objs w))]) (plas w) (kern w))))
  | Mut v s => bind (get (vars w) v) (fun a => bind (get (objs w) a) (fun x =>
      Ret (W (upd (objs w) a (Some (Obj (o_kind x) s))) (vars w) (plas w) (kern w))))
  | DelVar v => bind (get (vars w) v) (fun _ => Ret (collect counted (W (objs w) (upd (vars w) v None) (plas w) (kern w))))
  | NewCpp c => Ret (W (objs w) (vars w) (plas w ++ [Some (Pla (InCpp c) [])]) (kern w))
  | NewPla v => bind (get (vars w) v) (fun a => Ret (W (objs w) (vars w) (plas w ++ [Some (Pla (InPy a) [])]) (kern w)))
  | CopyPla p | DeepPla p => bind (get (plas w) p) (fun x => Ret (W (objs w) (vars w) (plas w ++ [Some (clone x)]) (kern w)))
  (* pickle_getstate_wrapper saves the planet alone, not its __dict__; python_udpla is in no TANUKI_S11N_WRAP_EXPORT, so Boost raises an exception *)
  | PicklePla p => bind (get (plas w) p) (fun x => match p_holder x with
      | InCpp _ => Ret (W (objs w) (vars w) (plas w ++ [Some (clone x)]) (kern w)) | InPy _ => Throw RuntimeError end)
  (* generic_py_extract returns m_obj; for a C++ udpla the reference obtained can only be read *)
  | Extract p => bind (get (plas w) p) (fun x => match p_holder x with
      | InCpp _ => Ret w | InPy a => Ret (W (objs w) (vars w ++ [Some a]) (plas w) (kern w)) end)
  | SetAttr p k x => bind (get (plas w) p) (fun y => Ret (W (objs w) (vars w) (upd (plas w) p (Some (Pla (p_holder y) ((k, x) :: p_attrs y)))) (kern w)))
  | DelPla p => bind (get (plas w) p) (fun _ => Ret (collect counted (W (objs w) (vars w) (upd (plas w) p None) (kern w))))
  | Load => Ret (W (objs w) (vars w) (plas w) (load counted (kern w)))
  | Unload => Ret (W (objs w) (vars w) (plas w) (unload counted (kern w)))
  end.
(** a history: an operation that raises leaves everything as it was *)
Fixpoint exec (counted : bool) (os : list op) (w : world) : world :=
  match os with [] => w | o :: t => exec counted t (match step counted o w with Ret w' => w' | _ => w end) end.

(** what a planet answers (the whole table of answers of its methods, [B]); a de440s without its kernel answers [no_kernel] *)
Variables (cpp_ans : C -> B) (py_ans : S -> B) (no_kernel : B).
Definition obj_ans (k : nat) (o : obj) : B :=
  match o_kind o with Plain => py_ans (o_val o) | De440 => match k with O => no_kernel | _ => py_ans (o_val o) end end.
Definition answer (w : world) (p : nat) : outcome B :=
  bind (get (plas w) p) (fun x => match p_holder x with
    | InCpp c => Ret (cpp_ans c)
    | InPy a => match nth_error (objs w) a with Some (Some o) => Ret (obj_ans (kern w) o) | _ => UB end end).
Definition attr (w : world) (p k : nat) : outcome nat :=
  bind (get (plas w) p) (fun x => match List.find (fun e => Nat.eqb (fst e) k) (p_attrs x) with Some e => Ret (snd e) | None => Throw NotImplemented end).
End World.
Arguments obj : clear implicits. Arguments holder : clear implicits. Arguments pla : clear implicits. Arguments world : clear implicits. Arguments op : clear implicits.
