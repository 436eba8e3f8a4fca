(** * Planets written in Python and the Python face of a planet
    pykep/python_udpla.cpp 28-154, common_utils.cpp 49-108, common_utils.hpp 99-112, core.cpp 209-240, _patch_planet.py.
    Simplifications: a Python object is the record of the attributes the wrapper looks at; a method's outcome includes the
    conversion of what it returns (a value of the wrong type is an exception of pybind11).  TypeError is [InvalidArgument],
    NotImplementedError is [NotImplemented].  str() of an object or of a type does not raise.  Attributes do not change. *)
From Coq Require Import ZArith List Bool String.
From Verif Require Import Outcome Float64 PlanetModel.
Import ListNotations.
Open Scope Z_scope.
Open Scope outcome_scope.

(** an attribute: missing, present but not callable, or a method *)
Inductive attr (A : Type) := Absent | NotCallable | Method (f : A).
Arguments Absent {A}. Arguments NotCallable {A}. Arguments Method {A} f.
(** what kind of thing is passed as udpla: an instance of some class, a pykep.planet, a class *)
Inductive okind := Instance | IsPlanet | IsType.
Record pyobj := mk_pyobj {
  o_kind : okind; o_class : nat; (* the identity of type(o) *)
  o_type_name : string; (* str(type(o)) *)
  o_eph : attr (double -> outcome posvel);
  o_eph_v : attr (list double -> outcome (list double)); (* the array returned, flattened (python_udpla.cpp 63-65) *)
  o_mu : attr (outcome double); o_mu_self : attr (outcome double); o_radius : attr (outcome double); o_safe_radius : attr (outcome double);
  o_name : attr (outcome string); o_extra : attr (outcome string);
  o_period : attr (double -> outcome double);
  o_elements : attr (double -> etype -> outcome (list double)) }.

(** common_utils.cpp 49-58 *)
Definition callable_attribute {A} (a : attr A) : option A := match a with Method f => Some f | _ => None end.
(** common_utils.hpp 104-112 *)
Definition getter_wrapper {A} (a : attr (outcome A)) (def : A) : outcome A :=
  match callable_attribute a with None => Ret def | Some m => m end.

Section Wrapper.
Variable ic2par : posvel -> double -> list double.
Variable f2m : double -> double -> double.
Variable par2eq : list double -> bool -> list double.
Variable two_pi : double.  (* kep3::pi * 2. *)

(** python_udpla.cpp 45-56 *)
Definition w_eph (o : pyobj) (t : double) : outcome posvel :=
  match callable_attribute (o_eph o) with None => Throw NotImplemented | Some f => f t end.
(** 59-70; default_eph_vectorization only calls eph *)
Definition w_eph_v (o : pyobj) (ts : list double) : outcome (list double) :=
  match callable_attribute (o_eph_v o) with
  | Some f => f ts
  | None => default_eph_v (mk_udpla (w_eph o) None None None None None None None None None) ts
  end.
(** 72-95 *)
Definition w_name (o : pyobj) := getter_wrapper (o_name o) (o_type_name o).
Definition w_extra (o : pyobj) := getter_wrapper (o_extra o) EmptyString.
Definition w_mu (o : pyobj) := getter_wrapper (o_mu o) (d_of_Z (-1)).
Definition w_mu_self (o : pyobj) := getter_wrapper (o_mu_self o) (d_of_Z (-1)).
Definition w_radius (o : pyobj) := getter_wrapper (o_radius o) (d_of_Z (-1)).
Definition w_safe_radius (o : pyobj) := getter_wrapper (o_safe_radius o) (d_of_Z (-1)).
(** 96-129 *)
Definition w_period (o : pyobj) (t : double) : outcome double :=
  match callable_attribute (o_period o) with
  | None =>
      match callable_attribute (o_mu o) with
      | None => Throw NotImplemented
      | Some _ =>
          pv <- w_eph o t ;;
          mu <- w_mu o ;;
          let '((r0, r1, r2), (v0, v1, v2)) := pv in
          let R := dsqrt (dadd (dadd (dmul r0 r0) (dmul r1 r1)) (dmul r2 r2)) in
          let vsq := dadd (dadd (dmul v0 v0) (dmul v1 v1)) (dmul v2 v2) in
          let en := dsub (ddiv vsq (d_of_Z 2)) (ddiv mu R) in
          if dgtb en dzero then Ret dnan
          else let a := ddiv (ddiv (BinarySingleNaN.Bopp mu) (d_of_Z 2)) en in
               Ret (dmul two_pi (dsqrt (ddiv (dmul (dmul a a) a) mu)))
      end
  | Some f => f t
  end.
(** 131-152 *)
Definition w_elements (o : pyobj) (t : double) (et : etype) : outcome (list double) :=
  match callable_attribute (o_elements o) with
  | Some f => f t et
  | None =>
      match callable_attribute (o_mu o) with
      | Some _ => pv <- w_eph o t ;; mu <- w_mu o ;; elements_from_posvel ic2par f2m par2eq pv mu et
      | None => Throw NotImplemented
      end
  end.
(** the class python_udpla has every method, python_udpla.hpp *)
Definition wrap (o : pyobj) : udpla :=
  mk_udpla (w_eph o) (Some (w_eph_v o)) (Some (w_mu o)) (Some (w_mu_self o)) (Some (w_radius o)) (Some (w_safe_radius o))
           (Some (w_name o)) (Some (w_extra o)) (Some (w_period o)) (Some (w_elements o)).

(** planet(o) for a Python object: core.cpp 266, python_udpla.cpp 30-42, common_utils.cpp 85-108 *)
Definition py_planet (o : pyobj) : outcome udpla :=
  match o_kind o with
  | IsPlanet => Throw InvalidArgument
  | IsType => Throw InvalidArgument
  | Instance => match callable_attribute (o_eph o) with None => Throw NotImplemented | Some _ => Ret (wrap o) end
  end.
End Wrapper.

(** planet.eph_v as seen from Python, core.cpp 210-234: an array of shape (number of dates, 6) over the data of the returned
    vector.  Reading an entry beyond the vector is undefined; the array exposes it, so the call is counted as undefined. *)
Fixpoint chunk6 (n : nat) (l : list double) : outcome (list (list double)) :=
  match n with
  | O => Ret []
  | S k => if (List.length l <? 6)%nat then UB else r <- chunk6 k (skipn 6 l) ;; Ret (firstn 6 l :: r)
  end.
Definition bind_eph_v (p : udpla) (ts : list double) : outcome (list (list double)) :=
  r <- eph_v p ts ;; chunk6 (List.length ts) r.

(** what a planet holds: an exposed C++ udpla of class [k], or a Python object *)
Inductive held := Cpp (k : nat) | Py (o : pyobj).
(** the argument of extract: something that is not a type, an exposed C++ udpla class, any other class; class 0 is [object] *)
Inductive tyarg := NotAType | CppClass (k : nat) | PyClass (c : nat).
(** _patch_planet.py 54-67; [Some h] is the udpla, [None] is None.  _py_extract gives None for a C++ udpla, and
    type(None) == t returns that None *)
Definition extract (h : held) (t : tyarg) : outcome (option held) :=
  match t with
  | NotAType => Throw InvalidArgument
  | CppClass k => match h with Cpp k' => if (k =? k')%nat then Ret (Some h) else Ret None | Py _ => Ret None end
  | PyClass c => match h with Py o => if (o_class o =? c)%nat then Ret (Some h) else Ret None | Cpp _ => Ret None end
  end.
(** 70-88 *)
Definition is_ (h : held) (t : tyarg) : outcome bool :=
  r <- extract h t ;; Ret (match r with None => false | Some _ => true end).
