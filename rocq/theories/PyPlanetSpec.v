(** * What a planet made of a Python object should be
    The object counts as the set of its callable methods; no wrapper appears here. *)
From Coq Require Import ZArith List Bool String.
From Verif Require Import Outcome Float64 PlanetModel PyPlanetModel.
Import ListNotations.

Definition method {A} (a : attr A) (m : option A) : Prop := forall f, m = Some f <-> a = Method f.
(** [u] has exactly the callable methods of [o] *)
Definition same_methods (o : pyobj) (u : udpla) : Prop :=
  o_eph o = Method (u_eph u) /\ method (o_eph_v o) (u_eph_v u) /\ method (o_mu o) (u_mu u) /\ method (o_mu_self o) (u_mu_self u) /\
  method (o_radius o) (u_radius u) /\ method (o_safe_radius o) (u_safe_radius u) /\ method (o_name o) (u_name u) /\
  method (o_extra o) (u_extra u) /\ method (o_period o) (u_period u) /\ method (o_elements o) (u_elements u).

(** row [i] of a table is the state at date [i] *)
Definition table_of (f : double -> outcome posvel) (ts : list double) (tab : list (list double)) : Prop :=
  List.length tab = List.length ts /\
  forall i t, nth_error ts i = Some t -> exists x y z u v w, f t = Ret ((x, y, z), (u, v, w)) /\ nth_error tab i = Some [x; y; z; u; v; w].

(** the documented behaviour of extract, _patch_planet.py 16-24; class 0 is [object] *)
Definition extract_doc (h : held) (t : tyarg) (r : outcome (option held)) : Prop :=
  match t, h with
  | NotAType, _ => r = Throw InvalidArgument
  | CppClass k, Cpp k' => r = Ret (if (k =? k')%nat then Some h else None)
  | PyClass c, Py o => r = Ret (if orb (o_class o =? c)%nat (c =? 0)%nat then Some h else None)
  | _, _ => r = Ret None
  end.
