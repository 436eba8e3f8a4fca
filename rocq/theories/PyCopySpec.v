(** * What copies of planets, and planets that hold a kernel, should be like.  Definitions only. *)
From Coq Require Import List Arith Bool.
From Verif Require Import Outcome PyCopyModel.
Import ListNotations.
Section Spec.
Context {S C : Type}.
(** a situation that some history leads to *)
Definition reachable (counted : bool) (w : world S C) : Prop := exists os, w = exec counted os start.
(** the operation assigns to an attribute of the object at address [a] *)
Definition writes (o : op S C) (w : world S C) (a : nat) : Prop := exists v s, o = Mut v s /\ nth_error (vars w) v = Some (Some a).
Fixpoint never_writes (counted : bool) (os : list (op S C)) (w : world S C) (a : nat) : Prop :=
  match os with [] => True | o :: t => ~ writes o w a /\ never_writes counted t (exec counted [o] w) a end.
(** the ways of copying a planet *)
Inductive copies (p : nat) : op S C -> Prop := c_copy : copies p (CopyPla p) | c_deep : copies p (DeepPla p) | c_pickle : copies p (PicklePla p).
(** histories in which no udpla is copied and the user never unloads the kernel *)
Definition tidy (o : op S C) : Prop := match o with CopyObj _ | Unload => False | _ => True end.
Definition is_load (o : op S C) : bool := match o with Load => true | _ => false end.
(** de440s objects that are still alive *)
Definition is_de (x : option (obj S)) : bool := match x with Some (Obj De440 _) => true | _ => false end.
Definition live_de (w : world S C) : nat := length (filter is_de (objs w)).
End Spec.
