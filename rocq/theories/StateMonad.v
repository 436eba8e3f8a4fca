(** * State-and-outcome monad: member functions that mutate an object and may throw half way.
    The state component is what the object looks like after the call, also when it threw. *)
From Coq Require Import List.
From Verif Require Import Outcome.

Definition sm (S A : Type) : Type := S -> S * outcome A.
Definition sret {S A} (a : A) : sm S A := fun s => (s, Ret a).
Definition sbind {S A B} (m : sm S A) (f : A -> sm S B) : sm S B :=
  fun s => match m s with
           | (s', Ret a) => f a s'
           | (s', Throw e) => (s', Throw e)
           | (s', UB) => (s', UB)
           end.
(** a call that does not touch the object *)
Definition slift {S A} (o : outcome A) : sm S A := fun s => (s, o).
Definition smodify {S} (f : S -> S) : sm S unit := fun s => (f s, Ret tt).
Definition sgets {S A} (f : S -> A) : sm S A := fun s => (s, Ret (f s)).

Declare Scope sm_scope.
Delimit Scope sm_scope with sm.
Notation "x <-- m ;; f" := (sbind m (fun x => f)) (at level 61, m at next level, right associativity) : sm_scope.
Notation "m ;;; f" := (sbind m (fun _ => f)) (at level 61, right associativity) : sm_scope.
