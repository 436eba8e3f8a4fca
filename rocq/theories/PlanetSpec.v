(** * What is expected of a type-erased planet *)
From Coq Require Import ZArith List Bool String Reals.
From Verif Require Import Outcome Float64.
Import ListNotations.
Open Scope Z_scope.

(** state as six numbers *)
Definition flat (pv : (double * double * double) * (double * double * double)) : list double :=
  let '((x, y, z), (u, v, w)) := pv in [x; y; z; u; v; w].

(** concatenation of the six-number rows of [f] over a list; the first exception wins *)
Fixpoint rows {A} (f : A -> outcome ((double * double * double) * (double * double * double))) (l : list A) : outcome (list double) :=
  match l with
  | [] => Ret []
  | a :: l' =>
      match f a with
      | Ret pv => match rows f l' with Ret r => Ret (flat pv ++ r) | Throw e => Throw e | UB => UB end
      | Throw e => Throw e
      | UB => UB
      end
  end.

