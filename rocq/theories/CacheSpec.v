(** * What is expected of the caches *)
From Coq Require Import List Bool Arith.
From Verif Require Import CacheModel.
Import ListNotations.

Section Spec.
Variable K V : Type.

(** two threads about to access the same cache, at least one of them writing *)
Definition race (s : st K V) : Prop :=
  exists i j c w, i <> j /\ access (pcs s i) = Some (c, true) /\ access (pcs s j) = Some (c, w).

(** no two positions of a list hold equal keys *)
Definition all_distinct (eqk : K -> K -> bool) (l : list K) : Prop :=
  forall i j a b, i < j -> nth_error l i = Some a -> nth_error l j = Some b -> eqk a b = false.

(** a returned reference designates a node that holds what [build] makes of the requested key *)
Definition ref_good (build : nat -> K -> option V) (s : st K V) (c : nat) (k : K) (n : nat) : Prop :=
  exists k' v, nth_error (cch s c) n = Some (k', v) /\ build c k = Some v.
End Spec.
Arguments race {K V}. Arguments all_distinct {K}. Arguments ref_good {K V}.
