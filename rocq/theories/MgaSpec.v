(** * What the encodings should mean *)
From Coq Require Import Reals List.
Import ListNotations.
Open Scope R_scope.

Fixpoint total (l : list R) : R := match l with [] => 0 | x :: r => x + total r end.
(** the fraction of the time that remains after legs that each take the fraction e_i of what is left *)
Fixpoint remaining (l : list R) : R := match l with [] => 1 | e :: r => (1 - e) * remaining r end.
(** bounds of the decision variables (get_bounds) *)
Definition in_bounds (a : R) : Prop := 1 / 1000 <= a <= 1 - 1 / 1000.
