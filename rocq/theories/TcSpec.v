(** * Specification of the throttle constraints *)
From Coq Require Import Reals List.
Import ListNotations.

(** replace the j-th entry *)
Definition replace_nth (l : list R) (j : nat) (x : R) : list R := firstn j l ++ x :: skipn (S j) l.
(** |u_i|^2 - 1 of a throttle list *)
Definition throttle_norm (th : list R) (i : nat) : R :=
  (nth (3 * i) th 0 * nth (3 * i) th 0 + nth (3 * i + 1) th 0 * nth (3 * i + 1) th 0 + nth (3 * i + 2) th 0 * nth (3 * i + 2) th 0 - 1)%R.

