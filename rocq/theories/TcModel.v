(** * Throttle constraints and their gradient over the reals
    src/leg/sims_flanagan.cpp 263-271, 521-530 and src/leg/sims_flanagan_hf.cpp 453-461, 754-763 (textually the same code).
    Simplification: double arithmetic is replaced by exact real arithmetic; array accesses are checked. *)
From Coq Require Import ZArith Reals List Bool.
From Verif Require Import Outcome.
Import ListNotations.
Open Scope Z_scope.
Open Scope outcome_scope.

(** operator[] on a std::vector: outside the bounds is undefined behaviour *)
Definition vget (v : list R) (i : Z) : outcome R :=
  if (0 <=? i) && (i <? Z.of_nat (length v)) then Ret (nth (Z.to_nat i) v 0%R) else UB.
Definition vset (v : list R) (i : Z) (x : R) : outcome (list R) :=
  if (0 <=? i) && (i <? Z.of_nat (length v)) then Ret (firstn (Z.to_nat i) v ++ x :: skipn (S (Z.to_nat i)) v) else UB.

(** loop body of compute_throttle_constraints, [k] iterations left *)
Fixpoint tc_loop (k : nat) (i : Z) (th ret : list R) : outcome (list R) :=
  match k with
  | O => Ret ret
  | S k' =>
      x <- vget th (3 * i) ;; y <- vget th (3 * i + 1) ;; z <- vget th (3 * i + 2) ;;
      ret' <- vset ret i (x * x + y * y + z * z - 1)%R ;;
      tc_loop k' (i + 1) th ret'
  end.
Definition compute_throttle_constraints (n : Z) (th : list R) : outcome (list R) :=
  tc_loop (Z.to_nat n) 0 th (repeat 0%R (Z.to_nat n)).

(** loop body of compute_tc_grad; indices are size_t, no wrap for n < 2^31 *)
Fixpoint tcg_loop (k : nat) (i n : Z) (th ret : list R) : outcome (list R) :=
  match k with
  | O => Ret ret
  | S k' =>
      x <- vget th (3 * i) ;; r1 <- vset ret (i * n * 3 + 3 * i) (2 * x)%R ;;
      y <- vget th (3 * i + 1) ;; r2 <- vset r1 (i * n * 3 + 3 * i + 1) (2 * y)%R ;;
      z <- vget th (3 * i + 2) ;; r3 <- vset r2 (i * n * 3 + 3 * i + 2) (2 * z)%R ;;
      tcg_loop k' (i + 1) n th r3
  end.
Definition compute_tc_grad (n : Z) (th : list R) : outcome (list R) :=
  tcg_loop (Z.to_nat n) 0 n th (repeat 0%R (Z.to_nat (n * n * 3))).
