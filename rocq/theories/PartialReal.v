(** * Real-number operations that may fail to give a number
    Simplification: doubles are real numbers (no rounding).  [None] stands for a NaN or an infinity; every operation
    on [None] is [None], so a result [Some x] says that no such value appeared on the way. *)
From Coq Require Import Reals.
Open Scope R_scope.

Definition obind {A B} (m : option A) (f : A -> option B) : option B := match m with Some x => f x | None => None end.
Declare Scope partial_scope.
Delimit Scope partial_scope with partial.
Notation "x <-? m ;; f" := (obind m (fun x => f)) (at level 61, m at next level, right associativity) : partial_scope.
Open Scope partial_scope.

(** the C++ operators: / (fails for a zero divisor), std::sqrt, std::acos, std::asin *)
Definition pdiv (a b : R) : option R := if Req_EM_T b 0 then None else Some (a / b).
Definition psqrt (a : R) : option R := if Rle_dec 0 a then Some (sqrt a) else None.
Definition pacos (a : R) : option R := if Rle_dec (-1) a then if Rle_dec a 1 then Some (acos a) else None else None.
Definition pasin (a : R) : option R := if Rle_dec (-1) a then if Rle_dec a 1 then Some (asin a) else None else None.

Lemma pdiv_some a b : b <> 0 -> pdiv a b = Some (a / b).
Proof. intros H. unfold pdiv. destruct (Req_EM_T b 0); [contradiction|reflexivity]. Qed.
Lemma pdiv_none a : pdiv a 0 = None.
Proof. unfold pdiv. destruct (Req_EM_T 0 0); [reflexivity|contradiction n; reflexivity]. Qed.
Lemma psqrt_some a : 0 <= a -> psqrt a = Some (sqrt a).
Proof. intros H. unfold psqrt. destruct (Rle_dec 0 a); [reflexivity|contradiction]. Qed.
Lemma pacos_some a : -1 <= a <= 1 -> pacos a = Some (acos a).
Proof. intros [H H']. unfold pacos. destruct (Rle_dec (-1) a); [|contradiction]. destruct (Rle_dec a 1); [reflexivity|contradiction]. Qed.
Lemma pasin_some a : -1 <= a <= 1 -> pasin a = Some (asin a).
Proof. intros [H H']. unfold pasin. destruct (Rle_dec (-1) a); [|contradiction]. destruct (Rle_dec a 1); [reflexivity|contradiction]. Qed.
