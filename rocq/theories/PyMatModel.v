(** * The matrices Python receives
    pykep/core.cpp 336-369 (propagate_lagrangian, propagate_lagrangian_v), 390-440 (stark_problem.propagate_var), 506-571
    (sims_flanagan.compute_mc_grad, compute_tc_grad), 631-696 (the same of sims_flanagan_hf), src/stark_problem.cpp 60-91.
    Simplifications: double arithmetic is replaced by exact real arithmetic; a numpy array of two dimensions is the list of its
    rows; the transfer of the buffer's ownership to a capsule is not modelled (the buffer is a fresh copy each time). *)
From Coq Require Import ZArith Reals List Bool.
From Verif Require Import Outcome Vec3 TwoBodyModel DynModel SfModel HfGradModel TcModel.
Import ListNotations.
Open Scope Z_scope.
Open Scope outcome_scope.

(** py::array_t<double>(ShapeContainer{rows, cols}, data, capsule): a view in C order over a buffer, without a check of its
    length; an array that is larger than the buffer reads outside of it *)
Fixpoint np2 (rows cols : nat) (data : list R) : outcome (list (list R)) :=
  match rows with
  | O => Ret []
  | S k => if (length data <? cols)%nat then UB else r <- np2 k cols (skipn cols data) ;; Ret (firstn cols data :: r)
  end.

(** core.cpp 336-366: ([r, v], stm) or (r, v) *)
Inductive py_lagrangian := RvStm (rv : vec * vec) (stm : list (list R)) | Rv (r v : vec).
Definition py_propagate_lagrangian newton (rv : vec * vec) (tof mu : R) (stm : bool) : outcome py_lagrangian :=
  x <- propagate_lagrangian newton rv tof mu stm ;;
  match snd x with
  | Some m => a <- np2 6 6 m ;; Ret (RvStm (fst x) a)
  | None => Ret (Rv (fst (fst x)) (snd (fst x)))
  end.
(** 368-369: std::optional<std::array<double, 36>> becomes None or the list of the 36 numbers *)
Definition py_propagate_lagrangian_v newton (rv : vec * vec) (tofs : list R) (mu : R) (stm : bool) : outcome (list ((vec * vec) * option (list R))) :=
  propagate_lagrangian_v newton rv tofs mu stm.

(** src/stark_problem.cpp 83-88: row i of an array is [w] numbers of the integrator's state from [first + 10 i] *)
Fixpoint rows_of (k : nat) (i : Z) (w first : Z) (s : list R) : outcome (list R) :=
  match k with
  | O => Ret []
  | S k' => a <- cut s (first + 10 * i) (first + 10 * i + w) ;; r <- rows_of k' (i + 1) w first s ;; Ret (a ++ r)
  end.
(** 60-91; [vars] is m_var_ic, and [mu], [veff] the first two parameters of the integrator (C35) *)
Definition stark_propagate_var (tas_var : list R -> R -> R -> list R -> option (list R)) (vars : list R) (mu veff : R) (x u : list R) (tof : R) :
  outcome (list R * list R * list R) :=
  if Req_EM_T (nth 6 x 0%R) 0 then Throw DomainError else
  s <- run tas_var (mu :: veff :: u) 0 tof (x ++ vars) ;;
  y <- cut s 0 7 ;; a <- rows_of 7 0 7 7 s ;; b <- rows_of 7 0 3 14 s ;; Ret (y, a, b).
(** core.cpp 390-440 *)
Definition py_propagate_var tas_var vars (mu veff : R) (x u : list R) (tof : R) : outcome (list R * list (list R) * list (list R)) :=
  r <- stark_propagate_var tas_var vars mu veff x u tof ;;
  let '(y, a, b) := r in A <- np2 7 7 a ;; B <- np2 7 3 b ;; Ret (y, A, B).

(** 506-548 and 631-673; the number of columns is computed in unsigned arithmetic *)
Definition three (nseg : Z) (A B G : list R) : outcome (list (list R) * list (list R) * list (list R)) :=
  a <- np2 7 7 A ;; b <- np2 7 7 B ;; g <- np2 7 (Z.to_nat (u32 (u32 (nseg * 3) + 1))) G ;; Ret (a, b, g).
(** None: the arrays contain NaN (SfModel.v) *)
Definition py_mc_grad newton (l : sf) : outcome (option (list (list R) * list (list R) * list (list R))) :=
  r <- SfModel.compute_mc_grad newton l ;;
  match r with None => Ret None | Some (A, B, G) => x <- three (s_nseg l) A B G ;; Ret (Some x) end.
Definition py_mc_grad_hf tas_var (l : hg) : outcome (list (list R) * list (list R) * list (list R)) :=
  r <- HfGradModel.compute_mc_grad tas_var l ;; let '(A, B, G) := r in three (g_nseg l) A B G.
(** 549-571 and 674-696, the same for both classes; [n] is get_nseg() and [th] the throttles *)
Definition py_tc_grad (n : Z) (th : list R) : outcome (list (list R)) :=
  g <- compute_tc_grad n th ;; np2 (Z.to_nat n) (Z.to_nat (u32 (n * 3))) g.
