(** * stark_problem, src/stark_problem.cpp 27-125 and include/kep3/stark_problem.hpp 37-69
    [integ] / [integv] are the integrator oracles of the plain and of the variational integrator (see HfModel). *)
From Coq Require Import ZArith List Bool.
From Flocq Require Import Core.Core IEEE754.BinarySingleNaN.
From Verif Require Import Outcome StateMonad Float64 LegModel HfModel.
Import ListNotations.
Open Scope Z_scope.
Open Scope sm_scope.

Record stark := mk_stark { sk_mu : double; sk_veff : double; sk_tol : double; sk_ta : ta; sk_tav : ta; sk_ic : list double }.

Section Stark.
Variable integ integv : double -> list double -> list double -> double -> double -> bool * list double * double.
Variable var_ic : list double.

(** 27-38; [var_ic] is the initial state heyoka gives to the variational equations *)
Definition stark_ctor (mu veff tol : double) : stark :=
  let a := ta_set_pars 0 [mu; veff] (fresh_ta tol) in
  let v := ta_set_pars 0 [mu; veff] (fresh_ta_var var_ic tol) in
  mk_stark mu veff tol a v (skipn 7 (ta_state v)).

Definition s_ta (a : ta) (s : stark) : stark := mk_stark (sk_mu s) (sk_veff s) (sk_tol s) a (sk_tav s) (sk_ic s).
Definition s_tav (a : ta) (s : stark) : stark := mk_stark (sk_mu s) (sk_veff s) (sk_tol s) (sk_ta s) a (sk_ic s).
Definition sta_upd (f : ta -> ta) : sm stark unit := smodify (fun s => s_ta (f (sk_ta s)) s).
Definition stav_upd (f : ta -> ta) : sm stark unit := smodify (fun s => s_tav (f (sk_tav s)) s).

(** propagate_until on one of the two integrators; a failure throws *)
Definition run_ta (ig : double -> list double -> list double -> double -> double -> bool * list double * double) (a : ta) (t : double) : ta * outcome unit :=
  let '(ok, x, t') := ig (ta_tol a) (ta_pars a) (ta_state a) (ta_time a) t in
  (mk_ta (ta_tol a) (ta_pars a) x t', if ok then Ret tt else Throw DomainError).

Definition check_mass (x : list double) : outcome unit := guard (deqb (nth 6 x dzero) dzero) DomainError.

(** 40-58 *)
Definition propagate (x u : list double) (tof : double) : sm stark (list double) :=
  slift (check_mass x) ;;;
  sta_upd (ta_set_pars 2 u) ;;;
  sta_upd (ta_set_time dzero) ;;;
  sta_upd (ta_set_state 0 x) ;;;
  (fun s => let '(a, r) := run_ta integ (sk_ta s) tof in (s_ta a s, r)) ;;;
  (fun s => (s, slice (ta_state (sk_ta s)) 0 7)).

(** 82-87: the copies into dxdx and dxdu, [k] rows left, row [i] *)
Fixpoint var_rows (k : nat) (i : Z) (st : list double) : outcome (list double * list double) :=
  match k with
  | O => Ret ([], [])
  | S k' =>
      (a <- slice st (7 + 10 * i) (7 + 10 * i + 7) ;;
       b <- slice st (14 + 10 * i) (14 + 10 * i + 3) ;;
       r <- var_rows k' (i + 1) st ;;
       Ret (a ++ fst r, b ++ snd r))%outcome
  end.

(** 60-90 *)
Definition propagate_var (x u : list double) (tof : double) : sm stark (list double * (list double * list double)) :=
  slift (check_mass x) ;;;
  stav_upd (ta_set_pars 2 u) ;;;
  stav_upd (ta_set_time dzero) ;;;
  stav_upd (ta_set_state 0 x) ;;;
  (fun s => stav_upd (ta_set_state 7 (sk_ic s)) s) ;;;
  (fun s => let '(a, r) := run_ta integv (sk_tav s) tof in (s_tav a s, r)) ;;;
  y <-- (fun s => (s, slice (ta_state (sk_tav s)) 0 7)) ;;
  d <-- (fun s => (s, var_rows 7 0 (ta_state (sk_tav s)))) ;;
  sret (y, d).

(** 114-125 *)
Definition set_mu (v : double) : sm stark unit :=
  smodify (fun s => mk_stark v (sk_veff s) (sk_tol s) (ta_set_pars 0 [v] (sk_ta s)) (ta_set_pars 0 [v] (sk_tav s)) (sk_ic s)).
Definition set_veff (v : double) : sm stark unit :=
  smodify (fun s => mk_stark (sk_mu s) v (sk_tol s) (ta_set_pars 1 [v] (sk_ta s)) (ta_set_pars 1 [v] (sk_tav s)) (sk_ic s)).

(** a caller's history; exceptions are caught and the object is used further *)
Inductive sk_op := SMu (v : double) | SVeff (v : double) | SGo (x u : list double) (t : double) | SGoVar (x u : list double) (t : double).
Definition sk_do (o : sk_op) (s : stark) : stark :=
  match o with
  | SMu v => fst (set_mu v s)
  | SVeff v => fst (set_veff v s)
  | SGo x u t => fst (propagate x u t s)
  | SGoVar x u t => fst (propagate_var x u t s)
  end.
Definition sk_run (ops : list sk_op) (s : stark) : stark := fold_left (fun s o => sk_do o s) ops s.
End Stark.
