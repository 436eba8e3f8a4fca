(** * Property theorems: stark_problem (C35) and the integrator caches (C36).  Only statements. *)
From Coq Require Import ZArith List Arith.
From Flocq Require Import Core.Core IEEE754.BinarySingleNaN.
From Verif Require Import Outcome StateMonad Float64 LegModel HfModel HfSpec HfHistProofs StarkModel StarkSpec StarkProofs CacheModel CacheSpec CacheProofs.
Import ListNotations.
Open Scope Z_scope.

(** ** C35: after every history, both propagations depend on the current mu, veff, tol and the arguments only *)
Theorem C35_history : forall integ integv var_ic, integ_dim integ -> integ_dim integv -> length var_ic = 70%nat ->
  forall tol ops mu veff s x u t, Forall sk_typed ops -> s = sk_run integ integv ops (stark_ctor var_ic mu veff tol) ->
  length x = 7%nat -> length u = 3%nat ->
  snd (propagate integ x u t s) = stark_flow integ (cur_mu ops mu) (cur_veff ops veff) tol x u t /\
  var_result (stark_flow_var integv var_ic (cur_mu ops mu) (cur_veff ops veff) tol x u t) (snd (propagate_var integv x u t s)) /\
  sk_mu s = cur_mu ops mu /\ sk_veff s = cur_veff ops veff.
Proof. exact stark_history. Qed.
Print Assumptions C35_history.

(** the two propagations return the same state, if the variational integrator extends the plain one *)
Theorem C35_same_state : forall integ integv var_ic tol ops mu veff s x u t y,
  integ_dim integ -> integ_dim integv -> length var_ic = 70%nat ->
  (forall tol p x t0 t1, length x = 7%nat -> fst (fst (integv tol p (x ++ var_ic) t0 t1)) = fst (fst (integ tol p x t0 t1)) /\
     firstn 7 (snd (fst (integv tol p (x ++ var_ic) t0 t1))) = snd (fst (integ tol p x t0 t1))) ->
  Forall sk_typed ops -> s = sk_run integ integv ops (stark_ctor var_ic mu veff tol) -> length x = 7%nat -> length u = 3%nat ->
  snd (propagate integ x u t s) = Ret y -> exists d, snd (propagate_var integv x u t s) = Ret (y, d).
Proof. exact stark_var_same_state. Qed.
Print Assumptions C35_same_state.

Example C35_nontrivial : let s := sk_run spy spy [SMu d2; SGo (repeat done 7) (repeat d2 3) done; SGo (repeat dzero 7) (repeat d2 3) done] (stark_ctor (repeat dzero 70) done done d1em16) in
  match snd (propagate spy (repeat done 7) (repeat dhalf 3) done s) with Ret y => deqb (nth 0 y dzero) d2 && deqb (nth 2 y dzero) dhalf | _ => false end%bool = true.
Proof. vm_compute. reflexivity. Qed.

(** ** C36: for every interleaving of any number of threads calling the get functions and the size function of the plain cache *)
Theorem C36_no_race_partial : forall V K eqk build s, @reach K V eqk build code_dim_lock (code_calls K) s -> ~ race s.
Proof. exact code_no_race. Qed.
Print Assumptions C36_no_race_partial.

(** with the size function of the variational cache there is a race: it locks the other mutex *)
Theorem C36_no_race_refuted : forall V K eqk (build : nat -> K -> option V) k v, build 1%nat k = Some v ->
  exists s, @reach K V eqk build code_dim_lock (any_call K) s /\ race s.
Proof. exact code_race. Qed.
Print Assumptions C36_no_race_refuted.

Theorem C36_transparent : forall K V eqk build dim_lock allowed s,
  (forall c k k', eqk k k' = true -> build c k = build c k') ->
  @reach K V eqk build dim_lock allowed s ->
  forall i r, In (i, r) (out s) ->
  match r with Ref c k n => ref_good build s c k n | Failed c k => build c k = None | Size _ _ => True end.
Proof. exact cache_transparent. Qed.
Print Assumptions C36_transparent.

Theorem C36_built_once : forall K V eqk build dim_lock allowed s, @reach K V eqk build dim_lock allowed s ->
  forall c, all_distinct eqk (built s c).
Proof. exact built_once. Qed.
Print Assumptions C36_built_once.

Theorem C36_references_stay_valid : forall K V eqk build dim_lock allowed s s', steps K V eqk build dim_lock allowed s s' ->
  forall c n x, nth_error (cch s c) n = Some x -> nth_error (cch s' c) n = Some x.
Proof. exact refs_stable. Qed.
Print Assumptions C36_references_stay_valid.

Theorem C36_no_deadlock : forall K V eqk build dim_lock allowed s i, @reach K V eqk build dim_lock allowed s -> pcs s i <> Idle ->
  exists s', @step K V eqk build dim_lock allowed s s'.
Proof. exact progress. Qed.
Print Assumptions C36_no_deadlock.

Example C36_nontrivial : forall K V eqk (build : nat -> K -> option V) k v, build 1%nat k = Some v -> eqk k k = true ->
  exists s, @reach K V eqk build code_dim_lock (code_calls K) s /\ In (0, Ref 1 k 0)%nat (out s) /\ In (1, Ref 1 k 0)%nat (out s) /\ built s 1 = [k].
Proof. intros K V. exact (two_gets V K). Qed.
