(** * Property theorems: serialization (C33).  Only statements.
    [load fs ar o] assigns the values of the archive [ar] to the members of [o]; [save fs o] is the archive written. *)
From Coq Require Import ZArith List Bool String.
From Verif Require Import Outcome StateMonad Float64 EpochModel LegModel HfModel HfSpec HfHistProofs StarkModel JplModel SerialModel SerialProofs.
Import ListNotations.

(** Loading into any object gives back the saved object and consumes exactly what was written. *)
Theorem C33_epoch : forall o target rest, load epoch_serialize (save epoch_serialize o ++ rest) target = Some (o, rest).
Proof. exact rt_epoch. Qed.
Print Assumptions C33_epoch.
Theorem C33_keplerian : forall o target rest, load kep_serialize (save kep_serialize o ++ rest) target = Some (o, rest).
Proof. exact rt_kep. Qed.
Print Assumptions C33_keplerian.
Theorem C33_jpl_lp : forall o target rest, load jpl_serialize (save jpl_serialize o ++ rest) target = Some (o, rest).
Proof. exact rt_jpl. Qed.
Print Assumptions C33_jpl_lp.
Theorem C33_lambert : forall o target rest, load lam_serialize (save lam_serialize o ++ rest) target = Some (o, rest).
Proof. exact rt_lam. Qed.
Print Assumptions C33_lambert.
Theorem C33_stark : forall o target rest, load stark_serialize (save stark_serialize o ++ rest) target = Some (o, rest).
Proof. exact rt_stark. Qed.
Print Assumptions C33_stark.
Theorem C33_sims_flanagan : forall o target rest, load sfl_serialize (save sfl_serialize o ++ rest) target = Some (o, rest).
Proof. exact rt_sfl. Qed.
Print Assumptions C33_sims_flanagan.

(** The high-fidelity leg: the loaded leg differs from the saved one at most in the variational integrator and its
    mismatch constraints are those of the saved leg, now and after the evaluation. *)
Theorem C33_hf_partial : forall o target rest, exists l', load hf_serialize (save hf_serialize o ++ rest) target = Some (l', rest) /\
  (hf_tasv target = hf_tasv o -> l' = o) /\
  (forall integ, snd (compute_mismatch integ l') = snd (compute_mismatch integ o)).
Proof. exact hf_load_mismatch. Qed.
Print Assumptions C33_hf_partial.

(** Refuted: the variational integrator is not restored.  A leg with mu = 1 loaded into a leg with mu = 2 computes its
    gradients with mu = 2. *)
Theorem C33_hf_refuted : exists o t l', leg_mu done = Ret o /\ leg_mu d2 = Ret t /\ hf_synced o /\ hf_synced t /\
  load hf_serialize (save hf_serialize o) t = Some (l', []) /\ ~ hf_synced l'.
Proof. exact hf_load_stale. Qed.
Print Assumptions C33_hf_refuted.

Example C33_nontrivial : exists o t : stark, sk_mu o <> sk_mu t /\ load stark_serialize (save stark_serialize o) t = Some (o, []).
Proof.
  exists (stark_ctor [] done done done), (stark_ctor [] d2 done done). split; [|reflexivity].
  intros E. assert (F : deqb done d2 = true) by (change (sk_mu (stark_ctor [] done done done)) with done in E; rewrite E; vm_compute; reflexivity).
  vm_compute in F. discriminate.
Qed.
