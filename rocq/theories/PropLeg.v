(** * Property theorems on the Sims-Flanagan legs: C26, C27, C31, C41, C42, C45.  Only statements. *)
From Coq Require Import ZArith Reals List.
From Flocq Require Import Core.Core IEEE754.BinarySingleNaN.
From Verif Require Import Outcome StateMonad Float64 LegModel LegSpec LegProofs HfModel HfSpec HfProofs HfHistProofs LegPropProofs SetterSpec SetterProofs.
Import ListNotations.
Open Scope Z_scope.

(** ** C26: the segment split *)
Theorem C26_split : forall n c, 0 <= n < 2 ^ 32 -> unit_double c ->
  exists nf, nseg_fwd_of n c = Ret nf /\ nf = Ztrunc (round_product n c) /\ 0 <= nf <= n /\ nseg_bck_of n nf = n - nf
  /\ Zfloor (IZR n * B2R c) <= nf <= Zceil (IZR n * B2R c).
Proof. exact seg_split_all. Qed.
Print Assumptions C26_split.

Theorem C26_monotone_in_cut : forall n c d nf nf', 0 <= n < 2 ^ 32 -> unit_double c -> unit_double d -> (B2R c <= B2R d)%R ->
  nseg_fwd_of n c = Ret nf -> nseg_fwd_of n d = Ret nf' -> nf <= nf'.
Proof. exact seg_split_mono. Qed.
Print Assumptions C26_monotone_in_cut.

Theorem C26_ends : forall n, 0 <= n < 2 ^ 32 -> nseg_fwd_of n dzero = Ret 0 /\ nseg_fwd_of n done = Ret n.
Proof. exact split_ends. Qed.
Print Assumptions C26_ends.

(** "No out-of-range conversion is executed" is false: the constructor converts before it checks the cut. *)
Theorem C26_no_ub_refuted : exists rvs ms th rvf mf tof mt isp mu cut, sf_ctor rvs ms th rvf mf tof mt isp mu cut = UB.
Proof. exact ctor_ub_witness. Qed.
Print Assumptions C26_no_ub_refuted.

(** Rounding: with 49 segments and cut = 1/49 the forward part is empty. *)
Example C26_one_fortyninth : nseg_fwd_of 49 (ddiv (d_of_Z 1) (d_of_Z 49)) = Ret 0.
Proof. exact split_fraction_fails. Qed.
Example C26_nontrivial : nseg_fwd_of 10 dhalf = Ret 5 /\ nseg_bck_of 10 5 = 5.
Proof. split; vm_compute; reflexivity. Qed.

(** ** C27: every reachable leg is valid.  [op_ok] excludes the [set] member function, see the refutation below. *)
Theorem C27_reachable_valid_partial : forall rvs ms th rvf mf tof mt isp mu cut l ops, Z.of_nat (length th) < 2 ^ 32 ->
  sf_ctor rvs ms th rvf mf tof mt isp mu cut = Ret l -> Forall op_ok ops ->
  match sf_run ops l with Ret l' => valid_leg l' | Throw _ => False | UB => ~ Forall op_no_nan_cut ops end.
Proof. exact history_valid. Qed.
Print Assumptions C27_reachable_valid_partial.

Theorem C27_default_valid : valid_leg sf_default.
Proof. exact default_valid. Qed.
Print Assumptions C27_default_valid.

Theorem C27_throw_leaves_unchanged : forall o l l' e, sf_do o l = (l', Throw e) -> l' = l.
Proof. exact throw_unchanged. Qed.
Print Assumptions C27_throw_leaves_unchanged.

(** a setter that returns has stored its argument and left the other data alone; it throws exactly on the arguments out of range *)
Theorem C27_setters_store : forall o l l', sf_do o l = (l', Ret tt) -> data_of l' = wanted o (data_of l).
Proof. exact sf_stores. Qed.
Print Assumptions C27_setters_store.
Theorem C27_setters_refuse : forall o l, valid_leg l -> op_ok o -> op_no_nan_cut o ->
  match sf_do o l with (l', Ret _) => ~ refused o | (l', Throw _) => refused o /\ l' = l | (_, UB) => False end.
Proof. exact sf_answers. Qed.
Print Assumptions C27_setters_refuse.

(** [set] checks the members it is about to overwrite: a cut of 2 and a negative time of flight are accepted. *)
Theorem C27_set_refuted :
  (exists o l', sf_do o sf_default = (l', Ret tt) /\ sf_nf l' > sf_n l' /\ sf_nb l' = 2 ^ 32 - 2)
  /\ (exists o l', sf_do o sf_default = (l', Ret tt) /\ dltb (sf_tof l') dzero = true /\ lenZ (sf_thr l') mod 3 <> 0).
Proof. exact set_unchecked. Qed.
Print Assumptions C27_set_refuted.

(** NaN passes every range check. *)
Theorem C27_nan_refuted : exists l', sf_do (OpTof dnan) sf_default = (l', Ret tt) /\ is_nan (sf_tof l') = true.
Proof. exact nan_tof_accepted. Qed.
Print Assumptions C27_nan_refuted.

Example C27_nontrivial : match sf_run [OpThr (repeat dzero 9); OpCut done; OpTof dneg1; OpMu done] sf_default with
                         | Ret l' => sf_nf l' =? 3 | _ => false end = true.
Proof. vm_compute. reflexivity. Qed.

(** ** C31: a high-fidelity leg evaluates like a fresh leg with the same data, for histories of setters that leave mu, isp,
    max_thrust and tol alone and in which no [set] throws, for every integrator.  The full statement is refuted below. *)
Theorem C31_fresh_partial : forall integ var_ic rvms th rvmf tof T isp mu cut tol l es l', integ_dim integ ->
  length rvms = 7%nat -> length rvmf = 7%nat -> short th ->
  hf_ctor var_ic rvms th rvmf tof T isp mu cut tol = Ret l ->
  Forall (ev_ok (fun o => hop_ok o /\ keeps_pars o)) es -> sets_return integ es l -> hf_run integ es l = Ret l' ->
  exists l0, rebuild var_ic l' = Ret l0 /\ snd (compute_mismatch integ l') = snd (compute_mismatch integ l0).
Proof. exact hf_history_fresh. Qed.
Print Assumptions C31_fresh_partial.

(** Whatever the setters did, the integration uses the mu, isp and tol given to the constructor. *)
Theorem C31_constructor_parameters_used : forall integ var_ic rvms th rvmf tof T isp mu cut tol l es l', integ_dim integ ->
  length rvms = 7%nat -> length rvmf = 7%nat -> short th ->
  hf_ctor var_ic rvms th rvmf tof T isp mu cut tol = Ret l ->
  Forall (ev_ok hop_ok) es -> sets_return integ es l -> hf_run integ es l = Ret l' ->
  exists T', snd (compute_mismatch integ l') =
    mismatch_spec integ (hf_rvms l') (hf_thr l') (hf_rvmf l') (hf_tof l') T' isp mu tol (hf_n l') (hf_nf l').
Proof. exact hf_history_stale. Qed.
Print Assumptions C31_constructor_parameters_used.

(** After set_mu, set_isp, set_max_thrust, set_tol or the full [set], a leg need not evaluate like a fresh one. *)
Theorem C31_setters_refuted : forall o, In o [HMu d2; HIsp d2; HT d2; HTol dhalf; HSet w_rv (repeat done 6) w_rvf done done done d2 done d1em16] ->
  exists l l' l0, w_leg = Ret l /\ hf_do o l = (l', Ret tt) /\ rebuild [] l' = Ret l0 /\
  snd (compute_mismatch spy l') <> snd (compute_mismatch spy l0).
Proof. exact hf_stale_witness. Qed.
Print Assumptions C31_setters_refuted.

(** the data of the leg, as opposed to its integrators, is what was set; arguments out of range, and no others, are refused *)
Theorem C31_setters_store : forall o l l', hf_wf l -> hop_ok o -> hf_do o l = (l', Ret tt) -> hf_data_of l' = hf_wanted o (hf_data_of l).
Proof. exact hf_stores. Qed.
Print Assumptions C31_setters_store.
Theorem C31_setters_refuse : forall o l, hf_wf l -> hop_ok o -> cut_convertible o ->
  match snd (hf_do o l) with Ret _ => ~ hf_refused o | Throw _ => hf_refused o | UB => False end.
Proof. exact hf_answers. Qed.
Print Assumptions C31_setters_refuse.

(** ** C41: constraint layout *)
Theorem C41_layout : forall integ, integ_dim integ -> forall l, hf_wf l -> hf_synced l ->
  match snd (compute_mismatch integ l) with
  | Ret mc => length mc = 7%nat /\
      snd (compute_constraints integ l) =
      Ret (mc ++ map (fun j => throttle_residual (seg_throttle (hf_thr l) (Z.of_nat j))) (seq 0 (Z.to_nat (hf_n l))))
  | Throw e => snd (compute_constraints integ l) = Throw e
  | UB => False
  end.
Proof. exact constraints_layout. Qed.
Print Assumptions C41_layout.

Theorem C41_chromosome : forall integ l ch, hf_wf l -> Z.of_nat (length ch) = 7 + 3 * hf_n l + 7 + 1 ->
  let k := Z.to_nat (3 * hf_n l) in
  let rvms := firstn 7 ch in let th := firstn k (skipn 7 ch) in let rvmf := firstn 7 (skipn (7 + k) ch) in
  exists tof, skipn (7 + k + 7) ch = [tof] /\ length rvms = 7%nat /\ Z.of_nat (length th) = 3 * hf_n l /\ length rvmf = 7%nat /\
    set_and_compute_constraints integ ch l
    = sbind (hf_do (HSetShort rvms th rvmf tof)) (fun _ => compute_constraints integ) l.
Proof. exact set_and_compute_is_set. Qed.
Print Assumptions C41_chromosome.

Theorem C41_set_stores : forall rvms th rvmf tof l l', hf_do (HSetShort rvms th rvmf tof) l = (l', Ret tt) ->
  hf_rvms l' = rvms /\ hf_thr l' = th /\ hf_rvmf l' = rvmf /\ hf_tof l' = tof.
Proof. exact set_short_stores. Qed.
Print Assumptions C41_set_stores.

(** valid synchronised legs exist: every leg the constructor returns *)
Theorem C41_constructor_gives_valid : forall var_ic rvms th rvmf tof T isp mu cut tol l,
  length rvms = 7%nat -> length rvmf = 7%nat -> short th ->
  hf_ctor var_ic rvms th rvmf tof T isp mu cut tol = Ret l ->
  hf_wf l /\ hf_synced l /\ hf_rvms l = rvms /\ hf_thr l = th /\ hf_rvmf l = rvmf /\ hf_tof l = tof /\ hf_T l = T /\
  hf_isp l = isp /\ hf_mu l = mu /\ hf_cut l = cut /\ hf_tol l = tol.
Proof. exact hf_ctor_wf. Qed.
Print Assumptions C41_constructor_gives_valid.

(** ** C42: the mismatch is the difference of the two concatenated flights, whatever was computed before *)
Theorem C42_concatenated_flows : forall integ, integ_dim integ -> forall l, hf_wf l -> hf_synced l ->
  snd (compute_mismatch integ l)
  = mismatch_spec integ (hf_rvms l) (hf_thr l) (hf_rvmf l) (hf_tof l) (hf_T l) (hf_isp l) (hf_mu l) (hf_tol l) (hf_n l) (hf_nf l).
Proof. exact compute_mismatch_spec. Qed.
Print Assumptions C42_concatenated_flows.

Theorem C42_repeatable : forall integ l l1 r, integ_dim integ -> hf_wf l -> hf_synced l -> compute_mismatch integ l = (l1, r) ->
  snd (compute_mismatch integ l1) = r.
Proof. exact hf_eval_twice. Qed.
Print Assumptions C42_repeatable.

(** ** C45: every reachable high-fidelity leg can be evaluated without undefined behaviour, provided no [set] threw before *)
Theorem C45_safe_partial : forall integ var_ic rvms th rvmf tof T isp mu cut tol l es, integ_dim integ ->
  length rvms = 7%nat -> length rvmf = 7%nat -> short th ->
  hf_ctor var_ic rvms th rvmf tof T isp mu cut tol = Ret l ->
  Forall (ev_ok (fun o => hop_ok o /\ set_cut_ok o)) es -> sets_return integ es l ->
  exists l', hf_run integ es l = Ret l' /\ hf_wf l' /\ snd (compute_mismatch integ l') <> UB
    /\ exists c, compute_throttle_con l' = Ret c.
Proof. exact hf_history_safe. Qed.
Print Assumptions C45_safe_partial.

(** After a [set] that threw, evaluating the leg reads outside its thrust vector. *)
Theorem C45_set_throws_refuted : exists integ l o l' e, integ_dim integ /\ w_leg = Ret l /\ hop_ok o /\ hf_do o l = (l', Throw e) /\
  snd (compute_mismatch integ l') = UB.
Proof. exact hf_unsafe_witness. Qed.
Print Assumptions C45_set_throws_refuted.

(** the hypotheses are met: a two-segment leg, then a longer throttle vector, an evaluation, a new tof and a new cut *)
Example C31_nontrivial :
  match w_leg with
  | Ret l => match hf_run spy [Ev (HThr (repeat dhalf 9)); EvMismatch; Ev (HTof d2); Ev (HCut dhalf)] l with
             | Ret l' => (hf_n l =? 2) && (hf_nf l =? 2) && (hf_nf l' =? 1) && (hf_n l' =? 3)
             | _ => false
             end
  | _ => false
  end%bool = true.
Proof. vm_compute. reflexivity. Qed.
