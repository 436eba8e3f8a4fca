(** * Serialization round trips *)
From Coq Require Import ZArith List Bool String.
From Verif Require Import Outcome StateMonad Float64 EpochModel LegModel HfModel HfSpec HfProofs HfHistProofs StarkModel SerialModel.
From Verif Require Import JplModel.
Import ListNotations.

(** loading what was saved succeeds, consumes exactly that much and produces [want] *)
Definition round_trip {O} (fs : list (field O)) (want : O -> O -> O) : Prop :=
  forall o target rest, load fs (save fs o ++ rest) target = Some (want o target, rest).

Ltac rt := intros o target rest; destruct o, target; reflexivity.

Lemma rt_epoch : round_trip epoch_serialize (fun o _ => o). Proof. rt. Qed.
Lemma rt_kep : round_trip kep_serialize (fun o _ => o). Proof. rt. Qed.
Lemma rt_jpl : round_trip jpl_serialize (fun o _ => o). Proof. rt. Qed.
Lemma rt_lam : round_trip lam_serialize (fun o _ => o). Proof. rt. Qed.
Lemma rt_stark : round_trip stark_serialize (fun o _ => o). Proof. rt. Qed.
Lemma rt_sfl : round_trip sfl_serialize (fun o _ => o). Proof. rt. Qed.

(** the high-fidelity leg keeps the variational integrator of the target *)
Definition h_tasv (v : ta) (l : hfleg) : hfleg :=
  mk_hf (hf_rvms l) (hf_vars l) (hf_thr l) (hf_thrusts l) (hf_rvmf l) (hf_tof l) (hf_T l) (hf_isp l) (hf_mu l) (hf_cut l) (hf_tol l) (hf_n l) (hf_nf l) (hf_nb l) (hf_tas l) v.
Lemma rt_hf : round_trip hf_serialize (fun o target => h_tasv (hf_tasv target) o). Proof. rt. Qed.

Section Same.
Variable integ : double -> list double -> list double -> double -> double -> bool * list double * double.
Lemma fwd_same v k : forall i l, fwd_loop integ k i (h_tasv v l) = (h_tasv v (fst (fwd_loop integ k i l)), snd (fwd_loop integ k i l)).
Proof.
  induction k as [|k IH]; intros i l; [reflexivity|]. cbn [fwd_loop]. unfold sbind.
  cbn [h_tasv hf_thrusts]. destruct (slice _ _ _) as [u| |]; [|reflexivity|reflexivity].
  unfold tas_upd, smodify, tas_propagate_until. cbn [h_tas h_tasv hf_tas hf_tasv].
  change (seg_dt (h_tas (ta_set_pars 2 u (hf_tas l)) (h_tasv v l))) with (seg_dt l).
  change (seg_dt (h_tas (ta_set_pars 2 u (hf_tas l)) l)) with (seg_dt l).
  destruct (integ _ _ _ _ _) as [[[|] x'] t']; [|reflexivity]. exact (IH (i + 1)%Z (h_tas _ l)).
Qed.
Lemma bck_same v k : forall i l, bck_loop integ k i (h_tasv v l) = (h_tasv v (fst (bck_loop integ k i l)), snd (bck_loop integ k i l)).
Proof.
  induction k as [|k IH]; intros i l; [reflexivity|]. cbn [bck_loop]. unfold sbind.
  cbn [h_tasv hf_thrusts hf_n]. destruct (slice _ _ _) as [u| |]; [|reflexivity|reflexivity].
  unfold tas_upd, smodify, tas_propagate_until. cbn [h_tas h_tasv hf_tas hf_tasv hf_tof].
  change (seg_dt (h_tas (ta_set_pars 2 u (hf_tas l)) (h_tasv v l))) with (seg_dt l).
  change (seg_dt (h_tas (ta_set_pars 2 u (hf_tas l)) l)) with (seg_dt l).
  destruct (integ _ _ _ _ _) as [[[|] x'] t']; [|reflexivity]. exact (IH (i + 1)%Z (h_tas _ l)).
Qed.
Lemma mismatch_same v l : compute_mismatch integ (h_tasv v l) = (h_tasv v (fst (compute_mismatch integ l)), snd (compute_mismatch integ l)).
Proof.
  rewrite !compute_mismatch_unfold. cbv zeta.
  change (h_tas (ta_set_state 0 (hf_rvms (h_tasv v l)) (ta_set_time dzero (hf_tas (h_tasv v l)))) (h_tasv v l))
    with (h_tasv v (h_tas (ta_set_state 0 (hf_rvms l) (ta_set_time dzero (hf_tas l))) l)).
  rewrite fwd_same. cbn [h_tasv hf_nf].
  destruct (fwd_loop integ _ 0 _) as [l2 [[]| |]]; cbn [fst snd]; try reflexivity.
  change (h_tas (ta_set_state 0 (hf_rvmf (h_tasv v l2)) (ta_set_time (hf_tof (h_tasv v l2)) (hf_tas (h_tasv v l2)))) (h_tasv v l2))
    with (h_tasv v (h_tas (ta_set_state 0 (hf_rvmf l2) (ta_set_time (hf_tof l2) (hf_tas l2))) l2)).
  cbn [h_tasv hf_nb]. rewrite bck_same.
  destruct (bck_loop integ _ 0 _) as [l4 [[]| |]]; reflexivity.
Qed.
End Same.

Definition leg_mu (mu : double) : outcome hfleg := hf_ctor [] w_rv (repeat done 6) w_rvf done done done mu done d1em16.
Lemma not_synced_of o t : hf_synced t -> deqb (hf_mu t) (hf_mu o) = false -> deqb (hf_mu o) (hf_mu o) = true -> ~ hf_synced (h_tasv (hf_tasv t) o).
Proof.
  intros [_ [[_ Ht] _]] D E [_ [[_ Ho] _]]. cbn [h_tasv hf_tasv hf_mu hf_isp] in Ho.
  rewrite Ht in Ho. injection Ho as Ho _. rewrite Ho, E in D. discriminate.
Qed.
Definition mus_ok (o t : outcome hfleg) : bool :=
  match o, t with Ret o, Ret t => negb (deqb (hf_mu t) (hf_mu o)) && deqb (hf_mu o) (hf_mu o) | _, _ => false end.
Lemma mus_ok_w : mus_ok (leg_mu done) (leg_mu d2) = true. Proof. vm_compute. reflexivity. Qed.

Lemma short6 : short (repeat done 6). Proof. unfold short. reflexivity. Qed.
Lemma hf_load_stale : exists o t l', leg_mu done = Ret o /\ leg_mu d2 = Ret t /\ hf_synced o /\ hf_synced t /\
  load hf_serialize (save hf_serialize o) t = Some (l', []) /\ ~ hf_synced l'.
Proof.
  pose proof mus_ok_w as M. unfold mus_ok in M.
  destruct (leg_mu done) as [o| |] eqn:Eo; try discriminate. destruct (leg_mu d2) as [t| |] eqn:Et; try discriminate.
  apply andb_prop in M as [M1 M2]. apply negb_true_iff in M1.
  pose proof (hf_ctor_wf _ _ _ _ _ _ _ _ _ _ _ (eq_refl : List.length w_rv = 7%nat) (eq_refl : List.length w_rvf = 7%nat) short6 Eo) as [_ [So _]].
  pose proof (hf_ctor_wf _ _ _ _ _ _ _ _ _ _ _ (eq_refl : List.length w_rv = 7%nat) (eq_refl : List.length w_rvf = 7%nat) short6 Et) as [_ [St _]].
  exists o, t, (h_tasv (hf_tasv t) o). split; [reflexivity|]. split; [reflexivity|]. split; [exact So|]. split; [exact St|]. split.
  - rewrite <- (app_nil_r (save hf_serialize o)). apply rt_hf.
  - apply not_synced_of; assumption.
Qed.

Lemma hf_load_mismatch : forall o target rest, exists l', load hf_serialize (save hf_serialize o ++ rest) target = Some (l', rest) /\
  (hf_tasv target = hf_tasv o -> l' = o) /\
  (forall integ, snd (compute_mismatch integ l') = snd (compute_mismatch integ o)).
Proof.
  intros o t rest. exists (h_tasv (hf_tasv t) o). split; [apply rt_hf|]. split.
  - intros E. rewrite E. destruct o; reflexivity.
  - intros integ. rewrite mismatch_same. reflexivity.
Qed.
