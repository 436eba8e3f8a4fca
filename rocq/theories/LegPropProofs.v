(** * Lemmas in the exact shape of the leg property theorems *)
From Coq Require Import ZArith Reals Lra List Bool Lia ZifyBool.
From Flocq Require Import Core.Core IEEE754.BinarySingleNaN.
From Verif Require Import Outcome StateMonad Float64 Float64Facts LegModel LegSpec LegProofs HfModel HfSpec HfProofs HfHistProofs.
Import ListNotations.
Open Scope Z_scope.

Lemma seg_split_all n c : 0 <= n < 2 ^ 32 -> unit_double c ->
  exists nf, nseg_fwd_of n c = Ret nf /\ nf = Ztrunc (round_product n c) /\ 0 <= nf <= n /\ nseg_bck_of n nf = n - nf
  /\ Zfloor (IZR n * B2R c) <= nf <= Zceil (IZR n * B2R c).
Proof.
  intros Hn Hc. exists (Ztrunc (round_product n c)).
  destruct (split_correct n c Hn Hc) as [A [B C]]. pose proof (split_floor n c Hn Hc). tauto.
Qed.

Lemma seg_split_mono n c d nf nf' : 0 <= n < 2 ^ 32 -> unit_double c -> unit_double d -> (B2R c <= B2R d)%R ->
  nseg_fwd_of n c = Ret nf -> nseg_fwd_of n d = Ret nf' -> nf <= nf'.
Proof.
  intros Hn Hc Hd H E1 E2. destruct (split_correct n c Hn Hc) as [A _]. destruct (split_correct n d Hn Hd) as [B _].
  rewrite A in E1. rewrite B in E2. inversion E1; inversion E2; subst. apply split_mono; assumption.
Qed.

Definition ctor_args_ub : bool := match sf_ctor (sf_rvs sf_default) done (repeat dzero 6) (sf_rvf sf_default) done done done done done dnan with UB => true | _ => false end.
Lemma ctor_ub_witness : exists rvs ms th rvf mf tof mt isp mu cut, sf_ctor rvs ms th rvf mf tof mt isp mu cut = UB.
Proof.
  exists (sf_rvs sf_default), done, (repeat dzero 6), (sf_rvf sf_default), done, done, done, done, done, dnan.
  assert (H : ctor_args_ub = true) by (vm_compute; reflexivity). unfold ctor_args_ub in H.
  destruct (sf_ctor _ _ _ _ _ _ _ _ _ _); congruence.
Qed.

Lemma history_valid rvs ms th rvf mf tof mt isp mu cut l ops : Z.of_nat (length th) < 2 ^ 32 ->
  sf_ctor rvs ms th rvf mf tof mt isp mu cut = Ret l -> Forall op_ok ops ->
  match sf_run ops l with Ret l' => valid_leg l' | Throw _ => False | UB => ~ Forall op_no_nan_cut ops end.
Proof.
  intros Hl E Ho. pose proof (ctor_valid _ _ _ _ _ _ _ _ _ _ _ Hl E) as V.
  destruct (sf_run ops l) as [l'|e|] eqn:R.
  - eapply run_valid; eassumption.
  - exfalso. clear - R. revert l R. induction ops as [|o ops IH]; intros l R; [discriminate|].
    cbn [sf_run] in R. destruct (sf_do o l) as [l1 [u|x|]]; try discriminate; eapply IH; eassumption.
  - intros Hn. destruct (run_no_ub ops l V Ho Hn) as [l' El']. congruence.
Qed.

(** [set] validates the members it is about to overwrite *)
Definition set_bad_cut : sf_op := OpSet (repeat done 6) done (repeat dzero 6) (repeat done 6) done done done done done (d_of_Z 2).
Definition set_bad_tof : sf_op := OpSet (repeat done 6) done (repeat dzero 4) (repeat done 6) done dneg1 done done done dhalf.
Definition bad_cut_check : bool :=
  match sf_do set_bad_cut sf_default with (l', Ret _) => (sf_nf l' =? 4) && (sf_n l' =? 2) && (sf_nb l' =? 2 ^ 32 - 2) | _ => false end.
Definition bad_tof_check : bool :=
  match sf_do set_bad_tof sf_default with (l', Ret _) => dltb (sf_tof l') dzero && (lenZ (sf_thr l') =? 4) | _ => false end.
Lemma set_unchecked : (exists o l', sf_do o sf_default = (l', Ret tt) /\ sf_nf l' > sf_n l' /\ sf_nb l' = 2 ^ 32 - 2)
  /\ (exists o l', sf_do o sf_default = (l', Ret tt) /\ dltb (sf_tof l') dzero = true /\ lenZ (sf_thr l') mod 3 <> 0).
Proof.
  split.
  - assert (H : bad_cut_check = true) by (vm_compute; reflexivity). unfold bad_cut_check in H.
    exists set_bad_cut. destruct (sf_do set_bad_cut sf_default) as [l' [[]| |]]; try discriminate.
    exists l'. split; [reflexivity|]. lia.
  - assert (H : bad_tof_check = true) by (vm_compute; reflexivity). unfold bad_tof_check in H.
    exists set_bad_tof. destruct (sf_do set_bad_tof sf_default) as [l' [[]| |]]; try discriminate.
    exists l'. split; [reflexivity|]. apply andb_true_iff in H as [H1 H2]. split; [exact H1|].
    apply Z.eqb_eq in H2. rewrite H2. discriminate.
Qed.

Lemma nan_tof_accepted : exists l', sf_do (OpTof dnan) sf_default = (l', Ret tt) /\ is_nan (sf_tof l') = true.
Proof. eexists. split; reflexivity. Qed.

(** ** high fidelity *)
Lemma hf_history_fresh integ var_ic rvms th rvmf tof T isp mu cut tol l es l' : integ_dim integ ->
  length rvms = 7%nat -> length rvmf = 7%nat -> short th ->
  hf_ctor var_ic rvms th rvmf tof T isp mu cut tol = Ret l ->
  Forall (ev_ok (fun o => hop_ok o /\ keeps_pars o)) es -> sets_return integ es l -> hf_run integ es l = Ret l' ->
  exists l0, rebuild var_ic l' = Ret l0 /\ snd (compute_mismatch integ l') = snd (compute_mismatch integ l0).
Proof.
  intros Hd H1 H2 Hs E He Hr R. destruct (hf_ctor_wf _ _ _ _ _ _ _ _ _ _ _ H1 H2 Hs E) as (W & S & _).
  destruct (run_synced integ Hd es l l' He W S Hr R) as [W' S'].
  destruct (rebuild_ok var_ic l' W') as [l0 E0]. exists l0. split; [exact E0|].
  exact (synced_is_fresh integ Hd var_ic l' l0 W' S' E0).
Qed.

(** whatever the setters did, the integration uses the constructor's mu, isp and tol *)
Lemma hf_history_stale integ var_ic rvms th rvmf tof T isp mu cut tol l es l' : integ_dim integ ->
  length rvms = 7%nat -> length rvmf = 7%nat -> short th ->
  hf_ctor var_ic rvms th rvmf tof T isp mu cut tol = Ret l ->
  Forall (ev_ok hop_ok) es -> sets_return integ es l -> hf_run integ es l = Ret l' ->
  exists T', snd (compute_mismatch integ l') =
    mismatch_spec integ (hf_rvms l') (hf_thr l') (hf_rvmf l') (hf_tof l') T' isp mu tol (hf_n l') (hf_nf l').
Proof.
  intros Hd H1 H2 Hs E He Hr R.
  destruct (hf_ctor_wf _ _ _ _ _ _ _ _ _ _ _ H1 H2 Hs E) as (W & S & Q1 & Q2 & Q3 & Q4 & Q5 & Q6 & Q7 & Q8 & Q9).
  destruct S as [S1 [S2 S3]]. rewrite Q6, Q7, Q9 in S1.
  destruct (run_inv integ Hd hop_ok tol mu isp (fun o x => x) es l l' He W S1 (ex_intro _ _ S3) Hr R) as (W' & T1 & [T' T2]).
  exists T'. exact (proj1 (compute_mismatch_gen integ Hd tol mu isp T' l' W' T1 T2)).
Qed.

Lemma hf_history_safe integ var_ic rvms th rvmf tof T isp mu cut tol l es : integ_dim integ ->
  length rvms = 7%nat -> length rvmf = 7%nat -> short th ->
  hf_ctor var_ic rvms th rvmf tof T isp mu cut tol = Ret l ->
  Forall (ev_ok (fun o => hop_ok o /\ set_cut_ok o)) es -> sets_return integ es l ->
  exists l', hf_run integ es l = Ret l' /\ hf_wf l' /\ snd (compute_mismatch integ l') <> UB
    /\ exists c, compute_throttle_con l' = Ret c.
Proof.
  intros Hd H1 H2 Hs E He Hr.
  destruct (hf_ctor_wf _ _ _ _ _ _ _ _ _ _ _ H1 H2 Hs E) as (W & S & Q1 & Q2 & Q3 & Q4 & Q5 & Q6 & Q7 & Q8 & Q9).
  destruct S as [S1 [S2 S3]].
  destruct (run_no_ub_hf integ Hd (fun o => hop_ok o /\ set_cut_ok o) _ _ _ (fun o x => x) es l He W S1 (ex_intro _ _ S3) Hr) as [l' R].
  destruct (run_inv integ Hd (fun o => hop_ok o /\ set_cut_ok o) _ _ _ (fun o x => proj1 x) es l l' He W S1 (ex_intro _ _ S3) Hr R) as (W' & T1 & [T' T2]).
  exists l'. split; [exact R|]. split; [exact W'|]. split.
  - rewrite (proj1 (compute_mismatch_gen integ Hd _ _ _ T' l' W' T1 T2)). apply mismatch_spec_no_ub.
  - eexists. apply throttle_constraints_ok. exact W'.
Qed.

Lemma hf_stale_witness : forall o, In o [HMu d2; HIsp d2; HT d2; HTol dhalf; HSet w_rv (repeat done 6) w_rvf done done done d2 done d1em16] ->
  exists l l' l0, w_leg = Ret l /\ hf_do o l = (l', Ret tt) /\ rebuild [] l' = Ret l0 /\
  snd (compute_mismatch spy l') <> snd (compute_mismatch spy l0).
Proof.
  intros o H. cbn [In] in H. destruct H as [<-|[<-|[<-|[<-|[<-|[]]]]]].
  - exact (witness_sound _ _ _ witness_mu).
  - exact (witness_sound _ _ _ witness_isp).
  - exact (witness_sound _ _ _ witness_T).
  - exact (witness_sound _ _ _ witness_tol).
  - exact (witness_sound _ _ _ witness_set).
Qed.

Lemma hf_unsafe_witness : exists integ l o l' e, integ_dim integ /\ w_leg = Ret l /\ hop_ok o /\ hf_do o l = (l', Throw e) /\
  snd (compute_mismatch integ l') = UB.
Proof.
  destruct (unsafe_sound _ unsafe_set) as (l & l' & e & A & B & C).
  exists spy, l, (HSetShort w_rv (repeat done 9) w_rvf dneg1), l', e.
  split; [exact spy_dim|]. split; [exact A|]. split; [cbn [hop_ok]; unfold short; rewrite repeat_length; split; [reflexivity|split; [reflexivity|reflexivity]]|]. split; [exact B|exact C].
Qed.

(** the fresh-leg comparison in C42: evaluating after any evaluations gives the same answer *)
Lemma hf_eval_twice integ l l1 r : integ_dim integ -> hf_wf l -> hf_synced l -> compute_mismatch integ l = (l1, r) ->
  snd (compute_mismatch integ l1) = r.
Proof.
  intros Hd W S E.
  destruct (compute_mismatch_gen integ Hd _ _ _ _ l W (proj1 S) (proj2 (proj2 S))) as [E1 [a [Ea Ha]]].
  rewrite E in E1, Ea. cbn [fst snd] in E1, Ea. subst l1.
  assert (W1 : hf_wf (h_tas a l)) by (destruct W; constructor; assumption).
  rewrite (proj1 (compute_mismatch_gen integ Hd _ _ _ (hf_T l) (h_tas a l) W1 Ha (proj2 (proj2 S)))). symmetry. exact E1.
Qed.
