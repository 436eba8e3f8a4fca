(** * High-fidelity leg: invariants over histories, constructor, constraint layout, witnesses *)
From Coq Require Import ZArith Reals Lra List Bool Lia ZifyBool.
From Flocq Require Import Core.Core IEEE754.BinarySingleNaN.
From Verif Require Import Outcome StateMonad Float64 Float64Facts LegModel LegSpec LegProofs HfModel HfSpec HfProofs.
Import ListNotations.
Open Scope Z_scope.
Ltac Zify.zify_post_hook ::= Z.div_mod_to_equations.

(** ** constructor *)
Theorem hf_ctor_wf var_ic rvms th rvmf tof T isp mu cut tol l :
  length rvms = 7%nat -> length rvmf = 7%nat -> short th ->
  hf_ctor var_ic rvms th rvmf tof T isp mu cut tol = Ret l ->
  hf_wf l /\ hf_synced l /\ hf_rvms l = rvms /\ hf_thr l = th /\ hf_rvmf l = rvmf /\ hf_tof l = tof /\ hf_T l = T /\
  hf_isp l = isp /\ hf_mu l = mu /\ hf_cut l = cut /\ hf_tol l = tol.
Proof.
  intros H1 H2 Hs H. unfold hf_ctor in H.
  apply bind_ret in H as [nf [E H]]. cbv zeta in H. apply bind_ret in H as [[] [S H]].
  inversion H; subst l; clear H.
  apply sanity_hf_inv in S as (S1 & S2 & S3 & S4 & S5 & S6 & S7).
  destruct (throttles_ok_hf _ S1 Hs) as (N1 & N2 & N3).
  apply check_cut_ok in S6; [|eapply split_nan_inv; eassumption].
  destruct (split_correct (nseg_of th) cut) as [C1 [C2 C3]]; [lia|exact S6|].
  rewrite C1 in E. inversion E; subst nf. rewrite C3.
  split; [|split; [|repeat split]].
  - constructor; hfs; try assumption; try reflexivity; try lia. unfold thrusts_of. apply map_length.
  - split; [|split].
    + split; [reflexivity|]. split; [|reflexivity]. exists [dzero; dzero; dzero]. split; reflexivity.
    + split; reflexivity.
    + reflexivity.
Qed.

(** the constructor accepts the data of a valid leg *)
Theorem rebuild_ok var_ic l : hf_wf l -> exists l0, rebuild var_ic l = Ret l0.
Proof.
  intros [Wn Wt Wu Wf Wb Ws Wc W1 W2 W3 W4 W5 W6 [W7 W8]].
  assert (N : nseg_of (hf_thr l) = hf_n l) by (unfold nseg_of, wrap32, lenZ; rewrite Wt, Z.mod_small, Z.mul_comm, Z.div_mul; lia).
  assert (CT : check_throttles (hf_thr l) = Ret tt).
  { unfold check_throttles, guard, lenZ. rewrite Wt, Z.mul_comm, Z.mod_mul by lia. cbn [Z.eqb negb bind].
    destruct (hf_thr l); [change (0 = 3 * hf_n l) in Wt; lia|reflexivity]. }
  unfold rebuild, hf_ctor. rewrite N.
  destruct (split_correct (hf_n l) (hf_cut l)) as [C1 [C2 C3]]; [lia|exact Wc|].
  rewrite C1. cbn [bind]. cbv zeta. unfold sanity_checks_hf. rewrite CT. cbn [bind].
  unfold check_tof, check_max_thrust, check_isp, check_mu.
  rewrite !not_negative_check by assumption. unfold guard at 1 2 3 4. cbn [bind].
  rewrite (check_cut_unit _ Wc). cbn [bind]. unfold check_tol. rewrite W7, W8. unfold guard at 1. cbn [orb bind].
  rewrite C3. unfold check_nseg, guard, wrap32. replace (_ + _) with (hf_n l) by lia.
  rewrite Z.mod_small, Z.eqb_refl by lia. cbn [negb bind].
  eexists. reflexivity.
Qed.

Section Hist.
Variable integ : double -> list double -> list double -> double -> double -> bool * list double * double.
Hypothesis Hdim : integ_dim integ.

Definition holds_some (l : hfleg) : Prop := exists T, hf_thrusts l = thrusts_of T (hf_thr l).

Lemma step_thrusts o l l' r : hf_wf l -> hop_ok o -> hf_do o l = (l', r) -> (is_set o = true -> r = Ret tt) ->
  holds_some l -> holds_some l'.
Proof.
  intros W Hok H Hset [T HT]. pose proof (wf_core l W) as C.
  destruct o; cbn [hop_ok is_set] in Hok, Hset;
    try rewrite set_unfold in H; try rewrite set_short_unfold in H; cbn [hf_do] in H;
    try (inversion H; subst; exists T; exact HT);
    try (unfold sbind, slift in H; match type of H with match ?c with _ => _ end = _ =>
           destruct c as [[]| |]; inversion H; subst; exists T; exact HT end).
  - unfold sbind at 1, slift in H. destruct (check_throttles v) as [[]| |] eqn:E; try (inversion H; subst; exists T; exact HT).
    unfold sbind at 1, smodify at 1 in H. destruct (throttles_ok_hf v E Hok) as (N1 & N2 & N3).
    apply thr_step in H; [|exact C|apply W|exact N1|exact N2|exact N3]. exists (hf_T l'). tauto.
  - unfold sbind at 1, slift in H. destruct (guard _ _) as [[]| |] eqn:E; try (inversion H; subst; exists T; exact HT).
    unfold sbind at 1, smodify at 1 in H. destruct Hok as (O1 & O2 & O3).
    destruct (thrit_facts src i j O1 O2 O3 E) as (N1 & N2 & N3).
    apply thr_step in H; [|exact C|apply W|exact N1|exact N2|exact N3]. exists (hf_T l'). tauto.
  - unfold sbind at 1, slift in H. destruct (check_cut v) as [[]| |] eqn:E; try (inversion H; subst; exists T; exact HT).
    unfold sbind, smodify in H. destruct (nseg_fwd_of _ _); inversion H; subst; exists T; exact HT.
  - destruct Hok as (O1 & O2 & O3). eapply set_tail in H; [|exact O3|exact O1|exact O2|exact (Hset eq_refl)]. exists (hf_T l'). tauto.
  - destruct Hok as (O1 & O2 & O3). eapply set_tail in H; [|exact O3|exact O1|exact O2|exact (Hset eq_refl)]. exists (hf_T l'). tauto.
Qed.

(** setters that leave mu, isp, max_thrust, tol alone keep the leg synchronised *)
Lemma step_synced o l l' r : hf_wf l -> hop_ok o -> keeps_pars o -> hf_do o l = (l', r) -> (is_set o = true -> r = Ret tt) ->
  hf_synced l -> hf_synced l'.
Proof.
  intros W Hok Hk H Hset HS. pose proof (wf_core l W) as C.
  pose proof (step_tas o l l' r H) as [ET EV].
  assert (G : hf_tol l' = hf_tol l /\ hf_mu l' = hf_mu l /\ hf_isp l' = hf_isp l /\ hf_thrusts l' = thrusts_of (hf_T l') (hf_thr l')
              -> hf_synced l').
  { intros (A & B & D & E). destruct HS as (S1 & S2 & S3). split; [|split].
    - rewrite A, B, D, ET. exact S1.
    - rewrite A, B, D, EV. exact S2.
    - exact E. }
  destruct o; cbn [hop_ok is_set keeps_pars] in Hok, Hset, Hk; try contradiction;
    try rewrite set_short_unfold in H; cbn [hf_do] in H;
    try (inversion H; subst; exact HS);
    try (unfold sbind, slift in H; match type of H with match ?c with _ => _ end = _ =>
           destruct c as [[]| |]; inversion H; subst; exact HS end).
  - unfold sbind at 1, slift in H. destruct (check_throttles v) as [[]| |] eqn:E; try (inversion H; subst; exact HS).
    unfold sbind at 1, smodify at 1 in H. destruct (throttles_ok_hf v E Hok) as (N1 & N2 & N3).
    apply thr_step in H; [|exact C|apply W|exact N1|exact N2|exact N3]. apply G. cbn [h_thr hf_tol hf_mu hf_isp] in H. tauto.
  - unfold sbind at 1, slift in H. destruct (guard _ _) as [[]| |] eqn:E; try (inversion H; subst; exact HS).
    unfold sbind at 1, smodify at 1 in H. destruct Hok as (O1 & O2 & O3).
    destruct (thrit_facts src i j O1 O2 O3 E) as (N1 & N2 & N3).
    apply thr_step in H; [|exact C|apply W|exact N1|exact N2|exact N3]. apply G. cbn [h_thr hf_tol hf_mu hf_isp] in H. tauto.
  - unfold sbind at 1, slift in H. destruct (check_cut v) as [[]| |] eqn:E; try (inversion H; subst; exact HS).
    unfold sbind, smodify in H. destruct (nseg_fwd_of _ _); inversion H; subst; exact HS.
  - destruct Hok as (O1 & O2 & O3). eapply set_tail in H; [|exact O3|exact O1|exact O2|exact (Hset eq_refl)].
    destruct H as (_ & (_ & _ & P1 & P2 & P3 & P4) & Q). apply G. hfs. cbn [hf_tol hf_mu hf_isp] in P1, P2, P3. tauto.
Qed.

(** ** Histories *)
Definition tas_hold (tol mu isp : double) (l : hfleg) : Prop := ta_holds tol mu isp (hf_tas l).

Lemma ev_step (P : hf_op -> Prop) tol mu isp e l l' r : (forall o, P o -> hop_ok o) -> ev_ok P e -> hf_wf l -> tas_hold tol mu isp l -> holds_some l ->
  hf_ev_do integ e l = (l', r) -> (match e, r with Ev o, Throw _ => is_set o = false | _, _ => True end) -> r <> UB ->
  hf_wf l' /\ tas_hold tol mu isp l' /\ holds_some l'.
Proof.
  intros HP He W Ht Hs H Hset Hub. destruct e as [o|].
  - cbn [hf_ev_do] in H. cbn [ev_ok] in He. pose proof (HP o He) as Hok.
    assert (Hs' : is_set o = true -> r = Ret tt).
    { intros Eo. destruct r as [[]| |]; [reflexivity|congruence|congruence]. }
    split; [eapply step_wf; eassumption|]. split.
    + unfold tas_hold. rewrite (proj1 (step_tas o l l' r H)). exact Ht.
    + eapply step_thrusts; eassumption.
  - cbn [hf_ev_do] in H. destruct Hs as [T HT].
    destruct (compute_mismatch_gen integ Hdim tol mu isp T l W Ht HT) as [_ [a [Ea Ha]]].
    destruct (compute_mismatch integ l) as [l1 r1] eqn:E. inversion H; subst l1. cbn [fst] in Ea. subst l'.
    split; [|split].
    + destruct W. constructor; assumption.
    + exact Ha.
    + exists T. exact HT.
Qed.

Theorem run_inv (P : hf_op -> Prop) tol mu isp : (forall o, P o -> hop_ok o) -> forall es l l', Forall (ev_ok P) es -> hf_wf l -> tas_hold tol mu isp l ->
  holds_some l -> sets_return integ es l -> hf_run integ es l = Ret l' ->
  hf_wf l' /\ tas_hold tol mu isp l' /\ holds_some l'.
Proof.
  intros HP. induction es as [|e es IH]; intros l l' He W Ht Hs Hr H.
  - inversion H; subst. tauto.
  - inversion He as [|? ? He1 He2]; subst. cbn [hf_run sets_return] in H, Hr.
    destruct (hf_ev_do integ e l) as [l1 r1] eqn:E. destruct Hr as [Hr1 Hr2].
    assert (Hub : r1 <> UB) by (destruct r1; congruence).
    destruct (ev_step P tol mu isp e l l1 r1 HP He1 W Ht Hs E Hr1 Hub) as (W1 & T1 & S1).
    destruct r1; try congruence; eapply IH; eassumption.
Qed.

Theorem run_synced : forall es l l', Forall (ev_ok (fun o => hop_ok o /\ keeps_pars o)) es -> hf_wf l -> hf_synced l ->
  sets_return integ es l -> hf_run integ es l = Ret l' -> hf_wf l' /\ hf_synced l'.
Proof.
  induction es as [|e es IH]; intros l l' He W HS Hr H.
  - inversion H; subst. tauto.
  - inversion He as [|? ? He1 He2]; subst. cbn [hf_run sets_return] in H, Hr.
    destruct (hf_ev_do integ e l) as [l1 r1] eqn:E. destruct Hr as [Hr1 Hr2].
    assert (Hub : r1 <> UB) by (destruct r1; congruence).
    assert (Hs : holds_some l) by (exists (hf_T l); apply HS).
    destruct (ev_step (fun o => hop_ok o /\ keeps_pars o) (hf_tol l) (hf_mu l) (hf_isp l) e l l1 r1 (fun o x => proj1 x) He1 W (proj1 HS) Hs E Hr1 Hub)
      as (W1 & T1 & S1).
    assert (HS1 : hf_synced l1).
    { destruct e as [o|].
      - cbn [hf_ev_do ev_ok] in E, He1. apply (step_synced o l l1 r1 W (proj1 He1) (proj2 He1) E); [|exact HS].
        intros Eo. destruct r1 as [[]| |]; [reflexivity|congruence|congruence].
      - cbn [hf_ev_do] in E.
        destruct (compute_mismatch_gen integ Hdim (hf_tol l) (hf_mu l) (hf_isp l) (hf_T l) l W (proj1 HS) (proj2 (proj2 HS))) as [_ [a [Ea Ha]]].
        destruct (compute_mismatch integ l) as [l2 r2] eqn:E2. inversion E; subst l2. cbn [fst] in Ea. subst l1.
        split; [exact Ha|]. exact (proj2 HS). }
    destruct r1; try congruence; eapply IH; eassumption.
Qed.

(** nothing undefined happens *)
Lemma step_no_ub_hf o l l' r : hf_wf l -> hop_ok o -> set_cut_ok o -> hf_do o l = (l', r) -> r <> UB.
Proof.
  intros W Hok Hc H. pose proof (wf_core l W) as C.
  assert (ST : forall th a b x, th = hf_thr a -> unit_double (hf_cut a) -> short th -> 
     sbind hf_resplit (fun _ => sbind (hf_check_all th) (fun _ => hf_rethrust)) a = (b, x) -> x <> UB).
  { intros th a b x -> Hu Hs E. unfold sbind at 1 in E. rewrite hf_resplit_eq in E; [|exact Hu|unfold nseg_of, wrap32, lenZ; unfold short in Hs; rewrite Z.mod_small by lia; lia].
    cbv zeta in E. unfold sbind, hf_check_all in E.
    assert (NU : forall th tof mt isp mu cut tol n nf nb, sanity_checks_hf th tof mt isp mu cut tol n nf nb <> UB).
    { intros. unfold sanity_checks_hf, check_throttles, check_tof, check_max_thrust, check_isp, check_mu, check_cut, check_tol, check_nseg, guard.
      repeat match goal with |- context [if ?b then _ else _] => destruct b; cbn [bind]; try discriminate end. }
    match type of E with context [sanity_checks_hf ?a ?b ?c ?d ?e ?f ?g ?h ?i ?j] =>
      pose proof (NU a b c d e f g h i j); destruct (sanity_checks_hf a b c d e f g h i j) as [[]| |] end; inversion E; congruence. }
  destruct o; cbn [hop_ok set_cut_ok] in Hok, Hc;
    try rewrite set_unfold in H; try rewrite set_short_unfold in H; cbn [hf_do] in H;
    try (inversion H; subst; discriminate);
    try (unfold sbind, slift, check_tof, check_max_thrust, check_isp, check_mu, check_tol, guard in H;
         match type of H with context [if ?b then _ else _] => destruct b; inversion H; discriminate end).
  - unfold sbind at 1, slift in H. destruct (check_throttles v) as [[]| |] eqn:E.
    + unfold sbind at 1, smodify at 1 in H. destruct (throttles_ok_hf v E Hok) as (N1 & N2 & N3).
      apply thr_step in H; [|exact C|apply W|exact N1|exact N2|exact N3]. destruct H as [-> _]. discriminate.
    + inversion H; discriminate.
    + unfold check_throttles, guard in E. destruct (negb _); cbn [bind] in E; [discriminate|]. destruct v; discriminate.
  - unfold sbind at 1, slift in H. destruct (guard _ _) as [[]| |] eqn:E.
    + unfold sbind at 1, smodify at 1 in H. destruct Hok as (O1 & O2 & O3).
      destruct (thrit_facts src i j O1 O2 O3 E) as (N1 & N2 & N3).
      apply thr_step in H; [|exact C|apply W|exact N1|exact N2|exact N3]. destruct H as [-> _]. discriminate.
    + inversion H; discriminate.
    + unfold guard in E. destruct (_ || _); discriminate.
  - unfold sbind at 1, slift in H. destruct (check_cut v) as [[]| |] eqn:E.
    + apply check_cut_ok in E; [|exact Hok]. unfold sbind, smodify in H. cbn [h_cut hf_n hf_cut] in H.
      destruct (split_correct (hf_n l) v) as [E1 [B1 B2]]; [pose proof (w_n l W); lia|exact E|].
      rewrite E1 in H. inversion H; discriminate.
    + inversion H; discriminate.
    + unfold check_cut, guard in E. destruct (_ || _); discriminate.
  - destruct Hok as (O1 & O2 & O3). refine (ST _ _ _ _ _ _ _ H); [reflexivity|exact Hc|exact O3].
  - destruct Hok as (O1 & O2 & O3). refine (ST _ _ _ _ _ _ _ H); [reflexivity|exact (w_cut l W)|exact O3].
Qed.

Lemma mismatch_spec_no_ub rvms th rvmf tof T isp mu tol n nf : mismatch_spec integ rvms th rvmf tof T isp mu tol n nf <> UB.
Proof. unfold mismatch_spec. destruct (fly _ _ _ _ _ _); [|discriminate]. destruct (fly _ _ _ _ _ _); discriminate. Qed.

Theorem run_no_ub_hf (P : hf_op -> Prop) tol mu isp : (forall o, P o -> hop_ok o /\ set_cut_ok o) ->
  forall es l, Forall (ev_ok P) es -> hf_wf l -> tas_hold tol mu isp l -> holds_some l -> sets_return integ es l ->
  exists l', hf_run integ es l = Ret l'.
Proof.
  intros HP. induction es as [|e es IH]; intros l He W Ht Hs Hr.
  - exists l. reflexivity.
  - inversion He as [|? ? He1 He2]; subst. cbn [hf_run sets_return] in *.
    destruct (hf_ev_do integ e l) as [l1 r1] eqn:E. destruct Hr as [Hr1 Hr2].
    assert (Hub : r1 <> UB).
    { destruct e as [o|].
      - destruct (HP o He1) as [K1 K2]. eapply step_no_ub_hf; eassumption.
      - cbn [hf_ev_do] in E. destruct Hs as [T HT].
        destruct (compute_mismatch_gen integ Hdim tol mu isp T l W Ht HT) as [Em _].
        destruct (compute_mismatch integ l) as [l2 r2]. cbn [snd] in Em.
        pose proof (mismatch_spec_no_ub (hf_rvms l) (hf_thr l) (hf_rvmf l) (hf_tof l) T isp mu tol (hf_n l) (hf_nf l)) as NU.
        rewrite <- Em in NU. inversion E. destruct r2; congruence. }
    destruct (ev_step P tol mu isp e l l1 r1 (fun o x => proj1 (HP o x)) He1 W Ht Hs E Hr1 Hub) as (W1 & T1 & S1).
    destruct (IH l1 He2 W1 T1 S1 Hr2) as [l' El']. exists l'. destruct r1; congruence.
Qed.

(** ** C31: equals a freshly built leg *)
Theorem synced_is_fresh var_ic l l0 : hf_wf l -> hf_synced l -> rebuild var_ic l = Ret l0 ->
  snd (compute_mismatch integ l) = snd (compute_mismatch integ l0).
Proof.
  intros W HS E. pose proof W as [Wn Wt Wu Wf Wb Ws Wc W1 W2 W3 W4 W5 W6 W7].
  assert (S : short (hf_thr l)) by (unfold short; lia).
  destruct (hf_ctor_wf _ _ _ _ _ _ _ _ _ _ _ W1 W2 S E) as (W0 & S0 & E1 & E2 & E3 & E4 & E5 & E6 & E7 & E8 & E9).
  rewrite (compute_mismatch_spec integ Hdim l W HS), (compute_mismatch_spec integ Hdim l0 W0 S0).
  assert (EN : hf_n l0 = hf_n l).
  { pose proof (w_thr l0 W0) as Q. rewrite E2, Wt in Q. lia. }
  assert (EF : hf_nf l0 = hf_nf l) by (rewrite (w_split l0 W0), EN, E8; symmetry; exact Ws).
  rewrite E1, E2, E3, E4, E5, E6, E7, E9, EN, EF. reflexivity.
Qed.

(** ** constraint layout *)
Lemma throttle_con_ok : forall k i th, 0 <= i -> 3 * (i + Z.of_nat k) <= Z.of_nat (length th) ->
  throttle_con k i th = Ret (map (fun j => throttle_residual (seg_throttle th (Z.of_nat j))) (seq (Z.to_nat i) k)).
Proof.
  induction k as [|k IH]; intros i th Hi Hk; [reflexivity|].
  cbn [throttle_con]. rewrite slice_ok by lia. cbn [bind]. rewrite IH by lia. cbn [bind seq map].
  replace (Z.to_nat (i + 1)) with (S (Z.to_nat i)) by lia. rewrite Z2Nat.id by lia.
  assert (E : sub_range th (3 * i) (3 * i + 3) = seg_throttle th i).
  { unfold sub_range, seg_throttle. replace (Z.to_nat (3 * i + 3 - 3 * i)) with 3%nat by lia. reflexivity. }
  rewrite E.
  assert (L : length (seg_throttle th i) = 3%nat) by (unfold seg_throttle; rewrite firstn_length, skipn_length; lia).
  destruct (seg_throttle th i) as [|x [|y [|z [|w u]]]]; try discriminate L. reflexivity.
Qed.

Theorem throttle_constraints_ok l : hf_wf l ->
  compute_throttle_con l = Ret (map (fun j => throttle_residual (seg_throttle (hf_thr l) (Z.of_nat j))) (seq 0 (Z.to_nat (hf_n l)))).
Proof. intros W. unfold compute_throttle_con. rewrite throttle_con_ok; [reflexivity|lia|]. rewrite (w_thr l W). pose proof (w_n l W). lia. Qed.

Lemma fly_length p tol : forall segs x t x', fly integ tol p segs x t = Some x' -> length x' = length x.
Proof.
  induction segs as [|[u te] segs IH]; intros x t x' H.
  - inversion H; reflexivity.
  - cbn [fly] in H. pose proof (Hdim tol (p ++ u) x t te) as D.
    destruct (integ tol (p ++ u) x t te) as [[[|] y] t']; [|discriminate]. cbn in D. apply IH in H. congruence.
Qed.
Lemma vsub_length : forall a b, length a = length b -> length (vsub a b) = length a.
Proof. induction a as [|x a IH]; destruct b; cbn; intros H; try discriminate; [reflexivity|]. rewrite IH; lia. Qed.

Lemma mismatch_length rvms th rvmf tof T isp mu tol n nf v : length rvms = 7%nat -> length rvmf = 7%nat ->
  mismatch_spec integ rvms th rvmf tof T isp mu tol n nf = Ret v -> length v = 7%nat.
Proof.
  unfold mismatch_spec. intros H1 H2.
  destruct (fly integ tol _ (fwd_segs _ _ _ _) _ _) as [a|] eqn:Ea; [|discriminate].
  destruct (fly integ tol _ (bck_segs _ _ _ _ _ _) _ _) as [b|] eqn:Eb; [|discriminate].
  intros H; inversion H; subst. apply fly_length in Ea, Eb. rewrite vsub_length; congruence.
Qed.

Theorem constraints_layout l : hf_wf l -> hf_synced l ->
  match snd (compute_mismatch integ l) with
  | Ret mc => length mc = 7%nat /\
      snd (compute_constraints integ l) =
      Ret (mc ++ map (fun j => throttle_residual (seg_throttle (hf_thr l) (Z.of_nat j))) (seq 0 (Z.to_nat (hf_n l))))
  | Throw e => snd (compute_constraints integ l) = Throw e
  | UB => False
  end.
Proof.
  intros W HS.
  destruct (compute_mismatch_gen integ Hdim _ _ _ _ l W (proj1 HS) (proj2 (proj2 HS))) as [E [a [Ea _]]].
  unfold compute_constraints, sbind.
  destruct (compute_mismatch integ l) as [l1 r]. cbn [fst snd] in *. subst l1.
  destruct r as [mc|e|].
  - pose proof (mismatch_length _ _ _ _ _ _ _ _ _ _ _ (w_rvms l W) (w_rvmf l W) (eq_sym E)) as L.
    split; [exact L|].
    change (compute_throttle_con (h_tas a l)) with (compute_throttle_con l).
    rewrite (throttle_constraints_ok l W). cbn [sret snd]. rewrite firstn_all2 by lia. reflexivity.
  - reflexivity.
  - exfalso. exact (mismatch_spec_no_ub _ _ _ _ _ _ _ _ _ _ (eq_sym E)).
Qed.

(** set_and_compute_constraints is the short [set] followed by compute_constraints *)
Theorem set_and_compute_is_set l ch : hf_wf l -> Z.of_nat (length ch) = 7 + 3 * hf_n l + 7 + 1 ->
  let k := Z.to_nat (3 * hf_n l) in
  let rvms := firstn 7 ch in let th := firstn k (skipn 7 ch) in let rvmf := firstn 7 (skipn (7 + k) ch) in
  exists tof, skipn (7 + k + 7) ch = [tof] /\ length rvms = 7%nat /\ Z.of_nat (length th) = 3 * hf_n l /\ length rvmf = 7%nat /\
    set_and_compute_constraints integ ch l
    = sbind (hf_do (HSetShort rvms th rvmf tof)) (fun _ => compute_constraints integ) l.
Proof.
  intros W Hl k rvms th rvmf. pose proof (w_n l W) as [N1 N2].
  assert (Lt : length (skipn (7 + k + 7) ch) = 1%nat) by (rewrite skipn_length; unfold k; lia).
  destruct (skipn (7 + k + 7) ch) as [|tof [|? ?]] eqn:Et; try discriminate Lt.
  exists tof. split; [reflexivity|]. split; [unfold rvms; rewrite firstn_length; lia|].
  split; [unfold th; rewrite firstn_length, skipn_length; unfold k; lia|].
  split; [unfold rvmf; rewrite firstn_length, skipn_length; unfold k; lia|].
  assert (W3 : wrap32 (hf_n l * 3) = 3 * hf_n l) by (unfold wrap32; rewrite Z.mod_small; lia).
  assert (W4 : wrap32 (7 + hf_n l * 3 + 7 + 1 - 1) = 7 + hf_n l * 3 + 7 + 1 - 1) by (unfold wrap32; rewrite Z.mod_small; lia).
  unfold set_and_compute_constraints. unfold sbind at 1. rewrite slice_ok by lia.
  unfold sbind at 1. rewrite W3, slice_ok by lia. unfold sbind at 1. rewrite W3, slice_ok by lia.
  unfold sbind at 1. rewrite W4, slice_ok by lia.
  unfold sub_range.
  replace (Z.to_nat (7 + hf_n l * 3 + 7 + 1 - 1 + 1 - (7 + hf_n l * 3 + 7 + 1 - 1))) with 1%nat by lia.
  replace (Z.to_nat (7 + hf_n l * 3 + 7 + 1 - 1)) with (7 + k + 7)%nat by (unfold k; lia).
  rewrite Et. cbn [firstn].
  replace (Z.to_nat (7 - 0)) with 7%nat by lia. change (skipn (Z.to_nat 0) ch) with ch. fold rvms.
  replace (Z.to_nat (7 + 3 * hf_n l - 7)) with k by (unfold k; lia). change (Z.to_nat 7) with 7%nat. fold th.
  replace (Z.to_nat (7 + 3 * hf_n l + 7 - (7 + 3 * hf_n l))) with 7%nat by lia.
  replace (Z.to_nat (7 + 3 * hf_n l)) with (7 + k)%nat by (unfold k; lia). fold rvmf.
  reflexivity.
Qed.

(** and a short [set] that returns has stored exactly those fields *)
Theorem set_short_stores rvms th rvmf tof l l' : hf_do (HSetShort rvms th rvmf tof) l = (l', Ret tt) ->
  hf_rvms l' = rvms /\ hf_thr l' = th /\ hf_rvmf l' = rvmf /\ hf_tof l' = tof.
Proof.
  rewrite set_short_unfold. unfold sbind at 1. destruct (hf_resplit _) as [l1 [[]| |]] eqn:E; try discriminate.
  apply hf_resplit_ret in E as [nf [_ ->]]. unfold sbind, hf_check_all. destruct (sanity_checks_hf _ _ _ _ _ _ _ _ _ _) as [[]| |]; try discriminate.
  intros H. inversion H. repeat split.
Qed.
End Hist.

(** ** Witnesses *)
(** an integrator that reveals what it was given: forward arcs return (mu, veff, ux, tol, 0, 0, 0), backward arcs 0 *)
Definition spy (tol : double) (p x : list double) (t0 t1 : double) : bool * list double * double :=
  (true, if dltb t0 t1 then firstn (length x) ([nth 0 p dzero; nth 1 p dzero; nth 2 p dzero; tol] ++ repeat dzero (length x)) else repeat dzero (length x), t1).
Lemma spy_dim : integ_dim spy.
Proof.
  intros tol p x t0 t1. unfold spy. cbn [fst snd]. destruct (dltb t0 t1); [|apply repeat_length].
  rewrite firstn_length, app_length, repeat_length. cbn [length]. lia.
Qed.

Definition w_rv : list double := repeat done 7.
Definition w_rvf : list double := repeat dzero 7.
Definition w_leg : outcome hfleg := hf_ctor [] w_rv (repeat done 6) w_rvf done done done done done d1em16.


(** does evaluating [l] differ, at component [k] compared with [c], from evaluating the leg rebuilt from its data? *)
Definition obs (k : nat) (c : double) (v : list double) : bool := deqb (nth k v dzero) c.
Definition differs (k : nat) (c : double) (l : hfleg) : bool :=
  match rebuild [] l with
  | Ret l0 => match snd (compute_mismatch spy l), snd (compute_mismatch spy l0) with
              | Ret a, Ret b => negb (Bool.eqb (obs k c a) (obs k c b))
              | _, _ => false
              end
  | _ => false
  end.
Definition witness (k : nat) (c : double) (o : hf_op) : bool :=
  match w_leg with
  | Ret l => match hf_do o l with (l', Ret _) => differs k c l' | _ => false end
  | _ => false
  end.

Lemma witness_sound k c o : witness k c o = true -> exists l l' l0, w_leg = Ret l /\ hf_do o l = (l', Ret tt) /\ rebuild [] l' = Ret l0 /\
  snd (compute_mismatch spy l') <> snd (compute_mismatch spy l0).
Proof.
  unfold witness. destruct w_leg as [l| |]; try discriminate. destruct (hf_do o l) as [l' [[]| |]] eqn:E; try discriminate.
  unfold differs. destruct (rebuild [] l') as [l0| |] eqn:R; try discriminate. intros H.
  exists l, l', l0. split; [reflexivity|]. split; [exact E|]. split; [exact R|]. intros Q. rewrite Q in H.
  destruct (snd (compute_mismatch spy l0)) as [a| |]; try discriminate. rewrite eqb_reflx in H. discriminate.
Qed.

Definition d2 : double := d_of_Z 2.
Lemma witness_mu : witness 0 done (HMu d2) = true. Proof. vm_compute. reflexivity. Qed.
Lemma witness_isp : witness 1 dG0 (HIsp d2) = true. Proof. vm_compute. reflexivity. Qed.
Lemma witness_T : witness 2 done (HT d2) = true. Proof. vm_compute. reflexivity. Qed.
Lemma witness_tol : witness 3 d1em16 (HTol dhalf) = true. Proof. vm_compute. reflexivity. Qed.
Lemma witness_set : witness 0 done (HSet w_rv (repeat done 6) w_rvf done done done d2 done d1em16) = true. Proof. vm_compute. reflexivity. Qed.

(** a [set] that throws leaves a leg whose evaluation reads outside m_thrusts *)
Definition unsafe_after (o : hf_op) : bool :=
  match w_leg with
  | Ret l => match hf_do o l with
             | (l', Throw _) => match snd (compute_mismatch spy l') with UB => true | _ => false end
             | _ => false
             end
  | _ => false
  end.
Lemma unsafe_sound o : unsafe_after o = true -> exists l l' e, w_leg = Ret l /\ hf_do o l = (l', Throw e) /\
  snd (compute_mismatch spy l') = UB.
Proof.
  unfold unsafe_after. destruct w_leg as [l| |]; try discriminate. destruct (hf_do o l) as [l' [u|e|]] eqn:E; try discriminate.
  intros H. exists l, l', e. split; [reflexivity|]. split; [exact E|]. destruct (snd _); congruence.
Qed.
Lemma unsafe_set : unsafe_after (HSetShort w_rv (repeat done 9) w_rvf dneg1) = true. Proof. vm_compute. reflexivity. Qed.
