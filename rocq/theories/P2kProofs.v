(** * Proofs about planet_to_keplerian (C50) *)
From Coq Require Import Reals String Lra.
From Verif Require Import Outcome PartialReal KepSpec Vec3 TwoBodyModel TwoBodySpec TwoBodyProofs FlowMain ElemModel ElemSpec KeplerianModel KplaModel KplaSpec KplaProofs P2kModel P2kSpec.
Open Scope R_scope.

Lemma p2k_run p when given mu s ms ra sr name : mu_used p given mu -> answers p when s ms ra sr name ->
  planet_to_keplerian p when given = Ret (mk_kfull (ctor_state when s mu) (name ++ "(K)")%string ms ra sr).
Proof.
  intros Hm (He & H1 & H2 & H3 & H4). unfold planet_to_keplerian. destruct given as [m|]; cbn in Hm.
  - subst m. cbn [bind]. rewrite He, H4, H1, H2, H3. reflexivity.
  - destruct Hm as [Hm Hn]. rewrite Hm. cbn [bind]. destruct (Req_EM_T mu (-1)); [contradiction|]. cbn [bind]. rewrite He, H4, H1, H2, H3. reflexivity.
Qed.
Lemma p2k_unknown_mu p when name : p_mu p = Ret (-1) -> p_name p = Ret name -> planet_to_keplerian p when None = Throw InvalidArgument.
Proof. intros H1 H2. unfold planet_to_keplerian. rewrite H1. cbn [bind]. destruct (Req_EM_T (-1) (-1)); [|lra]. rewrite H2. reflexivity. Qed.

Lemma p2k_raises p when given mu e : mu_used p given mu -> p_eph p when = Throw e -> planet_to_keplerian p when given = Throw e.
Proof.
  intros Hm He. unfold planet_to_keplerian. destruct given as [m|]; cbn in Hm.
  - cbn [bind]. rewrite He. reflexivity.
  - destruct Hm as [Hm Hn]. rewrite Hm. cbn [bind]. destruct (Req_EM_T mu (-1)); [contradiction|]. cbn [bind]. rewrite He. reflexivity.
Qed.

Section Newton.
Variable newton : (R -> R * R) -> R -> R -> R -> option R.
Lemma p2k_matches p when given mu s ms ra sr name : newton_ok newton -> mu_used p given mu -> answers p when s ms ra sr name -> elliptic mu s \/ hyperbolic mu s ->
  exists k, planet_to_keplerian p when given = Ret k /\ p_eph (planet_of newton k) when = p_eph p when /\
    p_mu (planet_of newton k) = Ret mu /\ p_mu_self (planet_of newton k) = Ret ms /\ p_radius (planet_of newton k) = Ret ra /\ p_safe (planet_of newton k) = Ret sr /\
    p_name (planet_of newton k) = Ret (name ++ "(K)")%string.
Proof.
  intros Hn Hm Ha Ho. eexists. split; [eapply p2k_run; eassumption|]. destruct Ha as (He & _). rewrite He. cbn. split; [apply eph_reference; assumption|]. do 4 (split; [reflexivity|]). reflexivity.
Qed.
Lemma p2k_motion p when given mu s ms ra sr name : newton_ok newton -> mu_used p given mu -> answers p when s ms ra sr name -> elliptic mu s ->
  exists k, planet_to_keplerian p when given = Ret k /\ forall t, exists s', p_eph (planet_of newton k) t = Ret (Some s') /\ flow_at mu s ((t - when) * 86400) s'.
Proof. intros Hn Hm Ha Ho. eexists. split; [eapply p2k_run; eassumption|]. intro t. cbn. apply eph_flow; assumption. Qed.
Lemma p2k_motion_h p when given mu s ms ra sr name : newton_ok newton -> mu_used p given mu -> answers p when s ms ra sr name -> hyperbolic mu s ->
  exists k, planet_to_keplerian p when given = Ret k /\ forall t, mean_motion mu s * Rabs ((t - when) * 86400) <= 10 ^ 9 -> exists s', p_eph (planet_of newton k) t = Ret (Some s') /\ flow_at mu s ((t - when) * 86400) s'.
Proof. intros Hn Hm Ha Ho. eexists. split; [eapply p2k_run; eassumption|]. intros t Ht. cbn. apply eph_flow_h; assumption. Qed.
Lemma p2k_sound p when given mu s ms ra sr name : newton_sound newton -> mu_used p given mu -> answers p when s ms ra sr name -> regular mu s -> energy mu s <> 0 ->
  exists k, planet_to_keplerian p when given = Ret k /\ forall t s', p_eph (planet_of newton k) t = Ret (Some s') -> flow_at mu s ((t - when) * 86400) s'.
Proof. intros Hn Hm Ha Hr He. eexists. split; [eapply p2k_run; eassumption|]. intros t s' H. cbn in H. eapply eph_sound; eassumption. Qed.
Lemma p2k_elements p when given mu s ms ra sr name : mu_used p given mu -> answers p when s ms ra sr name -> nonsingular mu s -> energy mu s < 0 ->
  exists k el, planet_to_keplerian p when given = Ret k /\ osculating mu s el /\ valid el /\ forall t, kpla_elements (f_core k) t KEP_F = Ret (Some el).
Proof.
  intros Hm Ha Hns He. destruct (elements_all when s mu 0 Hns He) as (el & E & q & q' & H1 & H2 & H3 & _).
  eexists. exists el. split; [eapply p2k_run; eassumption|]. split; [exact H1|]. split; [exact H2|]. intros t. cbn [f_core]. exact H3.
Qed.
(** a planet that moves on a two-body orbit is reproduced at every date *)
Lemma p2k_two_body p when given mu s ms ra sr name : newton_ok newton -> mu_used p given mu -> answers p when s ms ra sr name -> elliptic mu s ->
  (forall t, exists s', p_eph p t = Ret (Some s') /\ flow_at mu s ((t - when) * 86400) s') ->
  exists k, planet_to_keplerian p when given = Ret k /\ same_eph (planet_of newton k) p.
Proof.
  intros Hn Hm Ha Ho Hp. destruct (p2k_motion p when given mu s ms ra sr name Hn Hm Ha Ho) as (k & Hk & Hf). exists k. split; [exact Hk|].
  intro t. destruct (Hf t) as (s1 & E1 & F1). destruct (Hp t) as (s2 & E2 & F2). rewrite E1, E2. do 2 f_equal. eapply flow_functional; eassumption.
Qed.
Lemma elliptic_flow mu s t s' : elliptic mu s -> flow_at mu s t s' -> elliptic mu s'.
Proof.
  intros [Hr He] Hf. destruct (flow_integrals mu s t s' Hr Hf) as [Hi Hz]. destruct Hi as (I1 & I2 & I3). split.
  - destruct Hr as (R1 & R2). split; [exact R1|]. congruence.
  - congruence.
Qed.
Lemma p2k_keplerian ref s mu when name ms ra sr : newton_ok newton -> elliptic mu s ->
  let p := planet_of newton (mk_kfull (ctor_state ref s mu) name ms ra sr) in
  exists k, planet_to_keplerian p when None = Ret k /\ same_eph (planet_of newton k) p.
Proof.
  intros Hn Ho p. destruct (eph_flow newton ref s mu when Hn Ho) as (s1 & E1 & F1).
  assert (Hmu : 0 < mu) by apply Ho.
  apply (p2k_two_body p when None mu s1 ms ra sr name); try assumption.
  - cbn. split; [reflexivity|lra].
  - split; [exact E1|]. do 3 (split; [reflexivity|]). reflexivity.
  - eapply elliptic_flow; eassumption.
  - intro t. destruct (eph_flow newton ref s mu t Hn Ho) as (s2 & E2 & F2). exists s2. split; [exact E2|].
    replace ((t - when) * 86400) with (- ((when - ref) * 86400) + (t - ref) * 86400) by ring. eapply flow_comp; [exact Hmu|apply flow_back; eassumption|exact F2].
Qed.
(** a planet that drifts along a straight line *)
Definition drifter : pla := mk_pla (fun t => Ret (Some (V (1 + t) 0 0, V 0 1 0))) (Ret (-1)) (Ret 0) (Ret 0) (Ret 0) (Ret "drifter"%string).
Lemma drifter_example : newton_ok newton -> exists k, planet_to_keplerian drifter 0 (Some 1) = Ret k /\
  p_eph (planet_of newton k) 0 = p_eph drifter 0 /\ p_eph (planet_of newton k) (PI / 2 / 86400) = Ret (Some (V 0 1 0, V (-1) 0 0)) /\
  p_eph drifter (PI / 2 / 86400) <> p_eph (planet_of newton k) (PI / 2 / 86400).
Proof.
  intro Hn. eexists. split; [reflexivity|]. cbn [p_eph planet_of f_core full_ctor]. rewrite Rplus_0_r.
  pose proof (quarter newton 0 Hn) as Q. rewrite Rplus_0_l in Q. split; [|split].
  - cbn [drifter p_eph]. replace (1 + 0) with 1 by ring. apply eph_reference; [exact Hn|]. left.
    pose proof circle_elliptic as C. unfold circle in C. rewrite cos_0, sin_0, Ropp_0 in C. exact C.
  - exact Q.
  - rewrite Q. intro H. injection H. intros. lra.
Qed.
End Newton.
