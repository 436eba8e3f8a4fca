(** * Main lemmas about the propagators *)
From Coq Require Import Reals Lra Lia.
From Coquelicot Require Import Coquelicot.
From Coq Require Import List.
From Verif Require Import Outcome RealLib KepModel KepSpec KepProofs AnomProofs Vec3 TwoBodyModel TwoBodySpec FlowProofs LagProofs.
Import ListNotations.
Open Scope R_scope.

(** ** The flow as a relation *)
Lemma two_body_shift mu y t1 : two_body mu m_infty p_infty y -> two_body mu m_infty p_infty (fun u => y (t1 + u)).
Proof.
  intros Y t _ _. destruct (Y (t1 + t)) as [N [D1 D2]]; try exact I. split; [exact N|].
  assert (SH : forall (f : R -> R) d, is_derive f (t1 + t) d -> is_derive (fun u => f (t1 + u)) t d).
  { intros f d H. eapply der_to; [apply (der_comp f (fun u => t1 + u)); [exact H|]|].
    - eapply der_to; [apply der_plus; [apply der_const|apply der_id]|]. reflexivity.
    - ring. }
  destruct D1 as [A1 [A2 A3]], D2 as [B1 [B2 B3]].
  split; (split; [|split]); [exact (SH _ _ A1)|exact (SH _ _ A2)|exact (SH _ _ A3)|exact (SH _ _ B1)|exact (SH _ _ B2)|exact (SH _ _ B3)].
Qed.
Lemma flow_functional mu s t s1 s2 : flow_at mu s t s1 -> flow_at mu s t s2 -> s1 = s2.
Proof. intros [[y [Y [Y0 Yt]]] _] [_ U]. rewrite <- Yt. apply (U m_infty p_infty y); try exact I; assumption. Qed.
Lemma flow_of_solution mu s t y : 0 < mu -> two_body mu m_infty p_infty y -> y 0 = s -> flow_at mu s t (y t).
Proof.
  intros M Y Y0. split; [exists y; auto|]. intros lo hi z L H Z Z0.
  apply (two_body_unique mu lo hi z y); try assumption; [|rewrite Z0, Y0; reflexivity]. intros u _ _. apply Y; exact I.
Qed.
Lemma flow_comp mu s t1 s1 t2 s2 : 0 < mu -> flow_at mu s t1 s1 -> flow_at mu s1 t2 s2 -> flow_at mu s (t1 + t2) s2.
Proof.
  intros M [[y [Y [Y0 Yt]]] _] [_ U2].
  assert (E : y (t1 + t2) = s2).
  { apply (U2 m_infty p_infty (fun u => y (t1 + u))); try exact I; [apply two_body_shift; exact Y|]. rewrite Rplus_0_r. exact Yt. }
  rewrite <- E. apply flow_of_solution; assumption.
Qed.

(** the universal state of a state *)
Definition ust (mu : R) (s : state) (x : R) : state := ustate mu (fst s) (snd s) x.
Lemma regular_r mu s : regular mu s -> 0 < mu /\ fst s <> vzero /\ cross (fst s) (snd s) <> vzero.
Proof. intros [M H]. split; [exact M|]. split; [|exact H]. apply (cross_nz_r _ _ H). Qed.
Lemma flow_0 mu s : regular mu s -> flow_at mu s 0 s.
Proof.
  intros Rg. destruct (regular_r _ _ Rg) as [M [Hr Hh]]. destruct s as [r v]. cbn [fst snd] in *.
  rewrite <- (ustate_0 mu r v M Hr) at 2. apply (ustate_flow mu r v M Hr Hh). rewrite T_0. ring.
Qed.
Lemma flow_back mu s t s1 : 0 < mu -> flow_at mu s t s1 -> flow_at mu s1 (- t) s.
Proof.
  intros M [[y [Y [Y0 Yt]]] _].
  pose proof (flow_of_solution mu s1 (- t) (fun u => y (t + u)) M (two_body_shift mu y t Y)) as F. cbv beta in F.
  rewrite Rplus_0_r, Rplus_opp_r, Y0 in F. apply F. exact Yt.
Qed.
Lemma flow_integrals mu s t s1 : regular mu s -> flow_at mu s t s1 -> same_integrals mu s s1 /\ fst s1 <> vzero.
Proof.
  intros Rg F. destruct (regular_r _ _ Rg) as [M [Hr Hh]]. destruct s as [r v]. cbn [fst snd] in *.
  destruct (T_onto mu r v M Hr Hh (sqrt mu * t)) as [x E]. pose proof (ustate_flow mu r v M Hr Hh t x E) as F'.
  rewrite (flow_functional _ _ _ _ _ F F'). split; [apply u_integrals; [exact M|exact Hr|apply (rho_pos mu r v M Hr Hh)]|apply (unz mu r v M Hr Hh)].
Qed.
Lemma same_regular mu s s1 : same_integrals mu s s1 -> (regular mu s -> regular mu s1) /\ (elliptic mu s -> elliptic mu s1) /\ (hyperbolic mu s -> hyperbolic mu s1).
Proof. intros [E [H _]]. unfold elliptic, hyperbolic, regular. rewrite E, H. tauto. Qed.

(** ** Ellipses *)
Section Any.
Variable newton : (R -> R * R) -> R -> R -> R -> option R.

Lemma ellipse_code_bracket mu r0 v0 tof : elliptic mu (r0, v0) ->
  let a := lag_a mu (lag_energy mu (lag_R0 r0) (lag_V02 v0)) in let sigma0 := lag_sigma0 r0 v0 mu in
  let DM := lag_DM mu a tof in
  let IG := lag_IG (lag_DMc DM) (sin DM) (cos DM) (sigma0 / sqrt a) (1 - lag_R0 r0 / a) in
  0 < a /\ bracketed (fun DE => kepDE DE (lag_DMc DM) sigma0 (sqrt a) a (lag_R0 r0)) (IG - PI) (IG + PI).
Proof.
  intros [Rg Neg] a sigma0 DM IG. destruct (regular_r _ _ Rg) as [M [Hr Hh]]. cbn [fst snd] in *.
  split; [apply (a_pos mu r0 v0 M Neg)|]. apply (ellipse_bracket DM). apply (ecc_lt1 mu r0 v0 M Hr Neg Hh).
Qed.
Lemma ellipse_flow mu s tof stm : newton_ok newton -> elliptic mu s ->
  exists s' m, propagate_lagrangian newton s tof mu stm = Ret (s', m) /\ flow_at mu s tof s'.
Proof.
  intros NK El. destruct s as [r0 v0]. pose proof (ellipse_code_bracket mu r0 v0 tof El) as CB. cbv zeta in CB. destruct CB as [PA B].
  destruct El as [Rg Neg]. destruct (regular_r _ _ Rg) as [M [Hr Hh]]. cbn [fst snd] in *.
  unfold propagate_lagrangian, lag_solve.
  set (a := lag_a mu (lag_energy mu (lag_R0 r0) (lag_V02 v0))) in *. set (sigma0 := lag_sigma0 r0 v0 mu) in *. set (DM := lag_DM mu a tof) in *.
  set (IG := lag_IG (lag_DMc DM) (sin DM) (cos DM) (sigma0 / sqrt a) (1 - lag_R0 r0 / a)) in *.
  destruct (Rlt_dec 0 a) as [_|N]; [|contradiction]. destruct B as [[B1 B2] _]. pose proof PI_RGT_0.
  destruct (NK (fun DE => (kepDE DE (lag_DMc DM) sigma0 (sqrt a) a (lag_R0 r0), d_kepDE DE sigma0 (sqrt a) a (lag_R0 r0))) IG (IG - PI) (IG + PI))
    as [DE [-> [_ Rt]]]; [lra|exact (proj1 (der_kepDE _ _ _ _ _))|cbn [fst]; lra|].
  cbn [fst] in Rt. cbn [bind]. eexists. eexists. split; [reflexivity|].
  rewrite (state_ellipse mu r0 v0 M Hr Neg). destruct (ellipse_root mu r0 v0 M Hr Neg tof DE Rt) as [DE' [E1 [E2 _]]].
  change (lag_a mu (energy mu (r0, v0))) with a in E1, E2 |- *. rewrite <- E2. apply (ustate_flow mu r0 v0 M Hr Hh). exact E1.
Qed.
End Any.
