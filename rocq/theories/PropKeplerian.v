(** * Property theorems: propagation through orbital elements (C16).  Only statements.  Real-number model. *)
From Coq Require Import Reals.
From Verif Require Import Outcome KepSpec Vec3 TwoBodyModel TwoBodySpec BracketProofs ElemModel ElemSpec ElemPar ElemConv KeplerianModel KeplerianMain.
Open Scope R_scope.

(** ellipses: both propagators return, the same state, which is where the motion is after time t *)
Theorem C16_elliptic : forall newton mu s t b, newton_ok newton -> nonsingular mu s -> energy mu s < 0 ->
  exists s' m, propagate_keplerian newton s t mu = Ret (Some s') /\ propagate_lagrangian newton s t mu b = Ret (s', m) /\ flow_at mu s t s'.
Proof. exact kp_agree_ell. Qed.
Print Assumptions C16_elliptic.
(** Full statement: for every time and every hyperbola.  It is false: C16_hyperbolic_refuted.  r.v is what bounds the mean anomaly
    of the initial state. *)
Theorem C16_hyperbolic_partial : forall newton mu s t b, newton_ok newton -> nonsingular mu s -> 0 < energy mu s -> mean_motion mu s * Rabs t <= 10 ^ 9 ->
  Rabs (dot (fst s) (snd s)) <= 10 ^ 16 * sqrt (mu * Rabs (sma mu s)) ->
  exists s' m, propagate_keplerian newton s t mu = Ret (Some s') /\ propagate_lagrangian newton s t mu b = Ret (s', m) /\ flow_at mu s t s'.
Proof. exact kp_agree_hyp. Qed.
Print Assumptions C16_hyperbolic_partial.
(** whenever both return a state it is the same one, whatever root finders they use *)
Theorem C16_agree : forall newton newton' mu s t b s1 s2 m, newton_sound newton -> newton_sound newton' -> nonsingular mu s ->
  propagate_keplerian newton s t mu = Ret (Some s1) -> propagate_lagrangian newton' s t mu b = Ret (s2, m) -> s1 = s2.
Proof. exact kp_agree. Qed.
Print Assumptions C16_agree.
Theorem C16_flow : forall newton mu s t s', newton_sound newton -> nonsingular mu s -> propagate_keplerian newton s t mu = Ret (Some s') -> flow_at mu s t s'.
Proof. exact kp_sound. Qed.
Print Assumptions C16_flow.
(** the two do not fail together: on a hyperbola the bracket of one still holds the root when that of the other does not *)
Theorem C16_hyperbolic_refuted : exists mu s t, hyperbolic mu s /\ nonsingular mu s /\
  forall newton b, picky newton -> (exists s', propagate_keplerian newton s t mu = Ret (Some s')) /\ propagate_lagrangian newton s t mu b = Throw DomainError.
Proof. exact (ex_intro _ 1 (ex_intro _ (el_state 1 far_el) (ex_intro _ far_t far_refutes))). Qed.
Print Assumptions C16_hyperbolic_refuted.
(** from the end of the semi-latus rectum to the pericentre *)
Example C16_pericentre : forall newton, newton_ok newton ->
  propagate_keplerian newton (V (-3 / 2) 0 0, V (1 / 2) 0 1) ((PI / 3 - sqrt 3 / 4) / sqrt (3 / 16)) (3 / 2) = Ret (Some (V 0 0 1, V (3 / 2) 0 0)).
Proof. exact peri_run. Qed.
