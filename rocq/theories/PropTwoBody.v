(** * Property theorems: Keplerian propagation (C10 brackets, C12 conservation, C13 flow, C14 group, C15 agreement).
    Only statements.  Real-number model.  [picky] is a root finder that answers exactly when the bracket it is given contains
    the one root; [newton_ok] answers with a root whenever there is a sign change; [newton_sound] answers only with roots. *)
From Coq Require Import Reals List.
From Verif Require Import Outcome KepModel KepSpec Vec3 TwoBodyModel TwoBodySpec FlowMain BracketProofs TwoBodyProofs.
Open Scope R_scope.

(** ** C10 *)
Theorem C10_elliptic : forall newton mu s tof stm, picky newton -> elliptic mu s -> exists x, propagate_lagrangian newton s tof mu stm = Ret x.
Proof. exact lag_picky_E. Qed.
Print Assumptions C10_elliptic.
(** Full statement: the same for every time of flight.  It is false: C10_hyperbolic_refuted. *)
Theorem C10_hyperbolic_partial : forall newton mu s tof stm, picky newton -> hyperbolic mu s -> mean_motion mu s * Rabs tof <= 10 ^ 9 ->
  exists x, propagate_lagrangian newton s tof mu stm = Ret x.
Proof. exact lag_picky_H. Qed.
Print Assumptions C10_hyperbolic_partial.
Theorem C10_hyperbolic_refuted : forall newton mu s, picky newton -> hyperbolic mu s ->
  exists t1, forall tof stm, t1 <= tof -> propagate_lagrangian newton s tof mu stm = Throw DomainError.
Proof. exact lag_picky_H_fails. Qed.
Print Assumptions C10_hyperbolic_refuted.
(** Full statement: without the size conditions.  It is false: C10_universal_refuted. *)
Theorem C10_universal_partial : forall newton mu s dt stm, picky newton -> regular mu s ->
  (energy mu s < 0 /\ sqrt (sma mu s) * ecc mu s < PI) \/ (0 <= energy mu s /\ sqrt mu * Rabs dt < (3 + 2 * PI) * periapsis mu s) ->
  exists x, propagate_lagrangian_u newton s dt mu stm = Ret x.
Proof. exact (fun newton mu s dt stm P Rg H => lag_u_total newton mu s dt stm (fun f g lo hi => picky_some newton f g lo hi P) Rg H). Qed.
Print Assumptions C10_universal_partial.
Theorem C10_universal_refuted : exists mu s dt, elliptic mu s /\
  forall newton, picky newton -> (exists x, propagate_lagrangian newton s dt mu false = Ret x) /\ propagate_lagrangian_u newton s dt mu false = Throw DomainError.
Proof. exact (ex_intro _ 1 (ex_intro _ u_bad (ex_intro _ u_bad_dt (conj u_bad_elliptic u_throws_where_lag_returns)))). Qed.
Print Assumptions C10_universal_refuted.
(** Full statement: for every N.  It is false: C10_n2h_refuted. *)
Theorem C10_n2h_partial : forall newton e N, picky newton -> 1 < e -> Rabs N <= 10 ^ 17 -> exists h, n2h newton N e = Ret (Some h).
Proof. exact n2h_picky. Qed.
Print Assumptions C10_n2h_partial.
Theorem C10_n2h_refuted : forall newton e, picky newton -> 1 < e -> exists N1, forall N, N1 <= N -> n2h newton N e = Throw DomainError.
Proof. exact n2h_picky_fails. Qed.
Print Assumptions C10_n2h_refuted.
(** such root finders exist *)
Example C10_picky_exists : picky picky_root. Proof. exact picky_root_ok. Qed.
Example C10_circle : forall t, exists x, propagate_lagrangian picky_root (circle 0) t 1 true = Ret x.
Proof. exact (fun t => lag_picky_E picky_root 1 (circle 0) t true picky_root_ok circle_elliptic). Qed.

(** ** C12: whatever the root finder returns *)
Theorem C12_lagrangian : forall newton mu s tof stm s' m, 0 < mu -> fst s <> vzero -> energy mu s <> 0 ->
  propagate_lagrangian newton s tof mu stm = Ret (s', m) -> fst s' <> vzero -> same_integrals mu s s'.
Proof. exact lag_conserves. Qed.
Print Assumptions C12_lagrangian.
(** away from rectilinear orbits the final position is never the centre *)
Theorem C12_regular : forall newton mu s tof stm s' m, regular mu s -> energy mu s <> 0 ->
  propagate_lagrangian newton s tof mu stm = Ret (s', m) -> fst s' <> vzero /\ same_integrals mu s s'.
Proof. exact lag_conserves_regular. Qed.
Print Assumptions C12_regular.
(** Full statement for propagate_lagrangian_u: without [newton_sound].  It is false: C12_universal_refuted. *)
Theorem C12_universal_partial : forall newton mu s dt stm s' m, newton_sound newton -> 0 < mu -> fst s <> vzero ->
  propagate_lagrangian_u newton s dt mu stm = Ret (s', m) -> fst s' <> vzero -> same_integrals mu s s'.
Proof. exact u_conserves. Qed.
Print Assumptions C12_universal_partial.
Theorem C12_universal_refuted : exists newton mu s dt s' m, propagate_lagrangian_u newton s dt mu false = Ret (s', m) /\ fst s' <> vzero /\ energy mu s' <> energy mu s.
Proof. exact (ex_intro _ lazy_root (ex_intro _ 1 (ex_intro _ (V 1 0 0, V 0 1 0) (ex_intro _ 1 u_not_conserving)))). Qed.
Print Assumptions C12_universal_refuted.

(** ** C13 *)
Theorem C13_elliptic : forall newton mu s tof stm, newton_ok newton -> elliptic mu s ->
  exists s' m, propagate_lagrangian newton s tof mu stm = Ret (s', m) /\ flow_at mu s tof s'.
Proof. exact ellipse_flow. Qed.
Print Assumptions C13_elliptic.
(** Full statement: for every tof.  Beyond the bound the bracket [IG - 50, IG + 50] eventually misses the root (C10_hyperbolic_refuted). *)
Theorem C13_hyperbolic_partial : forall newton mu s tof stm, newton_ok newton -> hyperbolic mu s -> mean_motion mu s * Rabs tof <= 10 ^ 9 ->
  exists s' m, propagate_lagrangian newton s tof mu stm = Ret (s', m) /\ flow_at mu s tof s'.
Proof. exact lag_hyp_total. Qed.
Print Assumptions C13_hyperbolic_partial.
(** whenever the solver found a root, the result is the flow, for every time of flight *)
Theorem C13_sound : forall newton mu s tof stm s' m, newton_sound newton -> regular mu s -> energy mu s <> 0 ->
  propagate_lagrangian newton s tof mu stm = Ret (s', m) -> flow_at mu s tof s'.
Proof. exact lag_sound. Qed.
Print Assumptions C13_sound.
Theorem C13_universal_sound : forall newton mu s dt stm s' m, newton_sound newton -> regular mu s ->
  propagate_lagrangian_u newton s dt mu stm = Ret (s', m) -> flow_at mu s dt s'.
Proof. exact lag_u_flow. Qed.
Print Assumptions C13_universal_sound.
Theorem C13_flow_unique : forall mu s t s1 s2, flow_at mu s t s1 -> flow_at mu s t s2 -> s1 = s2.
Proof. exact flow_functional. Qed.
Print Assumptions C13_flow_unique.
Example C13_solver_exists : newton_ok exact_root /\ newton_sound exact_root. Proof. exact exact_root_ok. Qed.
Example C13_circle : forall newton t, newton_ok newton ->
  exists m, propagate_lagrangian newton (circle 0) t 1 false = Ret ((V (cos t) (sin t) 0, V (- sin t) (cos t) 0), m).
Proof. exact circle_run. Qed.
Example C13_hyperbola : forall newton t, newton_ok newton -> Rabs t <= 10 ^ 8 ->
  exists s' m, propagate_lagrangian newton (V 1 0 0, V 0 2 0) t 1 true = Ret (s', m) /\ flow_at 1 (V 1 0 0, V 0 2 0) t s' /\ energy 1 s' = 1.
Proof. exact fast_run. Qed.

(** ** C14 *)
Theorem C14_zero : forall newton, newton_ok newton -> forall mu s stm, elliptic mu s \/ hyperbolic mu s -> exists m, propagate_lagrangian newton s 0 mu stm = Ret (s, m).
Proof. exact group_zero. Qed.
Print Assumptions C14_zero.
Theorem C14_compose : forall newton, newton_ok newton -> forall mu s t1 t2 b1 b2 b3, elliptic mu s ->
  exists s1 s2 m1 m2 m3, propagate_lagrangian newton s t1 mu b1 = Ret (s1, m1) /\ propagate_lagrangian newton s1 t2 mu b2 = Ret (s2, m2) /\
    propagate_lagrangian newton s (t1 + t2) mu b3 = Ret (s2, m3).
Proof. exact group_comp. Qed.
Print Assumptions C14_compose.
Theorem C14_back : forall newton, newton_ok newton -> forall mu s t b1 b2, elliptic mu s ->
  exists s1 m1 m2, propagate_lagrangian newton s t mu b1 = Ret (s1, m1) /\ propagate_lagrangian newton s1 (- t) mu b2 = Ret (s, m2).
Proof. exact group_back. Qed.
Print Assumptions C14_back.
Theorem C14_period : forall newton, newton_ok newton -> forall mu s k stm, elliptic mu s -> exists m, propagate_lagrangian newton s (IZR k * period mu s) mu stm = Ret (s, m).
Proof. exact group_period. Qed.
Print Assumptions C14_period.
(** Full statement: without the bound on the times (see C10_hyperbolic_refuted) *)
Theorem C14_compose_hyperbolic_partial : forall newton, newton_ok newton -> forall mu s t1 t2 b1 b2 b3, hyperbolic mu s -> mean_motion mu s * (Rabs t1 + Rabs t2) <= 10 ^ 9 ->
  exists s1 s2 m1 m2 m3, propagate_lagrangian newton s t1 mu b1 = Ret (s1, m1) /\ propagate_lagrangian newton s1 t2 mu b2 = Ret (s2, m2) /\
    propagate_lagrangian newton s (t1 + t2) mu b3 = Ret (s2, m3).
Proof. exact group_comp_h. Qed.
Print Assumptions C14_compose_hyperbolic_partial.
Theorem C14_vectorised : forall newton s tofs mu stm l,
  propagate_lagrangian_v newton s tofs mu stm = Ret l <-> Forall2 (fun t x => propagate_lagrangian newton s t mu stm = Ret x) tofs l.
Proof. exact lag_v_spec. Qed.
Print Assumptions C14_vectorised.
Theorem C14_vectorised_throw : forall newton s mu stm l1 t l2 e,
  Forall (fun u => exists x, propagate_lagrangian newton s u mu stm = Ret x) l1 -> propagate_lagrangian newton s t mu stm = Throw e ->
  propagate_lagrangian_v newton s (l1 ++ t :: l2) mu stm = Throw e.
Proof. exact lag_v_throw. Qed.
Print Assumptions C14_vectorised_throw.

(** ** C15 *)
Theorem C15_agree : forall newton newton' mu s t b b' s1 m1 s2 m2, newton_sound newton -> newton_sound newton' -> regular mu s -> energy mu s <> 0 ->
  propagate_lagrangian newton s t mu b = Ret (s1, m1) -> propagate_lagrangian_u newton' s t mu b' = Ret (s2, m2) -> s1 = s2.
Proof. exact agree_sound. Qed.
Print Assumptions C15_agree.
(** Full statement: for all states and times.  It is false: C15_refuted. *)
Theorem C15_elliptic_partial : forall newton mu s t b b', newton_ok newton -> newton_sound newton -> elliptic mu s -> sqrt (sma mu s) * ecc mu s < PI ->
  exists s1 m1 m2, propagate_lagrangian newton s t mu b = Ret (s1, m1) /\ propagate_lagrangian_u newton s t mu b' = Ret (s1, m2).
Proof. exact agree_total. Qed.
Print Assumptions C15_elliptic_partial.
Theorem C15_hyperbolic_partial : forall newton mu s t b b', newton_ok newton -> newton_sound newton -> hyperbolic mu s -> mean_motion mu s * Rabs t <= 10 ^ 9 ->
  sqrt mu * Rabs t < (3 + 2 * PI) * periapsis mu s ->
  exists s1 m1 m2, propagate_lagrangian newton s t mu b = Ret (s1, m1) /\ propagate_lagrangian_u newton s t mu b' = Ret (s1, m2).
Proof. exact agree_total_h. Qed.
Print Assumptions C15_hyperbolic_partial.
Theorem C15_refuted : exists mu s dt, elliptic mu s /\
  forall newton, picky newton -> (exists x, propagate_lagrangian newton s dt mu false = Ret x) /\ propagate_lagrangian_u newton s dt mu false = Throw DomainError.
Proof. exact C10_universal_refuted. Qed.
Print Assumptions C15_refuted.
