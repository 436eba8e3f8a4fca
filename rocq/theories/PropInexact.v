(** * Property theorems: propagation with a root finder that stops early (C61).  Only statements.  Real-number model.
    [newton_within eps newton]: an answer of the root finder leaves a residual of at most [eps]; [newton_sound] is the case eps = 0.
    [top_speed] and [top_pull] are speed and acceleration at the periapsis. *)
From Coq Require Import Reals.
From Verif Require Import Outcome Vec3 TwoBodyModel TwoBodySpec ElemSpec KeplerianModel KplaModel TwoBodyProofs InexactSpec InexactProofs.
Open Scope R_scope.

(** ** C61 *)
(** the state returned is exactly that of the true motion, at a time that differs from the one asked for by at most eps over the mean motion *)
Theorem C61_delay : forall eps newton mu s tof stm s' m, newton_within eps newton -> regular mu s -> energy mu s <> 0 ->
  propagate_lagrangian newton s tof mu stm = Ret (s', m) -> exists t', Rabs (t' - tof) <= eps / mean_motion mu s /\ flow_at mu s t' s'.
Proof. exact lag_delay. Qed.
Print Assumptions C61_delay.
(** whatever the root finder does, the state is on the orbit *)
Theorem C61_on_orbit : forall newton mu s tof stm s' m, regular mu s -> energy mu s <> 0 -> propagate_lagrangian newton s tof mu stm = Ret (s', m) -> exists t', flow_at mu s t' s'.
Proof. exact lag_on_orbit. Qed.
Print Assumptions C61_on_orbit.
Theorem C61_error : forall eps newton mu s tof stm s' m s1, newton_within eps newton -> regular mu s -> energy mu s <> 0 -> propagate_lagrangian newton s tof mu stm = Ret (s', m) -> flow_at mu s tof s1 ->
  norm (vsub (fst s') (fst s1)) <= top_speed mu s * (eps / mean_motion mu s) /\ norm (vsub (snd s') (snd s1)) <= top_pull mu s * (eps / mean_motion mu s).
Proof. exact lag_error. Qed.
Print Assumptions C61_error.
(** errors of consecutive calls add up *)
Theorem C61_chain : forall eps newton mu s t1 t2 b1 b2 s1 s2 m1 m2, newton_within eps newton -> regular mu s -> energy mu s <> 0 ->
  propagate_lagrangian newton s t1 mu b1 = Ret (s1, m1) -> propagate_lagrangian newton s1 t2 mu b2 = Ret (s2, m2) ->
  exists t', Rabs (t' - (t1 + t2)) <= 2 * (eps / mean_motion mu s) /\ flow_at mu s t' s2.
Proof. exact lag_chain. Qed.
Print Assumptions C61_chain.
Theorem C61_keplerian : forall eps newton mu s t s', newton_within eps newton -> nonsingular mu s -> propagate_keplerian newton s t mu = Ret (Some s') ->
  exists t', Rabs (t' - t) <= eps / mean_motion mu s /\ flow_at mu s t' s'.
Proof. exact kp_delay. Qed.
Print Assumptions C61_keplerian.
Theorem C61_planet : forall eps newton ref s mu t s', newton_within eps newton -> regular mu s -> energy mu s <> 0 -> kpla_eph newton (ctor_state ref s mu) t = Ret (Some s') ->
  exists t', Rabs (t' - (t - ref) * 86400) <= eps / mean_motion mu s /\ flow_at mu s t' s'.
Proof. exact eph_delay. Qed.
Print Assumptions C61_planet.
(** Full statement for propagate_lagrangian_u: that it, too, returns a state of the true motion.  It is false (C12_universal_refuted).  What holds:
    the position is off by at most twice the distance flown in the delay *)
Theorem C61_universal_partial : forall eps newton mu s dt stm s' m s1, newton_within eps newton -> regular mu s -> propagate_lagrangian_u newton s dt mu stm = Ret (s', m) -> flow_at mu s dt s1 ->
  norm (vsub (fst s') (fst s1)) <= 2 * top_speed mu s * (eps / sqrt mu).
Proof. exact lag_u_error. Qed.
Print Assumptions C61_universal_partial.
Theorem C61_exact : forall newton, newton_within 0 newton <-> newton_sound newton.
Proof. exact within_sound. Qed.
Print Assumptions C61_exact.
Theorem C61_bounds : forall mu s, regular mu s -> norm (snd s) <= top_speed mu s /\ norm (gravity mu (fst s)) <= top_pull mu s.
Proof. exact (fun mu s H => conj (speed_bound mu s H) (pull_bound mu s H)). Qed.
Print Assumptions C61_bounds.
(** a root finder that is not exact *)
Example C61_solver : newton_within (1 / 1000) (guess_root (1 / 1000)) /\ ~ newton_sound (guess_root (1 / 1000)).
Proof. exact (conj (guess_within (1 / 1000)) guess_not_sound). Qed.
(** on the unit circle errors are at most eps *)
Example C61_circle : forall eps newton t b s' m, newton_within eps newton -> propagate_lagrangian newton (circle 0) t 1 b = Ret (s', m) ->
  norm (vsub (fst s') (V (cos t) (sin t) 0)) <= eps /\ norm (vsub (snd s') (V (- sin t) (cos t) 0)) <= eps.
Proof. exact circle_within. Qed.
