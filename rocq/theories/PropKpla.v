(** * Property theorems: keplerian planets (C38).  Only statements.  Real-number model; dates in days, periods in seconds. *)
From Coq Require Import Reals ZArith.
From Verif Require Import Outcome PartialReal KepSpec Vec3 TwoBodyModel TwoBodySpec BracketProofs ElemModel ElemSpec ElemConv KeplerianModel KplaModel KplaSpec KplaProofs.
Open Scope R_scope.

(** ** built from a state *)
Theorem C38_reference : forall newton ref s mu, newton_ok newton -> elliptic mu s \/ hyperbolic mu s -> kpla_eph newton (ctor_state ref s mu) ref = Ret (Some s).
Proof. exact eph_reference. Qed.
Print Assumptions C38_reference.
Theorem C38_motion : forall newton ref s mu t, newton_ok newton -> elliptic mu s ->
  exists s', kpla_eph newton (ctor_state ref s mu) t = Ret (Some s') /\ flow_at mu s ((t - ref) * 86400) s'.
Proof. exact eph_flow. Qed.
Print Assumptions C38_motion.
(** Full statement: at every date.  Missing: hyperbolic planets far from the reference date, where the propagator's bracket
    misses the root (C10_hyperbolic_refuted). *)
Theorem C38_hyperbolic_motion_partial : forall newton ref s mu t, newton_ok newton -> hyperbolic mu s -> mean_motion mu s * Rabs ((t - ref) * 86400) <= 10 ^ 9 ->
  exists s', kpla_eph newton (ctor_state ref s mu) t = Ret (Some s') /\ flow_at mu s ((t - ref) * 86400) s'.
Proof. exact eph_flow_h. Qed.
Print Assumptions C38_hyperbolic_motion_partial.
(** whatever is returned, at any date, is the motion *)
Theorem C38_motion_sound : forall newton ref s mu t s', newton_sound newton -> regular mu s -> energy mu s <> 0 ->
  kpla_eph newton (ctor_state ref s mu) t = Ret (Some s') -> flow_at mu s ((t - ref) * 86400) s'.
Proof. exact eph_sound. Qed.
Print Assumptions C38_motion_sound.
(** energy and angular momentum do not depend on the root finder being accurate *)
Theorem C38_conserves : forall newton ref s mu t s', regular mu s -> energy mu s <> 0 -> kpla_eph newton (ctor_state ref s mu) t = Ret (Some s') -> same_integrals mu s s'.
Proof. exact eph_conserves. Qed.
Print Assumptions C38_conserves.
(** the reported period is Kepler's, and a period *)
Theorem C38_period : forall newton ref s mu, newton_ok newton -> elliptic mu s ->
  exists P, (forall t, kpla_period (ctor_state ref s mu) t = Some P) /\ 0 < P /\ P = 2 * PI * sqrt (sma mu s ^ 3 / mu) /\
  forall t (k : Z), kpla_eph newton (ctor_state ref s mu) (t + IZR k * P / 86400) = kpla_eph newton (ctor_state ref s mu) t.
Proof. exact eph_period. Qed.
Print Assumptions C38_period.
(** and the least one: the motion is back in its initial state only after whole periods *)
Theorem C38_least_period : forall mu s t, elliptic mu s -> flow_at mu s t s -> exists k : Z, t = IZR k * (2 * PI * sqrt (sma mu s ^ 3 / mu)).
Proof. exact least_period. Qed.
Print Assumptions C38_least_period.
Theorem C38_no_period : forall ref s mu t, hyperbolic mu s -> kpla_period (ctor_state ref s mu) t = None.
Proof. exact no_period. Qed.
Print Assumptions C38_no_period.

(** ** built from elements *)
Theorem C38_kep_f : forall newton ref el mu, 0 < mu -> 0 < el_a el * (1 - el_e el) -> 0 <= el_e el -> 0 < 1 + el_e el * cos (el_f el) ->
  exists p s, ctor_elem newton ref el mu KEP_F = Ret p /\ osculating mu s el /\ same_planet p (ctor_state ref s mu) /\ k_el p = Some el.
Proof. exact kep_f_planet. Qed.
Print Assumptions C38_kep_f.
(** for elements in their canonical ranges the two constructors build the same object *)
Theorem C38_kep_f_valid : forall newton ref el mu, 0 < mu -> valid el -> exists s, osculating mu s el /\ ctor_elem newton ref el mu KEP_F = Ret (ctor_state ref s mu).
Proof. exact kep_f_valid. Qed.
Print Assumptions C38_kep_f_valid.
(** mean anomaly: the planet is where Kepler's equation puts it *)
Theorem C38_kep_m : forall newton ref x mu, newton_ok newton -> 0 < mu -> 0 < el_a x -> 0 <= el_e x < 1 ->
  exists p s f E (k : Z), ctor_elem newton ref x mu KEP_M = Ret p /\ same_point_ellipse (el_e x) E f /\ E - el_e x * sin E = el_f x + 2 * IZR k * PI /\
    osculating mu s (with_f x f) /\ same_planet p (ctor_state ref s mu) /\ k_el p = Some (with_f x f).
Proof. exact kep_m_planet. Qed.
Print Assumptions C38_kep_m.
Theorem C38_kep_m_hyperbola : forall newton ref x mu, el_a x < 0 -> 1 < el_e x -> ctor_elem newton ref x mu KEP_M = Throw LogicError.
Proof. exact kep_m_hyperbola. Qed.
Print Assumptions C38_kep_m_hyperbola.
(** Full statement: for every valid set of equinoctial elements.  It is false: C38_equinoctial_refuted, C38_equinoctial_nan_refuted. *)
Theorem C38_equinoctial_partial : forall newton ref q mu b, 0 < mu -> eq_valid q -> eq_f q < 1 -> 0 < eq_f q * eq_f q + eq_g q * eq_g q -> 0 < eq_h q * eq_h q + eq_k q * eq_k q ->
  exists p s, ctor_elem newton ref (as_el q) mu (retro_of b) = Ret p /\ osculating_eq mu b s q /\ same_planet p (ctor_state ref s mu).
Proof. exact meq_planet. Qed.
Print Assumptions C38_equinoctial_partial.
(** the check a(1-e) > 0 is made on p(1-f): a valid hyperbola is refused *)
Theorem C38_equinoctial_refuted : exists q mu s, 0 < mu /\ eq_valid q /\ eq2ic q mu false = Some s /\ hyperbolic mu s /\
  forall newton ref, ctor_elem newton ref (as_el q) mu MEQ = Throw DomainError.
Proof. exact meq_hyperbola. Qed.
Print Assumptions C38_equinoctial_refuted.
(** elements are converted through the classical ones: a circular planet is accepted and its position is NaN *)
Theorem C38_equinoctial_nan_refuted : exists q mu s, 0 < mu /\ eq_valid q /\ eq2ic q mu false = Some s /\ elliptic mu s /\
  forall newton ref, exists p, ctor_elem newton ref (as_el q) mu MEQ = Ret p /\ forall t, kpla_eph newton p t = Ret None.
Proof. exact meq_circular. Qed.
Print Assumptions C38_equinoctial_nan_refuted.
(** exactly these classical elements are refused, and no other way out is taken *)
Theorem C38_rejects : forall newton ref el mu,
  (ctor_elem newton ref el mu KEP_F = Throw DomainError <-> el_a el * (1 - el_e el) <= 0 \/ (1 < el_e el /\ cos (el_f el) < - / el_e el)) /\
  (ctor_elem newton ref el mu KEP_F <> Throw DomainError -> exists p, ctor_elem newton ref el mu KEP_F = Ret p).
Proof. exact ctor_rejects. Qed.
Print Assumptions C38_rejects.
(** a negative eccentricity is inconsistent and is not refused *)
Theorem C38_rejects_refuted : exists el mu, 0 < mu /\ el_e el < 0 /\ forall newton ref, exists p s, ctor_elem newton ref el mu KEP_F = Ret p /\ k_pv p = Some s.
Proof. exact ctor_neg_ecc. Qed.
Print Assumptions C38_rejects_refuted.

(** ** elements() *)
(** Full statement: for every bound orbit and at the date asked for.  It is false: C38_elements_none_refuted, C38_elements_date_refuted. *)
Theorem C38_elements_partial : forall ref s mu t, nonsingular mu s -> energy mu s < 0 -> let p := ctor_state ref s mu in
  exists el E q q', osculating mu s el /\ valid el /\ kpla_elements p t KEP_F = Ret (Some el) /\
    same_point_ellipse (el_e el) E (el_f el) /\ kpla_elements p t KEP_M = Ret (Some (with_f el (E - el_e el * sin E))) /\
    osculating_eq mu false s q /\ kpla_elements p t MEQ = Ret (Some (as_el q)) /\ osculating_eq mu true s q' /\ kpla_elements p t MEQ_R = Ret (Some (as_el q')).
Proof. exact elements_all. Qed.
Print Assumptions C38_elements_partial.
(** a bound orbit, circular in the reference plane: a state but NaN elements, equinoctial ones included *)
Theorem C38_elements_none_refuted : exists s mu, elliptic mu s /\
  forall ref t, kpla_elements (ctor_state ref s mu) t KEP_F = Ret None /\ kpla_elements (ctor_state ref s mu) t MEQ = Ret None.
Proof. exact elements_none. Qed.
Print Assumptions C38_elements_none_refuted.
(** the date is ignored: the elements reported for a date are not those of the state reported for it *)
Theorem C38_elements_date_refuted : exists ref s mu t s' el, elliptic mu s /\ (forall newton, newton_ok newton -> kpla_eph newton (ctor_state ref s mu) t = Ret (Some s')) /\
  kpla_elements (ctor_state ref s mu) t KEP_F = Ret (Some el) /\ ~ osculating mu s' el.
Proof. exact elements_stale. Qed.
Print Assumptions C38_elements_date_refuted.
(** elements from position and velocity (planet.cpp): the mean anomaly is refused for a bound orbit exactly when its semi-major
    axis is below one unit of length *)
Theorem C38_posvel_mean_anomaly : forall s mu, nonsingular mu s -> energy mu s < 0 -> (sma mu s < 1 <-> posvel_elements s mu KEP_M = Throw LogicError).
Proof. exact posvel_kep_m. Qed.
Print Assumptions C38_posvel_mean_anomaly.
(** Full statement: all four sets for every bound orbit.  Missing: circular or uninclined orbits, and the mean anomaly as just said. *)
Theorem C38_posvel_elements_partial : forall s mu, nonsingular mu s -> energy mu s < 0 -> exists el E q q', osculating mu s el /\ valid el /\ posvel_elements s mu KEP_F = Ret (Some el) /\
    same_point_ellipse (el_e el) E (el_f el) /\ (1 <= sma mu s -> posvel_elements s mu KEP_M = Ret (Some (with_f el (E - el_e el * sin E)))) /\
    osculating_eq mu false s q /\ posvel_elements s mu MEQ = Ret (Some (as_el q)) /\ osculating_eq mu true s q' /\ posvel_elements s mu MEQ_R = Ret (Some (as_el q')).
Proof. exact posvel_all. Qed.
Print Assumptions C38_posvel_elements_partial.
Theorem C38_posvel_refuted : exists s mu, elliptic mu s /\ nonsingular mu s /\ posvel_elements s mu KEP_M = Throw LogicError.
Proof. exact posvel_small. Qed.
Print Assumptions C38_posvel_refuted.

(** a planet on a circular orbit of radius one, a quarter of a turn after its reference date *)
Example C38_quarter : forall newton ref, newton_ok newton -> kpla_eph newton (ctor_state ref (V 1 0 0, V 0 1 0) 1) (ref + PI / 2 / 86400) = Ret (Some (V 0 1 0, V (-1) 0 0)).
Proof. exact quarter. Qed.
