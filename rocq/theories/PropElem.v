(** * Properties of the orbital element conversions (C19, C20) *)
From Coq Require Import Reals.
From Verif Require Import Outcome Vec3 TwoBodySpec ElemModel ElemSpec ElemPar ElemEq ElemConv.
Open Scope R_scope.

(** ** C19: Cartesian state <-> osculating elements *)
(** the elements computed for a state describe that state, in the documented ranges *)
Theorem C19_ic2par : forall mu s, nonsingular mu s -> exists el, ic2par s mu = Some el /\ osculating mu s el /\ valid el.
Proof. exact ic2par_ok. Qed.
Print Assumptions C19_ic2par.

(** the state computed for valid elements is the one they describe *)
Theorem C19_par2ic : forall mu el, 0 < mu -> valid el -> exists s, par2ic el mu = Ret (Some s) /\ osculating mu s el /\ nonsingular mu s.
Proof. exact par2ic_spec. Qed.
Print Assumptions C19_par2ic.

Theorem C19_state_round_trip : forall mu s el, nonsingular mu s -> ic2par s mu = Some el -> par2ic el mu = Ret (Some s).
Proof. exact ic_par_ic. Qed.
Print Assumptions C19_state_round_trip.

Theorem C19_elements_round_trip : forall mu el s, 0 < mu -> valid el -> par2ic el mu = Ret (Some s) -> ic2par s mu = Some el.
Proof. exact par_ic_par. Qed.
Print Assumptions C19_elements_round_trip.

(** ic2par gives numbers exactly on the non-singular states *)
Theorem C19_domain : forall mu s, 0 < mu -> ((exists el, ic2par s mu = Some el) <-> nonsingular mu s).
Proof. exact ic2par_domain. Qed.
Print Assumptions C19_domain.

Theorem C19_ranges : forall mu s el, ic2par s mu = Some el ->
  0 <= el_e el /\ 0 <= el_i el <= PI /\ 0 <= el_W el <= 2 * PI /\ 0 <= el_w el <= 2 * PI /\ 0 <= el_f el <= 2 * PI.
Proof. exact ic2par_range. Qed.
Print Assumptions C19_ranges.

(** exactly which element sets are rejected *)
Theorem C19_throws : forall mu el,
  (par2ic el mu = Throw DomainError <-> el_a el * (1 - el_e el) < 0 \/ (1 < el_e el /\ cos (el_f el) < - / el_e el)) /\
  (forall x, par2ic el mu = Throw x -> x = DomainError) /\ par2ic el mu <> UB.
Proof. exact par2ic_throws. Qed.
Print Assumptions C19_throws.

(** not every impossible element set is rejected: a negative eccentricity is accepted *)
Theorem C19_negative_eccentricity_refuted : exists el mu s, 0 < mu /\ el_e el < 0 /\ par2ic el mu = Ret (Some s).
Proof. exact par2ic_neg_ecc. Qed.
Print Assumptions C19_negative_eccentricity_refuted.

(** ... and for eccentricity 1 the result is not a number although nothing is thrown *)
Theorem C19_parabola_refuted : forall a i W w f mu, par2ic (El a 1 i W w f) mu = Ret None.
Proof. exact par2ic_parabola. Qed.
Print Assumptions C19_parabola_refuted.

Example C19_example : par2ic (El 2 (1 / 2) (PI / 2) PI (PI / 2) (3 * (PI / 2))) (3 / 2) = Ret (Some (V (-3 / 2) 0 0, V (1 / 2) 0 1)) /\
  ic2par (V (-3 / 2) 0 0, V (1 / 2) 0 1) (3 / 2) = Some (El 2 (1 / 2) (PI / 2) PI (PI / 2) (3 * (PI / 2))).
Proof. exact (conj el0_par2ic el0_ic2par). Qed.

(** ** C20: equinoctial elements *)
Theorem C20_ic2eq : forall mu retro s, eq_regular mu retro s ->
  exists q, ic2eq s mu retro = Some q /\ osculating_eq mu retro s q /\ eq_valid q.
Proof. exact ic2eq_spec. Qed.
Print Assumptions C20_ic2eq.

Theorem C20_eq2ic : forall mu retro q, 0 < mu -> eq_valid q ->
  exists s, eq2ic q mu retro = Some s /\ osculating_eq mu retro s q /\ eq_regular mu retro s.
Proof. exact eq2ic_spec. Qed.
Print Assumptions C20_eq2ic.

Theorem C20_state_round_trip : forall mu retro s q, eq_regular mu retro s -> ic2eq s mu retro = Some q -> eq2ic q mu retro = Some s.
Proof. exact ic_eq_ic. Qed.
Print Assumptions C20_state_round_trip.

Theorem C20_elements_round_trip : forall mu retro q s, 0 < mu -> eq_valid q -> eq2ic q mu retro = Some s -> ic2eq s mu retro = Some q.
Proof. exact eq_ic_eq. Qed.
Print Assumptions C20_elements_round_trip.

(** the elements converted from classical ones describe the same state *)
Theorem C20_par2eq : forall mu retro el, 0 < mu -> valid el ->
  exists q s, par2eq el retro = Some q /\ par2ic el mu = Ret (Some s) /\ eq2ic q mu retro = Some s /\ osculating_eq mu retro s q.
Proof. exact par2eq_spec. Qed.
Print Assumptions C20_par2eq.

Theorem C20_par_round_trip : forall retro el, valid el -> retro = false \/ el_w el <> 0 \/ el_W el = 0 ->
  exists q, par2eq el retro = Some q /\ eq2par q retro = Some el.
Proof. exact eq_par_roundtrip. Qed.
Print Assumptions C20_par_round_trip.

(** without the side condition the arguments of pericentre agree up to full turns *)
Theorem C20_par_round_trip_turns : forall retro el, valid el -> exists q el', par2eq el retro = Some q /\ eq2par q retro = Some el' /\
  el_a el' = el_a el /\ el_e el' = el_e el /\ el_i el' = el_i el /\ el_W el' = el_W el /\ 0 <= el_w el' <= 2 * PI /\
  cos (el_w el') = cos (el_w el) /\ sin (el_w el') = sin (el_w el) /\ el_w el' + el_f el' = el_w el + el_f el.
Proof. exact eq_par_mod. Qed.
Print Assumptions C20_par_round_trip_turns.

(** ... and not exactly: a retrograde set with pericentre at the node comes back with 2 pi and a negative anomaly *)
Theorem C20_par_round_trip_refuted : exists el q el', valid el /\ par2eq el true = Some q /\ eq2par q true = Some el' /\
  el_w el' = 2 * PI /\ el_f el' < 0 /\ el_w el = 0.
Proof. exact eq_par_bad. Qed.
Print Assumptions C20_par_round_trip_refuted.

Theorem C20_eq_round_trip : forall retro q,
  0 < eq_f q * eq_f q + eq_g q * eq_g q -> eq_f q * eq_f q + eq_g q * eq_g q <> 1 -> 0 < eq_h q * eq_h q + eq_k q * eq_k q ->
  exists el, eq2par q retro = Some el /\ par2eq el retro = Some q.
Proof. exact par_eq_roundtrip. Qed.
Print Assumptions C20_eq_round_trip.

(** the classical elements read off equinoctial ones describe the same state *)
Theorem C20_eq2par : forall mu retro q, 0 < mu -> eq_valid q -> 0 < eq_f q * eq_f q + eq_g q * eq_g q -> 0 < eq_h q * eq_h q + eq_k q * eq_k q ->
  exists el s, eq2par q retro = Some el /\ eq2ic q mu retro = Some s /\ par2ic el mu = Ret (Some s) /\ osculating mu s el.
Proof. exact eq2par_spec. Qed.
Print Assumptions C20_eq2par.

Example C20_example : par2eq (El 2 (1 / 2) (PI / 2) PI (PI / 2) (3 * (PI / 2))) false = Some (Eq (3 / 2) 0 (- (1 / 2)) (-1) 0 (3 * PI)) /\
  eq2ic (Eq (3 / 2) 0 (- (1 / 2)) (-1) 0 (3 * PI)) (3 / 2) false = Some (V (-3 / 2) 0 0, V (1 / 2) 0 1).
Proof. exact (conj q0_par2eq q0_eq2ic). Qed.
