(** * Property theorems: the default period and elements of a planet (C37, continued).  Only statements. *)
From Coq Require Import ZArith Reals List Bool.
From Flocq Require Import Core.Core IEEE754.BinarySingleNaN.
From Verif Require Import Outcome Float64 Vec3 FlybyFloatModel FloatErrSpec PlanetModel PlanetPeriodSpec PlanetPeriodProofs.
From Verif Require JplModel.
Import ListNotations.
Open Scope R_scope.

(** on a bound orbit the default period in doubles is that of Kepler's third law, up to 50 k roundings, where k bounds the cancellation in the energy ([u] is 2^-53; masses, lengths and speeds between 2^-70 and 2^70 in any units) *)
Theorem C37_period_accurate : forall dem tp (p : udpla) t r v mu k, u_period p = None -> u_eph p t = Ret (r, v) -> u_mu p = Some (Ret mu) ->
  is_finite tp = true -> 1 <= B2R tp <= 8 -> is_finite mu = true -> / 2 ^ 70 <= B2R mu <= 2 ^ 70 -> finite3 r -> / 2 ^ 70 <= norm (rvec r) <= 2 ^ 70 -> finite3 v -> / 2 ^ 70 <= norm (rvec v) <= 2 ^ 70 ->
  0 < k <= 2 ^ 20 -> well_bound k (B2R mu) (rvec r) (rvec v) ->
  exists T, period dem tp p t = Ret T /\ is_finite T = true /\ Rabs (B2R T - third_law (B2R tp) (B2R mu) (rvec r) (rvec v)) <= 50 * k * u * third_law (B2R tp) (B2R mu) (rvec r) (rvec v).
Proof. exact planet_period_err. Qed.
Print Assumptions C37_period_accurate.
(** above the escape speed, by ten roundings of the energies, the period is not a number (C37_nontrivial_unbound is such a case) *)
Theorem C37_period_escape : forall dem tp (p : udpla) t r v mu, u_period p = None -> u_eph p t = Ret (r, v) -> u_mu p = Some (Ret mu) ->
  is_finite mu = true -> / 2 ^ 70 <= B2R mu <= 2 ^ 70 -> finite3 r -> / 2 ^ 70 <= norm (rvec r) <= 2 ^ 70 -> finite3 v -> / 2 ^ 70 <= norm (rvec v) <= 2 ^ 70 ->
  escapes (10 * u) (B2R mu) (rvec r) (rvec v) -> exists T, period dem tp p t = Ret T /\ is_nan T = true.
Proof. exact planet_escape. Qed.
Print Assumptions C37_period_escape.
(** the default elements are of the type asked for; refused are states, and the mean anomaly when the axis is below one *)
Theorem C37_element_types : forall (ic2par : posvel -> double -> list double) f2m par2eq pv mu et,
  (forall l, elements_from_posvel ic2par f2m par2eq pv mu et = Ret l -> let par := ic2par pv mu in
     match et with
     | JplModel.KEP_F => l = par | JplModel.MEQ => l = par2eq par false | JplModel.MEQ_R => l = par2eq par true | JplModel.POSVEL => False
     | JplModel.KEP_M => List.length par = 6%nat -> List.length l = 6%nat /\ (forall i, (i < 5)%nat -> nth i l dzero = nth i par dzero) /\ nth 5 l dzero = f2m (nth 5 par dzero) (nth 1 par dzero)
     end) /\
  forall e, elements_from_posvel ic2par f2m par2eq pv mu et = Throw e <-> e = LogicError /\ (et = JplModel.POSVEL \/ et = JplModel.KEP_M /\ dltb (nth 0 (ic2par pv mu) dzero) done = true).
Proof. exact element_types. Qed.
Print Assumptions C37_element_types.
(** a circle of radius 4 with mu = 1 is flown in 8 times tp; here k = 3 will do *)
Example C37_period_example :
  deqb (period_from_energy done (d_of_Z 4, dzero, dzero) (dzero, ddiv done (d_of_Z 2), dzero) done) (d_of_Z 8) = true /\
  well_bound 3 1 (V 4 0 0) (V 0 (1 / 2) 0) /\ third_law 1 1 (V 4 0 0) (V 0 (1 / 2) 0) = 8.
Proof. exact period_case. Qed.
