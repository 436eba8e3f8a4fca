(** * Property theorems: dynamics (C40).  Only statements.  Real-number model; the solutions are arbitrary differentiable curves, the
    fields on the right-hand sides of the hypotheses are those of the code, [rotating_field], [thrust_field] and [jacobi] are
    written from mechanics in DynSpec.v. *)
From Coq Require Import Reals.
From Coquelicot Require Import Coquelicot.
From Verif Require Import Vec3 TwoBodySpec DynModel DynSpec DynProofs TwoBodyProofs DynExample.
Open Scope R_scope.

(** ** C40 *)
Theorem C40_cr3bp_field : forall mu s, off_primaries mu s -> cr3bp_dyn mu s = rotating_field mu s.
Proof. exact cr3bp_field. Qed.
Print Assumptions C40_cr3bp_field.
Theorem C40_cr3bp_jacobi : forall mu lo hi y, solves (cr3bp_dyn mu) (off_primaries mu) lo hi y -> conserved (jacobi mu) lo hi y.
Proof. exact jacobi_conserved. Qed.
Print Assumptions C40_cr3bp_jacobi.
Theorem C40_stark_field : forall mu veff u s, off_centre s -> veff <> 0 -> stark_dyn mu veff u s = thrust_field mu veff u s.
Proof. exact stark_field. Qed.
Print Assumptions C40_stark_field.
(** without thrust: energy, angular momentum and mass *)
Theorem C40_stark_ballistic : forall mu veff lo hi y, veff <> 0 -> solves7 (stark_dyn mu veff vzero) off_centre lo hi y ->
  conserved (fun s => (energy mu (fst s), ang_mom (fst s), snd s)) lo hi y.
Proof. exact stark_ballistic. Qed.
Print Assumptions C40_stark_ballistic.
(** with thrust: rates of energy and angular momentum *)
Theorem C40_stark_power : forall mu veff u lo hi y, veff <> 0 -> solves7 (stark_dyn mu veff u) off_centre lo hi y -> forall t : R, Rbar_lt lo t -> Rbar_lt t hi ->
  is_derive (fun x => energy mu (fst (y x))) t (dot u (snd (fst (y t))) / snd (y t)) /\
  vderive (fun x => ang_mom (fst (y x))) t (vscal (/ snd (y t)) (cross (fst (fst (y t))) u)).
Proof. exact stark_power. Qed.
Print Assumptions C40_stark_power.
Theorem C40_stark_mass : forall mu veff u lo hi y (t1 t2 : R), 0 < veff -> solves7 (stark_dyn mu veff u) off_centre lo hi y ->
  Rbar_lt lo t1 -> t1 <= t2 -> Rbar_lt t2 hi -> snd (y t2) <= snd (y t1).
Proof. exact stark_mass_decr. Qed.
Print Assumptions C40_stark_mass.
Theorem C40_stark_mass_flow : forall mu veff u lo hi y, veff <> 0 -> solves7 (stark_dyn mu veff u) off_centre lo hi y -> forall t1 t2 : R,
  Rbar_lt lo t1 -> Rbar_lt t1 hi -> Rbar_lt lo t2 -> Rbar_lt t2 hi -> snd (y t2) = snd (y t1) - norm u / veff * (t2 - t1).
Proof. exact stark_mass. Qed.
Print Assumptions C40_stark_mass_flow.
(** the derivative used for the time-of-flight gradient of the high-fidelity leg is the integrator's field, at thrust
    max_thrust times throttle and exhaust speed isp times G0 *)
Theorem C40_leg_field : forall max_thrust isp mu st th, get_state_derivative max_thrust isp mu st th = stark_dyn mu (isp * G0) (vscal max_thrust th) st.
Proof. exact leg_field. Qed.
Print Assumptions C40_leg_field.
(** the triangular point L4 is an equilibrium away from the primaries *)
Example C40_l4 : forall mu, 0 < mu < 1 -> off_primaries mu (V (1 / 2 - mu) (sqrt 3 / 2) 0, vzero) /\ cr3bp_dyn mu (V (1 / 2 - mu) (sqrt 3 / 2) 0, vzero) = (vzero, vzero).
Proof. exact l4. Qed.
Example C40_circle : solves7 (stark_dyn 1 1 vzero) off_centre m_infty p_infty (fun t => (circle t, 1)).
Proof. exact stark_circle. Qed.
