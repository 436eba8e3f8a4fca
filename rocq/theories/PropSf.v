(** * Property theorems: the Sims-Flanagan leg (C28, C30).  Only statements.  Real-number model. *)
From Coq Require Import Reals List ZArith.
From Verif Require Import Outcome KepSpec Vec3 TwoBodyModel TwoBodySpec SfModel SfSpec SfMain SfJac.
Import ListNotations.
Open Scope R_scope.

(** ** C28: the mismatch *)
(** the mismatch is the state reached by flying the first segments forward minus the one reached by flying the others backward,
    with the two-body flow between the impulses and the rocket equation at each; it is zero exactly when the two agree *)
Theorem C28_mismatch : forall newton l pf pb, newton_ok newton -> proper l ->
  forward_end (good_arc (s_mu l) (leg_dt l)) l pf -> backward_end (good_arc (s_mu l) (leg_dt l)) l pb ->
  compute_mismatch_constraints newton l = Ret (minus7 pf pb) /\ (minus7 pf pb = ((vzero, vzero), 0) <-> pf = pb).
Proof. exact mismatch_total. Qed.
Print Assumptions C28_mismatch.
(** whatever is returned, on any trajectory without a rectilinear or parabolic arc *)
Theorem C28_mismatch_sound : forall newton l y y', newton_sound newton -> proper l -> leg_mismatch (nonsing (s_mu l)) l y ->
  compute_mismatch_constraints newton l = Ret y' -> y' = y.
Proof. exact mismatch_sound. Qed.
Print Assumptions C28_mismatch_sound.
Theorem C28_masses : forall ok l pf pb, proper l -> forward_end ok l pf -> backward_end ok l pb -> 0 < snd pf <= s_ms l /\ s_mf l <= snd pb.
Proof. exact mass_bounds. Qed.
Print Assumptions C28_masses.
(** the claim that a zero mismatch stays zero for another cut is false *)
Theorem C28_cut_refuted : forall newton, newton_ok newton -> exists l y, proper l /\ proper (with_cut l 0) /\
  compute_mismatch_constraints newton l = Ret ((vzero, vzero), 0) /\ compute_mismatch_constraints newton (with_cut l 0) = Ret y /\ y <> ((vzero, vzero), 0).
Proof. exact cut_refuted. Qed.
Print Assumptions C28_cut_refuted.
(** and it is false for every leg: moving the cut over a thrusting segment breaks a zero mismatch *)
Theorem C28_cut_dependence : forall ok ok' l, proper l -> 0 < s_T l -> (s_fwd l < s_nseg l)%Z -> thr_vec (s_thr l) (Z.to_nat (s_fwd l)) <> vzero ->
  leg_mismatch ok l ((vzero, vzero), 0) -> forall y, leg_mismatch ok' (with_cut l (s_fwd l + 1)) y -> snd y <> 0.
Proof. exact cut_dependence. Qed.
Print Assumptions C28_cut_dependence.
(** without thrust the two arcs last tof nseg_fwd / nseg and tof nseg_bck / nseg *)
Theorem C28_durations : forall newton l, newton_ok newton -> proper l -> no_thrust l -> good_arc (s_mu l) (leg_dt l) (s_rvs l) -> good_arc (s_mu l) (leg_dt l) (s_rvf l) ->
  exists a b, flow_at (s_mu l) (s_rvs l) (s_tof l * IZR (s_fwd l) / IZR (s_nseg l)) a /\ flow_at (s_mu l) (s_rvf l) (- (s_tof l * IZR (s_bck l) / IZR (s_nseg l))) b /\
  compute_mismatch_constraints newton l = Ret (minus7 (a, s_ms l) (b, s_mf l)).
Proof. exact coast_mismatch. Qed.
Print Assumptions C28_durations.
(** Full statement: whether the mismatch is zero does not depend on the cut.  Proved for coasting legs only, being false for the
    others. *)
Theorem C28_cut_independence_partial : forall newton l, newton_ok newton -> proper l -> no_thrust l -> good_arc (s_mu l) (leg_dt l) (s_rvs l) -> good_arc (s_mu l) (leg_dt l) (s_rvf l) ->
  (compute_mismatch_constraints newton l = Ret ((vzero, vzero), 0) <-> flow_at (s_mu l) (s_rvs l) (s_tof l) (s_rvf l) /\ s_ms l = s_mf l).
Proof. exact coast_zero. Qed.
Print Assumptions C28_cut_independence_partial.
(** a quarter of a circle in three coasting segments, cut after the first *)
Definition quarter : sf := mk_sf (V 1 0 0, V 0 1 0) 10 [0; 0; 0; 0; 0; 0; 0; 0; 0] (V 0 1 0, V (-1) 0 0) 10 (PI / 2) 1 1 1 3 1 2.
Example C28_quarter : forall newton, newton_ok newton -> compute_mismatch_constraints newton quarter = Ret ((vzero, vzero), 0).
Proof. exact (quarter_zero). Qed.

(** ** C30: the gradient *)
(** whenever a gradient is returned, on a trajectory without a rectilinear or parabolic arc, it is the Jacobian of the mismatch *)
Theorem C30_jacobian : forall newton l y0 A B G, newton_sound newton -> proper l -> leg_mismatch (nonsing (s_mu l)) l y0 ->
  compute_mc_grad newton l = Ret (Some (A, B, G)) -> mismatch_jacobian (nonsing (s_mu l)) l y0 A B G.
Proof. exact grad_jacobian. Qed.
Print Assumptions C30_jacobian.
(** and one is returned as soon as no throttle is zero *)
Theorem C30_total : forall newton, newton_ok newton -> newton_sound newton -> forall l, proper l -> forall y0, leg_mismatch (good_arc (s_mu l) (leg_dt l)) l y0 ->
  (forall i, (i < Z.to_nat (s_nseg l))%nat -> thr_vec (s_thr l) i <> vzero) ->
  exists A B G, compute_mc_grad newton l = Ret (Some (A, B, G)) /\ mismatch_jacobian (nonsing (s_mu l)) l y0 A B G.
Proof. exact grad_total. Qed.
Print Assumptions C30_total.
(** a zero throttle, where the norm is not differentiable, gives NaN *)
Theorem C30_zero_throttle : forall newton, newton_ok newton -> newton_sound newton -> forall l, proper l -> forall y0 i, leg_mismatch (good_arc (s_mu l) (leg_dt l)) l y0 ->
  (i < Z.to_nat (s_nseg l))%nat -> thr_vec (s_thr l) i = vzero -> compute_mc_grad newton l = Ret None.
Proof. exact grad_nan. Qed.
Print Assumptions C30_zero_throttle.
Example C30_one_segment : forall newton, newton_ok newton -> newton_sound newton -> exists X A G,
  compute_mc_grad newton (wit_leg X) = Ret (Some (A, flat_map (fun i => map (fun j => if Nat.eqb i j then -1 else 0) (seq 0 7)) (seq 0 7), G)) /\ length A = 49%nat /\ length G = 28%nat.
Proof. exact wit_grad. Qed.
