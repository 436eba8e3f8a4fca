(** * Property theorems: the gradient of the high-fidelity leg (C32) and the cut of its mismatch (C42).  Only statements.  Real-number model. *)
From Coq Require Import Reals List ZArith.
From Coquelicot Require Import Coquelicot.
From Verif Require Import Outcome Vec3 DynModel SfModel SfSpec HfGradModel HfGradSpec HfGradMis HfGradExample HfCut HfExists HfCoastPy.
Import ListNotations.
Open Scope R_scope.

(** no index leaves its array, the matrices have the documented sizes, and of the two kinds of error only the integrator's can be raised:
    the internal "index does not correspond to any leg" errors are unreachable *)
Theorem C32_index_safe : forall tas_var l, tas_var_sized tas_var -> proper_hf l ->
  match compute_mc_grad tas_var l with
  | Ret (A, B, G) => length A = 49%nat /\ length B = 49%nat /\ length G = (7 * (3 * Z.to_nat (g_nseg l) + 1))%nat
  | Throw e => e = DomainError
  | UB => False
  end.
Proof. exact gradient_safe. Qed.
Print Assumptions C32_index_safe.
Theorem C32_mismatch_safe : forall tas l, tas_sized tas -> proper_hf l ->
  match compute_mismatch_hf tas l with Ret y => length y = 7%nat | Throw e => e = DomainError | UB => False end.
Proof. exact mismatch_safe. Qed.
Print Assumptions C32_mismatch_safe.
(** the mismatch is the state reached by flying the first segments forward minus the one reached by flying the others backward *)
Theorem C32_mismatch_flown : forall tas l y, tas_exact tas -> proper_hf l -> compute_mismatch_hf tas l = Ret y ->
  flown (g_mu l) (g_isp l * G0) (g_T l) (Z.to_nat (g_nseg l)) (Z.to_nat (g_fwd l)) (col_of (g_rvms l)) (g_thr l) (col_of (g_rvmf l)) (g_tof l) (col_of y).
Proof. exact mismatch_flown. Qed.
Print Assumptions C32_mismatch_flown.

(** Full statement: the matrices are the derivatives of the mismatch with respect to the initial state, the final state, the throttles and the time
    of flight.  It is false when the maximum thrust is not 1: the throttle columns are derivatives with respect to the thrusts. *)
Theorem C32_plain_refuted : exists (l : hg) tas_var A B G, tas_var_exact tas_var /\ proper_hf l /\ thrusting l /\ compute_mc_grad tas_var l = Ret (A, B, G) /\
  ~ hf_jacobian (g_mu l) (g_isp l * G0) (g_T l) (Z.to_nat (g_nseg l)) (Z.to_nat (g_fwd l)) (col_of (g_rvms l)) (g_thr l) (col_of (g_rvmf l)) (g_tof l) 1 A B G.
Proof. exact plain_refuted. Qed.
Print Assumptions C32_plain_refuted.
(** It holds when the maximum thrust is 1, and for any maximum thrust if the throttle columns are multiplied by it; for every number of segments
    and every split.  Missing: legs with a coasting segment, where the mass flow is not differentiable in the thrust. *)
Theorem C32_unit_thrust_partial : forall tas_var l A B G, tas_var_exact tas_var -> proper_hf l -> thrusting l -> g_T l = 1 -> compute_mc_grad tas_var l = Ret (A, B, G) ->
  hf_jacobian (g_mu l) (g_isp l * G0) 1 (Z.to_nat (g_nseg l)) (Z.to_nat (g_fwd l)) (col_of (g_rvms l)) (g_thr l) (col_of (g_rvmf l)) (g_tof l) 1 A B G.
Proof. exact unit_thrust. Qed.
Print Assumptions C32_unit_thrust_partial.
Theorem C32_scaled_partial : forall tas_var l A B G, tas_var_exact tas_var -> proper_hf l -> thrusting l -> compute_mc_grad tas_var l = Ret (A, B, G) ->
  hf_jacobian (g_mu l) (g_isp l * G0) (g_T l) (Z.to_nat (g_nseg l)) (Z.to_nat (g_fwd l)) (col_of (g_rvms l)) (g_thr l) (col_of (g_rvmf l)) (g_tof l) (g_T l) A B G.
Proof. exact gradient_scaled. Qed.
Print Assumptions C32_scaled_partial.
(** for every leg, coasting segments included: along every differentiable curve of legs on which the coasting segments keep coasting, the neighbouring
    legs can be flown and their mismatch has the derivative that the matrices give, the throttle columns times max_thrust *)
Theorem C32_neighbours : forall tas_var l A B G, tas_var_exact tas_var -> proper_hf l -> compute_mc_grad tas_var l = Ret (A, B, G) ->
  forall xs th xf tof (dxs : col7) (dth : list R) (dxf : col7) (dtof : R),
  xs 0 = col_of (g_rvms l) -> th 0 = g_thr l -> xf 0 = col_of (g_rvmf l) -> tof 0 = g_tof l -> keeps_coasting (Z.to_nat (g_nseg l)) th ->
  derive7 xs 0 dxs -> derive_list th 0 dth -> derive7 xf 0 dxf -> is_derive tof 0 dtof ->
  exists (y : R -> col7) eps, 0 < eps /\
  (forall e, Rabs e < eps -> flown (g_mu l) (g_isp l * G0) (g_T l) (Z.to_nat (g_nseg l)) (Z.to_nat (g_fwd l)) (xs e) (th e) (xf e) (tof e) (y e)) /\
  derive7 y 0 (plus7 (apply7 7 A (list7 dxs)) (plus7 (apply7 7 B (list7 dxf)) (apply7 (3 * Z.to_nat (g_nseg l) + 1) G (map (Rmult (g_T l)) dth ++ [dtof])))).
Proof. exact gradient_any. Qed.
Print Assumptions C32_neighbours.
(** when a coasting segment is made to thrust there is no derivative: the gradient of this leg is returned, but no matrices are its derivative *)
Theorem C32_coast_refuted : exists (l : hg) tas_var A0 B0 G1, tas_var_exact tas_var /\ proper_hf l /\ g_T l = 1 /\ compute_mc_grad tas_var l = Ret (A0, B0, G1) /\
  forall k A B G, ~ hf_jacobian (g_mu l) (g_isp l * G0) (g_T l) (Z.to_nat (g_nseg l)) (Z.to_nat (g_fwd l)) (col_of (g_rvms l)) (g_thr l) (col_of (g_rvmf l)) (g_tof l) k A B G.
Proof. exact coast_refuted. Qed.
Print Assumptions C32_coast_refuted.
(** the leg of the refutation coasts; its end moves with the initial velocity *)
Example C32_coasting_example : exists A B G, tas_var_exact ctas /\ proper_hf cleg /\ compute_mc_grad ctas cleg = Ret (A, B, G) /\ thr_vec (g_thr cleg) 0 = vzero /\ nth 3 A 0 = 1.
Proof. exact cleg_grad. Qed.
(** the same of the two functions of the code: along a curve of legs the mismatches that the one computes have the derivative that the other's
    matrices give *)
Theorem C32_computed_partial : forall tas tas_var (L : R -> hg) y A B G dxs dth dxf dtof,
  tas_exact tas -> tas_var_exact tas_var -> (forall e, proper_hf (L e) /\ same_leg (L 0) (L e)) -> thrusting (L 0) ->
  compute_mc_grad tas_var (L 0) = Ret (A, B, G) ->
  (exists eps, 0 < eps /\ forall e, Rabs e < eps -> compute_mismatch_hf tas (L e) = Ret (y e)) ->
  derive7 (fun e => col_of (g_rvms (L e))) 0 dxs -> derive_list (fun e => g_thr (L e)) 0 dth ->
  derive7 (fun e => col_of (g_rvmf (L e))) 0 dxf -> is_derive (fun e => g_tof (L e)) 0 dtof ->
  derive7 (fun e => col_of (y e)) 0
    (plus7 (apply7 7 A (list7 dxs)) (plus7 (apply7 7 B (list7 dxf)) (apply7 (3 * Z.to_nat (g_nseg (L 0)) + 1) G (map (Rmult (g_T (L 0))) dth ++ [dtof])))).
Proof. exact computed_derivative. Qed.
Print Assumptions C32_computed_partial.

(** a leg without gravity, maximum thrust 2, throttle 1/2, for which an exact integrator is at hand *)
Example C32_example : exists A B G, compute_mc_grad wtas wleg = Ret (A, B, G) /\ nth 24 G 0 = -1 /\
  hf_jacobian 0 (g_isp wleg * G0) 2 1 1 (col_of [1; 1; 0; 0; 0; 0; 2]) [1 / 2; 0; 0] (col_of wrvmf) 1 2 A B G.
Proof. exact wleg_mass. Qed.

(** ** C42: a mismatch vanishes exactly when the leg is one flight under gravity and thrust from the initial to the final state, so that it vanishes
    for every cut or for none *)
Theorem C42_zero_mismatch : forall tas l y, tas_exact tas -> proper_hf l -> compute_mismatch_hf tas l = Ret y ->
  (y = repeat 0 7 <-> uninterrupted (g_mu l) (g_isp l * G0) (g_T l) (Z.to_nat (g_nseg l)) (col_of (g_rvms l)) (g_thr l) (col_of (g_rvmf l)) (g_tof l)).
Proof. exact mismatch_zero. Qed.
Print Assumptions C42_zero_mismatch.
Theorem C42_cut : forall tas l l' y y', tas_exact tas -> proper_hf l -> proper_hf l' -> same_but_cut l l' ->
  compute_mismatch_hf tas l = Ret y -> compute_mismatch_hf tas l' = Ret y' -> (y = repeat 0 7 <-> y' = repeat 0 7).
Proof. exact mismatch_cut. Qed.
Print Assumptions C42_cut.
(** flights, and with them mismatches, are determined by the leg *)
Theorem C42_flown_unique : forall mu veff T n nf xs th xf tof y1 y2, flown mu veff T n nf xs th xf tof y1 -> flown mu veff T n nf xs th xf tof y2 -> y1 = y2.
Proof. exact flown_unique. Qed.
Print Assumptions C42_flown_unique.
Example C42_uninterrupted_example : uninterrupted 0 1 2 1 ((V 1 1 0, V 0 0 0), 2) [1 / 2; 0; 0] (ramp 1 1) 1.
Proof. exact ramp_uninterrupted. Qed.
