(** * Property theorems: the matrices Python receives (C58).  Only statements.  Real-number model. *)
From Coq Require Import Reals List ZArith.
From Verif Require Import Outcome KepSpec Vec3 TwoBodyModel TwoBodySpec TwoBodyProofs SfModel SfSpec SfMain HfGradModel HfGradSpec HfGradExample TcSpec PyMatModel PyMatSpec PyMatProofs PyMatLegs HfExists HfCoastPy.
Import ListNotations.
Open Scope R_scope.

(** ** C58: entry [i, j] of every array is the derivative of component i of the result with respect to coordinate j of the input.
    propagate_lagrangian with stm = True *)
Theorem C58_lagrangian : forall newton mu s tof, newton_sound newton -> regular mu s -> energy mu s <> 0 ->
  match py_propagate_lagrangian newton s tof mu true with
  | Ret (RvStm s' M) => flow_at mu s tof s' /\ shaped 6 6 M /\ has_partials (flows mu tof) (list6 s) 6 (entry M)
  | Ret (Rv _ _) | UB => False
  | Throw e => e = DomainError
  end.
Proof. exact lagrangian_partials. Qed.
Print Assumptions C58_lagrangian.
(** with stm = False: position and velocity *)
Theorem C58_lagrangian_plain : forall newton mu s tof, newton_sound newton -> regular mu s -> energy mu s <> 0 ->
  match py_propagate_lagrangian newton s tof mu false with
  | Ret (Rv r v) => flow_at mu s tof (r, v)
  | Ret (RvStm _ _) | UB => False
  | Throw e => e = DomainError
  end.
Proof. exact lagrangian_plain. Qed.
Print Assumptions C58_lagrangian_plain.
(** propagate_lagrangian_v: one entry per time of flight, in order, each with the 36 numbers of its matrix row by row *)
Theorem C58_lagrangian_v : forall newton mu s tofs, newton_sound newton -> regular mu s -> energy mu s <> 0 ->
  match py_propagate_lagrangian_v newton s tofs mu true with
  | Ret rs => length rs = length tofs /\ forall k t, nth_error tofs k = Some t -> exists s' m, nth_error rs k = Some (s', Some m) /\
      flow_at mu s t s' /\ length m = 36%nat /\ has_partials (flows mu t) (list6 s) 6 (fun i j => nth (6 * i + j) m 0)
  | Throw e => e = DomainError
  | UB => False
  end.
Proof. exact lagrangian_v_partials. Qed.
Print Assumptions C58_lagrangian_v.

(** stark_problem.propagate_var.  Full statement: without the condition on the thrust, which is needed for B only (the mass flow has no derivative at
    zero thrust) *)
Theorem C58_stark_partial : forall tas_var mu veff x u tof, tas_var_exact tas_var -> veff <> 0 -> length x = 7%nat -> length u = 3%nat ->
  match py_propagate_var tas_var vars0 mu veff x u tof with
  | Ret (y, A, B) => flies mu veff tof x u y /\ shaped 7 7 A /\ shaped 7 3 B /\
      has_partials (fun x' => flies mu veff tof x' u) x 7 (entry A) /\
      ((exists k, nth k u 0 <> 0) -> has_partials (fun u' => flies mu veff tof x u') u 7 (entry B))
  | Throw e => e = DomainError
  | UB => False
  end.
Proof. exact stark_partials_any. Qed.
Print Assumptions C58_stark_partial.

(** sims_flanagan.compute_mc_grad *)
Theorem C58_mc_grad : forall newton l y0 a b g, newton_sound newton -> proper l -> (3 * s_nseg l + 1 < 2 ^ 32)%Z -> leg_mismatch (nonsing (s_mu l)) l y0 ->
  py_mc_grad newton l = Ret (Some (a, b, g)) ->
  shaped 7 7 a /\ shaped 7 7 b /\ shaped 7 (3 * Z.to_nat (s_nseg l) + 1) g /\
  has_partials (fun xs => misses l xs (sf_xf l) (sf_ut l)) (sf_xs l) 7 (entry a) /\
  has_partials (fun xf => misses l (sf_xs l) xf (sf_ut l)) (sf_xf l) 7 (entry b) /\
  has_partials (fun ut => misses l (sf_xs l) (sf_xf l) ut) (sf_ut l) 7 (entry g).
Proof. exact sf_partials. Qed.
Print Assumptions C58_mc_grad.
(** and the three arrays are returned as soon as no throttle is zero *)
Theorem C58_mc_grad_total : forall newton l y0, newton_ok newton -> newton_sound newton -> proper l -> (3 * s_nseg l + 1 < 2 ^ 32)%Z ->
  leg_mismatch (good_arc (s_mu l) (leg_dt l)) l y0 -> (forall i, (i < Z.to_nat (s_nseg l))%nat -> thr_vec (s_thr l) i <> vzero) ->
  exists a b g, py_mc_grad newton l = Ret (Some (a, b, g)) /\ shaped 7 7 a /\ shaped 7 7 b /\ shaped 7 (3 * Z.to_nat (s_nseg l) + 1) g /\
  has_partials (fun xs => misses l xs (sf_xf l) (sf_ut l)) (sf_xs l) 7 (entry a) /\
  has_partials (fun xf => misses l (sf_xs l) xf (sf_ut l)) (sf_xf l) 7 (entry b) /\
  has_partials (fun ut => misses l (sf_xs l) (sf_xf l) ut) (sf_ut l) 7 (entry g).
Proof. exact sf_total. Qed.
Print Assumptions C58_mc_grad_total.

(** sims_flanagan_hf.compute_mc_grad: the shapes, for every leg (also coasting) *)
Theorem C58_hf_shapes : forall tas_var l, tas_var_sized tas_var -> proper_hf l ->
  match py_mc_grad_hf tas_var l with
  | Ret (a, b, g) => shaped 7 7 a /\ shaped 7 7 b /\ shaped 7 (3 * Z.to_nat (g_nseg l) + 1) g
  | Throw e => e = DomainError
  | UB => False
  end.
Proof. exact hf_shapes. Qed.
Print Assumptions C58_hf_shapes.
(** the entries.  Full statement: as for sims_flanagan.  It is false (C58_hf_plain_refuted); it holds with the throttle columns times the maximum
    thrust, for every leg and every column but the throttles of a coasting segment, with respect to which there is no derivative (C32_coast_refuted) *)
Theorem C58_hf_scaled_partial : forall tas_var l a b g, tas_var_exact tas_var -> proper_hf l -> py_mc_grad_hf tas_var l = Ret (a, b, g) ->
  let n := Z.to_nat (g_nseg l) in
  has_partials (fun xs => misses_hf l xs (g_rvmf l) (hf_ut l)) (g_rvms l) 7 (entry a) /\
  has_partials (fun xf => misses_hf l (g_rvms l) xf (hf_ut l)) (g_rvmf l) 7 (entry b) /\
  forall j, (j < 3 * n + 1)%nat -> ((j < 3 * n)%nat -> thr_vec (g_thr l) (j / 3) <> vzero) ->
  has_column (fun ut => misses_hf l (g_rvms l) (g_rvmf l) ut) (hf_ut l) 7 (fun i => scaled_columns n (g_T l) g i j) j.
Proof. exact hf_partials_any. Qed.
Print Assumptions C58_hf_scaled_partial.
Theorem C58_hf_plain_refuted : exists l tas_var a b g, tas_var_exact tas_var /\ proper_hf l /\ thrusting l /\ py_mc_grad_hf tas_var l = Ret (a, b, g) /\
  ~ has_partials (fun ut => misses_hf l (g_rvms l) (g_rvmf l) ut) (hf_ut l) 7 (entry g).
Proof. exact hf_plain_wrong. Qed.
Print Assumptions C58_hf_plain_refuted.

(** compute_tc_grad of both legs *)
Theorem C58_tc_grad : forall n th, (0 <= n)%Z -> (3 * n < 2 ^ 32)%Z -> Z.of_nat (length th) = (3 * n)%Z ->
  exists M, py_tc_grad n th = Ret M /\ shaped (Z.to_nat n) (3 * Z.to_nat n) M /\
  has_partials (fun u y => y = map (throttle_norm u) (seq 0 (Z.to_nat n))) th (Z.to_nat n) (entry M).
Proof. exact tc_partials. Qed.
Print Assumptions C58_tc_grad.

(** the unit circle: columns 1 and 3 combine to the velocity *)
Example C58_circle : forall newton t, newton_ok newton -> exists M, py_propagate_lagrangian newton (circle 0) t 1 true = Ret (RvStm (circle t) M) /\ shaped 6 6 M /\
  entry M 0 1 - entry M 0 3 = - sin t /\ entry M 1 1 - entry M 1 3 = cos t /\ entry M 4 1 - entry M 4 3 = - sin t.
Proof. exact circle_py. Qed.
(** unit thrust without gravity for unit time: more thrust, less mass; the neighbouring flights exist *)
Example C58_stark : exists A B, py_propagate_var wtas vars0 0 1 [1; 1; 0; 0; 0; 0; 2] [1; 0; 0] 1 = Ret (list7 (ramp 1 1), A, B) /\ entry A 6 6 = 1 /\ entry B 6 0 = -1 /\ entry B 6 1 = 0 /\
  forall e, Rabs e < 1 / 2 -> flies 0 1 1 [1; 1; 0; 0; 0; 0; 2] (nudge [1; 0; 0] 0 e) (list7 (ramp (1 + e) 1)).
Proof. exact stark_py. Qed.
Example C58_tc : py_tc_grad 2 [1; 2; 3; 4; 5; 6] = Ret [[2 * 1; 2 * 2; 2 * 3; 0; 0; 0]; [0; 0; 0; 2 * 4; 2 * 5; 2 * 6]].
Proof. reflexivity. Qed.
(** a buffer shorter than the array would be read beyond its end *)
Example C58_short : np2 2 2 [1; 2; 3; 4] = Ret [[1; 2]; [3; 4]] /\ np2 2 2 [1; 2; 3] = UB.
Proof. split; reflexivity. Qed.
