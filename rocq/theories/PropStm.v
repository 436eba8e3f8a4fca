(** * Property theorems: state transition matrices (C17 stm_lagrangian, C18 Reynolds' form).  Only statements.  Real-number model; the 36 entries are
    in the row-major order of the returned array.  [flow_jacobian mu s tof s' M] says, without mentioning the code, that [M] is the
    derivative of the two-body flow at [s] over [tof]. *)
From Coq Require Import Reals List.
From Coquelicot Require Import Rbar.
From Verif Require Import Outcome KepModel KepSpec Vec3 TwoBodyModel TwoBodySpec TwoBodyProofs StmMain ReynoldsModel ReynoldsProofs ReynoldsMain InvExists.
Open Scope R_scope.

(** ** C17 *)
Theorem C17_elliptic : forall newton mu s tof, newton_ok newton -> elliptic mu s ->
  exists s' M, propagate_lagrangian newton s tof mu true = Ret (s', Some M) /\ flow_at mu s tof s' /\ flow_jacobian mu s tof s' M.
Proof. exact jac_ok_E. Qed.
Print Assumptions C17_elliptic.
(** Full statement: the same for every time of flight.  It is false, because no state is returned then (C10_hyperbolic_refuted);
    what is returned is right for all times of flight: C17_returned. *)
Theorem C17_hyperbolic_partial : forall newton mu s tof, newton_ok newton -> hyperbolic mu s -> mean_motion mu s * Rabs tof <= 10 ^ 9 ->
  exists s' M, propagate_lagrangian newton s tof mu true = Ret (s', Some M) /\ flow_at mu s tof s' /\ flow_jacobian mu s tof s' M.
Proof. exact jac_ok_H. Qed.
Print Assumptions C17_hyperbolic_partial.
Theorem C17_returned : forall newton mu s tof s' m, newton_sound newton -> regular mu s -> energy mu s <> 0 ->
  propagate_lagrangian newton s tof mu true = Ret (s', m) -> flow_at mu s tof s' /\ exists M, m = Some M /\ flow_jacobian mu s tof s' M.
Proof. exact jac_sound. Qed.
Print Assumptions C17_returned.
Theorem C17_identity : forall newton mu s s' m, newton_sound newton -> regular mu s -> energy mu s <> 0 ->
  propagate_lagrangian newton s 0 mu true = Ret (s', m) ->
  s' = s /\ exists M, m = Some M /\ length M = 36%nat /\ forall i j, (i < 6)%nat -> (j < 6)%nat -> mat_entry M i j = if Nat.eqb i j then 1 else 0.
Proof. exact stm_identity. Qed.
Print Assumptions C17_identity.
Theorem C17_chain : forall newton mu s t1 t2, newton_ok newton -> elliptic mu s ->
  exists s1 M1 s2 M2 M3, propagate_lagrangian newton s t1 mu true = Ret (s1, Some M1) /\ propagate_lagrangian newton s1 t2 mu true = Ret (s2, Some M2) /\
    propagate_lagrangian newton s (t1 + t2) mu true = Ret (s2, Some M3) /\ forall d, mat_apply M3 d = mat_apply M2 (mat_apply M1 d).
Proof. exact stm_chain. Qed.
Print Assumptions C17_chain.
(** a shift along the unit circle stays a shift along the unit circle, for every time *)
Example C17_circle : forall newton t, newton_ok newton -> exists M, propagate_lagrangian newton (circle 0) t 1 true = Ret (circle t, Some M) /\
  mat_apply M (V 0 1 0, V (-1) 0 0) = (V (- sin t) (cos t) 0, V (- cos t) (- sin t) 0).
Proof. exact circle_stm. Qed.

(** ** C18.  [inv_ok inv]: the matrix inversion called by stm_reynolds inverts every 36-entry matrix with trivial kernel, and what it
    returns is a two-sided inverse; on a singular matrix xt::linalg::inv throws. *)
(** the columns of Y solve the variational equations along every two-body arc *)
Theorem C18_columns : forall mu y r0 v0 d, two_body mu m_infty p_infty y ->
  variational mu y (fun t => mat_apply (compute_Y r0 v0 (fst (y t)) (snd (y t)) t mu) d).
Proof. exact columns_variational. Qed.
Print Assumptions C18_columns.
Theorem C18_elliptic : forall newton inv mu s tof, newton_ok newton -> inv_ok inv -> elliptic mu s ->
  exists s' M, propagate_stm_reynolds newton inv s tof mu true = Ret (s', Some M) /\ flow_at mu s tof s' /\ flow_jacobian mu s tof s' M.
Proof. exact reynolds_ok. Qed.
Print Assumptions C18_elliptic.
(** Full statement: the same for every time of flight.  It is false for the reason given at C17_hyperbolic_partial; see C18_returned. *)
Theorem C18_hyperbolic_partial : forall newton inv mu s tof, newton_ok newton -> inv_ok inv -> hyperbolic mu s -> mean_motion mu s * Rabs tof <= 10 ^ 9 ->
  exists s' M, propagate_stm_reynolds newton inv s tof mu true = Ret (s', Some M) /\ flow_at mu s tof s' /\ flow_jacobian mu s tof s' M.
Proof. exact reynolds_ok_h. Qed.
Print Assumptions C18_hyperbolic_partial.
Theorem C18_returned : forall newton inv mu s tof s' m, newton_sound newton -> inv_ok inv -> regular mu s -> energy mu s <> 0 ->
  propagate_stm_reynolds newton inv s tof mu true = Ret (s', m) -> flow_at mu s tof s' /\ exists M, m = Some M /\ flow_jacobian mu s tof s' M.
Proof. exact reynolds_jac. Qed.
Print Assumptions C18_returned.
(** stm_reynolds alone, for any pair of states joined by the flow: no root finder involved *)
Theorem C18_stm : forall inv mu s tof s', inv_ok inv -> regular mu s -> energy mu s <> 0 -> flow_at mu s tof s' ->
  exists M, stm_reynolds inv s s' tof mu = Ret M /\ flow_jacobian mu s tof s' M.
Proof. exact reynolds_pair. Qed.
Print Assumptions C18_stm.
Theorem C18_identity : forall newton inv mu s s' m, newton_sound newton -> inv_ok inv -> regular mu s -> energy mu s <> 0 ->
  propagate_stm_reynolds newton inv s 0 mu true = Ret (s', m) ->
  s' = s /\ exists M, m = Some M /\ length M = 36%nat /\ forall i j, (i < 6)%nat -> (j < 6)%nat -> mat_entry M i j = if Nat.eqb i j then 1 else 0.
Proof. exact reynolds_identity. Qed.
Print Assumptions C18_identity.
(** entry by entry the same matrix as the one stm_lagrangian computes *)
Theorem C18_agrees_with_lagrangian : forall newton inv mu s tof s1 M1 s2 M2, newton_sound newton -> inv_ok inv -> regular mu s -> energy mu s <> 0 ->
  propagate_lagrangian newton s tof mu true = Ret (s1, Some M1) -> propagate_stm_reynolds newton inv s tof mu true = Ret (s2, Some M2) -> s1 = s2 /\ M1 = M2.
Proof. exact reynolds_agrees. Qed.
Print Assumptions C18_agrees_with_lagrangian.
(** "all Keplerian arcs with non-zero angular momentum" is too much: on a parabola Y(0) is singular and the code throws *)
Theorem C18_parabola_throws : forall inv mu s sf tof, inv_ok inv -> regular mu s -> energy mu s = 0 -> stm_reynolds inv s sf tof mu = Throw RuntimeError.
Proof. exact reynolds_parabola. Qed.
Print Assumptions C18_parabola_throws.
Theorem C18_refuted : exists mu s, regular mu s /\ forall inv sf tof, inv_ok inv -> stm_reynolds inv s sf tof mu = Throw RuntimeError.
Proof. exact reynolds_parabola_ex. Qed.
Print Assumptions C18_refuted.
Example C18_circle : forall newton inv t, newton_ok newton -> inv_ok inv -> exists M, propagate_stm_reynolds newton inv (circle 0) t 1 true = Ret (circle t, Some M) /\
  mat_apply M (V 0 1 0, V (-1) 0 0) = (V (- sin t) (cos t) 0, V (- cos t) (- sin t) 0).
Proof. exact reynolds_circle. Qed.
(** the assumptions on the root finder and on the matrix inversion can be met together: a solver that returns an exact root, and elimination *)
Example C18_solvers_exist : exists newton inv, newton_ok newton /\ newton_sound newton /\ inv_ok inv.
Proof. exact solvers_exist. Qed.
