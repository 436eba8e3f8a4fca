(** * Property theorems: throttle constraints (C29) and state history (C34).  Only statements. *)
From Coq Require Import ZArith Reals List.
From Flocq Require Import Core.Core IEEE754.BinarySingleNaN.
From Coquelicot Require Import Coquelicot.
From Coq Require Import List.
From Verif Require Import Outcome StateMonad Float64 LegModel HfModel HfSpec HfHistProofs TcModel TcSpec TcProofs HistModel HistSpec HistProofs.
Import ListNotations.
Open Scope Z_scope.

(** ** C29 *)
Theorem C29_constraints : forall n th, 0 <= n -> Z.of_nat (length th) = 3 * n ->
  exists c, compute_throttle_constraints n th = Ret c /\ Z.of_nat (length c) = n /\
    forall i, (Z.of_nat i < n) -> nth i c 0%R = throttle_norm th i.
Proof. exact throttle_constraints. Qed.
Print Assumptions C29_constraints.

(** the dense row-major matrix is the Jacobian of the constraints, for every number of segments *)
Theorem C29_jacobian : forall n th, 0 <= n -> Z.of_nat (length th) = 3 * n ->
  exists g, compute_tc_grad n th = Ret g /\ Z.of_nat (length g) = n * (3 * n) /\
    forall r c, 0 <= r < n -> 0 <= c < 3 * n ->
      is_derive (fun x => throttle_norm (replace_nth th (Z.to_nat c) x) (Z.to_nat r)) (nth (Z.to_nat c) th 0%R)
                (nth (Z.to_nat (r * (3 * n) + c)) g 0%R).
Proof. exact tc_grad_is_jacobian. Qed.
Print Assumptions C29_jacobian.

Example C29_nontrivial : compute_tc_grad 2 [1; 2; 3; 4; 5; 6]%R = Ret [2 * 1; 2 * 2; 2 * 3; 0; 0; 0; 0; 0; 0; 2 * 4; 2 * 5; 2 * 6]%R.
Proof. reflexivity. Qed.

(** ** C34: at least two segments.  With one segment it is refuted below. *)
Theorem C34_shape_partial : forall ig integ var_ic rvms th rvmf tof T isp mu cut tol l es l' g, grid_dim ig -> integ_dim integ ->
  length rvms = 7%nat -> length rvmf = 7%nat -> short th ->
  hf_ctor var_ic rvms th rvmf tof T isp mu cut tol = Ret l ->
  Forall (ev_ok hop_ok) es -> sets_return integ es l -> hf_run integ es l = Ret l' ->
  2 <= hf_n l' -> 2 <= g -> g * hf_n l' < 2 ^ 32 ->
  match snd (get_state_history ig g l') with
  | Ret h => lenZ h = hf_n l' /\ Forall (fun r => lenZ r = 7 * g) h
  | Throw e => e = DomainError
  | UB => False
  end.
Proof. exact history_reachable. Qed.
Print Assumptions C34_shape_partial.

(** record i is the sampling of segment i, flown from the previous one, forward from the start and backward from the end *)
Theorem C34_records_partial : forall ig, grid_dim ig -> forall g l, hf_wf l -> hf_synced l -> 2 <= hf_n l -> 2 <= g -> g * hf_n l < 2 ^ 32 ->
  snd (get_state_history ig g l)
  = history_spec ig (hf_rvms l) (hf_thr l) (hf_rvmf l) (time_grid l g) (hf_T l) (hf_isp l) (hf_mu l) (hf_tol l) (hf_n l) (hf_nf l) g.
Proof. exact history_ok. Qed.
Print Assumptions C34_records_partial.

(** the sampling times: 0, then repeated (rounded) addition of (tof/nseg)/(g-1) *)
Theorem C34_time_grid : forall l g k, 0 <= g * hf_n l - 2 < 2 ^ 32 -> 1 <= g < 2 ^ 32 -> (Z.of_nat k < g * hf_n l - 2) ->
  nth 0 (time_grid l g) dzero = dzero /\
  nth (S k) (time_grid l g) dzero
  = dadd (nth k (time_grid l g) dzero) (ddiv (ddiv (hf_tof l) (d_of_Z (hf_n l))) (d_of_Z (g - 1))).
Proof. exact time_grid_nth. Qed.
Print Assumptions C34_time_grid.

(** a leg with a single segment: whatever the integrator, the code reads past the end of its time grid *)
Theorem C34_one_segment_refuted : exists l, w_leg1 = Ret l /\ hf_n l = 1 /\ forall ig g, 2 <= g < 2 ^ 32 -> snd (get_state_history ig g l) = UB.
Proof. exact history_ub_witness. Qed.
Print Assumptions C34_one_segment_refuted.

Example C34_nontrivial :
  match w_leg with
  | Ret l => match snd (get_state_history flat_grid 3 l) with
             | Ret h => (lenZ h =? 2) && forallb (fun r => lenZ r =? 21) h
             | _ => false
             end
  | _ => false
  end%bool = true.
Proof. vm_compute. reflexivity. Qed.
