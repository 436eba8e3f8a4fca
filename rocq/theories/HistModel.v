(** * sims_flanagan_hf::get_state_history, src/leg/sims_flanagan_hf.cpp 765-837
    [integ_grid] is heyoka's propagate_grid as an oracle: tolerance, parameters, state, time and grid give a success flag,
    the sampled states (flattened), the new state and time. *)
From Coq Require Import ZArith List Bool.
From Flocq Require Import Core.Core IEEE754.BinarySingleNaN.
From Verif Require Import Outcome StateMonad Float64 LegModel HfModel.
Import ListNotations.
Open Scope Z_scope.
Open Scope sm_scope.

Section Hist.
Variable integ_grid : double -> list double -> list double -> double -> list double -> bool * list double * list double * double.

(** 770-777: the time grid; [k] further points after the last one *)
Fixpoint grid_points (k : nat) (t step : double) : list double :=
  match k with
  | O => []
  | S k' => let t' := dadd t step in t' :: grid_points k' t' step
  end.
Definition time_grid (l : hfleg) (g : Z) : list double :=
  let step := ddiv (seg_dt l) (d_of_Z (wrap32 (g - 1))) in
  dzero :: grid_points (Z.to_nat (wrap32 (g * hf_n l - 2))) dzero step.

(** current_leg_time_grid.at(0): the vector has g elements; at() throws on an empty one *)
Definition at0 (v : list double) : outcome double := match v with [] => Throw OutOfRange | x :: _ => Ret x end.

(** std::copy into a buffer of [g] elements *)
Definition copy_into (g : Z) (src : list double) : outcome (list double) :=
  if lenZ src <=? g then Ret (src ++ repeat dzero (Z.to_nat (g - lenZ src))) else UB.

Definition tas_propagate_grid (gr : list double) : sm hfleg (list double) :=
  fun l => let a := hf_tas l in
           let '(ok, out, x, t') := integ_grid (ta_tol a) (ta_pars a) (ta_state a) (ta_time a) gr in
           (h_tas (mk_ta (ta_tol a) (ta_pars a) x t') l, if ok then Ret out else Throw DomainError).

(** output_per_seg[i] = output_states *)
Definition put (out : list (list double)) (i : Z) (x : list double) : outcome (list (list double)) :=
  if (0 <=? i) && (i <? lenZ out) then Ret (firstn (Z.to_nat i) out ++ x :: skipn (S (Z.to_nat i)) out) else UB.

(** 788-806; index arithmetic on unsigned *)
Fixpoint hist_fwd (k : nat) (i g : Z) (tg : list double) (out : list (list double)) : sm hfleg (list (list double)) :=
  match k with
  | O => sret out
  | S k' =>
      u <-- (fun l => (l, slice (hf_thrusts l) (wrap32 (i * 3)) (wrap32 (3 * (i + 1))))) ;;
      tas_upd (ta_set_pars 2 u) ;;;
      sl <-- slift (slice tg (wrap32 (i * (g - 1))) (wrap32 ((i + 1) * (g - 1) + 1))) ;;
      gr <-- slift (copy_into g sl) ;;
      t0 <-- slift (at0 gr) ;;
      tas_upd (ta_set_time t0) ;;;
      st <-- tas_propagate_grid gr ;;
      out' <-- slift (put out i st) ;;
      hist_fwd k' (i + 1) g tg out'
  end.
(** 815-835 *)
Fixpoint hist_bck (k : nat) (i g : Z) (tg : list double) (out : list (list double)) : sm hfleg (list (list double)) :=
  match k with
  | O => sret out
  | S k' =>
      u <-- (fun l => (l, slice (hf_thrusts l) (wrap32 ((hf_n l - (i + 1)) * 3)) (wrap32 ((hf_n l - i) * 3)))) ;;
      tas_upd (ta_set_pars 2 u) ;;;
      sl <-- (fun l => (l, slice tg (wrap32 ((hf_n l - (i + 1)) * (g - 1))) (wrap32 ((hf_n l - i) * (g - 1) + 1)))) ;;
      gr <-- slift (copy_into g (rev sl)) ;;
      t0 <-- slift (at0 gr) ;;
      tas_upd (ta_set_time t0) ;;;
      st <-- tas_propagate_grid gr ;;
      out' <-- (fun l => (l, put out (wrap32 (hf_n l - 1 - i)) st)) ;;
      hist_bck k' (i + 1) g tg out'
  end.

Definition get_state_history (g : Z) : sm hfleg (list (list double)) :=
  tg <-- (fun l => (l, Ret (time_grid l g))) ;;
  tas_upd (ta_set_time dzero) ;;;
  (fun l => tas_upd (ta_set_state 0 (hf_rvms l)) l) ;;;
  out <-- (fun l => hist_fwd (Z.to_nat (hf_nf l)) 0 g tg (repeat [] (Z.to_nat (hf_n l))) l) ;;
  (fun l => tas_upd (ta_set_time (hf_tof l)) l) ;;;
  (fun l => tas_upd (ta_set_state 0 (hf_rvmf l)) l) ;;;
  (fun l => hist_bck (Z.to_nat (hf_nb l)) 0 g tg out l).
End Hist.
