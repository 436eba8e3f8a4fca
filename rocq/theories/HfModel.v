(** * Data and evaluation model of the high-fidelity leg, src/leg/sims_flanagan_hf.cpp
    The heyoka integrator is an oracle [integ]: given tolerance, parameters, state, start and target time it returns
    a success flag, the state and the time reached.  Recorded assumption (DESIGN.md): an integrator call depends on
    nothing else, i.e. taylor_adaptive has no other state that influences propagate_until. *)
From Coq Require Import ZArith List Bool.
From Flocq Require Import Core.Core IEEE754.BinarySingleNaN.
From Verif Require Import Outcome StateMonad Float64 LegModel.
Import ListNotations.
Open Scope Z_scope.
Open Scope sm_scope.

(** heyoka::taylor_adaptive<double>: what kep3 reads and writes of it *)
Record ta := mk_ta { ta_tol : double; ta_pars : list double; ta_state : list double; ta_time : double }.

(** std::copy(src, dst.begin()+off): overwrites |src| elements of a buffer *)
Definition blit {A} (off : nat) (src dst : list A) : list A :=
  firstn off dst ++ src ++ skipn (off + length src) dst.
(** the elements [i,j) of a vector; reading outside is UB *)
Definition slice {A} (l : list A) (i j : Z) : outcome (list A) :=
  if (0 <=? i) && (i <=? j) && (j <=? lenZ l) then Ret (sub_range l i j) else UB.

Definition ta_set_pars (off : nat) (src : list double) (a : ta) : ta := mk_ta (ta_tol a) (blit off src (ta_pars a)) (ta_state a) (ta_time a).
Definition ta_set_state (off : nat) (src : list double) (a : ta) : ta := mk_ta (ta_tol a) (ta_pars a) (blit off src (ta_state a)) (ta_time a).
Definition ta_set_time (t : double) (a : ta) : ta := mk_ta (ta_tol a) (ta_pars a) (ta_state a) t.

(** kep3::G0 = 9.80665, constants.hpp *)
Definition dG0 : double := d_of_dyadic 5520653160719109 (-49).
Definition d1em16 : double := d_of_dyadic 2028240960365167 (-104).

(** src/ta/stark.cpp 87-90: a cache miss builds an integrator with unit state and parameters {1,1,0,0,0};
    what the cache returns is such an integrator for that tolerance (property C36) *)
Definition fresh_ta (tol : double) : ta := mk_ta tol [done; done; dzero; dzero; dzero] (repeat done 7) dzero.
(** stark.cpp 106-114; [var_ic] is the initial variational state chosen by heyoka, {1,1,0,0,1e-32} the parameters
    (the 1e-32 is overwritten before every use; modelled as 0) *)
Definition fresh_ta_var (var_ic : list double) (tol : double) : ta :=
  mk_ta tol [done; done; dzero; dzero; dzero] (repeat done 7 ++ var_ic) dzero.

(** sims_flanagan_hf.hpp 157-188 *)
Record hfleg := mk_hf {
  hf_rvms : list double; hf_vars : list double; hf_thr : list double; hf_thrusts : list double; hf_rvmf : list double;
  hf_tof : double; hf_T : double; hf_isp : double; hf_mu : double; hf_cut : double; hf_tol : double;
  hf_n : Z; hf_nf : Z; hf_nb : Z; hf_tas : ta; hf_tasv : ta }.

Definition h_rvms v l := mk_hf v (hf_vars l) (hf_thr l) (hf_thrusts l) (hf_rvmf l) (hf_tof l) (hf_T l) (hf_isp l) (hf_mu l) (hf_cut l) (hf_tol l) (hf_n l) (hf_nf l) (hf_nb l) (hf_tas l) (hf_tasv l).
Definition h_thr v l := mk_hf (hf_rvms l) (hf_vars l) v (hf_thrusts l) (hf_rvmf l) (hf_tof l) (hf_T l) (hf_isp l) (hf_mu l) (hf_cut l) (hf_tol l) (hf_n l) (hf_nf l) (hf_nb l) (hf_tas l) (hf_tasv l).
Definition h_thrusts v l := mk_hf (hf_rvms l) (hf_vars l) (hf_thr l) v (hf_rvmf l) (hf_tof l) (hf_T l) (hf_isp l) (hf_mu l) (hf_cut l) (hf_tol l) (hf_n l) (hf_nf l) (hf_nb l) (hf_tas l) (hf_tasv l).
Definition h_rvmf v l := mk_hf (hf_rvms l) (hf_vars l) (hf_thr l) (hf_thrusts l) v (hf_tof l) (hf_T l) (hf_isp l) (hf_mu l) (hf_cut l) (hf_tol l) (hf_n l) (hf_nf l) (hf_nb l) (hf_tas l) (hf_tasv l).
Definition h_tof v l := mk_hf (hf_rvms l) (hf_vars l) (hf_thr l) (hf_thrusts l) (hf_rvmf l) v (hf_T l) (hf_isp l) (hf_mu l) (hf_cut l) (hf_tol l) (hf_n l) (hf_nf l) (hf_nb l) (hf_tas l) (hf_tasv l).
Definition h_T v l := mk_hf (hf_rvms l) (hf_vars l) (hf_thr l) (hf_thrusts l) (hf_rvmf l) (hf_tof l) v (hf_isp l) (hf_mu l) (hf_cut l) (hf_tol l) (hf_n l) (hf_nf l) (hf_nb l) (hf_tas l) (hf_tasv l).
Definition h_isp v l := mk_hf (hf_rvms l) (hf_vars l) (hf_thr l) (hf_thrusts l) (hf_rvmf l) (hf_tof l) (hf_T l) v (hf_mu l) (hf_cut l) (hf_tol l) (hf_n l) (hf_nf l) (hf_nb l) (hf_tas l) (hf_tasv l).
Definition h_mu v l := mk_hf (hf_rvms l) (hf_vars l) (hf_thr l) (hf_thrusts l) (hf_rvmf l) (hf_tof l) (hf_T l) (hf_isp l) v (hf_cut l) (hf_tol l) (hf_n l) (hf_nf l) (hf_nb l) (hf_tas l) (hf_tasv l).
Definition h_cut v l := mk_hf (hf_rvms l) (hf_vars l) (hf_thr l) (hf_thrusts l) (hf_rvmf l) (hf_tof l) (hf_T l) (hf_isp l) (hf_mu l) v (hf_tol l) (hf_n l) (hf_nf l) (hf_nb l) (hf_tas l) (hf_tasv l).
Definition h_tol v l := mk_hf (hf_rvms l) (hf_vars l) (hf_thr l) (hf_thrusts l) (hf_rvmf l) (hf_tof l) (hf_T l) (hf_isp l) (hf_mu l) (hf_cut l) v (hf_n l) (hf_nf l) (hf_nb l) (hf_tas l) (hf_tasv l).
Definition h_split n nf nb l := mk_hf (hf_rvms l) (hf_vars l) (hf_thr l) (hf_thrusts l) (hf_rvmf l) (hf_tof l) (hf_T l) (hf_isp l) (hf_mu l) (hf_cut l) (hf_tol l) n nf nb (hf_tas l) (hf_tasv l).
Definition h_tas v l := mk_hf (hf_rvms l) (hf_vars l) (hf_thr l) (hf_thrusts l) (hf_rvmf l) (hf_tof l) (hf_T l) (hf_isp l) (hf_mu l) (hf_cut l) (hf_tol l) (hf_n l) (hf_nf l) (hf_nb l) v (hf_tasv l).

Section Hf.
Variable integ : double -> list double -> list double -> double -> double -> bool * list double * double.
Variable var_ic : list double.

(** throttle_to_thrust, e.g. 66-69 *)
Definition thrusts_of (T : double) (th : list double) : list double := map (fun u => dmul u T) th.

(** 118-145 (constructor from rvm states); the other two constructors (46-69, 71-116) are this one applied to the
    concatenated arrays / the default members. *)
Definition hf_ctor (rvms th rvmf : list double) (tof T isp mu cut tol : double) : outcome hfleg :=
  (let n := nseg_of th in
   nf <- nseg_fwd_of n cut ;;
   let nb := nseg_bck_of n nf in
   _ <- sanity_checks_hf th tof T isp mu cut tol n nf nb ;;
   let pars := [mu; dmul isp dG0] in
   let tas := ta_set_pars 0 pars (fresh_ta tol) in
   let tasv := ta_set_pars 0 pars (fresh_ta_var var_ic tol) in
   Ret (mk_hf rvms (skipn 7 (ta_state tasv)) th (thrusts_of T th) rvmf tof T isp mu cut tol n nf nb tas tasv))%outcome.

(** hpp 157-181 and cpp 46-69 *)
Definition hf_default : outcome hfleg :=
  hf_ctor [done; dzero; dzero; dzero; done; dzero; done] (repeat dzero 6) [dzero; done; dzero; dneg1; dzero; dzero; done]
          dhalfpi done done done dhalf d1em16.

Definition hf_resplit : sm hfleg unit :=
  smodify (fun l => h_split (nseg_of (hf_thr l)) (hf_nf l) (hf_nb l) l) ;;;
  nf <-- (fun l => (l, nseg_fwd_of (hf_n l) (hf_cut l))) ;;
  smodify (fun l => h_split (hf_n l) nf (nseg_bck_of (hf_n l) nf) l).
Definition hf_rethrust : sm hfleg unit := smodify (fun l => h_thrusts (thrusts_of (hf_T l) (hf_thr l)) l).
Definition hf_check_all (th : list double) : sm hfleg unit :=
  fun l => (l, sanity_checks_hf th (hf_tof l) (hf_T l) (hf_isp l) (hf_mu l) (hf_cut l) (hf_tol l) (hf_n l) (hf_nf l) (hf_nb l)).

Inductive hf_op :=
| HTof (v : double) | HRvs (rv : list double) | HMs (v : double) | HThr (v : list double)
| HThrIt (src : list double) (i j : Z)
| HRvf (rv : list double) | HMf (v : double) | HT (v : double) | HIsp (v : double) | HMu (v : double) | HCut (v : double)
| HTol (v : double) | HRvms (v : list double) | HRvmf (v : list double)
| HSet (rvms th rvmf : list double) (tof T isp mu cut tol : double)
| HSetShort (rvms th rvmf : list double) (tof : double).

Definition hf_do (o : hf_op) : sm hfleg unit :=
  match o with
  | HTof v => slift (check_tof v) ;;; smodify (h_tof v)                                     (* 148-152 *)
  | HRvs rv => smodify (fun l => h_rvms (blit 0 rv (hf_rvms l)) l)                            (* 153-157 *)
  | HMs v => smodify (fun l => h_rvms (blit 6 [v] (hf_rvms l)) l)                             (* 158-161 *)
  | HThr v => slift (check_throttles v) ;;; smodify (h_thr v) ;;; hf_resplit ;;; hf_rethrust  (* 162-174 *)
  | HThrIt src i j =>                                                                        (* 175-193 *)
      slift (guard (negb (Z.rem (j - i) 3 =? 0) || (j - i <=? 0)) LogicError) ;;;
      smodify (h_thr (sub_range src i j)) ;;; hf_resplit ;;; hf_rethrust
  | HRvf rv => smodify (fun l => h_rvmf (blit 0 rv (hf_rvmf l)) l)                            (* 194-198 *)
  | HMf v => smodify (fun l => h_rvmf (blit 6 [v] (hf_rvmf l)) l)                             (* 199-202 *)
  | HT v => slift (check_max_thrust v) ;;; smodify (h_T v)                                    (* 203-207 *)
  | HIsp v => slift (check_isp v) ;;; smodify (h_isp v)                                       (* 208-212 *)
  | HMu v => slift (check_mu v) ;;; smodify (h_mu v)                                          (* 213-217 *)
  | HCut v => slift (check_cut v) ;;; smodify (h_cut v) ;;;                                   (* 218-224 *)
      nf <-- (fun l => (l, nseg_fwd_of (hf_n l) (hf_cut l))) ;;
      smodify (fun l => h_split (hf_n l) nf (nseg_bck_of (hf_n l) nf) l)
  | HTol v => slift (check_tol v) ;;; smodify (h_tol v)                                       (* 225-229 *)
  | HRvms v => smodify (h_rvms v)                                                            (* 230-233 *)
  | HRvmf v => smodify (h_rvmf v)                                                            (* 234-237 *)
  | HSet rvms th rvmf tof T isp mu cut tol =>             (* 247-277 and 279-300: members assigned before the checks *)
      smodify (h_rvms rvms) ;;; smodify (h_thr th) ;;; smodify (h_rvmf rvmf) ;;; smodify (h_tof tof) ;;; smodify (h_T T) ;;;
      smodify (h_isp isp) ;;; smodify (h_mu mu) ;;; smodify (h_cut cut) ;;; smodify (h_tol tol) ;;;
      hf_resplit ;;; hf_check_all th ;;; hf_rethrust
  | HSetShort rvms th rvmf tof =>                                                            (* 302-316 *)
      smodify (h_rvms rvms) ;;; smodify (h_thr th) ;;; smodify (h_rvmf rvmf) ;;; smodify (h_tof tof) ;;;
      hf_resplit ;;; hf_check_all th ;;; hf_rethrust
  end.

(** ** compute_mismatch_constraints, 401-451 *)
Definition tas_upd (f : ta -> ta) : sm hfleg unit := smodify (fun l => h_tas (f (hf_tas l)) l).
Definition tas_propagate_until (t : double) : sm hfleg unit :=
  fun l => let a := hf_tas l in
           let '(ok, x, t') := integ (ta_tol a) (ta_pars a) (ta_state a) (ta_time a) t in
           (h_tas (mk_ta (ta_tol a) (ta_pars a) x t') l, if ok then Ret tt else Throw DomainError).

(** m_tof / m_nseg *)
Definition seg_dt (l : hfleg) : double := ddiv (hf_tof l) (d_of_Z (hf_n l)).

(** 413-424, [k] segments still to do, [i] done *)
Fixpoint fwd_loop (k : nat) (i : Z) : sm hfleg unit :=
  match k with
  | O => sret tt
  | S k' =>
      u <-- (fun l => (l, slice (hf_thrusts l) (wrap32 (i * 3)) (wrap32 (3 * (i + 1))))) ;;
      tas_upd (ta_set_pars 2 u) ;;;
      (fun l => tas_propagate_until (dmul (d_of_Z (i + 1)) (seg_dt l)) l) ;;;
      fwd_loop k' (i + 1)
  end.
(** 435-446 *)
Fixpoint bck_loop (k : nat) (i : Z) : sm hfleg unit :=
  match k with
  | O => sret tt
  | S k' =>
      u <-- (fun l => (l, slice (hf_thrusts l) (wrap32 ((hf_n l - (i + 1)) * 3)) (wrap32 ((hf_n l - i) * 3)))) ;;
      tas_upd (ta_set_pars 2 u) ;;;
      (fun l => tas_propagate_until (dsub (hf_tof l) (dmul (d_of_Z (i + 1)) (seg_dt l))) l) ;;;
      bck_loop k' (i + 1)
  end.

(** componentwise difference of two 7-vectors *)
Fixpoint vsub (a b : list double) : list double :=
  match a, b with x :: a', y :: b' => dsub x y :: vsub a' b' | _, _ => [] end.

Definition compute_mismatch : sm hfleg (list double) :=
  tas_upd (ta_set_time dzero) ;;;
  (fun l => tas_upd (ta_set_state 0 (hf_rvms l)) l) ;;;
  (fun l => fwd_loop (Z.to_nat (hf_nf l)) 0 l) ;;;
  xf <-- (fun l => (l, Ret (ta_state (hf_tas l)))) ;;
  (fun l => tas_upd (ta_set_time (hf_tof l)) l) ;;;
  (fun l => tas_upd (ta_set_state 0 (hf_rvmf l)) l) ;;;
  (fun l => bck_loop (Z.to_nat (hf_nb l)) 0 l) ;;;
  (fun l => (l, Ret (vsub xf (ta_state (hf_tas l))))).

(** ** compute_throttle_constraints 453-461: reads m_throttles[3i..3i+2] for i < m_nseg *)
Fixpoint throttle_con (k : nat) (i : Z) (th : list double) : outcome (list double) :=
  match k with
  | O => Ret []
  | S k' =>
      (u <- slice th (3 * i) (3 * i + 3) ;;
       r <- throttle_con k' (i + 1) th ;;
       match u with
       | [x; y; z] => Ret (dsub (dadd (dadd (dmul x x) (dmul y y)) (dmul z z)) done :: r)
       | _ => UB
       end)%outcome
  end.
Definition compute_throttle_con (l : hfleg) : outcome (list double) := throttle_con (Z.to_nat (hf_n l)) 0 (hf_thr l).

(** 463-480 *)
Definition compute_constraints : sm hfleg (list double) :=
  eq <-- compute_mismatch ;;
  ineq <-- (fun l => (l, compute_throttle_con l)) ;;
  sret (firstn 7 eq ++ ineq).

(** 482-495 *)
Definition set_and_compute_constraints (ch : list double) : sm hfleg (list double) :=
  rvms <-- (fun l => (l, slice ch 0 7)) ;;
  th <-- (fun l => (l, slice ch 7 (7 + wrap32 (hf_n l * 3)))) ;;
  rvmf <-- (fun l => (l, slice ch (7 + wrap32 (hf_n l * 3)) (7 + wrap32 (hf_n l * 3) + 7))) ;;
  tof <-- (fun l => (l, slice ch (wrap32 (7 + hf_n l * 3 + 7 + 1 - 1)) (wrap32 (7 + hf_n l * 3 + 7 + 1 - 1) + 1))) ;;
  match tof with
  | [t] => hf_do (HSetShort rvms th rvmf t) ;;; compute_constraints
  | _ => slift UB
  end.
End Hf.
