(** * Data model of the two Sims-Flanagan legs: validation, segment split, constructors, setters.
    src/leg/sf_checks.cpp, src/leg/sims_flanagan.cpp 44-140, src/leg/sims_flanagan_hf.cpp 46-316.
    Doubles are exact IEEE-754 values.  [std::array<double,N>] members are lists (their length is a typing fact of
    the code; theorems that need it state it). *)
From Coq Require Import ZArith List Bool.
From Flocq Require Import Core.Core IEEE754.BinarySingleNaN.
From Verif Require Import Outcome StateMonad Float64.
Import ListNotations.
Open Scope Z_scope.
Open Scope sm_scope.

Definition lenZ {A} (l : list A) : Z := Z.of_nat (length l).
(** arithmetic on [unsigned] wraps modulo 2^32 *)
Definition wrap32 (n : Z) : Z := n mod 2 ^ 32.

(** ** sf_checks.cpp 16-95 *)
Definition guard (b : bool) (e : exn) : outcome unit := if b then Throw e else Ret tt.
(** 16-22 *)
Definition check_tof (tof : double) : outcome unit := guard (dltb tof dzero) DomainError.
(** 23-33 *)
Definition check_throttles (th : list double) : outcome unit :=
  bind (guard (negb (lenZ th mod 3 =? 0)) LogicError) (fun _ =>
  guard (match th with [] => true | _ => false end) LogicError).
(** 34-40, 41-46, 47-53 *)
Definition check_max_thrust (t : double) : outcome unit := guard (dltb t dzero) DomainError.
Definition check_isp (i : double) : outcome unit := guard (dltb i dzero) DomainError.
Definition check_mu (m : double) : outcome unit := guard (dltb m dzero) DomainError.
(** 54-59 *)
Definition check_cut (c : double) : outcome unit := guard (dltb c dzero || dgtb c done) DomainError.
(** 60-65 *)
Definition check_tol (t : double) : outcome unit := guard (dleb t dzero || dgtb t done) DomainError.
(** 66-72, unsigned addition *)
Definition check_nseg (n nf nb : Z) : outcome unit := guard (negb (wrap32 (nf + nb) =? n)) LogicError.
(** 73-83 *)
Definition sanity_checks (th : list double) (tof mt isp mu cut : double) (n nf nb : Z) : outcome unit :=
  bind (check_throttles th) (fun _ => bind (check_tof tof) (fun _ => bind (check_max_thrust mt) (fun _ =>
  bind (check_isp isp) (fun _ => bind (check_mu mu) (fun _ => bind (check_cut cut) (fun _ => check_nseg n nf nb)))))).
(** 84-95 *)
Definition sanity_checks_hf (th : list double) (tof mt isp mu cut tol : double) (n nf nb : Z) : outcome unit :=
  bind (check_throttles th) (fun _ => bind (check_tof tof) (fun _ => bind (check_max_thrust mt) (fun _ =>
  bind (check_isp isp) (fun _ => bind (check_mu mu) (fun _ => bind (check_cut cut) (fun _ =>
  bind (check_tol tol) (fun _ => check_nseg n nf nb))))))).

(** ** Segment split (the three lines repeated in every constructor / setter, e.g. sims_flanagan.cpp 50-52):
    m_nseg = unsigned(size)/3; m_nseg_fwd = unsigned(double(m_nseg)*m_cut); m_nseg_bck = m_nseg - m_nseg_fwd *)
Definition nseg_of (th : list double) : Z := wrap32 (lenZ th) / 3.
Definition nseg_fwd_of (n : Z) (cut : double) : outcome Z := d_to_u32 (dmul (d_of_Z n) cut).
Definition nseg_bck_of (n nf : Z) : Z := wrap32 (n - nf).

(** ** The low-fidelity leg: members of sims_flanagan.hpp 121-142 *)
Record sfleg := mk_sf {
  sf_rvs : list double; sf_ms : double; sf_thr : list double; sf_rvf : list double; sf_mf : double;
  sf_tof : double; sf_T : double; sf_isp : double; sf_mu : double; sf_cut : double;
  sf_n : Z; sf_nf : Z; sf_nb : Z }.

Definition dneg1 : double := d_of_Z (-1).
(** kep3::pi / 2, and 0.5 *)
Definition dhalfpi : double := d_of_dyadic 884279719003555 (-49).
Definition dhalf : double := d_of_dyadic 1 (-1).
(** sims_flanagan.hpp 121-142 (default member initialisers, default constructor) *)
Definition sf_default : sfleg :=
  mk_sf [done; dzero; dzero; dzero; done; dzero] done (repeat dzero 6) [dzero; done; dzero; dneg1; dzero; dzero] done
        dhalfpi done done done dhalf 2 1 1.

(** sims_flanagan.cpp 44-54: members are initialised (including the split) before the checks run *)
Definition sf_ctor (rvs : list double) (ms : double) (th rvf : list double) (mf tof mt isp mu cut : double)
  : outcome sfleg :=
  (let n := nseg_of th in
   nf <- nseg_fwd_of n cut ;;
   let nb := nseg_bck_of n nf in
   _ <- sanity_checks th tof mt isp mu cut n nf nb ;;
   Ret (mk_sf rvs ms th rvf mf tof mt isp mu cut n nf nb))%outcome.

(** field updates *)
Definition up_tof (v : double) (l : sfleg) : sfleg :=
  mk_sf (sf_rvs l) (sf_ms l) (sf_thr l) (sf_rvf l) (sf_mf l) v (sf_T l) (sf_isp l) (sf_mu l) (sf_cut l) (sf_n l) (sf_nf l) (sf_nb l).
Definition up_rvs (v : list double) (l : sfleg) : sfleg :=
  mk_sf v (sf_ms l) (sf_thr l) (sf_rvf l) (sf_mf l) (sf_tof l) (sf_T l) (sf_isp l) (sf_mu l) (sf_cut l) (sf_n l) (sf_nf l) (sf_nb l).
Definition up_ms (v : double) (l : sfleg) : sfleg :=
  mk_sf (sf_rvs l) v (sf_thr l) (sf_rvf l) (sf_mf l) (sf_tof l) (sf_T l) (sf_isp l) (sf_mu l) (sf_cut l) (sf_n l) (sf_nf l) (sf_nb l).
Definition up_thr (v : list double) (l : sfleg) : sfleg :=
  mk_sf (sf_rvs l) (sf_ms l) v (sf_rvf l) (sf_mf l) (sf_tof l) (sf_T l) (sf_isp l) (sf_mu l) (sf_cut l) (sf_n l) (sf_nf l) (sf_nb l).
Definition up_rvf (v : list double) (l : sfleg) : sfleg :=
  mk_sf (sf_rvs l) (sf_ms l) (sf_thr l) v (sf_mf l) (sf_tof l) (sf_T l) (sf_isp l) (sf_mu l) (sf_cut l) (sf_n l) (sf_nf l) (sf_nb l).
Definition up_mf (v : double) (l : sfleg) : sfleg :=
  mk_sf (sf_rvs l) (sf_ms l) (sf_thr l) (sf_rvf l) v (sf_tof l) (sf_T l) (sf_isp l) (sf_mu l) (sf_cut l) (sf_n l) (sf_nf l) (sf_nb l).
Definition up_T (v : double) (l : sfleg) : sfleg :=
  mk_sf (sf_rvs l) (sf_ms l) (sf_thr l) (sf_rvf l) (sf_mf l) (sf_tof l) v (sf_isp l) (sf_mu l) (sf_cut l) (sf_n l) (sf_nf l) (sf_nb l).
Definition up_isp (v : double) (l : sfleg) : sfleg :=
  mk_sf (sf_rvs l) (sf_ms l) (sf_thr l) (sf_rvf l) (sf_mf l) (sf_tof l) (sf_T l) v (sf_mu l) (sf_cut l) (sf_n l) (sf_nf l) (sf_nb l).
Definition up_mu (v : double) (l : sfleg) : sfleg :=
  mk_sf (sf_rvs l) (sf_ms l) (sf_thr l) (sf_rvf l) (sf_mf l) (sf_tof l) (sf_T l) (sf_isp l) v (sf_cut l) (sf_n l) (sf_nf l) (sf_nb l).
Definition up_cut (v : double) (l : sfleg) : sfleg :=
  mk_sf (sf_rvs l) (sf_ms l) (sf_thr l) (sf_rvf l) (sf_mf l) (sf_tof l) (sf_T l) (sf_isp l) (sf_mu l) v (sf_n l) (sf_nf l) (sf_nb l).
Definition up_split (n nf nb : Z) (l : sfleg) : sfleg :=
  mk_sf (sf_rvs l) (sf_ms l) (sf_thr l) (sf_rvf l) (sf_mf l) (sf_tof l) (sf_T l) (sf_isp l) (sf_mu l) (sf_cut l) n nf nb.

(** m_nseg = ...; m_nseg_fwd = ...; m_nseg_bck = ... from the current members *)
Definition sf_resplit : sm sfleg unit :=
  smodify (fun l => up_split (nseg_of (sf_thr l)) (sf_nf l) (sf_nb l) l) ;;;
  nf <-- (fun l => (l, nseg_fwd_of (sf_n l) (sf_cut l))) ;;
  smodify (fun l => up_split (sf_n l) nf (nseg_bck_of (sf_n l) nf) l).

(** The sub-range [it1,it2) of a vector given to set_throttles: the code sees the distance and the elements. *)
Inductive sf_op :=
| OpTof (v : double) | OpRvs (v : list double) | OpMs (v : double) | OpThr (v : list double)
| OpThrIt (src : list double) (i j : Z)   (* iterators src.begin()+i, src.begin()+j *)
| OpRvf (v : list double) | OpMf (v : double) | OpT (v : double) | OpIsp (v : double) | OpMu (v : double) | OpCut (v : double)
| OpSet (rvs : list double) (ms : double) (th rvf : list double) (mf tof mt isp mu cut : double).

Definition sub_range {A} (src : list A) (i j : Z) : list A := firstn (Z.to_nat (j - i)) (skipn (Z.to_nat i) src).

Definition sf_do (o : sf_op) : sm sfleg unit :=
  match o with
  | OpTof v => slift (check_tof v) ;;; smodify (up_tof v)                      (* 57-61 *)
  | OpRvs v => smodify (up_rvs v)                                              (* 62-65 *)
  | OpMs v => smodify (up_ms v)                                                (* 66-69 *)
  | OpThr v => slift (check_throttles v) ;;; smodify (up_thr v) ;;; sf_resplit (* 70-77 *)
  | OpThrIt src i j =>                                                         (* 78-89; C++ % truncates *)
      slift (guard (negb (Z.rem (j - i) 3 =? 0) || (j - i <=? 0)) LogicError) ;;;
      smodify (up_thr (sub_range src i j)) ;;; sf_resplit
  | OpRvf v => smodify (up_rvf v)                                              (* 90-93 *)
  | OpMf v => smodify (up_mf v)                                                (* 94-97 *)
  | OpT v => slift (check_max_thrust v) ;;; smodify (up_T v)                   (* 98-102 *)
  | OpIsp v => slift (check_isp v) ;;; smodify (up_isp v)                      (* 103-107 *)
  | OpMu v => slift (check_mu v) ;;; smodify (up_mu v)                         (* 108-112 *)
  | OpCut v => slift (check_cut v) ;;; smodify (up_cut v) ;;;                  (* 113-119 *)
      nf <-- (fun l => (l, nseg_fwd_of (sf_n l) (sf_cut l))) ;;
      smodify (fun l => up_split (sf_n l) nf (nseg_bck_of (sf_n l) nf) l)
  | OpSet rvs ms th rvf mf tof mt isp mu cut =>                                (* 120-140: checks the OLD members *)
      (fun l => (l, sanity_checks (sf_thr l) (sf_tof l) (sf_T l) (sf_isp l) (sf_mu l) (sf_cut l) (sf_n l) (sf_nf l) (sf_nb l))) ;;;
      smodify (fun l => mk_sf rvs ms th rvf mf tof mt isp mu cut (sf_n l) (sf_nf l) (sf_nb l)) ;;;
      sf_resplit
  end.

(** A history: exceptions are caught by the caller, who goes on using the object; UB ends the story. *)
Fixpoint sf_run (ops : list sf_op) (l : sfleg) : outcome sfleg :=
  match ops with
  | [] => Ret l
  | o :: os => match sf_do o l with
               | (_, UB) => UB
               | (l', _) => sf_run os l'
               end
  end.
