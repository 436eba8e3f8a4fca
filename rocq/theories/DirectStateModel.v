(** * The direct problems as objects that keep a leg (pykep/trajopt/_direct_point2point.py, _direct_pl2pl.py)
    DirectModel builds the leg anew for each evaluation.  Here the leg is a data member that every method writes and reads, attribute by attribute, in the order of the code,
    and that keeps what was written before an exception.  Simplifications as in DirectModel; a state is [None] if a number of it is a NaN, and then so is what is computed from it. *)
From Coq Require Import ZArith Reals List Bool.
From Verif Require Import Outcome PartialReal Vec3 TwoBodyModel TcModel SfModel KplaModel DirectModel.
Import ListNotations.
Open Scope R_scope.

(** sims_flanagan.hpp 121-142 *)
Record leg := mk_leg { k_rvs : option state; k_ms : R; k_thr : list R; k_rvf : option state; k_mf : R; k_tof : R; k_T : R; k_isp : R; k_mu : R; k_cut : R; k_nseg : Z; k_fwd : Z; k_bck : Z }.
(** a statement on the leg: its outcome and the leg as it is left *)
Definition act (A : Type) := leg -> outcome A * leg.
Definition abind {A B} (m : act A) (f : A -> act B) : act B := fun l => match m l with (Ret a, l') => f a l' | (Throw e, l') => (Throw e, l') | (UB, l') => (UB, l') end.
Definition lift {A} (o : outcome A) : act A := fun l => (o, l).
Declare Scope act_scope.
Notation "x <-@ m ;; f" := (abind m (fun x => f)) (at level 61, m at next level, right associativity) : act_scope.
Open Scope act_scope.

(** sims_flanagan.cpp 57-61, 62-65, 66-69, 70-77, 90-97, 98-102, 103-107, 108-112, 113-119; the product nseg cut is exact (C26 for doubles) *)
Definition fwd_of (n : Z) (cut : R) : Z := Int_part (IZR n * cut).
Definition set_tof (t : R) : act unit := fun l => if Rlt_dec t 0 then (Throw DomainError, l) else
  (Ret tt, mk_leg (k_rvs l) (k_ms l) (k_thr l) (k_rvf l) (k_mf l) t (k_T l) (k_isp l) (k_mu l) (k_cut l) (k_nseg l) (k_fwd l) (k_bck l)).
Definition set_rvs (s : option state) : act unit := fun l => (Ret tt, mk_leg s (k_ms l) (k_thr l) (k_rvf l) (k_mf l) (k_tof l) (k_T l) (k_isp l) (k_mu l) (k_cut l) (k_nseg l) (k_fwd l) (k_bck l)).
Definition set_ms (m : R) : act unit := fun l => (Ret tt, mk_leg (k_rvs l) m (k_thr l) (k_rvf l) (k_mf l) (k_tof l) (k_T l) (k_isp l) (k_mu l) (k_cut l) (k_nseg l) (k_fwd l) (k_bck l)).
Definition set_throttles (th : list R) : act unit := fun l =>
  let k := Z.of_nat (length th) in if negb (Z.eqb (Z.modulo k 3) 0) || Z.eqb k 0 then (Throw LogicError, l) else
  let n := Z.div k 3 in let f := fwd_of n (k_cut l) in
  (Ret tt, mk_leg (k_rvs l) (k_ms l) th (k_rvf l) (k_mf l) (k_tof l) (k_T l) (k_isp l) (k_mu l) (k_cut l) n f (n - f)).
Definition set_rvf (s : option state) : act unit := fun l => (Ret tt, mk_leg (k_rvs l) (k_ms l) (k_thr l) s (k_mf l) (k_tof l) (k_T l) (k_isp l) (k_mu l) (k_cut l) (k_nseg l) (k_fwd l) (k_bck l)).
Definition set_mf (m : R) : act unit := fun l => (Ret tt, mk_leg (k_rvs l) (k_ms l) (k_thr l) (k_rvf l) m (k_tof l) (k_T l) (k_isp l) (k_mu l) (k_cut l) (k_nseg l) (k_fwd l) (k_bck l)).
Definition set_max_thrust (T : R) : act unit := fun l => if Rlt_dec T 0 then (Throw DomainError, l) else
  (Ret tt, mk_leg (k_rvs l) (k_ms l) (k_thr l) (k_rvf l) (k_mf l) (k_tof l) T (k_isp l) (k_mu l) (k_cut l) (k_nseg l) (k_fwd l) (k_bck l)).
Definition set_isp (i : R) : act unit := fun l => if Rlt_dec i 0 then (Throw DomainError, l) else
  (Ret tt, mk_leg (k_rvs l) (k_ms l) (k_thr l) (k_rvf l) (k_mf l) (k_tof l) (k_T l) i (k_mu l) (k_cut l) (k_nseg l) (k_fwd l) (k_bck l)).
Definition set_mu (m : R) : act unit := fun l => if Rlt_dec m 0 then (Throw DomainError, l) else
  (Ret tt, mk_leg (k_rvs l) (k_ms l) (k_thr l) (k_rvf l) (k_mf l) (k_tof l) (k_T l) (k_isp l) m (k_cut l) (k_nseg l) (k_fwd l) (k_bck l)).
Definition set_cut (c : R) : act unit := fun l => if Rlt_dec c 0 then (Throw DomainError, l) else if Rlt_dec 1 c then (Throw DomainError, l) else
  let f := fwd_of (k_nseg l) c in
  (Ret tt, mk_leg (k_rvs l) (k_ms l) (k_thr l) (k_rvf l) (k_mf l) (k_tof l) (k_T l) (k_isp l) (k_mu l) c (k_nseg l) f (k_nseg l - f)).
(** pykep.leg.sims_flanagan() (core.cpp 465-472) *)
Definition leg0 : leg := mk_leg (Some (V 1 0 0, V 0 1 0)) 1 [0; 0; 0; 0; 0; 0] (Some (V 0 1 0, V (-1) 0 0)) 1 (PI / 2) 1 1 1 (1 / 2) 2 1 1.
(** what the compute methods read *)
Definition view (l : leg) : option sf := match k_rvs l, k_rvf l with
  | Some s, Some f => Some (mk_sf s (k_ms l) (k_thr l) f (k_mf l) (k_tof l) (k_T l) (k_isp l) (k_mu l) (k_nseg l) (k_fwd l) (k_bck l)) | _, _ => None end.
Definition on_leg {A} (f : sf -> outcome (option A)) : act (option A) := fun l => (match view l with Some s => f s | None => Ret None end, l).

Section Oracle.
Variable newton : (R -> R * R) -> R -> R -> R -> option R.
(** ** direct_point2point: 78-94 *)
Definition p2p_init rvs rvf ms mu T isp tofb mfb nseg cut M L Ve : outcome (p2p * leg) :=
  match (_ <-@ set_rvs (Some rvs) ;; _ <-@ set_ms ms ;; _ <-@ set_rvf (Some rvf) ;; _ <-@ set_max_thrust T ;; _ <-@ set_isp isp ;; _ <-@ set_mu mu ;; set_cut cut) leg0 with
  | (Ret _, l) => Ret (mk_p2p rvs rvf ms mu T isp tofb mfb nseg cut M L Ve, l) | (Throw e, _) => Throw e | (UB, _) => UB end.
(** 96-100 *)
Definition p2p_set (x : list R) : act unit :=
  t <-@ lift (py_last x) ;; _ <-@ set_tof (t * day2sec) ;; mf <-@ lift (py_get x 0) ;; _ <-@ set_mf mf ;; set_throttles (py_mid 1 x).
(** 108-123 *)
Definition p2p_fit (P : p2p) (x : list R) : act (option (list R)) :=
  _ <-@ p2p_set x ;; mf <-@ lift (py_get x 0) ;;
  on_leg (fun l => bind (compute_mismatch_constraints newton l) (fun ceq => bind (compute_throttle_constraints (s_nseg l) (s_thr l)) (fun cineq =>
    Ret (scale_fitness (- mf) (seven ceq) cineq (p_M P) (p_L P) (p_Vel P))))).
(** 128-161 *)
Definition p2p_grad (P : p2p) (x : list R) : act (option (list R)) :=
  _ <-@ p2p_set x ;;
  on_leg (fun l => bind (compute_mc_grad newton l) (fun g => bind (compute_tc_grad (s_nseg l) (s_thr l)) (fun t => bind (tc_rows (p_nseg P) 0 (s_nseg l) t) (fun rows =>
    match g with
    | None => Ret None
    | Some (_, B, G) => let w := (3 * Z.to_nat (s_nseg l) + 1)%nat in
        Ret (pconcat ([pdivs [-1] (p_M P)] ++ map (fun i => p2p_line B G w i (p_L P)) (seq 0 3) ++ map (fun i => p2p_line B G w i (p_Vel P)) (seq 3 3)
                       ++ map (fun i => p2p_line B G w i (p_M P)) (seq 6 1) ++ [Some rows]))
    end)))).
(** the leg that pretty prints (185-192) and plot draws (232-234) *)
Definition p2p_shown (x : list R) : act (option sf) := _ <-@ p2p_set x ;; on_leg (fun l => Ret (Some l)).

(** ** direct_pl2pl: 80-99 *)
Definition pl2pl_init ephs ephf ms mu T isp t0b tofb mfb vinfs vinff nseg cut M L Ve : outcome (pl2pl * leg) :=
  match (_ <-@ set_ms ms ;; _ <-@ set_max_thrust T ;; _ <-@ set_isp isp ;; _ <-@ set_mu mu ;; set_cut cut) leg0 with
  | (Ret _, l) => Ret (mk_pl2pl ephs ephf ms mu T isp t0b tofb mfb (vinfs * 1000) (vinff * 1000) nseg cut M L Ve, l) | (Throw e, _) => Throw e | (UB, _) => UB end.
Definition boosted (o : option state) (u : vec) : option state := match o with Some s => Some (fst s, vadd (snd s) u) | None => None end.
(** 119-129 *)
Definition pl2pl_set (P : pl2pl) (x : list R) : act (option state * option state) :=
  t0 <-@ lift (py_get x 0) ;; os <-@ lift (q_ephs P t0) ;; t <-@ lift (py_last x) ;; of <-@ lift (q_ephf P (t0 + t)) ;;
  us <-@ lift (py_vec x 2) ;; _ <-@ set_rvs (boosted os us) ;; uf <-@ lift (py_vec x 5) ;; _ <-@ set_rvf (boosted of uf) ;;
  _ <-@ set_tof (t * day2sec) ;; mf <-@ lift (py_get x 1) ;; _ <-@ set_mf mf ;; _ <-@ set_throttles (py_mid 8 x) ;; lift (Ret (os, of)).
(** 132-159 *)
Definition pl2pl_fit (P : pl2pl) (x : list R) : act (option (list R)) :=
  mf <-@ lift (py_get x 1) ;; _ <-@ pl2pl_set P x ;;
  on_leg (fun l => bind (compute_mismatch_constraints newton l) (fun ceq => bind (compute_throttle_constraints (s_nseg l) (s_thr l)) (fun cineq =>
    bind (py_vec x 2) (fun us => bind (py_vec x 5) (fun uf =>
      Ret (a <-? vinf_con us (q_vinfs P) (q_Vel P) ;; b <-? vinf_con uf (q_vinff P) (q_Vel P) ;;
           scale_fitness (- mf) (seven ceq) (cineq ++ [a] ++ [b]) (q_M P) (q_L P) (q_Vel P))%partial))))).
(** 164-222 *)
Definition pl2pl_grad (P : pl2pl) (x : list R) : act (option (list R)) :=
  r <-@ pl2pl_set P x ;;
  match r with
  | (Some s, Some f) => on_leg (fun l => bind (compute_mc_grad newton l) (fun g => bind (compute_tc_grad (s_nseg l) (s_thr l)) (fun t => bind (tc_rows (Z.to_nat (s_nseg l)) 0 (s_nseg l) t) (fun rows =>
      bind (py_vec x 2) (fun us => bind (py_vec x 5) (fun uf =>
      match g with
      | None => Ret None
      | Some (A, B, G) =>
          let w := (3 * Z.to_nat (s_nseg l) + 1)%nat in
          let V2 := q_Vel P * q_Vel P in
          Ret (pconcat ([pdivs [-1] (q_M P)] ++ map (fun i => pl2pl_line A B G w s f (s_mu l) i (q_L P)) (seq 0 3) ++ map (fun i => pl2pl_line A B G w s f (s_mu l) i (q_Vel P)) (seq 3 3)
                         ++ [pl2pl_mass B G w f (s_mu l) (q_M P)] ++ [Some rows]
                         ++ [pdivs [2 * vx us; 2 * vy us; 2 * vz us; 2 * vx uf; 2 * vy uf; 2 * vz uf] V2]))
      end))))))
  | _ => lift (Ret None)
  end.
(** the leg that pretty prints (255-281) and plot draws (320-321) *)
Definition pl2pl_shown (P : pl2pl) (x : list R) : act (option sf) := _ <-@ pl2pl_set P x ;; on_leg (fun l => Ret (Some l)).

(** ** histories: calls in any order, those that raise included *)
Inductive call := Fitness (x : list R) | Gradient (x : list R) | Shown (x : list R).
Definition p2p_after (P : p2p) (l : leg) (cs : list call) : leg :=
  fold_left (fun l c => match c with Fitness x => snd (p2p_fit P x l) | Gradient x => snd (p2p_grad P x l) | Shown x => snd (p2p_shown x l) end) cs l.
Definition pl2pl_after (P : pl2pl) (l : leg) (cs : list call) : leg :=
  fold_left (fun l c => match c with Fitness x => snd (pl2pl_fit P x l) | Gradient x => snd (pl2pl_grad P x l) | Shown x => snd (pl2pl_shown P x l) end) cs l.
End Oracle.
