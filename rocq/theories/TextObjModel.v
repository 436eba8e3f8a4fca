(** * Text output of the modelled objects (see TextModel.v).  Definitions only. *)
From Coq Require Import ZArith Reals List String.
From Verif Require Import Outcome Float64 PartialReal Vec3 TextModel FloatVecModel LambertModel LegModel HfModel SfModel TcModel ElemModel KepModel KplaModel JplRealModel.
Import ListNotations.
Open Scope string_scope.
Open Scope outcome_scope.

Section Doubles.
Variable show : double -> string.
Variable show_n : Z -> string.
(** sims_flanagan.cpp 532-549; [mism] is compute_mismatch_constraints *)
Definition sf_text (mism : sfleg -> outcome (list double)) (l : sfleg) : outcome string :=
  m <- mism l ;; t <- throttle_con_d (sf_thr l) (sf_n l) ;;
  Ret (render (sf_lines show show_n (sf_n l) (sf_nf l) (sf_nb l) (sf_T l) (LegModel.sf_mu l) (LegModel.sf_isp l) (LegModel.sf_tof l) (LegModel.sf_ms l) (LegModel.sf_mf l) (sf_rvs l) (sf_rvf l) (sf_thr l) m t)).
(** sims_flanagan_hf.cpp 839-856; get_rvs, get_ms read m_rvms (323-340) *)
Definition hf_text (l : hfleg) : outcome string :=
  t <- throttle_con_d (hf_thr l) (hf_n l) ;;
  Ret (render (hf_lines show show_n (hf_n l) (hf_nf l) (hf_nb l) (hf_T l) (hf_mu l) (hf_isp l) (hf_tof l) (nth 6 (hf_rvms l) dzero) (nth 6 (hf_rvmf l) dzero)
    (firstn 6 (hf_rvms l)) (firstn 6 (hf_rvmf l)) (hf_thr l) t)).
End Doubles.

(** the same leg over the reals (SfModel.v) *)
Definition flat7 (c : col7) : list R := let '(p, v, m) := c in [vx p; vy p; vz p; vx v; vy v; vz v; m].
Definition flat6 (s : state) : list R := let '(p, v) := s in [vx p; vy p; vz p; vx v; vy v; vz v].
Definition sf_text_r (show : R -> string) (show_n : Z -> string) newton (l : sf) : outcome string :=
  m <- compute_mismatch_constraints newton l ;; t <- compute_throttle_constraints (s_nseg l) (s_thr l) ;;
  Ret (render (sf_lines show show_n (s_nseg l) (s_fwd l) (s_bck l) (s_T l) (s_mu l) (s_isp l) (s_tof l) (s_ms l) (s_mf l) (flat6 (s_rvs l)) (flat6 (s_rvf l)) (s_thr l) (flat7 m) t)).

(** lambert_problem.cpp 392-432, in any arithmetic *)
Section Lambert.
Context {F : Type} (O : arith F).
Variable show : F -> string.
Variable show_n : Z -> string.
Definition lp_a (s x : F) : F := f_div O (f_div O s (nat_ O 2)) (f_sub O (nat_ O 1) (f_mul O x x)).
Definition lp_ndt (tof mu s : F) : F := f_mul O tof (f_sqrt O (f_div O (f_div O (f_div O (f_mul O (nat_ O 2) mu) s) s) s)).
Definition lambert_text (r0 r1 : F * F * F) (tof mu : F) (L : lambert_t F) : outcome (list line) :=
  lambert_lines show show_n (lp_a (l_s L)) (l_v0 L) (l_v1 L) (l_x L) (l_iters L) mu tof (l_c L) (l_s L) (l_lambda L) (lp_ndt tof mu (l_s L)) r0 r1 (l_nmax L).
End Lambert.

Open Scope R_scope.
Definition r_RAD2DEG : R := 180 / PI.
(** keplerian.cpp 169-187 and jpl_lp.cpp 204-220.  [show] prints a number or NaN, [show_date] an epoch as UTC text, vectors of three as "[a, b, c]" *)
Section Planets.
Variable show : option R -> string.
Variable show_date : R -> string.
Definition show_pos (o : option vec) : string := show_list show (match o with Some v => [Some (vx v); Some (vy v); Some (vz v)] | None => [None; None; None] end).
Definition oel (o : option elem) (g : elem -> R) : option R := obind o (fun el => Some (g el)).
Definition kep_extra (p : kpla) : list line :=
  let el := k_el p in
  ([("Keplerian planet elements: ", ""); ("Semi major axis: ", show (oel el el_a)); ("Semi major axis (AU): ", show (oel el (fun x => el_a x / r_AU)));
    ("Eccentricity: ", show (oel el el_e)); ("Inclination (deg.): ", show (oel el (fun x => el_i x * r_RAD2DEG))); ("Big Omega (deg.): ", show (oel el (fun x => el_W x * r_RAD2DEG)));
    ("Small omega (deg.): ", show (oel el (fun x => el_w x * r_RAD2DEG))); ("True anomly (deg.): ", show (oel el (fun x => el_f x * r_RAD2DEG)))] ++
   (if k_ellipse p then [("Mean anomly (deg.): ", show (obind el (fun x => obind (f2m (el_f x) (el_e x)) (fun m => Some (m * r_RAD2DEG)))))] else []) ++
   [("Elements reference epoch (MJD2000): ", show (Some (k_ref p))); ("Elements reference epoch (UTC): ", show_date (k_ref p));
    ("r at ref. = ", show_pos (obind (k_pv p) (fun s => Some (fst s)))); ("v at ref. = ", show_pos (obind (k_pv p) (fun s => Some (snd s))))])%list.
Definition jr_extra newton (j : jplr) : outcome (list line) :=
  el <- jr_elements newton j 0 JplModel.KEP_F ;; pv <- jr_eph newton j 0 ;;
  Ret [("", ""); ("Low-precision planet elements: ", ""); ("Semi major axis (AU): ", show (oel el (fun x => el_a x / r_AU)));
    ("Eccentricity: ", show (oel el el_e)); ("Inclination (deg.): ", show (oel el (fun x => el_i x * r_RAD2DEG))); ("Big Omega (deg.): ", show (oel el (fun x => el_W x * r_RAD2DEG)));
    ("Small omega (deg.): ", show (oel el (fun x => el_w x * r_RAD2DEG))); ("True anomly (deg.): ", show (oel el (fun x => el_f x * r_RAD2DEG)));
    ("Mean anomly (deg.): ", show (obind el (fun x => obind (f2m (el_f x) (el_e x)) (fun m => Some (m * r_RAD2DEG)))));
    ("Elements reference epoch (MJD2000): ", show (Some 0)); ("Elements reference epoch (date): ", show_date 0);
    ("r at ref. = ", show_pos (obind pv (fun s => Some (fst s)))); ("v at ref. = ", show_pos (obind pv (fun s => Some (snd s))))].
End Planets.
