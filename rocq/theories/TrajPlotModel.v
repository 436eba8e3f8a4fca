(** * What the plot methods of the optimisation problems draw: pykep/trajopt/_mga.py 462-501, _direct_point2point.py 195-256,
    _direct_pl2pl.py 283-348
    Simplifications: those of MgaFitModel.v, DirectModel.v and PlotLegModel.v; a position or velocity that is not a number stops the
    drawing with [DomainError] (matplotlib would leave a gap).  A picture is the list of the calls of scatter and plot, in order;
    sizes and colours are left out (the calls pass constants or the arguments of the method). *)
From Coq Require Import Reals List ZArith Bool.
From Verif Require Import Outcome PartialReal Vec3 TwoBodyModel KplaModel TcModel SfModel JplRealModel PlotModel PlotLegModel DirectModel SolarModel.
From Verif Require Import MgaModel MgaFitModel.
Import ListNotations.
Open Scope R_scope.
Open Scope outcome_scope.

(** one call of ax.scatter with one position, or one call of ax.plot *)
Inductive mark := Point (r : vec) | Path (pts : list vec).

(** planet.hpp 175-192 for a planet without a period of its own: period_from_energy (planet.cpp 28-40) at mjd2000 = 0; NaN for a
    positive energy *)
Definition default_period (eph : R -> outcome (option state)) (mu : R) : outcome R :=
  o <- eph 0 ;; s <- number o ;;
  number (q <-? pdiv mu (norm (fst s)) ;;
          let en := (vx (snd s) * vx (snd s) + vy (snd s) * vy (snd s) + vz (snd s) * vz (snd s)) / 2 - q in
          if Rlt_dec 0 en then None else a <-? pdiv (- mu / 2) en ;; period_of a mu)%partial.
(** a planet as add_planet and add_planet_orbit use it *)
Definition plotted_of (eph : R -> outcome (option state)) (per : outcome R) : ppla :=
  let e t := o <- eph t ;; number o in mk_ppla e (eph_all e) per.

Section Mga.
(** period() of the planets *)
Variable per : body -> outcome R.
(** _mga.py 489-491, the [i]-th round of the loop: mjd2000s[i] is an element of the list of dates *)
Fixpoint draw_planets (seq : list body) (ep : list R) (units : R) (N : Z) : outcome (list mark) :=
  match seq, ep with
  | [], _ => Ret []
  | _ :: _, [] => Throw OutOfRange
  | b :: bs, t :: ts =>
      r <- add_planet (plotted_of (b_eph b) (per b)) t units ;;
      o <- add_planet_orbit (plotted_of (b_eph b) (per b)) None units N ;; pts <- number o ;;
      m <- draw_planets bs ts units N ;; Ret (Point r :: Path pts :: m)
  end.
(** a leg and the positions handed to its Lambert problem: lp.r1 is the position of the next planet (_mga.py 305-316), one solution *)
Definition lp_of (mu : R) (l : lleg) (r1 : option state) : outcome lp :=
  a <- number (g_r0 l) ;; b <- number r1 ;; v <- number (g_v0 l) ;; Ret (mk_lp a (fst b) mu 0 [v]).
(** 496, 499: add_lambert (ax, lp, N = 60, sol = 0, units = units) *)
Definition draw_leg (mu units : R) (l : lleg * option state) : outcome mark :=
  p <- lp_of mu (fst l) (snd l) ;; o <- add_lambert p 60 0 units ;; pts <- number o ;; Ret (Path pts).
(** 462-501; [ids] is leg_ids *)
Definition mga_plot (P : mga) (x : list R) (units : R) (N : Z) (ids : list Z) : outcome (list mark) :=
  d <- compute_dvs P x ;;
  rv <- all_eph (m_seq P) (d_ep d) ;;
  pls <- draw_planets (m_seq P) (d_ep d) units N ;;
  let lps := combine (d_legs d) (tl rv) in
  arcs <- match ids with
          | [] => mapM (draw_leg (common_mu P) units) lps
          | _ => mapM (fun k => l <- py_nth lps k ;; draw_leg (common_mu P) units l) ids
          end ;;
  Ret (pls ++ [Point vzero] ++ arcs).
End Mga.

(** ** The direct methods *)
(** _direct_point2point.py 240-241, _direct_pl2pl.py 327-328: ax.scatter (rs[0] / _pk.AU, rs[1] / units, rs[2] / units) *)
Definition end_dot (r : vec) (units : R) : outcome mark :=
  p <- number (a <-? pdiv (vx r) r_AU ;; b <-? pdiv (vy r) units ;; c <-? pdiv (vz r) units ;; Some (V a b c))%partial ;; Ret (Point p).
Section Direct.
Variable newton : (R -> R * R) -> R -> R -> R -> option R.
(** what add_sf_leg draws (PlotLegModel.v); [N] is 10 unless kwargs say otherwise *)
Definition sf_drawing : Type := (list (list vec) * marks * (list (list vec) * marks))%type.
(** _direct_point2point.py 195-256 *)
Definition p2p_plot (P : p2p) (x : list R) (units : R) (N : Z) (show_mid show_grid show_thr : bool) : outcome (list mark * sf_drawing) :=
  l <- p2p_leg P x ;;
  a <- end_dot (fst (s_rvs l)) units ;; b <- end_dot (fst (s_rvf l)) units ;;
  d <- add_sf_leg newton l units N show_mid show_grid show_thr ;;
  Ret ([a; b], d).
(** _direct_pl2pl.py 330-334: units and N have their defaults AU and 60 (_planet.py 5, 43-44) *)
Definition draw_body (eph : R -> outcome (option state)) (per : outcome R) (when : R) : outcome (list mark) :=
  r <- add_planet (plotted_of eph per) when r_AU ;;
  o <- add_planet_orbit (plotted_of eph per) None r_AU 60 ;; pts <- number o ;; Ret [Point r; Path pts].
(** 283-348; [pers] and [perf] are period() of the planets *)
Definition pl2pl_plot (P : pl2pl) (pers perf : outcome R) (x : list R) (units : R) (N : Z) (show_mid show_grid show_thr : bool) : outcome (list mark * sf_drawing) :=
  o <- pl2pl_leg P x ;;
  q <- number o ;;
  let l := fst (fst q) in
  a <- end_dot (fst (s_rvs l)) units ;; b <- end_dot (fst (s_rvf l)) units ;;
  t0 <- py_get x 0 ;; t <- py_last x ;;
  ps <- draw_body (q_ephs P) pers t0 ;;
  pf <- draw_body (q_ephf P) perf (t0 + t) ;;
  d <- add_sf_leg newton l units N show_mid show_grid show_thr ;;
  Ret ([a; b] ++ ps ++ pf, d).
End Direct.
