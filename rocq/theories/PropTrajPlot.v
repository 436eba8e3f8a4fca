(** * C69: the pictures of the trajectories of pykep.trajopt (mga.plot, direct_point2point.plot, direct_pl2pl.plot).
    Model: TrajPlotModel.v.  Vocabulary: TrajPlotSpec.v, PlotLegSpec.v ([half_ok]), DirectSpec.v, MgaFitSpec.v ([tour], [tour_cost]). *)
From Coq Require Import Reals List String ZArith.
From Verif Require Import Outcome Vec3 TwoBodyModel TwoBodySpec KepSpec PlotModel PlotLegModel PlotLegSpec TcModel SfModel SfSpec SfMain DirectModel DirectSpec DirectPl DirectMain.
From Verif Require Import JplRealModel JplSpec JplRealSpec JplRealProofs SolarModel LambertSpec MgaModel MgaSpec MgaFitModel MgaFitSpec MgaFitProofs MgaFitMain MgaTotal GymModel GymProofs TrajPlotModel TrajPlotSpec TrajPlotProofs TrajPlotMain.
From Verif Require JplModel.
Import ListNotations.
Open Scope R_scope.

(** The picture of a tour whose Lambert problems are solved up to [tol] seconds: every planet where the spacecraft meets it and over one period, the Sun, and the arcs of the same tour whose cost is the fitness, sixty points each from planet to planet.  Missing: a bound of [tol] for every tour, that is, the convergence of Householder's iteration (C62); and the number of points asked for is not that of the arcs (below). *)
Theorem C69_mga_partial : forall per units N, units <> 0 -> (2 <= N)%Z -> forall tol P (pof : body -> R) x t0 T ids sel dv rest, mga_ok P -> durations (enc_of (m_tofs P)) x t0 T -> List.length T = n_legs P -> all_within tol P t0 T -> fitness P x = Ret (Some dv :: rest) ->
  (forall b, In b (m_seq P) -> per b = Ret (pof b) /\ known_for (b_eph b) (pof b)) -> asked_legs (n_legs P) ids sel ->
  exists pic pl vo vi, mga_plot per P x units N ids = Ret pic /\ tour (fun _ _ => tol) P t0 T pl vo vi /\ tour_cost P pl vo vi dv /\
    tour_picture P pof pl vo vi units N 60 sel pic.
Proof. exact mga_picture. Qed.
Print Assumptions C69_mga_partial.

(** Numbers of legs that do not exist are refused. *)
Theorem C69_leg_ids : forall per P x units N ids pic, mga_plot per P x units N ids = Ret pic -> forall k, In k ids -> (- Z.of_nat (n_legs P) <= k < Z.of_nat (n_legs P))%Z.
Proof. exact mga_leg_ids. Qed.
Print Assumptions C69_leg_ids.

(** False: that the arcs have the number of points asked for. *)
Theorem C69_points_refuted : exists P x N pic pts, mga_plot (fun _ => Ret 1) P x 25 N [] = Ret pic /\ mga_ok P /\ N = 5%Z /\ nth_error pic (2 * S (n_legs P) + 1) = Some (Path pts) /\ List.length pts = 60%nat.
Proof. exact points_witness. Qed.
Print Assumptions C69_points_refuted.

(** A planet without a period of its own has that of its ellipse at mjd2000 0. *)
Theorem C69_default_period : forall eph mu s, eph 0 = Ret (Some s) -> elliptic mu s -> default_period eph mu = Ret (period mu s).
Proof. exact default_period_ok. Qed.
Print Assumptions C69_default_period.

(** The low-precision planets: the year of the inner six is inside the dates of the ephemeris, that of Uranus and Neptune is not. *)
Theorem C69_jpl_period : forall newton, newton_ok newton -> forall s j, jr_ctor s = Ret j -> exists T, default_period (jr_eph newton j) (jr_mu j) = Ret T /\ 0 < T /\
  (~ outer (JplModel.lower s) -> known_for (jr_eph newton j) T) /\ (outer (JplModel.lower s) -> 20000 < T / 86400).
Proof. exact jpl_period. Qed.
Print Assumptions C69_jpl_period.

(** The Cassini problems of the gym can be drawn. *)
Theorem C69_cassini : forall newton, newton_ok newton -> forall tol tof P x t0 T dv units N ids sel, tof = tofs_direct \/ tof = tofs_alpha \/ tof = tofs_eta -> cassini_with newton tof = Ret P -> in_box (get_bounds P) x ->
  durations (enc_of tof) x t0 T -> List.length T = 5%nat -> all_within tol P t0 T -> fitness P x = Ret [Some dv] -> units <> 0 -> (2 <= N)%Z -> asked_legs 5 ids sel ->
  let pof b := match default_period (b_eph b) (b_muc b) with Ret T => T | _ => 0 end in
  exists pic pl vo vi, mga_plot (fun b => default_period (b_eph b) (b_muc b)) P x units N ids = Ret pic /\ tour (fun _ _ => tol) P t0 T pl vo vi /\ tour_cost P pl vo vi dv /\ tour_picture P pof pl vo vi units N 60 sel pic.
Proof. exact cassini_picture. Qed.
Print Assumptions C69_cassini.

(** Tours with the low-precision Uranus or Neptune cannot. *)
Theorem C69_outer : forall newton, newton_ok newton -> forall per P x units N ids s j, jr_ctor s = Ret j -> outer (JplModel.lower s) -> In (jr_body newton j) (m_seq P) -> per (jr_body newton j) = default_period (jr_eph newton j) (jr_mu j) -> (2 <= N)%Z ->
  forall pic, mga_plot per P x units N ids <> Ret pic.
Proof. exact mga_outer. Qed.
Print Assumptions C69_outer.

(** False: that a problem with a fitness has a picture. *)
Theorem C69_outer_refuted : forall newton, newton_ok newton -> exists P x l j, jr_ctor "uranus" = Ret j /\ In (jr_body newton j) (m_seq P) /\ mga_ok P /\ in_box (get_bounds P) x /\ fitness P x = Ret l /\
  forall per units N ids pic, per (jr_body newton j) = default_period (jr_eph newton j) (jr_mu j) -> (2 <= N)%Z -> mga_plot per P x units N ids <> Ret pic.
Proof. exact outer_witness. Qed.
Print Assumptions C69_outer_refuted.

(** Point to point: the two halves of the leg whose difference is the mismatch; its ends are drawn at their places exactly if the unit is the AU or the first coordinate is 0.  Missing: legs with an unsafe arc, and marks on legs without segments in one half (C53). *)
Theorem C69_p2p_partial : forall newton, newton_ok newton -> forall P mf th tof y units N sm sg st, p2p_ok P -> List.length th = (3 * p_nseg P)%nat -> 0 < mf -> 0 < tof -> units <> 0 -> (2 <= N)%Z ->
  let l := p2p_of P mf th tof in leg_mismatch (safe_arc l) l y -> (sm = true \/ st = true -> 0 < s_fwd l /\ 0 < s_bck l)%Z ->
  exists a b pf pb f g, p2p_plot newton P (mf :: th ++ [tof]) units N sm sg st = Ret ([Point a; Point b], (f, g)) /\ y = minus7 pf pb /\
    half_ok l units N sm sg st 1 (firstn (Z.to_nat (s_fwd l)) (throttles (p_nseg P) th)) (p_rvs P, p_ms P) pf f /\
    half_ok l units N sm sg st (-1) (rev (skipn (Z.to_nat (s_fwd l)) (throttles (p_nseg P) th))) (p_rvf P, mf) pb g /\
    (a = shown units (fst (p_rvs P)) <-> units = au \/ vx (fst (p_rvs P)) = 0) /\ (b = shown units (fst (p_rvf P)) <-> units = au \/ vx (fst (p_rvf P)) = 0).
Proof. exact p2p_picture. Qed.
Print Assumptions C69_p2p_partial.

(** Planet to planet: the same, with the excess velocities; the planets are drawn in AU whatever the unit.  Missing: as before, and planets without a known year. *)
Theorem C69_pl2pl_partial : forall newton, newton_ok newton -> forall P t0 mf us uf th tof s f Ts Tf y units N sm sg st, pl2pl_ok P -> List.length th = (3 * q_nseg P)%nat -> 0 < mf -> 0 < tof -> units <> 0 -> (2 <= N)%Z ->
  q_ephs P t0 = Ret (Some s) -> q_ephf P (t0 + tof) = Ret (Some f) -> known_for (q_ephs P) Ts -> known_for (q_ephf P) Tf ->
  let l := pl2pl_of P s f mf us uf th tof in leg_mismatch (safe_arc l) l y -> (sm = true \/ st = true -> 0 < s_fwd l /\ 0 < s_bck l)%Z ->
  exists a b c d cs cf pf pb h g, pl2pl_plot newton P (Ret Ts) (Ret Tf) ([t0; mf; vx us; vy us; vz us; vx uf; vy uf; vz uf] ++ th ++ [tof]) units N sm sg st = Ret ([Point a; Point b; Point c; Path cs; Point d; Path cf], (h, g)) /\ y = minus7 pf pb /\
    half_ok l units N sm sg st 1 (firstn (Z.to_nat (s_fwd l)) (throttles (q_nseg P) th)) ((fst s, vadd (snd s) us), q_ms P) pf h /\
    half_ok l units N sm sg st (-1) (rev (skipn (Z.to_nat (s_fwd l)) (throttles (q_nseg P) th))) ((fst f, vadd (snd f) uf), mf) pb g /\
    (a = shown units (fst s) <-> units = au \/ vx (fst s) = 0) /\ (b = shown units (fst f) <-> units = au \/ vx (fst f) = 0) /\
    (c = shown units (fst s) <-> units = au \/ fst s = vzero) /\ (d = shown units (fst f) <-> units = au \/ fst f = vzero) /\
    orbit_curve (q_ephs P) Ts au 60 cs /\ orbit_curve (q_ephf P) Tf au 60 cf.
Proof. exact pl2pl_picture. Qed.
Print Assumptions C69_pl2pl_partial.

(** False: that the ends of the leg are drawn where the leg ends. *)
Theorem C69_units_refuted : forall newton, newton_ok newton -> exists X a rest d, p2p_ok (wit_p2p X) /\ p2p_plot newton (wit_p2p X) [exp (- (1 / 10)); -1; 0; 0; PI / 86400] 1 10 false false false = Ret (Point a :: rest, d) /\ a <> shown 1 (fst (p_rvs (wit_p2p X))).
Proof. exact p2p_units_witness. Qed.
Print Assumptions C69_units_refuted.

(** False: that the planets are drawn where the leg begins. *)
Theorem C69_planet_units_refuted : forall newton, newton_ok newton -> exists P Ts Tf z a b c rest d, pl2pl_ok P /\ pl2pl_plot newton P (Ret Ts) (Ret Tf) z 1 10 false false false = Ret (Point a :: Point b :: Point c :: rest, d) /\
  q_ephs P 0 = Ret (Some (V 1 0 0, V 0 1 0)) /\ nth 0 z 1 = 0 /\ a <> V 1 0 0 /\ c <> V 1 0 0.
Proof. exact pl2pl_units_witness. Qed.
Print Assumptions C69_planet_units_refuted.

(** Three fixed planets, the last leg asked for, five points per orbit. *)
Example C69_ex : exists pic pl vo vi, mga_plot (fun _ => Ret 1) ex_P ex_x 25 5 [-1]%Z = Ret pic /\ List.length pic = 8%nat /\ pl 0%nat = ex_pl 0 /\ tour (fun _ _ => 0) ex_P 0 [leg_time / 86400; leg_time / 86400] pl vo vi /\
  tour_picture ex_P (fun _ => 1) pl vo vi 25 5 60 [1%nat] pic.
Proof. exact ex_picture. Qed.
