(** * Property theorems: the points drawn by pykep.plot (C53) and the drawn legs (C54).  Only statements. *)
From Coq Require Import Reals ZArith List.
From Verif Require Import Outcome Vec3 KepSpec TwoBodyModel TwoBodySpec LambertModel LambertReal LambertVec PlotModel PlotSpec PlotProofs PlotLambert.
From Verif Require Import TcModel SfModel SfSpec SfMain PlotLegModel PlotLegSpec PlotLegProofs.
From Verif Require Float64 LegModel HfModel HfSpec HistModel HistSpec HfHistProofs LegPropProofs PlotHistProofs.
Import ListNotations.
Open Scope R_scope.

(** ** C53: propagation by an angle *)
(** the returned state is that of the two-body motion when the position has turned by theta, forward in time for theta >= 0,
    whenever the conic has points in all directions in between *)
Theorem C53_theta : forall mu s theta, regular mu s -> (forall u, between 0 theta u -> reached mu s u) ->
  exists s' t, theta_row mu s theta = Some s' /\ sweeps mu s theta t s' /\ flow_at mu s t s' /\ (0 <= theta -> 0 <= t) /\ (theta <= 0 -> t <= 0).
Proof. exact theta_ok. Qed.
Print Assumptions C53_theta.
(** on an ellipse: for every angle *)
Theorem C53_theta_elliptic : forall mu s theta, elliptic mu s ->
  exists s' t, theta_row mu s theta = Some s' /\ sweeps mu s theta t s' /\ flow_at mu s t s' /\ (0 <= theta -> 0 <= t) /\ (theta <= 0 -> t <= 0).
Proof. exact theta_elliptic. Qed.
Print Assumptions C53_theta_elliptic.
(** every state of the motion is reached, with the angle its position has turned by *)
Theorem C53_theta_complete : forall mu s t s', regular mu s -> flow_at mu s t s' -> exists theta, theta_row mu s theta = Some s' /\ sweeps mu s theta t s' /\ forall u, between 0 theta u -> reached mu s u.
Proof. exact theta_complete. Qed.
Print Assumptions C53_theta_complete.
Theorem C53_table : forall mu s thetas, (forall th, In th thetas -> regular mu s /\ forall u, between 0 th u -> reached mu s u) ->
  exists rows, theta_v s thetas mu false = Ret (Some rows) /\ Forall2 (fun th s' => exists t, sweeps mu s th t s') thetas rows.
Proof. exact theta_table. Qed.
Print Assumptions C53_table.
Theorem C53_stm : forall rv thetas mu, theta_v rv thetas mu true = Throw NotImplemented.
Proof. exact (fun _ _ _ => eq_refl). Qed.
Print Assumptions C53_stm.
(** in the direction of an asymptote: not a number *)
Theorem C53_asymptote : forall mu s u, regular mu s -> 1 + dot (ecc_vec mu s) (dir s u) = 0 -> theta_row mu s u = None.
Proof. exact theta_none. Qed.
Print Assumptions C53_asymptote.
(** past an asymptote the function still returns a state, which is nowhere on the orbit *)
Theorem C53_beyond : forall mu s u, regular mu s -> 1 + dot (ecc_vec mu s) (dir s u) < 0 -> exists s', theta_row mu s u = Some s' /\ forall t, ~ flow_at mu s t s'.
Proof. exact theta_beyond. Qed.
Print Assumptions C53_beyond.
(** Full statement: every returned state is on the orbit.  Refuted. *)
Theorem C53_beyond_refuted : exists mu s u s', hyperbolic mu s /\ theta_row mu s u = Some s' /\ forall t, ~ flow_at mu s t s'.
Proof. exact beyond_witness. Qed.
Print Assumptions C53_beyond_refuted.
Example C53_quarter : theta_v (V 1 0 0, V 0 1 0) [0; PI / 2] 1 false = Ret (Some [(V 1 0 0, V 0 1 0); (V 0 1 0, V (-1) 0 0)]).
Proof. exact quarter_row. Qed.

(** ** C53: a Lambert arc *)
(** Full statement: the first and the last point drawn for solution 0 are the two positions of the problem and the others are on the
    transfer in between.  Missing: transfers with h_z < 0, for which it is refuted below. *)
Theorem C53_lambert_partial : forall l N units v0 v1 t, (2 <= N)%Z -> units <> 0 -> (0 <= lp_nmax l)%Z -> nth_error (lp_v0 l) 0 = Some v0 ->
  let mu := lp_mu l in let s := (lp_r0 l, v0) in
  0 < mu -> flow_at mu s t (lp_r1 l, v1) -> 0 < t -> 0 < vz (ang_mom s) -> (energy mu s < 0 -> t < period mu s) ->
  exists pts theta, add_lambert l N 0 units = Ret (Some pts) /\ length pts = Z.to_nat N /\ 0 < theta < 2 * PI /\ sweeps mu s theta t (lp_r1 l, v1) /\
    nth_error pts 0 = Some (vscal (/ units) (lp_r0 l)) /\ nth_error pts (Z.to_nat N - 1) = Some (vscal (/ units) (lp_r1 l)) /\
    forall i, (i < Z.to_nat N)%nat -> exists ti si, 0 <= ti <= t /\ sweeps mu s (INR i * theta / IZR (N - 1)) ti si /\ nth_error pts i = Some (vscal (/ units) (fst si)).
Proof. exact plot_lambert. Qed.
Print Assumptions C53_lambert_partial.
(** the same on what the constructor of lambert_problem returned *)
Theorem C53_lambert_problem : forall r0 r1 tof mu mr L x l N units, vz (cross r0 r1) <> 0 -> lambert_r r0 r1 tof mu false mr = Ret L -> nth_error (l_x L) 0 = Some (Some x) -> -1 < x ->
  lp_r0 l = r0 -> lp_r1 l = r1 -> lp_mu l = mu -> (0 <= lp_nmax l)%Z -> map sv (lp_v0 l) = l_v0 L -> (2 <= N)%Z -> units <> 0 ->
  exists pts theta v0 v1 t, add_lambert l N 0 units = Ret (Some pts) /\ length pts = Z.to_nat N /\ nth_error (lp_v0 l) 0 = Some v0 /\ nth_error (l_v1 L) 0 = Some (sv v1) /\
    0 < t /\ 0 < theta < 2 * PI /\ sweeps mu (r0, v0) theta t (r1, v1) /\
    nth_error pts 0 = Some (vscal (/ units) r0) /\ nth_error pts (Z.to_nat N - 1) = Some (vscal (/ units) r1) /\
    forall i, (i < Z.to_nat N)%nat -> exists ti si, 0 <= ti <= t /\ sweeps mu (r0, v0) (INR i * theta / IZR (N - 1)) ti si /\ nth_error pts i = Some (vscal (/ units) (fst si)).
Proof. exact plot_solved. Qed.
Print Assumptions C53_lambert_problem.
(** another solution: the whole ellipse of the transfer *)
Theorem C53_lambert_orbit : forall l N sol units v0, (2 <= N)%Z -> units <> 0 -> sol <> 0%Z -> (sol <= 2 * lp_nmax l)%Z -> py_nth (lp_v0 l) sol = Ret v0 ->
  let mu := lp_mu l in let s := (lp_r0 l, v0) in elliptic mu s ->
  exists pts, add_lambert l N sol units = Ret (Some pts) /\ length pts = Z.to_nat N /\
    nth_error pts 0 = Some (vscal (/ units) (lp_r0 l)) /\ nth_error pts (Z.to_nat N - 1) = Some (vscal (/ units) (lp_r0 l)) /\
    forall i, (i < Z.to_nat N)%nat -> exists ti si, sweeps mu s (INR i * (2 * PI) / IZR (N - 1)) ti si /\ nth_error pts i = Some (vscal (/ units) (fst si)).
Proof. exact plot_lambert_orbit. Qed.
Print Assumptions C53_lambert_orbit.
(** clockwise transfers: the drawn arc never ends at the second position *)
Theorem C53_clockwise : forall l N units v0 v1 t, (2 <= N)%Z -> units <> 0 -> (0 <= lp_nmax l)%Z -> nth_error (lp_v0 l) 0 = Some v0 ->
  let mu := lp_mu l in let s := (lp_r0 l, v0) in
  flow_at mu s t (lp_r1 l, v1) -> 0 < t < period mu s -> elliptic mu s -> vz (ang_mom s) < 0 -> vz (cross (lp_r0 l) (lp_r1 l)) <> 0 ->
  exists pts p, add_lambert l N 0 units = Ret (Some pts) /\ nth_error pts (Z.to_nat N - 1) = Some p /\ p <> vscal (/ units) (lp_r1 l).
Proof. exact plot_clockwise. Qed.
Print Assumptions C53_clockwise.
Theorem C53_clockwise_refuted : exists l v0 v1 t pts p, nth_error (lp_v0 l) 0 = Some v0 /\ 0 < t < period (lp_mu l) (lp_r0 l, v0) /\ flow_at (lp_mu l) (lp_r0 l, v0) t (lp_r1 l, v1) /\
  add_lambert l 60 0 1 = Ret (Some pts) /\ nth_error pts 59 = Some p /\ p <> lp_r1 l.
Proof. exact clockwise_witness. Qed.
Print Assumptions C53_clockwise_refuted.
Theorem C53_sol_check : forall l N sol units, (2 * lp_nmax l < sol)%Z -> add_lambert l N sol units = Throw InvalidArgument.
Proof. exact sol_check. Qed.
Print Assumptions C53_sol_check.

(** ** C53: ballistic arcs and orbits of planets *)
(** N points at equal time intervals, the first at the start and the last after tof *)
Theorem C53_ballistic : forall newton mu units rv tof N, newton_ok newton -> units <> 0 -> elliptic mu rv -> (2 <= N)%Z ->
  exists pts, add_ballistic_arc newton rv tof mu units N = Ret pts /\ length pts = Z.to_nat N /\
    forall i, (i < Z.to_nat N)%nat -> exists si, flow_at mu rv (INR i * tof / IZR (N - 1)) si /\ nth_error pts i = Some (vscal (/ units) (fst si)).
Proof. exact ballistic_ok. Qed.
Print Assumptions C53_ballistic.
(** whatever the orbit: when points are drawn, they are these *)
Theorem C53_ballistic_sound : forall newton mu units rv tof N pts, newton_sound newton -> units <> 0 -> regular mu rv -> energy mu rv <> 0 -> add_ballistic_arc newton rv tof mu units N = Ret pts ->
  N <> 1%Z /\ length pts = Z.to_nat N /\ forall i, (i < Z.to_nat N)%nat -> exists si, flow_at mu rv (INR i * tof / IZR (N - 1)) si /\ nth_error pts i = Some (vscal (/ units) (fst si)).
Proof. exact ballistic_sound. Qed.
Print Assumptions C53_ballistic_sound.
(** a single point is refused (division by zero) *)
Theorem C53_ballistic_one : forall newton rv tof mu units, add_ballistic_arc newton rv tof mu units 1 = Throw DomainError.
Proof. exact (fun _ _ _ _ _ => eq_refl). Qed.
Print Assumptions C53_ballistic_one.
Theorem C53_planet_range : forall p a b units N, rows_ok p -> units <> 0 -> (2 <= N)%Z ->
  exists pts, add_planet_orbit p (Some (a, b)) units N = Ret (Some pts) /\ length pts = Z.to_nat N /\
    forall i, (i < Z.to_nat N)%nat -> exists s, pp_eph p (a + INR i * (b - a) / IZR (N - 1)) = Ret s /\ nth_error pts i = Some (vscal (/ units) (fst s)).
Proof. exact planet_orbit_range. Qed.
Print Assumptions C53_planet_range.
(** without a range: one period, the curve closes *)
Theorem C53_planet_closed : forall p mu s0 units N, rows_ok p -> units <> 0 -> (2 <= N)%Z -> elliptic mu s0 -> pp_period p = Ret (period mu s0) ->
  (forall t, exists s, pp_eph p t = Ret s /\ flow_at mu s0 (t * 86400) s) ->
  exists pts, add_planet_orbit p None units N = Ret (Some pts) /\ length pts = Z.to_nat N /\
    (forall i, (i < Z.to_nat N)%nat -> exists si, flow_at mu s0 (INR i * period mu s0 / IZR (N - 1)) si /\ nth_error pts i = Some (vscal (/ units) (fst si))) /\
    nth_error pts 0 = Some (vscal (/ units) (fst s0)) /\ nth_error pts (Z.to_nat N - 1) = Some (vscal (/ units) (fst s0)).
Proof. exact planet_orbit_closed. Qed.
Print Assumptions C53_planet_closed.

(** ** C54: Sims-Flanagan legs *)
(** the drawn arcs are those of the trajectory of C28, the marks are at the ends and at the middles of the segments, the arrows at
    the middles carry the throttles of their segments.  Full statement: also with an empty pass, refuted below. *)
Theorem C54_leg_partial : forall newton l pf pb units N sm sg st, newton_ok newton -> proper l -> units <> 0 -> (2 <= N)%Z ->
  forward_end (good_arc (s_mu l) (leg_dt l)) l pf -> backward_end (good_arc (s_mu l) (leg_dt l)) l pb ->
  (sm = true \/ st = true -> 0 < s_fwd l /\ 0 < s_bck l)%Z ->
  exists f b, add_sf_leg newton l units N sm sg st = Ret (f, b) /\
    half_ok l units N sm sg st 1 (firstn (Z.to_nat (s_fwd l)) (throttles (Z.to_nat (s_nseg l)) (s_thr l))) (s_rvs l, s_ms l) pf f /\
    half_ok l units N sm sg st (-1) (rev (skipn (Z.to_nat (s_fwd l)) (throttles (Z.to_nat (s_nseg l)) (s_thr l)))) (s_rvf l, s_mf l) pb b.
Proof. exact sf_leg_drawn. Qed.
Print Assumptions C54_leg_partial.
(** the last mark of a pass is at its side of the mismatch; two arcs, a mark and a middle per segment *)
Theorem C54_ends : forall mu c veff dt units N sign us, forall p q arcs grid mid, drawn mu c veff dt units N sign us p q arcs grid mid ->
  last (fst (fst p) :: grid) vzero = fst (fst q) /\ length arcs = (2 * length us)%nat /\ length grid = length us /\ length mid = length us.
Proof. exact drawn_last. Qed.
Print Assumptions C54_ends.
(** without a forward segment the middles cannot be asked for *)
Theorem C54_empty_pass : forall newton l units N sg st, s_fwd l = 0%Z -> add_sf_leg newton l units N true sg st = Throw OutOfRange.
Proof. exact sf_leg_empty. Qed.
Print Assumptions C54_empty_pass.
Theorem C54_empty_pass_refuted : exists l, proper l /\ forall newton units N sg st, add_sf_leg newton l units N true sg st = Throw OutOfRange.
Proof. exact empty_witness. Qed.
Print Assumptions C54_empty_pass_refuted.
Example C54_quarter : forall newton, newton_ok newton ->
  exists f b, add_sf_leg newton (mk_sf (V 1 0 0, V 0 1 0) 10 [0; 0; 0; 0; 0; 0; 0; 0; 0] (V 0 1 0, V (-1) 0 0) 10 (PI / 2) 1 1 1 3 1 2) 1 5 true true true = Ret (f, b) /\
    length (fst f) = 2%nat /\ length (fst b) = 4%nat.
Proof. exact quarter_drawn. Qed.

(** ** C54: high-fidelity legs.  The numbers are of any type. *)
(** the lines go through the states of the segments, from either end to the cut.  The arrows of forward segment i carry its throttle,
    those at the states of segment nseg - 1 - i the throttle of segment nfwd + i.  Full statement: every arrow carries the throttle of its
    segment; it holds exactly under the condition of the next theorem. *)
Theorem C54_hf_lines_partial : forall (F : Type) (fdiv fadd fmul : F -> F -> F) raw thr nseg nfwd N units len show, records_ok F raw nseg N -> (nfwd <= nseg)%nat -> length thr = (3 * nseg)%nat ->
  exists f b, add_sf_hf_leg F fdiv fadd fmul raw thr nseg nfwd N units len show = Ret (f, b) /\
    fst f = concat (map (seg_pos F fdiv raw N units) (seq 0 nfwd)) /\
    fst b = concat (map (fun i => seg_pos F fdiv raw N units (nseg - 1 - i)) (seq 0 (nseg - nfwd))) /\
    length (snd f) = (if show then nfwd else 0%nat) /\ length (snd b) = (if show then nseg - nfwd else 0)%nat /\
    (forall i a, nth_error (snd f) i = Some a -> arrows_at F fdiv fadd fmul raw thr N units len i i a) /\
    (forall i a, nth_error (snd b) i = Some a -> arrows_at F fdiv fadd fmul raw thr N units len (nseg - 1 - i) (nfwd + i) a).
Proof. exact hf_drawn. Qed.
Print Assumptions C54_hf_lines_partial.
Theorem C54_hf_arrows : forall (F : Type) (fdiv fadd fmul : F -> F -> F) raw thr nseg nfwd N units len, records_ok F raw nseg N -> (nfwd <= nseg)%nat -> length thr = (3 * nseg)%nat -> (0 < N)%nat ->
  exists f b, add_sf_hf_leg F fdiv fadd fmul raw thr nseg nfwd N units len true = Ret (f, b) /\
    ((forall i a, nth_error (snd b) i = Some a -> q_at F a = seg_pos F fdiv raw N units (nseg - 1 - i) /\ q_thr F a = repeat (triple F thr (nseg - 1 - i)) N)
     <-> forall k, (nfwd <= k < nseg)%nat -> triple F thr k = triple F thr (nseg - 1 - (k - nfwd))).
Proof. exact hf_arrows_iff. Qed.
Print Assumptions C54_hf_arrows.
Theorem C54_hf_arrows_refuted : exists raw thr f b a, add_sf_hf_leg nat Nat.div Nat.add Nat.mul raw thr 2%nat 0%nat 1%nat 1%nat 1%nat true = Ret (f, b) /\ records_ok nat raw 2%nat 1%nat /\ length thr = 6%nat /\
  nth_error (snd b) 0 = Some a /\ q_at nat a = seg_pos nat Nat.div raw 1%nat 1%nat 1%nat /\ q_thr nat a <> [triple nat thr 1%nat].
Proof. exact hf_arrows_witness. Qed.
Print Assumptions C54_hf_arrows_refuted.

Import Float64 LegModel HfModel HfSpec HistModel HistSpec HfHistProofs LegPropProofs PlotHistProofs.
Open Scope Z_scope.
(** on the history of any leg that was constructed and modified *)
Theorem C54_hf_reachable : forall ig integ var_ic rvms th rvmf tof T isp mu cut tol l es l' g units len show, grid_dim ig -> integ_dim integ ->
  length rvms = 7%nat -> length rvmf = 7%nat -> short th ->
  hf_ctor var_ic rvms th rvmf tof T isp mu cut tol = Ret l ->
  Forall (ev_ok hop_ok) es -> sets_return integ es l -> hf_run integ es l = Ret l' ->
  2 <= hf_n l' -> 2 <= g -> g * hf_n l' < 2 ^ 32 ->
  let n := Z.to_nat (hf_n l') in let nf := Z.to_nat (hf_nf l') in let N := Z.to_nat g in
  match snd (get_state_history ig g l') with
  | Ret h => records_ok double h n N /\ exists f b, add_sf_hf_leg double ddiv dadd dmul h (hf_thr l') n nf N units len show = Ret (f, b) /\
      fst f = concat (map (seg_pos double ddiv h N units) (seq 0 nf)) /\
      fst b = concat (map (fun i => seg_pos double ddiv h N units (n - 1 - i)%nat) (seq 0 (n - nf))) /\
      (forall i a, nth_error (snd f) i = Some a -> arrows_at double ddiv dadd dmul h (hf_thr l') N units len i i a) /\
      (forall i a, nth_error (snd b) i = Some a -> arrows_at double ddiv dadd dmul h (hf_thr l') N units len (n - 1 - i)%nat (nf + i)%nat a)
  | Throw e => e = DomainError
  | UB => False
  end.
Proof. exact hf_plot_reachable. Qed.
Print Assumptions C54_hf_reachable.
