{
 "claims": [
  {
   "property": "C01",
   "status": "proved",
   "theorems": [
    "C01_calendar_constructor",
    "C01_calendar_is_gregorian",
    "C01_no_overflow"
   ],
   "note": "All in-range calendar dates and all 32-bit clock fields: the constructor returns exactly the proleptic Gregorian instant, without overflow."
  },
  {
   "property": "C02",
   "status": "partial",
   "theorems": [
    "C02_rejects_partial",
    "C02_accepted_set",
    "C02_rejects_refuted"
   ],
   "note": "Full statement refuted (C02_rejects_refuted: month 257 is accepted because std::chrono narrows before ok()). Proved: rejection for arguments that survive narrowing, and the exact accepted set."
  },
  {
   "property": "C03",
   "status": "partial",
   "theorems": [
    "C03_arithmetic",
    "C03_overflow_exactly_ub",
    "C03_total_order",
    "C03_order_consistent_with_difference",
    "C03_duration_reference_refuted"
   ],
   "note": "Order and arithmetic laws and the exact overflow boundary are proved; the clause on the documented reference point of a chrono duration is refuted (C03_duration_reference_refuted)."
  },
  {
   "property": "C04",
   "status": "proved",
   "theorems": [
    "C04_accessors",
    "C04_accessors_monotone",
    "C04_constructor_monotone",
    "C04_constructor_value",
    "C04_nonfinite_is_ub"
   ],
   "note": "Bit-exact IEEE model of mjd2000/mjd/jd and the Julian constructors."
  },
  {
   "property": "C05",
   "status": "proved",
   "theorems": [
    "C05_round_trip_towards_reference",
    "C05_round_trip_one_microsecond",
    "C05_exact_round_trip_refuted"
   ],
   "note": "Within 2^53 us the round trip is off by at most 1 us; within 2^52 us only towards 2000-01-01. Exactness itself is refuted by a witness."
  },
  {
   "property": "C06",
   "status": "proved",
   "theorems": [
    "C06_printed_epochs_parse_back",
    "C06_covers_all_instants"
   ],
   "note": "Years 0..9999 (outside, the printed year is not four digits)."
  },
  {
   "property": "C07",
   "status": "partial",
   "theorems": [
    "C07_iso_strings",
    "C07_bad_length_throws",
    "C07_never_ub",
    "C07_strict_refuted",
    "C07_accepted",
    "C07_field"
   ],
   "note": "Every ISO string of an allowed length parses to its instant, other lengths throw, no input is UB; C07_accepted characterises exactly the accepted strings; \"accepts only ISO strings\" is refuted by witnesses."
  },
  {
   "property": "C08",
   "status": "partial",
   "theorems": [
    "C08_ellipse",
    "C08_ellipse_back",
    "C08_gudermannian",
    "C08_gudermannian_back",
    "C08_gudermannian_is_hyperbolic",
    "C08_hyperbola",
    "C08_hyperbola_back",
    "C08_m2e",
    "C08_m2e_back",
    "C08_m2e_increasing",
    "C08_m2e_odd",
    "C08_m2f",
    "C08_m2f_back",
    "C08_ellipse_monotone",
    "C08_hyperbola_monotone",
    "C08_wrong_regime",
    "C08_n2h_partial",
    "C08_n2h_refuted"
   ],
   "note": "Over real numbers, with the Newton solver assumed to return an exact root when its bracket has a sign change. All elliptic, hyperbolic and gudermannian conversions proved; n2h/n2f proved for |N| <= 1e17 and refuted beyond its fixed bracket (C08_n2h_refuted)."
  },
  {
   "property": "C09",
   "status": "proved",
   "theorems": [
    "C09_bracket"
   ],
   "note": "Over real numbers, all mean anomalies and all eccentricities in [0,1)."
  },
  {
   "property": "C10",
   "status": "partial",
   "theorems": [
    "C10_elliptic",
    "C10_hyperbolic_partial",
    "C10_hyperbolic_refuted",
    "C10_universal_partial",
    "C10_universal_refuted",
    "C10_n2h_partial",
    "C10_n2h_refuted"
   ],
   "note": "Over real numbers. Elliptic bracket proved for all states and times. The hyperbolic bracket is proved while mean motion times |tof| is at most 1e9 and refuted for later times; the universal-variable bracket has a fixed width of 4 pi and is refuted on an ordinary ellipse, proved when sqrt(a)*e < pi or when the arc is short; n2h proved for |N| <= 1e17 and refuted beyond."
  },
  {
   "property": "C11",
   "status": "partial",
   "theorems": [
    "C11_kepE",
    "C11_kepH",
    "C11_kepDE",
    "C11_kepDH",
    "C11_kepDS",
    "C11_dd_kepDS_refuted",
    "C11_stumpff_c",
    "C11_stumpff_s"
   ],
   "note": "All first derivatives, and all second derivatives except dd_kepDS, which is refuted. Stumpff functions equal their power series on the whole real line."
  },
  {
   "property": "C12",
   "status": "partial",
   "theorems": [
    "C12_lagrangian",
    "C12_regular",
    "C12_universal_partial",
    "C12_universal_refuted"
   ],
   "note": "Energy, angular momentum and eccentricity vector, for whatever the solver returns, including rectilinear orbits that do not end in the centre. For propagate_lagrangian_u the claim is refuted when the solver returns a non-root and proved when it returns a root."
  },
  {
   "property": "C13",
   "status": "partial",
   "theorems": [
    "C13_elliptic",
    "C13_hyperbolic_partial",
    "C13_sound",
    "C13_universal_sound",
    "C13_flow_unique"
   ],
   "note": "Flow = value of the unique solution of the two-body ODE (existence and uniqueness proved). Ellipses: all states, all times. Hyperbolas: proved while mean motion times |tof| is at most 1e9 (beyond, the bracket eventually misses the root), and for every time when the solver returns a root."
  },
  {
   "property": "C14",
   "status": "partial",
   "theorems": [
    "C14_zero",
    "C14_compose",
    "C14_back",
    "C14_period",
    "C14_compose_hyperbolic_partial",
    "C14_vectorised",
    "C14_vectorised_throw"
   ],
   "note": "Ellipses: identity, composition, inverse, period proved for all times. Hyperbolas under the same bound as C13. propagate_lagrangian_v proved element by element, with the first exception."
  },
  {
   "property": "C15",
   "status": "partial",
   "theorems": [
    "C15_agree",
    "C15_elliptic_partial",
    "C15_hyperbolic_partial",
    "C15_refuted"
   ],
   "note": "Agreement proved whenever both solvers return roots, all times of both signs. Total agreement needs the size conditions of C10; refuted without them."
  },
  {
   "property": "C16",
   "status": "partial",
   "theorems": [
    "C16_elliptic",
    "C16_hyperbolic_partial",
    "C16_agree",
    "C16_flow",
    "C16_hyperbolic_refuted"
   ],
   "note": "Over real numbers with NaN and infinity as None. Ellipses: proved for all non-singular states and all times. Hyperbolas: equality whenever both return (any solver that returns roots); totality under bounds on time and initial mean anomaly. Refuted part: for a far hyperbolic point propagate_keplerian returns where propagate_lagrangian throws."
  },
  {
   "property": "C17",
   "status": "partial",
   "theorems": [
    "C17_elliptic",
    "C17_hyperbolic_partial",
    "C17_returned",
    "C17_identity",
    "C17_chain"
   ],
   "note": "Over real numbers. The returned 36 entries are the derivative of the two-body flow (differentiation along every curve of initial states). Ellipses: all states, all times. Hyperbolas: whenever a state is returned by a solver that returns roots; totality under the bound of C13. Identity at time 0 and the chain rule proved."
  },
  {
   "property": "C18",
   "status": "partial",
   "theorems": [
    "C18_columns",
    "C18_elliptic",
    "C18_hyperbolic_partial",
    "C18_returned",
    "C18_stm",
    "C18_identity",
    "C18_agrees_with_lagrangian",
    "C18_parabola_throws",
    "C18_refuted"
   ],
   "note": "Over real numbers, with the matrix inversion of the linear algebra library as an oracle (inv_ok). Columns of Y solve the variational equations on every arc; the matrix is the flow derivative for every non-parabolic orbit and equals the one of stm_lagrangian entry by entry. Refuted on parabolas, where Y(0) is singular and the code throws (C18_refuted, C18_parabola_throws)."
  },
  {
   "property": "C19",
   "status": "partial",
   "theorems": [
    "C19_ic2par",
    "C19_par2ic",
    "C19_state_round_trip",
    "C19_elements_round_trip",
    "C19_domain",
    "C19_ranges",
    "C19_throws",
    "C19_negative_eccentricity_refuted",
    "C19_parabola_refuted"
   ],
   "note": "Over real numbers with NaN and infinity as None. Both round trips, the geometric meaning of the elements (independent definition by elementary rotations), the exact domain of ic2par and the ranges proved; the exact set of rejected elements proved. Refuted part: a negative eccentricity is accepted, and eccentricity 1 gives NaN without an exception."
  },
  {
   "property": "C20",
   "status": "partial",
   "theorems": [
    "C20_ic2eq",
    "C20_eq2ic",
    "C20_state_round_trip",
    "C20_elements_round_trip",
    "C20_par2eq",
    "C20_par_round_trip",
    "C20_par_round_trip_turns",
    "C20_par_round_trip_refuted",
    "C20_eq_round_trip",
    "C20_eq2par"
   ],
   "note": "Over real numbers. All round trips and the commutation with the classical elements proved for both forms. Refuted part: eq2par(par2eq(el)) in the retrograde form returns 2 pi instead of 0 for the argument of pericentre when it is 0 and the node is not (equal up to full turns: C20_par_round_trip_turns)."
  },
  {
   "property": "C21",
   "status": "proved",
   "theorems": [
    "C21_vout",
    "C21_vout_undefined",
    "C21_vout_con",
    "C21_dv_zero",
    "C21_dv_least",
    "C21_double_con_refuted",
    "C21_double_same",
    "C21_double_dv",
    "C21_double_free",
    "C21_double_turn"
   ],
   "note": "Over real numbers with NaN and infinity as None. fb_vout is undefined exactly when the relative velocity is zero or parallel to the planet velocity. Proved further: fb_dv is the least burn over all reachable unpowered outgoing velocities. In doubles: fb_con can be NaN for velocities that satisfy both constraints (refuted, with witness), never for an unchanged velocity; fb_dv is unaffected."
  },
  {
   "property": "C22",
   "status": "partial",
   "theorems": [
    "C22_shape",
    "C22_no_bad_index",
    "C22_halley",
    "C22_householder",
    "C22_entries",
    "C22_real",
    "C22_real_arithmetic",
    "C22_wrap_refuted"
   ],
   "note": "Shape, bounds on every index and iteration count, for every arithmetic (the floating point operations and the math library are parameters). The only undefined behaviour left is the conversion of T/pi to unsigned, characterised exactly over the reals. C22_wrap_refuted: Nmax + 1 wraps when multi_revs = 2^32 - 1 and that many revolutions are feasible."
  },
  {
   "property": "C23",
   "status": "proved",
   "theorems": [
    "C23_conic"
   ],
   "note": "Over the real numbers, for every finite x of the result, converged or not; direction of motion included."
  },
  {
   "property": "C24",
   "status": "proved",
   "theorems": [
    "C24_flow",
    "C24_solves",
    "C24_time",
    "C24_derivatives",
    "C24_turns",
    "C24_unique",
    "C24_branches",
    "C24_revolutions",
    "C24_no_more_revolutions",
    "C24_fixed_point",
    "C24_minimum_energy"
   ],
   "note": "Over the real numbers. The flow from (r0, v0) reaches (r1, v1) after tau(x) time units, and the code's x2tof is tau up to 3e-12, so a solution of the code's own equation is a transfer in time tof. Existence, uniqueness and number of solutions proved; convergence of the Householder iteration is proved near a solution (C62), not from every initial guess."
  },
  {
   "property": "C25",
   "status": "partial",
   "theorems": [
    "C25_rejects",
    "C25_throws",
    "C25_collinear",
    "C25_total",
    "C25_collinear_refuted",
    "C25_parabola",
    "C25_parabola_refuted"
   ],
   "note": "The rejected inputs are characterised exactly. The claim that nothing else returns NaN is false: C25_collinear_refuted, C25_parabola_refuted. C25_total: with positive time of flight and mu the constructor either throws for a vertical plane or returns."
  },
  {
   "property": "C26",
   "status": "partial",
   "theorems": [
    "C26_split",
    "C26_monotone_in_cut",
    "C26_ends",
    "C26_no_ub_refuted"
   ],
   "note": "Split proved for all nseg < 2^32 and all cuts in [0,1] (bit-exact); the clause that no out-of-range conversion is ever executed is refuted: the constructor converts before checking the cut."
  },
  {
   "property": "C27",
   "status": "partial",
   "theorems": [
    "C27_reachable_valid_partial",
    "C27_default_valid",
    "C27_throw_leaves_unchanged",
    "C27_setters_store",
    "C27_setters_refuse",
    "C27_set_refuted",
    "C27_nan_refuted"
   ],
   "note": "Invariant over all histories of the individual setters. Refuted for the set member function (validates the old members) and for NaN arguments. Throwing calls leave the leg unchanged: proved for every operation."
  },
  {
   "property": "C28",
   "status": "partial",
   "theorems": [
    "C28_mismatch",
    "C28_mismatch_sound",
    "C28_masses",
    "C28_cut_refuted",
    "C28_cut_dependence",
    "C28_durations",
    "C28_cut_independence_partial"
   ],
   "note": "Over the real numbers, any number of segments and any cut. The mismatch is exactly forward end minus backward end of impulse-and-coast trajectories written with the two-body flow and the rocket equation. The claim of independence from the cut is false (C28_cut_refuted, C28_cut_dependence): forward impulses use the mass before them, backward ones the mass after them. It holds for coasting legs."
  },
  {
   "property": "C29",
   "status": "proved",
   "theorems": [
    "C29_constraints",
    "C29_jacobian"
   ],
   "note": "Over exact reals, any number of segments, array accesses checked. The double evaluation order is not part of the statement."
  },
  {
   "property": "C30",
   "status": "proved",
   "theorems": [
    "C30_jacobian",
    "C30_total",
    "C30_zero_throttle"
   ],
   "note": "Over the real numbers, any number of segments and any cut, non-zero throttles: along every differentiable curve of initial state and mass, throttles, final state and mass and time of flight the mismatch has the derivative given by the three arrays. Trajectories with a rectilinear or parabolic arc are excluded; a zero throttle is proved to give NaN."
  },
  {
   "property": "C31",
   "status": "partial",
   "theorems": [
    "C31_fresh_partial",
    "C31_constructor_parameters_used",
    "C31_setters_refuted",
    "C31_setters_store",
    "C31_setters_refuse"
   ],
   "note": "Refuted for set_mu, set_isp, set_max_thrust, set_tol and the full set; proved for the other setters, and proved that the constructor parameters are what the integration uses."
  },
  {
   "property": "C32",
   "status": "partial",
   "theorems": [
    "C32_index_safe",
    "C32_mismatch_safe",
    "C32_mismatch_flown",
    "C32_plain_refuted",
    "C32_unit_thrust_partial",
    "C32_scaled_partial",
    "C32_neighbours",
    "C32_coast_refuted",
    "C32_computed_partial"
   ],
   "note": "Real-number model, exact variational integrator as a hypothesis. For every number of segments and every split, no index leaves its array and the internal errors are unreachable; the neighbouring legs can be flown (proved by Picard iteration) and the returned matrices are the derivatives of their mismatch with respect to both end states and the time of flight, and to the throttles once multiplied by max_thrust, coasting segments included as long as they keep coasting (C32_neighbours). The plain statement is false when max_thrust is not 1 (C32_plain_refuted), and no matrix is the derivative when a coasting segment is made to thrust (C32_coast_refuted). Excluded: sizes with 3 nseg + 1 >= 2^32."
  },
  {
   "property": "C33",
   "status": "partial",
   "theorems": [
    "C33_epoch",
    "C33_keplerian",
    "C33_jpl_lp",
    "C33_lambert",
    "C33_stark",
    "C33_sims_flanagan",
    "C33_hf_partial",
    "C33_hf_refuted"
   ],
   "note": "Round trip into any target proved for epoch, keplerian, jpl_lp, lambert_problem, stark_problem and sims_flanagan. sims_flanagan_hf does not archive its variational integrator (C33_hf_refuted); its mismatch constraints are preserved (C33_hf_partial)."
  },
  {
   "property": "C34",
   "status": "partial",
   "theorems": [
    "C34_shape_partial",
    "C34_records_partial",
    "C34_time_grid",
    "C34_one_segment_refuted"
   ],
   "note": "Refuted for one segment (reads past the end of the time grid for every integrator); proved for at least two segments and at least two samples, after every history of setters in which no set threw."
  },
  {
   "property": "C35",
   "status": "proved",
   "theorems": [
    "C35_history",
    "C35_same_state"
   ],
   "note": "For every pair of integrator oracles that preserve the dimension of the state."
  },
  {
   "property": "C36",
   "status": "partial",
   "theorems": [
    "C36_no_race_partial",
    "C36_no_race_refuted",
    "C36_transparent",
    "C36_built_once",
    "C36_references_stay_valid",
    "C36_no_deadlock"
   ],
   "note": "Race freedom refuted: the size functions of the variational caches lock the mutex of the plain cache. Proved race-free without them; transparency, at-most-one build, reference stability and absence of deadlock proved for all interleavings of any number of threads."
  },
  {
   "property": "C37",
   "status": "partial",
   "theorems": [
    "C37_eph_v",
    "C37_eph_v_rows",
    "C37_eph_v_too_many",
    "C37_period",
    "C37_period_unbound",
    "C37_not_implemented",
    "C37_elements",
    "C37_mean_anomaly_refuted",
    "C37_defaults_and_epochs",
    "C37_period_accurate",
    "C37_period_escape",
    "C37_element_types"
   ],
   "note": "Forwarding, defaults, vectorised ephemerides and exceptions proved for every user class; the default period in doubles is that of Kepler's third law up to 50 k roundings, k bounding the cancellation in the energy (C37_period_accurate). The clause that elements come from the state is refuted for bound states with semi-major axis below 1 (C37_mean_anomaly_refuted)."
  },
  {
   "property": "C38",
   "status": "partial",
   "theorems": [
    "C38_reference",
    "C38_motion",
    "C38_hyperbolic_motion_partial",
    "C38_motion_sound",
    "C38_conserves",
    "C38_period",
    "C38_least_period",
    "C38_no_period",
    "C38_kep_f",
    "C38_kep_f_valid",
    "C38_kep_m",
    "C38_kep_m_hyperbola",
    "C38_equinoctial_partial",
    "C38_equinoctial_refuted",
    "C38_equinoctial_nan_refuted",
    "C38_rejects",
    "C38_rejects_refuted",
    "C38_elements_partial",
    "C38_elements_none_refuted",
    "C38_elements_date_refuted",
    "C38_posvel_mean_anomaly",
    "C38_posvel_elements_partial",
    "C38_posvel_refuted"
   ],
   "note": "Proved: reference state, motion = two-body flow (ellipses at every date, hyperbolas within the propagator's bracket), conserved integrals, Kepler period and its minimality, planets from classical/mean/equinoctial elements equal those from the state, exact rejection set. Refuted of the code: valid equinoctial hyperbolas rejected, circular equinoctial planets NaN, negative eccentricity accepted, elements() ignores the date and is NaN for circular/equatorial orbits, elements from state refuse mean anomaly when a < 1. Real-number model."
  },
  {
   "property": "C39",
   "status": "partial",
   "theorems": [
    "C39_eph_accurate",
    "C39_constants",
    "C39_names",
    "C39_elements",
    "C39_element_types",
    "C39_eph_finite_partial",
    "C39_outside",
    "C39_outside_refuted"
   ],
   "note": "Constructor names, element bounds over the whole window and exceptions outside proved bit-exactly. Finite state proved given that the Kepler solver returns a finite anomaly (C39_eph_finite_partial), and within 2^-46 of the radius and speed of the exact orbit when sin and cos are accurate (C39_eph_accurate). A NaN date passes the window test (C39_outside_refuted)."
  },
  {
   "property": "C40",
   "status": "proved",
   "theorems": [
    "C40_cr3bp_field",
    "C40_cr3bp_jacobi",
    "C40_stark_field",
    "C40_stark_ballistic",
    "C40_stark_power",
    "C40_stark_mass",
    "C40_stark_mass_flow",
    "C40_leg_field"
   ],
   "note": "Over real numbers, for all differentiable solutions. The field equality is for equal parameters; that the setters of the high-fidelity leg leave stale parameters in its integrator is C31_setters_refuted."
  },
  {
   "property": "C41",
   "status": "proved",
   "theorems": [
    "C41_layout",
    "C41_chromosome",
    "C41_set_stores",
    "C41_constructor_gives_valid"
   ],
   "note": "For every integrator oracle that preserves the state dimension."
  },
  {
   "property": "C42",
   "status": "proved",
   "theorems": [
    "C42_zero_mismatch",
    "C42_cut",
    "C42_flown_unique",
    "C42_concatenated_flows",
    "C42_repeatable"
   ],
   "note": "Concatenated segment flows and independence of the history for every integrator, in doubles. The vanishing of the mismatch does not depend on the cut: proved over the reals for exact integrators, any thrust including zero (C42_zero_mismatch: it vanishes exactly when one uninterrupted flight joins the ends)."
  },
  {
   "property": "C43",
   "status": "proved",
   "theorems": [
    "C43_constructible",
    "C43_rejected",
    "C43_own_function",
    "C43_compiled_once"
   ],
   "note": "For all construction histories, given that equal keys compile to equal functions."
  },
  {
   "property": "C44",
   "status": "proved",
   "theorems": [
    "C44_alpha",
    "C44_alpha_round_trip",
    "C44_eta",
    "C44_eta_round_trip",
    "C44_eta_round_trip_back",
    "C44_decode_agrees",
    "C44_alpha_not_unique_refuted"
   ],
   "note": "Over real numbers, any number of legs. Decoding from alpha is not injective, so only the direction stated in the property round-trips."
  },
  {
   "property": "C45",
   "status": "partial",
   "theorems": [
    "C45_safe_partial",
    "C45_set_throws_refuted"
   ],
   "note": "Refuted when a set call threw; proved for histories in which every set returned."
  },
  {
   "property": "C46",
   "status": "partial",
   "theorems": [
    "C46_fitness_sound_partial",
    "C46_fitness",
    "C46_fitness_unique",
    "C46_gradient",
    "C46_gradient_total",
    "C46_coast_gradient",
    "C46_shape",
    "C46_box",
    "C46_built"
   ],
   "note": "Over the real numbers, any number of segments. The fitness is written with exact two-body arcs and the rocket equation, the gradient along gradient_sparsity is its derivative along every differentiable curve of decision vectors. Excluded: rectilinear or parabolic arcs. A segment without thrust makes the gradient NaN (proved)."
  },
  {
   "property": "C47",
   "status": "partial",
   "theorems": [
    "C47_fitness_sound_partial",
    "C47_fitness",
    "C47_fitness_unique",
    "C47_gradient_keplerian",
    "C47_keplerian_planets",
    "C47_gradient_fixed_dates",
    "C47_gradient_refuted",
    "C47_gradient_total",
    "C47_coast_gradient",
    "C47_shape",
    "C47_box",
    "C47_built"
   ],
   "note": "As C46. The gradient is the Jacobian when both planets move on two-body orbits with the leg's mu (kep3's elliptic keplerian planets do, C47_keplerian_planets), and for every pair of planets in all columns but the two dates. For a planet that moves otherwise the date columns are wrong: C47_gradient_refuted."
  },
  {
   "property": "C48",
   "status": "partial",
   "theorems": [
    "C48_fitness_partial",
    "C48_residual",
    "C48_ctor",
    "C48_ctor_total",
    "C48_shape",
    "C48_bounds",
    "C48_total",
    "C48_fitness_range",
    "C48_range_nan",
    "C48_standstill_refuted",
    "C48_long_nan",
    "C48_nan_refuted"
   ],
   "note": "Over the real numbers, any number of legs, the three encodings. For every tol: if the iterations end on ellipses or hyperbolas whose time of flight is right to tol seconds (all_within), the fitness is the cost of a tour whose legs last the encoded time up to tol. Without any assumption on the iterations for tours whose legs are short (C72) or between the time of least energy and 3/2 units more (C73): C48_fitness_range. There the cost is NaN only at a fly-by without relative velocity, which does happen (C48_range_nan, C48_standstill_refuted). False for long legs: the fitness is NaN although the tour exists (C48_nan_refuted), and one leg of 40000 to 1600000 units of time makes it NaN for every tour (C48_long_nan). Burns are minimal over all reachable velocities. Construction and bounds complete; types of Python arguments are not modelled. C48_total: without all_within, the fitness is a list of numbers or NaN unless a leg is in a vertical plane."
  },
  {
   "property": "C49",
   "status": "partial",
   "theorems": [
    "C49_trajectory_partial",
    "C49_wrong_length",
    "C49_trajectory_range",
    "C49_miss",
    "C49_range_miss"
   ],
   "note": "As C48, with the Kepler solver of the propagator as a parameter that is sound (and complete for totality). Meeting the next planet exactly is proved where the legs last exactly the encoded time; otherwise C49_miss bounds the distance to the planet at the end of each leg by tol seconds at periapsis speed, and in the range of C72 and C73 this needs no assumption on the iterations (C49_trajectory_range, C49_range_miss)."
  },
  {
   "property": "C50",
   "status": "partial",
   "theorems": [
    "C50_matches",
    "C50_motion",
    "C50_hyperbolic_motion_partial",
    "C50_motion_sound",
    "C50_elements",
    "C50_two_body",
    "C50_keplerian",
    "C50_unknown_mu",
    "C50_raises"
   ],
   "note": "Over the real numbers, for every planet. Ellipses at all dates, hyperbolas within the bracket of the propagator (C10) and soundness at every date where an answer is returned. On parabolas the propagator itself fails."
  },
  {
   "property": "C51",
   "status": "partial",
   "theorems": [
    "C51_accepts",
    "C51_transparent",
    "C51_table",
    "C51_table_cpp",
    "C51_own_table",
    "C51_own_table_refuted",
    "C51_extract",
    "C51_extract_refuted",
    "C51_extract_same",
    "C51_is"
   ],
   "note": "Acceptance and transparency for every object. The table of eph_v is right when the object has no eph_v or returns six numbers per date; the binding does not check the length, and reads outside the vector otherwise (refuted). extract(object) returns None (refuted)."
  },
  {
   "property": "C52",
   "status": "partial",
   "theorems": [
    "C52_documented",
    "C52_documented_refuted",
    "C52_deg2rad_refuted",
    "C52_moon_refuted",
    "C52_velocity_refuted",
    "C52_pi",
    "C52_degrees",
    "C52_units",
    "C52_physics",
    "C52_comment_refuted"
   ],
   "note": "Bit-exact. False of three documented constants: pykep.DEG2RAD is RAD2DEG, MU_MOON is not exported, EARTH_VELOCITY differs from the documented value (refuted). True of the others; pi to half a unit in the last place by Machin's series."
  },
  {
   "property": "C53",
   "status": "partial",
   "theorems": [
    "C53_theta",
    "C53_theta_elliptic",
    "C53_theta_complete",
    "C53_table",
    "C53_stm",
    "C53_asymptote",
    "C53_beyond",
    "C53_beyond_refuted",
    "C53_lambert_partial",
    "C53_lambert_problem",
    "C53_lambert_orbit",
    "C53_clockwise",
    "C53_clockwise_refuted",
    "C53_sol_check",
    "C53_ballistic",
    "C53_ballistic_sound",
    "C53_ballistic_one",
    "C53_planet_range",
    "C53_planet_closed"
   ],
   "note": "Over the real numbers. The angle formula for every orbit and every angle that the conic reaches; past an asymptote it returns states that are not on the orbit (refuted). Lambert arcs with h_z > 0, also composed with the constructor of lambert_problem; a clockwise arc never ends at the second position (refuted). Ballistic arcs and planet orbits in full."
  },
  {
   "property": "C54",
   "status": "partial",
   "theorems": [
    "C54_leg_partial",
    "C54_ends",
    "C54_empty_pass",
    "C54_empty_pass_refuted",
    "C54_hf_lines_partial",
    "C54_hf_arrows",
    "C54_hf_arrows_refuted",
    "C54_hf_reachable"
   ],
   "note": "Sims-Flanagan legs over the real numbers, any number of segments and every cut; with an empty pass asking for the middles raises IndexError (refuted). High-fidelity legs for any type of numbers, and on the history of every reachable leg: the lines are right, the forward arrows too, the backward arrows carry the throttles in reverse order (refuted; right exactly when the throttles of that pass are symmetric)."
  },
  {
   "property": "C55",
   "status": "partial",
   "theorems": [
    "C55_split",
    "C55_date",
    "C55_tle_state",
    "C55_resolution_refuted",
    "C55_tle_table",
    "C55_tle_nonfinite",
    "C55_spice_state",
    "C55_spice_time",
    "C55_spice_order",
    "C55_spice_table",
    "C55_rotation",
    "C55_parameters_refuted",
    "C55_no_period",
    "C55_ref_epoch"
   ],
   "note": "In bit-exact doubles; SGP4 and SPICE are arbitrary functions. The split of the Julian date is exact and its error at most 2^-31 + 2^-37 days (41 microseconds) for epochs within 90 years of 2000; that different epochs get different dates is refuted (a Julian date in a double has a resolution of 40 microseconds). SPICE times are right to 3 microseconds and ordered; tables are the states one by one. That the parameters a user stores in a spice object become those of the planet is refuted: no getter reads them."
  },
  {
   "property": "C56",
   "status": "partial",
   "theorems": [
    "C56_datetime",
    "C56_order",
    "C56_zone",
    "C56_zone_refuted",
    "C56_int",
    "C56_float",
    "C56_float_near",
    "C56_julian",
    "C56_default_refuted",
    "C56_text",
    "C56_add_days",
    "C56_add_float",
    "C56_add_delta_partial",
    "C56_add_whole",
    "C56_add_delta_refuted",
    "C56_datetime_delta",
    "C56_inverse",
    "C56_refused"
   ],
   "note": "In bit-exact arithmetic, with the overload resolution of pybind11. Datetimes, whole days, floats, strings and inverses in full. A timedelta of less than 2^52 microseconds is added to one microsecond towards zero (exactly for whole seconds); that it is added exactly is refuted (249 microseconds add 248) and the longest ones overflow. Aware datetimes lose their zone (refuted). epoch(2**31) and epoch(numpy.float32) are refused although the same values are accepted with a julian_type (refuted)."
  },
  {
   "property": "C57",
   "status": "partial",
   "theorems": [
    "C57_direct",
    "C57_revolutions",
    "C57_entry0",
    "C57_entries",
    "C57_count",
    "C57_count_exact",
    "C57_halley",
    "C57_count_refuted",
    "C57_halley_finds",
    "C57_count_near"
   ],
   "note": "Over the reals. Number of transfers, their identification with the entries, and the count in full for every N other than floor(T/pi), and for that one when the time is not less than that of the minimum-energy ellipse. In the remaining case the count is that of Halley's iteration (C57_halley); that it is always right is refuted (for lambda near -0.99 the iteration leaves the ellipses and one revolution too many is reported). For |lambda| <= 4/5 the iteration is proved to find the least time to one part in 10^24, and the count to be right up to that (C57_halley_finds, C57_count_near). That the Householder iteration converges is proved near a solution only (C62)."
  },
  {
   "property": "C58",
   "status": "partial",
   "theorems": [
    "C58_lagrangian",
    "C58_lagrangian_plain",
    "C58_lagrangian_v",
    "C58_stark_partial",
    "C58_mc_grad",
    "C58_mc_grad_total",
    "C58_hf_shapes",
    "C58_hf_scaled_partial",
    "C58_hf_plain_refuted",
    "C58_tc_grad"
   ],
   "note": "Over the reals. propagate_lagrangian (both overloads), sims_flanagan and throttle gradients in full for orbits that are neither rectilinear nor parabolic; Stark and high-fidelity gradients relative to an exact variational integrator, existence of the neighbouring flights included, for every column but those of a zero thrust, where there is no derivative. That the high-fidelity throttle columns are the derivatives is refuted (they lack the factor max_thrust)."
  },
  {
   "property": "C59",
   "status": "partial",
   "theorems": [
    "C59_never_dangles",
    "C59_answers",
    "C59_exist",
    "C59_cpp",
    "C59_python_partial",
    "C59_deepcopy_refuted",
    "C59_constructor_refuted",
    "C59_attributes"
   ],
   "note": "Model of the Python side as a history of operations on a heap of udplas, names and planets. Proved: no planet dangles; a copy, deep copy or unpickled planet answers like its source and disturbs no other; planets with C++ udplas are independent forever; planets with a Python udpla keep their answers while nothing assigns to the udpla. Refuted: a deep copy of a planet with a Python udpla shares the udpla with its source (C59_deepcopy_refuted), planet(x) keeps x itself (C59_constructor_refuted); attributes of the planet object are lost in every copy (C59_attributes); pickling works exactly for C++ udplas (C59_exist)."
  },
  {
   "property": "C60",
   "status": "partial",
   "theorems": [
    "C60_kernel_partial",
    "C60_released_partial",
    "C60_copy_refuted",
    "C60_two_refuted"
   ],
   "note": "Same model. Proved, when SPICE counts repeated loads of a file, no udpla is copied and the user does not unload the kernel: every existing de440s planet has its kernel, which is loaded exactly as often as there are de440s objects. Refuted when a de440s object is copied (its destructor unloads what it never loaded; either way of counting), and when SPICE does not count loads and two de440s exist."
  },
  {
   "property": "C61",
   "status": "partial",
   "theorems": [
    "C61_delay",
    "C61_on_orbit",
    "C61_error",
    "C61_chain",
    "C61_keplerian",
    "C61_planet",
    "C61_universal_partial",
    "C61_exact",
    "C61_bounds"
   ],
   "note": "Over the reals; replaces the exact root finder of C13, C16 and C38 by one that leaves a residual. propagate_lagrangian, propagate_keplerian and planets in full; for propagate_lagrangian_u the full claim is false (C12_universal_refuted) and only the position error is bounded. Rounding in the evaluation of the formulas is not covered."
  },
  {
   "property": "C62",
   "status": "partial",
   "theorems": [
    "C62_householder_order_four",
    "C62_direct_uniform",
    "C62_halley_order_three",
    "C62_starts",
    "C62_entry",
    "C62_least_energy_partial"
   ],
   "note": "Over the reals. Local convergence of both iterations in full (radius depends on lambda, N and the solution; uniform over an interval without revolutions). At the level of the constructor the closeness of the initial guess is a hypothesis, except around the time of flight of the least-energy transfer; that it is close enough for every lambda and T is false for long times of flight (C70_long_lost); it is for short times of flight (C72) and, for |lambda| <= 4/5, from the time of least energy to 3/2 time units more (C73); missing: the other lambda and T."
  },
  {
   "property": "C63",
   "status": "partial",
   "theorems": [
    "C63_planet",
    "C63_names",
    "C63_outside",
    "C63_third_law",
    "C63_elements",
    "C63_inclination_refuted",
    "C63_retrograde_refuted",
    "C63_cassini",
    "C63_bounds",
    "C63_extra_info_refuted"
   ],
   "note": "Over the reals. Position, elements, window, construction, bounds and evaluation of the three Cassini problems in full. False: that the inclination is in [0, pi], that retrograde elements are always numbers, and that get_extra_info returns (refuted)."
  },
  {
   "property": "C64",
   "status": "partial",
   "theorems": [
    "C64_leg_text",
    "C64_leg_determined",
    "C64_cut_refuted",
    "C64_print_throws_refuted",
    "C64_hf_text",
    "C64_hf_determined",
    "C64_formats",
    "C64_stark_determined",
    "C64_lambert_text",
    "C64_lambert_a",
    "C64_lambert_time",
    "C64_label_refuted",
    "C64_planet_determined",
    "C64_planet_extra",
    "C64_keplerian",
    "C64_jpl"
   ],
   "note": "Legs, Lambert problems, planets and Stark problems in full, number formats as parameters. False: that the cut of a leg can be read from its text, that printing a low-fidelity leg does not throw, and that every number carries its label (right-branch x of a Lambert problem) (refuted)."
  },
  {
   "property": "C65",
   "status": "partial",
   "theorems": [
    "C65_normalize",
    "C65_normalize_small_refuted",
    "C65_normalize_large_refuted",
    "C65_cross",
    "C65_cross_parallel",
    "C65_cross_swap",
    "C65_cosine",
    "C65_throttles",
    "C65_throttle_missed_refuted",
    "C65_throttle_false_refuted"
   ],
   "note": "Proved for all vectors in the stated range. False: that normalisation works for every vector with a representable result, and that the sign of the throttle constraint is exact (refuted, both directions)."
  },
  {
   "property": "C66",
   "status": "partial",
   "theorems": [
    "C66_plane",
    "C66_side",
    "C66_plain_norm",
    "C66_collinear_refuted",
    "C66_opposite_refuted"
   ],
   "note": "Accuracy and side proved for every accurate length. False: that collinear positions are noticed (refuted for 0 and 180 degrees)."
  },
  {
   "property": "C67",
   "status": "partial",
   "theorems": [
    "C67_picture",
    "C67_outside",
    "C67_neptune_refuted",
    "C67_neptune_never_refuted",
    "C67_sizes_refuted"
   ],
   "note": "Proved for the Sun and the planets Mercury to Uranus, all dates and sizes. False: that Neptune can be drawn (undefined name) and that the ninth size is used (refuted)."
  },
  {
   "property": "C68",
   "status": "partial",
   "theorems": [
    "C68_known",
    "C68_unknown",
    "C68_injective",
    "C68_round_trip",
    "C68_scheme",
    "C68_shadowed_refuted"
   ],
   "note": "Proved for all identifiers, without axioms. False: that naifid2name undoes name2naifid (a name listed before another one of the same identifier is never returned) (refuted)."
  },
  {
   "property": "C69",
   "status": "partial",
   "theorems": [
    "C69_mga_partial",
    "C69_leg_ids",
    "C69_points_refuted",
    "C69_default_period",
    "C69_jpl_period",
    "C69_cassini",
    "C69_outer",
    "C69_outer_refuted",
    "C69_p2p_partial",
    "C69_pl2pl_partial",
    "C69_units_refuted",
    "C69_planet_units_refuted"
   ],
   "note": "Proved for every tour with Lambert problems solved up to any tolerance, the Cassini problems and all direct legs with safe arcs. False: that the unit applies to all coordinates of the ends of a leg and to its planets, that the arcs have the number of points asked for, and that every problem with a fitness has a picture (Uranus and Neptune) (all refuted)."
  },
  {
   "property": "C70",
   "status": "partial",
   "theorems": [
    "C70_long_lost",
    "C70_nan",
    "C70_silent",
    "C70_householder",
    "C70_nan_refuted",
    "C70_silent_refuted"
   ],
   "note": "The claim is false: C70_nan_refuted, C70_silent_refuted, and for every geometry from 40000 time units on C70_long_lost. That the direct transfer exists and is unique is C57_direct. For shorter times see C62. For short ones the claim holds (C72)."
  },
  {
   "property": "C71",
   "status": "partial",
   "theorems": [
    "C71_time",
    "C71_moving",
    "C71_converts",
    "C71_name",
    "C71_name_tells",
    "C71_defaults",
    "C71_no_period",
    "C71_no_elements",
    "C71_mu_unobservable",
    "C71_mu_refuted",
    "C71_mga_never",
    "C71_mga_refuted"
   ],
   "note": "Date, units and consistency of the ephemeris proved for every series (whose own values are a parameter). False: that the rest of the interface works: no period, no elements, mu_central_body is -1 although the constructor computes one, and an mga between such planets can be built but never evaluated (C71_mu_refuted, C71_mga_refuted)."
  },
  {
   "property": "C72",
   "status": "proved",
   "theorems": [
    "C72_short",
    "C72_householder"
   ],
   "note": "Real-arithmetic model: rounding is not modelled. The result is the transfer up to the tolerance of the iteration (4 parts in 10^8 of the time of flight)."
  },
  {
   "property": "C73",
   "status": "proved",
   "theorems": [
    "C73_normal",
    "C73_householder"
   ],
   "note": "Real-arithmetic model: rounding is not modelled. The result is the transfer up to 4 parts in 10^11 of the time of flight. Outside this range of lambda and times see C62, C70, C72."
  },
  {
   "property": "C74",
   "status": "partial",
   "theorems": [
    "C74_mga_total",
    "C74_mga_tour",
    "C74_mga_range",
    "C74_lost_launch",
    "C74_free_refuted",
    "C74_pl2pl",
    "C74_pl2pl_total",
    "C74_p2p",
    "C74_p2p_total"
   ],
   "note": "Reports of mga, direct_pl2pl and direct_point2point, as lists of the arguments of print. For mga up to the tolerance of the Lambert iteration (as C48; without assumption in the range of C72 and C73). False when the first leg is lost by the Lambert solver: the report then shows an initial burn of 0, because max(0, nan) is 0 in Python (C74_lost_launch, C74_free_refuted). Formatting of numbers is not modelled; the text of the leg is that of C64."
  },
  {
   "property": "C75",
   "status": "partial",
   "theorems": [
    "C75_accepts",
    "C75_keeps",
    "C75_frame",
    "C75_raises",
    "C75_again",
    "C75_bounds",
    "C75_typed",
    "C75_rejected_refuted",
    "C75_bounds_refuted",
    "C75_order_refuted",
    "C75_alias_refuted",
    "C75_shared_refuted"
   ],
   "note": "Acceptance is characterised exactly, the exceptions are explained, the effect on the heap is bounded, and for documented arguments in separate lists the constructor is the typed one of C48. Refuted: a rejected call changes the caller's list of dates (C75_rejected_refuted), one date is accepted and has no bounds (C75_bounds_refuted), dates in the wrong order are accepted (C75_order_refuted), sharing one list between dates and times of flight gives epochs as bounds (C75_alias_refuted), problems made from the same (default) list change each other (C75_shared_refuted). Not modelled: tuples and numpy arrays as arguments, comparison of lists with >=."
  },
  {
   "property": "C76",
   "status": "partial",
   "theorems": [
    "C76_p2p",
    "C76_p2p_rejects",
    "C76_pl2pl",
    "C76_pl2pl_rejects",
    "C76_raise_refuted",
    "C76_segments_refuted"
   ],
   "note": "The leg is a mutable record that keeps what was written before an exception; histories are arbitrary lists of calls. Proved for both problems: every result is the stateless one of C46 and C47 (for direct_pl2pl with an ephemeris that is not a number: the result on a fresh problem). Refuted: a call that raises leaves the leg changed (C76_raise_refuted); before the first call the leg has two segments whatever nseg (C76_segments_refuted)."
  }
 ]
}