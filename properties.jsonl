{"id": "C01", "title": "Calendar constructor is the Gregorian calendar", "statement": "epoch(y,mon,d,h,min,s,ms,us) denotes exactly the microsecond instant that the proleptic Gregorian calendar assigns to that date and time of day (a day number past the end of the month denotes the correspondingly later day, out-of-range clock fields carry linearly). For every year/month/day the calendar accepts and every value of the int32 clock fields, the signed 64-bit microsecond count is computed without overflow.", "quantifier": "all years -32767..32767, months 1..12, days 1..31 and all int32 hours, minutes, seconds, milliseconds, microseconds", "why_tests_cant": "The leap-year cycle has 146097 days and the clock fields range over 2^160 combinations; tests sample a handful of dates. Absence of signed overflow (UB) is a claim about every combination.", "anchors": [{"file": "src/epoch.cpp", "symbols": ["epoch::make_tp", "epoch::epoch(int32_t,uint32_t,...)"]}]}
{"id": "C02", "title": "Calendar constructor rejects exactly the impossible dates", "statement": "epoch(y,mon,d,...) throws invalid_argument when the year, month or day number is not a calendar year/month/day and never throws otherwise.", "quantifier": "all int32 years and all uint32 months and days", "why_tests_cant": "The accepted set is infinite-ish (2^96 triples); std::chrono narrows its arguments to short/unsigned char before ok() is called, so only selected far-away values misbehave and random tests miss them.", "anchors": [{"file": "src/epoch.cpp", "symbols": ["epoch::make_tp"]}]}
{"id": "C03", "title": "Epoch ordering and arithmetic laws", "statement": "Comparison operators form a total order on instants consistent with subtraction; (e+d)-e = d, e+(f-e) = f, e+d1+d2 = e+(d1+d2), (e+d)-d = e, += and -= agree with + and -, and adding or subtracting is defined exactly when the result is representable in 64-bit microseconds (outside it is signed-overflow UB); a double number of days is always offset from 2000-01-01 and a chrono duration from the documented reference point.", "quantifier": "all epochs and all 64-bit microsecond durations", "why_tests_cant": "Algebraic laws over 2^128 pairs; overflow boundary is never sampled.", "anchors": [{"file": "include/kep3/epoch.hpp", "symbols": ["epoch::operator+=", "epoch::operator-=", "operator+", "operator-", "epoch(Duration)"]}, {"file": "src/epoch.cpp", "symbols": ["operator>", "operator<", "operator>=", "operator<=", "operator==", "operator!=", "operator-"]}]}
{"id": "C04", "title": "Julian date accessors are monotone and mutually consistent", "statement": "For every epoch, mjd2000(), mjd() and jd() are the correctly documented affine images of the instant (offsets of exactly 51544 and 2400000.5 days apart before rounding to double), later epochs never have a smaller Julian date, and epoch(days, MJD2000/MJD/JD) is non-decreasing in days and places the instant at the offset of the requested scale.", "quantifier": "all epochs whose 64-bit count can be shifted without overflow; all finite doubles inside the representable range; the three Julian scales", "why_tests_cant": "Monotonicity in floating point is a statement about all pairs of adjacent doubles/instants; a rounding anomaly can sit at any single one of them.", "anchors": [{"file": "include/kep3/epoch.hpp", "symbols": ["epoch::jd", "epoch::mjd", "epoch::mjd2000", "as_sec"]}, {"file": "src/epoch.cpp", "symbols": ["epoch::epoch(double,julian_type)", "epoch::tp_from_days"]}]}
{"id": "C05", "title": "Julian-day round trip is accurate to the microsecond", "statement": "Rebuilding an epoch from its own mjd2000() gives back the same instant up to one microsecond for every instant within 2^53 microseconds (about 285 years) of 2000-01-01, and within 2^52 microseconds any error is one microsecond towards 2000-01-01.", "quantifier": "all epochs within +-2^53 microseconds of 2000-01-01", "why_tests_cant": "9*10^15 instants, each with its own pair of IEEE roundings followed by a truncation; sampling cannot bound the worst case.", "anchors": [{"file": "include/kep3/epoch.hpp", "symbols": ["epoch::mjd2000"]}, {"file": "src/epoch.cpp", "symbols": ["epoch::tp_from_days"]}]}
{"id": "C06", "title": "ISO string round trip", "statement": "For every epoch between years 0000 and 9999 the text printed by as_utc_string() is a full-length ISO-8601 date-time and constructing an epoch from that text gives back exactly the same instant.", "quantifier": "all epochs from 0000-01-01T00:00:00.000000 to 9999-12-31T23:59:59.999999", "why_tests_cant": "3*10^17 instants; the proof needs the bijectivity of the calendar conversion and of zero-padded decimal printing/parsing.", "anchors": [{"file": "src/epoch.cpp", "symbols": ["epoch::epoch(const std::string&)", "epoch::as_utc_string"]}]}
{"id": "C07", "title": "String constructor accepts only ISO strings", "statement": "epoch(string) yields an epoch only if the string is one of the ISO-8601 shapes YYYY-MM, YYYY-MM-DD, ..THH, ..:MM, ..:SS, ..SS.f{1,6}; every other string throws. Truncated well-formed strings denote the start of the omitted fields.", "quantifier": "all strings", "why_tests_cant": "The set of malformed strings is infinite; tests try two.", "anchors": [{"file": "src/epoch.cpp", "symbols": ["epoch::epoch(const std::string&)"]}]}
{"id": "C08", "title": "Anomaly conversions are mutually inverse", "statement": "e2f/f2e (0<=ecc<1), h2f/f2h and zeta2f/f2zeta (ecc>1), e2m/m2e, f2m/m2f, h2n/n2h, f2n/n2f are mutually inverse on their documented angular domains (m2e, m2f modulo 2*pi), odd, and strictly increasing; for an eccentricity of the wrong regime every converter returns NaN.", "quantifier": "all eccentricities and all anomalies in the open interval of the domain", "why_tests_cant": "Continuum of inputs; tests use random samples with tolerances.", "anchors": [{"file": "include/kep3/core_astro/convert_anomalies.hpp", "symbols": ["e2f", "f2e", "e2m", "m2e", "m2f", "f2m", "zeta2f", "f2zeta", "h2f", "f2h", "n2h", "h2n", "n2f", "f2n"]}]}
{"id": "C09", "title": "Kepler's equation bracket always contains the unique root (elliptic m2e)", "statement": "For every mean anomaly and every 0<=ecc<1 the interval handed to the Newton solver by m2e contains the solution of Kepler's equation, the solution is unique, and the residual is negative at the left end and positive at the right end, so a bracketing solver cannot fail.", "quantifier": "all mean anomalies (reals), all eccentricities in [0,1)", "why_tests_cant": "Near-parabolic eccentricities make the third-order guess poor; the claim quantifies over a continuum and is exactly what a random test misses.", "anchors": [{"file": "include/kep3/core_astro/convert_anomalies.hpp", "symbols": ["m2e"]}]}
{"id": "C10", "title": "Kepler's equation brackets of the propagators contain the root", "statement": "For every initial state and every time of flight, the bracket that propagate_lagrangian (elliptic and hyperbolic), propagate_lagrangian_u and n2h hand to the Newton solver contains the (unique) root of the corresponding Kepler equation.", "quantifier": "all non-collinear initial states, all times of flight, all mu>0", "why_tests_cant": "Failure happens only for extreme eccentricity/time combinations.", "anchors": [{"file": "src/core_astro/propagate_lagrangian.cpp", "symbols": ["propagate_lagrangian", "propagate_lagrangian_u"]}, {"file": "include/kep3/core_astro/convert_anomalies.hpp", "symbols": ["n2h"]}]}
{"id": "C11", "title": "Kepler-equation derivatives are the derivatives", "statement": "Each d_kepX / dd_kepX function exported by kepler_equations.hpp is the first / second derivative of kepX with respect to its anomaly argument, and the Stumpff functions satisfy their defining series identities across the elliptic, parabolic and hyperbolic branches.", "quantifier": "all parameter values and anomalies", "why_tests_cant": "Derivatives are limits; unit tests compare finite differences at samples, and the second derivatives are never tested.", "anchors": [{"file": "include/kep3/core_astro/kepler_equations.hpp", "symbols": ["kepE", "d_kepE", "dd_kepE", "kepH", "d_kepH", "dd_kepH", "kepDE", "d_kepDE", "dd_kepDE", "kepDH", "d_kepDH", "dd_kepDH", "kepDS", "d_kepDS", "dd_kepDS"]}, {"file": "include/kep3/core_astro/special_functions.hpp", "symbols": ["stumpff_s", "stumpff_c"]}]}
{"id": "C12", "title": "Keplerian propagation conserves energy, angular momentum and the eccentricity vector", "statement": "The state returned by propagate_lagrangian / propagate_lagrangian_u has the same specific energy, angular momentum vector and eccentricity vector as the input state (and its radius is the one the formulas predict), for whatever value the root finder returns.", "quantifier": "all initial states with non-zero energy and radius, all mu>0, all values returned by the root solver", "why_tests_cant": "Algebraic identity over a continuum of 6-d states.", "anchors": [{"file": "src/core_astro/propagate_lagrangian.cpp", "symbols": ["propagate_lagrangian", "propagate_lagrangian_u"]}]}
{"id": "C13", "title": "Keplerian propagation is the two-body flow", "statement": "propagate_lagrangian(pos_vel, tof, mu) is the value at time tof of the unique solution of r'' = -mu r/|r|^3 that starts from pos_vel, for elliptic and hyperbolic orbits, forward and backward, any number of revolutions.", "quantifier": "all initial states with non-zero angular momentum and non-zero energy, all tof, all mu>0", "why_tests_cant": "Equality with the solution of a differential equation for all initial data cannot be tested.", "anchors": [{"file": "src/core_astro/propagate_lagrangian.cpp", "symbols": ["propagate_lagrangian"]}]}
{"id": "C14", "title": "Propagation forms a one-parameter group", "statement": "Propagating by zero is the identity, propagating by t1 then t2 equals propagating by t1+t2, propagating by t then -t returns the initial state, and an elliptic state returns to itself after one period; propagate_lagrangian_v returns exactly the states that single calls would return, in order.", "quantifier": "all non-degenerate initial states, all pairs of times", "why_tests_cant": "Algebraic law over a continuum.", "anchors": [{"file": "src/core_astro/propagate_lagrangian.cpp", "symbols": ["propagate_lagrangian", "propagate_lagrangian_v"]}]}
{"id": "C15", "title": "The universal-variable and Lagrange-coefficient propagators agree", "statement": "propagate_lagrangian_u returns the same state as propagate_lagrangian for every initial state and time of flight, including negative times of flight.", "quantifier": "all non-degenerate initial states and all times", "why_tests_cant": "Two independent algorithms over a continuum of inputs.", "anchors": [{"file": "src/core_astro/propagate_lagrangian.cpp", "symbols": ["propagate_lagrangian", "propagate_lagrangian_u"]}]}
{"id": "C16", "title": "Propagation through orbital elements agrees with direct propagation", "statement": "propagate_keplerian (convert to elements, advance mean anomaly, convert back) returns the same state as propagate_lagrangian for every non-singular orbit.", "quantifier": "all initial states with non-zero inclination and eccentricity, all times", "why_tests_cant": "Depends on six inverse trigonometric branches being consistent with each other for every orientation.", "anchors": [{"file": "src/core_astro/propagate_lagrangian.cpp", "symbols": ["propagate_keplerian"]}, {"file": "src/core_astro/ic2par2ic.cpp", "symbols": ["ic2par", "par2ic"]}]}
{"id": "C17", "title": "The returned state transition matrix is the Jacobian of the propagation", "statement": "The 6x6 matrix returned with stm=true (stm_lagrangian) maps any infinitesimal change of the initial state to the resulting change of the final state of propagate_lagrangian at fixed tof; at tof=0 it is the identity.", "quantifier": "all non-degenerate elliptic and hyperbolic initial states, all tof, all directions", "why_tests_cant": "36 partial derivatives over a 7-d continuum.", "anchors": [{"file": "src/core_astro/stm.cpp", "symbols": ["stm_lagrangian"]}, {"file": "src/core_astro/propagate_lagrangian.cpp", "symbols": ["propagate_lagrangian"]}]}
{"id": "C18", "title": "Reynolds' STM solves the variational equations", "statement": "The matrix built by _compute_Y consists of solutions of the linearised two-body equations, so stm_reynolds (Y(t) Y(0)^-1) is the state transition matrix and equals the identity at t=0.", "quantifier": "all Keplerian arcs with non-zero angular momentum", "why_tests_cant": "Continuum; singular only on measure-zero sets.", "anchors": [{"file": "src/core_astro/stm.cpp", "symbols": ["_compute_Y", "stm_reynolds", "propagate_stm_reynolds"]}]}
{"id": "C19", "title": "Cartesian state <-> osculating elements round trip", "statement": "par2ic(ic2par(x)) = x for every non-singular state, ic2par(par2ic(p)) = p for every element set in the documented ranges, ic2par's angles always lie in the documented ranges (i in [0,pi], Omega, omega, f in [0,2pi]), and par2ic throws domain_error on geometrically impossible element sets.", "quantifier": "all states with non-zero angular momentum, inclination and eccentricity; all elements with a(1-e)>0 and true anomaly inside the asymptotes", "why_tests_cant": "Quadrant logic: each of 2^4 sign combinations of acos/acos/acos/wrap must be right on a whole region.", "anchors": [{"file": "src/core_astro/ic2par2ic.cpp", "symbols": ["ic2par", "par2ic"]}]}
{"id": "C20", "title": "Equinoctial element conversions round trip and commute with osculating elements", "statement": "eq2ic(ic2eq(x)) = x and ic2eq(eq2ic(q)) = q (prograde and retrograde forms), eq2par(par2eq(p)) = p, and eq2ic(par2eq(p)) = par2ic(p).", "quantifier": "all non-singular states/elements, both retrograde flags", "why_tests_cant": "Continuum with quadrant logic and the retrograde sign threading through every formula.", "anchors": [{"file": "src/core_astro/ic2eq2ic.cpp", "symbols": ["ic2eq", "eq2ic"]}, {"file": "src/core_astro/eq2par2eq.cpp", "symbols": ["eq2par", "par2eq"]}]}
{"id": "C21", "title": "Fly-by functions are physically consistent", "statement": "fb_vout preserves the planetocentric speed and rotates it by 2*asin(1/e) with e = 1 + rp*vinf^2/mu; the pair (v_in, fb_vout(v_in,...)) satisfies fb_con with equality residual 0 and inequality residual <= 0 exactly when rp is at least the safe radius; fb_dv is non-negative and is zero exactly when the unpowered fly-by constraints hold.", "quantifier": "all incoming velocities not parallel to the planet velocity, all rp>0, mu>0, beta", "why_tests_cant": "Continuum identities with asin/acos branches.", "anchors": [{"file": "src/core_astro/flyby.cpp", "symbols": ["fb_con", "fb_dv", "fb_vout"]}]}
{"id": "C22", "title": "Lambert problem: shape of the result and bounded work", "statement": "After construction v0, v1, x and iters all have 2*Nmax+1 entries with Nmax <= multi_revs and Nmax <= floor(T/pi); index arithmetic never wraps or goes out of bounds; every Householder iteration count is at most 15 and Halley's loop runs at most 13 steps, for whatever values the transcription function takes.", "quantifier": "all inputs accepted by the constructor, all behaviours of the floating point time-of-flight function", "why_tests_cant": "Loop bounds and unsigned underflow are claims about every input.", "anchors": [{"file": "src/lambert_problem.cpp", "symbols": ["lambert_problem::lambert_problem", "lambert_problem::householder"]}]}
{"id": "C23", "title": "Lambert problem: both terminal velocities lie on one conic through r0 and r1", "statement": "For every iterate x the pair (r0,v0) and (r1,v1) has the same angular momentum vector, the same energy -mu(1-x^2)/s and the same eccentricity vector, and the motion has the direction requested by cw.", "quantifier": "all non-collinear r0,r1, all mu>0, both cw values, all x>-1, all revolutions", "why_tests_cant": "Algebraic identity over a continuum; holds also for unconverged x, which tests never look at.", "anchors": [{"file": "src/lambert_problem.cpp", "symbols": ["lambert_problem::lambert_problem"]}]}
{"id": "C24", "title": "Lambert problem: the time of flight equation is the right one", "statement": "If x satisfies the non-dimensional time equation solved by the constructor exactly, then propagating (r0,v0) for tof reaches (r1,v1); the derivatives used by the Householder/Halley iterations are the derivatives of that time equation.", "quantifier": "all non-collinear r0,r1, all tof>0, mu>0", "why_tests_cant": "Continuum.", "anchors": [{"file": "src/lambert_problem.cpp", "symbols": ["x2tof", "x2tof2", "dTdx", "lambert_problem::lambert_problem"]}]}
{"id": "C25", "title": "Lambert problem rejects degenerate input", "statement": "The constructor throws for non-positive tof or mu and for configurations that do not define a transfer plane; it never returns NaN velocities for finite input.", "quantifier": "all finite inputs", "why_tests_cant": "The bad inputs are measure-zero (collinear vectors) or special doubles.", "anchors": [{"file": "src/lambert_problem.cpp", "symbols": ["lambert_problem::lambert_problem"]}]}
{"id": "C26", "title": "Leg segment split is exact", "statement": "For every accepted number of segments and cut, nseg_fwd + nseg_bck = nseg with 0 <= nseg_fwd <= nseg, nseg_fwd is the integer part of the double product nseg*cut, it is non-decreasing in cut, and cut=0/cut=1 give 0/nseg; no out-of-range float-to-integer conversion is executed.", "quantifier": "all nseg < 2^32 and all doubles cut", "why_tests_cant": "2^96 pairs; rounding of nseg*cut could exceed nseg only at isolated points.", "anchors": [{"file": "src/leg/sims_flanagan.cpp", "symbols": ["sims_flanagan::sims_flanagan", "set_cut", "set_throttles", "set"]}, {"file": "src/leg/sims_flanagan_hf.cpp", "symbols": ["sims_flanagan_hf::sims_flanagan_hf", "set_cut", "set_throttles", "set"]}, {"file": "src/leg/sf_checks.cpp", "symbols": ["_check_cut", "_check_nseg", "_sanity_checks"]}]}
{"id": "C27", "title": "Every reachable Sims-Flanagan leg is valid", "statement": "After any sequence of successful constructor/setter calls a sims_flanagan leg has a non-negative tof, max_thrust, isp and mu, cut in [0,1], a throttle vector of 3*nseg entries with nseg>0, and a setter that throws leaves the leg unchanged.", "quantifier": "all histories of constructor and setter calls with arbitrary double arguments (including NaN and infinities)", "why_tests_cant": "Histories are unbounded; tests call each setter once on valid data.", "anchors": [{"file": "src/leg/sims_flanagan.cpp", "symbols": ["set", "set_tof", "set_throttles", "set_cut", "set_max_thrust", "set_isp", "set_mu", "set_ms", "set_mf"]}, {"file": "src/leg/sf_checks.cpp", "symbols": ["_sanity_checks"]}]}
{"id": "C28", "title": "Sims-Flanagan mismatch measures one physical trajectory", "statement": "compute_mismatch_constraints is zero exactly when the state reached by the forward pass equals the one reached backward; whether it is zero does not depend on cut; the forward and backward arcs last tof*nseg_fwd/nseg and tof*nseg_bck/nseg; masses stay positive and follow the rocket equation per impulse.", "quantifier": "all legs with any number of segments, all throttles, cut values", "why_tests_cant": "Unbounded number of segments; equivalence between two different computations.", "anchors": [{"file": "src/leg/sims_flanagan.cpp", "symbols": ["compute_mismatch_constraints"]}]}
{"id": "C29", "title": "Throttle constraints and their gradient", "statement": "compute_throttle_constraints returns, per segment and in order, |u_i|^2-1 for both leg types, and compute_tc_grad is exactly its dense row-major Jacobian (nseg x 3 nseg), all writes in bounds.", "quantifier": "all numbers of segments and all throttles", "why_tests_cant": "Unbounded sizes, index arithmetic.", "anchors": [{"file": "src/leg/sims_flanagan.cpp", "symbols": ["compute_throttle_constraints", "compute_tc_grad"]}, {"file": "src/leg/sims_flanagan_hf.cpp", "symbols": ["compute_throttle_constraints", "compute_tc_grad"]}]}
{"id": "C30", "title": "Sims-Flanagan mismatch gradient is the Jacobian", "statement": "compute_mc_grad of the low-fidelity leg returns the partial derivatives of the mismatch with respect to initial state and mass, final state and mass, throttles (in the order they are stored) and tof.", "quantifier": "all legs with non-zero throttles, any number of segments and any cut", "why_tests_cant": "Unbounded sizes and a continuum of inputs.", "anchors": [{"file": "src/leg/sims_flanagan.cpp", "symbols": ["gradients_multiple_impulses", "gradients_fwd", "gradients_bck", "compute_mc_grad"]}]}
{"id": "C31", "title": "High-fidelity leg: integrators always carry the leg's parameters", "statement": "After any history of constructor/setter calls the dynamics integrated by compute_mismatch_constraints and compute_mc_grad use the leg's current mu, isp, max_thrust and tol, i.e. the results equal those of a freshly constructed leg with the same data.", "quantifier": "all histories of setter calls", "why_tests_cant": "Histories are unbounded and the stale state is only visible through numerical results.", "anchors": [{"file": "src/leg/sims_flanagan_hf.cpp", "symbols": ["set_mu", "set_isp", "set_max_thrust", "set_tol", "set", "sims_flanagan_hf"]}]}
{"id": "C32", "title": "High-fidelity mismatch gradient is the chain rule over segments", "statement": "compute_mc_grad of the high-fidelity leg returns the derivative of the mismatch with respect to initial state, final state, each throttle component and tof, for every split of segments; no index leaves its array and the internal 'index doesn't correspond to any leg' errors are unreachable.", "quantifier": "all numbers of segments, all splits nseg_fwd+nseg_bck=nseg, all per-segment variational data", "why_tests_cant": "Unbounded sizes; the existing test uses max_thrust=1 only.", "anchors": [{"file": "src/leg/sims_flanagan_hf.cpp", "symbols": ["compute_all_gradients", "get_relevant_gradients", "compute_mc_grad"]}]}
{"id": "C33", "title": "Serialization round trips", "statement": "Saving an object and loading it into any other object of the class gives an object that behaves identically (epoch, keplerian, jpl_lp, lambert_problem, stark_problem, sims_flanagan, sims_flanagan_hf).", "quantifier": "all object states, all target states", "why_tests_cant": "Quantifies over source and target states; tests compare printed strings only.", "anchors": [{"file": "include/kep3/epoch.hpp", "symbols": ["save", "load"]}, {"file": "include/kep3/udpla/keplerian.hpp", "symbols": ["serialize"]}, {"file": "include/kep3/lambert_problem.hpp", "symbols": ["serialize"]}, {"file": "include/kep3/stark_problem.hpp", "symbols": ["serialize"]}, {"file": "include/kep3/leg/sims_flanagan.hpp", "symbols": ["serialize"]}, {"file": "include/kep3/leg/sims_flanagan_hf.hpp", "symbols": ["serialize"]}]}
{"id": "C34", "title": "State history sampling stays in bounds", "statement": "get_state_history(n) reads only inside its time grid and returns one record per segment, in segment order, with n samples of 7 numbers each.", "quantifier": "all nseg>=1, all splits, all n>=2", "why_tests_cant": "Out-of-bounds reads are silent in tests, and depend on sizes never tried.", "anchors": [{"file": "src/leg/sims_flanagan_hf.cpp", "symbols": ["get_state_history"]}]}
{"id": "C35", "title": "stark_problem results depend only on its parameters", "statement": "For every history of setter and propagate/propagate_var calls, propagate(x,u,t) equals the integration of the Stark dynamics with the current mu and veff from (x,u) - earlier calls leave no trace - and propagate_var returns the same final state together with the row-major state and thrust sensitivities; a zero mass always throws.", "quantifier": "all histories of calls on one object, all integrator behaviours", "why_tests_cant": "Unbounded histories; hidden mutable state in the cached integrators.", "anchors": [{"file": "src/stark_problem.cpp", "symbols": ["stark_problem::stark_problem", "propagate", "propagate_var", "set_mu", "set_veff"]}]}
{"id": "C36", "title": "Integrator caches are transparent and thread-safe", "statement": "get_ta_stark / get_ta_cr3bp (and _var) return, for every interleaving of concurrent calls, the integrator freshly built for that tolerance, build it at most once per tolerance, never invalidate a previously returned reference, and no two threads ever access a cache simultaneously when one of them writes.", "quantifier": "all interleavings of any number of threads calling the cache functions", "why_tests_cant": "Schedules are unbounded; data races are not reproducible by tests.", "anchors": [{"file": "src/ta/stark.cpp", "symbols": ["get_ta_stark", "get_ta_stark_var", "get_ta_stark_cache_dim", "get_ta_stark_var_cache_dim"]}, {"file": "src/ta/cr3bp.cpp", "symbols": ["get_ta_cr3bp", "get_ta_cr3bp_var", "get_ta_cr3bp_cache_dim", "get_ta_cr3bp_var_cache_dim"]}, {"file": "src/udpla/vsop2013.cpp", "symbols": ["vsop2013"]}]}
{"id": "C37", "title": "Type-erased planets behave like the wrapped ephemeris", "statement": "planet forwards eph, eph_v, acc, period and elements to the user class when it provides them and otherwise uses the documented default: eph_v is the row-major concatenation of eph over the epochs, mu/radius/safe radius default to -1, period comes from the energy (NaN when unbound), elements from the state; it throws not_implemented_error exactly when neither is possible; epoch and double overloads agree.", "quantifier": "all user classes (any subset of optional methods), all lists of epochs", "why_tests_cant": "Quantifies over all user-defined classes and list lengths.", "anchors": [{"file": "include/kep3/planet.hpp", "symbols": ["planet", "default_eph_vectorization", "planet_inner"]}, {"file": "src/planet.cpp", "symbols": ["period_from_energy", "elements_from_posvel", "null_udpla"]}]}
{"id": "C38", "title": "keplerian planets reproduce their defining data", "statement": "A keplerian planet built from a state returns that state at its reference epoch, conserves energy and is periodic with the reported period; built from elements of any supported type it follows the same orbit as the equivalent Cartesian state; valid element sets are accepted and inconsistent ones rejected; elements() in every supported type is available for every bound orbit.", "quantifier": "all states / elements / epochs", "why_tests_cant": "Continuum plus branch conditions that misfire only for special units (e.g. semi-major axis below 1).", "anchors": [{"file": "src/udpla/keplerian.cpp", "symbols": ["keplerian", "eph", "elements"]}, {"file": "src/planet.cpp", "symbols": ["elements_from_posvel", "period_from_energy"]}]}
{"id": "C39", "title": "jpl_lp never fails inside its validity window", "statement": "For every planet accepted by the constructor and every epoch strictly inside the 1800-2050 window, the interpolated elements describe a proper ellipse (0<e<1, a>0), so eph returns a finite state without throwing; outside the window eph throws; names are case-insensitive and unknown names are rejected.", "quantifier": "all supported planets, all real epochs in the window, all strings as names", "why_tests_cant": "Continuum of epochs; infinite set of names.", "anchors": [{"file": "src/udpla/jpl_lp.cpp", "symbols": ["jpl_lp::jpl_lp", "_f_elements", "eph", "elements"]}]}
{"id": "C40", "title": "Dynamics keep their first integrals", "statement": "The CR3BP vector field conserves the Jacobi constant along every solution, the Stark field conserves energy and angular momentum when thrust is zero and never increases mass for positive veff, and the leg's own get_state_derivative equals the Stark field the integrator uses.", "quantifier": "all solutions of the differential equations, all parameters", "why_tests_cant": "Statement about all solutions of an ODE.", "anchors": [{"file": "src/ta/cr3bp.cpp", "symbols": ["cr3bp_dyn"]}, {"file": "src/ta/stark.cpp", "symbols": ["stark_dyn"]}, {"file": "src/leg/sims_flanagan_hf.cpp", "symbols": ["get_state_derivative"]}]}
{"id": "C41", "title": "High-fidelity constraints are laid out as documented", "statement": "compute_constraints returns the 7 mismatch components followed by the nseg throttle constraints; set_and_compute_constraints(x) equals setting the fields from the chromosome [rvms, throttles, rvmf, tof] and calling compute_constraints, for every chromosome of length 7+3*nseg+7+1, and the getters then return exactly those slices.", "quantifier": "all chromosomes, all segment counts", "why_tests_cant": "Index arithmetic for all sizes.", "anchors": [{"file": "src/leg/sims_flanagan_hf.cpp", "symbols": ["compute_constraints", "set_and_compute_constraints", "set"]}]}
{"id": "C42", "title": "High-fidelity mismatch equals the concatenated segment flows", "statement": "compute_mismatch_constraints of the high-fidelity leg is the difference between the composition of the segment flows applied to the initial state and the composition of the reversed segment flows applied to the final state, independent of anything computed earlier on the object, and its vanishing does not depend on cut.", "quantifier": "all numbers of segments, cuts, previous calls on the object", "why_tests_cant": "Unbounded sizes and histories.", "anchors": [{"file": "src/leg/sims_flanagan_hf.cpp", "symbols": ["compute_mismatch_constraints"]}]}
{"id": "C43", "title": "vsop2013 construction validates and caches correctly", "statement": "A vsop2013 planet is constructible exactly for known (case-insensitive) names and finite non-negative thresholds; two planets built with the same name and threshold share one compiled function whatever happened before; eph never consults another planet's function.", "quantifier": "all names, thresholds and construction histories", "why_tests_cant": "Histories and strings are unbounded.", "anchors": [{"file": "src/udpla/vsop2013.cpp", "symbols": ["vsop2013::vsop2013", "vsop2013::eph"]}]}
{"id": "C44", "title": "Trajectory-encoding conversions of the MGA problems are inverse and keep times positive", "statement": "In the MGA optimisation problem the direct, alpha and eta time-of-flight encodings decode to non-negative leg durations whose sum respects the total time, and encoding followed by decoding gives back the durations.", "quantifier": "all numbers of legs, all decision vectors in the bounds", "why_tests_cant": "Unbounded number of legs, continuum of values.", "anchors": [{"file": "pykep/trajopt/_mga.py", "symbols": ["alpha2direct", "direct2alpha", "eta2direct", "direct2eta"]}]}
{"id": "C45", "title": "Every reachable high-fidelity leg can be evaluated safely", "statement": "After any history of constructor, setter and evaluation calls - including calls that threw and were caught - evaluating compute_mismatch_constraints, compute_throttle_constraints or compute_constraints of a sims_flanagan_hf leg stays inside its arrays (no undefined behaviour).", "quantifier": "all histories of constructor/setter/evaluation calls, all argument values, all integrator behaviours", "why_tests_cant": "needs every ordering of setters including those that throw half way through", "anchors": [{"file": "src/leg/sims_flanagan_hf.cpp", "symbols": ["set", "set_throttles", "set_cut", "compute_mismatch_constraints"]}]}
{"id": "C46", "title": "The direct point-to-point problem optimises what it says and its gradient is right", "statement": "fitness of direct_point2point is, for every decision vector [mf, throttles, tof], minus the final mass over the unit mass, the scaled mismatch of the Sims-Flanagan leg flown between the two states, and one throttle constraint per segment; gradient is the Jacobian of that fitness laid out along gradient_sparsity; bounds, get_nec and get_nic agree with the lengths used.", "quantifier": "all problems, all decision vectors, all numbers of segments, all directions of differentiation", "why_tests_cant": "derivatives over a continuum of vectors and an unbounded number of segments; a test compares with finite differences at few points", "anchors": [{"file": "pykep/trajopt/_direct_point2point.py", "symbols": ["direct_point2point.fitness", "gradient", "gradient_sparsity", "get_bounds", "get_nec", "get_nic"]}]}
{"id": "C47", "title": "The direct planet-to-planet problem optimises what it says and its gradient is right", "statement": "fitness of direct_pl2pl is, for every decision vector [t0, mf, vinf_s, vinf_f, throttles, tof], minus the final mass, the scaled mismatch of the leg that starts at the first planet at t0 with velocity plus vinf_s and arrives at the second at t0 + tof with velocity plus vinf_f, the throttle constraints and the two excess-velocity constraints; gradient is the Jacobian of that fitness laid out along gradient_sparsity, including the columns of the two dates.", "quantifier": "all planets, all problems, all decision vectors, all numbers of segments", "why_tests_cant": "derivatives over a continuum of vectors and of planet motions; the columns of the dates are right only for some planets", "anchors": [{"file": "pykep/trajopt/_direct_pl2pl.py", "symbols": ["direct_pl2pl.fitness", "gradient", "gradient_sparsity", "_set_leg_from_x", "get_bounds"]}]}
{"id": "C48", "title": "The fitness of a gravity assist problem is the cost of the tour it encodes", "statement": "For every sequence of planets, every encoding of the durations and every decision vector, a fitness of mga that is a number is the launch burn (the least one given the free excess velocity) plus the least powered fly-by burn at each planet on the way plus the arrival speed or the least insertion burn, of legs of two-body motion that leave and meet the planets at the encoded dates; the second objective is the time of flight. Decision vectors within get_bounds encode dates and durations within the bounds given to the constructor, which accepts exactly the documented arguments.", "quantifier": "all planets, sequences of any length, all three encodings, all decision vectors", "why_tests_cant": "the claim relates the number to all conceivable burns and to exact orbits over a continuum of vectors and planets", "anchors": [{"file": "pykep/trajopt/_mga.py", "symbols": ["mga.__init__", "get_bounds", "_compute_dvs", "fitness"]}]}
{"id": "C49", "title": "The planet made from a gravity assist solution flies that solution", "statement": "mga.to_planet(x) has an ephemeris that raises exactly outside the mission, starts at the first planet with the velocity of the first leg, follows the two-body orbit of the current leg in between and is at each planet when the leg towards it ends.", "quantifier": "all planets, all decision vectors, all dates", "why_tests_cant": "the ephemeris is a function on a continuum of dates, and the search for the current leg has to be right for every number of legs and every date including the ends of legs", "anchors": [{"file": "pykep/trajopt/_mga.py", "symbols": ["mga.to_planet", "mga_udpla.eph"]}]}
{"id": "C50", "title": "A planet's Keplerian version osculates it", "statement": "planet_to_keplerian(pla, when, mu) returns a planet that has the state of pla at when, moves on the two-body orbit through it at every other date, reports its osculating elements, copies mu_self, radius and safe radius and the name with \"(K)\" appended; without mu it uses the planet's and raises when that is unknown; applied to a planet that already is Keplerian it changes no ephemeris.", "quantifier": "all planets, dates, gravitational parameters", "why_tests_cant": "The claim relates two functions on a continuum of dates for planets of every kind.", "anchors": [{"file": "pykep/utils/_planet_to_keplerian.py", "symbols": ["planet_to_keplerian"]}, {"file": "src/udpla/keplerian.cpp", "symbols": ["keplerian::keplerian", "keplerian::eph"]}]}
{"id": "C51", "title": "A planet written in Python behaves like its methods", "statement": "planet(obj) accepts exactly the objects that are instances with a callable eph; the planet then answers every call as a planet with exactly the callable methods of obj would (defaults and fallbacks included); eph_v returns an (N,6) table whose row i is the state at date i; extract(t) returns the object when its type is t, a Python object for t = object, and None otherwise.", "quantifier": "all Python objects with any subset of the methods, all lists of dates, all types", "why_tests_cant": "There are 2^9 subsets of optional methods, and methods may raise or return anything.", "anchors": [{"file": "pykep/python_udpla.cpp", "symbols": ["python_udpla"]}, {"file": "pykep/common_utils.cpp", "symbols": ["callable_attribute", "check_mandatory_method", "check_not_type"]}, {"file": "pykep/core.cpp", "symbols": ["planet.eph_v"]}, {"file": "pykep/_patch_planet.py", "symbols": ["_planet_extract", "_planet_is"]}]}
{"id": "C52", "title": "The constants are what the documentation says", "statement": "Every constant listed in the documentation exists in pykep under the documented name and is the documented number rounded to double; DEG2RAD and RAD2DEG convert between degrees and radians to within two half units in the last place, the time units and the physical constants are consistent with each other.", "quantifier": "all documented constants", "why_tests_cant": "The tests use the constants on both sides of their comparisons; accuracy relative to pi is a statement about a real number.", "anchors": [{"file": "include/kep3/core_astro/constants.hpp", "symbols": ["pi", "DEG2RAD", "RAD2DEG", "SEC2DAY", "DAY2YEAR", "EARTH_VELOCITY", "CR3BP_EARTH_MOON"]}, {"file": "pykep/core.cpp", "symbols": ["PYBIND11_MODULE"]}, {"file": "doc/constants.rst", "symbols": ["Pykep global constants"]}]}
{"id": "C53", "title": "Plotted points are on the trajectories they stand for", "statement": "propagate_lagrangian_theta_v returns the state of the two-body motion after the position has turned by each angle; add_lambert draws the transfer arc from the first position to the second; add_ballistic_arc draws N points at equal time intervals of the propagated orbit; add_planet_orbit draws the planet at equally spaced dates over its period or the given range.", "quantifier": "all states, angles, Lambert problems, durations and numbers of points", "why_tests_cant": "Plots are looked at, not compared; the angle formula has no test, and its failure past an asymptote or for clockwise transfers still draws a smooth curve.", "anchors": [{"file": "pykep/plot/__init__.py", "symbols": ["propagate_lagrangian_theta_v"]}, {"file": "pykep/plot/_lambert.py", "symbols": ["add_lambert"]}, {"file": "pykep/plot/_ballistic.py", "symbols": ["add_ballistic_arc"]}, {"file": "pykep/plot/_planet.py", "symbols": ["add_planet", "add_planet_orbit"]}]}
{"id": "C54", "title": "Drawn legs show the flown trajectory and its throttles", "statement": "add_sf_leg draws the coast-kick-coast trajectory of the leg from both ends, marks at the ends and the middles of the segments and an arrow with the throttle of the segment at each middle; add_sf_hf_leg draws the states of get_state_history and arrows with the throttle of the segment they belong to.", "quantifier": "all legs, numbers of segments, cuts and options", "why_tests_cant": "Plots are looked at, not compared; the tests draw no leg, and throttles swapped between backward segments look plausible.", "anchors": [{"file": "pykep/plot/_sf_leg.py", "symbols": ["add_sf_leg", "add_sf_hf_leg"]}]}
{"id": "C55", "title": "SGP4 and SPICE planets are evaluated at the right instant", "statement": "A tle planet asks SGP4 for the instant of the date: the whole and fractional days add up to the Julian date of the argument, the fraction is in [0,1), and the answer is passed on in metres; a spice planet and rotation_matrix ask SPICE for the seconds past J2000 of the date; the vectorised ephemerides are the states one by one; the parameters stored in the object are those of the planet.", "quantifier": "all dates (all epochs within 90 years of 2000 for the error bounds), all answers of SGP4 and SPICE", "why_tests_cant": "Tests compare a handful of dates with tolerances of metres, far above a microsecond of motion; they need kernels and cannot tell an off-by-half-a-day from a frame or time-scale difference; never set the stored parameters.", "anchors": [{"file": "pykep/udpla/_tle.py", "symbols": ["tle.__init__", "tle.eph", "tle.eph_v", "tle.get_mu_central_body"]}, {"file": "pykep/udpla/_spice.py", "symbols": ["spice.__init__", "spice.eph", "spice.eph_v"]}, {"file": "pykep/utils/_spice_utils.py", "symbols": ["rotation_matrix"]}, {"file": "pykep/python_udpla.cpp", "symbols": ["python_udpla::eph_v", "python_udpla::get_mu_central_body"]}]}
{"id": "C56", "title": "Epochs in Python stand for the values they are made from", "statement": "pykep.epoch(v) of a datetime is the instant its fields read and keeps the order of datetimes; of a number n it is n days after 2000 (exactly for whole days, to 2 microseconds for floats within 136 years); of a string it is the date the string prints. Adding a number adds days, adding a timedelta adds that duration, and taking off what was added gives the epoch back.", "quantifier": "all valid datetimes, numbers, strings and timedeltas, all epochs", "why_tests_cant": "Tests build a handful of dates, compare at day or second resolution, never use aware datetimes, numpy scalars or microsecond timedeltas; the overload pybind11 chooses depends on the order of registration.", "anchors": [{"file": "pykep/core.cpp", "symbols": ["epoch_class", "py::init<double, kep3::epoch::julian_type>", "__add__", "__sub__"]}, {"file": "include/kep3/epoch.hpp", "symbols": ["epoch::as_sec", "epoch::days", "epoch::sec", "operator+", "operator-"]}, {"file": "src/epoch.cpp", "symbols": ["epoch::epoch", "epoch::make_tp", "epoch::tp_from_days"]}]}
{"id": "C57", "title": "lambert_problem counts and returns all transfers", "statement": "Between two positions whose plane is not vertical there is, in each direction, exactly one transfer without complete revolutions for every time, and with N of them none, one or two as the time is below, at or above a least time. The constructor reports the largest number of revolutions (within the bound asked for) that has a transfer, and its entries, when they solve the time equation, are the transfers and all of them.", "quantifier": "all positions with a horizontal component of their plane, all times, parameters, directions and bounds", "why_tests_cant": "That no transfer is missing is a statement about all velocities, which no test can enumerate; tests only check that the returned arcs arrive. The count depends on an iteration that is started in one point and never checked.", "anchors": [{"file": "src/lambert_problem.cpp", "symbols": ["lambert_problem::lambert_problem", "lambert_problem::householder", "lambert_problem::x2tof", "lambert_problem::dTdx"]}, {"file": "include/kep3/lambert_problem.hpp", "symbols": ["lambert_problem", "get_Nmax", "get_v0"]}]}
{"id": "C58", "title": "The matrices Python receives are the partial derivatives", "statement": "propagate_lagrangian (stm=True), propagate_lagrangian_v, stark_problem.propagate_var, compute_mc_grad and compute_tc_grad of both legs return arrays of the documented shapes whose entry [i, j] is the derivative of component i of the result with respect to coordinate j of the input, in the documented order of the coordinates (position, velocity, mass; throttles and then time of flight), and never views that are larger than the buffer behind them.", "quantifier": "all states, times of flight, thrusts, legs with any number of segments, throttles and cuts", "why_tests_cant": "Tests compare a few entries with finite differences at a few points and sizes; a transposed or shifted view agrees with them on symmetric cases, and a shape that exceeds its buffer reads whatever follows it.", "anchors": [{"file": "pykep/core.cpp", "symbols": ["propagate_lagrangian", "propagate_lagrangian_v", "propagate_var", "compute_mc_grad", "compute_tc_grad"]}, {"file": "src/stark_problem.cpp", "symbols": ["stark_problem::propagate_var"]}, {"file": "pykep/docstrings.cpp", "symbols": ["leg_sf_mc_grad_docstring", "leg_sf_hf_mc_grad_docstring", "stark_problem_propagate_var_docstring"]}]}
{"id": "C59", "title": "Copies of planets are independent and answer like their source", "statement": "A planet made by copy.copy, copy.deepcopy or a pickle round trip answers every call like its source; afterwards nothing done to the copy changes what the source answers; planet(x) keeps its own deep copy of x; no planet ever refers to a destroyed object.", "quantifier": "all histories of creating, copying, pickling, extracting, assigning to and deleting udplas and planets, both C++ and Python udplas", "why_tests_cant": "Independence is a statement about every later history; the test suite copies no planet.", "anchors": [{"file": "pykep/core.cpp", "symbols": ["planet_class.__copy__", "planet_class.__deepcopy__", "planet_class.pickle"]}, {"file": "pykep/common_utils.hpp", "symbols": ["generic_copy_wrapper", "generic_deepcopy_wrapper", "pickle_getstate_wrapper", "generic_py_extract"]}, {"file": "pykep/python_udpla.cpp", "symbols": ["python_udpla"]}]}
{"id": "C60", "title": "A de440s planet has its kernel as long as it exists", "statement": "The kernel loaded by de440s.__init__ is loaded as long as a de440s object exists, so its planets answer until they are deleted, and it is unloaded when the last of them goes.", "quantifier": "all histories of creating, copying and deleting de440s objects and planets made from them", "why_tests_cant": "Depends on the order in which objects die; tests create one object and keep it.", "anchors": [{"file": "pykep/udpla/_spice.py", "symbols": ["de440s.__init__", "de440s.__del__"]}, {"file": "pykep/utils/_spice_utils.py", "symbols": ["load_spice_kernels", "unload_spice_kernels"]}]}
{"id": "C61", "title": "An early stop of the Kepler solver is only a delay", "statement": "Whatever root finder is used, propagate_lagrangian and propagate_keplerian return a state of the true two-body motion; if the residual left in Kepler's equation is at most eps, it is the state at a time within eps/n of the time asked for (n the mean motion), so that position and velocity are off by at most top speed and top acceleration times eps/n, and errors of consecutive calls add up. The same holds of keplerian planets. propagate_lagrangian_u does not have this property, but its position error is at most twice the distance flown in eps/sqrt(mu).", "quantifier": "all regular non-parabolic states, all times of flight, all residuals, all root finders", "why_tests_cant": "A test compares a few states with a tolerance; that every non-converged answer is an exact point of the orbit is an algebraic identity over all states.", "anchors": [{"file": "src/core_astro/propagate_lagrangian.cpp", "symbols": ["propagate_lagrangian", "propagate_lagrangian_u", "propagate_keplerian"]}, {"file": "src/udpla/keplerian.cpp", "symbols": ["eph"]}]}
{"id": "C62", "title": "The Lambert iterations converge with orders four and three", "statement": "Started close enough to a simple solution of the time-of-flight equation (and not within 0.01 of the parabola), householder returns a number and every turn raises the scaled error to the fourth power; if it stops on its tolerance the error is of the order of the fourth power of that tolerance. halley, which searches the least time of flight for N revolutions, has order three. The constructor starts these iterations from the published initial guesses with tolerances 1e-5 and 1e-8, and an entry whose guess is close enough holds a transfer between the two positions that lasts the requested time up to that error; for times of flight around that of the transfer of least energy this holds without assumption.", "quantifier": "all lambda with |lambda| < 1, all numbers of revolutions, all simple solutions, all tolerances and turn limits, all positions, times and gravitational parameters", "why_tests_cant": "An error in a third derivative or in a coefficient of the update leaves an iteration that still converges, more slowly; tests that compare results with a tolerance pass.", "anchors": [{"file": "src/lambert_problem.cpp", "symbols": ["lambert_problem", "householder", "dTdx", "x2tof"]}]}
{"id": "C63", "title": "Low-precision planets are on their published orbits, and the Cassini problems can be evaluated everywhere in their bounds", "statement": "For every date inside the window of validity, jpl_lp (in real arithmetic) returns the state that lies on the published osculating ellipse of that day at the published mean anomaly, its elements in every form describe that state, and outside the window it throws; the table satisfies Kepler's third law. The three Cassini problems of the gym are constructed with the bodies, bounds, launch cost and insertion orbit they document; every decision vector within the bounds leads to dates inside the window, and its fitness returns one number or NaN, or raises the error of a leg in a vertical plane, never reaching undefined behaviour; get_extra_info returns a text.", "quantifier": "all names, all dates, all decision vectors within the bounds of the three encodings, every Newton solver that returns roots", "why_tests_cant": "Tests evaluate a few dates and a few decision vectors; that no decision vector in the box leaves the window of the ephemerides or the domain of the Lambert solver is a statement about a continuum.", "anchors": [{"file": "src/udpla/jpl_lp.cpp", "symbols": ["jpl_lp", "_f_elements", "eph", "elements"]}, {"file": "pykep/trajopt/gym/_cassini_mga.py", "symbols": ["_cassini1_udp", "_cassini1a_udp", "_cassini1n_udp", "get_extra_info"]}, {"file": "pykep/trajopt/_mga.py", "symbols": ["mga", "fitness"]}]}
{"id": "C64", "title": "The text of an object states its data", "statement": "Printing a Sims-Flanagan leg of either kind, a planet, a Lambert problem or a Stark problem is defined for every constructed object and does not throw, every line carries the datum its label names, angles are in degrees and elements are those of the body's state; with a format that distinguishes numbers, two objects with the same text have the same data.", "quantifier": "all legs, all Lambert problems the constructor accepts in any arithmetic, all non-singular states, all low-precision planets, all number formats", "why_tests_cant": "Tests compare the text of a few objects, or only check that printing does not crash; that no vector is read outside its range for any number of revolutions, and that no two different objects print alike, are statements about all objects.", "anchors": [{"file": "src/leg/sims_flanagan.cpp", "symbols": ["operator<<"]}, {"file": "src/leg/sims_flanagan_hf.cpp", "symbols": ["operator<<"]}, {"file": "src/lambert_problem.cpp", "symbols": ["operator<<"]}, {"file": "src/stark_problem.cpp", "symbols": ["operator<<"]}, {"file": "src/planet.cpp", "symbols": ["operator<<"]}, {"file": "src/udpla/keplerian.cpp", "symbols": ["get_extra_info"]}, {"file": "src/udpla/jpl_lp.cpp", "symbols": ["get_extra_info"]}]}
{"id": "C65", "title": "Vector helpers, angles and throttle constraints are accurate", "statement": "In double arithmetic the cross product, normalisation, the cosine of the fly-by angle and the throttle constraints differ from their exact values by a few roundings: the normalised vector by 10 units of 2^-53 per component, the cross product by 3 units of the product of the lengths, the cosine by 16 units, a throttle constraint by 6|u|^2 + 2 units; parallel vectors give exactly zero and swapped arguments the exact opposite; a throttle reported admissible exceeds length one by rounding only.", "quantifier": "all vectors of doubles with components up to 2^500 and lengths down to 2^-500 (2^-200 to 2^200 for the cosine); all throttle lists", "why_tests_cant": "Tests compare with a tolerance on a few vectors; a bound for every input, and the exact cases, need error analysis.", "anchors": [{"file": "src/linalg.cpp", "symbols": ["_cross", "_normalize"]}, {"file": "src/leg/sims_flanagan.cpp", "symbols": ["compute_throttle_constraints"]}, {"file": "src/core_astro/flyby.cpp", "symbols": ["fb_con", "fb_dv"]}]}
{"id": "C66", "title": "The transfer plane of a Lambert problem is accurate", "statement": "In double arithmetic the unit normal of the transfer plane differs from the exact one by at most 100 units of 2^-53 divided by the sine of the transfer angle, so the choice between the short and the long way is the right one unless the plane is vertical to that precision; collinear positions are noticed.", "quantifier": "all pairs of positions of doubles with components up to 2^500 and lengths at least 2^-500; every way of computing lengths to 7 roundings", "why_tests_cant": "Tests use positions in general position; the loss of accuracy near collinear positions, and inputs for which the plane is made of rounding errors, are not met by chance.", "anchors": [{"file": "src/lambert_problem.cpp", "symbols": ["lambert_problem::lambert_problem"]}]}
{"id": "C67", "title": "The picture of the solar system shows the planets where they are", "statement": "add_solar_system draws the Sun and, for every planet asked for, one curve of sixty points of the osculating two-body orbit at the date, covering one full revolution, and one dot at the published position of that date with the size given for that planet; every planet has its own colour, shared by curve and dot.", "quantifier": "all lists of bodies, all dates, all lists of sizes", "why_tests_cant": "A plot is looked at, not compared; the default call leaves out the last two planets, so their branches are not run.", "anchors": [{"file": "pykep/plot/_planet.py", "symbols": ["add_solar_system", "add_planet", "add_planet_orbit"]}, {"file": "pykep/plot/__init__.py", "symbols": ["add_sun"]}, {"file": "src/udpla/jpl_lp.cpp", "symbols": ["jpl_lp::eph"]}]}
{"id": "C68", "title": "NAIF identifiers and names correspond", "statement": "naifid2name returns a name listed for the identifier (the last one) or \"Not Found\" exactly when there is none; different identifiers get different names, so that name2naifid undoes it; and it undoes name2naifid.", "quantifier": "all integers; every SPICE that knows the names of the table", "why_tests_cant": "A test looks up a few bodies; duplicate keys of a dictionary display are silently overwritten, which a lookup of another body does not show.", "anchors": [{"file": "pykep/utils/_spice_utils.py", "symbols": ["naif_dict", "naifid2name", "name2naifid"]}]}
{"id": "C69", "title": "The pictures of trajectories show the trajectories that the fitness evaluates", "statement": "mga.plot draws every planet of the sequence where the spacecraft meets it and over one of its years, and for the legs asked for (negative numbers count from the end, others are refused) the arcs of the same tour whose cost is the fitness; the plot methods of the direct problems draw the two halves of the leg whose difference is the mismatch, its ends and its planets, all in the unit of length asked for.", "quantifier": "all problems, decision vectors, units and numbers of points; all ephemerides known over a year", "why_tests_cant": "Plots are never compared with the trajectory; a coordinate divided by a different unit is invisible with the default unit.", "anchors": [{"file": "pykep/trajopt/_mga.py", "symbols": ["plot"]}, {"file": "pykep/trajopt/_direct_point2point.py", "symbols": ["plot"]}, {"file": "pykep/trajopt/_direct_pl2pl.py", "symbols": ["plot"]}, {"file": "include/kep3/planet.hpp", "symbols": ["period"]}]}
{"id": "C70", "title": "A direct transfer is found however long it lasts", "statement": "Entry 0 of a Lambert problem holds the direct transfer whatever the time of flight; false from 40000 time units on, where the first step from the initial guess leaves the domain of the time of flight equation and the entry is NaN or, from 4000000 time units on, a finite velocity that never leads to r1.", "quantifier": "all pairs of positions not in a vertical plane, both directions, all gravitational parameters, all times of flight of at least 40000 time units", "why_tests_cant": "Tests use times of flight of a few periods; the failure sets in at thousands of periods and then shows no error flag.", "anchors": [{"file": "src/lambert_problem.cpp", "symbols": ["lambert_problem::lambert_problem", "lambert_problem::householder", "lambert_problem::dTdx", "lambert_problem::x2tof"]}]}
{"id": "C71", "title": "vsop2013 planets fill the planet interface", "statement": "The ephemeris of a vsop2013 planet is the VSOP2013 series at the date counted in thousands of Julian years from J2000, in metres and metres per second, with velocities that are the time derivatives of the positions; and the rest of the planet interface, with the problems built on it, works for these planets.", "quantifier": "all series, dates, planets and thresholds; all decision vectors", "why_tests_cant": "Tests compare a handful of dates with stored numbers; missing methods show only when they are called.", "anchors": [{"file": "src/udpla/vsop2013.cpp", "symbols": ["vsop2013::eph", "vsop2013::vsop2013", "vsop2013::get_name"]}, {"file": "include/kep3/planet.hpp", "symbols": ["get_mu_central_body", "period", "elements"]}, {"file": "pykep/trajopt/_mga.py", "symbols": ["__init__", "fitness"]}]}
{"id": "C72", "title": "lambert_problem finds direct transfers that are short", "statement": "For every geometry and both senses of motion, when the time of flight is short, lambert_problem returns and its entry 0 leads from r0 to r1 in the time asked for up to the tolerance of the iteration.", "quantifier": "all non-collinear r0, r1 (in the plane sense of the code), all mu > 0, both senses of motion, all times of flight up to (1 - lambda |lambda|)/100 time units, all numbers of revolutions asked for", "why_tests_cant": "Tests draw times of flight of a few time units; whether the initial guess of the hyperbolic case is good enough for every lambda cannot be sampled.", "anchors": [{"file": "src/lambert_problem.cpp", "symbols": ["lambert_problem::lambert_problem", "lambert_problem::householder", "lambert_problem::x2tof", "lambert_problem::dTdx"]}]}
{"id": "C73", "title": "lambert_problem finds direct transfers at and beyond the time of least energy", "statement": "For every geometry with |lambda| up to 4/5 and every time of flight from that of the ellipse of least energy to 3/2 time units more, lambert_problem returns and its entry 0 leads from r0 to r1 in the time asked for up to the tolerance of the iteration.", "quantifier": "all r0, r1 with |lambda| <= 4/5, all mu > 0, both senses of motion, all times of flight in the range, all numbers of revolutions asked for", "why_tests_cant": "Tests sample geometries and times; that fifteen turns from the initial guess are enough for all of them needs bounds on the time of flight and its derivatives that hold for every lambda.", "anchors": [{"file": "src/lambert_problem.cpp", "symbols": ["lambert_problem::lambert_problem", "lambert_problem::householder", "lambert_problem::x2tof", "lambert_problem::dTdx"]}]}
{"id": "C74", "title": "The printed reports tell the truth about the trajectory", "statement": "For every decision vector, the report printed by pretty() of mga, direct_pl2pl and direct_point2point is the one of the trajectory that the fitness evaluates: planets in order, dates, velocities of the spacecraft, velocities relative to the planets, burns, times of flight, final mass, and a total that equals the objective.", "quantifier": "all problems (any number of legs and segments, the three encodings) and all decision vectors", "why_tests_cant": "No test prints a report; a line that shows the wrong leg, date or burn stays unnoticed.", "anchors": [{"file": "pykep/trajopt/_mga.py", "symbols": ["pretty", "_compute_dvs"]}, {"file": "pykep/trajopt/_direct_pl2pl.py", "symbols": ["pretty"]}, {"file": "pykep/trajopt/_direct_point2point.py", "symbols": ["pretty"]}]}
{"id": "C75", "title": "The constructor of mga accepts what its documentation says and does nothing to its arguments", "statement": "For every choice of Python objects as arguments, the constructor of mga either raises the exception that names the fault, or makes a problem with these arguments and the bounds they describe; it does not change the objects of the caller, a rejected call has no effect, and problems do not influence each other.", "quantifier": "all heaps of lists of numbers, epochs, strings, None, planets and lists, with any sharing among the arguments", "why_tests_cant": "Tests build the problem from fresh literals; shared lists, rejected calls, dates that are not two, and wrong types are a space no test covers.", "anchors": [{"file": "pykep/trajopt/_mga.py", "symbols": ["__init__", "get_bounds"]}]}
{"id": "C76", "title": "Evaluations of the direct problems do not depend on earlier ones", "statement": "direct_point2point and direct_pl2pl keep one leg that every method overwrites. Whatever methods were called before on the problem, with whatever vectors, raising or not, fitness, gradient and the leg that is printed or drawn are those of the vector given now and the arguments of the constructor; a call that raises leaves the problem as it was.", "quantifier": "all constructor arguments, all finite sequences of earlier calls of fitness, gradient, pretty and plot with arbitrary vectors, all vectors", "why_tests_cant": "Tests evaluate a fresh problem; dependence on the sequence of earlier calls, in particular on those that raised half way, is an unbounded space.", "anchors": [{"file": "pykep/trajopt/_direct_point2point.py", "symbols": ["__init__", "_set_leg_from_x", "fitness", "gradient", "pretty", "plot"]}, {"file": "pykep/trajopt/_direct_pl2pl.py", "symbols": ["__init__", "_set_leg_from_x", "fitness", "gradient", "pretty", "plot"]}, {"file": "src/leg/sims_flanagan.cpp", "symbols": ["set_tof", "set_rvs", "set_throttles", "set_rvf", "set_mf", "set_cut"]}]}
