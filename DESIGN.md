# Formal model of esa/kep3 in Rocq — design

Source: `/repo` (read as text, never built or run). Model and proofs: `/verif/rocq/theories` (logical name `Verif`).
Properties: `/verif/properties.jsonl` (C01–C76). Status and theorem names: `/verif/MANIFEST.json`.
Wrong programs tried against the theorems: `/verif/seeded/LOG.jsonl`.

## 1. Trusted base

* Coq 8.16.1's kernel, including `vm_compute`. No plugin, no switched-off check, no `Admitted`, no axiom of this project,
  no functor or module type of this project.
* The axioms that `Print Assumptions` lists under each property theorem (section 9 gives the list per theorem). They are the standard
  library's `ClassicalDedekindReals.sig_forall_dec`, `ClassicalDedekindReals.sig_not_dec`,
  `FunctionalExtensionality.functional_extensionality_dep` (the construction of the real numbers) and `Classical_Prop.classic`
  (used by Coquelicot, Flocq and the standard library's analysis). Coquelicot, Flocq and mathcomp are used as libraries of proved lemmas; none of their
  own axioms, if any, occurs.
* The reading of the C++ (and, for C44 and C46–C56, Python) text. Every definition of a `*Model.v` file cites the file and the lines it models and states its simplifications.
* The assumptions about external code in section 4. They are hypotheses of the theorems that need them, never axioms.

## 2. Modelling conventions

* **Outcomes.** `Outcome.outcome A = Ret a | Throw e | UB`. Signed overflow, out-of-range conversions to integers and accesses outside an array give `UB`.
  `StateMonad.sm S A = S -> S * outcome A` for member functions: the state component is what the object looks like after the call, also when it threw.
* **Integers** are `Z` with explicit range checks where C++ overflows and explicit wrap (`mod 2^32`, `mod 2^8`) where C++ wraps.
* **Doubles, bit-exact** (Flocq `binary64`): epochs, validation and segment split of the legs, the state machines of the high-fidelity leg and of stark_problem, state history, planet and jpl_lp.
* **Doubles as real numbers** (Coq's `R`): the astrodynamics formulas, Lambert, the mismatch and the gradients of the legs, MGA encodings. Rounding is abstracted away; this is
  said again at the head of each such file. Where the code can produce a NaN or an infinity the model returns `None` (`PartialReal.v`) instead of
  Coq's totalised `/ 0`, `sqrt` of a negative number and so on.
* **Control flow for every arithmetic**: the Lambert constructor is a function of a record of operations (`LambertModel.arith`); C22 and C25_throws are proved for every such
  record, C23–C25 for its real instance.
* **Threads** (C36): small-step interleaving of any number of threads over mutexes and shared maps.
* **Layout.** `XModel.v` definitions only; `XSpec.v` specification vocabulary that does not mention the code's algorithms; `XProofs.v`, `XMain.v`, ... lemmas;
  `PropX.v` property theorems only, each closed by `exact`, with `Print Assumptions` beneath, and examples.

## 3. What is modelled

| code | model | properties |
|---|---|---|
| `epoch.hpp`, `epoch.cpp`, `convert_julian_dates.hpp` | `EpochModel` | C01–C07 |
| `kepler_equations.hpp`, `special_functions.hpp`, `convert_anomalies.hpp` | `KepModel` | C08, C09, C11 |
| `propagate_lagrangian.cpp` (lagrangian, `_u`, `_v`), `stm.cpp` 1–136 | `TwoBodyModel` | C10, C12–C15, C17, C61 |
| `stm.cpp` 137–202, `linalg.cpp` | `ReynoldsModel` | C18 |
| `propagate_lagrangian.cpp` (keplerian) | `KeplerianModel` | C16 |
| `ic2par2ic.cpp`, `ic2eq2ic.cpp`, `eq2par2eq.cpp` | `ElemModel` | C19, C20 |
| `flyby.cpp` | `FlybyModel`; in doubles `FlybyFloatModel` | C21 |
| `lambert_problem.cpp` | `LambertModel`, `LambertReal` | C22–C25, C57, C62, C70, C72, C73 |
| `leg/sf_checks.cpp`, data of `leg/sims_flanagan.cpp` | `LegModel` | C26, C27 |
| `leg/sims_flanagan.cpp` evaluation and gradients | `SfModel`, `TcModel` | C28–C30 |
| data and evaluation of `leg/sims_flanagan_hf.cpp` | `HfModel`, `HistModel` | C31, C34, C41, C42, C45 |
| gradient of `leg/sims_flanagan_hf.cpp` | `HfGradModel` | C32 |
| all `serialize`, `save`, `load` members | `SerialModel` | C33 |
| `stark_problem.cpp`; caches of `ta/stark.cpp`, `ta/cr3bp.cpp` | `StarkModel`, `CacheModel` | C35, C36 |
| `planet.hpp`, `planet.cpp` | `PlanetModel`, `KplaModel` | C37, C38 |
| `udpla/keplerian.cpp` | `KplaModel` | C38 |
| `udpla/jpl_lp.cpp` | `JplModel` | C39 |
| right-hand sides in `ta/stark.cpp`, `ta/cr3bp.cpp`, `get_state_derivative`, `dyn` | `DynModel` | C40 |
| `udpla/vsop2013.cpp` construction and cache | `VsopModel` | C43 |
| `udpla/vsop2013.cpp` in the planet interface: time coordinate, units, missing methods | `VsopPlanetModel` | C71 |
| `pykep/trajopt/_mga.py` encodings | `MgaModel` | C44 |
| `pykep/trajopt/_direct_point2point.py`, `_direct_pl2pl.py` | `DirectModel` | C46, C47 |
| `pykep/utils/_planet_to_keplerian.py` | `P2kModel` | C50 |
| `pykep/python_udpla.cpp`, `common_utils.cpp`, `_patch_planet.py`, `planet.eph_v` in `core.cpp` | `PyPlanetModel` | C51 |
| `constants.hpp`, constants in `core.cpp` | `ConstModel` | C52 |
| `pykep/plot/__init__.py`, `_lambert.py`, `_ballistic.py`, `_planet.py` (`add_planet`, `add_planet_orbit`) | `PlotModel` | C53 |
| `pykep/plot/_planet.py` (`add_solar_system`), `add_sun` | `SolarModel` | C67 |
| `naif_dict`, `naifid2name`, `name2naifid` of `pykep/utils/_spice_utils.py` | `NaifModel` | C68 |
| `plot` of `pykep/trajopt/_mga.py`, `_direct_point2point.py`, `_direct_pl2pl.py`; default `period()` of `planet.hpp` | `TrajPlotModel` | C69 |
| `pykep/plot/_sf_leg.py` | `PlotLegModel` | C54 |
| `pykep/udpla/_tle.py`, `pykep/udpla/_spice.py` (dates, states, tables, parameters), `rotation_matrix` in `pykep/utils/_spice_utils.py` | `PyEphModel` | C55 |
| `pykep/core.cpp` 336-369, 390-440, 506-571, 631-696 (arrays returned by the propagators and the legs), `stark_problem::propagate_var` over the reals | `PyMatModel` | C58 |
| `pykep/core.cpp` 186-201, 269 (copy, deepcopy, pickle, extract of planets), `pykep/common_utils.hpp` 57-86, 116-155, `pykep/udpla/_spice.py` 88-113 (kernel of a de440s) | `PyCopyModel` | C59, C60 |
| `pykep/core.cpp` 125-189 (constructors, sums and differences of epochs in Python), the parts of pybind11 they use (overload resolution, casters of float, int, str and timedelta) | `PyEpochModel` | C56 |
| `udpla/jpl_lp.cpp` over the reals, with the modelled conversions | `JplRealModel` | C63 |
| constructor and bounds of `pykep/trajopt/_mga.py` on Python objects, with a heap of lists | `PyMgaModel` | C75 |
| `pykep/trajopt/_direct_point2point.py`, `_direct_pl2pl.py` as objects with a leg that every call overwrites; setters of `sims_flanagan.cpp` | `DirectStateModel` | C76 |
| `pretty` of `pykep/trajopt/_mga.py`, `_direct_pl2pl.py`, `_direct_point2point.py` | `ReportModel` | C74 |
| `pykep/trajopt/gym/_cassini_mga.py` | `GymModel` | C63 |
| `pykep/trajopt/_mga.py` construction, bounds, fitness, `to_planet` | `MgaFitModel` (theorems also in `MgaRange`, `MgaNan`, `MgaMiss`) | C48, C49 |
| stream operators of the legs, `lambert_problem`, `stark_problem` and `planet`; `get_extra_info` of `keplerian` and `jpl_lp` (the formatting of one number is a parameter) | `TextModel`, `TextObjModel` | C64 |
| `_cross`, `_normalize`, the throttle constraints, the argument of `acos` in `fb_con`/`fb_dv` and the transfer plane of `lambert_problem`, in binary64 with every rounding | `FloatVecModel`, `FlybyFloatModel` | C65, C66 |

Not modelled: the remaining stream operators and descriptive strings, the formatting of a number by fmt and iostreams; the pybind11 bindings other than those listed; colours, axes and line styles of the plots; the other Python modules
(the `trajopt` problems not listed, SPICE kernels and names, MBH); the internals of heyoka, Boost, xtensor, fmt and the
compiler's floating point; the numerical values of the VSOP2013 series; rounding errors in the real-number models (the models in binary64 are named in the table); memory exhaustion and performance.

## 4. Assumptions about external code

* **Boost `newton_raphson_iterate`** (`newton`): `newton_ok` — for a differentiable function with a sign change over the bracket and a guess inside, it returns an exact root inside the
  bracket; `newton_sound` — what it returns is a root (nothing about when); `picky` — it answers exactly when the bracket is right, used to show that a bracket is wrong.
  `newton_within eps` — what it returns leaves a residual of at most eps (C61: then the result is the exact state of a delayed time).
  `newton_ok`, `newton_sound` and `inv_ok` are satisfiable together (C08_newton_exists, C18_solvers_exist).
* **Boost `bracket_and_solve`, iteration limits** are not separated from `newton`: a solver that gives up is one that returns `None`, and the model throws there as the code does.
* **xtensor**: `xt::linalg::inv` inverts a 6×6 matrix exactly when its kernel is trivial (`inv_ok`) and throws otherwise; `dot` is the matrix product in exact arithmetic; assigning to a
  view goes through a temporary, so overlapping sides are evaluated first.
* **heyoka `taylor_adaptive`**: a call of `propagate_until` depends only on tolerance, parameters, state and time and does not change the dimension of the state (`integ_dim`; `grid_dim` for `propagate_grid`). Nothing else is assumed for
  C31, C34, C35, C41, C42, C45. For C32 the integrators are exact: what they return is the value of a solution of the equations of DynModel (`tas_exact`), with the sensitivities that
  solve the variational equations (`tas_var_exact`). The equations themselves are modelled from `ta/stark.cpp`.
* **Caches**: building an integrator for a key is deterministic; `std::unordered_map` keeps references valid; the mutexes are mutual-exclusion locks.
* **std::chrono** (libstdc++): `year`, `month`, `day` narrow to 16 and 8 bits; `sys_days` is the documented day count; `system_clock` counts from 1970.
* **fmt**: `%FT%T` prints ISO fields with six decimals of seconds. `std::stoi` skips blanks and accepts a sign and stops at the first other character.
* **Boost.Serialization**: an archive is the list of values written, read back in the same order; heyoka's integrators are archived exactly.
* **libm** in C39: `sin` and `cos` of a finite double are finite and within [-1, 1]; `m2f` returns a finite number when it returns. In the real-number models the functions are exact; `atan(k tan x)` at the poles of
  the tangent has the limit value, as the code's double never hits them.
* **SGP4, SPICE**: functions of the date; their array forms give the value of the scalar form for each entry (hypothesis of C55_tle_table; for SPICE that is how spiceypy is written).
* **Vectors** hold fewer than 2^32 (legs: 2^32 − 100) doubles, as the code's unsigned sizes require.
* **Lambert, infinities**: the real instance treats an infinity as a NaN. An infinite iterate becomes a NaN at the next evaluation, so results agree and only an iteration count may differ by one.

## 5. Properties: how each is modelled and proved, and what is missing

* **C01** `make_tp` in Z with overflow as `UB`; the calendar is specified by the leap-year rule and month lengths alone; proof through the 400-year cycle. Complete.
* **C02** narrowing of chrono's fields modelled; exact accepted set; `C02_rejects_refuted` (month 257).
* **C03** laws of the operators with the exact overflow boundary; the documented reference point of `epoch(duration)` is refuted.
* **C04, C05** bit-exact; error analysis of the conversions; monotone; exact round trip refuted, error at most 1 µs.
* **C06, C07** printer and parser on lists of characters; the round trip inverts the calendar; strictness of the parser is refuted, and `C07_accepted` says exactly which strings are accepted and what instant they give, from a description of the numeric fields that does not mention the parser (`FieldSpec.v`).
* **C08, C09** atan/tan/sinh over R; the guess of `m2e` and its bracket proved for all mean anomalies; `n2h` refuted beyond its fixed bracket.
* **C10** the bracket of every Kepler equation either proved to enclose the unique root or refuted with a witness.
* **C11** `is_derive` for all Kepler functions and derivatives; `dd_kepDS` refuted; Stumpff functions equal their power series.
* **C12–C15** the propagators return the value of the unique solution of the two-body equation (existence and uniqueness proved in `FlowProofs`); conservation, group law, period and agreement follow. Hyperbolas
  beyond the solver's bracket are excluded or refuted.
* **C16** composition of C08, C13, C19.
* **C17** the 36 entries are the derivative of the flow along every differentiable curve of initial states.
* **C18** the columns of Y solve the variational equations; equality with C17 entry by entry; parabolas refuted.
* **C19, C20** osculating elements are defined by elementary rotations of a conic; both directions, ranges and exact domains; exceptions listed in section 6.
* **C21** vector algebra; minimality of `fb_dv` over all reachable unpowered velocities. In doubles (Flocq, source order, no fused operations; `acos` of the C library assumed NaN above 1): witness of a NaN constraint; `sqrt(x*x) = x` for every double `x` in the range, hence an unchanged velocity gives argument 1 exactly.
* **C22** for every arithmetic: shape of the result, iteration counts, no index outside; the only `UB` is the conversion of T/π. `Nmax + 1` wraps (refuted).
* **C23, C24** over R: one conic in the requested direction for every iterate; a solution of the code's equation is a transfer in the requested time; the number of solutions; derivatives. Global convergence of the
  iterations is not claimed by the property and not proved.
* **C25** exact set of rejected inputs in the real-number model (the planned binary64 evaluation was replaced by it); collinear and parabolic inputs return NaN (refuted).
* **C26, C27** bit-exact; invariant over all histories of setters; each setter stores its argument and refuses exactly the arguments out of range; `set` refuted.
* **C28–C30** flows from C13, rocket equation in closed form; induction over segments; the gradient differentiates the flow jointly in state and time (`SfFlow`), the chain rule is carried along the lists.
* **C31, C41, C42, C45** state machine with explicit integrator parameter blocks; refuted setters; all histories otherwise. The last clause of C42 (the vanishing of the mismatch does not depend on the cut) is a statement
  about exact flows: `HfCut` proves that a leg has zero mismatch exactly when one uninterrupted flight through all segments joins the two ends, for any thrust including none.
* **C32** `OdeLib` proves that solutions of an ODE depend differentiably on initial values and parameters, with the variational equation as derivative (Gronwall); the arrays of `get_relevant_gradients` are shown to carry
  out the chain rule. The factor max_thrust is missing from the throttle columns (refuted).
  `OdeNear` proves that solutions exist next to a solution (Picard iteration in a tube around it), so that the neighbouring legs can be flown (`HfNear`, `HfCoastMain`). Coasting segments are covered as long as they keep coasting
  (`HfCoast`: the same analysis with the thrust held fixed); making one thrust is not differentiable, C32_coast_refuted. The exact integrator is asked nothing about the thrust columns at zero thrust, where heyoka returns 0 for the mass.
* **C33** one list of fields per class, read from the `serialize` members; `sims_flanagan_hf` refuted.
* **C34** index arithmetic modulo 2^32; one segment refuted.
* **C35** state machine over abstract integrators, all histories.
* **C36** invariants over all interleavings; the two `_var_cache_dim` functions refuted.
* **C37** record of optional methods, list induction; the default period is compared with Kepler's third law over the reals by relative rounding errors, operation by operation (PlanetPeriodProofs). **C38** composition of C13, C16, C19, C20.
* **C39** the table as rationals; interval bounds evaluated in the kernel; bit-exact. `C39_element_types` adds which conversion each element type goes through. `C39_eph_accurate` bounds the rounding error of the computed state against the orbit written with the argument of latitude (`JplErrSpec.v`); it assumes a sine and a cosine within 2^-52 of the exact ones, and such functions are exhibited. `C39_constants` pins the gravitational parameter, radius and safe radius of each planet.
* **C40** derivative of the first integrals along any solution. **C43** cache state machine. **C44** lists of reals.
* **C46, C47** the Python assembles the arrays of C28–C30; the sparse layout is read as a list of (row, column) pairs whose entries are summed; derivative along every differentiable curve of decision vectors. For C47 the planets are arbitrary
  functions of the date: exact for two-body planets of the leg's mu, for all planets when the dates stay fixed, refuted otherwise.
* **C48, C49** legs from C23 and C24, burns from C21, orbits from C13; the spec names only planets, dates, orbits and burns and quantifies over all burns for minimality; lists of any length by index. Missing: convergence of the
  Lambert iteration: the legs last the encoded time up to `tol` seconds, where `tol` bounds the error of the time of flight at the `x` where the iteration ended (`all_within`, for every `tol`; C48_residual relates it to the residual that the code could evaluate).
  In the range of C72 and C73 (`in_range`, stated from positions and times alone) no assumption on the iterations is left: `MgaRange` derives `all_within` from the convergence theorems, with tol 4 parts in 10^8 of the leg (C48_fitness_range, C49_trajectory_range). `MgaMiss` turns the error in time into a distance: at the end of a leg the trajectory is at most tol seconds, at the speed of the leg's periapsis, away from the next planet (C49_miss, C49_range_miss; bound by the mean value theorem along the orbit).
* **C50** composition of C38 and the group law of the flow. **C51** a Python object is a record of attributes (absent, not callable, method); the wrapper is compared with the planet that has exactly the callable ones. **C52** the documentation's table as exact
  decimals; π by Machin's series from the standard library; everything else is evaluated.
* **C53** the angle is followed continuously: along the universal variable its derivative is √p/r, so the swept angle is an integral, onto the interval of directions where 1 + e·u > 0; the closed formulas are compared with it. On ellipses less than a
  period sweeps less than 2π (least period, C38), which fixes the angle of a Lambert arc. **C54** induction over the segments, simultaneously with C28's description of the flight; the high-fidelity part is list reasoning, composed with C34.
* **C55** doubles bit by bit: the fractional part of a double is a double, so the subtraction of the whole days is exact; every other operation contributes one rounding. SGP4 and SPICE are arbitrary functions.
* **C56** bit by bit: the calendar of C01 for datetimes (day numbers are ordered as dates), the rounding of the two multiplications by a number of microseconds, the round trip seconds/microseconds of a timedelta, case analysis over the overloads in the order of registration.
* **C57** every transfer is one of the code's velocities for exactly one x (the angular momentum is monotone in x; the universal anomaly of an arrival is known up to whole turns), so transfers are solutions of T(x) = T, which C24 counts. The
  count: case analysis around ⌊T/π⌋; a single stationary point. Refutation: the first Halley step from x = 0 is explicit, lands at x ≥ 4, and the region x ≥ 4 is invariant. For |λ| ≤ 4/5 numerical bounds on T'', T''' and T'''' along [0, 0.26] (from the recurrence between them) show that the first step
  from x = 0 lands within 0.29 x_min of the stationary point and the later ones contract cubically (`LambertHalley`). Missing: Halley's iteration for 4/5 < |λ|, Householder's away from a solution.
* **C58** a view in C order of a buffer of rows × cols numbers has the entry [i, j] at cols·i + j; the Jacobians of C17, C30, C29 and C32, which speak of all curves of inputs, are applied to the curves that move one coordinate. `propagate_var` is proved from the
  one-segment step of C32, and the neighbouring flights from `OdeNear` (Picard iteration next to a solution). Missing: the columns of a zero thrust, where there is no derivative (C32_coast_refuted).
* **C59, C60** invariants of histories: every name and planet refers to a live object; the udpla wrapped by a planet never changes; an object changes only by assignment; loads of the kernel minus live
  de440s objects is the number of explicit loads. SPICE is treated both as counting repeated loads of a file and as not counting them; its documentation was not at hand.
* **C61** Kepler's equation is the identity `T(x) = sqrt(mu) t` along the universal curve, so a residual is a shift of t; the distance of two states of an orbit by the mean value theorem and r >= periapsis.
* **C62** Taylor's formula with integral-free remainders (mean value theorem on the remainder as a function of its base point) gives the error of one turn of each iteration; the derivatives of T up to the fifth order come from the differential equation of T; bounds on a compact interval give one constant, an induction over the turns the powers 4^k and 3^k. The code's x2tof equals T outside the Battin interval, hence the distance 0.01 from the parabola.
* **C63** the linear model of the table evaluated with C13 and C20; perihelion distances bound the positions from below, so that a leg of at most 9270 days is a valid Lambert problem; C48_total (every leg in the domain returns or is in a vertical plane). Bounds of the
  decision vectors imply dates inside the window for the three encodings. Missing: the other problems of the gym.
* **C64** a text is a list of lines; a number's text contains neither a newline nor a comma nor a bracket, so a text splits in one way only. C64_lambert_text uses the sizes of C25, C64_lambert_a the energy of the transfer (C25), C64_keplerian and C64_jpl the conversions (C20) and C63.
  A format that distinguishes all doubles exists (C64_formats); over the reals no such format exists (a text is one of countably many), so the theorems over the reals assume nothing about it, or only that its characters are those of numbers.
* **C65, C66** every operation of binary64 is the exact one followed by one rounding, which changes a number by at most u = 2^-53 of itself plus 2^-1075 (Flocq); the errors are added up along the expressions, with Cauchy's inequality for sums of products. The constants are not
  the best possible. For C66 the way `xt::linalg::norm` sums is a parameter that only has to be accurate to 7 roundings, which the plain formula is (C66_plain_norm); the counterexamples use the plain formula. Missing: errors behind the transfer plane (time of flight equation, velocities).
* **C67** the list of the calls of `scatter` and `plot` is the model of the picture. Every block is the composition of functions with their own properties: C63 (position), C50 (osculating planet), C38 (period), C53 (points drawn); the blocks are traversed by induction, and Uranus's
  explicit range is compared with its period over the whole window. Not modelled: the axes, and what a NaN position would look like.
* **C68** a dictionary is the list of its items; that a display keeps the last value of a key is proved by induction for all displays, that no name of the table has two identifiers by computation on the table. `bodn2c` of SPICE is a parameter that knows the names of the table.

* **C69** a picture is the list of the calls of `scatter` and `plot`. It composes C48 (the tour and its cost), C53 and C54 (points of an arc and of a leg), C46 and C47 (direct legs): the planets are traversed by induction over the sequence, the legs through `asked_legs`. The statement about the picture names positions and motions only. Whether the low-precision planets can be drawn is decided by bounding their period from the published semi-major axes: below 18000 days for Mercury to Saturn, above 20000 for Uranus and Neptune, whereas the ephemeris ends 18263 days after 2000. The direct methods divide the first coordinate of the ends by the AU; the theorem states exactly when the dot is at its place.
* **C70** near x = -1 the derivatives of the time of flight are -3, 15 and -105 times the time of flight over powers of 1 - x^2, with errors bounded by the distance from -1; the code's guess 1 + x = 4/(T - T00 + 4) makes the time of flight at the guess at least
  25 times the time asked for, so that a turn of `householder` moves by at least 4 times the distance from -1. Beyond -1 the argument of the logarithm of `x2tof` is negative (NaN), and the velocity belongs to a motion that never arrives (by the uniqueness of C57).
* **C71** the series of heyoka is a function of thousands of Julian years giving AU and AU per day; that its velocities are the derivatives of its positions is a hypothesis of C71_moving only. The conversions in doubles are bounded as in C65. The missing methods follow from the
  dispatch of C37's planet; that an mga without a positive mu_central_body cannot be evaluated is proved for all bodies, not only these.
* **C72** for x from 72 on the time of flight is (1 - lambda |lambda|) p / x with p within 0.0051 of 1, and its derivatives are those of a multiple of 1/x up to a few percent, uniformly in lambda; one turn of the iteration started
  within a quarter of the root then divides the error by 4 (`short_turn`), and the guess of the code for T <= T1 is that close (`short_start`). Fifteen turns and the tolerance 1e-5 then give 4 parts in 10^8 of the root and of the time of flight.
* **C73** the time of flight satisfies a linear differential equation (its derivative is `D1`), so that functions that grow faster or slower bound it (`compare`): tau(-z) lies between T00 + 2z/(1-z) and T00 + 4z/(1-z), which puts the root
  between -d/(d+2) and the guess -d/(d+4), d = T - T00. On that range the first three derivatives alternate in sign and are bounded by multiples of the first (`region`), and the slope at the root is at most twice the slope at the guess
  (`slope_ratio`). A turn of the iteration then reduces the error by a third at least, and to 56 times its cube (`turn`), so that seven turns followed by eight reach the tolerance.
* **C74** a report is the list of the calls of print. ReportSpec writes down the report of a tour from planets, dates, orbits and burns alone; the run of `_compute_dvs` is opened leg by leg (`dvs_open`), the legs come from `mga_core` of C48, the zip over the fly-bys by index. Total and cost: by computation. Direct problems: the leg of the report is the one whose mismatch is in the fitness.
* **C75** Python values are an inductive type, lists live in a heap, so that sharing between the arguments is expressible. The spec says which heaps are accepted after the dates have been stamped; the frame theorem says what can change at all. The typed constructor of C48 is refined for lists that are not shared. `float()` on a string is a parameter.
* **C76** each setter is a state transformer that returns an outcome and the leg as it is left, also when it raises. What the calls never write (`fixed`, `fixed2`) is an invariant over all histories by induction on the list of calls; after a successful `_set_leg_from_x` everything else has been overwritten, so the leg read by the compute methods is the one DirectModel builds. This justifies DirectModel's not threading the leg through.

## 6. Findings: where the code and its stated behaviour disagree

Each is proved of the model by the theorem named.

* epoch: `epoch(duration)` counts from 1970, its documentation says otherwise (C03_duration_reference_refuted); month 257, day 257 or year 67536 are accepted after narrowing (C02_rejects_refuted); the
  string constructor ignores separators and trailing text (C07); `epoch(e.mjd2000())` may lose a microsecond (C05). NaN or huge day counts are undefined behaviour.
* Kepler equations: `dd_kepDS` is not a second derivative (C11); `n2h` fails beyond its bracket (C08); `propagate_lagrangian` throws for a hyperbola after a long time, and `propagate_lagrangian_u` on ordinary ellipses in units where √a·e is
  large: its bracket has a dimension (C10); it accepts what the solver returns without a check (C12_universal_refuted).
* Reynolds' matrix is singular on parabolas (C18). Elements: negative eccentricity accepted, eccentricity 1 gives NaN, a hyperbola at its asymptote divides by zero (C19); the retrograde round trip returns 2π for 0 (C20).
* fly-by: `fb_vout` is NaN when the relative velocity is parallel to the planet's (C21); in doubles the argument of `acos` in `fb_con` may exceed 1 and the constraint is NaN for equal speeds and an allowed angle (`C21_double_con_refuted`); `fb_dv` then returns the difference of the speeds (`C21_double_dv`).
* Lambert: NaN for collinear positions and for the exactly parabolic time; undefined conversion for huge times; `Nmax + 1` wraps (C22, C25). Battin's branch adds N revolutions also for x > 1. Halley's iteration for the least time may escape to the
  hyperbolas, and then `Nmax` counts a revolution for which there is no transfer (C57_count_refuted; transfers of nearly a full turn).
* sims_flanagan: the cut is converted before it is checked (C26); with 49 segments and cut 1/49 the forward half is empty; NaN passes every check; `set` validates the old members (C27). A zero mismatch depends on the cut (C28). A zero throttle makes
  the gradient NaN (C30).
* `copy.deepcopy(planet)` shares a Python udpla with its source (`generic_deepcopy_wrapper` returns `x`), `planet(x)` keeps `x` itself although the documentation mentions its deep copy, attributes of
  the planet object are dropped, and a planet with a Python udpla cannot be pickled (C59). `de440s.__del__` also runs for objects made by `copy`, for which `__init__` did not (C60_copy_refuted).
* sims_flanagan_hf: `set_mu`, `set_isp`, `set_max_thrust`, `set_tol` and `set` leave the integrators or the thrusts stale (C31); `set` assigns before it validates, after which evaluation reads outside an array (C45); the throttle gradient lacks the
  factor `max_thrust` (C32); `get_state_history` reads past its grid with one segment (C34); the variational integrator is not archived (C33); with 1431655765 segments 3·nseg + 1 wraps. The docstring of its `compute_mc_grad`
  gives the third array the shape (7, nseg·3); it is (7, nseg·3 + 1) (C58_hf_shapes). Both docstrings of `compute_tc_grad` list the time of flight among the variables; there is no column for it (C58_tc_grad).
* caches: `get_ta_*_var_cache_dim` lock the wrong mutex (C36); a NaN tolerance is never found again.
* planets: elements from a state refuse the mean anomaly of a bound orbit when a < 1 (C37, C38); `keplerian::elements` ignores the date and is NaN on circular or uninclined orbits; the check a(1−e) > 0 is applied to p(1−f); circular equinoctial planets are NaN (C38); a NaN date
  passes the window of jpl_lp (C39). MGA: decoding from alpha is not injective (C44).
* direct_pl2pl: the columns of t0 and tof take −mu r/r³ of the leg for the acceleration of both planets, wrong for any planet that does not follow two-body motion with that mu, such as jpl_lp or vsop2013 (C47_gradient_refuted). Coasting segments make
  the gradients of both direct problems NaN (C46, C47).
* Python planets: `planet.eph_v` builds an (N,6) array over whatever the object's `eph_v` returned, reading outside the vector when it is too short (C51_own_table_refuted); `extract(object)` returns None, the documentation says the object
  (C51_extract_refuted).
* constants: `pykep.DEG2RAD` is `kep3::RAD2DEG` (C52_deg2rad_refuted); `pykep.MU_MOON` is documented but not exported; the documented `EARTH_VELOCITY` is another number; the comment at `CR3BP_EARTH_MOON` gives the wrong formula (C52).
* plots: `propagate_lagrangian_theta_v` past an asymptote returns states of the other branch (C53_beyond_refuted); `add_lambert` measures the angle counter-clockwise whatever the transfer, so that a clockwise arc ends elsewhere than at the target
  (C53_clockwise_refuted); `add_ballistic_arc` divides by zero for N = 1 and propagates once more after its last point; `add_sf_leg` raises IndexError when the middles are asked for and a pass is empty (C54_empty_pass_refuted); `add_sf_hf_leg`
  attaches the throttles of the backward segments in reverse order (C54_hf_arrows_refuted).
* tle: the Julian date is formed in one double before it is split, so the split does not gain the precision it is meant for and instants 20 µs apart coincide (C55_resolution_refuted); the error code of SGP4 is stored and never read. spice: mu, radius and
  the other parameters stored "to allow the user to overwrite them" are never read, because the class has no getters (C55_parameters_refuted). `vsop2013` likewise stores a mu that no method returns.
* gym: `get_extra_info` of the three Cassini problems names an undefined global `_seq_cassini1` and raises NameError (C63_extra_info_refuted). jpl_lp returns a negative inclination for the Earth after November 1999 (C63_inclination_refuted) and NaN retrograde equinoctial
  elements where the inclination crosses zero (C63_retrograde_refuted; these elements are singular at zero inclination). The `mga` constructor overwrites the caller's (or the default) `t0` list in place; a NaN launch velocity costs nothing, because Python's `max(0, nan)` is 0.
* Epochs in Python: `epoch + timedelta` may be off by a microsecond, because the timedelta goes through seconds in a double and is then cut (C56_add_delta_refuted), and overflows for the longest timedeltas; the time zone of a datetime is ignored
  (C56_zone_refuted); `epoch(2**31)` and `epoch(numpy.float32(1))` raise TypeError because the overload for datetimes accepts every object before conversions are tried (C56_default_refuted).
* read, not modelled: comparing an epoch with something else raises TypeError (no `is_operator`) and epochs are not hashable; the docstring of `lambert_problem.Nmax` calls the number of revolutions a number of iterations.
* mga: the constructor replaces the entries of the caller's list `t0` (and of its own default argument) by epochs, also when it then raises (C75_rejected_refuted); all problems made from the defaults share their lists (C75_shared_refuted); the number and the order of the launch dates are not checked (C75_bounds_refuted, C75_order_refuted); a list given both as dates and as times of flight yields epochs as bounds (C75_alias_refuted); a string that `float()` takes is accepted as `tof` (C75_accepts). Read, not modelled: `numpy.insert` truncates the launch date when the durations are given as Python integers; the error
  raised after the arrival date prints the launch date; `_cassini_mga.get_extra_info` refers to an undefined name.
* text: the lines of the right-branch solutions of a Lambert problem label x as a (C64_label_refuted); printing a low-fidelity leg computes its mismatch and throws when that does (C64_print_throws_refuted), while in the high-fidelity leg that line is commented out;
  neither text has the cut (C64_cut_refuted), nor the tolerance of the high-fidelity leg. Read, not modelled: the 16 digits of `stark_problem`'s text do not distinguish 1 from 1 + 2^-52.
* `lambert_problem` in doubles does not notice collinear positions: for r0 = (2, 3, 21) and r1 = 3 r0 (or -3 r0) the unit vectors differ by rounding, their cross product is a rounding error, and after normalisation the transfer plane is exactly horizontal, far from containing the
  positions (C66_collinear_refuted, C66_opposite_refuted); over the reals the same input yields NaN.
* `_normalize` overflows or underflows although the result is representable, for lengths beyond about 2^±500 (C65_normalize_small_refuted, C65_normalize_large_refuted).

* `add_solar_system`: drawing Neptune raises NameError, because its block says `when=ep` (C67_neptune_refuted); its size would be that of Uranus, `s[7]`, and `s[8]` is never used (C67_sizes_refuted). The comment that the outer planets use de440s is out of date.
* `naif_dict` lists 456 names for 345 identifiers; only the last name of an identifier can be returned, so that INTEGRAL (-198, shared with NISAR) is never found (C68_shadowed_refuted).
* `plot` of the direct problems: `rs[0] / _pk.AU, rs[1] / units, rs[2] / units` divides one coordinate by another unit, and the planets are drawn in AU whatever `units` is (C69_units_refuted, C69_planet_units_refuted). `mga.plot` passes `N` to the orbits but 60 to the arcs (C69_points_refuted). With the low-precision Uranus or Neptune it raises, because one period from 2000 leaves the dates of the ephemeris (C69_outer_refuted).
* `lambert_problem`: the guess for long direct transfers is `-(T - T00) / (T - T00 + 4)` (lambert_problem.cpp 143), far closer to -1 than the solution, for which 1 + x is of the order of T^(-2/3). From 40000 time units on, entry 0 is NaN, or, from 4000000 on, a finite
  velocity that never leads to r1, with `iters` 1 and no sign of failure (C70_long_lost, C70_nan, C70_silent). In a numerical experiment outside the proofs the failures begin at about 25000 time units. Entries with revolutions use other guesses.
* `vsop2013` computes a gravitational parameter that no method returns, so `get_mu_central_body()` is -1, `period` and `elements` raise (C71_mu_refuted, C71_no_period, C71_no_elements). `mga` checks only that all planets report the same value: a tour of such planets
  is accepted, and every evaluation raises from the Lambert problem (C71_mga_refuted).
* `mga`: a leg that lasts 40000 units of time, which is within the bounds that the constructor accepts and for which a direct transfer of exactly that duration exists, has the fitness NaN (C48_nan_refuted; C48_long_nan for every tour with such a leg); no message is given to the optimiser. In the range of C72 and C73 the cost is NaN only at a fly-by without relative velocity (C48_range_nan, C48_standstill_refuted).
* `mga.pretty`, `mga.fitness`: the launch burn is `max(0, DVlaunch_tot - vinf)`, and `max(0, nan)` is 0. When the Lambert solver loses the first leg (C70) the report shows an initial DV of 0 beside a hyperbolic velocity nan (C74_lost_launch, C74_free_refuted); the total is nan only because the same leg also enters the next burn.
* direct problems: a call with a vector of the wrong length raises after writing mass, time and (direct_pl2pl) the end states, so `problem.leg` is then a mixture of two vectors (C76_raise_refuted); no later evaluation is affected (C76_p2p, C76_pl2pl). Until the first call the leg has two segments whatever nseg (C76_segments_refuted).

## 7. Testing the theorems against wrong programs

`seeded/LOG.jsonl` has one line per edited model: definition, edit, claim broken, property theorems that stopped being proved, theorems tightened. An edit is applied to a scratch copy; every file that depends on it is rebuilt; a proof that fails is cut
and the theorems that depend on it (by `Print Assumptions`) are reported.

## 8. Building

`cd rocq && coq_makefile -f _CoqProject -o Makefile && make -j4` (about fifteen minutes on four cores).

## 9. Axioms per theorem

**Closed under the global context (no axiom)** — 76 theorems:
`C01_calendar_constructor`, `C01_calendar_is_gregorian`, `C01_no_overflow`, `C02_rejects_partial`, `C02_accepted_set`, `C02_rejects_refuted`, `C03_arithmetic`, `C03_overflow_exactly_ub`, `C03_total_order`, `C03_order_consistent_with_difference`, `C03_duration_reference_refuted`, `C06_printed_epochs_parse_back`, `C06_covers_all_instants`, `C07_iso_strings`, `C07_bad_length_throws`, `C07_never_ub`, `C07_strict_refuted`, `C36_no_race_partial`, `C36_no_race_refuted`, `C36_transparent`, `C36_built_once`, `C36_references_stay_valid`, `C36_no_deadlock`, `C37_eph_v`, `C37_eph_v_rows`, `C37_eph_v_too_many`, `C33_epoch`, `C33_keplerian`, `C33_jpl_lp`, `C33_lambert`, `C33_stark`, `C33_sims_flanagan`, `C22_shape`, `C22_no_bad_index`, `C22_halley`, `C22_householder`, `C22_entries`, `C25_throws`, `C51_table_cpp`, `C51_own_table`, `C51_extract`, `C51_extract_same`, `C51_is`, `C54_hf_lines_partial`, `C54_hf_arrows`, `C54_hf_arrows_refuted`, `C59_never_dangles`, `C59_answers`, `C59_exist`, `C59_cpp`, `C59_python_partial`, `C59_deepcopy_refuted`, `C59_constructor_refuted`, `C59_attributes`, `C60_kernel_partial`, `C60_released_partial`, `C60_copy_refuted`, `C60_two_refuted`, `C63_extra_info_refuted`, `C64_formats`, `C64_stark_determined`, `C64_lambert_text`, `C64_planet_determined`, `C64_planet_extra`, `C68_known`, `C68_unknown`, `C68_injective`, `C68_round_trip`, `C68_scheme`, `C68_shadowed_refuted`, `C68_example`, `C71_name`, `C71_no_period`, `C71_no_elements`, `C07_accepted`, `C07_field`.

**sig_forall_dec** — 1 theorems:
`C29_constraints`.

**sig_forall_dec, functional_extensionality_dep** — 25 theorems:
`C44_eta`, `C44_eta_round_trip`, `C44_eta_round_trip_back`, `C46_box`, `C46_built`, `C47_box`, `C47_built`, `C48_ctor`, `C48_ctor_total`, `C53_planet_range`, `C61_exact`, `C71_time`, `C75_accepts`, `C75_keeps`, `C75_frame`, `C75_raises`, `C75_again`, `C75_bounds`, `C75_typed`, `C75_rejected_refuted`, `C75_bounds_refuted`, `C75_order_refuted`, `C75_alias_refuted`, `C75_shared_refuted`, `C75_example`.

**sig_forall_dec, sig_not_dec, functional_extensionality_dep** — 21 theorems:
`C11_stumpff_c`, `C13_flow_unique`, `C18_parabola_throws`, `C18_refuted`, `C40_cr3bp_field`, `C19_par2ic`, `C19_throws`, `C19_negative_eccentricity_refuted`, `C19_parabola_refuted`, `C46_fitness_unique`, `C46_shape`, `C47_fitness_unique`, `C47_shape`, `C53_stm`, `C53_asymptote`, `C54_ends`, `C61_bounds`, `C69_default_period`, `C76_p2p_rejects`, `C76_pl2pl_rejects`, `C76_segments_refuted`.

**sig_forall_dec, sig_not_dec, classic, functional_extensionality_dep** — 458 theorems:
`C04_accessors`, `C04_accessors_monotone`, `C04_constructor_monotone`, `C04_constructor_value`, `C04_nonfinite_is_ub`, `C05_round_trip_towards_reference`, `C05_round_trip_one_microsecond`, `C05_exact_round_trip_refuted`, `C26_split`, `C26_monotone_in_cut`, `C26_ends`, `C26_no_ub_refuted`, `C27_reachable_valid_partial`, `C27_default_valid`, `C27_throw_leaves_unchanged`, `C27_setters_store`, `C27_setters_refuse`, `C27_set_refuted`, `C27_nan_refuted`, `C31_fresh_partial`, `C31_constructor_parameters_used`, `C31_setters_refuted`, `C31_setters_store`, `C31_setters_refuse`, `C41_layout`, `C41_chromosome`, `C41_set_stores`, `C41_constructor_gives_valid`, `C42_concatenated_flows`, `C42_repeatable`, `C45_safe_partial`, `C45_set_throws_refuted`, `C29_jacobian`, `C34_shape_partial`, `C34_records_partial`, `C34_time_grid`, `C34_one_segment_refuted`, `C35_history`, `C35_same_state`, `C37_period`, `C37_period_unbound`, `C37_not_implemented`, `C37_elements`, `C37_mean_anomaly_refuted`, `C37_defaults_and_epochs`, `C39_names`, `C39_elements`, `C39_element_types`, `C39_eph_finite_partial`, `C39_outside`, `C39_outside_refuted`, `C43_constructible`, `C43_rejected`, `C43_own_function`, `C43_compiled_once`, `C33_hf_partial`, `C33_hf_refuted`, `C44_alpha`, `C44_alpha_round_trip`, `C44_decode_agrees`, `C44_alpha_not_unique_refuted`, `C08_ellipse`, `C08_ellipse_back`, `C08_gudermannian`, `C08_gudermannian_back`, `C08_gudermannian_is_hyperbolic`, `C08_hyperbola`, `C08_hyperbola_back`, `C08_m2e`, `C08_m2e_back`, `C08_m2e_increasing`, `C08_m2e_odd`, `C08_m2f`, `C08_m2f_back`, `C08_ellipse_monotone`, `C08_hyperbola_monotone`, `C08_wrong_regime`, `C08_n2h_partial`, `C08_n2h_refuted`, `C09_bracket`, `C11_kepE`, `C11_kepH`, `C11_kepDE`, `C11_kepDH`, `C11_kepDS`, `C11_dd_kepDS_refuted`, `C11_stumpff_s`, `C10_elliptic`, `C10_hyperbolic_partial`, `C10_hyperbolic_refuted`, `C10_universal_partial`, `C10_universal_refuted`, `C10_n2h_partial`, `C10_n2h_refuted`, `C12_lagrangian`, `C12_regular`, `C12_universal_partial`, `C12_universal_refuted`, `C13_elliptic`, `C13_hyperbolic_partial`, `C13_sound`, `C13_universal_sound`, `C14_zero`, `C14_compose`, `C14_back`, `C14_period`, `C14_compose_hyperbolic_partial`, `C14_vectorised`, `C14_vectorised_throw`, `C15_agree`, `C15_elliptic_partial`, `C15_hyperbolic_partial`, `C15_refuted`, `C17_elliptic`, `C17_hyperbolic_partial`, `C17_returned`, `C17_identity`, `C17_chain`, `C18_columns`, `C18_elliptic`, `C18_hyperbolic_partial`, `C18_returned`, `C18_stm`, `C18_identity`, `C18_agrees_with_lagrangian`, `C21_vout`, `C21_vout_undefined`, `C21_vout_con`, `C21_dv_zero`, `C21_dv_least`, `C21_double_con_refuted`, `C21_double_same`, `C21_double_dv`, `C21_double_free`, `C21_double_turn`, `C40_cr3bp_jacobi`, `C40_stark_field`, `C40_stark_ballistic`, `C40_stark_power`, `C40_stark_mass`, `C40_stark_mass_flow`, `C40_leg_field`, `C19_ic2par`, `C19_state_round_trip`, `C19_elements_round_trip`, `C19_domain`, `C19_ranges`, `C20_ic2eq`, `C20_eq2ic`, `C20_state_round_trip`, `C20_elements_round_trip`, `C20_par2eq`, `C20_par_round_trip`, `C20_par_round_trip_turns`, `C20_par_round_trip_refuted`, `C20_eq_round_trip`, `C20_eq2par`, `C16_elliptic`, `C16_hyperbolic_partial`, `C16_agree`, `C16_flow`, `C16_hyperbolic_refuted`, `C38_reference`, `C38_motion`, `C38_hyperbolic_motion_partial`, `C38_motion_sound`, `C38_conserves`, `C38_period`, `C38_least_period`, `C38_no_period`, `C38_kep_f`, `C38_kep_f_valid`, `C38_kep_m`, `C38_kep_m_hyperbola`, `C38_equinoctial_partial`, `C38_equinoctial_refuted`, `C38_equinoctial_nan_refuted`, `C38_rejects`, `C38_rejects_refuted`, `C38_elements_partial`, `C38_elements_none_refuted`, `C38_elements_date_refuted`, `C38_posvel_mean_anomaly`, `C38_posvel_elements_partial`, `C38_posvel_refuted`, `C22_real`, `C22_real_arithmetic`, `C22_wrap_refuted`, `C23_conic`, `C24_flow`, `C24_solves`, `C24_time`, `C24_derivatives`, `C24_turns`, `C24_unique`, `C24_branches`, `C24_revolutions`, `C24_no_more_revolutions`, `C24_fixed_point`, `C24_minimum_energy`, `C25_rejects`, `C25_collinear`, `C25_total`, `C25_collinear_refuted`, `C25_parabola`, `C25_parabola_refuted`, `C57_direct`, `C57_revolutions`, `C57_entry0`, `C57_entries`, `C57_count`, `C57_count_exact`, `C57_halley`, `C57_count_refuted`, `C57_halley_finds`, `C57_count_near`, `C28_mismatch`, `C28_mismatch_sound`, `C28_masses`, `C28_cut_refuted`, `C28_cut_dependence`, `C28_durations`, `C28_cut_independence_partial`, `C30_jacobian`, `C30_total`, `C30_zero_throttle`, `C46_fitness_sound_partial`, `C46_fitness`, `C46_gradient`, `C46_gradient_total`, `C46_coast_gradient`, `C47_fitness_sound_partial`, `C47_fitness`, `C47_gradient_keplerian`, `C47_keplerian_planets`, `C47_gradient_fixed_dates`, `C47_gradient_refuted`, `C47_gradient_total`, `C47_coast_gradient`, `C48_fitness_partial`, `C48_residual`, `C48_shape`, `C48_bounds`, `C48_total`, `C48_example`, `C49_trajectory_partial`, `C49_wrong_length`, `C49_example`, `C32_index_safe`, `C32_mismatch_safe`, `C32_mismatch_flown`, `C32_plain_refuted`, `C32_unit_thrust_partial`, `C32_scaled_partial`, `C32_neighbours`, `C32_coast_refuted`, `C32_computed_partial`, `C42_zero_mismatch`, `C42_cut`, `C42_flown_unique`, `C50_matches`, `C50_motion`, `C50_hyperbolic_motion_partial`, `C50_motion_sound`, `C50_elements`, `C50_two_body`, `C50_keplerian`, `C50_unknown_mu`, `C50_raises`, `C51_accepts`, `C51_transparent`, `C51_table`, `C51_own_table_refuted`, `C51_extract_refuted`, `C52_documented`, `C52_documented_refuted`, `C52_deg2rad_refuted`, `C52_moon_refuted`, `C52_velocity_refuted`, `C52_pi`, `C52_degrees`, `C52_units`, `C52_physics`, `C52_comment_refuted`, `C53_theta`, `C53_theta_elliptic`, `C53_theta_complete`, `C53_table`, `C53_beyond`, `C53_beyond_refuted`, `C53_lambert_partial`, `C53_lambert_problem`, `C53_lambert_orbit`, `C53_clockwise`, `C53_clockwise_refuted`, `C53_sol_check`, `C53_ballistic`, `C53_ballistic_sound`, `C53_ballistic_one`, `C53_planet_closed`, `C54_leg_partial`, `C54_empty_pass`, `C54_empty_pass_refuted`, `C54_hf_reachable`, `C55_split`, `C55_date`, `C55_tle_state`, `C55_resolution_refuted`, `C55_tle_table`, `C55_tle_nonfinite`, `C55_spice_state`, `C55_spice_time`, `C55_spice_order`, `C55_spice_table`, `C55_rotation`, `C55_parameters_refuted`, `C55_no_period`, `C55_ref_epoch`, `C56_datetime`, `C56_order`, `C56_zone`, `C56_zone_refuted`, `C56_int`, `C56_float`, `C56_float_near`, `C56_julian`, `C56_default_refuted`, `C56_text`, `C56_add_days`, `C56_add_float`, `C56_add_delta_partial`, `C56_add_whole`, `C56_add_delta_refuted`, `C56_datetime_delta`, `C56_inverse`, `C56_refused`, `C58_lagrangian`, `C58_lagrangian_plain`, `C58_lagrangian_v`, `C58_stark_partial`, `C58_mc_grad`, `C58_mc_grad_total`, `C58_hf_shapes`, `C58_hf_scaled_partial`, `C58_hf_plain_refuted`, `C58_tc_grad`, `C61_delay`, `C61_on_orbit`, `C61_error`, `C61_chain`, `C61_keplerian`, `C61_planet`, `C61_universal_partial`, `C62_householder_order_four`, `C62_direct_uniform`, `C62_halley_order_three`, `C62_starts`, `C62_entry`, `C62_least_energy_partial`, `C70_long_lost`, `C70_nan`, `C70_silent`, `C70_householder`, `C70_nan_refuted`, `C70_silent_refuted`, `C72_short`, `C72_householder`, `C73_normal`, `C73_householder`, `C63_planet`, `C63_names`, `C63_outside`, `C63_third_law`, `C63_elements`, `C63_inclination_refuted`, `C63_retrograde_refuted`, `C63_cassini`, `C63_bounds`, `C63_example`, `C64_leg_text`, `C64_leg_determined`, `C64_cut_refuted`, `C64_print_throws_refuted`, `C64_hf_text`, `C64_hf_determined`, `C64_lambert_a`, `C64_lambert_time`, `C64_label_refuted`, `C64_keplerian`, `C64_jpl`, `C65_normalize`, `C65_normalize_small_refuted`, `C65_normalize_large_refuted`, `C65_cross`, `C65_cross_parallel`, `C65_cross_swap`, `C65_cosine`, `C65_throttles`, `C65_throttle_missed_refuted`, `C65_throttle_false_refuted`, `C66_plane`, `C66_side`, `C66_plain_norm`, `C66_collinear_refuted`, `C66_opposite_refuted`, `C67_picture`, `C67_outside`, `C67_neptune_refuted`, `C67_neptune_never_refuted`, `C67_sizes_refuted`, `C67_example`, `C69_mga_partial`, `C69_leg_ids`, `C69_points_refuted`, `C69_jpl_period`, `C69_cassini`, `C69_outer`, `C69_outer_refuted`, `C69_p2p_partial`, `C69_pl2pl_partial`, `C69_units_refuted`, `C69_planet_units_refuted`, `C71_moving`, `C71_converts`, `C71_name_tells`, `C71_defaults`, `C71_mu_unobservable`, `C71_mu_refuted`, `C71_mga_never`, `C71_mga_refuted`, `C48_fitness_range`, `C48_range_nan`, `C48_standstill_refuted`, `C49_trajectory_range`, `C49_miss`, `C49_range_miss`, `C48_long_nan`, `C48_nan_refuted`, `C48_range_example`, `C74_mga_total`, `C74_mga_tour`, `C74_mga_range`, `C74_lost_launch`, `C74_free_refuted`, `C74_pl2pl`, `C74_pl2pl_total`, `C74_p2p`, `C74_p2p_total`, `C74_example`, `C74_direct_example`, `C76_p2p`, `C76_pl2pl`, `C76_raise_refuted`, `C37_period_accurate`, `C37_period_escape`, `C37_element_types`, `C39_eph_accurate`, `C39_constants`.
