(** * Points drawn by pykep.plot: propagate_lagrangian_theta_v, add_lambert, add_ballistic_arc, add_planet, add_planet_orbit
    (/repo/pykep/plot/__init__.py 40-102, _lambert.py, _ballistic.py, _planet.py 5-93)
    Simplifications: doubles are real numbers; [None] is a NaN or an infinity (numpy divides by zero with a warning), one of them
    in a table makes the table [None].  What is kept of a plot is the list of points given to ax.plot or ax.scatter.  ValueError
    is [InvalidArgument], IndexError [OutOfRange], ZeroDivisionError [DomainError], NotImplementedError [NotImplemented].  tof and
    units are Python floats, N an int. *)
From Coq Require Import Reals ZArith List.
From Verif Require Import Outcome PartialReal Vec3 TwoBodyModel.
Import ListNotations.
Open Scope R_scope. Open Scope outcome_scope.

(** __init__.py 82-98: one row, the angle being [theta] *)
Definition theta_row (mu : R) (rv : state) (theta : R) : option state :=
  (let '(r0, v0) := rv in
  let R0 := norm r0 in
  sqmu <-? psqrt mu ;;
  sigma0 <-? pdiv (dot r0 v0) sqmu ;;
  let h := norm (cross r0 v0) in
  p <-? pdiv (h * h) mu ;;
  sqp <-? psqrt p ;;
  Rf <-? pdiv (p * R0) (R0 + (p - R0) * cos theta - sqp * sigma0 * sin theta) ;;
  q <-? pdiv Rf p ;;
  let F := 1 - q * (1 - cos theta) in
  g <-? pdiv (R0 * Rf) h ;;
  let G := g * sin theta in
  f1 <-? pdiv sqmu R0 ;;
  f2 <-? pdiv f1 p ;;
  let Ft := f2 * (sigma0 * (1 - cos theta) - sqp * sin theta) in
  g1 <-? pdiv R0 p ;;
  let Gt := 1 - g1 * (1 - cos theta) in
  Some (vadd (vscal F r0) (vscal G v0), vadd (vscal Ft r0) (vscal Gt v0)))%partial.

(** a table with a NaN somewhere is [None] *)
Fixpoint all_some {A : Type} (l : list (option A)) : option (list A) :=
  match l with [] => Some [] | x :: l' => (a <-? x ;; r <-? all_some l' ;; Some (a :: r))%partial end.

(** __init__.py 40-102 *)
Definition theta_v (rv : state) (thetas : list R) (mu : R) (stm : bool) : outcome (option (list state)) :=
  if stm then Throw NotImplemented else Ret (all_some (map (theta_row mu rv) thetas)).

(** numpy.linspace (a, b, N): no point for N = 0, the point a for N = 1, ValueError for N < 0 *)
Definition linspace (a b : R) (N : Z) : outcome (list R) :=
  if (N <? 0)%Z then Throw InvalidArgument
  else Ret (map (fun i => if (N =? 1)%Z then a else a + INR i * ((b - a) / IZR (N - 1))) (seq 0 (Z.to_nat N))).

(** an index into a Python list: negative ones count from the end *)
Definition py_nth {A : Type} (l : list A) (i : Z) : outcome A :=
  let n := Z.of_nat (length l) in
  let j := if (i <? 0)%Z then (i + n)%Z else i in
  if orb (j <? 0)%Z (n <=? j)%Z then Throw OutOfRange
  else match nth_error l (Z.to_nat j) with Some x => Ret x | None => Throw OutOfRange end.

(** positions / units *)
Definition vdiv (units : R) (r : vec) : option vec :=
  (x <-? pdiv (vx r) units ;; y <-? pdiv (vy r) units ;; z <-? pdiv (vz r) units ;; Some (V x y z))%partial.

(** the members of a lambert_problem that are used (core.cpp 275-295): r0, r1, mu, Nmax, v0 *)
Record lp := mk_lp { lp_r0 : vec; lp_r1 : vec; lp_mu : R; lp_nmax : Z; lp_v0 : list vec }.

(** numpy.clip (x, -1, 1) *)
Definition clip1 (x : R) : R := Rmin (Rmax x (-1)) 1.
(** _lambert.py 44-64 *)
Definition lambert_angle (r0 r1 : vec) : option R :=
  (c <-? pdiv (dot r0 r1) (norm r0 * norm r1) ;;
   th <-? pacos (clip1 c) ;;
   Some (if Rlt_dec (vz (cross r0 r1)) 0 then 2 * PI - th else th))%partial.

(** _lambert.py 4-83 *)
Definition add_lambert (l : lp) (N sol : Z) (units : R) : outcome (option (list vec)) :=
  if (lp_nmax l * 2 <? sol)%Z then Throw InvalidArgument
  else
    v0 <- py_nth (lp_v0 l) sol ;;
    let theta := lambert_angle (lp_r0 l) (lp_r1 l) in
    match (if (sol =? 0)%Z then theta else Some (2 * PI)) with
    | None => _ <- linspace 0 0 N ;; Ret (if (N =? 0)%Z then Some [] else None)
    | Some top =>
        grid <- linspace 0 top N ;;
        res <- theta_v (lp_r0 l, v0) grid (lp_mu l) false ;;
        Ret (rows <-? res ;; all_some (map (fun s => vdiv units (fst s)) rows))%partial
    end.

Section Arcs.
Variable newton : (R -> R * R) -> R -> R -> R -> option R.

(** _ballistic.py 34-44: [n] more points from [rv]; the state is propagated after every point, the last one included *)
Fixpoint arc_points (n : nat) (rv : state) (dt mu units : R) : outcome (list vec) :=
  match n with
  | O => Ret []
  | S n' =>
      match vdiv units (fst rv) with
      | None => Throw DomainError
      | Some p =>
          x <- propagate_lagrangian newton rv dt mu false ;;
          l <- arc_points n' (fst x) dt mu units ;;
          Ret (p :: l)
      end
  end.
(** _ballistic.py 4-48 *)
Definition add_ballistic_arc (rv0 : state) (tof mu units : R) (N : Z) : outcome (list vec) :=
  if (N =? 1)%Z then Throw DomainError else arc_points (Z.to_nat N) rv0 (tof / IZR (N - 1)) mu units.
End Arcs.

(** what is used of a planet: eph and eph_v at mjd2000 dates, the period in seconds (of which NotImplementedError is reraised) *)
Record ppla := mk_ppla { pp_eph : R -> outcome state; pp_eph_v : list R -> outcome (list state); pp_period : outcome R }.
(** _planet.py 5-36 *)
Definition add_planet (p : ppla) (when units : R) : outcome vec :=
  s <- pp_eph p when ;; match vdiv units (fst s) with Some r => Ret r | None => Throw DomainError end.
(** _planet.py 39-93; kep3::SEC2DAY (constants.hpp 37) *)
Definition add_planet_orbit (p : ppla) (plot_range : option (R * R)) (units : R) (N : Z) : outcome (option (list vec)) :=
  epochs <- match plot_range with
            | None => T <- pp_period p ;; linspace 0 (T * (1 / 86400)) N
            | Some (a, b) => linspace a b N
            end ;;
  rvs <- pp_eph_v p epochs ;;
  Ret (all_some (map (fun s => vdiv units (fst s)) rvs)).
