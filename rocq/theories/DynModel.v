(** * Right-hand sides of the ordinary differential equations
    src/ta/cr3bp.cpp, src/ta/stark.cpp, leg/sims_flanagan_hf.cpp 498-528.
    Simplification: doubles are real numbers.  heyoka expressions are the real functions they denote; its Taylor integrator is not
    modelled.  Points where the code divides by zero are excluded in the theorems. *)
From Coq Require Import Reals.
From Verif Require Import Vec3.
Open Scope R_scope.

(** cr3bp.cpp 39-60; the variables x y z vx vy vz, par[0] = mu *)
Definition cr3bp_dyn (mu : R) (s : state) : state :=
  let '(V x y z, V vx vy vz) := s in
  let r_1 := sqrt ((x + mu) ^ 2 + y ^ 2 + z ^ 2) in
  let r_2 := sqrt ((x - (1 - mu)) ^ 2 + y ^ 2 + z ^ 2) in
  (V vx vy vz,
   V (2 * vy + x - (1 - mu) * (x + mu) / r_1 ^ 3 - mu * (x + mu - 1) / r_2 ^ 3)
     (-2 * vx + y - (1 - mu) * y / r_1 ^ 3 - mu * y / r_2 ^ 3)
     (- (1 - mu) * z / r_1 ^ 3 - mu * z / r_2 ^ 3)).

(** position, velocity and mass *)
Definition state7 : Type := (state * R)%type.
(** stark.cpp 42-70: par = mu, veff, ux, uy, uz *)
Definition stark_dyn (mu veff : R) (u : vec) (s : state7) : state7 :=
  let '((V x y z, V vx vy vz), m) := s in let '(V ux uy uz) := u in
  let r2 := x ^ 2 + y ^ 2 + z ^ 2 in
  let u_norm := sqrt (ux ^ 2 + uy ^ 2 + uz ^ 2) in
  ((V vx vy vz,
    V (- mu * Rpower r2 (- 3 / 2) * x + ux / m) (- mu * Rpower r2 (- 3 / 2) * y + uy / m) (- mu * Rpower r2 (- 3 / 2) * z + uz / m)),
   if Req_EM_T u_norm 0 then 0 else - u_norm / veff).

(** constants.hpp 40 *)
Definition G0 : R := 9.80665.
(** sims_flanagan_hf.cpp 498-528; get_max_thrust(), get_isp() and get_mu() are arguments *)
Definition get_state_derivative (max_thrust isp mu : R) (st : state7) (throttles : vec) : state7 :=
  let thrusts := V (vx throttles * max_thrust) (vy throttles * max_thrust) (vz throttles * max_thrust) in
  let '((r, v), m) := st in
  let r2 := 0 + vx r ^ 2 + vy r ^ 2 + vz r ^ 2 in
  let veff := isp * G0 in
  let u_norm := sqrt (0 + vx thrusts ^ 2 + vy thrusts ^ 2 + vz thrusts ^ 2) in
  ((V (vx v) (vy v) (vz v),
    V (- mu * Rpower r2 (- 3 / 2) * vx r + vx thrusts / m) (- mu * Rpower r2 (- 3 / 2) * vy r + vy thrusts / m) (- mu * Rpower r2 (- 3 / 2) * vz r + vz thrusts / m)),
   if Req_EM_T u_norm 0 then 0 else - u_norm / veff).
