(** * Lambert's problem: what a solution is
    The non-dimensional time of flight as a function of x (Lancaster and Blanchard; Izzo), written without the branches of the code. *)
From Coq Require Import Reals.
From Verif Require Import Vec3.
Open Scope R_scope.

Definition semiperimeter (r0 r1 : vec) : R := (norm (vsub r1 r0) + norm r0 + norm r1) / 2.
(** half of the difference of the eccentric anomalies, without the complete revolutions *)
Definition lam_y (lam x : R) : R := sqrt (1 - lam * lam * (1 - x * x)).
Definition half_angle (lam x : R) : R := acos (x * lam_y lam x + lam * (1 - x * x)).
Definition half_hangle (lam x : R) : R := ln (sqrt (x * x - 1) * (lam_y lam x - lam * x) + (x * lam_y lam x - lam * (x * x - 1))).
(** time of flight divided by sqrt (s^3 / (2 mu)); N complete revolutions (of an ellipse) *)
Definition tau (lam : R) (N : Z) (x : R) : R :=
  if Rlt_dec x 1 then ((half_angle lam x + IZR N * PI) / sqrt (1 - x * x) - x + lam * lam_y lam x) / (1 - x * x)
  else if Rlt_dec 1 x then (x - lam * lam_y lam x - half_hangle lam x / sqrt (x * x - 1)) / (x * x - 1)
  else 2 / 3 * (1 - lam * lam * lam).
(** sqrt (s^3 / (2 mu)) *)
Definition time_unit (r0 r1 : vec) (mu : R) : R := sqrt (semiperimeter r0 r1 * semiperimeter r0 r1 * semiperimeter r0 r1 / (2 * mu)).
(** lambda^2 = 1 - c / s; lambda is positive when the motion in the requested direction sweeps less than half a turn *)
Definition transfer_lambda (r0 r1 : vec) (cw : bool) : R :=
  let l := sqrt (1 - norm (vsub r1 r0) / semiperimeter r0 r1) in
  if Rlt_dec 0 ((if cw then -1 else 1) * vz (cross r0 r1)) then l else - l.
