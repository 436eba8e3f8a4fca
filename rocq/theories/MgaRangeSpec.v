(** * Legs on which the Lambert solver is sure to converge: vocabulary without the code *)
From Coq Require Import Reals.
From Verif Require Import Vec3 LambertSpec.
Open Scope R_scope.

(** the plane of the leg is not vertical, and the time [t] in seconds is short (C72), or lies between that of the ellipse of least
    energy and 3/2 units of time more and the chord is not too short (C73) *)
Definition in_range (mu : R) (a b : vec) (t : R) : Prop := vz (cross a b) <> 0 /\
  let l := transfer_lambda a b false in let T := t / time_unit a b mu in let t0 := acos l + l * sqrt (1 - l * l) in
  0 < T /\ (100 * T <= 1 - l * Rabs l \/ Rabs l <= 4 / 5 /\ t0 <= T <= t0 + 3 / 2).
