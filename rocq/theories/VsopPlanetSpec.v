(** * Ephemerides: dates, units and consistency of positions and velocities *)
From Coq Require Import Reals.
From Verif Require Import Vec3 TwoBodySpec.
Open Scope R_scope.

(** the Julian date of a modified Julian date of 2000 (which is 0 at 2000-01-01 00:00) *)
Definition julian_date (t : R) : R := t + 24515445 / 10.
(** J2000 is Julian date 2451545; the series count in thousands of years of 365.25 days *)
Definition millennia (t : R) : R := (julian_date t - 2451545) / (1000 * (36525 / 100)).
Definition au : R := 149597870700.
(** positions in AU and velocities in AU per day, as functions of thousands of Julian years *)
Definition series_consistent (cart : R -> state) : Prop := forall q, vderive (fun z => fst (cart z)) q (vscal (1000 * (36525 / 100)) (snd (cart q))).
(** positions in metres and velocities in metres per second, as functions of days *)
Definition moving (p : R -> state) : Prop := forall t, vderive (fun s => fst (p (s / (24 * 60 * 60)))) (t * (24 * 60 * 60)) (snd (p t)).
