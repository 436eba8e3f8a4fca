(** * Kepler's third law, for the default period of a planet *)
From Coq Require Import Reals.
From Verif Require Import Vec3.
Open Scope R_scope.
(** kinetic and potential energy of a state, per mass *)
Definition kinetic (v : vec) : R := norm v * norm v / 2.
Definition potential (mu : R) (r : vec) : R := mu / norm r.
(** semi-major axis of a bound orbit, and its period, with [tp] in the place of 2 pi *)
Definition axis (mu : R) (r v : vec) : R := mu / 2 / (potential mu r - kinetic v).
Definition third_law (tp mu : R) (r v : vec) : R := tp * sqrt (axis mu r v * axis mu r v * axis mu r v / mu).
(** [k] bounds the cancellation in the energy: it is 3 on a circle and grows without bound towards a parabola *)
Definition well_bound (k mu : R) (r v : vec) : Prop := kinetic v + potential mu r <= k * (potential mu r - kinetic v).
(** the state is faster than the escape speed, by a margin of [m] times the energies *)
Definition escapes (m mu : R) (r v : vec) : Prop := m * (kinetic v + potential mu r) <= kinetic v - potential mu r.
