(** * Rounding errors: what "accurate" means.  [u] is half the distance from 1 to the next double *)
From Coq Require Import ZArith Reals.
From Flocq Require Import Core.Core IEEE754.BinarySingleNaN.
From Verif Require Import Float64 Vec3 FlybyFloatModel.
Open Scope R_scope.
Definition u : R := / 2 ^ 53.
(** three finite doubles of magnitude at most 2^500 *)
Definition moderate (v : dvec) : Prop :=
  let '(a, b, c) := v in is_finite a = true /\ is_finite b = true /\ is_finite c = true /\ Rabs (B2R a) <= 2 ^ 500 /\ Rabs (B2R b) <= 2 ^ 500 /\ Rabs (B2R c) <= 2 ^ 500.
Definition finite3 (v : dvec) : Prop := let '(a, b, c) := v in is_finite a = true /\ is_finite b = true /\ is_finite c = true.
(** two triples of numbers differ by at most [d] in each place *)
Definition within (d : R) (p q : vec) : Prop := Rabs (vx p - vx q) <= d /\ Rabs (vy p - vy q) <= d /\ Rabs (vz p - vz q) <= d.
(** a way to compute lengths that is accurate for ordinary vectors *)
Definition accurate_norm (nrm : dvec -> double) : Prop :=
  forall v, moderate v -> / 2 ^ 500 <= norm (rvec v) -> is_finite (nrm v) = true /\ norm (rvec v) * (1 - 7 * u) <= B2R (nrm v) <= norm (rvec v) * (1 + 7 * u).
(** a vector divided by its length, over the reals *)
Definition unit_of (v : vec) : vec := V (vx v / norm v) (vy v / norm v) (vz v / norm v).
(** the sine of the angle between two vectors, and the cosine *)
Definition sin_between (a b : vec) : R := norm (cross (unit_of a) (unit_of b)).
Definition cos_between (a b : vec) : R := dot a b / (norm a * norm b).
(** a vector of three doubles with a length between 2^-200 and 2^200 *)
Definition ordinary (v : dvec) : Prop := finite3 v /\ / 2 ^ 200 <= norm (rvec v) <= 2 ^ 200.
