(** * The instants handed to SGP4 and SPICE *)
From Coq Require Import ZArith Reals List.
From Flocq Require Import Core.Core IEEE754.BinarySingleNaN.
From Verif Require Import Outcome Float64 EpochModel PlanetModel.
Open Scope R_scope.

(** Julian date of an mjd2000 date; of an epoch (microseconds since 1970, 10957 days before 2000) *)
Definition julian (t : R) : R := t + 2451544.5.
Definition days2000 (e : epoch) : R := (IZR (m_tp e) - 946684800000000) / 86400000000.
(** seconds past J2000, noon of the first of January 2000 *)
Definition past_j2000 (t : R) : R := (t - 1 / 2) * 86400.
Definition finite (t : double) : Prop := is_finite t = true.
(** within 2^15 days (90 years) of 2000 *)
Definition near2000 (e : epoch) : Prop := Rabs (days2000 e) <= 32768.
(** metres from kilometres: the error is at most one unit in the last place of a number of that size *)
Definition si (a b : double) : Prop := forall k, (-900 <= k <= 900)%Z -> finite a -> Rabs (1000 * B2R a) <= bpow radix2 k ->
  finite b /\ Rabs (B2R b - 1000 * B2R a) <= bpow radix2 (k - 53).
Definition si_state (s s' : posvel) : Prop :=
  let '((x, y, z), (u, v, w)) := s in let '((x', y', z'), (u', v', w')) := s' in
  si x x' /\ si y y' /\ si z z' /\ si u u' /\ si v v' /\ si w w'.
