(** * The state on an elliptic orbit, written with the argument of latitude, and what an accurate sine or cosine is (property C39) *)
From Coq Require Import Reals List String.
From Flocq Require Import Core.Core IEEE754.BinarySingleNaN.
From Verif Require Import Float64.
Import ListNotations.
Open Scope R_scope.

Definition radius (a e f : R) : R := a * (1 - e ^ 2) / (1 + e * cos f).
(** the speed mu / h *)
Definition speed (mu a e : R) : R := sqrt (mu / (a * (1 - e ^ 2))).
Definition orbit_position (a e i W w f : R) : list R :=
  let r := radius a e f in
  [r * (cos W * cos (w + f) - sin W * sin (w + f) * cos i); r * (sin W * cos (w + f) + cos W * sin (w + f) * cos i); r * (sin (w + f) * sin i)].
Definition orbit_velocity (mu a e i W w f : R) : list R :=
  let s := speed mu a e in let A := sin (w + f) + e * sin w in let B := cos (w + f) + e * cos w in
  [- s * (cos W * A + sin W * cos i * B); - s * (sin W * A - cos W * cos i * B); s * (sin i * B)].
(** within two units in the last place of 1 *)
Definition accurate (g : double -> double) (G : R -> R) : Prop :=
  forall x, is_finite x = true -> is_finite (g x) = true /\ Rabs (B2R (g x) - G (B2R x)) <= / 2 ^ 52.
Definition within (eps : R) (x : double) (X : R) : Prop := is_finite x = true /\ Rabs (B2R x - X) <= eps.

(** the planets: gravitational parameter (km^3/s^2), radius (km), and how many radii away a passage is safe *)

Definition bodies : list (string * R * R * R) :=
  [("mercury", 22032, 2440, 11 / 10); ("venus", 324859, 6052, 11 / 10); ("earth", 398600.4418, 6378, 11 / 10); ("mars", 42828, 3397, 11 / 10);
   ("jupiter", 126686534, 71492, 9); ("saturn", 37931187, 60330, 11 / 10); ("uranus", 5793939, 25362, 11 / 10); ("neptune", 6836529, 24622, 11 / 10)]%string.
