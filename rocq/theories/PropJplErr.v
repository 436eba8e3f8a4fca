(** * Property theorem C39, accuracy of the state of jpl_lp.  Only statements; proofs are in JplErrMain.v *)
From Coq Require Import ZArith Reals List String.
From Flocq Require Import Core.Core IEEE754.BinarySingleNaN.
From Verif Require Import Outcome Float64 JplModel JplSpec JplErrSpec JplProofs JplElemProofs JplErrProofs JplErrMain JplBodyProofs.
Import ListNotations.
Open Scope R_scope.

(** with a sine and a cosine correct to two units in the last place of 1, inside the window the computed state is the one on the
    ellipse of the published elements, at the anomaly the Kepler solver returns, to 2^-46 of the radius and of the speed mu / h;
    132712440041279422464 is the gravitational parameter of the Sun rounded to a double *)
Theorem C39_eph_accurate : forall dcos dsin, accurate dcos cos -> accurate dsin sin -> forall s j t, jpl_ctor s = Ret j -> in_window t ->
  exists n el rate, In (n, el, rate) published /\ str_ci s n /\
  exists a e i W w M, elem_spec el rate (B2R t) a e i W w M /\
    forall m2f f, m2f M e = Ret f -> is_finite f = true ->
    exists x y z vx vy vz, jpl_eph m2f dcos dsin j t = Ret [x; y; z; vx; vy; vz] /\
      Forall2 (within (radius (B2R a) (B2R e) (B2R f) / 2 ^ 46)) [x; y; z] (orbit_position (B2R a) (B2R e) (B2R i) (B2R W) (B2R w) (B2R f)) /\
      Forall2 (within (speed 132712440041279422464 (B2R a) (B2R e) / 2 ^ 46)) [vx; vy; vz] (orbit_velocity 132712440041279422464 (B2R a) (B2R e) (B2R i) (B2R W) (B2R w) (B2R f)).
Proof. exact jpl_eph_accurate. Qed.
Print Assumptions C39_eph_accurate.

(** the gravitational parameter, radius and safe radius a planet is built with *)
Theorem C39_constants : forall s j, jpl_ctor s = Ret j -> exists n mu rad k, In (n, mu, rad, k) bodies /\ str_ci s n /\
  B2R (j_mu_self j) = mu * 10 ^ 9 /\ B2R (j_radius j) = rad * 1000 /\ is_finite (j_safe j) = true /\ Rabs (B2R (j_safe j) - k * B2R (j_radius j)) <= / 10 ^ 6.
Proof. exact jpl_constants. Qed.
Print Assumptions C39_constants.

(** such functions exist *)
Example C39_eph_accurate_case : exists dcos dsin, accurate dcos cos /\ accurate dsin sin.
Proof. exact accurate_exists. Qed.
