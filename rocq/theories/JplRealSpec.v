(** * Where a planet of the published low-precision ephemerides is.  Uses the table of JplSpec.v, [osculating] of ElemSpec.v. *)
From Coq Require Import Reals List ZArith String.
From Verif Require Import Vec3 TwoBodySpec ElemModel ElemSpec KepSpec JplSpec.
Open Scope R_scope.

(** the Sun's gravitational parameter (m^3/s^2) and the astronomical unit (m) *)
Definition mu_sun : R := 132712440041279419000.
Definition au : R := 149597870700.
Definition deg (x : R) : R := x * PI / 180.
(** [s] is on the osculating ellipse of day [t], at mean anomaly (mean longitude - longitude of perihelion) *)
Definition on_published_orbit (el rate : list Z) (t : R) (s : state) : Prop :=
  let v i := published_value el rate i t in let e := v 1%nat in
  exists E f (k : Z), E - e * sin E = deg (v 3%nat - v 4%nat) + 2 * IZR k * PI /\ same_point_ellipse e E f /\
    osculating mu_sun s (El (v 0%nat * au) e (deg (v 2%nat)) (deg (v 5%nat)) (deg (v 4%nat - v 5%nat)) f).
