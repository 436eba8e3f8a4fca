(** * The constants of the library and what Python sees of them
    include/kep3/core_astro/constants.hpp 25-44, pykep/core.cpp 53-66.  Bit-exact: a decimal literal m 10^-k with |m| < 2^53 and
    k <= 22 is the quotient of two exact doubles; constant expressions are evaluated in double. *)
From Coq Require Import ZArith List String.
From Verif Require Import Float64.
Import ListNotations.
Open Scope Z_scope. Open Scope string_scope.

Definition dec (m k : Z) : double := ddiv (d_of_Z m) (d_of_Z (10 ^ k)).
(** constants.hpp 25-42 *)
Definition c_pi : double := d_of_dyadic 884279719003555 (-48).
Definition c_half_pi : double := d_of_dyadic 884279719003555 (-49).
Definition c_AU : double := d_of_Z 149597870700.
Definition c_CAVENDISH : double := dec 667430 16.
Definition c_MU_SUN : double := d_of_Z 132712440041279419000.
Definition c_MU_EARTH : double := d_of_Z 398600435507000.
Definition c_MU_MOON : double := d_of_Z 4902800118000.
Definition c_EARTH_VELOCITY : double := dec 2978469183430911 11.
Definition c_EARTH_J2 : double := dec 108262668 11.
Definition c_EARTH_RADIUS : double := d_of_Z 6378137.
Definition c_DEG2RAD : double := ddiv c_pi (d_of_Z 180).
Definition c_RAD2DEG : double := ddiv (d_of_Z 180) c_pi.
Definition c_DAY2SEC : double := d_of_Z 86400.
Definition c_SEC2DAY : double := ddiv done c_DAY2SEC.
Definition c_DAY2YEAR : double := ddiv done (dec 36525 2).
Definition c_G0 : double := dec 980665 5.
Definition c_CR3BP_EARTH_MOON : double := dec 1215058439470971 17.

(** core.cpp 53-66: the attributes of the Python module, in the order of the file *)
Definition exported : list (string * double) :=
  [("AU", c_AU); ("CAVENDISH", c_CAVENDISH); ("MU_SUN", c_MU_SUN); ("MU_EARTH", c_MU_EARTH); ("EARTH_VELOCITY", c_EARTH_VELOCITY);
   ("EARTH_J2", c_EARTH_J2); ("EARTH_RADIUS", c_EARTH_RADIUS); ("RAD2DEG", c_RAD2DEG); ("DEG2RAD", c_RAD2DEG); ("DAY2SEC", c_DAY2SEC);
   ("SEC2DAY", c_SEC2DAY); ("DAY2YEAR", c_DAY2YEAR); ("G0", c_G0); ("CR3BP_EARTH_MOON", c_CR3BP_EARTH_MOON)].
(** pykep.name; [None] is an AttributeError *)
Fixpoint lookup (l : list (string * double)) (n : string) : option double :=
  match l with [] => None | (k, v) :: r => if String.eqb k n then Some v else lookup r n end.
Definition pykep_attr (n : string) : option double := lookup exported n.
