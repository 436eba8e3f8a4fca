(** * Property theorems: the constants (C52).  Only statements.  Bit-exact. *)
From Coq Require Import ZArith List String Reals.
From Flocq Require Import IEEE754.BinarySingleNaN.
From Verif Require Import Float64 ConstModel ConstSpec ConstProofs.
Import ListNotations.
Open Scope R_scope.

(** every documented constant is the documented number rounded to double, with three exceptions *)
Theorem C52_documented : forall n me, In (n, me) documented -> ~ In n ["DEG2RAD"; "MU_MOON"; "EARTH_VELOCITY"]%string -> exists x, pykep_attr n = Some x /\ near 1 x (decimal me).
Proof. exact documented_ok. Qed.
Print Assumptions C52_documented.
(** pykep.DEG2RAD is not the number of radians in a degree: it is the inverse *)
Theorem C52_documented_refuted : exists n me, In (n, me) documented /\ forall x, pykep_attr n = Some x -> ~ near 1 x (decimal me).
Proof. exact documented_bad. Qed.
Print Assumptions C52_documented_refuted.
Theorem C52_deg2rad_refuted : forall x, pykep_attr "DEG2RAD" = Some x -> 57 < B2R x.
Proof. exact not_near_deg. Qed.
Print Assumptions C52_deg2rad_refuted.
(** pykep.MU_MOON is documented and does not exist *)
Theorem C52_moon_refuted : exists me, In ("MU_MOON"%string, me) documented /\ pykep_attr "MU_MOON" = None.
Proof. exact documented_missing. Qed.
Print Assumptions C52_moon_refuted.
(** pykep.EARTH_VELOCITY differs from the documented value in the tenth digit *)
Theorem C52_velocity_refuted : exists me x, In ("EARTH_VELOCITY"%string, me) documented /\ pykep_attr "EARTH_VELOCITY" = Some x /\ ~ near 100000 x (decimal me).
Proof. exact documented_velocity. Qed.
Print Assumptions C52_velocity_refuted.
(** the C++ constants: angles, time units and the relations between the physical constants *)
Theorem C52_pi : near 1 c_pi PI /\ near 1 c_half_pi (PI / 2).
Proof. exact pi_near. Qed.
Print Assumptions C52_pi.
Theorem C52_degrees : near 2 c_DEG2RAD (PI / 180) /\ near 2 c_RAD2DEG (180 / PI).
Proof. exact deg_near. Qed.
Print Assumptions C52_degrees.
Theorem C52_units : B2R c_DAY2SEC = 86400 /\ near 1 c_SEC2DAY (1 / 86400) /\ near 1 c_DAY2YEAR (1 / (365 + 1 / 4)) /\ near 1 c_G0 (980665 / 100000).
Proof. exact units_near. Qed.
Print Assumptions C52_units.
(** the mass ratio of Earth and Moon, the circular speed at one astronomical unit *)
Theorem C52_physics : near 1 c_CR3BP_EARTH_MOON (B2R c_MU_MOON / (B2R c_MU_EARTH + B2R c_MU_MOON)) /\ near 2 c_EARTH_VELOCITY (sqrt (B2R c_MU_SUN / B2R c_AU)).
Proof. exact physics_near. Qed.
Print Assumptions C52_physics.
(** not the ratio written in the comment at constants.hpp 44, (M_moon + M_Earth) / M_Earth *)
Theorem C52_comment_refuted : ~ near 10000000000 c_CR3BP_EARTH_MOON ((B2R c_MU_MOON + B2R c_MU_EARTH) / B2R c_MU_EARTH).
Proof. exact cr3bp_comment. Qed.
Print Assumptions C52_comment_refuted.
Example C52_example : In ("RAD2DEG"%string, (5729577951308232, -14)%Z) documented /\ pykep_attr "RAD2DEG" = Some c_RAD2DEG /\ pykep_attr "DEG2RAD" = Some c_RAD2DEG /\ pykep_attr "AU" = Some c_AU.
Proof. exact const_example. Qed.
