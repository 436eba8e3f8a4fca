(** * The documented constants, doc/constants.rst 19-67, as exact decimals m 10^e *)
From Coq Require Import ZArith List String Reals.
From Flocq Require Import Core.Core IEEE754.BinarySingleNaN.
From Verif Require Import Float64.
Import ListNotations.
Open Scope string_scope.

Definition documented : list (string * (Z * Z)) :=
  [("AU", (1495978707, 2)); ("CAVENDISH", (667430, -16)); ("MU_SUN", (132712440041279419, 3)); ("MU_EARTH", (398600435507, 3)); ("MU_MOON", (4902800118, 3));
   ("EARTH_VELOCITY", (29784691831696804, -12)); ("EARTH_RADIUS", (6378137, 0)); ("EARTH_J2", (108262668, -11)); ("CR3BP_EARTH_MOON", (1215058439470971, -17));
   ("DAY2SEC", (86400, 0)); ("RAD2DEG", (5729577951308232, -14)); ("DEG2RAD", (17453292519943295, -18))]%Z.
Open Scope R_scope.
Definition decimal (me : Z * Z) : R := IZR (fst me) * powerRZ 10 (snd me).
(** a finite double with relative error at most [k] half units in the last place *)
Definition near (k : R) (x : double) (q : R) : Prop := is_finite x = true /\ Rabs (B2R x - q) <= k * Rabs q / 2 ^ 53.
