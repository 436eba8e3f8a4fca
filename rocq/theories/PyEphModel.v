(** * The SGP4 and SPICE planets: pykep/udpla/_tle.py 39-100, pykep/udpla/_spice.py 38-86, rotation_matrix in pykep/utils/_spice_utils.py 66-80
    sgp4 and spiceypy are oracles.  Doubles are bit-exact.  ValueError and TypeError are [InvalidArgument], OverflowError is
    [OutOfRange].  Simplifications: the error code that _tle.py keeps in self.e is left out (nothing reads it); dates whose
    integer part is 2^63 or more, which numpy stores as objects and sgp4 refuses, are [InvalidArgument] in the vectorised call. *)
From Coq Require Import ZArith List Bool String.
From Flocq Require Import Core.Core IEEE754.BinarySingleNaN.
From Verif Require Import Outcome Float64 EpochModel PlanetModel PyPlanetModel ConstModel.
Import ListNotations.
Open Scope Z_scope. Open Scope outcome_scope.

Fixpoint mapM {A B : Type} (f : A -> outcome B) (l : list A) : outcome (list B) :=
  match l with [] => Ret [] | a :: l' => b <- f a ;; bs <- mapM f l' ;; Ret (b :: bs) end.
(** int (x) of a Python float *)
Definition py_int (x : double) : outcome Z :=
  if is_finite x then Ret (Btrunc x) else if is_nan x then Throw InvalidArgument else Throw OutOfRange.
(** x * 1000 *)
Definition km (x : double) : double := dmul x (d_of_Z 1000).
Definition km_state (s : posvel) : posvel :=
  let '((x, y, z), (u, v, w)) := s in ((km x, km y, km z), (km u, km v, km w)).
Definition row6 (s : posvel) : list double := let '((x, y, z), (u, v, w)) := s in [x; y; z; u; v; w].

(** ** tle *)
(** _tle.py 56-58: the integer and the fractional part of the Julian date; 2451544.5 *)
Definition jd2000 : double := d_of_dyadic 4903089 (-1).
Definition tle_date (t : double) : outcome (Z * double) :=
  let jd := dadd t jd2000 in
  i <- py_int jd ;;
  Ret (i, dsub jd (d_of_Z i)).
Section Tle.
Variable sgp4 : double -> double -> posvel.                     (* km and km/s *)
Variable sgp4_array : list double -> list double -> list posvel.
(** 47-60; the integer is converted to a double by sgp4 *)
Definition tle_eph (t : double) : outcome posvel :=
  d <- tle_date t ;; Ret (km_state (sgp4 (d_of_Z (fst d)) (snd d))).
(** 62-76 *)
Definition tle_eph_v (ts : list double) : outcome (list double) :=
  ds <- mapM tle_date ts ;;
  if existsb (fun d => negb (in64b (fst d))) ds then Throw InvalidArgument
  else Ret (List.concat (map row6 (map km_state (sgp4_array (map (fun d => d_of_Z (fst d)) ds) (map snd ds))))).
(** the object; [name] and [extra] are built from strings of the satellite record *)
Definition tle_obj (c : nat) (ty name extra : string) : pyobj :=
  mk_pyobj Instance c ty (Method tle_eph) (Method tle_eph_v) (Method (Ret c_MU_EARTH)) Absent Absent Absent (Method (Ret name)) (Method (Ret extra)) Absent Absent.
(** 42-45: the reference epoch, from the two halves of the date in the satellite record *)
Definition tle_ref_epoch (jdsat jdsatF : double) : outcome epoch := epoch_of_julian (dadd jdsat jdsatF) JD.
End Tle.

(** ** spice *)
Definition dhalf : double := d_of_dyadic 1 (-1).
(** _spice.py 68: seconds past J2000 *)
Definition spice_time (t : double) : double := dmul (dsub t dhalf) c_DAY2SEC.
Section Spice.
Variable spkezr : double -> outcome posvel.  (* the body, frame, correction "NONE" and observer are those of the object; km, km/s *)
(** 59-70 *)
Definition spice_eph (t : double) : outcome posvel := s <- spkezr (spice_time t) ;; Ret (km_state s).
(** 72-75: spkezr of an array of times calls itself for each of them *)
Definition spice_eph_v (ts : list double) : outcome (list double) :=
  ss <- mapM spkezr (map spice_time ts) ;; Ret (List.concat (map row6 (map km_state ss))).
(** 38-57, 77-95: the constructor stores mu_central_body, mu_self, radius and safe_radius in fields "to allow the user to
    overwrite them"; the class has no method that returns them *)
Record spice_fields := mk_sf { f_mu : double; f_mu_self : double; f_radius : double; f_safe_radius : double }.
Definition spice_obj (flds : spice_fields) (c : nat) (ty name extra : string) : pyobj :=
  mk_pyobj Instance c ty (Method spice_eph) (Method spice_eph_v) Absent Absent Absent Absent (Method (Ret name)) (Method (Ret extra)) Absent Absent.
End Spice.
(** _spice_utils.py 80: (ep - 0.5).mjd2000 * DAY2SEC, the argument of pxform; ep - 0.5 is core.cpp 184-185 *)
Definition rotation_time (ep : epoch) : outcome double :=
  us <- epoch_days dhalf ;; e <- epoch_minus ep us ;; t <- mjd2000 e ;; Ret (dmul t c_DAY2SEC).
