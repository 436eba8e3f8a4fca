(** * C55: the SGP4 and SPICE planets are evaluated at the right instants *)
From Coq Require Import ZArith Reals List Bool String.
From Flocq Require Import Core.Core IEEE754.BinarySingleNaN.
From Verif Require Import Outcome Float64 Float64Facts EpochModel PlanetModel PyPlanetModel PyPlanetSpec ConstModel PyEphModel PyEphSpec PyEphProofs TleEpochProofs.
Import ListNotations.
Open Scope R_scope.

(** the split of the Julian date loses nothing: whole and fractional days add up to the double nearest to the date *)
Theorem C55_split : forall t, finite t -> Rabs (B2R t) <= bpow radix2 50 -> exists i fr, tle_date t = Ret (i, fr) /\ finite fr /\ finite (d_of_Z i) /\ B2R (d_of_Z i) = IZR i /\ (Z.abs i <= 2 ^ 51)%Z /\
  B2R (d_of_Z i) + B2R fr = round radix2 (FLT_exp (-1074) 53) ZnearestE (julian (B2R t)) /\ Rabs (B2R fr) < 1 /\ (0 <= julian (B2R t) -> 0 <= B2R fr /\ (0 <= i)%Z).
Proof. exact tle_date_ok. Qed.
Print Assumptions C55_split.
Theorem C55_date : forall t, finite t -> Rabs (julian (B2R t)) <= bpow radix2 22 -> exists i fr, tle_date t = Ret (i, fr) /\ Rabs (B2R (d_of_Z i) + B2R fr - julian (B2R t)) <= bpow radix2 (-31).
Proof. exact tle_date_err. Qed.
Print Assumptions C55_date.
(** the state of a satellite at an epoch is that of SGP4 at the same instant to 2^-31 + 2^-37 days, in metres *)
Theorem C55_tle_state : forall ic2par f2m par2eq two_pi sgp4 arr c ty nm ex e, near2000 e -> exists p i fr s,
  py_planet ic2par f2m par2eq two_pi (tle_obj sgp4 arr c ty nm ex) = Ret p /\ eph_epoch p e = Ret s /\ si_state (sgp4 (d_of_Z i) fr) s /\
  B2R (d_of_Z i) = IZR i /\ 0 <= B2R fr < 1 /\ Rabs (IZR i + B2R fr - julian (days2000 e)) <= bpow radix2 (-31) + bpow radix2 (-37).
Proof. exact tle_state. Qed.
Print Assumptions C55_tle_state.
(** an epoch is exact to a microsecond, the date of the satellite is not: different epochs with different mjd2000 get one state *)
Theorem C55_resolution_refuted : exists a b, m_tp a <> m_tp b /\ near2000 a /\ near2000 b /\ (exists ta tb, mjd2000 a = Ret ta /\ mjd2000 b = Ret tb /\ ta <> tb) /\
  forall ic2par f2m par2eq two_pi sgp4 arr c ty nm ex, exists p, py_planet ic2par f2m par2eq two_pi (tle_obj sgp4 arr c ty nm ex) = Ret p /\ eph_epoch p a = eph_epoch p b.
Proof. exact tle_collision_epoch. Qed.
Print Assumptions C55_resolution_refuted.
(** the table of a satellite is the states one by one *)
Theorem C55_tle_table : forall ic2par f2m par2eq two_pi sgp4 arr c ty nm ex,
  (forall l1 l2, List.length l1 = List.length l2 -> List.length (arr l1 l2) = List.length l1 /\ forall i a b, nth_error l1 i = Some a -> nth_error l2 i = Some b -> nth_error (arr l1 l2) i = Some (sgp4 a b)) ->
  exists p, py_planet ic2par f2m par2eq two_pi (tle_obj sgp4 arr c ty nm ex) = Ret p /\ get_mu_central_body p = Ret c_MU_EARTH /\
    (forall ts tab, bind_eph_v p ts = Ret tab -> table_of (tle_eph sgp4) ts tab) /\
    (forall ts, List.Forall (fun t => finite t /\ Rabs (B2R t) <= bpow radix2 50) ts -> exists tab, bind_eph_v p ts = Ret tab).
Proof. exact tle_table. Qed.
Print Assumptions C55_tle_table.
Theorem C55_tle_nonfinite : forall t sgp4, is_finite t = false -> exists e, tle_eph sgp4 t = Throw e.
Proof. exact tle_nonfinite. Qed.
Print Assumptions C55_tle_nonfinite.

(** SPICE is asked for the instant of the epoch to 3 microseconds, and its answer is passed on in metres *)
Theorem C55_spice_state : forall ic2par f2m par2eq two_pi spkezr fl c ty nm ex e, near2000 e -> exists p s,
  py_planet ic2par f2m par2eq two_pi (spice_obj spkezr fl c ty nm ex) = Ret p /\ Rabs (B2R s - past_j2000 (days2000 e)) <= 3 / 1000000 /\
  (forall r, spkezr s = Ret r -> exists r', eph_epoch p e = Ret r' /\ si_state r r') /\ (forall x, spkezr s = Throw x -> eph_epoch p e = Throw x).
Proof. exact spice_state. Qed.
Print Assumptions C55_spice_state.
Theorem C55_spice_time : forall t, finite t -> Rabs (B2R t) <= 32768 -> finite (spice_time t) /\ Rabs (B2R (spice_time t) - past_j2000 (B2R t)) <= 2 / 1000000.
Proof. exact spice_time_ok. Qed.
Print Assumptions C55_spice_time.
Theorem C55_spice_order : forall a b, finite a -> finite b -> Rabs (B2R a) <= 32768 -> Rabs (B2R b) <= 32768 -> B2R a <= B2R b -> B2R (spice_time a) <= B2R (spice_time b).
Proof. exact spice_time_mono. Qed.
Print Assumptions C55_spice_order.
Theorem C55_spice_table : forall ic2par f2m par2eq two_pi spkezr fl c ty nm ex, exists p, py_planet ic2par f2m par2eq two_pi (spice_obj spkezr fl c ty nm ex) = Ret p /\
  forall ts tab, bind_eph_v p ts = Ret tab <-> table_of (spice_eph spkezr) ts tab.
Proof. exact spice_table. Qed.
Print Assumptions C55_spice_table.
(** the frames are rotated at the instant of the epoch *)
Theorem C55_rotation : forall ep, in64b (m_tp ep) = true -> Rabs (days2000 ep) <= 32767 -> exists s, rotation_time ep = Ret s /\ finite s /\ Rabs (B2R s - past_j2000 (days2000 ep)) <= 2 / 1000000.
Proof. exact rotation_time_ok. Qed.
Print Assumptions C55_rotation.
(** the parameters stored in a SPICE object never reach the planet, which therefore has no period and no elements *)
Theorem C55_parameters_refuted : exists fl, forall ic2par f2m par2eq two_pi spkezr c ty nm ex, exists p, py_planet ic2par f2m par2eq two_pi (spice_obj spkezr fl c ty nm ex) = Ret p /\
  get_mu_central_body p <> Ret (f_mu fl) /\ get_mu_self p <> Ret (f_mu_self fl) /\ get_radius p <> Ret (f_radius fl) /\ get_safe_radius p <> Ret (f_safe_radius fl).
Proof. exact spice_lost. Qed.
Print Assumptions C55_parameters_refuted.
Theorem C55_no_period : forall ic2par f2m par2eq two_pi spkezr fl c ty nm ex, exists p, py_planet ic2par f2m par2eq two_pi (spice_obj spkezr fl c ty nm ex) = Ret p /\
  forall demangled t et, period demangled two_pi p t = Throw NotImplemented /\ elements demangled ic2par f2m par2eq p t et = Throw NotImplemented.
Proof. exact spice_no_period. Qed.
Print Assumptions C55_no_period.

(** J2000 is the zero of SPICE time; the first of January 2000 is half a day into the Julian day 2451544 *)
Example C55_noon : B2R (spice_time dhalf) = 0.
Proof. exact spice_time_noon. Qed.
Example C55_midnight : exists fr, tle_date dzero = Ret (2451544%Z, fr) /\ B2SF fr = B2SF dhalf.
Proof. eexists. split; [reflexivity|]. vm_compute. reflexivity. Qed.
Example C55_epoch : near2000 (epoch_default).
Proof. unfold near2000, days2000. cbn. unfold y2k, y2k_offset. apply Rabs_le. Lra.lra. Qed.
(** the reference epoch of a satellite is the Julian date c, the double nearest to the sum of the two halves of its record *)
Theorem C55_ref_epoch : forall a b c, is_finite a = true -> is_finite b = true -> is_finite c = true -> (Rabs (B2R a + B2R b) <= 2 ^ 1000)%R -> B2R c <> 0%R ->
  B2R c = round radix2 fexp64 ZnearestE (B2R a + B2R b)%R -> tle_ref_epoch a b = epoch_of_julian c JD.
Proof. exact ref_epoch. Qed.
Print Assumptions C55_ref_epoch.
