(** * Property theorems C01-C07 (epoch).  Only statements; proofs are in Epoch*Proofs.v *)
From Coq Require Import ZArith Reals List Ascii String.
From Flocq Require Import Core.Core IEEE754.BinarySingleNaN.
From Verif Require Import Outcome Float64 Float64Facts EpochModel EpochSpec EpochProofs EpochFloatProofs EpochStringProofs
  EpochPropProofs.
Import ListNotations.
Open Scope Z_scope.

(** ** C01 *)
Theorem C01_calendar_constructor : forall y m d h mi s ms us,
  -32767 <= y <= 32767 -> 1 <= m <= 12 -> 1 <= d <= 31 ->
  int32 h -> int32 mi -> int32 s -> int32 ms -> int32 us ->
  epoch_of_civil y m d h mi s ms us = Ret (mk_epoch (instant y m d h mi s ms us)).
Proof. exact epoch_of_civil_correct. Qed.
Print Assumptions C01_calendar_constructor.

(** The specification calendar is the calendar: it starts at 1970-01-01 and each date's successor has the next number. *)
Theorem C01_calendar_is_gregorian :
  day_number 1970 1 1 = 0
  /\ (forall y m d, day_number y m (d + 1) = day_number y m d + 1)
  /\ (forall y m, 1 <= m < 12 -> day_number y (m + 1) 1 = day_number y m (days_in_month y m) + 1)
  /\ (forall y, day_number (y + 1) 1 1 = day_number y 12 31 + 1).
Proof. exact day_number_calendar. Qed.
Print Assumptions C01_calendar_is_gregorian.

Theorem C01_no_overflow : forall y m d h mi s ms us,
  int32 h -> int32 mi -> int32 s -> int32 ms -> int32 us -> epoch_of_civil y m d h mi s ms us <> UB.
Proof. exact epoch_of_civil_no_ub. Qed.
Print Assumptions C01_no_overflow.

Example C01_nontrivial :
  epoch_of_civil 2024 2 29 23 59 60 999 1 = Ret (mk_epoch 1709251200999001)
  /\ instant 2024 2 29 23 59 60 999 1 = 1709251200999001.
Proof. split; vm_compute; reflexivity. Qed.

(** ** C02 *)
Theorem C02_rejects_partial : forall y m d h mi s ms us,
  -32768 <= y <= 32767 -> 0 <= m <= 255 -> 0 <= d <= 255 ->
  ~ (-32767 <= y <= 32767 /\ 1 <= m <= 12 /\ 1 <= d <= 31) ->
  epoch_of_civil y m d h mi s ms us = Throw InvalidArgument.
Proof. exact epoch_of_civil_rejects. Qed.
Print Assumptions C02_rejects_partial.

(** What happens for every argument: narrowing to short / unsigned char first, then validation. *)
Theorem C02_accepted_set : forall y m d h mi s ms us,
  let y' := (y + 32768) mod 65536 - 32768 in
  int32 h -> int32 mi -> int32 s -> int32 ms -> int32 us ->
  (y' <> -32768 /\ 1 <= m mod 256 <= 12 /\ 1 <= d mod 256 <= 31 ->
   epoch_of_civil y m d h mi s ms us = Ret (mk_epoch (instant y' (m mod 256) (d mod 256) h mi s ms us))) /\
  (~ (y' <> -32768 /\ 1 <= m mod 256 <= 12 /\ 1 <= d mod 256 <= 31) ->
   epoch_of_civil y m d h mi s ms us = Throw InvalidArgument).
Proof. exact civil_characterised. Qed.
Print Assumptions C02_accepted_set.

(** The full statement (every uint32 month, every int32 year) is false: narrowing happens before validation. *)
Theorem C02_rejects_refuted : exists y m d,
  int32 y /\ uint32 m /\ uint32 d /\ ~ (-32767 <= y <= 32767 /\ 1 <= m <= 12 /\ 1 <= d <= 31) /\
  exists e, epoch_of_civil y m d 0 0 0 0 0 = Ret e.
Proof. exact civil_rejection_fails. Qed.
Print Assumptions C02_rejects_refuted.

(** ** C03 *)
Theorem C03_arithmetic : forall e f d d1 d2 e',
  int64 (m_tp e) -> int64 (m_tp f) -> int64 d ->
  (epoch_plus e d = Ret e' -> epoch_diff e' e = Ret d /\ epoch_minus e' d = Ret e) /\
  (epoch_diff f e = Ret d -> epoch_plus e d = Ret f) /\
  (epoch_plus e d1 = Ret e' -> epoch_plus e' d2 = epoch_plus e (d1 + d2)) /\
  epoch_minus e d = epoch_plus e (- d) /\
  epoch_add_assign e d = epoch_plus e d /\ epoch_sub_assign e d = epoch_minus e d.
Proof. exact epoch_arithmetic_laws. Qed.
Print Assumptions C03_arithmetic.

Theorem C03_overflow_exactly_ub : forall e f d,
  (epoch_plus e d = UB <-> ~ int64 (m_tp e + d)) /\
  (epoch_minus e d = UB <-> ~ int64 (m_tp e - d)) /\
  (epoch_diff e f = UB <-> ~ int64 (m_tp e - m_tp f)) /\
  (int64 (m_tp e + d) -> exists e', epoch_plus e d = Ret e' /\ m_tp e' = m_tp e + d).
Proof. exact epoch_ub_exact. Qed.
Print Assumptions C03_overflow_exactly_ub.

Theorem C03_total_order : forall a b c,
  epoch_le a a = true /\
  (epoch_le a b = true -> epoch_le b c = true -> epoch_le a c = true) /\
  (epoch_le a b = true -> epoch_le b a = true -> a = b) /\
  (epoch_le a b = true \/ epoch_le b a = true) /\
  (epoch_lt a b = true <-> epoch_le b a = false) /\
  epoch_gt a b = epoch_lt b a /\ epoch_ge a b = epoch_le b a /\
  (epoch_eq a b = true <-> a = b) /\ epoch_ne a b = negb (epoch_eq a b).
Proof. exact epoch_total_order. Qed.
Print Assumptions C03_total_order.

Theorem C03_order_consistent_with_difference : forall a b d, epoch_diff b a = Ret d ->
  (epoch_lt a b = true <-> 0 < d) /\ (epoch_le a b = true <-> 0 <= d) /\ (epoch_eq a b = true <-> d = 0).
Proof. exact order_diff. Qed.
Print Assumptions C03_order_consistent_with_difference.

(** "The reference point is assumed to be MJD2000" (epoch.hpp 121-122) is false of the duration constructor. *)
Theorem C03_duration_reference_refuted : exists us, int64 us /\ m_tp (epoch_of_duration us) <> y2k + us.
Proof. exact duration_reference_fails. Qed.
Print Assumptions C03_duration_reference_refuted.

Example C03_nontrivial : epoch_plus epoch_default 1 = Ret (mk_epoch 946684800000001)
  /\ epoch_plus (mk_epoch (2 ^ 63 - 1)) 1 = UB.
Proof. split; vm_compute; reflexivity. Qed.

(** ** C04 *)
Theorem C04_accessors : forall t e off,
  (t = MJD2000 /\ off = 0) \/ (t = MJD /\ off = 51544 * 86400000000) \/ (t = JD /\ off * 2 = 4903089 * 86400000000) ->
  int64 (m_tp e) -> int64 (m_tp e - y2k_offset) -> int64 (m_tp e - y2k_offset + off) ->
  exists d e1 e2, julian_of t e = Ret d /\ is_finite d = true /\
    (Rabs e1 <= bpow radix2 (-53) /\ Rabs e2 <= bpow radix2 (-53) /\
     B2R d = IZR (m_tp e - y2k_offset + off) / 86400000000 * (1 + e1) * (1 + e2))%R.
Proof. exact julian_accessors. Qed.
Print Assumptions C04_accessors.

Theorem C04_accessors_monotone : forall t a b, t <> JBad ->
  in_julian_range (offset_of t) a -> in_julian_range (offset_of t) b -> m_tp a <= m_tp b ->
  exists da db, julian_of t a = Ret da /\ julian_of t b = Ret db /\ is_finite da = true /\ is_finite db = true
                /\ dleb da db = true.
Proof. exact julian_mono. Qed.
Print Assumptions C04_accessors_monotone.

Theorem C04_constructor_monotone : forall t x y ex ey,
  epoch_of_julian x t = Ret ex -> epoch_of_julian y t = Ret ey -> dleb x y = true -> epoch_le ex ey = true.
Proof. exact epoch_of_julian_mono. Qed.
Print Assumptions C04_constructor_monotone.

Theorem C04_constructor_value : forall x t off,
  (t = MJD2000 /\ off = 0) \/ (t = MJD /\ off = 51544 * 86400000000) \/ (t = JD /\ off * 2 = 4903089 * 86400000000) ->
  is_finite x = true -> (Rabs (B2R x) <= 50000000)%R ->
  epoch_of_julian x t = Ret (mk_epoch (y2k - off + Ztrunc (rnd (B2R x * 86400000000)))).
Proof. exact julian_constructor_value. Qed.
Print Assumptions C04_constructor_value.

Theorem C04_nonfinite_is_ub : forall x t, t <> JBad -> is_finite x = false -> epoch_of_julian x t = UB.
Proof. exact epoch_of_julian_nonfinite_ub. Qed.
Print Assumptions C04_nonfinite_is_ub.

Example C04_nontrivial : in_julian_range (offset_of JD) (mk_epoch 1709251200999001)
  /\ exists d, jd (mk_epoch 1709251200999001) = Ret d /\ is_finite d = true.
Proof. exact julian_nontrivial. Qed.

(** ** C05 *)
Theorem C05_round_trip_towards_reference : forall e,
  int64 (m_tp e) -> Z.abs (m_tp e - y2k_offset) < 2 ^ 52 ->
  exists d e', mjd2000 e = Ret d /\ epoch_of_julian d MJD2000 = Ret e' /\
    (y2k_offset <= m_tp e -> m_tp e - 1 <= m_tp e' <= m_tp e) /\
    (m_tp e <= y2k_offset -> m_tp e <= m_tp e' <= m_tp e + 1).
Proof. exact mjd2000_round_trip. Qed.
Print Assumptions C05_round_trip_towards_reference.

Theorem C05_round_trip_one_microsecond : forall e,
  int64 (m_tp e) -> Z.abs (m_tp e - y2k_offset) < 2 ^ 53 ->
  exists d e', mjd2000 e = Ret d /\ epoch_of_julian d MJD2000 = Ret e' /\ Z.abs (m_tp e' - m_tp e) <= 1.
Proof. exact mjd2000_round_trip53. Qed.
Print Assumptions C05_round_trip_one_microsecond.

(** The exact round trip fails already for 2000-01-01T00:00:00.000011. *)
Theorem C05_exact_round_trip_refuted : exists e d e',
  mjd2000 e = Ret d /\ epoch_of_julian d MJD2000 = Ret e' /\ e' <> e.
Proof. exact exact_round_trip_fails. Qed.
Print Assumptions C05_exact_round_trip_refuted.

(** ** C06 *)
Theorem C06_printed_epochs_parse_back : forall e y m d h mi s us,
  0 <= y <= 9999 -> valid_date y m d -> 0 <= h <= 23 -> 0 <= mi <= 59 -> 0 <= s <= 59 -> 0 <= us <= 999999 ->
  m_tp e = instant y m d h mi s 0 us ->
  exists txt, as_utc_string e = Some txt /\ List.length txt = 26%nat /\ epoch_of_string txt = Ret e.
Proof. exact print_parse_total. Qed.
Print Assumptions C06_printed_epochs_parse_back.

(** every instant between the two dates is such an instant *)
Theorem C06_covers_all_instants : forall tp,
  instant 0 1 1 0 0 0 0 0 <= tp <= instant 9999 12 31 23 59 59 0 999999 ->
  exists y m d h mi s us, 0 <= y <= 9999 /\ valid_date y m d /\ 0 <= h <= 23 /\ 0 <= mi <= 59 /\ 0 <= s <= 59
    /\ 0 <= us <= 999999 /\ tp = instant y m d h mi s 0 us.
Proof. exact instants_covered. Qed.
Print Assumptions C06_covers_all_instants.

Example C06_nontrivial :
  option_map string_of_list_ascii (as_utc_string (mk_epoch (-1))) = Some "1969-12-31T23:59:59.999999"%string.
Proof. vm_compute. reflexivity. Qed.

(** ** C07 *)
Theorem C07_iso_strings : forall y m d h mi s k f,
  0 <= y <= 9999 -> 1 <= m <= 12 -> 1 <= d <= 31 -> 0 <= h <= 99 -> 0 <= mi <= 99 -> 0 <= s <= 99 ->
  (1 <= k <= 6)%nat -> 0 <= f < 10 ^ Z.of_nat k ->
  epoch_of_string (iso_ym y m) = Ret (mk_epoch (instant y m 1 0 0 0 0 0)) /\
  epoch_of_string (iso_ymd y m d) = Ret (mk_epoch (instant y m d 0 0 0 0 0)) /\
  epoch_of_string (iso_h y m d h) = Ret (mk_epoch (instant y m d h 0 0 0 0)) /\
  epoch_of_string (iso_hm y m d h mi) = Ret (mk_epoch (instant y m d h mi 0 0 0)) /\
  epoch_of_string (iso_hms y m d h mi s) = Ret (mk_epoch (instant y m d h mi s 0 0)) /\
  epoch_of_string (iso_frac y m d h mi s k f) = Ret (mk_epoch (instant y m d h mi s 0 (f * 10 ^ (6 - Z.of_nat k)))).
Proof. exact iso_strings_accepted. Qed.
Print Assumptions C07_iso_strings.

Theorem C07_bad_length_throws : forall s,
  ~ In (List.length s) [7; 10; 13; 16; 19; 21; 22; 23; 24; 25; 26]%nat -> epoch_of_string s = Throw LogicError.
Proof. exact bad_length_throws. Qed.
Print Assumptions C07_bad_length_throws.

Theorem C07_never_ub : forall s, epoch_of_string s <> UB.
Proof. exact epoch_of_string_no_ub. Qed.
Print Assumptions C07_never_ub.

(** Strings that are not ISO-8601 are accepted: the separators are never looked at, digits may be followed by garbage,
    clock fields may be negative. *)
Theorem C07_strict_refuted : exists s1 s2 s3 e1 e2 e3,
  s1 = list_ascii_of_string "2000x01" /\ epoch_of_string s1 = Ret e1 /\
  s2 = list_ascii_of_string "2000-1x-1?" /\ epoch_of_string s2 = Ret e2 /\
  s3 = list_ascii_of_string "2000-01-01T-1" /\ epoch_of_string s3 = Ret e3 /\
  e1 = epoch_default /\ e2 = epoch_default /\ m_tp e3 < m_tp epoch_default.
Proof. exact strictness_fails. Qed.
Print Assumptions C07_strict_refuted.
