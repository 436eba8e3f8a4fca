(** * C56: epochs in Python stand for the dates, numbers and durations they are made from *)
From Coq Require Import ZArith Reals List Bool.
From Flocq Require Import Core.Core IEEE754.BinarySingleNaN.
From Verif Require Import Outcome Float64 EpochModel EpochSpec PyEpochModel PyEpochSpec PyEpochProofs PyEpochFacts.
Import ListNotations.
Open Scope Z_scope.

(** the epoch of a datetime is the instant its fields read *)
Theorem C56_datetime : forall d, valid_datetime d -> naive d -> exists e, py_epoch (VDatetime d) = Ret e /\ m_tp e = utc d.
Proof. exact datetime_naive. Qed.
Print Assumptions C56_datetime.
(** epochs are ordered as the datetimes they come from, and different datetimes give different epochs *)
Theorem C56_order : forall a b ea eb, valid_datetime a -> valid_datetime b -> py_epoch (VDatetime a) = Ret ea -> py_epoch (VDatetime b) = Ret eb ->
  (epoch_lt ea eb = true <-> lexlt (fields a) (fields b)) /\ (epoch_eq ea eb = true <-> fields a = fields b).
Proof. exact datetime_order. Qed.
Print Assumptions C56_order.
(** with a time zone the epoch is off by the offset of the zone *)
Theorem C56_zone : forall d, valid_datetime d -> exists e, py_epoch (VDatetime d) = Ret e /\ m_tp e = utc d + match dt_off d with None => 0 | Some o => o end.
Proof. exact datetime_utc. Qed.
Print Assumptions C56_zone.
Theorem C56_zone_refuted : exists a b ea eb, valid_datetime a /\ valid_datetime b /\ utc a = utc b /\ py_epoch (VDatetime a) = Ret ea /\ py_epoch (VDatetime b) = Ret eb /\ m_tp ea <> m_tp eb.
Proof. exact zone_lost. Qed.
Print Assumptions C56_zone_refuted.
(** numbers are days from 2000: exact for whole days, rounded once and cut to microseconds for floats *)
Theorem C56_int : forall n, Z.abs n <= 100000000 -> py_epoch (VInt n) = Ret (mk_epoch (946684800000000 + n * 86400000000)).
Proof. exact int_ok. Qed.
Print Assumptions C56_int.
Theorem C56_float : forall x, is_finite x = true -> (Rabs (B2R x) <= 50000000)%R ->
  py_epoch (VFloat x) = Ret (mk_epoch (946684800000000 + Ztrunc (round radix2 (FLT_exp (-1074) 53) ZnearestE (B2R x * 86400000000)))).
Proof. exact float_ok. Qed.
Print Assumptions C56_float.
Theorem C56_float_near : forall x, is_finite x = true -> (Rabs (B2R x) <= 50000)%R -> exists e, py_epoch (VFloat x) = Ret e /\ (Rabs (IZR (m_tp e) - (946684800000000 + B2R x * 86400000000)) < 2)%R.
Proof. exact float_near. Qed.
Print Assumptions C56_float_near.
(** a value is accepted with a julian_type iff it is a number; the same numbers are not all accepted without one *)
Theorem C56_julian : forall v t, py_epoch_jt v t = match v with VFloat x | VNum x => epoch_of_julian x t | VInt n => if is_finite (d_of_Z n) then epoch_of_julian (d_of_Z n) t else Throw InvalidArgument | _ => Throw InvalidArgument end.
Proof. exact jt_all. Qed.
Print Assumptions C56_julian.
Theorem C56_default_refuted : (exists n, py_epoch (VInt n) = Throw InvalidArgument /\ py_epoch_jt (VInt n) MJD2000 <> Throw InvalidArgument) /\
  (forall x, py_epoch (VNum x) = Throw InvalidArgument /\ py_epoch_jt (VNum x) MJD2000 = epoch_of_julian x MJD2000) /\
  (exists n, -2 ^ 31 <= n < 2 ^ 31 /\ py_epoch (VInt n) = UB).
Proof. exact default_differs. Qed.
Print Assumptions C56_default_refuted.
(** text: the string a date prints as reads back as that epoch *)
Theorem C56_text : forall e y m d h mi s us, 0 <= y <= 9999 -> valid_date y m d -> 0 <= h <= 23 -> 0 <= mi <= 59 -> 0 <= s <= 59 -> 0 <= us <= 999999 -> m_tp e = instant y m d h mi s 0 us ->
  exists txt, as_utc_string e = Some txt /\ py_epoch (VStr txt) = Ret e.
Proof. exact print_read. Qed.
Print Assumptions C56_text.
(** sums: numbers are days, timedeltas are durations *)
Theorem C56_add_days : forall e n, Z.abs n <= 100000000 -> int64 (m_tp e + n * 86400000000) -> py_add e (VInt n) = Ret (mk_epoch (m_tp e + n * 86400000000)).
Proof. exact add_int_ok. Qed.
Print Assumptions C56_add_days.
Theorem C56_add_float : forall e x, is_finite x = true -> (Rabs (B2R x) <= 50000000)%R -> Z.abs (m_tp e) <= 2 ^ 62 ->
  py_add e (VFloat x) = Ret (mk_epoch (m_tp e + Ztrunc (round radix2 (FLT_exp (-1074) 53) ZnearestE (B2R x * 86400000000)))) /\ py_add e (VNum x) = py_add e (VFloat x).
Proof. exact add_float_ok. Qed.
Print Assumptions C56_add_float.
Theorem C56_add_delta_partial : forall e d, valid_delta d -> Z.abs (delta d) < 2 ^ 52 -> Z.abs (m_tp e) <= 2 ^ 62 -> exists e', py_add e (VDelta d) = Ret e' /\
  (0 <= delta d -> delta d - 1 <= m_tp e' - m_tp e <= delta d) /\ (delta d <= 0 -> delta d <= m_tp e' - m_tp e <= delta d + 1).
Proof. exact delta_sum. Qed.
Print Assumptions C56_add_delta_partial.
Theorem C56_add_whole : forall e d, valid_delta d -> Z.abs (delta d) < 2 ^ 52 -> Z.abs (m_tp e) <= 2 ^ 62 -> td_us d = 0 -> py_add e (VDelta d) = Ret (mk_epoch (m_tp e + delta d)).
Proof. exact delta_whole. Qed.
Print Assumptions C56_add_whole.
(** exactness fails: 249 microseconds add 248; and the longest timedeltas overflow *)
Theorem C56_add_delta_refuted : (exists e d e', valid_delta d /\ delta d = 249 /\ py_add e (VDelta d) = Ret e' /\ m_tp e' - m_tp e = 248) /\ (exists d, valid_delta d /\ forall e, py_add e (VDelta d) = UB).
Proof. exact delta_refuted. Qed.
Print Assumptions C56_add_delta_refuted.
(** adding to the epoch of a date or to the date itself is the same to a microsecond *)
Theorem C56_datetime_delta : forall a b d ea eb, valid_datetime a -> valid_datetime b -> valid_delta d -> Z.abs (delta d) < 2 ^ 52 -> reading b = reading a + delta d ->
  py_epoch (VDatetime a) = Ret ea -> py_epoch (VDatetime b) = Ret eb -> exists e', py_add ea (VDelta d) = Ret e' /\ Z.abs (m_tp e' - m_tp eb) <= 1.
Proof. exact delta_datetime. Qed.
Print Assumptions C56_datetime_delta.
(** taking off what was added gives the epoch back, whatever was added *)
Theorem C56_inverse : forall e v e', int64 (m_tp e) -> py_add e v = Ret e' -> py_sub e' v = Ret e.
Proof. exact add_sub. Qed.
Print Assumptions C56_inverse.
Theorem C56_refused : forall e v, match v with VStr _ | VDatetime _ | VOther => True | _ => False end -> py_add e v = Throw InvalidArgument /\ py_sub e v = Throw InvalidArgument.
Proof. exact add_refused. Qed.
Print Assumptions C56_refused.

(** 1980-10-17T11:36:21.121841, as in the documentation *)
Example ex_datetime : exists e, py_epoch (VDatetime (mk_dt 1980 10 17 11 36 21 121841 None)) = Ret e /\ m_tp e = 340630581121841.
Proof. eexists. split; vm_compute; reflexivity. Qed.
Example ex_int : py_epoch (VInt 7305) = Ret (mk_epoch (instant 2020 1 1 0 0 0 0 0)).
Proof. vm_compute. reflexivity. Qed.
Example ex_delta : py_add (mk_epoch 0) (VDelta (mk_td 1 2 3)) = Ret (mk_epoch 86402000003).
Proof. vm_compute. reflexivity. Qed.
