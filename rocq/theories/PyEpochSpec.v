(** * What Python dates and differences stand for *)
From Coq Require Import ZArith Bool.
From Verif Require Import EpochModel EpochSpec PyEpochModel.
Open Scope Z_scope.

(** the ranges of the datetime module *)
Definition valid_datetime (d : datetime) : Prop :=
  1 <= dt_year d <= 9999 /\ valid_date (dt_year d) (dt_month d) (dt_day d) /\ 0 <= dt_hour d <= 23 /\ 0 <= dt_min d <= 59 /\ 0 <= dt_sec d <= 59 /\ 0 <= dt_us d <= 999999.
Definition valid_delta (d : timedelta) : Prop := -999999999 <= td_days d <= 999999999 /\ 0 <= td_sec d <= 86399 /\ 0 <= td_us d <= 999999.
(** microseconds since 1970 (UTC); a naive datetime is read as UTC *)
Definition reading (d : datetime) : Z := instant (dt_year d) (dt_month d) (dt_day d) (dt_hour d) (dt_min d) (dt_sec d) 0 (dt_us d).
Definition utc (d : datetime) : Z := reading d - match dt_off d with None => 0 | Some o => o end.
Definition naive (d : datetime) : Prop := dt_off d = None.
(** microseconds of a timedelta *)
Definition delta (d : timedelta) : Z := (td_days d * 86400 + td_sec d) * 1000000 + td_us d.
(** the order of Python on naive datetimes: by year, month, day, hour, minute, second, microsecond *)
Definition fields (d : datetime) : list Z := cons (dt_year d) (cons (dt_month d) (cons (dt_day d) (cons (dt_hour d) (cons (dt_min d) (cons (dt_sec d) (cons (dt_us d) nil)))))).
Fixpoint lexlt (a b : list Z) : Prop :=
  match a, b with cons x a', cons y b' => x < y \/ (x = y /\ lexlt a' b') | _, _ => False end.
