(** * Independent specification of the proleptic Gregorian calendar

    Nothing here refers to the model: a calendar is given by the leap-year rule, the month lengths and
    counting. *)
From Coq Require Import ZArith List Bool Lia.
Open Scope Z_scope.

Definition leap (y : Z) : bool :=
  ((y mod 4 =? 0) && negb (y mod 100 =? 0)) || (y mod 400 =? 0).

Definition days_in_month (y m : Z) : Z :=
  match m with
  | 1 => 31 | 2 => if leap y then 29 else 28 | 3 => 31 | 4 => 30 | 5 => 31 | 6 => 30
  | 7 => 31 | 8 => 31 | 9 => 30 | 10 => 31 | 11 => 30 | 12 => 31
  | _ => 0
  end.

Definition days_in_year (y : Z) : Z := if leap y then 366 else 365.

(** [sum_years n y]: days in the [n] years starting with year [y]. *)
Fixpoint sum_years (n : nat) (y : Z) : Z :=
  match n with O => 0 | S n => days_in_year y + sum_years n (y + 1) end.

(** Days from 1970-01-01 to January 1st of year [y]: count forward or backward. *)
Definition jan1 (y : Z) : Z :=
  if 1970 <=? y then sum_years (Z.to_nat (y - 1970)) 1970
  else - sum_years (Z.to_nat (1970 - y)) y.

(** [sum_months n y]: days in the first [n] months of year [y]. *)
Fixpoint sum_months (n : nat) (y : Z) : Z :=
  match n with O => 0 | S n => sum_months n y + days_in_month y (Z.of_nat n + 1) end.

(** Day number (1970-01-01 is 0) of the [d]-th day counted from the first of month [m] of year [y]. *)
Definition day_number (y m d : Z) : Z := jan1 y + sum_months (Z.to_nat (m - 1)) y + (d - 1).

(** A real calendar date. *)
Definition valid_date (y m d : Z) : Prop := 1 <= m <= 12 /\ 1 <= d <= days_in_month y m.

(** The instant, in microseconds since 1970-01-01T00:00:00, of a date and clock reading. *)
Definition instant (y m d h mi s ms us : Z) : Z :=
  ((((day_number y m d * 24 + h) * 60 + mi) * 60 + s) * 1000 + ms) * 1000 + us.

Definition int32 (n : Z) : Prop := - 2 ^ 31 <= n <= 2 ^ 31 - 1.
Definition uint32 (n : Z) : Prop := 0 <= n <= 2 ^ 32 - 1.
Definition int64 (n : Z) : Prop := - 2 ^ 63 <= n <= 2 ^ 63 - 1.
