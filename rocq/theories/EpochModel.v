(** * Model of kep3::epoch

    include/kep3/epoch.hpp (lines 58-256) and src/epoch.cpp.
    A time point is a 64-bit count of microseconds since the Unix epoch (epoch.hpp 58-68);
    an epoch is its only member [m_tp].  Counts are [Z]; signed overflow is [UB]. *)
From Coq Require Import ZArith List Ascii String Bool.
From Verif Require Import Outcome Float64.
Import ListNotations.
Open Scope Z_scope.
Open Scope outcome_scope.

(** ** 64-bit signed arithmetic (std::int64_t); overflow is UB *)
Definition in64b (n : Z) : bool := (- 2 ^ 63 <=? n) && (n <=? 2 ^ 63 - 1).
Definition i64 (n : Z) : outcome Z := if in64b n then Ret n else UB.
Definition add64 (a b : Z) : outcome Z := i64 (a + b).
Definition sub64 (a b : Z) : outcome Z := i64 (a - b).
Definition mul64 (a b : Z) : outcome Z := i64 (a * b).

(** ** Narrowing in the std::chrono calendar types
    std::chrono::year holds a short, month and day hold an unsigned char.  The standard leaves the held
    value unspecified when the argument is out of range; libstdc++ (bits: <chrono>, e.g.
    [year(int y) : _M_y{static_cast<short>(y)}]) truncates, which is what is modelled. *)
Definition to_short (n : Z) : Z := (n + 32768) mod 65536 - 32768.
Definition to_uchar (n : Z) : Z := n mod 256.

(** year::ok, month::ok, day::ok *)
Definition year_ok (y : Z) : bool := negb (y =? -32768).
Definition month_ok (m : Z) : bool := (1 <=? m) && (m <=? 12).
Definition day_ok (d : Z) : bool := (1 <=? d) && (d <=? 31).

(** ** sys_days(year_month_day): days since 1970-01-01
    std::chrono (external code); libstdc++ 13 <chrono> 1760-1780 [_M_days_since_epoch], uint32
    arithmetic written out with [mod 2^32]. *)
Definition u32 (n : Z) : Z := n mod 2 ^ 32.
Definition to_i32 (n : Z) : Z := (n + 2 ^ 31) mod 2 ^ 32 - 2 ^ 31.
Definition chrono_days (y m d : Z) : Z :=
  let y1 := u32 (u32 y - u32 (-1468000)) in
  let j := if m <? 3 then 1 else 0 in
  let y0 := u32 (y1 - j) in
  let m0 := if m <? 3 then u32 (m + 12) else m in
  let d0 := u32 (d - 1) in
  let q1 := y0 / 100 in
  let yc := u32 (u32 (u32 (1461 * y0) / 4 - q1) + q1 / 4) in
  let mc := u32 (u32 (979 * m0) - 2919) / 32 in
  to_i32 (u32 (u32 (u32 (yc + mc) + d0) - 536895458)).

(** microseconds per unit *)
Definition us_per_day : Z := 86400000000.

(** epoch.hpp 84-94 *)
Definition y2k_offset : Z := 946684800000000.
Definition y2k : Z := y2k_offset.
Definition jd_offset : Z := 211813444800000000.
Definition mjd_offset : Z := 4453401600000000.

(** ** epoch::make_tp, src/epoch.cpp 127-174
    [ymd += months{0}] (153) is the identity once month::ok holds, so it is omitted. *)
Definition make_tp (y mon d h mi s ms us : Z) : outcome Z :=
  let cy := to_short y in
  if negb (year_ok cy) then Throw InvalidArgument else
  let cm := to_uchar mon in
  if negb (month_ok cm) then Throw InvalidArgument else
  let cd := to_uchar d in
  if negb (day_ok cd) then Throw InvalidArgument else
  tp <- mul64 (chrono_days cy cm cd) us_per_day ;;
  hh <- mul64 h 3600000000 ;; tp <- add64 tp hh ;;
  mm <- mul64 mi 60000000 ;; tp <- add64 tp mm ;;
  ss <- mul64 s 1000000 ;; tp <- add64 tp ss ;;
  mms <- mul64 ms 1000 ;; tp <- add64 tp mms ;;
  tp <- add64 tp us ;;
  Ret tp.

(** ** The epoch class: a single member m_tp (epoch.hpp 255) *)
Record epoch : Set := mk_epoch { m_tp : Z }.

(** default constructor, epoch.hpp 109, 255; epoch.cpp 29 *)
Definition epoch_default : epoch := mk_epoch y2k.

(** epoch.cpp 124 *)
Definition epoch_of_tp (tp : Z) : epoch := mk_epoch tp.

(** constructor from calendar fields, epoch.cpp 68-72 *)
Definition epoch_of_civil (y mon d h mi s ms us : Z) : outcome epoch :=
  tp <- make_tp y mon d h mi s ms us ;; Ret (mk_epoch tp).

(** constructor from a std::chrono::duration already expressed in microseconds, epoch.hpp 125-129.
    (The duration_cast from other integral periods is a plain rescaling and is not modelled.) *)
Definition epoch_of_duration (us : Z) : epoch := mk_epoch us.

(** comparison operators, epoch.cpp 176-204 *)
Definition epoch_gt (a b : epoch) : bool := m_tp b <? m_tp a.
Definition epoch_lt (a b : epoch) : bool := m_tp a <? m_tp b.
Definition epoch_ge (a b : epoch) : bool := m_tp b <=? m_tp a.
Definition epoch_le (a b : epoch) : bool := m_tp a <=? m_tp b.
Definition epoch_eq (a b : epoch) : bool := m_tp a =? m_tp b.
Definition epoch_ne (a b : epoch) : bool := negb (m_tp a =? m_tp b).

(** operator+= / operator-= with a microseconds duration, epoch.hpp 182-194 (returns the new object) *)
Definition epoch_add_assign (e : epoch) (d : Z) : outcome epoch :=
  tp <- add64 (m_tp e) d ;; Ret (mk_epoch tp).
Definition epoch_sub_assign (e : epoch) (d : Z) : outcome epoch :=
  tp <- sub64 (m_tp e) d ;; Ret (mk_epoch tp).

(** operator+ / operator- with a duration, epoch.hpp 203-213 *)
Definition epoch_plus (e : epoch) (d : Z) : outcome epoch :=
  tp <- add64 (m_tp e) d ;; Ret (epoch_of_tp tp).
Definition epoch_minus (e : epoch) (d : Z) : outcome epoch :=
  tp <- sub64 (m_tp e) d ;; Ret (epoch_of_tp tp).

(** operator-(epoch, epoch), epoch.cpp 250-253 *)
Definition epoch_diff (a b : epoch) : outcome Z := sub64 (m_tp a) (m_tp b).

(** ** Julian dates

    [std::chrono::duration<double, ratio<86400>>(us)] converts a 64-bit microsecond count:
    libstdc++ duration_cast with _CF = 1/86400000000 and _CR = double, i.e.
    [double(count) / 86400000000.0] (libstdc++ bits/chrono.h 203-214). *)
Definition days_of_us (us : Z) : double := ddiv (d_of_Z us) (d_of_Z us_per_day).

(** epoch.hpp 140-161; the additions are 64-bit *)
Definition mjd2000 (e : epoch) : outcome double :=
  a <- sub64 (m_tp e) y2k_offset ;; Ret (days_of_us a).
Definition mjd (e : epoch) : outcome double :=
  a <- sub64 (m_tp e) y2k_offset ;; b <- add64 a mjd_offset ;; Ret (days_of_us b).
Definition jd (e : epoch) : outcome double :=
  a <- sub64 (m_tp e) y2k_offset ;; b <- add64 a jd_offset ;; Ret (days_of_us b).

(** epoch.hpp 167-170: duration<double, ratio<1>>, i.e. double(count)/1000000.0 *)
Definition as_sec (us : Z) : double := ddiv (d_of_Z us) (d_of_Z 1000000).

(** [duration_cast<microseconds>(duration<double, ratio<86400>>(days))]: _CF = 86400000000/1, so
    int64(days * 86400000000.0) with truncation (libstdc++ bits/chrono.h 216-227). *)
Definition us_of_days (days : double) : outcome Z := d_to_i64 (dmul days (d_of_Z us_per_day)).
(** epoch.hpp 215-218 (epoch::days) and 220-223 (epoch::sec) *)
Definition epoch_days (v : double) : outcome Z := us_of_days v.
Definition epoch_sec (v : double) : outcome Z := d_to_i64 (dmul v (d_of_Z 1000000)).

(** epoch::tp_from_days, epoch.cpp 211-214 *)
Definition tp_from_days (days : double) : outcome Z :=
  us <- us_of_days days ;; add64 y2k us.

(** enum class julian_type, epoch.hpp 104; [JBad] stands for an enumerator outside the list. *)
Inductive julian_type : Set := MJD2000 | MJD | JD | JBad.

(** epoch.cpp 38-55 *)
Definition epoch_of_julian (x : double) (t : julian_type) : outcome epoch :=
  match t with
  | MJD2000 => tp <- tp_from_days x ;; Ret (mk_epoch tp)
  | MJD => tp <- tp_from_days x ;; tp' <- sub64 tp mjd_offset ;; Ret (mk_epoch tp')
  | JD => tp <- tp_from_days x ;; tp' <- sub64 tp jd_offset ;; Ret (mk_epoch tp')
  | JBad => Throw InvalidArgument
  end.

(** The accessor belonging to a scale. *)
Definition julian_of (t : julian_type) (e : epoch) : outcome double :=
  match t with
  | MJD2000 => mjd2000 e
  | MJD => mjd e
  | JD => jd e
  | JBad => Throw InvalidArgument
  end.

(** ** String constructor, epoch.cpp 75-117.  A std::string is a list of characters. *)
Definition str := list ascii.
Definition code (c : ascii) : Z := Z.of_N (N_of_ascii c).

(** std::string::substr(pos, n): throws std::out_of_range if pos > size *)
Definition substr (s : str) (pos n : nat) : outcome str :=
  if Nat.ltb (List.length s) pos then Throw OutOfRange else Ret (firstn n (skipn pos s)).
Definition substr_from (s : str) (pos : nat) : outcome str :=
  if Nat.ltb (List.length s) pos then Throw OutOfRange else Ret (skipn pos s).

(** std::stoi base 10: skip isspace, optional sign, longest digit prefix, trailing garbage ignored;
    no digit: std::invalid_argument; value outside int: std::out_of_range. *)
Definition is_space (c : ascii) : bool :=
  let k := code c in (k =? 32) || ((9 <=? k) && (k <=? 13)).
Definition is_digit (c : ascii) : bool :=
  let k := code c in (48 <=? k) && (k <=? 57).
Fixpoint skip_space (s : str) : str :=
  match s with
  | c :: r => if is_space c then skip_space r else s
  | [] => []
  end.
(** [digits acc s]: value of the longest digit prefix, or [None] if there is none and [seen] is false. *)
Fixpoint digits (seen : bool) (acc : Z) (s : str) : option Z :=
  match s with
  | c :: r => if is_digit c then digits true (10 * acc + (code c - 48)) r
              else if seen then Some acc else None
  | [] => if seen then Some acc else None
  end.
Definition stoi (s : str) : outcome Z :=
  let s := skip_space s in
  let '(neg, s) := match s with
                   | c :: r => if code c =? 45 then (true, r)
                               else if code c =? 43 then (false, r) else (false, s)
                   | [] => (false, [])
                   end in
  match digits false 0 s with
  | None => Throw InvalidArgument
  | Some v => let v := if (neg : bool) then - v else v in
              if (- 2 ^ 31 <=? v) && (v <=? 2 ^ 31 - 1) then Ret v else Throw OutOfRange
  end.

(** boost::numeric_cast<unsigned>(int): throws on negative values (<boost/numeric/conversion>) *)
Definition numeric_cast_unsigned (n : Z) : outcome Z :=
  if n <? 0 then Throw BadNumericCast else Ret n.

(** the loop of epoch.cpp 108-110: [us *= 10] repeated [6 - rest.size()] times; [us] is an int32 and signed
    overflow is UB.  [rest.size()] is at most 6 because of the length check, so the unsigned
    subtraction does not wrap. *)
Definition i32 (n : Z) : outcome Z := if (- 2 ^ 31 <=? n) && (n <=? 2 ^ 31 - 1) then Ret n else UB.
Fixpoint mul10 (n : nat) (us : Z) : outcome Z :=
  match n with O => Ret us | S n => us' <- i32 (us * 10) ;; mul10 n us' end.

Definition allowed_lengths : list nat := [7; 10; 13; 16; 19; 21; 22; 23; 24; 25; 26]%nat.

Definition epoch_of_string (s : str) : outcome epoch :=
  let len := List.length s in
  if negb (existsb (Nat.eqb len) allowed_lengths) then Throw LogicError else
  ys <- substr s 0 4 ;; y <- stoi ys ;;
  mos <- substr s 5 2 ;; mo <- stoi mos ;; mon <- numeric_cast_unsigned mo ;;
  d <- (if Nat.leb 10 len then ds <- substr s 8 2 ;; d <- stoi ds ;; numeric_cast_unsigned d
        else Ret 1) ;;
  h <- (if Nat.leb 13 len then hs <- substr s 11 2 ;; stoi hs else Ret 0) ;;
  mi <- (if Nat.leb 16 len then ms <- substr s 14 2 ;; stoi ms else Ret 0) ;;
  sec <- (if Nat.leb 19 len then ss <- substr s 17 2 ;; stoi ss else Ret 0) ;;
  us <- (if Nat.leb 21 len then
           rest <- substr_from s 20 ;; u <- stoi rest ;; mul10 (6 - List.length rest) u
         else Ret 0) ;;
  tp <- make_tp y mon d h mi sec 0 us ;;
  Ret (mk_epoch tp).

(** ** Printing: fmt::format("{:%FT%T}", tp), epoch.cpp 223-234 (fmt is external code)
    %F is the proleptic Gregorian date YYYY-MM-DD, %T is HH:MM:SS followed by the six digits of the
    sub-second part, all zero padded.  Modelled only for years 0000..9999 ([None] otherwise), where fmt prints
    exactly four year digits.  The date of a day count is computed by the standard civil-from-days
    algorithm. *)
Definition civil_from_days (n : Z) : Z * Z * Z :=
  let z := n + 719468 in
  let era := z / 146097 in
  let doe := z mod 146097 in
  let yoe := (doe - doe / 1460 + doe / 36524 - doe / 146096) / 365 in
  let doy := doe - (365 * yoe + yoe / 4 - yoe / 100) in
  let mp := (5 * doy + 2) / 153 in
  let d := doy - (153 * mp + 2) / 5 + 1 in
  let m := if mp <? 10 then mp + 3 else mp - 9 in
  let y := yoe + era * 400 in
  ((if m <=? 2 then y + 1 else y), m, d).

Definition digit_char (n : Z) : ascii := ascii_of_N (Z.to_N (48 + n mod 10)).
(** [pad k n]: the [k] least significant decimal digits of [n], most significant first. *)
Fixpoint pad (k : nat) (n : Z) : str :=
  match k with O => [] | S k => pad k (n / 10) ++ [digit_char n] end.

Definition as_utc_string (e : epoch) : option str :=
  let us := m_tp e in
  let day := us / us_per_day in
  let tod := us mod us_per_day in
  let '(y, m, d) := civil_from_days day in
  if (0 <=? y) && (y <=? 9999) then
    Some (pad 4 y ++ ["-"%char] ++ pad 2 m ++ ["-"%char] ++ pad 2 d ++ ["T"%char]
          ++ pad 2 (tod / 3600000000) ++ [":"%char] ++ pad 2 (tod / 60000000 mod 60) ++ [":"%char]
          ++ pad 2 (tod / 1000000 mod 60) ++ ["."%char] ++ pad 6 (tod mod 1000000))
  else None.

(** ** Serialization, epoch.hpp 235-253: the archive holds the 64-bit count *)
Definition epoch_save (e : epoch) : Z := m_tp e.
Definition epoch_load (count : Z) : epoch := mk_epoch count.
