(** * Epochs in Python: pykep/core.cpp 125-189 with the rules of pybind11 2.x for overloads and casts
    pybind11 tries the overloads in the order of registration, first without and then with implicit conversions; an overload
    that accepts its arguments is called and its exception, if any, is that of the call.  A call that no overload accepts
    raises TypeError.  TypeError is [InvalidArgument].  Simplifications: an argument is one of the kinds of [pyval];
    [VInt] covers int, bool and every object with __index__. *)
From Coq Require Import ZArith List Bool.
From Flocq Require Import Core.Core IEEE754.BinarySingleNaN.
From Verif Require Import Outcome Float64 EpochModel.
Import ListNotations.
Open Scope Z_scope. Open Scope outcome_scope.

(** datetime.datetime; utcoffset() in microseconds, None for a naive one *)
Record datetime := mk_dt { dt_year : Z; dt_month : Z; dt_day : Z; dt_hour : Z; dt_min : Z; dt_sec : Z; dt_us : Z; dt_off : option Z }.
(** datetime.timedelta *)
Record timedelta := mk_td { td_days : Z; td_sec : Z; td_us : Z }.
(** [VNum]: a number that is neither a float nor has __index__, such as numpy.float32; PyFloat_AsDouble gives its value *)
Inductive pyval := VFloat (x : double) | VInt (n : Z) | VNum (x : double) | VStr (s : str) | VDatetime (d : datetime) | VDelta (d : timedelta) | VOther.

(** pybind11/cast.h, type_caster of arithmetic types *)
Definition load_double (convert : bool) (v : pyval) : option double :=
  match v with
  | VFloat x => Some x
  | VInt n => if convert && is_finite (d_of_Z n) then Some (d_of_Z n) else None
  | VNum x => if convert then Some x else None
  | _ => None
  end.
(** the conversion of a [VNum] is left out: wherever it could happen the overload for double, tried earlier, has accepted *)
Definition load_int (v : pyval) : option Z :=
  match v with VInt n => if (- 2 ^ 31 <=? n) && (n <=? 2 ^ 31 - 1) then Some n else None | _ => None end.
Definition load_string (v : pyval) : option str := match v with VStr s => Some s | _ => None end.
(** pybind11/chrono.h, duration_caster<duration<double>>: the sum of days (32 bits), seconds and microseconds is taken in
    64-bit microseconds and divided by 1000000 *)
Definition td_seconds (d : timedelta) : outcome double :=
  u <- mul64 (td_days d * 86400 + td_sec d) 1000000 ;; u <- add64 u (td_us d) ;; Ret (as_sec u).
Definition load_duration (v : pyval) : option (outcome double) :=
  match v with VDelta d => Some (td_seconds d) | VFloat x => Some (Ret x) | _ => None end.

(** dispatch *)
Definition overload := bool -> option (outcome epoch).
Fixpoint try_all (l : list overload) (convert : bool) : option (outcome epoch) :=
  match l with [] => None | o :: l' => match o convert with Some r => Some r | None => try_all l' convert end end.
Definition dispatch (l : list overload) : outcome epoch :=
  match try_all l false with
  | Some r => r
  | None => match try_all l true with Some r => r | None => Throw InvalidArgument end
  end.

(** 141-158: time zone not looked at *)
Definition from_datetime (v : pyval) : outcome epoch :=
  match v with
  | VDatetime d => epoch_of_civil (dt_year d) (dt_month d) (dt_day d) (dt_hour d) (dt_min d) (dt_sec d) 0 (dt_us d)
  | _ => Throw InvalidArgument
  end.
(** 131-158: pykep.epoch(v) and pykep.epoch(v, julian_type) *)
Definition o_double (v : pyval) (t : julian_type) : overload := fun c => option_map (fun x => epoch_of_julian x t) (load_double c v).
Definition o_int (v : pyval) (t : julian_type) : overload := fun _ => option_map (fun n => epoch_of_julian (d_of_Z n) t) (load_int v).
Definition o_string (v : pyval) : overload := fun _ => option_map epoch_of_string (load_string v).
Definition o_object (v : pyval) : overload := fun _ => Some (from_datetime v).
Definition py_epoch (v : pyval) : outcome epoch := dispatch [o_double v MJD2000; o_int v MJD2000; o_string v; o_object v].
Definition py_epoch_jt (v : pyval) (t : julian_type) : outcome epoch := dispatch [o_double v t; o_int v t].

(** 181-187 *)
Definition o_days (f : epoch -> Z -> outcome epoch) (e : epoch) (v : pyval) : overload :=
  fun c => option_map (fun x => us <- epoch_days x ;; f e us) (load_double c v).
Definition o_duration (f : epoch -> Z -> outcome epoch) (e : epoch) (v : pyval) : overload :=
  fun _ => option_map (fun o => x <- o ;; us <- epoch_sec x ;; f e us) (load_duration v).
Definition py_add (e : epoch) (v : pyval) : outcome epoch := dispatch [o_days epoch_plus e v; o_duration epoch_plus e v].
Definition py_sub (e : epoch) (v : pyval) : outcome epoch := dispatch [o_days epoch_minus e v; o_duration epoch_minus e v].
