(** * IEEE-754 binary64 values and the C++ double operations used by the models

    C++ [double] is modelled by Flocq's [binary_float 53 1024] with a single NaN
    (simplification: NaN payloads and the sign of NaN are not distinguished).  All arithmetic rounds to
    nearest, ties to even, the default rounding mode. *)
From Coq Require Import ZArith Lia.
From Flocq Require Import Core.Core IEEE754.BinarySingleNaN.
From Verif Require Import Outcome.

Definition prec64 : Z := 53.
Definition emax64 : Z := 1024.
#[global] Instance prec64_gt_0 : Prec_gt_0 prec64.
Proof. reflexivity. Qed.
#[global] Instance prec64_lt_emax64 : Prec_lt_emax prec64 emax64.
Proof. reflexivity. Qed.

Definition double : Type := binary_float prec64 emax64.

(** C++ [static_cast<double>(n)] for an integer [n]: correctly rounded. *)
Definition d_of_Z (n : Z) : double := binary_normalize prec64 emax64 _ _ mode_NE n 0 false.
(** A double given by its exact dyadic value m * 2^e (used for literals). *)
Definition d_of_dyadic (m e : Z) : double := binary_normalize prec64 emax64 _ _ mode_NE m e false.

Definition dadd (x y : double) : double := Bplus mode_NE x y.
Definition dsub (x y : double) : double := Bminus mode_NE x y.
Definition dmul (x y : double) : double := Bmult mode_NE x y.
Definition ddiv (x y : double) : double := Bdiv mode_NE x y.
Definition dsqrt (x : double) : double := Bsqrt mode_NE x.

(** C++ relational operators: every comparison with a NaN is false. *)
Definition dltb (x y : double) : bool := Bltb x y.
Definition dleb (x y : double) : bool := Bleb x y.
Definition deqb (x y : double) : bool := Beqb x y.
Definition dgtb (x y : double) : bool := dltb y x.
Definition dgeb (x y : double) : bool := dleb y x.

Definition dnan : double := B754_nan.
Definition dinf : double := B754_infinity false.
Definition dninf : double := B754_infinity true.
Definition dzero : double := B754_zero false.
Definition done : double := d_of_Z 1.

Definition d_isnan (x : double) : bool := is_nan x.
Definition d_isfinite (x : double) : bool := is_finite x.

(** Conversion of a double to an integer type with range [lo, hi]: truncation towards zero; the
    behaviour is undefined if the value is NaN, infinite, or its truncation does not fit
    ([conv.fpint]/1). *)
Definition d_to_int (lo hi : Z) (x : double) : outcome Z :=
  if is_finite x then
    let n := Btrunc x in
    if (Z.leb lo n && Z.leb n hi)%bool then Ret n else UB
  else UB.

Definition d_to_i64 : double -> outcome Z := d_to_int (- 2 ^ 63) (2 ^ 63 - 1).
Definition d_to_u32 : double -> outcome Z := d_to_int 0 (2 ^ 32 - 1).
