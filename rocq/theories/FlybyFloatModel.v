(** * fb_con and fb_dv in doubles: src/core_astro/flyby.cpp 24-37, 45-64.  Definitions only.
    The operations are evaluated in the order of the source, each correctly rounded (no contraction to fused multiply-add); acos, asin, cos of the
    C library are arguments. *)
From Coq Require Import ZArith Reals.
From Flocq Require Import IEEE754.BinarySingleNaN.
From Verif Require Import Float64 Vec3.
Definition dvec : Type := (double * double * double)%type.
(** flyby.cpp 27-28, 33 *)
Definition ddot (a b : dvec) : double :=
  let '(a0, a1, a2) := a in let '(b0, b1, b2) := b in dadd (dadd (dmul a0 b0) (dmul a1 b1)) (dmul a2 b2).
(** flyby.cpp 33-34, 54-55: the argument of acos *)
Definition cos_arg (v_in v_out : dvec) : double := ddiv (ddot v_in v_out) (dsqrt (dmul (ddot v_in v_in) (ddot v_out v_out))).
(** flyby.cpp 31-35, 51-56 *)
Definition ineq_delta_d (acos asin : double -> double) (v_in v_out : dvec) (mu safe_radius : double) : double :=
  let e_min := dadd done (dmul (ddiv safe_radius mu) (ddot v_in v_in)) in
  dsub (acos (cos_arg v_in v_out)) (dmul (d_of_Z 2) (asin (ddiv done e_min))).
(** flyby.cpp 24-37 *)
Definition fb_con_d (acos asin : double -> double) (v_in v_out : dvec) (mu safe_radius : double) : double * double :=
  (dsub (ddot v_in v_in) (ddot v_out v_out), ineq_delta_d acos asin v_in v_out mu safe_radius).
(** flyby.cpp 45-64 *)
Definition fb_dv_d (acos asin cos : double -> double) (v_in v_out : dvec) (mu safe_radius : double) : double :=
  let Vin2 := ddot v_in v_in in let Vout2 := ddot v_out v_out in
  let d := ineq_delta_d acos asin v_in v_out mu safe_radius in
  if dgtb d dzero then dsqrt (dsub (dadd Vout2 Vin2) (dmul (dmul (d_of_Z 2) (dsqrt (dmul Vout2 Vin2))) (cos d)))
  else Babs (dsub (dsqrt Vout2) (dsqrt Vin2)).
(** assumption on the C library (C standard, F.10.1.1): acos of a number above 1 is NaN *)
Definition acos_domain (acos : double -> double) : Prop := forall x, dltb done x = true -> d_isnan (acos x) = true.
(** the real numbers three doubles stand for *)
Definition rvec (v : dvec) : vec := let '(a, b, c) := v in V (B2R a) (B2R b) (B2R c).
