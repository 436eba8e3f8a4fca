(** * Vectors and throttle constraints in doubles: src/linalg.cpp 24-35, the transfer plane of src/lambert_problem.cpp 57-66, src/leg/sims_flanagan.cpp 262-270, src/leg/sims_flanagan_hf.cpp 453-461.
    Definitions only.  Operations in the order of the source, each correctly rounded (no contraction to fused multiply-add). *)
From Coq Require Import ZArith List.
From Flocq Require Import IEEE754.BinarySingleNaN.
From Verif Require Import Outcome Float64 FlybyFloatModel.
From Verif Require HfModel.
Import ListNotations.
Open Scope Z_scope.

(** linalg.cpp 24-27 *)
Definition dcross (a b : dvec) : dvec :=
  let '(a0, a1, a2) := a in let '(b0, b1, b2) := b in
  (dsub (dmul a1 b2) (dmul b1 a2), dsub (dmul b0 a2) (dmul a0 b2), dsub (dmul a0 b1) (dmul b0 a1)).
(** linalg.cpp 29-35 *)
Definition dnormalize (v : dvec) : dvec :=
  let n := dsqrt (ddot v v) in let '(a, b, c) := v in (ddiv a n, ddiv b n, ddiv c n).
(** lambert_problem.cpp 63-64, 66: a vector divided by its length *)
Definition dscaled (v : dvec) (k : double) : dvec := let '(a, b, c) := v in (ddiv a k, ddiv b k, ddiv c k).
(** lambert_problem.cpp 59-60, 63-66: the unit normal [ih] of the transfer plane.  [nrm] is xt::linalg::norm, whose summation order depends on the
    linear algebra library; xt::linalg::cross is the usual formula, up to the order of factors the one of linalg.cpp *)
Definition dplane (nrm : dvec -> double) (r0 r1 : dvec) : dvec :=
  let irs := dscaled r0 (nrm r0) in let irf := dscaled r1 (nrm r1) in
  let ih := dcross irs irf in dscaled ih (nrm ih).
(** the plain formula for the length *)
Definition dnorm (v : dvec) : double := dsqrt (ddot v v).
(** sims_flanagan.cpp 262-270; sims_flanagan_hf.cpp 453-461 has the same loop and HfModel.v its model *)
Definition throttle_con_d (th : list double) (nseg : Z) : outcome (list double) := HfModel.throttle_con (Z.to_nat nseg) 0 th.
