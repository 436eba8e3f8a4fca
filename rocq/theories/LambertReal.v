(** * Lambert's problem over the real numbers
    The arithmetic of PartialReal.v: [None] is a NaN or an infinity, and no comparison with it holds.  That is right for NaN.
    An infinity can only come from a vanishing denominator in a Householder or Halley step; the next evaluation of the time of
    flight at an infinite x is a NaN (x z - lambda E and d / y are of the form inf - inf and inf / inf), so that the outcome
    is a NaN in both cases and only the number of iterations may be one larger in the code. *)
From Coq Require Import Reals ZArith.
From Verif Require Import Outcome PartialReal Vec3 LambertModel.
Open Scope R_scope.

Definition op1 (f : R -> R) (a : option R) : option R := obind a (fun x => Some (f x)).
Definition op2 (f : R -> R -> R) (a b : option R) : option R := obind a (fun x => obind b (fun y => Some (f x y))).
Definition par1 (f : R -> option R) (a : option R) : option R := obind a f.
Definition rel (f : R -> R -> bool) (a b : option R) : bool := match a, b with Some x, Some y => f x y | _, _ => false end.
(** std::pow for the exponents used (not integers), std::log, std::acosh *)
Definition ppow (x y : R) : option R := if Rlt_dec 0 x then Some (Rpower x y) else if Req_EM_T x 0 then (if Rlt_dec 0 y then Some 0 else None) else None.
Definition plog (x : R) : option R := if Rlt_dec 0 x then Some (ln x) else None.
Definition arccosh (x : R) : R := ln (x + sqrt (x * x - 1)).
Definition pacosh (x : R) : option R := if Rle_dec 1 x then Some (arccosh x) else None.
(** truncation to unsigned *)
Definition r_u32 (x : R) : outcome Z :=
  if Rle_dec 0 x then if Rlt_dec x (IZR u32) then Ret (Int_part x) else UB else if Rlt_dec (-1) x then Ret 0%Z else UB.
Definition real_arith : arith (option R) :=
  mk_arith (option R) (op2 Rplus) (op2 Rminus) (op2 Rmult) (fun a b => obind a (fun x => obind b (fun y => pdiv x y)))
    (op1 Ropp) (op1 Rabs) (par1 psqrt) (fun a b => obind a (fun x => obind b (fun y => ppow x y))) (par1 plog)
    (op1 sin) (par1 pasin) (par1 pacos) (op1 sinh) (op1 arcsinh) (par1 pacosh)
    (fun v => match v with (a, b, c) => obind a (fun x => obind b (fun y => obind c (fun z => Some (norm (V x y z))))) end)
    (rel (fun x y => if Rlt_dec x y then true else false)) (rel (fun x y => if Rle_dec x y then true else false)) (rel (fun x y => if Req_EM_T x y then true else false))
    (Some PI) (fun n d => Some (IZR n / IZR (Zpos d))) (fun a => match a with Some x => r_u32 x | None => UB end).
(** a vector of numbers, none of which is a NaN *)
Definition sv (v : vec) : option R * option R * option R := (Some (vx v), Some (vy v), Some (vz v)).
(** the constructor called with numbers *)
Definition lambert_r (r0 r1 : vec) (tof mu : R) (cw : bool) (multi_revs : Z) : outcome (lambert_t (option R)) :=
  lambert real_arith (sv r0) (sv r1) (Some tof) (Some mu) cw multi_revs.
