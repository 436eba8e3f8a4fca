(** * Keplerian planets
    src/udpla/keplerian.cpp 33-167, src/planet.cpp 28-67.
    Simplification: doubles are real numbers, [None] is a NaN or an infinity (PartialReal.v); dates are real numbers of days
    (m_ref_epoch.mjd2000()).  Name, radii and the body's own parameter are stored and returned unchanged and are left out. *)
From Coq Require Import Reals.
From Verif Require Import Outcome PartialReal Vec3 KepModel TwoBodyModel ElemModel KeplerianModel.
From Verif Require JplModel.
Open Scope R_scope. Open Scope outcome_scope.

(** include/kep3/core_astro/convert_anomalies.hpp and constants.hpp: enum elements_type *)
Notation etype := JplModel.etype.
Notation KEP_M := JplModel.KEP_M. Notation KEP_F := JplModel.KEP_F. Notation MEQ := JplModel.MEQ.
Notation MEQ_R := JplModel.MEQ_R. Notation POSVEL := JplModel.POSVEL.
(** constants.hpp: DAY2SEC *)
Definition day2sec : R := 86400.
(** std::array<double, 6>: [elem] and [eqel] are two readings of six numbers *)
Definition as_eq (x : elem) : eqel := Eq (el_a x) (el_e x) (el_i x) (el_W x) (el_w x) (el_f x).
Definition as_el (q : eqel) : elem := El (eq_p q) (eq_f q) (eq_g q) (eq_h q) (eq_k q) (eq_L q).

Record kpla := mk_kpla { k_ref : R; k_mu : R; k_period : option R; k_ellipse : bool; k_pv : option state; k_el : option elem }.

(** 40-42: en; [None] at the centre *)
Definition en_of (s : state) (mu : R) : option R := obind (pdiv mu (norm (fst s))) (fun x => Some (dot (snd s) (snd s) / 2 - x)).
(** 46: 2 pi sqrt(a a a / mu) *)
Definition period_of (a mu : R) : option R := obind (pdiv (a * a * a) mu) (fun x => obind (psqrt x) (fun y => Some (PI * 2 * y))).
(** keplerian.cpp 33-51 *)
Definition ctor_state (ref : R) (s : state) (mu : R) : kpla :=
  let en := en_of s mu in
  let ellipse := match en with Some e => if Rlt_dec 0 e then false else true | None => true end in
  mk_kpla ref mu (if ellipse then obind en (fun e => obind (pdiv (- mu / 2) e) (fun a => period_of a mu)) else None) ellipse (Some s) (ic2par s mu).

Section Newton.
Variable newton : (R -> R * R) -> R -> R -> R -> option R.
(** 66-85: to elements with the true anomaly *)
Definition to_kep_f (x : elem) (ty : etype) : outcome (option elem) :=
  match ty with
  | KEP_F => Ret (Some x)
  | KEP_M => if Rlt_dec (el_a x) 0 then Throw LogicError else
      match m2f newton (el_f x) (el_e x) with Ret (Some f) => Ret (Some (with_f x f)) | Ret None => Ret None | Throw e => Throw e | UB => UB end
  | MEQ => Ret (eq2par (as_eq x) false)
  | MEQ_R => Ret (eq2par (as_eq x) true)
  | POSVEL => Throw LogicError
  end.
(** 53-97.  When the converted elements are not numbers the code goes on with NaNs: the semi-major axis may still be a number
    there, so flag and period are not modelled in that case (true and [None] stand for "unknown") *)
Definition ctor_elem (ref : R) (x : elem) (mu : R) (ty : etype) : outcome kpla :=
  if Rle_dec (el_a x * (1 - el_e x)) 0 then Throw DomainError else
  o <- to_kep_f x ty ;;
  match o with
  | None => Ret (mk_kpla ref mu None true None None)
  | Some el =>
      pv <- par2ic el mu ;;
      let ellipse := if Rlt_dec (el_a el) 0 then false else true in
      Ret (mk_kpla ref mu (if ellipse then period_of (el_a el) mu else None) ellipse pv (Some el))
  end.

(** 100-107 *)
Definition kpla_eph (p : kpla) (mjd2000 : R) : outcome (option state) :=
  match k_pv p with
  | None => Ret None
  | Some s => r <- propagate_lagrangian newton s ((mjd2000 - k_ref p) * day2sec) (k_mu p) false ;; Ret (Some (fst r))
  end.
(** 134-137: the date is not used *)
Definition kpla_period (p : kpla) (_ : R) : option R := k_period p.
(** 144-171: the date is not used *)
Definition kpla_elements (p : kpla) (_ : R) (ty : etype) : outcome (option elem) :=
  match ty with
  | KEP_F => Ret (k_el p)
  | KEP_M => if k_ellipse p then Ret (obind (k_el p) (fun el => obind (f2m (el_f el) (el_e el)) (fun M => Some (with_f el M)))) else Throw LogicError
  | MEQ => Ret (obind (k_el p) (fun el => obind (par2eq el false) (fun q => Some (as_el q))))
  | MEQ_R => Ret (obind (k_el p) (fun el => obind (par2eq el true) (fun q => Some (as_el q))))
  | POSVEL => Throw LogicError
  end.
End Newton.

(** planet.cpp 42-67; [retval[0] < 1] is false for a NaN *)
Definition posvel_elements (s : state) (mu : R) (ty : etype) : outcome (option elem) :=
  let par := ic2par s mu in
  match ty with
  | KEP_F => Ret par
  | KEP_M => match par with Some el => if Rlt_dec (el_a el) 1 then Throw LogicError else Ret (obind (f2m (el_f el) (el_e el)) (fun M => Some (with_f el M))) | None => Ret None end
  | MEQ => Ret (obind par (fun el => obind (par2eq el false) (fun q => Some (as_el q))))
  | MEQ_R => Ret (obind par (fun el => obind (par2eq el true) (fun q => Some (as_el q))))
  | POSVEL => Throw LogicError
  end.
