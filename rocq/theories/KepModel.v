(** * Kepler equations, Stumpff functions and anomaly conversions
    include/kep3/core_astro/kepler_equations.hpp, special_functions.hpp, convert_anomalies.hpp.
    Simplification: doubles are real numbers (no rounding).  A returned quiet NaN is [None]; functions that may throw
    return an [outcome].  Arguments where the C++ divides by zero are excluded in the theorems. *)
From Coq Require Import Reals.
From Coquelicot Require Import Coquelicot.
From Verif Require Import Outcome RealLib.
Open Scope R_scope.

(** kepler_equations.hpp 21-34 *)
Definition kepE (E M ecc : R) : R := E - ecc * sin E - M.
Definition d_kepE (E ecc : R) : R := 1 - ecc * cos E.
Definition dd_kepE (E ecc : R) : R := ecc * sin E.
(** 39-53 *)
Definition kepH (H M ecc : R) : R := ecc * sinh H - H - M.
Definition d_kepH (H ecc : R) : R := ecc * cosh H - 1.
Definition dd_kepH (H ecc : R) : R := ecc * sinh H.
(** 57-70 *)
Definition kepDE (DE DM sigma0 sqrta a r : R) : R := - DM + DE + sigma0 / sqrta * (1 - cos DE) - (1 - r / a) * sin DE.
Definition d_kepDE (DE sigma0 sqrta a r : R) : R := 1 + sigma0 / sqrta * sin DE - (1 - r / a) * cos DE.
Definition dd_kepDE (DE sigma0 sqrta a r : R) : R := sigma0 / sqrta * cos DE + (1 - r / a) * sin DE.
(** 74-87 *)
Definition kepDH (DH DN sigma0 sqrta a r : R) : R := - DN - DH + sigma0 / sqrta * (cosh DH - 1) + (1 - r / a) * sinh DH.
Definition d_kepDH (DH sigma0 sqrta a r : R) : R := -1 + sigma0 / sqrta * sinh DH + (1 - r / a) * cosh DH.
Definition dd_kepDH (DH sigma0 sqrta a r : R) : R := sigma0 / sqrta * cosh DH + (1 - r / a) * sinh DH.

(** special_functions.hpp 18-27 *)
Definition stumpff_s (x : R) : R :=
  if Rlt_dec 0 x then (sqrt x - sin (sqrt x)) / (sqrt x) ^ 3
  else if Rlt_dec x 0 then (sinh (sqrt (- x)) - sqrt (- x)) / Rpower (- x) (3 / 2)
  else 1 / 6.
(** 29-38 *)
Definition stumpff_c (x : R) : R :=
  if Rlt_dec 0 x then (1 - cos (sqrt x)) / x
  else if Rlt_dec x 0 then (cosh (sqrt (- x)) - 1) / (- x)
  else 1 / 2.

(** kepler_equations.hpp 91-98 *)
Definition kepDS (DS DT r0 vr0 alpha mu : R) : R :=
  let s := stumpff_s (alpha * DS * DS) in let c := stumpff_c (alpha * DS * DS) in
  - sqrt mu * DT + r0 * vr0 * DS * DS * c / sqrt mu + (1 - alpha * r0) * DS * DS * DS * s + r0 * DS.
(** 101-107 *)
Definition d_kepDS (DS r0 vr0 alpha mu : R) : R :=
  let s := stumpff_s (alpha * DS * DS) in let c := stumpff_c (alpha * DS * DS) in
  r0 * vr0 / sqrt mu * DS * (1 - alpha * DS * DS * s) + (1 - alpha * r0) * DS * DS * c + r0.
(** 109-116 *)
Definition dd_kepDS (DS r0 vr0 alpha mu : R) : R :=
  let s := stumpff_s (alpha * DS * DS) in let c := stumpff_c (alpha * DS * DS) in
  r0 * vr0 / sqrt mu * (1 - alpha * DS * DS * c) + (1 - alpha * r0) * (1 - DS * DS * s).

(** convert_anomalies.hpp 61-67 *)
Definition e2m (E ecc : R) : option R := if Rle_dec 1 ecc then None else Some (E - ecc * sin E).
(** std::atan(k * std::tan(x)).  At a pole of the real tangent the code gets a huge number of the sign of sin x (the double nearest
    to pi/2 is not a pole), whose arc tangent is +-pi/2; the model takes exactly that value *)
Definition atan_ktan (k x : R) : R := if Req_EM_T (cos x) 0 then (if Rlt_dec (sin x) 0 then - (PI / 2) else PI / 2) else atan (k * tan x).
(** 70-76 *)
Definition e2f (E ecc : R) : option R := if Rle_dec 1 ecc then None else Some (2 * atan_ktan (sqrt ((1 + ecc) / (1 - ecc))) (E / 2)).
(** 79-85 *)
Definition f2e (f ecc : R) : option R := if Rle_dec 1 ecc then None else Some (2 * atan_ktan (sqrt ((1 - ecc) / (1 + ecc))) (f / 2)).
(** 97-103; e2m of a NaN is NaN *)
Definition f2m (f ecc : R) : option R :=
  if Rle_dec 1 ecc then None else match f2e f ecc with Some E => e2m E ecc | None => None end.
(** 106-112 *)
Definition zeta2f (f ecc : R) : option R := if Rle_dec ecc 1 then None else Some (2 * atan_ktan (sqrt ((1 + ecc) / (ecc - 1))) (f / 2)).
(** 115-121 *)
Definition f2zeta (zeta ecc : R) : option R := if Rle_dec ecc 1 then None else Some (2 * atan_ktan (sqrt ((ecc - 1) / (1 + ecc))) (zeta / 2)).
(** 148-154 *)
Definition h2n (H ecc : R) : option R := if Rle_dec ecc 1 then None else Some (ecc * sinh H - H).
(** 157-163 *)
Definition h2f (H ecc : R) : option R := if Rle_dec ecc 1 then None else Some (2 * atan (sqrt ((1 + ecc) / (ecc - 1)) * tanh (H / 2))).
(** 166-172 *)
Definition f2h (f ecc : R) : option R := if Rle_dec ecc 1 then None else Some (2 * atanh (sqrt ((ecc - 1) / (1 + ecc)) * tan (f / 2))).
(** 184-190 *)
Definition f2n (f ecc : R) : option R :=
  if Rle_dec ecc 1 then None else match f2h f ecc with Some H => h2n H ecc | None => None end.

(** boost::math::tools::newton_raphson_iterate(f and derivative, guess, min, max, digits, max_iter); [None]: the iteration
    limit was reached. *)
Section Newton.
Variable newton : (R -> R * R) -> R -> R -> R -> option R.

(** 46: the third-order guess *)
Definition m2e_guess (Mc sinM cosM ecc : R) : R :=
  Mc + ecc * sinM + ecc * ecc * sinM * cosM + ecc * ecc * ecc * sinM * (1.5 * cosM * cosM - 0.5).
(** 29-59 *)
Definition m2e (M ecc : R) : outcome (option R) :=
  if Rle_dec 1 ecc then Ret None else
  let sinM := sin M in let cosM := cos M in
  let Mc := atan2 sinM cosM in
  let IG := m2e_guess Mc sinM cosM ecc in
  match newton (fun E => (kepE E Mc ecc, d_kepE E ecc)) IG (IG - PI) (IG + PI) with
  | Some sol => Ret (Some sol)
  | None => Throw DomainError
  end.
(** 88-94 *)
Definition m2f (M ecc : R) : outcome (option R) :=
  if Rle_dec 1 ecc then Ret None else
  match m2e M ecc with Ret (Some E) => Ret (e2f E ecc) | Ret None => Ret None | Throw e => Throw e | UB => UB end.
(** 125-145 *)
Definition n2h (N ecc : R) : outcome (option R) :=
  if Rle_dec ecc 1 then Ret None else
  let IG := 1 in
  match newton (fun H => (kepH H N ecc, d_kepH H ecc)) IG (IG - 20 * PI) (IG + 20 * PI) with
  | Some sol => Ret (Some sol)
  | None => Throw DomainError
  end.
(** 175-181 *)
Definition n2f (N ecc : R) : outcome (option R) :=
  if Rle_dec ecc 1 then Ret None else
  match n2h N ecc with Ret (Some H) => Ret (h2f H ecc) | Ret None => Ret None | Throw e => Throw e | UB => UB end.
End Newton.
