(** * Propagation through orbital elements
    src/core_astro/propagate_lagrangian.cpp 258-291.
    Simplification: doubles are real numbers; [None] is a result with a NaN or an infinity in it (PartialReal.v).
    When the elements themselves are not numbers the C++ goes on computing with the NaNs; the model stops there with [None].
    The unnamed bool argument is ignored and the second component of the returned pair is always nullopt, so only the
    state is returned here. *)
From Coq Require Import Reals.
From Verif Require Import Outcome PartialReal Vec3 KepModel ElemModel.
Open Scope R_scope. Open Scope partial_scope.

(** par[5] = f *)
Definition with_f (el : elem) (f : R) : elem := El (el_a el) (el_e el) (el_i el) (el_W el) (el_w el) f.

Section Newton.
Variable newton : (R -> R * R) -> R -> R -> R -> option R.
(** 274, 283: n *)
Definition kp_n (mu a : R) : option R :=
  if Rlt_dec 0 a then x <-? pdiv mu a ;; y <-? pdiv x a ;; z <-? pdiv y a ;; psqrt z
  else x <-? pdiv (- mu) a ;; y <-? pdiv x a ;; z <-? pdiv y a ;; psqrt z.
(** 272-288: the new true anomaly *)
Definition kp_anomaly (el : elem) (dt mu : R) : outcome (option R) :=
  match kp_n mu (el_a el) with None => Ret None | Some n =>
  if Rlt_dec 0 (el_a el) then
    match f2m (el_f el) (el_e el) with None => Ret None | Some M0 => m2f newton (M0 + n * dt) (el_e el) end
  else
    match f2n (el_f el) (el_e el) with None => Ret None | Some Nz => n2f newton (Nz + n * dt) (el_e el) end
  end.
(** 266-291 *)
Definition propagate_keplerian (s : state) (dt mu : R) : outcome (option state) :=
  match ic2par s mu with None => Ret None | Some el =>
  match kp_anomaly el dt mu with
  | Ret (Some f) => par2ic (with_f el f) mu
  | Ret None => Ret None | Throw e => Throw e | UB => UB
  end end.
End Newton.
