(** * The osculating Keplerian planet: vocabulary *)
From Coq Require Import Reals String.
From Verif Require Import Outcome Vec3 TwoBodySpec P2kModel.
Open Scope R_scope.

(** the planet answers every question asked of it *)
Definition answers (p : pla) (when : R) (s : state) (ms ra sr : R) (name : string) : Prop :=
  p_eph p when = Ret (Some s) /\ p_mu_self p = Ret ms /\ p_radius p = Ret ra /\ p_safe p = Ret sr /\ p_name p = Ret name.
(** the gravitational parameter to be used: the one given, otherwise the planet's, -1 meaning "unknown" *)
Definition mu_used (p : pla) (given : option R) (mu : R) : Prop :=
  match given with Some m => m = mu | None => p_mu p = Ret mu /\ mu <> -1 end.
(** two planets with the same ephemeris *)
Definition same_eph (p q : pla) : Prop := forall t, p_eph p t = p_eph q t.
