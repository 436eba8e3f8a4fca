(** * Vocabulary for root finders that stop early *)
From Coq Require Import Reals.
From Verif Require Import Vec3 TwoBodySpec.
Open Scope R_scope.
(** what the solver returns leaves a residual of at most [eps]; nothing is said about when it answers *)
Definition newton_within (eps : R) (newton : (R -> R * R) -> R -> R -> R -> option R) : Prop := forall f g lo hi x, newton f g lo hi = Some x -> Rabs (fst (f x)) <= eps.
(** speed and acceleration at the periapsis, the largest along the orbit *)
Definition top_speed (mu : R) (s : state) : R := sqrt (2 * (energy mu s + mu / periapsis mu s)).
Definition top_pull (mu : R) (s : state) : R := mu / (periapsis mu s * periapsis mu s).
