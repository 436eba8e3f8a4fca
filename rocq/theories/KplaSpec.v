(** * What it means for two keplerian planets to be the same *)
From Coq Require Import Reals.
From Verif Require Import Outcome TwoBodyModel KplaModel.
Open Scope R_scope.

(** the same motion and period as the planet built from state s *)
Definition same_planet (p q : kpla) : Prop :=
  k_ellipse p = k_ellipse q /\ (forall t, kpla_period p t = kpla_period q t) /\ forall newton t, kpla_eph newton p t = kpla_eph newton q t.
(** equinoctial elements, direct or retrograde *)
Definition retro_of (b : bool) : etype := if b then MEQ_R else MEQ.
