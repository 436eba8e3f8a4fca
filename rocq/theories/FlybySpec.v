(** * Fly-by: independent vocabulary.  The angle between two non-zero vectors; the largest turn available above a given radius. *)
From Coq Require Import Reals.
From Verif Require Import Vec3.
Open Scope R_scope.
(** [t] is the angle between [u] and [v] *)
Definition angle (u v : vec) (t : R) : Prop := 0 <= t <= PI /\ dot u v = norm u * norm v * cos t.
(** planetocentric hyperbola with asymptotic speed [w] and pericentre [rp]: eccentricity [e], turn [t]: sin(t/2) = 1/e *)
Definition turn (mu rp w t : R) : Prop := 0 <= t <= PI /\ sin (t / 2) * (1 + rp * w * w / mu) = 1.
(** the outgoing velocities one can reach without a burn staying at or above radius [safe] *)
Definition reachable (mu safe : R) (v_in u : vec) : Prop :=
  norm u = norm v_in /\ exists t rp, safe <= rp /\ angle v_in u t /\ (t = 0 \/ turn mu rp (norm v_in) t).
