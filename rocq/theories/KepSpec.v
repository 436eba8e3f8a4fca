(** * Specifications for Kepler's equation and the anomalies *)
From Coq Require Import Reals.
From Coquelicot Require Import Coquelicot.
From Verif Require Outcome.
Open Scope R_scope.

(** [c] is the first / second derivative of [f] everywhere *)
Definition first_derivative (f df : R -> R) : Prop := forall x, is_derive f x (df x).

(** The Stumpff functions as power series: sum of (-x)^k / (2k+2)! and sum of (-x)^k / (2k+3)! *)
Definition stumpff_c_coef (k : nat) : R := (-1) ^ k / INR (fact (2 * k + 2)).
Definition stumpff_s_coef (k : nat) : R := (-1) ^ k / INR (fact (2 * k + 3)).

(** Eccentric (resp. hyperbolic) anomaly and true anomaly of the same point of a conic with eccentricity e:
    the point has perifocal coordinates (cos E - e, sqrt(1-e^2) sin E), in units of the semi-major axis, at distance 1 - e cos E *)
Definition same_point_ellipse (e E f : R) : Prop :=
  (1 - e * cos E) * cos f = cos E - e /\ (1 - e * cos E) * sin f = sqrt (1 - e * e) * sin E.
Definition same_point_hyperbola (e H f : R) : Prop :=
  (e * cosh H - 1) * cos f = e - cosh H /\ (e * cosh H - 1) * sin f = sqrt (e * e - 1) * sinh H.
(** true anomalies between the asymptotes of a hyperbola *)
Definition inside_asymptotes (e f : R) : Prop := - PI < f < PI /\ 0 < 1 + e * cos f.

(** The root finder: given the function with its derivative, a guess inside the bracket and a sign change, it returns
    a zero inside the bracket (an exact one: rounding is abstracted away) *)
Definition newton_ok (newton : (R -> R * R) -> R -> R -> R -> option R) : Prop :=
  forall (f : R -> R * R) (g lo hi : R), lo <= g <= hi -> (forall x : R, is_derive (fun y => fst (f y)) x (snd (f x))) ->
  fst (f lo) <= 0 <= fst (f hi) ->
  exists x, newton f g lo hi = Some x /\ lo <= x <= hi /\ fst (f x) = 0.

(** a unique zero, bracketed by a sign change *)
Definition bracketed (f : R -> R) (lo hi : R) : Prop :=
  f lo < 0 < f hi /\ exists x, lo < x < hi /\ f x = 0 /\ forall y, f y = 0 -> y = x.

(** strictly increasing on a domain, where it returns a number *)
Definition increasing_on (dom : R -> Prop) (c : R -> option R) : Prop :=
  forall x y fx fy, dom x -> dom y -> x < y -> c x = Some fx -> c y = Some fy -> fx < fy.
Definition odd_on (dom : R -> Prop) (c : R -> option R) : Prop :=
  forall x, dom x -> exists y, c x = Some y /\ c (- x) = Some (- y).
Definition open_turn (x : R) : Prop := - PI < x < PI.
Definition one_turn (x : R) : Prop := - PI < x <= PI.
Definition anywhere (x : R) : Prop := True.
(** a value that a function which may throw returned *)
Definition value {A} (o : Outcome.outcome (option A)) : option A := match o with Outcome.Ret v => v | _ => None end.
