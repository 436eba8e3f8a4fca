(** * Specifications of two-body motion *)
From Coq Require Import Reals List.
From Coquelicot Require Import Coquelicot.
From Verif Require Import Outcome Vec3.
Open Scope R_scope.

(** integrals of motion: energy, angular momentum, eccentricity vector *)
Definition energy (mu : R) (s : state) : R := dot (snd s) (snd s) / 2 - mu / norm (fst s).
Definition ang_mom (s : state) : vec := cross (fst s) (snd s).
Definition ecc_vec (mu : R) (s : state) : vec := vsub (vscal (/ mu) (cross (snd s) (ang_mom s))) (vscal (/ norm (fst s)) (fst s)).
Definition same_integrals (mu : R) (s s' : state) : Prop :=
  energy mu s' = energy mu s /\ ang_mom s' = ang_mom s /\ ecc_vec mu s' = ecc_vec mu s.

(** r'' = - mu r / |r|^3 on the open interval (lo, hi) *)
Definition gravity (mu : R) (r : vec) : vec := vscal (- mu / norm r ^ 3) r.
Definition two_body (mu : R) (lo hi : Rbar) (y : R -> state) : Prop :=
  forall t : R, Rbar_lt lo t -> Rbar_lt t hi ->
  fst (y t) <> vzero /\ vderive (fun u => fst (y u)) t (snd (y t)) /\ vderive (fun u => snd (y u)) t (gravity mu (fst (y t))).

(** [s'] is where the motion that starts in [s] is after time [t]: a solution on the whole line passes through both, and so
    does every solution on an interval containing 0 and t *)
Definition flow_at (mu : R) (s : state) (t : R) (s' : state) : Prop :=
  (exists y, two_body mu m_infty p_infty y /\ y 0 = s /\ y t = s') /\
  (forall lo hi y, Rbar_lt lo (Rmin 0 t) -> Rbar_lt (Rmax 0 t) hi -> two_body mu lo hi y -> y 0 = s -> y t = s').

(** orbits the theorems are about *)
Definition regular (mu : R) (s : state) : Prop := 0 < mu /\ ang_mom s <> vzero.
Definition elliptic (mu : R) (s : state) : Prop := regular mu s /\ energy mu s < 0.
Definition hyperbolic (mu : R) (s : state) : Prop := regular mu s /\ 0 < energy mu s.
(** semi-major axis (negative for hyperbolas) and period *)
Definition sma (mu : R) (s : state) : R := - mu / (2 * energy mu s).
Definition period (mu : R) (s : state) : R := 2 * PI * sqrt (sma mu s ^ 3 / mu).

(** a 6x6 matrix given row by row as 36 numbers, applied to a displacement of position and velocity *)
Definition mat_entry (m : list R) (i j : nat) : R := nth (6 * i + j) m 0.
Definition row_apply (m : list R) (i : nat) (d : state) : R :=
  mat_entry m i 0 * vx (fst d) + mat_entry m i 1 * vy (fst d) + mat_entry m i 2 * vz (fst d) +
  mat_entry m i 3 * vx (snd d) + mat_entry m i 4 * vy (snd d) + mat_entry m i 5 * vz (snd d).
Definition mat_apply (m : list R) (d : state) : state :=
  (V (row_apply m 0 d) (row_apply m 1 d) (row_apply m 2 d), V (row_apply m 3 d) (row_apply m 4 d) (row_apply m 5 d)).
(** derivative of a curve of states *)
Definition sderive (c : R -> state) (e : R) (d : state) : Prop :=
  vderive (fun u => fst (c u)) e (fst d) /\ vderive (fun u => snd (c u)) e (snd d).
(** [M] is the Jacobian of the two-body flow over time [tof] at [s], which takes [s] to [s']: along every curve of initial
    states through [s] the final states have the derivative [M] applied to that of the curve *)
Definition flow_jacobian (mu : R) (s : state) (tof : R) (s' : state) (M : list R) : Prop :=
  length M = 36%nat /\ forall c d, c 0 = s -> sderive c 0 d ->
  exists y eps, 0 < eps /\ y 0 = s' /\ (forall e, Rabs e < eps -> flow_at mu (c e) tof (y e)) /\ sderive y 0 (mat_apply M d).
(** eccentricity and closest distance to the attracting body *)
Definition ecc (mu : R) (s : state) : R := norm (ecc_vec mu s).
Definition periapsis (mu : R) (s : state) : R := dot (ang_mom s) (ang_mom s) / mu / (1 + ecc mu s).
(** mean motion of an ellipse or a hyperbola *)
Definition mean_motion (mu : R) (s : state) : R := sqrt (mu / Rabs (sma mu s) ^ 3).

(** a root finder that answers exactly when it is given a correct derivative, a guess inside the bracket, and a bracket with
    a sign change and exactly one root (which it then returns) *)
Definition picky (newton : (R -> R * R) -> R -> R -> R -> option R) : Prop :=
  forall f g lo hi,
  (forall x, newton f g lo hi = Some x -> lo < x < hi /\ fst (f x) = 0) /\
  ((exists x, newton f g lo hi = Some x) <->
   lo <= g <= hi /\ (forall x : R, is_derive (fun y => fst (f y)) x (snd (f x))) /\
   fst (f lo) < 0 < fst (f hi) /\ exists x, lo < x < hi /\ fst (f x) = 0 /\ forall y, fst (f y) = 0 -> y = x).
(** a root finder that, when it answers, answers with a root (nothing is said about when it answers) *)
Definition newton_sound (newton : (R -> R * R) -> R -> R -> R -> option R) : Prop :=
  forall f g lo hi x, newton f g lo hi = Some x -> fst (f x) = 0.

(** the variational equations of two-body motion along [y]: p' = q, q' = (derivative of the gravity field at y) p *)
Definition gravity_gradient (mu : R) (r p : vec) : vec := vadd (vscal (- mu / norm r ^ 3) p) (vscal (3 * mu * dot r p / norm r ^ 5) r).
Definition variational (mu : R) (y d : R -> state) : Prop :=
  forall t, vderive (fun u => fst (d u)) t (snd (d t)) /\ vderive (fun u => snd (d u)) t (gravity_gradient mu (fst (y t)) (fst (d t))).
(** a matrix inversion that inverts every matrix with trivial kernel and nothing else *)
Definition trivial_kernel (A : list R) : Prop := forall d, mat_apply A d = (vzero, vzero) -> d = (vzero, vzero).
Definition inv_ok (inv : list R -> option (list R)) : Prop :=
  forall A, length A = 36%nat -> (trivial_kernel A -> exists X, inv A = Some X) /\
    forall X, inv A = Some X -> length X = 36%nat /\ forall d, mat_apply A (mat_apply X d) = d /\ mat_apply X (mat_apply A d) = d.
