(** * Dynamics: independent vocabulary *)
From Coq Require Import Reals.
From Coquelicot Require Import Coquelicot.
From Verif Require Import Vec3 TwoBodySpec.
Open Scope R_scope.
(** solution of y' = F y on the open interval (lo, hi), staying in the domain [dom] *)
Definition solves (F : state -> state) (dom : state -> Prop) (lo hi : Rbar) (y : R -> state) : Prop :=
  forall t : R, Rbar_lt lo t -> Rbar_lt t hi -> dom (y t) /\ sderive y t (F (y t)).
Definition solves7 (F : state * R -> state * R) (dom : state * R -> Prop) (lo hi : Rbar) (y : R -> state * R) : Prop :=
  forall t : R, Rbar_lt lo t -> Rbar_lt t hi -> dom (y t) /\ sderive (fun u => fst (y u)) t (fst (F (y t))) /\ is_derive (fun u => snd (y u)) t (snd (F (y t))).
Definition conserved {A B} (q : A -> B) (lo hi : Rbar) (y : R -> A) : Prop :=
  forall t1 t2 : R, Rbar_lt lo t1 -> Rbar_lt t1 hi -> Rbar_lt lo t2 -> Rbar_lt t2 hi -> q (y t1) = q (y t2).

(** the two primaries of the restricted three-body problem, in the frame turning with angular velocity (0,0,1) *)
Definition primary1 (mu : R) : vec := V (- mu) 0 0.
Definition primary2 (mu : R) : vec := V (1 - mu) 0 0.
Definition omega : vec := V 0 0 1.
Definition off_primaries (mu : R) (s : state) : Prop := fst s <> primary1 mu /\ fst s <> primary2 mu.
(** Newton's law in that frame: gravity of both primaries, Coriolis and centrifugal acceleration *)
Definition rotating_field (mu : R) (s : state) : state :=
  (snd s, vadd (vadd (gravity (1 - mu) (vsub (fst s) (primary1 mu))) (gravity mu (vsub (fst s) (primary2 mu))))
               (vneg (vadd (vscal 2 (cross omega (snd s))) (cross omega (cross omega (fst s)))))).
Definition jacobi (mu : R) (s : state) : R :=
  dot (cross omega (fst s)) (cross omega (fst s)) + 2 * (1 - mu) / norm (vsub (fst s) (primary1 mu)) + 2 * mu / norm (vsub (fst s) (primary2 mu)) - dot (snd s) (snd s).
(** a thrust of constant vector [u] on a spacecraft of exhaust speed [veff] *)
Definition thrust_field (mu veff : R) (u : vec) (s : state * R) : state * R :=
  ((snd (fst s), vadd (gravity mu (fst (fst s))) (vscal (/ snd s) u)), - norm u / veff).
Definition off_centre (s : state * R) : Prop := fst (fst s) <> vzero /\ snd s <> 0.
