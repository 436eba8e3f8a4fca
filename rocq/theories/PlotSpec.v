(** * What a plotted arc is *)
From Coq Require Import Reals.
From Coquelicot Require Import Coquelicot.
From Verif Require Import Vec3 TwoBodySpec.
Open Scope R_scope.

(** the unit vector of the orbital plane at the angle [u] from the position of [s], counted in the sense of the motion *)
Definition unit_vec (a : vec) : vec := vscal (/ norm a) a.
Definition dir (s : state) (u : R) : vec :=
  vadd (vscal (cos u) (unit_vec (fst s))) (vscal (sin u) (cross (unit_vec (ang_mom s)) (unit_vec (fst s)))).

(** the motion through [s] at time 0 is in [s'] at time [t], and its position has turned by [theta] in between: the polar
    angle phi is followed continuously, it grows by h / r^2 *)
Definition sweeps (mu : R) (s : state) (theta t : R) (s' : state) : Prop :=
  exists (y : R -> state) (phi : R -> R), two_body mu m_infty p_infty y /\ y 0 = s /\ y t = s' /\ phi 0 = 0 /\ phi t = theta /\
    forall u, is_derive phi u (norm (ang_mom s) / dot (fst (y u)) (fst (y u))) /\ fst (y u) = vscal (norm (fst (y u))) (dir s (phi u)).

(** the conic r = p / (1 + e . dir) has a point in this direction *)
Definition reached (mu : R) (s : state) (u : R) : Prop := 0 < 1 + dot (ecc_vec mu s) (dir s u).
Definition between (a b u : R) : Prop := Rmin a b <= u <= Rmax a b.
