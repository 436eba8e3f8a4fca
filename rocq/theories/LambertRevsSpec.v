(** * Lambert's problem: all transfers
    What a transfer is, in terms of motions only. *)
From Coq Require Import Reals ZArith.
From Verif Require Import Vec3 TwoBodySpec.
Open Scope R_scope.

(** the number of complete revolutions made in time t *)
Definition turns (mu : R) (s : state) (t : R) (N : Z) : Prop :=
  (energy mu s < 0 /\ IZR N * period mu s <= t < (IZR N + 1) * period mu s) \/ (0 <= energy mu s /\ N = 0%Z).
(** leaving r0 with velocity v0, in the requested direction, the motion is in r1 after time tof, having made N complete revolutions *)
Definition transfer (mu : R) (r0 r1 : vec) (tof : R) (cw : bool) (N : Z) (v0 : vec) : Prop :=
  0 < (if cw then -1 else 1) * vz (ang_mom (r0, v0)) /\ (exists v1, flow_at mu (r0, v0) tof (r1, v1)) /\ turns mu (r0, v0) tof N.
