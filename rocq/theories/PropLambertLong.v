(** * C70: the direct transfer of lambert_problem when the time of flight is long *)
From Coq Require Import Reals ZArith List.
From Verif Require Import Outcome PartialReal Vec3 TwoBodySpec LambertModel LambertReal LambertProofs LambertSpec LambertTime LambertVec LambertMain LambertNear LambertRevsSpec LambertLong.
Open Scope R_scope.

(** The claim of C70 is that entry 0 holds the direct transfer whatever the time of flight.  It is false from 40000 time units
    on, for every geometry: there is exactly one direct transfer (C57_direct), but from the guess of lambert_problem.cpp 142-143
    the first turn of [householder] goes past x = -1.  Entry 0 then is NaN (two turns), or is a velocity (one turn) whose motion
    never comes to r1. *)
Theorem C70_long_lost r0 r1 tof mu cw mr L : vz (cross r0 r1) <> 0 -> (0 <= mr < u32)%Z -> lambert_r r0 r1 tof mu cw mr = Ret L -> 40000 <= tof / time_unit r0 r1 mu ->
  (nth_error (l_v0 L) 0 = Some nan3 /\ nth_error (l_v1 L) 0 = Some nan3 /\ nth_error (l_iters L) 0 = Some 2%Z) \/
  (exists v0 v1, nth_error (l_v0 L) 0 = Some (sv v0) /\ nth_error (l_v1 L) 0 = Some (sv v1) /\ nth_error (l_iters L) 0 = Some 1%Z /\ forall t w, 0 < t -> ~ flow_at mu (r0, v0) t (r1, w)).
Proof. exact (long_lost r0 r1 tof mu cw mr L). Qed.
Print Assumptions C70_long_lost.

(** up to 1600000 time units it is NaN *)
Theorem C70_nan r0 r1 tof mu cw mr L : vz (cross r0 r1) <> 0 -> (0 <= mr < u32)%Z -> lambert_r r0 r1 tof mu cw mr = Ret L -> 40000 <= tof / time_unit r0 r1 mu <= 1600000 ->
  nth_error (l_v0 L) 0 = Some nan3 /\ nth_error (l_v1 L) 0 = Some nan3 /\ nth_error (l_iters L) 0 = Some 2%Z.
Proof. exact (long_lost_nan r0 r1 tof mu cw mr L). Qed.
Print Assumptions C70_nan.

(** from 4000000 time units on nothing shows that the iteration has failed: it stops after one turn, within its tolerance *)
Theorem C70_silent r0 r1 tof mu cw mr L : vz (cross r0 r1) <> 0 -> (0 <= mr < u32)%Z -> lambert_r r0 r1 tof mu cw mr = Ret L -> 4000000 <= tof / time_unit r0 r1 mu ->
  exists v0 v1, nth_error (l_v0 L) 0 = Some (sv v0) /\ nth_error (l_v1 L) 0 = Some (sv v1) /\ nth_error (l_iters L) 0 = Some 1%Z /\ forall t w, 0 < t -> ~ flow_at mu (r0, v0) t (r1, w).
Proof. exact (long_lost_silent r0 r1 tof mu cw mr L). Qed.
Print Assumptions C70_silent.

(** the iteration itself, for every lambda *)
Theorem C70_householder lam T : lam * lam < 1 -> 40000 <= T ->
  (exists x, x < -1 /\ householder RA (Some lam) (Some T) (Some (start lam T 0)) 0 (Some (1 / 100000)) 15 = Ret (Some x, 1%Z)) \/
  householder RA (Some lam) (Some T) (Some (start lam T 0)) 0 (Some (1 / 100000)) 15 = Ret (None, 2%Z).
Proof. exact (fun H => long_householder lam H T). Qed.
Print Assumptions C70_householder.

(** witnesses against the claim *)
Theorem C70_nan_refuted : exists r0 r1 tof mu L v, vz (cross r0 r1) <> 0 /\ lambert_r r0 r1 tof mu false 0 = Ret L /\ transfer mu r0 r1 tof false 0 v /\ nth_error (l_v0 L) 0 = Some nan3 /\ nth_error (l_v1 L) 0 = Some nan3.
Proof. exact long_nan_refuted. Qed.
Print Assumptions C70_nan_refuted.
Theorem C70_silent_refuted : exists r0 r1 tof mu L v v0 v1, vz (cross r0 r1) <> 0 /\ lambert_r r0 r1 tof mu false 0 = Ret L /\ transfer mu r0 r1 tof false 0 v /\
  nth_error (l_v0 L) 0 = Some (sv v0) /\ nth_error (l_v1 L) 0 = Some (sv v1) /\ forall t w, 0 < t -> ~ flow_at mu (r0, v0) t (r1, w).
Proof. exact long_silent_refuted. Qed.
Print Assumptions C70_silent_refuted.

(** (25, 0, 0) to (7, 24, 0) with mu = 32000, where the time unit is 1, in time 40000 *)
Example C70_example : exists L, lambert_r ex_r0 ex_r1 40000 32000 false 0 = Ret L /\ nth_error (l_v0 L) 0 = Some nan3 /\ nth_error (l_iters L) 0 = Some 2%Z.
Proof. exact ex_long. Qed.
