(** * C72: the direct transfer of lambert_problem when the time of flight is short *)
From Coq Require Import Reals ZArith List.
From Verif Require Import Outcome PartialReal Vec3 TwoBodySpec LambertModel LambertReal LambertProofs LambertSpec LambertTime LambertVec LambertMain LambertNear LambertShort.
Open Scope R_scope.

(** When the time of flight is at most a hundredth of (1 - lambda |lambda|) time units, lambert_problem returns, whatever the
    geometry, the gravitational parameter, the sense of motion and the number of revolutions asked for; and its entry 0 is a
    motion from r0 to r1 that takes the time asked for up to 4 parts in 10^8.  (Guess of lambert_problem.cpp 144-145,
    tolerance of 150, iteration of 185-204.) *)
Theorem C72_short r0 r1 tof mu cw mr : vz (cross r0 r1) <> 0 -> 0 < mu -> 0 < tof -> (0 <= mr < u32)%Z ->
  let lam := transfer_lambda r0 r1 cw in 100 * (tof / time_unit r0 r1 mu) <= 1 - lam * Rabs lam ->
  exists L v0 v1 t, lambert_r r0 r1 tof mu cw mr = Ret L /\ nth_error (l_v0 L) 0 = Some (sv v0) /\ nth_error (l_v1 L) 0 = Some (sv v1) /\
    flow_at mu (r0, v0) t (r1, v1) /\ Rabs (t - tof) <= 4 / 100000000 * tof.
Proof. exact (short_transfer r0 r1 tof mu cw mr). Qed.
Print Assumptions C72_short.

(** the iteration itself, for every lambda: it comes as close to the root as 4 parts in 10^8 *)
Theorem C72_householder lam T : lam * lam < 1 -> 0 < T -> 100 * T <= 1 - lam * Rabs lam ->
  exists xs x k, tau lam 0 xs = T /\ 99 <= xs /\ householder RA (Some lam) (Some T) (Some (start lam T 0)) 0 (Some (1 / 100000)) 15 = Ret (Some x, k) /\ 72 <= x /\
    Rabs (x - xs) <= 4 / 100000000 * xs /\ Rabs (tau lam 0 x - T) <= 4 / 100000000 * T.
Proof. exact (fun H => short_householder lam H T). Qed.
Print Assumptions C72_householder.

(** (25, 0, 0) to (7, 24, 0) with mu = 32000, where the time unit is 1 and lambda is 1/2, in time 1/200 *)
Example C72_example : exists L v0 v1 t, lambert_r ex_r0 ex_r1 (1 / 200) 32000 false 0 = Ret L /\ nth_error (l_v0 L) 0 = Some (sv v0) /\ nth_error (l_v1 L) 0 = Some (sv v1) /\
  flow_at 32000 (ex_r0, v0) t (ex_r1, v1) /\ Rabs (t - 1 / 200) <= 1 / 1000000000.
Proof. exact ex_short. Qed.
