(** * C73: the direct transfer of lambert_problem when it lasts as long as the transfer of least energy, or somewhat longer *)
From Coq Require Import Reals ZArith List.
From Verif Require Import Outcome PartialReal Vec3 TwoBodySpec LambertModel LambertReal LambertProofs LambertSpec LambertTime LambertVec LambertMain LambertNear LambertNormal.
Open Scope R_scope.

(** For |lambda| up to 4/5 (for points at equal distance from the body: for transfer angles between 26 and 334 degrees), and
    from the time of flight of the ellipse of least energy to 3/2 time units more, lambert_problem returns, and its entry 0 is a
    motion from r0 to r1 that takes the time asked for up to 4 parts in 10^11.  (Guess of lambert_problem.cpp 142-143, tolerance
    of 150, iteration of 185-204.) *)
Theorem C73_normal r0 r1 tof mu cw mr : vz (cross r0 r1) <> 0 -> 0 < mu -> (0 <= mr < u32)%Z ->
  let lam := transfer_lambda r0 r1 cw in Rabs lam <= 4 / 5 -> let t0 := acos lam + lam * sqrt (1 - lam * lam) in t0 <= tof / time_unit r0 r1 mu <= t0 + 3 / 2 ->
  exists L v0 v1 t, lambert_r r0 r1 tof mu cw mr = Ret L /\ nth_error (l_v0 L) 0 = Some (sv v0) /\ nth_error (l_v1 L) 0 = Some (sv v1) /\
    flow_at mu (r0, v0) t (r1, v1) /\ Rabs (t - tof) <= 4 / 100000000000 * tof.
Proof. exact (normal_transfer r0 r1 tof mu cw mr). Qed.
Print Assumptions C73_normal.

(** the iteration itself: it comes to within 2e-12 of the root *)
Theorem C73_householder lam T : lam * lam <= 16 / 25 -> let t0 := acos lam + lam * sqrt (1 - lam * lam) in t0 <= T <= t0 + 3 / 2 ->
  exists xs x k, tau lam 0 xs = T /\ -3 / 7 <= xs <= 0 /\ householder RA (Some lam) (Some T) (Some (start lam T 0)) 0 (Some (1 / 100000)) 15 = Ret (Some x, k) /\ -1 < x < 1 /\
    Rabs (x - xs) <= 2 / 1000000000000 /\ Rabs (tau lam 0 x - T) <= 4 / 100000000000 * T.
Proof. exact (fun H => normal_householder lam H T). Qed.
Print Assumptions C73_householder.

(** (25, 0, 0) to (7, 24, 0) with mu = 32000, where the time unit is 1 and lambda is 1/2, in time 2 *)
Example C73_example : exists L v0 v1 t, lambert_r ex_r0 ex_r1 2 32000 false 0 = Ret L /\ nth_error (l_v0 L) 0 = Some (sv v0) /\ nth_error (l_v1 L) 0 = Some (sv v1) /\
  flow_at 32000 (ex_r0, v0) t (ex_r1, v1) /\ Rabs (t - 2) <= 1 / 10000000000.
Proof. exact ex_normal. Qed.
