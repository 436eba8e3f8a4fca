(** * C62: the iterations of lambert_problem near a solution *)
From Coq Require Import Reals ZArith List Bool Lra Lia.
From Coquelicot Require Import Coquelicot.
From Verif Require Import Outcome PartialReal RealLib Vec3 TwoBodySpec ElemProofs LambertModel LambertReal LambertProofs LambertSpec LambertTime LambertVec LambertTof LambertMono LambertMain LambertConv LambertNear LambertConvMain.
Import ListNotations.
Open Scope R_scope.

(** [householder] (lambert_problem.cpp 185-204) started close enough to a simple solution of tau = T, and not within 1/100 of
    the parabola, returns a number; every turn raises the scaled error to the fourth power, and when it stops before its last
    turn, the error is of the order of the fourth power of the tolerance.  For every lambda, N, tolerance and number of turns. *)
Theorem C62_householder_order_four lam N xs (d : R) : lam * lam < 1 -> -1 < xs -> 1 / 100 < Rabs (xs - 1) -> (1 < xs -> N = 0%Z) -> is_derive (tau lam N) xs d -> d <> 0 ->
  exists K, 1 <= K /\ forall x eps n, Rabs (x - xs) <= / (2 * K) -> 0 <= eps < 1 -> (0 < n)%nat ->
  exists x' k, householder RA (Some lam) (Some (tau lam N xs)) (Some x) N (Some eps) n = Ret (Some x', Z.of_nat k) /\ (1 <= k <= n)%nat /\
    K * Rabs (x' - xs) <= (K * Rabs (x - xs)) ^ (4 ^ k) /\ (k = n \/ Rabs (x' - xs) <= K * (2 * eps) ^ 4).
Proof. exact (householder_at_simple lam N xs d). Qed.
Print Assumptions C62_householder_order_four.

(** without complete revolutions every solution is simple, and one radius serves all times of flight whose solution lies in an
    interval on one side of the parabola *)
Theorem C62_direct_uniform lam a b : lam * lam < 1 -> -1 < a -> a <= b -> b < 99 / 100 \/ 101 / 100 < a ->
  exists K, 1 <= K /\ forall T xs x eps n, a <= xs <= b -> tau lam 0 xs = T -> Rabs (x - xs) <= / (2 * K) -> 0 <= eps < 1 -> (0 < n)%nat ->
  exists x' k, householder RA (Some lam) (Some T) (Some x) 0 (Some eps) n = Ret (Some x', Z.of_nat k) /\ (1 <= k <= n)%nat /\
    K * Rabs (x' - xs) <= (K * Rabs (x - xs)) ^ (4 ^ k) /\ (k = n \/ Rabs (x' - xs) <= K * (2 * eps) ^ 4).
Proof. exact (fun L => householder_direct lam L a b). Qed.
Print Assumptions C62_direct_uniform.

(** [halley] (lambert_problem.cpp 106-125), which looks for the least time of flight with N >= 1 revolutions, raises its scaled
    error to the third power in every turn; the time it returns exceeds the least one by a multiple of the squared error *)
Theorem C62_halley_order_three lam N : lam * lam < 1 -> (1 <= N)%Z -> exists xm K, 0 < xm < 9 / 10 /\ 1 <= K /\ (forall x, -1 < x < 1 -> tau lam N xm <= tau lam N x) /\ forall x, Rabs (x - xm) <= / (2 * K) ->
  exists x' k, halley RA (Some lam) 14 N 0 (Some x) (Some x) (Some (tau lam N x)) = Ret (Some (tau lam N x'), Z.of_nat k) /\ K * Rabs (x' - xm) <= (K * Rabs (x - xm)) ^ (3 ^ k) /\
    (k = 13%nat \/ Rabs (x' - xm) <= 2 / 10000000000000) /\ tau lam N xm <= tau lam N x' <= tau lam N xm + K * (Rabs (x' - xm)) ^ 2.
Proof. exact (fun L => halley_converges lam L N). Qed.
Print Assumptions C62_halley_order_three.

(** the constructor stores in entry i what [householder] returns from the initial guess of the code ([start]) with the
    tolerance 1e-5 (entry 0) or 1e-8 *)
Theorem C62_starts r0 r1 tof mu cw mr L i : vz (cross r0 r1) <> 0 -> (0 <= mr < u32)%Z -> lambert_r r0 r1 tof mu cw mr = Ret L -> (i < length (l_x L))%nat -> (l_nmax L + 1 < u32)%Z \/ i = 0%nat ->
  let lam := transfer_lambda r0 r1 cw in let T := tof / time_unit r0 r1 mu in
  exists x k, householder RA (Some lam) (Some T) (Some (start lam T i)) ((Z.of_nat i + 1) / 2) (Some (stop_at i)) 15 = Ret (x, k) /\ nth_error (l_x L) i = Some x /\ nth_error (l_iters L) i = Some k.
Proof. exact (lambert_started r0 r1 tof mu cw mr L i). Qed.
Print Assumptions C62_starts.

(** an entry whose initial guess is close enough to a simple solution holds a transfer that lasts the requested time up to the
    fourth power of the tolerance *)
Theorem C62_entry r0 r1 mu cw N xs (d : R) : vz (cross r0 r1) <> 0 -> let lam := transfer_lambda r0 r1 cw in -1 < xs -> 1 / 100 < Rabs (xs - 1) -> (1 < xs -> N = 0%Z) -> is_derive (tau lam N) xs d -> d <> 0 ->
  exists K, 1 <= K /\ forall tof mr L i, tof = tau lam N xs * time_unit r0 r1 mu -> (0 <= mr < u32)%Z -> lambert_r r0 r1 tof mu cw mr = Ret L -> (i < length (l_x L))%nat -> (l_nmax L + 1 < u32)%Z \/ i = 0%nat -> N = ((Z.of_nat i + 1) / 2)%Z ->
  Rabs (start lam (tof / time_unit r0 r1 mu) i - xs) <= / (2 * K) ->
  exists x v0 v1 t, nth_error (l_x L) i = Some (Some x) /\ Rabs (x - xs) <= K * (2 * stop_at i) ^ 4 /\
    nth_error (l_v0 L) i = Some (sv v0) /\ nth_error (l_v1 L) i = Some (sv v1) /\ flow_at mu (r0, v0) t (r1, v1) /\ Rabs (t - tof) <= K * K * (2 * stop_at i) ^ 4 * time_unit r0 r1 mu.
Proof. exact (lambert_near r0 r1 mu cw N xs d). Qed.
Print Assumptions C62_entry.

(** around the time of flight of the transfer of least energy nothing is assumed: the guess is close enough *)
Theorem C62_least_energy_partial r0 r1 mu cw : vz (cross r0 r1) <> 0 -> 0 < mu -> let lam := transfer_lambda r0 r1 cw in
  exists K d, 1 <= K /\ 0 < d /\ forall tof mr, Rabs (tof - tau lam 0 0 * time_unit r0 r1 mu) < d -> (0 <= mr < u32)%Z ->
  exists L x v0 v1 t, lambert_r r0 r1 tof mu cw mr = Ret L /\ nth_error (l_x L) 0 = Some (Some x) /\
    nth_error (l_v0 L) 0 = Some (sv v0) /\ nth_error (l_v1 L) 0 = Some (sv v1) /\ flow_at mu (r0, v0) t (r1, v1) /\ Rabs (t - tof) <= K * K * (2 * stop_at 0) ^ 4 * time_unit r0 r1 mu.
Proof. exact (lambert_min_energy_near r0 r1 mu cw). Qed.
Print Assumptions C62_least_energy_partial.
(** The full statement, for every time of flight, is missing: it needs the guess to be close enough for every lambda and T. *)

(** from (25, 0, 0) to (7, 24, 0) with mu = 32000, in times around pi / 3 + sqrt 3 / 4 *)
Example C62_example : exists K d, 1 <= K /\ 0 < d /\ forall tof, Rabs (tof - (PI / 3 + sqrt 3 / 4)) < d ->
  exists L v0 v1 t, lambert_r ex_r0 ex_r1 tof 32000 false 5 = Ret L /\ nth_error (l_v0 L) 0 = Some (sv v0) /\ nth_error (l_v1 L) 0 = Some (sv v1) /\
    flow_at 32000 (ex_r0, v0) t (ex_r1, v1) /\ Rabs (t - tof) <= K * (16 / 100000000000000000000).
Proof. exact ex_near. Qed.
(** lambda = 0, T = pi / 2: the solution is x = 0, and one turn from any x close to it leaves an error of fourth order *)
Example C62_example_turn : exists K, 1 <= K /\ forall x, Rabs x <= / (2 * K) -> exists x', householder RA (Some 0) (Some (PI / 2)) (Some x) 0 (Some 0) 1 = Ret (Some x', 1%Z) /\ K * Rabs x' <= (K * Rabs x) ^ 4.
Proof. exact ex_turn. Qed.
