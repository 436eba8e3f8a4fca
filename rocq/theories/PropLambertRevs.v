(** * C57: all Lambert transfers, and the number of revolutions that lambert_problem reports
    What a transfer is is in LambertRevsSpec.v: a velocity, in the requested direction, whose Keplerian motion is in r1 after tof,
    having made N complete revolutions.  The theorems are about the code over exact reals (LambertModel.v with RA). *)
From Coq Require Import Reals ZArith List.
From Verif Require Import Outcome Vec3 TwoBodySpec LambertModel LambertReal LambertSpec LambertTime LambertDer LambertVec LambertMain LambertRevsSpec LambertComplete LambertCount LambertHalley.
Import ListNotations.
Open Scope R_scope.

(** without complete revolutions there is exactly one transfer, whatever the geometry and the time *)
Theorem C57_direct : forall mu r0 r1 cw, vz (cross r0 r1) <> 0 -> 0 < mu -> forall tof, 0 < tof ->
  exists v0, transfer mu r0 r1 tof cw 0 v0 /\ forall v, transfer mu r0 r1 tof cw 0 v -> v = v0.
Proof. exact direct_transfer. Qed.
Print Assumptions C57_direct.
(** with N complete revolutions there is a least time: below it there is none, at it one, above it two *)
Theorem C57_revolutions : forall mu r0 r1 cw, vz (cross r0 r1) <> 0 -> 0 < mu -> forall N, (1 <= N)%Z ->
  exists tm, IZR N * PI * time_unit r0 r1 mu < tm < (IZR N + 1) * PI * time_unit r0 r1 mu /\ forall tof, 0 < tof ->
  (tof < tm -> forall v, ~ transfer mu r0 r1 tof cw N v) /\
  (tof = tm -> exists v0, transfer mu r0 r1 tof cw N v0 /\ forall v, transfer mu r0 r1 tof cw N v -> v = v0) /\
  (tm < tof -> exists va vb, va <> vb /\ transfer mu r0 r1 tof cw N va /\ transfer mu r0 r1 tof cw N vb /\ forall v, transfer mu r0 r1 tof cw N v -> v = va \/ v = vb).
Proof. exact revolution_transfers. Qed.
Print Assumptions C57_revolutions.
(** entry 0, if its x solves the time equation, is the transfer without complete revolutions *)
Theorem C57_entry0 : forall r0 r1 tof mu cw mr L x, vz (cross r0 r1) <> 0 -> lambert_r r0 r1 tof mu cw mr = Ret L -> nth_error (l_x L) 0 = Some (Some x) ->
  -1 < x -> tau (transfer_lambda r0 r1 cw) 0 x * time_unit r0 r1 mu = tof ->
  exists v, nth_error (l_v0 L) 0 = Some (sv v) /\ forall v', transfer mu r0 r1 tof cw 0 v' <-> v' = v.
Proof. exact entry_direct. Qed.
Print Assumptions C57_entry0.
(** entries 2N-1 and 2N, if their x differ and solve the time equation, are the transfers with N revolutions and all of them *)
Theorem C57_entries : forall r0 r1 tof mu cw mr L N xa xb, vz (cross r0 r1) <> 0 -> lambert_r r0 r1 tof mu cw mr = Ret L -> (1 <= N)%Z ->
  nth_error (l_x L) (Z.to_nat (2 * N - 1)) = Some (Some xa) -> nth_error (l_x L) (Z.to_nat (2 * N)) = Some (Some xb) -> -1 < xa < 1 -> -1 < xb < 1 -> xa <> xb ->
  tau (transfer_lambda r0 r1 cw) N xa * time_unit r0 r1 mu = tof -> tau (transfer_lambda r0 r1 cw) N xb * time_unit r0 r1 mu = tof ->
  exists va vb, nth_error (l_v0 L) (Z.to_nat (2 * N - 1)) = Some (sv va) /\ nth_error (l_v0 L) (Z.to_nat (2 * N)) = Some (sv vb) /\ va <> vb /\ forall v, transfer mu r0 r1 tof cw N v <-> v = va \/ v = vb.
Proof. exact entry_pair. Qed.
Print Assumptions C57_entries.
(** the reported number of revolutions decides rightly about every N but floor (T / pi) *)
Theorem C57_count : forall r0 r1 tof mu cw mr L, vz (cross r0 r1) <> 0 -> (0 <= mr < u32)%Z -> lambert_r r0 r1 tof mu cw mr = Ret L ->
  forall N, (0 <= N <= mr)%Z -> N <> Int_part (tof / time_unit r0 r1 mu / PI) -> ((exists v, transfer mu r0 r1 tof cw N v) <-> (N <= l_nmax L)%Z).
Proof. exact revolutions_off. Qed.
Print Assumptions C57_count.
(** and about every N, when the largest one asked for is smaller or the time is not less than that of the minimum-energy ellipse *)
Theorem C57_count_exact : forall r0 r1 tof mu cw mr L, vz (cross r0 r1) <> 0 -> (0 <= mr < u32)%Z -> lambert_r r0 r1 tof mu cw mr = Ret L ->
  let q := Int_part (tof / time_unit r0 r1 mu / PI) in let lam := transfer_lambda r0 r1 cw in (mr < q)%Z \/ (acos lam + lam * sqrt (1 - lam * lam) + IZR q * PI) * time_unit r0 r1 mu <= tof ->
  forall N, (0 <= N <= mr)%Z -> ((exists v, transfer mu r0 r1 tof cw N v) <-> (N <= l_nmax L)%Z).
Proof. exact revolutions_at. Qed.
Print Assumptions C57_count_exact.
(** otherwise everything depends on where Halley's iteration ends: N is kept when the time it returns is not more than tof, there is
    then a transfer if it ended on an ellipse, and the count is right for every N if it ended in a stationary point *)
Theorem C57_halley : forall r0 r1 tof mu cw mr L x it, vz (cross r0 r1) <> 0 -> (0 <= mr < u32)%Z -> lambert_r r0 r1 tof mu cw mr = Ret L ->
  let q := Int_part (tof / time_unit r0 r1 mu / PI) in let lam := transfer_lambda r0 r1 cw in (1 <= q <= mr)%Z -> tof < (acos lam + lam * sqrt (1 - lam * lam) + IZR q * PI) * time_unit r0 r1 mu ->
  halley RA (Some lam) 14 q 0 (Some 0) (Some 0) (Some (tau lam q 0)) = Ret (Some (tau lam q x), it) ->
  ((q <= l_nmax L)%Z <-> tau lam q x * time_unit r0 r1 mu <= tof) /\
  (-1 < x < 1 -> (q <= l_nmax L)%Z -> exists v, transfer mu r0 r1 tof cw q v) /\
  (-1 < x < 1 -> D1 lam (tau lam q x) x = 0 -> forall N, (0 <= N <= mr)%Z -> ((exists v, transfer mu r0 r1 tof cw N v) <-> (N <= l_nmax L)%Z)).
Proof. exact revolutions_halley. Qed.
Print Assumptions C57_halley.
(** it need not: Halley's iteration can leave the ellipses, and the constructor then reports a revolution for which there is no transfer *)
Theorem C57_count_refuted : exists r0 r1 tof mu L, vz (cross r0 r1) <> 0 /\ lambert_r r0 r1 tof mu true 1 = Ret L /\ l_nmax L = 1%Z /\
  forall v, ~ transfer mu r0 r1 tof true 1 v.
Proof. exact revolutions_refuted. Qed.
Print Assumptions C57_count_refuted.
Example C57_example : exists L, lambert_r ex_r0 ex_r1 21 32000 false 10 = Ret L /\ l_nmax L = 6%Z /\ forall N, (0 <= N <= 10)%Z -> ((exists v, transfer 32000 ex_r0 ex_r1 21 false N v) <-> (N <= 6)%Z).
Proof. exact ex_revolutions. Qed.
(** for |lambda| <= 4/5 it does find the least time: it ends on an ellipse whose time is right to one part in 10^24 *)
Theorem C57_halley_finds : forall lam, -4 / 5 <= lam <= 4 / 5 -> forall N, (1 <= N)%Z ->
  exists x it, -1 < x < 1 /\ halley RA (Some lam) 14 N 0 (Some 0) (Some 0) (Some (tau lam N 0)) = Ret (Some (tau lam N x), it) /\
  forall t, -1 < t < 1 -> tau lam N x <= tau lam N t * (1 + 1 / 10 ^ 24).
Proof. exact halley_global. Qed.
Print Assumptions C57_halley_finds.
(** and the count is right: every reported number of revolutions has a transfer, and every number that has a transfer in a time shorter
    by one part in 10^24 is reported *)
Theorem C57_count_near : forall r0 r1 tof mu cw mr L, vz (cross r0 r1) <> 0 -> (0 <= mr < u32)%Z -> lambert_r r0 r1 tof mu cw mr = Ret L -> -4 / 5 <= transfer_lambda r0 r1 cw <= 4 / 5 ->
  forall N, (0 <= N <= mr)%Z -> ((N <= l_nmax L)%Z -> exists v, transfer mu r0 r1 tof cw N v) /\
  (forall tof' v, 0 < tof' -> tof' <= tof * (1 - 1 / 10 ^ 24) -> transfer mu r0 r1 tof' cw N v -> (N <= l_nmax L)%Z).
Proof. exact revolutions_near. Qed.
Print Assumptions C57_count_near.
(** two times between floor (T / pi) pi and that of the minimum-energy ellipse: the iteration keeps the revolution for one and drops it for the other *)
Example C57_near_example : exists L L', lambert_r ex_r0 ex_r1 (23 / 5) 32000 false 10 = Ret L /\ l_nmax L = 1%Z /\ lambert_r ex_r0 ex_r1 4 32000 false 10 = Ret L' /\ l_nmax L' = 0%Z /\
  23 / 5 < (acos (1 / 2) + 1 / 2 * sqrt (1 - 1 / 2 * (1 / 2)) + IZR 1 * PI) * time_unit ex_r0 ex_r1 32000.
Proof. exact ex_near. Qed.
