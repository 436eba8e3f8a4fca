(** * Property theorems: rounding errors (C65, C66).  Only statements.  [u] is 2^-53, half the distance from 1 to the next double; [rvec] and [B2R] are
    the real numbers that doubles stand for *)
From Coq Require Import ZArith Reals List Lra Lia.
From Flocq Require Import Core.Core IEEE754.BinarySingleNaN.
From Verif Require Import Outcome Float64 Vec3 FlybyFloatModel FloatVecModel FloatErrSpec FloatErrMain FloatErrWit HfSpec.
Import ListNotations.
Open Scope R_scope.

(** ** C65: vector helpers, angles and throttle constraints are accurate *)
(** _normalize: every component right to 10 roundings, and the length of the result 1 up to 18 roundings *)
Theorem C65_normalize : forall v, moderate v -> / 2 ^ 500 <= norm (rvec v) ->
  finite3 (dnormalize v) /\ within (10 * u) (rvec (dnormalize v)) (unit_of (rvec v)) /\ Rabs (norm (rvec (dnormalize v)) - 1) <= 18 * u.
Proof. exact normalize_err. Qed.
Print Assumptions C65_normalize.
(** not so for lengths whose square leaves the range of doubles: a vector of length 2^-600 becomes infinite or NaN, one of length 2^600 becomes zero *)
Theorem C65_normalize_small_refuted : exists v : dvec, finite3 v /\ norm (rvec v) = bpow radix2 (-600) /\
  let '(a, b, c) := dnormalize v in is_finite a = false /\ d_isnan b = true /\ d_isnan c = true.
Proof. exact normalize_small. Qed.
Print Assumptions C65_normalize_small_refuted.
Theorem C65_normalize_large_refuted : exists v : dvec, finite3 v /\ norm (rvec v) = bpow radix2 600 /\ finite3 (dnormalize v) /\ rvec (dnormalize v) = vzero.
Proof. exact normalize_large. Qed.
Print Assumptions C65_normalize_large_refuted.
(** _cross: right to 3 roundings of the product of the lengths *)
Theorem C65_cross : forall a0 a1 a2 b0 b1 b2, moderate (a0, a1, a2) -> moderate (b0, b1, b2) ->
  finite3 (dcross (a0, a1, a2) (b0, b1, b2)) /\
  within (3 * u * (norm (rvec (a0, a1, a2)) * norm (rvec (b0, b1, b2))) + / 2 ^ 1000) (rvec (dcross (a0, a1, a2) (b0, b1, b2))) (cross (rvec (a0, a1, a2)) (rvec (b0, b1, b2))).
Proof. exact cross_err. Qed.
Print Assumptions C65_cross.
(** ... and exact in two respects: parallel vectors give zero, swapped arguments the opposite vector *)
Theorem C65_cross_parallel : forall a0 a1 a2 b0 b1 b2, moderate (a0, a1, a2) -> moderate (b0, b1, b2) ->
  cross (rvec (a0, a1, a2)) (rvec (b0, b1, b2)) = vzero -> rvec (dcross (a0, a1, a2) (b0, b1, b2)) = vzero.
Proof. exact cross_parallel. Qed.
Print Assumptions C65_cross_parallel.
Theorem C65_cross_swap : forall a0 a1 a2 b0 b1 b2, moderate (a0, a1, a2) -> moderate (b0, b1, b2) ->
  rvec (dcross (b0, b1, b2) (a0, a1, a2)) = vneg (rvec (dcross (a0, a1, a2) (b0, b1, b2))).
Proof. exact cross_anti. Qed.
Print Assumptions C65_cross_swap.
(** the argument that fb_con and fb_dv hand to acos is the cosine of the angle between the velocities, to 16 roundings: it can leave [-1, 1], but never
    by more than that *)
Theorem C65_cosine : forall v w, ordinary v -> ordinary w ->
  is_finite (cos_arg v w) = true /\ Rabs (B2R (cos_arg v w) - cos_between (rvec v) (rvec w)) <= 16 * u.
Proof. exact cos_arg_err. Qed.
Print Assumptions C65_cosine.
(** compute_throttle_constraints: one number per segment, |u|^2 - 1 of its throttle to 6 |u|^2 + 2 roundings; so a throttle reported admissible is longer
    than 1 by at most 9 roundings, and one shorter than 1 by more than that is reported admissible *)
Theorem C65_throttles : forall th n, Z.of_nat (length th) = (3 * n)%Z -> (0 <= n)%Z -> exists cs, throttle_con_d th n = Ret cs /\ Z.of_nat (length cs) = n /\
  forall i x y z, (0 <= i < n)%Z -> nth_error th (Z.to_nat (3 * i)) = Some x -> nth_error th (Z.to_nat (3 * i + 1)) = Some y ->
  nth_error th (Z.to_nat (3 * i + 2)) = Some z -> moderate (x, y, z) ->
  exists c, nth_error cs (Z.to_nat i) = Some c /\ is_finite c = true /\ let q := B2R x * B2R x + B2R y * B2R y + B2R z * B2R z in
    Rabs (B2R c - (q - 1)) <= 6 * u * q + 2 * u /\ (B2R c <= 0 -> q <= 1 + 9 * u) /\ (q <= 1 - 9 * u -> B2R c <= 0).
Proof. exact throttle_list. Qed.
Print Assumptions C65_throttles.
(** the sign itself is not exact, in either direction *)
Theorem C65_throttle_missed_refuted : exists x y z : double, moderate (x, y, z) /\ 1 < norm (rvec (x, y, z)) * norm (rvec (x, y, z)) /\ B2R (throttle_residual [x; y; z]) = 0.
Proof. exact throttle_missed. Qed.
Print Assumptions C65_throttle_missed_refuted.
Theorem C65_throttle_false_refuted : exists x y z : double, moderate (x, y, z) /\ norm (rvec (x, y, z)) * norm (rvec (x, y, z)) < 1 /\ 0 < B2R (throttle_residual [x; y; z]).
Proof. exact throttle_false. Qed.
Print Assumptions C65_throttle_false_refuted.
(** (3, 0, 4) / 5, and (1, 2, 3) x (4, 5, 6) = (-3, 6, -3) without error; |(2, 0, 1)|^2 - 1 = 4 *)
Example C65_exact : veqb (dcross (zv 1 2 3) (zv 4 5 6)) (-3) 6 (-3) 0 = true /\ moderate (zv 1 2 3) /\
  (let '(a, b, c) := dnormalize (zv 3 0 4) in deqb (dmul a (d_of_Z 5)) (d_of_Z 3) = true /\ deqb b dzero = true /\ deqb c (ddiv (d_of_Z 4) (d_of_Z 5)) = true) /\
  match throttle_con_d [d_of_Z 2; dzero; done; done; dzero; dzero] 2 with Ret [c0; c1] => deqb c0 (d_of_Z 4) = true /\ deqb c1 dzero = true | _ => False end.
Proof. split; [vm_compute; reflexivity|]. split; [apply moderate_zv; lia|]. vm_compute. repeat split; reflexivity. Qed.

(** ** C66: the transfer plane of a Lambert problem *)
(** positions that are not collinear: the unit normal is right to 100 roundings over the sine of the angle between them, for every way of computing
    lengths to 7 roundings *)
Theorem C66_plane : forall nrm r0 r1, accurate_norm nrm -> moderate r0 -> moderate r1 -> / 2 ^ 500 <= norm (rvec r0) -> / 2 ^ 500 <= norm (rvec r1) ->
  let s := sin_between (rvec r0) (rvec r1) in 100 * u <= s ->
  finite3 (dplane nrm r0 r1) /\ within (100 * u / s) (rvec (dplane nrm r0 r1)) (unit_of (cross (rvec r0) (rvec r1))).
Proof. exact plane_err. Qed.
Print Assumptions C66_plane.
(** ... so the sign of its third component, which decides between the short and the long way, is right unless the plane is vertical to that precision *)
Theorem C66_side : forall nrm r0 r1, accurate_norm nrm -> moderate r0 -> moderate r1 -> / 2 ^ 500 <= norm (rvec r0) -> / 2 ^ 500 <= norm (rvec r1) ->
  let s := sin_between (rvec r0) (rvec r1) in 100 * u <= s -> let h := unit_of (cross (rvec r0) (rvec r1)) in
  100 * u / s < Rabs (vz h) -> (vz (rvec (dplane nrm r0 r1)) < 0 <-> vz h < 0) /\ vz (rvec (dplane nrm r0 r1)) <> 0.
Proof. exact plane_side. Qed.
Print Assumptions C66_side.
(** the plain formula computes lengths that well *)
Theorem C66_plain_norm : accurate_norm dnorm.
Proof. exact plain_accurate. Qed.
Print Assumptions C66_plain_norm.
(** collinear positions are not detected.  r0 = (2, 3, 21), r1 = 3 r0: over the reals there is no plane; in doubles the normal comes out as exactly
    (0, 0, 1), although the positions point within 15 degrees of that direction: the plane does not contain them.  The check "no z component" passes *)
Theorem C66_collinear_refuted : exists r0 r1 : dvec, finite3 r0 /\ finite3 r1 /\ rvec r1 = vscal 3 (rvec r0) /\
  rvec (dplane dnorm r0 r1) = V 0 0 1 /\ 97 / 100 * norm (rvec r0) < dot (rvec (dplane dnorm r0 r1)) (rvec r0).
Proof. exact plane_wrong. Qed.
Print Assumptions C66_collinear_refuted.
(** the same for a transfer of 180 degrees: r1 = -3 r0 *)
Theorem C66_opposite_refuted : exists r0 r1 : dvec, finite3 r0 /\ finite3 r1 /\ rvec r1 = vscal (-3) (rvec r0) /\
  rvec (dplane dnorm r0 r1) = V 0 0 (-1) /\ dot (rvec (dplane dnorm r0 r1)) (rvec r0) < - (97 / 100 * norm (rvec r0)).
Proof. exact plane_wrong_opposite. Qed.
Print Assumptions C66_opposite_refuted.
(** (1, 0, 0) and (0, 2, 0): the normal is (0, 0, 1); (0, 3, 0) and (1, 0, 0): (0, 0, -1) *)
Example C66_example : veqb (dplane dnorm (zv 1 0 0) (zv 0 2 0)) 0 0 1 0 = true /\ veqb (dplane dnorm (zv 0 3 0) (zv 1 0 0)) 0 0 (-1) 0 = true /\ moderate (zv 1 0 0) /\ moderate (zv 0 2 0).
Proof. split; [vm_compute; reflexivity|]. split; [vm_compute; reflexivity|]. split; apply moderate_zv; lia. Qed.
