(** * Property theorems: fb_con and fb_dv in doubles (C21).  Only statements.  [acos_domain acos]: acos of a double above 1 is NaN. *)
From Coq Require Import ZArith Reals.
From Flocq Require Import Core.Core IEEE754.BinarySingleNaN.
From Verif Require Import Float64 Vec3 FlybyModel FlybyFloatModel FlybyFloatProofs.
Open Scope R_scope.

(** ** C21 *)
(** two different velocities of about 9.9 km/s: equal speeds, angle within what the planet allows, both constraints hold of the real numbers; in doubles
    the argument of acos rounds to 1 + 2^-52 and the angle constraint is NaN *)
Theorem C21_double_con_refuted : exists v w : dvec, exists mu safe : double,
  (exists d, fb_con (rvec v) (rvec w) (B2R mu) (B2R safe) = Some (0, d) /\ d < 0) /\
  forall acos asin, acos_domain acos -> fst (fb_con_d acos asin v w mu safe) = dzero /\ snd (fb_con_d acos asin v w mu safe) = dnan.
Proof. exact witness. Qed.
Print Assumptions C21_double_con_refuted.
(** an unchanged velocity is safe: for every double velocity whose square neither over- nor underflows, the argument of acos is exactly 1 and the first
    constraint exactly 0 *)
Theorem C21_double_same : forall acos asin v mu safe, is_finite (ddot v v) = true -> bpow radix2 (-500) <= B2R (ddot v v) <= bpow radix2 500 ->
  fst (fb_con_d acos asin v v mu safe) = dzero /\
  snd (fb_con_d acos asin v v mu safe) = dsub (acos done) (dmul (d_of_Z 2) (asin (ddiv done (dadd done (dmul (ddiv safe mu) (ddot v v)))))).
Proof. exact same_velocity. Qed.
Print Assumptions C21_double_same.
(** fb_dv is not harmed by that NaN: the comparison fails and it returns the difference of the speeds *)
Theorem C21_double_dv : forall acos asin cos v w mu safe, acos_domain acos -> dltb done (cos_arg v w) = true ->
  fb_dv_d acos asin cos v w mu safe = Babs (dsub (dsqrt (ddot w w)) (dsqrt (ddot v v))).
Proof. exact dv_robust. Qed.
Print Assumptions C21_double_dv.
(** an unchanged velocity costs exactly nothing, with any library whose acos of 1 is 0 and whose asin of 1/e_min is positive *)
Theorem C21_double_free : forall acos asin cos v mu safe, is_finite (ddot v v) = true -> bpow radix2 (-500) <= B2R (ddot v v) <= bpow radix2 500 -> acos done = dzero ->
  dltb dzero (asin (ddiv done (dadd done (dmul (ddiv safe mu) (ddot v v))))) = true -> fb_dv_d acos asin cos v v mu safe = dzero.
Proof. exact same_free. Qed.
Print Assumptions C21_double_free.
(** fb_dv pays for the turn exactly when the second constraint of fb_con, as computed, is positive *)
Theorem C21_double_turn : forall acos asin cos v w mu safe,
  (dltb dzero (snd (fb_con_d acos asin v w mu safe)) = true ->
     fb_dv_d acos asin cos v w mu safe = dsqrt (dsub (dadd (ddot w w) (ddot v v)) (dmul (dmul (d_of_Z 2) (dsqrt (dmul (ddot w w) (ddot v v)))) (cos (snd (fb_con_d acos asin v w mu safe)))))) /\
  (dltb dzero (snd (fb_con_d acos asin v w mu safe)) = false -> fb_dv_d acos asin cos v w mu safe = Babs (dsub (dsqrt (ddot w w)) (dsqrt (ddot v v)))).
Proof. exact dv_by_con. Qed.
Print Assumptions C21_double_turn.
Example C21_double_domain : exists acos : double -> double, acos_domain acos /\ acos done = dzero.
Proof. exact domain_exists. Qed.
Example C21_double_above : dltb done (cos_arg (d_of_Z 2, done, dzero) (d_of_dyadic 3152519739159347 (-51), d_of_dyadic 3152519739159347 (-52), dzero)) = true.
Proof. vm_compute. reflexivity. Qed.
(** other speeds, with simple functions in place of the library's: acos and cos the identity, asin 3/8 below 1/4 (here 1/e_min = 1/5) *)
Example C21_double_small : let v := (d_of_Z 2, dzero, dzero) in let w := (done, dzero, dzero) in
  let c := fb_con_d (fun x => x) (fun x => if dltb x (d_of_dyadic 1 (-2)) then d_of_dyadic 3 (-3) else dzero) v w done done in
  deqb (fst c) (d_of_Z 3) = true /\ deqb (snd c) (d_of_dyadic 1 (-2)) = true /\
  deqb (fb_dv_d (fun x => x) (fun x => if dltb x (d_of_dyadic 1 (-2)) then d_of_dyadic 3 (-3) else dzero) (fun x => x) v w done done) (d_of_Z 2) = true /\
  deqb (fb_dv_d (fun x => x) (fun x => x) (fun x => x) v (dzero, d_of_Z 3, dzero) done done) done = true.
Proof. vm_compute. repeat split; reflexivity. Qed.
