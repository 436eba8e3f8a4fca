(** * What the Sims-Flanagan leg is about
    A trajectory made of equal segments, each a two-body coast of half its duration, an impulse, and a coast of the other half;
    written with the two-body flow of TwoBodySpec.v and the rocket equation, without the code's propagator or its loops. *)
From Coq Require Import Reals List ZArith.
From Coquelicot Require Import Coquelicot.
From Verif Require Import Vec3 TwoBodySpec DynModel SfModel.
Import ListNotations.
Open Scope R_scope.

(** the throttle vectors of the segments, in order *)
Definition thr_vec (th : list R) (i : nat) : vec := V (nth (3 * i) th 0) (nth (3 * i + 1) th 0) (nth (3 * i + 2) th 0).
Definition throttles (n : nat) (th : list R) : list vec := map (thr_vec th) (seq 0 n).
Definition kick (s : state) (dv : vec) : state := (fst s, vadd (snd s) dv).
Definition minus7 (a b : col7) : col7 :=
  ((vsub (fst (fst a)) (fst (fst b)), vsub (snd (fst a)) (snd (fst b))), snd a - snd b).

Section Legs.
(** [ok] is asked of the state at the beginning of every coast *)
Variable ok : state -> Prop.
Variables mu c veff dt : R.
(** forward in time: the impulse is c/m u with the mass before it; the mass follows the rocket equation *)
Definition segment (u : vec) (p q : col7) : Prop :=
  exists a, ok (fst p) /\ flow_at mu (fst p) (dt / 2) a /\
  let dv := vscal (c / snd p) u in
  ok (kick a dv) /\ flow_at mu (kick a dv) (dt / 2) (fst q) /\ snd q = snd p * exp (- norm dv / veff).
(** backward in time: the impulse is removed; it is c/m u with the mass after it *)
Definition segment_back (u : vec) (p q : col7) : Prop :=
  exists a, ok (fst p) /\ flow_at mu (fst p) (- (dt / 2)) a /\
  let dv := vscal (c / snd p) u in
  ok (kick a (vneg dv)) /\ flow_at mu (kick a (vneg dv)) (- (dt / 2)) (fst q) /\ snd q = snd p * exp (norm dv / veff).
Fixpoint legs (seg : vec -> col7 -> col7 -> Prop) (us : list vec) (p q : col7) : Prop :=
  match us with [] => q = p | u :: us' => exists z, seg u p z /\ legs seg us' z q end.
End Legs.

(** the first [s_fwd] segments flown forward from the initial state, the others backward from the final state *)
Definition forward_end (ok : state -> Prop) (l : sf) (q : col7) : Prop :=
  let dt := s_tof l / IZR (s_nseg l) in
  legs (segment ok (s_mu l) (s_T l * dt) (s_isp l * G0) dt) (firstn (Z.to_nat (s_fwd l)) (throttles (Z.to_nat (s_nseg l)) (s_thr l))) (s_rvs l, s_ms l) q.
Definition backward_end (ok : state -> Prop) (l : sf) (q : col7) : Prop :=
  let dt := s_tof l / IZR (s_nseg l) in
  legs (segment_back ok (s_mu l) (s_T l * dt) (s_isp l * G0) dt) (rev (skipn (Z.to_nat (s_fwd l)) (throttles (Z.to_nat (s_nseg l)) (s_thr l)))) (s_rvf l, s_mf l) q.
Definition leg_mismatch (ok : state -> Prop) (l : sf) (y : col7) : Prop :=
  exists pf pb, forward_end ok l pf /\ backward_end ok l pb /\ y = minus7 pf pb.

(** what the constructors check (C26) and physical units *)
Definition proper (l : sf) : Prop :=
  (0 <= s_fwd l /\ 0 <= s_bck l /\ s_fwd l + s_bck l = s_nseg l /\ 0 < s_nseg l)%Z /\ length (s_thr l) = (3 * Z.to_nat (s_nseg l))%nat /\
  0 < s_mu l /\ 0 <= s_T l /\ 0 < s_isp l /\ 0 < s_tof l /\ 0 < s_ms l /\ 0 < s_mf l.
(** where the propagator is proved to find its root (C13): ellipses, and hyperbolas that are not followed for too long *)
Definition good_arc (mu dt : R) (s : state) : Prop := elliptic mu s \/ hyperbolic mu s /\ mean_motion mu s * Rabs dt <= 10 ^ 9.
(** neither rectilinear nor parabolic *)
Definition nonsing (mu : R) (s : state) : Prop := regular mu s /\ energy mu s <> 0.

(** the same leg with another cut *)
Definition with_cut (l : sf) (k : Z) : sf :=
  mk_sf (s_rvs l) (s_ms l) (s_thr l) (s_rvf l) (s_mf l) (s_tof l) (s_T l) (s_isp l) (s_mu l) (s_nseg l) k (s_nseg l - k).
(** the same leg with other inputs *)
Definition with_inputs (l : sf) (xs : state) (ms : R) (th : list R) (xf : state) (mf tof : R) : sf :=
  mk_sf xs ms th xf mf tof (s_T l) (s_isp l) (s_mu l) (s_nseg l) (s_fwd l) (s_bck l).

(** Jacobians: a 7 x w array given row by row, applied to w numbers *)
Fixpoint sum_n (n : nat) (f : nat -> R) : R := match n with O => 0 | S k => sum_n k f + f k end.
Definition row (w : nat) (m d : list R) (i : nat) : R := sum_n w (fun j => nth (w * i + j) m 0 * nth j d 0).
Definition apply7 (w : nat) (m d : list R) : col7 :=
  ((V (row w m d 0) (row w m d 1) (row w m d 2), V (row w m d 3) (row w m d 4) (row w m d 5)), row w m d 6).
Definition plus7 (a b : col7) : col7 :=
  ((vadd (fst (fst a)) (fst (fst b)), vadd (snd (fst a)) (snd (fst b))), snd a + snd b).
Definition list7 (p : col7) : list R :=
  [vx (fst (fst p)); vy (fst (fst p)); vz (fst (fst p)); vx (snd (fst p)); vy (snd (fst p)); vz (snd (fst p)); snd p].
Definition derive7 (y : R -> col7) (e : R) (d : col7) : Prop := sderive (fun u => fst (y u)) e (fst d) /\ is_derive (fun u => snd (y u)) e (snd d).
Definition derive_list (th : R -> list R) (e : R) (d : list R) : Prop :=
  length d = length (th e) /\ forall j, is_derive (fun u => nth j (th u) 0) e (nth j d 0).
(** along every differentiable curve of inputs through those of [l] (initial state and mass, throttles, final state and mass,
    time of flight) the mismatches have the derivative A d(xs, ms) + B d(xf, mf) + G d(throttles, tof) *)
Definition mismatch_jacobian (ok : state -> Prop) (l : sf) (y0 : col7) (A B G : list R) : Prop :=
  let w := (3 * Z.to_nat (s_nseg l))%nat in
  length A = 49%nat /\ length B = 49%nat /\ length G = (7 * (w + 1))%nat /\
  forall xs ms th xf mf tof (dxs : state) (dms : R) (dth : list R) (dxf : state) (dmf dtof : R),
  xs 0 = s_rvs l -> ms 0 = s_ms l -> th 0 = s_thr l -> xf 0 = s_rvf l -> mf 0 = s_mf l -> tof 0 = s_tof l ->
  sderive xs 0 dxs -> is_derive ms 0 dms -> (forall e, length (th e) = w) -> derive_list th 0 dth -> sderive xf 0 dxf -> is_derive mf 0 dmf -> is_derive tof 0 dtof ->
  exists y eps, 0 < eps /\ y 0 = y0 /\
  (forall e, Rabs e < eps -> leg_mismatch ok (with_inputs l (xs e) (ms e) (th e) (xf e) (mf e) (tof e)) (y e)) /\
  derive7 y 0 (plus7 (apply7 7 A (list7 (dxs, dms))) (plus7 (apply7 7 B (list7 (dxf, dmf))) (apply7 (w + 1) G (dth ++ [dtof])))).
