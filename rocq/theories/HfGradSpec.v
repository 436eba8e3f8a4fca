(** * What the gradient of the high-fidelity leg is about
    A leg flown under gravity and constant thrust in every segment, the first segments forward in time from the initial state and
    the others backward from the final one; the ideal variational integrator.  Written with the field of DynSpec.v and
    without the code's loops or arrays. *)
From Coq Require Import Reals List ZArith.
From Coquelicot Require Import Coquelicot.
From Verif Require Import Vec3 TwoBodySpec DynSpec DynModel SfModel SfSpec HfGradModel.
Import ListNotations.
Open Scope R_scope.

(** [q] solves q' = F q from time 0 to time h (of either sign) away from the centre of attraction and with a mass *)
Definition between (h t : R) : Prop := Rmin 0 h <= t <= Rmax 0 h.
Definition arc (F : col7 -> col7) (h : R) (q : R -> col7) : Prop := forall t, between h t -> off_centre (q t) /\ derive7 q t (F (q t)).
Definition flight (mu veff h : R) (u : vec) (p q : col7) : Prop := exists x, arc (thrust_field mu veff u) h x /\ x 0 = p /\ x h = q.

(** the mismatch of the flown leg: n segments, the first [nf] forward *)
Definition flown (mu veff T : R) (n nf : nat) (xs : col7) (th : list R) (xf : col7) (tof : R) (y : col7) : Prop :=
  let us := map (vscal T) (throttles n th) in let h := tof / INR n in
  exists pf pb, legs (flight mu veff h) (firstn nf us) xs pf /\ legs (flight mu veff (- h)) (rev (skipn nf us)) xf pb /\ y = minus7 pf pb.

(** the leg as one flight from the initial to the final state *)
Definition uninterrupted (mu veff T : R) (n : nat) (xs : col7) (th : list R) (xf : col7) (tof : R) : Prop :=
  legs (flight mu veff (tof / INR n)) (map (vscal T) (throttles n th)) xs xf.

(** along every differentiable curve of inputs the mismatches, where the legs can be flown, have the derivative
    A d xs + B d xf + G (k d throttles, d tof) *)
Definition hf_jacobian (mu veff T : R) (n nf : nat) (xs0 : col7) (th0 : list R) (xf0 : col7) (tof0 k : R) (A B G : list R) : Prop :=
  length A = 49%nat /\ length B = 49%nat /\ length G = (7 * (3 * n + 1))%nat /\
  forall xs th xf tof y (dxs : col7) (dth : list R) (dxf : col7) (dtof : R),
  xs 0 = xs0 -> th 0 = th0 -> xf 0 = xf0 -> tof 0 = tof0 ->
  derive7 xs 0 dxs -> derive_list th 0 dth -> derive7 xf 0 dxf -> is_derive tof 0 dtof ->
  (exists eps, 0 < eps /\ forall e, Rabs e < eps -> flown mu veff T n nf (xs e) (th e) (xf e) (tof e) (y e)) ->
  derive7 y 0 (plus7 (apply7 7 A (list7 dxs)) (plus7 (apply7 7 B (list7 dxf)) (apply7 (3 * n + 1) G (map (Rmult k) dth ++ [dtof])))).

(** ** The ideal integrators *)
Definition col_of (s : list R) : col7 := ((V (nth 0 s 0) (nth 1 s 0) (nth 2 s 0), V (nth 3 s 0) (nth 4 s 0) (nth 5 s 0)), nth 6 s 0).
Definition comp7 (p : col7) (i : nat) : R := nth i (list7 p) 0.
(** state and thrust as one vector of ten *)
Definition joined (x : col7) (u : vec) (i : nat) : R := nth i (list7 x ++ [vx u; vy u; vz u]) 0.
Definition z_state (z : nat -> R) : col7 := ((V (z 0%nat) (z 1%nat) (z 2%nat), V (z 3%nat) (z 4%nat) (z 5%nat)), z 6%nat).
Definition z_thrust (z : nat -> R) : vec := V (z 7%nat) (z 8%nat) (z 9%nat).
(** the partial derivative of component i of the field with respect to coordinate k of the ten *)
Definition moved (z : nat -> R) (k : nat) (s : R) : nat -> R := fun j => if Nat.eqb j k then z j + s else z j.
Definition partial (F : vec -> col7 -> col7) (x : col7) (u : vec) (i k : nat) : R :=
  Derive (fun s => let z := moved (joined x u) k s in comp7 (F (z_thrust z) (z_state z)) i) 0.
(** W is the 7 x 10 matrix of sensitivities of the state to initial state and thrust; nothing is asked of the three thrust columns when there is no
    thrust, where the mass flow has no derivative (heyoka differentiates the select of stark.cpp 67 branch by branch and gets 0) *)
Definition variational (F : vec -> col7 -> col7) (u : vec) (h : R) (q : R -> col7) (W : R -> nat -> nat -> R) : Prop :=
  forall t i j, between h t -> (i < 7)%nat -> (j < 10)%nat -> (u = vzero -> (j < 7)%nat) ->
  is_derive (fun x => W x i j) t (sum_n 7 (fun k => partial F (q t) u i k * W t k j) + (if Nat.ltb j 7 then 0 else partial F (q t) u i j)).
Definition tas_exact (tas : list R -> R -> R -> list R -> option (list R)) : Prop :=
  forall mu veff ux uy uz t0 t1 s s', tas [mu; veff; ux; uy; uz] t0 t1 s = Some s' -> length s = 7%nat -> length s' = 7%nat /\
  exists q, arc (stark_dyn mu veff (V ux uy uz)) (t1 - t0) q /\ q 0 = col_of s /\ q (t1 - t0) = col_of s'.
Definition tas_var_exact (tas : list R -> R -> R -> list R -> option (list R)) : Prop :=
  forall mu veff ux uy uz t0 t1 s s', tas [mu; veff; ux; uy; uz] t0 t1 s = Some s' -> length s = 77%nat -> length s' = 77%nat /\
  exists q W, arc (stark_dyn mu veff (V ux uy uz)) (t1 - t0) q /\ variational (stark_dyn mu veff) (V ux uy uz) (t1 - t0) q W /\
  q 0 = col_of s /\ q (t1 - t0) = col_of s' /\
  forall i j, (i < 7)%nat -> (j < 10)%nat -> W 0 i j = nth (7 + 10 * i + j) s 0 /\ W (t1 - t0) i j = nth (7 + 10 * i + j) s' 0.
(** all that is asked of an integrator for the absence of undefined behaviour *)
Definition tas_var_sized (tas : list R -> R -> R -> list R -> option (list R)) : Prop :=
  forall a b c d e t0 t1 s s', tas [a; b; c; d; e] t0 t1 s = Some s' -> length s = 77%nat -> length s' = 77%nat.
Definition tas_sized (tas : list R -> R -> R -> list R -> option (list R)) : Prop :=
  forall a b c d e t0 t1 s s', tas [a; b; c; d; e] t0 t1 s = Some s' -> length s = 7%nat -> length s' = 7%nat.
(** the sensitivities at the beginning of a segment: none to the thrust, the identity to the state *)
Definition vars0 : list R := map (fun k => if Nat.eqb (k / 10) (k mod 10) then 1 else 0) (seq 0 70).

(** what the constructors establish (C26, C31), for sizes that fit the code's unsigned indices *)
Definition proper_hf (l : hg) : Prop :=
  (0 <= g_fwd l /\ 0 <= g_bck l /\ g_fwd l + g_bck l = g_nseg l /\ 0 < g_nseg l /\ 3 * g_nseg l + 1 < 2 ^ 32)%Z /\
  length (g_thr l) = (3 * Z.to_nat (g_nseg l))%nat /\ g_thrusts l = map (fun x => x * g_T l) (g_thr l) /\
  length (g_rvms l) = 7%nat /\ length (g_rvmf l) = 7%nat /\ g_vars l = vars0 /\ g_pmu l = g_mu l /\ g_pveff l = g_isp l * G0 /\ 0 < g_isp l.
Definition thrusting (l : hg) : Prop := g_T l <> 0 /\ forall i, (i < Z.to_nat (g_nseg l))%nat -> thr_vec (g_thr l) i <> vzero.
(** along the curve, a segment that coasts at 0 coasts throughout *)
Definition keeps_coasting (n : nat) (th : R -> list R) : Prop := forall i, (i < n)%nat -> thr_vec (th 0) i = vzero -> forall e, thr_vec (th e) i = vzero.
(** legs that differ in the cut only *)
Definition same_but_cut (l l' : hg) : Prop :=
  g_mu l' = g_mu l /\ g_isp l' = g_isp l /\ g_T l' = g_T l /\ g_nseg l' = g_nseg l /\ g_rvms l' = g_rvms l /\ g_thr l' = g_thr l /\ g_rvmf l' = g_rvmf l /\ g_tof l' = g_tof l.
(** legs with the same number of segments, cut and constants *)
Definition same_leg (l l' : hg) : Prop :=
  g_mu l' = g_mu l /\ g_isp l' = g_isp l /\ g_T l' = g_T l /\ g_nseg l' = g_nseg l /\ g_fwd l' = g_fwd l /\ g_bck l' = g_bck l.
