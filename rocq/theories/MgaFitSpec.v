(** * What a multiple gravity assist trajectory costs: vocabulary without the code.
    Uses only the data of a problem ([body], [mga]) from MgaFitModel.v; [reachable] is the set of outgoing velocities of
    unpowered fly-bys (FlybySpec.v), [flow_at] the two-body motion. *)
From Coq Require Import Reals List ZArith.
From Verif Require Import Outcome Vec3 TwoBodySpec MgaModel MgaSpec FlybySpec LambertModel LambertReal LambertSpec LambertVec LambertProofs MgaFitModel.
Import ListNotations.
Open Scope R_scope.

(** the durations [T] (days) of the legs and the launch date encoded by a decision vector *)
Definition durations (e : encoding) (x : list R) (t0 : R) (T : list R) : Prop :=
  match e with
  | Direct => x = t0 :: T
  | Alpha => exists tot al, x = t0 :: tot :: al /\ length al = length T /\ (forall a, In a al -> 0 < a) /\ (total (map ln al) <> 0) /\
      forall i, (i < length T)%nat -> nth i T 0 = tot * ln (nth i al 0) / total (map ln al)
  | Eta tof => exists es, x = t0 :: es /\ length es = length T /\ forall i, (i < length T)%nat -> nth i T 0 = (tof - total (firstn i T)) * nth i es 0
  end.
(** when planet [i] is met *)
Definition date (t0 : R) (T : list R) (i : nat) : R := t0 + total (firstn i T).

(** from [r0] to [r1]: two-body motion in the prograde direction, on an ellipse (less than a revolution) or a hyperbola, [tof]
    seconds up to [tol] *)
Definition transfer (mu tol : R) (r0 r1 : vec) (tof : R) (v0 v1 : vec) : Prop :=
  0 < vz (ang_mom (r0, v0)) /\ energy mu (r0, v0) <> 0 /\ exists t, flow_at mu (r0, v0) t (r1, v1) /\ Rabs (t - tof) <= tol /\ (energy mu (r0, v0) < 0 -> 0 < t < period mu (r0, v0)).

(** the least burn that makes up for what is free *)
Definition least_burn (free : vec -> Prop) (w : vec) (d : R) : Prop :=
  (forall u, free u -> d <= norm (vsub w u)) /\ exists u, free u /\ norm (vsub w u) = d.
(** insertion at the pericentre [rp] of the incoming hyperbola with excess speed [w] into the orbit with pericentre [rp] and
    eccentricity [e]: states before and after the burn *)
Definition incoming (mu rp w : R) (s : state) : Prop := norm (fst s) = rp /\ dot (fst s) (snd s) = 0 /\ energy mu s = w * w / 2.
Definition captured (mu rp e : R) (s : state) : Prop := norm (fst s) = rp /\ ecc mu s = e /\ periapsis mu s = rp.
Definition insertion_burn (mu e rp w d : R) : Prop :=
  (forall r v v', incoming mu rp w (r, v) -> captured mu rp e (r, v') -> d <= norm (vsub v' v)) /\
  exists r v v', incoming mu rp w (r, v) /\ captured mu rp e (r, v') /\ norm (vsub v' v) = d.

(** the cost of the tour that leaves the first planet at [t0] and flies legs of durations [T]: [tol] is the accepted error of the
    duration of a leg *)
Definition tour (tol : vec -> vec -> R) (P : mga) (t0 : R) (T : list R) (pl : nat -> state) (vo vi : nat -> vec) : Prop :=
  (forall i, (i <= n_legs P)%nat -> b_eph (nth i (m_seq P) b0) (date t0 T i) = Ret (Some (pl i))) /\
  (forall i, (i < n_legs P)%nat -> transfer (common_mu P) (tol (fst (pl i)) (fst (pl (S i)))) (fst (pl i)) (fst (pl (S i))) (nth i T 0 * 86400) (vo i) (vi i)).
Definition arrival_cost (P : mga) (w : vec) (d : R) : Prop :=
  match m_ins P with None => d = norm w | Some (e, rp) => insertion_burn (b_mu (nth (n_legs P) (m_seq P) b0)) e rp (norm w) d end.
Definition tour_cost (P : mga) (pl : nat -> state) (vo vi : nat -> vec) (dv : R) : Prop := exists dl da df,
  least_burn (fun u => norm u <= m_vinf P) (vsub (vo 0%nat) (snd (pl 0%nat))) dl /\
  (forall i, (S i < n_legs P)%nat -> let b := nth (S i) (m_seq P) b0 in
     least_burn (reachable (b_mu b) (b_safe b) (vsub (vi i) (snd (pl (S i))))) (vsub (vo (S i)) (snd (pl (S i)))) (nth i df 0)) /\
  length df = (n_legs P - 1)%nat /\
  arrival_cost P (vsub (vi (n_legs P - 1)%nat) (snd (pl (n_legs P)))) da /\
  dv = dl + total df + da.
(** problems with sensible planets and bounds *)
Definition mga_ok (P : mga) : Prop := (2 <= length (m_seq P))%nat /\ 0 <= m_vinf P /\
  (forall i, (0 < i < n_legs P)%nat -> 0 < b_mu (nth i (m_seq P) b0) /\ 0 <= b_safe (nth i (m_seq P) b0)) /\
  match m_tofs P with TDirect l => length l = n_legs P | _ => True end /\
  match m_ins P with None => True | Some (e, rp) => 0 < b_mu (nth (n_legs P) (m_seq P) b0) /\ 0 < rp /\ 0 <= e end.
(** the iteration of the Lambert solver ended with an ellipse or a hyperbola whose transfer lasts [tof] up to [d] seconds; [tau] is the time
    of flight as a function of the variable x of the solver (LambertSpec.v) *)
Definition converged (d : R) (r0 r1 : vec) (tof mu : R) : Prop := forall L x, lambert_r r0 r1 tof mu false 0 = Ret L -> nth_error (l_x L) 0 = Some (Some x) ->
  -1 < x /\ x <> 1 /\ Rabs (tau (transfer_lambda r0 r1 false) 0 x * time_unit r0 r1 mu - tof) <= d.
Definition all_within (d : R) (P : mga) (t0 : R) (T : list R) : Prop := forall i a b, (i < n_legs P)%nat ->
  b_eph (nth i (m_seq P) b0) (date t0 T i) = Ret (Some a) -> b_eph (nth (S i) (m_seq P) b0) (date t0 T (S i)) = Ret (Some b) ->
  converged d (fst a) (fst b) (nth i T 0 * 86400) (common_mu P).
(** the two positions span a vertical plane; a leg between regular positions whose number of revolutions fits 32 bits *)
Definition vertical (a b : vec) : Prop := vz (cross a b) = 0 /\ cross a b <> vzero.
Definition leg_ok (mu : R) (a b : vec) (t : R) : Prop := a <> vzero /\ b <> vzero /\ 0 < t /\ t * 86400 / time_unit a b mu / PI < IZR u32.
