(** * What the picture of a trajectory shows: vocabulary without the code.
    Uses the data of the problems, [mark] from TrajPlotModel.v, [date] and [tour] (MgaFitSpec.v), [sweeps] (PlotSpec.v). *)
From Coq Require Import Reals String List ZArith.
From Verif Require Import Outcome Vec3 TwoBodySpec PlotSpec MgaModel MgaSpec MgaFitModel MgaFitSpec TrajPlotModel.
Import ListNotations.
Open Scope R_scope.

(** a length [units] of space is a length 1 of the picture *)
Definition shown (units : R) (r : vec) : vec := V (vx r / units) (vy r / units) (vz r / units).

(** [N] positions of a planet at equal intervals of time, from mjd2000 0 over [T] seconds *)
Definition orbit_curve (eph : R -> outcome (option state)) (T units : R) (N : Z) (pts : list vec) : Prop :=
  List.length pts = Z.to_nat N /\ forall j, (j < Z.to_nat N)%nat -> exists s, eph (INR j * (T / 86400) / IZR (N - 1)) = Ret (Some s) /\ nth_error pts j = Some (shown units (fst s)).
(** [k] points of the two-body motion from (r0, v0) to (r1, v1), at equal angles, both ends included *)
Definition arc_curve (mu units : R) (r0 v0 r1 v1 : vec) (k : nat) (pts : list vec) : Prop := exists theta t,
  List.length pts = k /\ 0 < t /\ 0 < theta < 2 * PI /\ sweeps mu (r0, v0) theta t (r1, v1) /\
  nth_error pts 0 = Some (shown units r0) /\ nth_error pts (k - 1) = Some (shown units r1) /\
  forall j, (j < k)%nat -> exists tj sj, 0 <= tj <= t /\ sweeps mu (r0, v0) (INR j * theta / INR (k - 1)) tj sj /\ nth_error pts j = Some (shown units (fst sj)).
(** the legs asked for: all of them, or those listed, where negative numbers count from the end *)
Definition asked_legs (n : nat) (ids : list Z) (sel : list nat) : Prop :=
  match ids with [] => sel = seq 0 n | _ => Forall2 (fun k i => (i < n)%nat /\ (k = Z.of_nat i \/ k = (Z.of_nat i - Z.of_nat n)%Z)) ids sel end.
(** the planets, each as a dot where the spacecraft meets it and a curve over one period; the Sun; the legs asked for *)
Definition tour_picture (P : mga) (period_of : body -> R) (pl : nat -> state) (vo vi : nat -> vec) (units : R) (N : Z) (k : nat) (sel : list nat) (pic : list mark) : Prop :=
  exists curves arcs,
    pic = flat_map (fun i => [Point (shown units (fst (pl i))); Path (nth i curves [])]) (seq 0 (S (n_legs P))) ++ [Point vzero] ++ map Path arcs /\
    (forall i, (i <= n_legs P)%nat -> let b := nth i (m_seq P) b0 in orbit_curve (b_eph b) (period_of b) units N (nth i curves [])) /\
    Forall2 (fun i pts => arc_curve (common_mu P) units (fst (pl i)) (vo i) (fst (pl (S i))) (vi i) k pts) sel arcs.
(** the planet has an ephemeris from mjd2000 0 over [T] seconds *)
Definition known_for (eph : R -> outcome (option state)) (T : R) : Prop := 0 <= T /\ forall t, 0 <= t <= T / 86400 -> exists s, eph t = Ret (Some s).
(** the planets whose year, counted from 2000, ends after 2050 *)
Definition outer (n : string) : Prop := n = "uranus"%string \/ n = "neptune"%string.
