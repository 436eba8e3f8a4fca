(** * Printed reports: vocabulary, and what the report of a tour should say *)
From Coq Require Import Reals List String.
From Verif Require Import Outcome Vec3 TwoBodySpec SfModel FlybySpec MgaModel MgaFitModel MgaSpec MgaFitSpec.
Import ListNotations.
Open Scope R_scope.

(** what one call of print is given; the layout of numbers is not part of the model; [None] is nan *)
Inductive item := Txt (s : string) | Num (x : option R) | Vct (v : option vec) | Lst (l : list R) | Names (l : list string) | Flag (b : bool) | LegText (l : sf).
Definition line := list item.
Local Notation T_ s := (Txt s%string).
(** the report of a tour with planets called [name], in states [pl] at the dates of the tour, departure and arrival velocities [vo], [vi] of the legs, and burns
    [dl] at launch, [df] at the fly-bys and [da] at arrival *)
Definition tour_report (name : nat -> string) (enc : string) (P : mga) (t0 : R) (T : list R) (pl : nat -> state) (vo vi : nat -> vec) (dl : R) (df : list R) (da : R) : list line :=
  let n := n_legs P in
  [ [T_ "Multiple Gravity Assist (MGA) problem: "];
    [T_ "Planet sequence: "; Names (map name (seq 0 (S n)))];
    [T_ "Encoding for tofs: "; Txt enc];
    [T_ "Orbit Insertion: "; Flag (match m_ins P with None => false | Some _ => true end)];
    [T_ "Departure: "; Txt (name 0%nat)];
    [T_ "Epoch: "; Num (Some t0); T_ " [mjd2000]"];
    [T_ "Spacecraft velocity: "; Vct (Some (vo 0%nat)); T_ "[m/s]"];
    [T_ "Hyperbolic velocity: "; Num (Some (norm (vsub (vo 0%nat) (snd (pl 0%nat))))); T_ "[m/s]"];
    [T_ "Initial DV: "; Num (Some dl); T_ "[m/s]"] ] ++
  flat_map (fun i => [ [T_ "Fly-by: "; Txt (name (S i))]; [T_ "Epoch: "; Num (Some (date t0 T (S i))); T_ " [mjd2000]"]; [T_ "DV: "; Num (Some (nth i df 0)); T_ "[m/s]"] ]) (seq 0 (n - 1)) ++
  [ [T_ "Arrival: "; Txt (name n)];
    [T_ "Epoch: "; Num (Some (date t0 T n)); T_ " [mjd2000]"];
    [T_ "Spacecraft velocity: "; Vct (Some (vi (n - 1)%nat)); T_ "[m/s]"];
    [T_ "Arrival DV: "; Num (Some da); T_ "[m/s]"];
    [T_ "Time of flights: "; Lst T; T_ "[days]"];
    [T_ "Total DV: "; Num (Some (dl + total df + da))] ].
(** the burns of a tour: what is beyond the free velocity at launch, the least burn at each fly-by, the arrival *)
Definition tour_burns (P : mga) (pl : nat -> state) (vo vi : nat -> vec) (dl : R) (df : list R) (da : R) : Prop :=
  least_burn (fun u => norm u <= m_vinf P) (vsub (vo 0%nat) (snd (pl 0%nat))) dl /\
  List.length df = (n_legs P - 1)%nat /\
  (forall i, (S i < n_legs P)%nat -> let b := nth (S i) (m_seq P) b0 in
     least_burn (reachable (b_mu b) (b_safe b) (vsub (vi i) (snd (pl (S i))))) (vsub (vo (S i)) (snd (pl (S i)))) (nth i df 0)) /\
  arrival_cost P (vsub (vi (n_legs P - 1)%nat) (snd (pl (n_legs P)))) da.
(** the report of a low-thrust transfer from a planet in state [s] at [t0] to one in state [f] at [t0 + t] along the leg [l]; [e0] and [e1] are the texts of the two dates *)
Definition transfer_report (ns nf e0 e1 : string) (t0 t : R) (s f : state) (l : sf) : list line :=
  let dep := vsub (snd (s_rvs l)) (snd s) in let arr := vsub (snd (s_rvf l)) (snd f) in
  let km v := Lst [vx v / 1000; vy v / 1000; vz v / 1000] in
  [ [T_ "Low-thrust NEP transfer"];
    [T_ "Departure: "; Txt ns; T_ "Arrival: "; Txt nf];
    [T_ "Launch epoch: "; Num (Some t0); T_ " MJD2000, a.k.a. "; Txt e0];
    [T_ "Arrival epoch: "; Num (Some (t0 + t)); T_ " MJD2000, a.k.a. "; Txt e1];
    [T_ "Time of flight (days): "; Num (Some t)];
    [T_ "Launch DV (km/s) "; Num (Some (norm dep / 1000)); km dep];
    [T_ "Arrival DV (km/s) "; Num (Some (norm arr / 1000)); km arr];
    [T_ "Final mass (kg): "; Num (Some (s_mf l))];
    [T_ "Details on the low-thrust leg: "];
    [LegText l] ].
