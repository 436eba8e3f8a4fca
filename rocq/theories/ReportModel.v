(** * pretty: the printed reports of the trajectory problems (pykep/trajopt/_mga.py 427-460, _direct_pl2pl.py 255-281, _direct_point2point.py 185-193)
    Simplifications: a report is the list of the calls of print, each the list of its arguments; tabs and blank lines are left out, numbers are
    real numbers and are not formatted (print of a float; .5f and .8f in _direct_pl2pl.py), and the text of a leg is the leg (its text is that of C64). *)
From Coq Require Import Reals List String.
From Verif Require Import Outcome PartialReal Vec3 TwoBodySpec TwoBodyModel SfModel KplaModel DirectModel MgaModel MgaFitModel ReportSpec.
Import ListNotations.
Open Scope R_scope.
Open Scope outcome_scope.

Local Notation T_ s := (Txt s%string).
Fixpoint zip3 {A B C} (a : list A) (b : list B) (c : list C) : list (A * B * C) :=
  match a, b, c with x :: a', y :: b', z :: c' => (x, y, z) :: zip3 a' b' c' | _, _, _ => [] end.
(** l[1:-1] *)
Definition inner {A} (l : list A) : list A := removelast (tl l).
(** _mga.py 427-460; [name i] is self.seq[i].get_name(), [enc] the string kept in self.tof_encoding *)
Definition mga_pretty (name : nat -> string) (enc : string) (P : mga) (x : list R) : outcome (list line) :=
  d <- compute_dvs P x ;;
  let names := map name (seq 0 (List.length (m_seq P))) in
  match d_legs d, d_ep d with
  | l0 :: _, e0 :: _ =>
      Ret ([ [T_ "Multiple Gravity Assist (MGA) problem: "];
             [T_ "Planet sequence: "; Names names];
             [T_ "Encoding for tofs: "; Txt enc];
             [T_ "Orbit Insertion: "; Flag (match m_ins P with None => false | Some _ => true end)];
             [T_ "Departure: "; Txt (hd EmptyString names)];
             [T_ "Epoch: "; Num (Some e0); T_ " [mjd2000]"];
             [T_ "Spacecraft velocity: "; Vct (g_v0 l0); T_ "[m/s]"];
             [T_ "Hyperbolic velocity: "; Num (d_tot d); T_ "[m/s]"];
             [T_ "Initial DV: "; Num (d_launch d); T_ "[m/s]"] ] ++
           flat_map (fun z => let '(n, e, dv) := z in [ [T_ "Fly-by: "; Txt n]; [T_ "Epoch: "; Num (Some e); T_ " [mjd2000]"]; [T_ "DV: "; Num dv; T_ "[m/s]"] ]) (zip3 (inner names) (inner (d_ep d)) (d_fb d)) ++
           [ [T_ "Arrival: "; Txt (last names EmptyString)];
             [T_ "Epoch: "; Num (Some (last (d_ep d) e0)); T_ " [mjd2000]"];
             [T_ "Spacecraft velocity: "; Vct (g_v1 (last (d_legs d) l0)); T_ "[m/s]"];
             [T_ "Arrival DV: "; Num (d_arrival d); T_ "[m/s]"];
             [T_ "Time of flights: "; Lst (d_T d); T_ "[days]"];
             [T_ "Total DV: "; Num (oadd (oadd (d_launch d) (fold_left oadd (d_fb d) (Some 0))) (d_arrival d))] ])
  | _, _ => Throw OutOfRange
  end.

(** _direct_point2point.py 185-193 *)
Definition p2p_pretty (P : p2p) (x : list R) : outcome (list line) := l <- p2p_leg P x ;; Ret [[LegText l]].
(** _direct_pl2pl.py 255-281; [ep] is the text of pk.epoch (C01, C64), which can throw; [None] if an ephemeris is not a number, where the leg is not modelled *)
Definition pl2pl_pretty (ep : R -> outcome string) (ns nf : string) (P : pl2pl) (x : list R) : outcome (option (list line)) :=
  o <- pl2pl_leg P x ;;
  match o with
  | None => Ret None
  | Some (l, _, _) =>
      x0 <- py_get x 0 ;; e0 <- ep x0 ;; t <- py_last x ;; e1 <- ep (x0 + t) ;;
      x2 <- py_get x 2 ;; x3 <- py_get x 3 ;; x4 <- py_get x 4 ;; x5 <- py_get x 5 ;; x6 <- py_get x 6 ;; x7 <- py_get x 7 ;; x1 <- py_get x 1 ;;
      Ret (Some [ [T_ "Low-thrust NEP transfer"];
        [T_ "Departure: "; Txt ns; T_ "Arrival: "; Txt nf];
        [T_ "Launch epoch: "; Num (Some x0); T_ " MJD2000, a.k.a. "; Txt e0];
        [T_ "Arrival epoch: "; Num (Some (x0 + t)); T_ " MJD2000, a.k.a. "; Txt e1];
        [T_ "Time of flight (days): "; Num (Some t)];
        [T_ "Launch DV (km/s) "; Num (Some (sqrt (x2 * x2 + x3 * x3 + x4 * x4) / 1000)); Lst [x2 / 1000; x3 / 1000; x4 / 1000]];
        [T_ "Arrival DV (km/s) "; Num (Some (sqrt (x5 * x5 + x6 * x6 + x7 * x7) / 1000)); Lst [x5 / 1000; x6 / 1000; x7 / 1000]];
        [T_ "Final mass (kg): "; Num (Some x1)];
        [T_ "Details on the low-thrust leg: "];
        [LegText l] ])
  end.
