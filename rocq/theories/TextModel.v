(** * Text output: src/leg/sims_flanagan.cpp 532-549, src/leg/sims_flanagan_hf.cpp 839-856, src/lambert_problem.cpp 392-432, src/planet.cpp 98-112,
    src/udpla/keplerian.cpp 169-193, src/udpla/jpl_lp.cpp 204-226, src/stark_problem.cpp 127-134.  Definitions only.
    The formatting of numbers by fmt and by iostreams is a parameter; fmt's layout of arrays and vectors of numbers, "[a, b, c]", is written out.
    A text is a list of lines, each a fixed label and what follows it. *)
From Coq Require Import ZArith List String Ascii Bool.
From Verif Require Import Outcome.
Import ListNotations.
Open Scope string_scope.

Definition nl : string := String "010"%char EmptyString.
Definition line : Type := (string * string)%type.
Fixpoint render (l : list line) : string := match l with [] => "" | (a, b) :: r => a ++ b ++ nl ++ render r end.
Fixpoint commas (l : list string) : string := match l with [] => "" | [a] => a | a :: r => a ++ ", " ++ commas r end.

Section Show.
Context {D : Type}.
Variable show : D -> string.        (* "{}" of a double *)
Variable show_n : Z -> string.      (* "{}" of an unsigned *)
Definition show_list (l : list D) : string := "[" ++ commas (map show l) ++ "]".
(** std::array<std::array<double, 3>, 2>; the model of a leg has the six numbers in one list *)
Definition show_rv (l : list D) : string := "[" ++ show_list (firstn 3 l) ++ ", " ++ show_list (skipn 3 l) ++ "]".

(** sims_flanagan.cpp 532-549, from the values the getters return *)
Definition sf_lines (n nf nb : Z) (T mu isp tof ms mf : D) (rvs rvf thr mism tc : list D) : list line :=
  [("Number of segments: ", show_n n); ("Number of fwd segments: ", show_n nf); ("Number of bck segments: ", show_n nb); ("Maximum thrust: ", show T);
   ("Central body gravitational parameter: ", show mu); ("Specific impulse: ", show isp); ("", ""); ("Time of flight: ", show tof); ("Initial mass: ", show ms);
   ("Final mass: ", show mf); ("State at departure: ", show_rv rvs); ("State at arrival: ", show_rv rvf); ("Throttles values: ", show_list thr); ("", "");
   ("Mismatch constraints: ", show_list mism); ("Throttle constraints: ", show_list tc); ("", "")].
(** sims_flanagan_hf.cpp 839-856: the mismatch is commented out (853) *)
Definition hf_lines (n nf nb : Z) (T mu isp tof ms mf : D) (rvs rvf thr tc : list D) : list line :=
  [("Number of segments: ", show_n n); ("Number of fwd segments: ", show_n nf); ("Number of bck segments: ", show_n nb); ("Maximum thrust: ", show T);
   ("Central body gravitational parameter: ", show mu); ("Specific impulse: ", show isp); ("", ""); ("Time of flight: ", show tof); ("Initial mass: ", show ms);
   ("Final mass: ", show mf); ("State at departure: ", show_rv rvs); ("State at arrival: ", show_rv rvf); ("Throttles values: ", show_list thr); ("", "");
   ("Throttle constraints: ", show_list tc); ("", "")].
(** stark_problem.cpp 127-134 *)
Definition stark_lines (mu veff tol : D) : list line :=
  [("Stark Problem:", ""); ("	mu central body: ", show mu); ("	propulsion veff (Isp g0): ", show veff); ("	tolerance requested: ", show tol)].

(** planet.cpp 98-112; [cls] is the demangled name of the class *)
Definition planet_text (name cls : string) (mu mu_self radius safe : D) (extra : string) : string :=
  "Planet name: " ++ name ++ nl ++ "C++ class name: " ++ cls ++ nl ++ nl ++ "mu central body (-1 if not defined): " ++ show mu ++ nl ++
  "mu body (-1 if not defined): " ++ show mu_self ++ nl ++ "radius body (-1 if not defined): " ++ show radius ++ nl ++ "safe body radius (-1 if not defined): " ++ show safe ++ nl ++
  (if String.eqb extra "" then "" else nl ++ "Extra info:" ++ nl ++ extra).

(** lambert_problem.cpp 392-432.  The reads of the vectors are unchecked; [a_of x] is s / 2 / (1 - x x), [ndt] the scaled time of flight *)
Definition at_ {A} (l : list A) (i : Z) : outcome A := match nth_error l (Z.to_nat i) with Some x => Ret x | None => UB end.
Definition show_v (v : D * D * D) : string := let '(a, b, c) := v in "[" ++ show a ++ ", " ++ show b ++ ", " ++ show c ++ "]".
Section Lambert.
Variable a_of : D -> D.
Variables (v0 v1 : list (D * D * D)) (x : list D) (iters : list Z).
Open Scope outcome_scope.
(** 410-412, 417-419, 424-426: the two lines of an entry; [lab] is the label in front of x *)
Definition entry (head lab : string) (i : Z) : outcome (list line) :=
  it <- at_ iters i ;; xi <- at_ x i ;; p <- at_ v0 i ;; q <- at_ v1 i ;;
  Ret [(head, show_n it ++ lab ++ show xi ++ ", a: " ++ show (a_of xi)); ("	v1 = ", show_v p ++ " v2 = " ++ show_v q)].
(** 415-429: [n] turns from [i] on; the right branch has the label of 424 *)
Fixpoint entries (n : nat) (i : Z) : outcome (list line) :=
  match n with
  | O => Ret []
  | S n' =>
      l <- entry (show_n (i + 1) ++ " revs,  left. Iters: ") ", x: " (1 + 2 * i) ;;
      r <- entry (show_n (i + 1) ++ " revs, right. Iters: ") ", a: " (2 + 2 * i) ;;
      t <- entries n' (i + 1) ;;
      Ret (l ++ r ++ t)%list
  end.
Definition lambert_lines (mu tof c s lambda ndt : D) (r0 r1 : D * D * D) (nmax : Z) : outcome (list line) :=
  h <- entry "0 revs, Iters: " ", x: " 0 ;;
  t <- entries (Z.to_nat nmax) 0 ;;
  Ret ([("Lambert's problem:", ""); ("mu = ", show mu); ("r1 = ", show_v r0); ("r2 = ", show_v r1); ("Time of flight: ", show tof); ("", "");
        ("chord = ", show c); ("semiperimeter = ", show s); ("lambda = ", show lambda); ("non dimensional time of flight = ", show ndt); ("", "");
        ("Maximum number of revolutions: ", show_n nmax); ("Solutions: ", "")] ++ h ++ t)%list.
End Lambert.
End Show.
