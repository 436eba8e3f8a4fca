(** * What pykep.plot.add_solar_system draws: pykep/plot/_planet.py 94-184, pykep/plot/__init__.py 23-37
    Simplifications: doubles are real numbers; [when] is a real number of days (the mjd2000 of the epoch, which is what eph uses);
    a NaN position stops the drawing with [DomainError] (matplotlib would leave a gap).  What is drawn on the axes is the list of
    the calls of scatter and plot, in order.  IndexError is [OutOfRange], NameError is [RuntimeError], which nothing else here throws. *)
From Coq Require Import Reals List String Bool ZArith.
From Verif Require Import Outcome PartialReal Vec3 KplaModel P2kModel JplRealModel PlotModel GymModel.
From Verif Require JplModel.
Import ListNotations.
Open Scope R_scope.
Open Scope outcome_scope.
Open Scope string_scope.

(** one call of ax.scatter (a dot with its size, colour and label) or of ax.plot (a line; its label is "") *)
Inductive item := Dot (r : vec) (size : R) (colour label : string) | Line (pts : list vec) (colour : string).

(** jpl_lp.cpp 178-201: a jpl_lp planet as the other functions use it; the name is set at 60 and 124 *)
Definition jr_planet (newton : (R -> R * R) -> R -> R -> R -> option R) (name : string) (j : jplr) : pla :=
  mk_pla (jr_eph newton j) (Ret (jr_mu j)) (Ret (jr_self j)) (Ret (jr_radius j)) (Ret (jr_safe j)) (Ret (JplModel.lower name ++ " - jpl_lp")).
(** the Keplerian planet as add_planet and add_planet_orbit use it (keplerian.cpp 100-137); eph_v is the default, one call of eph per date *)
Definition number {A} (o : option A) : outcome A := match o with Some x => Ret x | None => Throw DomainError end.
Fixpoint eph_all (eph : R -> outcome state) (l : list R) : outcome (list state) :=
  match l with [] => Ret [] | t :: r => s <- eph t ;; m <- eph_all eph r ;; Ret (s :: m) end.
Definition plotted (newton : (R -> R * R) -> R -> R -> R -> option R) (k : kfull) : ppla :=
  let eph t := o <- kpla_eph newton (f_core k) t ;; number o in
  mk_ppla eph (eph_all eph) (number (kpla_period (f_core k) 0)).

(** __init__.py 23-37 *)
Definition add_sun (size : R) : item := Dot vzero size "y" "Sun".

(** _planet.py 114-182: the eight blocks differ only in the following; [b_date] is the name written after [when=] in the call of add_planet *)
Record block := mk_block { b_id : Z; b_body : string; b_range : option (R * R); b_date : string; b_size : Z; b_colour : string; b_label : string }.
Definition blocks : list block :=
  [mk_block 1 "Mercury" None "when" 1 "tomato" "Mercury";
   mk_block 2 "Venus" None "when" 2 "forestgreen" "Venus";
   mk_block 3 "Earth" None "when" 3 "royalblue" "Earth";
   mk_block 4 "Mars" None "when" 4 "indianred" "Mars";
   mk_block 5 "Jupiter" None "when" 5 "tan" "Jupiter";
   mk_block 6 "Saturn" None "when" 6 "darkcyan" "Saturn";
   mk_block 7 "uranus" (Some (-40000, -40000 + 848 / 10 * (36525 / 100))) "when" 7 "slateblue" "Uranus";
   mk_block 8 "neptune" (Some (-40000, -40000 + 1648 / 10 * (36525 / 100))) "ep" 7 "orchid" "Neptune"].
(** the names defined in the module (1-2 and the three functions) *)
Definition plot_globals : list string := ["_pk"; "_np"; "add_planet"; "add_planet_orbit"; "add_solar_system"].

Section Draw.
Variable newton : (R -> R * R) -> R -> R -> R -> option R.
(** global names of the module and builtins, as far as they can stand for a date *)
Variables (builtins : string -> option R) (globals : list (string * R)).
(** the local variable [when], otherwise the global of that name, otherwise a NameError *)
Definition date_of (when : R) (n : string) : outcome R :=
  if String.eqb n "when" then Ret when else match lookup builtins globals n with Some t => Ret t | None => Throw RuntimeError end.
(** one block: 115-119 and its copies; units and N have their defaults AU and 60 (43-44) *)
Definition draw (when : R) (s : list R) (b : block) : outcome (list item) :=
  j <- jr_ctor (b_body b) ;;
  k <- planet_to_keplerian (jr_planet newton (b_body b) j) when None ;;
  c <- add_planet_orbit (plotted newton k) (b_range b) r_AU 60 ;;
  pts <- number c ;;
  t <- date_of when (b_date b) ;;
  size <- py_nth s (b_size b) ;;
  r <- add_planet (plotted newton k) t r_AU ;;
  Ret [Line pts (b_colour b); Dot r size (b_colour b) (b_label b)].
Fixpoint draw_all (bodies : list Z) (when : R) (s : list R) (l : list block) : outcome (list item) :=
  match l with
  | [] => Ret []
  | b :: r =>
      if existsb (Z.eqb (b_id b)) bodies
      then a <- draw when s b ;; m <- draw_all bodies when s r ;; Ret (a ++ m)%list
      else draw_all bodies when s r
  end.
(** 94-184 *)
Definition add_solar_system (bodies : list Z) (when : R) (s : list R) : outcome (list item) :=
  s0 <- py_nth s 0 ;; m <- draw_all bodies when s blocks ;; Ret (add_sun s0 :: m).
End Draw.
(** 95: the defaults *)
Definition default_bodies : list Z := [1; 2; 3; 4; 5; 6]%Z.
Definition default_sizes : list R := [15; 2; 3; 3; 2; 8; 8; 5; 5].
