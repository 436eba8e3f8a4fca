(** * A planet replaced by its osculating Keplerian planet: pykep/utils/_planet_to_keplerian.py, keplerian.cpp 33-51 and 109-132
    Simplifications: doubles are real numbers, [None] is a NaN; an epoch is a real number of days (its mjd2000, which is what eph
    of the planet and of the Keplerian planet use).  A method of the planet may throw.  ValueError is [InvalidArgument].  The
    planets are compared with -1 exactly. *)
From Coq Require Import Reals String.
From Verif Require Import Outcome PartialReal Vec3 TwoBodyModel KplaModel.
Open Scope R_scope. Open Scope outcome_scope.

(** what is used of a planet *)
Record pla := mk_pla { p_eph : R -> outcome (option state); p_mu : outcome R; p_mu_self : outcome R; p_radius : outcome R; p_safe : outcome R; p_name : outcome string }.
(** udpla::keplerian with the members left out in KplaModel.v *)
Record kfull := mk_kfull { f_core : kpla; f_name : string; f_mu_self : R; f_radius : R; f_safe : R }.
(** keplerian.cpp 33-51; a state that is not a number leaves nothing but NaNs ([en > 0] is false: the flag is "ellipse") *)
Definition full_ctor (ref : R) (pv : option state) (mu : R) (name : string) (added : R * R * R) : kfull :=
  let '(a0, a1, a2) := added in
  mk_kfull (match pv with Some s => ctor_state ref s mu | None => mk_kpla ref mu None true None None end) name a0 a1 a2.
(** the planet holding it: 100-132 *)
Definition planet_of (newton : (R -> R * R) -> R -> R -> R -> option R) (k : kfull) : pla :=
  mk_pla (kpla_eph newton (f_core k)) (Ret (k_mu (f_core k))) (Ret (f_mu_self k)) (Ret (f_radius k)) (Ret (f_safe k)) (Ret (f_name k)).

(** _planet_to_keplerian.py 4-38 *)
Definition planet_to_keplerian (p : pla) (when : R) (mu : option R) : outcome kfull :=
  mu <- match mu with
        | Some m => Ret m
        | None => m <- p_mu p ;; if Req_EM_T m (-1) then (_ <- p_name p ;; Throw InvalidArgument) else Ret m
        end ;;
  posvel <- p_eph p when ;;
  name <- p_name p ;;
  ms <- p_mu_self p ;;
  ra <- p_radius p ;;
  sr <- p_safe p ;;
  Ret (full_ctor when posvel mu (name ++ "(K)")%string (ms, ra, sr)).
