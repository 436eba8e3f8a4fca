(** * vsop2013 planets: what the type-erased planet makes of them (src/udpla/vsop2013.cpp 145-157, 209-222; include/kep3/planet.hpp 150-215)
    The class has no getters but get_name, no period and no elements (include/kep3/udpla/vsop2013.hpp 38-50). *)
From Coq Require Import ZArith Reals List String.
From Flocq Require Import Core.Core IEEE754.BinarySingleNaN.
From Verif Require Import Outcome Float64 Vec3 TwoBodyModel JplRealModel VsopModel PlanetModel MgaFitModel.
Import ListNotations.
Open Scope outcome_scope.

(** ** in doubles *)
Section Udpla.
Variable fn : Type.
Variable eval : fn -> double -> list double.
Variable text : double -> string.  (* the text of the threshold, fmt *)
(** the methods that the concepts of planet.hpp find in vsop2013 *)
Definition vsop_posvel (p : impl fn) (t : double) : outcome posvel :=
  l <- vsop_eph eval (Some p) t ;;
  let g i := nth i l dzero in Ret ((g 0%nat, g 1%nat, g 2%nat), (g 3%nat, g 4%nat, g 5%nat)).
Definition vsop_udpla (p : impl fn) : udpla :=
  mk_udpla (vsop_posvel p) None None None None None (Some (Ret ("vsop2013 " ++ i_name p ++ ", threshold=" ++ text (i_thresh p))%string)) None None None.
End Udpla.

(** ** over the reals: the series [cart] of heyoka takes thousands of Julian years from J2000 and gives AU and AU per day
    (149-155); [eph] converts to metres and metres per second (209-217) *)
Open Scope R_scope.
Definition vsop_real (cart : R -> state) (t : R) : state :=
  let s := cart ((t - 1 / 2) / 365250) in (vscal r_AU (fst s), vscal (r_AU / 86400) (snd s)).
(** what mga uses of such a planet: get_mu_central_body, get_mu_self and get_safe_radius are the defaults of planet.hpp 153-156 *)
Definition vsop_body (cart : R -> state) : body := mk_body (fun t => Ret (Some (vsop_real cart t))) (-1) (-1) (-1).
