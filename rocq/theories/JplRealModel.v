(** * udpla::jpl_lp over the real numbers, src/udpla/jpl_lp.cpp 33-176
    JplModel.v has the same functions in doubles, bit by bit, with the conversions as oracles; here doubles are real numbers and
    the conversions are the modelled ones (KepModel.v, ElemModel.v).  [None] is a NaN.  Dates are days since 2000-01-01. *)
From Coq Require Import ZArith Reals List String.
From Verif Require Import Outcome PartialReal Vec3 KepModel ElemModel KplaModel.
From Verif Require JplModel.
Import ListNotations.
Open Scope R_scope.
Open Scope outcome_scope.
Open Scope string_scope.

(** 33-48: the literals of the tables, in units of 1e-8 (generated from the source text) *)
Definition mercury_r : list Z := [38709927; 20563593; 700497902; 25225032350; 7745779628; 4833076593]%Z.
Definition mercury_r_dot : list Z := [37; 1906; -594749; 14947267411175; 16047689; -12534081]%Z.
Definition venus_r : list Z := [72333566; 677672; 339467605; 18197909950; 13160246718; 7667984255]%Z.
Definition venus_r_dot : list Z := [390; -4107; -78890; 5851781538729; 268329; -27769418]%Z.
Definition earth_moon_r : list Z := [100000261; 1671123; -1531; 10046457166; 10293768193; 0]%Z.
Definition earth_moon_r_dot : list Z := [562; -4392; -1294668; 3599937244981; 32327364; 0]%Z.
Definition mars_r : list Z := [152371034; 9339410; 184969142; -455343205; -2394362959; 4955953891]%Z.
Definition mars_r_dot : list Z := [1847; 7882; -813131; 1914030268499; 44441088; -29257343]%Z.
Definition jupiter_r : list Z := [520288700; 4838624; 130439695; 3439644051; 1472847983; 10047390909]%Z.
Definition jupiter_r_dot : list Z := [-11607; -13253; -183714; 303474612775; 21252668; 20469106]%Z.
Definition saturn_r : list Z := [953667594; 5386179; 248599187; 4995424423; 9259887831; 11366242448]%Z.
Definition saturn_r_dot : list Z := [-125060; -50991; 193609; 122249362201; -41897216; -28867794]%Z.
Definition uranus_r : list Z := [1918916464; 4725744; 77263783; 31323810451; 17095427630; 7401692503]%Z.
Definition uranus_r_dot : list Z := [-196176; -4397; -242939; 42848202785; 40805281; 4240589]%Z.
Definition neptune_r : list Z := [3006992276; 859048; 177004347; -5512002969; 4496476227; 13178422574]%Z.
Definition neptune_r_dot : list Z := [26291; 5105; 35372; 21845945325; -32241464; -508664]%Z.

Record jplr := mk_jr { jr_el : list R; jr_dot : list R; jr_mu : R; jr_self : R; jr_radius : R; jr_safe : R }.
Definition dec (l : list Z) : list R := map (fun n => IZR n / 10 ^ 8) l.
(** constants.hpp: MU_SUN, AU, DEG2RAD *)
Definition r_MU_SUN : R := 132712440041279419000.
Definition r_AU : R := 149597870700.
Definition r_DEG2RAD : R := PI / 180.
(** 61-123: the switch *)
Definition row_of (i : Z) : option jplr :=
  let mk el rate radius k self := Some (mk_jr (dec el) (dec rate) r_MU_SUN self radius (k * radius)) in
  match i with
  | 1%Z => mk mercury_r mercury_r_dot 2440000 (11 / 10) 22032000000000
  | 2%Z => mk venus_r venus_r_dot 6052000 (11 / 10) 324859000000000
  | 3%Z => mk earth_moon_r earth_moon_r_dot 6378000 (11 / 10) 398600441800000
  | 4%Z => mk mars_r mars_r_dot 3397000 (11 / 10) 42828000000000
  | 5%Z => mk jupiter_r jupiter_r_dot 71492000 9 126686534000000000
  | 6%Z => mk saturn_r saturn_r_dot 60330000 (11 / 10) 37931187000000000
  | 7%Z => mk uranus_r uranus_r_dot 25362000 (11 / 10) 5793939000000000
  | 8%Z => mk neptune_r neptune_r_dot 24622000 (11 / 10) 6836529000000000
  | _ => None
  end.
(** 56-125; to_lower and the map of names are those of JplModel.v *)
Definition jr_ctor (name : string) : outcome jplr :=
  i <- JplModel.map_at JplModel.mapped_planets (JplModel.lower name) ;;
  match row_of i with Some j => Ret j | None => Throw LogicError end.

Section Newton.
Variable newton : (R -> R * R) -> R -> R -> R -> option R.
(** 136-139 *)
Definition updated (j : jplr) (mjd2000 : R) (i : nat) : R := nth i (jr_el j) 0 + nth i (jr_dot j) 0 * ((mjd2000 - 1 / 2) / 36525).
(** 128-149 *)
Definition jr_f_elements (j : jplr) (mjd2000 : R) : outcome (option elem) :=
  if Rle_dec mjd2000 (-73048) then Throw DomainError else
  if Rle_dec 18263 mjd2000 then Throw DomainError else
  let up := updated j mjd2000 in
  f <- m2f newton ((up 3%nat - up 4%nat) * r_DEG2RAD) (up 1%nat) ;;
  Ret (obind f (fun f => Some (El (up 0%nat * r_AU) (up 1%nat) (up 2%nat * r_DEG2RAD) (up 5%nat * r_DEG2RAD) ((up 4%nat - up 5%nat) * r_DEG2RAD) f))).
(** 151-155 *)
Definition jr_eph (j : jplr) (mjd2000 : R) : outcome (option state) :=
  el <- jr_f_elements j mjd2000 ;; match el with Some el => par2ic el (jr_mu j) | None => Ret None end.
(** 157-176; the six numbers of equinoctial elements are read as an [elem] (KplaModel.v) *)
Definition jr_elements (j : jplr) (mjd2000 : R) (t : etype) : outcome (option elem) :=
  el <- jr_f_elements j mjd2000 ;;
  match t with
  | JplModel.KEP_F => Ret el
  | JplModel.KEP_M => Ret (obind el (fun el => obind (f2m (el_f el) (el_e el)) (fun m => Some (El (el_a el) (el_e el) (el_i el) (el_W el) (el_w el) m))))
  | JplModel.MEQ => Ret (obind el (fun el => obind (par2eq el false) (fun q => Some (as_el q))))
  | JplModel.MEQ_R => Ret (obind el (fun el => obind (par2eq el true) (fun q => Some (as_el q))))
  | JplModel.POSVEL => Throw LogicError
  end.
End Newton.
