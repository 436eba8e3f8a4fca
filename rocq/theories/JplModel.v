(** * udpla::jpl_lp, src/udpla/jpl_lp.cpp 33-176 (double arithmetic bit-exact; libm and conversion routines are oracles)
    The decimal literals of the tables are the nearest doubles, given as m*2^e (generated from the source text). *)
From Coq Require Import ZArith List Bool String Ascii.
From Flocq Require Import Core.Core IEEE754.BinarySingleNaN.
From Verif Require Import Outcome Float64.
Import ListNotations.
Open Scope Z_scope.
Open Scope outcome_scope.
Open Scope string_scope.

Notation D := d_of_dyadic.

(** unary minus *)
Definition dneg (x : double) : double := Bopp x.
Definition guard (b : bool) (e : exn) : outcome unit := if b then Throw e else Ret tt.

(** 33-48 *)
(* {0.38709927, 0.20563593, 7.00497902, 252.25032350, 77.45779628, 48.33076593} *)
Definition mercury_el : list double := [D (1743340128127391) (-52); D (7408815181775883) (-55); D (985863153256567) (-47); D (8875269241552243) (-45); D (2725303925496467) (-45); D (3400975303638729) (-46)].
(* {0.00000037, 0.00001906, -0.00594749, 149472.67411175, 0.16047689, -0.12534081} *)
Definition mercury_el_dot : list double := [D (6989102394647075) (-74); D (5625519072718465) (-68); D (-107140454991159) (-54); D (5135841975645057) (-35); D (5781789296044609) (-55); D (-4515878601682529) (-55)].
(* {0.72333566, 0.00677672, 3.39467605, 181.97909950, 131.60246718, 76.67984255} *)
Definition venus_el : list double := [D (203600888052487) (-48); D (488314138668707) (-56); D (3822065448455887) (-50); D (6402820349198581) (-45); D (4630350173069421) (-45); D (5395864223984505) (-46)].
(* {0.00000390, -0.00004107, -0.00078890, 58517.81538729, 0.00268329, -0.27769418} *)
Definition venus_el_dot : list double := [D (287769207549869) (-66); D (-3030431116429005) (-66); D (-7276318199874733) (-63); D (2010656826574209) (-35); D (6187245488193013) (-61); D (-2501246811141911) (-53)].
(* {1.00000261, 0.01671123, -0.00001531, 100.46457166, 102.93768193, 0.0} *)
Definition earth_moon_el : list double := [D (4503611381765523) (-52); D (2408342054428885) (-57); D (-1129678607073973) (-66); D (7069565742061133) (-46); D (1810898851493479) (-44); dzero].
(* {0.00000562, -0.00004392, -0.01294668, 35999.37244981, 0.32327364, 0.0} *)
Definition earth_moon_el_dot : list double := [D (1658731227107963) (-68); D (-1620361999434647) (-65); D (-7463252892631687) (-59); D (4947716075150635) (-37); D (5823580178570815) (-54); dzero].
(* {1.52371034, 0.09339410, 1.84969142, -4.55343205, -23.94362959, 49.55953891} *)
Definition mars_el : list double := [D (1715545329861143) (-50); D (6729754143337645) (-56); D (2082567397465601) (-50); D (-2563354360454609) (-49); D (-52652598290733) (-41); D (3487442515120775) (-46)].
(* {0.00001847, 0.00007882, -0.00813131, 19140.30268499, 0.44441088, -0.29257343} *)
Definition mars_el_dot : list double := [D (5451381808662647) (-68); D (5815889471559147) (-66); D (-2343690539906175) (-58); D (5261246340324675) (-38); D (8005794694269577) (-54); D (-329408397581627) (-50)].
(* {5.20288700, 0.04838624, 1.30439695, 34.39644051, 14.72847983, 100.47390909} *)
Definition jupiter_el : list double := [D (5857929988612699) (-50); D (1743298019470875) (-55); D (1468620404490803) (-50); D (4840868645740857) (-47); D (8291397034265233) (-49); D (441888925330255) (-42)].
(* {-0.00011607, -0.00013253, -0.00183714, 3034.74612775, 0.21252668, 0.20469106} *)
Definition jupiter_el_dot : list double := [D (-8564454338541871) (-66); D (-2444746992088727) (-64); D (-8472312851893691) (-62); D (6673477309618631) (-41); D (7657080614834309) (-55); D (7374772652336575) (-55)].
(* {9.53667594, 0.05386179, 2.48599187, 49.95424423, 92.59887831, 113.66242448} *)
Definition saturn_el : list double := [D (5368671276217147) (-49); D (7762301995952253) (-57); D (5597956029689041) (-51); D (1757608716404709) (-45); D (3258033389467515) (-45); D (3999141035423087) (-45)].
(* {-0.00125060, -0.00050991, 0.00193609, 1222.49362201, -0.41897216, -0.28867794} *)
Definition saturn_el_dot : list double := [D (-5767374534645291) (-62); D (-4703089635312619) (-63); D (8928639183417081) (-62); D (5376583809127973) (-42); D (-7547531454618447) (-54); D (-2600179726028165) (-53)].
(* {19.18916464, 0.04725744, 0.77263783, 313.23810451, 170.95427630, 74.01692503} *)
Definition uranus_el : list double := [D (337579354383809) (-44); D (3405257426791737) (-56); D (6959302886560697) (-53); D (5510543010740143) (-44); D (3007459433758097) (-44); D (5208478062253405) (-46)].
(* {-0.00196176, -0.00004397, -0.00242939, 428.48202785, 0.40805281, 0.04240589} *)
Definition uranus_el_dot : list double := [D (-282719411359691) (-57); D (-811103336921009) (-64); D (-700223993519207) (-58); D (3768967775312919) (-43); D (7350825932253935) (-54); D (763916601609257) (-54)].
(* {30.06992276, 0.00859048, 1.77004347, -55.12002969, 44.96476227, 131.78422574} *)
Definition neptune_el : list double := [D (8463930808562225) (-48); D (4952074563447513) (-59); D (1992891777980395) (-50); D (-7757454536641709) (-47); D (6328227706374217) (-47); D (579593154234349) (-42)].
(* {0.00026291, 0.00005105, 0.00035372, 218.45945325, -0.32241464, -0.00508664} *)
Definition neptune_el_dot : list double := [D (2424916742209489) (-63); D (7533650279702981) (-67); D (6524982313752543) (-64); D (7686358689470799) (-45); D (-2904052905125585) (-53); D (-1466124160548343) (-58)].

(** boost::algorithm::to_lower in the classic locale: A-Z become a-z *)
Definition lower_ascii (c : ascii) : ascii :=
  let n := N_of_ascii c in if (N.leb 65 n && N.leb n 90)%bool then ascii_of_N (n + 32) else c.
Fixpoint lower (s : string) : string := match s with EmptyString => EmptyString | String c s' => String (lower_ascii c) (lower s') end.

(** 52-54 *)
Definition mapped_planets : list (string * Z) :=
  [("mercury", 1); ("venus", 2); ("earth", 3); ("mars", 4); ("jupiter", 5); ("saturn", 6); ("uranus", 7); ("neptune", 8); ("pluto", 9)].
Fixpoint map_at (m : list (string * Z)) (s : string) : outcome Z :=
  match m with [] => Throw OutOfRange | (k, v) :: m' => if String.eqb k s then Ret v else map_at m' s end.

Record jpl := mk_jpl { j_el : list double; j_eldot : list double; j_name : string; j_mu : double; j_mu_self : double; j_radius : double; j_safe : double }.

Definition MU_SUN : double := D (8100124514238246) (14).
Definition dAU : double := D (149597870700) (0).
(** pi / 180.0 *)
Definition dDEG2RAD : double := D (5030569068109113) (-58).

(** the switch, 61-123: elements, rates, radius, safe radius, mu_self *)
Definition planet_data (i : Z) : option (list double * list double * double * double * double) :=
  match i with
  | 1 => Some (mercury_el, mercury_el_dot, D (2440000) (0), dmul (D (2476979795053773) (-51)) (D (2440000) (0)), D (22032000000000) (0))
  | 2 => Some (venus_el, venus_el_dot, D (6052000) (0), dmul (D (2476979795053773) (-51)) (D (6052000) (0)), D (324859000000000) (0))
  | 3 => Some (earth_moon_el, earth_moon_el_dot, D (6378000) (0), dmul (D (2476979795053773) (-51)) (D (6378000) (0)), D (398600441800000) (0))
  | 4 => Some (mars_el, mars_el_dot, D (3397000) (0), dmul (D (2476979795053773) (-51)) (D (3397000) (0)), D (42828000000000) (0))
  | 5 => Some (jupiter_el, jupiter_el_dot, D (71492000) (0), dmul (D (9) (0)) (D (71492000) (0)), D (7917908375000000) (4))
  | 6 => Some (saturn_el, saturn_el_dot, D (60330000) (0), dmul (D (2476979795053773) (-51)) (D (60330000) (0)), D (4741398375000000) (3))
  | 7 => Some (uranus_el, uranus_el_dot, D (25362000) (0), dmul (D (2476979795053773) (-51)) (D (25362000) (0)), D (5793939000000000) (0))
  | 8 => Some (neptune_el, neptune_el_dot, D (24622000) (0), dmul (D (2476979795053773) (-51)) (D (24622000) (0)), D (6836529000000000) (0))
  | _ => None
  end.

(** 56-125 *)
Definition jpl_ctor (name : string) : outcome jpl :=
  let n := lower name in
  i <- map_at mapped_planets n ;;
  match planet_data i with
  | Some (el, eldot, radius, safe, mu_self) => Ret (mk_jpl el eldot (n ++ " - jpl_lp") MU_SUN mu_self radius safe)
  | None => Throw LogicError
  end.

Inductive etype := KEP_M | KEP_F | MEQ | MEQ_R | POSVEL.

Section Jpl.
Variable m2f f2m : double -> double -> outcome double.
Variable dcos dsin : double -> double.
Variable par2eq : list double -> bool -> list double.

Definition nthd (l : list double) (i : nat) : double := nth i l dzero.

(** 128-149 *)
Definition f_elements (j : jpl) (mjd2000 : double) : outcome (list double) :=
  _ <- guard (dleb mjd2000 (d_of_Z (-73048)) || dgeb mjd2000 (d_of_Z 18263)) DomainError ;;
  let dt := ddiv (dsub mjd2000 (D 1 (-1))) (d_of_Z 36525) in
  let up i := dadd (nthd (j_el j) i) (dmul (nthd (j_eldot j) i) dt) in
  let e0 := dmul (up 0%nat) dAU in
  let e1 := up 1%nat in
  let e2 := dmul (up 2%nat) dDEG2RAD in
  let e3 := dmul (up 5%nat) dDEG2RAD in
  let e4 := dmul (dsub (up 4%nat) (up 5%nat)) dDEG2RAD in
  let e5 := dmul (dsub (up 3%nat) (up 4%nat)) dDEG2RAD in
  f <- m2f e5 e1 ;;
  Ret [e0; e1; e2; e3; e4; f].

(** par2ic, src/core_astro/ic2par2ic.cpp 98-159.  xt::linalg::dot of a 3x3 by a 3x1 matrix is written as the row sum
    (m0*x + m1*y) + m2*z; the order of additions inside BLAS is not fixed by the source (simplification). *)
Definition par2ic (par : list double) (mu : double) : outcome (list double) :=
  let sma := nthd par 0 in let ecc := nthd par 1 in let inc := nthd par 2 in
  let omg := nthd par 3 in let omp := nthd par 4 in let f := nthd par 5 in
  _ <- guard (dltb (dmul sma (dsub done ecc)) dzero) DomainError ;;
  let cosf := dcos f in
  _ <- guard (dgtb ecc done && dltb cosf (ddiv (d_of_Z (-1)) ecc)) DomainError ;;
  let p := dmul sma (dsub done (dmul ecc ecc)) in
  let r := ddiv p (dadd done (dmul ecc (dcos f))) in
  let h := dsqrt (dmul p mu) in
  let sinf := dsin f in
  let x_per := dmul r cosf in
  let y_per := dmul r sinf in
  let xdot_per := dmul (ddiv (dneg mu) h) sinf in
  let ydot_per := dmul (ddiv mu h) (dadd ecc cosf) in
  let cosomg := dcos omg in let cosomp := dcos omp in
  let sinomg := dsin omg in let sinomp := dsin omp in
  let cosi := dcos inc in let sini := dsin inc in
  let R00 := dsub (dmul cosomg cosomp) (dmul (dmul sinomg sinomp) cosi) in
  let R01 := dsub (dmul (dneg cosomg) sinomp) (dmul (dmul sinomg cosomp) cosi) in
  let R02 := dmul sinomg sini in
  let R10 := dadd (dmul sinomg cosomp) (dmul (dmul cosomg sinomp) cosi) in
  let R11 := dadd (dmul (dneg sinomg) sinomp) (dmul (dmul cosomg cosomp) cosi) in
  let R12 := dmul (dneg cosomg) sini in
  let R20 := dmul sinomp sini in let R21 := dmul cosomp sini in let R22 := cosi in
  let row m0 m1 m2 x y := dadd (dadd (dmul m0 x) (dmul m1 y)) (dmul m2 dzero) in
  Ret [row R00 R01 R02 x_per y_per; row R10 R11 R12 x_per y_per; row R20 R21 R22 x_per y_per;
       row R00 R01 R02 xdot_per ydot_per; row R10 R11 R12 xdot_per ydot_per; row R20 R21 R22 xdot_per ydot_per].

(** 151-155 *)
Definition jpl_eph (j : jpl) (mjd2000 : double) : outcome (list double) :=
  el <- f_elements j mjd2000 ;; par2ic el (j_mu j).

(** 157-176 *)
Definition jpl_elements (j : jpl) (mjd2000 : double) (t : etype) : outcome (list double) :=
  el <- f_elements j mjd2000 ;;
  match t with
  | KEP_F => Ret el
  | KEP_M => m <- f2m (nthd el 5) (nthd el 1) ;; Ret (firstn 5 el ++ [m])%list
  | MEQ => Ret (par2eq el false)
  | MEQ_R => Ret (par2eq el true)
  | POSVEL => Throw LogicError
  end.
End Jpl.
