(** * Orbital element conversions
    src/core_astro/ic2par2ic.cpp, ic2eq2ic.cpp, eq2par2eq.cpp.
    Simplification: doubles are real numbers.  [None] says that some component of the result is a NaN or an infinity
    (PartialReal.v); the C++ then still returns an array, in which other components may be numbers. *)
From Coq Require Import Reals.
From Verif Require Import Outcome RealLib PartialReal Vec3.
Open Scope R_scope. Open Scope partial_scope.

(** std::array<double, 6> of classical elements: semi-major axis, eccentricity, inclination, node, pericentre, true anomaly *)
Record elem : Type := El { el_a : R; el_e : R; el_i : R; el_W : R; el_w : R; el_f : R }.
(** std::array<double, 6> of equinoctial elements: p, f, g, h, k, L *)
Record eqel : Type := Eq { eq_p : R; eq_f : R; eq_g : R; eq_h : R; eq_k : R; eq_L : R }.

(** vector divided by a number, componentwise *)
Definition pvdiv (u : vec) (k : R) : option vec := x <-? pdiv (vx u) k ;; y <-? pdiv (vy u) k ;; z <-? pdiv (vz u) k ;; Some (V x y z).

(** ic2par2ic.cpp 30-90 *)
Definition ic2par (s : state) (mu : R) : option elem :=
  let '(r0, v0) := s in
  let h := cross r0 v0 in
  p <-? pdiv (dot h h) mu ;;
  let n0 := cross (V 0 0 1) h in
  n <-? pvdiv n0 (norm n0) ;;
  let R0 := norm r0 in
  e1 <-? pvdiv (cross v0 h) mu ;; e2 <-? pvdiv r0 R0 ;; let evett := vsub e1 e2 in
  let ecc := norm evett in
  a <-? pdiv p (1 - ecc * ecc) ;;
  ci <-? pdiv (vz h) (norm h) ;; inc <-? pacos ci ;;
  cw <-? pdiv (dot n evett) ecc ;; w1 <-? pacos cw ;; let w := if Rlt_dec (vz evett) 0 then 2 * PI - w1 else w1 in
  W1 <-? pacos (vx n) ;; let W := if Rlt_dec (vy n) 0 then 2 * PI - W1 else W1 in
  cf1 <-? pdiv (dot evett r0) ecc ;; cf <-? pdiv cf1 R0 ;; f1 <-? pacos cf ;; let f := if Rlt_dec (dot r0 v0) 0 then 2 * PI - f1 else f1 in
  Some (El a ecc inc W w f).

(** ic2par2ic.cpp 98-159; the outer outcome is the exception, the inner option a NaN or infinity *)
Definition par2ic (par : elem) (mu : R) : outcome (option state) :=
  let '(El sma ecc inc omg omp f) := par in
  if Rlt_dec (sma * (1 - ecc)) 0 then Throw DomainError else
  let cosf := cos f in
  if (if Rlt_dec 1 ecc then if Rlt_dec cosf (-1 / ecc) then true else false else false) then Throw DomainError else
  Ret (let p := sma * (1 - ecc * ecc) in
       r <-? pdiv p (1 + ecc * cos f) ;; h <-? psqrt (p * mu) ;; let sinf := sin f in
       let x_per := r * cosf in let y_per := r * sinf in
       q <-? pdiv (- mu) h ;; q' <-? pdiv mu h ;;
       let xdot_per := q * sinf in let ydot_per := q' * (ecc + cosf) in
       let cosomg := cos omg in let cosomp := cos omp in let sinomg := sin omg in let sinomp := sin omp in let cosi := cos inc in let sini := sin inc in
       let Rxx := cosomg * cosomp - sinomg * sinomp * cosi in let Rxy := - cosomg * sinomp - sinomg * cosomp * cosi in let Rxz := sinomg * sini in
       let Ryx := sinomg * cosomp + cosomg * sinomp * cosi in let Ryy := - sinomg * sinomp + cosomg * cosomp * cosi in let Ryz := - cosomg * sini in
       let Rzx := sinomp * sini in let Rzy := cosomp * sini in let Rzz := cosi in
       Some (V (Rxx * x_per + Rxy * y_per + Rxz * 0) (Ryx * x_per + Ryy * y_per + Ryz * 0) (Rzx * x_per + Rzy * y_per + Rzz * 0),
             V (Rxx * xdot_per + Rxy * ydot_per + Rxz * 0) (Ryx * xdot_per + Ryy * ydot_per + Ryz * 0) (Rzx * xdot_per + Rzy * ydot_per + Rzz * 0))).

(** eq2par2eq.cpp 19-48; [retro] is the argument retrogade, I = +-1 *)
Definition eqI (retro : bool) : R := if retro then -1 else 1.
Definition eq2par (q : eqel) (retro : bool) : option elem :=
  let '(Eq p f g h k L) := q in let I := eqI retro in
  let ecc := sqrt (f * f + g * g) in
  let tmp := sqrt (h * h + k * k) in
  y <-? pdiv g ecc ;; x <-? pdiv f ecc ;;
  let z0 := atan2 y x in let zita := if Rlt_dec z0 0 then z0 + 2 * PI else z0 in
  a <-? pdiv p (1 - ecc * ecc) ;;
  let inc := PI / 2 * (1 - I) + 2 * I * atan tmp in
  ky <-? pdiv k tmp ;; hx <-? pdiv h tmp ;;
  let W0 := atan2 ky hx in let W := if Rlt_dec W0 0 then W0 + 2 * PI else W0 in
  let w0 := zita - I * W in
  let w := if Rlt_dec w0 0 then w0 + 2 * PI else if Rlt_dec (2 * PI) w0 then w0 - 2 * PI else w0 in
  Some (El a ecc inc W w (L - I * W - w)).
(** 50-68; tan fails at odd multiples of pi/2 *)
Definition ptan (x : R) : option R := if Req_EM_T (cos x) 0 then None else Some (tan x).
Definition par2eq (par : elem) (retro : bool) : option eqel :=
  let '(El a e i W w f) := par in let I := eqI retro in
  t <-? ptan (i / 2) ;;
  m <-? (if retro then pdiv 1 t else Some t) ;;
  Some (Eq (a * (1 - e * e)) (e * cos (w + I * W)) (e * sin (w + I * W)) (m * cos W) (m * sin W) (f + w + I * W)).

(** the equinoctial frame, ic2eq2ic.cpp 68-75 and 131-138 *)
Definition eq_fv (I h k : R) : vec := let den := k * k + h * h + 1 in V ((1 - k * k + h * h) / den) (2 * k * h / den) (-2 * I * k / den).
Definition eq_gv (I h k : R) : vec := let den := k * k + h * h + 1 in V (2 * I * k * h / den) ((1 + k * k - h * h) * I / den) (2 * h / den).
(** ic2eq2ic.cpp 33-106; den >= 1, so its divisions never fail *)
Definition ic2eq (s : state) (mu : R) (retro : bool) : option eqel :=
  let '(r0, v0) := s in let I := eqI retro in
  let ang := cross r0 v0 in
  let R0 := norm r0 in let V0 := norm v0 in
  q1 <-? pdiv 2 R0 ;; q2 <-? pdiv (V0 * V0) mu ;; sma <-? pdiv 1 (q1 - q2) ;;
  w <-? pvdiv ang (norm ang) ;;
  k <-? pdiv (vx w) (1 + I * vz w) ;; h <-? pdiv (- vy w) (1 + I * vz w) ;;
  let fv := eq_fv I h k in let gv := eq_gv I h k in
  e1 <-? pvdiv (cross v0 ang) mu ;; e2 <-? pvdiv r0 R0 ;; let evett := vsub e1 e2 in
  let g := dot evett gv in let f := dot evett fv in let ecc := norm evett in
  let det1 := vy gv * vx fv - vy fv * vx gv in
  let det2 := vz gv * vx fv - vz fv * vx gv in
  let det3 := vz gv * vy fv - vz fv * vy gv in
  let mx := Rmax (Rabs det1) (Rmax (Rabs det2) (Rabs det3)) in
  XY <-? (if Req_EM_T (Rabs det1) mx then
            X <-? pdiv (vy gv * vx r0 - vx gv * vy r0) det1 ;; Y <-? pdiv (- vy fv * vx r0 + vx fv * vy r0) det1 ;; Some (X, Y)
          else if Req_EM_T (Rabs det2) mx then
            X <-? pdiv (vz gv * vx r0 - vx gv * vz r0) det2 ;; Y <-? pdiv (- vz fv * vx r0 + vx fv * vz r0) det2 ;; Some (X, Y)
          else
            X <-? pdiv (vz gv * vy r0 - vy gv * vz r0) det3 ;; Y <-? pdiv (- vz fv * vy r0 + vy fv * vz r0) det3 ;; Some (X, Y)) ;;
  let '(X, Y) := (XY : R * R) in
  y <-? pdiv Y R0 ;; x <-? pdiv X R0 ;;
  Some (Eq (sma * (1 - ecc * ecc)) f g h k (atan2 y x)).
(** ic2eq2ic.cpp 108-155 *)
Definition eq2ic (q : eqel) (mu : R) (retro : bool) : option state :=
  let '(Eq p f g h k L) := q in let I := eqI retro in
  let par := Rabs p in
  let fv := eq_fv I h k in let gv := eq_gv I h k in
  radius <-? pdiv par (1 + g * sin L + f * cos L) ;;
  let X := radius * cos L in let Y := radius * sin L in
  mp <-? pdiv mu par ;; c <-? psqrt mp ;;
  let VX := - c * (g + sin L) in let VY := c * (f + cos L) in
  Some (vadd (vscal X fv) (vscal Y gv), vadd (vscal VX fv) (vscal VY gv)).
