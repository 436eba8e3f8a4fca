(** * Keplerian propagation and its state transition matrix
    src/core_astro/propagate_lagrangian.cpp and src/core_astro/stm.cpp.
    Simplification: doubles are real numbers (no rounding, no infinities).  Where the C++ divides by zero or takes the root
    of a negative number (|r0| = 0, energy = 0, mu <= 0) the real-number formulas mean nothing; the theorems exclude these
    inputs.  The Newton solver is the oracle of KepModel. *)
From Coq Require Import Reals List.
From Verif Require Import Outcome RealLib KepModel Vec3.
Import ListNotations.
Open Scope R_scope.
Open Scope outcome_scope.

(** propagate_lagrangian.cpp 42, 44, 46, 47, 51 *)
Definition lag_R0 (r0 : vec) : R := sqrt (vx r0 * vx r0 + vy r0 * vy r0 + vz r0 * vz r0).
Definition lag_V02 (v0 : vec) : R := vx v0 * vx v0 + vy v0 * vy v0 + vz v0 * vz v0.
Definition lag_energy (mu R0 V02 : R) : R := V02 / 2 - mu / R0.
Definition lag_a (mu energy : R) : R := - mu / 2 / energy.
Definition lag_sigma0 (r0 v0 : vec) (mu : R) : R := (vx r0 * vx v0 + vy r0 * vy v0 + vz r0 * vz v0) / sqrt mu.

(** 55 *)
Definition lag_DM (mu a tof : R) : R := sqrt (mu / a ^ 3) * tof.
(** 61-64 *)
Definition lag_DMc (DM : R) : R :=
  let c := atan2 (sin DM) (cos DM) in if Rlt_dec c 0 then c + 2 * PI else c.
(** 69-73 *)
Definition lag_IG (DMc sinDM cosDM s0 c0 : R) : R :=
  DMc + c0 * sinDM - s0 * (1 - cosDM) + (c0 * cosDM - s0 * sinDM) * (c0 * sinDM + s0 * cosDM - s0)
  + 0.5 * (c0 * sinDM + s0 * cosDM - s0)
    * (2 * (c0 * cosDM - s0 * sinDM) ^ 2 - (c0 * sinDM + s0 * cosDM - s0) * (c0 * sinDM + s0 * cosDM)).
(** 104 *)
Definition lag_DN (mu a tof : R) : R := sqrt (- mu / a / a / a) * tof.
(** 108 *)
Definition lag_IGh (tof : R) : R := if Rlt_dec 0 tof then 1 else -1.

(** the locals after the branch: Rf, s0, c0, DX, F, G, Ft, Gt *)
Record lagrange : Type := mkLag { lRf : R; ls0 : R; lc0 : R; lDX : R; lF : R; lG : R; lFt : R; lGt : R }.
(** 94-101 *)
Definition lag_ellipse (mu R0 a sigma0 s0 c0 DE : R) : lagrange :=
  let sqrta := sqrt a in
  let Rf := a + (R0 - a) * cos DE + sigma0 * sqrta * sin DE in
  mkLag Rf s0 c0 DE
    (1 - a / R0 * (1 - cos DE))
    (a * sigma0 / sqrt mu * (1 - cos DE) + R0 * sqrt (a / mu) * sin DE)
    (- sqrt (mu * a) / (Rf * R0) * sin DE)
    (1 - a / Rf * (1 - cos DE)).
(** 136-143 *)
Definition lag_hyperbola (mu R0 a sigma0 s0 c0 DH : R) : lagrange :=
  let sqrta := sqrt (- a) in
  let Rf := a + (R0 - a) * cosh DH + sigma0 * sqrta * sinh DH in
  mkLag Rf s0 c0 DH
    (1 - a / R0 * (1 - cosh DH))
    (a * sigma0 / sqrt mu * (1 - cosh DH) + R0 * sqrt (- a / mu) * sinh DH)
    (- sqrt (- mu * a) / (Rf * R0) * sinh DH)
    (1 - a / Rf * (1 - cosh DH)).
(** 146-149 *)
Definition lag_state (s : state) (l : lagrange) : state :=
  let '(r0, v0) := s in
  (vadd (vscal (lF l) r0) (vscal (lG l) v0), vadd (vscal (lFt l) r0) (vscal (lGt l) v0)).

(** ** stm.cpp.  A 1x6 gradient is a pair: three derivatives with respect to r0, three with respect to v0 (mat16). *)
Definition row6 : Type := (vec * vec)%type.
Definition radd (g h : row6) : row6 := (vadd (fst g) (fst h), vadd (snd g) (snd h)).
Definition rsub (g h : row6) : row6 := (vsub (fst g) (fst h), vsub (snd g) (snd h)).
Definition rscal (k : R) (g : row6) : row6 := (vscal k (fst g), vscal k (snd g)).
Declare Scope row_scope.
Delimit Scope row_scope with row.
Notation "g + h" := (radd g h) : row_scope.
Notation "g - h" := (rsub g h) : row_scope.
Notation "k * g" := (rscal k g) : row_scope.

(** 59-66: dr0 = [1 0], dv0 = [0 1]; u . dr0 and u . dv0 as rows *)
Definition dot_dr0 (u : vec) : row6 := (u, vzero).
Definition dot_dv0 (u : vec) : row6 := (vzero, u).

(** 71-75 *)
Definition d_V02 (v0 : vec) : row6 := rscal 2 (dot_dv0 v0).
Definition d_R0 (r0 : vec) (R0 : R) : row6 := rscal (1 / R0) (dot_dr0 r0).
Definition d_energy (mu R0 : R) (dV02 dR0 : row6) : row6 := (0.5 * dV02 + (mu / R0 / R0)%R * dR0)%row.
Definition d_sigma0 (r0 v0 : vec) (sqrtmu : R) : row6 := rscal (/ sqrtmu) (radd (dot_dv0 r0) (dot_dr0 v0)).
Definition d_a (mu energy : R) (denergy : row6) : row6 := rscal (mu / 2 / energy / energy) denergy.

(** the differentials of F, G, Ft, Gt *)
Record dlagrange : Type := mkDlag { dF : row6; dG : row6; dFt : row6; dGt : row6 }.
(** 79-103, ellipses *)
Definition stm_ellipse (tof mu R0 Rf sigma0 a s0 c0 DX F : R) (dR0 dsigma0 da : row6) : dlagrange :=
  let sqrtmu := sqrt mu in
  let sqrta := sqrt a in let sinDE := sin DX in let cosDE := cos DX in
  (let ds0 := ((/ sqrta)%R * dsigma0 - (0.5 * sigma0 / sqrta / sqrta / sqrta)%R * da)%row in
  let dc0 := ((-1 / a)%R * dR0 + (R0 / a / a)%R * da)%row in
  let dDM := ((-1.5 * sqrtmu * tof / sqrta ^ 5)%R * da)%row in
  let dDE := ((/ (1 + s0 * sinDE - c0 * cosDE))%R * (dDM - (1 - cosDE)%R * ds0 + sinDE * dc0))%row in
  let dRf := ((1 - cosDE + 0.5 / sqrta * sigma0 * sinDE)%R * da + cosDE * dR0
              + (sigma0 * sqrta * cosDE - (R0 - a) * sinDE)%R * dDE + (sqrta * sinDE)%R * dsigma0)%row in
  let dF := ((- (1 - cosDE) / R0)%R * da + (a / R0 / R0 * (1 - cosDE))%R * dR0 - (a / R0 * sinDE)%R * dDE)%row in
  let dG := ((1 - F)%R * (R0 * dsigma0 + sigma0 * dR0) - (sigma0 * R0)%R * dF + (sqrta * R0 * cosDE)%R * dDE
             + (sqrta * sinDE)%R * dR0 + (0.5 * R0 * sinDE / sqrta)%R * da)%row in
  let dG := rscal (/ sqrtmu) dG in
  let dFt := ((- sqrta / R0 / Rf * cosDE)%R * dDE - (0.5 / sqrta / R0 / Rf * sinDE)%R * da
              + (sqrta / Rf / R0 / R0 * sinDE)%R * dR0 + (sqrta / Rf / Rf / R0 * sinDE)%R * dRf)%row in
  let dFt := rscal sqrtmu dFt in
  let dGt := ((- (1 - cosDE) / Rf)%R * da + (a / Rf / Rf * (1 - cosDE))%R * dRf - (a / Rf * sinDE)%R * dDE)%row in
  mkDlag dF dG dFt dGt).
(** 104-128, hyperbolas *)
Definition stm_hyperbola (tof mu R0 Rf sigma0 a s0 c0 DX F : R) (dR0 dsigma0 da : row6) : dlagrange :=
  let sqrtmu := sqrt mu in
  let sqrta := sqrt (- a) in let sinhDH := sinh DX in let coshDH := cosh DX in
  (let ds0 := ((/ sqrta)%R * dsigma0 + (0.5 * sigma0 / sqrta / sqrta / sqrta)%R * da)%row in
  let dc0 := ((-1 / a)%R * dR0 + (R0 / a / a)%R * da)%row in
  let dDN := ((1.5 * sqrtmu * tof / sqrta ^ 5)%R * da)%row in
  let dDH := ((/ (s0 * sinhDH + c0 * coshDH - 1))%R * (dDN - (coshDH - 1)%R * ds0 - sinhDH * dc0))%row in
  let dRf := ((1 - coshDH - 0.5 / sqrta * sigma0 * sinhDH)%R * da + coshDH * dR0
              + (sigma0 * sqrta * coshDH + (R0 - a) * sinhDH)%R * dDH + (sqrta * sinhDH)%R * dsigma0)%row in
  let dF := ((- (1 - coshDH) / R0)%R * da + (a / R0 / R0 * (1 - coshDH))%R * dR0 + (a / R0 * sinhDH)%R * dDH)%row in
  let dG := ((1 - F)%R * (R0 * dsigma0 + sigma0 * dR0) - (sigma0 * R0)%R * dF + (sqrta * R0 * coshDH)%R * dDH
             + (sqrta * sinhDH)%R * dR0 - (0.5 * R0 * sinhDH / sqrta)%R * da)%row in
  let dG := rscal (/ sqrtmu) dG in
  let dFt := ((- sqrta / R0 / Rf * coshDH)%R * dDH + (0.5 / sqrta / R0 / Rf * sinhDH)%R * da
              + (sqrta / Rf / R0 / R0 * sinhDH)%R * dR0 + (sqrta / Rf / Rf / R0 * sinhDH)%R * dRf)%row in
  let dFt := rscal sqrtmu dFt in
  let dGt := ((- (1 - coshDH) / Rf)%R * da + (a / Rf / Rf * (1 - coshDH))%R * dRf + (a / Rf * sinhDH)%R * dDH)%row in
  mkDlag dF dG dFt dGt).

(** the unit rows of dr0 and dv0 (59-66), coordinate by coordinate *)
Definition ex : vec := V 1 0 0.  Definition ey : vec := V 0 1 0.  Definition ez : vec := V 0 0 1.
(** 131-132: one row of F dr0 + r0^T dF + G dv0 + v0^T dG; [e] selects the coordinate, [x], [y] the entries of r0 and v0 *)
Definition stm_row (F G : R) (dF dG : row6) (e : vec) (x y : R) : row6 :=
  (F * dot_dr0 e + x * dF + G * dot_dv0 e + y * dG)%row.
(** 133-139: the 36 numbers, row after row *)
Definition row_list (g : row6) : list R := [vx (fst g); vy (fst g); vz (fst g); vx (snd g); vy (snd g); vz (snd g)].
Definition stm_assemble (s : state) (l : lagrange) (d : dlagrange) : list R :=
  let '(r0, v0) := s in
  row_list (stm_row (lF l) (lG l) (dF d) (dG d) ex (vx r0) (vx v0)) ++
  row_list (stm_row (lF l) (lG l) (dF d) (dG d) ey (vy r0) (vy v0)) ++
  row_list (stm_row (lF l) (lG l) (dF d) (dG d) ez (vz r0) (vz v0)) ++
  row_list (stm_row (lFt l) (lGt l) (dFt d) (dGt d) ex (vx r0) (vx v0)) ++
  row_list (stm_row (lFt l) (lGt l) (dFt d) (dGt d) ey (vy r0) (vy v0)) ++
  row_list (stm_row (lFt l) (lGt l) (dFt d) (dGt d) ez (vz r0) (vz v0)).
(** 46-135 *)
Definition stm_lagrangian (s : state) (tof mu R0 energy sigma0 a : R) (l : lagrange) : list R :=
  let '(r0, v0) := s in
  let dV02 := d_V02 v0 in let dR0 := d_R0 r0 R0 in let denergy := d_energy mu R0 dV02 dR0 in
  let dsigma0 := d_sigma0 r0 v0 (sqrt mu) in let da := d_a mu energy denergy in
  let d := (if Rlt_dec 0 a then stm_ellipse tof mu R0 (lRf l) sigma0 a (ls0 l) (lc0 l) (lDX l) (lF l) dR0 dsigma0 da
            else stm_hyperbola tof mu R0 (lRf l) sigma0 a (ls0 l) (lc0 l) (lDX l) (lF l) dR0 dsigma0 da) in
  stm_assemble s l d.

Section Newton.
Variable newton : (R -> R * R) -> R -> R -> R -> option R.

(** propagate_lagrangian.cpp 53-144: the solution of Kepler's equation in either branch, [Throw] if the iteration limit was hit *)
Definition lag_solve (mu tof R0 a sigma0 : R) : outcome lagrange :=
  if Rlt_dec 0 a then
    let sqrta := sqrt a in
    let DM := lag_DM mu a tof in
    let DMc := lag_DMc DM in
    let s0 := sigma0 / sqrta in let c0 := 1 - R0 / a in
    let IG := lag_IG DMc (sin DM) (cos DM) s0 c0 in
    match newton (fun DE => (kepDE DE DMc sigma0 sqrta a R0, d_kepDE DE sigma0 sqrta a R0)) IG (IG - PI) (IG + PI) with
    | Some DE => Ret (lag_ellipse mu R0 a sigma0 s0 c0 DE)
    | None => Throw DomainError
    end
  else
    let sqrta := sqrt (- a) in
    let DN := lag_DN mu a tof in
    let s0 := sigma0 / sqrta in let c0 := 1 - R0 / a in
    let IG := lag_IGh tof in
    match newton (fun DH => (kepDH DH DN sigma0 sqrta a R0, d_kepDH DH sigma0 sqrta a R0)) IG (IG - 50) (IG + 50) with
    | Some DH => Ret (lag_hyperbola mu R0 a sigma0 s0 c0 DH)
    | None => Throw DomainError
    end.

(** 36-156 *)
Definition propagate_lagrangian (s : state) (tof mu : R) (stm : bool) : outcome (state * option (list R)) :=
  let '(r0, v0) := s in
  let R0 := lag_R0 r0 in
  let V02 := lag_V02 v0 in
  let energy := lag_energy mu R0 V02 in
  let a := lag_a mu energy in
  let sigma0 := lag_sigma0 r0 v0 mu in
  l <- lag_solve mu tof R0 a sigma0 ;;
  Ret (lag_state s l, if stm then Some (stm_lagrangian s tof mu R0 energy sigma0 a l) else None).

(** 158-168: each element in turn; the first exception leaves the loop *)
Fixpoint propagate_lagrangian_v (s : state) (tofs : list R) (mu : R) (stm : bool) : outcome (list (state * option (list R))) :=
  match tofs with
  | [] => Ret []
  | t :: l => x <- propagate_lagrangian s t mu stm ;; xs <- propagate_lagrangian_v s l mu stm ;; Ret (x :: xs)
  end.

(** 176-256; [v] is the (possibly reversed) velocity held in vf *)
Definition propagate_lagrangian_u (s : state) (dt mu : R) (stm : bool) : outcome (state * option (list R)) :=
  let '(r0, v0) := s in
  let dtc := if Rlt_dec dt 0 then - dt else dt in
  let v := if Rlt_dec dt 0 then vneg v0 else v0 in
  let R0 := lag_R0 r0 in
  let V02 := lag_V02 v in
  let alpha := 2 / R0 - V02 / mu in
  let VR0 := (vx r0 * vx v + vy r0 * vy v + vz r0 * vz v) / R0 in
  let IG := if Rlt_dec 0 alpha then sqrt mu * dtc * Rabs alpha else 3 in
  match newton (fun DS => (kepDS DS dtc R0 VR0 alpha mu, d_kepDS DS R0 VR0 alpha mu)) IG (IG - 2 * PI) (IG + 2 * PI) with
  | None => Throw DomainError
  | Some DS =>
    let S := stumpff_s (alpha * DS * DS) in
    let C := stumpff_c (alpha * DS * DS) in
    let z := alpha * DS * DS in
    let F := 1 - DS * DS / R0 * C in
    let G := dtc - 1 / sqrt mu * DS * DS * DS * S in
    let rf := vadd (vscal F r0) (vscal G v) in
    let RF := lag_R0 rf in
    let Ft := sqrt mu / RF / R0 * (z * S - 1) * DS in
    let Gt := 1 - DS * DS / RF * C in
    let vf := vadd (vscal Ft r0) (vscal Gt v) in
    Ret ((rf, if Rlt_dec dt 0 then vneg vf else vf), None)
  end.
End Newton.
