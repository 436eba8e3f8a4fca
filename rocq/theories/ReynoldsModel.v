(** * Reynolds' state transition matrix: src/core_astro/stm.cpp 137-202, with the helpers of src/linalg.cpp and
    include/kep3/linalg.hpp it uses.
    Simplification: doubles are real numbers.  [xt::linalg::inv] is the oracle [inv]: [None] is the exception it throws for a
    matrix LAPACK finds singular.  Matrices with six rows are kept as their columns (states: the upper three entries, the
    lower three entries) until the final 6x6 matrix, which is the row-major list of its 36 entries. *)
From Coq Require Import Reals List.
From Verif Require Import Outcome KepModel Vec3 TwoBodyModel.
Import ListNotations.
Open Scope R_scope.
Open Scope outcome_scope.

(** mat33: three rows *)
Record mat33 : Type := M3 { row0 : vec; row1 : vec; row2 : vec }.
Definition madd (A B : mat33) : mat33 := M3 (vadd (row0 A) (row0 B)) (vadd (row1 A) (row1 B)) (vadd (row2 A) (row2 B)).
Definition msub (A B : mat33) : mat33 := M3 (vsub (row0 A) (row0 B)) (vsub (row1 A) (row1 B)) (vsub (row2 A) (row2 B)).
Definition mscal (k : R) (A : mat33) : mat33 := M3 (vscal k (row0 A)) (vscal k (row1 A)) (vscal k (row2 A)).
(** columns of a mat33 *)
Definition col0 (A : mat33) : vec := V (vx (row0 A)) (vx (row1 A)) (vx (row2 A)).
Definition col1 (A : mat33) : vec := V (vy (row0 A)) (vy (row1 A)) (vy (row2 A)).
Definition col2 (A : mat33) : vec := V (vz (row0 A)) (vz (row1 A)) (vz (row2 A)).
(** linalg.hpp 31-47, _dot: entry (i, j) is the sum over l of A(i, l) * B(l, j) *)
Definition mdot (A B : mat33) : mat33 :=
  let r (a : vec) := V (dot a (col0 B)) (dot a (col1 B)) (dot a (col2 B)) in M3 (r (row0 A)) (r (row1 A)) (r (row2 A)).
(** the same with a single column on the right *)
Definition mvec (A : mat33) (b : vec) : vec := V (dot (row0 A) b) (dot (row1 A) b) (dot (row2 A) b).
(** linalg.cpp 14-20, _skew *)
Definition skew (v : vec) : mat33 := M3 (V 0 (- vz v) (vy v)) (V (vz v) 0 (- vx v)) (V (- vy v) (vx v) 0).

(** a 6x6 matrix from its columns, row by row *)
Definition of_columns (c0 c1 c2 c3 c4 c5 : state) : list R :=
  let cs := [c0; c1; c2; c3; c4; c5] in
  map (fun c => vx (fst c)) cs ++ map (fun c => vy (fst c)) cs ++ map (fun c => vz (fst c)) cs ++
  map (fun c => vx (snd c)) cs ++ map (fun c => vy (snd c)) cs ++ map (fun c => vz (snd c)) cs.

(** stm.cpp 138-165.  fc: the columns of skew r over those of skew v; sc: the two columns of sct over those of scb; tc *)
Definition compute_Y (r0 v0 r v : vec) (tof mu : R) : list R :=
  let h := cross r v in
  let r0_mod := lag_R0 r0 in
  let r_mod := lag_R0 r in
  let r3 := r_mod * r_mod * r_mod in
  let B0 := vscal (/ sqrt (mu * r0_mod)) r0 in
  let B1 := vscal (r0_mod / mu) v0 in
  let ct := madd (mdot (skew r) (skew v)) (skew h) in
  let cb := msub (mscal (mu / r3) (mdot (skew r) (skew r))) (mdot (skew v) (skew v)) in
  let tct := vadd (vneg r) (vscal (1.5 * tof) v) in
  let tcb := vsub (vscal (/ 2) v) (vscal (1.5 * mu / r3 * tof) r) in
  of_columns (col0 (skew r), col0 (skew v)) (col1 (skew r), col1 (skew v)) (col2 (skew r), col2 (skew v))
             (vneg (mvec ct B0), mvec cb B0) (vneg (mvec ct B1), mvec cb B1) (tct, tcb).

(** linalg.hpp 31-47 for two 6x6 matrices *)
Definition mat66_dot (A B : list R) : list R :=
  flat_map (fun i => map (fun j => nth (6 * i) A 0 * nth j B 0 + nth (6 * i + 1) A 0 * nth (6 + j) B 0 + nth (6 * i + 2) A 0 * nth (12 + j) B 0
    + nth (6 * i + 3) A 0 * nth (18 + j) B 0 + nth (6 * i + 4) A 0 * nth (24 + j) B 0 + nth (6 * i + 5) A 0 * nth (30 + j) B 0) (seq 0 6)) (seq 0 6).

Section Oracles.
Variable newton : (R -> R * R) -> R -> R -> R -> option R.
Variable inv : list R -> option (list R).
(** 170-189 *)
Definition stm_reynolds (s0 sf : state) (tof mu : R) : outcome (list R) :=
  let Y := compute_Y (fst s0) (snd s0) (fst sf) (snd sf) tof mu in
  let Y0 := compute_Y (fst s0) (snd s0) (fst s0) (snd s0) 0 mu in
  match inv Y0 with
  | Some X => Ret (mat66_dot Y X)
  | None => Throw RuntimeError
  end.
(** 191-202 *)
Definition propagate_stm_reynolds (s : state) (tof mu : R) (stm : bool) : outcome (state * option (list R)) :=
  res <- propagate_lagrangian newton s tof mu false ;;
  if stm then (m <- stm_reynolds s (fst res) tof mu ;; Ret (fst res, Some m)) else Ret (fst res, None).
End Oracles.
