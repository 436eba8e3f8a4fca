(** * Fly-by functions: src/core_astro/flyby.cpp, linalg.cpp.
    Simplification: doubles are real numbers; a NaN or infinity is [None] (PartialReal.v).  The overloads taking a planet
    (flyby.cpp 39-43, 66-70) pass get_mu_self() and get_safe_radius() on and are not modelled separately. *)
From Coq Require Import Reals.
From Verif Require Import PartialReal Vec3.
Open Scope R_scope. Open Scope partial_scope.

(** flyby.cpp 27-37: the angle alpha and the violation alpha - 2 asin(1/e_min), shared by fb_con and fb_dv (48-57) *)
Definition fb_ineq (v_in v_out : vec) (mu safe_radius : R) : option R :=
  let Vin2 := dot v_in v_in in let Vout2 := dot v_out v_out in
  q <-? pdiv safe_radius mu ;; let e_min := 1 + q * Vin2 in
  s <-? psqrt (Vin2 * Vout2) ;; c <-? pdiv (dot v_in v_out) s ;; alpha <-? pacos c ;;
  i <-? pdiv 1 e_min ;; b <-? pasin i ;; Some (alpha - 2 * b).
(** flyby.cpp 24-37 *)
Definition fb_con (v_in v_out : vec) (mu safe_radius : R) : option (R * R) :=
  d <-? fb_ineq v_in v_out mu safe_radius ;; Some (dot v_in v_in - dot v_out v_out, d).
(** flyby.cpp 45-64 *)
Definition fb_dv (v_in v_out : vec) (mu safe_radius : R) : option R :=
  let Vin2 := dot v_in v_in in let Vout2 := dot v_out v_out in
  d <-? fb_ineq v_in v_out mu safe_radius ;;
  if Rlt_dec 0 d then s <-? psqrt (Vout2 * Vin2) ;; psqrt (Vout2 + Vin2 - 2 * s * cos d)
  else a <-? psqrt Vout2 ;; b <-? psqrt Vin2 ;; Some (Rabs (a - b)).
(** linalg.cpp 30-36 *)
Definition normalize (v : vec) : option vec :=
  n <-? psqrt (dot v v) ;; x <-? pdiv (vx v) n ;; y <-? pdiv (vy v) n ;; z <-? pdiv (vz v) n ;; Some (V x y z).
(** flyby.cpp 73-100 *)
Definition fb_vout (v_in v_pla : vec) (rp beta mu : R) : option vec :=
  let v_rel_in := vsub v_in v_pla in
  let v2 := dot v_rel_in v_rel_in in
  n <-? psqrt v2 ;; q <-? pdiv rp mu ;; let ecc := 1 + q * v2 in
  i <-? pdiv 1 ecc ;; b <-? pasin i ;; let delta := 2 * b in
  ix <-? pdiv (vx v_rel_in) n ;; iy <-? pdiv (vy v_rel_in) n ;; iz <-? pdiv (vz v_rel_in) n ;;
  let i_hat := V ix iy iz in
  j_hat <-? normalize (cross i_hat v_pla) ;;
  let k_hat := cross i_hat j_hat in
  let comp f := f v_pla + n * cos delta * f i_hat + n * cos beta * sin delta * f j_hat + n * sin beta * sin delta * f k_hat in
  Some (V (comp vx) (comp vy) (comp vz)).
