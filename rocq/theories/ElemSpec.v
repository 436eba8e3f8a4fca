(** * Orbital elements: independent definition of what they mean *)
From Coq Require Import Reals.
From Verif Require Import Vec3 TwoBodySpec ElemModel.
Open Scope R_scope.
Definition ex : vec := V 1 0 0. Definition ey : vec := V 0 1 0. Definition ez : vec := V 0 0 1.
(** elementary rotations *)
Definition rotz (t : R) (u : vec) : vec := V (cos t * vx u - sin t * vy u) (sin t * vx u + cos t * vy u) (vz u).
Definition rotx (t : R) (u : vec) : vec := V (vx u) (cos t * vy u - sin t * vz u) (sin t * vy u + cos t * vz u).
(** the perifocal frame: turn by the argument of pericentre, tilt by the inclination, turn by the node *)
Definition perifocal (el : elem) (u : vec) : vec := rotz (el_W el) (rotx (el_i el) (rotz (el_w el) u)).
(** [el] are the osculating elements of [s]: energy, eccentricity vector, orbital plane and direction of the position *)
Definition osculating (mu : R) (s : state) (el : elem) : Prop :=
  0 <= el_e el /\ sma mu s = el_a el /\ ecc_vec mu s = vscal (el_e el) (perifocal el ex) /\
  ang_mom s = vscal (norm (ang_mom s)) (perifocal el ez) /\
  fst s = vscal (norm (fst s)) (perifocal el (V (cos (el_f el)) (sin (el_f el)) 0)).
(** non-parabolic, non-circular, non-equatorial *)
Definition nonsingular (mu : R) (s : state) : Prop :=
  regular mu s /\ energy mu s <> 0 /\ ecc_vec mu s <> vzero /\ cross ez (ang_mom s) <> vzero.
Definition angle_ok (t : R) : Prop := 0 <= t < 2 * PI.
Definition valid (el : elem) : Prop :=
  0 < el_a el * (1 - el_e el) /\ 0 < el_e el /\ 0 < el_i el < PI /\ angle_ok (el_W el) /\ angle_ok (el_w el) /\ angle_ok (el_f el) /\
  0 < 1 + el_e el * cos (el_f el).

(** equinoctial elements: the frame of node W and inclination i, turned back by the node (forward in the retrograde form) *)
Definition eqframe (retro : bool) (i W : R) (u : vec) : vec := rotz W (rotx i (rotz (if retro then W else - W) u)).
(** h + i k is tan(i/2) e^iW, in the retrograde form cot(i/2) e^iW *)
Definition eq_orient (retro : bool) (i W : R) (q : eqel) : Prop :=
  if retro then 0 < i <= PI /\ eq_h q * sin (i / 2) = cos (i / 2) * cos W /\ eq_k q * sin (i / 2) = cos (i / 2) * sin W
  else 0 <= i < PI /\ eq_h q * cos (i / 2) = sin (i / 2) * cos W /\ eq_k q * cos (i / 2) = sin (i / 2) * sin W.
Definition osculating_eq (mu : R) (retro : bool) (s : state) (q : eqel) : Prop :=
  exists i W, eq_orient retro i W q /\
  eq_p q = dot (ang_mom s) (ang_mom s) / mu /\ ecc_vec mu s = eqframe retro i W (V (eq_f q) (eq_g q) 0) /\
  ang_mom s = vscal (norm (ang_mom s)) (eqframe retro i W ez) /\
  fst s = vscal (norm (fst s)) (eqframe retro i W (V (cos (eq_L q)) (sin (eq_L q)) 0)).
(** non-parabolic, not exactly equatorial in the excluded sense of rotation *)
Definition eq_regular (mu : R) (retro : bool) (s : state) : Prop :=
  regular mu s /\ energy mu s <> 0 /\ vz (ang_mom s) <> (if retro then norm (ang_mom s) else - norm (ang_mom s)).
Definition eq_valid (q : eqel) : Prop :=
  0 < eq_p q /\ eq_f q * eq_f q + eq_g q * eq_g q <> 1 /\ 0 < 1 + eq_f q * cos (eq_L q) + eq_g q * sin (eq_L q) /\ - PI < eq_L q <= PI.
