(** * Property theorems: the low-precision planets over the real numbers and the Cassini problems of the gym (C63).  Only statements. *)
From Coq Require Import ZArith Reals List String.
From Verif Require Import Outcome Vec3 KepSpec ElemModel ElemSpec TwoBodySpec KplaModel DirectSpec MgaModel MgaSpec MgaFitModel MgaFitSpec JplSpec JplRealSpec JplRealModel JplRealProofs JplRealElem JplThird GymModel GymProofs.
From Verif Require JplModel.
Import ListNotations.
Open Scope R_scope.

(** ** C63 *)
(** Within the window of validity the state of a planet is on the published osculating ellipse of that day, at the published mean
    anomaly. *)
Theorem C63_planet : forall newton, newton_ok newton -> forall s j t, jr_ctor s = Ret j -> -73048 < t < 18263 ->
  exists n el rate st, In (n, el, rate) published /\ str_ci s n /\ jr_eph newton j t = Ret (Some st) /\ on_published_orbit el rate t st /\
    (let a := published_value el rate 0 t * au in let e := published_value el rate 1 t in a * (1 - e) <= norm (fst st) <= a * (1 + e)).
Proof. exact jr_in_window. Qed.
Print Assumptions C63_planet.
Theorem C63_names : forall s, (exists j, jr_ctor s = Ret j) <-> (exists j, JplModel.jpl_ctor s = Ret j).
Proof. exact jr_same_names. Qed.
Print Assumptions C63_names.
Theorem C63_outside : forall newton j t, t <= -73048 \/ 18263 <= t -> jr_eph newton j t = Throw DomainError /\ forall et, jr_elements newton j t et = Throw DomainError.
Proof. exact jr_outside. Qed.
Print Assumptions C63_outside.
(** The table satisfies Kepler's third law: mean motion squared times semi-major axis cubed is the Sun's mu, to 1.3 parts in a thousand. *)
Theorem C63_third_law : forall n el rate, In (n, el, rate) published ->
  let a := published_value el rate 0 (1 / 2) * au in let w := deg (IZR (nth 3 rate 0%Z) / 10 ^ 8) / (36525 * 86400) in
  Rabs (w ^ 2 * a ^ 3 - mu_sun) <= 13 / 10000 * mu_sun.
Proof. exact third_law. Qed.
Print Assumptions C63_third_law.
(** The elements in every form describe that state: osculating elements, the published mean anomaly brought to one turn, equinoctial
    elements that convert back to it. *)
Theorem C63_elements : forall newton, newton_ok newton -> forall s j t, jr_ctor s = Ret j -> -73048 < t < 18263 ->
  exists el m q st n e0 rate (k : Z), jr_elements newton j t JplModel.KEP_F = Ret (Some el) /\ jr_eph newton j t = Ret (Some st) /\ osculating mu_sun st el /\
    In (n, e0, rate) published /\ str_ci s n /\
    jr_elements newton j t JplModel.KEP_M = Ret (Some (El (el_a el) (el_e el) (el_i el) (el_W el) (el_w el) m)) /\ - PI < m <= PI /\
      m = deg (published_value e0 rate 3 t - published_value e0 rate 4 t) + 2 * IZR k * PI /\
    jr_elements newton j t JplModel.MEQ = Ret (Some (as_el q)) /\ eq2ic q mu_sun false = Some st /\
    jr_elements newton j t JplModel.POSVEL = Throw LogicError.
Proof. exact jr_elements_forms. Qed.
Print Assumptions C63_elements.
(** False: that the inclination returned is in [0, pi], and that the retrograde equinoctial elements are numbers at every date at which
    the planet has a state. *)
Theorem C63_inclination_refuted : forall newton, newton_ok newton -> exists j el, jr_ctor "earth"%string = Ret j /\ jr_elements newton j 0 JplModel.KEP_F = Ret (Some el) /\ el_i el < 0.
Proof. exact earth_negative. Qed.
Print Assumptions C63_inclination_refuted.
Theorem C63_retrograde_refuted : forall newton, newton_ok newton -> exists j t, jr_ctor "earth"%string = Ret j /\ -73048 < t < 18263 /\
  (exists st, jr_eph newton j t = Ret (Some st)) /\ jr_elements newton j t JplModel.MEQ_R = Ret None.
Proof. exact earth_retrograde. Qed.
Print Assumptions C63_retrograde_refuted.
(** The three Cassini problems are constructed, and every decision vector within their bounds has a fitness of one number or NaN: the
    dates of the encounters are within the window of the ephemerides, no undefined behaviour is reached, and the only exception is
    that of a Lambert leg in a vertical plane. *)
Theorem C63_cassini : forall newton, newton_ok newton -> forall tof, tof = tofs_direct \/ tof = tofs_alpha \/ tof = tofs_eta -> exists P, cassini_with newton tof = Ret P /\ mga_ok P /\ n_legs P = 5%nat /\
  m_tofs P = tof /\ m_vinf P = 3000 /\ m_ins P = Some (98 / 100, 108950000) /\ get_nobj P = 1%nat /\ common_mu P = mu_sun /\
  (forall i, (i < 4)%nat -> (b_mu (nth (S i) (m_seq P) b0), b_safe (nth (S i) (m_seq P) b0)) =
     nth i [(324859000000000, 6657200); (324859000000000, 6657200); (398600441800000, 7015800); (126686534000000000, 643428000)] (0, 0)) /\ b_mu (nth 5 (m_seq P) b0) = 37931187000000000 /\
  forall x, in_box (get_bounds P) x -> exists t0 T pl, durations (enc_of tof) x t0 T /\ List.length T = 5%nat /\ -1000 <= t0 <= 0 /\ (forall t, In t T -> 0 < t) /\ total T <= 9270 /\
    (forall i, (i <= 5)%nat -> b_eph (nth i (m_seq P) b0) (date t0 T i) = Ret (Some (pl i)) /\
       exists el rate, In (nth i ["earth"; "venus"; "venus"; "earth"; "jupiter"; "saturn"]%string ""%string, el, rate) published /\ on_published_orbit el rate (date t0 T i) (pl i)) /\
    (((exists i, (i < 5)%nat /\ vertical (fst (pl i)) (fst (pl (S i)))) /\ fitness P x = Throw DomainError) \/
     ((forall i, (i < 5)%nat -> ~ vertical (fst (pl i)) (fst (pl (S i)))) /\ exists dv, fitness P x = Ret [dv])).
Proof. exact cassini_total. Qed.
Print Assumptions C63_cassini.
(** the bounds of the three problems: launch date and durations in days *)
Theorem C63_bounds : forall newton, exists P1 P2 P3, cassini1 newton = Ret P1 /\ cassini1_a newton = Ret P2 /\ cassini1_n newton = Ret P3 /\
  (forall t0 a b c d e, in_box (get_bounds P1) [t0; a; b; c; d; e] <-> -1000 <= t0 <= 0 /\ 30 <= a <= 400 /\ 100 <= b <= 470 /\ 30 <= c <= 400 /\ 400 <= d <= 2000 /\ 1000 <= e <= 6000) /\
  (forall t0 tof a b c d e, in_box (get_bounds P2) [t0; tof; a; b; c; d; e] <-> -1000 <= t0 <= 0 /\ 4000 <= tof <= 7000 /\ forall q, In q [a; b; c; d; e] -> 1 / 1000 <= q <= 999 / 1000) /\
  (forall t0 a b c d e, in_box (get_bounds P3) [t0; a; b; c; d; e] <-> -1000 <= t0 <= 0 /\ forall q, In q [a; b; c; d; e] -> 1 / 1000 <= q <= 999 / 1000) /\
  m_tofs P3 = TEta 7000 /\ (forall x, in_box (get_bounds P1) x \/ in_box (get_bounds P3) x -> List.length x = 6%nat) /\ (forall x, in_box (get_bounds P2) x -> List.length x = 7%nat).
Proof. exact cassini_bounds. Qed.
Print Assumptions C63_bounds.
(** False: that get_extra_info of the problems returns.  It refers to a name that the module does not define. *)
Theorem C63_extra_info_refuted : forall (A : Type) (builtins : string -> option A) (globals : list (string * A)) names head,
  map fst globals = module_globals -> builtins "_seq_cassini1"%string = None -> extra_info builtins globals names head = None.
Proof. exact @extra_info_fails. Qed.
Print Assumptions C63_extra_info_refuted.
(** days rounded from the best known solution of the direct encoding, and a last leg that is too long *)
Example C63_example : forall newton, exists P, cassini1 newton = Ret P /\ in_box (get_bounds P) [-789; 158; 449; 54; 1024; 4552] /\ ~ in_box (get_bounds P) [-789; 158; 449; 54; 1024; 6552].
Proof. exact solution_in_box. Qed.
Print Assumptions C63_example.
