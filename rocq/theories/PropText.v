(** * Property theorem: C64, the texts of legs, planets, Lambert problems and Stark problems.
    Number formats are parameters: [show] for a double, [show_n] for an unsigned.  [faithful] (TextSpec.v): the text of a number uses the characters of
    numbers only, and different numbers have different texts.  fmt's "{}" is such a format. *)
From Coq Require Import ZArith Reals List String Ascii.
From Verif Require Import Outcome Float64 Vec3 TwoBodySpec TextModel TextSpec TextProofs LegModel LegSpec HfModel HfSpec TextObjModel TextObjProofs TextMain.
From Verif Require Import LambertModel LambertProofs LambertReal LambertVec LambertSpec LambertTime ElemModel ElemSpec KepSpec KplaModel JplSpec JplRealModel JplRealSpec.
From Verif Require SfModel.
Import ListNotations.
Open Scope string_scope.
Open Scope Z_scope.

(** *** legs *)
(** a valid leg is printed exactly when its mismatch can be computed, and its data are in the text *)
Theorem C64_leg_text : forall show show_n mism l, valid_leg l ->
  ((exists s, sf_text show show_n mism l = Ret s) <-> exists m, mism l = Ret m) /\
  forall s, sf_text show show_n mism l = Ret s -> exists m, mism l = Ret m /\
    has ("Number of segments: " ++ show_n (sf_n l) ++ nl) s /\ has ("Number of fwd segments: " ++ show_n (sf_nf l) ++ nl) s /\ has ("Number of bck segments: " ++ show_n (sf_nb l) ++ nl) s /\
    has ("Maximum thrust: " ++ show (sf_T l) ++ nl) s /\ has ("Central body gravitational parameter: " ++ show (LegModel.sf_mu l) ++ nl) s /\ has ("Specific impulse: " ++ show (LegModel.sf_isp l) ++ nl) s /\
    has ("Time of flight: " ++ show (LegModel.sf_tof l) ++ nl) s /\ has ("Initial mass: " ++ show (LegModel.sf_ms l) ++ nl) s /\ has ("Final mass: " ++ show (LegModel.sf_mf l) ++ nl) s /\
    has ("State at departure: " ++ show_rv show (sf_rvs l) ++ nl) s /\ has ("State at arrival: " ++ show_rv show (sf_rvf l) ++ nl) s /\ has ("Throttles values: " ++ show_list show (sf_thr l) ++ nl) s /\
    has ("Mismatch constraints: " ++ show_list show m ++ nl) s /\
    has ("Throttle constraints: " ++ show_list show (map (fun j => throttle_residual (seg_throttle (sf_thr l) (Z.of_nat j))) (seq 0 (Z.to_nat (sf_n l)))) ++ nl) s.
Proof. exact sf_prints. Qed.
Print Assumptions C64_leg_text.
(** with a faithful format the text determines the leg, except for its cut *)
Theorem C64_leg_determined : forall show show_n, faithful show -> faithful show_n -> forall mism l l' s,
  sf_text show show_n mism l = Ret s -> sf_text show show_n mism l' = Ret s -> l' = up_cut (sf_cut l') l.
Proof. exact sf_determines. Qed.
Print Assumptions C64_leg_determined.
(** the cut itself cannot be read from the text (in the code the mismatch depends on the cut through the split only) *)
Theorem C64_cut_refuted : exists l l', valid_leg l /\ valid_leg l' /\ dltb (sf_cut l) (sf_cut l') = true /\
  forall show show_n mism, mism l = mism l' -> sf_text show show_n mism l = sf_text show show_n mism l'.
Proof. exact cut_unseen. Qed.
Print Assumptions C64_cut_refuted.
(** so printing a leg can throw: the mismatch is computed for the text *)
Theorem C64_print_throws_refuted : forall show show_n newton, picky newton -> exists l,
  (SfModel.s_nseg l = 2 /\ SfModel.s_fwd l = 1 /\ SfModel.s_bck l = 1 /\ List.length (SfModel.s_thr l) = 6%nat) /\
  (0 < SfModel.s_tof l /\ 0 < SfModel.s_T l /\ 0 < SfModel.s_isp l /\ 0 < SfModel.s_mu l /\ 0 < SfModel.s_ms l /\ 0 < SfModel.s_mf l)%R /\
  sf_text_r show show_n newton l = Throw DomainError.
Proof. exact sf_print_throws. Qed.
Print Assumptions C64_print_throws_refuted.
(** the high-fidelity leg is always printed *)
Theorem C64_hf_text : forall show show_n l, hf_wf l -> exists s, hf_text show show_n l = Ret s /\
    has ("Number of segments: " ++ show_n (hf_n l) ++ nl) s /\ has ("Number of fwd segments: " ++ show_n (hf_nf l) ++ nl) s /\ has ("Number of bck segments: " ++ show_n (hf_nb l) ++ nl) s /\
    has ("Maximum thrust: " ++ show (hf_T l) ++ nl) s /\ has ("Central body gravitational parameter: " ++ show (hf_mu l) ++ nl) s /\ has ("Specific impulse: " ++ show (hf_isp l) ++ nl) s /\
    has ("Time of flight: " ++ show (hf_tof l) ++ nl) s /\ has ("Initial mass: " ++ show (nth 6 (hf_rvms l) dzero) ++ nl) s /\ has ("Final mass: " ++ show (nth 6 (hf_rvmf l) dzero) ++ nl) s /\
    has ("State at departure: " ++ show_rv show (firstn 6 (hf_rvms l)) ++ nl) s /\ has ("State at arrival: " ++ show_rv show (firstn 6 (hf_rvmf l)) ++ nl) s /\ has ("Throttles values: " ++ show_list show (hf_thr l) ++ nl) s /\
    has ("Throttle constraints: " ++ show_list show (map (fun j => throttle_residual (seg_throttle (hf_thr l) (Z.of_nat j))) (seq 0 (Z.to_nat (hf_n l)))) ++ nl) s.
Proof. exact hf_prints. Qed.
Print Assumptions C64_hf_text.
Theorem C64_hf_determined : forall show show_n, faithful show -> faithful show_n -> forall l l' s, hf_wf l -> hf_wf l' -> hf_text show show_n l = Ret s -> hf_text show show_n l' = Ret s ->
  (hf_rvms l, hf_thr l, hf_rvmf l, hf_tof l, hf_T l, hf_isp l, hf_mu l, hf_n l, hf_nf l, hf_nb l) = (hf_rvms l', hf_thr l', hf_rvmf l', hf_tof l', hf_T l', hf_isp l', hf_mu l', hf_n l', hf_nf l', hf_nb l').
Proof. exact hf_determines. Qed.
Print Assumptions C64_hf_determined.
(** faithful formats exist *)
Theorem C64_formats : (exists show : double -> string, faithful show) /\ (exists show_n : Z -> string, faithful show_n).
Proof. exact formats_exist. Qed.
Print Assumptions C64_formats.

(** *** a Stark problem (the code prints with a precision of 16 digits, which is not faithful: see DESIGN.md) *)
Theorem C64_stark_determined : forall (D : Type) (show : D -> string), faithful show -> forall mu veff tol mu' veff' tol',
  render (stark_lines show mu veff tol) = render (stark_lines show mu' veff' tol') -> mu = mu' /\ veff = veff' /\ tol = tol'.
Proof. exact @stark_inj. Qed.
Print Assumptions C64_stark_determined.

(** *** Lambert problems, in any arithmetic: the text is defined (no vector is read outside its range), has two lines per solution, in the order of the solutions,
    with the iterations, x and velocities of that solution *)
Theorem C64_lambert_text : forall (F : Type) (O : arith F) show show_n r0 r1 tof mu cw mr L, u32_ok O -> 0 <= mr < u32 -> lambert O r0 r1 tof mu cw mr = Ret L ->
  exists ls, lambert_text O show show_n r0 r1 tof mu L = Ret ls /\ List.length ls = (15 + 4 * Z.to_nat (l_nmax L))%nat /\
    nth_error ls 1 = Some ("mu = ", show mu) /\ nth_error ls 2 = Some ("r1 = ", show_v show r0) /\ nth_error ls 3 = Some ("r2 = ", show_v show r1) /\ nth_error ls 4 = Some ("Time of flight: ", show tof) /\
    nth_error ls 6 = Some ("chord = ", show (l_c L)) /\ nth_error ls 7 = Some ("semiperimeter = ", show (l_s L)) /\ nth_error ls 8 = Some ("lambda = ", show (l_lambda L)) /\
    nth_error ls 11 = Some ("Maximum number of revolutions: ", show_n (l_nmax L)) /\
    (exists a b, nth_error ls 13 = Some a /\ nth_error ls 14 = Some b /\ entry_at show show_n (lp_a O (l_s L)) (l_v0 L) (l_v1 L) (l_x L) (l_iters L) 0 "0 revs, Iters: " ", x: " a b) /\
    forall N, (1 <= N <= Z.to_nat (l_nmax L))%nat -> exists a b c d, nth_error ls (4 * N + 11) = Some a /\ nth_error ls (4 * N + 12) = Some b /\ nth_error ls (4 * N + 13) = Some c /\ nth_error ls (4 * N + 14) = Some d /\
      entry_at show show_n (lp_a O (l_s L)) (l_v0 L) (l_v1 L) (l_x L) (l_iters L) (2 * N - 1) (show_n (Z.of_nat N) ++ " revs,  left. Iters: ") ", x: " a b /\
      entry_at show show_n (lp_a O (l_s L)) (l_v0 L) (l_v1 L) (l_x L) (l_iters L) (2 * N) (show_n (Z.of_nat N) ++ " revs, right. Iters: ") ", a: " c d.
Proof. exact @lambert_text_ok. Qed.
Print Assumptions C64_lambert_text.
(** over the reals, the number printed after "a: " is the semi-major axis of the transfer of that line *)
Theorem C64_lambert_a : forall r0 r1 tof mu cw mr L i x, vz (cross r0 r1) <> 0%R -> lambert_r r0 r1 tof mu cw mr = Ret L -> nth_error (l_x L) i = Some (Some x) -> (x * x <> 1)%R ->
  exists v, nth_error (l_v0 L) i = Some (sv v) /\ lp_a RA (l_s L) (Some x) = Some (sma mu (r0, v)).
Proof. exact lambert_a. Qed.
Print Assumptions C64_lambert_a.
(** and the header gives the time of flight in the units of C57: the text's "non dimensional time of flight" *)
Theorem C64_lambert_time : forall r0 r1 tof mu cw mr L, vz (cross r0 r1) <> 0%R -> lambert_r r0 r1 tof mu cw mr = Ret L -> lp_ndt RA (Some tof) (Some mu) (l_s L) = Some (tof / time_unit r0 r1 mu)%R.
Proof. exact lambert_ndt. Qed.
Print Assumptions C64_lambert_time.
(** the label of x is missing on the lines of the right branch: it reads "a: ", twice *)
Theorem C64_label_refuted : exists r0 r1 tof mu cw mr L, lambert_r r0 r1 tof mu cw mr = Ret L /\ 1 <= l_nmax L /\
  forall show show_n, (forall a, number_text (show a)) -> (forall n, number_text (show_n n)) ->
  exists ls head rest, lambert_text RA show show_n (sv r0) (sv r1) (Some tof) (Some mu) L = Ret ls /\ nth_error ls 17 = Some (head, rest) /\ ~ has_char "x" head /\ ~ has_char "x" rest.
Proof. exact label_wrong. Qed.
Print Assumptions C64_label_refuted.

(** *** planets *)
Theorem C64_planet_determined : forall (D : Type) (show : D -> string), faithful show -> forall name cls mu ms ra sr ex name' cls' mu' ms' ra' sr' ex',
  ~ has_char "010" name -> ~ has_char "010" cls -> ~ has_char "010" name' -> ~ has_char "010" cls' ->
  planet_text show name cls mu ms ra sr ex = planet_text show name' cls' mu' ms' ra' sr' ex' -> (name, cls, mu, ms, ra, sr, ex) = (name', cls', mu', ms', ra', sr', ex').
Proof. exact @planet_determines. Qed.
Print Assumptions C64_planet_determined.
Theorem C64_planet_extra : forall (D : Type) (show : D -> string) name cls mu ms ra sr ex, ex <> "" -> has (nl ++ "Extra info:" ++ nl ++ ex) (planet_text show name cls mu ms ra sr ex).
Proof. exact @planet_extra. Qed.
Print Assumptions C64_planet_extra.
(** a Keplerian planet made from a state prints the osculating elements of the state, angles in degrees; the mean anomaly only for an ellipse *)
Theorem C64_keplerian : forall show show_date ref s mu, nonsingular mu s -> exists el rest, osculating mu s el /\ valid el /\
  kep_extra show show_date (ctor_state ref s mu) =
    ([("Keplerian planet elements: ", ""); ("Semi major axis: ", show (Some (el_a el))); ("Semi major axis (AU): ", show (Some (el_a el / 149597870700)%R))] ++ element_lines show el ++ rest ++
     [("Elements reference epoch (MJD2000): ", show (Some ref)); ("Elements reference epoch (UTC): ", show_date ref); ("r at ref. = ", coords show (fst s)); ("v at ref. = ", coords show (snd s))])%list /\
  ((0 < energy mu s)%R -> rest = []) /\
  ((energy mu s < 0)%R -> exists E, same_point_ellipse (el_e el) E (el_f el) /\ rest = [("Mean anomly (deg.): ", show (Some (degrees (E - el_e el * sin E)%R)))]).
Proof. exact kep_lines. Qed.
Print Assumptions C64_keplerian.
(** a low-precision planet prints the osculating elements of its state at date 0 *)
Theorem C64_jpl : forall show show_date newton name j, newton_ok newton -> jr_ctor name = Ret j -> exists el st m, osculating mu_sun st el /\ jr_eph newton j 0 = Ret (Some st) /\
  jr_elements newton j 0 JplModel.KEP_M = Ret (Some (El (el_a el) (el_e el) (el_i el) (el_W el) (el_w el) m)) /\
  jr_extra show show_date newton j = Ret ([("", ""); ("Low-precision planet elements: ", ""); ("Semi major axis (AU): ", show (Some (el_a el / 149597870700)%R))] ++ element_lines show el ++
    [("Mean anomly (deg.): ", show (Some (degrees m))); ("Elements reference epoch (MJD2000): ", show (Some 0%R)); ("Elements reference epoch (date): ", show_date 0%R); ("r at ref. = ", coords show (fst st)); ("v at ref. = ", coords show (snd st))])%list.
Proof. exact jr_lines. Qed.
Print Assumptions C64_jpl.

Example C64_example : faithful dec_z /\
  planet_text dec_z "Earth" "planet" 1 (-20) 6378 7000 "far" =
  "Planet name: Earth" ++ nl ++ "C++ class name: planet" ++ nl ++ nl ++ "mu central body (-1 if not defined): 1" ++ nl ++ "mu body (-1 if not defined): -20" ++ nl ++
  "radius body (-1 if not defined): 6378" ++ nl ++ "safe body radius (-1 if not defined): 7000" ++ nl ++ nl ++ "Extra info:" ++ nl ++ "far".
Proof. split; [exact dec_z_faithful|vm_compute; reflexivity]. Qed.
Example C64_example_leg : exists s, default_leg_text = Ret s /\ has ("Number of segments: 2" ++ nl) s.
Proof. exact default_leg_text_ok. Qed.
