(** * Property theorems: planet (C37), jpl_lp (C39), vsop2013 (C43).  Only statements. *)
From Coq Require Import ZArith List Bool String Ascii Reals.
From Flocq Require Import Core.Core IEEE754.BinarySingleNaN.
From Verif Require Import Outcome Float64 FloatBounds EpochModel PlanetModel PlanetSpec PlanetProofs.
From Verif Require Import JplSpec JplProofs JplElemProofs VsopModel VsopSpec VsopProofs.
From Verif Require JplModel.
Import ListNotations.
Open Scope Z_scope.

(** ** C37: for every user class *)
Theorem C37_eph_v : forall p ts, 6 * Z.of_nat (List.length ts) <= 2 ^ 60 - 1 ->
  eph_v p ts = match u_eph_v p with Some g => g ts | None => rows (u_eph p) ts end.
Proof. exact eph_v_dispatch. Qed.
Print Assumptions C37_eph_v.

(** row i of the default eph_v is eph at the i-th date *)
Theorem C37_eph_v_rows : forall p ts r i t, u_eph_v p = None -> 6 * Z.of_nat (List.length ts) <= 2 ^ 60 - 1 ->
  eph_v p ts = Ret r -> nth_error ts i = Some t ->
  List.length r = (6 * List.length ts)%nat /\ exists pv, u_eph p t = Ret pv /\ firstn 6 (skipn (6 * i) r) = flat pv.
Proof. exact eph_v_rows. Qed.
Print Assumptions C37_eph_v_rows.
(** and more dates than an array of doubles can hold are turned down *)
Theorem C37_eph_v_too_many : forall p ts, u_eph_v p = None -> 2 ^ 60 - 1 < 6 * Z.of_nat (List.length ts) -> exists e, eph_v p ts = Throw e.
Proof. exact eph_v_too_many. Qed.
Print Assumptions C37_eph_v_too_many.

Theorem C37_period : forall dem two_pi p t,
  period dem two_pi p t = match u_period p, u_mu p with
    | Some g, _ => g t
    | None, Some m => match u_eph p t, m with
        | Ret (r, v), Ret mu => Ret (period_from_energy two_pi r v mu)
        | Ret _, Throw e | Throw e, _ => Throw e
        | _, _ => UB end
    | None, None => match get_name dem p with Ret _ => Throw NotImplemented | Throw e => Throw e | UB => UB end
    end.
Proof. exact period_dispatch. Qed.
Print Assumptions C37_period.

Theorem C37_period_unbound : forall two_pi r v mu, is_finite mu = true -> dltb dzero mu = true ->
  dltb (energy_d r v mu) dzero = false -> is_nan (period_from_energy two_pi r v mu) = true.
Proof. exact period_unbound_nan. Qed.
Print Assumptions C37_period_unbound.

Theorem C37_not_implemented : forall dem ic2par f2m par2eq two_pi p t et, never_ni dem p ->
  (period dem two_pi p t = Throw NotImplemented <-> u_period p = None /\ u_mu p = None) /\
  (elements dem ic2par f2m par2eq p t et = Throw NotImplemented <-> u_elements p = None /\ u_mu p = None).
Proof. exact not_implemented_iff. Qed.
Print Assumptions C37_not_implemented.

Theorem C37_elements : forall dem ic2par f2m par2eq p t et,
  elements dem ic2par f2m par2eq p t et = match u_elements p, u_mu p with
    | Some g, _ => g t et
    | None, Some m => match u_eph p t, m with
        | Ret pv, Ret mu => elements_from_posvel ic2par f2m par2eq pv mu et
        | Ret _, Throw e | Throw e, _ => Throw e
        | _, _ => UB end
    | None, None => match get_name dem p with Ret _ => Throw NotImplemented | Throw e => Throw e | UB => UB end
    end.
Proof. exact elements_dispatch. Qed.
Print Assumptions C37_elements.

(** an ellipse with 0 < a < 1 is refused as if it were no ellipse (planet.cpp 49 compares a with 1) *)
Theorem C37_mean_anomaly_refuted : forall (ic2par : posvel -> double -> list double) f2m par2eq pv mu a,
  nth 0 (ic2par pv mu) dzero = a -> is_finite a = true -> (0 < B2R a < 1)%R ->
  elements_from_posvel ic2par f2m par2eq pv mu KEP_M = Throw LogicError.
Proof. exact mean_anomaly_small_ellipse. Qed.
Print Assumptions C37_mean_anomaly_refuted.

Theorem C37_defaults_and_epochs : forall dem ic2par f2m par2eq two_pi p,
  (u_mu p = None -> get_mu_central_body p = Ret (d_of_Z (-1))) /\ (u_mu_self p = None -> get_mu_self p = Ret (d_of_Z (-1))) /\
  (u_radius p = None -> get_radius p = Ret (d_of_Z (-1))) /\ (u_safe_radius p = None -> get_safe_radius p = Ret (d_of_Z (-1))) /\
  (u_name p = None -> get_name dem p = Ret (dem p)) /\ (u_extra p = None -> get_extra_info p = Ret EmptyString) /\
  (forall m, (u_mu p = Some m -> get_mu_central_body p = m) /\ (u_mu_self p = Some m -> get_mu_self p = m) /\
     (u_radius p = Some m -> get_radius p = m) /\ (u_safe_radius p = Some m -> get_safe_radius p = m)) /\
  (forall ep t, mjd2000 ep = Ret t -> eph_epoch p ep = u_eph p t /\ period_epoch dem two_pi p ep = period dem two_pi p t /\
     forall et, elements_epoch dem ic2par f2m par2eq p ep et = elements dem ic2par f2m par2eq p t et).
Proof. exact defaults_and_epochs. Qed.
Print Assumptions C37_defaults_and_epochs.

Example C37_nontrivial :
  match eph_v null_udpla [dzero; done] with
  | Ret [a; _; _; _; e; _; g; _; _; _; k; _] => deqb a done && deqb e done && deqb g done && deqb k done
  | _ => false end%bool = true.
Proof. vm_compute. reflexivity. Qed.
Example C37_nontrivial_unbound : (* at rest at infinity speed: v = 2, r = 1, mu = 1 *)
  is_nan (period_from_energy done (done, dzero, dzero) (dzero, d_of_Z 2, dzero) done) = true /\
  is_nan (period_from_energy done (done, dzero, dzero) (dzero, done, dzero) done) = false.
Proof. vm_compute. split; reflexivity. Qed.

(** ** C39: for every name, every double date *)
Theorem C39_names : forall s,
  (forall n, In n known_names -> str_ci s n -> exists j, JplModel.jpl_ctor s = Ret j) /\
  ((forall n, In n known_names -> ~ str_ci s n) -> exists e, JplModel.jpl_ctor s = Throw e) /\
  (forall t, str_ci s t -> JplModel.jpl_ctor s = JplModel.jpl_ctor t).
Proof. exact jpl_names. Qed.
Print Assumptions C39_names.

(** inside the window the elements are those of the published linear model, a proper ellipse *)
Theorem C39_elements : forall s j t, JplModel.jpl_ctor s = Ret j -> in_window t ->
  exists n el rate, In (n, el, rate) published /\ str_ci s n /\
  exists a e i W w M, elem_spec el rate (B2R t) a e i W w M /\ (0 < B2R e < 1)%R /\ (0 < B2R a)%R /\
    forall m2f, JplModel.f_elements m2f j t = bind (m2f M e) (fun f => Ret [a; e; i; W; w; f]).
Proof. exact jpl_elements_window. Qed.
Print Assumptions C39_elements.

(** and they come in the element type that was asked for; par2eq and f2m stand for the library conversions, whatever they return *)
Theorem C39_element_types : forall s j t, JplModel.jpl_ctor s = Ret j -> in_window t ->
  exists n el rate, In (n, el, rate) published /\ str_ci s n /\
  exists a e i W w M, elem_spec el rate (B2R t) a e i W w M /\
    forall m2f f2m par2eq f, m2f M e = Ret f ->
      JplModel.jpl_elements m2f f2m par2eq j t JplModel.KEP_F = Ret [a; e; i; W; w; f] /\
      JplModel.jpl_elements m2f f2m par2eq j t JplModel.KEP_M = bind (f2m f e) (fun M' => Ret [a; e; i; W; w; M']) /\
      JplModel.jpl_elements m2f f2m par2eq j t JplModel.MEQ = Ret (par2eq [a; e; i; W; w; f] false) /\
      JplModel.jpl_elements m2f f2m par2eq j t JplModel.MEQ_R = Ret (par2eq [a; e; i; W; w; f] true) /\
      JplModel.jpl_elements m2f f2m par2eq j t JplModel.POSVEL = Throw LogicError.
Proof. exact jpl_types_window. Qed.
Print Assumptions C39_element_types.

(** and eph returns a finite state whenever the Kepler solver m2f returns a finite anomaly for that ellipse *)
Theorem C39_eph_finite_partial : forall dcos dsin, unit_range dcos -> unit_range dsin ->
  forall s j t, JplModel.jpl_ctor s = Ret j -> in_window t -> exists M e, fin M /\ fin e /\ (0 < B2R e < 1)%R /\
  forall m2f, match m2f M e with
    | Ret f => fin f -> exists st, JplModel.jpl_eph m2f dcos dsin j t = Ret st /\ List.length st = 6%nat /\ Forall (fun x => fin x) st
    | Throw x => JplModel.jpl_eph m2f dcos dsin j t = Throw x
    | UB => JplModel.jpl_eph m2f dcos dsin j t = UB
    end.
Proof. exact jpl_eph_window. Qed.
Print Assumptions C39_eph_finite_partial.

Theorem C39_outside : forall m2f dcos dsin f2m par2eq j t et,
  ((B2R t <= -73048)%R /\ fin t) \/ ((18263 <= B2R t)%R /\ fin t) \/ t = dinf \/ t = dninf ->
  JplModel.jpl_eph m2f dcos dsin j t = Throw DomainError /\ JplModel.jpl_elements m2f f2m par2eq j t et = Throw DomainError.
Proof. exact jpl_outside. Qed.
Print Assumptions C39_outside.

(** a NaN date is in no window but passes the check *)
Theorem C39_outside_refuted : forall s j, JplModel.jpl_ctor s = Ret j -> exists t, ~ in_window t /\
  exists M e, forall m2f f, m2f M e = Ret f -> exists el, JplModel.f_elements m2f j t = Ret el.
Proof. exact jpl_nan_date. Qed.
Print Assumptions C39_outside_refuted.

Example C39_nontrivial : match JplModel.jpl_ctor "MaRs" with
  | Ret j => match JplModel.f_elements (fun _ _ => Ret dzero) j (d_of_Z 7305) with
             | Ret [a; e; _; _; _; _] => dltb (d_of_Z 200000000000) a && dltb a (d_of_Z 250000000000) && dltb dzero e && dltb e done
             | _ => false end
  | _ => false end%bool = true.
Proof. vm_compute. reflexivity. Qed.
Example C39_nontrivial_names : JplModel.jpl_ctor "Pluto" = Throw LogicError /\ JplModel.jpl_ctor "moon" = Throw OutOfRange /\ in_window (d_of_Z 0).
Proof. exact jpl_name_cases. Qed.

(** ** C43: for every sequence of constructions, copies, moves and evaluations *)
Theorem C43_constructible : forall fn compile eval mus, (forall k a b, deqb a b = true -> compile k a = compile k b) ->
  forall l i name th,
  (exists n k, In (n, k) vsop_names /\ str_ci name n /\ good_thresh th /\ compiles fn compile k th) <->
  snd (vstep compile eval mus (vrun compile eval mus vinit l) (VNew i name th)) = Ret [].
Proof. exact vsop_ctor_accepts. Qed.
Print Assumptions C43_constructible.

Theorem C43_rejected : forall fn compile eval mus l i name th,
  ~ good_thresh th \/ (forall n k, In (n, k) vsop_names -> ~ str_ci name n) ->
  @vstep fn compile eval mus (vrun compile eval mus vinit l) (VNew i name th) = (vrun compile eval mus vinit l, Throw InvalidArgument).
Proof. exact vsop_ctor_rejects. Qed.
Print Assumptions C43_rejected.

(** every object evaluates the function of its own planet and threshold, as if there were no cache *)
Theorem C43_own_function : forall fn compile eval mus, (forall k a b, deqb a b = true -> compile k a = compile k b) ->
  forall l, exists d, evolves_all (compiles fn compile) (fun _ => None) l d /\
  forall i t, snd (vstep compile eval mus (vrun compile eval mus vinit l) (VEph i t)) =
    match d i with Some (k, th) => fresh_state compile eval k th t | None => UB end.
Proof. exact vsop_refines. Qed.
Print Assumptions C43_own_function.

Theorem C43_compiled_once : forall fn compile eval mus l, keys_distinct fn (cache (@vrun fn compile eval mus vinit l)).
Proof. exact vsop_built_once. Qed.
Print Assumptions C43_compiled_once.

Example C43_nontrivial :
  let cf := fun (k : Z) (_ : double) => Ret k in let ev := fun (k : Z) (_ : double) => repeat (d_of_Z k) 6 in
  let w := vrun cf ev (fun _ => dzero) vinit [VNew 0 "Mars" done; VNew 1 "VENUS" done; VNew 2 "mars" done; VMove 3 1] in
  List.length (cache w) = 2%nat /\
  match snd (vstep cf ev (fun _ => dzero) w (VEph 2 dzero)), snd (vstep cf ev (fun _ => dzero) w (VEph 3 dzero)), snd (vstep cf ev (fun _ => dzero) w (VEph 1 dzero)) with
  | Ret (a :: _), Ret (b :: _), UB => deqb a (d_of_Z (4 * 149597870700)) && deqb b (d_of_Z (2 * 149597870700))
  | _, _, _ => false end%bool = true.
Proof. vm_compute. split; reflexivity. Qed.
