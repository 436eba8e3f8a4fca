(** * Property theorems: planet_to_keplerian (C50), planets written in Python (C51).  Only statements. *)
From Coq Require Import ZArith List Bool String Reals.
From Verif Require Import Outcome Float64 KepSpec Vec3 TwoBodyModel TwoBodySpec ElemModel ElemSpec KplaModel KplaSpec P2kModel P2kSpec P2kProofs.
From Verif Require PlanetModel PlanetSpec PyPlanetModel PyPlanetSpec PyPlanetProofs.
Import ListNotations.

(** ** C50: the osculating Keplerian planet.  Real-number model; dates in days. *)
Open Scope R_scope.
(** at the chosen date it is where the original is; the other data are copied *)
Theorem C50_matches : forall newton p when given mu s ms ra sr name, newton_ok newton -> mu_used p given mu -> answers p when s ms ra sr name -> elliptic mu s \/ hyperbolic mu s ->
  exists k, planet_to_keplerian p when given = Ret k /\ p_eph (planet_of newton k) when = p_eph p when /\
    p_mu (planet_of newton k) = Ret mu /\ p_mu_self (planet_of newton k) = Ret ms /\ p_radius (planet_of newton k) = Ret ra /\ p_safe (planet_of newton k) = Ret sr /\
    p_name (planet_of newton k) = Ret (name ++ "(K)")%string.
Proof. exact p2k_matches. Qed.
Print Assumptions C50_matches.
(** at every other date it is on the two-body orbit *)
Theorem C50_motion : forall newton p when given mu s ms ra sr name, newton_ok newton -> mu_used p given mu -> answers p when s ms ra sr name -> elliptic mu s ->
  exists k, planet_to_keplerian p when given = Ret k /\ forall t, exists s', p_eph (planet_of newton k) t = Ret (Some s') /\ flow_at mu s ((t - when) * 86400) s'.
Proof. exact p2k_motion. Qed.
Print Assumptions C50_motion.
(** Full statement: at every date.  Missing: hyperbolic planets far from the date, where the bracket of the propagator misses
    the root (C10_hyperbolic_refuted). *)
Theorem C50_hyperbolic_motion_partial : forall newton p when given mu s ms ra sr name, newton_ok newton -> mu_used p given mu -> answers p when s ms ra sr name -> hyperbolic mu s ->
  exists k, planet_to_keplerian p when given = Ret k /\ forall t, mean_motion mu s * Rabs ((t - when) * 86400) <= 10 ^ 9 ->
    exists s', p_eph (planet_of newton k) t = Ret (Some s') /\ flow_at mu s ((t - when) * 86400) s'.
Proof. exact p2k_motion_h. Qed.
Print Assumptions C50_hyperbolic_motion_partial.
Theorem C50_motion_sound : forall newton p when given mu s ms ra sr name, newton_sound newton -> mu_used p given mu -> answers p when s ms ra sr name -> regular mu s -> energy mu s <> 0 ->
  exists k, planet_to_keplerian p when given = Ret k /\ forall t s', p_eph (planet_of newton k) t = Ret (Some s') -> flow_at mu s ((t - when) * 86400) s'.
Proof. exact p2k_sound. Qed.
Print Assumptions C50_motion_sound.
(** the reported elements are the osculating ones of the original at the chosen date *)
Theorem C50_elements : forall p when given mu s ms ra sr name, mu_used p given mu -> answers p when s ms ra sr name -> nonsingular mu s -> energy mu s < 0 ->
  exists k el, planet_to_keplerian p when given = Ret k /\ osculating mu s el /\ valid el /\ forall t, kpla_elements (f_core k) t KEP_F = Ret (Some el).
Proof. exact p2k_elements. Qed.
Print Assumptions C50_elements.
(** a planet that moves on a two-body orbit already is reproduced at every date, whatever date is chosen *)
Theorem C50_two_body : forall newton p when given mu s ms ra sr name, newton_ok newton -> mu_used p given mu -> answers p when s ms ra sr name -> elliptic mu s ->
  (forall t, exists s', p_eph p t = Ret (Some s') /\ flow_at mu s ((t - when) * 86400) s') ->
  exists k, planet_to_keplerian p when given = Ret k /\ same_eph (planet_of newton k) p.
Proof. exact p2k_two_body. Qed.
Print Assumptions C50_two_body.
Theorem C50_keplerian : forall newton ref s mu when name ms ra sr, newton_ok newton -> elliptic mu s ->
  let p := planet_of newton (mk_kfull (ctor_state ref s mu) name ms ra sr) in
  exists k, planet_to_keplerian p when None = Ret k /\ same_eph (planet_of newton k) p.
Proof. exact p2k_keplerian. Qed.
Print Assumptions C50_keplerian.
(** without a gravitational parameter it refuses; what the planet raises is passed on *)
Theorem C50_unknown_mu : forall p when name, p_mu p = Ret (-1) -> p_name p = Ret name -> planet_to_keplerian p when None = Throw InvalidArgument.
Proof. exact p2k_unknown_mu. Qed.
Print Assumptions C50_unknown_mu.
Theorem C50_raises : forall p when given mu e, mu_used p given mu -> p_eph p when = Throw e -> planet_to_keplerian p when given = Throw e.
Proof. exact p2k_raises. Qed.
Print Assumptions C50_raises.
(** a planet that does not move on an orbit is met at one date and left at another *)
Example C50_example : forall newton, newton_ok newton -> exists k, planet_to_keplerian drifter 0 (Some 1) = Ret k /\
  p_eph (planet_of newton k) 0 = p_eph drifter 0 /\ p_eph (planet_of newton k) (PI / 2 / 86400) = Ret (Some (V 0 1 0, V (-1) 0 0)) /\
  p_eph drifter (PI / 2 / 86400) <> p_eph (planet_of newton k) (PI / 2 / 86400).
Proof. exact drifter_example. Qed.

(** ** C51: for every Python object.  Doubles. *)
Import PlanetModel PyPlanetModel PyPlanetSpec PyPlanetProofs.
Open Scope Z_scope.
(** what planet() refuses: planets, classes, and objects without a callable eph *)
Theorem C51_accepts : forall ic2par f2m par2eq two_pi o, let py_planet := py_planet ic2par f2m par2eq two_pi in
  ((exists e, py_planet o = Throw e) <-> o_kind o <> Instance \/ forall f, o_eph o <> Method f) /\
  (py_planet o = Throw InvalidArgument <-> o_kind o <> Instance) /\
  (py_planet o = Throw NotImplemented <-> o_kind o = Instance /\ forall f, o_eph o <> Method f) /\
  py_planet o <> UB.
Proof. exact py_planet_cases. Qed.
Print Assumptions C51_accepts.
(** the wrapper is transparent: the planet behaves as if it had exactly the callable methods of the object (C37 says how) *)
Theorem C51_transparent : forall dem ic2par f2m par2eq two_pi o u, o_kind o = Instance -> same_methods o u -> dem u = o_type_name o ->
  exists p, py_planet ic2par f2m par2eq two_pi o = Ret p /\
  (forall t, eph p t = eph u t) /\ (forall ts, eph_v p ts = eph_v u ts) /\
  get_mu_central_body p = get_mu_central_body u /\ get_mu_self p = get_mu_self u /\ get_radius p = get_radius u /\ get_safe_radius p = get_safe_radius u /\
  get_name dem p = get_name dem u /\ get_extra_info p = get_extra_info u /\
  ((exists n, get_name dem u = Ret n) -> (forall t, period dem two_pi p t = period dem two_pi u t) /\
     forall t et, elements dem ic2par f2m par2eq p t et = elements dem ic2par f2m par2eq u t et).
Proof. exact transparent. Qed.
Print Assumptions C51_transparent.
(** eph_v as seen from Python, for an object without eph_v: row i is the state at date i *)
Theorem C51_table : forall ic2par f2m par2eq two_pi o u ts, o_kind o = Instance -> same_methods o u -> u_eph_v u = None -> 6 * Z.of_nat (List.length ts) <= 2 ^ 60 - 1 ->
  exists p, py_planet ic2par f2m par2eq two_pi o = Ret p /\
  match bind_eph_v p ts with
  | Ret tab => table_of (u_eph u) ts tab
  | Throw e => exists t, In t ts /\ u_eph u t = Throw e
  | UB => exists t, In t ts /\ u_eph u t = UB
  end.
Proof. exact binding_python. Qed.
Print Assumptions C51_table.
(** and for every other planet without eph_v *)
Theorem C51_table_cpp : forall p ts, u_eph_v p = None -> 6 * Z.of_nat (List.length ts) <= 2 ^ 60 - 1 ->
  match bind_eph_v p ts with
  | Ret tab => table_of (u_eph p) ts tab
  | Throw e => exists t, In t ts /\ u_eph p t = Throw e
  | UB => exists t, In t ts /\ u_eph p t = UB
  end.
Proof. exact binding_default. Qed.
Print Assumptions C51_table_cpp.
(** with eph_v: rows of six of what it returns, and undefined behaviour exactly when it returns too little *)
Theorem C51_own_table : forall p ts r, eph_v p ts = Ret r -> (bind_eph_v p ts = UB <-> (List.length r < 6 * List.length ts)%nat) /\
  ((6 * List.length ts <= List.length r)%nat -> exists tab, bind_eph_v p ts = Ret tab /\ List.length tab = List.length ts /\
     forall i, (i < List.length ts)%nat -> nth_error tab i = Some (firstn 6 (skipn (6 * i) r))).
Proof. exact binding_ok. Qed.
Print Assumptions C51_own_table.
(** nothing checks the length of what the object's eph_v returns *)
Theorem C51_own_table_refuted : forall ic2par f2m par2eq two_pi, exists o p, py_planet ic2par f2m par2eq two_pi o = Ret p /\ eph_v p [dzero] = Ret [done; dzero; dzero] /\ bind_eph_v p [dzero] = UB.
Proof. exact binding_short. Qed.
Print Assumptions C51_own_table_refuted.
(** extract and is_: as documented except for [object] (class 0), which returns nothing *)
Theorem C51_extract : forall h t, t <> PyClass 0 -> extract_doc h t (extract h t).
Proof. exact extract_doc_ok. Qed.
Print Assumptions C51_extract.
Theorem C51_extract_refuted : exists h, ~ extract_doc h (PyClass 0) (extract h (PyClass 0)).
Proof. exact extract_object. Qed.
Print Assumptions C51_extract_refuted.
Theorem C51_extract_same : forall h t h', extract h t = Ret (Some h') -> h' = h.
Proof. exact extract_same. Qed.
Print Assumptions C51_extract_same.
Theorem C51_is : forall h t, (exists e, is_ h t = Throw e /\ extract h t = Throw e) \/ exists r, extract h t = Ret r /\ is_ h t = Ret (match r with None => false | Some _ => true end).
Proof. exact is_extract. Qed.
Print Assumptions C51_is.
Example C51_example : forall ic2par f2m par2eq two_pi, exists p, py_planet ic2par f2m par2eq two_pi plain_obj = Ret p /\
  bind_eph_v p [dzero; done] = Ret [[done; dzero; dzero; dzero; done; dzero]; [done; done; dzero; dzero; done; dzero]] /\
  get_mu_self p = Ret (d_of_Z (-1)) /\ get_name (fun _ => ""%string) p = Ret "my_planet"%string /\ elements (fun _ => ""%string) ic2par f2m par2eq p dzero JplModel.KEP_F = Throw NotImplemented.
Proof. exact plain_example. Qed.
