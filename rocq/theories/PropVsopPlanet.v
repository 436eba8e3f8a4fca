(** * C71: vsop2013 planets as planets *)
From Coq Require Import ZArith Reals String List.
From Flocq Require Import Core.Core IEEE754.BinarySingleNaN.
From Verif Require Import Outcome Float64 Vec3 TwoBodySpec VsopModel PlanetModel FloatErrSpec FloatErr MgaFitModel VsopPlanetModel VsopPlanetSpec VsopPlanetProofs.
Import ListNotations.
Open Scope R_scope.

(** the ephemeris at a date is the series at that date, counted in thousands of Julian years from J2000, in SI units *)
Theorem C71_time : forall cart t, vsop_real cart t = (vscal au (fst (cart (millennia t))), vscal (au / 86400) (snd (cart (millennia t)))).
Proof. exact vsop_time. Qed.
Print Assumptions C71_time.
(** for a series whose velocities are the derivatives of its positions, so are those of the planet, in metres per second *)
Theorem C71_moving : forall cart, series_consistent cart -> moving (vsop_real cart).
Proof. exact vsop_moving. Qed.
Print Assumptions C71_moving.
(** in doubles the conversion of units costs at most three units in the last place *)
Theorem C71_converts : forall fn eval text (p : impl fn) t o, eval (i_state p) t = o -> List.length o = 6%nat -> (forall x, In x o -> is_finite x = true /\ Rabs (B2R x) <= 2 ^ 900) ->
  exists r v, eph (vsop_udpla fn eval text p) t = Ret (r, v) /\
    let near e a x := is_finite a = true /\ Rabs (B2R a - e * x) <= 3 * u * Rabs (e * x) + 2 * eta in let c i := B2R (nth i o dzero) in
    near au (fst (fst r)) (c 0%nat) /\ near au (snd (fst r)) (c 1%nat) /\ near au (snd r) (c 2%nat) /\
    near (au / 86400) (fst (fst v)) (c 3%nat) /\ near (au / 86400) (snd (fst v)) (c 4%nat) /\ near (au / 86400) (snd v) (c 5%nat).
Proof. exact vsop_converts. Qed.
Print Assumptions C71_converts.
(** the name says which planet of the series it is and which threshold was asked for, and planets with the same name agree in both
    (the texts of the thresholds; [text] is fmt's) *)
Theorem C71_name : forall fn eval text dem (p : impl fn), get_name dem (vsop_udpla fn eval text p) = Ret ("vsop2013 " ++ i_name p ++ ", threshold=" ++ text (i_thresh p))%string.
Proof. exact (fun fn eval text dem p => vsop_name fn eval text p dem). Qed.
Print Assumptions C71_name.
Theorem C71_name_tells : forall fn eval text dem (p p' : impl fn), let names := ["mercury"; "venus"; "earth_moon"; "mars"; "jupiter"; "saturn"; "uranus"; "neptune"; "pluto"]%string in
  In (i_name p) names -> In (i_name p') names -> get_name dem (vsop_udpla fn eval text p) = get_name dem (vsop_udpla fn eval text p') -> i_name p = i_name p' /\ text (i_thresh p) = text (i_thresh p').
Proof. exact (fun fn eval text dem p p' => vsop_name_tells fn eval text p p' dem). Qed.
Print Assumptions C71_name_tells.
(** the rest of the interface is missing: no gravitational parameters, no radii, no period, no elements *)
Theorem C71_defaults : forall fn eval text (p : impl fn), get_mu_central_body (vsop_udpla fn eval text p) = Ret (d_of_Z (-1)) /\ get_mu_self (vsop_udpla fn eval text p) = Ret (d_of_Z (-1)) /\
  get_radius (vsop_udpla fn eval text p) = Ret (d_of_Z (-1)) /\ get_safe_radius (vsop_udpla fn eval text p) = Ret (d_of_Z (-1)).
Proof. exact vsop_defaults. Qed.
Print Assumptions C71_defaults.
Theorem C71_no_period : forall fn eval text dem two_pi (p : impl fn) t, period dem two_pi (vsop_udpla fn eval text p) t = Throw NotImplemented.
Proof. exact (fun fn eval text dem two_pi => vsop_no_period fn eval text dem two_pi). Qed.
Print Assumptions C71_no_period.
Theorem C71_no_elements : forall fn eval text dem ic2par f2m par2eq (p : impl fn) t et, elements dem ic2par f2m par2eq (vsop_udpla fn eval text p) t et = Throw NotImplemented.
Proof. exact (fun fn eval text dem ic2par f2m par2eq => vsop_no_elements fn eval text dem ic2par f2m par2eq). Qed.
Print Assumptions C71_no_elements.
(** the gravitational parameter that the constructor looks up and converts reaches nobody *)
Theorem C71_mu_unobservable : forall fn eval text (p p' : impl fn), i_state p = i_state p' -> i_name p = i_name p' -> i_thresh p = i_thresh p' -> vsop_udpla fn eval text p = vsop_udpla fn eval text p'.
Proof. exact vsop_mu_lost. Qed.
Print Assumptions C71_mu_unobservable.
Theorem C71_mu_refuted : exists (p : impl unit) eval text, is_finite (i_mu p) = true /\ dltb dzero (i_mu p) = true /\ get_mu_central_body (vsop_udpla unit eval text p) = Ret (d_of_Z (-1)).
Proof. exact vsop_mu_refuted. Qed.
Print Assumptions C71_mu_refuted.
(** a gravity assist problem between planets that report no positive parameter of the central body is never evaluated; the
    constructor, which compares the parameters with each other only, accepts it *)
Theorem C71_mga_never : forall P x y, (forall b, In b (m_seq P) -> b_muc b <= 0) -> fitness P x <> Ret y.
Proof. exact mga_no_mu. Qed.
Print Assumptions C71_mga_never.
Theorem C71_mga_refuted : exists seq t0 tof vinf P, mga_ctor seq t0 tof vinf false false None None = Ret P /\ (forall b, In b seq -> exists cart, series_consistent cart /\ b = vsop_body cart) /\ (2 <= List.length seq)%nat /\ forall x y, fitness P x <> Ret y.
Proof. exact vsop_mga_refuted. Qed.
Print Assumptions C71_mga_refuted.

Example C71_example : let cart := fun q : R => (V 1 (365250 / 50 * q) 0, V 0 (1 / 50) 0) in series_consistent cart /\ fst (vsop_real cart (1 / 2)) = V au 0 0 /\ fst (vsop_real cart (1 / 2 + 50)) = V au au 0.
Proof. exact ex_vsop. Qed.
