(** * Property theorems: the multiple gravity assist problem (C48) and its trajectory (C49).  Only statements. *)
From Coq Require Import Reals List.
From Verif Require Import Outcome Vec3 KepModel KepSpec TwoBodySpec LambertModel LambertReal LambertSpec LambertVec LambertProofs MgaModel MgaSpec DirectSpec MgaFitModel MgaFitSpec MgaFitProofs MgaFitMain MgaTotal.
Import ListNotations.
Open Scope R_scope.

(** ** C48 *)
(** A cost that is a number is the cost of the tour described by the decision vector: legs of two-body motion between the planets at
    their dates, the least launch burn with the given free excess velocity, the least powered fly-by at every planet on the way,
    and the arrival or insertion burn.  The second objective is the time of flight.
    The legs last as long as encoded, up to the error [tol] of the Lambert solver in seconds.
    Full statement: with a bound of [tol] for all tours, that is, with the convergence of Householder's iteration (C62). *)
Theorem C48_fitness_partial : forall tol P x t0 T dv rest, mga_ok P -> durations (enc_of (m_tofs P)) x t0 T -> length T = n_legs P -> all_within tol P t0 T ->
  fitness P x = Ret (Some dv :: rest) ->
  (exists pl vo vi, tour (fun _ _ => tol) P t0 T pl vo vi /\ tour_cost P pl vo vi dv) /\
  rest = (if m_multi P then [Some (total T)] else []) /\ (forall i, (i < n_legs P)%nat -> 0 < nth i T 0).
Proof. exact mga_fitness. Qed.
Print Assumptions C48_fitness_partial.
(** The error of a leg is that of the equation which the solver evaluates, and 3e-12 units of time from its series within 1/100 of the parabola. *)
Theorem C48_residual : forall d r0 r1 tof mu L x t, vz (cross r0 r1) <> 0 -> lambert_r r0 r1 tof mu false 0 = Ret L -> -1 < x -> x2tof RA (l_lambda L) (Some x) 0 = Ret (Some t) -> Rabs (t - tof / time_unit r0 r1 mu) <= d ->
  x <> 1 /\ Rabs (tau (transfer_lambda r0 r1 false) 0 x * time_unit r0 r1 mu - tof) <= (d + 3 / 1000000000000) * time_unit r0 r1 mu /\
  (1 / 100 <= Rabs (x - 1) -> Rabs (tau (transfer_lambda r0 r1 false) 0 x * time_unit r0 r1 mu - tof) <= d * time_unit r0 r1 mu).
Proof. exact residual. Qed.
Print Assumptions C48_residual.
(** what the constructor accepts and stores *)
Theorem C48_ctor : forall seq t0 tof vinf multi ins e rp P, mga_ctor seq t0 tof vinf multi ins e rp = Ret P <->
  seq <> [] /\ (forall b b', In b seq -> In b' seq -> b_muc b = b_muc b') /\
  match tof with TDirect l => S (length l) = length seq /\ (forall p, In p l -> fst p <= snd p) | _ => True end /\
  m_seq P = seq /\ m_t0 P = t0 /\ m_tofs P = tof /\ m_vinf P = 1000 * vinf /\ m_multi P = multi /\
  (if ins then exists a b, e = Some a /\ rp = Some b /\ m_ins P = Some (a, b) else m_ins P = None).
Proof. exact ctor_accepts. Qed.
Print Assumptions C48_ctor.
Theorem C48_ctor_total : forall seq t0 tof vinf multi ins e rp,
  (exists P, mga_ctor seq t0 tof vinf multi ins e rp = Ret P) \/ exists x, mga_ctor seq t0 tof vinf multi ins e rp = Throw x.
Proof. exact ctor_total. Qed.
Print Assumptions C48_ctor_total.
Theorem C48_shape : forall P x l, fitness P x = Ret l -> length l = get_nobj P.
Proof. exact fitness_shape. Qed.
Print Assumptions C48_shape.
(** every decision vector within the bounds encodes a launch date and durations within the bounds given to the constructor *)
Theorem C48_bounds : forall P x, (0 < n_legs P)%nat -> match m_tofs P with TDirect l => length l = n_legs P | _ => True end -> in_box (get_bounds P) x ->
  exists t0 T, durations (enc_of (m_tofs P)) x t0 T /\ length T = n_legs P /\ fst (m_t0 P) <= t0 <= snd (m_t0 P) /\
    match m_tofs P with
    | TAlpha lb ub => lb <= total T <= ub /\ (0 < lb -> forall t, In t T -> 0 < t)
    | TDirect l => forall i, (i < n_legs P)%nat -> fst (nth i l (0, 0)) <= nth i T 0 <= snd (nth i l (0, 0))
    | TEta tof => 0 < tof -> (forall t, In t T -> 0 < t) /\ total T < tof
    end.
Proof. exact mga_box. Qed.
Print Assumptions C48_bounds.
(** Between regular positions the fitness always has an outcome: it returns, or raises the error of a Lambert leg in a vertical plane. *)
Theorem C48_total : forall P x t0 T pl, (2 <= length (m_seq P))%nat -> 0 < common_mu P -> durations (enc_of (m_tofs P)) x t0 T -> length T = n_legs P ->
  (forall i, (i <= n_legs P)%nat -> b_eph (nth i (m_seq P) b0) (date t0 T i) = Ret (Some (pl i))) ->
  (forall i, (i < n_legs P)%nat -> leg_ok (common_mu P) (fst (pl i)) (fst (pl (S i))) (nth i T 0)) ->
  ((exists i, (i < n_legs P)%nat /\ vertical (fst (pl i)) (fst (pl (S i)))) /\ fitness P x = Throw DomainError) \/
  ((forall i, (i < n_legs P)%nat -> ~ vertical (fst (pl i)) (fst (pl (S i)))) /\ exists l, fitness P x = Ret l).
Proof. exact fitness_total. Qed.
Print Assumptions C48_total.
(** two legs, a fly-by that speeds up, an insertion: launch 5 - 2, fly-by 16 sqrt 3, insertion 13 - 4 *)
Example C48_example : mga_ctor [ex_body 0; ex_body 1; ex_body 2] (0, 10) (TDirect [(0, 1); (0, 1)]) (2 / 1000) true true (Some (7 / 25)) (Some 2) = Ret ex_P /\ mga_ok ex_P /\
  durations (enc_of (m_tofs ex_P)) ex_x 0 [leg_time / 86400; leg_time / 86400] /\ all_within 0 ex_P 0 [leg_time / 86400; leg_time / 86400] /\
  fitness ex_P ex_x = Ret [Some (12 + 16 * sqrt 3); Some (2 * leg_time / 86400)].
Proof. exact mga_example. Qed.
Print Assumptions C48_example.

(** ** C49 *)
(** The planet returned by to_planet flies the tour whose cost is the fitness: it raises outside the mission, starts at the first planet
    with the velocity of the first leg, moves on the two-body orbit of the current leg and, where the legs are exact, is at the next
    planet at the end of each leg.  It returns a state at every date for elliptic legs, and for hyperbolic ones up to the bound of C13.
    Full statement: as for C48. *)
Theorem C49_trajectory_partial : forall newton tol P x t0 T dv rest, newton_sound newton -> mga_ok P -> durations (enc_of (m_tofs P)) x t0 T -> length T = n_legs P ->
  all_within tol P t0 T -> fitness P x = Ret (Some dv :: rest) ->
  exists eph pl vo vi, to_planet newton P x = Ret eph /\ tour (fun _ _ => tol) P t0 T pl vo vi /\ tour_cost P pl vo vi dv /\
    (forall t, t < date t0 T 0 \/ date t0 T (n_legs P) < t -> eph t = Throw InvalidArgument) /\
    eph (date t0 T 0) = Ret (Some (fst (pl 0%nat), vo 0%nat)) /\
    (forall i t r, (i < n_legs P)%nat -> date t0 T i < t <= date t0 T (S i) -> eph t = Ret r -> exists s, r = Some s /\ flow_at (common_mu P) (fst (pl i), vo i) ((t - date t0 T i) * 86400) s /\
       (tol = 0 -> t = date t0 T (S i) -> s = (fst (pl (S i)), vi i))) /\
    (newton_ok newton -> forall i t, (i < n_legs P)%nat -> date t0 T i < t <= date t0 T (S i) ->
       (0 < energy (common_mu P) (fst (pl i), vo i) -> mean_motion (common_mu P) (fst (pl i), vo i) * ((t - date t0 T i) * 86400) <= 10 ^ 9) -> exists s, eph t = Ret (Some s)).
Proof. exact mga_planet. Qed.
Print Assumptions C49_trajectory_partial.
Theorem C49_wrong_length : forall newton P x, length x <> length (fst (get_bounds P)) -> to_planet newton P x = Throw InvalidArgument.
Proof. exact planet_length. Qed.
Print Assumptions C49_wrong_length.
Example C49_example : forall newton, newton_ok newton -> newton_sound newton -> exists eph v, to_planet newton ex_P ex_x = Ret eph /\ eph 0 = Ret (Some (hub 1 0, ex_a0)) /\
  eph (leg_time / 86400) = Ret (Some (hub c1 s1, v)) /\ flow_at 32000 (hub 1 0, ex_a0) leg_time (hub c1 s1, v) /\ eph (-1) = Throw InvalidArgument /\ eph (3 * leg_time / 86400) = Throw InvalidArgument.
Proof. exact planet_example. Qed.
Print Assumptions C49_example.
