(** * Property theorems: the direct low-thrust problems (C46, C47).  Only statements.  Real-number model. *)
From Coq Require Import Reals List ZArith.
From Verif Require Import Outcome Vec3 KepSpec TwoBodyModel TwoBodySpec SfModel SfSpec SfMain KplaModel DirectModel DirectSpec DirectProofs DirectPl DirectMain.
Import ListNotations.
Open Scope R_scope.

(** ** C46: direct_point2point *)
(** Full statement: for every decision vector.  Missing: vectors whose arcs are rectilinear or parabolic, or on which the leg
    divides by a mass that is not positive (no two-body trajectory to compare with). *)
Theorem C46_fitness_sound_partial : forall newton P z f r, newton_sound newton -> p2p_ok P -> p2p_value any_arc P z f -> p2p_fitness newton P z = Ret r -> r = Some f.
Proof. exact p2p_fitness_sound. Qed.
Print Assumptions C46_fitness_sound_partial.
Theorem C46_fitness : forall newton P z f, newton_ok newton -> p2p_ok P -> p2p_value safe_arc P z f -> p2p_fitness newton P z = Ret (Some f).
Proof. exact p2p_fitness_total. Qed.
Print Assumptions C46_fitness.
(** the number compared with is determined by the decision vector *)
Theorem C46_fitness_unique : forall P z f f', p2p_value any_arc P z f -> p2p_value any_arc P z f' -> f = f'.
Proof. exact p2p_value_fun. Qed.
Print Assumptions C46_fitness_unique.
Theorem C46_gradient : forall newton P z f0 g, newton_sound newton -> p2p_ok P -> p2p_value any_arc P z f0 -> p2p_gradient newton P z = Ret (Some g) ->
  sparse_jacobian (p2p_value any_arc P) z f0 (p2p_sparsity P) g.
Proof. exact p2p_gradient_jacobian. Qed.
Print Assumptions C46_gradient.
Theorem C46_gradient_total : forall newton P z f0, newton_ok newton -> newton_sound newton -> p2p_ok P -> p2p_value safe_arc P z f0 ->
  (forall i, (i < p_nseg P)%nat -> thr_vec (skipn 1 z) i <> vzero) ->
  exists g, p2p_gradient newton P z = Ret (Some g) /\ sparse_jacobian (p2p_value any_arc P) z f0 (p2p_sparsity P) g.
Proof. exact p2p_gradient_total. Qed.
Print Assumptions C46_gradient_total.
(** a segment that does not thrust: the gradient is not a number *)
Theorem C46_coast_gradient : forall newton P z f0 i, newton_ok newton -> newton_sound newton -> p2p_ok P -> p2p_value safe_arc P z f0 ->
  (i < p_nseg P)%nat -> thr_vec (skipn 1 z) i = vzero -> p2p_gradient newton P z = Ret None.
Proof. exact p2p_gradient_nan. Qed.
Print Assumptions C46_coast_gradient.
Theorem C46_shape : forall ok P z f, p2p_value ok P z f -> length f = (1 + p2p_nec P + p2p_nic P)%nat /\ length (fst (p2p_bounds P)) = length z /\ length (snd (p2p_bounds P)) = length z.
Proof. exact p2p_shape. Qed.
Print Assumptions C46_shape.
(** the box is the one asked for *)
Theorem C46_box : forall P mf th tof, length th = (3 * p_nseg P)%nat ->
  (in_box (p2p_bounds P) ([mf] ++ th ++ [tof]) <-> fst (p_mf P) <= mf <= snd (p_mf P) /\ (forall c, In c th -> -1 <= c <= 1) /\ fst (p_tof P) <= tof <= snd (p_tof P)).
Proof. exact p2p_box. Qed.
Print Assumptions C46_box.
Theorem C46_built : forall rvs rvf ms mu T isp tofb mfb n cut M L Ve,
  (p2p_ctor rvs rvf ms mu T isp tofb mfb n cut M L Ve = Ret (mk_p2p rvs rvf ms mu T isp tofb mfb n cut M L Ve) <-> 0 <= T /\ 0 <= isp /\ 0 <= mu /\ 0 <= cut <= 1) /\
  (forall P, p2p_ctor rvs rvf ms mu T isp tofb mfb n cut M L Ve = Ret P -> 0 < ms -> 0 < mu -> 0 < isp -> (0 < n)%nat -> M <> 0 -> L <> 0 -> Ve <> 0 -> p2p_ok P).
Proof. exact p2p_built. Qed.
Print Assumptions C46_built.
(** one thrusting segment from the unit circle, arriving where the leg says *)
Example C46_example : forall newton, newton_ok newton -> newton_sound newton -> exists X g, p2p_ok (wit_p2p X) /\
  p2p_fitness newton (wit_p2p X) [exp (- (1 / 10)); -1; 0; 0; PI / 86400] = Ret (Some [- exp (- (1 / 10)) / 2; 0; 0; 0; 0; 0; 0; 0; 0]) /\
  p2p_gradient newton (wit_p2p X) [exp (- (1 / 10)); -1; 0; 0; PI / 86400] = Ret (Some g) /\ length g = 39%nat /\ nth 0 g 0 = -1 / 2 /\ nth 36 g 0 = -2.
Proof. exact wit_p2p_example. Qed.

(** ** C47: direct_pl2pl *)
(** Full statement and what is missing: as for C46. *)
Theorem C47_fitness_sound_partial : forall newton P z f r, newton_sound newton -> pl2pl_ok P -> pl2pl_value any_arc P z f -> pl2pl_fitness newton P z = Ret r -> r = Some f.
Proof. exact pl2pl_fitness_sound. Qed.
Print Assumptions C47_fitness_sound_partial.
Theorem C47_fitness : forall newton P z f, newton_ok newton -> pl2pl_ok P -> pl2pl_value safe_arc P z f -> pl2pl_fitness newton P z = Ret (Some f).
Proof. exact pl2pl_fitness_total. Qed.
Print Assumptions C47_fitness.
Theorem C47_fitness_unique : forall P z f f', pl2pl_value any_arc P z f -> pl2pl_value any_arc P z f' -> f = f'.
Proof. exact pl_value_fun. Qed.
Print Assumptions C47_fitness_unique.
(** planets on two-body orbits around a body of the leg's parameter *)
Theorem C47_gradient_keplerian : forall newton P z f0 g, newton_sound newton -> pl2pl_ok P -> pl2pl_value any_arc P z f0 -> pl2pl_gradient newton P z = Ret (Some g) ->
  eph_keplerian (q_mu P) (q_ephs P) (nth 0 z 0) -> eph_keplerian (q_mu P) (q_ephf P) (nth 0 z 0 + last z 0) ->
  sparse_jacobian (pl2pl_value any_arc P) z f0 (pl2pl_sparsity P) g.
Proof. exact pl2pl_gradient_kepler. Qed.
Print Assumptions C47_gradient_keplerian.
(** which elliptic planets of kep3 are *)
Theorem C47_keplerian_planets : forall newton ref s mu t, newton_ok newton -> elliptic mu s -> eph_keplerian mu (kpla_eph newton (ctor_state ref s mu)) t.
Proof. exact kpla_keplerian. Qed.
Print Assumptions C47_keplerian_planets.
(** any planets whatsoever: everything but the columns of the two dates *)
Theorem C47_gradient_fixed_dates : forall newton P z f0 g, newton_sound newton -> pl2pl_ok P -> pl2pl_value any_arc P z f0 -> pl2pl_gradient newton P z = Ret (Some g) ->
  sparse_jacobian_on fixed_dates (pl2pl_value any_arc P) z f0 (pl2pl_sparsity P) g.
Proof. exact pl2pl_gradient_fixed. Qed.
Print Assumptions C47_gradient_fixed_dates.
(** a planet that moves otherwise: here with no acceleration, its velocity the derivative of its position *)
Theorem C47_gradient_refuted : forall newton, newton_ok newton -> newton_sound newton -> exists P z f0 g, pl2pl_ok P /\ pl2pl_value any_arc P z f0 /\
  eph_keplerian (q_mu P) (q_ephs P) (nth 0 z 0) /\ (exists X, q_ephf P (nth 0 z 0 + last z 0) = Ret (Some X) /\ eph_moves (q_ephf P) (nth 0 z 0 + last z 0) (snd X) vzero) /\
  pl2pl_gradient newton P z = Ret (Some g) /\ ~ sparse_jacobian (pl2pl_value any_arc P) z f0 (pl2pl_sparsity P) g.
Proof. exact pl2pl_refuted. Qed.
Print Assumptions C47_gradient_refuted.
Theorem C47_gradient_total : forall newton P z f0 s f, newton_ok newton -> newton_sound newton -> pl2pl_ok P -> pl2pl_value safe_arc P z f0 ->
  q_ephs P (nth 0 z 0) = Ret (Some s) -> q_ephf P (nth 0 z 0 + last z 0) = Ret (Some f) -> fst s <> vzero -> fst f <> vzero ->
  (forall i, (i < q_nseg P)%nat -> thr_vec (skipn 8 z) i <> vzero) -> exists g, pl2pl_gradient newton P z = Ret (Some g).
Proof. exact pl2pl_gradient_total. Qed.
Print Assumptions C47_gradient_total.
Theorem C47_coast_gradient : forall newton P z f0 i, newton_ok newton -> newton_sound newton -> pl2pl_ok P -> pl2pl_value safe_arc P z f0 ->
  (i < q_nseg P)%nat -> thr_vec (skipn 8 z) i = vzero -> pl2pl_gradient newton P z = Ret None.
Proof. exact pl2pl_gradient_nan. Qed.
Print Assumptions C47_coast_gradient.
Theorem C47_shape : forall ok P z f, pl2pl_value ok P z f -> length f = (1 + pl2pl_nec P + pl2pl_nic P)%nat /\ length (fst (pl2pl_bounds P)) = length z /\ length (snd (pl2pl_bounds P)) = length z.
Proof. exact pl2pl_shape. Qed.
Print Assumptions C47_shape.
Theorem C47_box : forall P t0 mf us uf th tof, length th = (3 * q_nseg P)%nat ->
  (in_box (pl2pl_bounds P) ([t0; mf; vx us; vy us; vz us; vx uf; vy uf; vz uf] ++ th ++ [tof]) <->
   fst (q_t0 P) <= t0 <= snd (q_t0 P) /\ fst (q_mf P) <= mf <= snd (q_mf P) /\ (forall c, In c [vx us; vy us; vz us] -> - q_vinfs P <= c <= q_vinfs P) /\
   (forall c, In c [vx uf; vy uf; vz uf] -> - q_vinff P <= c <= q_vinff P) /\ (forall c, In c th -> -1 <= c <= 1) /\ fst (q_tof P) <= tof <= snd (q_tof P)).
Proof. exact pl2pl_box. Qed.
Print Assumptions C47_box.
(** accepted data; the excess velocities given in km/s are kept in m/s *)
Theorem C47_built : forall es ef ms mu T isp t0b tofb mfb vs vf n cut M L Ve,
  ((exists P, pl2pl_ctor es ef ms mu T isp t0b tofb mfb vs vf n cut M L Ve = Ret P) <-> 0 <= T /\ 0 <= isp /\ 0 <= mu /\ 0 <= cut <= 1) /\
  (forall P, pl2pl_ctor es ef ms mu T isp t0b tofb mfb vs vf n cut M L Ve = Ret P -> q_vinfs P = 1000 * vs /\ q_vinff P = 1000 * vf /\ q_ephs P = es /\ q_ephf P = ef /\
     (0 < ms -> 0 < mu -> 0 < isp -> (0 < n)%nat -> M <> 0 -> L <> 0 -> Ve <> 0 -> pl2pl_ok P)).
Proof. exact pl2pl_built. Qed.
Print Assumptions C47_built.
Example C47_example : forall newton, newton_ok newton -> newton_sound newton -> exists X g, let P := wit_pl (kpla_eph newton (ctor_state (PI / 86400) X 1)) in pl2pl_ok P /\
  pl2pl_fitness newton P wit_z = Ret (Some wit_f) /\ pl2pl_gradient newton P wit_z = Ret (Some g) /\ sparse_jacobian (pl2pl_value any_arc P) wit_z wit_f (pl2pl_sparsity P) g.
Proof. exact wit_pl_example. Qed.
