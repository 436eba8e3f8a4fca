(** * Property theorems: tours in the range where the Lambert solver converges (C48, C49).  Only statements. *)
From Coq Require Import Reals List.
From Verif Require LambertSpec LambertRevsSpec.
From Verif Require Import Outcome Vec3 KepModel KepSpec TwoBodySpec LambertMain MgaModel MgaSpec DirectSpec MgaFitModel MgaFitSpec MgaRangeSpec MgaRange MgaNan MgaMiss.
From Verif Require Import InexactSpec.
Import ListNotations.
Open Scope R_scope.

(** ** C48: no assumption on the iterations is left.  For every tour whose legs are in range (MgaRangeSpec.v) the fitness returns, and
    a cost that is a number is that of a tour whose legs last as long as encoded up to [tol] seconds, for every [tol] that is at least 4 parts in
    10^8 of each of them.  (C48_range_nan says when the cost is not a number.) *)
Theorem C48_fitness_range : forall tol P x t0 T pl, mga_ok P -> 0 < common_mu P -> durations (enc_of (m_tofs P)) x t0 T -> length T = n_legs P ->
  (forall i, (i <= n_legs P)%nat -> b_eph (nth i (m_seq P) b0) (date t0 T i) = Ret (Some (pl i))) ->
  (forall i, (i < n_legs P)%nat -> in_range (common_mu P) (fst (pl i)) (fst (pl (S i))) (nth i T 0 * 86400) /\ 4 / 100000000 * (nth i T 0 * 86400) <= tol) ->
  exists l, fitness P x = Ret l /\ forall dv rest, l = Some dv :: rest ->
    (exists vo vi, tour (fun _ _ => tol) P t0 T pl vo vi /\ tour_cost P pl vo vi dv) /\ rest = (if m_multi P then [Some (total T)] else []).
Proof. exact range_fitness. Qed.
Print Assumptions C48_fitness_range.
(** it is not a number only if the spacecraft comes to, or leaves, a planet of the sequence with the velocity of that planet *)
Theorem C48_range_nan : forall tol P x t0 T pl rest, mga_ok P -> 0 < common_mu P -> durations (enc_of (m_tofs P)) x t0 T -> length T = n_legs P ->
  (forall i, (i <= n_legs P)%nat -> b_eph (nth i (m_seq P) b0) (date t0 T i) = Ret (Some (pl i))) ->
  (forall i, (i < n_legs P)%nat -> in_range (common_mu P) (fst (pl i)) (fst (pl (S i))) (nth i T 0 * 86400) /\ 4 / 100000000 * (nth i T 0 * 86400) <= tol) ->
  fitness P x = Ret (None :: rest) -> exists vo vi, tour (fun _ _ => tol) P t0 T pl vo vi /\ exists i, (S i < n_legs P)%nat /\ (vi i = snd (pl (S i)) \/ vo (S i) = snd (pl (S i))).
Proof. exact range_nan. Qed.
Print Assumptions C48_range_nan.
(** that does happen: all legs in range, cost NaN *)
Theorem C48_standstill_refuted : exists P x T pl, mga_ok P /\ in_box (get_bounds P) x /\ durations (enc_of (m_tofs P)) x 0 T /\ length T = n_legs P /\
  (forall i, (i <= n_legs P)%nat -> b_eph (nth i (m_seq P) b0) (date 0 T i) = Ret (Some (pl i))) /\
  (forall i, (i < n_legs P)%nat -> in_range (common_mu P) (fst (pl i)) (fst (pl (S i))) (nth i T 0 * 86400)) /\ fitness P x = Ret [None].
Proof. exact standstill. Qed.
Print Assumptions C48_standstill_refuted.
(** ** C49: the trajectory of such a tour follows on each leg a two-body orbit that passes through the next planet within [tol] seconds of
    the end of the leg *)
Theorem C49_trajectory_range : forall newton tol P x t0 T pl, newton_sound newton -> mga_ok P -> 0 < common_mu P -> durations (enc_of (m_tofs P)) x t0 T -> length T = n_legs P ->
  (forall i, (i <= n_legs P)%nat -> b_eph (nth i (m_seq P) b0) (date t0 T i) = Ret (Some (pl i))) ->
  (forall i, (i < n_legs P)%nat -> in_range (common_mu P) (fst (pl i)) (fst (pl (S i))) (nth i T 0 * 86400) /\ 4 / 100000000 * (nth i T 0 * 86400) <= tol) ->
  forall dv rest, fitness P x = Ret (Some dv :: rest) -> exists eph vo vi, to_planet newton P x = Ret eph /\ tour_cost P pl vo vi dv /\
    forall i t r, (i < n_legs P)%nat -> date t0 T i < t <= date t0 T (S i) -> eph t = Ret r -> exists s, r = Some s /\ flow_at (common_mu P) (fst (pl i), vo i) ((t - date t0 T i) * 86400) s /\
      exists t', Rabs (t' - nth i T 0 * 86400) <= tol /\ flow_at (common_mu P) (fst (pl i), vo i) t' (fst (pl (S i)), vi i).
Proof. exact range_planet. Qed.
Print Assumptions C49_trajectory_range.
(** how far from the planet the trajectory is at the end of a leg: at most [tol] seconds at the speed at the periapsis of the leg, and its velocity is off by at
    most [tol] seconds of the acceleration there; when the Lambert iterations end within [tol] seconds, *)
Theorem C49_miss : forall newton tol P x t0 T dv rest, newton_sound newton -> mga_ok P -> durations (enc_of (m_tofs P)) x t0 T -> length T = n_legs P -> all_within tol P t0 T -> fitness P x = Ret (Some dv :: rest) ->
  exists eph pl vo vi, to_planet newton P x = Ret eph /\ tour (fun _ _ => tol) P t0 T pl vo vi /\ tour_cost P pl vo vi dv /\
    forall i r, (i < n_legs P)%nat -> eph (date t0 T (S i)) = Ret r -> exists s, r = Some s /\
      norm (vsub (fst (pl (S i))) (fst s)) <= top_speed (common_mu P) (fst (pl i), vo i) * tol /\ norm (vsub (vi i) (snd s)) <= top_pull (common_mu P) (fst (pl i), vo i) * tol.
Proof. exact mga_miss. Qed.
Print Assumptions C49_miss.
(** and, without that assumption, in the range where they converge *)
Theorem C49_range_miss : forall newton tol P x t0 T pl, newton_sound newton -> mga_ok P -> 0 < common_mu P -> durations (enc_of (m_tofs P)) x t0 T -> length T = n_legs P ->
  (forall i, (i <= n_legs P)%nat -> b_eph (nth i (m_seq P) b0) (date t0 T i) = Ret (Some (pl i))) ->
  (forall i, (i < n_legs P)%nat -> in_range (common_mu P) (fst (pl i)) (fst (pl (S i))) (nth i T 0 * 86400) /\ 4 / 100000000 * (nth i T 0 * 86400) <= tol) ->
  forall dv rest, fitness P x = Ret (Some dv :: rest) -> exists eph vo vi, to_planet newton P x = Ret eph /\ tour (fun _ _ => tol) P t0 T pl vo vi /\
    forall i r, (i < n_legs P)%nat -> eph (date t0 T (S i)) = Ret r -> exists s, r = Some s /\
      norm (vsub (fst (pl (S i))) (fst s)) <= top_speed (common_mu P) (fst (pl i), vo i) * tol /\ norm (vsub (vi i) (snd s)) <= top_pull (common_mu P) (fst (pl i), vo i) * tol.
Proof. exact range_miss. Qed.
Print Assumptions C49_range_miss.
(** one leg that lasts 40000 to 1600000 units of time, in a plane that is not vertical, makes the cost of every tour NaN *)
Theorem C48_long_nan : forall P x t0 T pl l i, (2 <= length (m_seq P))%nat -> durations (enc_of (m_tofs P)) x t0 T -> length T = n_legs P ->
  (forall i, (i <= n_legs P)%nat -> b_eph (nth i (m_seq P) b0) (date t0 T i) = Ret (Some (pl i))) -> fitness P x = Ret l ->
  (i < n_legs P)%nat -> vz (cross (fst (pl i)) (fst (pl (S i)))) <> 0 -> 40000 <= nth i T 0 * 86400 / LambertSpec.time_unit (fst (pl i)) (fst (pl (S i))) (common_mu P) <= 1600000 ->
  l = None :: (if m_multi P then [Some (total T)] else []).
Proof. exact long_nan. Qed.
Print Assumptions C48_long_nan.
(** False: that a tour within the bounds has a cost.  The leg has a direct transfer that takes exactly the encoded time; it lasts 40000 units of time, the
    solver loses it (C70) and the fitness is NaN. *)
Theorem C48_nan_refuted : exists P x t pl v, mga_ok P /\ in_box (get_bounds P) x /\ durations (enc_of (m_tofs P)) x 0 [t] /\
  (forall i, (i <= n_legs P)%nat -> b_eph (nth i (m_seq P) b0) (date 0 [t] i) = Ret (Some (pl i))) /\
  LambertRevsSpec.transfer (common_mu P) (fst (pl 0%nat)) (fst (pl 1%nat)) (t * 86400) false 0 v /\ fitness P x = Ret [None].
Proof. exact long_tour. Qed.
Print Assumptions C48_nan_refuted.
Example C48_range_example : mga_ok one_leg /\ durations (enc_of (m_tofs one_leg)) [0; 2 / 86400] 0 [2 / 86400] /\ in_range 32000 ex_r0 ex_r1 (2 / 86400 * 86400) /\ exists dv, fitness one_leg [0; 2 / 86400] = Ret [Some dv].
Proof. exact one_leg_example. Qed.
Print Assumptions C48_range_example.
