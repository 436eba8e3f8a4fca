(** * What the direct low-thrust problems are about
    Decision vectors, fitness and Jacobian written from the documentation of the problems, with the trajectories of SfSpec.v;
    neither the setters of the leg nor the assembly of the arrays are used. *)
From Coq Require Import Reals List ZArith.
From Coquelicot Require Import Coquelicot.
From Verif Require Import Outcome Vec3 TwoBodySpec TcSpec MgaSpec DynModel SfModel SfSpec DirectModel.
Import ListNotations.
Open Scope R_scope.

(** ** Jacobians with a sparsity pattern *)
(** row [i] of the matrix with entries [g] at the places [pat], applied to [d] *)
Definition entry_sum (pat : list (nat * nat)) (g d : list R) (i : nat) : R :=
  total (map (fun p => if Nat.eqb (fst (fst p)) i then snd p * nth (snd (fst p)) d 0 else 0) (combine pat g)).
(** [F z f]: the fitness of [z] is [f].  The pattern names places of the matrix once each, there is one number for each of
    them, and along every differentiable curve of decision vectors through [z] (among those [C]) the fitness has the
    derivative they give *)
Definition sparse_jacobian_on (C : (R -> list R) -> Prop) (F : list R -> list R -> Prop) (z f0 : list R) (pat : list (nat * nat)) (g : list R) : Prop :=
  length g = length pat /\ NoDup pat /\ (forall i j, In (i, j) pat -> (i < length f0)%nat /\ (j < length z)%nat) /\
  forall c d, C c -> c 0 = z -> (forall e, length (c e) = length z) -> derive_list c 0 d ->
  exists f eps, 0 < eps /\ f 0 = f0 /\ (forall e, Rabs e < eps -> F (c e) (f e)) /\
  forall i, (i < length f0)%nat -> is_derive (fun e => nth i (f e) 0) 0 (entry_sum pat g d i).
Definition sparse_jacobian := sparse_jacobian_on (fun _ => True).
(** the first and the last number stay what they are *)
Definition fixed_dates (c : R -> list R) : Prop := forall e, nth 0 (c e) 0 = nth 0 (c 0) 0 /\ last (c e) 0 = last (c 0) 0.

(** ** Fitness *)
(** forward segments of [n] cut at [cut]: the whole number below n cut *)
Definition fwd_of (n : nat) (cut : R) : Z := Int_part (INR n * cut).
Definition direct_leg (rvs : state) (ms : R) (rvf : state) (mf tof_days T isp mu cut : R) (n : nat) (th : list R) : sf :=
  mk_sf rvs ms th rvf mf (tof_days * 86400) T isp mu (Z.of_nat n) (fwd_of n cut) (Z.of_nat n - fwd_of n cut).
(** objective, seven mismatches and [n] throttle constraints, each in its unit *)
Definition direct_fitness (M L Ve mf : R) (y : col7) (n : nat) (th : list R) : list R :=
  [- mf / M; vx (fst (fst y)) / L; vy (fst (fst y)) / L; vz (fst (fst y)) / L; vx (snd (fst y)) / Ve; vy (snd (fst y)) / Ve; vz (snd (fst y)) / Ve; snd y / M]
  ++ map (throttle_norm th) (seq 0 n).

(** point to point: z = [mf, throttles, tof] *)
Definition p2p_of (P : p2p) (mf : R) (th : list R) (tof : R) : sf :=
  direct_leg (p_rvs P) (p_ms P) (p_rvf P) mf tof (p_T P) (p_isp P) (p_mu P) (p_cut P) (p_nseg P) th.
Definition p2p_value (ok : sf -> state -> Prop) (P : p2p) (z f : list R) : Prop :=
  exists mf th tof y, z = mf :: th ++ [tof] /\ length th = (3 * p_nseg P)%nat /\ 0 < mf /\ 0 < tof /\
  leg_mismatch (ok (p2p_of P mf th tof)) (p2p_of P mf th tof) y /\ f = direct_fitness (p_M P) (p_L P) (p_Vel P) mf y (p_nseg P) th.
(** physical data and scales that are not zero *)
Definition p2p_ok (P : p2p) : Prop :=
  (0 < p_nseg P)%nat /\ 0 <= p_cut P <= 1 /\ 0 < p_ms P /\ 0 < p_mu P /\ 0 <= p_T P /\ 0 < p_isp P /\ p_M P <> 0 /\ p_L P <> 0 /\ p_Vel P <> 0.

(** planet to planet: z = [t0, mf, Vs, Vf, throttles, tof] *)
Definition pl2pl_of (P : pl2pl) (s f : state) (mf : R) (us uf : vec) (th : list R) (tof : R) : sf :=
  direct_leg (fst s, vadd (snd s) us) (q_ms P) (fst f, vadd (snd f) uf) mf tof (q_T P) (q_isp P) (q_mu P) (q_cut P) (q_nseg P) th.
Definition pl2pl_value (ok : sf -> state -> Prop) (P : pl2pl) (z f : list R) : Prop :=
  exists t0 mf us uf th tof s0 sf y, z = [t0; mf; vx us; vy us; vz us; vx uf; vy uf; vz uf] ++ th ++ [tof] /\ length th = (3 * q_nseg P)%nat /\ 0 < mf /\ 0 < tof /\
  q_ephs P t0 = Ret (Some s0) /\ q_ephf P (t0 + tof) = Ret (Some sf) /\
  leg_mismatch (ok (pl2pl_of P s0 sf mf us uf th tof)) (pl2pl_of P s0 sf mf us uf th tof) y /\
  f = direct_fitness (q_M P) (q_L P) (q_Vel P) mf y (q_nseg P) th
      ++ [(dot us us - q_vinfs P ^ 2) / q_Vel P ^ 2; (dot uf uf - q_vinff P ^ 2) / q_Vel P ^ 2].
Definition pl2pl_ok (P : pl2pl) : Prop :=
  (0 < q_nseg P)%nat /\ 0 <= q_cut P <= 1 /\ 0 < q_ms P /\ 0 < q_mu P /\ 0 <= q_T P /\ 0 < q_isp P /\ q_M P <> 0 /\ q_L P <> 0 /\ q_Vel P <> 0.
(** the ephemeris (days to S.I. units) is there near [t] and moves with the velocity [v] and the acceleration [a] *)
Definition eph_moves (eph : R -> outcome (option state)) (t : R) (v a : vec) : Prop :=
  exists c eps, 0 < eps /\ (forall e, Rabs (e - t) < eps -> eph e = Ret (Some (c e))) /\ sderive c t (vscal 86400 v, vscal 86400 a).
(** two-body motion around a body of parameter [mu] *)
Definition eph_keplerian (mu : R) (eph : R -> outcome (option state)) (t : R) : Prop :=
  exists s, eph t = Ret (Some s) /\ fst s <> vzero /\ eph_moves eph t (snd s) (gravity mu (fst s)).

(** the arcs the theorems are about: neither rectilinear nor parabolic; or those the propagator is proved to follow *)
Definition any_arc (l : sf) : state -> Prop := nonsing (s_mu l).
Definition safe_arc (l : sf) : state -> Prop := good_arc (s_mu l) (s_tof l / IZR (s_nseg l)).

(** a decision vector between the bounds *)
Definition in_box (b : list R * list R) (z : list R) := Forall2 Rle (fst b) z /\ Forall2 Rle z (snd b).
