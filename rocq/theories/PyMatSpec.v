(** * What a matrix of partial derivatives is
    Row i, column j: the derivative of the i-th component of the result when the j-th coordinate of the input is moved. *)
From Coq Require Import Reals List ZArith.
From Coquelicot Require Import Coquelicot.
From Verif Require Import Vec3 TwoBodySpec DynModel SfModel SfSpec HfGradModel HfGradSpec TcSpec.
Import ListNotations.
Open Scope R_scope.

Definition shaped (r c : nat) (M : list (list R)) : Prop := length M = r /\ List.Forall (fun l => length l = c) M.
(** M[i, j] *)
Definition entry (M : list (list R)) (i j : nat) : R := nth j (nth i M []) 0.
Definition nudge (l : list R) (j : nat) (e : R) : list R := replace_nth l j (nth j l 0 + e).

(** [F x y]: the input x gives the output y.  Outputs exist near [x0], and their components have the derivatives [D i j] *)
Definition has_column (F : list R -> list R -> Prop) (x0 : list R) (r : nat) (D : nat -> R) (j : nat) : Prop :=
  exists y eps, 0 < eps /\ (forall e, Rabs e < eps -> F (nudge x0 j e) (y e)) /\ forall i, (i < r)%nat -> is_derive (fun e => nth i (y e) 0) 0 (D i).
Definition has_partials (F : list R -> list R -> Prop) (x0 : list R) (r : nat) (D : nat -> nat -> R) : Prop :=
  forall j, (j < length x0)%nat -> has_column F x0 r (fun i => D i j) j.
(** the same of the outputs where there are some *)
Definition has_partials_where (F : list R -> list R -> Prop) (x0 : list R) (r : nat) (D : nat -> nat -> R) : Prop :=
  forall j y, (j < length x0)%nat -> (exists eps, 0 < eps /\ forall e, Rabs e < eps -> F (nudge x0 j e) (y e)) ->
  forall i, (i < r)%nat -> is_derive (fun e => nth i (y e) 0) 0 (D i j).

(** coordinates: position, velocity *)
Definition list6 (s : state) : list R := [vx (fst s); vy (fst s); vz (fst s); vx (snd s); vy (snd s); vz (snd s)].
Definition state_of (l : list R) : state := (V (nth 0 l 0) (nth 1 l 0) (nth 2 l 0), V (nth 3 l 0) (nth 4 l 0) (nth 5 l 0)).
Definition flows (mu tof : R) (x y : list R) : Prop := exists s', flow_at mu (state_of x) tof s' /\ y = list6 s'.

(** a flight under constant thrust *)
Definition flies (mu veff tof : R) (x u y : list R) : Prop :=
  exists s', flight mu veff tof (V (nth 0 u 0) (nth 1 u 0) (nth 2 u 0)) (col_of x) s' /\ y = list7 s'.

(** the mismatch of a Sims-Flanagan leg as a function of the initial state and mass, the final ones, and throttles and tof *)
Definition leg_of (l : sf) (xs xf ut : list R) : sf :=
  let w := (3 * Z.to_nat (s_nseg l))%nat in
  with_inputs l (fst (col_of xs)) (snd (col_of xs)) (firstn w ut) (fst (col_of xf)) (snd (col_of xf)) (nth w ut 0).
Definition misses (l : sf) (xs xf ut y : list R) : Prop := exists z, leg_mismatch (nonsing (s_mu l)) (leg_of l xs xf ut) z /\ y = list7 z.
Definition sf_xs (l : sf) : list R := list7 (s_rvs l, s_ms l).
Definition sf_xf (l : sf) : list R := list7 (s_rvf l, s_mf l).
Definition sf_ut (l : sf) : list R := s_thr l ++ [s_tof l].

(** the same of a high-fidelity leg *)
Definition misses_hf (l : hg) (xs xf ut y : list R) : Prop :=
  let n := Z.to_nat (g_nseg l) in
  exists z, flown (g_mu l) (g_isp l * G0) (g_T l) n (Z.to_nat (g_fwd l)) (col_of xs) (firstn (3 * n) ut) (col_of xf) (nth (3 * n) ut 0) z /\ y = list7 z.
Definition hf_ut (l : hg) : list R := g_thr l ++ [g_tof l].
(** the throttle columns times [k], the last as it is *)
Definition scaled_columns (n : nat) (k : R) (M : list (list R)) (i j : nat) : R := (if Nat.ltb j (3 * n) then k else 1) * entry M i j.
