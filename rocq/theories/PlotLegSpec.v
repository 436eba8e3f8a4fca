(** * What a drawn leg is *)
From Coq Require Import Reals ZArith List.
From Verif Require Import Vec3 TwoBodySpec DynModel TcModel SfModel SfSpec PlotLegModel.
Import ListNotations.
Open Scope R_scope.

(** the trajectory of C28, with everything that is drawn of it.  [sign] is 1 forward and -1 backward in time. *)
Section Drawn.
Variables (mu c veff dt units : R) (N : Z) (sign : R).
(** N points at equal time intervals on the coast of duration [t] from [s], in the units of the plot *)
Definition along (s : state) (t : R) (pts : list vec) : Prop :=
  length pts = Z.to_nat N /\
  forall i, (i < Z.to_nat N)%nat -> exists si, flow_at mu s (INR i * t / IZR (N - 1)) si /\ nth_error pts i = Some (vscal (/ units) (fst si)).
Fixpoint drawn (us : list vec) (p q : col7) (arcs : list (list vec)) (grid mid : list vec) : Prop :=
  match us with
  | [] => q = p /\ arcs = [] /\ grid = [] /\ mid = []
  | u :: us' =>
      exists a z arc1 arc2 arcs' grid' mid',
        let dv := vscal (c / snd p) u in let t := sign * (dt / 2) in
        flow_at mu (fst p) t a /\ flow_at mu (kick a (vscal sign dv)) t (fst z) /\ snd z = snd p * exp (- sign * (norm dv / veff)) /\
        along (fst p) t arc1 /\ along (kick a (vscal sign dv)) t arc2 /\
        arcs = arc1 :: arc2 :: arcs' /\ grid = fst (fst z) :: grid' /\ mid = fst a :: mid' /\ drawn us' z q arcs' grid' mid'
  end.
End Drawn.
(** a part is drawn when it is asked for *)
Definition asked {A : Type} (b : bool) (x : A) : option (option A) := if b then Some (Some x) else None.

(** the arcs and the marks of a pass over the segments with the throttles [us], from [p] to [q] *)
Definition half_ok (l : sf) (units : R) (N : Z) (show_mid show_grid show_thr : bool) (sign : R) (us : list vec) (p q : col7) (x : list (list vec) * marks) : Prop :=
  exists grid mid, drawn (s_mu l) (s_T l * (s_tof l / IZR (s_nseg l))) (s_isp l * G0) (s_tof l / IZR (s_nseg l)) units N sign us p q (fst x) grid mid /\
    k_grid (snd x) = asked show_grid (map (vscal (/ units)) (fst (fst p) :: grid)) /\ k_mid (snd x) = asked show_mid (map (vscal (/ units)) mid) /\
    k_arrows (snd x) = asked show_thr (combine (map (vscal (/ units)) mid) us).

(** ** The high-fidelity leg *)
Section Hf.
Variable F : Type.
Variables (fdiv fadd fmul : F -> F -> F).
(** a state history: a record of [N] states (position, velocity, mass) for each of the [nseg] segments *)
Definition records_ok (raw : list (list F)) (nseg N : nat) : Prop := length raw = nseg /\ List.Forall (fun r => length r = (7 * N)%nat) raw.
(** the j-th state of segment k *)
Definition samp (raw : list (list F)) (k j : nat) : list F := firstn 7 (skipn (7 * j) (nth k raw [])).
(** the positions of segment k, in the units of the plot *)
Definition seg_pos (raw : list (list F)) (N : nat) (units : F) (k : nat) : list (list F) := map (fun j => map (fun x => fdiv x units) (firstn 3 (samp raw k j))) (seq 0 N).
(** the throttle of segment k *)
Definition triple (thr : list F) (k : nat) : list F := firstn 3 (skipn (3 * k) thr).
(** arrows from the positions of segment [ks] with the throttle of segment [kt]; each tip is at the position plus the throttle times the length *)
Definition arrows_at (raw : list (list F)) (thr : list F) (N : nat) (units len : F) (ks kt : nat) (a : arrows F) : Prop :=
  q_at F a = seg_pos raw N units ks /\ q_thr F a = repeat (triple thr kt) N /\
  q_tips F a = map (fun r => map (fun xy => fadd (fst xy) (fmul (snd xy) len)) (combine r (triple thr kt))) (seg_pos raw N units ks).
End Hf.
