(** * The legs drawn by pykep.plot: add_sf_leg and add_sf_hf_leg (/repo/pykep/plot/_sf_leg.py)
    Simplifications as in PlotModel.v; nseg and nseg_fwd = int (nseg * cut) are the members of the leg (C26: its constructor and
    its setters compute them by the same expressions, _sf_leg.py 49-53); colours and line styles are left out. *)
From Coq Require Import Reals ZArith List Bool.
From Verif Require Import Outcome PartialReal Vec3 TwoBodyModel TcModel DynModel SfModel PlotModel.
Import ListNotations.
Open Scope R_scope. Open Scope outcome_scope.

(** what one pass draws: the arcs (two per segment), the positions at the ends of the segments, at their middles, and the
    throttles of the segments *)
Record pass := mk_pass { d_arcs : list (list vec); d_grid : list vec; d_mid : list vec; d_thr : list vec }.

Section Sf.
Variable newton : (R -> R * R) -> R -> R -> R -> option R.

(** 65-100 ([sign] = 1) and 143-178 ([sign] = -1, the throttles are read from the end): the segments left from the [i]-th on.
    [rv] and [m] are the current state and mass.  With 3 nseg throttles the slices have three elements. *)
Fixpoint draw_loop (sign : R) (idx : Z -> Z) (k : nat) (i N : Z) (th : list R) (c dt isp mu units : R) (rv : state) (m : R) : outcome pass :=
  match k with
  | O => Ret (mk_pass [] [] [] [])
  | S k' =>
      x <- vget th (idx i) ;; y <- vget th (idx i + 1) ;; z <- vget th (idx i + 2) ;;
      let dv := norm (V x y z) * c / m in
      arc1 <- add_ballistic_arc newton rv (sign * dt / 2) mu units N ;;
      rv1 <- coast newton rv (sign * dt / 2) mu ;;
      let rv1' := (fst rv1, V (vx (snd rv1) + sign * (x * c / m)) (vy (snd rv1) + sign * (y * c / m)) (vz (snd rv1) + sign * (z * c / m))) in
      let m1 := m * exp (- sign * (dv / isp / G0)) in
      arc2 <- add_ballistic_arc newton rv1' (sign * dt / 2) mu units N ;;
      rv2 <- coast newton rv1' (sign * dt / 2) mu ;;
      d <- draw_loop sign idx k' (i + 1) N th c dt isp mu units rv2 m1 ;;
      Ret (mk_pass (arc1 :: arc2 :: d_arcs d) (fst rv2 :: d_grid d) (fst rv1 :: d_mid d) (V x y z :: d_thr d))
  end.
(** positions / units of a numpy array (an array without rows has no second axis: IndexError) *)
Definition scaled (units : R) (l : list vec) : outcome (option (list vec)) :=
  match l with [] => Throw OutOfRange | _ => Ret (all_some (map (vdiv units) l)) end.
(** 102-131 and 180-209: [None] is a part that was not asked for *)
Record marks := mk_marks { k_grid : option (option (list vec)); k_mid : option (option (list vec)); k_arrows : option (option (list (vec * vec))) }.
Definition draw_marks (d : pass) (units : R) (show_mid show_grid show_thr : bool) : outcome marks :=
  g <- (if show_grid then x <- scaled units (d_grid d) ;; Ret (Some x) else Ret None) ;;
  m <- (if show_mid then x <- scaled units (d_mid d) ;; Ret (Some x) else Ret None) ;;
  a <- (if show_thr then x <- scaled units (d_mid d) ;; Ret (Some (match x with Some l => Some (combine l (d_thr d)) | None => None end)) else Ret None) ;;
  Ret (mk_marks g m a).
Definition half (sign : R) (idx : Z -> Z) (k : nat) (l : sf) (rv : state) (m : R) (units : R) (N : Z) (show_mid show_grid show_thr : bool) : outcome (list (list vec) * marks) :=
  let dt := s_tof l / IZR (s_nseg l) in
  d0 <- draw_loop sign idx k 0 N (s_thr l) (s_T l * dt) dt (s_isp l) (s_mu l) units rv m ;;
  let d := mk_pass (d_arcs d0) (fst rv :: d_grid d0) (d_mid d0) (d_thr d0) in
  ms <- draw_marks d units show_mid show_grid show_thr ;;
  Ret (d_arcs d, ms).
(** 6-211 *)
Definition add_sf_leg (l : sf) (units : R) (N : Z) (show_mid show_grid show_thr : bool) : outcome (list (list vec) * marks * (list (list vec) * marks)) :=
  f <- half 1 (fun i => 3 * i)%Z (Z.to_nat (s_fwd l)) l (s_rvs l) (s_ms l) units N show_mid show_grid show_thr ;;
  b <- half (-1) (fun i => s_nseg l * 3 - 3 - 3 * i)%Z (Z.to_nat (s_bck l)) l (s_rvf l) (s_mf l) units N show_mid show_grid show_thr ;;
  Ret (f, b).
End Sf.

(** ** add_sf_hf_leg, 214-392.  The numbers are of any type [F], with the operations that are used.  [raw] is what
    get_state_history (N) returned (HistModel.v), with [N] samples of 7 numbers per segment. *)
Section Hf.
Variable F : Type.
Variables (fdiv fadd fmul : F -> F -> F).

Fixpoint mapM {A B : Type} (f : A -> outcome B) (l : list A) : outcome (list B) :=
  match l with [] => Ret [] | a :: l' => b <- f a ;; bs <- mapM f l' ;; Ret (b :: bs) end.
(** raw[k][7 * j : 7 * (j + 1)] assigned to a row of 7 numbers (a slice of another length is refused) *)
Definition sample (raw : list (list F)) (k j : nat) : outcome (list F) :=
  match nth_error raw k with
  | None => Throw OutOfRange
  | Some r => let s := firstn 7 (skipn (7 * j) r) in if Nat.eqb (length s) 7 then Ret s else Throw InvalidArgument
  end.
(** 268-273, 330-337: the samples of the segments [seg 0], ..., [seg (n - 1)] *)
Definition history (raw : list (list F)) (seg : nat -> nat) (n N : nat) : outcome (list (list F)) :=
  mapM (fun p => sample raw (seg (fst p)) (snd p)) (list_prod (seq 0 n) (seq 0 N)).
(** the position of a row / units *)
Definition pos3 (units : F) (row : list F) : list F := map (fun x => fdiv x units) (firstn 3 row).
(** one call of quiver (positions / units, throttle components) followed by one of plot (the tips) *)
Record arrows := mk_arrows { q_at : list (list F); q_thr : list (list F); q_tips : list (list F) }.
(** 282-307, 346-371: columns 3 i to 3 i + 2 of the repeated throttles [ths] *)
Definition arrow (hist : list (list F)) (ths : list (list F)) (units len : F) (N i : nat) : arrows :=
  let at_ := map (pos3 units) (firstn N (skipn (i * N) hist)) in
  let th := map (fun r => firstn 3 (skipn (i * 3) r)) ths in
  mk_arrows at_ th (map (fun p => map (fun xy => fadd (fst xy) (fmul (snd xy) len)) (combine (fst p) (snd p))) (combine at_ th)).
(** the line of a pass and its arrows (279, 343: only when they are asked for) *)
Definition hf_half (raw : list (list F)) (ths : list (list F)) (seg : nat -> nat) (n N : nat) (units len : F) (show_thr : bool) : outcome (list (list F) * list arrows) :=
  h <- history raw seg n N ;;
  Ret (map (pos3 units) h, if show_thr then map (arrow h ths units len N) (seq 0 n) else []).
Definition add_sf_hf_leg (raw : list (list F)) (thr : list F) (nseg nfwd N : nat) (units len : F) (show_thr : bool) : outcome (list (list F) * list arrows * (list (list F) * list arrows)) :=
  let throttles := repeat thr N in
  f <- hf_half raw (map (firstn (nfwd * 3)) throttles) (fun i => i) nfwd N units len show_thr ;;
  b <- hf_half raw (map (fun r => skipn (nfwd * 3) (firstn (nseg * 3) r)) throttles) (fun i => nseg - i - 1)%nat (nseg - nfwd) N units len show_thr ;;
  Ret (f, b).
End Hf.
