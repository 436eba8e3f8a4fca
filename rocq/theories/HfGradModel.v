(** * The high-fidelity leg: mismatch constraints and their gradient over the reals
    src/leg/sims_flanagan_hf.cpp 401-450, 498-528 (DynModel.v), 530-752.
    Simplifications: double arithmetic is replaced by exact real arithmetic; [tas] and [tas_var] are the calls
    propagate_until of the two heyoka integrators (parameters, time, target time and state in, state out; None when the status is
    not time_limit); the columns of the throttle gradient are kept as 7 x 3 blocks until the final array is written.
    Unsigned arithmetic is modulo 2^32; array accesses are checked. *)
From Coq Require Import ZArith Reals List Bool.
From Verif Require Import Outcome Vec3 DynModel SfModel.
Import ListNotations.
Open Scope Z_scope.
Open Scope outcome_scope.

(** sims_flanagan_hf.hpp 157-190: the members; an array of seven doubles is a list.  [g_pmu] and [g_pveff] are the first two
    parameters held by both integrators *)
Record hg : Type := mk_hg {
  g_rvms : list R; g_vars : list R; g_thr : list R; g_thrusts : list R; g_rvmf : list R; g_tof : R; g_T : R; g_isp : R; g_mu : R;
  g_nseg : Z; g_fwd : Z; g_bck : Z; g_pmu : R; g_pveff : R }.

Definition u32 (z : Z) : Z := z mod 2 ^ 32.
(** static_cast<int> of an unsigned *)
Definition i32 (z : Z) : Z := if z <? 2 ^ 31 then z else z - 2 ^ 32.
(** operator[] outside the bounds is undefined behaviour *)
Definition rd {A} (d : A) (v : list A) (i : Z) : outcome A :=
  if (0 <=? i) && (i <? Z.of_nat (length v)) then Ret (nth (Z.to_nat i) v d) else UB.
Definition wr {A} (v : list A) (i : Z) (x : A) : outcome (list A) :=
  if (0 <=? i) && (i <? Z.of_nat (length v)) then Ret (firstn (Z.to_nat i) v ++ x :: skipn (S (Z.to_nat i)) v) else UB.
(** std::copy of the elements from index i up to index j *)
Definition cut (v : list R) (i j : Z) : outcome (list R) :=
  if (0 <=? i) && (i <=? j) && (j <=? Z.of_nat (length v)) then Ret (firstn (Z.to_nat (j - i)) (skipn (Z.to_nat i) v)) else UB.
Definition sub7l (a b : list R) : list R := map (fun i => nth i a 0 - nth i b 0)%R (seq 0 7).

Section Oracle.
Variable tas tas_var : list R -> R -> R -> list R -> option (list R).

(** *** compute_mismatch_constraints, 401-450 *)
Definition run (f : list R -> R -> R -> list R -> option (list R)) (pars : list R) (t0 t1 : R) (s : list R) : outcome (list R) :=
  match f pars t0 t1 s with Some s' => Ret s' | None => Throw DomainError end.
(** 413-423, [k] segments left; [t] is the integrator's time *)
Fixpoint hfwd (l : hg) (k : nat) (i : Z) (t : R) (s : list R) : outcome (list R) :=
  match k with
  | O => Ret s
  | S k' =>
      u <- cut (g_thrusts l) (u32 (i * 3)) (u32 (3 * u32 (i + 1))) ;;
      let t1 := (IZR (u32 (i + 1)) * (g_tof l / IZR (g_nseg l)))%R in
      s' <- run tas (g_pmu l :: g_pveff l :: u) t t1 s ;; hfwd l k' (i + 1) t1 s'
  end.
(** 435-445 *)
Fixpoint hbck (l : hg) (k : nat) (i : Z) (t : R) (s : list R) : outcome (list R) :=
  match k with
  | O => Ret s
  | S k' =>
      u <- cut (g_thrusts l) (u32 (u32 (g_nseg l - u32 (i + 1)) * 3)) (u32 (u32 (g_nseg l - i) * 3)) ;;
      let t1 := (g_tof l - IZR (u32 (i + 1)) * (g_tof l / IZR (g_nseg l)))%R in
      s' <- run tas (g_pmu l :: g_pveff l :: u) t t1 s ;; hbck l k' (i + 1) t1 s'
  end.
Definition compute_mismatch_hf (l : hg) : outcome (list R) :=
  f <- hfwd l (Z.to_nat (g_fwd l)) 0 0%R (g_rvms l) ;;
  b <- hbck l (Z.to_nat (g_bck l)) 0 (g_tof l) (g_rvmf l) ;;
  Ret (sub7l f b).

(** *** compute_all_gradients, 530-624 *)
(** 564-571, 592-600: the state of the variational integrator; row j of the 7 x 10 sensitivities starts at 7 + 10 j *)
Definition dxdx_of (s : list R) : list R := flat_map (fun j => firstn 7 (skipn (7 + 10 * j) s)) (seq 0 7).
Definition dxdu_of (s : list R) : list R := flat_map (fun j => firstn 3 (skipn (14 + 10 * j) s)) (seq 0 7).
Record per_seg : Type := mk_ps { p_xf : list (list R); p_dxdx : list (list R); p_dxdu : list (list R) }.
Definition store (p : per_seg) (i : Z) (s : list R) : outcome per_seg :=
  a <- wr (p_xf p) i (firstn 7 s) ;; b <- wr (p_dxdx p) i (dxdx_of s) ;; c <- wr (p_dxdu p) i (dxdu_of s) ;; Ret (mk_ps a b c).
(** 550-572; only the first seven entries of the integrator's state survive from one iteration to the next *)
Fixpoint vfwd (l : hg) (k : nat) (i : Z) (t : R) (x : list R) (p : per_seg) : outcome per_seg :=
  match k with
  | O => Ret p
  | S k' =>
      u <- cut (g_thrusts l) (u32 (i * 3)) (u32 (3 * u32 (i + 1))) ;;
      let t1 := (IZR (u32 (i + 1)) * (g_tof l / IZR (g_nseg l)))%R in
      s' <- run tas_var (g_pmu l :: g_pveff l :: u) t t1 (x ++ g_vars l) ;;
      p' <- store p i s' ;; vfwd l k' (i + 1) t1 (firstn 7 s') p'
  end.
(** 579-601 *)
Fixpoint vbck (l : hg) (k : nat) (i : Z) (t : R) (x : list R) (p : per_seg) : outcome per_seg :=
  match k with
  | O => Ret p
  | S k' =>
      u <- cut (g_thrusts l) (u32 (u32 (g_nseg l - u32 (i + 1)) * 3)) (u32 (u32 (g_nseg l - i) * 3)) ;;
      let t1 := (g_tof l - IZR (u32 (i + 1)) * (g_tof l / IZR (g_nseg l)))%R in
      s' <- run tas_var (g_pmu l :: g_pveff l :: u) t t1 (x ++ g_vars l) ;;
      p' <- store p (u32 (g_nseg l - u32 (i + 1))) s' ;; vbck l k' (i + 1) t1 (firstn 7 s') p'
  end.
(** 608-610 *)
Fixpoint x0_fwd (k : nat) (i : Z) (xf x0 : list (list R)) : outcome (list (list R)) :=
  match k with
  | O => Ret x0
  | S k' => x <- rd [] xf (u32 (i - 1)) ;; x0' <- wr x0 i x ;; x0_fwd k' (i + 1) xf x0'
  end.
(** 614-616 *)
Fixpoint x0_bck (k : nat) (i nseg : Z) (xf x0 : list (list R)) : outcome (list (list R)) :=
  match k with
  | O => Ret x0
  | S k' => x <- rd [] xf (u32 (u32 (nseg - 1) - u32 (i - 1))) ;; x0' <- wr x0 (u32 (u32 (nseg - 1) - i)) x ;; x0_bck k' (i + 1) nseg xf x0'
  end.
(** get_state_derivative (DynModel.v) on arrays of seven numbers *)
Definition state_derivative (l : hg) (s : list R) (u : vec) : list R :=
  let x := nth 0 s 0%R in let y := nth 1 s 0%R in let z := nth 2 s 0%R in
  let '((r, v), m) := get_state_derivative (g_T l) (g_isp l) (g_mu l) ((V x y z, V (nth 3 s 0%R) (nth 4 s 0%R) (nth 5 s 0%R)), nth 6 s 0%R) u in
  [vx r; vy r; vz r; vx v; vy v; vz v; m].
(** 618-621; the index is a size_t *)
Fixpoint dtof_loop (l : hg) (k : nat) (i : Z) (x0 : list (list R)) (ret : list (list R)) : outcome (list (list R)) :=
  match k with
  | O => Ret ret
  | S k' =>
      a <- rd 0%R (g_thr l) (i * 3) ;; b <- rd 0%R (g_thr l) (i * 3 + 1) ;; c <- rd 0%R (g_thr l) (i * 3 + 2) ;;
      x <- rd [] x0 i ;; ret' <- wr ret i (state_derivative l x (V a b c)) ;; dtof_loop l k' (i + 1) x0 ret'
  end.
Definition zeros (n : nat) : list R := repeat 0%R n.
(** 530-624 *)
Definition compute_all_gradients (l : hg) : outcome (list (list R) * list (list R) * list (list R)) :=
  let n := Z.to_nat (g_nseg l) in
  p1 <- vfwd l (Z.to_nat (g_fwd l)) 0 0%R (g_rvms l) (mk_ps (repeat (zeros 7) n) (repeat (zeros 49) n) (repeat (zeros 21) n)) ;;
  p2 <- vbck l (Z.to_nat (g_bck l)) 0 (g_tof l) (g_rvmf l) p1 ;;
  a <- (if 0 <? g_fwd l then wr (repeat (zeros 7) n) 0 (g_rvms l) else Ret (repeat (zeros 7) n)) ;;
  b <- x0_fwd (Z.to_nat (g_fwd l) - 1) 1 (p_xf p2) a ;;
  c <- (if 0 <? g_bck l then wr b (u32 (g_nseg l - 1)) (g_rvmf l) else Ret b) ;;
  d <- x0_bck (Z.to_nat (g_bck l) - 1) 1 (g_nseg l) (p_xf p2) c ;;
  f <- dtof_loop l n 0 d (repeat (zeros 7) n) ;;
  Ret (p_dxdx p2, p_dxdu p2, f).
End Oracle.

(** *** get_relevant_gradients, 626-735 *)
(** xt::linalg::dot of a p x q and a q x r matrix, row by row *)
Fixpoint sumR (n : nat) (f : nat -> R) : R := match n with O => 0%R | S k => (sumR k f + f k)%R end.
Definition mdot (p q r : nat) (a b : list R) : list R :=
  flat_map (fun i => map (fun j => sumR q (fun k => nth (q * i + k) a 0 * nth (r * k + j) b 0))%R (seq 0 r)) (seq 0 p).
Definition eye7 : list R := flat_map (fun i => map (fun j => if Nat.eqb i j then 1%R else 0%R) (seq 0 7)) (seq 0 7).
Definition negl (a : list R) : list R := map (fun x => x * -1)%R a.

(** 640-648; final_M is Mn_o[i], also for i = 0 *)
Fixpoint mn_fwd (k : nat) (i fwd : Z) (m mn : list (list R)) : outcome (list (list R)) :=
  match k with
  | O => Ret mn
  | S k' =>
      cur <- rd [] m (u32 (fwd - 1 - (i + 1))) ;;
      fin <- (if i =? 0 then rd [] m (u32 (fwd - 1)) else rd [] mn i) ;;
      mn' <- wr mn (u32 (i + 1)) (mdot 7 7 7 fin cur) ;; mn_fwd k' (i + 1) fwd m mn'
  end.
(** 653-661 *)
Fixpoint mn_bck (k : nat) (i fwd : Z) (m mn : list (list R)) : outcome (list (list R)) :=
  match k with
  | O => Ret mn
  | S k' =>
      cur <- rd [] m (u32 (fwd + (i + 1))) ;;
      fin <- (if i =? 0 then rd [] m fwd else rd [] mn (u32 (fwd + i))) ;;
      mn' <- wr mn (u32 (fwd + i + 1)) (mdot 7 7 7 fin cur) ;; mn_bck k' (i + 1) fwd m mn'
  end.
(** 691-702: which matrix goes in front of the thrust sensitivities of segment i *)
Definition thr_matrix (fwd i : Z) (mn : list (list R)) : outcome (list R) :=
  if i =? u32 (fwd - 1) then Ret eye7
  else if i =? fwd then Ret (negl eye7)
  else if (i <=? u32 (fwd - 2)) && (2 <=? fwd) then rd [] mn (u32 (fwd - 2 - i))
  else if fwd <? i then m <- rd [] mn (u32 (i - 1)) ;; Ret (negl m)
  else Throw RuntimeError.
(** 689-705; the blocks of three columns *)
Fixpoint thr_loop (k : nat) (i fwd : Z) (mn us : list (list R)) (ret : list (list R)) : outcome (list (list R)) :=
  match k with
  | O => Ret ret
  | S k' =>
      u <- rd [] us i ;; m <- thr_matrix fwd i mn ;;
      ret' <- wr ret i (mdot 7 7 3 m u) ;; thr_loop k' (i + 1) fwd mn us ret'
  end.
(** 714-723 *)
Definition tof_matrix (fwd bck i : Z) (mn : list (list R)) : outcome (list R) :=
  if (i <=? u32 (fwd - 1)) && (0 <? fwd) then rd [] mn (u32 (fwd - 1 - i))
  else if (i32 fwd - 1 <? i32 i) && (0 <? bck) then rd [] mn i
  else Throw RuntimeError.
Definition add_l (a b : list R) : list R := map (fun i => nth i a 0 + nth i b 0)%R (seq 0 7).
(** 712-725 *)
Fixpoint tof_loop (k : nat) (i fwd bck : Z) (mn fs : list (list R)) (acc : list R) : outcome (list R) :=
  match k with
  | O => Ret acc
  | S k' =>
      f <- rd [] fs i ;; m <- tof_matrix fwd bck i mn ;;
      tof_loop k' (i + 1) fwd bck mn fs (add_l acc (mdot 7 7 1 m f))
  end.
(** 728-732: the 7 x (3 nseg + 1) array, the columns of the throttles and then the one of the time of flight *)
Definition final_array (n : nat) (blocks : list (list R)) (tof : list R) : list R :=
  flat_map (fun r => map (fun c => nth (3 * r + c mod 3) (nth (c / 3) blocks []) 0%R) (seq 0 (3 * n)) ++ [nth r tof 0%R]) (seq 0 7).
(** 626-735 *)
Definition get_relevant_gradients (nseg fwd bck : Z) (dxdx dxdu dxdtof : list (list R)) : outcome (list R * list R * list R) :=
  let n := Z.to_nat nseg in let mn0 := repeat (zeros 49) n in
  mn1 <- (if 0 <? fwd then m <- rd [] dxdx (u32 (fwd - 1)) ;; mn <- wr mn0 0 m ;; mn_fwd (Z.to_nat fwd - 1) 0 fwd dxdx mn else Ret mn0) ;;
  mn2 <- (if 0 <? bck then m <- rd [] dxdx fwd ;; mn <- wr mn1 fwd m ;; mn_bck (Z.to_nat bck - 1) 0 fwd dxdx mn else Ret mn1) ;;
  a <- (if 0 <? fwd then rd [] mn2 (u32 (fwd - 1)) else Ret eye7) ;;
  b <- (if 0 <? bck then m <- rd [] mn2 (u32 (nseg - 1)) ;; Ret (negl m) else Ret (negl eye7)) ;;
  th <- thr_loop n 0 fwd mn2 dxdu (repeat (zeros 21) n) ;;
  tf <- tof_loop n 0 fwd bck mn2 dxdtof (zeros 7) ;;
  Ret (a, b, final_array n th (map (fun x => x / IZR nseg)%R tf)).

(** compute_mc_grad, 737-752 *)
Definition compute_mc_grad (tas_var : list R -> R -> R -> list R -> option (list R)) (l : hg) : outcome (list R * list R * list R) :=
  g <- compute_all_gradients tas_var l ;;
  let '(m, u, f) := g in get_relevant_gradients (g_nseg l) (g_fwd l) (g_bck l) m u f.
