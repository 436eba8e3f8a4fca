(** * The Sims-Flanagan leg: mismatch constraints and their gradient
    src/leg/sims_flanagan.cpp 197-261, 273-519.
    Simplifications: double arithmetic is replaced by exact real arithmetic; [newton] is the root finder called by
    propagate_lagrangian (TwoBodyModel.v); the two-dimensional arrays of xtensor are kept as lists of columns until the
    final arrays are written; a NaN in the mass schedule (a zero throttle
    is divided by its norm) makes the whole gradient [None], and the coasts are then not run in the model. *)
From Coq Require Import ZArith Reals List Bool.
From Verif Require Import Outcome PartialReal Vec3 TwoBodyModel ReynoldsModel TcModel DynModel.
Import ListNotations.
Open Scope R_scope.
Open Scope outcome_scope.

(** include/kep3/leg/sims_flanagan.hpp 122-142: the members *)
Record sf : Type := mk_sf {
  s_rvs : state; s_ms : R; s_thr : list R; s_rvf : state; s_mf : R; s_tof : R; s_T : R; s_isp : R; s_mu : R;
  s_nseg : Z; s_fwd : Z; s_bck : Z }.

(** an array of seven doubles: position, velocity and mass *)
Definition col7 : Type := (state * R)%type.

Section Oracle.
Variable newton : (R -> R * R) -> R -> R -> R -> option R.

(** kep3::propagate_lagrangian (rv, t, mu, false).first *)
Definition coast (rv : state) (t mu : R) : outcome state :=
  r <- propagate_lagrangian newton rv t mu false ;; Ret (fst r).

(** 212-230: the forward segments, [k] of them left *)
Fixpoint fwd_loop (k : nat) (i nfwd : Z) (th : list R) (c veff dt mu : R) (rv : state) (m : R) : outcome col7 :=
  match k with
  | O => Ret (rv, m)
  | S k' =>
      x <- vget th (3 * i) ;; y <- vget th (3 * i + 1) ;; z <- vget th (3 * i + 2) ;;
      let dv := V (c / m * x) (c / m * y) (c / m * z) in
      let rv1 := (fst rv, V (vx (snd rv) + vx dv) (vy (snd rv) + vy dv) (vz (snd rv) + vz dv)) in
      let norm_dv := sqrt (vx dv * vx dv + vy dv * vy dv + vz dv * vz dv) in
      let m1 := m * exp (- norm_dv / veff) in
      rv2 <- coast rv1 (if Z.eqb i (nfwd - 1) then dt / 2 else dt) mu ;;
      fwd_loop k' (i + 1) nfwd th c veff dt mu rv2 m1
  end.
(** 238-255: the backward segments; the throttles are read from the end *)
Fixpoint bck_loop (k : nat) (i nbck : Z) (th : list R) (c veff dt mu : R) (rv : state) (m : R) : outcome col7 :=
  match k with
  | O => Ret (rv, m)
  | S k' =>
      let size := Z.of_nat (length th) in
      x <- vget th (size - 1 - 3 * i - 2) ;; y <- vget th (size - 1 - 3 * i - 1) ;; z <- vget th (size - 1 - 3 * i) ;;
      let dv := V (c / m * x) (c / m * y) (c / m * z) in
      let rv1 := (fst rv, V (vx (snd rv) - vx dv) (vy (snd rv) - vy dv) (vz (snd rv) - vz dv)) in
      let norm_dv := sqrt (vx dv * vx dv + vy dv * vy dv + vz dv * vz dv) in
      let m1 := m * exp (norm_dv / veff) in
      rv2 <- coast rv1 (if Z.eqb i (nbck - 1) then - dt / 2 else - dt) mu ;;
      bck_loop k' (i + 1) nbck th c veff dt mu rv2 m1
  end.
(** 197-261.  With no segment in a pass the first coast of that pass is skipped (208-210, 234-236) *)
Definition forward_pass (l : sf) : outcome col7 :=
  let veff := s_isp l * G0 in let dt := s_tof l / IZR (s_nseg l) in let c := s_T l * dt in
  rv <- (if Z.ltb 0 (s_fwd l) then coast (s_rvs l) (dt / 2) (s_mu l) else Ret (s_rvs l)) ;;
  fwd_loop (Z.to_nat (s_fwd l)) 0 (s_fwd l) (s_thr l) c veff dt (s_mu l) rv (s_ms l).
Definition backward_pass (l : sf) : outcome col7 :=
  let veff := s_isp l * G0 in let dt := s_tof l / IZR (s_nseg l) in let c := s_T l * dt in
  rv <- (if Z.ltb 0 (s_bck l) then coast (s_rvf l) (- dt / 2) (s_mu l) else Ret (s_rvf l)) ;;
  bck_loop (Z.to_nat (s_bck l)) 0 (s_bck l) (s_thr l) c veff dt (s_mu l) rv (s_mf l).
Definition sub7 (a b : col7) : col7 :=
  ((V (vx (fst (fst a)) - vx (fst (fst b))) (vy (fst (fst a)) - vy (fst (fst b))) (vz (fst (fst a)) - vz (fst (fst b))),
    V (vx (snd (fst a)) - vx (snd (fst b))) (vy (snd (fst a)) - vy (snd (fst b))) (vz (snd (fst a)) - vz (snd (fst b)))),
   snd a - snd b).
Definition compute_mismatch_constraints (l : sf) : outcome col7 :=
  f <- forward_pass l ;; b <- backward_pass l ;; Ret (sub7 f b).

(** 273-284: std::pow (r.r, 1.5) *)
Definition dyn (rv : state) (mu : R) : state :=
  let R3 := Rpower (vx (fst rv) * vx (fst rv) + vy (fst rv) * vy (fst rv) + vz (fst rv) * vz (fst rv)) 1.5 in
  (snd rv, V (- mu / R3 * vx (fst rv)) (- mu / R3 * vy (fst rv)) (- mu / R3 * vz (fst rv))).

(** *** gradients_multiple_impulses, 286-414 *)
(** 317-325: the throttles of the segments, three at a time *)
Fixpoint triples (th : list R) : list vec :=
  match th with x :: y :: z :: l => V x y z :: triples l | _ => [] end.
(** columns of a 3 x (3 nseg + 2) array, or entries of a row of that width; the last two are the initial mass and tof.
    319-323: column j of du[i]; 326-327: dm[0] and dtof *)
Definition du (i j : nat) : vec :=
  V (if Nat.eqb j (3 * i) then 1 else 0) (if Nat.eqb j (3 * i + 1) then 1 else 0) (if Nat.eqb j (3 * i + 2) then 1 else 0).
Definition dm0 (nseg j : nat) : R := if Nat.eqb j (3 * nseg) then 1 else 0.
Definition dtof (nseg j : nat) : R := if Nat.eqb j (3 * nseg + 1) then 1 else 0.
(** 328-339: for every segment the impulse and its derivative, and at the end the mass and its derivative *)
Fixpoint schedule (nseg i : nat) (us : list vec) (T c a m : R) (dm : nat -> R) : option (list (vec * (nat -> vec)) * R * (nat -> R)) :=
  match us with
  | [] => Some ([], m, dm)
  | u :: us' =>
      let N := INR nseg in
      let Dv := vscal (c / m) u in
      let un := sqrt (vx u * vx u + vy u * vy u + vz u * vz u) in
      let Dvn := c / m * un in
      let dDv := fun j => vadd (vsub (vscal (c / m) (du i j)) (vscal (c / m / m) (vscal (dm j) u))) (vscal (T / m) (vscal (/ N) (vscal (dtof nseg j) u))) in
      k <-? pdiv (c / m) un ;;
      let dDvn := fun j => k * dot u (du i j) - c / m / m * un * dm j + T / m * un * dtof nseg j / N in
      let m1 := m * exp (- Dvn * a) in
      let dm1 := fun j => - m1 * a * dDvn j + exp (- Dvn * a) * dm j in
      r <-? schedule nseg (S i) us' T c a m1 dm1 ;;
      Some ((Dv, dDv) :: fst (fst r), snd (fst r), snd r)
  end.
(** 340-361: coast [i] of [nseg] + 1, followed by the impulse if there is one left; M[i] and f[i] *)
Fixpoint arcs (nseg i : nat) (Dvs : list vec) (dt mu : R) (rv : state) : outcome (list (list R * state)) :=
  let dur := if Nat.eqb i 0 || Nat.eqb i nseg then dt / 2 else dt in
  r <- propagate_lagrangian newton rv dur mu true ;;
  match snd r with
  | None => UB
  | Some M =>
      let x := fst r in
      match Dvs with
      | [] => Ret [(M, dyn x mu)]
      | dv :: rest =>
          l <- arcs nseg (S i) rest dt mu (fst x, V (vx (snd x) + vx dv) (vy (snd x) + vy dv) (vz (snd x) + vz dv)) ;;
          Ret ((M, dyn x mu) :: l)
      end
  end.
(** 368-371: Mc = [Mn ... M0, Mn ... M1, ..., Mn] *)
Fixpoint chain (Ms : list (list R)) : list (list R) :=
  match Ms with
  | [] => []
  | M :: rest => match chain rest with [] => [M] | Mc :: l => mat66_dot Mc M :: Mc :: l end
  end.
(** _dot of a 6x6 matrix and a column of six *)
Definition mat61_dot (A : list R) (b : state) : state :=
  let e i := nth (6 * i) A 0 * vx (fst b) + nth (6 * i + 1) A 0 * vy (fst b) + nth (6 * i + 2) A 0 * vz (fst b)
             + nth (6 * i + 3) A 0 * vx (snd b) + nth (6 * i + 4) A 0 * vy (snd b) + nth (6 * i + 5) A 0 * vz (snd b) in
  (V (e 0%nat) (e 1%nat) (e 2%nat), V (e 3%nat) (e 4%nat) (e 5%nat)).
Definition add6 (a b : state) : state := (vadd (fst a) (fst b), vadd (snd a) (snd b)).
Definition scal6 (k : R) (a : state) : state := (vscal k (fst a), vscal k (snd a)).
Definition zero6 : state := (vzero, vzero).
Definition neg6 (a : state) : state := (vneg (fst a), vneg (snd a)).
(** Mc (Iv dDv) for one column; Iv (363-366) puts three numbers in the velocity rows.  Simplification: the code multiplies
    Mc by Iv first *)
Definition iv (w : vec) : state := (vzero, w).
(** 384-386, 389-391, 395-398: the sum over the segments of Mc[i + 1] Iv dDv[i], column j; [Mcs] is Mc[1], Mc[2], ... *)
Fixpoint grad_col (Mcs : list (list R)) (sch : list (vec * (nat -> vec))) (j : nat) : state :=
  match Mcs, sch with
  | Mc :: l, d :: sch' => add6 (mat61_dot Mc (iv (snd d j))) (grad_col l sch' j)
  | _, _ => zero6
  end.
(** 375-379: the sum of Mc[i + 2] f[i + 1]; [Mcs] is Mc[2], Mc[3], ... and [fs] is f[1], f[2], ... *)
Fixpoint sum_f (Mcs : list (list R)) (fs : list state) : state :=
  match Mcs, fs with Mc :: l, f :: fs' => add6 (mat61_dot Mc f) (sum_f l fs') | _, _ => zero6 end.
Definition col_of (A : list R) (j : nat) : state :=
  (V (nth j A 0) (nth (6 + j) A 0) (nth (12 + j) A 0), V (nth (18 + j) A 0) (nth (24 + j) A 0) (nth (30 + j) A 0)).
Definition eye7 : list col7 :=
  [((V 1 0 0, vzero), 0); ((V 0 1 0, vzero), 0); ((V 0 0 1, vzero), 0); ((vzero, V 1 0 0), 0); ((vzero, V 0 1 0), 0); ((vzero, V 0 0 1), 0); ((vzero, vzero), 1)].
(** the seven columns of grad_rvm and the 3 nseg + 1 columns of grad *)
Definition gradients_multiple_impulses (th : list R) (rvs : state) (ms T c a dt mu : R) : outcome (option (list col7 * list col7)) :=
  let us := triples th in
  let nseg := length us in
  if Nat.eqb nseg 0 then Ret (Some (eye7, [(zero6, 0)])) else
  match schedule nseg 0 us T c a ms (dm0 nseg) with
  | None => Ret None
  | Some (sch, m, dm) =>
      Mf <- arcs nseg 0 (map fst sch) dt mu rvs ;;
      let Mc := chain (map fst Mf) in
      let f := map snd Mf in
      let N := INR nseg in
      let t0 := add6 (scal6 0.5 (nth nseg f zero6)) (sum_f (skipn 2 Mc) (skipn 1 f)) in
      let t1 := scal6 (/ N) (add6 t0 (scal6 0.5 (mat61_dot (nth 1 Mc []) (nth 0 f zero6)))) in
      let grad_tof := add6 t1 (grad_col (skipn 1 Mc) sch (3 * nseg + 1)) in
      let grad_rvm := map (fun j => (col_of (nth 0 Mc []) j, 0)) (seq 0 6) ++ [(grad_col (skipn 1 Mc) sch (3 * nseg), dm (3 * nseg)%nat)] in
      let grad := map (fun j => (grad_col (skipn 1 Mc) sch j, dm j)) (seq 0 (3 * nseg)) ++ [(grad_tof, dm (3 * nseg + 1)%nat)] in
      Ret (Some (grad_rvm, grad))
  end.

(** *** gradients_bck, 425-479 *)
Definition neg_v (s : state) : state := (fst s, vneg (snd s)).
(** the rows of the velocity change sign (458, 463) *)
Definition row_flip (c : col7) : col7 := (neg_v (fst c), snd c).
Definition neg7 (c : col7) : col7 := (neg6 (fst c), - snd c).
(** 439-447: the throttles three by three, last first *)
Definition untriples (us : list vec) : list R := flat_map (fun u => [vx u; vy u; vz u]) us.
Definition reverse_throttles (th : list R) : list R := untriples (rev (triples th)).
(** 469-472: xt::flip of three columns at a time *)
Fixpoint flip3 {A} (l : list A) : list A :=
  match l with x :: y :: z :: r => z :: y :: x :: flip3 r | _ => l end.
(** 456-460: columns 0 to 2 and column 6 change sign *)
Definition bck_rvm (cols : list col7) : list col7 :=
  map neg7 (firstn 3 cols) ++ firstn 3 (skipn 3 cols) ++ map neg7 (skipn 6 cols).
Definition gradients_bck (th : list R) (rvf : state) (mf T c a dt mu : R) : outcome (option (list col7 * list col7)) :=
  r <- gradients_multiple_impulses (reverse_throttles th) (neg_v rvf) mf T c (- a) dt mu ;;
  match r with
  | None => Ret None
  | Some (grad_rvm, grad) =>
      let size := length th in
      let rvm := bck_rvm (map row_flip grad_rvm) in
      let g := map row_flip grad in
      Ret (Some (rvm, flip3 (rev (map neg7 (firstn size g))) ++ skipn size g))
  end.

(** row-major arrays from columns *)
Definition row_of (cols : list col7) (i : nat) : list R :=
  map (fun c : col7 => match i with
    | 0 => vx (fst (fst c)) | 1 => vy (fst (fst c)) | 2 => vz (fst (fst c))
    | 3 => vx (snd (fst c)) | 4 => vy (snd (fst c)) | 5 => vz (snd (fst c)) | _ => snd c end)%nat cols.
Definition array_of (cols : list col7) : list R := flat_map (row_of cols) (seq 0 7).
Definition scal7 (k : R) (c : col7) : col7 := (scal6 k (fst c), k * snd c).
Definition zero7 : col7 := (zero6, 0).

(** 481-519: gradients with respect to the initial state and mass, the final state and mass, and the throttles and tof *)
Definition compute_mc_grad (l : sf) : outcome (option (list R * list R * list R)) :=
  let dt := s_tof l / IZR (s_nseg l) in
  let c := s_T l * dt in
  let a := 1 / s_isp l / G0 in
  let nf3 := (3 * Z.to_nat (s_fwd l))%nat in
  let nb := (s_nseg l - s_fwd l)%Z in
  let nb3 := (3 * Z.to_nat nb)%nat in
  f <- gradients_multiple_impulses (firstn nf3 (s_thr l)) (s_rvs l) (s_ms l) (s_T l) c a dt (s_mu l) ;;
  b <- gradients_bck (skipn nf3 (s_thr l)) (s_rvf l) (s_mf l) (s_T l) c a dt (s_mu l) ;;
  match f, b with
  | Some (rvm, gf), Some (rvm_b, gb) =>
      let tf := scal7 (IZR (s_fwd l)) (scal7 (/ IZR (s_nseg l)) (nth nf3 gf zero7)) in
      let tb := scal7 (IZR nb) (scal7 (/ IZR (s_nseg l)) (nth nb3 gb zero7)) in
      Ret (Some (array_of rvm, array_of rvm_b, array_of (firstn nf3 gf ++ firstn nb3 gb ++ [sub7 tf tb])))
  | _, _ => Ret None
  end.
End Oracle.
