(** * Direct low-thrust problems (pykep/trajopt/_direct_point2point.py, pykep/trajopt/_direct_pl2pl.py)
    Simplifications: floats are real numbers; a NaN or an infinity anywhere makes the whole result [None] (a division by a zero
    scaling factor included, where pure Python floats would raise).  The leg kept as a data member is not threaded through:
    the attributes the constructor sets (states of point2point, masses, thrust, isp, mu, cut) never change, and every other
    attribute is written by [_set_leg_from_x] before each use.  IndexError is [OutOfRange], TypeError [InvalidArgument]. *)
From Coq Require Import ZArith Reals List Bool.
From Verif Require Import Outcome PartialReal Vec3 TwoBodyModel TcModel SfModel KplaModel.
Import ListNotations.
Open Scope R_scope.
Open Scope outcome_scope.

(** ** Python lists *)
Definition py_get (x : list R) (i : nat) : outcome R := match nth_error x i with Some v => Ret v | None => Throw OutOfRange end.
(** x[-1] *)
Definition py_last (x : list R) : outcome R := match rev x with v :: _ => Ret v | [] => Throw OutOfRange end.
(** x[k:-1] *)
Definition py_mid (k : nat) (x : list R) : list R := removelast (skipn k x).
(** x[k:k+3] where three numbers are needed *)
Definition py_vec (x : list R) (k : nat) : outcome vec := match firstn 3 (skipn k x) with [a; b; c] => Ret (V a b c) | _ => Throw InvalidArgument end.
(** a / s for an array *)
Definition pdivs (a : list R) (s : R) : option (list R) := if Req_EM_T s 0 then None else Some (map (fun x => x / s) a).
Fixpoint pconcat (l : list (option (list R))) : option (list R) :=
  match l with [] => Some [] | a :: r => (x <-? a ;; y <-? pconcat r ;; Some (x ++ y))%partial end.
(** an expression applied to the last entry: retval[-1] = f(retval[-1]) *)
Fixpoint on_last (f : R -> R) (l : list R) : list R :=
  match l with [] => [] | [a] => [f a] | a :: r => a :: on_last f r end.
(** std::array<double, 7> seen from Python *)
Definition seven (c : col7) : list R :=
  [vx (fst (fst c)); vy (fst (fst c)); vz (fst (fst c)); vx (snd (fst c)); vy (snd (fst c)); vz (snd (fst c)); snd c].
(** m[i, :] and m[i, -1] of an array of [w] columns *)
Definition mrow (w : nat) (m : list R) (i : nat) : list R := firstn w (skipn (w * i) m).
Definition mlast (w : nat) (m : list R) (i : nat) : R := nth (w * i + (w - 1)) m 0.

(** ** The attributes of the leg written from the decision vector *)
(** leg.tof (sims_flanagan.cpp 57-61), leg.throttles (70-77); the product nseg cut is exact (C26 for doubles) *)
Definition set_leg (rvs : state) (ms : R) (rvf : state) (mf tof T isp mu cut : R) (th : list R) : outcome sf :=
  if Rlt_dec tof 0 then Throw DomainError else
  let k := Z.of_nat (length th) in
  if negb (Z.eqb (Z.modulo k 3) 0) || Z.eqb k 0 then Throw LogicError else
  let n := Z.div k 3 in let f := Int_part (IZR n * cut) in
  Ret (mk_sf rvs ms th rvf mf tof T isp mu n f (n - f)).
(** the setters called by the constructors *)
Definition leg_params (T isp mu cut : R) : outcome unit :=
  if Rlt_dec T 0 then Throw DomainError else if Rlt_dec isp 0 then Throw DomainError else if Rlt_dec mu 0 then Throw DomainError else
  if Rlt_dec cut 0 then Throw DomainError else if Rlt_dec 1 cut then Throw DomainError else Ret tt.

(** for i in range(n): retval.extend(tcg[i, 3 * i : 3 * i + 3]) with an array of [m] rows and 3 [m] columns *)
Fixpoint tc_rows (k i : nat) (m : Z) (t : list R) : outcome (list R) :=
  match k with
  | O => Ret []
  | S k' => if Z.ltb (Z.of_nat i) m then
      r <- tc_rows k' (S i) m t ;; Ret (firstn 3 (skipn (3 * i) (mrow (3 * Z.to_nat m) t i)) ++ r) else Throw OutOfRange
  end.

Section Oracle.
Variable newton : (R -> R * R) -> R -> R -> R -> option R.

(** ** direct_point2point *)
Record p2p := mk_p2p { p_rvs : state; p_rvf : state; p_ms : R; p_mu : R; p_T : R; p_isp : R; p_tof : R * R; p_mf : R * R; p_nseg : nat; p_cut : R;
  p_M : R; p_L : R; p_Vel : R }.
(** _direct_point2point.py 21-94 (mass_scaling, r_scaling, v_scaling are p_M, p_L, p_Vel) *)
Definition p2p_ctor rvs rvf ms mu T isp tofb mfb nseg cut M L Ve : outcome p2p :=
  _ <- leg_params T isp mu cut ;; Ret (mk_p2p rvs rvf ms mu T isp tofb mfb nseg cut M L Ve).
(** 96-100 *)
Definition p2p_leg (P : p2p) (x : list R) : outcome sf :=
  t <- py_last x ;; mf <- py_get x 0 ;;
  set_leg (p_rvs P) (p_ms P) (p_rvf P) mf (t * day2sec) (p_T P) (p_isp P) (p_mu P) (p_cut P) (py_mid 1 x).
(** 102-105 *)
Definition p2p_bounds (P : p2p) : list R * list R :=
  ([fst (p_mf P)] ++ repeat (-1) (3 * p_nseg P) ++ [fst (p_tof P)], [snd (p_mf P)] ++ repeat 1 (3 * p_nseg P) ++ [snd (p_tof P)]).
(** the scaling of a fitness vector: 118-121, and _direct_pl2pl.py 153-157 *)
Definition scale_fitness (obj : R) (c tail : list R) (M L Ve : R) : option (list R) :=
  pconcat [pdivs [obj] M; pdivs (firstn 3 c) L; pdivs (firstn 3 (skipn 3 c)) Ve; pdivs (skipn 6 c) M; Some tail].
(** 108-123 *)
Definition p2p_fitness (P : p2p) (x : list R) : outcome (option (list R)) :=
  l <- p2p_leg P x ;; mf <- py_get x 0 ;;
  ceq <- compute_mismatch_constraints newton l ;;
  cineq <- compute_throttle_constraints (s_nseg l) (s_thr l) ;;
  Ret (scale_fitness (- mf) (seven ceq) cineq (p_M P) (p_L P) (p_Vel P)).
(** 128-161: one line of the mismatch gradient, and all *)
Definition p2p_line (B G : list R) (w i : nat) (s : R) : option (list R) :=
  (r <-? pdivs (mlast 7 B i :: mrow w G i) s ;; Some (on_last (fun a => a * day2sec) r))%partial.
Definition p2p_gradient (P : p2p) (x : list R) : outcome (option (list R)) :=
  l <- p2p_leg P x ;;
  g <- compute_mc_grad newton l ;;
  t <- compute_tc_grad (s_nseg l) (s_thr l) ;;
  rows <- tc_rows (p_nseg P) 0 (s_nseg l) t ;;
  match g with
  | None => Ret None
  | Some (_, B, G) =>
      let w := (3 * Z.to_nat (s_nseg l) + 1)%nat in
      Ret (pconcat ([pdivs [-1] (p_M P)] ++ map (fun i => p2p_line B G w i (p_L P)) (seq 0 3) ++ map (fun i => p2p_line B G w i (p_Vel P)) (seq 3 3)
                     ++ map (fun i => p2p_line B G w i (p_M P)) (seq 6 1) ++ [Some rows]))
  end.
(** 163-177 *)
Definition p2p_sparsity (P : p2p) : list (nat * nat) :=
  let dim := (2 + 3 * p_nseg P)%nat in
  [(0, 0)]%nat ++ flat_map (fun i => map (fun j => (i, j)) (seq 0 dim)) (seq 1 7)
  ++ flat_map (fun i => [(8 + i, 3 * i + 1); (8 + i, 3 * i + 2); (8 + i, 3 * i + 3)]%nat) (seq 0 (p_nseg P)).
(** 179-183 *)
Definition p2p_nec (P : p2p) : nat := 7.
Definition p2p_nic (P : p2p) : nat := p_nseg P.

(** ** direct_pl2pl *)
Record pl2pl := mk_pl2pl { q_ephs : R -> outcome (option state); q_ephf : R -> outcome (option state); q_ms : R; q_mu : R; q_T : R; q_isp : R;
  q_t0 : R * R; q_tof : R * R; q_mf : R * R; q_vinfs : R; q_vinff : R; q_nseg : nat; q_cut : R; q_M : R; q_L : R; q_Vel : R }.
(** _direct_pl2pl.py 21-99: the excess velocities are given in km/s and kept in m/s *)
Definition pl2pl_ctor ephs ephf ms mu T isp t0b tofb mfb vinfs vinff nseg cut M L Ve : outcome pl2pl :=
  _ <- leg_params T isp mu cut ;; Ret (mk_pl2pl ephs ephf ms mu T isp t0b tofb mfb (vinfs * 1000) (vinff * 1000) nseg cut M L Ve).
(** 102-117 *)
Definition pl2pl_bounds (P : pl2pl) : list R * list R :=
  ([fst (q_t0 P); fst (q_mf P)] ++ repeat (- q_vinfs P) 3 ++ repeat (- q_vinff P) 3 ++ repeat (-1) (3 * q_nseg P) ++ [fst (q_tof P)],
   [snd (q_t0 P); snd (q_mf P)] ++ repeat (q_vinfs P) 3 ++ repeat (q_vinff P) 3 ++ repeat 1 (3 * q_nseg P) ++ [snd (q_tof P)]).
(** 119-129; [None] if an ephemeris is not a number.  The leg and rs, vs, rf, vf *)
Definition pl2pl_leg (P : pl2pl) (x : list R) : outcome (option (sf * state * state)) :=
  t0 <- py_get x 0 ;; os <- q_ephs P t0 ;; t <- py_last x ;; of <- q_ephf P (t0 + t) ;;
  us <- py_vec x 2 ;; uf <- py_vec x 5 ;; mf <- py_get x 1 ;;
  match os, of with
  | Some s, Some f =>
      l <- set_leg (fst s, vadd (snd s) us) (q_ms P) (fst f, vadd (snd f) uf) mf (t * day2sec) (q_T P) (q_isp P) (q_mu P) (q_cut P) (py_mid 8 x) ;;
      Ret (Some (l, s, f))
  | _, _ => Ret None
  end.
(** 132-159; 142-149: v.v - vinf^2 over v_scaling^2 *)
Definition vinf_con (u : vec) (vmax Ve : R) : option R := pdiv (vx u * vx u + vy u * vy u + vz u * vz u - vmax * vmax) (Ve * Ve).
Definition pl2pl_fitness (P : pl2pl) (x : list R) : outcome (option (list R)) :=
  mf <- py_get x 1 ;; o <- pl2pl_leg P x ;;
  match o with
  | None => Ret None
  | Some (l, _, _) =>
      ceq <- compute_mismatch_constraints newton l ;;
      cineq <- compute_throttle_constraints (s_nseg l) (s_thr l) ;;
      us <- py_vec x 2 ;; uf <- py_vec x 5 ;;
      Ret (a <-? vinf_con us (q_vinfs P) (q_Vel P) ;; b <-? vinf_con uf (q_vinff P) (q_Vel P) ;;
           scale_fitness (- mf) (seven ceq) (cineq ++ [a] ++ [b]) (q_M P) (q_L P) (q_Vel P))%partial
  end.
(** m[i, :3] . p and m[i, 3:6] . p of a 7 x 7 array *)
Definition dot_lo (m : list R) (i : nat) (p : vec) : R := nth (7 * i) m 0 * vx p + nth (7 * i + 1) m 0 * vy p + nth (7 * i + 2) m 0 * vz p.
Definition dot_hi (m : list R) (i : nat) (p : vec) : R := nth (7 * i + 3) m 0 * vx p + nth (7 * i + 4) m 0 * vy p + nth (7 * i + 5) m 0 * vz p.
(** 181-186, 197-199, 208-210: m[i, :3] . v - m[i, 3:6] . r mu / |r|^3 *)
Definition kep_rate (m : list R) (i : nat) (s : state) (mu : R) : option R :=
  (k <-? pdiv (dot_hi m i (fst s) * mu) (norm (fst s) ^ 3) ;; Some (dot_lo m i (snd s) - k))%partial.
(** constants.hpp: SEC2DAY *)
Definition sec2day : R := 1 / 86400.
(** 175-200, one of the first six lines *)
Definition pl2pl_line (A B G : list R) (w : nat) (s f : state) (mu : R) (i : nat) (sc : R) : option (list R) :=
  (ks <-? kep_rate A i s mu ;; kf <-? kep_rate B i f mu ;;
   if Req_EM_T sc 0 then None else
   let tmp := ks + kf in
   Some ([tmp / sc / sec2day; mlast 7 B i / sc] ++ map (fun j => nth (7 * i + 3 + j) A 0 / sc) (seq 0 3) ++ map (fun j => nth (7 * i + 3 + j) B 0 / sc) (seq 0 3)
         ++ on_last (fun a => (a + kf / sc) * day2sec) (map (fun a => a / sc) (mrow w G i))))%partial.
(** 203-212 *)
Definition pl2pl_mass (B G : list R) (w : nat) (f : state) (mu sc : R) : option (list R) :=
  (kf <-? kep_rate B 6 f mu ;;
   if Req_EM_T sc 0 then None else
   Some ([mlast 7 B 6 / sc] ++ on_last (fun a => (a + kf / sc) * day2sec) (map (fun a => a / sc) (mrow w G 6))))%partial.
(** 164-222; here the loop over the throttle constraints runs over the leg's segments *)
Definition pl2pl_gradient (P : pl2pl) (x : list R) : outcome (option (list R)) :=
  o <- pl2pl_leg P x ;;
  match o with
  | None => Ret None
  | Some (l, s, f) =>
      g <- compute_mc_grad newton l ;;
      t <- compute_tc_grad (s_nseg l) (s_thr l) ;;
      rows <- tc_rows (Z.to_nat (s_nseg l)) 0 (s_nseg l) t ;;
      us <- py_vec x 2 ;; uf <- py_vec x 5 ;;
      match g with
      | None => Ret None
      | Some (A, B, G) =>
          let w := (3 * Z.to_nat (s_nseg l) + 1)%nat in
          let V2 := q_Vel P * q_Vel P in
          Ret (pconcat ([pdivs [-1] (q_M P)] ++ map (fun i => pl2pl_line A B G w s f (s_mu l) i (q_L P)) (seq 0 3) ++ map (fun i => pl2pl_line A B G w s f (s_mu l) i (q_Vel P)) (seq 3 3)
                         ++ [pl2pl_mass B G w f (s_mu l) (q_M P)] ++ [Some rows]
                         ++ [pdivs [2 * vx us; 2 * vy us; 2 * vz us; 2 * vx uf; 2 * vy uf; 2 * vz uf] V2]))
      end
  end.
(** 224-247 *)
Definition pl2pl_sparsity (P : pl2pl) : list (nat * nat) :=
  let dim := (9 + 3 * q_nseg P)%nat in
  [(0, 1)]%nat ++ flat_map (fun i => map (fun j => (i, j)) (seq 0 dim)) (seq 1 6)
  ++ [(7, 1)]%nat ++ map (fun j => (7, j)%nat) (seq 8 (dim - 8))
  ++ flat_map (fun i => [(8 + i, 3 * i + 8); (8 + i, 3 * i + 9); (8 + i, 3 * i + 10)]%nat) (seq 0 (q_nseg P))
  ++ map (fun j => (8 + q_nseg P, j)%nat) (seq 2 3) ++ map (fun j => (9 + q_nseg P, j)%nat) (seq 5 3).
(** 249-253 *)
Definition pl2pl_nec (P : pl2pl) : nat := 7.
Definition pl2pl_nic (P : pl2pl) : nat := q_nseg P + 2.
End Oracle.
