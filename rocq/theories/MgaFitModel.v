(** * The multiple gravity assist problem (pykep/trajopt/_mga.py): construction, bounds, fitness, trajectory
    Simplifications: floats are real numbers, [None] is a NaN.  Epochs are modified julian dates of 2000 in days.  A planet is
    what the problem uses of it: its ephemeris, get_mu_central_body, get_mu_self, get_safe_radius.  The typed part of the
    constructor is modelled: the checks on the Python types of [tof] are in the type [tofs]; the list [t0], which the
    constructor overwrites in place by epochs (95-98), is a pair
    of numbers (no rounding to microseconds).  KeyError and the like do not occur; IndexError is [OutOfRange],
    ValueError and TypeError are [InvalidArgument].  A NaN duration (alpha encoding with a non-positive alpha, or all alphas
    one) reaches the conversion of T / pi in the Lambert constructor and is [UB] at once. *)
From Coq Require Import ZArith Reals List Bool.
From Verif Require Import Outcome PartialReal Vec3 TwoBodyModel KplaModel LambertModel LambertReal FlybyModel MgaModel.
Import ListNotations.
Open Scope R_scope.
Open Scope outcome_scope.

Record body := mk_body { b_eph : R -> outcome (option state); b_muc : R; b_mu : R; b_safe : R }.
(** the argument tof: [lb, ub], a list of pairs, or a float *)
Inductive tofs := TAlpha (lb ub : R) | TDirect (l : list (R * R)) | TEta (t : R).
Record mga := mk_mga { m_seq : list body; m_t0 : R * R; m_tofs : tofs; m_vinf : R; m_multi : bool; m_ins : option (R * R) }.
Definition enc_of (t : tofs) : encoding := match t with TAlpha _ _ => Alpha | TDirect _ => Direct | TEta t => Eta t end.
Definition b0 : body := mk_body (fun _ => Throw OutOfRange) 0 0 0.
Definition n_legs (P : mga) : nat := length (m_seq P) - 1.
Definition common_mu (P : mga) : R := b_muc (hd b0 (m_seq P)).
(** 43-165.  [e_target] and [rp_target] may be missing; seq[0] of an empty list is an IndexError *)
Definition mga_ctor (seq : list body) (t0 : R * R) (tof : tofs) (vinf : R) (multi ins : bool) (e_target rp_target : option R) : outcome mga :=
  match seq with
  | [] => Throw OutOfRange
  | s0 :: _ =>
    if existsb (fun s => if Req_EM_T (b_muc s) (b_muc s0) then false else true) seq then Throw InvalidArgument else
    _ <- match tof with
         | TDirect l => if negb (length l =? length seq - 1)%nat then Throw InvalidArgument else
                        if existsb (fun p => if Rlt_dec (snd p) (fst p) then true else false) l then Throw InvalidArgument else Ret tt
         | _ => Ret tt
         end ;;
    i <- (if ins then match rp_target, e_target with Some rp, Some e => Ret (Some (e, rp)) | _, _ => Throw InvalidArgument end else Ret None) ;;
    Ret (mk_mga seq t0 tof (vinf * 1000) multi i)
  end.
(** 167-187 *)
Definition get_nobj (P : mga) : nat := if m_multi P then 2 else 1.
Definition get_bounds (P : mga) : list R * list R :=
  match m_tofs P with
  | TAlpha lb ub => ([fst (m_t0 P); lb] ++ repeat (1 / 1000) (n_legs P), [snd (m_t0 P); ub] ++ repeat (1 - 1 / 1000) (n_legs P))
  | TDirect l => ([fst (m_t0 P)] ++ map fst l, [snd (m_t0 P)] ++ map snd l)
  | TEta _ => ([fst (m_t0 P)] ++ repeat (1 / 1000) (n_legs P), [snd (m_t0 P)] ++ repeat (1 - 1 / 1000) (n_legs P))
  end.

(** numpy's cumsum *)
Fixpoint cumsum (acc : R) (l : list R) : list R := match l with [] => [] | a :: r => (acc + a) :: cumsum (acc + a) r end.
(** a vector that may hold a NaN *)
Definition optv (v : option R * option R * option R) : option vec :=
  let '(a, b, c) := v in (x <-? a ;; y <-? b ;; z <-? c ;; Some (V x y z))%partial.
Definition nanv : option R * option R * option R := (None, None, None).
(** the positions handed to the Lambert constructor *)
Definition pos3 (o : option state) : option R * option R * option R := match o with Some s => sv (fst s) | None => nanv end.
Definition vel3 (o : option state) : option vec := match o with Some s => Some (snd s) | None => None end.
Definition osub (a b : option vec) : option vec := (x <-? a ;; y <-? b ;; Some (vsub x y))%partial.

(** a Lambert leg: lp.r0, lp.v0[0], lp.v1[0] *)
Record lleg := mk_lleg { g_r0 : option vec; g_v0 : option vec; g_v1 : option vec }.
(** 299-303: r[i], v[i] = seq[i].eph(ep[i]); a list of dates that is too short is an IndexError *)
Fixpoint all_eph (seq : list body) (ep : list R) : outcome (list (option state)) :=
  match seq, ep with
  | [], _ => Ret []
  | _ :: _, [] => Throw OutOfRange
  | b :: bs, t :: ts => s <- b_eph b t ;; r <- all_eph bs ts ;; Ret (s :: r)
  end.
(** 305-316: lambert_problem(r[i], r[i+1], T[i] DAY2SEC, mu, cw = False, multi_revs = 0) *)
Fixpoint all_lambert (mu : R) (rv : list (option state)) (T : list R) : outcome (list lleg) :=
  match rv with
  | a :: ((b :: _) as rest) =>
      match T with
      | [] => Throw OutOfRange
      | t :: T' =>
          L <- lambert real_arith (pos3 a) (pos3 b) (Some (t * day2sec)) (Some mu) false 0 ;;
          match l_v0 L, l_v1 L with
          | v0 :: _, v1 :: _ => r <- all_lambert mu rest T' ;; Ret (mk_lleg (optv (pos3 a)) (optv v0) (optv v1) :: r)
          | _, _ => Throw OutOfRange
          end
      end
  | _ => Ret []
  end.
(** 318-324; [bs] and [rv] are seq[1:] and v[1:] *)
Fixpoint all_flybys (lps : list lleg) (bs : list body) (rv : list (option state)) : list (option R) :=
  match lps, bs, rv with
  | a :: ((c :: _) as rest), b :: bs', p :: rv' =>
      (i <-? osub (g_v1 a) (vel3 p) ;; o <-? osub (g_v0 c) (vel3 p) ;; fb_dv i o (b_mu b) (b_safe b))%partial :: all_flybys rest bs' rv'
  | _, _, _ => []
  end.
(** Python's max(0, x): 0 when x is a NaN *)
Definition py_max0 (x : option R) : option R := match x with Some a => Some (Rmax 0 a) | None => Some 0 end.
(** 330-341 *)
Definition insertion (mu e rp dv : R) : option R :=
  (q <-? pdiv (2 * mu) rp ;; p <-? psqrt (dv * dv + q) ;; k <-? pdiv mu rp ;; p2 <-? psqrt (q - k * (1 - e)) ;; Some (Rabs (p - p2)))%partial.
(** the result of _compute_dvs: DVlaunch, DVfb, DVarrival, lps, DVlaunch_tot, ep, T *)
Record dvs := mk_dvs { d_launch : option R; d_fb : list (option R); d_arrival : option R; d_legs : list lleg; d_tot : option R; d_ep : list R; d_T : list R }.
(** durations that are numbers: see the head of the file *)
Definition nan_tofs (enc : encoding) (x : list R) : bool :=
  match enc, x with
  | Alpha, _ :: _ :: al => existsb (fun a => if Rle_dec a 0 then true else false) al || (if Req_EM_T (py_sum (map ln al)) 0 then negb (length al =? 0)%nat else false)
  | _, _ => false
  end.
Definition oadd (a b : option R) : option R := (x <-? a ;; y <-? b ;; Some (x + y))%partial.
(** 283-342 *)
Definition compute_dvs (P : mga) (x : list R) : outcome dvs :=
  T <- decode_tofs (enc_of (m_tofs P)) (n_legs P) x ;;
  x0 <- match x with a :: _ => Ret a | [] => Throw OutOfRange end ;;
  if nan_tofs (enc_of (m_tofs P)) x then UB else
  let ep := cumsum 0 (x0 :: T) in
  rv <- all_eph (m_seq P) ep ;;
  lps <- all_lambert (common_mu P) rv T ;;
  match lps with
  | [] => Throw OutOfRange
  | l0 :: _ =>
      let fb := all_flybys lps (tl (m_seq P)) (tl rv) in
      let tot := (w <-? osub (vel3 (hd None rv)) (g_v0 l0) ;; Some (norm w))%partial in
      let launch := py_max0 (oadd tot (Some (- m_vinf P))) in
      let arr := (w <-? osub (vel3 (last rv None)) (g_v1 (last lps l0)) ;; Some (norm w))%partial in
      let arr := match m_ins P with None => arr | Some (e, rp) => (a <-? arr ;; insertion (b_mu (last (m_seq P) b0)) e rp a)%partial end in
      Ret (mk_dvs launch fb arr lps tot ep T)
  end.
(** 345-356; np.sum of the fly-by costs *)
Definition fitness (P : mga) (x : list R) : outcome (list (option R)) :=
  d <- compute_dvs P x ;;
  let dv := oadd (oadd (d_launch d) (fold_left oadd (d_fb d) (Some 0))) (d_arrival d) in
  T <- match enc_of (m_tofs P) with
       | Direct => Ret (py_sum (tl x))
       | Alpha => match x with _ :: t :: _ => Ret t | _ => Throw OutOfRange end
       | Eta t => y <- eta2direct (Eta t) x ;; Ret (py_sum (tl y))
       end ;;
  Ret (if m_multi P then [dv; Some T] else [dv]).

(** ** to_planet, 358-425 *)
(** bisect.bisect_left on a list: binary search; on a sorted list the number of entries below [t] *)
Fixpoint bisect (fuel : nat) (l : list R) (t : R) (lo hi : nat) : nat :=
  match fuel with
  | O => lo
  | S k => if (lo <? hi)%nat then let mid := ((lo + hi) / 2)%nat in
             if Rlt_dec (nth mid l 0) t then bisect k l t (S mid) hi else bisect k l t lo mid
           else lo
  end.
Definition bisect_left (l : list R) (t : R) : nat := bisect (S (length l)) l t 0 (length l).
Section Oracle.
Variable newton : (R -> R * R) -> R -> R -> R -> option R.
(** 376-411 *)
Definition sc_eph (mu : R) (legs : list lleg) (ep : list R) (t : R) : outcome (option state) :=
  match ep, legs with
  | e0 :: _, l0 :: _ =>
      if Rlt_dec t e0 then Throw InvalidArgument else
      if Rlt_dec (last ep e0) t then Throw InvalidArgument else
      if Req_EM_T t e0 then Ret (r <-? g_r0 l0 ;; v <-? g_v0 l0 ;; Some (r, v))%partial else
      let i := bisect_left ep t in
      match nth_error legs (i - 1), nth_error ep (i - 1) with
      | Some l, Some e =>
          match g_r0 l, g_v0 l with
          | Some r, Some v => x <- propagate_lagrangian newton (r, v) ((t - e) * day2sec) mu false ;; Ret (Some (fst x))
          | _, _ => Ret None
          end
      | _, _ => Throw OutOfRange
      end
  | _, _ => Throw OutOfRange
  end.
(** 416-425 *)
Definition to_planet (P : mga) (x : list R) : outcome (R -> outcome (option state)) :=
  if negb (length x =? length (fst (get_bounds P)))%nat then Throw InvalidArgument else
  d <- compute_dvs P x ;; Ret (sc_eph (common_mu P) (d_legs d) (d_ep d)).
End Oracle.
