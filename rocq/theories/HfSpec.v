(** * Specification of the high-fidelity leg: what evaluating a leg with given data should mean *)
From Coq Require Import ZArith List.
From Flocq Require Import Core.Core IEEE754.BinarySingleNaN.
From Verif Require Import Outcome Float64 LegModel LegSpec HfModel.
Import ListNotations.
Open Scope Z_scope.

(** Flying a sequence of segments, each with a thrust vector and the time at which it ends. *)
Fixpoint fly (integ : double -> list double -> list double -> double -> double -> bool * list double * double)
    (tol : double) (p : list double) (segs : list (list double * double)) (x : list double) (t : double)
  : option (list double) :=
  match segs with
  | [] => Some x
  | (u, tend) :: rest =>
      let '(ok, x', t') := integ tol (p ++ u) x t tend in
      if ok then fly integ tol p rest x' t' else None
  end.

(** the thrust vector of segment [i]: throttles 3i, 3i+1, 3i+2 times the maximum thrust *)
Definition seg_thrust (T : double) (th : list double) (i : Z) : list double :=
  map (fun u => dmul u T) (firstn 3 (skipn (Z.to_nat (3 * i)) th)).

(** forward segments 0 .. nf-1 ending at (i+1)*dt; backward segments n-1 .. nf ending at tof-(i+1)*dt *)
Definition fwd_segs (T : double) (th : list double) (dt : double) (nf : nat) : list (list double * double) :=
  map (fun i => (seg_thrust T th (Z.of_nat i), dmul (d_of_Z (Z.of_nat i + 1)) dt)) (seq 0 nf).
Definition bck_segs (T : double) (th : list double) (tof dt : double) (n : Z) (nb : nat) : list (list double * double) :=
  map (fun i => (seg_thrust T th (n - 1 - Z.of_nat i), dsub tof (dmul (d_of_Z (Z.of_nat i + 1)) dt))) (seq 0 nb).

(** The mismatch of a leg as a function of its data only. *)
Definition mismatch_spec integ (rvms th rvmf : list double) (tof T isp mu tol : double) (n nf : Z) : outcome (list double) :=
  let dt := ddiv tof (d_of_Z n) in
  let p := [mu; dmul isp dG0] in
  match fly integ tol p (fwd_segs T th dt (Z.to_nat nf)) rvms dzero,
        fly integ tol p (bck_segs T th tof dt n (Z.to_nat (n - nf))) rvmf tof with
  | Some a, Some b => Ret (vsub a b)
  | _, _ => Throw DomainError
  end.

(** ** Structural validity of a leg: what evaluating it relies on *)
Record hf_wf (l : hfleg) : Prop := {
  w_n : 1 <= hf_n l /\ 3 * hf_n l < 2 ^ 32 - 100;
  w_thr : Z.of_nat (length (hf_thr l)) = 3 * hf_n l;
  w_thrusts : length (hf_thrusts l) = length (hf_thr l);
  w_nf : 0 <= hf_nf l <= hf_n l;
  w_nb : hf_nb l = hf_n l - hf_nf l;
  w_split : hf_nf l = Ztrunc (round_product (hf_n l) (hf_cut l));
  w_cut : unit_double (hf_cut l);
  w_rvms : length (hf_rvms l) = 7%nat;
  w_rvmf : length (hf_rvmf l) = 7%nat;
  w_tof : not_negative (hf_tof l);
  w_T : not_negative (hf_T l);
  w_isp : not_negative (hf_isp l);
  w_mu : not_negative (hf_mu l);
  w_tol : dleb (hf_tol l) dzero = false /\ dgtb (hf_tol l) done = false }.

(** an integrator that holds the given tolerance and (mu, veff), whatever its thrust parameters, state and time *)
Definition ta_holds (tol mu isp : double) (a : ta) : Prop :=
  ta_tol a = tol /\ (exists u, length u = 3%nat /\ ta_pars a = [mu; dmul isp dG0] ++ u) /\ length (ta_state a) = 7%nat.
Definition ta_var_holds (tol mu isp : double) (a : ta) : Prop :=
  ta_tol a = tol /\ firstn 2 (ta_pars a) = [mu; dmul isp dG0].

(** The integrators and the thrust vector agree with the leg's data. *)
Definition hf_synced (l : hfleg) : Prop :=
  ta_holds (hf_tol l) (hf_mu l) (hf_isp l) (hf_tas l) /\ ta_var_holds (hf_tol l) (hf_mu l) (hf_isp l) (hf_tasv l)
  /\ hf_thrusts l = map (fun u => dmul u (hf_T l)) (hf_thr l).

(** Arguments the C++ types and the range of [unsigned] allow. *)
Definition short (v : list double) : Prop := Z.of_nat (length v) < 2 ^ 32 - 100.
Definition hop_ok (o : hf_op) : Prop :=
  match o with
  | HThr v => short v
  | HThrIt src i j => 0 <= i /\ j <= Z.of_nat (length src) /\ short src
  | HRvs v | HRvf v => length v = 6%nat
  | HRvms v | HRvmf v => length v = 7%nat
  | HSet rvms th rvmf _ _ _ _ _ _ => length rvms = 7%nat /\ length rvmf = 7%nat /\ short th
  | HSetShort rvms th rvmf _ => length rvms = 7%nat /\ length rvmf = 7%nat /\ short th
  | HCut c => is_nan c = false
  | _ => True
  end.
(** operations that do not touch mu, isp, max_thrust or tol *)
Definition keeps_pars (o : hf_op) : Prop :=
  match o with
  | HT _ | HIsp _ | HMu _ | HTol _ | HSet _ _ _ _ _ _ _ _ _ => False
  | _ => True
  end.
Definition is_set (o : hf_op) : bool :=
  match o with HSet _ _ _ _ _ _ _ _ _ | HSetShort _ _ _ _ => true | _ => false end.

(** ** Histories: setters and evaluations in any order on one object; the caller catches exceptions and goes on *)
Inductive hf_ev := Ev (o : hf_op) | EvMismatch.
Definition hf_ev_do integ (e : hf_ev) (l : hfleg) : hfleg * outcome unit :=
  match e with
  | Ev o => hf_do o l
  | EvMismatch => let '(l', r) := compute_mismatch integ l in
                  (l', match r with Ret _ => Ret tt | Throw x => Throw x | UB => UB end)
  end.
Fixpoint hf_run integ (es : list hf_ev) (l : hfleg) : outcome hfleg :=
  match es with
  | [] => Ret l
  | e :: es' => match hf_ev_do integ e l with
                | (_, UB) => UB
                | (l', _) => hf_run integ es' l'
                end
  end.
(** no call of one of the two [set] overloads threw *)
Fixpoint sets_return integ (es : list hf_ev) (l : hfleg) : Prop :=
  match es with
  | [] => True
  | e :: es' => match hf_ev_do integ e l with
                | (l', r) => (match e, r with
                              | Ev o, Throw _ => is_set o = false
                              | _, _ => True
                              end) /\ sets_return integ es' l'
                end
  end.
Definition ev_ok (P : hf_op -> Prop) (e : hf_ev) : Prop := match e with Ev o => P o | EvMismatch => True end.

(** The oracle does not change the dimension of the state. *)
Definition integ_dim (integ : double -> list double -> list double -> double -> double -> bool * list double * double) : Prop :=
  forall tol p x t0 t1, length (snd (fst (integ tol p x t0 t1))) = length x.

(** a leg constructed afresh from the public data of [l] *)
Definition rebuild (var_ic : list double) (l : hfleg) : outcome hfleg :=
  hf_ctor var_ic (hf_rvms l) (hf_thr l) (hf_rvmf l) (hf_tof l) (hf_T l) (hf_isp l) (hf_mu l) (hf_cut l) (hf_tol l).

(** ** C45: a [set] whose cut cannot be converted to a segment count is undefined behaviour; exclude it *)
Definition set_cut_ok (o : hf_op) : Prop :=
  match o with HSet _ _ _ _ _ _ _ cut _ => unit_double cut | _ => True end.

(** ** C29/C41: the constraint of one throttle, written out *)
Definition throttle_residual (u : list double) : double :=
  match u with
  | [x; y; z] => dsub (dadd (dadd (dmul x x) (dmul y y)) (dmul z z)) done
  | _ => dnan
  end.
(** the throttle of segment [i] *)
Definition seg_throttle (th : list double) (i : Z) : list double := firstn 3 (skipn (Z.to_nat (3 * i)) th).
