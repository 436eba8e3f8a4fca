(** * Property theorems: the constructor of the gravity assist problem on Python objects (C75).  Only statements. *)
From Coq Require Import Reals List String Bool.
From Verif Require Import Outcome MgaModel MgaFitModel PyMgaModel PyMgaSpec PyMgaProofs PyMgaMain.
Import ListNotations.
Open Scope R_scope.

(** exactly these arguments are accepted (PyMgaSpec.v; [fs]: the strings that float() takes), *)
Theorem C75_accepts : forall fs h seq t0 tof vinf multi enc ins e rp, (exists p h', mga_init fs h seq t0 tof vinf multi enc ins e rp = (Done p, h')) <-> accepts fs h seq t0 tof enc ins e rp.
Proof. exact init_accepts. Qed.
Print Assumptions C75_accepts.
(** and the problem keeps them, with the launch dates turned into epochs in the list of the caller *)
Theorem C75_keeps : forall fs h seq t0 tof vinf multi enc ins e rp p h',
  mga_init fs h seq t0 tof vinf multi enc ins e rp = (Done p, h') ->
  h' = stamped h t0 /\ o_seq p = seq /\ o_t0 p = t0 /\ o_tof p = tof /\ o_vinf p = vinf * 1000 /\ o_multi p = multi /\ o_enc p = enc /\ o_ins p = ins /\ o_e p = e /\ o_rp p = rp /\
  S (o_nlegs p) = List.length (get h seq) /\ forall b, In (PPlanet b) (get h seq) -> b_muc b = o_mu p.
Proof. exact init_keeps. Qed.
Print Assumptions C75_keeps.
(** accepted or not, no other list is touched, no list changes its length, and an entry is only ever changed from a number to the epoch of that number *)
Theorem C75_frame : forall fs h seq t0 tof vinf multi enc ins e rp, let h' := snd (mga_init fs h seq t0 tof vinf multi enc ins e rp) in
  List.length h' = List.length h /\ forall a, (t0 <> PRef a -> get h' a = get h a) /\ Forall2 (fun x y => y = x \/ exists r, x = PNum r /\ y = PEpoch r) (get h a) (get h' a).
Proof. exact init_frame. Qed.
Print Assumptions C75_frame.
(** the exception says what is wrong *)
Theorem C75_raises : forall fs h seq t0 tof vinf multi enc ins e rp x, fst (mga_init fs h seq t0 tof vinf multi enc ins e rp) = Raise x -> complaint fs h seq t0 tof enc ins e rp x.
Proof. exact init_raises. Qed.
Print Assumptions C75_raises.
(** the same call again makes the same problem *)
Theorem C75_again : forall fs h seq t0 tof vinf multi enc ins e rp p h',
  mga_init fs h seq t0 tof vinf multi enc ins e rp = (Done p, h') -> mga_init fs h' seq t0 tof vinf multi enc ins e rp = (Done p, h').
Proof. exact init_again. Qed.
Print Assumptions C75_again.
(** the problem has bounds exactly if two launch dates were given *)
Theorem C75_bounds : forall fs h seq t0 tof vinf multi enc ins e rp p h',
  mga_init fs h seq t0 tof vinf multi enc ins e rp = (Done p, h') ->
  (exists r, py_bounds h' p = Done r) <-> exists a x y l, t0 = PRef a /\ get h a = x :: y :: l.
Proof. exact init_bounds. Qed.
Print Assumptions C75_bounds.
(** for arguments of the documented types, in lists of their own, this is the typed constructor of C48: same verdict, same bounds, same numbers *)
Theorem C75_typed : forall fs h seq a0 d0 d1 x0 x1 tof t bs vinf multi enc ins e rp,
  get h seq = map PPlanet bs -> get h a0 = [d0; d1] -> date_of d0 x0 -> date_of d1 x1 -> means h a0 enc tof t ->
  match mga_ctor bs (x0, x1) t vinf multi ins e rp with
  | Ret P => exists p h', mga_init fs h seq (PRef a0) tof vinf multi enc ins e rp = (Done p, h') /\ py_bounds h' p = Done (map PNum (fst (get_bounds P)), map PNum (snd (get_bounds P))) /\
      o_nlegs p = n_legs P /\ o_mu p = common_mu P /\ o_vinf p = m_vinf P
  | Throw _ => exists x, fst (mga_init fs h seq (PRef a0) tof vinf multi enc ins e rp) = Raise x
  | UB => False
  end.
Proof. exact init_typed. Qed.
Print Assumptions C75_typed.
(** False: a rejected call leaves the arguments as they were *)
Theorem C75_rejected_refuted : forall fs, exists h seq t0 tof vinf multi enc ins e rp x h', mga_init fs h seq t0 tof vinf multi enc ins e rp = (Raise x, h') /\ h' <> h.
Proof. exact init_half. Qed.
Print Assumptions C75_rejected_refuted.
(** False: an accepted problem has bounds *)
Theorem C75_bounds_refuted : forall fs, exists h seq t0 tof vinf enc p h', mga_init fs h seq t0 tof vinf false enc false None None = (Done p, h') /\ py_bounds h' p = Raise IndexError.
Proof. exact init_short. Qed.
Print Assumptions C75_bounds_refuted.
(** False: the bounds of an accepted problem are in order *)
Theorem C75_order_refuted : forall fs, exists h seq t0 tof vinf enc p h' a b l m, mga_init fs h seq t0 tof vinf false enc false None None = (Done p, h') /\ py_bounds h' p = Done (PNum a :: l, PNum b :: m) /\ b < a.
Proof. exact init_order. Qed.
Print Assumptions C75_order_refuted.
(** False: from numbers come bounds that are numbers.  The launch dates and the times of flight are the same list. *)
Theorem C75_alias_refuted : forall fs, exists h seq a vinf p h' d l ub, (forall x, In x (get h a) -> exists r, x = PNum r) /\ mga_init fs h seq (PRef a) (PRef a) vinf false "alpha" false None None = (Done p, h') /\
  py_bounds h' p = Done (PNum d :: PEpoch d :: l, ub).
Proof. exact init_alias. Qed.
Print Assumptions C75_alias_refuted.
(** False: problems are independent of each other.  Both are made from the same list (as two made from the default arguments are). *)
Theorem C75_shared_refuted : forall fs, exists h seq t0 tof vinf enc p q h1 h2 a b b', mga_init fs h seq t0 tof vinf false enc false None None = (Done p, h1) /\ mga_init fs h1 seq t0 tof (vinf + 1) false enc false None None = (Done q, h2) /\
  o_t0 p = PRef a /\ py_bounds h2 q = Done b /\ py_bounds (put a [PEpoch 5; PEpoch 6] h2) q = Done b' /\ b <> b'.
Proof. exact init_shared. Qed.
Print Assumptions C75_shared_refuted.
Example C75_example : forall fs, mga_init fs h_ex 0 (PRef 1) (PRef 3) 2 false "direct" false None None = (Done p_ex, [[pb 1; pb 1]; [PEpoch 0; PEpoch 1000]; [PNum 30; PNum 200]; [PRef 2]]) /\
  py_bounds [[pb 1; pb 1]; [PEpoch 0; PEpoch 1000]; [PNum 30; PNum 200]; [PRef 2]] p_ex = Done ([PNum 0; PNum 30], [PNum 1000; PNum 200]).
Proof. exact init_example. Qed.
Print Assumptions C75_example.
