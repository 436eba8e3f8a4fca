(** * Property theorems: the direct problems keep a leg, and no call is influenced by earlier ones (C76).  Only statements. *)
From Coq Require Import ZArith Reals List.
From Verif Require Import Outcome Vec3 TwoBodyModel TcModel SfModel KplaModel DirectModel DirectStateModel DirectStateProofs.
Import ListNotations.
Open Scope R_scope.

(** point to point: after any calls, those that raised included, fitness, gradient and the leg that is printed or drawn are those computed from the vector and the arguments of the constructor alone *)
Theorem C76_p2p : forall newton rvs rvf ms mu T isp tofb mfb nseg cut M L Ve P l cs x, p2p_init rvs rvf ms mu T isp tofb mfb nseg cut M L Ve = Ret (P, l) ->
  p2p_ctor rvs rvf ms mu T isp tofb mfb nseg cut M L Ve = Ret P /\ let l' := p2p_after newton P l cs in
  fst (p2p_fit newton P x l') = p2p_fitness newton P x /\ fst (p2p_grad newton P x l') = p2p_gradient newton P x /\ fst (p2p_shown x l') = bind (p2p_leg P x) (fun s => Ret (Some s)).
Proof. exact p2p_history. Qed.
Print Assumptions C76_p2p.
(** and the constructor raises what the stateless one raises *)
Theorem C76_p2p_rejects : forall rvs rvf ms mu T isp tofb mfb nseg cut M L Ve e, p2p_init rvs rvf ms mu T isp tofb mfb nseg cut M L Ve = Throw e <-> p2p_ctor rvs rvf ms mu T isp tofb mfb nseg cut M L Ve = Throw e.
Proof. exact p2p_rejects. Qed.
Print Assumptions C76_p2p_rejects.
(** planet to planet: the same; where an ephemeris is not a number, the call still gives what the first call on a fresh problem gives *)
Theorem C76_pl2pl : forall newton ephs ephf ms mu T isp t0b tofb mfb vinfs vinff nseg cut M L Ve P l cs x, pl2pl_init ephs ephf ms mu T isp t0b tofb mfb vinfs vinff nseg cut M L Ve = Ret (P, l) ->
  pl2pl_ctor ephs ephf ms mu T isp t0b tofb mfb vinfs vinff nseg cut M L Ve = Ret P /\ let l' := pl2pl_after newton P l cs in
  (fst (pl2pl_fit newton P x l') = fst (pl2pl_fit newton P x l) /\ fst (pl2pl_grad newton P x l') = fst (pl2pl_grad newton P x l) /\ fst (pl2pl_shown P x l') = fst (pl2pl_shown P x l)) /\
  (pl2pl_leg P x <> Ret None -> fst (pl2pl_fit newton P x l') = pl2pl_fitness newton P x /\ fst (pl2pl_grad newton P x l') = pl2pl_gradient newton P x /\
     fst (pl2pl_shown P x l') = bind (pl2pl_leg P x) (fun o => Ret (match o with Some (s, _, _) => Some s | None => None end))).
Proof. exact pl2pl_history. Qed.
Print Assumptions C76_pl2pl.
Theorem C76_pl2pl_rejects : forall ephs ephf ms mu T isp t0b tofb mfb vinfs vinff nseg cut M L Ve e, pl2pl_init ephs ephf ms mu T isp t0b tofb mfb vinfs vinff nseg cut M L Ve = Throw e <-> pl2pl_ctor ephs ephf ms mu T isp t0b tofb mfb vinfs vinff nseg cut M L Ve = Throw e.
Proof. exact pl2pl_rejects. Qed.
Print Assumptions C76_pl2pl_rejects.
(** a call of fitness that raises leaves the leg changed *)
Theorem C76_raise_refuted : exists rvs rvf ms mu T isp tofb mfb nseg cut M L Ve P l x, p2p_init rvs rvf ms mu T isp tofb mfb nseg cut M L Ve = Ret (P, l) /\
  forall newton, exists e, fst (p2p_fit newton P x l) = Throw e /\ snd (p2p_fit newton P x l) <> l.
Proof. exact raise_changes. Qed.
Print Assumptions C76_raise_refuted.
(** until the first call the leg has two segments, whatever nseg was asked for *)
Theorem C76_segments_refuted : exists rvs rvf ms mu T isp tofb mfb nseg cut M L Ve P l, p2p_init rvs rvf ms mu T isp tofb mfb nseg cut M L Ve = Ret (P, l) /\ Z.of_nat (p_nseg P) <> k_nseg l.
Proof. exact fresh_segments. Qed.
Print Assumptions C76_segments_refuted.
(** a vector of one number raises after the mass and the time are written; the next call sees only its own vector *)
Example C76_example : forall newton, exists P l, p2p_init (V 1 0 0, V 0 1 0) (V 0 1 0, V (-1) 0 0) 1 1 1 1 (0, 10) (0, 1) 1 1 1 1 1 = Ret (P, l) /\
  (exists e, fst (p2p_fit newton P [5] l) = Throw e) /\ k_mf (p2p_after newton P l [Fitness [5]]) = 5 /\ k_tof (p2p_after newton P l [Fitness [5]]) = 5 * day2sec /\
  exists s, fst (p2p_shown [1 / 2; 1; 0; 0; 2] (p2p_after newton P l [Fitness [5]])) = Ret (Some s) /\ s_mf s = 1 / 2 /\ s_tof s = 2 * day2sec /\ s_nseg s = 1%Z /\ s_thr s = [1; 0; 0].
Proof. exact state_case. Qed.
