(** * Property theorems: MGA time-of-flight encodings (C44).  Only statements. *)
From Coq Require Import Reals List Lra.
From Verif Require Import Outcome MgaModel MgaSpec MgaProofs.
Import ListNotations.
Open Scope R_scope.

(** alpha: positive durations that add up to the total time *)
Theorem C44_alpha : forall t0 T al, al <> [] -> Forall (fun a => 0 < a < 1) al -> 0 < T ->
  exists d, alpha2direct (t0 :: T :: al) = Ret (t0 :: d) /\ length d = length al /\ Forall (fun t => 0 < t) d /\ total d = T.
Proof. exact alpha_decodes. Qed.
Print Assumptions C44_alpha.

(** encoding in alpha and decoding gives the durations back; the encoded variables are in (0,1) *)
Theorem C44_alpha_round_trip : forall t0 d, total d <> 0 ->
  exists al, direct2alpha (t0 :: d) = Ret (t0 :: total d :: al) /\ length al = length d /\
    (Forall (fun t => 0 < t) d -> Forall (fun a => / exp 1 <= a < 1) al) /\ alpha2direct (t0 :: total d :: al) = Ret (t0 :: d).
Proof. exact alpha_round_trip. Qed.
Print Assumptions C44_alpha_round_trip.

(** eta: non-negative durations, whose sum is the total time less what the last leg leaves over *)
Theorem C44_eta : forall dt t0 es, es <> [] -> Forall (fun e => 0 <= e <= 1) es -> 0 <= dt ->
  exists d, eta2direct (Eta dt) (t0 :: es) = Ret (t0 :: d) /\ length d = length es /\ Forall (fun t => 0 <= t) d /\
    total d = dt * (1 - remaining es) /\ total d <= dt /\
    (0 < dt -> Forall (fun e => 0 < e < 1) es -> Forall (fun t => 0 < t) d /\ total d < dt).
Proof. exact eta_decodes. Qed.
Print Assumptions C44_eta.

(** encoding in eta and decoding, if some time is left before every leg *)
Theorem C44_eta_round_trip : forall dt t0 d, d <> [] -> (forall a b, d = a ++ b -> b <> [] -> total a <> dt) ->
  bind (direct2eta (Eta dt) (t0 :: d)) (eta2direct (Eta dt)) = Ret (t0 :: d).
Proof. exact eta_round_trip. Qed.
Print Assumptions C44_eta_round_trip.

(** and decoding then encoding *)
Theorem C44_eta_round_trip_back : forall dt t0 es, es <> [] -> dt <> 0 ->
  (forall a b, es = a ++ b -> b <> [] -> Forall (fun e => e <> 1) a) ->
  bind (eta2direct (Eta dt) (t0 :: es)) (direct2eta (Eta dt)) = Ret (t0 :: es).
Proof. exact eta_round_trip2. Qed.
Print Assumptions C44_eta_round_trip_back.

(** the fitness function decodes the same durations *)
Theorem C44_decode_agrees : forall enc n t0 x, match enc with Alpha => length x = S n | _ => length x = n end -> (0 < n)%nat ->
  exists d, decode_tofs enc n (t0 :: x) = Ret d /\
    (match enc with Alpha => alpha2direct (t0 :: x) | Direct => Ret (t0 :: x) | Eta _ => eta2direct enc (t0 :: x) end) = Ret (t0 :: d).
Proof. exact decode_agrees. Qed.
Print Assumptions C44_decode_agrees.

(** decoding from alpha and encoding again does not restore the decision vector: the alphas are not unique *)
Theorem C44_alpha_not_unique_refuted : exists x y, alpha2direct x = Ret y /\ direct2alpha y <> Ret x.
Proof. exact direct2alpha_not_inverse. Qed.
Print Assumptions C44_alpha_not_unique_refuted.

Example C44_nontrivial : eta2direct (Eta 8) [0; / 2; / 2; / 4] = Ret [0; 4; 2; / 2].
Proof. cbn. unfold py_sum. cbn. repeat f_equal; field. Qed.
Example C44_nontrivial_alpha : alpha2direct [0; 3; / 2; / 4] = Ret [0; 1; 2].
Proof.
  cbn. unfold py_sum. cbn. replace (/ 4) with (/ 2 * / 2) by field. rewrite ln_mult by lra.
  assert (ln (/ 2) < 0) by (rewrite <- ln_1; apply ln_increasing; lra). repeat f_equal; field; lra.
Qed.
