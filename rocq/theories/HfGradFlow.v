(** * One segment of the high-fidelity leg: the sensitivities are the derivative of the flight *)
From Coq Require Import Reals Lra Lia List ZArith.
From Coquelicot Require Import Coquelicot.
From Verif Require Import RealLib Vec3 TwoBodySpec DynSpec DynModel DynProofs SfModel SfSpec SfGrad OdeLib OdeSd HfGradModel HfGradSpec.
Import ListNotations.
Open Scope R_scope.

Ltac idx7 i H := destruct i as [|[|[|[|[|[|[|i]]]]]]]; try (exfalso; lia); try (clear H).

Lemma comp7_derive q t d : derive7 q t d <-> forall i, (i < 7)%nat -> is_derive (fun x => comp7 (q x) i) t (comp7 d i).
Proof.
  split.
  - intros [[[D1 [D2 D3]] [D4 [D5 D6]]] D7] i Hi. idx7 i Hi; cbn; assumption.
  - intros H. exact (conj (conj (conj (H 0%nat ltac:(lia)) (conj (H 1%nat ltac:(lia)) (H 2%nat ltac:(lia)))) (conj (H 3%nat ltac:(lia)) (conj (H 4%nat ltac:(lia)) (H 5%nat ltac:(lia))))) (H 6%nat ltac:(lia))).
Qed.
Lemma comp7_ext a b : (forall i, (i < 7)%nat -> comp7 a i = comp7 b i) -> a = b.
Proof.
  intros H. destruct a as [[[a1 a2 a3] [a4 a5 a6]] a7], b as [[[b1 b2 b3] [b4 b5 b6]] b7].
  pose proof (H 0%nat ltac:(lia)). pose proof (H 1%nat ltac:(lia)). pose proof (H 2%nat ltac:(lia)). pose proof (H 3%nat ltac:(lia)). pose proof (H 4%nat ltac:(lia)). pose proof (H 5%nat ltac:(lia)). pose proof (H 6%nat ltac:(lia)).
  cbn in *. congruence.
Qed.

(** state, thrust and duration as one vector *)
Definition join11 (x : col7) (u : vec) (h : R) : nvec := fun j => nth j (list7 x ++ [vx u; vy u; vz u; h]) 0.

Section Field.
Variables mu veff : R.
Hypothesis Hveff : veff <> 0.
Definition Fi (i : nat) (z : nvec) : R := comp7 (thrust_field mu veff (z_thrust z) (z_state z)) i.

Lemma sd_sumsq n z a b c : (a < n)%nat -> (b < n)%nat -> (c < n)%nat -> (forall j, (10 <= j)%nat -> j <> a /\ j <> b /\ j <> c) ->
  exists w, sd n (fun z => dot (V (z a) (z b) (z c)) (V (z a) (z b) (z c))) z w /\ forall j, (10 <= j)%nat -> w j = 0.
Proof.
  intros A B C N. eexists. split.
  - unfold dot. cbn [vx vy vz]. apply sd_plus; [apply sd_plus|]; (apply sd_mult; apply sd_proj; assumption).
  - intros j Hj. destruct (N j Hj) as [N1 [N2 N3]]. cbv beta. rewrite !(proj2 (Nat.eqb_neq _ _)) by assumption. ring.
Qed.
Lemma sd_norm n z a b c : (a < n)%nat -> (b < n)%nat -> (c < n)%nat -> (forall j, (10 <= j)%nat -> j <> a /\ j <> b /\ j <> c) -> V (z a) (z b) (z c) <> vzero ->
  exists w, sd n (fun z => norm (V (z a) (z b) (z c))) z w /\ forall j, (10 <= j)%nat -> w j = 0.
Proof.
  intros A B C N Z. destruct (sd_sumsq n z a b c A B C N) as [w [W1 W2]]. pose proof (norm_pos _ Z) as P.
  exists (fun j => / (2 * sqrt (dot (V (z a) (z b) (z c)) (V (z a) (z b) (z c)))) * w j). split.
  - apply (sd_comp n sqrt (fun z => dot (V (z a) (z b) (z c)) (V (z a) (z b) (z c))) z w); [|exact W1]. apply sd1_sqrt. unfold norm in P.
    destruct (Rle_lt_dec (dot (V (z a) (z b) (z c)) (V (z a) (z b) (z c))) 0) as [L|L]; [rewrite sqrt_neg_0 in P by exact L; lra|exact L].
  - intros j Hj. cbv beta. rewrite W2 by exact Hj. ring.
Qed.
Lemma sd_field z i : (i < 7)%nat -> off_centre (z_state z) -> z_thrust z <> vzero -> exists a, sd 11 (Fi i) z a /\ a 10%nat = 0.
Proof.
  intros Hi [O1 O2] U.
  destruct (sd_norm 11 z 0 1 2) as [w [W1 W2]]; try lia; [exact O1|].
  destruct (sd_norm 11 z 7 8 9) as [w' [W1' W2']]; try lia; [exact U|].
  assert (G : forall c d, (c < 3)%nat -> (7 <= d < 10)%nat -> exists a, sd 11 (fun z => (- mu) * / (norm (V (z 0%nat) (z 1%nat) (z 2%nat)) ^ 3) * z c + / z 6%nat * z d) z a /\ a 10%nat = 0).
  { intros c d Hc Hd. eexists. split.
    - apply sd_plus; [apply sd_mult; [|apply sd_proj; lia]|apply sd_mult; [|apply sd_proj; lia]].
      + apply (sd_comp 11 (fun y => (- mu) * y) (fun z => / (norm (V (z 0%nat) (z 1%nat) (z 2%nat)) ^ 3)) z); [apply sd1_scal|].
        apply (sd_comp 11 Rinv (fun z => norm (V (z 0%nat) (z 1%nat) (z 2%nat)) ^ 3) z); [apply sd1_inv; apply pow_nonzero; apply Rgt_not_eq; apply norm_pos; exact O1|].
        cbn [pow]. apply sd_mult; [exact W1|]. apply sd_mult; [exact W1|]. apply sd_mult; [exact W1|]. apply sd_const.
      + apply (sd_comp 11 Rinv (fun z => z 6%nat) z); [apply sd1_inv; exact O2|apply sd_proj; lia].
    - cbv beta. rewrite W2 by lia. rewrite !(proj2 (Nat.eqb_neq _ _)) by lia. cbn [Nat.eqb]. ring. }
  assert (P : forall c, (c < 10)%nat -> exists a, sd 11 (fun z => z c) z a /\ a 10%nat = 0).
  { intros c Hc. eexists. split; [apply sd_proj; lia|]. cbv beta. rewrite (proj2 (Nat.eqb_neq _ _)) by lia. reflexivity. }
  assert (E : forall c d i, (c < 3)%nat -> (7 <= d < 10)%nat -> (forall z, Fi i z = (- mu) * / (norm (V (z 0%nat) (z 1%nat) (z 2%nat)) ^ 3) * z c + / z 6%nat * z d) -> exists a, sd 11 (Fi i) z a /\ a 10%nat = 0).
  { intros c d k Hc Hd Ek. destruct (G c d Hc Hd) as [a [A1 A2]]. exists a. split; [|exact A2]. apply (sd_ext 11 _ (Fi k) z a a) in A1; [exact A1|intros; symmetry; apply Ek|reflexivity]. }
  idx7 i Hi.
  - apply (P 3%nat). lia.
  - apply (P 4%nat). lia.
  - apply (P 5%nat). lia.
  - apply (E 0%nat 7%nat); [lia|lia|]. intros; unfold Fi, comp7, thrust_field, gravity, z_state, z_thrust; cbn; unfold Rdiv; ring.
  - apply (E 1%nat 8%nat); [lia|lia|]. intros; unfold Fi, comp7, thrust_field, gravity, z_state, z_thrust; cbn; unfold Rdiv; ring.
  - apply (E 2%nat 9%nat); [lia|lia|]. intros; unfold Fi, comp7, thrust_field, gravity, z_state, z_thrust; cbn; unfold Rdiv; ring.
  - exists (fun j => (- / veff) * w' j). split; [|cbv beta; rewrite W2' by lia; ring].
    assert (Q := sd_comp 11 (fun y => (- / veff) * y) (fun z => norm (V (z 7%nat) (z 8%nat) (z 9%nat))) z w' (- / veff) (sd1_scal _ _) W1').
    eapply sd_ext; [|reflexivity|exact Q]. intros y. unfold Fi, comp7, thrust_field, z_state, z_thrust. cbn. field. exact Hveff.
Qed.
Lemma sd_field_partial x u h i : (i < 7)%nat -> off_centre x -> u <> vzero ->
  sd 11 (Fi i) (join11 x u h) (fun j => if Nat.ltb j 10 then partial (thrust_field mu veff) x u i j else 0).
Proof.
  intros Hi O U. destruct x as [[[x1 x2 x3] [x4 x5 x6]] x7]. destruct u as [u1 u2 u3].
  destruct (sd_field (join11 ((V x1 x2 x3, V x4 x5 x6), x7) (V u1 u2 u3) h) i Hi O U) as [a [A1 A2]].
  eapply sd_ext; [reflexivity| |exact A1]. intros j Hj. destruct (Nat.ltb_spec j 10) as [L|L]; [|replace j with 10%nat by lia; exact A2].
  symmetry. unfold partial. apply is_derive_unique. pose proof (sd_partial 11 (Fi i) _ a j A1 Hj) as D.
  eapply is_derive_ext; [|exact D]. intros s. unfold Fi. cbv zeta. 
  do 10 (destruct j as [|j]; [reflexivity|]). exfalso; lia.
Qed.
End Field.

(** the seven components of an arc run over [0, 1] in scaled time *)
Section Segment.
Variables mu veff : R.
Hypothesis Hveff : veff <> 0.
Definition gi (i : nat) (z : nvec) : R := if Nat.ltb i 7 then z 10%nat * Fi mu veff i z else 0.

Lemma join_lo x u h i : (i < 7)%nat -> join11 x u h i = comp7 x i.
Proof. intros Hi. idx7 i Hi; reflexivity. Qed.
Lemma join_hi x u h k : join11 x u h (7 + k)%nat = nth k [vx u; vy u; vz u; h] 0.
Proof. reflexivity. Qed.
Lemma Fi_join i x u h : Fi mu veff i (join11 x u h) = comp7 (thrust_field mu veff u x) i.
Proof. destruct x as [[[x1 x2 x3] [x4 x5 x6]] x7]. destruct u as [u1 u2 u3]. reflexivity. Qed.
Lemma between_scaled h t : 0 <= t <= 1 -> between h (h * t).
Proof. intros Ht. unfold between. destruct (Rle_dec 0 h) as [H|H]; [rewrite Rmin_left, Rmax_right by lra; nra|rewrite Rmin_right, Rmax_left by lra; nra]. Qed.

Lemma arc_solution u h q : arc (thrust_field mu veff u) h q -> solution 11 gi (fun t => join11 (q (h * t)) u h).
Proof.
  intros A t i Ht Hi. destruct (A (h * t) (between_scaled h t Ht)) as [_ D]. unfold gi. destruct (Nat.ltb_spec i 7) as [L|L].
  - rewrite Fi_join. change (join11 (q (h * t)) u h 10%nat) with h. eapply is_derive_ext; [intros; symmetry; apply join_lo; exact L|].
    apply (proj1 (comp7_derive _ _ _)) with (i := i) in D; [|exact L].
    eapply der_to; [eapply (der_comp (fun x => comp7 (q x) i) (fun x => h * x)); [exact D|apply der_scal, der_id]|]. ring.
  - replace i with (7 + (i - 7))%nat by lia. eapply is_derive_ext; [intros; symmetry; apply join_hi|]. apply der_const.
Qed.

Variables (u : vec) (h : R) (q : R -> col7) (W : R -> nat -> nat -> R).
Hypothesis Hu : u <> vzero.
Hypothesis Harc : arc (thrust_field mu veff u) h q.
Hypothesis HW : variational (thrust_field mu veff) u h q W.
Hypothesis HW0 : forall i j, (i < 7)%nat -> (j < 10)%nat -> W 0 i j = if Nat.eqb i j then 1 else 0.

Definition Dm (t : R) (i j : nat) : R :=
  if Nat.ltb i 7 then if Nat.ltb j 10 then h * partial (thrust_field mu veff) (q (h * t)) u i j else comp7 (thrust_field mu veff u (q (h * t))) i else 0.
Definition Pm (t : R) (i j : nat) : R :=
  if Nat.ltb i 7 then if Nat.ltb j 10 then W (h * t) i j else t * comp7 (thrust_field mu veff u (q (h * t))) i else if Nat.eqb i j then 1 else 0.

Lemma Dm_sd t i : 0 <= t <= 1 -> (i < 11)%nat -> sd 11 (gi i) (join11 (q (h * t)) u h) (Dm t i).
Proof.
  intros Ht Hi. unfold gi, Dm. destruct (Nat.ltb_spec i 7) as [L|L].
  - destruct (Harc (h * t) (between_scaled h t Ht)) as [O _].
    assert (S := sd_mult 11 (fun z => z 10%nat) (Fi mu veff i) _ _ _ (sd_proj 11 10 (join11 (q (h * t)) u h) ltac:(lia)) (sd_field_partial mu veff Hveff (q (h * t)) u h i L O Hu)).
    eapply sd_ext; [reflexivity| |exact S]. intros j Hj. cbv beta. rewrite Fi_join. change (join11 (q (h * t)) u h 10%nat) with h.
    destruct (Nat.ltb_spec j 10) as [L2|L2]; [rewrite (proj2 (Nat.eqb_neq _ _)) by lia; ring|replace j with 10%nat by lia; cbn [Nat.eqb]; ring].
  - apply (sd_const 11 0).
Qed.
(** the field along the arc obeys the variational equation *)
Lemma field_derive t i : 0 <= t <= 1 -> (i < 7)%nat ->
  is_derive (fun x => comp7 (thrust_field mu veff u (q (h * x))) i) t (h * sum_n 7 (fun k => partial (thrust_field mu veff) (q (h * t)) u i k * comp7 (thrust_field mu veff u (q (h * t))) k)).
Proof.
  intros Ht Hi. destruct (Harc (h * t) (between_scaled h t Ht)) as [O _].
  assert (S := sd_derive 11 (Fi mu veff i) _ (fun t => join11 (q (h * t)) u h) (fun k => if Nat.ltb k 7 then h * comp7 (thrust_field mu veff u (q (h * t))) k else 0) t (sd_field_partial mu veff Hveff (q (h * t)) u h i Hi O Hu)).
  eapply is_derive_ext; [intros x; apply (Fi_join i (q (h * x)) u h)|]. eapply der_to; [apply S|].
  - intros j Hj. assert (Q := arc_solution u h q Harc t j Ht Hj). unfold gi in Q. rewrite Fi_join in Q. change (join11 (q (h * t)) u h 10%nat) with h in Q. exact Q.
  - cbn [sum_n Nat.ltb Nat.leb]. ring.
Qed.
Lemma Pm_var t i j : 0 <= t <= 1 -> (i < 11)%nat -> (j < 11)%nat -> is_derive (fun x => Pm x i j) t (sum_n 11 (fun k => Dm t i k * Pm t k j)).
Proof.
  intros Ht Hi Hj. unfold Pm, Dm. destruct (Nat.ltb_spec i 7) as [L|L].
  - destruct (Nat.ltb_spec j 10) as [L2|L2].
    + assert (Q := HW (h * t) i j (between_scaled h t Ht) L L2 (fun Z => False_ind _ (Hu Z))).
      eapply der_to; [eapply (der_comp (fun x => W x i j) (fun x => h * x)); [exact Q|apply der_scal, der_id]|].
      cbn [sum_n Nat.ltb Nat.leb]. cbv beta. set (P := partial (thrust_field mu veff) (q (h * t)) u i) in *. set (F := comp7 (thrust_field mu veff u (q (h * t)))) in *. clearbody P F.
      do 10 (destruct j as [|j]; [cbn [Nat.eqb Nat.ltb Nat.leb]; ring|]). exfalso; lia.
    + replace j with 10%nat by lia. assert (Q := field_derive t i Ht L). eapply der_to; [apply der_mult; [apply der_id|exact Q]|]. cbn [sum_n Nat.ltb Nat.leb Nat.eqb]. ring.
  - eapply der_to; [apply der_const|]. cbn [sum_n]. ring.
Qed.
Lemma Pm_0 i j : (i < 11)%nat -> (j < 11)%nat -> Pm 0 i j = if Nat.eqb i j then 1 else 0.
Proof.
  intros Hi Hj. unfold Pm. destruct (Nat.ltb_spec i 7) as [L|L]; [|reflexivity]. destruct (Nat.ltb_spec j 10) as [L2|L2]; [rewrite Rmult_0_r; apply HW0; assumption|].
  rewrite (proj2 (Nat.eqb_neq i j)) by lia. ring.
Qed.

Definition dflow (dx : nat -> R) (du : vec) (dh : R) (i : nat) : R :=
  sum_n 7 (fun j => W h i j * dx j) + (W h i 7%nat * vx du + W h i 8%nat * vy du + W h i 9%nat * vz du) + comp7 (thrust_field mu veff u (q h)) i * dh.
Definition dist11 (x : col7) (u' : vec) (h' : R) : R := l1 11 (sub (join11 x u' h') (join11 (q 0) u h)).
Lemma seg_diff : forall eta, 0 < eta -> exists rho, 0 < rho /\ forall x' u' h' y', flight mu veff h' u' x' y' -> dist11 x' u' h' < rho -> forall i, (i < 7)%nat ->
  Rabs (comp7 y' i - comp7 (q h) i - dflow (fun j => comp7 x' j - comp7 (q 0) j) (vsub u' u) (h' - h) i) <= eta * dist11 x' u' h'.
Proof.
  intros eta He.
  destruct (ode_diff 11 gi (fun t => join11 (q (h * t)) u h) Dm (arc_solution u h q Harc) (fun t i Ht Hi => Dm_sd t i Ht Hi) Pm (fun t i j Ht Hi Hj => Pm_var t i j Ht Hi Hj) (fun i j Hi Hj => Pm_0 i j Hi Hj) eta He) as [rho [Rp Rh]].
  exists rho. split; [exact Rp|]. intros x' u' h' y' [x [A [X0 X1]]] Hd i Hi.
  specialize (Rh (fun t => join11 (x (h' * t)) u' h') (arc_solution u' h' x A)). cbv beta in Rh. rewrite !Rmult_0_r, !Rmult_1_r, X0, X1 in Rh.
  specialize (Rh Hd i ltac:(lia)). rewrite !join_lo in Rh by exact Hi. fold (dist11 x' u' h') in Rh.
  match type of Rh with Rabs (_ - _ - ?S) <= _ => replace S with (dflow (fun j => comp7 x' j - comp7 (q 0) j) (vsub u' u) (h' - h) i) in Rh; [exact Rh|] end.
  unfold dflow, Pm. rewrite (proj2 (Nat.ltb_lt i 7) Hi). rewrite !Rmult_1_r, Rmult_1_l. unfold sub. cbn [sum_n Nat.ltb Nat.leb]. rewrite !join_lo by lia.
  change (join11 x' u' h' 7%nat) with (vx u'). change (join11 x' u' h' 8%nat) with (vy u'). change (join11 x' u' h' 9%nat) with (vz u'). change (join11 x' u' h' 10%nat) with h'.
  change (join11 (q 0) u h 7%nat) with (vx u). change (join11 (q 0) u h 8%nat) with (vy u). change (join11 (q 0) u h 9%nat) with (vz u). change (join11 (q 0) u h 10%nat) with h.
  unfold vsub. cbn [vx vy vz]. ring.
Qed.
End Segment.

(** ** The integrator's field is the one of the specification *)
Lemma off_centre_near x u k : off_centre x -> exists eps, 0 < eps /\ forall s, Rabs s < eps -> off_centre (z_state (moved (joined x u) k s)).
Proof.
  destruct x as [[[x1 x2 x3] [x4 x5 x6]] x7]. intros [O1 O2]. cbn [fst snd] in *.
  assert (G : forall c j (s : R), c <> 0 -> Rabs s < Rabs c -> (if Nat.eqb j k then c + s else c) <> 0).
  { intros c j s N L. destruct (Nat.eqb j k); [|exact N]. intros E. assert (Q : s = - c) by lra. rewrite Q, Rabs_Ropp in L. lra. }
  assert (P7 : 0 < Rabs x7) by (apply Rabs_pos_lt; exact O2).
  assert (C : x1 <> 0 \/ x2 <> 0 \/ x3 <> 0).
  { destruct (Req_dec x1 0) as [->|N]; [|left; exact N]. destruct (Req_dec x2 0) as [->|N]; [|right; left; exact N]. destruct (Req_dec x3 0) as [->|N]; [exfalso; apply O1; reflexivity|right; right; exact N]. }
  destruct C as [C|[C|C]].
  - exists (Rmin (Rabs x1) (Rabs x7)). split; [apply Rmin_glb_lt; [apply Rabs_pos_lt; exact C|exact P7]|]. intros s Hs. pose proof (Rmin_l (Rabs x1) (Rabs x7)). pose proof (Rmin_r (Rabs x1) (Rabs x7)).
    split; [|apply (G x7 6%nat s O2); lra]. cbn [fst snd z_state]. intros E. apply (f_equal vx) in E. apply (G x1 0%nat s C); [lra|exact E].
  - exists (Rmin (Rabs x2) (Rabs x7)). split; [apply Rmin_glb_lt; [apply Rabs_pos_lt; exact C|exact P7]|]. intros s Hs. pose proof (Rmin_l (Rabs x2) (Rabs x7)). pose proof (Rmin_r (Rabs x2) (Rabs x7)).
    split; [|apply (G x7 6%nat s O2); lra]. cbn [fst snd z_state]. intros E. apply (f_equal vy) in E. apply (G x2 1%nat s C); [lra|exact E].
  - exists (Rmin (Rabs x3) (Rabs x7)). split; [apply Rmin_glb_lt; [apply Rabs_pos_lt; exact C|exact P7]|]. intros s Hs. pose proof (Rmin_l (Rabs x3) (Rabs x7)). pose proof (Rmin_r (Rabs x3) (Rabs x7)).
    split; [|apply (G x7 6%nat s O2); lra]. cbn [fst snd z_state]. intros E. apply (f_equal vz) in E. apply (G x3 2%nat s C); [lra|exact E].
Qed.
Lemma partial_stark mu veff x u i k : veff <> 0 -> off_centre x -> partial (stark_dyn mu veff) x u i k = partial (thrust_field mu veff) x u i k.
Proof.
  intros V O. unfold partial. apply Derive_ext_loc. destruct (off_centre_near x u k O) as [eps [Ep He]].
  exists (mkposreal eps Ep). intros s Hs. cbv zeta. rewrite stark_field; [reflexivity| |exact V]. apply He. change (Rabs (s - 0) < eps) in Hs. rewrite Rminus_0_r in Hs. exact Hs.
Qed.
Lemma arc_stark mu veff u h q : veff <> 0 -> arc (stark_dyn mu veff u) h q -> arc (thrust_field mu veff u) h q.
Proof. intros V A t Ht. destruct (A t Ht) as [O D]. split; [exact O|]. rewrite <- stark_field by assumption. exact D. Qed.
Lemma sum7_ext f g : (forall k, (k < 7)%nat -> f k = g k) -> sum_n 7 f = sum_n 7 g. Proof. apply sum_ext. Qed.
Lemma var_stark mu veff u h q W : veff <> 0 -> arc (stark_dyn mu veff u) h q -> variational (stark_dyn mu veff) u h q W -> variational (thrust_field mu veff) u h q W.
Proof.
  intros V A H t i j Ht Hi Hj Hz. destruct (A t Ht) as [O _]. eapply der_to; [apply (H t i j Ht Hi Hj Hz)|].
  rewrite (partial_stark mu veff (q t) u i j V O). f_equal. apply sum_ext. intros k Hk. rewrite partial_stark by assumption. reflexivity.
Qed.

(** ** The flow carries its own field along *)
Lemma lip_l1 n (Z : R -> nvec) (dz : nvec) (t : R) : (forall j, (j < n)%nat -> is_derive (fun x => Z x j) t (dz j)) ->
  exists C, 0 <= C /\ exists d, 0 < d /\ forall s, Rabs (s - t) < d -> l1 n (sub (Z s) (Z t)) <= C * Rabs (s - t).
Proof.
  intros H. induction n as [|n IH]; [exists 0; split; [lra|]; exists 1; split; [lra|]; intros; unfold l1; cbn; lra|].
  destruct IH as [C [C0 [d [Dp Hd]]]]; [intros; apply H; lia|]. destruct (derive_near _ _ _ (H n ltac:(lia)) 1 ltac:(lra)) as [d2 [D2 H2]].
  exists (C + (Rabs (dz n) + 1)). pose proof (Rabs_pos (dz n)). split; [lra|]. exists (Rmin d d2). split; [apply Rmin_glb_lt; assumption|]. intros s Hs.
  pose proof (Rmin_l d d2). pose proof (Rmin_r d d2). specialize (Hd s ltac:(lra)). specialize (H2 s ltac:(lra)). unfold l1 in *. cbn [sum_n]. unfold sub at 2.
  replace (Z s n - Z t n) with ((Z s n - Z t n - dz n * (s - t)) + dz n * (s - t)) by ring. pose proof (Rabs_triang (Z s n - Z t n - dz n * (s - t)) (dz n * (s - t))) as T. rewrite (Rabs_mult (dz n)) in T. lra.
Qed.
Lemma zero_of_small (k : R) : (forall eta, 0 < eta -> Rabs k <= eta) -> k = 0.
Proof. intros H. destruct (Req_dec k 0) as [E|N]; [exact E|]. pose proof (Rabs_pos_lt k N) as P. specialize (H (Rabs k / 2) ltac:(lra)). lra. Qed.

Section Carry.
Variables mu veff : R.
Hypothesis Hveff : veff <> 0.
Variables (u : vec) (h : R) (q : R -> col7) (W : R -> nat -> nat -> R).
Hypothesis Hu : u <> vzero.
Hypothesis Harc : arc (thrust_field mu veff u) h q.
Hypothesis HW : variational (thrust_field mu veff) u h q W.
Hypothesis HW0 : forall i j, (i < 7)%nat -> (j < 10)%nat -> W 0 i j = if Nat.eqb i j then 1 else 0.
Lemma field_carried i : (i < 7)%nat -> sum_n 7 (fun j => W h i j * comp7 (thrust_field mu veff u (q 0)) j) = comp7 (thrust_field mu veff u (q h)) i.
Proof.
  intros Hi. set (F0 := comp7 (thrust_field mu veff u (q 0))). set (F1 := comp7 (thrust_field mu veff u (q h)) i).
  destruct (Req_dec h 0) as [Z|Nz].
  { unfold F1, F0. rewrite Z. rewrite <- (sum_delta 7 i (comp7 (thrust_field mu veff u (q 0))) Hi). apply sum_ext. intros j Hj. rewrite HW0 by lia. rewrite Nat.eqb_sym. reflexivity. }
  enough (K : h * (sum_n 7 (fun j => W h i j * F0 j) - F1) = 0) by (apply Rmult_integral in K; destruct K; lra).
  apply zero_of_small. intros eta He.
  (* the state after the fraction s of the segment, for the rest of the duration *)
  set (X := fun s : R => join11 (q (h * s)) u (h * (1 - s))).
  set (dX := fun j => if Nat.ltb j 7 then h * F0 j else if Nat.eqb j 10 then - h else 0).
  assert (DX : forall j, (j < 11)%nat -> is_derive (fun s => X s j) 0 (dX j)).
  { intros j Hj. unfold X, dX. destruct (Nat.ltb_spec j 7) as [L|L].
    - eapply is_derive_ext; [intros; symmetry; apply join_lo; exact L|]. destruct (Harc 0) as [_ D]; [unfold between; split; [apply Rmin_l|apply Rmax_l]|].
      replace 0 with (h * 0) in D by ring. apply (proj1 (comp7_derive _ _ _)) with (i := j) in D; [|exact L].
      eapply der_to; [eapply (der_comp (fun x => comp7 (q x) j) (fun x => h * x)); [exact D|apply der_scal, der_id]|]. unfold F0. rewrite Rmult_0_r. ring.
    - replace j with (7 + (j - 7))%nat by lia. eapply is_derive_ext; [intros; symmetry; apply join_hi|]. assert (C : (j - 7 = 0 \/ j - 7 = 1 \/ j - 7 = 2 \/ j - 7 = 3)%nat) by lia.
      destruct C as [C|[C|[C|C]]]; rewrite C; cbn [nth Nat.eqb plus]; try apply der_const. eapply der_to; [apply der_scal; apply der_minus; [apply der_const|apply der_id]|]. cbn; ring. }
  destruct (lip_l1 11 X dX 0 DX) as [C [C0 [d1 [D1 H1]]]].
  assert (Dc : is_derive (fun s => sum_n 7 (fun j => W h i j * (comp7 (q (h * s)) j - comp7 (q 0) j)) + F1 * (- (h * s))) 0 (h * (sum_n 7 (fun j => W h i j * F0 j) - F1))).
  { eapply der_to.
    - apply der_plus.
      + apply (der_sum 7 (fun s j => W h i j * (comp7 (q (h * s)) j - comp7 (q 0) j)) (fun j => W h i j * (h * F0 j))). intros j Hj. apply der_scal.
        eapply der_to; [apply der_minus; [|apply der_const]|]. { specialize (DX j ltac:(lia)). unfold X, dX in DX. rewrite (proj2 (Nat.ltb_lt j 7) Hj) in DX. eapply is_derive_ext; [|exact DX]. intros. apply join_lo. exact Hj. } ring.
      + apply der_scal. apply der_opp. apply der_scal. apply der_id.
    - cbv beta. replace (sum_n 7 (fun j => W h i j * (h * F0 j))) with (h * sum_n 7 (fun j => W h i j * F0 j)) by (rewrite <- sum_scal; apply sum_ext; intros; ring). ring. }
  destruct (derive_near _ _ _ Dc (eta / 2) ltac:(lra)) as [d2 [D2 H2]].
  destruct (seg_diff mu veff Hveff u h q W Hu Harc HW HW0 (eta / 2 / (C + 1))) as [rho [Rp Rh]]; [apply Rdiv_lt_0_compat; lra|].
  assert (P : 0 < rho / (C + 1)) by (apply Rdiv_lt_0_compat; lra).
  set (s := Rmin (1 / 2) (Rmin (d1 / 2) (Rmin (d2 / 2) (rho / (C + 1) / 2)))).
  assert (Sp : 0 < s) by (repeat apply Rmin_glb_lt; lra).
  assert (S0 : s <= 1 / 2) by apply Rmin_l.
  assert (S1 : s <= d1 / 2) by (eapply Rle_trans; [apply Rmin_r|apply Rmin_l]).
  assert (S2 : s <= d2 / 2) by (eapply Rle_trans; [apply Rmin_r|eapply Rle_trans; [apply Rmin_r|apply Rmin_l]]).
  assert (S3 : s <= rho / (C + 1) / 2) by (eapply Rle_trans; [apply Rmin_r|eapply Rle_trans; [apply Rmin_r|apply Rmin_r]]).
  clearbody s. assert (As : Rabs (s - 0) = s) by (rewrite Rminus_0_r; apply Rabs_pos_eq; lra).
  specialize (H1 s ltac:(lra)). specialize (H2 s ltac:(lra)). rewrite As in H1, H2.
  assert (Fl : flight mu veff (h * (1 - s)) u (q (h * s)) (q h)).
  { exists (fun t => q (h * s + t)). split; [|split; f_equal; ring]. intros t Ht. destruct (Harc (h * s + t)) as [O D].
    - unfold between in *. destruct (Rle_dec 0 h) as [Q|Q].
      + rewrite Rmin_left, Rmax_right in Ht by nra. rewrite Rmin_left, Rmax_right by lra. nra.
      + rewrite Rmin_right, Rmax_left in Ht by nra. rewrite Rmin_right, Rmax_left by lra. nra.
    - split; [exact O|]. apply comp7_derive. intros j Hj. apply (proj1 (comp7_derive _ _ _)) with (i := j) in D; [|exact Hj].
      eapply der_to; [eapply (der_comp (fun x => comp7 (q x) j) (fun t => h * s + t)); [exact D|apply der_plus; [apply der_const|apply der_id]]|]. ring. }
  assert (Ed : dist11 u h q (q (h * s)) u (h * (1 - s)) = l1 11 (sub (X s) (X 0))).
  { unfold dist11. apply l1_ext. intros j _. unfold sub, X. rewrite !Rmult_0_r, Rminus_0_r, Rmult_1_r. reflexivity. }
  assert (Hd : dist11 u h q (q (h * s)) u (h * (1 - s)) < rho).
  { rewrite Ed. eapply Rle_lt_trans; [exact H1|]. apply (Rmult_le_compat_r (C + 1)) in S3; [|lra]. replace (rho / (C + 1) / 2 * (C + 1)) with (rho / 2) in S3 by (field; lra). nra. }
  specialize (Rh _ _ _ _ Fl Hd i Hi). rewrite Ed in Rh. unfold dflow in Rh. fold F1 in Rh.
  replace (vx (vsub u u)) with 0 in Rh by (unfold vsub; cbn; ring). replace (vy (vsub u u)) with 0 in Rh by (unfold vsub; cbn; ring). replace (vz (vsub u u)) with 0 in Rh by (unfold vsub; cbn; ring).
  set (A := sum_n 7 (fun j => W h i j * (comp7 (q (h * s)) j - comp7 (q 0) j))) in *. cbv beta in H2.
  replace (sum_n 7 (fun j => W h i j * (comp7 (q (h * 0)) j - comp7 (q 0) j))) with 0 in H2 by (rewrite Rmult_0_r; cbn [sum_n]; ring). fold A in H2.
  set (kk := h * (sum_n 7 (fun j => W h i j * F0 j) - F1)) in *. clearbody kk A.
  assert (B1 : Rabs (A + F1 * - (h * s)) <= eta / 2 * s).
  { rewrite <- Rabs_Ropp. replace (- (A + F1 * - (h * s))) with (comp7 (q h) i - comp7 (q h) i - (A + (W h i 7%nat * 0 + W h i 8%nat * 0 + W h i 9%nat * 0) + F1 * (h * (1 - s) - h))) by ring.
    eapply Rle_trans; [exact Rh|]. apply Rle_trans with (eta / 2 / (C + 1) * ((C + 1) * s)); [|right; field; lra]. apply Rmult_le_compat_l; [left; apply Rdiv_lt_0_compat; lra|]. nra. }
  replace (A + F1 * - (h * s) - (0 + F1 * - (h * 0)) - kk * (s - 0)) with ((A + F1 * - (h * s)) - kk * s) in H2 by ring.
  apply (Rmult_le_reg_r s); [exact Sp|]. rewrite <- (Rabs_pos_eq s) at 1 by lra. rewrite <- Rabs_mult.
  replace (kk * s) with ((A + F1 * - (h * s)) - ((A + F1 * - (h * s)) - kk * s)) by ring. eapply Rle_trans; [apply Rabs_triang|]. rewrite Rabs_Ropp. lra.
Qed.
End Carry.
