(** * One segment of the high-fidelity leg under a thrust that is not varied (it may be zero)
    The derivative with respect to initial state and duration, and the existence of the neighbouring flights. *)
From Coq Require Import Reals Lra Lia List ZArith.
From Coquelicot Require Import Coquelicot.
From Verif Require Import RealLib Vec3 TwoBodySpec DynSpec DynModel DynProofs SfModel SfSpec SfGrad OdeLib OdeSd OdeNear HfGradModel HfGradSpec HfGradFlow HfGradAlg HfGradLin HfGradChain HfNear.
Import ListNotations.
Open Scope R_scope.

(** state and duration as one vector *)
Definition join8 (x : col7) (h : R) : nvec := fun j => nth j (list7 x ++ [h]) 0.
Lemma join8_lo x h i : (i < 7)%nat -> join8 x h i = comp7 x i.
Proof. intros Hi. idx7 i Hi; reflexivity. Qed.
Lemma d8_eq x h y k : l1 8 (sub (join8 x h) (join8 y k)) = d7 x y + Rabs (h - k).
Proof. unfold d7, l1. cbn [sum_n]. unfold sub. rewrite !join8_lo by lia. change (join8 x h 7%nat) with h. change (join8 y k 7%nat) with k. ring. Qed.

Section Segment.
Variables mu veff : R.
Variable u : vec.
Definition Fu (i : nat) (z : nvec) : R := comp7 (thrust_field mu veff u (z_state z)) i.
Definition gu (i : nat) (z : nvec) : R := if Nat.ltb i 7 then z 7%nat * Fu i z else 0.
Lemma Fu_join i x h : Fu i (join8 x h) = comp7 (thrust_field mu veff u x) i.
Proof. destruct x as [[[x1 x2 x3] [x4 x5 x6]] x7]. reflexivity. Qed.

Lemma sd_sumsq3 n z a b c : (a < n)%nat -> (b < n)%nat -> (c < n)%nat -> exists w, sd n (fun z => dot (V (z a) (z b) (z c)) (V (z a) (z b) (z c))) z w /\ forall j, j <> a -> j <> b -> j <> c -> w j = 0.
Proof.
  intros A B C. eexists. split.
  - unfold dot. cbn [vx vy vz]. apply sd_plus; [apply sd_plus|]; (apply sd_mult; apply sd_proj; assumption).
  - intros j N1 N2 N3. cbv beta. rewrite !(proj2 (Nat.eqb_neq _ _)) by assumption. ring.
Qed.
Lemma sd_norm3 n z a b c : (a < n)%nat -> (b < n)%nat -> (c < n)%nat -> V (z a) (z b) (z c) <> vzero ->
  exists w, sd n (fun z => norm (V (z a) (z b) (z c))) z w /\ forall j, j <> a -> j <> b -> j <> c -> w j = 0.
Proof.
  intros A B C Z. destruct (sd_sumsq3 n z a b c A B C) as [w [W1 W2]]. pose proof (norm_pos _ Z) as P.
  exists (fun j => / (2 * sqrt (dot (V (z a) (z b) (z c)) (V (z a) (z b) (z c)))) * w j). split.
  - apply (sd_comp n sqrt (fun z => dot (V (z a) (z b) (z c)) (V (z a) (z b) (z c))) z w); [|exact W1]. apply sd1_sqrt. unfold norm in P.
    destruct (Rle_lt_dec (dot (V (z a) (z b) (z c)) (V (z a) (z b) (z c))) 0) as [L|L]; [rewrite sqrt_neg_0 in P by exact L; lra|exact L].
  - intros j N1 N2 N3. cbv beta. rewrite W2 by assumption. ring.
Qed.
Lemma sd_fu z i : (i < 7)%nat -> off_centre (z_state z) -> exists a, sd 8 (Fu i) z a /\ a 7%nat = 0.
Proof.
  intros Hi [O1 O2].
  destruct (sd_norm3 8 z 0 1 2) as [w [W1 W2]]; try lia; [exact O1|].
  assert (G : forall c (d : R), (c < 3)%nat -> exists a, sd 8 (fun z => (- mu) * / (norm (V (z 0%nat) (z 1%nat) (z 2%nat)) ^ 3) * z c + d * / z 6%nat) z a /\ a 7%nat = 0).
  { intros c d Hc. eexists. split.
    - apply sd_plus; [apply sd_mult; [|apply sd_proj; lia]|].
      + apply (sd_comp 8 (fun y => (- mu) * y) (fun z => / (norm (V (z 0%nat) (z 1%nat) (z 2%nat)) ^ 3)) z); [apply sd1_scal|].
        apply (sd_comp 8 Rinv (fun z => norm (V (z 0%nat) (z 1%nat) (z 2%nat)) ^ 3) z); [apply sd1_inv; apply pow_nonzero; apply Rgt_not_eq; apply norm_pos; exact O1|].
        cbn [pow]. apply sd_mult; [exact W1|]. apply sd_mult; [exact W1|]. apply sd_mult; [exact W1|]. apply sd_const.
      + apply (sd_comp 8 (fun y => d * y) (fun z => / z 6%nat) z); [apply sd1_scal|]. apply (sd_comp 8 Rinv (fun z => z 6%nat) z); [apply sd1_inv; exact O2|apply sd_proj; lia].
    - cbv beta. rewrite W2 by lia. rewrite !(proj2 (Nat.eqb_neq _ _)) by lia. ring. }
  assert (P : forall c, (c < 7)%nat -> exists a, sd 8 (fun z => z c) z a /\ a 7%nat = 0).
  { intros c Hc. eexists. split; [apply sd_proj; lia|]. cbv beta. rewrite (proj2 (Nat.eqb_neq _ _)) by lia. reflexivity. }
  assert (E : forall c d i, (c < 3)%nat -> (forall z, Fu i z = (- mu) * / (norm (V (z 0%nat) (z 1%nat) (z 2%nat)) ^ 3) * z c + d * / z 6%nat) -> exists a, sd 8 (Fu i) z a /\ a 7%nat = 0).
  { intros c d k Hc Ek. destruct (G c d Hc) as [a [A1 A2]]. exists a. split; [|exact A2]. apply (sd_ext 8 _ (Fu k) z a a) in A1; [exact A1|intros; symmetry; apply Ek|reflexivity]. }
  idx7 i Hi.
  - apply (P 3%nat). lia.
  - apply (P 4%nat). lia.
  - apply (P 5%nat). lia.
  - apply (E 0%nat (vx u)); [lia|]. intros; unfold Fu, comp7, thrust_field, gravity, z_state; cbn; unfold Rdiv; ring.
  - apply (E 1%nat (vy u)); [lia|]. intros; unfold Fu, comp7, thrust_field, gravity, z_state; cbn; unfold Rdiv; ring.
  - apply (E 2%nat (vz u)); [lia|]. intros; unfold Fu, comp7, thrust_field, gravity, z_state; cbn; unfold Rdiv; ring.
  - exists (fun _ => 0). split; [|reflexivity]. apply (sd_const 8 (- norm u / veff)).
Qed.
Lemma sd_fu_partial x h i : (i < 7)%nat -> off_centre x -> sd 8 (Fu i) (join8 x h) (fun j => if Nat.ltb j 7 then partial (thrust_field mu veff) x u i j else 0).
Proof.
  intros Hi O. destruct x as [[[x1 x2 x3] [x4 x5 x6]] x7].
  destruct (sd_fu (join8 ((V x1 x2 x3, V x4 x5 x6), x7) h) i Hi O) as [a [A1 A2]].
  eapply sd_ext; [reflexivity| |exact A1]. intros j Hj. destruct (Nat.ltb_spec j 7) as [L|L]; [|replace j with 7%nat by lia; exact A2].
  symmetry. unfold partial. apply is_derive_unique. pose proof (sd_partial 8 (Fu i) _ a j A1 Hj) as D.
  eapply is_derive_ext; [|exact D]. intros s. unfold Fu. cbv zeta. 
  assert (Eu : forall k, (k < 7)%nat -> z_thrust (moved (joined ((V x1 x2 x3, V x4 x5 x6), x7) u) k s) = u) by (intros k Hk; do 7 (destruct k as [|k]; [destruct u; reflexivity|]); exfalso; lia).
  rewrite Eu by exact L. do 7 (destruct j as [|j]; [reflexivity|]). exfalso; lia.
Qed.

Lemma arc_solution8 h q : arc (thrust_field mu veff u) h q -> solution 8 gu (fun t => join8 (q (h * t)) h).
Proof.
  intros A t i Ht Hi. destruct (A (h * t) (between_scaled h t Ht)) as [_ D]. unfold gu. destruct (Nat.ltb_spec i 7) as [L|L].
  - rewrite Fu_join. change (join8 (q (h * t)) h 7%nat) with h. eapply is_derive_ext; [intros; symmetry; apply join8_lo; exact L|].
    apply (proj1 (comp7_derive _ _ _)) with (i := i) in D; [|exact L].
    eapply der_to; [eapply (der_comp (fun x => comp7 (q x) i) (fun x => h * x)); [exact D|apply der_scal, der_id]|]. ring.
  - replace i with 7%nat by lia. apply (is_derive_ext (fun _ => h)); [reflexivity|]. apply der_const.
Qed.

Variables (h : R) (q : R -> col7).
Hypothesis Harc : arc (thrust_field mu veff u) h q.
Definition Du (t : R) (i j : nat) : R :=
  if Nat.ltb i 7 then if Nat.ltb j 7 then h * partial (thrust_field mu veff) (q (h * t)) u i j else comp7 (thrust_field mu veff u (q (h * t))) i else 0.
Lemma Du_sd t i : 0 <= t <= 1 -> (i < 8)%nat -> sd 8 (gu i) (join8 (q (h * t)) h) (Du t i).
Proof.
  intros Ht Hi. unfold gu, Du. destruct (Nat.ltb_spec i 7) as [L|L].
  - destruct (Harc (h * t) (between_scaled h t Ht)) as [O _].
    assert (S := sd_mult 8 (fun z => z 7%nat) (Fu i) _ _ _ (sd_proj 8 7 (join8 (q (h * t)) h) ltac:(lia)) (sd_fu_partial (q (h * t)) h i L O)).
    eapply sd_ext; [reflexivity| |exact S]. intros j Hj. cbv beta. rewrite Fu_join. change (join8 (q (h * t)) h 7%nat) with h.
    destruct (Nat.ltb_spec j 7) as [L2|L2]; [rewrite (proj2 (Nat.eqb_neq _ _)) by lia; ring|replace j with 7%nat by lia; cbn [Nat.eqb]; ring].
  - apply (sd_const 8 0).
Qed.
Lemma field_derive8 t i : 0 <= t <= 1 -> (i < 7)%nat ->
  is_derive (fun x => comp7 (thrust_field mu veff u (q (h * x))) i) t (h * sum_n 7 (fun k => partial (thrust_field mu veff) (q (h * t)) u i k * comp7 (thrust_field mu veff u (q (h * t))) k)).
Proof.
  intros Ht Hi. destruct (Harc (h * t) (between_scaled h t Ht)) as [O _].
  assert (S := sd_derive 8 (Fu i) _ (fun t => join8 (q (h * t)) h) (fun k => if Nat.ltb k 7 then h * comp7 (thrust_field mu veff u (q (h * t))) k else 0) t (sd_fu_partial (q (h * t)) h i Hi O)).
  eapply is_derive_ext; [intros x; apply (Fu_join i (q (h * x)) h)|]. eapply der_to; [apply S|].
  - intros j Hj. assert (Q := arc_solution8 h q Harc t j Ht Hj). unfold gu in Q. rewrite Fu_join in Q. change (join8 (q (h * t)) h 7%nat) with h in Q. exact Q.
  - cbn [sum_n Nat.ltb Nat.leb]. ring.
Qed.

(** flights next to this one *)
Lemma frozen8 z Z : solution 8 gu Z -> (forall i, Z 0 i = z i) -> forall t, 0 <= t <= 1 -> Z t 7%nat = z 7%nat.
Proof.
  intros S Z0 t Ht. assert (E : Rabs (Z t 7%nat - Z 0 7%nat) <= 0 - 0).
  { apply (grows (fun s => Z s 7%nat) (fun _ => 0) (fun _ => 0) (fun _ => 0) t ltac:(lra)).
    - intros s Hs. exact (S s 7%nat ltac:(lra) ltac:(lia)).
    - intros s Hs. apply der_const.
    - intros s Hs. rewrite Rabs_R0. lra. }
  pose proof (Rabs_pos (Z t 7%nat - Z 0 7%nat)). assert (Q : Z t 7%nat - Z 0 7%nat = 0) by (destruct (Req_dec (Z t 7%nat - Z 0 7%nat) 0) as [Q|N]; [exact Q|apply Rabs_pos_lt in N; lra]).
  rewrite Z0 in Q. lra.
Qed.
Lemma solution_flight8 x' h' Z : h' <> 0 -> solution 8 gu Z -> (forall i, Z 0 i = join8 x' h' i) -> (forall t, 0 <= t <= 1 -> off_centre (z_state (Z t))) ->
  flight mu veff h' u x' (z_state (Z 1)).
Proof.
  intros Nh S Z0 O. assert (Fr := frozen8 (join8 x' h') Z S Z0).
  exists (fun s => z_state (Z (s / h'))). split; [|split].
  - intros s Hs. assert (Ht : 0 <= s / h' <= 1).
    { unfold between in Hs. assert (E : s = (s / h') * h') by (field; exact Nh). set (t := s / h') in *. clearbody t. destruct (Rle_lt_dec 0 h') as [P|P].
      - rewrite Rmin_left, Rmax_right in Hs by lra. split; nra.
      - rewrite Rmin_right, Rmax_left in Hs by lra. split; nra. }
    split; [apply O; exact Ht|]. apply comp7_derive. intros i Hi.
    apply (is_derive_ext (fun s => Z (s / h') i)); [intros; symmetry; apply comp7_state; exact Hi|].
    assert (D := S (s / h') i Ht ltac:(lia)). unfold gu in D. rewrite (proj2 (Nat.ltb_lt i 7) Hi) in D. rewrite (Fr (s / h') Ht) in D. change (join8 x' h' 7%nat) with h' in D. unfold Fu in D.
    eapply der_to; [apply (der_comp (fun y => Z y i) (fun s => s / h') s (h' * comp7 (thrust_field mu veff u (z_state (Z (s / h')))) i) (/ h')); [exact D|]|].
    + apply (is_derive_ext (fun s => / h' * s)); [intros r; unfold Rdiv; exact (Rmult_comm _ _)|]. eapply der_to; [apply der_scal, der_id|]. ring.
    + cbv beta. field. exact Nh.
  - replace (0 / h') with 0 by (field; exact Nh). apply comp7_ext. intros i Hi. rewrite comp7_state by exact Hi. rewrite Z0. apply join8_lo. exact Hi.
  - replace (h' / h') with 1 by (field; exact Nh). reflexivity.
Qed.
Lemma seg_near8 : exists Y : R -> col7 -> col7, forall eta, 0 < eta -> exists rho, 0 < rho /\ forall x' h', d7 x' (q 0) + Rabs (h' - h) < rho ->
  flight mu veff h' u x' (Y h' x') /\ d7 (Y h' x') (q h) < eta.
Proof.
  assert (HS := arc_solution8 h q Harc).
  destruct (ode_near 8 gu (fun t => join8 (q (h * t)) h) Du HS (fun t i Ht Hi => Du_sd t i Ht Hi)) as [Zf [rho [C [Rp [Cp HZ]]]]].
  destruct (tube 8 gu (fun t => join8 (q (h * t)) h) HS (fun _ w => off_centre (z_state w))) as [r [Hr Tu]].
  { intros t Ht. destruct (off_centre_open (q (h * t))) as [r [Rr Or]]; [apply (Harc (h * t)), between_scaled; exact Ht|]. exists r, 1. split; [exact Rr|]. split; [lra|]. intros s w _ _ Hw. apply Or.
    eapply Rle_lt_trans; [|exact Hw]. unfold l1. cbn [sum_n]. unfold sub. rewrite !join8_lo by lia.
    repeat match goal with |- context [Rabs ?a] => lazymatch goal with H : 0 <= Rabs a |- _ => fail | _ => pose proof (Rabs_pos a) end end. lra. }
  exists (fun h' x' => if Req_EM_T h' 0 then x' else z_state (Zf (join8 x' h') 1)). intros eta He.
  set (r0 := Rmin (Rmin rho (Rmin (r / C) (eta / C))) (Rmin (Rmin r eta) (if Req_EM_T h 0 then 1 else Rabs h))).
  assert (Hh : 0 < (if Req_EM_T h 0 then 1 else Rabs h)) by (destruct (Req_EM_T h 0); [lra|apply Rabs_pos_lt; assumption]).
  assert (R0 : 0 < r0) by (unfold r0; repeat apply Rmin_glb_lt; try assumption; apply Rdiv_lt_0_compat; assumption).
  assert (B : r0 <= rho /\ r0 <= r / C /\ r0 <= eta / C /\ r0 <= r /\ r0 <= eta /\ r0 <= (if Req_EM_T h 0 then 1 else Rabs h)).
  { unfold r0. set (a := if Req_EM_T h 0 then 1 else Rabs h). clearbody a.
    pose proof (Rmin_l (Rmin rho (Rmin (r / C) (eta / C))) (Rmin (Rmin r eta) a)). pose proof (Rmin_r (Rmin rho (Rmin (r / C) (eta / C))) (Rmin (Rmin r eta) a)).
    pose proof (Rmin_l rho (Rmin (r / C) (eta / C))). pose proof (Rmin_r rho (Rmin (r / C) (eta / C))). pose proof (Rmin_l (r / C) (eta / C)). pose proof (Rmin_r (r / C) (eta / C)).
    pose proof (Rmin_l (Rmin r eta) a). pose proof (Rmin_r (Rmin r eta) a). pose proof (Rmin_l r eta). pose proof (Rmin_r r eta). lra. }
  destruct B as [B1 [B2 [B3 [B4 [B5 B6]]]]]. exists r0. split; [exact R0|]. intros x' h' Hd0.
  assert (Hd : l1 8 (sub (join8 x' h') (join8 (q 0) h)) < r0) by (rewrite d8_eq; exact Hd0).
  assert (E0 : join8 (q (h * 0)) h = join8 (q 0) h) by (rewrite Rmult_0_r; reflexivity).
  destruct (Req_EM_T h' 0) as [Z'|N'].
  - subst h'. assert (P7 : 0 <= d7 x' (q 0)) by apply l1_nonneg.
    rewrite Rminus_0_l, Rabs_Ropp in Hd0. pose proof (Rabs_pos h). destruct (Req_EM_T h 0) as [Zh|Nh]; [|lra]. split.
    + apply flight_0. assert (T := Tu 0 (join8 x' 0) ltac:(lra)). cbv beta in T. rewrite E0 in T. specialize (T ltac:(lra)).
      replace x' with (z_state (join8 x' 0)); [exact T|]. apply comp7_ext. intros i Hi. rewrite comp7_state by exact Hi. apply join8_lo; exact Hi.
    + rewrite Zh. lra.
  - destruct (HZ (join8 x' h')) as [S [I0 Cl]]; [cbv beta; rewrite E0; lra|]. cbv beta in Cl. rewrite E0 in Cl.
    assert (Cr : C * l1 8 (sub (join8 x' h') (join8 (q 0) h)) < C * r0) by (apply Rmult_lt_compat_l; assumption).
    assert (C1 : C * r0 <= r) by (apply (Rmult_le_compat_l C) in B2; [|lra]; replace (C * (r / C)) with r in B2 by (field; lra); exact B2).
    assert (C2 : C * r0 <= eta) by (apply (Rmult_le_compat_l C) in B3; [|lra]; replace (C * (eta / C)) with eta in B3 by (field; lra); exact B3).
    split.
    + apply solution_flight8; [exact N'|exact S|exact I0|]. intros t Ht. apply (Tu t); [exact Ht|]. specialize (Cl t Ht). lra.
    + specialize (Cl 1 ltac:(lra)). rewrite Rmult_1_r in Cl. eapply Rle_lt_trans; [|eapply Rle_lt_trans; [exact Cl|]]; [|lra].
      unfold d7, l1. cbn [sum_n]. unfold sub. rewrite !join8_lo, !comp7_state by lia.
      repeat match goal with |- context [Rabs ?a] => lazymatch goal with H : 0 <= Rabs a |- _ => fail | _ => pose proof (Rabs_pos a) end end. lra.
Qed.

(** the sensitivities to the state are the derivative *)
Variable W : R -> nat -> nat -> R.
Hypothesis HW : variational (thrust_field mu veff) u h q W.
Hypothesis HW0 : forall i j, (i < 7)%nat -> (j < 7)%nat -> W 0 i j = if Nat.eqb i j then 1 else 0.
Definition Pu (t : R) (i j : nat) : R :=
  if Nat.ltb i 7 then if Nat.ltb j 7 then W (h * t) i j else t * comp7 (thrust_field mu veff u (q (h * t))) i else if Nat.eqb i j then 1 else 0.
Lemma Pu_var t i j : 0 <= t <= 1 -> (i < 8)%nat -> (j < 8)%nat -> is_derive (fun x => Pu x i j) t (sum_n 8 (fun k => Du t i k * Pu t k j)).
Proof.
  intros Ht Hi Hj. unfold Pu, Du. destruct (Nat.ltb_spec i 7) as [L|L].
  - destruct (Nat.ltb_spec j 7) as [L2|L2].
    + assert (Q := HW (h * t) i j (between_scaled h t Ht) L ltac:(lia) (fun _ => L2)). rewrite (proj2 (Nat.ltb_lt j 7) L2) in Q.
      eapply der_to; [eapply (der_comp (fun x => W x i j) (fun x => h * x)); [exact Q|apply der_scal, der_id]|].
      cbn [sum_n Nat.ltb Nat.leb]. cbv beta. set (P := partial (thrust_field mu veff) (q (h * t)) u i) in *. set (F := comp7 (thrust_field mu veff u (q (h * t)))) in *. clearbody P F.
      do 7 (destruct j as [|j]; [cbn [Nat.eqb Nat.ltb Nat.leb]; ring|]). exfalso; lia.
    + replace j with 7%nat by lia. assert (Q := field_derive8 t i Ht L). eapply der_to; [apply der_mult; [apply der_id|exact Q]|]. cbn [sum_n Nat.ltb Nat.leb Nat.eqb]. ring.
  - eapply der_to; [apply der_const|]. cbn [sum_n]. ring.
Qed.
Lemma Pu_0 i j : (i < 8)%nat -> (j < 8)%nat -> Pu 0 i j = if Nat.eqb i j then 1 else 0.
Proof.
  intros Hi Hj. unfold Pu. destruct (Nat.ltb_spec i 7) as [L|L]; [|reflexivity]. destruct (Nat.ltb_spec j 7) as [L2|L2]; [rewrite Rmult_0_r; apply HW0; assumption|].
  rewrite (proj2 (Nat.eqb_neq i j)) by lia. ring.
Qed.
Definition dflow8 (dx : nat -> R) (dh : R) (i : nat) : R := sum_n 7 (fun j => W h i j * dx j) + comp7 (thrust_field mu veff u (q h)) i * dh.
Lemma seg_diff8 : forall eta, 0 < eta -> exists rho, 0 < rho /\ forall x' h' y', flight mu veff h' u x' y' -> d7 x' (q 0) + Rabs (h' - h) < rho -> forall i, (i < 7)%nat ->
  Rabs (comp7 y' i - comp7 (q h) i - dflow8 (fun j => comp7 x' j - comp7 (q 0) j) (h' - h) i) <= eta * (d7 x' (q 0) + Rabs (h' - h)).
Proof.
  intros eta He.
  destruct (ode_diff 8 gu (fun t => join8 (q (h * t)) h) Du (arc_solution8 h q Harc) (fun t i Ht Hi => Du_sd t i Ht Hi) Pu (fun t i j Ht Hi Hj => Pu_var t i j Ht Hi Hj) (fun i j Hi Hj => Pu_0 i j Hi Hj) eta He) as [rho [Rp Rh]].
  exists rho. split; [exact Rp|]. intros x' h' y' [x [A [X0 X1]]] Hd i Hi.
  specialize (Rh (fun t => join8 (x (h' * t)) h') (arc_solution8 h' x A)). cbv beta in Rh. rewrite !Rmult_0_r, !Rmult_1_r, X0, X1, d8_eq in Rh.
  specialize (Rh Hd i ltac:(lia)). rewrite !join8_lo in Rh by exact Hi.
  match type of Rh with Rabs (_ - _ - ?S) <= _ => replace S with (dflow8 (fun j => comp7 x' j - comp7 (q 0) j) (h' - h) i) in Rh; [exact Rh|] end.
  unfold dflow8, Pu. rewrite (proj2 (Nat.ltb_lt i 7) Hi). rewrite !Rmult_1_r, Rmult_1_l. unfold sub. cbn [sum_n Nat.ltb Nat.leb]. rewrite !join8_lo by lia.
  change (join8 x' h' 7%nat) with h'. change (join8 (q 0) h 7%nat) with h. ring.
Qed.
(** the flow carries its own field along *)
Lemma carried8 i : (i < 7)%nat -> sum_n 7 (fun j => W h i j * comp7 (thrust_field mu veff u (q 0)) j) = comp7 (thrust_field mu veff u (q h)) i.
Proof.
  intros Hi. set (F0 := comp7 (thrust_field mu veff u (q 0))). set (F1 := comp7 (thrust_field mu veff u (q h)) i).
  destruct (Req_dec h 0) as [Z|Nz].
  { unfold F1, F0. rewrite Z. rewrite <- (sum_delta 7 i (comp7 (thrust_field mu veff u (q 0))) Hi). apply sum_ext. intros j Hj. rewrite HW0 by lia. rewrite Nat.eqb_sym. reflexivity. }
  enough (K : h * (sum_n 7 (fun j => W h i j * F0 j) - F1) = 0) by (apply Rmult_integral in K; destruct K; lra).
  apply zero_of_small. intros eta He.
  set (X := fun s : R => join8 (q (h * s)) (h * (1 - s))).
  set (dX := fun j => if Nat.ltb j 7 then h * F0 j else - h).
  assert (DX : forall j, (j < 8)%nat -> is_derive (fun s => X s j) 0 (dX j)).
  { intros j Hj. unfold X, dX. destruct (Nat.ltb_spec j 7) as [L|L].
    - eapply is_derive_ext; [intros; symmetry; apply join8_lo; exact L|]. destruct (Harc 0) as [_ D]; [unfold between; split; [apply Rmin_l|apply Rmax_l]|].
      replace 0 with (h * 0) in D by ring. apply (proj1 (comp7_derive _ _ _)) with (i := j) in D; [|exact L].
      eapply der_to; [eapply (der_comp (fun x => comp7 (q x) j) (fun x => h * x)); [exact D|apply der_scal, der_id]|]. unfold F0. rewrite Rmult_0_r. ring.
    - replace j with 7%nat by lia. apply (is_derive_ext (fun s => h * (1 - s))); [reflexivity|]. eapply der_to; [apply der_scal; apply der_minus; [apply der_const|apply der_id]|]. cbn; ring. }
  destruct (lip_l1 8 X dX 0 DX) as [C [C0 [d1 [D1 H1]]]].
  assert (Dc : is_derive (fun s => sum_n 7 (fun j => W h i j * (comp7 (q (h * s)) j - comp7 (q 0) j)) + F1 * (- (h * s))) 0 (h * (sum_n 7 (fun j => W h i j * F0 j) - F1))).
  { eapply der_to.
    - apply der_plus.
      + apply (der_sum 7 (fun s j => W h i j * (comp7 (q (h * s)) j - comp7 (q 0) j)) (fun j => W h i j * (h * F0 j))). intros j Hj. apply der_scal.
        eapply der_to; [apply der_minus; [|apply der_const]|]. { specialize (DX j ltac:(lia)). unfold X, dX in DX. rewrite (proj2 (Nat.ltb_lt j 7) Hj) in DX. eapply is_derive_ext; [|exact DX]. intros. apply join8_lo. exact Hj. } ring.
      + apply der_scal. apply der_opp. apply der_scal. apply der_id.
    - cbv beta. replace (sum_n 7 (fun j => W h i j * (h * F0 j))) with (h * sum_n 7 (fun j => W h i j * F0 j)) by (rewrite <- sum_scal; apply sum_ext; intros; ring). ring. }
  destruct (derive_near _ _ _ Dc (eta / 2) ltac:(lra)) as [d2 [D2 H2]].
  destruct (seg_diff8 (eta / 2 / (C + 1))) as [rho [Rp Rh]]; [apply Rdiv_lt_0_compat; lra|].
  assert (P : 0 < rho / (C + 1)) by (apply Rdiv_lt_0_compat; lra).
  set (s := Rmin (1 / 2) (Rmin (d1 / 2) (Rmin (d2 / 2) (rho / (C + 1) / 2)))).
  assert (Sp : 0 < s) by (repeat apply Rmin_glb_lt; lra).
  assert (S0 : s <= 1 / 2) by apply Rmin_l.
  assert (S1 : s <= d1 / 2) by (eapply Rle_trans; [apply Rmin_r|apply Rmin_l]).
  assert (S2 : s <= d2 / 2) by (eapply Rle_trans; [apply Rmin_r|eapply Rle_trans; [apply Rmin_r|apply Rmin_l]]).
  assert (S3 : s <= rho / (C + 1) / 2) by (eapply Rle_trans; [apply Rmin_r|eapply Rle_trans; [apply Rmin_r|apply Rmin_r]]).
  clearbody s. assert (As : Rabs (s - 0) = s) by (rewrite Rminus_0_r; apply Rabs_pos_eq; lra).
  specialize (H1 s ltac:(lra)). specialize (H2 s ltac:(lra)). rewrite As in H1, H2.
  assert (Fl : flight mu veff (h * (1 - s)) u (q (h * s)) (q h)).
  { exists (fun t => q (h * s + t)). split; [|split; f_equal; ring]. intros t Ht. destruct (Harc (h * s + t)) as [O D].
    - unfold between in *. destruct (Rle_dec 0 h) as [Q|Q].
      + rewrite Rmin_left, Rmax_right in Ht by nra. rewrite Rmin_left, Rmax_right by lra. nra.
      + rewrite Rmin_right, Rmax_left in Ht by nra. rewrite Rmin_right, Rmax_left by lra. nra.
    - split; [exact O|]. apply comp7_derive. intros j Hj. apply (proj1 (comp7_derive _ _ _)) with (i := j) in D; [|exact Hj].
      eapply der_to; [eapply (der_comp (fun x => comp7 (q x) j) (fun t => h * s + t)); [exact D|apply der_plus; [apply der_const|apply der_id]]|]. ring. }
  assert (Ed : d7 (q (h * s)) (q 0) + Rabs (h * (1 - s) - h) = l1 8 (sub (X s) (X 0))).
  { rewrite <- d8_eq. apply l1_ext. intros j _. unfold sub, X. rewrite !Rmult_0_r, Rminus_0_r, Rmult_1_r. reflexivity. }
  assert (Hd : d7 (q (h * s)) (q 0) + Rabs (h * (1 - s) - h) < rho).
  { rewrite Ed. eapply Rle_lt_trans; [exact H1|]. apply (Rmult_le_compat_r (C + 1)) in S3; [|lra]. replace (rho / (C + 1) / 2 * (C + 1)) with (rho / 2) in S3 by (field; lra). nra. }
  specialize (Rh _ _ _ Fl Hd i Hi). rewrite Ed in Rh. unfold dflow8 in Rh. fold F1 in Rh.
  set (A := sum_n 7 (fun j => W h i j * (comp7 (q (h * s)) j - comp7 (q 0) j))) in *. cbv beta in H2.
  replace (sum_n 7 (fun j => W h i j * (comp7 (q (h * 0)) j - comp7 (q 0) j))) with 0 in H2 by (rewrite Rmult_0_r; cbn [sum_n]; ring). fold A in H2.
  set (kk := h * (sum_n 7 (fun j => W h i j * F0 j) - F1)) in *. clearbody kk A.
  assert (B1 : Rabs (A + F1 * - (h * s)) <= eta / 2 * s).
  { rewrite <- Rabs_Ropp. replace (- (A + F1 * - (h * s))) with (comp7 (q h) i - comp7 (q h) i - (A + F1 * (h * (1 - s) - h))) by ring.
    eapply Rle_trans; [exact Rh|]. apply Rle_trans with (eta / 2 / (C + 1) * ((C + 1) * s)); [|right; field; lra]. apply Rmult_le_compat_l; [left; apply Rdiv_lt_0_compat; lra|]. nra. }
  replace (A + F1 * - (h * s) - (0 + F1 * - (h * 0)) - kk * (s - 0)) with ((A + F1 * - (h * s)) - kk * s) in H2 by ring.
  apply (Rmult_le_reg_r s); [exact Sp|]. rewrite <- (Rabs_pos_eq s) at 1 by lra. rewrite <- Rabs_mult.
  replace (kk * s) with ((A + F1 * - (h * s)) - ((A + F1 * - (h * s)) - kk * s)) by ring. eapply Rle_trans; [apply Rabs_triang|]. rewrite Rabs_Ropp. lra.
Qed.
End Segment.

(** ** A family of flights under an unvaried thrust *)
(** the data of one segment, whatever its thrust *)
Definition seg_any (mu veff h : R) (u : vec) (p p' : col7) (M U F : list R) : Prop :=
  (forall k, (k < 7)%nat -> nth k F 0 = comp7 (thrust_field mu veff u p) k) /\
  exists q W, arc (thrust_field mu veff u) h q /\ variational (thrust_field mu veff) u h q W /\ q 0 = p /\ q h = p' /\
  (forall i j, (i < 7)%nat -> (j < 10)%nat -> W 0 i j = if Nat.eqb i j then 1 else 0) /\
  (forall i j, (i < 7)%nat -> (j < 7)%nat -> W h i j = nth (7 * i + j) M 0) /\
  (forall i c, (i < 7)%nat -> (c < 3)%nat -> W h i (7 + c)%nat = nth (3 * i + c) U 0).
Section Step.
Variables mu veff : R.
Lemma fam_step8 (X : R -> col7 -> Prop) (U0 : R -> vec) (H0 : R -> R) h p p' M U F (dx du : nat -> R) (dh : R) :
  (forall e, U0 e = U0 0) -> (forall c, (c < 3)%nat -> du c = 0) ->
  seg_any mu veff h (U0 0) p p' M U F -> H0 0 = h -> is_derive H0 0 dh -> fam_diff X p dx ->
  fam_diff (fun e y => exists x, X e x /\ flight mu veff (H0 e) (U0 e) x y) p' (fun i => ap 7 M dx i + ap 3 U du i + dh * ap 7 M (fv F) i).
Proof.
  intros UC DU0 [HF [q [W [A [V [Q0 [Q1 [W0 [WM WU]]]]]]]]] H00 DH HX. subst p p'. set (u := U0 0) in *.
  assert (W0' : forall i j, (i < 7)%nat -> (j < 7)%nat -> W 0 i j = if Nat.eqb i j then 1 else 0) by (intros; apply W0; lia).
  assert (FC : forall i, (i < 7)%nat -> ap 7 M (fv F) i = comp7 (thrust_field mu veff u (q h)) i).
  { intros i Hi. rewrite <- (carried8 mu veff u h q A W V W0' i Hi). unfold ap. apply sum_ext. intros j Hj. rewrite WM by assumption. unfold fv. rewrite HF by exact Hj. reflexivity. }
  assert (UZ : forall i, ap 3 U du i = 0) by (intros i; unfold ap; cbn [sum_n]; rewrite !DU0 by lia; ring).
  set (c := fun i j => if Nat.ltb j 7 then W h i j else comp7 (thrust_field mu veff u (q h)) i).
  set (D := fun j => if Nat.ltb j 7 then dx j else dh).
  assert (LD : forall i, (i < 7)%nat -> ap 7 M dx i + ap 3 U du i + dh * ap 7 M (fv F) i = sum_n 8 (fun j => c i j * D j)).
  { intros i Hi. rewrite FC, UZ by exact Hi. unfold c, D, ap. cbn [sum_n Nat.ltb Nat.leb Nat.sub]. rewrite <- !WM by lia. ring. }
  destruct (fin_max 7 (fun i K => forall j, (j < 8)%nat -> Rabs (c i j) <= K)) as [K [Kp HK]].
  { intros i k k' H L j Hj. eapply Rle_trans; [apply H; exact Hj|exact L]. }
  { intros i Hi. exists (l1 8 (c i)). split; [apply l1_nonneg|]. intros j Hj. apply l1_ge. exact Hj. }
  set (C := l1 8 D). assert (Cp : 0 <= C) by apply l1_nonneg.
  intros eta He.
  destruct (seg_diff8 mu veff u h q A W V W0' (eta / 2 / (C + 8))) as [rho [Rp Rh]]; [apply Rdiv_lt_0_compat; lra|].
  set (e1 := Rmin 1 (eta / (2 * (8 * (K + 1))))).
  assert (E1p : 0 < e1). { apply Rmin_glb_lt; [lra|]. apply Rdiv_lt_0_compat; lra. }
  assert (E1a : e1 <= 1) by apply Rmin_l. assert (E1b : e1 <= eta / (2 * (8 * (K + 1)))) by apply Rmin_r.
  destruct (HX e1 E1p) as [d1 [D1 H1]].
  destruct (derive_near _ _ _ DH e1 E1p) as [d3 [D3 H3]].
  assert (P4 : 0 < rho / (C + 8)) by (apply Rdiv_lt_0_compat; lra).
  set (eps := Rmin d1 (Rmin d3 (rho / (C + 8)))).
  exists eps. split; [unfold eps; repeat apply Rmin_glb_lt; assumption|].
  intros e y Ee [x [Xx Fl]] i Hi.
  assert (B1 : Rabs e < d1) by (eapply Rlt_le_trans; [exact Ee|]; apply Rmin_l).
  assert (B3 : Rabs e < d3) by (eapply Rlt_le_trans; [exact Ee|]; eapply Rle_trans; [apply Rmin_r|apply Rmin_l]).
  assert (B4 : Rabs e < rho / (C + 8)) by (eapply Rlt_le_trans; [exact Ee|]; eapply Rle_trans; [apply Rmin_r|apply Rmin_r]).
  specialize (H1 e x B1 Xx). specialize (H3 e). rewrite Rminus_0_r in H3. specialize (H3 B3).
  set (dz := sub (join8 x (H0 e)) (join8 (q 0) h)).
  assert (Z : forall j, (j < 8)%nat -> Rabs (dz j - D j * e) <= e1 * Rabs e).
  { intros j Hj. unfold dz, sub, D. destruct (Nat.ltb_spec j 7) as [L|L]; [rewrite !join8_lo by exact L; apply H1; exact L|].
    replace j with 7%nat by lia. change (join8 x (H0 e) 7%nat) with (H0 e). change (join8 (q 0) h 7%nat) with h. rewrite <- H00. exact H3. }
  assert (Ld : l1 8 dz <= (C + 8) * Rabs e).
  { apply Rle_trans with (l1 8 (fun j => D j * e) + l1 8 (fun j => dz j - D j * e)).
    - unfold l1. rewrite <- sum_plus. apply sum_le. intros j Hj. replace (dz j) with (D j * e + (dz j - D j * e)) at 1 by ring. apply Rabs_triang.
    - assert (Q1 : l1 8 (fun j => D j * e) = C * Rabs e). { unfold C, l1. rewrite Rmult_comm, <- sum_scal. apply sum_ext. intros. rewrite Rabs_mult. ring. }
      assert (Q2 := l1_small 8 (fun j => dz j - D j * e) (e1 * Rabs e) Z). cbn [INR] in Q2. pose proof (Rabs_pos e). rewrite Q1. assert (e1 * Rabs e <= 1 * Rabs e) by (apply Rmult_le_compat_r; lra). lra. }
  assert (Ed : d7 x (q 0) + Rabs (H0 e - h) = l1 8 dz) by (symmetry; apply d8_eq).
  assert (Hd : d7 x (q 0) + Rabs (H0 e - h) < rho).
  { rewrite Ed. eapply Rle_lt_trans; [exact Ld|]. apply (Rmult_lt_compat_l (C + 8)) in B4; [|lra]. replace ((C + 8) * (rho / (C + 8))) with rho in B4 by (field; lra). exact B4. }
  rewrite UC in Fl. specialize (Rh x (H0 e) y Fl Hd i Hi). rewrite Ed in Rh.
  replace (dflow8 mu veff u h q W (fun j => comp7 x j - comp7 (q 0) j) (H0 e - h) i) with (sum_n 8 (fun j => c i j * dz j)) in Rh.
  2:{ unfold dflow8, c, dz, sub. cbn [sum_n Nat.ltb Nat.leb]. rewrite !join8_lo by lia. change (join8 x (H0 e) 7%nat) with (H0 e). change (join8 (q 0) h 7%nat) with h. ring. }
  rewrite LD by exact Hi.
  assert (T : Rabs (sum_n 8 (fun j => c i j * dz j) - sum_n 8 (fun j => c i j * D j) * e) <= K * (8 * (e1 * Rabs e))).
  { replace (sum_n 8 (fun j => c i j * dz j) - sum_n 8 (fun j => c i j * D j) * e) with (sum_n 8 (fun j => c i j * (dz j - D j * e))).
    2:{ rewrite (Rmult_comm _ e), <- sum_scal, <- sum_minus. apply sum_ext. intros. ring. }
    eapply Rle_trans; [apply (lin_bound 8 (c i) K (fun j => dz j - D j * e)); apply HK; exact Hi|]. apply Rmult_le_compat_l; [exact Kp|].
    assert (Q2 := l1_small 8 (fun j => dz j - D j * e) (e1 * Rabs e) Z). cbn [INR] in Q2. lra. }
  assert (T1 : K * (8 * (e1 * Rabs e)) <= eta / 2 * Rabs e).
  { apply Rle_trans with ((K + 1) * (8 * (eta / (2 * (8 * (K + 1))) * Rabs e))); [|right; field; lra]. pose proof (Rabs_pos e).
    assert (e1 * Rabs e <= eta / (2 * (8 * (K + 1))) * Rabs e) by (apply Rmult_le_compat_r; lra). assert (0 <= e1 * Rabs e) by (apply Rmult_le_pos; lra).
    apply Rmult_le_compat; lra. }
  assert (T2 : eta / 2 / (C + 8) * l1 8 dz <= eta / 2 * Rabs e).
  { apply Rle_trans with (eta / 2 / (C + 8) * ((C + 8) * Rabs e)); [|right; field; lra]. apply Rmult_le_compat_l; [left; apply Rdiv_lt_0_compat; lra|exact Ld]. }
  set (S1 := sum_n 8 (fun j => c i j * dz j)) in *. set (S2 := sum_n 8 (fun j => c i j * D j)) in *.
  replace (comp7 y i - comp7 (q h) i - S2 * e) with ((comp7 y i - comp7 (q h) i - S1) + (S1 - S2 * e)) by ring. eapply Rle_trans; [apply Rabs_triang|]. lra.
Qed.
End Step.
