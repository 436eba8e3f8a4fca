(** * Next to a high-fidelity leg that can be flown there are legs that can be flown *)
From Coq Require Import Reals Lra Lia List ZArith.
From Coquelicot Require Import Coquelicot.
From Verif Require Import RealLib Vec3 TwoBodySpec DynSpec DynModel DynProofs SfModel SfSpec SfGrad OdeLib OdeSd OdeNear HfGradModel HfGradSpec HfGradFlow HfGradChain.
Import ListNotations.
Open Scope R_scope.

Definition d7 (a b : col7) : R := l1 7 (sub (comp7 a) (comp7 b)).
Definition d3 (u v : vec) : R := Rabs (vx u - vx v) + Rabs (vy u - vy v) + Rabs (vz u - vz v).
Lemma comp7_state w i : (i < 7)%nat -> comp7 (z_state w) i = w i.
Proof. intros Hi. idx7 i Hi; reflexivity. Qed.
Lemma d7_le_11 x u h y v k : d7 x y <= l1 11 (sub (join11 x u h) (join11 y v k)).
Proof.
  unfold d7, l1. cbn [sum_n]. unfold sub. rewrite !join_lo by lia.
  repeat match goal with |- context [Rabs ?a] => lazymatch goal with H : 0 <= Rabs a |- _ => fail | _ => pose proof (Rabs_pos a) end end. lra.
Qed.
Lemma d11_le x u h y v k : l1 11 (sub (join11 x u h) (join11 y v k)) = d7 x y + d3 u v + Rabs (h - k).
Proof. unfold d7, d3, l1. cbn [sum_n]. unfold sub. rewrite !join_lo by lia. change (join11 x u h 7%nat) with (vx u). change (join11 x u h 8%nat) with (vy u). change (join11 x u h 9%nat) with (vz u). change (join11 x u h 10%nat) with h.
  change (join11 y v k 7%nat) with (vx v). change (join11 y v k 8%nat) with (vy v). change (join11 y v k 9%nat) with (vz v). change (join11 y v k 10%nat) with k. ring.
Qed.
Lemma far_ne (a b : R) : b <> 0 -> Rabs (a - b) < Rabs b -> a <> 0.
Proof. intros N L ->. rewrite Rminus_0_l, Rabs_Ropp in L. lra. Qed.
(** being off the centre and having a mass are open *)
Lemma off_centre_open x : off_centre x -> exists r, 0 < r /\ forall w, l1 7 (sub w (comp7 x)) < r -> off_centre (z_state w).
Proof.
  destruct x as [[[x1 x2 x3] [x4 x5 x6]] x7]. intros [O1 O2]. cbn [fst snd] in *.
  assert (P7 : 0 < Rabs x7) by (apply Rabs_pos_lt; exact O2).
  assert (C : exists k c, (k < 3)%nat /\ c <> 0 /\ comp7 ((V x1 x2 x3, V x4 x5 x6), x7) k = c).
  { destruct (Req_dec x1 0) as [->|N]; [|exists 0%nat, x1; split; [lia|split; [exact N|reflexivity]]].
    destruct (Req_dec x2 0) as [->|N]; [|exists 1%nat, x2; split; [lia|split; [exact N|reflexivity]]].
    destruct (Req_dec x3 0) as [->|N]; [exfalso; apply O1; reflexivity|exists 2%nat, x3; split; [lia|split; [exact N|reflexivity]]]. }
  destruct C as [k [c [Hk [Nc Ec]]]].
  exists (Rmin (Rabs c) (Rabs x7)). split; [apply Rmin_glb_lt; [apply Rabs_pos_lt; exact Nc|exact P7]|]. intros w Hw.
  pose proof (Rmin_l (Rabs c) (Rabs x7)). pose proof (Rmin_r (Rabs c) (Rabs x7)).
  assert (G : forall j, (j < 7)%nat -> Rabs (w j - comp7 ((V x1 x2 x3, V x4 x5 x6), x7) j) < Rmin (Rabs c) (Rabs x7)).
  { intros j Hj. eapply Rle_lt_trans; [|exact Hw]. apply (l1_ge 7 (sub w (comp7 ((V x1 x2 x3, V x4 x5 x6), x7))) j Hj). }
  split.
  - intros Z. assert (Wk : w k = 0).
    { unfold z_state, vzero in Z. cbn [fst snd] in Z. injection Z as Z1 Z2 Z3. destruct k as [|[|[|k]]]; try lia; assumption. }
    specialize (G k ltac:(lia)). rewrite Ec in G. apply (far_ne (w k) c Nc); [lra|exact Wk].
  - cbn [snd z_state]. specialize (G 6%nat ltac:(lia)). change (comp7 ((V x1 x2 x3, V x4 x5 x6), x7) 6) with x7 in G. apply (far_ne (w 6%nat) x7 O2). lra.
Qed.

Section Segment.
Variables mu veff : R.
Hypothesis Hveff : veff <> 0.
Variables (u : vec) (h : R) (q : R -> col7).
Hypothesis Hu : u <> vzero.
Hypothesis Harc : arc (thrust_field mu veff u) h q.

(** a flight of no duration *)
Lemma flight_0 v x : off_centre x -> flight mu veff 0 v x x.
Proof.
  intros O. set (F := thrust_field mu veff v x). exists (fun t => z_state (fun i => comp7 x i + t * comp7 F i)).
  assert (E : z_state (fun i => comp7 x i + 0 * comp7 F i) = x) by (apply comp7_ext; intros i Hi; rewrite comp7_state by exact Hi; ring).
  split; [|split; exact E]. intros t Ht. unfold between in Ht. rewrite Rmin_left, Rmax_left in Ht by lra. replace t with 0 by lra. rewrite E. split; [exact O|].
  apply comp7_derive. intros i Hi. apply (is_derive_ext (fun t => comp7 x i + t * comp7 F i)); [intros; symmetry; rewrite comp7_state by exact Hi; reflexivity|].
  eapply der_to; [apply der_plus; [apply der_const|apply der_mult; [apply der_id|apply der_const]]|]. cbv beta. change (0 + (1 * comp7 F i + 0 * 0) = comp7 F i). ring.
Qed.

(** solutions over [0, 1] of the joined system are flights *)
Lemma frozen z Z : solution 11 (gi mu veff) Z -> (forall i, Z 0 i = z i) -> forall t k, 0 <= t <= 1 -> (7 <= k < 11)%nat -> Z t k = z k.
Proof.
  intros S Z0 t k Ht Hk. assert (B := grows (fun s => Z s k) (fun _ => 0) (fun _ => 0) (fun _ => 0) t ltac:(lra)).
  assert (E : Rabs (Z t k - Z 0 k) <= 0 - 0).
  { apply B.
    - intros s Hs. assert (D := S s k ltac:(lra) ltac:(lia)). unfold gi in D. rewrite (proj2 (Nat.ltb_ge k 7)) in D by lia. exact D.
    - intros s Hs. apply der_const.
    - intros s Hs. rewrite Rabs_R0. lra. }
  pose proof (Rabs_pos (Z t k - Z 0 k)). assert (Q : Z t k - Z 0 k = 0) by (destruct (Req_dec (Z t k - Z 0 k) 0) as [Q|N]; [exact Q|apply Rabs_pos_lt in N; lra]).
  rewrite Z0 in Q. lra.
Qed.
Lemma solution_flight x' u' h' Z : h' <> 0 -> solution 11 (gi mu veff) Z -> (forall i, Z 0 i = join11 x' u' h' i) -> (forall t, 0 <= t <= 1 -> off_centre (z_state (Z t))) ->
  flight mu veff h' u' x' (z_state (Z 1)).
Proof.
  intros Nh S Z0 O. assert (Fr := frozen (join11 x' u' h') Z S Z0).
  exists (fun s => z_state (Z (s / h'))). split; [|split].
  - intros s Hs. assert (Ht : 0 <= s / h' <= 1).
    { unfold between in Hs. assert (E : s = (s / h') * h') by (field; exact Nh). set (t := s / h') in *. clearbody t. destruct (Rle_lt_dec 0 h') as [P|P].
      - rewrite Rmin_left, Rmax_right in Hs by lra. split; nra.
      - rewrite Rmin_right, Rmax_left in Hs by lra. split; nra. }
    split; [apply O; exact Ht|]. apply comp7_derive. intros i Hi.
    apply (is_derive_ext (fun s => Z (s / h') i)); [intros; symmetry; apply comp7_state; exact Hi|].
    assert (D := S (s / h') i Ht ltac:(lia)). unfold gi in D. rewrite (proj2 (Nat.ltb_lt i 7) Hi) in D. rewrite (Fr (s / h') 10%nat Ht ltac:(lia)) in D. change (join11 x' u' h' 10%nat) with h' in D.
    unfold Fi in D. assert (Eu : z_thrust (Z (s / h')) = u').
    { unfold z_thrust. rewrite !Fr by (assumption || lia). destruct u'; reflexivity. }
    rewrite Eu in D. eapply der_to; [apply (der_comp (fun y => Z y i) (fun s => s / h') s (h' * comp7 (thrust_field mu veff u' (z_state (Z (s / h')))) i) (/ h')); [exact D|]|].
    + apply (is_derive_ext (fun s => / h' * s)); [intros r; unfold Rdiv; exact (Rmult_comm _ _)|]. eapply der_to; [apply der_scal, der_id|]. ring.
    + cbv beta. field. exact Nh.
  - replace (0 / h') with 0 by (field; exact Nh). apply comp7_ext. intros i Hi. rewrite comp7_state by exact Hi. rewrite Z0. apply join_lo. exact Hi.
  - replace (h' / h') with 1 by (field; exact Nh). reflexivity.
Qed.

Lemma seg_near : exists Y : vec -> R -> col7 -> col7, forall eta, 0 < eta -> exists rho, 0 < rho /\ forall x' u' h', dist11 u h q x' u' h' < rho ->
  flight mu veff h' u' x' (Y u' h' x') /\ d7 (Y u' h' x') (q h) < eta.
Proof.
  assert (HS := arc_solution mu veff u h q Harc).
  destruct (ode_near 11 (gi mu veff) (fun t => join11 (q (h * t)) u h) (Dm mu veff u h q) HS (fun t i Ht Hi => Dm_sd mu veff Hveff u h q Hu Harc t i Ht Hi)) as [Zf [rho [C [Rp [Cp HZ]]]]].
  destruct (tube 11 (gi mu veff) (fun t => join11 (q (h * t)) u h) HS (fun _ w => off_centre (z_state w))) as [r [Hr Tu]].
  { intros t Ht. destruct (off_centre_open (q (h * t))) as [r [Rr Or]]; [apply (Harc (h * t)), between_scaled; exact Ht|]. exists r, 1. split; [exact Rr|]. split; [lra|]. intros s w _ _ Hw. apply Or.
    eapply Rle_lt_trans; [|exact Hw]. unfold l1. cbn [sum_n]. unfold sub. rewrite !join_lo by lia.
    repeat match goal with |- context [Rabs ?a] => lazymatch goal with H : 0 <= Rabs a |- _ => fail | _ => pose proof (Rabs_pos a) end end. lra. }
  exists (fun u' h' x' => if Req_EM_T h' 0 then x' else z_state (Zf (join11 x' u' h') 1)). intros eta He.
  set (r0 := Rmin (Rmin rho (Rmin (r / C) (eta / C))) (Rmin (Rmin r eta) (if Req_EM_T h 0 then 1 else Rabs h))).
  assert (Hh : 0 < (if Req_EM_T h 0 then 1 else Rabs h)) by (destruct (Req_EM_T h 0); [lra|apply Rabs_pos_lt; assumption]).
  assert (R0 : 0 < r0) by (unfold r0; repeat apply Rmin_glb_lt; try assumption; apply Rdiv_lt_0_compat; assumption).
  assert (B : r0 <= rho /\ r0 <= r / C /\ r0 <= eta / C /\ r0 <= r /\ r0 <= eta /\ r0 <= (if Req_EM_T h 0 then 1 else Rabs h)).
  { unfold r0. set (a := if Req_EM_T h 0 then 1 else Rabs h). clearbody a.
    pose proof (Rmin_l (Rmin rho (Rmin (r / C) (eta / C))) (Rmin (Rmin r eta) a)). pose proof (Rmin_r (Rmin rho (Rmin (r / C) (eta / C))) (Rmin (Rmin r eta) a)).
    pose proof (Rmin_l rho (Rmin (r / C) (eta / C))). pose proof (Rmin_r rho (Rmin (r / C) (eta / C))). pose proof (Rmin_l (r / C) (eta / C)). pose proof (Rmin_r (r / C) (eta / C)).
    pose proof (Rmin_l (Rmin r eta) a). pose proof (Rmin_r (Rmin r eta) a). pose proof (Rmin_l r eta). pose proof (Rmin_r r eta). lra. }
  destruct B as [B1 [B2 [B3 [B4 [B5 B6]]]]]. exists r0. split; [exact R0|]. intros x' u' h' Hd. unfold dist11 in Hd.
  assert (E0 : join11 (q (h * 0)) u h = join11 (q 0) u h) by (rewrite Rmult_0_r; reflexivity).
  destruct (Req_EM_T h' 0) as [Z'|N'].
  - subst h'. rewrite d11_le in Hd. assert (P7 : 0 <= d7 x' (q 0)) by apply l1_nonneg. assert (P3 : 0 <= d3 u' u) by (unfold d3; pose proof (Rabs_pos (vx u' - vx u)); pose proof (Rabs_pos (vy u' - vy u)); pose proof (Rabs_pos (vz u' - vz u)); lra).
    rewrite Rminus_0_l, Rabs_Ropp in Hd. pose proof (Rabs_pos h). destruct (Req_EM_T h 0) as [Zh|Nh]; [|lra]. split.
    + apply flight_0. assert (T := Tu 0 (join11 x' u' 0) ltac:(lra)). cbv beta in T. rewrite E0, d11_le, Rminus_0_l, Rabs_Ropp in T. specialize (T ltac:(lra)).
      replace x' with (z_state (join11 x' u' 0)); [exact T|]. apply comp7_ext. intros i Hi. rewrite comp7_state by exact Hi. apply join_lo; exact Hi.
    + rewrite Zh. lra.
  - destruct (HZ (join11 x' u' h')) as [S [I0 Cl]]; [cbv beta; rewrite E0; lra|]. cbv beta in Cl. rewrite E0 in Cl.
    assert (Cr : C * l1 11 (sub (join11 x' u' h') (join11 (q 0) u h)) < C * r0) by (apply Rmult_lt_compat_l; assumption).
    assert (C1 : C * r0 <= r) by (apply (Rmult_le_compat_l C) in B2; [|lra]; replace (C * (r / C)) with r in B2 by (field; lra); exact B2).
    assert (C2 : C * r0 <= eta) by (apply (Rmult_le_compat_l C) in B3; [|lra]; replace (C * (eta / C)) with eta in B3 by (field; lra); exact B3).
    split.
    + apply solution_flight; [exact N'|exact S|exact I0|]. intros t Ht. apply (Tu t); [exact Ht|]. specialize (Cl t Ht). lra.
    + specialize (Cl 1 ltac:(lra)). rewrite Rmult_1_r in Cl. eapply Rle_lt_trans; [|eapply Rle_lt_trans; [exact Cl|]]; [|lra].
      unfold d7, l1. cbn [sum_n]. unfold sub. rewrite !join_lo, !comp7_state by lia.
      repeat match goal with |- context [Rabs ?a] => lazymatch goal with H : 0 <= Rabs a |- _ => fail | _ => pose proof (Rabs_pos a) end end. lra.
Qed.
End Segment.

Section Legs.
Variables mu veff : R.
Hypothesis Hveff : veff <> 0.
Definition near (rho : R) (us us' : list vec) : Prop := List.Forall2 (fun u u' => d3 u' u < rho) us us'.
Lemma near_le a b us us' : a <= b -> near a us us' -> near b us us'.
Proof. intros L H. induction H as [|x y l l2 E H IH]; constructor; [lra|exact IH]. Qed.
Lemma legs_near h us : List.Forall (fun u => u <> vzero) us -> forall p q, legs (flight mu veff h) us p q ->
  exists Y : list vec -> R -> col7 -> col7, forall eta, 0 < eta -> exists rho, 0 < rho /\ forall us' h' p', near rho us us' -> Rabs (h' - h) < rho -> d7 p' p < rho ->
  legs (flight mu veff h') us' p' (Y us' h' p') /\ d7 (Y us' h' p') q < eta.
Proof.
  induction us as [|u us IH]; intros Nz p q L; cbn [legs] in L.
  - subst q. exists (fun _ _ p' => p'). intros eta He. exists eta. split; [exact He|]. intros us' h' p' Hn _ Hp. inversion Hn; subst. split; [reflexivity|exact Hp].
  - inversion Nz as [|u1 us1 Nu Nus E1]; subst u1 us1. destruct L as [z [[x [A [X0 X1]]] L]]. destruct (IH Nus z q L) as [Y2 H2]. clear IH.
    destruct (seg_near mu veff Hveff u h x Nu A) as [Y1 H1].
    exists (fun us' h' p' => match us' with [] => p' | u' :: us'' => Y2 us'' h' (Y1 u' h' p') end). intros eta He.
    destruct (H2 eta He) as [r2 [R2 G2]]. destruct (H1 r2 R2) as [r1 [R1 G1]].
    exists (Rmin r2 (r1 / 3)). split; [apply Rmin_glb_lt; lra|]. pose proof (Rmin_l r2 (r1 / 3)). pose proof (Rmin_r r2 (r1 / 3)).
    intros us' h' p' Hn Hh Hp. inversion Hn as [|u1 u' us1 us'' Hu' Hn' E1 E2]; subst u1 us1 us'.
    destruct (G1 p' u' h') as [F1 D1]; [unfold dist11; rewrite d11_le, X0; lra|]. rewrite X1 in D1.
    destruct (G2 us'' h' (Y1 u' h' p')) as [F2 D2]; [eapply near_le; [|exact Hn']; lra|lra|exact D1|].
    split; [|exact D2]. cbn [legs]. exists (Y1 u' h' p'). split; assumption.
Qed.

Lemma cont_near (f : R -> R) (d : R) : is_derive f 0 d -> forall rho, 0 < rho -> exists eps, 0 < eps /\ forall e, Rabs e < eps -> Rabs (f e - f 0) < rho.
Proof.
  intros D rho Hr. destruct (derive_near f 0 d D 1 ltac:(lra)) as [k [Kp Hk]]. pose proof (Rabs_pos d) as Pd.
  exists (Rmin k (rho / (Rabs d + 1))). split; [apply Rmin_glb_lt; [exact Kp|apply Rdiv_lt_0_compat; lra]|]. intros e Ee.
  pose proof (Rmin_l k (rho / (Rabs d + 1))). pose proof (Rmin_r k (rho / (Rabs d + 1))).
  specialize (Hk e). rewrite Rminus_0_r in Hk. specialize (Hk ltac:(lra)).
  assert (L : (Rabs d + 1) * Rabs e < rho).
  { apply Rlt_le_trans with ((Rabs d + 1) * (rho / (Rabs d + 1))); [apply Rmult_lt_compat_l; lra|right; field; lra]. }
  replace (f e - f 0) with ((f e - f 0 - d * e) + d * e) by ring. eapply Rle_lt_trans; [apply Rabs_triang|]. rewrite (Rabs_mult d e). lra.
Qed.
Lemma d7_near (x : R -> col7) d : derive7 x 0 d -> forall rho, 0 < rho -> exists eps, 0 < eps /\ forall e, Rabs e < eps -> d7 (x e) (x 0) < rho.
Proof.
  intros D rho Hr. destruct (fin_min 7 (fun i r => forall e, Rabs e < r -> Rabs (comp7 (x e) i - comp7 (x 0) i) < rho / 8)) as [eps [Ep He]].
  - intros i k k' H L e Hs. apply H. lra.
  - intros i Hi. apply (cont_near (fun e => comp7 (x e) i) (comp7 d i)); [|lra]. apply (proj1 (comp7_derive _ _ _) D i Hi).
  - exists eps. split; [exact Ep|]. intros e Ee. assert (G : d7 (x e) (x 0) <= INR 7 * (rho / 8)).
    { unfold d7, l1. rewrite <- sum_const. apply sum_le. intros j Hj. left. apply He; assumption. }
    cbn [INR] in G. lra.
Qed.
Lemma near_map (U : nat -> R -> vec) : (forall i rho, 0 < rho -> exists eps, 0 < eps /\ forall e, Rabs e < eps -> d3 (U i e) (U i 0) < rho) ->
  forall l rho, 0 < rho -> exists eps, 0 < eps /\ forall e, Rabs e < eps -> near rho (map (fun i => U i 0) l) (map (fun i => U i e) l).
Proof.
  intros H l rho Hr. induction l as [|i l [e1 [E1 G1]]]; [exists 1; split; [lra|]; intros; constructor|].
  destruct (H i rho Hr) as [e2 [E2 G2]]. exists (Rmin e1 e2). split; [apply Rmin_glb_lt; assumption|]. intros e He. pose proof (Rmin_l e1 e2). pose proof (Rmin_r e1 e2).
  cbn [map]. constructor; [apply G2; lra|apply G1; lra].
Qed.
Lemma thr_near (th : R -> list R) d T i : derive_list th 0 d -> forall rho, 0 < rho -> exists eps, 0 < eps /\ forall e, Rabs e < eps -> d3 (vscal T (thr_vec (th e) i)) (vscal T (thr_vec (th 0) i)) < rho.
Proof.
  intros [_ D] rho Hr.
  assert (G : forall j, exists eps, 0 < eps /\ forall e, Rabs e < eps -> Rabs (T * nth j (th e) 0 - T * nth j (th 0) 0) < rho / 3).
  { intros j. apply (cont_near (fun e => T * nth j (th e) 0) (T * nth j d 0)); [|lra]. apply der_scal. apply D. }
  destruct (G (3 * i)%nat) as [e1 [P1 G1]]. destruct (G (3 * i + 1)%nat) as [e2 [P2 G2]]. destruct (G (3 * i + 2)%nat) as [e3 [P3 G3]].
  exists (Rmin e1 (Rmin e2 e3)). split; [repeat apply Rmin_glb_lt; assumption|]. intros e He.
  pose proof (Rmin_l e1 (Rmin e2 e3)). pose proof (Rmin_r e1 (Rmin e2 e3)). pose proof (Rmin_l e2 e3). pose proof (Rmin_r e2 e3).
  specialize (G1 e ltac:(lra)). specialize (G2 e ltac:(lra)). specialize (G3 e ltac:(lra)). unfold d3, vscal, thr_vec. cbn [vx vy vz]. lra.
Qed.
Lemma side_near (h : R -> R) (dh : R) (us : R -> list vec) (x : R -> col7) dx q : (forall rho, 0 < rho -> exists eps, 0 < eps /\ forall e, Rabs e < eps -> near rho (us 0) (us e)) ->
  is_derive h 0 dh -> derive7 x 0 dx -> List.Forall (fun u => u <> vzero) (us 0) -> legs (flight mu veff (h 0)) (us 0) (x 0) q ->
  exists (y : R -> col7) eps, 0 < eps /\ forall e, Rabs e < eps -> legs (flight mu veff (h e)) (us e) (x e) (y e).
Proof.
  intros HU DH DX Nz L. destruct (legs_near (h 0) (us 0) Nz (x 0) q L) as [Y HY]. destruct (HY 1 ltac:(lra)) as [rho [Rp G]].
  destruct (HU rho Rp) as [e1 [P1 G1]]. destruct (cont_near h dh DH rho Rp) as [e2 [P2 G2]]. destruct (d7_near x dx DX rho Rp) as [e3 [P3 G3]].
  exists (fun e => Y (us e) (h e) (x e)), (Rmin e1 (Rmin e2 e3)). split; [repeat apply Rmin_glb_lt; assumption|]. intros e He.
  pose proof (Rmin_l e1 (Rmin e2 e3)). pose proof (Rmin_r e1 (Rmin e2 e3)). pose proof (Rmin_l e2 e3). pose proof (Rmin_r e2 e3).
  apply G; [apply G1; lra|apply G2; lra|apply G3; lra].
Qed.
Lemma flown_near T n nf xs th xf (tof : R -> R) (dxs : col7) dth (dxf : col7) (dtof : R) y0 : T <> 0 -> (forall i, (i < n)%nat -> thr_vec (th 0) i <> vzero) ->
  derive7 xs 0 dxs -> derive_list th 0 dth -> derive7 xf 0 dxf -> is_derive tof 0 dtof ->
  flown mu veff T n nf (xs 0) (th 0) (xf 0) (tof 0) y0 ->
  exists (y : R -> col7) eps, 0 < eps /\ forall e, Rabs e < eps -> flown mu veff T n nf (xs e) (th e) (xf e) (tof e) (y e).
Proof.
  intros HT Nz D1 D2 D3 D4 [pf [pb [L1 [L2 _]]]].
  assert (DH : is_derive (fun e => tof e / INR n) 0 (dtof / INR n)).
  { apply (is_derive_ext (fun e => / INR n * tof e)); [intros e; exact (Rmult_comm _ _)|]. eapply der_to; [apply der_scal; exact D4|]. apply Rmult_comm. }
  assert (DH' : is_derive (fun e => - (tof e / INR n)) 0 (- (dtof / INR n))) by (apply der_opp; exact DH).
  assert (EU : forall e, map (vscal T) (throttles n (th e)) = map (fun i => vscal T (thr_vec (th e) i)) (seq 0 n)) by (intros; unfold throttles; rewrite map_map; reflexivity).
  assert (NZ : forall l, incl l (seq 0 n) -> List.Forall (fun u => u <> vzero) (map (fun i => vscal T (thr_vec (th 0) i)) l)).
  { intros l Hl. apply List.Forall_forall. intros u Hu. apply in_map_iff in Hu. destruct Hu as [i [<- Hi]]. apply Hl, in_seq in Hi. intros Z. apply (Nz i ltac:(lia)).
    unfold vscal, vzero in Z. destruct (thr_vec (th 0) i) as [a b c]. cbn [vx vy vz] in Z. injection Z as Z1 Z2 Z3.
    apply Rmult_integral in Z1. apply Rmult_integral in Z2. apply Rmult_integral in Z3. destruct Z1 as [?|Z1]; [contradiction|]. destruct Z2 as [?|Z2]; [contradiction|]. destruct Z3 as [?|Z3]; [contradiction|]. subst. reflexivity. }
  assert (EF : forall e, firstn nf (map (vscal T) (throttles n (th e))) = map (fun i => vscal T (thr_vec (th e) i)) (firstn nf (seq 0 n))) by (intros; rewrite EU; apply firstn_map).
  assert (EB : forall e, rev (skipn nf (map (vscal T) (throttles n (th e)))) = map (fun i => vscal T (thr_vec (th e) i)) (rev (skipn nf (seq 0 n)))) by (intros; rewrite EU, skipn_map, map_rev; reflexivity).
  rewrite EF in L1. rewrite EB in L2.
  destruct (side_near (fun e => tof e / INR n) (dtof / INR n) (fun e => map (fun i => vscal T (thr_vec (th e) i)) (firstn nf (seq 0 n))) xs dxs pf) as [y1 [e1 [P1 G1]]]; try assumption.
  { intros rho Hr. apply (near_map (fun i e => vscal T (thr_vec (th e) i))); [|exact Hr]. intros i. apply (thr_near th dth). exact D2. }
  { apply NZ. intros i Hi. rewrite <- (firstn_skipn nf (seq 0 n)). apply in_or_app. left. exact Hi. }
  destruct (side_near (fun e => - (tof e / INR n)) (- (dtof / INR n)) (fun e => map (fun i => vscal T (thr_vec (th e) i)) (rev (skipn nf (seq 0 n)))) xf dxf pb) as [y2 [e2 [P2 G2]]]; try assumption.
  { intros rho Hr. apply (near_map (fun i e => vscal T (thr_vec (th e) i))); [|exact Hr]. intros i. apply (thr_near th dth). exact D2. }
  { apply NZ. intros i Hi. rewrite <- (firstn_skipn nf (seq 0 n)). apply in_or_app. right. apply in_rev. exact Hi. }
  exists (fun e => minus7 (y1 e) (y2 e)), (Rmin e1 e2). split; [apply Rmin_glb_lt; assumption|]. intros e He. pose proof (Rmin_l e1 e2). pose proof (Rmin_r e1 e2).
  unfold flown. cbv zeta. rewrite EF, EB. exists (y1 e), (y2 e). split; [apply G1; lra|]. split; [apply G2; lra|reflexivity].
Qed.
End Legs.
