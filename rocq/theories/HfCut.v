(** * The high-fidelity leg: flights are unique and reversible, so that a leg without mismatch is one flight, whatever the cut *)
From Coq Require Import Reals Lra Lia List ZArith.
From Coquelicot Require Import Coquelicot.
From Verif Require Import RealLib Vec3 TwoBodySpec DynSpec DynModel DynProofs SfModel SfSpec SfGrad OdeLib OdeSd HfGradModel HfGradSpec HfGradFlow Outcome HfGradMis HfGradExample.
Import ListNotations.
Open Scope R_scope.

Section Unique.
Variables (mu veff : R) (u : vec) (h : R).
Definition Ft (i : nat) (z : nvec) : R := h * comp7 (thrust_field mu veff u (z_state z)) i.
Lemma sd_ft z i : (i < 7)%nat -> off_centre (z_state z) -> exists a, sd 7 (Ft i) z a.
Proof.
  intros Hi [O1 O2].
  assert (W : exists w, sd 7 (fun z => norm (V (z 0%nat) (z 1%nat) (z 2%nat))) z w).
  { destruct (sd_norm 7 z 0 1 2) as [w [W1 _]]; try lia; [exact O1|]. exists w. exact W1. }
  destruct W as [w W].
  assert (G : forall c d, (c < 3)%nat -> exists a, sd 7 (fun z => h * ((- mu) * / (norm (V (z 0%nat) (z 1%nat) (z 2%nat)) ^ 3) * z c + / z 6%nat * d)) z a).
  { intros c d Hc. eexists. apply (sd_comp 7 (fun y => h * y) (fun z => (- mu) * / (norm (V (z 0%nat) (z 1%nat) (z 2%nat)) ^ 3) * z c + / z 6%nat * d) z); [apply sd1_scal|].
    apply sd_plus; [apply sd_mult; [|apply sd_proj; lia]|apply sd_mult; [|apply sd_const]].
    - apply (sd_comp 7 (fun y => (- mu) * y) (fun z => / (norm (V (z 0%nat) (z 1%nat) (z 2%nat)) ^ 3)) z); [apply sd1_scal|].
      apply (sd_comp 7 Rinv (fun z => norm (V (z 0%nat) (z 1%nat) (z 2%nat)) ^ 3) z); [apply sd1_inv; apply pow_nonzero; apply Rgt_not_eq; apply norm_pos; exact O1|].
      cbn [pow]. apply sd_mult; [exact W|]. apply sd_mult; [exact W|]. apply sd_mult; [exact W|]. apply sd_const.
    - apply (sd_comp 7 Rinv (fun z => z 6%nat) z); [apply sd1_inv; exact O2|apply sd_proj; lia]. }
  assert (P : forall c, (c < 7)%nat -> exists a, sd 7 (fun z => h * z c) z a).
  { intros c Hc. eexists. apply (sd_comp 7 (fun y => h * y) (fun z => z c) z); [apply sd1_scal|apply sd_proj; lia]. }
  assert (E : forall c d i, (c < 3)%nat -> (forall z, Ft i z = h * ((- mu) * / (norm (V (z 0%nat) (z 1%nat) (z 2%nat)) ^ 3) * z c + / z 6%nat * d)) -> exists a, sd 7 (Ft i) z a).
  { intros c d k Hc Ek. destruct (G c d Hc) as [a A]. exists a. eapply sd_ext; [intros; symmetry; apply Ek|reflexivity|exact A]. }
  idx7 i Hi.
  - apply (P 3%nat). lia.
  - apply (P 4%nat). lia.
  - apply (P 5%nat). lia.
  - apply (E 0%nat (vx u)); [lia|]. intros; unfold Ft, comp7, thrust_field, gravity, z_state; cbn; unfold Rdiv; ring.
  - apply (E 1%nat (vy u)); [lia|]. intros; unfold Ft, comp7, thrust_field, gravity, z_state; cbn; unfold Rdiv; ring.
  - apply (E 2%nat (vz u)); [lia|]. intros; unfold Ft, comp7, thrust_field, gravity, z_state; cbn; unfold Rdiv; ring.
  - exists (fun _ => 0). exact (sd_const 7 (h * (- norm u / veff)) z).
Qed.
Lemma z_comp x : z_state (comp7 x) = x.
Proof. destruct x as [[[x1 x2 x3] [x4 x5 x6]] x7]. reflexivity. Qed.
Lemma arc_sol q : arc (thrust_field mu veff u) h q -> solution 7 Ft (fun t => comp7 (q (h * t))).
Proof.
  intros A t i Ht Hi. destruct (A (h * t) (between_scaled h t Ht)) as [_ D]. unfold Ft. rewrite z_comp.
  apply (proj1 (comp7_derive _ _ _)) with (i := i) in D; [|exact Hi].
  eapply der_to; [eapply (der_comp (fun x => comp7 (q x) i) (fun x => h * x)); [exact D|apply der_scal, der_id]|]. ring.
Qed.
Lemma coefs q : arc (thrust_field mu veff u) h q -> exists D : R -> nat -> nat -> R, forall t i, 0 <= t <= 1 -> (i < 7)%nat -> sd 7 (Ft i) (comp7 (q (h * t))) (D t i).
Proof.
  intros A.
  assert (P : forall t i, 0 <= t <= 1 -> (i < 7)%nat -> sd 7 (Ft i) (comp7 (q (h * t))) (fun j => Derive (fun s => Ft i (bump (comp7 (q (h * t))) j s)) 0)).
  { intros t i Ht Hi. destruct (A (h * t) (between_scaled h t Ht)) as [O _].
    destruct (sd_ft (comp7 (q (h * t))) i Hi) as [a Ha]; [rewrite z_comp; exact O|].
    eapply sd_ext; [reflexivity| |exact Ha]. intros j Hj. symmetry. apply is_derive_unique. apply (sd_partial 7 (Ft i) _ a j Ha Hj). }
  eexists (fun t i j => _). exact P.
Qed.
End Unique.
Lemma flight_unique mu veff h u p q1 q2 : flight mu veff h u p q1 -> flight mu veff h u p q2 -> q1 = q2.
Proof.
  intros [x [A [X0 X1]]] [y [B [Y0 Y1]]]. destruct (coefs mu veff u h x A) as [D HD].
  destruct (stay 7 (Ft mu veff u h) (fun t => comp7 (x (h * t))) D (arc_sol _ _ _ _ x A) HD) as [rho [C [Rp [Cp S]]]].
  assert (Z : forall i : nat, sub (comp7 (y (h * 0))) (comp7 (x (h * 0))) i = 0).
  { intros i. unfold sub. rewrite Rmult_0_r, X0, Y0. apply Rminus_diag_eq. reflexivity. }
  assert (L : l1 7 (sub (comp7 (y (h * 0))) (comp7 (x (h * 0)))) = 0). { unfold l1. cbn [sum_n]. rewrite !Z, Rabs_R0. ring. }
  assert (Q : sq 7 (sub (comp7 (y (h * 0))) (comp7 (x (h * 0)))) = 0). { unfold sq. cbn [sum_n]. rewrite !Z. ring. }
  specialize (S (fun t => comp7 (y (h * t))) (arc_sol _ _ _ _ y B)). cbv beta in S. rewrite L in S. specialize (S Rp 1 ltac:(lra)). rewrite Q, Rmult_0_r, !Rmult_1_r, X1, Y1 in S.
  assert (E : l1 7 (sub (comp7 q2) (comp7 q1)) = 0).
  { pose proof (l1_sq 7 (sub (comp7 q2) (comp7 q1))) as K. pose proof (l1_nonneg 7 (sub (comp7 q2) (comp7 q1))). pose proof (pos_INR 7). nra. }
  apply comp7_ext. intros i Hi. pose proof (l1_ge 7 (sub (comp7 q2) (comp7 q1)) i Hi) as G. rewrite E in G. unfold sub in G.
  pose proof (Rabs_pos (comp7 q2 i - comp7 q1 i)). assert (comp7 q2 i - comp7 q1 i = 0); [|lra].
  destruct (Req_dec (comp7 q2 i - comp7 q1 i) 0) as [e|n]; [exact e|]. apply Rabs_pos_lt in n. lra.
Qed.
Lemma flight_reverse mu veff h u p q : flight mu veff h u p q -> flight mu veff (- h) u q p.
Proof.
  intros [x [A [X0 X1]]]. exists (fun t => x (h + t)). split; [|split; [rewrite Rplus_0_r; exact X1|rewrite Rplus_opp_r; exact X0]].
  intros t Ht. destruct (A (h + t)) as [O D].
  { unfold between in *. unfold Rmin, Rmax in *. repeat destruct (Rle_dec _ _); lra. }
  split; [exact O|]. apply comp7_derive. intros i Hi. apply (proj1 (comp7_derive _ _ _)) with (i := i) in D; [|exact Hi].
  eapply der_to; [eapply (der_comp (fun x0 => comp7 (x x0) i) (fun x => h + x)); [exact D|apply der_plus; [apply der_const|apply der_id]]|]. ring.
Qed.
Lemma flight_reversed mu veff h u p q : flight mu veff (- h) u p q <-> flight mu veff h u q p.
Proof. split; intros H; apply flight_reverse in H; [rewrite Ropp_involutive in H|]; exact H. Qed.
Lemma legs_cat seg us vs p q : legs seg (us ++ vs) p q <-> exists z, legs seg us p z /\ legs seg vs z q.
Proof.
  revert p. induction us as [|u us IH]; intros p; cbn.
  - split; [intros H; exists p; split; [reflexivity|exact H]|intros [z [-> H]]; exact H].
  - split.
    + intros [w [S H]]. apply IH in H. destruct H as [z [H1 H2]]. exists z. split; [exists w; split; assumption|exact H2].
    + intros [z [[w [S H1]] H2]]. exists w. split; [exact S|]. apply IH. exists z. split; assumption.
Qed.
Lemma legs_back mu veff h us p q : legs (flight mu veff (- h)) (rev us) q p <-> legs (flight mu veff h) us p q.
Proof.
  revert p q. induction us as [|u us IH]; intros p q; cbn [rev legs]; [split; intros; congruence|]. rewrite legs_cat. split.
  - intros [z [H1 H2]]. cbn in H2. destruct H2 as [w [S ->]]. exists z. split; [apply flight_reversed; exact S|apply IH; exact H1].
  - intros [z [S H]]. exists z. split; [apply IH; exact H|]. cbn. exists p. split; [apply flight_reversed; exact S|reflexivity].
Qed.
Lemma legs_unique mu veff h us p q1 q2 : legs (flight mu veff h) us p q1 -> legs (flight mu veff h) us p q2 -> q1 = q2.
Proof.
  revert p. induction us as [|u us IH]; intros p; cbn; [congruence|]. intros [z1 [S1 H1]] [z2 [S2 H2]]. rewrite (flight_unique _ _ _ _ _ _ _ S1 S2) in H1. exact (IH _ H1 H2).
Qed.
Lemma minus7_zero a b : minus7 a b = ((vzero, vzero), 0) <-> a = b.
Proof.
  destruct a as [[[a1 a2 a3] [a4 a5 a6]] a7], b as [[[b1 b2 b3] [b4 b5 b6]] b7]. unfold minus7, vzero. cbn. split.
  - intros E. injection E. intros. repeat f_equal; lra.
  - intros E. injection E. intros. subst. unfold vsub; cbn; repeat f_equal; ring.
Qed.
Lemma flown_zero mu veff T n nf xs th xf tof : flown mu veff T n nf xs th xf tof ((vzero, vzero), 0) <-> uninterrupted mu veff T n xs th xf tof.
Proof.
  unfold flown, uninterrupted. cbv zeta. set (us := map (vscal T) (throttles n th)). set (h := tof / INR n). split.
  - intros [pf [pb [F [B E]]]]. symmetry in E. apply (proj1 (minus7_zero _ _)) in E. subst pb. apply (proj1 (legs_back _ _ _ _ _ _)) in B.
    rewrite <- (firstn_skipn nf us). apply legs_cat. exists pf. split; assumption.
  - intros H. rewrite <- (firstn_skipn nf us) in H. apply legs_cat in H. destruct H as [z [F B]]. exists z, z. split; [exact F|]. split; [apply (proj2 (legs_back _ _ _ _ _ _)); exact B|].
    symmetry. apply (proj2 (minus7_zero _ _)). reflexivity.
Qed.
Lemma flown_unique mu veff T n nf xs th xf tof y1 y2 : flown mu veff T n nf xs th xf tof y1 -> flown mu veff T n nf xs th xf tof y2 -> y1 = y2.
Proof.
  intros [f1 [b1 [F1 [B1 ->]]]] [f2 [b2 [F2 [B2 ->]]]]. rewrite (legs_unique _ _ _ _ _ _ _ F1 F2), (legs_unique _ _ _ _ _ _ _ B1 B2). reflexivity.
Qed.

Lemma col_zero y : length y = 7%nat -> (col_of y = ((vzero, vzero), 0) <-> y = repeat 0 7).
Proof.
  intros L. do 7 (destruct y as [|? y]; [discriminate L|]). destruct y; [|discriminate L]. unfold col_of, vzero. cbn. split; intros E; injection E; intros; subst; reflexivity.
Qed.
(** the computed mismatch vanishes exactly when the leg is one uninterrupted flight *)
Lemma mismatch_zero tas l y : tas_exact tas -> proper_hf l -> compute_mismatch_hf tas l = Ret y ->
  (y = repeat 0 7 <-> uninterrupted (g_mu l) (g_isp l * G0) (g_T l) (Z.to_nat (g_nseg l)) (col_of (g_rvms l)) (g_thr l) (col_of (g_rvmf l)) (g_tof l)).
Proof.
  intros HT Hl E. pose proof (mismatch_hf_safe tas l Hl (tas_exact_sized _ HT)) as S. rewrite E in S. pose proof (mismatch_hf_flown tas l Hl (tas_exact_sized _ HT) y HT E) as F.
  rewrite <- (col_zero y S). rewrite <- (flown_zero _ _ _ _ (Z.to_nat (g_fwd l))). split.
  - intros Z. rewrite Z in F. exact F.
  - intros Z. exact (flown_unique _ _ _ _ _ _ _ _ _ _ _ F Z).
Qed.
Lemma mismatch_cut tas l l' y y' : tas_exact tas -> proper_hf l -> proper_hf l' -> same_but_cut l l' ->
  compute_mismatch_hf tas l = Ret y -> compute_mismatch_hf tas l' = Ret y' -> (y = repeat 0 7 <-> y' = repeat 0 7).
Proof.
  intros HT H H' [S1 [S2 [S3 [S4 [S5 [S6 [S7 S8]]]]]]] E E'. rewrite (mismatch_zero tas l y HT H E), (mismatch_zero tas l' y' HT H' E'). rewrite S1, S2, S3, S4, S5, S6, S7, S8. reflexivity.
Qed.
(** a burn in empty space *)
Lemma ramp_uninterrupted : uninterrupted 0 1 2 1 ((V 1 1 0, V 0 0 0), 2) [1 / 2; 0; 0] (ramp 1 1) 1.
Proof.
  unfold uninterrupted. cbn. exists (ramp 1 1). split; [|reflexivity].
  replace (vscal 2 (thr_vec [1 / 2; 0; 0] 0)) with (V 1 0 0) by (apply vec_eq; cbn; field). replace (1 / 1) with 1 by field.
  exists (ramp 1). split; [apply ramp_arc; lra|]. split; [apply ramp_0|reflexivity].
Qed.
