(** * Ordinary differential equations: next to a solution there are solutions
    Picard's iteration, around a solution over [0, 1] near which the field is Lipschitz.  The solutions are given by a function
    of the initial value. *)
From Coq Require Import Reals Lra Lia List.
From Coquelicot Require Import Coquelicot.
From Verif Require Import RealLib Vec3 SfSpec SfGrad OdeLib.
Open Scope R_scope.

Definition clamp (s : R) : R := Rmax 0 (Rmin s 1).
Lemma clamp_in s : 0 <= clamp s <= 1.
Proof. unfold clamp. split; [apply Rmax_l|]. apply Rmax_lub; [lra|apply Rmin_r]. Qed.
Lemma clamp_id s : 0 <= s <= 1 -> clamp s = s.
Proof. intros H. unfold clamp. rewrite Rmin_left, Rmax_right; lra. Qed.
Lemma clamp_lip s t : Rabs (clamp s - clamp t) <= Rabs (s - t).
Proof. unfold clamp, Rmax, Rmin. destruct (Rle_dec s 1), (Rle_dec t 1); repeat match goal with |- context [Rle_dec ?a ?b] => destruct (Rle_dec a b) end; apply Rabs_le; pose proof (Rle_abs (s - t)); pose proof (Rle_abs (-(s - t))) as Q; rewrite Rabs_Ropp in Q; lra. Qed.

Lemma der_RInt (f : R -> R) : (forall x, continuous f x) -> forall t, is_derive (fun t => RInt f 0 t) t (f t).
Proof.
  intros C t. apply (is_derive_RInt f (fun t => RInt f 0 t) 0 t); [|apply C].
  apply filter_forall. intros x. apply (@RInt_correct R_CompleteNormedModule). apply (@ex_RInt_continuous R_CompleteNormedModule). intros; apply C.
Qed.
Lemma RInt_0 (f : R -> R) : RInt f 0 0 = 0.
Proof. exact (RInt_point 0 f). Qed.
(** a function grows no more than its derivative allows *)
Lemma grows (F f P p : R -> R) (t : R) : 0 <= t -> (forall s, 0 <= s <= t -> is_derive F s (f s)) -> (forall s, 0 <= s <= t -> is_derive P s (p s)) ->
  (forall s, 0 <= s <= t -> Rabs (f s) <= p s) -> Rabs (F t - F 0) <= P t - P 0.
Proof.
  intros Ht DF DP B. destruct (Req_dec t 0) as [->|N]; [rewrite !Rminus_diag_eq, Rabs_R0 by reflexivity; lra|].
  apply Rabs_le. split.
  - destruct (MVT_cor2 (fun s => P s + F s) (fun s => p s + f s) 0 t ltac:(lra)) as [x [E Hx]]; [intros; apply is_derive_Reals, der_plus; [apply DP|apply DF]; lra|].
    cbv beta in E. pose proof (B x ltac:(lra)) as Q. apply Rabs_le_between in Q. nra.
  - destruct (MVT_cor2 (fun s => P s - F s) (fun s => p s - f s) 0 t ltac:(lra)) as [x [E Hx]]; [intros; apply is_derive_Reals, der_minus; [apply DP|apply DF]; lra|].
    cbv beta in E. pose proof (B x ltac:(lra)) as Q. apply Rabs_le_between in Q. nra.
Qed.
Lemma cont_of (f : R -> R) (x : R) : (forall eps, 0 < eps -> exists d, 0 < d /\ forall y, Rabs (y - x) < d -> Rabs (f y - f x) < eps) -> continuous f x.
Proof.
  intros H. apply continuity_pt_filterlim. intros eps He. destruct (H eps He) as [d [Dp Hd]]. exists d. split; [exact Dp|]. intros y [_ Hy]. apply Hd. exact Hy.
Qed.
Lemma cont_eps (f : R -> R) (x : R) : continuous f x -> forall eps, 0 < eps -> exists d, 0 < d /\ forall y, Rabs (y - x) < d -> Rabs (f y - f x) < eps.
Proof.
  intros C eps He. apply continuity_pt_filterlim in C. destruct (C eps He) as [d [Dp Hd]]. exists d. split; [exact Dp|]. intros y Hy.
  destruct (Req_dec y x) as [->|N]; [rewrite Rminus_diag_eq, Rabs_R0 by reflexivity; exact He|]. apply Hd. split; [split; [exact I|auto]|exact Hy].
Qed.
(** all components continuous *)
Definition ccont (n : nat) (w : R -> nvec) : Prop := forall t eps, 0 < eps -> exists d, 0 < d /\ forall s, Rabs (s - t) < d -> l1 n (sub (w s) (w t)) < eps.
Lemma ccont_comp n w : (forall j t, (j < n)%nat -> continuous (fun x => w x j) t) -> ccont n w.
Proof.
  intros H t. induction n as [|n IH]; intros eps He; [exists 1; split; [lra|]; intros; unfold l1; cbn; lra|].
  destruct (IH (fun j t L => H j t (Nat.lt_trans _ _ _ L (Nat.lt_succ_diag_r n))) (eps / 2) ltac:(lra)) as [d1 [D1 H1]].
  destruct (cont_eps _ _ (H n t ltac:(lia)) (eps / 2) ltac:(lra)) as [d2 [D2 H2]].
  exists (Rmin d1 d2). split; [apply Rmin_glb_lt; assumption|]. intros s Hs. pose proof (Rmin_l d1 d2). pose proof (Rmin_r d1 d2).
  specialize (H1 s ltac:(lra)). specialize (H2 s ltac:(lra)). unfold l1 in *. cbn [sum_n]. unfold sub at 2. cbv beta in H2. lra.
Qed.
Lemma ccont_clamp n w : ccont n w -> ccont n (fun s => w (clamp s)).
Proof. intros H t eps He. destruct (H (clamp t) eps He) as [d [Dp Hd]]. exists d. split; [exact Dp|]. intros s Hs. apply Hd. eapply Rle_lt_trans; [apply clamp_lip|exact Hs]. Qed.

Definition add (a b : nvec) : nvec := fun j => a j + b j.
Lemma l1_add_sub n a b c d : l1 n (sub (add a b) (add c d)) <= l1 n (sub a c) + l1 n (sub b d).
Proof. unfold l1. rewrite <- sum_plus. apply sum_le. intros j _. unfold sub, add. replace (a j + b j - (c j + d j)) with ((a j - c j) + (b j - d j)) by ring. apply Rabs_triang. Qed.
Lemma l1_add_l n a b : l1 n (sub (add a b) a) = l1 n b.
Proof. apply l1_ext. intros j _. unfold sub, add. ring. Qed.
Lemma l1_le_sub n v w : l1 n v <= l1 n w + l1 n (sub v w).
Proof. unfold l1. rewrite <- sum_plus. apply sum_le. intros j _. unfold sub. replace (v j) with (w j + (v j - w j)) at 1 by ring. apply Rabs_triang. Qed.
Lemma l1_bound n v (c : R) : (forall j, (j < n)%nat -> Rabs (v j) <= c) -> l1 n v <= INR n * c.
Proof. intros H. rewrite <- sum_const. apply sum_le. exact H. Qed.

Section Picard.
Variable n : nat.
Variable g : nat -> nvec -> R.
Variable Z0 : R -> nvec.
Hypothesis HZ : solution n g Z0.
Variables L r : R.
Hypothesis HL : 0 <= L.
Hypothesis Hr : 0 < r.
Hypothesis Lip : forall i, (i < n)%nat -> forall t w1 w2, 0 <= t <= 1 -> l1 n (sub w1 (Z0 t)) < r -> l1 n (sub w2 (Z0 t)) < r -> Rabs (g i w1 - g i w2) <= L * l1 n (sub w1 w2).
Definition M := INR n * L + 1.
Lemma M_pos : 1 <= M. Proof. unfold M. pose proof (pos_INR n). nra. Qed.
Definition y (s : R) : nvec := Z0 (clamp s).
Definition field (w : R -> nvec) (i : nat) (s : R) : R := g i (add (y s) (w (clamp s))) - g i (y s).
Definition step (dl : nvec) (w : R -> nvec) (t : R) : nvec := fun i => dl i + RInt (field w i) 0 t.
Fixpoint iter (dl : nvec) (k : nat) : R -> nvec := match k with O => fun _ => dl | S k' => step dl (iter dl k') end.
Definition limit (dl : nvec) (t : R) : nvec := fun i => real (Lim_seq (fun k => iter dl k (clamp t) i)).
(** the solution from Z0 0 + dl *)
Definition picard (dl : nvec) (t : R) : nvec := add (Z0 t) (step dl (limit dl) t).

Lemma y_cont : ccont n y.
Proof.
  intros t eps He. destruct (Z0_cont n g Z0 HZ (clamp t) (clamp_in t) eps He) as [d [Dp Hd]]. exists d. split; [exact Dp|]. intros s Hs. apply Hd. eapply Rle_lt_trans; [apply clamp_lip|exact Hs].
Qed.
Definition small (w : R -> nvec) : Prop := forall t, 0 <= t <= 1 -> l1 n (w t) < r.
Definition ccont01 (w : R -> nvec) : Prop := ccont n (fun s => w (clamp s)).
Lemma field_cont w i : (i < n)%nat -> ccont01 w -> small w -> forall t, continuous (field w i) t.
Proof.
  intros Hi C S t. apply cont_of. intros eps He.
  pose proof (S (clamp t) (clamp_in t)) as St. set (rho := r - l1 n (w (clamp t))) in *.
  set (m := Rmin (rho / 3) (eps / (4 * (L + 1)))).
  assert (Rp : 0 < rho) by (unfold rho; lra). assert (Mp : 0 < m) by (apply Rmin_glb_lt; [lra|apply Rdiv_lt_0_compat; nra]).
  assert (M1 : m <= rho / 3) by apply Rmin_l.
  assert (M2 : L * m <= eps / 4).
  { apply Rle_trans with ((L + 1) * m); [nra|]. apply Rle_trans with ((L + 1) * (eps / (4 * (L + 1)))); [apply Rmult_le_compat_l; [lra|apply Rmin_r]|]. right. field. lra. }
  destruct (y_cont t m Mp) as [d1 [D1 H1]]. destruct (C t m Mp) as [d2 [D2 H2]].
  exists (Rmin d1 d2). split; [apply Rmin_glb_lt; assumption|]. intros s Hs. pose proof (Rmin_l d1 d2). pose proof (Rmin_r d1 d2).
  specialize (H1 s ltac:(lra)). specialize (H2 s ltac:(lra)). cbv beta in H2. unfold field.
  set (a := add (y s) (w (clamp s))). set (b := add (y t) (w (clamp t))).
  assert (Q : l1 n (sub a b) <= l1 n (sub (y s) (y t)) + l1 n (sub (w (clamp s)) (w (clamp t)))) by apply l1_add_sub.
  assert (Qb : l1 n (sub b (y t)) = l1 n (w (clamp t))) by apply l1_add_l.
  assert (Qa : l1 n (sub a (y t)) < r). { eapply Rle_lt_trans; [apply (l1_triang n _ b)|]. unfold rho in *. lra. }
  pose proof (l1_nonneg n (w (clamp t))) as N0.
  assert (Qy : l1 n (sub (y s) (y t)) < r) by (unfold rho in *; lra).
  assert (Qb2 : l1 n (sub b (y t)) < r) by (rewrite Qb; exact St).
  assert (Q0 : l1 n (sub (y t) (y t)) < r) by (rewrite l1_zero; exact Hr).
  assert (B1 := Lip i Hi (clamp t) a b (clamp_in t) Qa Qb2).
  assert (B2 := Lip i Hi (clamp t) (y s) (y t) (clamp_in t) Qy Q0).
  replace (g i a - g i (y s) - (g i b - g i (y t))) with ((g i a - g i b) - (g i (y s) - g i (y t))) by ring.
  eapply Rle_lt_trans; [apply Rabs_triang|]. rewrite Rabs_Ropp.
  assert (L * l1 n (sub a b) <= L * (2 * m)) by (apply Rmult_le_compat_l; lra). assert (L * l1 n (sub (y s) (y t)) <= L * m) by (apply Rmult_le_compat_l; lra). lra.
Qed.
Lemma field_bound w i s : (i < n)%nat -> small w -> Rabs (field w i s) <= L * l1 n (w (clamp s)).
Proof.
  intros Hi S. unfold field. eapply Rle_trans; [apply (Lip i Hi (clamp s) _ _ (clamp_in s))|].
  - fold (y s). rewrite l1_add_l. apply S, clamp_in.
  - fold (y s). rewrite l1_zero. exact Hr.
  - rewrite l1_add_l. lra.
Qed.
Lemma field_lip w v i s : (i < n)%nat -> small w -> small v -> Rabs (field w i s - field v i s) <= L * l1 n (sub (w (clamp s)) (v (clamp s))).
Proof.
  intros Hi S1 S2. unfold field. match goal with |- Rabs ?x <= _ => replace x with (g i (add (y s) (w (clamp s))) - g i (add (y s) (v (clamp s)))) by ring end.
  eapply Rle_trans; [apply (Lip i Hi (clamp s) _ _ (clamp_in s)); fold (y s); rewrite l1_add_l; [apply S1|apply S2]; apply clamp_in|].
  apply Rmult_le_compat_l; [exact HL|]. eapply Rle_trans; [apply l1_add_sub|]. rewrite l1_zero. lra.
Qed.
Lemma step_der dl w i t : (i < n)%nat -> ccont01 w -> small w -> is_derive (fun x => step dl w x i) t (field w i t).
Proof. intros Hi C S. unfold step. eapply der_to; [apply der_plus; [apply der_const|apply der_RInt; intros; apply field_cont; assumption]|]. ring. Qed.
Lemma step_0 dl w i : step dl w 0 i = dl i.
Proof. unfold step. rewrite RInt_0. ring. Qed.
Lemma step_cont dl w : ccont01 w -> small w -> ccont01 (step dl w).
Proof. intros C S. apply ccont_clamp. apply ccont_comp. intros j t Hj. apply (@ex_derive_continuous R_AbsRing R_NormedModule). exists (field w j t). apply step_der; assumption. Qed.

(** two fields that are close have integrals that are close *)
Lemma step_grow dl w v P p t : 0 <= t <= 1 -> ccont01 w -> small w -> ccont01 v -> small v -> (forall s, 0 <= s <= t -> is_derive P s (p s)) ->
  (forall s, 0 <= s <= t -> l1 n (sub (w s) (v s)) <= p s) -> l1 n (sub (step dl w t) (step dl v t)) <= INR n * L * (P t - P 0).
Proof.
  intros Ht Cw Sw Cv Sv DP B. rewrite Rmult_assoc. apply l1_bound. intros i Hi.
  assert (Q := grows (fun x => step dl w x i - step dl v x i) (fun x => field w i x - field v i x) (fun x => L * P x) (fun x => L * p x) t ltac:(lra)).
  cbv beta in Q. rewrite !step_0 in Q. unfold sub. replace (step dl w t i - step dl v t i) with (step dl w t i - step dl v t i - (dl i - dl i)) by ring.
  replace (L * (P t - P 0)) with (L * P t - L * P 0) by ring. apply Q.
  - intros s Hs. apply der_minus; apply step_der; assumption.
  - intros s Hs. apply der_scal. apply DP. exact Hs.
  - intros s Hs. eapply Rle_trans; [apply field_lip; assumption|]. rewrite clamp_id by lra. apply Rmult_le_compat_l; [exact HL|]. apply B. exact Hs.
Qed.
Lemma step_size dl w P p t : 0 <= t <= 1 -> ccont01 w -> small w -> (forall s, 0 <= s <= t -> is_derive P s (p s)) ->
  (forall s, 0 <= s <= t -> l1 n (w s) <= p s) -> l1 n (sub (step dl w t) dl) <= INR n * L * (P t - P 0).
Proof.
  intros Ht Cw Sw DP B. rewrite Rmult_assoc. apply l1_bound. intros i Hi.
  assert (Q := grows (fun x => step dl w x i) (fun x => field w i x) (fun x => L * P x) (fun x => L * p x) t ltac:(lra)).
  cbv beta in Q. rewrite step_0 in Q. unfold sub. replace (L * (P t - P 0)) with (L * P t - L * P 0) by ring. apply Q.
  - intros s Hs. apply step_der; assumption.
  - intros s Hs. apply der_scal. apply DP. exact Hs.
  - intros s Hs. eapply Rle_trans; [apply field_bound; assumption|]. rewrite clamp_id by lra. apply Rmult_le_compat_l; [exact HL|]. apply B. exact Hs.
Qed.
Lemma exp_prim (k c s : R) : k <> 0 -> is_derive (fun x => c * exp (k * x) / k) s (c * exp (k * s)).
Proof.
  intros K. eapply is_derive_ext with (f := fun x => c / k * exp (k * x)); [intros t; change (c / k * exp (k * t) = c * exp (k * t) / k); field; exact K|].
  eapply der_to; [apply der_scal; eapply (der_comp exp (fun x => k * x)); [apply is_derive_exp|apply der_scal, der_id]|]. field. exact K.
Qed.
Lemma exp_ge1 (x : R) : 0 <= x -> 1 <= exp x.
Proof. intros H. rewrite <- exp_0. destruct H as [H| <-]; [left; apply exp_increasing; exact H|right; reflexivity]. Qed.
Lemma exp_mono (a b : R) : a <= b -> exp a <= exp b.
Proof. intros [H| ->]; [left; apply exp_increasing; exact H|right; reflexivity]. Qed.

Section Start.
Variable dl : nvec.
Let a := l1 n dl.
Hypothesis Ha : a * exp M < r.
Lemma a_pos : 0 <= a. Proof. apply l1_nonneg. Qed.

Lemma bounded_small w : (forall t, 0 <= t <= 1 -> l1 n (w t) <= a * exp (M * t)) -> small w.
Proof.
  intros B t Ht. eapply Rle_lt_trans; [apply B; exact Ht|]. eapply Rle_lt_trans; [|exact Ha]. apply Rmult_le_compat_l; [apply a_pos|]. apply exp_mono. pose proof M_pos. nra.
Qed.
Lemma step_bounded w : ccont01 w -> (forall t, 0 <= t <= 1 -> l1 n (w t) <= a * exp (M * t)) -> forall t, 0 <= t <= 1 -> l1 n (step dl w t) <= a * exp (M * t).
Proof.
  intros C B t Ht. pose proof M_pos as MP. pose proof a_pos as AP. eapply Rle_trans; [apply (l1_le_sub n _ dl)|]. fold a.
  assert (Q := step_size dl w (fun x => a * exp (M * x) / M) (fun x => a * exp (M * x)) t Ht C (bounded_small w B)).
  cbv beta in Q. rewrite Rmult_0_r, exp_0 in Q. pose proof (exp_ge1 (M * t) ltac:(nra)) as E.
  assert (Q2 : l1 n (sub (step dl w t) dl) <= INR n * L * (a * exp (M * t) / M - a * 1 / M)) by (apply Q; [intros; apply exp_prim; lra|intros s Hs; apply B; lra]).
  eapply Rle_trans; [apply Rplus_le_compat_l; exact Q2|].
  assert (N : INR n * L <= M) by (unfold M; lra).
  assert (X : INR n * L * (a * exp (M * t) / M - a * 1 / M) <= M * (a * exp (M * t) / M - a * 1 / M)).
  { apply Rmult_le_compat_r; [|exact N]. replace (a * exp (M * t) / M - a * 1 / M) with (a * (exp (M * t) - 1) * / M) by (field; lra). apply Rmult_le_pos; [nra|]. left. apply Rinv_0_lt_compat. lra. }
  eapply Rle_trans; [apply Rplus_le_compat_l; exact X|]. right. field. lra.
Qed.
Lemma iter_ok k : ccont01 (iter dl k) /\ forall t, 0 <= t <= 1 -> l1 n (iter dl k t) <= a * exp (M * t).
Proof.
  induction k as [|k [C B]].
  - split; [intros t eps He; exists 1; split; [lra|]; intros; cbn [iter]; rewrite l1_zero; exact He|]. intros t Ht. cbn [iter]. fold a. pose proof (exp_ge1 (M * t) ltac:(pose proof M_pos; nra)). pose proof a_pos. nra.
  - split; [apply step_cont; [exact C|apply bounded_small; exact B]|apply step_bounded; assumption].
Qed.
Lemma iter_small k : small (iter dl k). Proof. apply bounded_small, iter_ok. Qed.
Lemma iter_step k t : 0 <= t <= 1 -> l1 n (sub (iter dl (S k) t) (iter dl k t)) <= a * (1 / 2) ^ k * exp (2 * M * t).
Proof.
  pose proof M_pos as MP. pose proof a_pos as AP. revert t. induction k as [|k IH]; intros t Ht.
  - cbn [iter]. assert (Q := step_size dl (fun _ => dl) (fun x => a * x) (fun _ => a) t Ht (proj1 (iter_ok 0)) (iter_small 0)). cbv beta in Q.
    assert (Q2 : l1 n (sub (step dl (fun _ : R => dl) t) dl) <= INR n * L * (a * t - a * 0)).
    { apply Q; [intros; eapply der_to; [apply der_scal, der_id|ring]|intros; right; reflexivity]. }
    eapply Rle_trans; [exact Q2|]. assert (INR n * L <= M) by (unfold M; lra). assert (0 <= INR n * L) by (pose proof (pos_INR n); nra).
    assert (E : 1 + 2 * M * t <= exp (2 * M * t)). { destruct (Req_dec t 0) as [->|N]; [rewrite Rmult_0_r, exp_0; lra|]. left. apply exp_ineq1. nra. }
    cbn [pow]. rewrite Rmult_1_r. replace (INR n * L * (a * t - a * 0)) with (a * (INR n * L * t)) by ring. apply Rmult_le_compat_l; [exact AP|]. nra.
  - change (iter dl (S (S k)) t) with (step dl (iter dl (S k)) t). change (iter dl (S k) t) with (step dl (iter dl k) t).
    assert (Q := step_grow dl (iter dl (S k)) (iter dl k) (fun x => a * (1 / 2) ^ k * exp (2 * M * x) / (2 * M)) (fun x => a * (1 / 2) ^ k * exp (2 * M * x)) t Ht (proj1 (iter_ok _)) (iter_small _) (proj1 (iter_ok _)) (iter_small _)).
    cbv beta in Q. eapply Rle_trans; [apply Q|].
    + intros. apply exp_prim. lra.
    + intros s Hs. apply IH. lra.
    + rewrite Rmult_0_r, exp_0. set (c := a * (1 / 2) ^ k). assert (0 <= c) by (apply Rmult_le_pos; [exact AP|apply pow_le; lra]). pose proof (exp_ge1 (2 * M * t) ltac:(nra)) as E.
      replace (a * (1 / 2) ^ S k * exp (2 * M * t)) with (M * (c * exp (2 * M * t) / (2 * M))) by (unfold c; cbn [pow]; field; lra).
      apply Rle_trans with (M * (c * exp (2 * M * t) / (2 * M) - c * 1 / (2 * M))).
      * apply Rmult_le_compat_r; [|unfold M; lra]. replace (c * exp (2 * M * t) / (2 * M) - c * 1 / (2 * M)) with (c * (exp (2 * M * t) - 1) * / (2 * M)) by (field; lra). apply Rmult_le_pos; [nra|]. left. apply Rinv_0_lt_compat. lra.
      * apply Rmult_le_compat_l; [lra|]. assert (0 <= c * 1 / (2 * M)) by (apply Rmult_le_pos; [lra|left; apply Rinv_0_lt_compat; lra]). lra.
Qed.
Definition Cb : R := a * exp (2 * M).
Lemma Cb_pos : 0 <= Cb. Proof. unfold Cb. pose proof a_pos. pose proof (exp_pos (2 * M)). nra. Qed.
Lemma iter_tail k m t : 0 <= t <= 1 -> l1 n (sub (iter dl (m + k) t) (iter dl k t)) <= 2 * Cb * (1 / 2) ^ k * (1 - (1 / 2) ^ m).
Proof.
  intros Ht. induction m as [|m IH]; [cbn [plus pow]; rewrite l1_zero; right; ring|].
  eapply Rle_trans; [apply (l1_triang n _ (iter dl (m + k) t))|]. eapply Rle_trans; [apply Rplus_le_compat; [apply (iter_step (m + k)%nat t Ht)|exact IH]|].
  assert (a * (1 / 2) ^ (m + k) * exp (2 * M * t) <= Cb * ((1 / 2) ^ m * (1 / 2) ^ k)).
  { unfold Cb. rewrite pow_add. replace (a * exp (2 * M) * ((1 / 2) ^ m * (1 / 2) ^ k)) with (a * ((1 / 2) ^ m * (1 / 2) ^ k) * exp (2 * M)) by ring. apply Rmult_le_compat_l.
    - apply Rmult_le_pos; [apply a_pos|]. apply Rmult_le_pos; apply pow_le; lra.
    - apply exp_mono. pose proof M_pos. nra. }
  cbn [pow]. lra.
Qed.
Lemma iter_close k m t : 0 <= t <= 1 -> l1 n (sub (iter dl (m + k) t) (iter dl k t)) <= 2 * Cb * (1 / 2) ^ k.
Proof.
  intros Ht. eapply Rle_trans; [apply iter_tail; exact Ht|]. assert (0 <= 2 * Cb * (1 / 2) ^ k) by (apply Rmult_le_pos; [pose proof Cb_pos; lra|apply pow_le; lra]).
  assert (0 <= (1 / 2) ^ m) by (apply pow_le; lra). nra.
Qed.
Lemma half_small (c eps : R) : 0 <= c -> 0 < eps -> exists k, c * (1 / 2) ^ k < eps.
Proof.
  intros Hc He. destruct (pow_lt_1_zero (1 / 2) ltac:(rewrite Rabs_pos_eq; lra) (eps / (c + 1)) ltac:(apply Rdiv_lt_0_compat; lra)) as [k Hk]. exists k. specialize (Hk k (le_n k)).
  rewrite Rabs_pos_eq in Hk by (apply pow_le; lra). apply Rle_lt_trans with ((c + 1) * (1 / 2) ^ k); [apply Rmult_le_compat_r; [apply pow_le; lra|lra]|].
  apply (Rmult_lt_compat_l (c + 1)) in Hk; [|lra]. replace ((c + 1) * (eps / (c + 1))) with eps in Hk by (field; lra). exact Hk.
Qed.
Lemma limit_is t i : 0 <= t <= 1 -> (i < n)%nat -> is_lim_seq (fun k => iter dl k t i) (limit dl t i).
Proof.
  intros Ht Hi. unfold limit. rewrite clamp_id by exact Ht.
  assert (E : ex_finite_lim_seq (fun k => iter dl k t i)).
  { apply ex_lim_seq_cauchy_corr. intros eps. destruct (half_small (4 * Cb) eps ltac:(pose proof Cb_pos; lra) (cond_pos eps)) as [k Hk]. exists k. intros p q Hp Hq.
    assert (G : forall p, (k <= p)%nat -> Rabs (iter dl p t i - iter dl k t i) <= 2 * Cb * (1 / 2) ^ k).
    { intros z Hz. replace z with ((z - k) + k)%nat by lia. eapply Rle_trans; [apply (l1_ge n (sub (iter dl (z - k + k) t) (iter dl k t)) i Hi)|apply iter_close; exact Ht]. }
    pose proof (G p Hp). pose proof (G q Hq). replace (iter dl p t i - iter dl q t i) with ((iter dl p t i - iter dl k t i) - (iter dl q t i - iter dl k t i)) by ring.
    eapply Rle_lt_trans; [apply Rabs_triang|]. rewrite Rabs_Ropp. lra. }
  destruct E as [l E]. rewrite (is_lim_seq_unique _ _ E). exact E.
Qed.
Lemma limit_comp k t i : 0 <= t <= 1 -> (i < n)%nat -> Rabs (limit dl t i - iter dl k t i) <= 2 * Cb * (1 / 2) ^ k.
Proof.
  intros Ht Hi. assert (Q := limit_is t i Ht Hi). apply (is_lim_seq_incr_n _ k) in Q.
  assert (Q2 : is_lim_seq (fun m => Rabs (iter dl (m + k) t i - iter dl k t i)) (Rabs (limit dl t i - iter dl k t i))).
  { apply (is_lim_seq_abs _ (limit dl t i - iter dl k t i)). apply (is_lim_seq_minus' _ _ _ _ Q). apply is_lim_seq_const. }
  assert (Q3 := is_lim_seq_le _ (fun _ => 2 * Cb * (1 / 2) ^ k) _ (2 * Cb * (1 / 2) ^ k) (fun m => Rle_trans _ _ _ (l1_ge n (sub (iter dl (m + k) t) (iter dl k t)) i Hi) (iter_close k m t Ht)) Q2 (is_lim_seq_const _)).
  exact Q3.
Qed.
Lemma limit_close k t : 0 <= t <= 1 -> l1 n (sub (limit dl t) (iter dl k t)) <= INR n * (2 * Cb * (1 / 2) ^ k).
Proof. intros Ht. apply l1_bound. intros i Hi. apply limit_comp; assumption. Qed.
Definition nC : R := INR n * (2 * Cb).
Lemma nC_pos : 0 <= nC. Proof. unfold nC. pose proof Cb_pos. pose proof (pos_INR n). nra. Qed.
Lemma limit_near eps : 0 < eps -> exists k, forall t, 0 <= t <= 1 -> l1 n (sub (limit dl t) (iter dl k t)) < eps.
Proof.
  intros He. destruct (half_small nC eps nC_pos He) as [k Hk]. exists k. intros t Ht. eapply Rle_lt_trans; [apply limit_close; exact Ht|]. unfold nC in Hk. lra.
Qed.
Lemma limit_bounded t : 0 <= t <= 1 -> l1 n (limit dl t) <= a * exp (M * t).
Proof.
  intros Ht. apply Rnot_lt_le. intros N. destruct (limit_near (l1 n (limit dl t) - a * exp (M * t)) ltac:(lra)) as [k Hk]. specialize (Hk t Ht).
  pose proof (l1_le_sub n (limit dl t) (iter dl k t)). pose proof (proj2 (iter_ok k) t Ht). lra.
Qed.
Lemma limit_small : small (limit dl). Proof. apply bounded_small, limit_bounded. Qed.
Lemma limit_cont : ccont01 (limit dl).
Proof.
  intros t eps He. destruct (limit_near (eps / 3) ltac:(lra)) as [k Hk]. destruct (proj1 (iter_ok k) t (eps / 3) ltac:(lra)) as [d [Dp Hd]]. exists d. split; [exact Dp|]. intros s Hs. cbv beta.
  specialize (Hd s Hs). cbv beta in Hd. pose proof (Hk (clamp s) (clamp_in s)) as K1. pose proof (Hk (clamp t) (clamp_in t)) as K2. rewrite l1_sym in K2.
  eapply Rle_lt_trans; [apply (l1_triang n _ (iter dl k (clamp s)))|]. pose proof (l1_triang n (iter dl k (clamp s)) (iter dl k (clamp t)) (limit dl (clamp t))). lra.
Qed.
Lemma limit_fixed t i : 0 <= t <= 1 -> (i < n)%nat -> step dl (limit dl) t i = limit dl t i.
Proof.
  intros Ht Hi. apply Rminus_diag_uniq. destruct (Req_dec (step dl (limit dl) t i - limit dl t i) 0) as [E|N]; [exact E|]. exfalso. apply Rabs_pos_lt in N. set (e := Rabs _) in N.
  set (K := INR n * L * nC + nC). assert (K0 : 0 <= K) by (unfold K; pose proof nC_pos; pose proof (pos_INR n); assert (0 <= INR n * L) by nra; nra).
  destruct (half_small K (e / 2) K0 ltac:(lra)) as [k Hk].
  assert (Q := step_grow dl (limit dl) (iter dl k) (fun x => nC * (1 / 2) ^ k * x) (fun _ => nC * (1 / 2) ^ k) t Ht limit_cont limit_small (proj1 (iter_ok k)) (iter_small k)).
  cbv beta in Q. assert (Q2 : l1 n (sub (step dl (limit dl) t) (step dl (iter dl k) t)) <= INR n * L * (nC * (1 / 2) ^ k * t - nC * (1 / 2) ^ k * 0)).
  { apply Q; [intros; eapply der_to; [apply der_scal, der_id|ring]|]. intros s Hs. eapply Rle_trans; [apply limit_close; lra|]. unfold nC. right. ring. }
  assert (Q3 := limit_close (S k) t Ht). cbn [iter] in Q3.
  assert (Q4 : Rabs (step dl (limit dl) t i - limit dl t i) <= l1 n (sub (step dl (limit dl) t) (step dl (iter dl k) t)) + l1 n (sub (limit dl t) (step dl (iter dl k) t))).
  { pose proof (l1_ge n (sub (step dl (limit dl) t) (step dl (iter dl k) t)) i Hi) as G1. pose proof (l1_ge n (sub (limit dl t) (step dl (iter dl k) t)) i Hi) as G2. unfold sub at 1 in G1. unfold sub at 1 in G2.
    replace (step dl (limit dl) t i - limit dl t i) with ((step dl (limit dl) t i - step dl (iter dl k) t i) - (limit dl t i - step dl (iter dl k) t i)) by ring. eapply Rle_trans; [apply Rabs_triang|]. rewrite Rabs_Ropp. lra. }
  fold e in Q4. assert (0 <= nC * (1 / 2) ^ k) by (apply Rmult_le_pos; [apply nC_pos|apply pow_le; lra]). assert (0 <= INR n * L) by (pose proof (pos_INR n); nra).
  assert (INR n * L * (nC * (1 / 2) ^ k * t - nC * (1 / 2) ^ k * 0) <= INR n * L * (nC * (1 / 2) ^ k)) by (apply Rmult_le_compat_l; [assumption|nra]).
  assert (INR n * (2 * Cb * (1 / 2) ^ S k) <= nC * (1 / 2) ^ k) by (unfold nC; cbn [pow]; pose proof (pos_INR n); pose proof Cb_pos; assert (0 <= (1 / 2) ^ k) by (apply pow_le; lra); assert (0 <= INR n * Cb) by (apply Rmult_le_pos; assumption); assert (0 <= INR n * Cb * (1 / 2) ^ k) by (apply Rmult_le_pos; assumption); lra).
  unfold K in Hk. lra.
Qed.

Lemma picard_0 i : picard dl 0 i = Z0 0 i + dl i.
Proof. unfold picard, add. rewrite step_0. reflexivity. Qed.
Lemma picard_near t : 0 <= t <= 1 -> l1 n (sub (picard dl t) (Z0 t)) <= a * exp (M * t).
Proof. intros Ht. unfold picard. rewrite l1_add_l. rewrite (l1_ext n _ (limit dl t)) by (intros; apply limit_fixed; assumption). apply limit_bounded. exact Ht. Qed.
Lemma picard_solves : solution n g (picard dl).
Proof.
  intros t i Ht Hi. unfold picard at 1, add.
  eapply der_to; [apply der_plus; [apply HZ; assumption|apply step_der; [exact Hi|apply limit_cont|apply limit_small]]|].
  unfold field, y. rewrite clamp_id by exact Ht. rewrite Rplus_minus. apply Rminus_diag_uniq.
  assert (E : l1 n (sub (add (Z0 t) (limit dl t)) (picard dl t)) = 0).
  { eapply eq_trans; [|apply (l1_zero n dl)]. apply l1_ext. intros j Hj. unfold picard, sub, add. rewrite limit_fixed by assumption. ring. }
  assert (B := Lip i Hi t (add (Z0 t) (limit dl t)) (picard dl t) Ht). rewrite E, Rmult_0_r in B.
  assert (Rabs (g i (add (Z0 t) (limit dl t)) - g i (picard dl t)) <= 0).
  { apply B; [rewrite l1_add_l; apply limit_small; exact Ht|]. eapply Rle_lt_trans; [apply picard_near; exact Ht|]. eapply Rle_lt_trans; [|exact Ha]. apply Rmult_le_compat_l; [apply a_pos|]. apply exp_mono. pose proof M_pos. nra. }
  destruct (Req_dec (g i (add (Z0 t) (limit dl t)) - g i (picard dl t)) 0) as [X|X]; [exact X|]. apply Rabs_pos_lt in X. lra.
Qed.
End Start.
End Picard.

(** ** From strict differentiability *)
Section Near.
Variable n : nat.
Variable g : nat -> nvec -> R.
Variable Z0 : R -> nvec.
Variable D : R -> nat -> nat -> R.
Hypothesis HZ : solution n g Z0.
Hypothesis HD : forall t i, 0 <= t <= 1 -> (i < n)%nat -> sd n (g i) (Z0 t) (D t i).
(** what holds in a neighbourhood of every point of the solution holds in a tube *)
Lemma tube (Q : R -> nvec -> Prop) : (forall t, 0 <= t <= 1 -> exists r d, 0 < r /\ 0 < d /\ forall s w, 0 <= s <= 1 -> Rabs (s - t) < d -> l1 n (sub w (Z0 t)) < r -> Q s w) ->
  exists r, 0 < r /\ forall t w, 0 <= t <= 1 -> l1 n (sub w (Z0 t)) < r -> Q t w.
Proof.
  intros H. apply (glue (fun a b => exists r, 0 < r /\ forall t w, a <= t <= b -> l1 n (sub w (Z0 t)) < r -> Q t w)).
  - intros a b c Hb [K1 [P1 H1]] [K2 [P2 H2]]. exists (Rmin K1 K2). split; [apply Rmin_glb_lt; assumption|]. intros t w Ht Hw. pose proof (Rmin_l K1 K2). pose proof (Rmin_r K1 K2).
    destruct (Rle_dec t b) as [E|E]; [apply H1|apply H2]; lra.
  - intros t Ht. destruct (H t Ht) as [r [d [Rp [Dp Hd]]]]. destruct (Z0_cont n g Z0 HZ t Ht (r / 2) ltac:(lra)) as [d2 [D2 H2]].
    exists (Rmin d d2). split; [apply Rmin_glb_lt; assumption|]. intros a b A AB B A0 B1. pose proof (Rmin_l d d2). pose proof (Rmin_r d d2). exists (r / 2). split; [lra|].
    intros s w Hs Hw. apply Hd; [lra|apply Rabs_def1; lra|]. eapply Rle_lt_trans; [apply (l1_triang n _ (Z0 s))|]. specialize (H2 s ltac:(apply Rabs_def1; lra)). lra.
Qed.
Lemma lip_tube : exists L r, 0 <= L /\ 0 < r /\ forall i, (i < n)%nat -> forall t w1 w2, 0 <= t <= 1 -> l1 n (sub w1 (Z0 t)) < r -> l1 n (sub w2 (Z0 t)) < r ->
  Rabs (g i w1 - g i w2) <= L * l1 n (sub w1 w2).
Proof.
  assert (G : forall i, (i < n)%nat -> exists L r, 0 <= L /\ 0 < r /\ forall t w1 w2, 0 <= t <= 1 -> l1 n (sub w1 (Z0 t)) < r -> l1 n (sub w2 (Z0 t)) < r -> Rabs (g i w1 - g i w2) <= L * l1 n (sub w1 w2)).
  { intros i Hi. apply (glue (fun a b => exists L r, 0 <= L /\ 0 < r /\ forall t w1 w2, a <= t <= b -> l1 n (sub w1 (Z0 t)) < r -> l1 n (sub w2 (Z0 t)) < r -> Rabs (g i w1 - g i w2) <= L * l1 n (sub w1 w2))).
    - intros a b c Hb [L1 [K1 [N1 [P1 H1]]]] [L2 [K2 [N2 [P2 H2]]]]. exists (Rmax L1 L2), (Rmin K1 K2). split; [eapply Rle_trans; [exact N1|apply Rmax_l]|]. split; [apply Rmin_glb_lt; assumption|].
      intros t w1 w2 Ht W1 W2. pose proof (Rmin_l K1 K2). pose proof (Rmin_r K1 K2). pose proof (l1_nonneg n (sub w1 w2)).
      destruct (Rle_dec t b) as [E|E]; [eapply Rle_trans; [apply (H1 t); lra|apply Rmult_le_compat_r; [assumption|apply Rmax_l]]|eapply Rle_trans; [apply (H2 t); lra|apply Rmult_le_compat_r; [assumption|apply Rmax_r]]].
    - intros t Ht. destruct (HD t i Ht Hi 1 ltac:(lra)) as [r [Rp Rh]]. destruct (Z0_cont n g Z0 HZ t Ht (r / 2) ltac:(lra)) as [d2 [D2 H2]].
      exists d2. split; [exact D2|]. intros a b A AB B A0 B1. exists (l1 n (D t i) + 1), (r / 2). pose proof (l1_nonneg n (D t i)). split; [lra|]. split; [lra|].
      intros s w1 w2 Hs W1 W2. specialize (H2 s ltac:(apply Rabs_def1; lra)).
      specialize (Rh w1 w2 ltac:(eapply Rle_lt_trans; [apply (l1_triang n _ (Z0 s))|lra]) ltac:(eapply Rle_lt_trans; [apply (l1_triang n _ (Z0 s))|lra])).
      assert (B2 := lin_bound n (D t i) (l1 n (D t i)) (sub w1 w2) (fun j Hj => l1_ge n (D t i) j Hj)).
      replace (g i w1 - g i w2) with ((g i w1 - g i w2 - sum_n n (fun j => D t i j * sub w1 w2 j)) + sum_n n (fun j => D t i j * sub w1 w2 j)) by ring.
      eapply Rle_trans; [apply Rabs_triang|]. lra. }
  assert (F : forall m, (m <= n)%nat -> exists L r, 0 <= L /\ 0 < r /\ forall i, (i < m)%nat -> forall t w1 w2, 0 <= t <= 1 -> l1 n (sub w1 (Z0 t)) < r -> l1 n (sub w2 (Z0 t)) < r -> Rabs (g i w1 - g i w2) <= L * l1 n (sub w1 w2)).
  { induction m as [|m IH]; intros Hm; [exists 0, 1; split; [lra|]; split; [lra|]; intros; lia|].
    destruct (IH ltac:(lia)) as [L1 [K1 [N1 [P1 H1]]]]. destruct (G m ltac:(lia)) as [L2 [K2 [N2 [P2 H2]]]]. exists (Rmax L1 L2), (Rmin K1 K2). split; [eapply Rle_trans; [exact N1|apply Rmax_l]|]. split; [apply Rmin_glb_lt; assumption|].
    intros i Hi t w1 w2 Ht W1 W2. pose proof (Rmin_l K1 K2). pose proof (Rmin_r K1 K2). pose proof (l1_nonneg n (sub w1 w2)).
    destruct (Nat.eq_dec i m) as [->|E]; [eapply Rle_trans; [apply (H2 t); lra|apply Rmult_le_compat_r; [assumption|apply Rmax_r]]|eapply Rle_trans; [apply (H1 i ltac:(lia) t); lra|apply Rmult_le_compat_r; [assumption|apply Rmax_l]]]. }
  apply (F n). lia.
Qed.
(** the solutions next to [Z0], as a function of the initial value, and how far they move away *)
Lemma ode_near : exists (Zf : nvec -> R -> nvec) (rho C : R), 0 < rho /\ 0 < C /\ forall z, l1 n (sub z (Z0 0)) < rho ->
  solution n g (Zf z) /\ (forall i, Zf z 0 i = z i) /\ forall t, 0 <= t <= 1 -> l1 n (sub (Zf z t) (Z0 t)) <= C * l1 n (sub z (Z0 0)).
Proof.
  destruct lip_tube as [L [r [HL [Hr Lip]]]]. set (E := exp (M n L)). assert (EP : 0 < E) by apply exp_pos.
  exists (fun z => picard g Z0 (sub z (Z0 0))), (r / E), E. split; [apply Rdiv_lt_0_compat; assumption|]. split; [exact EP|]. intros z Hz.
  assert (Ha : l1 n (sub z (Z0 0)) * E < r). { apply (Rmult_lt_compat_r E) in Hz; [|exact EP]. replace (r / E * E) with r in Hz by (field; lra). exact Hz. }
  split; [apply (picard_solves n g Z0 HZ L r HL Hr Lip); exact Ha|]. split; [intros i; rewrite picard_0; unfold sub; ring|].
  intros t Ht. eapply Rle_trans; [apply (picard_near n g Z0 HZ L r HL Hr Lip); [exact Ha|exact Ht]|]. rewrite Rmult_comm. apply Rmult_le_compat_r; [apply l1_nonneg|].
  apply exp_mono. pose proof (M_pos n L HL). nra.
Qed.
End Near.
