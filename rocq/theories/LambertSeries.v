(** * Partial sums of 2F1(3, 1; 5/2; z) and the functions they approximate *)
From Coq Require Import Reals ZArith Lra Lia Nsatz.
From Coquelicot Require Import Coquelicot.
From Verif Require Import RealLib Vec3 LambertSpec LambertTime.
Open Scope R_scope.

Fixpoint hc (n : nat) : R := match n with 0%nat => 1 | S j => hc j * (3 + INR j) / (5 / 2 + INR j) end.
Fixpoint hs (n : nat) (z : R) : R := match n with 0%nat => 1 | S j => hs j z + hc (S j) * z ^ S j end.
Lemma hc_pos n : 0 < hc n.
Proof. induction n as [|n IH]; cbn [hc]; [lra|]. pose proof (pos_INR n). apply Rdiv_lt_0_compat; [apply Rmult_lt_0_compat; lra|lra]. Qed.
Lemma hs_derive n (z : R) : exists d : R, is_derive (hs n) z d /\ z * (1 - z) * d + (3 / 2 - 3 * z) * hs n z = 3 / 2 - hc n * (INR n + 3) * z ^ S n.
Proof.
  induction n as [|n [d [D E]]].
  - exists 0. split; [apply der_const|]. cbn [hs hc INR pow]. ring.
  - exists (d + hc (S n) * (INR (S n) * z ^ n)). split.
    + apply (der_plus (hs n) (fun z => hc (S n) * z ^ S n)); [exact D|]. apply (der_scal (hc (S n)) (fun z => z ^ S n)). apply is_derive_Reals. apply (derivable_pt_lim_pow z (S n)).
    + cbn [hs]. pose proof (pos_INR n) as NP. assert (H : hc (S n) * (INR n + 5 / 2) = hc n * (INR n + 3)) by (cbn [hc]; field; lra). rewrite S_INR.
      transitivity ((z * (1 - z) * d + (3 / 2 - 3 * z) * hs n z) + z * (1 - z) * (hc (S n) * ((INR n + 1) * z ^ n)) + (3 / 2 - 3 * z) * (hc (S n) * z ^ S n)); [ring|]. rewrite E, <- H. rewrite <- ?tech_pow_Rmult. field.
Qed.
Lemma nonneg_of (f df : R -> R) b : 0 <= b -> f 0 = 0 -> (forall t, 0 <= t <= b -> is_derive f t (df t)) -> (forall t, 0 <= t <= b -> 0 <= df t) -> 0 <= f b.
Proof.
  intros B F0 D P. destruct (Rle_lt_or_eq_dec 0 b B) as [H|<-]; [|lra].
  destruct (MVT_cor2 f df 0 b H) as [t [E Ht]]; [intros c Hc; apply is_derive_Reals, D, Hc|]. rewrite F0 in E. specialize (P t ltac:(lra)). assert (0 <= df t * (b - 0)) by (apply Rmult_le_pos; lra). lra.
Qed.
(** ellipse *)
Definition ez (t : R) : R := (1 - cos t) / 2.
Definition eg (t : R) : R := 3 / 4 * (2 * t - sin (2 * t)).
Lemma ez_derive t : is_derive ez t (sin t / 2).
Proof. unfold ez. apply (der_to _ _ (/ 2 * (0 - - sin t))); [|field]. apply (der_ext (fun t => / 2 * (1 - cos t))); [intros; field|]. apply der_scal, der_minus; [apply der_const|apply der_cos]. Qed.
Lemma ez_quad t : ez t * (1 - ez t) = sin t * sin t / 4.
Proof. unfold ez. pose proof (sin2_cos2 t) as H. unfold Rsqr in H. replace (sin t * sin t) with (1 - cos t * cos t) by lra. field. Qed.
Lemma ez_nonneg t : 0 <= ez t. Proof. unfold ez. pose proof (COS_bound t). lra. Qed.
Lemma eg_derive t : is_derive eg t (2 * (sin t * sin t) * (3 / 2)).
Proof.
  unfold eg. apply (der_to _ _ (3 / 4 * (2 * 1 - 2 * 1 * cos (2 * t)))).
  - apply der_scal, der_minus; [apply der_scal, der_id|]. apply (der_comp sin (fun t => 2 * t)); [apply der_sin|apply der_scal, der_id].
  - rewrite cos_2a_sin. field.
Qed.
(** for every f: (sin^3 t f(z(t)))' = 2 sin^2 t (z (1-z) f' + (3/2 - 3z) f) *)
Lemma sin3_derive (f : R -> R) d t : is_derive f (ez t) d -> is_derive (fun t => sin t * sin t * sin t * f (ez t)) t (2 * (sin t * sin t) * (ez t * (1 - ez t) * d + (3 / 2 - 3 * ez t) * f (ez t))).
Proof.
  intros D. eapply der_to; [apply der_mult; [apply der_mult; [apply der_mult; apply der_sin|apply der_sin]|apply (der_comp f ez); [exact D|apply ez_derive]]|].
  cbn beta. rewrite ez_quad. unfold ez. field.
Qed.
Lemma ez_mono a b : 0 <= a <= b -> b <= PI -> ez a <= ez b.
Proof. intros H B. unfold ez. assert (cos b <= cos a) by (apply cos_decr_1; lra). lra. Qed.
Lemma ell_series n b : 0 <= b <= PI -> ez b <= 1 / 32 -> 0 <= eg b - sin b * sin b * sin b * hs n (ez b) <= sin b * sin b * sin b * (4 / 3 * hc n * ez b ^ S n).
Proof.
  intros B Z. pose proof (hc_pos n) as HP. pose proof (pos_INR n) as NP.
  assert (E0 : ez 0 = 0) by (unfold ez; rewrite cos_0; lra). assert (G0 : eg 0 = 0) by (unfold eg; rewrite Rmult_0_r, sin_0; ring).
  assert (D1 : forall t, is_derive (fun t => eg t - sin t * sin t * sin t * hs n (ez t)) t (2 * (sin t * sin t) * (hc n * (INR n + 3) * ez t ^ S n))).
  { intros t. destruct (hs_derive n (ez t)) as [d [D E]]. eapply der_to; [apply der_minus; [apply eg_derive|apply (sin3_derive (hs n) d); exact D]|]. rewrite E. ring. }
  assert (PW : forall t, 0 <= ez t ^ S n) by (intros t; apply pow_le, ez_nonneg).
  split.
  - apply (nonneg_of (fun t => eg t - sin t * sin t * sin t * hs n (ez t)) (fun t => 2 * (sin t * sin t) * (hc n * (INR n + 3) * ez t ^ S n))); [lra|rewrite sin_0, G0; ring|intros; apply D1|].
    intros t Ht. specialize (PW t). pose proof (Rle_0_sqr (sin t)) as Q. unfold Rsqr in Q. apply Rmult_le_pos; [lra|]. apply Rmult_le_pos; [apply Rmult_le_pos; lra|exact PW].
  - assert (D2 : forall t, is_derive (fun t => sin t * sin t * sin t * (4 / 3 * hc n * ez t ^ S n) - (eg t - sin t * sin t * sin t * hs n (ez t))) t
      (2 * (sin t * sin t) * (hc n * ez t ^ S n * (4 / 3 * ((INR n + 5 / 2) - (INR n + 4) * ez t) - (INR n + 3))))).
    { intros t. eapply der_to; [apply der_minus; [apply (sin3_derive (fun z => 4 / 3 * hc n * z ^ S n) (4 / 3 * hc n * (INR (S n) * ez t ^ n)))|apply D1]|].
      - apply (der_scal (4 / 3 * hc n) (fun z => z ^ S n)). apply is_derive_Reals. apply (derivable_pt_lim_pow (ez t) (S n)).
      - rewrite S_INR. rewrite <- ?tech_pow_Rmult. field. }
    assert (0 <= sin b * sin b * sin b * (4 / 3 * hc n * ez b ^ S n) - (eg b - sin b * sin b * sin b * hs n (ez b))); [|lra].
    apply (nonneg_of (fun t => sin t * sin t * sin t * (4 / 3 * hc n * ez t ^ S n) - (eg t - sin t * sin t * sin t * hs n (ez t))) (fun t => 2 * (sin t * sin t) * (hc n * ez t ^ S n * (4 / 3 * ((INR n + 5 / 2) - (INR n + 4) * ez t) - (INR n + 3)))) b ltac:(lra)); [rewrite sin_0, G0; ring|intros; apply D2|].
    intros t Ht. cbn beta. specialize (PW t). pose proof (Rle_0_sqr (sin t)) as Q. unfold Rsqr in Q. pose proof (ez_mono t b ltac:(lra) ltac:(lra)) as M. pose proof (ez_nonneg t).
    apply Rmult_le_pos; [lra|]. apply Rmult_le_pos; [apply Rmult_le_pos; lra|]. assert ((INR n + 4) * ez t <= (INR n + 4) * (1 / 32)) by (apply Rmult_le_compat_l; lra). lra.
Qed.
(** hyperbola: z = - hz *)
Definition hz (t : R) : R := (cosh t - 1) / 2.
Definition hg (t : R) : R := 3 / 4 * (sinh (2 * t) - 2 * t).
Lemma hz_derive t : is_derive hz t (sinh t / 2).
Proof. unfold hz. apply (der_to _ _ (/ 2 * (sinh t - 0))); [|field]. apply (der_ext (fun t => / 2 * (cosh t - 1))); [intros; field|]. apply der_scal, der_minus; [apply der_cosh|apply der_const]. Qed.
Lemma hz_quad t : hz t * (1 + hz t) = sinh t * sinh t / 4.
Proof. unfold hz. pose proof (cosh_sinh_sq t) as H. replace (sinh t * sinh t) with (cosh t * cosh t - 1) by lra. field. Qed.
Lemma hz_nonneg t : 0 <= hz t. Proof. unfold hz. pose proof (cosh_ge1 t). lra. Qed.
Lemma hg_derive t : is_derive hg t (2 * (sinh t * sinh t) * (3 / 2)).
Proof.
  unfold hg. apply (der_to _ _ (3 / 4 * (2 * 1 * cosh (2 * t) - 2 * 1))).
  - apply der_scal, der_minus; [|apply der_scal, der_id]. apply (der_comp sinh (fun t => 2 * t)); [apply der_sinh|apply der_scal, der_id].
  - rewrite cosh_2a'. field.
Qed.
Lemma sinh3_derive (f : R -> R) d t : is_derive f (- hz t) d -> is_derive (fun t => sinh t * sinh t * sinh t * f (- hz t)) t (2 * (sinh t * sinh t) * (- hz t * (1 - - hz t) * d + (3 / 2 - 3 * - hz t) * f (- hz t))).
Proof.
  intros D. eapply der_to; [apply der_mult; [apply der_mult; [apply der_mult; apply der_sinh|apply der_sinh]|apply (der_comp f (fun t => - hz t)); [exact D|apply der_opp, hz_derive]]|].
  cbn beta. replace (- hz t * (1 - - hz t)) with (- (sinh t * sinh t / 4)) by (rewrite <- hz_quad; ring). unfold hz. field.
Qed.
Lemma hyp_series n b : 0 <= b -> Rabs (hg b - sinh b * sinh b * sinh b * hs n (- hz b)) <= sinh b * sinh b * sinh b * (4 / 3 * hc n * hz b ^ S n).
Proof.
  intros B. pose proof (hc_pos n) as HP. pose proof (pos_INR n) as NP.
  assert (E0 : hz 0 = 0) by (unfold hz; rewrite cosh_0; lra). assert (G0 : hg 0 = 0) by (unfold hg; rewrite Rmult_0_r, sinh_0; ring).
  assert (D1 : forall t, is_derive (fun t => hg t - sinh t * sinh t * sinh t * hs n (- hz t)) t (2 * (sinh t * sinh t) * (hc n * (INR n + 3) * (- hz t) ^ S n))).
  { intros t. destruct (hs_derive n (- hz t)) as [d [D E]]. eapply der_to; [apply der_minus; [apply hg_derive|apply (sinh3_derive (hs n) d); exact D]|]. rewrite E. ring. }
  assert (D3 : forall t, is_derive (fun t => sinh t * sinh t * sinh t * (4 / 3 * hc n * hz t ^ S n)) t (2 * (sinh t * sinh t) * (hc n * hz t ^ S n * (4 / 3 * ((INR n + 5 / 2) + (INR n + 4) * hz t))))).
  { intros t. eapply der_to; [apply (der_ext (fun t => sinh t * sinh t * sinh t * (fun z => 4 / 3 * hc n * (- z) ^ S n) (- hz t))); [intros; cbn beta; rewrite Ropp_involutive; reflexivity|]; apply (sinh3_derive (fun z => 4 / 3 * hc n * (- z) ^ S n) (4 / 3 * hc n * (- (1) * (INR (S n) * (- - hz t) ^ n))))|].
    - apply (der_scal (4 / 3 * hc n) (fun z => (- z) ^ S n)). apply (der_comp (fun z => z ^ S n) Ropp); [apply is_derive_Reals, (derivable_pt_lim_pow (- - hz t) (S n))|apply der_opp, der_id].
    - rewrite S_INR. cbn beta. rewrite Ropp_involutive. rewrite <- ?tech_pow_Rmult. field. }
  assert (PW : forall t, 0 <= hz t ^ S n) by (intros t; apply pow_le, hz_nonneg).
  assert (AB : forall t, - (hz t ^ S n) <= (- hz t) ^ S n <= hz t ^ S n).
  { intros t. assert (A : Rabs ((- hz t) ^ S n) = hz t ^ S n) by (rewrite <- RPow_abs, Rabs_Ropp, Rabs_right; [reflexivity|apply Rle_ge, hz_nonneg]). rewrite <- A. split; [|apply Rle_abs]. pose proof (Rle_abs (- (- hz t) ^ S n)) as Q. rewrite Rabs_Ropp in Q. lra. }
  apply Rabs_le. split.
  - assert (0 <= sinh b * sinh b * sinh b * (4 / 3 * hc n * hz b ^ S n) + (hg b - sinh b * sinh b * sinh b * hs n (- hz b))); [|lra].
    apply (nonneg_of (fun t => sinh t * sinh t * sinh t * (4 / 3 * hc n * hz t ^ S n) + (hg t - sinh t * sinh t * sinh t * hs n (- hz t))) (fun t => 2 * (sinh t * sinh t) * (hc n * hz t ^ S n * (4 / 3 * ((INR n + 5 / 2) + (INR n + 4) * hz t))) + 2 * (sinh t * sinh t) * (hc n * (INR n + 3) * (- hz t) ^ S n))); [lra|rewrite sinh_0, G0; ring|intros t _; apply der_plus; [apply D3|apply D1]|].
    intros t Ht. cbn beta. specialize (PW t). destruct (AB t) as [A1 A2]. pose proof (Rle_0_sqr (sinh t)) as Q. unfold Rsqr in Q. pose proof (hz_nonneg t) as Z. 
    rewrite <- Rmult_plus_distr_l. apply Rmult_le_pos; [lra|].
    assert (hc n * (INR n + 3) * - (hz t ^ S n) <= hc n * (INR n + 3) * (- hz t) ^ S n) by (apply Rmult_le_compat_l; [apply Rmult_le_pos; lra|lra]).
    assert (0 <= hc n * hz t ^ S n * (4 / 3 * (INR n + 5 / 2 + (INR n + 4) * hz t) - (INR n + 3))); [|lra].
    apply Rmult_le_pos; [apply Rmult_le_pos; lra|]. assert (0 <= (INR n + 4) * hz t) by (apply Rmult_le_pos; lra). lra.
  - assert (0 <= sinh b * sinh b * sinh b * (4 / 3 * hc n * hz b ^ S n) - (hg b - sinh b * sinh b * sinh b * hs n (- hz b))); [|lra].
    apply (nonneg_of (fun t => sinh t * sinh t * sinh t * (4 / 3 * hc n * hz t ^ S n) - (hg t - sinh t * sinh t * sinh t * hs n (- hz t))) (fun t => 2 * (sinh t * sinh t) * (hc n * hz t ^ S n * (4 / 3 * ((INR n + 5 / 2) + (INR n + 4) * hz t))) - 2 * (sinh t * sinh t) * (hc n * (INR n + 3) * (- hz t) ^ S n))); [lra|rewrite sinh_0, G0; ring|intros t _; apply der_minus; [apply D3|apply D1]|].
    intros t Ht. cbn beta. specialize (PW t). destruct (AB t) as [A1 A2]. pose proof (Rle_0_sqr (sinh t)) as Q. unfold Rsqr in Q. pose proof (hz_nonneg t) as Z.
    rewrite <- Rmult_minus_distr_l. apply Rmult_le_pos; [lra|].
    assert (hc n * (INR n + 3) * (- hz t) ^ S n <= hc n * (INR n + 3) * hz t ^ S n) by (apply Rmult_le_compat_l; [apply Rmult_le_pos; lra|lra]).
    assert (0 <= hc n * hz t ^ S n * (4 / 3 * (INR n + 5 / 2 + (INR n + 4) * hz t) - (INR n + 3))); [|lra].
    apply Rmult_le_pos; [apply Rmult_le_pos; lra|]. assert (0 <= (INR n + 4) * hz t) by (apply Rmult_le_pos; lra). lra.
Qed.
