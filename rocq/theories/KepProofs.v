(** * Proofs: Kepler equations, Stumpff functions *)
From Coq Require Import Reals Lra Lia.
From Coquelicot Require Import Coquelicot.
From Verif Require Import Outcome RealLib KepModel KepSpec.
Open Scope R_scope.

(** ** Derivatives *)
Lemma der_kepE M ecc : first_derivative (fun E => kepE E M ecc) (fun E => d_kepE E ecc) /\ first_derivative (fun E => d_kepE E ecc) (fun E => dd_kepE E ecc).
Proof. split; intros x; unfold kepE, d_kepE, dd_kepE; auto_derive; try exact I; ring. Qed.
Lemma der_kepH M ecc : first_derivative (fun H => kepH H M ecc) (fun H => d_kepH H ecc) /\ first_derivative (fun H => d_kepH H ecc) (fun H => dd_kepH H ecc).
Proof. split; intros x; unfold kepH, d_kepH, dd_kepH; auto_derive; try exact I; ring. Qed.
Lemma der_kepDE DM s q a r : first_derivative (fun E => kepDE E DM s q a r) (fun E => d_kepDE E s q a r) /\ first_derivative (fun E => d_kepDE E s q a r) (fun E => dd_kepDE E s q a r).
Proof. split; intros x; unfold kepDE, d_kepDE, dd_kepDE, Rdiv; auto_derive; try exact I; ring. Qed.
Lemma der_kepDH DN s q a r : first_derivative (fun E => kepDH E DN s q a r) (fun E => d_kepDH E s q a r) /\ first_derivative (fun E => d_kepDH E s q a r) (fun E => dd_kepDH E s q a r).
Proof. split; intros x; unfold kepDH, d_kepDH, dd_kepDH, Rdiv; auto_derive; try exact I; ring. Qed.

(** ** Closed forms of s^2 C(a s^2) and s^3 S(a s^2) *)
Definition U0 (a s : R) : R := 1 - a * s * s * stumpff_c (a * s * s).
Definition U1 (a s : R) : R := s * (1 - a * s * s * stumpff_s (a * s * s)).
Definition U2 (a s : R) : R := s * s * stumpff_c (a * s * s).
Definition U3 (a s : R) : R := s * s * s * stumpff_s (a * s * s).

Lemma stumpff_0 : stumpff_s 0 = 1 / 6 /\ stumpff_c 0 = 1 / 2.
Proof. unfold stumpff_s, stumpff_c. destruct (Rlt_dec 0 0); [lra|]. split; reflexivity. Qed.
Lemma sqrt_ass a s : 0 < a -> sqrt (a * s * s) = sqrt a * Rabs s.
Proof. intros H. rewrite Rmult_assoc, sqrt_mult; [|lra|nra]. rewrite <- (sqrt_Rsqr_abs s). reflexivity. Qed.
Lemma rpow32 x : 0 < x -> Rpower x (3 / 2) = (sqrt x) ^ 3.
Proof.
  intros H. replace (3 / 2) with (/ 2 * INR 3) by (cbn; lra). rewrite <- Rpower_mult, Rpower_sqrt by exact H.
  apply Rpower_pow. apply sqrt_lt_R0. exact H.
Qed.

Lemma U2_pos a s : 0 < a -> U2 a s = (1 - cos (sqrt a * s)) / a.
Proof.
  intros H. unfold U2. destruct (Req_dec s 0) as [->|N].
  - rewrite !Rmult_0_r, cos_0, !Rmult_0_l. field. lra.
  - unfold stumpff_c. assert (0 < a * s * s) by (rewrite Rmult_assoc; apply Rmult_lt_0_compat; nra).
    destruct (Rlt_dec 0 (a * s * s)) as [_|]; [|lra]. rewrite sqrt_ass by exact H.
    replace (cos (sqrt a * Rabs s)) with (cos (sqrt a * s)); [field; lra|].
    unfold Rabs. destruct (Rcase_abs s); [|reflexivity]. rewrite <- cos_neg. f_equal. ring.
Qed.
Lemma U3_pos a s : 0 < a -> U3 a s = (sqrt a * s - sin (sqrt a * s)) / (sqrt a ^ 3).
Proof.
  intros H. pose proof (sqrt_lt_R0 a H) as Q. unfold U3. destruct (Req_dec s 0) as [->|N].
  - rewrite !Rmult_0_r, sin_0, !Rmult_0_l. field. lra.
  - unfold stumpff_s. assert (0 < a * s * s) by (rewrite Rmult_assoc; apply Rmult_lt_0_compat; nra).
    destruct (Rlt_dec 0 (a * s * s)) as [_|]; [|lra]. rewrite sqrt_ass by exact H.
    unfold Rabs. destruct (Rcase_abs s).
    + replace (sqrt a * - s) with (- (sqrt a * s)) by ring. rewrite sin_neg. field. lra.
    + field. lra.
Qed.
Lemma U2_neg a s : a < 0 -> U2 a s = (cosh (sqrt (- a) * s) - 1) / (- a).
Proof.
  intros H. unfold U2. destruct (Req_dec s 0) as [->|N].
  - rewrite !Rmult_0_r, cosh_0, !Rmult_0_l. field. lra.
  - unfold stumpff_c. assert (0 < - a * s * s) by (rewrite Rmult_assoc; apply Rmult_lt_0_compat; nra).
    destruct (Rlt_dec 0 (a * s * s)) as [|_]; [lra|]. destruct (Rlt_dec (a * s * s) 0) as [_|]; [|lra].
    replace (- (a * s * s)) with (- a * s * s) by ring. rewrite sqrt_ass by lra.
    replace (cosh (sqrt (- a) * Rabs s)) with (cosh (sqrt (- a) * s)); [field; lra|].
    unfold Rabs. destruct (Rcase_abs s); [|reflexivity]. rewrite <- cosh_neg. f_equal. ring.
Qed.
Lemma U3_neg a s : a < 0 -> U3 a s = (sinh (sqrt (- a) * s) - sqrt (- a) * s) / (sqrt (- a) ^ 3).
Proof.
  intros H. assert (Ha : 0 < - a) by lra. pose proof (sqrt_lt_R0 _ Ha) as Q. unfold U3. destruct (Req_dec s 0) as [->|N].
  - rewrite !Rmult_0_r, sinh_0, !Rmult_0_l. field. lra.
  - unfold stumpff_s. assert (0 < - a * s * s) by (rewrite Rmult_assoc; apply Rmult_lt_0_compat; nra).
    destruct (Rlt_dec 0 (a * s * s)) as [|_]; [lra|]. destruct (Rlt_dec (a * s * s) 0) as [_|]; [|lra].
    rewrite rpow32 by lra. replace (- (a * s * s)) with (- a * s * s) by ring. rewrite sqrt_ass by lra.
    unfold Rabs. destruct (Rcase_abs s).
    + replace (sqrt (- a) * - s) with (- (sqrt (- a) * s)) by ring. rewrite sinh_neg. field. lra.
    + field. lra.
Qed.
Lemma U0_U2 a s : U0 a s = 1 - a * U2 a s. Proof. unfold U0, U2. ring. Qed.
Lemma U1_U3 a s : U1 a s = s - a * U3 a s. Proof. unfold U1, U3. ring. Qed.
Lemma U2_zero s : U2 0 s = s * s / 2.
Proof. unfold U2. rewrite !Rmult_0_l. destruct stumpff_0 as [_ ->]. field. Qed.
Lemma U3_zero s : U3 0 s = s * s * s / 6.
Proof. unfold U3. rewrite !Rmult_0_l. destruct stumpff_0 as [-> _]. field. Qed.

Lemma dU2 a s : is_derive (U2 a) s (U1 a s).
Proof.
  rewrite U1_U3. destruct (Rtotal_order a 0) as [H|[->|H]].
  - assert (Ha : 0 < - a) by lra. pose proof (sqrt_lt_R0 _ Ha) as Q. pose proof (sqrt_sqrt (- a) ltac:(lra)) as S.
    apply (is_derive_ext (fun s => (cosh (sqrt (- a) * s) - 1) / (- a))); [intros; symmetry; apply U2_neg; exact H|].
    rewrite U3_neg by exact H. set (k := sqrt (- a)) in *. replace a with (- (k * k)) by lra.
    auto_derive; [nra|]. field. lra.
  - apply (is_derive_ext (fun s => s * s / 2)); [intros; symmetry; apply U2_zero|].
    auto_derive; [exact I|]. field.
  - pose proof (sqrt_lt_R0 _ H) as Q. pose proof (sqrt_sqrt a ltac:(lra)) as S.
    apply (is_derive_ext (fun s => (1 - cos (sqrt a * s)) / a)); [intros; symmetry; apply U2_pos; exact H|].
    rewrite U3_pos by exact H. set (k := sqrt a) in *. replace a with (k * k) by lra.
    auto_derive; [nra|]. field. lra.
Qed.
Lemma dU3 a s : is_derive (U3 a) s (U2 a s).
Proof.
  destruct (Rtotal_order a 0) as [H|[->|H]].
  - assert (Ha : 0 < - a) by lra. pose proof (sqrt_lt_R0 _ Ha) as Q. pose proof (sqrt_sqrt (- a) ltac:(lra)) as S.
    apply (is_derive_ext (fun s => (sinh (sqrt (- a) * s) - sqrt (- a) * s) / (sqrt (- a) ^ 3))); [intros; symmetry; apply U3_neg; exact H|].
    rewrite U2_neg by exact H. set (k := sqrt (- a)) in *. replace (- a) with (k * k) by lra.
    auto_derive; [nra|]. field. lra.
  - apply (is_derive_ext (fun s => s * s * s / 6)); [intros; symmetry; apply U3_zero|]. rewrite U2_zero.
    auto_derive; [exact I|]. field.
  - pose proof (sqrt_lt_R0 _ H) as Q. pose proof (sqrt_sqrt a ltac:(lra)) as S.
    apply (is_derive_ext (fun s => (sqrt a * s - sin (sqrt a * s)) / (sqrt a ^ 3))); [intros; symmetry; apply U3_pos; exact H|].
    rewrite U2_pos by exact H. set (k := sqrt a) in *. replace a with (k * k) by lra.
    auto_derive; [nra|]. field. lra.
Qed.
Lemma dU1 a s : is_derive (U1 a) s (U0 a s).
Proof.
  apply (is_derive_ext (fun s => s - a * U3 a s)); [intros; symmetry; apply U1_U3|]. rewrite U0_U2.
  apply der_minus; [apply der_id|]. apply der_scal, dU3.
Qed.
Lemma dU0 a s : is_derive (U0 a) s (- a * U1 a s).
Proof.
  apply (is_derive_ext (fun s => 1 - a * U2 a s)); [intros; symmetry; apply U0_U2|].
  replace (- a * U1 a s) with (0 - a * U1 a s) by ring.
  apply der_minus; [apply der_const|]. apply der_scal, dU2.
Qed.

Lemma kepDS_U DS DT r0 vr0 al mu : kepDS DS DT r0 vr0 al mu = - sqrt mu * DT + r0 * vr0 / sqrt mu * U2 al DS + (1 - al * r0) * U3 al DS + r0 * DS.
Proof. unfold kepDS, U2, U3, Rdiv. ring. Qed.
Lemma d_kepDS_U DS r0 vr0 al mu : d_kepDS DS r0 vr0 al mu = r0 * vr0 / sqrt mu * U1 al DS + (1 - al * r0) * U2 al DS + r0.
Proof. unfold d_kepDS, U1, U2, Rdiv. ring. Qed.
Lemma der_kepDS DT r0 vr0 al mu : first_derivative (fun s => kepDS s DT r0 vr0 al mu) (fun s => d_kepDS s r0 vr0 al mu).
Proof.
  intros s. eapply is_derive_ext; [intros t; symmetry; apply kepDS_U|]. rewrite d_kepDS_U.
  replace (r0 * vr0 / sqrt mu * U1 al s + (1 - al * r0) * U2 al s + r0) with (0 + r0 * vr0 / sqrt mu * U1 al s + (1 - al * r0) * U2 al s + r0 * 1) by ring.
  repeat apply der_plus.
  - apply der_const.
  - apply der_scal, dU2.
  - apply der_scal, dU3.
  - apply der_scal, der_id.
Qed.
(** the second derivative *)
Lemma der2_kepDS r0 vr0 al mu s : is_derive (fun s => d_kepDS s r0 vr0 al mu) s (r0 * vr0 / sqrt mu * U0 al s + (1 - al * r0) * U1 al s).
Proof.
  eapply is_derive_ext; [intros t; symmetry; apply d_kepDS_U|].
  replace (r0 * vr0 / sqrt mu * U0 al s + (1 - al * r0) * U1 al s) with (r0 * vr0 / sqrt mu * U0 al s + (1 - al * r0) * U1 al s + 0) by ring.
  repeat apply der_plus.
  - apply der_scal, dU1.
  - apply der_scal, dU2.
  - apply der_const.
Qed.
Lemma dd_kepDS_wrong r0 vr0 al mu : al * r0 <> 1 -> ~ is_derive (fun s => d_kepDS s r0 vr0 al mu) 0 (dd_kepDS 0 r0 vr0 al mu).
Proof.
  intros N H. pose proof (is_derive_unique _ _ _ H) as E. rewrite (is_derive_unique _ _ _ (der2_kepDS r0 vr0 al mu 0)) in E.
  unfold dd_kepDS, U0, U1 in E. rewrite !Rmult_0_r, !Rmult_0_l in E. lra.
Qed.

(** ** Power series *)
Lemma fact_le_2k k : (fact k <= fact (2 * k))%nat.
Proof. apply fact_le. lia. Qed.
Lemma term_le z k m : (k <= m)%nat -> Rabs (z ^ k * / INR (fact m)) <= Rabs z ^ k * / INR (fact k).
Proof.
  intros L. rewrite Rabs_mult, <- RPow_abs. pose proof (INR_fact_lt_0 m). pose proof (INR_fact_lt_0 k).
  rewrite (Rabs_right (/ INR (fact m))) by (left; apply Rinv_0_lt_compat; assumption).
  apply Rmult_le_compat_l; [apply pow_le, Rabs_pos|]. apply Rinv_le_contravar; [assumption|]. apply le_INR, fact_le. exact L.
Qed.
Lemma ex_fact z (g : nat -> nat) : (forall k, (k <= g k)%nat) -> ex_series (fun k => z ^ k * / INR (fact (g k))).
Proof.
  intros G. apply (ex_series_le (V := R_CompleteNormedModule)) with (b := fun k => Rabs z ^ k * / INR (fact k)).
  - intros k. apply term_le, G.
  - exists (exp (Rabs z)). pose proof (is_exp_Reals (Rabs z)) as E. unfold is_pseries in E.
    eapply is_series_ext; [|exact E]. intros n. cbn. rewrite pow_n_pow. reflexivity.
Qed.
Lemma exp_split y : is_series (fun k => (y * y) ^ k * / INR (fact (2 * k))) (cosh y) /\
  exists s, is_series (fun k => (y * y) ^ k * / INR (fact (2 * k + 1))) s /\ sinh y = y * s.
Proof.
  destruct (ex_fact (y * y) (fun k => 2 * k)%nat) as [c Hc]; [intros; lia|].
  destruct (ex_fact (y * y) (fun k => 2 * k + 1)%nat) as [s Hs]; [intros; lia|].
  assert (E : forall t, t * t = y * y -> exp t = c + t * s).
  { intros t Ht. rewrite exp_Reals. apply is_pseries_unique. apply (is_pseries_odd_even (fun n => / INR (fact n))).
    - apply is_pseries_R. eapply is_series_ext; [|exact Hc]. intros n. replace (t ^ 2) with (y * y) by (rewrite <- Ht; ring). cbn -[fact pow]. apply Rmult_comm.
    - apply is_pseries_R. eapply is_series_ext; [|exact Hs]. intros n. replace (t ^ 2) with (y * y) by (rewrite <- Ht; ring). cbn -[fact pow]. apply Rmult_comm. }
  pose proof (E y eq_refl) as E1. pose proof (E (- y) ltac:(ring)) as E2. split.
  - replace (cosh y) with c; [exact Hc|]. unfold cosh. lra.
  - exists s. split; [exact Hs|]. unfold sinh. lra.
Qed.
Lemma cos_series y : is_series (fun k => (-1) ^ k / INR (fact (2 * k)) * (y * y) ^ k) (cos y).
Proof.
  unfold cos. destruct (exist_cos (Rsqr y)) as [l H]. cbn. apply is_series_Reals. exact H.
Qed.
Lemma sin_series y : exists s, is_series (fun k => (-1) ^ k / INR (fact (2 * k + 1)) * (y * y) ^ k) s /\ sin y = y * s.
Proof.
  unfold sin. destruct (exist_sin (Rsqr y)) as [l H]. cbn. exists l. split; [|reflexivity]. apply is_series_Reals. exact H.
Qed.
Lemma series_tail (a : nat -> R) l : is_series a l -> is_series (fun k => a (S k)) (l - a O).
Proof. intros H. apply (is_series_incr_1 (V := R_NormedModule) a (l - a O)). assert (E : forall m, m = l -> is_series a m) by (intros m ->; exact H). apply E. change (l - a O + a O = l). ring. Qed.
Lemma series_scale (a b : nat -> R) c l m : is_series a l -> (forall k, b k = c * a k) -> m = c * l -> is_series b m.
Proof.
  intros H E ->. apply (is_series_ext (fun k => c * a k)); [intros; symmetry; apply E|].
  apply (is_series_scal (V := R_NormedModule) c a l H).
Qed.

Lemma stumpff_c_series x : is_pseries stumpff_c_coef x (stumpff_c x).
Proof.
  unfold stumpff_c, stumpff_c_coef. destruct (Rlt_dec 0 x) as [H|H]; [|destruct (Rlt_dec x 0) as [H2|H2]].
  - apply is_pseries_R. pose proof (series_tail _ _ (cos_series (sqrt x))) as T.
    rewrite (sqrt_sqrt x) in T by lra. eapply (series_scale _ _ (- / x)); [exact T| |].
    + intros k. cbv beta. replace (2 * S k)%nat with (2 * k + 2)%nat by lia. pose proof (INR_fact_neq_0 (2 * k + 2)).
      rewrite <- !tech_pow_Rmult. field. split; (assumption || lra).
    + cbn. field. lra.
  - apply is_pseries_R. destruct (exp_split (sqrt (- x))) as [T _]. apply series_tail in T.
    rewrite (sqrt_sqrt (- x)) in T by lra. eapply (series_scale _ _ (/ - x)); [exact T| |].
    + intros k. cbv beta. replace (2 * S k)%nat with (2 * k + 2)%nat by lia. pose proof (INR_fact_neq_0 (2 * k + 2)).
      replace (- x) with (-1 * x) by ring. rewrite Rpow_mult_distr, <- !tech_pow_Rmult. field. split; (assumption || lra).
    + cbn. field. lra.
  - assert (x = 0) by lra. subst x. replace (1 / 2) with ((-1) ^ 0 / INR (fact (2 * 0 + 2))) by (cbn; field).
    apply (is_pseries_0 (fun k => (-1) ^ k / INR (fact (2 * k + 2)))).
Qed.
Lemma stumpff_s_series x : is_pseries stumpff_s_coef x (stumpff_s x).
Proof.
  unfold stumpff_s, stumpff_s_coef. destruct (Rlt_dec 0 x) as [H|H]; [|destruct (Rlt_dec x 0) as [H2|H2]].
  - apply is_pseries_R. destruct (sin_series (sqrt x)) as [l [T E]]. apply series_tail in T. pose proof (sqrt_lt_R0 x H) as Q.
    pose proof (sqrt_sqrt x ltac:(lra)) as QQ. rewrite QQ in T. eapply (series_scale _ _ (- / x)); [exact T| |].
    + intros k. cbv beta. replace (2 * S k + 1)%nat with (2 * k + 3)%nat by lia. pose proof (INR_fact_neq_0 (2 * k + 3)).
      rewrite <- !tech_pow_Rmult. field. split; (assumption || lra).
    + rewrite E. cbn. rewrite <- QQ at 6. field. lra.
  - apply is_pseries_R. assert (Hx : 0 < - x) by lra. destruct (exp_split (sqrt (- x))) as [_ [l [T E]]]. apply series_tail in T. pose proof (sqrt_lt_R0 _ Hx) as Q.
    rewrite rpow32 by exact Hx.
    pose proof (sqrt_sqrt (- x) ltac:(lra)) as QQ. rewrite QQ in T. eapply (series_scale _ _ (/ - x)); [exact T| |].
    + intros k. cbv beta. replace (2 * S k + 1)%nat with (2 * k + 3)%nat by lia. pose proof (INR_fact_neq_0 (2 * k + 3)).
      replace (- x) with (-1 * x) by ring. rewrite Rpow_mult_distr, <- !tech_pow_Rmult. field. split; (assumption || lra).
    + rewrite E. cbn. rewrite <- QQ at 6. field. lra.
  - assert (x = 0) by lra. subst x. replace (1 / 6) with ((-1) ^ 0 / INR (fact (2 * 0 + 3))) by (cbn; field).
    apply (is_pseries_0 (fun k => (-1) ^ k / INR (fact (2 * k + 3)))).
Qed.
