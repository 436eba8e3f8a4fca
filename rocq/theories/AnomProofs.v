(** * Proofs: anomaly conversions *)
From Coq Require Import Reals Lra Lia.
From Coquelicot Require Import Coquelicot.
From Verif Require Import Outcome RealLib KepModel KepSpec KepProofs.
Open Scope R_scope.

Lemma sqrt_inv_pair x y : 0 < x -> 0 < y -> sqrt (x / y) * sqrt (y / x) = 1 /\ 0 < sqrt (x / y) /\ sqrt (x / y) * sqrt (x / y) = x / y.
Proof.
  intros Hx Hy. assert (0 < x / y) by (apply Rdiv_lt_0_compat; lra). assert (0 < y / x) by (apply Rdiv_lt_0_compat; lra).
  split; [|split; [apply sqrt_lt_R0; assumption|apply sqrt_sqrt; lra]].
  rewrite <- sqrt_mult by lra. replace (x / y * (y / x)) with 1 by (field; lra). apply sqrt_1.
Qed.
Lemma tan_half_2atan t : tan (2 * atan t / 2) = t.
Proof. replace (2 * atan t / 2) with (atan t) by field. apply tan_atan. Qed.

(** a scaled half-angle map 2 atan (q tan (x/2)) *)
Definition half (q x : R) : R := 2 * atan_ktan q (x / 2).
Lemma cos_half_nz x : - PI < x < PI -> cos (x / 2) <> 0. Proof. intros H. apply Rgt_not_eq, cos_gt_0; lra. Qed.
Lemma half_reg q x : - PI < x < PI -> half q x = 2 * atan (q * tan (x / 2)).
Proof. intros H. unfold half, atan_ktan. destruct (Req_EM_T (cos (x / 2)) 0) as [Z|_]; [exfalso; exact (cos_half_nz x H Z)|reflexivity]. Qed.
Lemma half_PI q : half q PI = PI.
Proof. unfold half, atan_ktan. rewrite cos_PI2, sin_PI2. destruct (Req_EM_T 0 0) as [_|Z]; [|exfalso; apply Z; reflexivity]. destruct (Rlt_dec 1 0); lra. Qed.
Lemma one_turn_case x : - PI < x <= PI -> - PI < x < PI \/ x = PI. Proof. intros H. destruct (Rle_lt_or_eq_dec x PI); [lra|left; lra|right; assumption]. Qed.
Lemma half_inv q p x : q * p = 1 -> - PI < x <= PI -> half q (half p x) = x.
Proof.
  intros E H. destruct (one_turn_case x H) as [H'| ->]; [|rewrite !half_PI; reflexivity].
  rewrite (half_reg p x H'), half_reg by apply two_atan_bound. rewrite tan_half_2atan, <- Rmult_assoc, E, Rmult_1_l. apply two_atan_tan. exact H'.
Qed.
Lemma half_range q x : - PI < x < PI -> - PI < half q x < PI. Proof. intros H. rewrite (half_reg q x H). apply two_atan_bound. Qed.
Lemma half_range_c q x : - PI < x <= PI -> - PI < half q x <= PI.
Proof. intros H. destruct (one_turn_case x H) as [H'| ->]; [pose proof (half_range q x H'); lra|]. rewrite half_PI. pose proof PI_RGT_0. lra. Qed.
(** for every real number *)
Lemma half_cases q x : (cos (x / 2) <> 0 /\ half q x = 2 * atan (q * tan (x / 2))) \/ (cos (x / 2) = 0 /\ cos x = -1 /\ sin x = 0 /\ (half q x = PI \/ half q x = - PI)).
Proof.
  unfold half, atan_ktan. destruct (Req_EM_T (cos (x / 2)) 0) as [Z|Z]; [right|left; split; [exact Z|reflexivity]]. split; [exact Z|].
  assert (C : cos x = 2 * cos (x / 2) * cos (x / 2) - 1) by (rewrite <- cos_2a_cos; f_equal; field). assert (S : sin x = 2 * sin (x / 2) * cos (x / 2)) by (rewrite <- sin_2a; f_equal; field).
  rewrite C, S, Z. split; [ring|]. split; [ring|]. destruct (Rlt_dec (sin (x / 2)) 0); [right|left]; field.
Qed.
Lemma half_bound q x : - PI <= half q x <= PI.
Proof. destruct (half_cases q x) as [[_ ->]|[_ [_ [_ H]]]]; [pose proof (two_atan_bound (q * tan (x / 2))); lra|pose proof PI_RGT_0; destruct H as [-> | ->]; lra]. Qed.
Lemma cos_sin_tan x : cos (x / 2) <> 0 -> cos x = (1 - tan (x / 2) * tan (x / 2)) / (1 + tan (x / 2) * tan (x / 2)) /\ sin x = 2 * tan (x / 2) / (1 + tan (x / 2) * tan (x / 2)).
Proof.
  intros Z. assert (C : cos x = cos (x / 2) * cos (x / 2) - sin (x / 2) * sin (x / 2)) by (rewrite <- cos_2a; f_equal; field). assert (S : sin x = 2 * sin (x / 2) * cos (x / 2)) by (rewrite <- sin_2a; f_equal; field).
  pose proof (sin2_cos2 (x / 2)) as U. unfold Rsqr in U. rewrite C, S. unfold tan. set (c := cos (x / 2)) in *. set (s := sin (x / 2)) in *.
  assert (D : 1 + s / c * (s / c) = / (c * c)). { replace (1 + s / c * (s / c)) with ((s * s + c * c) / (c * c)) by (field; exact Z). rewrite U. unfold Rdiv. ring. }
  rewrite D. split; field; exact Z.
Qed.
Lemma half_odd q x : half q (- x) = - half q x.
Proof.
  unfold half, atan_ktan. replace (- x / 2) with (- (x / 2)) by field. rewrite tan_neg, cos_neg, sin_neg. destruct (Req_EM_T (cos (x / 2)) 0) as [Z|Z].
  { pose proof (sin2_cos2 (x / 2)) as S. unfold Rsqr in S. rewrite Z in S. assert (sin (x / 2) <> 0) by (intros K; rewrite K in S; lra).
    destruct (Rlt_dec (- sin (x / 2)) 0); destruct (Rlt_dec (sin (x / 2)) 0); lra. }
  replace (q * - tan (x / 2)) with (- (q * tan (x / 2))) by ring. rewrite atan_opp. ring.
Qed.
Lemma half_lt q x y : 0 < q -> - PI < x -> x < y -> y <= PI -> half q x < half q y.
Proof.
  intros Q Hx Hxy Hy. destruct (one_turn_case y) as [Hy'| ->]; [lra| |rewrite half_PI; apply half_range; lra]. rewrite !half_reg by lra. apply Rmult_lt_compat_l; [lra|]. apply atan_increasing.
  apply Rmult_lt_compat_l; [exact Q|]. apply tan_half_lt; lra.
Qed.

(** ** ellipse *)
Section Ell.
Variable e : R. Hypothesis He : 0 <= e < 1.
Let q := sqrt ((1 + e) / (1 - e)).
Let p := sqrt ((1 - e) / (1 + e)).
Lemma qp : q * p = 1 /\ 0 < q /\ q * q = (1 + e) / (1 - e). Proof. apply sqrt_inv_pair; lra. Qed.
Lemma pq : p * q = 1 /\ 0 < p /\ p * p = (1 - e) / (1 + e). Proof. apply sqrt_inv_pair; lra. Qed.
Lemma e2f_half E : e2f E e = Some (half q E). Proof. unfold e2f. destruct (Rle_dec 1 e); [lra|reflexivity]. Qed.
Lemma f2e_half f : f2e f e = Some (half p f). Proof. unfold f2e. destruct (Rle_dec 1 e); [lra|reflexivity]. Qed.
Lemma e2m_eq E : e2m E e = Some (E - e * sin E). Proof. unfold e2m. destruct (Rle_dec 1 e); [lra|reflexivity]. Qed.
Lemma q_sqrt : q * (1 - e) = sqrt (1 - e * e).
Proof.
  destruct qp as (_ & P & Q). symmetry. apply sqrt_lem_1; [nra| |].
  - apply Rmult_le_pos; lra.
  - replace (q * (1 - e) * (q * (1 - e))) with (q * q * ((1 - e) * (1 - e))) by ring. rewrite Q. field. lra.
Qed.
Lemma ell_point E : same_point_ellipse e E (half q E).
Proof.
  unfold same_point_ellipse. destruct (half_cases q E) as [[Z ->]|[_ [C [S H]]]].
  - destruct (cos_sin_tan E Z) as [C S]. rewrite cos_2atan, sin_2atan, C, S.
    set (t := tan (E / 2)). destruct qp as (_ & P & Q). rewrite <- q_sqrt.
    replace (q * t * (q * t)) with (q * q * (t * t)) by ring. rewrite Q.
    assert (0 <= t * t) by nra. split; field; repeat split; nra.
  - rewrite C, S. destruct H as [-> | ->]; rewrite ?cos_neg, ?sin_neg, cos_PI, sin_PI; lra.
Qed.
Lemma ell_point_back f : same_point_ellipse e (half p f) f.
Proof.
  unfold same_point_ellipse. destruct (half_cases p f) as [[Z ->]|[_ [C [S H]]]].
  - destruct (cos_sin_tan f Z) as [C S]. rewrite cos_2atan, sin_2atan, C, S.
    set (t := tan (f / 2)). destruct pq as (PQ & P & Q). rewrite <- q_sqrt.
    assert (E1 : q * p = 1) by (rewrite Rmult_comm; exact PQ). replace (p * t * (p * t)) with (p * p * (t * t)) by ring.
    replace (q * (1 - e) * (2 * (p * t) / (1 + p * p * (t * t)))) with ((q * p) * ((1 - e) * (2 * t) / (1 + p * p * (t * t)))) by (field; nra). rewrite E1, Q.
    assert (0 <= t * t) by nra. split; field; repeat split; nra.
  - rewrite C, S. destruct H as [-> | ->]; rewrite ?cos_neg, ?sin_neg, cos_PI, sin_PI; lra.
Qed.

(** Kepler's equation *)
Definition kep (E : R) : R := E - e * sin E.
Lemma kep_lt x y : x < y -> kep x < kep y.
Proof.
  apply (incr_of_derive kep (fun E => 1 - e * cos E)).
  - intros z. unfold kep. auto_derive; [exact I|ring].
  - intros z. pose proof (COS_bound z). nra.
Qed.
Lemma kep_PI : kep PI = PI /\ kep (- PI) = - PI.
Proof. unfold kep. rewrite sin_neg, sin_PI. split; ring. Qed.
Lemma kep_range E : - PI < E <= PI -> - PI < kep E <= PI.
Proof.
  intros [A B]. destruct kep_PI as [P M]. split.
  - rewrite <- M at 1. apply kep_lt. exact A.
  - rewrite <- P. apply (incr_le kep kep_lt). exact B.
Qed.
Lemma kep_range_inv E : - PI < kep E <= PI -> - PI < E <= PI.
Proof.
  intros [A B]. destruct kep_PI as [P M]. split.
  - apply (incr_lt_inv kep kep_lt). rewrite M. exact A.
  - destruct (Rle_dec E PI); [assumption|]. assert (kep PI < kep E) by (apply kep_lt; lra). lra.
Qed.

(** the bracket *)
Lemma guess_close s c Mc : s * s + c * c = 1 -> Rabs (m2e_guess Mc s c e - Mc) <= 2.
Proof.
  intros U. unfold m2e_guess.
  replace (Mc + e * s + e * e * s * c + e * e * e * s * (1.5 * c * c - 0.5) - Mc) with (e * (s * (1 + e * c + e * e * (1.5 * (c * c) - 0.5)))) by ring.
  assert (S1 : Rabs s <= 1) by (apply Rabs_le; nra).
  assert (SC : Rabs s * Rabs c <= / 2).
  { assert (A : Rabs s * Rabs s = s * s) by (rewrite <- Rabs_mult; apply Rabs_right; nra).
    assert (B : Rabs c * Rabs c = c * c) by (rewrite <- Rabs_mult; apply Rabs_right; nra). pose proof (Rle_0_sqr (Rabs s - Rabs c)) as Z. unfold Rsqr in Z. nra. }
  assert (C1 : Rabs c <= 1) by (apply Rabs_le; nra).
  rewrite !Rabs_mult. rewrite (Rabs_right e) by lra.
  set (w := Rabs (1 + e * c + e * e * (1.5 * (c * c) - 0.5))).
  enough (Rabs s * w <= 2) by (pose proof (Rabs_pos s); assert (0 <= w) by apply Rabs_pos; assert (0 <= Rabs s * w) by (apply Rmult_le_pos; assumption); nra).
  assert (W : w <= 1 + Rabs c + Rabs (1.5 * (c * c) - 0.5)).
  { unfold w. eapply Rle_trans; [apply Rabs_triang|]. apply Rplus_le_compat.
    - eapply Rle_trans; [apply Rabs_triang|]. rewrite Rabs_R1, Rabs_mult, (Rabs_right e) by lra. pose proof (Rmult_le_pos (Rabs c) (1 - e) (Rabs_pos c) ltac:(lra)). lra.
    - rewrite Rabs_mult, (Rabs_right (e * e)) by nra. pose proof (Rmult_le_pos (Rabs (1.5 * (c * c) - 0.5)) (1 - e * e) (Rabs_pos _) ltac:(nra)). lra. }
  pose proof (Rabs_pos s) as PS. pose proof (Rabs_pos c) as PC.
  assert (B : Rabs c * Rabs c = c * c) by (rewrite <- Rabs_mult; apply Rabs_right; nra).
  destruct (Rle_dec 0.5 (1.5 * (c * c) - 0.5)) as [H|H].
  - rewrite (Rabs_right (1.5 * (c * c) - 0.5)) in W by lra. rewrite <- B in W.
    assert (Rabs s * (Rabs c * Rabs c) <= / 2) by nra. nra.
  - assert (Rabs (1.5 * (c * c) - 0.5) <= 0.5) by (apply Rabs_le; nra). nra.
Qed.
Lemma guess_brackets s c Mc : s * s + c * c = 1 -> let IG := m2e_guess Mc s c e in kepE (IG - PI) Mc e < 0 < kepE (IG + PI) Mc e.
Proof.
  intros U IG. pose proof (guess_close s c Mc U) as G. fold IG in G. apply Rabs_le_between in G.
  assert (P3 : 3 < PI) by (pose proof PI2_3_2; lra).
  unfold kepE. pose proof (SIN_bound (IG - PI)). pose proof (SIN_bound (IG + PI)). split; nra.
Qed.
End Ell.

(** ** the solver *)
Section Solver.
Variable newton : (R -> R * R) -> R -> R -> R -> option R. Hypothesis Nok : newton_ok newton.

Lemma m2e_solves e M : 0 <= e < 1 -> exists E, m2e newton M e = Ret (Some E) /\ kep e E = atan2 (sin M) (cos M).
Proof.
  intros He. unfold m2e. destruct (Rle_dec 1 e); [lra|]. cbv zeta.
  set (Mc := atan2 (sin M) (cos M)). set (IG := m2e_guess Mc (sin M) (cos M) e).
  pose proof (sin2_cos2 M) as U. unfold Rsqr in U.
  pose proof (guess_brackets e He (sin M) (cos M) Mc U) as [B1 B2]. fold IG in B1, B2. pose proof PI_RGT_0.
  destruct (Nok (fun E => (kepE E Mc e, d_kepE E e)) IG (IG - PI) (IG + PI)) as [x [-> [_ Rx]]]; [lra| |cbn; lra|].
  - intros x. apply (der_kepE Mc e).
  - exists x. split; [reflexivity|]. cbn in Rx. unfold kepE in Rx. unfold kep. lra.
Qed.
Lemma m2e_turns e M : 0 <= e < 1 -> exists E k, m2e newton M e = Ret (Some E) /\ - PI < E <= PI /\ e2m E e = Some (M + 2 * IZR k * PI).
Proof.
  intros He. destruct (m2e_solves e M He) as [E [H1 H2]]. destruct (atan2_crop M) as [k [K1 K2]].
  exists E, k. split; [exact H1|]. rewrite K1 in H2. split.
  - apply (kep_range_inv e He). rewrite H2. exact K2.
  - rewrite e2m_eq by exact He. f_equal. exact H2.
Qed.
Lemma m2e_of_e2m e E k : 0 <= e < 1 -> - PI < E <= PI -> m2e newton (E - e * sin E + 2 * IZR k * PI) e = Ret (Some E).
Proof.
  intros He H. destruct (m2e_solves e (E - e * sin E + 2 * IZR k * PI) He) as [E' [H1 H2]].
  rewrite period_Z_sin, period_Z_cos, atan2_sin_cos in H2 by (apply (kep_range e He E H)).
  rewrite H1. do 2 f_equal. apply (incr_inj (kep e) (kep_lt e He)). exact H2.
Qed.
Lemma m2e_lt e M M' E E' : 0 <= e < 1 -> - PI < M -> M < M' -> M' <= PI -> m2e newton M e = Ret (Some E) -> m2e newton M' e = Ret (Some E') -> E < E'.
Proof.
  intros He A B C H1 H2. destruct (m2e_solves e M He) as [x [X1 X2]]. destruct (m2e_solves e M' He) as [y [Y1 Y2]].
  rewrite X1 in H1. rewrite Y1 in H2. injection H1 as ->. injection H2 as ->.
  rewrite atan2_sin_cos in X2, Y2 by lra. apply (incr_lt_inv (kep e) (kep_lt e He)). lra.
Qed.
Lemma m2e_odd e M E E' : 0 <= e < 1 -> - PI < M < PI -> m2e newton M e = Ret (Some E) -> m2e newton (- M) e = Ret (Some E') -> E' = - E.
Proof.
  intros He A H1 H2. destruct (m2e_solves e M He) as [x [X1 X2]]. destruct (m2e_solves e (- M) He) as [y [Y1 Y2]].
  rewrite X1 in H1. rewrite Y1 in H2. injection H1 as ->. injection H2 as ->.
  rewrite atan2_sin_cos in X2, Y2 by lra. apply (incr_inj (kep e) (kep_lt e He)). rewrite Y2. unfold kep in *. rewrite sin_neg. lra.
Qed.

(** composition with the true anomaly *)
Lemma m2f_of_f2m e f k : 0 <= e < 1 -> - PI < f <= PI -> exists M, f2m f e = Some M /\ - PI < M <= PI /\ m2f newton (M + 2 * IZR k * PI) e = Ret (Some f).
Proof.
  intros He H. unfold f2m, m2f. rewrite f2e_half by exact He. destruct (Rle_dec 1 e); [lra|]. rewrite e2m_eq by exact He.
  set (E := half (sqrt ((1 - e) / (1 + e))) f). assert (HE : - PI < E <= PI) by (apply half_range_c; exact H).
  exists (E - e * sin E). split; [reflexivity|]. split.
  - destruct (kep_PI e) as [P1 P2]. split; [rewrite <- P2; apply (kep_lt e He); lra|]. destruct (Rle_lt_or_eq_dec E PI (proj2 HE)) as [L|L]; [left; rewrite <- P1; apply (kep_lt e He); lra|right; rewrite L; exact P1].
  - rewrite m2e_of_e2m by (assumption || lra). rewrite e2f_half by exact He. do 2 f_equal. apply half_inv; [apply qp; exact He|exact H].
Qed.
Lemma f2m_of_m2f e M : 0 <= e < 1 -> - PI < M <= PI -> exists f, m2f newton M e = Ret (Some f) /\ - PI < f <= PI /\ f2m f e = Some M.
Proof.
  intros He H. unfold f2m, m2f. destruct (Rle_dec 1 e); [lra|]. destruct (m2e_solves e M He) as [E [-> K]].
  rewrite atan2_sin_cos in K by lra. rewrite e2f_half by exact He.
  assert (HE : - PI < E <= PI).
  { destruct (kep_PI e) as [P1 P2]. split; [apply (incr_lt_inv (kep e) (kep_lt e He)); lra|]. destruct (Rle_lt_dec E PI) as [L|L]; [exact L|]. apply (kep_lt e He) in L. lra. }
  eexists. split; [reflexivity|]. split; [apply half_range_c; assumption|]. rewrite f2e_half by exact He. rewrite half_inv by (try apply pq; assumption).
  rewrite e2m_eq by exact He. f_equal. exact K.
Qed.
End Solver.

Lemma tanh_half h : let t := tanh (h / 2) in cosh h = (1 + t * t) / (1 - t * t) /\ sinh h = 2 * t / (1 - t * t).
Proof.
  cbv zeta. unfold tanh. pose proof (cosh_pos (h / 2)) as CP. pose proof (cosh_sinh_sq (h / 2)) as CS.
  assert (E1 : cosh h = cosh (h / 2) * cosh (h / 2) + sinh (h / 2) * sinh (h / 2)) by (rewrite <- cosh_plus; f_equal; field).
  assert (E2 : sinh h = sinh (h / 2) * cosh (h / 2) + cosh (h / 2) * sinh (h / 2)) by (rewrite <- sinh_plus; f_equal; field).
  rewrite E1, E2. clear E1 E2.
  set (c := cosh (h / 2)) in *. set (s := sinh (h / 2)) in *.
  assert (Q : 1 - s / c * (s / c) = / (c * c)) by (apply (Rmult_eq_reg_r (c * c)); [field_simplify; [lra|lra|lra]|nra]).
  rewrite Q. split; field; lra.
Qed.

(** ** hyperbola *)
Section Hyp.
Variable e : R. Hypothesis He : 1 < e.
Let q := sqrt ((1 + e) / (e - 1)).
Let p := sqrt ((e - 1) / (1 + e)).
Lemma hqp : q * p = 1 /\ 0 < q /\ q * q = (1 + e) / (e - 1). Proof. apply sqrt_inv_pair; lra. Qed.
Lemma hpq : p * q = 1 /\ 0 < p /\ p * p = (e - 1) / (1 + e). Proof. apply sqrt_inv_pair; lra. Qed.
Lemma zeta2f_half z : zeta2f z e = Some (half q z). Proof. unfold zeta2f. destruct (Rle_dec e 1); [lra|reflexivity]. Qed.
Lemma f2zeta_half f : f2zeta f e = Some (half p f). Proof. unfold f2zeta. destruct (Rle_dec e 1); [lra|reflexivity]. Qed.
Lemma h2f_eq h : h2f h e = Some (2 * atan (q * tanh (h / 2))). Proof. unfold h2f. destruct (Rle_dec e 1); [lra|reflexivity]. Qed.
Lemma f2h_eq f : f2h f e = Some (2 * atanh (p * tan (f / 2))). Proof. unfold f2h. destruct (Rle_dec e 1); [lra|reflexivity]. Qed.
Lemma h2n_eq h : h2n h e = Some (e * sinh h - h). Proof. unfold h2n. destruct (Rle_dec e 1); [lra|reflexivity]. Qed.
Lemma hq_sqrt : q * (e - 1) = sqrt (e * e - 1).
Proof.
  destruct hqp as (_ & P & Q). symmetry. apply sqrt_lem_1; [nra| |].
  - apply Rmult_le_pos; lra.
  - replace (q * (e - 1) * (q * (e - 1))) with (q * q * ((e - 1) * (e - 1))) by ring. rewrite Q. field. lra.
Qed.
Lemma h2f_f2h h : exists f, h2f h e = Some f /\ inside_asymptotes e f /\ f2h f e = Some h /\ same_point_hyperbola e h f.
Proof.
  rewrite h2f_eq. eexists. split; [reflexivity|]. destruct hqp as (QP & P & Q). destruct hpq as (PQ & _ & _).
  pose proof (tanh_bound (h / 2)) as T. set (t := tanh (h / 2)) in *.
  split; [|split].
  - split; [apply two_atan_bound|]. rewrite cos_2atan. replace (q * t * (q * t)) with (q * q * (t * t)) by ring. rewrite Q.
    assert (0 <= t * t < 1) by nra.
    replace (1 + e * ((1 - (1 + e) / (e - 1) * (t * t)) / (1 + (1 + e) / (e - 1) * (t * t)))) with (((1 + e) * (e - 1) * (1 - t * t)) / ((e - 1) + (1 + e) * (t * t))) by (field; split; nra).
    apply Rdiv_lt_0_compat; [|nra]. apply Rmult_lt_0_compat; [apply Rmult_lt_0_compat; lra|lra].
  - rewrite f2h_eq. rewrite tan_half_2atan, <- Rmult_assoc, PQ, Rmult_1_l. unfold t. rewrite atanh_tanh. f_equal. field.
  - assert (0 <= t * t < 1) by nra.
    assert (C : cosh h = (1 + t * t) / (1 - t * t) /\ sinh h = 2 * t / (1 - t * t)).
    { apply tanh_half. }
    destruct C as [C1 C2]. unfold same_point_hyperbola. rewrite C1, C2. rewrite cos_2atan, sin_2atan, <- hq_sqrt.
    replace (q * t * (q * t)) with (q * q * (t * t)) by ring. rewrite Q. split; field; repeat split; nra.
Qed.
Lemma f2h_h2f f : inside_asymptotes e f -> exists h, f2h f e = Some h /\ h2f h e = Some f.
Proof.
  intros [R A]. rewrite f2h_eq. eexists. split; [reflexivity|]. rewrite h2f_eq. destruct hqp as (QP & P & Q). destruct hpq as (PQ & PP & PPP).
  set (t := tan (f / 2)). replace (2 * atanh (p * t) / 2) with (atanh (p * t)) by field.
  assert (B : (p * t) * (p * t) < 1).
  { replace (p * t * (p * t)) with (p * p * (t * t)) by ring. rewrite PPP. rewrite (cos_of_tan f R) in A. fold t in A.
    assert (T0 : 0 <= t * t) by nra.
    assert (A2 : 0 < (1 + e * ((1 - t * t) / (1 + t * t))) * (1 + t * t)) by (apply Rmult_lt_0_compat; lra).
    replace ((1 + e * ((1 - t * t) / (1 + t * t))) * (1 + t * t)) with ((1 + e) - (e - 1) * (t * t)) in A2 by (field; lra).
    apply (Rmult_lt_reg_l (1 + e)); [lra|]. replace ((1 + e) * ((e - 1) / (1 + e) * (t * t))) with ((e - 1) * (t * t)) by (field; lra). lra. }
  rewrite tanh_atanh by (split; nra). rewrite <- Rmult_assoc, QP, Rmult_1_l. f_equal. apply two_atan_tan. exact R.
Qed.
Definition keph (h : R) : R := e * sinh h - h.
Lemma keph_lt x y : x < y -> keph x < keph y.
Proof.
  apply (incr_of_derive keph (fun h => e * cosh h - 1)).
  - intros z. unfold keph. auto_derive; [exact I|ring].
  - intros z. pose proof (cosh_ge1 z). nra.
Qed.
Lemma keph_neg h : keph (- h) = - keph h. Proof. unfold keph. rewrite sinh_neg. ring. Qed.
Lemma h2f_lt x y : x < y -> 2 * atan (q * tanh (x / 2)) < 2 * atan (q * tanh (y / 2)).
Proof.
  intros H. apply Rmult_lt_compat_l; [lra|]. apply atan_increasing. apply Rmult_lt_compat_l; [apply hqp|]. apply tanh_lt. lra.
Qed.
End Hyp.

Lemma exp_ge_pow2 (n : nat) : 2 ^ n <= exp (INR n).
Proof.
  induction n as [|n IH]; [cbn; rewrite exp_0; lra|]. rewrite S_INR, exp_plus. cbn [pow].
  pose proof (exp_ineq1 1 ltac:(lra)). pose proof (pow_lt 2 n ltac:(lra)). nra.
Qed.
Lemma sinh59 : 10 ^ 17 <= sinh 59 - 59.
Proof.
  unfold sinh. pose proof (exp_ge_pow2 59) as H. replace (INR 59) with 59 in H by (rewrite INR_IZR_INZ; reflexivity).
  assert (exp (Ropp 59) < 1) by (rewrite <- exp_0; apply exp_increasing; lra).
  assert (E2 : 2 ^ 59 = 576460752303423488) by (rewrite (pow_IZR 2 59); reflexivity).
  assert (E10 : 10 ^ 17 = 100000000000000000) by (rewrite (pow_IZR 10 17); reflexivity). lra.
Qed.
Section HSolver.
Variable newton : (R -> R * R) -> R -> R -> R -> option R. Hypothesis Nok : newton_ok newton.
Variable e : R. Hypothesis He : 1 < e.

(** the bracket contains the solution exactly when it contains the sign change *)
Definition reachable (N : R) : Prop := keph e (1 - 20 * PI) <= N <= keph e (1 + 20 * PI).
Lemma n2h_solves N : reachable N -> exists h, n2h newton N e = Ret (Some h) /\ keph e h = N.
Proof.
  intros [A B]. unfold n2h. destruct (Rle_dec e 1); [lra|]. cbv zeta. pose proof PI_RGT_0.
  destruct (Nok (fun H => (kepH H N e, d_kepH H e)) 1 (1 - 20 * PI) (1 + 20 * PI)) as [x [-> [_ Rx]]]; [lra| |cbn; unfold kepH; unfold keph in A, B; lra|].
  - intros x. apply (der_kepH N e).
  - exists x. split; [reflexivity|]. cbn in Rx. unfold kepH in Rx. unfold keph. lra.
Qed.
Lemma reachable_1e17 N : Rabs N <= 10 ^ 17 -> reachable N.
Proof.
  intros H. apply Rabs_le_between in H. unfold reachable. assert (P3 : 3 < PI) by (pose proof PI2_3_2; lra).
  assert (A : 10 ^ 17 <= keph e 59). { unfold keph. pose proof sinh59. assert (0 <= sinh 59) by (left; apply sinh_pos; lra). nra. }
  split.
  - apply Rle_trans with (keph e (Ropp 59)); [apply (incr_le _ (keph_lt e He)); lra|]. rewrite keph_neg. lra.
  - apply Rle_trans with (keph e 59); [lra|]. apply (incr_le _ (keph_lt e He)). lra.
Qed.
Lemma n2h_of_h2n h : reachable (keph e h) -> n2h newton (e * sinh h - h) e = Ret (Some h).
Proof.
  intros H. destruct (n2h_solves _ H) as [h' [E K]]. change (e * sinh h - h) with (keph e h). rewrite E. do 2 f_equal.
  apply (incr_inj _ (keph_lt e He)). exact K.
Qed.
(** outside, no point of the bracket solves the equation *)
Lemma unreachable_no_root N : ~ reachable N -> forall h, 1 - 20 * PI <= h <= 1 + 20 * PI -> kepH h N e <> 0.
Proof.
  intros H h [A B] E. apply H. unfold kepH in E. assert (K : keph e h = N) by (unfold keph; lra). rewrite <- K.
  split; apply (incr_le _ (keph_lt e He)); assumption.
Qed.
End HSolver.

(** the solver exists *)
Definition sup_root (f : R -> R * R) (g lo hi : R) : option R := Some (real (Lub_Rbar (fun x => lo <= x <= hi /\ fst (f x) <= 0))).
Lemma sup_root_ok : newton_ok sup_root.
Proof.
  intros f g lo hi G D [A B]. unfold sup_root. set (P := fun x => lo <= x <= hi /\ fst (f x) <= 0).
  destruct (Lub_Rbar_correct P) as [U L]. set (l := Lub_Rbar P) in *.
  assert (Plo : P lo) by (unfold P; lra).
  assert (H1 : Rbar_le lo l) by (apply U; exact Plo).
  assert (H2 : Rbar_le l hi) by (apply L; intros x [Hx _]; cbn; lra).
  destruct l as [l| |]; [|destruct H2|destruct H1]. cbn in H1, H2.
  exists l. split; [reflexivity|]. split; [lra|]. cbn [real].
  set (h := fun y => fst (f y)) in *. assert (C : continuity_pt h l) by (apply (derive_cont h (fun x => snd (f x)) D)).
  destruct (Rtotal_order (h l) 0) as [Hneg|[Hz|Hpos]]; [|exact Hz|]; exfalso.
  - assert (l < hi) by (destruct (Req_dec l hi) as [->|]; [unfold h in *; lra|lra]).
    destruct (C (- h l) ltac:(lra)) as [d [Hd Cd]]. set (x := Rmin hi (l + d / 2)).
    assert (X : l < x <= hi /\ x < l + d) by (unfold x; split; [split; [apply Rmin_glb_lt; lra|apply Rmin_l]|apply Rle_lt_trans with (l + d / 2); [apply Rmin_r|lra]]).
    assert (Hx : P x). { split; [lra|]. specialize (Cd x). unfold dist in Cd; cbn in Cd. unfold R_dist in Cd.
      assert (Q : Rabs (h x - h l) < - h l). { apply Cd. split; [split; [exact I|lra]|]. rewrite Rabs_right; lra. }
      apply Rabs_def2 in Q. unfold h in *. lra. }
    specialize (U x Hx). cbn in U. lra.
  - destruct (C (h l) Hpos) as [d [Hd Cd]].
    assert (Hb : Rbar_le l (l - d)); [|cbn in Hb; lra]. apply L. intros x Hx. cbn.
    destruct (Rle_dec x (l - d)); [assumption|]. exfalso. destruct Hx as [Hx1 Hx2]. specialize (U x (conj Hx1 Hx2)). cbn in U.
    destruct (Req_dec x l) as [->|Nx]; [unfold h in *; lra|].
    specialize (Cd x). unfold dist in Cd; cbn in Cd. unfold R_dist in Cd.
    assert (Q : Rabs (h x - h l) < h l). { apply Cd. split; [split; [exact I|lra]|]. rewrite Rabs_left; lra. }
    apply Rabs_def2 in Q. unfold h in *. lra.
Qed.

(** ** Statements in the form of the properties *)
Lemma ell_forward e E : 0 <= e < 1 -> one_turn E -> exists f, e2f E e = Some f /\ one_turn f /\ f2e f e = Some E /\ same_point_ellipse e E f.
Proof.
  intros He H. rewrite e2f_half by exact He. eexists. split; [reflexivity|]. split; [apply half_range_c; assumption|].
  rewrite f2e_half by exact He. rewrite half_inv by (try apply pq; assumption). split; [reflexivity|]. apply ell_point; exact He.
Qed.
Lemma ell_back e f : 0 <= e < 1 -> one_turn f -> exists E, f2e f e = Some E /\ one_turn E /\ e2f E e = Some f.
Proof.
  intros He H. rewrite f2e_half by exact He. eexists. split; [reflexivity|]. split; [apply half_range_c; assumption|].
  rewrite e2f_half by exact He. rewrite half_inv by (try apply qp; assumption). reflexivity.
Qed.
Lemma gud_forward e z : 1 < e -> one_turn z -> exists f, zeta2f z e = Some f /\ one_turn f /\ f2zeta f e = Some z.
Proof.
  intros He H. rewrite zeta2f_half by exact He. eexists. split; [reflexivity|]. split; [apply half_range_c; assumption|].
  rewrite f2zeta_half by exact He. rewrite half_inv by (try apply hpq; assumption). reflexivity.
Qed.
Lemma gud_back e f : 1 < e -> one_turn f -> exists z, f2zeta f e = Some z /\ one_turn z /\ zeta2f z e = Some f.
Proof.
  intros He H. rewrite f2zeta_half by exact He. eexists. split; [reflexivity|]. split; [apply half_range_c; assumption|].
  rewrite zeta2f_half by exact He. rewrite half_inv by (try apply hqp; assumption). reflexivity.
Qed.
(** the gudermannian is the one of the hyperbolic anomaly: tan (zeta/2) = tanh (H/2) *)
Lemma gud_hyp e z h f : 1 < e -> open_turn z -> tan (z / 2) = tanh (h / 2) -> (zeta2f z e = Some f <-> h2f h e = Some f).
Proof. intros He H E. rewrite zeta2f_half, h2f_eq by exact He. rewrite (half_reg _ z H). rewrite E. reflexivity. Qed.

Lemma inc_half q : 0 < q -> increasing_on one_turn (fun x => Some (half q x)).
Proof. intros Q x y fx fy [X1 X2] [Y1 Y2] L E1 E2. injection E1 as <-. injection E2 as <-. apply half_lt; assumption. Qed.
Lemma odd_half q : odd_on open_turn (fun x => Some (half q x)).
Proof. intros x _. eexists. split; [reflexivity|]. rewrite half_odd. reflexivity. Qed.
Lemma inc_ext dom (c d : R -> option R) : (forall x, c x = d x) -> increasing_on dom d -> increasing_on dom c.
Proof. intros E I x y fx fy. rewrite !E. apply I. Qed.
Lemma odd_ext dom (c d : R -> option R) : (forall x, c x = d x) -> odd_on dom d -> odd_on dom c.
Proof. intros E I x H. destruct (I x H) as [y ?]. exists y. rewrite !E. assumption. Qed.
Lemma f2h_odd e f : 1 < e -> inside_asymptotes e f -> exists h, f2h f e = Some h /\ f2h (- f) e = Some (- h).
Proof.
  intros He H. destruct (f2h_h2f e He f H) as [h [E1 E2]]. exists h. split; [exact E1|].
  assert (Q : h2f (- h) e = Some (- f)).
  { rewrite h2f_eq in * by exact He. injection E2 as <-. f_equal. replace (- h / 2) with (- (h / 2)) by field. rewrite tanh_neg.
    set (t := tanh (h / 2)). set (q := sqrt _). replace (q * - t) with (- (q * t)) by ring. rewrite atan_opp. ring. }
  destruct (h2f_f2h e He (- h)) as [f' [F1 [_ [F2 _]]]]. rewrite Q in F1. injection F1 as <-. exact F2.
Qed.

Lemma ell_monotone e : 0 <= e < 1 ->
  increasing_on one_turn (fun E => e2f E e) /\ increasing_on one_turn (fun f => f2e f e) /\ increasing_on anywhere (fun E => e2m E e) /\
  increasing_on one_turn (fun f => f2m f e) /\
  odd_on open_turn (fun E => e2f E e) /\ odd_on open_turn (fun f => f2e f e) /\ odd_on anywhere (fun E => e2m E e) /\ odd_on open_turn (fun f => f2m f e).
Proof.
  intros He. destruct (qp e He) as (_ & Q & _). destruct (pq e He) as (_ & P & _).
  assert (M : increasing_on anywhere (fun E => e2m E e)).
  { intros x y fx fy _ _ L. rewrite !e2m_eq by exact He. intros E1 E2. injection E1 as <-. injection E2 as <-. apply (kep_lt e He). exact L. }
  assert (F : forall f, f2m f e = e2m (half (sqrt ((1 - e) / (1 + e))) f) e).
  { intros f. unfold f2m. destruct (Rle_dec 1 e); [lra|]. rewrite f2e_half by exact He. reflexivity. }
  assert (OM : odd_on anywhere (fun E => e2m E e)).
  { intros x _. rewrite !e2m_eq by exact He. eexists. split; [reflexivity|]. rewrite sin_neg. f_equal. ring. }
  split; [eapply inc_ext; [intros; apply (e2f_half e He)|apply inc_half; exact Q]|].
  split; [eapply inc_ext; [intros; apply (f2e_half e He)|apply inc_half; exact P]|].
  split; [exact M|]. split.
  { intros x y fx fy [X1 X2] [Y1 Y2] L. rewrite !F. apply M; [exact I|exact I|]. apply half_lt; assumption. }
  split; [eapply odd_ext; [intros; apply (e2f_half e He)|apply odd_half]|].
  split; [eapply odd_ext; [intros; apply (f2e_half e He)|apply odd_half]|].
  split; [exact OM|].
  intros x _. rewrite !F. rewrite half_odd. apply OM. exact I.
Qed.
Lemma hyp_monotone e : 1 < e ->
  increasing_on one_turn (fun z => zeta2f z e) /\ increasing_on one_turn (fun f => f2zeta f e) /\ increasing_on anywhere (fun h => h2f h e) /\
  increasing_on (inside_asymptotes e) (fun f => f2h f e) /\ increasing_on anywhere (fun h => h2n h e) /\ increasing_on (inside_asymptotes e) (fun f => f2n f e) /\
  odd_on open_turn (fun z => zeta2f z e) /\ odd_on open_turn (fun f => f2zeta f e) /\ odd_on anywhere (fun h => h2f h e) /\
  odd_on (inside_asymptotes e) (fun f => f2h f e) /\ odd_on anywhere (fun h => h2n h e) /\ odd_on (inside_asymptotes e) (fun f => f2n f e).
Proof.
  intros He. destruct (hqp e He) as (_ & Q & _). destruct (hpq e He) as (_ & P & _).
  assert (IH : increasing_on anywhere (fun h => h2f h e)).
  { intros x y fx fy _ _ L. rewrite !h2f_eq by exact He. intros E1 E2. injection E1 as <-. injection E2 as <-. apply h2f_lt; assumption. }
  assert (IF : increasing_on (inside_asymptotes e) (fun f => f2h f e)).
  { intros x y fx fy X Y L E1 E2. destruct (f2h_h2f e He x X) as [h [A1 A2]]. destruct (f2h_h2f e He y Y) as [k [B1 B2]].
    rewrite A1 in E1. rewrite B1 in E2. injection E1 as <-. injection E2 as <-.
    destruct (Rtotal_order h k) as [H|[->|H]]; [exact H| |].
    - rewrite A2 in B2. injection B2 as ->. lra.
    - pose proof (IH _ _ _ _ I I H B2 A2). lra. }
  assert (IN : increasing_on anywhere (fun h => h2n h e)).
  { intros x y fx fy _ _ L. rewrite !h2n_eq by exact He. intros E1 E2. injection E1 as <-. injection E2 as <-. apply (keph_lt e He). exact L. }
  assert (OH : odd_on anywhere (fun h => h2f h e)).
  { intros x _. rewrite !h2f_eq by exact He. eexists. split; [reflexivity|]. f_equal. replace (- x / 2) with (- (x / 2)) by field. rewrite tanh_neg.
    set (t := tanh (x / 2)). set (q := sqrt _). replace (q * - t) with (- (q * t)) by ring. rewrite atan_opp. ring. }
  assert (ON : odd_on anywhere (fun h => h2n h e)).
  { intros x _. rewrite !h2n_eq by exact He. eexists. split; [reflexivity|]. rewrite sinh_neg. f_equal. ring. }
  split; [eapply inc_ext; [intros; apply (zeta2f_half e He)|apply inc_half; exact Q]|].
  split; [eapply inc_ext; [intros; apply (f2zeta_half e He)|apply inc_half; exact P]|].
  split; [exact IH|]. split; [exact IF|]. split; [exact IN|]. split.
  { intros x y fx fy X Y L. unfold f2n. destruct (Rle_dec e 1); [lra|].
    destruct (f2h_h2f e He x X) as [h [A1 _]]. destruct (f2h_h2f e He y Y) as [k [B1 _]]. rewrite A1, B1. apply IN; [exact I|exact I|].
    apply (IF x y h k X Y L A1 B1). }
  split; [eapply odd_ext; [intros; apply (zeta2f_half e He)|apply odd_half]|].
  split; [eapply odd_ext; [intros; apply (f2zeta_half e He)|apply odd_half]|].
  split; [exact OH|]. split; [intros x X; apply (f2h_odd e x He X)|]. split; [exact ON|].
  intros x X. unfold f2n. destruct (Rle_dec e 1); [lra|]. destruct (f2h_odd e x He X) as [h [A1 A2]]. rewrite A1, A2. apply ON. exact I.
Qed.
Lemma nan_regime newton e x :
  (1 <= e -> e2m x e = None /\ e2f x e = None /\ f2e x e = None /\ f2m x e = None /\ m2e newton x e = Ret None /\ m2f newton x e = Ret None) /\
  (e <= 1 -> zeta2f x e = None /\ f2zeta x e = None /\ h2n x e = None /\ h2f x e = None /\ f2h x e = None /\ f2n x e = None /\ n2h newton x e = Ret None /\ n2f newton x e = Ret None).
Proof.
  split; intros H.
  - unfold e2m, e2f, f2e, f2m, m2e, m2f. destruct (Rle_dec 1 e); [|lra]. repeat split.
  - unfold zeta2f, f2zeta, h2n, h2f, f2h, f2n, n2h, n2f. destruct (Rle_dec e 1); [|lra]. repeat split.
Qed.

(** hyperbolic mean anomaly *)
Lemma n2h_round newton e : newton_ok newton -> 1 < e ->
  (forall N, Rabs N <= 10 ^ 17 -> exists h, n2h newton N e = Ret (Some h) /\ h2n h e = Some N) /\
  (forall h N, h2n h e = Some N -> Rabs N <= 10 ^ 17 -> n2h newton N e = Ret (Some h)) /\
  (forall N, Rabs N <= 10 ^ 17 -> exists f, n2f newton N e = Ret (Some f) /\ inside_asymptotes e f /\ f2n f e = Some N) /\
  (forall f N, inside_asymptotes e f -> f2n f e = Some N -> Rabs N <= 10 ^ 17 -> n2f newton N e = Ret (Some f)).
Proof.
  intros Nok He.
  assert (A : forall N, Rabs N <= 10 ^ 17 -> exists h, n2h newton N e = Ret (Some h) /\ h2n h e = Some N).
  { intros N H. destruct (n2h_solves newton Nok e He N (reachable_1e17 e He N H)) as [h [E K]]. exists h. split; [exact E|].
    rewrite h2n_eq by exact He. f_equal. exact K. }
  assert (B : forall h N, h2n h e = Some N -> Rabs N <= 10 ^ 17 -> n2h newton N e = Ret (Some h)).
  { intros h N E H. rewrite h2n_eq in E by exact He. injection E as <-. apply (n2h_of_h2n newton Nok e He). apply reachable_1e17; [exact He|exact H]. }
  split; [exact A|]. split; [exact B|]. split.
  - intros N H. destruct (A N H) as [h [E K]]. destruct (h2f_f2h e He h) as [f [F1 [F2 [F3 _]]]]. exists f.
    unfold n2f, f2n. destruct (Rle_dec e 1); [lra|]. rewrite E, F1, F3. auto.
  - intros f N I E H. unfold n2f, f2n in *. destruct (Rle_dec e 1); [lra|].
    destruct (f2h_h2f e He f I) as [h [F1 F2]]. rewrite F1 in E. rewrite (B h N E H), F2. reflexivity.
Qed.
Lemma n2h_unreachable e : 1 < e -> exists N, (exists h, h2n h e = Some N) /\
  (forall h, 1 - 20 * PI <= h <= 1 + 20 * PI -> kepH h N e <> 0) /\
  forall newton, (forall f g lo hi x, newton f g lo hi = Some x -> lo <= x <= hi) -> forall h, n2h newton N e = Ret (Some h) -> h2n h e <> Some N.
Proof.
  intros He. exists (keph e (2 + 20 * PI)). split; [exists (2 + 20 * PI); apply h2n_eq; exact He|].
  assert (U : ~ reachable e (keph e (2 + 20 * PI))) by (intros [_ H]; pose proof (keph_lt e He (1 + 20 * PI) (2 + 20 * PI) ltac:(lra)); lra).
  split; [apply (unreachable_no_root e He _ U)|].
  intros newton B h E K. rewrite h2n_eq in K by exact He. injection K as K. change (e * sinh h - h) with (keph e h) in K.
  unfold n2h in E. destruct (Rle_dec e 1); [lra|]. cbv zeta in E.
  destruct (newton _ _ _ _) eqn:Q; [|discriminate]. injection E as <-. apply B in Q.
  apply (unreachable_no_root e He _ U r Q). unfold kepH. unfold keph in *. lra.
Qed.

(** C09: the elliptic bracket *)
Lemma m2e_bracket e M : 0 <= e < 1 -> let Mc := atan2 (sin M) (cos M) in let IG := m2e_guess Mc (sin M) (cos M) e in
  bracketed (fun E => kepE E Mc e) (IG - PI) (IG + PI) /\ (exists k : Z, Mc = M + 2 * IZR k * PI).
Proof.
  intros He Mc IG. split; [|destruct (atan2_crop M) as [k [K _]]; exists k; exact K].
  pose proof (sin2_cos2 M) as U. unfold Rsqr in U. pose proof (guess_brackets e He (sin M) (cos M) Mc U) as [B1 B2]. fold IG in B1, B2.
  split; [split; assumption|]. pose proof PI_RGT_0 as P.
  destruct (root_between (fun E => kepE E Mc e) (fun E => d_kepE E e) (IG - PI) (IG + PI)) as [x [X1 X2]]; [apply (der_kepE Mc e)|lra|lra|].
  exists x. split; [|split; [exact X2|]].
  - split; [destruct (Req_dec x (IG - PI)) as [->|]; lra|destruct (Req_dec x (IG + PI)) as [->|]; lra].
  - intros y Hy. apply (incr_inj (kep e) (kep_lt e He)). unfold kepE in *. unfold kep. lra.
Qed.
