(** * Real-analysis helpers: monotonicity, roots, hyperbolic functions, atan2 and atanh *)
From Coq Require Import Reals Lra Lia.
From Coquelicot Require Import Coquelicot.
Open Scope R_scope.

Lemma incr_of_derive (f df : R -> R) : (forall x, is_derive f x (df x)) -> (forall x, 0 < df x) -> forall x y, x < y -> f x < f y.
Proof.
  intros D P x y H. apply (incr_function f m_infty p_infty df); try exact I; try exact H; intros; [apply D|apply P].
Qed.
Lemma incr_of_derive_on (f df : R -> R) a b : (forall x, a < x < b -> is_derive f x (df x)) -> (forall x, a < x < b -> 0 < df x) ->
  forall x y, a < x -> x < y -> y < b -> f x < f y.
Proof. intros D P x y H1 H2 H3. apply (incr_function f a b df); cbn; try assumption; intros; [apply D|apply P]; lra. Qed.
Lemma incr_inj (f : R -> R) : (forall x y, x < y -> f x < f y) -> forall x y, f x = f y -> x = y.
Proof. intros I x y E. destruct (Rtotal_order x y) as [H|[H|H]]; [specialize (I _ _ H)|assumption|specialize (I _ _ H)]; lra. Qed.
Lemma incr_lt_inv (f : R -> R) : (forall x y, x < y -> f x < f y) -> forall x y, f x < f y -> x < y.
Proof. intros I x y E. destruct (Rtotal_order x y) as [H|[->|H]]; [assumption|lra|specialize (I _ _ H); lra]. Qed.
Lemma incr_le (f : R -> R) : (forall x y, x < y -> f x < f y) -> forall x y, x <= y -> f x <= f y.
Proof. intros I x y [H| ->]; [left; auto|lra]. Qed.

Lemma derive_cont (f df : R -> R) : (forall x, is_derive f x (df x)) -> continuity f.
Proof. intros D x. apply continuity_pt_filterlim. apply (ex_derive_continuous f x). exists (df x). apply D. Qed.

Lemma root_between (f df : R -> R) lo hi : (forall x, is_derive f x (df x)) -> lo <= hi -> f lo <= 0 <= f hi ->
  exists x, lo <= x <= hi /\ f x = 0.
Proof.
  intros D L [A B]. destruct (IVT_cor f lo hi (derive_cont f df D) L) as [z [Hz E]]; [|exists z; auto].
  replace 0 with (f lo * 0) by ring. replace (f lo * f hi) with (f lo * f hi) by ring. nra.
Qed.

(** ** Hyperbolic functions *)
Lemma exp_opp_mul x : exp x * exp (- x) = 1.
Proof. rewrite <- exp_plus, Rplus_opp_r, exp_0. reflexivity. Qed.
Lemma cosh_sinh_sq x : cosh x * cosh x - sinh x * sinh x = 1.
Proof. unfold cosh, sinh. pose proof (exp_opp_mul x). nra. Qed.
Lemma cosh_pos x : 0 < cosh x.
Proof. unfold cosh. pose proof (exp_pos x). pose proof (exp_pos (- x)). lra. Qed.
Lemma cosh_ge1 x : 1 <= cosh x.
Proof. pose proof (cosh_sinh_sq x). pose proof (cosh_pos x). nra. Qed.
Lemma cosh_neg x : cosh (- x) = cosh x. Proof. unfold cosh. rewrite Ropp_involutive. lra. Qed.
Lemma sinh_neg x : sinh (- x) = - sinh x. Proof. unfold sinh. rewrite Ropp_involutive. lra. Qed.
Lemma cosh_gt1 x : x <> 0 -> 1 < cosh x.
Proof.
  intros N. pose proof (cosh_sinh_sq x) as E. pose proof (cosh_pos x).
  assert (sinh x <> 0). { rewrite <- sinh_0. intros Q. apply N. apply (incr_inj sinh sinh_lt). assumption. }
  nra.
Qed.
Lemma cosh_plus x y : cosh (x + y) = cosh x * cosh y + sinh x * sinh y.
Proof. unfold cosh, sinh. rewrite Ropp_plus_distr, !exp_plus. field. Qed.
Lemma sinh_plus x y : sinh (x + y) = sinh x * cosh y + cosh x * sinh y.
Proof. unfold cosh, sinh. rewrite Ropp_plus_distr, !exp_plus. field. Qed.
Lemma sinh_pos x : 0 < x -> 0 < sinh x. Proof. intros H. rewrite <- sinh_0. apply sinh_lt. exact H. Qed.

Lemma abs_sinh_lt_cosh x : - cosh x < sinh x < cosh x.
Proof. unfold cosh, sinh. pose proof (exp_pos x). pose proof (exp_pos (- x)). lra. Qed.
Lemma tanh_bound x : -1 < tanh x < 1.
Proof.
  unfold tanh. pose proof (cosh_pos x). pose proof (abs_sinh_lt_cosh x).
  split; apply (Rmult_lt_reg_r (cosh x)); try assumption; unfold Rdiv; rewrite Rmult_assoc, Rinv_l; lra.
Qed.
Lemma is_derive_tanh x : is_derive tanh x (/ (cosh x * cosh x)).
Proof.
  unfold tanh. pose proof (cosh_pos x). auto_derive; [lra|]. pose proof (cosh_sinh_sq x) as E.
  apply (Rmult_eq_reg_r (cosh x * cosh x)); [|nra]. field_simplify; [|lra|lra]. nra.
Qed.
Lemma tanh_lt x y : x < y -> tanh x < tanh y.
Proof.
  apply (incr_of_derive tanh (fun x => / (cosh x * cosh x))); [exact is_derive_tanh|].
  intros z. apply Rinv_0_lt_compat. pose proof (cosh_pos z). nra.
Qed.
Lemma tanh_neg x : tanh (- x) = - tanh x.
Proof. unfold tanh. rewrite sinh_neg, cosh_neg. pose proof (cosh_pos x). field. lra. Qed.

(** std::atanh *)
Definition atanh (x : R) : R := ln ((1 + x) / (1 - x)) / 2.
Lemma atanh_tanh x : atanh (tanh x) = x.
Proof.
  unfold atanh, tanh. pose proof (cosh_pos x). pose proof (exp_pos x). pose proof (exp_pos (- x)).
  replace ((1 + sinh x / cosh x) / (1 - sinh x / cosh x)) with (exp x * exp x).
  - rewrite <- exp_plus, ln_exp. lra.
  - unfold sinh, cosh in *. pose proof (exp_opp_mul x) as E.
    replace ((1 + (exp x - exp (- x)) / 2 / ((exp x + exp (- x)) / 2)) / (1 - (exp x - exp (- x)) / 2 / ((exp x + exp (- x)) / 2))) with (exp x / exp (- x)) by (field; lra).
    apply (Rmult_eq_reg_r (exp (- x))); [|lra]. unfold Rdiv. rewrite !Rmult_assoc, E, Rinv_l; lra.
Qed.
Lemma tanh_atanh y : -1 < y < 1 -> tanh (atanh y) = y.
Proof.
  intros H. unfold tanh, atanh, sinh, cosh. set (q := (1 + y) / (1 - y)).
  assert (Q : 0 < q) by (apply Rdiv_lt_0_compat; lra).
  assert (E : exp (ln q / 2) * exp (ln q / 2) = q) by (rewrite <- exp_plus; replace (ln q / 2 + ln q / 2) with (ln q) by lra; apply exp_ln; exact Q).
  pose proof (exp_opp_mul (ln q / 2)) as F. pose proof (exp_pos (ln q / 2)) as P. pose proof (exp_pos (- (ln q / 2))) as P2.
  set (u := exp (ln q / 2)) in *. set (w := exp (- (ln q / 2))) in *.
  replace ((u - w) / 2 / ((u + w) / 2)) with ((u - w) / (u + w)) by (field; lra).
  assert (W : w = / u) by (apply (Rmult_eq_reg_l u); [rewrite Rinv_r; lra|lra]). rewrite W.
  replace ((u - / u) / (u + / u)) with ((u * u - 1) / (u * u + 1)) by (field; split; nra).
  rewrite E. unfold q. field. lra.
Qed.

(** ** Half-angle formulas *)
Lemma cos_2atan t : cos (2 * atan t) = (1 - t * t) / (1 + t * t).
Proof.
  rewrite cos_2a, cos_atan, sin_atan. unfold Rsqr.
  assert (P : 0 < 1 + t * t) by nra. pose proof (sqrt_lt_R0 _ P) as Q. pose proof (sqrt_sqrt _ (Rlt_le _ _ P)) as S.
  rewrite <- S at 5. field. lra.
Qed.
Lemma sin_2atan t : sin (2 * atan t) = 2 * t / (1 + t * t).
Proof.
  rewrite sin_2a, cos_atan, sin_atan. unfold Rsqr.
  assert (P : 0 < 1 + t * t) by nra. pose proof (sqrt_lt_R0 _ P) as Q. pose proof (sqrt_sqrt _ (Rlt_le _ _ P)) as S.
  rewrite <- S at 3. field. lra.
Qed.
Lemma cos_half_pos E : - PI < E < PI -> 0 < cos (E / 2). Proof. intros. apply cos_gt_0; lra. Qed.
Lemma two_atan_tan E : - PI < E < PI -> 2 * atan (tan (E / 2)) = E.
Proof. intros H. rewrite atan_tan; lra. Qed.
Lemma two_atan_bound t : - PI < 2 * atan t < PI.
Proof. pose proof (atan_bound t). lra. Qed.
Lemma atan_lt x y : x < y -> atan x < atan y. Proof. apply atan_increasing. Qed.
Lemma cos_of_tan E : - PI < E < PI -> cos E = (1 - tan (E / 2) * tan (E / 2)) / (1 + tan (E / 2) * tan (E / 2)).
Proof. intros H. rewrite <- cos_2atan, two_atan_tan by exact H. reflexivity. Qed.
Lemma sin_of_tan E : - PI < E < PI -> sin E = 2 * tan (E / 2) / (1 + tan (E / 2) * tan (E / 2)).
Proof. intros H. rewrite <- sin_2atan, two_atan_tan by exact H. reflexivity. Qed.
Lemma tan_half_lt x y : - PI < x -> x < y -> y < PI -> tan (x / 2) < tan (y / 2).
Proof. intros. apply tan_increasing; lra. Qed.

(** ** std::atan2 (signed zeros are not distinguished) *)
Definition atan2 (y x : R) : R :=
  if Rlt_dec 0 x then atan (y / x)
  else if Rlt_dec x 0 then (if Rle_dec 0 y then atan (y / x) + PI else atan (y / x) - PI)
  else if Rlt_dec 0 y then PI / 2 else if Rlt_dec y 0 then - (PI / 2) else 0.

Lemma atan_neg_iff t : t < 0 -> atan t < 0. Proof. intros. rewrite <- atan_0. apply atan_increasing. assumption. Qed.
Lemma atan_pos_iff t : 0 < t -> 0 < atan t. Proof. intros. rewrite <- atan_0. apply atan_increasing. assumption. Qed.

Lemma atan2_range y x : - PI < atan2 y x <= PI.
Proof.
  unfold atan2. pose proof PI_RGT_0 as P. pose proof (atan_bound (y / x)) as B.
  destruct (Rlt_dec 0 x); [lra|]. destruct (Rlt_dec x 0) as [Hx|Hx].
  - destruct (Rle_dec 0 y) as [Hy|Hy].
    2:{ enough (0 < atan (y / x)) by lra. apply atan_pos_iff. unfold Rdiv. assert (/ x < 0) by (apply Rinv_lt_0_compat; exact Hx). nra. }
    split; [lra|].
    enough (atan (y / x) <= 0) by lra. destruct (Req_dec y 0) as [->|Ny].
    + unfold Rdiv. rewrite Rmult_0_l, atan_0. lra.
    + left. apply atan_neg_iff. unfold Rdiv. assert (/ x < 0) by (apply Rinv_lt_0_compat; exact Hx). nra.
  - destruct (Rlt_dec 0 y); [lra|]. destruct (Rlt_dec y 0); lra.
Qed.

Lemma sqrt_ratio x y : x <> 0 -> sqrt (1 + (y / x)²) = sqrt (x * x + y * y) / Rabs x.
Proof.
  intros N. replace (1 + (y / x)²) with ((x * x + y * y) / (Rsqr x)) by (unfold Rsqr; field; exact N).
  rewrite sqrt_div_alt by (apply Rlt_0_sqr; exact N). rewrite sqrt_Rsqr_abs. reflexivity.
Qed.
Lemma cos_atan2 y x : x * x + y * y <> 0 -> cos (atan2 y x) = x / sqrt (x * x + y * y).
Proof.
  intros N. assert (P : 0 < x * x + y * y) by nra. pose proof (sqrt_lt_R0 _ P) as Q. unfold atan2.
  destruct (Rlt_dec 0 x) as [H|H].
  - rewrite cos_atan, sqrt_ratio by lra. rewrite Rabs_right by lra. field. lra.
  - destruct (Rlt_dec x 0) as [Hx|Hx].
    + assert (E : - cos (atan (y / x)) = x / sqrt (x * x + y * y)).
      { rewrite cos_atan, sqrt_ratio by lra. rewrite Rabs_left by lra. field. lra. }
      destruct (Rle_dec 0 y); [rewrite neg_cos; exact E|].
      replace (atan (y / x) - PI) with (- (- atan (y / x) + PI)) by ring. rewrite cos_neg, neg_cos, cos_neg. exact E.
    + assert (x = 0) by lra. subst x. unfold Rdiv. rewrite Rmult_0_l.
      destruct (Rlt_dec 0 y); [apply cos_PI2|]. destruct (Rlt_dec y 0); [rewrite cos_neg; apply cos_PI2|]. exfalso. assert (y = 0) by lra. subst y. lra.
Qed.
Lemma sin_atan2 y x : x * x + y * y <> 0 -> sin (atan2 y x) = y / sqrt (x * x + y * y).
Proof.
  intros N. assert (P : 0 < x * x + y * y) by nra. pose proof (sqrt_lt_R0 _ P) as Q. unfold atan2.
  destruct (Rlt_dec 0 x) as [H|H].
  - rewrite sin_atan, sqrt_ratio by lra. rewrite Rabs_right by lra. field. lra.
  - destruct (Rlt_dec x 0) as [Hx|Hx].
    + assert (E : - sin (atan (y / x)) = y / sqrt (x * x + y * y)).
      { rewrite sin_atan, sqrt_ratio by lra. rewrite Rabs_left by lra. field. lra. }
      destruct (Rle_dec 0 y); [rewrite neg_sin; exact E|].
      replace (atan (y / x) - PI) with (- (- atan (y / x) + PI)) by ring. rewrite sin_neg, neg_sin, sin_neg. lra.
    + assert (x = 0) by lra. subst x. replace (0 * 0 + y * y) with (Rsqr y) by (unfold Rsqr; ring). rewrite sqrt_Rsqr_abs.
      destruct (Rlt_dec 0 y); [rewrite sin_PI2, Rabs_right by lra; field; lra|].
      destruct (Rlt_dec y 0); [rewrite sin_neg, sin_PI2, Rabs_left by lra; field; lra|]. exfalso. assert (y = 0) by lra. subst y. lra.
Qed.

(** two angles with the same sine and cosine that are closer than 2 PI are equal *)
Lemma angle_eq a b : cos a = cos b -> sin a = sin b -> Rabs (a - b) < 2 * PI -> a = b.
Proof.
  intros C S L.
  assert (E : cos (a - b) = 1) by (rewrite cos_minus, C, S; pose proof (sin2_cos2 b) as Q; unfold Rsqr in Q; lra).
  assert (H2 : sin ((a - b) / 2) = 0).
  { replace (a - b) with (2 * ((a - b) / 2)) in E by field. rewrite cos_2a_sin in E.
    assert (sin ((a - b) / 2) * sin ((a - b) / 2) = 0) by lra. nra. }
  apply Rabs_def2 in L. pose proof PI_RGT_0.
  destruct (Rtotal_order a b) as [Hl|[He|Hg]]; [|exact He|].
  - assert (0 < sin ((b - a) / 2)) by (apply sin_gt_0; lra).
    replace ((b - a) / 2) with (- ((a - b) / 2)) in * by field. rewrite sin_neg in *. lra.
  - assert (0 < sin ((a - b) / 2)) by (apply sin_gt_0; lra). lra.
Qed.
Lemma atan2_sin_cos M : - PI < M <= PI -> atan2 (sin M) (cos M) = M.
Proof.
  intros H. pose proof (sin2_cos2 M) as Q. unfold Rsqr in Q.
  assert (E : cos M * cos M + sin M * sin M = 1) by lra.
  assert (N : cos M * cos M + sin M * sin M <> 0) by lra.
  pose proof (atan2_range (sin M) (cos M)) as B.
  apply angle_eq.
  - rewrite cos_atan2, E, sqrt_1 by exact N. field.
  - rewrite sin_atan2, E, sqrt_1 by exact N. field.
  - apply Rabs_def1; lra.
Qed.
(** every angle is its atan2 representative plus a whole number of turns *)
Lemma period_Z_sin x k : sin (x + 2 * IZR k * PI) = sin x.
Proof.
  destruct k as [|p|p].
  - f_equal. ring.
  - rewrite <- (sin_period x (Pos.to_nat p)), INR_IZR_INZ, positive_nat_Z. reflexivity.
  - rewrite <- (sin_period (x + 2 * IZR (Z.neg p) * PI) (Pos.to_nat p)), INR_IZR_INZ, positive_nat_Z. f_equal.
    change (Z.neg p) with (- Z.pos p)%Z. rewrite opp_IZR. ring.
Qed.
Lemma period_Z_cos x k : cos (x + 2 * IZR k * PI) = cos x.
Proof.
  destruct k as [|p|p].
  - f_equal. ring.
  - rewrite <- (cos_period x (Pos.to_nat p)), INR_IZR_INZ, positive_nat_Z. reflexivity.
  - rewrite <- (cos_period (x + 2 * IZR (Z.neg p) * PI) (Pos.to_nat p)), INR_IZR_INZ, positive_nat_Z. f_equal.
    change (Z.neg p) with (- Z.pos p)%Z. rewrite opp_IZR. ring.
Qed.
Lemma crop_exists M : exists k : Z, - PI < M + 2 * IZR k * PI <= PI.
Proof.
  pose proof PI_RGT_0 as P. set (u := (PI - M) / (2 * PI)).
  exists (up u - 1)%Z. rewrite minus_IZR. destruct (archimed u) as [A B].
  assert (U : u * (2 * PI) = PI - M) by (unfold u; field; lra). nra.
Qed.
Lemma atan2_crop M : exists k : Z, atan2 (sin M) (cos M) = M + 2 * IZR k * PI /\ - PI < M + 2 * IZR k * PI <= PI.
Proof.
  destruct (crop_exists M) as [k H]. exists k. split; [|exact H].
  rewrite <- (period_Z_sin M k), <- (period_Z_cos M k). apply atan2_sin_cos. exact H.
Qed.

(** ** Derivative rules with plain real-number statements *)
Lemma der_id x : is_derive (fun t : R => t) x 1. Proof. auto_derive; [exact I|reflexivity]. Qed.
Lemma der_const (c x : R) : is_derive (fun _ : R => c) x 0. Proof. auto_derive; [exact I|reflexivity]. Qed.
Lemma der_plus (f g : R -> R) x a b : is_derive f x a -> is_derive g x b -> is_derive (fun t => f t + g t) x (a + b).
Proof. intros. apply @is_derive_plus; assumption. Qed.
Lemma der_minus (f g : R -> R) x a b : is_derive f x a -> is_derive g x b -> is_derive (fun t => f t - g t) x (a - b).
Proof. intros. apply @is_derive_minus; assumption. Qed.
Lemma der_opp (f : R -> R) x a : is_derive f x a -> is_derive (fun t => - f t) x (- a).
Proof. intros. apply @is_derive_opp; assumption. Qed.
Lemma der_scal k (f : R -> R) x a : is_derive f x a -> is_derive (fun t => k * f t) x (k * a).
Proof. intros. apply is_derive_scal; assumption. Qed.
Lemma der_mult (f g : R -> R) x a b : is_derive f x a -> is_derive g x b -> is_derive (fun t => f t * g t) x (a * g x + f x * b).
Proof. intros. apply (is_derive_mult f g x a b); try assumption. intros n m. cbn. unfold mult; cbn. ring. Qed.
Lemma der_comp (f g : R -> R) x a b : is_derive f (g x) a -> is_derive g x b -> is_derive (fun t => f (g t)) x (b * a).
Proof. intros. apply (is_derive_comp f g x a b); assumption. Qed.
Lemma der_inv (f : R -> R) x a : is_derive f x a -> f x <> 0 -> is_derive (fun t => / f t) x (- a / (f x * f x)).
Proof. intros H N. pose proof (is_derive_inv f x a H N) as D. replace (f x ^ 2) with (f x * f x) in D by ring. exact D. Qed.
Lemma der_div (f g : R -> R) x a b : is_derive f x a -> is_derive g x b -> g x <> 0 ->
  is_derive (fun t => f t / g t) x ((a * g x - f x * b) / (g x * g x)).
Proof. intros H1 H2 N. pose proof (is_derive_div f g x a b H1 H2 N) as D. replace (g x ^ 2) with (g x * g x) in D by ring. exact D. Qed.
Lemma der_sqrt (f : R -> R) x a : is_derive f x a -> 0 < f x -> is_derive (fun t => sqrt (f t)) x (a / (2 * sqrt (f x))).
Proof.
  intros H P. replace (a / (2 * sqrt (f x))) with (a * / (2 * sqrt (f x))) by reflexivity.
  apply der_comp; [|exact H]. apply is_derive_Reals, derivable_pt_lim_sqrt. exact P.
Qed.
Lemma der_sin x : is_derive sin x (cos x). Proof. apply is_derive_Reals, derivable_pt_lim_sin. Qed.
Lemma der_cos x : is_derive cos x (- sin x). Proof. apply is_derive_Reals, derivable_pt_lim_cos. Qed.
Lemma der_sinh x : is_derive sinh x (cosh x). Proof. apply is_derive_Reals, derivable_pt_lim_sinh. Qed.
Lemma der_cosh x : is_derive cosh x (sinh x). Proof. apply is_derive_Reals, derivable_pt_lim_cosh. Qed.
Lemma der_eq (f : R -> R) x a b : is_derive f x a -> a = b -> is_derive f x b. Proof. intros H <-. exact H. Qed.
