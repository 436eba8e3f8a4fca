(** * The number of revolutions: where Halley's iteration leaves the ellipses *)
From Coq Require Import Reals ZArith List Bool Lra Lia Psatz.
From Coquelicot Require Import Coquelicot.
From Verif Require Import Outcome PartialReal RealLib Vec3 ElemProofs LambertModel LambertReal LambertProofs LambertSpec LambertTime LambertSeries LambertVec LambertTof LambertDer LambertMono LambertMain.
Import ListNotations.
Open Scope R_scope.

Lemma sin3_le A : 0 <= A <= PI -> 2 / 3 * (sin A * sin A * sin A) <= A - sin A * cos A.
Proof.
  intros [A0 A1]. destruct (Req_dec A 0) as [->|NZ]; [rewrite sin_0; lra|].
  set (f := fun t => t - sin t * cos t - 2 / 3 * (sin t * sin t * sin t)).
  assert (D : forall t, is_derive f t (2 * (sin t * sin t) * (1 - cos t))).
  { intros t. unfold f. eapply der_to; [apply der_minus; [apply der_minus; [apply der_id|apply der_mult; [apply der_sin|apply der_cos]]|apply der_scal; apply der_mult; [apply der_mult; apply der_sin|apply der_sin]]|]. pose proof (sin2_cos2 t) as Q. unfold Rsqr in Q. nra. }
  destruct (MVT_cor2 f (fun t => 2 * (sin t * sin t) * (1 - cos t)) 0 A ltac:(lra)) as [c [E Hc]]; [intros c _; apply is_derive_Reals, D|].
  unfold f in E at 1 2. rewrite sin_0 in E. pose proof (COS_bound c). pose proof (Rle_0_sqr (sin c)) as S. unfold Rsqr in S. assert (0 <= 2 * (sin c * sin c) * (1 - cos c) * (A - 0)) by (apply Rmult_le_pos; [apply Rmult_le_pos; lra|lra]). lra.
Qed.

Section Revs.
Variable lam : R.
Hypothesis L : lam * lam < 1.
Let y (x : R) := lam_y lam x.
(** no transfer over more than half a turn is faster than this *)
Lemma tau_low N x : lam <= 0 -> (0 <= N)%Z -> -1 < x < 1 -> IZR N * PI + 2 / 3 <= tau lam N x.
Proof.
  intros LN HN X. destruct (w_sq x X) as [WP W]. set (w := sqrt (1 - x * x)) in *. rewrite (tau_ell lam x X N). fold w. rewrite <- W.
  assert (W1 : w <= 1) by nra. assert (W3 : 0 < w * w * w) by (repeat apply Rmult_lt_0_compat; exact WP). assert (W3' : w * w * w <= 1) by nra.
  replace (((half_angle lam x + IZR N * PI) / w - x + lam * lam_y lam x) / (w * w)) with ((half_angle lam x + IZR N * PI + w * (lam * lam_y lam x - x)) / (w * w * w)) by (field; lra).
  pose proof (asin_diff lam L x X) as AD. fold w in AD.
  assert (LW : -1 < lam * w <= 0). { pose proof (lam_bd lam L). split; nra. }
  assert (CA : cos (asin (lam * w)) = lam_y lam x). { rewrite cos_asin by lra. unfold lam_y. f_equal. unfold Rsqr. replace (lam * w * (lam * w)) with (lam * lam * (w * w)) by ring. rewrite W. ring. }
  assert (SA : sin (acos x) = w) by (rewrite sin_acos by lra; unfold w; f_equal). assert (CX : cos (acos x) = x) by (apply cos_acos; lra). assert (SB : sin (asin (lam * w)) = lam * w) by (apply sin_asin; lra).
  pose proof (acos_bound x) as AB. assert (BN : asin (lam * w) <= 0). { destruct (Rle_or_lt (asin (lam * w)) 0) as [C|C]; [exact C|exfalso]. pose proof (asin_bound (lam * w)). assert (0 < sin (asin (lam * w))) by (apply sin_gt_0; lra). lra. }
  rewrite AD. pose proof (sin3_le (acos x) AB) as H1.
  assert (H2 : asin (lam * w) - sin (asin (lam * w)) * cos (asin (lam * w)) <= 0). { destruct (Req_dec (asin (lam * w)) 0) as [->|NZ]; [rewrite sin_0; lra|]. left. replace 0 with (0 - sin 0 * cos 0) by (rewrite sin_0; lra). apply h_incr. lra. }
  rewrite SB, CA in H2. rewrite SA, CX in H1. apply IZR_le in HN. pose proof PI_RGT_0. assert (0 <= IZR N * PI) by (apply Rmult_le_pos; lra).
  apply Rle_div_r; [exact W3|]. nra.
Qed.
(** ** one round of the loop *)
Definition hq (T x : R) : R := D2 lam T x * D2 lam T x - D1 lam T x * D3 lam T x / 2.
Definition hnext (T x : R) : R := x - D1 lam T x * D2 lam T x / hq T x.
Lemma halley_round n N it x T : x * x <> 1 -> D1 lam T x <> 0 -> hq T x <> 0 ->
  halley RA (Some lam) (S n) N it (Some x) (Some x) (Some T) =
  if (if Rlt_dec (Rabs (x - hnext T x)) (1 / 10000000000000) then true else false) || Z.ltb 12 it then Ret (Some T, it)
  else bind (x2tof RA (Some lam) (Some (hnext T x)) N) (fun t => halley RA (Some lam) n N (it + 1)%Z (Some (hnext T x)) (Some (hnext T x)) t).
Proof.
  intros X1 ND NQ. cbn [halley]. rewrite (dTdx_r lam L x T X1). rewrite !nat_r, eq_r. destruct (Req_EM_T (D1 lam T x) 0) as [E|_]; [contradiction|].
  ev. rewrite (div_r _ 2) by lra. ev. fold (hq T x). rewrite (div_r _ (hq T x)) by exact NQ. ev. fold (hnext T x). rewrite abs_r, lit_r, lt_r. reflexivity.
Qed.
Lemma halley_stop n N it x T : x * x <> 1 -> D1 lam T x = 0 -> halley RA (Some lam) (S n) N it (Some x) (Some x) (Some T) = Ret (Some T, it).
Proof.
  intros X1 ND. cbn [halley]. rewrite (dTdx_r lam L x T X1). rewrite !nat_r, eq_r. destruct (Req_EM_T (D1 lam T x) 0) as [_|E]; [|contradiction].
  ev. rewrite abs_r, lit_r, lt_r, Rminus_eq_0, Rabs_R0. destruct (Rlt_dec 0 (1 / 10000000000000)) as [_|C]; [|lra]. reflexivity.
Qed.
(** ** hyperbolas: the iteration runs away *)
Lemma ln2_le : ln 2 <= 7 / 10.
Proof.
  rewrite <- (ln_exp (7 / 10)). apply ln_le; [lra|]. replace (7 / 10) with (INR 40 * (7 / 400)) by (rewrite INR_IZR_INZ; cbn [Z.of_nat Pos.of_succ_nat Pos.succ]; lra).
  assert (E : forall n t, 0 <= t -> (1 + t) ^ n <= exp (INR n * t)).
  { induction n as [|n IH]; intros t Ht; [cbn [pow INR]; rewrite Rmult_0_l, exp_0; lra|]. rewrite S_INR, Rmult_plus_distr_r, Rmult_1_l, exp_plus. cbn [pow]. rewrite Rmult_comm. apply Rmult_le_compat; [apply pow_le; lra|lra|apply IH, Ht|]. pose proof (exp_ineq1_le t). lra. }
  eapply Rle_trans; [|apply E; lra]. cbv [pow]. lra.
Qed.
Hypothesis LN : lam <= - (19 / 20).
Section Far.
Variable x : R.
Hypothesis X : 4 <= x.
Variable N : Z.
Let T := tau lam N x.
Let E := x * x - 1.
Lemma lam2 : 9 / 10 < lam * lam. Proof. nra. Qed.
Lemma y_far : - lam * x <= y x <= x /\ 0 < y x.
Proof. destruct (ly_sq lam L x) as [P Q]. fold (y x) in P, Q. split; [|exact P]. pose proof lam2 as L2.
  assert (S1 : 0 < x * x) by nra. assert (0 <= (1 - lam * lam) * (x * x - 1)) by (apply Rmult_le_pos; nra).
  split; apply Rsqr_incr_0_var; try lra; unfold Rsqr; [replace (- lam * x * (- lam * x)) with (lam * lam * (x * x)) by ring; nra|nra]. Qed.
Lemma psi_far : half_hangle lam x <= 21 / 20 * x.
Proof.
  destruct y_far as [[Y1 Y2] YP]. pose proof lam2 as L2. unfold half_hangle. fold (y x). destruct (wh_sq x ltac:(lra)) as [WP W]. set (w := sqrt (x * x - 1)) in *. assert (W1 : w <= x) by nra.
  assert (U : w * (y x - lam * x) + (x * y x - lam * (x * x - 1)) <= 8 * (x / 4 * (x / 4)) * 8).
  { assert (w * (y x - lam * x) <= x * (2 * x)). { apply Rmult_le_compat; [lra|nra|exact W1|nra]. } assert (x * y x <= x * x) by nra. assert (- lam * (x * x - 1) <= x * x) by nra. nra. }
  assert (UP : 0 < w * (y x - lam * x) + (x * y x - lam * (x * x - 1))) by (apply Rplus_lt_0_compat; [apply Rmult_lt_0_compat; nra|nra]).
  eapply Rle_trans; [apply ln_le; [exact UP|exact U]|]. rewrite !ln_mult by nra.
  assert (L4 : ln (x / 4) <= x / 4 - 1). { pose proof (exp_ineq1_le (x / 4 - 1)) as Q. replace (1 + (x / 4 - 1)) with (x / 4) in Q by ring. rewrite <- (ln_exp (x / 4 - 1)). apply ln_le; lra. }
  assert (L8 : ln 8 <= 21 / 10). { replace 8 with (2 * 2 * 2) by ring. rewrite !ln_mult by lra. pose proof ln2_le. lra. }
  lra.
Qed.
Lemma T_far : (1 + lam * lam) * x - 109 / 100 <= T * E <= 2 * x.
Proof.
  destruct y_far as [[Y1 Y2] YP]. pose proof lam2 as L2. pose proof psi_far as PF. unfold T. rewrite (tau_hyp lam x ltac:(lra) N). fold (y x). destruct (wh_sq x ltac:(lra)) as [WP W]. pose proof (psih_pos lam L x ltac:(lra)) as PP. set (w := sqrt (x * x - 1)) in *. fold E in W. fold E.
  assert (EP : 0 < E) by (unfold E; nra). replace ((x - lam * y x - half_hangle lam x / w) / E * E) with (x - lam * y x - half_hangle lam x / w) by (field; lra).
  assert (WB : 105 / 109 * x <= w) by (unfold E in W; nra). assert (B : 0 <= half_hangle lam x / w <= 109 / 100). { split; [apply Rlt_le, Rdiv_lt_0_compat; assumption|]. apply Rle_div_l; [exact WP|]. lra. }
  assert (H1 : 0 <= - lam * (y x - - lam * x)) by (apply Rmult_le_pos; lra). pose proof (lam_bd lam L) as LB. assert (H2 : 0 <= (1 + lam) * y x) by (apply Rmult_le_pos; lra).
  split; nra.
Qed.
Lemma G_far : D1 lam T x < 0 /\ 8 / 10 <= - D1 lam T x * E.
Proof.
  destruct y_far as [[Y1 Y2] YP]. pose proof lam2 as L2. destruct T_far as [T1 T2]. assert (EP : 15 <= E) by (unfold E; nra).
  assert (ED : - D1 lam T x * E = 3 * T * x - 2 - 2 * (- lam * (lam * lam) * (x / y x))). { unfold D1. fold (y x). unfold E. field. split; [lra|nra]. }
  assert (KK : - lam * (x / y x) <= 1) by (apply (Rmult_le_reg_r (y x)); [exact YP|]; replace (- lam * (x / y x) * y x) with (- lam * x) by (field; lra); lra).
  assert (TX : 16 / 10 <= T * x). { apply (Rmult_le_reg_r E); [lra|]. assert (T * x * E >= x * ((1 + lam * lam) * x - 109 / 100)) by nra. unfold E in *. nra. }
  assert (R1 : - lam * (lam * lam) * (x / y x) <= 1). { replace (- lam * (lam * lam) * (x / y x)) with ((lam * lam) * (- lam * (x / y x))) by ring. assert (0 < - lam * (x / y x)) by (apply Rmult_lt_0_compat; [lra|apply Rdiv_lt_0_compat; lra]). nra. }
  assert (8 / 10 <= - D1 lam T x * E) by (rewrite ED; lra). split; [nra|assumption].
Qed.
Lemma D2_far : 0 < D2 lam T x.
Proof.
  destruct y_far as [[Y1 Y2] YP]. pose proof lam2 as L2. destruct T_far as [T1 T2]. assert (EP : 15 <= E) by (unfold E; nra).
  assert (ED : D1 lam T x * E = - (3 * T * x - 2 - 2 * (- lam * (lam * lam) * (x / y x)))). { unfold D1. fold (y x). unfold E. field. split; [lra|nra]. }
  assert (KK : - lam * (x / y x) <= 1) by (apply (Rmult_le_reg_r (y x)); [exact YP|]; replace (- lam * (x / y x) * y x) with (- lam * x) by (field; lra); lra).
  assert (R1 : - lam * (lam * lam) * (x / y x) <= lam * lam). { replace (- lam * (lam * lam) * (x / y x)) with ((lam * lam) * (- lam * (x / y x))) by ring. nra. }
  assert (Y3 : 0 < y x * y x * y x) by (repeat apply Rmult_lt_0_compat; exact YP).
  assert (C : 2 * (1 - lam * lam) * (lam * lam * lam) / (y x * y x * y x) <= 0). { replace (2 * (1 - lam * lam) * (lam * lam * lam) / (y x * y x * y x)) with (- (2 * (1 - lam * lam) * (- lam * (lam * lam)) / (y x * y x * y x))) by (field; lra). assert (0 <= 2 * (1 - lam * lam) * (- lam * (lam * lam)) / (y x * y x * y x)); [|lra]. apply Rdiv_le_0_compat; [apply Rmult_le_pos; [lra|apply Rmult_le_pos; lra]|exact Y3]. }
  unfold D2. fold (y x). replace (1 - x * x) with (- E) by (unfold E; ring). set (c := 2 * (1 - lam * lam) * (lam * lam * lam) / (y x * y x * y x)) in *.
  replace ((3 * T + 5 * x * D1 lam T x + c) / - E) with ((- (3 * T + 5 * x * D1 lam T x + c)) / E) by (field; lra). apply Rdiv_lt_0_compat; [|lra].
  assert (M : 3 * T + 5 * x * D1 lam T x < 0); [|lra]. apply (Rmult_lt_reg_r E); [lra|]. rewrite Rmult_0_l. replace ((3 * T + 5 * x * D1 lam T x) * E) with (3 * (T * E) + 5 * x * (D1 lam T x * E)) by ring. rewrite ED.
  set (k := - lam * (lam * lam) * (x / y x)) in *. assert (R2 : k <= lam * lam) by exact R1. replace (3 * (T * E) + 5 * x * - (3 * T * x - 2 - 2 * k)) with (- (12 * (T * E) + 15 * T) + 10 * x + 10 * k * x) by (unfold E; ring).
  assert (XX : 19 / 10 * 4 <= (1 + lam * lam) * x) by (apply Rmult_le_compat; lra). assert (TP : 0 < T) by (apply (Rmult_lt_reg_r E); lra).
  assert (KX : k * x <= lam * lam * x) by (apply Rmult_le_compat_r; lra). lra.
Qed.
Lemma hq_far : 0 < hq T x.
Proof.
  destruct y_far as [[Y1 Y2] YP]. pose proof lam2 as L2. destruct G_far as [GN GE]. pose proof D2_far as P2. assert (EP : 15 <= E) by (unfold E; nra). set (P := D2 lam T x) in *. set (G := - D1 lam T x) in *. assert (GP : 0 < G) by (unfold G; lra).
  set (Y5 := y x * y x * y x * (y x * y x)). assert (Y5P : 0 < Y5) by (unfold Y5; repeat apply Rmult_lt_0_compat; exact YP).
  set (K := 6 * (1 - lam * lam) * (- lam * (lam * lam) * (lam * lam)) * x / Y5).
  assert (ED : D3 lam T x = - (7 * x * P - 8 * G + K) / E). { unfold D3. fold (y x). fold P. unfold K, Y5, G, E. field. split; [lra|nra]. }
  assert (KB : K * (x * x * (x * x)) <= 6 / 10).
  { unfold K. set (k := - lam * x) in *. assert (KP : 0 < k) by (unfold k; nra). replace (6 * (1 - lam * lam) * (- lam * (lam * lam) * (lam * lam)) * x / Y5 * (x * x * (x * x))) with (6 * (1 - lam * lam) * (k * k * k * (k * k) / Y5)) by (unfold k; field; lra).
    assert (R : k * k * k * (k * k) / Y5 <= 1). { apply Rle_div_l; [exact Y5P|]. rewrite Rmult_1_l. unfold Y5. repeat apply Rmult_le_compat; nra. } assert (0 <= k * k * k * (k * k) / Y5) by (apply Rdiv_le_0_compat; [repeat apply Rmult_le_pos; lra|exact Y5P]). nra. }
  assert (KN : 0 <= K). { unfold K. apply Rdiv_le_0_compat; [|exact Y5P]. apply Rmult_le_pos; [|lra]. apply Rmult_le_pos; [lra|]. apply Rmult_le_pos; [apply Rmult_le_pos; lra|lra]. }
  assert (SX : 16 <= x * x) by nra.
  assert (KS : K <= 4 / 100 * / E). { apply (Rmult_le_reg_r (x * x * (x * x))); [apply Rmult_lt_0_compat; lra|]. eapply Rle_trans; [exact KB|]. apply (Rmult_le_reg_r E); [lra|]. replace (4 / 100 * / E * (x * x * (x * x)) * E) with (4 / 100 * (x * x * (x * x))) by (field; lra). unfold E. assert (16 * (x * x) <= x * x * (x * x)) by (apply Rmult_le_compat_r; lra). lra. }
  assert (GS : 8 / 10 * / E <= G). { apply (Rmult_le_reg_r E); [lra|]. replace (8 / 10 * / E * E) with (8 / 10) by (field; lra). exact GE. }
  assert (KG : K <= G) by (assert (0 < / E) by (apply Rinv_0_lt_compat; lra); lra).
  unfold hq. fold P. rewrite ED. replace (D1 lam T x) with (- G) by (unfold G; ring).
  replace (P * P - - G * (- (7 * x * P - 8 * G + K) / E) / 2) with ((2 * E * (P * P) - 7 * x * G * P + 8 * (G * G) - G * K) / (2 * E)) by (field; lra).
  apply Rdiv_lt_0_compat; [|lra].
  assert (S : 0 <= (4 * E * P - 7 * x * G) * (4 * E * P - 7 * x * G)) by (apply Rle_0_sqr).
  assert (Q : 8 * E * (2 * E * (P * P) - 7 * x * G * P + 8 * (G * G) - G * K) = (4 * E * P - 7 * x * G) * (4 * E * P - 7 * x * G) + (G * G * (64 * E - 49 * (x * x)) - 8 * E * (G * K))) by ring.
  assert (R : 0 < G * G * (64 * E - 49 * (x * x)) - 8 * E * (G * K)). { assert (G1 : G * K <= G * G) by (apply Rmult_le_compat_l; lra). assert (G2 : 0 < G * G) by (apply Rmult_lt_0_compat; lra). assert (8 * E < 64 * E - 49 * (x * x)) by (unfold E; lra). assert (8 * E * (G * K) <= 8 * E * (G * G)) by (apply Rmult_le_compat_l; lra). assert (8 * E * (G * G) < (64 * E - 49 * (x * x)) * (G * G)) by (apply Rmult_lt_compat_r; lra). lra. }
  apply (Rmult_lt_reg_l (8 * E)); [lra|]. rewrite Rmult_0_r, Q. lra.
Qed.
Lemma far_next : x <= hnext T x.
Proof.
  destruct G_far as [GN _]. pose proof D2_far as P2. pose proof hq_far as Q. unfold hnext. assert (0 < - (D1 lam T x * D2 lam T x / hq T x)); [|lra].
  replace (- (D1 lam T x * D2 lam T x / hq T x)) with (- D1 lam T x * D2 lam T x / hq T x) by (field; lra). apply Rdiv_lt_0_compat; [|exact Q]. nra.
Qed.
End Far.
Lemma far_tof x N : 4 <= x -> x2tof RA (Some lam) (Some x) N = Ret (Some (tau lam N x)).
Proof. intros X. apply lancaster; [exact L|lra|lra| |]; rewrite Rabs_right by lra; lra. Qed.
Lemma far_run N n : forall it x, 4 <= x -> halley RA (Some lam) n N it (Some x) (Some x) (Some (tau lam N x)) = UB \/
  exists it' x', 4 <= x' /\ halley RA (Some lam) n N it (Some x) (Some x) (Some (tau lam N x)) = Ret (Some (tau lam N x'), it').
Proof.
  induction n as [|n IH]; intros it x X; [left; reflexivity|]. destruct (G_far x X N) as [GN _]. pose proof (hq_far x X N) as Q. pose proof (far_next x X N) as FN.
  rewrite halley_round by (try lra; nra). destruct (_ || _); [right; exists it, x; split; [exact X|reflexivity]|]. rewrite far_tof by lra. cbn [bind]. apply IH. lra.
Qed.
Lemma tau_at0N N : acos lam + lam * sqrt (1 - lam * lam) + IZR N * PI = tau lam N 0.
Proof. rewrite <- tau_at0. rewrite (tau_ell lam 0 ltac:(lra) N), (tau_ell lam 0 ltac:(lra) 0). replace (1 - 0 * 0) with 1 by ring. rewrite sqrt_1. field. Qed.
(** the second derivative where the iteration starts *)
Definition start (N : Z) : R := 3 * tau lam N 0 + 2 * (lam * lam * lam) / sqrt (1 - lam * lam).
Lemma escape N : 4 < start N <= 17 / 4 -> exists it t, halley RA (Some lam) 14 N 0 (Some 0) (Some 0) (Some (tau lam N 0)) = Ret (Some t, it) /\ t < 4 / 3.
Proof.
  intros P. assert (Y0 : y 0 = sqrt (1 - lam * lam)) by (unfold y, lam_y; f_equal; ring). assert (SP : 0 < sqrt (1 - lam * lam)) by (apply sqrt_lt_R0; lra). assert (SS : sqrt (1 - lam * lam) * sqrt (1 - lam * lam) = 1 - lam * lam) by (apply sqrt_sqrt; lra).
  set (T := tau lam N 0). assert (E1 : D1 lam T 0 = -2). { unfold D1. fold (y 0). rewrite Y0. field. lra. }
  assert (E2 : D2 lam T 0 = start N). { unfold D2. fold (y 0). rewrite E1, Y0. unfold start. fold T. rewrite SS. field_simplify_eq; [|split; [lra|nra]]. rewrite <- SS at 1 2. ring_simplify. rewrite <- SS. ring. }
  assert (E3 : D3 lam T 0 = -16). { unfold D3. fold (y 0). rewrite E1, E2, Y0. field. lra. }
  assert (EQ : hq T 0 = start N * start N - 16) by (unfold hq; rewrite E1, E2, E3; field).
  assert (QP : 0 < hq T 0) by (rewrite EQ; nra).
  assert (X1 : 4 <= hnext T 0). { unfold hnext. rewrite E1, E2. replace (0 - -2 * start N / hq T 0) with (2 * start N / hq T 0) by (field; lra). apply (Rle_div_r 4 (2 * start N) (hq T 0)); [exact QP|]. rewrite EQ. nra. }
  destruct (halley_run RA (Some lam) N (Some 0) (Some 0) (Some T)) as [[r [HR _]]|[_ [x0 HU]]].
  2:{ exfalso. destruct (x2tof_total lam L x0 N) as [o O]. congruence. }
  assert (EX : exists it' x', 4 <= x' /\ halley RA (Some lam) 14 N 0 (Some 0) (Some 0) (Some T) = Ret (Some (tau lam N x'), it')).
  { rewrite halley_round in * by lra. destruct (Rlt_dec (Rabs (0 - hnext T 0)) (1 / 10000000000000)) as [C|_]; [exfalso; rewrite Rabs_left in C; lra|]. cbn [orb Z.ltb Z.compare] in *. rewrite far_tof in * by exact X1. cbn [bind] in *.
    destruct (far_run N 13 (0 + 1)%Z (hnext T 0) X1) as [U|H]; [congruence|exact H]. }
  destruct EX as [it' [x' [X' H]]]. exists it', (tau lam N x'). split; [exact H|].
  assert (TB : tau lam N x' < tau lam 0 1). { replace (tau lam N x') with (tau lam 0 x') by (rewrite (tau_hyp lam x' ltac:(lra) N), (tau_hyp lam x' ltac:(lra) 0); reflexivity). apply tau_decr0; [exact L|lra|lra]. }
  rewrite (tau_par lam 1 0 eq_refl) in TB. pose proof (lam_bd lam L). assert (-1 < lam * lam * lam) by nra. lra.
Qed.
Lemma escape_count N T mr : (1 <= N)%Z -> (N <= mr)%Z -> 4 < start N <= 17 / 4 -> 4 / 3 <= T -> count RA (Some lam) (Some T) (Some (lam * lam)) N mr = Ret N.
Proof.
  intros HN M P HT. destruct (escape N P) as [it [t [H B]]]. unfold count. cbv zeta. replace (Z.min mr N) with N by lia. replace (Z.ltb 0 N) with true by lia. pose proof (lam_bd lam L) as LB. rewrite !nat_r. ev. rewrite acos_r, (sqrt_r (1 - lam * lam)) by lra. ev. change (f_pi RA) with (Some PI). ev. rewrite lt_r, tau_at0N.
  destruct (Rlt_dec T (tau lam N 0)) as [C|C].
  - rewrite H. cbn [bind fst]. rewrite lt_r. destruct (Rlt_dec T t) as [F|_]; [lra|]. cbn [bind]. f_equal. lia.
  - cbn [bind]. f_equal. lia.
Qed.
End Revs.
