(** * The time of flight equation has the right number of solutions *)
From Coq Require Import Reals Ranalysis5 ZArith Lra Lia Nsatz.
From Coquelicot Require Import Coquelicot.
From Verif Require Import RealLib Vec3 ElemProofs LambertReal LambertSpec LambertTime LambertSeries LambertVec LambertTof LambertDer.
Open Scope R_scope.

Lemma decr_on (f df : R -> R) a b : (forall x, a < x < b -> is_derive f x (df x)) -> (forall x, a < x < b -> df x < 0) -> forall x y, a < x -> x < y -> y < b -> f y < f x.
Proof.
  intros D P x y A B C. assert (- f x < - f y); [|lra].
  apply (incr_of_derive_on (fun t => - f t) (fun t => - df t) a b); [intros t Ht; apply der_opp, D, Ht|intros t Ht; specialize (P t Ht); lra|assumption..].
Qed.
Lemma h_incr a b : a < b -> a - sin a * cos a < b - sin b * cos b.
Proof.
  intros H. assert (F : forall t, is_derive (fun t => t - sin t * cos t) t (2 * (sin t * sin t))).
  { intros t. eapply der_to; [apply der_minus; [apply der_id|apply der_mult; [apply der_sin|apply der_cos]]|]. pose proof (sin2_cos2 t) as Q. unfold Rsqr in Q. nra. }
  destruct (MVT_cor2 (fun t => t - sin t * cos t) (fun t => 2 * (sin t * sin t)) a b H) as [c [E _]]; [intros c _; apply is_derive_Reals, F|]. cbn beta in E.
  assert (P : forall u v, u < v -> u - sin u * cos u <= v - sin v * cos v).
  { intros u v Huv. destruct (MVT_cor2 (fun t => t - sin t * cos t) (fun t => 2 * (sin t * sin t)) u v Huv) as [d [Ed _]]; [intros d _; apply is_derive_Reals, F|]. cbn beta in Ed. pose proof (Rle_0_sqr (sin d)) as Q. unfold Rsqr in Q. assert (0 <= 2 * (sin d * sin d) * (v - u)) by (apply Rmult_le_pos; lra). lra. }
  (* strict: the derivative is positive somewhere between *)
  destruct (P a b H) as [S|S]; [exact S|]. exfalso.
  assert (K : forall t, a < t < b -> sin t * sin t = 0).
  { intros t Ht. assert (Q : forall u, a <= u <= b -> u - sin u * cos u = a - sin a * cos a). { intros u Hu. assert (a - sin a * cos a <= u - sin u * cos u) by (destruct (Req_dec a u) as [->|]; [lra|apply P; lra]). assert (u - sin u * cos u <= b - sin b * cos b) by (destruct (Req_dec u b) as [->|]; [lra|apply P; lra]). lra. }
    assert (DZ : is_derive (fun t => t - sin t * cos t) t 0). { apply (der_local (fun _ => a - sin a * cos a) _ t 0 (fun u => a < u < b)); [apply (open_and (fun t => a < t) (fun t => t < b)); [apply open_gt|apply open_lt|exact Ht]|intros u Hu; symmetry; apply Q; lra|apply der_const]. }
    pose proof (is_derive_unique _ _ _ DZ) as U1. pose proof (is_derive_unique _ _ _ (F t)) as U2. rewrite U1 in U2. lra. }
  assert (KS : forall t, a < t < b -> sin t = 0) by (intros t Ht; apply Rsqr_0_uniq; unfold Rsqr; apply K, Ht).
  set (t := (a + b) / 2). assert (Ht : a < t < b) by (unfold t; lra).
  assert (DS : is_derive sin t 0). { apply (der_local (fun _ => 0) _ t 0 (fun u => a < u < b)); [apply (open_and (fun t => a < t) (fun t => t < b)); [apply open_gt|apply open_lt|exact Ht]|intros u Hu; symmetry; apply KS, Hu|apply der_const]. }
  pose proof (is_derive_unique _ _ _ DS) as U1. pose proof (is_derive_unique _ _ _ (der_sin t)) as U2. rewrite U1 in U2. pose proof (sin2_cos2 t) as Q. unfold Rsqr in Q. rewrite (KS t Ht), <- U2 in Q. lra.
Qed.
Lemma hh_incr a b : 0 <= a -> a < b -> sinh a * cosh a - a < sinh b * cosh b - b.
Proof.
  intros A H. assert (F : forall t, is_derive (fun t => sinh t * cosh t - t) t (2 * (sinh t * sinh t))).
  { intros t. eapply der_to; [apply der_minus; [apply der_mult; [apply der_sinh|apply der_cosh]|apply der_id]|]. pose proof (cosh_sinh_sq t). nra. }
  destruct (MVT_cor2 (fun t => sinh t * cosh t - t) (fun t => 2 * (sinh t * sinh t)) a b H) as [c [E Hc]]; [intros c _; apply is_derive_Reals, F|]. cbn beta in E.
  assert (0 < sinh c) by (apply sinh_pos; lra). assert (0 < sinh c * sinh c) by nra. nra.
Qed.

Section Mono.
Variable lam : R.
Hypothesis L : lam * lam < 1.
Let y (x : R) := lam_y lam x.
(** complete revolutions: with a = s / (2 (1 - x^2)) the orbital period is pi / w^3 in the units of tau *)
Lemma tau_revs N x : -1 < x < 1 -> let w := sqrt (1 - x * x) in IZR N * PI < tau lam N x * (w * w * w) < (IZR N + 1) * PI.
Proof.
  intros X w. destruct (w_sq x X) as [WP W]. fold w in WP, W. rewrite (tau_ell lam x X N). fold w. rewrite <- W.
  replace (((half_angle lam x + IZR N * PI) / w - x + lam * lam_y lam x) / (w * w) * (w * w * w)) with (half_angle lam x + IZR N * PI + w * (lam * lam_y lam x - x)) by (field; lra).
  pose proof (psi_bd lam L x X) as PB. pose proof (asin_diff lam L x X) as AD. fold w in AD.
  assert (LW : -1 < lam * w < 1). { pose proof (lam_bd lam L). assert (lam * w * (lam * w) < 1) by (replace (lam * w * (lam * w)) with (lam * lam * (w * w)) by ring; rewrite W; pose proof (ly_arg lam L x); lra). split; nra. }
  assert (CA : cos (asin (lam * w)) = lam_y lam x). { rewrite cos_asin by lra. unfold lam_y. f_equal. unfold Rsqr. replace (lam * w * (lam * w)) with (lam * lam * (w * w)) by ring. rewrite W. ring. }
  assert (SA : sin (acos x) = w) by (rewrite sin_acos by lra; unfold w; f_equal). assert (CX : cos (acos x) = x) by (apply cos_acos; lra). assert (SB : sin (asin (lam * w)) = lam * w) by (apply sin_asin; lra).
  rewrite AD in *. set (A := acos x) in *. set (B := asin (lam * w)) in *.
  pose proof (h_incr B A ltac:(lra)) as H1. pose proof (h_incr A (B + PI) ltac:(lra)) as H2. rewrite neg_sin, neg_cos in H2. rewrite SA, CX, SB, CA in *. split; nra.
Qed.
Lemma tau_hyp_pos N x : 1 < x -> 0 < tau lam N x.
Proof.
  intros X. destruct (wh_sq x X) as [WP W]. rewrite (tau_hyp lam x X N). pose proof (psih_pos lam L x X) as PB. pose proof (asinh_diff lam L x X) as AD. destruct (acosh_cosh x ltac:(lra)) as [CX SX]. pose proof (cosh_arcsinh (lam * sqrt (x * x - 1))) as CB. pose proof (sinh_arcsinh (lam * sqrt (x * x - 1))) as SB.
  set (w := sqrt (x * x - 1)) in *. assert (CY : cosh (arcsinh (lam * w)) = lam_y lam x). { rewrite CB. unfold lam_y. f_equal. replace (lam * w * (lam * w)) with (lam * lam * (w * w)) by ring. rewrite W. ring. }
  rewrite <- W. replace ((x - lam * lam_y lam x - half_hangle lam x / w) / (w * w)) with ((w * x - lam * w * lam_y lam x - half_hangle lam x) / (w * w * w)) by (field; lra).
  apply Rdiv_lt_0_compat; [|repeat apply Rmult_lt_0_compat; assumption]. rewrite AD in *. set (A := arccosh x) in *. set (B := arcsinh (lam * w)) in *.
  assert (G : sinh B * cosh B - B < sinh A * cosh A - A).
  { destruct (Rle_lt_dec 0 B) as [HB|HB]; [apply hh_incr; lra|]. assert (0 < A). { destruct (Rlt_le_dec 0 A) as [?|C]; [assumption|]. exfalso. assert (sinh A <= 0) by (rewrite <- sinh_0; destruct (Req_dec A 0) as [->|]; [lra|left; apply sinh_lt; lra]). lra. }
    pose proof (hh_incr 0 A ltac:(lra) ltac:(lra)) as H1. pose proof (hh_incr 0 (- B) ltac:(lra) ltac:(lra)) as H2. rewrite sinh_0, sinh_neg, cosh_neg in *. lra. }
  rewrite SX, CX, SB, CY in G. lra.
Qed.
Lemma tau_pos N x : (0 <= N)%Z -> -1 < x -> 0 < tau lam N x.
Proof.
  intros HN X. destruct (Rtotal_order x 1) as [H|[H|H]].
  - assert (XE : -1 < x < 1) by lra. destruct (tau_revs N x XE) as [T _]. destruct (w_sq x XE) as [WP _]. set (w := sqrt (1 - x * x)) in *. apply IZR_le in HN. pose proof PI_RGT_0. assert (0 <= IZR N * PI) by (apply Rmult_le_pos; lra).
    assert (P : 0 < w * w * w) by (repeat apply Rmult_lt_0_compat; exact WP). apply (Rmult_lt_reg_r (w * w * w)); [exact P|]. lra.
  - rewrite (tau_par lam x N H). pose proof (lam_bd lam L). assert (lam * lam * lam < 1) by nra. lra.
  - apply tau_hyp_pos, H.
Qed.
(** sign of the derivative *)
Definition Ee (N : Z) (x : R) : R := half_angle lam x + IZR N * PI + sqrt (1 - x * x) * (lam * y x - x) - 2 / 3 * (sqrt (1 - x * x) * sqrt (1 - x * x) * sqrt (1 - x * x)) * (/ x - lam * lam * lam / y x).
Lemma slope_pos x : 0 < x -> 0 < / (x * x) - lam * lam * lam * (lam * lam) * x / (y x * y x * y x).
Proof.
  intros X. destruct (ly_lx lam L x) as [A B]. destruct (ly_sq lam L x) as [P Y2]. fold (y x) in A, B, P, Y2. pose proof (lam_bd lam L) as LB.
  assert (Q : lam * lam * lam * (lam * lam) * x * (x * x) < y x * y x * y x).
  { destruct (Rle_lt_dec lam 0) as [C|C].
    - assert (0 < y x * y x * y x) by (repeat apply Rmult_lt_0_compat; exact P). assert (Q2 : 0 <= lam * lam) by nra. assert (Q3 : 0 <= (- lam) * (lam * lam) * (lam * lam)) by (apply Rmult_le_pos; [apply Rmult_le_pos; lra|lra]). assert (Q4 : 0 <= x * (x * x)) by (repeat apply Rmult_le_pos; lra). assert (Q5 : 0 <= (- lam) * (lam * lam) * (lam * lam) * (x * (x * x))) by (apply Rmult_le_pos; assumption). lra.
    - assert (0 < lam * x) by (apply Rmult_lt_0_compat; lra). assert (lam * x * (lam * x) < y x * y x) by (apply Rmult_le_0_lt_compat; lra). assert ((lam * x) * (lam * x) * (lam * x) < y x * y x * y x) by (apply Rmult_le_0_lt_compat; nra).
      assert (lam * lam * ((lam * x) * (lam * x) * (lam * x)) < 1 * (y x * y x * y x)) by (apply Rmult_le_0_lt_compat; nra). nra. }
  assert (P3 : 0 < y x * y x * y x) by (repeat apply Rmult_lt_0_compat; exact P). assert (X2 : 0 < x * x) by nra.
  replace (/ (x * x) - lam * lam * lam * (lam * lam) * x / (y x * y x * y x)) with ((y x * y x * y x - lam * lam * lam * (lam * lam) * x * (x * x)) / (x * x * (y x * y x * y x))) by (field; lra).
  apply Rdiv_lt_0_compat; [lra|apply Rmult_lt_0_compat; assumption].
Qed.
Lemma Ee_derive N x : 0 < x < 1 -> is_derive (Ee N) x (2 / 3 * (sqrt (1 - x * x) * sqrt (1 - x * x) * sqrt (1 - x * x)) * (/ (x * x) - lam * lam * lam * (lam * lam) * x / (y x * y x * y x))).
Proof.
  intros X. assert (XE : -1 < x < 1) by lra. destruct (w_sq x XE) as [WP W]. destruct (ly_sq lam L x) as [P Y2]. fold (y x) in P, Y2.
  assert (DW : is_derive (fun t => sqrt (1 - t * t)) x (- x / sqrt (1 - x * x))). { eapply der_to; [apply (der_sqrt (fun t => 1 - t * t)); [apply der_minus; [apply der_const|apply der_mult; apply der_id]|nra]|]. cbn beta. field. lra. }
  unfold Ee. eapply der_to.
  - apply der_minus; [apply der_plus; [apply der_plus; [apply (half_angle_derive lam L x XE)|apply der_const]|apply der_mult; [exact DW|apply der_minus; [apply der_scal, (y_derive lam L)|apply der_id]]]|].
    apply der_mult; [apply der_scal, der_mult; [apply der_mult; exact DW|exact DW]|apply der_minus; [apply der_inv; [apply der_id|lra]|apply der_div; [apply der_const|apply (y_derive lam L)|fold (y x); lra]]].
  - cbn beta. fold (y x). set (w := sqrt (1 - x * x)) in *.
    apply (Rmult_eq_reg_r (w * y x * y x * y x * (x * x))); [|apply Rgt_not_eq; repeat apply Rmult_lt_0_compat; lra].
    transitivity ((y x * y x) * (x * x) * (- (y x - lam * x) - x * (lam * y x - x) * y x + (w * w) * (lam * lam * lam * x - y x)) + 2 * (w * w) * x * (y x * y x) * (x * (y x - lam * lam * lam * x)) + 2 / 3 * (w * w * (w * w)) * (y x * y x * y x) - 2 / 3 * (w * w * (w * w)) * (lam * lam * lam * (lam * lam)) * x * (x * x)); [field; lra|].
    transitivity (2 / 3 * (w * w * (w * w)) * (y x * y x * y x - lam * lam * lam * (lam * lam) * x * (x * x))); [|field; lra].
    assert (Z : - (y x - lam * x) - x * (lam * y x - x) * y x + w * w * (lam * lam * lam * x - y x) + 2 * (w * w) * (y x - lam * lam * lam * x) = 0) by (clear - W Y2; nsz).
    transitivity ((y x * y x) * (x * x) * (- (y x - lam * x) - x * (lam * y x - x) * y x + w * w * (lam * lam * lam * x - y x) + 2 * (w * w) * (y x - lam * lam * lam * x)) + 2 / 3 * (w * w * (w * w)) * (y x * y x * y x - lam * lam * lam * (lam * lam) * x * (x * x))); [ring|rewrite Z; ring].
Qed.
Lemma Ee_incr N a b : 0 < a -> a < b -> b < 1 -> Ee N a < Ee N b.
Proof.
  apply (incr_of_derive_on (Ee N) (fun x => 2 / 3 * (sqrt (1 - x * x) * sqrt (1 - x * x) * sqrt (1 - x * x)) * (/ (x * x) - lam * lam * lam * (lam * lam) * x / (y x * y x * y x))) 0 1).
  - intros x X. apply Ee_derive. lra.
  - intros x X. destruct (w_sq x ltac:(lra)) as [WP _]. pose proof (slope_pos x ltac:(lra)). apply Rmult_lt_0_compat; [|assumption]. apply Rmult_lt_0_compat; [lra|]. repeat apply Rmult_lt_0_compat; exact WP.
Qed.
Lemma D1_Ee N x : 0 < x < 1 -> D1 lam (tau lam N x) x = 3 * x / ((1 - x * x) * (sqrt (1 - x * x) * sqrt (1 - x * x) * sqrt (1 - x * x))) * Ee N x.
Proof.
  intros X. assert (XE : -1 < x < 1) by lra. destruct (w_sq x XE) as [WP W]. destruct (ly_sq lam L x) as [P Y2]. unfold D1, Ee. rewrite (tau_ell lam x XE N). fold (y x) in P, Y2 |- *. set (w := sqrt (1 - x * x)) in *. rewrite <- W. field. lra.
Qed.
Lemma D1_neg N x : (0 <= N)%Z -> -1 < x <= 0 -> D1 lam (tau lam N x) x < 0.
Proof.
  intros HN X. pose proof (tau_pos N x HN ltac:(lra)) as TP. destruct (ly_sq lam L x) as [P Y2]. destruct (ly_lx lam L x) as [A B]. fold (y x) in P, Y2, A, B. unfold D1. fold (y x). pose proof (lam_bd lam L) as LB.
  assert (Q : lam * lam * lam * x < y x). { assert (Rabs (lam * x) < y x) by (apply Rabs_def1; lra). assert (lam * lam * (lam * x) <= Rabs (lam * x)); [|lra]. pose proof (Rle_abs (lam * x)). pose proof (Rabs_pos (lam * x)). pose proof (Rle_0_sqr lam) as S. unfold Rsqr in S. nra. }
  assert (F : lam * lam * lam * x / y x < 1) by (apply (Rmult_lt_reg_r (y x)); [exact P|]; replace (lam * lam * lam * x / y x * y x) with (lam * lam * lam * x) by (field; lra); lra).
  assert (N0 : 3 * tau lam N x * x - 2 + 2 * (lam * lam * lam) * x / y x < 0). { replace (2 * (lam * lam * lam) * x / y x) with (2 * (lam * lam * lam * x / y x)) by (field; lra). nra. }
  assert (WQ : 0 < 1 - x * x) by nra. unfold Rdiv at 1. assert (0 < / (1 - x * x)) by (apply Rinv_0_lt_compat; exact WQ). nra.
Qed.
(** behaviour near 1 *)
Lemma tau_near x : Rabs (x - 1) < 1 / 100 -> let eta := y x - lam * x in
  Rabs (tau lam 0 x - (2 / 3 * (eta * eta * eta) + 2 * lam * eta)) <= 10 * Rabs (1 / 2 * (1 - lam - x * eta)).
Proof.
  intros NX eta. destruct (eta_near lam L x NX) as [EP EB]. pose proof (battin_z lam L x NX) as BZ. pose proof (x_near x NX) as XB. fold (y x) in EP, EB, BZ. fold eta in EP, EB, BZ. destruct (ly_sq lam L x) as [P Y2]. fold (y x) in P, Y2.
  assert (E3 : 0 <= eta * eta * eta <= 9261 / 1000) by (split; [apply Rlt_le; repeat apply Rmult_lt_0_compat; lra|assert (eta * eta <= 441 / 100) by nra; nra]).
  assert (FIN : forall G V S3 wq, 0 < wq -> 0 <= V -> S3 = eta * eta * eta * wq -> Rabs (G - S3 * 1) <= S3 * (4 / 3 * 1 * V ^ 1) -> Rabs (2 / 3 * G / wq - 2 / 3 * (eta * eta * eta)) <= 10 * V).
  { intros G V S3 wq WQ VP -> B. replace (2 / 3 * G / wq - 2 / 3 * (eta * eta * eta)) with (2 / 3 / wq * (G - eta * eta * eta * wq * 1)) by (field; lra). assert (I : 0 < 2 / 3 / wq) by (apply Rdiv_lt_0_compat; lra).
    rewrite Rabs_mult, (Rabs_right (2 / 3 / wq)) by lra. eapply Rle_trans; [apply Rmult_le_compat_l; [lra|exact B]|]. replace (2 / 3 / wq * (eta * eta * eta * wq * (4 / 3 * 1 * V ^ 1))) with (8 / 9 * (eta * eta * eta) * V) by (field; lra). nra. }
  destruct (Rtotal_order x 1) as [H|[H|H]].
  - assert (XE : -1 < x < 1) by lra. destruct (w_sq x XE) as [WP W]. pose proof (tau_ell lam x XE 0) as TE. pose proof (cos_psi lam L x XE) as CP. pose proof (sin_psi lam L x XE) as SP. pose proof (psi_bd lam L x XE) as PB.
    set (w := sqrt (1 - x * x)) in *. set (psi := half_angle lam x) in *. fold (y x) in TE, CP, SP. fold eta in SP.
    assert (EZ : 1 / 2 * (1 - lam - x * eta) = ez psi) by (unfold ez; rewrite CP; unfold eta; field).
    assert (ZB : ez psi <= 1 / 32) by (rewrite <- EZ; eapply Rle_trans; [apply Rle_abs|exact BZ]).
    pose proof (ell_series 0 psi ltac:(lra) ZB) as [S1 S2]. cbn [hs hc] in S1, S2.
    specialize (FIN (eg psi) (ez psi) (sin psi * sin psi * sin psi) (w * w * w) ltac:(repeat apply Rmult_lt_0_compat; assumption) (ez_nonneg psi) ltac:(rewrite SP; ring) ltac:(apply Rabs_le; lra)).
    rewrite EZ, (Rabs_right (ez psi)) by (apply Rle_ge, ez_nonneg). replace (tau lam 0 x - (2 / 3 * (eta * eta * eta) + 2 * lam * eta)) with (2 / 3 * eg psi / (w * w * w) - 2 / 3 * (eta * eta * eta)); [exact FIN|].
    assert (GE : eg psi = 3 / 2 * (psi - w * eta * (x * y x + lam * (1 - x * x)))) by (unfold eg; rewrite sin_2a, CP, SP; field). rewrite GE, TE.
    apply (Rmult_eq_reg_r (w * w * w)); [|apply Rgt_not_eq; repeat apply Rmult_lt_0_compat; assumption]. rewrite <- W.
    transitivity (psi - 2 / 3 * (eta * eta * eta) * (w * w * w) - w * (eta * (x * y x + lam * (w * w)))); [field; lra|].
    transitivity (psi - 2 / 3 * (eta * eta * eta) * (w * w * w) - w * (2 * lam * eta * (w * w) + x - lam * y x)); [|field; lra]. f_equal. f_equal. unfold eta. clear - W Y2. nsz.
  - rewrite (tau_par lam x 0 H). unfold eta. unfold y. rewrite (y_par lam x H), H. replace (2 / 3 * (1 - lam * lam * lam) - (2 / 3 * ((1 - lam * 1) * (1 - lam * 1) * (1 - lam * 1)) + 2 * lam * (1 - lam * 1))) with 0 by field. rewrite Rabs_R0. apply Rmult_le_pos; [lra|apply Rabs_pos].
  - destruct (wh_sq x H) as [WP W]. pose proof (tau_hyp lam x H 0) as TE. destruct (cosh_psi lam L x H) as [CP SP]. pose proof (psih_pos lam L x H) as PB.
    set (w := sqrt (x * x - 1)) in *. set (psi := half_hangle lam x) in *. fold (y x) in TE, CP, SP. fold eta in SP.
    assert (EZ : 1 / 2 * (1 - lam - x * eta) = - hz psi) by (unfold hz; rewrite CP; unfold eta; field).
    pose proof (hyp_series 0 psi ltac:(lra)) as S1. cbn [hs hc] in S1.
    specialize (FIN (hg psi) (hz psi) (sinh psi * sinh psi * sinh psi) (w * w * w) ltac:(repeat apply Rmult_lt_0_compat; assumption) (hz_nonneg psi) ltac:(rewrite SP; ring) S1).
    rewrite EZ, Rabs_Ropp, (Rabs_right (hz psi)) by (apply Rle_ge, hz_nonneg). replace (tau lam 0 x - (2 / 3 * (eta * eta * eta) + 2 * lam * eta)) with (2 / 3 * hg psi / (w * w * w) - 2 / 3 * (eta * eta * eta)); [exact FIN|].
    assert (GE : hg psi = 3 / 2 * (w * eta * (x * y x - lam * (x * x - 1)) - psi)) by (unfold hg; rewrite sinh_2a', CP, SP; field). rewrite GE, TE.
    apply (Rmult_eq_reg_r (w * w * w)); [|apply Rgt_not_eq; repeat apply Rmult_lt_0_compat; assumption]. rewrite <- W.
    transitivity (w * (eta * (x * y x - lam * (w * w))) - psi - 2 / 3 * (eta * eta * eta) * (w * w * w)); [field; lra|].
    transitivity (w * (x - lam * y x - 2 * lam * eta * (w * w)) - psi - 2 / 3 * (eta * eta * eta) * (w * w * w)); [|field; lra]. f_equal. f_equal. f_equal. unfold eta. clear - W Y2. nsz.
Qed.
Lemma near_gap x : Rabs (x - 1) < 1 / 100 -> Rabs (tau lam 0 x - 2 / 3 * (/ x - lam * lam * lam / y x)) <= 20.
Proof.
  intros NX. pose proof (tau_near x NX) as T. cbv zeta in T. destruct (eta_near lam L x NX) as [EP EB]. pose proof (battin_z lam L x NX) as BZ. pose proof (x_near x NX) as XB. pose proof (y_near lam L x NX) as YB. fold (y x) in EP, EB, BZ, YB. set (eta := y x - lam * x) in *. pose proof (lam_bd lam L) as LB.
  assert (E3 : 0 <= eta * eta * eta <= 9261 / 1000) by (split; [apply Rlt_le; repeat apply Rmult_lt_0_compat; lra|assert (eta * eta <= 441 / 100) by nra; nra]).
  assert (LE : -21 / 10 <= lam * eta <= 21 / 10) by (split; nra).
  assert (IX : 0 < / x < 2) by (split; [apply Rinv_0_lt_compat; lra|rewrite <- (Rinv_inv 2); apply Rinv_lt_contravar; lra]).
  assert (IY : 0 < / y x < 2) by (split; [apply Rinv_0_lt_compat; lra|rewrite <- (Rinv_inv 2); apply Rinv_lt_contravar; lra]).
  assert (L3 : -1 <= lam * lam * lam <= 1) by (split; nra). assert (-2 <= lam * lam * lam / y x <= 2) by (unfold Rdiv; split; nra).
  apply Rabs_le. assert (T2 : Rabs (tau lam 0 x - (2 / 3 * (eta * eta * eta) + 2 * lam * eta)) <= 10 / 32) by lra. apply Rabs_le_between in T2. lra.
Qed.
Lemma Ee_neg x : 0 < x < 1 -> Ee 0 x < 0.
Proof.
  intros X. destruct (Rlt_le_dec (Ee 0 x) 0) as [C|C]; [exact C|]. exfalso. set (x1 := (x + 1) / 2). assert (I : Ee 0 x < Ee 0 x1) by (apply Ee_incr; unfold x1; lra). set (e := Ee 0 x1) in *.
  set (d := Rmin ((1 - x1) / 2) (Rmin (1 / 200) (e / 80))). assert (DP : 0 < d) by (unfold d; repeat apply Rmin_pos; unfold x1; lra).
  assert (D1 : d <= (1 - x1) / 2) by apply Rmin_l. assert (D2 : d <= 1 / 200) by (eapply Rle_trans; [apply Rmin_r|apply Rmin_l]). assert (D3 : d <= e / 80) by (eapply Rle_trans; [apply Rmin_r|apply Rmin_r]).
  set (t := 1 - d). assert (H1 : e < Ee 0 t) by (apply Ee_incr; unfold t, x1 in *; lra). assert (XT : -1 < t < 1) by (unfold t; lra).
  destruct (w_sq t XT) as [WP W]. assert (NT : Rabs (t - 1) < 1 / 100) by (unfold t; apply Rabs_def1; lra). pose proof (near_gap t NT) as G. pose proof (x_near t NT). pose proof (y_near lam L t NT) as YN. fold (y t) in YN.
  assert (EQ : Ee 0 t = sqrt (1 - t * t) * sqrt (1 - t * t) * sqrt (1 - t * t) * (tau lam 0 t - 2 / 3 * (/ t - lam * lam * lam / y t))). { unfold Ee. rewrite (tau_ell lam t XT 0). fold (y t). set (w := sqrt (1 - t * t)) in *. rewrite <- W. field. lra. }
  set (w := sqrt (1 - t * t)) in *. set (g := tau lam 0 t - 2 / 3 * (/ t - lam * lam * lam / y t)) in *. apply Rabs_le_between in G. assert (W1 : w < 1) by nra.
  assert (W3 : 0 < w * w * w) by (repeat apply Rmult_lt_0_compat; exact WP). assert (w * w * w <= w * w) by nra. assert (w * w <= 2 * d) by (rewrite W; unfold t; nra). nra.
Qed.
Lemma D1_neg_ell x : -1 < x < 1 -> D1 lam (tau lam 0 x) x < 0.
Proof.
  intros X. destruct (Rle_lt_dec x 0) as [H|H]; [apply D1_neg; [lia|lra]|]. rewrite D1_Ee by lra. pose proof (Ee_neg x ltac:(lra)) as E. destruct (w_sq x X) as [WP W]. set (w := sqrt (1 - x * x)) in *.
  assert (P : 0 < 3 * x / ((1 - x * x) * (w * w * w))) by (apply Rdiv_lt_0_compat; [lra|]; rewrite <- W; repeat apply Rmult_lt_0_compat; exact WP). nra.
Qed.
(** the hyperbola *)
Definition Eh (x : R) : R := sqrt (x * x - 1) * sqrt (x * x - 1) * sqrt (x * x - 1) * (tau lam 0 x - 2 / 3 * (/ x - lam * lam * lam / y x)).
Lemma Eh_derive x : 1 < x -> is_derive Eh x (2 / 3 * (sqrt (x * x - 1) * sqrt (x * x - 1) * sqrt (x * x - 1)) * (/ (x * x) - lam * lam * lam * (lam * lam) * x / (y x * y x * y x))).
Proof.
  intros X. destruct (wh_sq x X) as [WP W]. destruct (ly_sq lam L x) as [P Y2]. fold (y x) in P, Y2.
  assert (DW : is_derive (fun t => sqrt (t * t - 1)) x (x / sqrt (x * x - 1))). { eapply der_to; [apply (der_sqrt (fun t => t * t - 1)); [apply der_minus; [apply der_mult; apply der_id|apply der_const]|nra]|]. cbn beta. field. lra. }
  unfold Eh. eapply der_to.
  - apply der_mult; [apply der_mult; [apply der_mult; exact DW|exact DW]|apply der_minus; [apply (tau_derive lam L 0 x); lra|]].
    apply der_scal, der_minus; [apply der_inv; [apply der_id|lra]|apply der_div; [apply der_const|apply (y_derive lam L)|fold (y x); lra]].
  - cbn beta. unfold D1. fold (y x). set (w := sqrt (x * x - 1)) in *. replace (1 - x * x) with (- (w * w)) by lra. field. nra.
Qed.
Lemma Eh_incr a b : 1 < a -> a < b -> Eh a < Eh b.
Proof.
  intros A B. apply (incr_of_derive_on Eh (fun x => 2 / 3 * (sqrt (x * x - 1) * sqrt (x * x - 1) * sqrt (x * x - 1)) * (/ (x * x) - lam * lam * lam * (lam * lam) * x / (y x * y x * y x))) 1 (b + 1)); [..|lra|lra|lra].
  - intros x X. apply Eh_derive. lra.
  - intros x X. destruct (wh_sq x ltac:(lra)) as [WP _]. pose proof (slope_pos x ltac:(lra)). apply Rmult_lt_0_compat; [|assumption]. apply Rmult_lt_0_compat; [lra|]. repeat apply Rmult_lt_0_compat; exact WP.
Qed.
Lemma Eh_pos x : 1 < x -> 0 < Eh x.
Proof.
  intros X. destruct (Rlt_le_dec 0 (Eh x)) as [C|C]; [exact C|]. exfalso. set (x1 := (x + 1) / 2). assert (I : Eh x1 < Eh x) by (apply Eh_incr; unfold x1; lra). set (e := - Eh x1) in *.
  set (d := Rmin ((x1 - 1) / 2) (Rmin (1 / 200) (e / 80))). assert (DP : 0 < d) by (unfold d; repeat apply Rmin_pos; unfold e, x1 in *; lra).
  assert (D1 : d <= (x1 - 1) / 2) by apply Rmin_l. assert (D2 : d <= 1 / 200) by (eapply Rle_trans; [apply Rmin_r|apply Rmin_l]). assert (D3 : d <= e / 80) by (eapply Rle_trans; [apply Rmin_r|apply Rmin_r]).
  set (t := 1 + d). assert (H1 : Eh t < Eh x1) by (apply Eh_incr; unfold t, x1 in *; lra). assert (XT : 1 < t) by (unfold t; lra).
  destruct (wh_sq t XT) as [WP W]. assert (NT : Rabs (t - 1) < 1 / 100) by (unfold t; apply Rabs_def1; lra). pose proof (near_gap t NT) as G. pose proof (x_near t NT) as XN.
  unfold Eh at 1 in H1. set (w := sqrt (t * t - 1)) in *. set (g := tau lam 0 t - 2 / 3 * (/ t - lam * lam * lam / y t)) in *. apply Rabs_le_between in G. assert (W1 : w * w < 1) by (rewrite W; nra). assert (W0 : w < 1) by nra.
  assert (W3 : 0 < w * w * w) by (repeat apply Rmult_lt_0_compat; exact WP). assert (w * w * w <= w * w) by nra. assert (WD : w * w <= 3 * d) by (rewrite W; unfold t; nra). unfold e in *. nra.
Qed.
Lemma D1_neg_hyp x : 1 < x -> D1 lam (tau lam 0 x) x < 0.
Proof.
  intros X. pose proof (Eh_pos x X) as E. destruct (wh_sq x X) as [WP W]. destruct (ly_sq lam L x) as [P Y2]. unfold D1. unfold Eh in E. fold (y x) in P, Y2 |- *. set (w := sqrt (x * x - 1)) in *. set (g := tau lam 0 x) in *.
  assert (W3 : 0 < w * w * w) by (repeat apply Rmult_lt_0_compat; exact WP). assert (G : 0 < g - 2 / 3 * (/ x - lam * lam * lam / y x)) by nra.
  replace (1 - x * x) with (- (w * w)) by lra. replace ((3 * g * x - 2 + 2 * (lam * lam * lam) * x / y x) / - (w * w)) with (- (3 * x / (w * w) * (g - 2 / 3 * (/ x - lam * lam * lam / y x)))) by (field; nra).
  assert (0 < 3 * x / (w * w)) by (apply Rdiv_lt_0_compat; nra). nra.
Qed.
(** continuity through the parabola *)
Lemma squeeze (f q : R -> R) c d : 0 < d -> continuity_pt q c -> q c = 0 -> (forall t, Rabs (t - c) < d -> Rabs (f t - f c) <= q t) -> continuity_pt f c.
Proof.
  intros D Q Q0 H. intros eps E. destruct (Q eps E) as [a [A B]]. exists (Rmin a d). split; [apply Rmin_pos; lra|]. intros t [[_ N] T]. cbn in T |- *. unfold R_dist in *.
  assert (T1 : Rabs (t - c) < a) by (eapply Rlt_le_trans; [exact T|apply Rmin_l]). assert (T2 : Rabs (t - c) < d) by (eapply Rlt_le_trans; [exact T|apply Rmin_r]).
  specialize (B t). cbn in B. unfold R_dist in B. specialize (B (conj (conj I N) T1)). rewrite Q0 in B. specialize (H t T2). apply Rabs_def2 in B. lra.
Qed.
Lemma tau_cont1 : continuity_pt (tau lam 0) 1.
Proof.
  set (eta := fun t => y t - lam * t). set (h := fun t => 2 / 3 * (eta t * eta t * eta t) + 2 * lam * eta t). set (zz := fun t => 1 / 2 * (1 - lam - t * eta t)).
  assert (CE : continuity_pt eta 1). { apply derivable_continuous_pt. exists (lam * lam * 1 / y 1 - lam * 1). apply is_derive_Reals. apply der_minus; [apply (y_derive lam L)|apply der_scal, der_id]. }
  assert (CI : continuity_pt (fun t : R => t) 1) by (apply derivable_continuous_pt, derivable_pt_id).
  assert (CC : forall k : R, continuity_pt (fun _ => k) 1) by (intros k; apply continuity_pt_const; intros ? ?; reflexivity).
  assert (CH : continuity_pt h 1). { apply (continuity_pt_plus (fun t => 2 / 3 * (eta t * eta t * eta t)) (fun t => 2 * lam * eta t)); [apply (continuity_pt_mult (fun _ => 2 / 3)); [apply CC|]; apply (continuity_pt_mult (fun t => eta t * eta t) eta); [apply (continuity_pt_mult eta eta); exact CE|exact CE]|apply (continuity_pt_mult (fun _ => 2 * lam)); [apply CC|exact CE]]. }
  assert (CZ : continuity_pt zz 1). { apply (continuity_pt_mult (fun _ => 1 / 2)); [apply CC|]. apply (continuity_pt_minus (fun _ => 1 - lam) (fun t => t * eta t)); [apply CC|apply (continuity_pt_mult (fun t => t) eta); [exact CI|exact CE]]. }
  assert (CA : forall f, continuity_pt f 1 -> continuity_pt (fun t => Rabs (f t)) 1) by (intros f Cf; apply (continuity_pt_comp f Rabs); [exact Cf|apply Rcontinuity_abs]).
  assert (Y1 : y 1 = 1) by (apply y_par; reflexivity). assert (E1 : eta 1 = 1 - lam) by (unfold eta; rewrite Y1; ring). assert (T1 : tau lam 0 1 = h 1) by (rewrite tau_par by reflexivity; unfold h; rewrite E1; field). assert (Z1 : zz 1 = 0) by (unfold zz; rewrite E1; field).
  apply (squeeze _ (fun t => Rabs (h t - h 1) + 10 * Rabs (zz t)) 1 (1 / 100)); [lra|..].
  - apply (continuity_pt_plus (fun t => Rabs (h t - h 1)) (fun t => 10 * Rabs (zz t))); [apply CA, (continuity_pt_minus h (fun _ => h 1)); [exact CH|apply CC]|apply (continuity_pt_mult (fun _ => 10)); [apply CC|apply CA, CZ]].
  - rewrite Z1, Rminus_eq_0, Rabs_R0. ring.
  - intros t Ht. pose proof (tau_near t Ht) as B. cbv zeta in B. fold (eta t) in B. fold (zz t) in B. fold (h t) in B. rewrite T1. replace (tau lam 0 t - h 1) with ((h t - h 1) + (tau lam 0 t - h t)) by ring. eapply Rle_trans; [apply Rabs_triang|]. lra.
Qed.
Lemma tau_cont0 x : -1 < x -> continuity_pt (tau lam 0) x.
Proof. intros X. destruct (Req_dec x 1) as [->|N]; [exact tau_cont1|]. apply derivable_continuous_pt. exists (D1 lam (tau lam 0 x) x). apply is_derive_Reals, tau_derive; assumption. Qed.
Theorem tau_decr0 a b : -1 < a -> a < b -> tau lam 0 b < tau lam 0 a.
Proof.
  assert (DE : forall a b, -1 < a -> a < b -> b < 1 -> tau lam 0 b < tau lam 0 a). { apply (decr_on _ (fun x => D1 lam (tau lam 0 x) x)); [intros x X; apply tau_derive; lra|intros x X; apply D1_neg_ell, X]. }
  assert (DH : forall a b, 1 < a -> a < b -> tau lam 0 b < tau lam 0 a). { intros u v U V. apply (decr_on (tau lam 0) (fun x => D1 lam (tau lam 0 x) x) 1 (v + 1)); [intros x X; apply tau_derive; lra|intros x X; apply D1_neg_hyp; lra|lra..]. }
  assert (LE : forall u, -1 < u < 1 -> tau lam 0 1 < tau lam 0 u).
  { intros u U. set (m := (u + 1) / 2). assert (S : tau lam 0 m < tau lam 0 u) by (apply DE; unfold m; lra). apply Rle_lt_trans with (tau lam 0 m); [|exact S]. apply Rnot_lt_le. intros C.
    destruct (tau_cont1 (tau lam 0 1 - tau lam 0 m) ltac:(lra)) as [d [Dp Hd]]. cbn in Hd. unfold R_dist in Hd. set (k := Rmin ((1 - m) / 2) (d / 2)). assert (Kp : 0 < k) by (apply Rmin_pos; unfold m in *; lra). assert (K1 : k <= (1 - m) / 2) by apply Rmin_l. assert (K2 : k <= d / 2) by apply Rmin_r.
    specialize (Hd (1 - k)). assert (Q : Rabs (tau lam 0 (1 - k) - tau lam 0 1) < tau lam 0 1 - tau lam 0 m). { apply Hd. split; [split; [exact I|lra]|]. apply Rabs_def1; lra. }
    assert (tau lam 0 (1 - k) < tau lam 0 m) by (apply DE; unfold m in *; lra). apply Rabs_def2 in Q. lra. }
  assert (LH : forall u, 1 < u -> tau lam 0 u < tau lam 0 1).
  { intros u U. set (m := (u + 1) / 2). assert (S : tau lam 0 u < tau lam 0 m) by (apply DH; unfold m; lra). apply Rlt_le_trans with (tau lam 0 m); [exact S|]. apply Rnot_lt_le. intros C.
    destruct (tau_cont1 (tau lam 0 m - tau lam 0 1) ltac:(lra)) as [d [Dp Hd]]. cbn in Hd. unfold R_dist in Hd. set (k := Rmin ((m - 1) / 2) (d / 2)). assert (Kp : 0 < k) by (apply Rmin_pos; unfold m in *; lra). assert (K1 : k <= (m - 1) / 2) by apply Rmin_l. assert (K2 : k <= d / 2) by apply Rmin_r.
    specialize (Hd (1 + k)). assert (Q : Rabs (tau lam 0 (1 + k) - tau lam 0 1) < tau lam 0 m - tau lam 0 1). { apply Hd. split; [split; [exact I|lra]|]. apply Rabs_def1; lra. }
    assert (tau lam 0 m < tau lam 0 (1 + k)) by (apply DH; unfold m in *; lra). apply Rabs_def2 in Q. lra. }
  intros A B. destruct (Rtotal_order a 1) as [H|[->|H]]; [|apply LH, B|apply DH; assumption].
  destruct (Rtotal_order b 1) as [G|[->|G]]; [apply DE; assumption|apply LE; lra|]. specialize (LE a ltac:(lra)). specialize (LH b G). lra.
Qed.
(** limits *)
Lemma half_angle_lower x : -1 < x <= 0 -> acos lam <= half_angle lam x.
Proof.
  intros X. assert (E : half_angle lam 0 = acos lam) by (unfold half_angle; f_equal; ring). rewrite <- E. destruct (Req_dec x 0) as [->|N]; [lra|]. left.
  apply (decr_on (half_angle lam) (fun x => - ((y x - lam * x) / (sqrt (1 - x * x) * y x))) (-1) 1); [intros t Ht; apply (half_angle_derive lam L t Ht)| |lra..].
  intros t Ht. destruct (w_sq t Ht) as [WP _]. destruct (ly_sq lam L t) as [P _]. destruct (ly_lx lam L t) as [_ B]. fold (y t) in P, B. assert (0 < (y t - lam * t) / (sqrt (1 - t * t) * y t)) by (apply Rdiv_lt_0_compat; [exact B|apply Rmult_lt_0_compat; assumption]). lra.
Qed.
Lemma tau_large T : exists x, -1 < x < 0 /\ T < tau lam 0 x.
Proof.
  pose proof (lam_bd lam L) as LB. destruct (acos_bound_lt lam LB) as [K1 K2]. set (k := acos lam) in *. pose proof PI_4 as P4.
  set (d := Rmin (1 / 2) (Rmin (k * k / 8) (k / (8 * (Rabs T + 1))))). pose proof (Rabs_pos T) as TA. assert (DP : 0 < d). { unfold d. repeat apply Rmin_pos; [lra|nra|apply Rdiv_lt_0_compat; lra]. }
  assert (D1 : d <= 1 / 2) by apply Rmin_l. assert (D2 : d <= k * k / 8) by (eapply Rle_trans; [apply Rmin_r|apply Rmin_l]). assert (D3 : d <= k / (8 * (Rabs T + 1))) by (eapply Rle_trans; [apply Rmin_r|apply Rmin_r]).
  exists (-1 + d). set (x := -1 + d). assert (X : -1 < x < 1) by (unfold x; lra). split; [unfold x; lra|]. destruct (w_sq x X) as [WP W]. destruct (ly_sq lam L x) as [YP Y2]. fold (y x) in YP, Y2. rewrite (tau_ell lam x X 0). pose proof (half_angle_lower x ltac:(unfold x; lra)) as HA. fold k in HA. set (w := sqrt (1 - x * x)) in *. fold (y x).
  assert (WD : w * w <= 2 * d) by (rewrite W; unfold x; nra). assert (W1 : w <= 1) by nra. assert (WK : w <= k / 2) by nra. assert (Y1 : y x <= 1) by nra.
  assert (LY : - 1 <= lam * y x) by nra. rewrite <- W.
  assert (NUM : k / 2 <= half_angle lam x + 0 * PI + w * (lam * y x - x)) by (unfold x in *; nra).
  replace (((half_angle lam x + 0 * PI) / w - x + lam * y x) / (w * w)) with ((half_angle lam x + 0 * PI + w * (lam * y x - x)) / (w * w * w)) by (field; lra).
  assert (W3 : 0 < w * w * w) by (repeat apply Rmult_lt_0_compat; exact WP). apply Rlt_div_r; [exact W3|].
  assert (D4 : d * (8 * (Rabs T + 1)) <= k). { apply (Rmult_le_compat_r (8 * (Rabs T + 1))) in D3; [|lra]. unfold Rdiv in D3. rewrite Rmult_assoc, Rinv_l in D3 by lra. lra. }
  pose proof (Rle_abs T). assert (w * w * w <= w * w) by nra. assert (T * (w * w * w) <= Rabs T * (2 * d)) by nra. nra.
Qed.
Lemma tau_small T : 0 < T -> exists x, 1 < x /\ tau lam 0 x < T.
Proof.
  intros TP. pose proof (lam_bd lam L) as LB. set (x := 2 + 4 / T). assert (P : 0 < 4 / T) by (apply Rdiv_lt_0_compat; lra). exists x. assert (X : 1 < x) by (unfold x; lra). split; [exact X|].
  destruct (wh_sq x X) as [WP W]. destruct (ly_sq lam L x) as [YP Y2]. fold (y x) in YP, Y2. rewrite (tau_hyp lam x X 0). pose proof (psih_pos lam L x X) as PB. set (w := sqrt (x * x - 1)) in *. fold (y x). assert (YX : y x <= x) by nra. assert (LY : - x <= lam * y x) by nra.
  assert (Q : 0 < half_hangle lam x / w) by (apply Rdiv_lt_0_compat; assumption). apply Rlt_div_l; [nra|].
  assert (XT : T * x = 2 * T + 4) by (unfold x; field; lra). nra.
Qed.
(** every positive time is the time of flight of exactly one transfer without complete revolutions *)
Theorem tau_solution0 T : 0 < T -> exists x, (-1 < x /\ tau lam 0 x = T) /\ forall x', -1 < x' -> tau lam 0 x' = T -> x' = x.
Proof.
  intros TP. destruct (tau_large T) as [a [A TA]]. destruct (tau_small T TP) as [b [B TB]].
  assert (E : exists x, a <= x <= b /\ tau lam 0 x = T).
  { destruct (IVT_interv (fun t => T - tau lam 0 t) a b) as [x [X E]]; [intros t Ht; apply (continuity_pt_minus (fun _ => T)); [apply continuity_pt_const; intros ? ?; reflexivity|apply tau_cont0; lra]|lra|lra|lra|]. exists x. split; [exact X|lra]. }
  destruct E as [x [X E]]. exists x. split; [split; [lra|exact E]|]. intros x' X' E'. destruct (Rtotal_order x' x) as [H|[H|H]]; [|exact H|]; exfalso; [pose proof (tau_decr0 x' x X' H)|pose proof (tau_decr0 x x' ltac:(lra) H)]; lra.
Qed.
(** N >= 1: one minimum, a decreasing and an increasing branch, both reaching every larger time *)
Theorem tau_branches N : (1 <= N)%Z -> exists xm, 0 < xm < 1 /\
  (forall a b, -1 < a -> a < b -> b <= xm -> tau lam N b < tau lam N a) /\ (forall a b, xm <= a -> a < b -> b < 1 -> tau lam N a < tau lam N b) /\
  (forall T, tau lam N xm < T -> exists a b, -1 < a < xm /\ xm < b < 1 /\ tau lam N a = T /\ tau lam N b = T /\ forall x, -1 < x < 1 -> tau lam N x = T -> x = a \/ x = b) /\
  (forall x, -1 < x < 1 -> tau lam N xm <= tau lam N x).
Proof.
  intros HN. assert (HN0 : (0 <= N)%Z) by lia. assert (NR : 1 <= IZR N) by (apply IZR_le in HN; exact HN). pose proof PI_RGT_0 as PP. assert (NP : 0 < IZR N * PI) by nra. pose proof (lam_bd lam L) as LB.
  assert (EN : forall x, Ee N x = Ee 0 x + IZR N * PI) by (intros x; unfold Ee; ring).
  assert (DN : forall x, -1 < x < 1 -> is_derive (tau lam N) x (D1 lam (tau lam N x) x)) by (intros x X; apply tau_derive; lra).
  assert (CN : forall x, -1 < x < 1 -> continuity_pt (tau lam N) x) by (intros x X; apply derivable_continuous_pt; eexists; apply is_derive_Reals, DN, X).
  assert (CE : forall x, 0 < x < 1 -> continuity_pt (Ee N) x) by (intros x X; apply derivable_continuous_pt; eexists; apply is_derive_Reals, (Ee_derive N x X)).
  (* Ee is negative near 0, positive near 1 *)
  assert (LO : exists a, 0 < a < 1 / 2 /\ Ee N a < 0).
  { assert (C0 : continuity_pt (fun t => D1 lam (tau lam N t) t) 0). { apply derivable_continuous_pt. eexists. apply is_derive_Reals, (d2_of lam L (tau lam N) 0); [lra|apply DN; lra]. }
    assert (V0 : D1 lam (tau lam N 0) 0 = -2). { unfold D1. destruct (ly_sq lam L 0) as [P _]. replace (3 * tau lam N 0 * 0 - 2 + 2 * (lam * lam * lam) * 0 / lam_y lam 0) with (-2) by (field; lra). field. }
    destruct (C0 1 ltac:(lra)) as [d [Dp Hd]]. cbn in Hd. unfold R_dist in Hd. set (a := Rmin (1 / 4) (d / 2)). assert (A : 0 < a) by (apply Rmin_pos; lra). assert (A1 : a <= 1 / 4) by apply Rmin_l. assert (A2 : a <= d / 2) by apply Rmin_r.
    exists a. split; [lra|]. assert (Q : Rabs (D1 lam (tau lam N a) a - D1 lam (tau lam N 0) 0) < 1). { apply Hd. split; [split; [exact I|lra]|]. apply Rabs_def1; lra. }
    rewrite V0, D1_Ee in Q by lra. apply Rabs_def2 in Q. destruct (w_sq a ltac:(lra)) as [WP W]. set (w := sqrt (1 - a * a)) in *.
    assert (P : 0 < 3 * a / ((1 - a * a) * (w * w * w))) by (apply Rdiv_lt_0_compat; [lra|]; rewrite <- W; repeat apply Rmult_lt_0_compat; exact WP). destruct (Rlt_le_dec (Ee N a) 0) as [C|C]; [exact C|]. nra. }
  assert (HI : 0 < Ee N (199 / 200)).
  { set (b := 199 / 200). assert (X : -1 < b < 1) by (unfold b; lra). destruct (w_sq b X) as [WP W]. assert (NT : Rabs (b - 1) < 1 / 100) by (unfold b; apply Rabs_def1; lra). pose proof (near_gap b NT) as G. pose proof (y_near lam L b NT) as YN. fold (y b) in YN.
    assert (EQ : Ee 0 b = sqrt (1 - b * b) * sqrt (1 - b * b) * sqrt (1 - b * b) * (tau lam 0 b - 2 / 3 * (/ b - lam * lam * lam / y b))). { unfold Ee. rewrite (tau_ell lam b X 0). fold (y b). set (w := sqrt (1 - b * b)) in *. rewrite <- W. field. unfold b in *. lra. }
    rewrite EN, EQ. set (w := sqrt (1 - b * b)) in *. set (g := tau lam 0 b - 2 / 3 * (/ b - lam * lam * lam / y b)) in *. apply Rabs_le_between in G. assert (W2 : w * w <= 1 / 100) by (rewrite W; unfold b; lra). assert (W1 : w <= 1 / 10) by nra.
    assert (W3 : 0 < w * w * w) by (repeat apply Rmult_lt_0_compat; exact WP). assert (w * w * w <= 1 / 1000) by nra. pose proof PI2_1 as P1. nra. }
  destruct LO as [a0 [A0 EA]]. assert (XM : exists xm, 0 < xm < 1 /\ Ee N xm = 0).
  { destruct (IVT_interv (Ee N) a0 (199 / 200)) as [xm [X E]]; [intros t Ht; apply CE; lra|lra|exact EA|exact HI|]. exists xm. split; [lra|exact E]. }
  destruct XM as [xm [X0 X1]].
  assert (DL : forall x, -1 < x < xm -> D1 lam (tau lam N x) x < 0).
  { intros x X. destruct (Rle_lt_dec x 0) as [H|H]; [apply D1_neg; [exact HN0|lra]|]. rewrite D1_Ee by lra. pose proof (Ee_incr N x xm H ltac:(lra) ltac:(lra)) as E. destruct (w_sq x ltac:(lra)) as [WP W]. set (w := sqrt (1 - x * x)) in *.
    assert (P : 0 < 3 * x / ((1 - x * x) * (w * w * w))) by (apply Rdiv_lt_0_compat; [lra|]; rewrite <- W; repeat apply Rmult_lt_0_compat; exact WP). nra. }
  assert (DR : forall x, xm < x < 1 -> 0 < D1 lam (tau lam N x) x).
  { intros x X. rewrite D1_Ee by lra. pose proof (Ee_incr N xm x ltac:(lra) ltac:(lra) ltac:(lra)) as E. destruct (w_sq x ltac:(lra)) as [WP W]. set (w := sqrt (1 - x * x)) in *.
    assert (P : 0 < 3 * x / ((1 - x * x) * (w * w * w))) by (apply Rdiv_lt_0_compat; [lra|]; rewrite <- W; repeat apply Rmult_lt_0_compat; exact WP). apply Rmult_lt_0_compat; lra. }
  assert (ML : forall a b, -1 < a -> a < b -> b <= xm -> tau lam N b < tau lam N a).
  { intros a b A B C. destruct (MVT_cor2 (tau lam N) (fun t => D1 lam (tau lam N t) t) a b B) as [c [E Hc]]; [intros c Hc; apply is_derive_Reals, DN; lra|]. pose proof (DL c ltac:(lra)). nra. }
  assert (MR : forall a b, xm <= a -> a < b -> b < 1 -> tau lam N a < tau lam N b).
  { intros a b A B C. destruct (MVT_cor2 (tau lam N) (fun t => D1 lam (tau lam N t) t) a b B) as [c [E Hc]]; [intros c Hc; apply is_derive_Reals, DN; lra|]. pose proof (DR c ltac:(lra)). nra. }
  assert (BIG : forall T x d, -1 < x < 1 -> 1 - x * x <= 2 * d -> 2 * d * (Rabs T + 1) <= 1 -> T < tau lam N x).
  { intros T x d X W2 HD. destruct (w_sq x X) as [WP W]. destruct (tau_revs N x X) as [TR _]. set (w := sqrt (1 - x * x)) in *. assert (W3 : 0 < w * w * w) by (repeat apply Rmult_lt_0_compat; exact WP).
    apply (Rmult_lt_reg_r (w * w * w)); [exact W3|]. assert (W1 : w <= 1) by nra. assert (w * w * w <= w * w) by nra. pose proof (Rle_abs T). pose proof (Rabs_pos T). assert (T * (w * w * w) <= Rabs T * (2 * d)) by nra. assert (Rabs T * (2 * d) <= 1) by nra. pose proof PI2_1. nra. }
  assert (DD : forall T k, 0 < k -> exists d, 0 < d <= k /\ d <= 1 / 2 /\ 2 * d * (Rabs T + 1) <= 1).
  { intros T k K. pose proof (Rabs_pos T) as TA. exists (Rmin k (/ (2 * (Rabs T + 1)))). assert (I0 : 0 < / (2 * (Rabs T + 1))) by (apply Rinv_0_lt_compat; lra). set (d := Rmin k (/ (2 * (Rabs T + 1)))). assert (D2 : d <= / (2 * (Rabs T + 1))) by apply Rmin_r. assert (DP : 0 < d) by (apply Rmin_pos; assumption).
    apply (Rmult_le_compat_r (2 * (Rabs T + 1))) in D2; [|lra]. rewrite Rinv_l in D2 by lra. repeat split; [exact DP|apply Rmin_l|nra|lra]. }
  exists xm. split; [exact X0|]. split; [exact ML|]. split; [exact MR|]. split.
  - intros T HT. destruct (DD T 1 ltac:(lra)) as [d1 [[P1 _] [P2 P3]]]. destruct (DD T ((1 - xm) / 2) ltac:(lra)) as [d2 [[Q1 Q2] [Q3 Q4]]].
    assert (A1 : T < tau lam N (-1 + d1)) by (apply (BIG T _ d1); [lra|nra|exact P3]). assert (B1 : T < tau lam N (1 - d2)) by (apply (BIG T _ d2); [lra|nra|exact Q4]).
    destruct (IVT_interv (fun t => T - tau lam N t) (-1 + d1) xm) as [a [A E]]; [intros t Ht; apply (continuity_pt_minus (fun _ => T)); [apply continuity_pt_const; intros ? ?; reflexivity|apply CN; lra]|lra|lra|lra|]. cbn beta in E.
    destruct (IVT_interv (fun t => tau lam N t - T) xm (1 - d2)) as [b [B E']]; [intros t Ht; apply (continuity_pt_minus (tau lam N) (fun _ => T)); [apply CN; lra|apply continuity_pt_const; intros ? ?; reflexivity]|lra|lra|lra|]. cbn beta in E'.
    assert (NA : a <> xm) by (intros ->; lra). assert (NB : b <> xm) by (intros ->; lra). exists a, b. repeat split; try lra. intros x X HX. destruct (Rle_lt_dec x xm) as [H|H].
    + left. destruct (Rtotal_order x a) as [G|[G|G]]; [pose proof (ML x a ltac:(lra) G ltac:(lra)); lra|exact G|pose proof (ML a x ltac:(lra) G ltac:(lra)); lra].
    + right. destruct (Rtotal_order x b) as [G|[G|G]]; [pose proof (MR x b ltac:(lra) G ltac:(lra)); lra|exact G|pose proof (MR b x ltac:(lra) G ltac:(lra)); lra].
  - intros x X. destruct (Rtotal_order x xm) as [G|[->|G]]; [left; apply ML; lra|lra|left; apply MR; lra].
Qed.
End Mono.
