(** * The time of flight computed by the code is the time of flight *)
From Coq Require Import Reals ZArith Lra Lia Nsatz Bool.
From Coquelicot Require Import Coquelicot.
From Verif Require Import Outcome PartialReal RealLib Vec3 ElemProofs LambertModel LambertReal LambertProofs LambertSpec LambertTime LambertSeries LambertVec.
Open Scope R_scope.

Lemma lit_r n d : f_lit RA n d = Some (IZR n / IZR (Zpos d)). Proof. reflexivity. Qed.
Lemma pi_r : f_pi RA = Some PI. Proof. reflexivity. Qed.
Lemma acos_r a : -1 <= a <= 1 -> f_acos RA (Some a) = Some (acos a). Proof. apply pacos_some. Qed.
Lemma asin_r a : -1 <= a <= 1 -> f_asin RA (Some a) = Some (asin a). Proof. apply pasin_some. Qed.
Lemma sin_r a : f_sin RA (Some a) = Some (sin a). Proof. reflexivity. Qed.
Lemma sinh_r a : f_sinh RA (Some a) = Some (sinh a). Proof. reflexivity. Qed.
Lemma asinh_r a : f_asinh RA (Some a) = Some (arcsinh a). Proof. reflexivity. Qed.
Lemma acosh_r a : 1 <= a -> f_acosh RA (Some a) = Some (arccosh a). Proof. intros H. cbn. unfold pacosh. destruct (Rle_dec 1 a); [reflexivity|lra]. Qed.
Lemma log_r a : 0 < a -> f_log RA (Some a) = Some (ln a). Proof. intros H. cbn. unfold plog. destruct (Rlt_dec 0 a); [reflexivity|lra]. Qed.
Lemma pow_r a b : 0 < a -> f_pow RA (Some a) (Some b) = Some (Rpower a b). Proof. intros H. cbn. unfold ppow. destruct (Rlt_dec 0 a); [reflexivity|lra]. Qed.

(** ** the hypergeometric series *)
Lemma hc_bound n (z : R) : Rabs z <= 1 / 32 -> Rabs (hc n * z ^ n) <= (3 / 80) ^ n.
Proof.
  intros Z. induction n as [|n IH]; [cbn [hc]; rewrite pow_O, Rmult_1_r, Rabs_R1; lra|].
  replace (hc (S n) * z ^ S n) with (hc n * z ^ n * ((3 + INR n) / (5 / 2 + INR n) * z)) by (cbn [hc]; rewrite <- tech_pow_Rmult; pose proof (pos_INR n); field; lra).
  rewrite Rabs_mult, <- tech_pow_Rmult, (Rmult_comm (3 / 80)). apply Rmult_le_compat; try apply Rabs_pos; [exact IH|]. rewrite Rabs_mult. pose proof (pos_INR n).
  assert (A : 0 < (3 + INR n) / (5 / 2 + INR n) <= 6 / 5). { split; [apply Rdiv_lt_0_compat; lra|]. apply (Rmult_le_reg_r (5 / 2 + INR n)); [lra|]. replace ((3 + INR n) / (5 / 2 + INR n) * (5 / 2 + INR n)) with (3 + INR n) by (field; lra). lra. }
  rewrite (Rabs_right ((3 + INR n) / _)) by lra. replace (3 / 80) with (6 / 5 * (1 / 32)) by lra. apply Rmult_le_compat; try apply Rabs_pos; lra.
Qed.
Definition hyper_state (n : nat) (z : R) : option R * option R * option R * Z := (Some (hs n z), Some (hc n * z ^ n), Some (Rabs (hc n * z ^ n)), Z.of_nat n).
Lemma hyper_next n (z tol : R) : tol < Rabs (hc n * z ^ n) -> hyper_step RA (Some z) (Some tol) (hyper_state n z) = inl (hyper_state (S n) z).
Proof.
  intros H. unfold hyper_step, hyper_state. rewrite lt_r. destruct (Rlt_dec tol _) as [_|H']; [|contradiction]. pose proof (pos_INR n) as P.
  rewrite !nat_r, lit_r, plus_IZR, <- INR_IZR_INZ. ev. rewrite div_r by lra. ev. rewrite div_r by lra. rewrite abs_r. ev.
  replace (hc n * z ^ n * (3 + INR n) * (1 + INR n) / (5 / 2 + INR n) * z / (INR n + 1)) with (hc (S n) * z ^ S n) by (cbn [hc]; rewrite <- tech_pow_Rmult; field; lra).
  rewrite Nat2Z.inj_succ. reflexivity.
Qed.
Lemma hyper_stop n (z tol : R) : Rabs (hc n * z ^ n) <= tol -> hyper_step RA (Some z) (Some tol) (hyper_state n z) = inr (Some (hs n z)).
Proof. intros H. unfold hyper_step, hyper_state. rewrite lt_r. destruct (Rlt_dec tol _) as [H'|_]; [lra|reflexivity]. Qed.
Lemma hyper_run (z tol : R) m : Rabs (hc m * z ^ m) <= tol -> forall k n, (n + k = m)%nat -> exists j, Rabs (hc j * z ^ j) <= tol /\ iter_nat (S k) (hyper_step RA (Some z) (Some tol)) (hyper_state n z) = inr (Some (hs j z)).
Proof.
  intros H. induction k as [|k IH]; intros n E.
  - replace n with m by lia. exists m. split; [exact H|]. cbn [iter_nat]. rewrite (hyper_stop m z tol H). reflexivity.
  - destruct (Rle_lt_dec (Rabs (hc n * z ^ n)) tol) as [C|C].
    + exists n. split; [exact C|]. cbn [iter_nat]. rewrite (hyper_stop n z tol C). reflexivity.
    + destruct (IH (S n) ltac:(lia)) as [j [J1 J2]]. exists j. split; [exact J1|]. cbn [iter_nat]. rewrite (hyper_next n z tol C). exact J2.
Qed.
Lemma hyper_r (z : R) : Rabs z <= 1 / 32 -> exists j, Rabs (hc j * z ^ j) <= 1 / 100000000000 /\ hypergeometricF RA (Some z) (f_lit RA 1 100000000000) = Ret (Some (hs j z)).
Proof.
  intros Z. assert (B : Rabs (hc 8 * z ^ 8) <= 1 / 100000000000). { eapply Rle_trans; [apply hc_bound, Z|]. cbv [pow]. lra. }
  rewrite lit_r. destruct (hyper_run z (1 / 100000000000) 8 B 8 0 ltac:(lia)) as [j [J1 J2]]. exists j. split; [exact J1|]. unfold hypergeometricF.
  assert (E0 : hyper_state 0 z = (nat_ RA 1, nat_ RA 1, nat_ RA 1, 0%Z)). { unfold hyper_state. rewrite !nat_r. cbn [hs hc]. rewrite pow_O, Rmult_1_r, Rabs_R1. reflexivity. }
  rewrite E0 in J2. rewrite (steps_stop _ _ 9 _ (Some (hs j z))); [reflexivity| |exact J2]. lia.
Qed.
Lemma Rpower_32 w : 0 < w -> Rpower (w * w) (3 / 2) = w * w * w.
Proof.
  intros W. replace (w * w) with (Rpower w 2) at 1 by (replace 2 with (INR 2) by (cbn; lra); rewrite Rpower_pow by exact W; ring).
  rewrite Rpower_mult. replace (2 * (3 / 2)) with (INR 3) by (cbn; lra). rewrite Rpower_pow by exact W. ring.
Qed.
Section Tof.
Variable lam : R.
Hypothesis L : lam * lam < 1.
Lemma lam_bd : -1 < lam < 1. Proof. split; nra. Qed.
Section At.
Variable x : R.
Let y := lam_y lam x.
Let eta := y - lam * x.
Lemma z_r : f_sqrt RA (f_add RA (nat_ RA 1) (f_mul RA (f_mul RA (Some lam) (Some lam)) (f_sub RA (f_mul RA (Some x) (Some x)) (nat_ RA 1)))) = Some y.
Proof.
  rewrite !nat_r. ev. pose proof (ly_arg lam L x). rewrite sqrt_r by lra. unfold y, lam_y. do 2 f_equal. ring.
Qed.
Section Near.
Hypothesis NX : Rabs (x - 1) < 1 / 100.
Lemma x_near : 99 / 100 < x < 101 / 100. Proof. apply Rabs_def2 in NX. lra. Qed.
Lemma y_near : 98 / 100 < y < 102 / 100.
Proof.
  pose proof x_near as X. destruct (ly_sq lam L x) as [P Q]. fold y in P, Q. pose proof (Rle_0_sqr lam) as S. unfold Rsqr in S.
  assert (- (203 / 10000) < 1 - x * x < 199 / 10000) by (split; nra). assert (Y2 : 9604 / 10000 < y * y < 10404 / 10000) by (split; nra). split; nra.
Qed.
Lemma eta_near : 0 < eta < 21 / 10.
Proof. destruct (ly_lx lam L x) as [_ P]. pose proof y_near. pose proof x_near. pose proof lam_bd. split; [exact P|]. unfold eta. assert (-101 / 100 < lam * x) by nra. lra. Qed.
Lemma battin_z : Rabs (1 / 2 * (1 - lam - x * eta)) <= 1 / 32.
Proof.
  pose proof x_near as X. pose proof y_near as Y. pose proof lam_bd as LB. destruct (ly_sq lam L x) as [P Q]. fold y in P, Q. set (e := 1 - x * x) in *.
  assert (E : - (203 / 10000) < e < 199 / 10000) by (unfold e; split; nra).
  replace (1 - lam - x * eta) with ((1 - x * y) - lam * e) by (unfold eta, e; ring).
  assert (Z : (x * y) * (x * y) = (1 - e) * (1 - lam * lam * e)). { transitivity ((x * x) * (y * y)); [ring|]. rewrite Q. unfold e. ring. }
  assert (XY : 97 / 100 < x * y < 103 / 100) by (split; nra).
  pose proof (Rle_0_sqr lam) as S. unfold Rsqr in S. set (l2 := lam * lam) in *.
  assert (B : - (411 / 10000) <= 1 - (x * y) * (x * y) <= 411 / 10000). { rewrite Z. replace (1 - (1 - e) * (1 - l2 * e)) with (e * (1 + l2) - l2 * (e * e)) by ring. assert (- (203 / 10000) <= l2 * e <= 203 / 10000) by (split; nra). assert (0 <= l2 * (e * e) <= 42 / 100000) by (split; [apply Rmult_le_pos; nra|assert (e * e <= 42 / 100000) by nra; nra]). split; lra. }
  assert (C : - (21 / 1000) <= 1 - x * y <= 21 / 1000). { replace (1 - (x * y) * (x * y)) with ((1 - x * y) * (1 + x * y)) in B by ring. split; nra. }
  assert (D : - (203 / 10000) <= lam * e <= 203 / 10000) by (split; nra).
  apply Rabs_le. lra.
Qed.
Lemma near_bound (G V S3 wq : R) j : 0 < wq -> V = Rabs (1 / 2 * (1 - lam - x * eta)) -> S3 = eta * eta * eta * wq -> Rabs (hc j * (1 / 2 * (1 - lam - x * eta)) ^ j) <= 1 / 100000000000 -> Rabs (G - S3 * hs j (1 / 2 * (1 - lam - x * eta))) <= S3 * (4 / 3 * hc j * V ^ S j) ->
  Rabs ((eta * eta * eta * (4 / 3 * hs j (1 / 2 * (1 - lam - x * eta)))) / 2 - 2 / 3 * G / wq) <= 3 / 1000000000000.
Proof.
  intros W EV -> C B. set (z := 1 / 2 * (1 - lam - x * eta)) in *. pose proof battin_z as BZ. fold z in BZ. pose proof eta_near as EN.
  replace (eta * eta * eta * (4 / 3 * hs j z) / 2 - 2 / 3 * G / wq) with (- (2 / 3 / wq) * (G - eta * eta * eta * wq * hs j z)) by (field; lra).
  rewrite Rabs_mult, Rabs_Ropp, (Rabs_right (2 / 3 / wq)) by (apply Rle_ge, Rlt_le, Rdiv_lt_0_compat; lra).
  assert (I : 0 < 2 / 3 / wq) by (apply Rdiv_lt_0_compat; lra).
  eapply Rle_trans; [apply Rmult_le_compat_l; [lra|exact B]|]. rewrite <- tech_pow_Rmult.
  assert (HC : hc j * V ^ j <= 1 / 100000000000). { rewrite Rabs_mult, (Rabs_right (hc j)) in C by (pose proof (hc_pos j); lra). rewrite <- RPow_abs in C. rewrite EV. exact C. }
  assert (VP : 0 <= V) by (rewrite EV; apply Rabs_pos). assert (H0 : 0 <= hc j * V ^ j) by (apply Rmult_le_pos; [pose proof (hc_pos j); lra|apply pow_le, VP]).
  replace (2 / 3 / wq * (eta * eta * eta * wq * (4 / 3 * hc j * (V * V ^ j)))) with (8 / 9 * (eta * eta * eta) * V * (hc j * V ^ j)) by (field; lra).
  assert (E3 : 0 <= eta * eta * eta <= 9261 / 1000) by (split; [apply Rlt_le; repeat apply Rmult_lt_0_compat; lra|assert (eta * eta <= 441 / 100) by nra; nra]).
  assert (VB : V <= 1 / 32) by (rewrite EV; exact BZ).
  assert (M : 0 <= 8 / 9 * (eta * eta * eta) * V <= 8 / 9 * (9261 / 1000) * (1 / 32)) by (split; [apply Rmult_le_pos; lra|apply Rmult_le_compat; lra]).
  apply (Rle_trans _ (8 / 9 * (9261 / 1000) * (1 / 32) * (1 / 100000000000))); [apply Rmult_le_compat; lra|lra].
Qed.
(** the Battin branch *)
Lemma battin N : x <> 1 -> (1 < x -> N = 0%Z) -> exists t, x2tof RA (Some lam) (Some x) N = Ret (Some t) /\ Rabs (t - tau lam N x) <= 3 / 1000000000000.
Proof.
  intros X1 XN. pose proof x_near as XB. unfold x2tof. cbv zeta. rewrite z_r. rewrite !lit_r, !nat_r. ev. rewrite !abs_r, !lt_r.
  destruct (Rlt_dec (1 / 100) (Rabs (x - 1))) as [H|_]; [lra|]. rewrite andb_false_r. destruct (Rlt_dec (Rabs (x - 1)) (1 / 100)) as [_|H]; [|lra].
  fold eta. destruct (hyper_r (1 / 2 * (1 - lam - x * eta)) battin_z) as [j [C HJ]]. rewrite lit_r in HJ. rewrite HJ. cbn [bind]. rewrite (div_r 4 3) by lra. rewrite pi_r. ev.
  destruct (Rtotal_order x 1) as [H|[H|H]]; [|contradiction|].
  - assert (XE : -1 < x < 1) by lra. destruct (w_sq x XE) as [WP W]. pose proof (tau_ell lam x XE N) as TE. pose proof (cos_psi lam L x XE) as CP. pose proof (sin_psi lam L x XE) as SP. pose proof (psi_bd lam L x XE) as PB.
    set (w := sqrt (1 - x * x)) in *. set (psi := half_angle lam x) in *. fold y in TE, CP, SP. fold eta in SP.
    rewrite (Rabs_left (x * x - 1)) by nra. replace (- (x * x - 1)) with (w * w) by (rewrite W; ring). rewrite pow_r by nra. rewrite (Rpower_32 w WP). rewrite !div_r by (try lra; apply Rgt_not_eq; repeat apply Rmult_lt_0_compat; assumption). ev.
    eexists. split; [reflexivity|]. rewrite TE.
    assert (EZ : 1 / 2 * (1 - lam - x * eta) = ez psi) by (unfold ez; rewrite CP; unfold eta; field).
    assert (ZB : ez psi <= 1 / 32) by (rewrite <- EZ; eapply Rle_trans; [apply Rle_abs|apply battin_z]).
    pose proof (ell_series j psi ltac:(lra) ZB) as [S1 S2].
    assert (S3 : sin psi * sin psi * sin psi = eta * eta * eta * (w * w * w)) by (rewrite SP; ring).
    pose proof (near_bound (eg psi) (ez psi) (sin psi * sin psi * sin psi) (w * w * w) j) as NB. rewrite EZ in *.
    specialize (NB ltac:(repeat apply Rmult_lt_0_compat; assumption) ltac:(rewrite Rabs_right; [reflexivity|apply Rle_ge, ez_nonneg]) S3 C ltac:(apply Rabs_le; lra)).
    assert (GE : eg psi = 3 / 2 * (psi - w * eta * (x * y + lam * (1 - x * x)))) by (unfold eg; rewrite sin_2a, CP, SP; field).
    replace ((eta * eta * eta * (4 / 3 * hs j (ez psi)) + 4 * lam * eta) / 2 + IZR N * PI / (w * w * w) - ((psi + IZR N * PI) / w - x + lam * y) / (1 - x * x)) with (eta * eta * eta * (4 / 3 * hs j (ez psi)) / 2 - 2 / 3 * eg psi / (w * w * w)); [exact NB|].
    rewrite GE. destruct (ly_sq lam L x) as [_ Y2]. fold y in Y2.
    apply (Rmult_eq_reg_r (w * w * w)); [|apply Rgt_not_eq; repeat apply Rmult_lt_0_compat; assumption]. rewrite <- W.
    transitivity (eta * eta * eta * (4 / 3 * hs j (ez psi)) / 2 * (w * w * w) - psi + w * (eta * (x * y + lam * (w * w)))); [field; lra|].
    transitivity (eta * eta * eta * (4 / 3 * hs j (ez psi)) / 2 * (w * w * w) - psi + w * (2 * lam * eta * (w * w) + x - lam * y)); [|field; lra]. f_equal. f_equal. unfold eta. clear - W Y2. nsz.
  - rewrite (XN H) in *. destruct (wh_sq x H) as [WP W]. pose proof (tau_hyp lam x H 0) as TE. destruct (cosh_psi lam L x H) as [CP SP]. pose proof (psih_pos lam L x H) as PB.
    set (w := sqrt (x * x - 1)) in *. set (psi := half_hangle lam x) in *. fold y in TE, CP, SP. fold eta in SP.
    rewrite (Rabs_right (x * x - 1)) by nra. rewrite <- W. rewrite pow_r by nra. rewrite (Rpower_32 w WP). rewrite !div_r by (try lra; apply Rgt_not_eq; repeat apply Rmult_lt_0_compat; assumption). ev.
    eexists. split; [reflexivity|]. rewrite TE.
    assert (EZ : 1 / 2 * (1 - lam - x * eta) = - hz psi) by (unfold hz; rewrite CP; unfold eta; field).
    pose proof (hyp_series j psi ltac:(lra)) as S1.
    assert (S3 : sinh psi * sinh psi * sinh psi = eta * eta * eta * (w * w * w)) by (rewrite SP; ring).
    pose proof (near_bound (hg psi) (hz psi) (sinh psi * sinh psi * sinh psi) (w * w * w) j) as NB. rewrite EZ in *.
    specialize (NB ltac:(repeat apply Rmult_lt_0_compat; assumption) ltac:(rewrite Rabs_Ropp, Rabs_right; [reflexivity|apply Rle_ge, hz_nonneg]) S3 C S1).
    assert (GE : hg psi = 3 / 2 * (w * eta * (x * y - lam * (x * x - 1)) - psi)) by (unfold hg; rewrite sinh_2a', CP, SP; field).
    replace ((eta * eta * eta * (4 / 3 * hs j (- hz psi)) + 4 * lam * eta) / 2 + 0 * PI / (w * w * w) - (x - lam * y - psi / w) / (x * x - 1)) with (eta * eta * eta * (4 / 3 * hs j (- hz psi)) / 2 - 2 / 3 * hg psi / (w * w * w)); [exact NB|].
    rewrite GE. destruct (ly_sq lam L x) as [_ Y2]. fold y in Y2.
    apply (Rmult_eq_reg_r (w * w * w)); [|apply Rgt_not_eq; repeat apply Rmult_lt_0_compat; assumption]. rewrite <- W.
    transitivity (eta * eta * eta * (4 / 3 * hs j (- hz psi)) / 2 * (w * w * w) + psi - w * (eta * (x * y - lam * (w * w)))); [field; lra|].
    transitivity (eta * eta * eta * (4 / 3 * hs j (- hz psi)) / 2 * (w * w * w) + psi - w * (x - lam * y - 2 * lam * eta * (w * w))); [|field; lra]. f_equal. f_equal. unfold eta. clear - W Y2. nsz.
Qed.
End Near.
(** the Lancaster branch *)
Lemma lancaster N : -1 < x -> x <> 1 -> 1 / 100 <= Rabs (x - 1) -> ~ (1 / 100 < Rabs (x - 1) < 1 / 5) -> x2tof RA (Some lam) (Some x) N = Ret (Some (tau lam N x)).
Proof.
  intros XM X1 F NL. unfold x2tof. cbv zeta. rewrite z_r. rewrite !lit_r, !nat_r. ev. rewrite !abs_r, !lt_r.
  replace ((if Rlt_dec (Rabs (x - 1)) (1 / 5) then true else false) && (if Rlt_dec (1 / 100) (Rabs (x - 1)) then true else false)) with false by (destruct (Rlt_dec (Rabs (x - 1)) (1 / 5)), (Rlt_dec (1 / 100) (Rabs (x - 1))); try reflexivity; lra).
  destruct (Rlt_dec (Rabs (x - 1)) (1 / 100)) as [H|_]; [lra|]. destruct (Rlt_dec (x * x - 1) 0) as [H|H].
  - assert (XE : -1 < x < 1) by (split; nra). destruct (w_sq x XE) as [WP W]. rewrite (tau_ell lam x XE N). pose proof (cp_bd lam L x XE) as CB. unfold half_angle. fold y in CB |- *.
    rewrite (Rabs_left (x * x - 1)) by lra. replace (- (x * x - 1)) with (1 - x * x) by ring. rewrite sqrt_r by nra. rewrite pi_r. replace (x * y - lam * (x * x - 1)) with (x * y + lam * (1 - x * x)) by ring. rewrite acos_r by lra. ev. rewrite div_r by lra. ev. rewrite div_r by lra. do 2 f_equal. field. split; lra.
  - assert (XH : 1 < x) by nra. destruct (wh_sq x XH) as [WP W]. rewrite (tau_hyp lam x XH N). pose proof (sph_pos lam L x XH) as SP. pose proof (cph_pos lam L x XH) as CP. unfold half_hangle. fold y in SP, CP |- *.
    rewrite (Rabs_right (x * x - 1)) by lra. rewrite sqrt_r by nra. ev. rewrite log_r by lra. rewrite div_r by lra. ev. rewrite div_r by nra. reflexivity.
Qed.
(** the Lagrange branch *)
Lemma asin_diff : -1 < x < 1 -> half_angle lam x = acos x - asin (lam * sqrt (1 - x * x)).
Proof.
  intros XE. destruct (w_sq x XE) as [WP W]. pose proof (cos_psi lam L x XE) as CP. pose proof (sin_psi lam L x XE) as SP. pose proof (psi_bd lam L x XE) as PB. destruct (ly_sq lam L x) as [YP Y2].
  set (w := sqrt (1 - x * x)) in *. set (psi := half_angle lam x) in *. fold y in CP, SP, YP, Y2. pose proof lam_bd as LB.
  assert (LW : -1 < lam * w < 1). { assert (lam * w * (lam * w) < 1) by (replace (lam * w * (lam * w)) with (lam * lam * (w * w)) by ring; rewrite W; nra). split; nra. }
  assert (CA : cos (asin (lam * w)) = y). { rewrite cos_asin by lra. unfold y, lam_y. f_equal. unfold Rsqr. replace (lam * w * (lam * w)) with (lam * lam * (w * w)) by ring. rewrite W. ring. }
  pose proof (acos_bound_lt x XE) as AB. pose proof (asin_bound_lt (lam * w) LW) as SB. set (A := acos x) in *. set (B := asin (lam * w)) in *.
  assert (EA : cos A = x) by (apply cos_acos; lra). assert (ES : sin A = w) by (unfold A; rewrite sin_acos by lra; unfold w; f_equal).
  assert (EB : sin B = lam * w) by (apply sin_asin; lra).
  assert (CD : cos (A - B) = cos psi) by (rewrite cos_minus, EA, ES, EB, CA, CP; transitivity (x * y + lam * (w * w)); [ring|rewrite W; ring]).
  assert (SD : sin (A - B) = sin psi) by (rewrite sin_minus, EA, ES, EB, CA, SP; ring).
  assert (SPP : 0 < sin psi) by (apply sin_gt_0; lra).
  assert (R1 : 0 < A - B < PI). { split.
    - destruct (Rlt_le_dec 0 (A - B)) as [?|C]; [assumption|]. exfalso. assert (sin (A - B) <= 0); [|lra]. assert (0 <= sin (- (A - B))) by (apply sin_ge_0; lra). rewrite sin_neg in *. lra.
    - destruct (Rlt_le_dec (A - B) PI) as [?|C]; [assumption|]. exfalso. assert (sin (A - B) <= 0) by (apply sin_le_0; lra). lra. }
  assert (acos (cos psi) = acos (cos (A - B))) by (rewrite CD; reflexivity). rewrite !acos_cos in H by lra. exact H.
Qed.
Lemma acosh_cosh t : 1 <= t -> cosh (arccosh t) = t /\ sinh (arccosh t) = sqrt (t * t - 1).
Proof.
  intros H. unfold arccosh. assert (S0 : 0 <= t * t - 1) by nra. pose proof (sqrt_pos (t * t - 1)) as SP. pose proof (sqrt_sqrt (t * t - 1) S0) as SQ. set (w := sqrt (t * t - 1)) in *.
  unfold cosh, sinh. rewrite exp_Ropp, exp_ln by lra. assert (I : / (t + w) = t - w) by (apply (Rmult_eq_reg_r (t + w)); [rewrite Rinv_l by lra; lra|lra]). rewrite I. split; field.
Qed.
Lemma cosh_arcsinh t : cosh (arcsinh t) = sqrt (1 + t * t).
Proof.
  pose proof (cosh_sinh_sq (arcsinh t)) as H. rewrite sinh_arcsinh in H. pose proof (cosh_pos (arcsinh t)) as P. symmetry. replace (1 + t * t) with (cosh (arcsinh t) * cosh (arcsinh t)) by lra. apply sqrt_square. lra.
Qed.
Lemma asinh_diff : 1 < x -> half_hangle lam x = arccosh x - arcsinh (lam * sqrt (x * x - 1)).
Proof.
  intros XH. destruct (wh_sq x XH) as [WP W]. destruct (cosh_psi lam L x XH) as [CP SP]. destruct (ly_sq lam L x) as [YP Y2]. destruct (acosh_cosh x ltac:(lra)) as [EA ES]. pose proof (cosh_arcsinh (lam * sqrt (x * x - 1))) as CA.
  set (w := sqrt (x * x - 1)) in *. set (psi := half_hangle lam x) in *. fold y in CP, SP, YP, Y2.
  assert (CY : cosh (arcsinh (lam * w)) = y). { rewrite CA. unfold y, lam_y. f_equal. replace (lam * w * (lam * w)) with (lam * lam * (w * w)) by ring. rewrite W. ring. }
  apply (incr_inj sinh sinh_lt). unfold Rminus. rewrite sinh_plus, cosh_neg, sinh_neg, sinh_arcsinh, CY, EA, ES, SP. ring.
Qed.
Lemma lam_abs k : 0 <= k -> (if Rlt_dec lam 0 then - asin (sqrt (lam * lam * (k * k))) else asin (sqrt (lam * lam * (k * k)))) = asin (lam * k).
Proof.
  intros K. replace (lam * lam * (k * k)) with ((lam * k) * (lam * k)) by ring. change (lam * k * (lam * k)) with (Rsqr (lam * k)). rewrite sqrt_Rsqr_abs. destruct (Rlt_dec lam 0).
  - rewrite Rabs_left1 by nra. rewrite asin_opp. ring.
  - rewrite Rabs_right by nra. reflexivity.
Qed.
Lemma arcsinh_opp t : arcsinh (- t) = - arcsinh t.
Proof. apply (incr_inj sinh sinh_lt). rewrite sinh_neg, !sinh_arcsinh. reflexivity. Qed.
Lemma lam_absh k : 0 <= k -> (if Rlt_dec lam 0 then - arcsinh (sqrt (lam * lam * (k * k))) else arcsinh (sqrt (lam * lam * (k * k)))) = arcsinh (lam * k).
Proof.
  intros K. replace (lam * lam * (k * k)) with ((lam * k) * (lam * k)) by ring. change (lam * k * (lam * k)) with (Rsqr (lam * k)). rewrite sqrt_Rsqr_abs. destruct (Rlt_dec lam 0).
  - rewrite Rabs_left1 by nra. rewrite arcsinh_opp. ring.
  - rewrite Rabs_right by nra. reflexivity.
Qed.
Lemma lagrange N : -1 < x -> 1 / 100 < Rabs (x - 1) < 1 / 5 -> x2tof RA (Some lam) (Some x) N = Ret (Some (tau lam N x)).
Proof.
  intros XM F. unfold x2tof. cbv zeta. rewrite !lit_r, !nat_r. ev. rewrite !abs_r, !lt_r.
  destruct (Rlt_dec (Rabs (x - 1)) (1 / 5)) as [_|H]; [|lra]. destruct (Rlt_dec (1 / 100) (Rabs (x - 1))) as [_|H]; [|lra]. cbn [andb]. f_equal.
  unfold x2tof2. cbv zeta. rewrite !nat_r. ev. destruct (Rtotal_order x 1) as [H|[H|H]].
  - assert (XE : -1 < x < 1) by lra. destruct (w_sq x XE) as [WP W]. rewrite (tau_ell lam x XE N), (asin_diff XE). destruct (ly_sq lam L x) as [YP Y2]. pose proof lam_bd as LB.
    pose proof (lam_abs (sqrt (1 - x * x)) ltac:(apply sqrt_pos)) as LA. fold y. fold y in YP, Y2. set (w := sqrt (1 - x * x)) in *.
    assert (LW : -1 < lam * w < 1). { assert (lam * w * (lam * w) < 1) by (replace (lam * w * (lam * w)) with (lam * lam * (w * w)) by ring; rewrite W; nra). split; nra. }
    assert (CA : cos (asin (lam * w)) = y). { rewrite cos_asin by lra. unfold y, lam_y. f_equal. unfold Rsqr. replace (lam * w * (lam * w)) with (lam * lam * (w * w)) by ring. rewrite W. ring. }
    rewrite div_r by nra. rewrite <- W. assert (W2 : 0 < w * w) by nra. assert (AP : 0 < 1 / (w * w)) by (apply Rdiv_lt_0_compat; lra). rewrite lt_r. destruct (Rlt_dec 0 (1 / (w * w))) as [_|Q]; [|lra].
    rewrite acos_r by lra. rewrite div_r by lra. replace (lam * lam / (1 / (w * w))) with (lam * lam * (w * w)) by (field; lra).
    assert (SB : -1 <= sqrt (lam * lam * (w * w)) <= 1). { split; [pose proof (sqrt_pos (lam * lam * (w * w))); lra|]. rewrite <- sqrt_1. apply sqrt_le_1_alt. rewrite W. pose proof (Rle_0_sqr lam) as S. unfold Rsqr in S. nra. }
    rewrite (sqrt_r (lam * lam * (w * w))) by (pose proof (Rle_0_sqr lam) as S; unfold Rsqr in S; apply Rmult_le_pos; lra). rewrite asin_r by exact SB. rewrite lt_r, pi_r. ev.
    replace (if if Rlt_dec lam 0 then true else false then Some (- (2 * asin (sqrt (lam * lam * (w * w))))) else Some (2 * asin (sqrt (lam * lam * (w * w))))) with (Some (2 * asin (lam * w))) by (rewrite <- LA; destruct (Rlt_dec lam 0); f_equal; ring).
    rewrite !sin_r. ev. rewrite sqrt_r by lra. replace (sqrt (1 / (w * w))) with (/ w) by (rewrite <- sqrt_square with (x := / w) by (apply Rlt_le, Rinv_0_lt_compat; lra); f_equal; field; lra). ev. rewrite div_r by lra. f_equal.
    assert (SA : sin (2 * acos x) = 2 * w * x) by (rewrite sin_2a, cos_acos, sin_acos by lra; fold (Rsqr x); unfold w; unfold Rsqr; reflexivity).
    assert (SBB : sin (2 * asin (lam * w)) = 2 * (lam * w) * y) by (rewrite sin_2a, sin_asin, CA by lra; reflexivity).
    rewrite SA, SBB. field. lra.
  - exfalso. rewrite H, Rminus_eq_0, Rabs_R0 in F. lra.
  - destruct (wh_sq x H) as [WP W]. rewrite (tau_hyp lam x H N), (asinh_diff H). destruct (ly_sq lam L x) as [YP Y2]. destruct (acosh_cosh x ltac:(lra)) as [EA ES]. pose proof (cosh_arcsinh (lam * sqrt (x * x - 1))) as CA.
    pose proof (lam_absh (sqrt (x * x - 1)) ltac:(apply sqrt_pos)) as LA. fold y. fold y in YP, Y2. set (w := sqrt (x * x - 1)) in *.
    assert (CY : cosh (arcsinh (lam * w)) = y). { rewrite CA. unfold y, lam_y. f_equal. replace (lam * w * (lam * w)) with (lam * lam * (w * w)) by ring. rewrite W. ring. }
    rewrite div_r by nra. replace (1 - x * x) with (- (w * w)) by (rewrite W; ring). assert (W2 : 0 < w * w) by nra. assert (AP : 1 / - (w * w) < 0) by (replace (1 / - (w * w)) with (- (1 / (w * w))) by (field; lra); assert (0 < 1 / (w * w)) by (apply Rdiv_lt_0_compat; lra); lra).
    rewrite lt_r. destruct (Rlt_dec 0 (1 / - (w * w))) as [Q|_]; [lra|]. rewrite acosh_r by lra. rewrite div_r by lra. replace (- lam * lam / (1 / - (w * w))) with (lam * lam * (w * w)) by (field; lra).
    rewrite (sqrt_r (lam * lam * (w * w))) by (pose proof (Rle_0_sqr lam) as S; unfold Rsqr in S; apply Rmult_le_pos; lra). rewrite asinh_r, lt_r. ev.
    replace (if if Rlt_dec lam 0 then true else false then Some (- (2 * arcsinh (sqrt (lam * lam * (w * w))))) else Some (2 * arcsinh (sqrt (lam * lam * (w * w))))) with (Some (2 * arcsinh (lam * w))) by (rewrite <- LA; destruct (Rlt_dec lam 0); f_equal; ring).
    rewrite !sinh_r. ev. rewrite sqrt_r by lra. replace (sqrt (- (1 / - (w * w)))) with (/ w) by (rewrite <- sqrt_square with (x := / w) by (apply Rlt_le, Rinv_0_lt_compat; lra); f_equal; field; lra). ev. rewrite div_r by lra. f_equal.
    rewrite !sinh_2a', EA, ES, sinh_arcsinh, CY, <- W. field. lra.
Qed.
(** all branches *)
Theorem x2tof_tau N : -1 < x -> x <> 1 -> (1 < x -> N = 0%Z) ->
  exists t, x2tof RA (Some lam) (Some x) N = Ret (Some t) /\ Rabs (t - tau lam N x) <= 3 / 1000000000000 /\ (1 / 100 <= Rabs (x - 1) -> t = tau lam N x).
Proof.
  intros XM X1 XN. destruct (Rlt_le_dec (Rabs (x - 1)) (1 / 100)) as [H|H].
  - destruct (battin H N X1 XN) as [t [E B]]. exists t. split; [exact E|]. split; [exact B|intros; lra].
  - exists (tau lam N x). rewrite Rminus_eq_0, Rabs_R0. split; [|split; [lra|reflexivity]].
    destruct (Rlt_le_dec (1 / 100) (Rabs (x - 1))) as [A|A]; [destruct (Rlt_le_dec (Rabs (x - 1)) (1 / 5)) as [B|B]|]; [apply lagrange; [exact XM|lra]|apply lancaster; try assumption; lra|apply lancaster; try assumption; lra].
Qed.
Lemma x2tof_one N : x = 1 -> x2tof RA (Some lam) (Some x) N = Ret None.
Proof.
  intros X. assert (NX : Rabs (x - 1) < 1 / 100) by (rewrite X, Rminus_eq_0, Rabs_R0; lra). unfold x2tof. cbv zeta. rewrite z_r. rewrite !lit_r, !nat_r. ev. rewrite !abs_r, !lt_r.
  destruct (Rlt_dec (1 / 100) (Rabs (x - 1))) as [H|_]; [lra|]. rewrite andb_false_r. destruct (Rlt_dec (Rabs (x - 1)) (1 / 100)) as [_|H]; [|lra].
  fold eta. destruct (hyper_r (1 / 2 * (1 - lam - x * eta)) (battin_z NX)) as [j [C HJ]]. rewrite lit_r in HJ. rewrite HJ. cbn [bind]. replace (x * x - 1) with 0 by (rewrite X; ring). rewrite Rabs_R0, (div_r 4 3), pi_r by lra. ev. rewrite div_r by lra.
  f_equal. cbn. unfold ppow. destruct (Rlt_dec 0 0) as [Q|_]; [lra|]. destruct (Req_EM_T 0 0) as [_|Q]; [|lra]. destruct (Rlt_dec 0 (3 / 2)) as [_|Q]; [|lra]. cbn. rewrite pdiv_none. reflexivity.
Qed.
End At.
Lemma x2tof_total ox N : exists o, x2tof RA (Some lam) ox N = Ret o.
Proof.
  destruct ox as [x|].
  - destruct (Rlt_le_dec (Rabs (x - 1)) (1 / 100)) as [H|H].
    + unfold x2tof. cbv zeta. rewrite z_r. rewrite !lit_r, !nat_r. ev. rewrite !abs_r, !lt_r. destruct (Rlt_dec (1 / 100) (Rabs (x - 1))) as [Q|_]; [lra|]. rewrite andb_false_r. destruct (Rlt_dec (Rabs (x - 1)) (1 / 100)) as [_|Q]; [|lra].
      destruct (hyper_r _ (battin_z x H)) as [j [_ HJ]]. rewrite lit_r in HJ. rewrite HJ. cbn [bind]. eexists. reflexivity.
    + unfold x2tof. cbv zeta. destruct (f_lt RA _ _ && f_lt RA _ _); [eexists; reflexivity|]. rewrite lit_r, nat_r. ev. rewrite abs_r, lt_r. destruct (Rlt_dec (Rabs (x - 1)) (1 / 100)) as [Q|_]; [lra|]. eexists. reflexivity.
  - unfold x2tof. cbv zeta. cbn [f_lt f_sub f_abs RA op2 op1 obind rel andb]. eexists. reflexivity.
Qed.
End Tof.
