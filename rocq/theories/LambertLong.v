(** * Direct transfers that last long: what the Householder iteration does from its initial guess *)
From Coq Require Import Reals ZArith List Bool Lra Lia Psatz.
From Coquelicot Require Import Coquelicot.
From Verif Require Import Outcome PartialReal RealLib Vec3 TwoBodySpec ElemProofs FlowProofs FlowMain LambertModel LambertReal LambertProofs LambertSpec LambertTime LambertVec LambertTof LambertDer LambertMono LambertMain LambertConv LambertNear LambertRevsSpec LambertComplete.
Import ListNotations.
Open Scope R_scope.

(** ** past the parabola of negative x the time of flight is a NaN *)
Section Past.
Variable lam : R.
Hypothesis L : lam * lam < 1.
Lemma past_arg x : x < -1 -> sqrt (x * x - 1) * (lam_y lam x - lam * x) + (x * lam_y lam x - lam * (x * x - 1)) < 0.
Proof.
  intros X. destruct (ly_sq lam L x) as [P Q]. set (y := lam_y lam x) in *. assert (EP : 0 < x * x - 1) by nra. set (w := sqrt (x * x - 1)). assert (WP : 0 < w) by (apply sqrt_lt_R0; exact EP). assert (W : w * w = x * x - 1) by (apply sqrt_sqrt; lra).
  rewrite <- W. set (f := w * (y - lam * x)). set (g := x * y - lam * (w * w)). assert (GF : g * g - f * f = 1) by (unfold f, g; replace ((x * y - lam * (w * w)) * (x * y - lam * (w * w)) - w * (y - lam * x) * (w * (y - lam * x))) with ((y * y) * (x * x - w * w) - lam * lam * (w * w) * (x * x - w * w)) by ring; rewrite W, Q; ring).
  assert (G : g < 0). { unfold g. assert (B : lam * lam * (w * w) * (w * w) < x * x * (y * y)) by (rewrite Q, W; nra).
    destruct (Rlt_or_le (x * y - lam * (w * w)) 0) as [|C]; [assumption|exfalso]. assert (x * y < 0) by nra. assert (- lam * (w * w) >= - (x * y)) by lra. nra. }
  destruct (Rlt_or_le (f + g) 0) as [|C]; [assumption|exfalso]. nra.
Qed.
Lemma past_tof x N : x < -1 -> x2tof RA (Some lam) (Some x) N = Ret None.
Proof.
  intros X. pose proof (past_arg x X) as A. unfold x2tof. cbv zeta. rewrite (z_r lam L x). rewrite !lit_r, !nat_r. ev. rewrite !abs_r, !lt_r. assert (D : 2 < Rabs (x - 1)) by (rewrite Rabs_left; lra).
  replace ((if Rlt_dec (Rabs (x - 1)) (1 / 5) then true else false) && (if Rlt_dec (1 / 100) (Rabs (x - 1)) then true else false)) with false by (destruct (Rlt_dec (Rabs (x - 1)) (1 / 5)); [lra|reflexivity]).
  destruct (Rlt_dec (Rabs (x - 1)) (1 / 100)) as [H|_]; [lra|]. destruct (Rlt_dec (x * x - 1) 0) as [H|_]; [nra|].
  rewrite (Rabs_right (x * x - 1)) by nra. rewrite sqrt_r by nra. ev. cbn [f_log RA par1 obind]. unfold plog. destruct (Rlt_dec 0 _) as [H|_]; [lra|]. reflexivity.
Qed.
Lemma house_past n T eps N err x it : eps < err -> x < -1 -> house RA (Some lam) (S n) (Some T) (Some eps) N (Some err) (Some x) it = Ret (None, (it + 1)%Z).
Proof.
  intros HE X. cbn [house]. rewrite lt_r. destruct (Rlt_dec eps err) as [_|]; [|lra]. rewrite (past_tof x N X). cbn [bind].
  destruct (dTdx RA (Some lam) (Some x) None) as [[a b] c]. cbn [f_sub RA op2 obind f_mul f_div f_abs op1].
  destruct n as [|n]; cbn [house]; [reflexivity|]. cbn [f_lt RA rel]. reflexivity.
Qed.
End Past.

(** ** one turn close to x = -1, with the derivatives scaled by their leading terms *)
Lemma den_pos a1 a2 a3 q : Rabs a1 <= 4 / 10000 -> Rabs a2 <= 4 / 1000 -> Rabs a3 <= 5 / 100 -> 0 <= q <= 39 / 1000 ->
  let p1 := -3 + a1 in let p2 := 15 + a2 in let p3 := -105 + a3 in let k := 1 - q in
  47 / 100 - 1004 / 100 * q - 1751 / 100 * (q * q) <= p1 * (p1 * p1 - k * p2) + p3 * k * k / 6 <= 6 / 10 /\ 13 / 10 <= p1 * p1 - k * p2 / 2 <= 2.
Proof.
  intros A1 A2 A3 Q p1 p2 p3 k. apply Rabs_le_between in A1. apply Rabs_le_between in A2. apply Rabs_le_between in A3.
  assert (S1 : 0 <= a1 * a1 <= 1 / 1000000) by nra. assert (S2 : - (1 / 100000) <= a1 * a2 <= 1 / 100000) by nra. assert (S3 : - (1 / 100000) <= a1 * (a1 * a1) <= 1 / 100000) by nra. assert (QQ : 0 <= q * q <= 39 / 1000 * q) by nra.
  split.
  - set (S0 := 12 * a1 + 3 * a2 + a3 / 6 - 9 * (a1 * a1) + a1 * (a1 * a1) - a1 * a2). set (M := 3 * a2 - 15 * a1 - a1 * a2 + a3 / 3). set (C := - (35 / 2) + a3 / 6).
    replace (p1 * (p1 * p1 - k * p2) + p3 * k * k / 6) with (1 / 2 + S0 - (10 + M) * q + C * (q * q)) by (unfold p1, p2, p3, k, S0, M, C; field).
    assert (B1 : - (3 / 100) <= S0 <= 3 / 100) by (unfold S0; lra). assert (B2 : - (4 / 100) <= M <= 4 / 100) by (unfold M; lra). assert (B3 : - (1751 / 100) <= C <= - (1749 / 100)) by (unfold C; lra).
    assert (B4 : (996 / 100) * q <= (10 + M) * q <= (1004 / 100) * q) by (split; apply Rmult_le_compat_r; lra). assert (B5 : - (1751 / 100) * (q * q) <= C * (q * q) <= 0) by (assert (C * (q * q) <= 0 * (q * q)) by (apply Rmult_le_compat_r; lra); assert (- (1751 / 100) * (q * q) <= C * (q * q)) by (apply Rmult_le_compat_r; lra); lra). lra.
  - assert (P1 : 8997 / 1000 <= p1 * p1 <= 9003 / 1000) by (unfold p1; nra). assert (K1 : 96 / 100 <= k <= 1) by (unfold k; lra). assert (K2 : 14996 / 1000 <= p2 <= 15004 / 1000) by (unfold p2; lra). assert (P2 : 143 / 10 <= k * p2 <= 15004 / 1000) by (clear - K1 K2; nra). lra.
Qed.
Lemma scaled_step e t k p1 p2 p3 x : e <> 0 -> t <> 0 -> p1 * (p1 * p1 - k * p2) + p3 * k * k / 6 <> 0 ->
  let d1 := p1 * t / e in let d2 := p2 * t / (e * e) in let d3 := p3 * t / (e * e * e) in let r := k * t in
  d1 * (d1 * d1 - r * d2) + d3 * r * r / 6 <> 0 /\ x - r * (d1 * d1 - r * d2 / 2) / (d1 * (d1 * d1 - r * d2) + d3 * r * r / 6) = x - e * (k * (p1 * p1 - k * p2 / 2) / (p1 * (p1 * p1 - k * p2) + p3 * k * k / 6)).
Proof.
  intros E T D d1 d2 d3 r. assert (Q : d1 * (d1 * d1 - r * d2) + d3 * r * r / 6 = (t * t * t) / (e * e * e) * (p1 * (p1 * p1 - k * p2) + p3 * k * k / 6)) by (unfold d1, d2, d3, r; field; exact E).
  assert (N : (t * t * t) / (e * e * e) <> 0) by (unfold Rdiv; repeat apply Rmult_integral_contrapositive_currified; try exact T; apply Rinv_neq_0_compat; repeat apply Rmult_integral_contrapositive_currified; exact E).
  split; [rewrite Q; apply Rmult_integral_contrapositive_currified; assumption|]. rewrite Q. set (dd := p1 * (p1 * p1 - k * p2) + p3 * k * k / 6) in *. unfold d1, d2, r. field. repeat split; assumption.
Qed.

Section Long.
Variable lam : R.
Hypothesis L : lam * lam < 1.
Let y (x : R) := lam_y lam x.
Lemma near_y u : 0 < u <= 1 / 10000 -> 999 / 1000 <= y (-1 + u) <= 1.
Proof. intros U. destruct (ly_sq lam L (-1 + u)) as [P Q]. fold (y (-1 + u)) in P, Q. set (z := y (-1 + u)) in *. assert (A : 0 <= lam * lam) by nra. set (m := lam * lam) in *. assert (E : 0 <= 1 - (-1 + u) * (-1 + u) <= 2 / 10000) by nra. set (e := 1 - (-1 + u) * (-1 + u)) in *. assert (F : 0 <= m * e <= 2 / 10000) by (clear - A L E; nra). assert (Q' : z * z = 1 - m * e) by (rewrite Q; unfold e; ring). clear - P F Q'. split; nra. Qed.
Lemma small_w u : 0 < u <= 1 / 10000 -> let x := -1 + u in let w := sqrt (1 - x * x) in 0 < w <= 14143 / 1000000 /\ w * w = 1 - x * x /\ 19999 / 10000 * u <= w * w <= 2 * u.
Proof.
  intros U x w. assert (X : -1 < x < 1) by (unfold x; lra). destruct (w_sq x X) as [WP W]. fold w in WP, W. assert (E : 19999 / 10000 * u <= w * w <= 2 * u) by (rewrite W; unfold x; nra). split; [|split; assumption]. split; [exact WP|]. nra.
Qed.
(** the time of flight is at least that of 2.9 radians of mean motion *)
Lemma long_angle u : 0 < u <= 1 / 10000 -> let x := -1 + u in 294 / 100 <= tau lam 0 x * (sqrt (1 - x * x) * sqrt (1 - x * x) * sqrt (1 - x * x)).
Proof.
  intros U x. assert (X : -1 < x < 1) by (unfold x; lra). destruct (small_w u U) as [WB [W WU]]. fold x in WB, W, WU. pose proof (lam_bd lam L) as LB. pose proof (near_y u U) as Y. fold x in Y.
  rewrite (tau_ell lam x X 0). pose proof (psi_bd lam L x X) as PB. pose proof (cos_psi lam L x X) as CP. pose proof (sin_psi lam L x X) as SP. fold (y x) in CP, SP |- *. set (psi := half_angle lam x) in *. set (w := sqrt (1 - x * x)) in *. rewrite <- W.
  replace (((psi + 0 * PI) / w - x + lam * y x) / (w * w) * (w * w * w)) with (psi + w * (- x + lam * y x)) by (field; lra).
  assert (P3 : 3 < PI) by (pose proof PI2_3_2; lra).
  assert (CN : cos psi < 0) by (rewrite CP; unfold x in *; nra). assert (P2 : PI / 2 < psi). { destruct (Rlt_or_le (PI / 2) psi) as [|C]; [assumption|exfalso]. pose proof (cos_ge_0 psi ltac:(lra) C). lra. }
  assert (PL : PI - 1 / 20 <= psi). { destruct (Rle_or_lt (PI - 1 / 20) psi) as [|C]; [assumption|exfalso].
    assert (S1 : sin (1 / 20) <= sin (PI - psi)) by (apply sin_incr_1; lra). rewrite <- sin_PI_x in SP. pose proof (pre_sin_bound (1 / 20) 0 ltac:(lra) ltac:(lra)) as [S2 _]. unfold sin_approx, sin_term in S2. cbn in S2. assert (S3 : w * (y x - lam * x) <= w * 2) by (apply Rmult_le_compat_l; [lra|unfold x in *; nra]). lra. }
  assert (LY : -1 <= lam * y x) by (clear - LB Y; nra). assert (I : - (1 / 10000) <= - x + lam * y x) by (unfold x in LY |- *; lra). set (v := - x + lam * y x) in *. assert (- (1 / 100) <= w * v) by (clear - WB I; nra). lra.
Qed.
(** the code's derivatives, scaled *)
Lemma scaled u t : 0 < u <= 1 / 10000 -> 1000000 <= t -> let x := -1 + u in let e := 1 - x * x in exists a1 a2 a3,
  D1 lam t x = (-3 + a1) * t / e /\ D2 lam t x = (15 + a2) * t / (e * e) /\ D3 lam t x = (-105 + a3) * t / (e * e * e) /\ Rabs a1 <= 4 / 10000 /\ Rabs a2 <= 4 / 1000 /\ Rabs a3 <= 5 / 100.
Proof.
  intros U HT x e. pose proof (lam_bd lam L) as LB. pose proof (near_y u U) as Y. fold x in Y. assert (EB : 0 < e <= 2 / 10000) by (unfold e, x; nra). set (z := y x) in *.
  assert (L3 : -1 < lam * lam * lam < 1) by (split; nra). assert (Z3 : 9 / 10 <= z * z * z <= 1) by nra. assert (Z5 : 9 / 10 <= z * z * z * (z * z) <= 1) by nra.
  set (q1 := 2 * (lam * lam * lam) * x / z). set (q2 := 2 * (1 - lam * lam) * (lam * lam * lam) / (z * z * z)). set (q3 := 6 * (1 - lam * lam) * (lam * lam) * (lam * lam * lam) * x / (z * z * z) / (z * z)).
  assert (DV : forall a b B, 9 / 10 <= b -> Rabs a <= B -> Rabs (a / b) <= 2 * B). { intros a b B Hb Ha. unfold Rdiv. rewrite Rabs_mult, Rabs_inv, (Rabs_pos_eq b) by lra. pose proof (Rabs_pos a). assert (/ b <= 2) by (replace 2 with (/ (1 / 2)) by field; apply Rinv_le_contravar; lra). assert (0 < / b) by (apply Rinv_0_lt_compat; lra). nra. }
  assert (X1 : -1 < x < 0) by (unfold x; lra). assert (LX : -1 < lam * lam * lam * x < 1) by nra.
  assert (Q1 : Rabs q1 <= 2 * 2) by (unfold q1; apply DV; [lra|apply Rabs_le; lra]).
  assert (LL : 0 <= lam * lam) by nra. assert (Q2 : Rabs q2 <= 2 * 2) by (unfold q2; apply DV; [lra|apply Rabs_le; nra]).
  assert (Q3 : Rabs q3 <= 2 * 6). { unfold q3. replace (6 * (1 - lam * lam) * (lam * lam) * (lam * lam * lam) * x / (z * z * z) / (z * z)) with (6 * ((1 - lam * lam) * (lam * lam)) * (lam * lam * lam * x) / (z * z * z * (z * z))) by (field; lra). apply DV; [lra|]. assert (0 <= (1 - lam * lam) * (lam * lam) <= 1) by nra. apply Rabs_le. nra. }
  apply Rabs_le_between in Q1. apply Rabs_le_between in Q2. apply Rabs_le_between in Q3.
  assert (TI : 0 < / t <= 1 / 1000000) by (split; [apply Rinv_0_lt_compat; lra|replace (1 / 1000000) with (/ 1000000) by field; apply Rinv_le_contravar; lra]). assert (TT : t * / t = 1) by (field; lra). set (i := / t) in *.
  assert (TN : t <> 0) by lra. assert (EN : e <> 0) by lra.
  set (p1 := 3 * x + (-2 + q1) * i). set (p2 := 3 * e + 5 * x * p1 + q2 * e * i). set (p3 := 7 * x * p2 + 8 * e * p1 - q3 * (e * e) * i).
  assert (E1 : D1 lam t x = p1 * t / e). { unfold D1. fold (y x). fold z. fold q1. fold e. unfold p1, i. field. split; lra. }
  assert (E2 : D2 lam t x = p2 * t / (e * e)). { unfold D2. rewrite E1. fold (y x). fold z. fold q2. fold e. unfold p2, i. field. split; lra. }
  assert (E3 : D3 lam t x = p3 * t / (e * e * e)). { unfold D3. rewrite E1, E2. fold (y x). fold z. fold q3. fold e. unfold p3, i. field. split; lra. }
  assert (R1 : - (1 / 100000) <= (-2 + q1) * i <= 1 / 100000) by nra. assert (XB : -1 <= x <= - (9999 / 10000)) by (unfold x; lra). assert (B1 : -3 - 4 / 10000 <= p1 <= -3 + 4 / 10000) by (unfold p1, x; lra).
  assert (R2 : - (1 / 100000) <= q2 * e * i <= 1 / 100000) by (assert (- (1 / 1000) <= q2 * e <= 1 / 1000) by nra; nra). assert (R2' : 149964 / 10000 <= 5 * x * p1 <= 15003 / 1000) by (assert (XP : 299928 / 100000 <= x * p1 <= 30005 / 10000) by (clear - XB B1; clearbody x p1; nra); clear - XP; clearbody x p1; lra). assert (B2 : 15 - 4 / 1000 <= p2 <= 15 + 4 / 1000) by (unfold p2; lra).
  assert (R3 : - (1 / 100000) <= q3 * (e * e) * i <= 1 / 100000) by (assert (0 <= e * e <= 1 / 10000) by nra; assert (- (12 / 10000) <= q3 * (e * e) <= 12 / 10000) by nra; nra).
  assert (R3' : -105 - 3 / 100 <= 7 * x * p2 <= -105 + 4 / 100) by (assert (XP : - (15004 / 1000) <= x * p2 <= - (149945 / 10000)) by (clear - XB B2; clearbody x p2; nra); clear - XP; clearbody x p2; lra). assert (R3'' : - (1 / 100) <= 8 * e * p1 <= 0) by (clear - EB B1; nra). assert (B3 : -105 - 5 / 100 <= p3 <= -105 + 5 / 100) by (unfold p3; lra).
  exists (p1 + 3), (p2 - 15), (p3 + 105). repeat split; try (apply Rabs_le; lra).
  - rewrite E1. f_equal. f_equal. ring.
  - rewrite E2. f_equal. f_equal. ring.
  - rewrite E3. f_equal. f_equal. ring.
Qed.
(** one turn from within 1/10000 of x = -1, when the time asked for is at most 4 / (1 + x) *)
Lemma turn_past u T : 0 < u <= 1 / 10000 -> 0 < T -> T * u <= 4 -> let x := -1 + u in let nx := hstep (resid lam 0 T) (f1 lam 0) (f2 lam 0) (f3 lam 0) x in
  hden (resid lam 0 T) (f1 lam 0) (f2 lam 0) (f3 lam 0) x <> 0 /\ 41 / 10 * u <= x - nx /\ (u <= 1 / 1000000 -> x - nx <= 96 / 10 * u).
Proof.
  intros U TP TU x nx. destruct (small_w u U) as [WB [W WU]]. fold x in WB, W, WU. assert (LA : 294 / 100 <= tau lam 0 x * (sqrt (1 - x * x) * sqrt (1 - x * x) * sqrt (1 - x * x))) by exact (long_angle u U). assert (EW : 1 - x * x <> 0) by (rewrite <- W; apply Rmult_integral_contrapositive_currified; lra). set (w := sqrt (1 - x * x)) in *. set (t := tau lam 0 x) in *.
  assert (W3 : 0 < w * w * w) by (repeat apply Rmult_lt_0_compat; lra). assert (W3B : w * w * w <= 283 / 100000000) by (assert (w * w * w <= 2 / 10000 * (14143 / 1000000)) by (apply Rmult_le_compat; lra); lra).
  assert (TB' : 1000000 <= t). { destruct (Rle_or_lt 1000000 t) as [|C]; [assumption|exfalso]. assert (t * (w * w * w) <= 1000000 * (283 / 100000000)) by (apply Rmult_le_compat; [|lra..]; destruct (Rle_or_lt 0 t) as [|G]; [assumption|exfalso; assert (t * (w * w * w) < 0 * (w * w * w)) by (apply Rmult_lt_compat_r; assumption); lra]). lra. }
  set (q := T / t). assert (QT : q * t = T) by (unfold q; field; lra). assert (Q0 : 0 < q) by (apply Rdiv_lt_0_compat; lra).
  assert (QB : q * (294 / 100) <= 8 * w). { assert (q * (294 / 100) <= q * (t * (w * w * w))) by (apply Rmult_le_compat_l; lra). assert (E : q * (t * (w * w * w)) = T * (w * w) * w) by (rewrite <- QT; ring). assert (T * (w * w) <= T * (2 * u)) by (apply Rmult_le_compat_l; lra). assert (T * (w * w) <= 8) by lra. assert (T * (w * w) * w <= 8 * w) by (apply Rmult_le_compat_r; lra). lra. }
  assert (QS : 0 <= q <= 39 / 1000) by lra. destruct (scaled u t U TB') as [a1 [a2 [a3 [E1 [E2 [E3 [A1 [A2 A3]]]]]]]]. fold x in E1, E2, E3. destruct (den_pos a1 a2 a3 q A1 A2 A3 QS) as [[DL DU] NB].
  assert (DP : 0 < (-3 + a1) * ((-3 + a1) * (-3 + a1) - (1 - q) * (15 + a2)) + (-105 + a3) * (1 - q) * (1 - q) / 6) by nra. assert (TN : t <> 0) by lra.
  destruct (scaled_step (1 - x * x) t (1 - q) (-3 + a1) (15 + a2) (-105 + a3) x EW TN ltac:(lra)) as [S1 S2].
  set (num := (-3 + a1) * (-3 + a1) - (1 - q) * (15 + a2) / 2) in *. set (den := (-3 + a1) * ((-3 + a1) * (-3 + a1) - (1 - q) * (15 + a2)) + (-105 + a3) * (1 - q) * (1 - q) / 6) in *.
  assert (R : (1 - q) * t = resid lam 0 T x) by (unfold resid; fold t; lra). rewrite R in S1, S2. rewrite <- E1, <- E2, <- E3 in S1, S2. cbv zeta in S1, S2.
  change (D1 lam t x) with (f1 lam 0 x) in S1, S2. change (D2 lam t x) with (f2 lam 0 x) in S1, S2. change (D3 lam t x) with (f3 lam 0 x) in S1, S2. split; [exact S1|].
  assert (NX : nx = x - (1 - x * x) * ((1 - q) * num / den)) by (unfold nx, hstep, hden; exact S2). clear S1 S2. rewrite NX, <- W. replace (x - (x - w * w * ((1 - q) * num / den))) with (w * w * ((1 - q) * num / den)) by ring.
  assert (KN : 124 / 100 <= (1 - q) * num <= 2) by (clear - NB QS; nra). clearbody num den nx. split.
  - assert (F : 206 / 100 <= (1 - q) * num / den). { apply (Rmult_le_reg_r den); [exact DP|]. replace ((1 - q) * num / den * den) with ((1 - q) * num) by (field; lra). lra. } assert (4119 / 1000 * u <= w * w * (206 / 100)) by lra. assert (w * w * (206 / 100) <= w * w * ((1 - q) * num / den)) by (apply Rmult_le_compat_l; lra). lra.
  - intros U6. assert (WS : w <= 15 / 10000) by nra. assert (QS' : q <= 41 / 10000) by lra. assert (DB : 42 / 100 < den) by nra. assert (F : (1 - q) * num / den <= 477 / 100) by (apply (Rmult_le_reg_r den); [lra|]; replace ((1 - q) * num / den * den) with ((1 - q) * num) by (field; lra); assert (42 / 100 * (477 / 100) <= 477 / 100 * den) by lra; lra).
    assert (w * w * ((1 - q) * num / den) <= w * w * (477 / 100)) by (apply Rmult_le_compat_l; lra). lra.
Qed.
Lemma T00_bd : 0 < acos lam + lam * sqrt (1 - lam * lam) < 4.
Proof.
  pose proof (lam_bd lam L) as LB. rewrite <- tau_at0. pose proof PI_4. destruct (tau_revs lam L 0 0 ltac:(lra)) as [A B]. revert A B. replace (1 - 0 * 0) with 1 by ring. rewrite sqrt_1. intros A B. split; lra.
Qed.
Lemma long_start T : 40000 <= T -> exists u, start lam T 0 = -1 + u /\ 0 < u <= 1 / 10000 /\ T * u <= 4 /\ 4 <= u * (T + 4).
Proof.
  intros HT. pose proof T00_bd as B. unfold start. cbn [Nat.eqb]. cbv zeta. set (T0 := acos lam + lam * sqrt (1 - lam * lam)) in *. destruct (Rle_dec T0 T) as [_|C]; [|lra]. set (d := T - T0 + 4). assert (DB : T <= d <= T + 4) by (unfold d; lra). exists (4 / d).
  assert (DU : 4 / d * d = 4) by (field; lra). assert (UP : 0 < 4 / d) by (apply Rdiv_lt_0_compat; lra). split; [unfold d in *; field; lra|]. set (u := 4 / d) in *. clearbody u d. repeat split; nra.
Qed.
(** ** the iteration from the code's guess for a long direct transfer *)
Theorem long_householder T : 40000 <= T ->
  (exists x, x < -1 /\ householder RA (Some lam) (Some T) (Some (start lam T 0)) 0 (Some (1 / 100000)) 15 = Ret (Some x, 1%Z)) \/
  householder RA (Some lam) (Some T) (Some (start lam T 0)) 0 (Some (1 / 100000)) 15 = Ret (None, 2%Z).
Proof.
  intros HT. destruct (long_start T HT) as [u [ES [U [TU _]]]]. rewrite ES. destruct (turn_past u T U ltac:(lra) TU) as [HD [HS _]]. unfold householder. rewrite nat_r.
  rewrite (house_turn lam L 14 T (1 / 100000) 0 1 (-1 + u) 0) by (try exact HD; try (rewrite Rabs_left); lra). set (nx := hstep _ _ _ _ _) in *. clearbody nx. rewrite (Rabs_right (-1 + u - nx)) by lra.
  destruct (Rle_or_lt (-1 + u - nx) (1 / 100000)) as [C|C]; [left; exists nx; split; [lra|apply house_end; exact C]|right]. rewrite (house_past lam L 13 T (1 / 100000) 0 (-1 + u - nx) nx (0 + 1) C ltac:(lra)). reflexivity.
Qed.
Theorem long_nan T : 40000 <= T <= 1600000 -> householder RA (Some lam) (Some T) (Some (start lam T 0)) 0 (Some (1 / 100000)) 15 = Ret (None, 2%Z).
Proof.
  intros HT. destruct (long_start T ltac:(lra)) as [u [ES [U [TU UT]]]]. rewrite ES. destruct (turn_past u T U ltac:(lra) TU) as [HD [HS _]]. unfold householder. rewrite nat_r.
  rewrite (house_turn lam L 14 T (1 / 100000) 0 1 (-1 + u) 0) by (try exact HD; try (rewrite Rabs_left); lra). set (nx := hstep _ _ _ _ _) in *. clearbody nx. rewrite (Rabs_right (-1 + u - nx)) by lra.
  assert (C : 1 / 100000 < -1 + u - nx) by nra. rewrite (house_past lam L 13 T (1 / 100000) 0 (-1 + u - nx) nx (0 + 1) C ltac:(lra)). reflexivity.
Qed.
Theorem long_silent T : 4000000 <= T -> exists x, x < -1 /\ householder RA (Some lam) (Some T) (Some (start lam T 0)) 0 (Some (1 / 100000)) 15 = Ret (Some x, 1%Z).
Proof.
  intros HT. destruct (long_start T ltac:(lra)) as [u [ES [U [TU UT]]]]. rewrite ES. destruct (turn_past u T U ltac:(lra) TU) as [HD [HS HS']]. unfold householder. rewrite nat_r. assert (U6 : u <= 1 / 1000000) by nra. specialize (HS' U6).
  rewrite (house_turn lam L 14 T (1 / 100000) 0 1 (-1 + u) 0) by (try exact HD; try (rewrite Rabs_left); lra). set (nx := hstep _ _ _ _ _) in *. clearbody nx. rewrite (Rabs_right (-1 + u - nx)) by lra.
  exists nx. split; [lra|apply house_end; lra].
Qed.
End Long.

(** ** the constructor *)
Section Never.
Variables (r0 r1 : vec) (cw : bool) (mu x : R).
Hypothesis Hc : vz (cross r0 r1) <> 0.
Hypothesis Mu : 0 < mu.
(** with x at or below -1 the velocity is that of a motion that does not come to r1 *)
Lemma never_arrives t v1 : x <= -1 -> 0 < t -> ~ flow_at mu (r0, lv0 r0 r1 cw mu x) t (r1, v1).
Proof.
  intros X Ht FL. pose proof (h_dir r0 r1 cw Hc mu x Mu) as HD. assert (Hh : ang_mom (r0, lv0 r0 r1 cw mu x) <> vzero) by (intros Z; rewrite Z in HD; cbn in HD; lra).
  assert (Hr : r0 <> vzero) by (intros Z; apply Hc; rewrite Z; cbn; ring). destruct (T_onto mu r0 (lv0 r0 r1 cw mu x) Mu Hr Hh (sqrt mu * t)) as [chi TC].
  pose proof (ustate_flow mu r0 (lv0 r0 r1 cw mu x) Mu Hr Hh t chi TC) as FU. pose proof (flow_functional _ _ _ _ _ FL FU) as EU.
  assert (CP : 0 < chi). { destruct (Rlt_or_le 0 chi) as [|G]; [assumption|exfalso]. assert (SM : 0 < sqrt mu * t) by (apply Rmult_lt_0_compat; [apply sqrt_lt_R0; exact Mu|exact Ht]). pose proof (T_0 mu r0 (lv0 r0 r1 cw mu x)) as T0. destruct G as [G|G]; [pose proof (T_incr mu r0 (lv0 r0 r1 cw mu x) Mu Hr Hh chi 0 G) as GI; rewrite T0, TC in GI; lra|rewrite G, T0 in TC; lra]. }
  destruct (arrives_back r0 r1 cw Hc mu x Mu chi t CP ltac:(rewrite <- EU; reflexivity) TC) as [X' _]. lra.
Qed.
End Never.
Lemma nan_entry r0 r1 tof mu cw mr L i : vz (cross r0 r1) <> 0 -> lambert_r r0 r1 tof mu cw mr = Ret L -> nth_error (l_x L) i = Some None -> nth_error (l_v0 L) i = Some nan3 /\ nth_error (l_v1 L) i = Some nan3.
Proof.
  intros Hc H HX. destruct (lambert_pos _ _ _ _ _ _ _ H) as [Ht Hm]. rewrite lambert_r_eq in H by assumption. destruct (r_u32 _) as [q| |]; cbn [bind] in H; try discriminate. destruct (solved _ _ _ _ _ _ _) as [m| |]; cbn [bind] in H; try discriminate. injection H as <-. cbn [l_x l_v0 l_v1] in *.
  split; erewrite map_nth_error by exact HX; rewrite vels_nan; reflexivity.
Qed.
Section Constructor.
Variables (r0 r1 : vec) (tof mu : R) (cw : bool) (mr : Z) (L : @lambert_t (option R)).
Hypothesis Hc : vz (cross r0 r1) <> 0.
Hypothesis M : (0 <= mr < u32)%Z.
Hypothesis HL : lambert_r r0 r1 tof mu cw mr = Ret L.
Let T := tof / time_unit r0 r1 mu.
Let lam := transfer_lambda r0 r1 cw.
Lemma first_entry : exists x k, householder RA (Some lam) (Some T) (Some (start lam T 0)) 0 (Some (1 / 100000)) 15 = Ret (x, k) /\ nth_error (l_x L) 0 = Some x /\ nth_error (l_iters L) 0 = Some k.
Proof.
  assert (HI : (0 < length (l_x L))%nat). { destruct (lambert_pos _ _ _ _ _ _ _ HL) as [Ht Hm]. pose proof HL as G. rewrite lambert_r_eq in G by assumption. destruct (r_u32 _) as [q| |] eqn:EU; cbn [bind] in G; try discriminate. pose proof (r_u32_ok (Some _) q EU) as Q. unfold solved in G.
    match type of G with context [solve RA ?l ?l2 ?T q mr] => destruct (solve_cases RA l l2 T q mr Q M) as [[xs0 [its0 [n0 [S0 [SB [_ [_ [SL _]]]]]]]]|[S0 _]] end; rewrite S0 in G; cbn [bind fst snd] in G; [|discriminate]. injection G as <-. cbn [l_x]. lia. }
  exact (lambert_started r0 r1 tof mu cw mr L 0 Hc M HL HI (or_intror eq_refl)).
Qed.
Lemma lam_small : lam * lam < 1. Proof. destruct (tl_sq r0 r1 cw Hc) as [_ [LP LL]]. exact LL. Qed.
(** the entry is NaN, or the velocity of a motion that does not come to r1 at any time *)
Theorem long_lost : 40000 <= T ->
  (nth_error (l_v0 L) 0 = Some nan3 /\ nth_error (l_v1 L) 0 = Some nan3 /\ nth_error (l_iters L) 0 = Some 2%Z) \/
  (exists v0 v1, nth_error (l_v0 L) 0 = Some (sv v0) /\ nth_error (l_v1 L) 0 = Some (sv v1) /\ nth_error (l_iters L) 0 = Some 1%Z /\ forall t w, 0 < t -> ~ flow_at mu (r0, v0) t (r1, w)).
Proof.
  intros HT. destruct (lambert_pos _ _ _ _ _ _ _ HL) as [Ht Hm]. destruct first_entry as [x [k [HH [HX HK]]]]. destruct (long_householder lam lam_small T HT) as [[z [Z E]]|E]; rewrite E in HH; injection HH as <- <-.
  - right. destruct (lambert_entry r0 r1 tof mu cw mr L 0 z Hc Ht Hm HL HX) as [A B]. do 2 eexists. split; [exact A|]. split; [exact B|]. split; [exact HK|]. intros t w P. apply (never_arrives r0 r1 cw mu z Hc Hm); lra.
  - left. destruct (nan_entry r0 r1 tof mu cw mr L 0 Hc HL HX) as [A B]. repeat split; assumption.
Qed.
Theorem long_lost_nan : 40000 <= T <= 1600000 -> nth_error (l_v0 L) 0 = Some nan3 /\ nth_error (l_v1 L) 0 = Some nan3 /\ nth_error (l_iters L) 0 = Some 2%Z.
Proof.
  intros HT. destruct first_entry as [x [k [HH [HX HK]]]]. pose proof (long_nan lam lam_small T HT) as E. rewrite E in HH. injection HH as <- <-. destruct (nan_entry r0 r1 tof mu cw mr L 0 Hc HL HX) as [A B]. repeat split; assumption.
Qed.
Theorem long_lost_silent : 4000000 <= T -> exists v0 v1, nth_error (l_v0 L) 0 = Some (sv v0) /\ nth_error (l_v1 L) 0 = Some (sv v1) /\ nth_error (l_iters L) 0 = Some 1%Z /\ forall t w, 0 < t -> ~ flow_at mu (r0, v0) t (r1, w).
Proof.
  intros HT. destruct (lambert_pos _ _ _ _ _ _ _ HL) as [Ht Hm]. destruct first_entry as [x [k [HH [HX HK]]]]. destruct (long_silent lam lam_small T HT) as [z [Z E]]. rewrite E in HH. injection HH as <- <-.
  destruct (lambert_entry r0 r1 tof mu cw mr L 0 z Hc Ht Hm HL HX) as [A B]. do 2 eexists. split; [exact A|]. split; [exact B|]. split; [exact HK|]. intros t w P. apply (never_arrives r0 r1 cw mu z Hc Hm); lra.
Qed.
End Constructor.
Lemma ex_long_runs tof : 0 < tof <= 10000000 -> exists L, lambert_r ex_r0 ex_r1 tof 32000 false 0 = Ret L.
Proof.
  intros HT. assert (Hc : vz (cross ex_r0 ex_r1) <> 0) by (rewrite ex_cross; lra). apply (proj1 (lambert_run ex_r0 ex_r1 tof 32000 false 0 Hc ltac:(lra) ltac:(lra) ltac:(unfold u32; lia))). rewrite ex_unit. pose proof PI2_3_2. apply Rlt_div_l; [lra|]. unfold u32. lra.
Qed.
Lemma ex_long_direct tof : 0 < tof -> exists v, transfer 32000 ex_r0 ex_r1 tof false 0 v.
Proof. intros HT. destruct (direct_transfer 32000 ex_r0 ex_r1 false ltac:(rewrite ex_cross; lra) ltac:(lra) tof HT) as [v [A _]]. exists v. exact A. Qed.
Theorem long_nan_refuted : exists r0 r1 tof mu L v, vz (cross r0 r1) <> 0 /\ lambert_r r0 r1 tof mu false 0 = Ret L /\ transfer mu r0 r1 tof false 0 v /\ nth_error (l_v0 L) 0 = Some nan3 /\ nth_error (l_v1 L) 0 = Some nan3.
Proof.
  destruct (ex_long_runs 100000 ltac:(lra)) as [L HL]. destruct (ex_long_direct 100000 ltac:(lra)) as [v HV]. assert (Hc : vz (cross ex_r0 ex_r1) <> 0) by (rewrite ex_cross; lra). exists ex_r0, ex_r1, 100000, 32000, L, v. split; [exact Hc|]. split; [exact HL|]. split; [exact HV|].
  destruct (long_lost_nan ex_r0 ex_r1 100000 32000 false 0 L Hc ltac:(unfold u32; lia) HL ltac:(rewrite ex_unit; lra)) as [A [B _]]. split; assumption.
Qed.
Theorem long_silent_refuted : exists r0 r1 tof mu L v v0 v1, vz (cross r0 r1) <> 0 /\ lambert_r r0 r1 tof mu false 0 = Ret L /\ transfer mu r0 r1 tof false 0 v /\
  nth_error (l_v0 L) 0 = Some (sv v0) /\ nth_error (l_v1 L) 0 = Some (sv v1) /\ forall t w, 0 < t -> ~ flow_at mu (r0, v0) t (r1, w).
Proof.
  destruct (ex_long_runs 5000000 ltac:(lra)) as [L HL]. destruct (ex_long_direct 5000000 ltac:(lra)) as [v HV]. assert (Hc : vz (cross ex_r0 ex_r1) <> 0) by (rewrite ex_cross; lra).
  destruct (long_lost_silent ex_r0 ex_r1 5000000 32000 false 0 L Hc ltac:(unfold u32; lia) HL ltac:(rewrite ex_unit; lra)) as [v0 [v1 [A [B [_ C]]]]]. exists ex_r0, ex_r1, 5000000, 32000, L, v, v0, v1. repeat (split; [assumption|]). exact C.
Qed.
(** (25, 0, 0) to (7, 24, 0), mu = 32000, in 40000 time units *)
Lemma ex_long : exists L, lambert_r ex_r0 ex_r1 40000 32000 false 0 = Ret L /\ nth_error (l_v0 L) 0 = Some nan3 /\ nth_error (l_iters L) 0 = Some 2%Z.
Proof.
  destruct (ex_long_runs 40000 ltac:(lra)) as [L HL]. assert (Hc : vz (cross ex_r0 ex_r1) <> 0) by (rewrite ex_cross; lra). exists L. destruct (long_lost_nan ex_r0 ex_r1 40000 32000 false 0 L Hc ltac:(unfold u32; lia) HL ltac:(rewrite ex_unit; lra)) as [A [_ B]]. repeat split; assumption.
Qed.
