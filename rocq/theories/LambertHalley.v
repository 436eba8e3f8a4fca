(** * Halley's iteration of lambert_problem finds the least time of flight when |lambda| <= 4/5 *)
From Coq Require Import Reals ZArith List Bool Lra Lia Psatz.
From Coquelicot Require Import Coquelicot.
From Verif Require Import Outcome PartialReal RealLib Vec3 TwoBodySpec ElemProofs LambertModel LambertReal LambertProofs LambertSpec LambertTime LambertSeries LambertVec LambertTof LambertDer LambertMono LambertMain LambertRevs LambertRevsSpec LambertComplete LambertCount LambertConv PiBounds.
Import ListNotations.
Open Scope R_scope.

Lemma p24 : 10 ^ 24 = 1000000000000000000000000. Proof. cbv [pow]. lra. Qed.
Lemma p26 : 10 ^ 26 = 100000000000000000000000000. Proof. cbv [pow]. lra. Qed.
(** ** one step, with separate bounds on the derivatives *)
Lemma der_le (f f' : R -> R) a b : a <= b -> (forall t, a <= t <= b -> is_derive f t (f' t)) -> (forall t, a <= t <= b -> 0 <= f' t) -> f a <= f b.
Proof. intros [H|<-] D P; [|lra]. destruct (MVT_cor2 f f' a b H) as [c [E C]]; [intros c C; apply is_derive_Reals, D; lra|]. specialize (P c ltac:(lra)). nra. Qed.
Lemma taylor3 (h h' : R -> R) a b Q : 0 <= Q -> (a <= b) -> (forall t, a <= t <= b -> is_derive h t (h' t)) ->
  (h b = 0 -> (forall t, a <= t <= b -> Rabs (h' t) <= Q / 2 * ((b - t) * (b - t))) -> Rabs (h a) <= Q / 6 * ((b - a) * (b - a) * (b - a))) /\
  (h a = 0 -> (forall t, a <= t <= b -> Rabs (h' t) <= Q / 2 * ((t - a) * (t - a))) -> Rabs (h b) <= Q / 6 * ((b - a) * (b - a) * (b - a))).
Proof.
  intros Q0 AB D.
  assert (S : forall c t, is_derive (fun t => Q / 6 * ((t - c) * (t - c) * (t - c))) t (Q / 2 * ((t - c) * (t - c)))). { intros c t. auto_derive; [exact I|field]. }
  assert (U : forall c sg t, a <= t <= b -> is_derive (fun t => Q / 6 * ((t - c) * (t - c) * (t - c)) + sg * h t) t (Q / 2 * ((t - c) * (t - c)) + sg * h' t)). { intros c sg t T. apply der_plus; [apply S|apply der_scal, D; exact T]. }
  split; intros Z B.
  - apply Rabs_le. split.
    + pose proof (der_le _ _ a b AB (U b 1) ) as H. cbv beta in H. rewrite Z in H. enough (0 <= Q / 6 * ((b - a) * (b - a) * (b - a)) + h a) by lra. 
      assert (H' := H ltac:(intros t T; specialize (B t T); apply Rabs_le_between in B; replace ((t - b) * (t - b)) with ((b - t) * (b - t)) by ring; lra)). clear H.
      pose proof (der_le _ _ a b AB (U b (-1))) as H. cbv beta in H. rewrite Z in H. assert (H2 := H ltac:(intros t T; specialize (B t T); apply Rabs_le_between in B; replace ((t - b) * (t - b)) with ((b - t) * (b - t)) by ring; lra)). nra.
    + pose proof (der_le _ _ a b AB (U b 1)) as H. cbv beta in H. rewrite Z in H. assert (H2 := H ltac:(intros t T; specialize (B t T); apply Rabs_le_between in B; replace ((t - b) * (t - b)) with ((b - t) * (b - t)) by ring; lra)). nra.
  - apply Rabs_le. split.
    + pose proof (der_le _ _ a b AB (U a 1)) as H. cbv beta in H. rewrite Z in H. assert (H2 := H ltac:(intros t T; specialize (B t T); apply Rabs_le_between in B; lra)). nra.
    + pose proof (der_le _ _ a b AB (U a (-1))) as H. cbv beta in H. rewrite Z in H. assert (H2 := H ltac:(intros t T; specialize (B t T); apply Rabs_le_between in B; lra)). nra.
Qed.
Section One.
Variables g g1 g2 g3 : R -> R.
Variables lo hi xm x Q : R.
Hypothesis Dg : forall t, lo <= t <= hi -> is_derive g t (g1 t).
Hypothesis Dg1 : forall t, lo <= t <= hi -> is_derive g1 t (g2 t).
Hypothesis Dg2 : forall t, lo <= t <= hi -> is_derive g2 t (g3 t).
Hypothesis Xx : lo <= x <= hi.
Hypothesis Xm : lo <= xm <= hi.
Hypothesis Z : g xm = 0.
Hypothesis BQ : forall t, Rmin x xm <= t <= Rmax x xm -> Rabs (g3 t) <= Q.
Lemma rest2_six : Rabs (rest2 g g1 g2 xm x) <= Q / 6 * (Rabs (x - xm) * Rabs (x - xm) * Rabs (x - xm)).
Proof.
  set (h := fun t => g t + g1 t * (xm - t) + g2 t * ((xm - t) * (xm - t)) / 2).
  assert (G : forall t, lo <= t <= hi -> is_derive h t (g3 t * ((xm - t) * (xm - t)) / 2)).
  { intros t T. assert (J : is_derive (fun t => xm - t) t (-1)) by (eapply der_to; [apply der_minus; [apply der_const|apply der_id]|ring]). unfold h. eapply der_to.
    - apply der_plus; [apply der_plus; [apply Dg; exact T|apply der_mult; [apply Dg1; exact T|exact J]]|].
      apply der_div; [apply der_mult; [apply Dg2; exact T|apply der_mult; exact J]|apply der_const|lra].
    - cbv beta. field. }
  assert (E0 : h xm = 0) by (unfold h; rewrite Z; field). assert (E1 : h x = rest2 g g1 g2 xm x) by (unfold h, rest2; field). rewrite <- E1.
  assert (Q0 : 0 <= Q). { eapply Rle_trans; [apply Rabs_pos|apply (BQ x)]. split; [apply Rmin_l|apply Rmax_l]. }
  assert (B : forall t, Rmin x xm <= t <= Rmax x xm -> Rabs (g3 t * ((xm - t) * (xm - t)) / 2) <= Q / 2 * ((xm - t) * (xm - t))).
  { intros t T. pose proof (Rle_0_sqr (xm - t)) as P. unfold Rsqr in P. set (z := (xm - t) * (xm - t)) in *. assert (P2 : 0 <= z / 2) by lra. replace (g3 t * z / 2) with (g3 t * (z / 2)) by (unfold Rdiv; ring). rewrite Rabs_mult, (Rabs_pos_eq (z / 2) P2). replace (Q / 2 * z) with (Q * (z / 2)) by (unfold Rdiv; ring). apply Rmult_le_compat_r; [exact P2|apply (BQ t T)]. }
  destruct (Rle_lt_dec x xm) as [H|H].
  - rewrite Rmin_left, Rmax_right in B by lra. rewrite (Rabs_left1 (x - xm)) by lra. destruct (taylor3 h (fun t => g3 t * ((xm - t) * (xm - t)) / 2) x xm Q Q0 H ltac:(intros t T; apply G; lra)) as [A _]. replace (- (x - xm)) with (xm - x) by ring. apply A; assumption.
  - rewrite Rmin_right, Rmax_left in B by lra. rewrite (Rabs_right (x - xm)) by lra. destruct (taylor3 h (fun t => g3 t * ((xm - t) * (xm - t)) / 2) xm x Q Q0 ltac:(lra) ltac:(intros t T; apply G; lra)) as [_ A]. apply A; [exact E0|]. intros t T. replace ((t - xm) * (t - xm)) with ((xm - t) * (xm - t)) by ring. apply B. exact T.
Qed.
Lemma value_le : Rabs (g x) <= Rabs (x - xm) * (Rabs (g1 x) + Rabs (x - xm) * Rabs (g2 x) / 2) + Q / 6 * (Rabs (x - xm) * Rabs (x - xm) * Rabs (x - xm)).
Proof.
  pose proof rest2_six as R. set (e := x - xm) in *. replace (g x) with (e * (g1 x - e * g2 x / 2) + rest2 g g1 g2 xm x) by (unfold rest2, e; ring). eapply Rle_trans; [apply Rabs_triang|]. apply Rplus_le_compat; [|exact R].
  rewrite Rabs_mult. apply Rmult_le_compat_l; [apply Rabs_pos|]. unfold Rminus. eapply Rle_trans; [apply Rabs_triang|]. apply Rplus_le_compat_l. rewrite Rabs_Ropp. unfold Rdiv. rewrite !Rabs_mult, (Rabs_pos_eq (/ 2)) by lra. lra.
Qed.
Lemma step_le p q s c : 0 < g1 x -> Rabs (g2 x) <= p * g1 x -> Q <= q * g1 x -> Rabs (g x) <= s * g1 x -> 0 <= p -> 0 <= q -> 0 <= s -> p * s < 2 -> p * p / 4 + q / 6 * (1 + p * Rabs (x - xm) / 2) <= c * (1 - p * s / 2) ->
  kden g g1 g2 x <> 0 /\ Rabs (x - g x * g1 x / kden g g1 g2 x - xm) <= c * (Rabs (x - xm) * Rabs (x - xm) * Rabs (x - xm)).
Proof.
  intros G P HQ S p0 q0 s0 PS C. pose proof rest2_six as RL. set (e := x - xm) in *. set (R := rest2 g g1 g2 xm x) in *. set (k := kden g g1 g2 x). pose proof (Rabs_pos e) as E0. set (u := Rabs e) in *.
  assert (KL : g1 x * g1 x * (1 - p * s / 2) <= k). { unfold k, kden. assert (A : Rabs (g x * g2 x) <= s * g1 x * (p * g1 x)) by (rewrite Rabs_mult; apply Rmult_le_compat; try apply Rabs_pos; assumption). pose proof (Rle_abs (g x * g2 x)). lra. }
  assert (GG : 0 < g1 x * g1 x) by nra. assert (KP : 0 < k). { eapply Rlt_le_trans; [|exact KL]. apply Rmult_lt_0_compat; lra. }
  split; [lra|]. assert (EF : g x = e * (g1 x - e * g2 x / 2) + R) by (unfold R, rest2, e; ring).
  assert (EN : x - g x * g1 x / k - xm = (e * e * e * (g2 x * g2 x / 4) - R * (e * g2 x / 2 + g1 x)) / k).
  { apply (Rmult_eq_reg_r k); [|lra]. transitivity (e * k - g x * g1 x); [unfold e; field; lra|]. replace ((e * e * e * (g2 x * g2 x / 4) - R * (e * g2 x / 2 + g1 x)) / k * k) with (e * e * e * (g2 x * g2 x / 4) - R * (e * g2 x / 2 + g1 x)) by (field; lra). unfold k, kden. rewrite EF. field. }
  rewrite EN. unfold Rdiv at 1. rewrite Rabs_mult, Rabs_inv, (Rabs_pos_eq k) by lra. apply (Rmult_le_reg_r k); [exact KP|]. rewrite Rmult_assoc, Rinv_l, Rmult_1_r by lra.
  assert (e3 : 0 <= u * u * u) by (repeat apply Rmult_le_pos; exact E0).
  assert (N1 : Rabs (e * e * e * (g2 x * g2 x / 4)) <= u * u * u * (p * g1 x * (p * g1 x) * / 4)). { unfold Rdiv. apply prod_le; [rewrite !Rabs_mult; fold u; lra|]. apply prod_le; [apply prod_le; exact P|rewrite Rabs_pos_eq; lra]. }
  assert (N2 : Rabs (R * (e * g2 x / 2 + g1 x)) <= q * g1 x / 6 * (u * u * u) * (u * (p * g1 x) * / 2 + g1 x)).
  { apply prod_le; [eapply Rle_trans; [exact RL|]; apply Rmult_le_compat_r; [exact e3|lra]|]. apply sum_le; [|rewrite Rabs_pos_eq; lra]. unfold Rdiv. apply prod_le; [apply prod_le; [fold u; lra|exact P]|rewrite Rabs_pos_eq; lra]. }
  eapply Rle_trans; [apply (sub_le _ _ _ _ N1 N2)|].
  apply Rle_trans with (c * (u * u * u) * (g1 x * g1 x * (1 - p * s / 2))).
  - replace (u * u * u * (p * g1 x * (p * g1 x) * / 4) + q * g1 x / 6 * (u * u * u) * (u * (p * g1 x) * / 2 + g1 x)) with (u * u * u * (g1 x * g1 x) * (p * p / 4 + q / 6 * (1 + p * u / 2))) by field.
    replace (c * (u * u * u) * (g1 x * g1 x * (1 - p * s / 2))) with (u * u * u * (g1 x * g1 x) * (c * (1 - p * s / 2))) by ring. apply Rmult_le_compat_l; [apply Rmult_le_pos; lra|exact C].
  - apply Rmult_le_compat_l; [|exact KL]. apply Rmult_le_pos; [|exact e3]. assert (0 <= p * p / 4 + q / 6 * (1 + p * u / 2)). { assert (0 <= p * u) by (apply Rmult_le_pos; assumption). nra. } nra.
Qed.
End One.
Lemma div_up v n u U B : v * u = n -> 0 < U -> U <= u -> n <= B -> 0 <= B -> v <= B / U.
Proof. intros E U0 UU N B0. apply Rle_div_r; [exact U0|]. destruct (Rle_lt_dec v 0); nra. Qed.
Lemma div_dn v n u U B : v * u = n -> 0 < U -> U <= u -> - B <= n -> 0 <= B -> - (B / U) <= v.
Proof. intros E U0 UU N B0. pose proof (div_up (- v) (- n) u U B ltac:(lra) U0 UU ltac:(lra) B0). lra. Qed.
Lemma mul_rng x X d A B : 0 <= x <= X -> - A <= d <= B -> 0 <= A -> 0 <= B -> - (X * A) <= x * d <= X * B.
Proof.
  intros HX HD A0 B0. split; destruct (Rle_lt_dec d 0) as [H|H].
  - replace (x * d) with (- (x * - d)) by ring. apply Ropp_le_contravar, Rmult_le_compat; lra.
  - apply Rle_trans with 0; [assert (0 <= X * A) by (apply Rmult_le_pos; lra); lra|apply Rmult_le_pos; lra].
  - apply Rle_trans with 0; [assert (0 <= x * - d) by (apply Rmult_le_pos; lra); lra|apply Rmult_le_pos; lra].
  - apply Rmult_le_compat; lra.
Qed.
Lemma w_cube w a b c : 0 < w -> b <= w * w -> 0 < a -> a * a <= b -> 1 <= c * (a * b) -> 0 <= c -> 1 <= c * (w * w * w).
Proof. intros W B A AB C C0. assert (AW : a <= w) by (destruct (Rle_lt_dec a w); [assumption|exfalso; nra]). assert (b0 : 0 <= b) by nra. assert (a * b <= w * (w * w)) by (apply Rmult_le_compat; lra). nra. Qed.
(** ** bounds on the derivatives of the time of flight *)
Section Bounds.
Variable lam : R.
Hypothesis L5 : -4 / 5 <= lam <= 4 / 5.
Lemma L : lam * lam < 1. Proof. nra. Qed.
Lemma l2_le : lam * lam <= 16 / 25. Proof. nra. Qed.
Lemma l3_abs : Rabs (lam * lam * lam) <= 64 / 125.
Proof. assert (A : Rabs lam <= 4 / 5) by (apply Rabs_le; lra). replace (64 / 125) with (4 / 5 * (4 / 5) * (4 / 5)) by field. repeat apply prod_le; exact A. Qed.
Lemma l5_abs : Rabs (lam * lam * (lam * lam * lam)) <= 1024 / 3125.
Proof. replace (1024 / 3125) with (16 / 25 * (64 / 125)) by field. apply prod_le; [|exact l3_abs]. rewrite Rabs_pos_eq by nra. exact l2_le. Qed.
(** the terms of the derivatives in which y occurs *)
Lemma terms x : 0 <= x <= 13 / 50 -> let y := lam_y lam x in
  0 < y /\ Rabs (2 * (lam * lam * lam) / y) <= 128 / 75 /\ Rabs (2 * (1 - lam * lam) * (lam * lam * lam) / (y * y * y)) <= 128 / 75 /\
  Rabs (6 * (1 - lam * lam) * (lam * lam) * (lam * lam * lam) * x / (y * y * y) / (y * y)) <= 2048 / 225 * x /\
  Rabs (6 * (1 - lam * lam) * (lam * lam) * (lam * lam * lam) * (/ (y * y * y * (y * y)) - 5 * (lam * lam) * (x * x) / (y * y * y * (y * y) * (y * y)))) <= 2048 / 225.
Proof.
  intros X y. destruct (ly_sq lam L x) as [P Y2]. fold y in P, Y2. pose proof l2_le as L2. assert (l20 : 0 <= lam * lam) by nra.
  assert (LX : 0 <= lam * lam * x * x) by (replace (lam * lam * x * x) with (lam * x * (lam * x)) by ring; apply Rle_0_sqr). assert (YL : 3 / 5 <= y) by nra. set (i := / y). assert (I0 : 0 < i) by (apply Rinv_0_lt_compat; exact P). assert (I1 : i <= 5 / 3) by (unfold i; replace (5 / 3) with (/ (3 / 5)) by field; apply Rinv_le_contravar; lra).
  set (z := (1 - lam * lam) * (i * i)). assert (YI : y * i = 1) by (unfold i; field; lra).
  assert (Z1 : 0 <= z <= 1). { split; [apply Rmult_le_pos; [lra|nra]|]. replace 1 with (y * i * (y * i)) by (rewrite YI; ring). unfold z. replace (y * i * (y * i)) with (y * y * (i * i)) by ring. apply Rmult_le_compat_r; [nra|]. rewrite Y2. lra. }
  assert (AI : Rabs i <= 5 / 3) by (rewrite Rabs_pos_eq; lra). assert (AZ : Rabs z <= 1) by (rewrite Rabs_pos_eq; lra). assert (A2 : Rabs 2 <= 2) by (rewrite Rabs_pos_eq; lra). assert (A6 : Rabs 6 <= 6) by (rewrite Rabs_pos_eq; lra). assert (AX : Rabs x <= x) by (rewrite Rabs_pos_eq; lra).
  split; [exact P|]. split; [|split; [|split]].
  - replace (2 * (lam * lam * lam) / y) with (2 * (lam * lam * lam) * i) by reflexivity. replace (128 / 75) with (2 * (64 / 125) * (5 / 3)) by field. apply prod_le; [apply prod_le; [exact A2|exact l3_abs]|exact AI].
  - replace (2 * (1 - lam * lam) * (lam * lam * lam) / (y * y * y)) with (2 * (lam * lam * lam) * i * z) by (unfold z, i; field; lra). replace (128 / 75) with (2 * (64 / 125) * (5 / 3) * 1) by field. apply prod_le; [apply prod_le; [apply prod_le; [exact A2|exact l3_abs]|exact AI]|exact AZ].
  - replace (6 * (1 - lam * lam) * (lam * lam) * (lam * lam * lam) * x / (y * y * y) / (y * y)) with (6 * (lam * lam * (lam * lam * lam)) * (i * i * i) * z * x) by (unfold z, i; field; lra). replace (2048 / 225 * x) with (6 * (1024 / 3125) * (5 / 3 * (5 / 3) * (5 / 3)) * 1 * x) by field. apply prod_le; [|exact AX]. apply prod_le; [|exact AZ]. apply prod_le; [apply prod_le; [exact A6|exact l5_abs]|repeat apply prod_le; exact AI].
  - set (v := 5 * (lam * lam) * (x * x) * (i * i)). replace (6 * (1 - lam * lam) * (lam * lam) * (lam * lam * lam) * (/ (y * y * y * (y * y)) - 5 * (lam * lam) * (x * x) / (y * y * y * (y * y) * (y * y)))) with (6 * (lam * lam * (lam * lam * lam)) * (i * i * i) * z * (1 - v)) by (unfold v, z, i; field; lra).
    assert (V : 0 <= v <= 1). { unfold v. assert (X2 : 0 <= x * x <= 169 / 2500) by nra. assert (I2 : 0 <= i * i <= 25 / 9) by nra. split; [apply Rmult_le_pos; [apply Rmult_le_pos|]; lra|]. apply Rle_trans with (5 * (16 / 25) * (169 / 2500) * (25 / 9)); [|lra]. apply Rmult_le_compat; [apply Rmult_le_pos; lra|lra| |lra]. apply Rmult_le_compat; lra. }
    replace (2048 / 225) with (6 * (1024 / 3125) * (5 / 3 * (5 / 3) * (5 / 3)) * 1 * 1) by field. apply prod_le; [|rewrite Rabs_pos_eq; lra]. apply prod_le; [|exact AZ]. apply prod_le; [apply prod_le; [exact A6|exact l5_abs]|repeat apply prod_le; exact AI].
Qed.
(** the time of the least-energy ellipse *)
Lemma t00_low : (0 <= lam -> 1 <= tau lam 0 0) /\ (lam <= 0 -> PI / 2 <= tau lam 0 0).
Proof.
  rewrite tau_at0. pose proof L as LL. set (s := sqrt (1 - lam * lam)). assert (S0 : 0 <= s) by apply sqrt_pos. assert (S2 : s * s = 1 - lam * lam) by (apply sqrt_sqrt; lra). split; intros H.
  - assert (A : s <= acos lam). { assert (E : sin (acos lam) = s) by (rewrite sin_acos by lra; reflexivity). pose proof (acos_bound lam) as B. destruct (Req_dec (acos lam) 0) as [Z|Z]; [rewrite Z, sin_0 in E; lra|]. rewrite <- E at 1. left. apply sin_lt_x. lra. }
    assert (1 <= s * (1 + lam)); [|nra]. assert (Q : 1 <= s * (1 + lam) * (s * (1 + lam))). { replace (s * (1 + lam) * (s * (1 + lam))) with (s * s * ((1 + lam) * (1 + lam))) by ring. rewrite S2. assert (0 <= lam * (2 - 2 * (lam * lam) - lam * (lam * lam))) by (apply Rmult_le_pos; [exact H|nra]). nra. }
    assert (0 <= s * (1 + lam)) by (apply Rmult_le_pos; lra). nra.
  - rewrite acos_asin by lra. set (b := asin lam). assert (E : sin b = lam) by (apply sin_asin; lra). pose proof (asin_bound lam) as B. fold b in B.
    assert (A : b <= lam). { destruct (Req_dec b 0) as [Z|Z]; [rewrite Z, sin_0 in E; lra|]. assert (BN : b < 0). { destruct (Rle_lt_dec b 0); [lra|]. assert (0 < sin b) by (apply sin_gt_0; lra). lra. } pose proof (sin_lt_x (- b) ltac:(lra)) as Q. rewrite sin_neg in Q. lra. }
    assert (s <= 1) by nra. nra.
Qed.
Variable N : Z.
Hypothesis HN : (1 <= N)%Z.
Let T0 := tau lam N 0.
Lemma NP : PI <= IZR N * PI. Proof. pose proof PI_RGT_0. apply IZR_le in HN. nra. Qed.
Lemma tau_split x : -1 < x < 1 -> let w := sqrt (1 - x * x) in tau lam N x = tau lam 0 x + IZR N * PI / (w * w * w).
Proof. intros X w. destruct (w_sq x X) as [WP W]. fold w in WP, W. rewrite (tau_ell lam x X N), (tau_ell lam x X 0). fold w. rewrite <- W. field. lra. Qed.
Lemma T0_eq : T0 = tau lam 0 0 + IZR N * PI.
Proof. unfold T0. rewrite (tau_split 0 ltac:(lra)). replace (1 - 0 * 0) with 1 by ring. rewrite sqrt_1. field. Qed.
Definition kap : R := if Rle_dec 0 lam then 0 else 128 / 75.
Lemma T0_low : 1242 / 100 <= 3 * T0 - kap /\ 1242 / 100 <= 3 * T0 /\ 0 <= kap <= 128 / 75.
Proof.
  pose proof pi_bounds as PB. pose proof NP. rewrite T0_eq. destruct t00_low as [A B]. unfold kap. destruct (Rle_dec 0 lam) as [H1|H1]; [specialize (A H1)|specialize (B ltac:(lra))]; repeat split; lra.
Qed.
Lemma T0_low2 : kap = 0 \/ kap = 128 / 75 /\ 14136 / 1000 <= 3 * T0.
Proof. pose proof pi_bounds as PB. pose proof NP. rewrite T0_eq. destruct t00_low as [A B]. unfold kap. destruct (Rle_dec 0 lam) as [H1|H1]; [left; reflexivity|right]. specialize (B ltac:(lra)). split; lra. Qed.
(** above: T <= c T0 *)
Lemma tau_up x c : 0 <= x < 1 -> (let w := sqrt (1 - x * x) in 1 <= c * (w * w * w)) -> tau lam N x <= c * T0.
Proof.
  intros X C. cbv zeta in C. rewrite (tau_split x ltac:(lra)), T0_eq. destruct (w_sq x ltac:(lra)) as [WP W]. set (w := sqrt (1 - x * x)) in *. assert (W3 : 0 < w * w * w) by (repeat apply Rmult_lt_0_compat; exact WP).
  assert (W1 : w * w * w <= 1). { assert (w <= 1) by nra. assert (w * w <= 1) by nra. nra. } assert (C1 : 1 <= c) by (destruct (Rle_lt_dec 1 c); [assumption|exfalso; nra]). pose proof NP. pose proof PI_RGT_0.
  assert (A : tau lam 0 x <= tau lam 0 0). { destruct (Req_dec x 0) as [->|Z]; [lra|]. left. apply tau_decr0; [exact L|lra|lra]. }
  assert (B : IZR N * PI / (w * w * w) <= c * (IZR N * PI)). { apply Rle_div_l; [exact W3|]. replace (c * (IZR N * PI) * (w * w * w)) with (IZR N * PI * (c * (w * w * w))) by ring. nra. }
  assert (Z : 0 <= tau lam 0 0). { destruct t00_low as [P Q]. destruct (Rle_lt_dec 0 lam) as [H1|H1]; [specialize (P H1)|specialize (Q ltac:(lra))]; lra. } nra.
Qed.
Lemma tau_pi x : -1 < x < 1 -> PI <= tau lam N x.
Proof. intros X. pose proof (tau_revs lam L N x X) as H. cbv zeta in H. destruct (w_sq x X) as [WP W]. set (w := sqrt (1 - x * x)) in *. pose proof NP. pose proof PI_RGT_0. assert (W1 : w * w * w <= 1). { assert (w <= 1) by nra. assert (w * w <= 1) by nra. nra. } assert (W3 : 0 < w * w * w) by (repeat apply Rmult_lt_0_compat; exact WP). nra. Qed.
Lemma k_low x : 0 <= x < 1 -> 0 < lam_y lam x /\ - kap <= 2 * (lam * lam * lam) / lam_y lam x.
Proof.
  intros X. destruct (ly_sq lam L x) as [P Y2]. pose proof l2_le as L2. set (y := lam_y lam x) in *. assert (LX : 0 <= lam * lam * x * x) by (replace (lam * lam * x * x) with (lam * x * (lam * x)) by ring; apply Rle_0_sqr). assert (YL : 3 / 5 <= y) by nra. split; [exact P|].
  unfold kap. destruct (Rle_dec 0 lam) as [H|H].
  - assert (0 <= 2 * (lam * lam * lam) / y); [|lra]. apply Rmult_le_pos; [|left; apply Rinv_0_lt_compat; exact P]. assert (0 <= lam * lam * lam) by (repeat apply Rmult_le_pos; exact H). lra.
  - pose proof l3_abs as A. apply Rabs_le_between in A. apply (Rmult_le_reg_r y); [exact P|]. replace (2 * (lam * lam * lam) / y * y) with (2 * (lam * lam * lam)) by (field; lra). nra.
Qed.
Lemma d1_low x X : 0 <= x <= X -> X < 1 -> - 2 / (1 - X * X) <= f1 lam N x.
Proof.
  intros HX X1. destruct (k_low x ltac:(lra)) as [P K]. pose proof (tau_pi x ltac:(lra)) as TP. pose proof pi_bounds as PB. destruct T0_low as [_ [_ KB]]. unfold f1, D1. cbv beta. set (T := tau lam N x) in *. set (y := lam_y lam x) in *.
  assert (U : 0 < 1 - X * X) by nra. assert (U' : 1 - X * X <= 1 - x * x) by nra. replace (3 * T * x - 2 + 2 * (lam * lam * lam) * x / y) with ((3 * T + 2 * (lam * lam * lam) / y) * x - 2) by (field; lra).
  assert (NB : -2 <= (3 * T + 2 * (lam * lam * lam) / y) * x - 2) by (assert (0 <= (3 * T + 2 * (lam * lam * lam) / y) * x) by (apply Rmult_le_pos; lra); lra).
  apply Rle_trans with (- 2 / (1 - x * x)); [|apply Rmult_le_compat_r; [left; apply Rinv_0_lt_compat; lra|exact NB]]. replace (- 2 / (1 - X * X)) with (- (2 * / (1 - X * X))) by (field; lra). replace (- 2 / (1 - x * x)) with (- (2 * / (1 - x * x))) by (field; lra). apply Ropp_le_contravar, Rmult_le_compat_l; [lra|apply Rinv_le_contravar; assumption].
Qed.
Lemma tau_low0 x X : 0 <= x <= X -> X < 1 -> T0 - 2 / (1 - X * X) * x <= tau lam N x.
Proof.
  intros HX X1. set (c := 2 / (1 - X * X)). enough (H : tau lam N 0 + c * 0 <= tau lam N x + c * x) by (unfold T0; lra).
  apply (der_le (fun t => tau lam N t + c * t) (fun t => f1 lam N t + c * 1) 0 x); [lra| |].
  - intros t T. apply (der_plus (tau lam N) (fun t => c * t)); [apply (tau_ders lam L N t); lra|apply der_scal, der_id].
  - intros t T. pose proof (d1_low t X ltac:(lra) X1) as D. unfold c. replace (- 2 / (1 - X * X)) with (- (2 / (1 - X * X))) in D by (field; nra). lra.
Qed.
(** the least time is reached early *)
Lemma xm_le xm : 0 < xm < 9 / 10 -> f1 lam N xm = 0 -> xm <= 1 / 5.
Proof.
  intros X E. destruct (Rle_lt_dec xm (1 / 5)) as [H|H]; [exact H|exfalso]. destruct (k_low xm ltac:(lra)) as [P K]. pose proof (tau_pi xm ltac:(lra)) as TP. pose proof pi_bounds as PB. destruct T0_low as [T1 [T2 KB]].
  assert (E' : (3 * tau lam N xm + 2 * (lam * lam * lam) / lam_y lam xm) * xm = 2). { unfold f1, D1 in E. cbv beta in E. apply (f_equal (fun v => v * (1 - xm * xm))) in E. rewrite Rmult_0_l in E. set (T := tau lam N xm) in *. set (y := lam_y lam xm) in *. replace ((3 * T * xm - 2 + 2 * (lam * lam * lam) * xm / y) / (1 - xm * xm) * (1 - xm * xm)) with ((3 * T + 2 * (lam * lam * lam) / y) * xm - 2) in E by (field; split; nra). lra. }
  set (k := 2 * (lam * lam * lam) / lam_y lam xm) in *. set (T := tau lam N xm) in *. destruct (Rle_lt_dec xm (3 / 10)) as [C|C].
  - pose proof (tau_low0 xm (3 / 10) ltac:(lra) ltac:(lra)) as Q. fold T in Q. assert (Q' : T0 - 2 / (1 - 3 / 10 * (3 / 10)) * (3 / 10) <= T) by nra. assert (B : 1043 / 100 <= 3 * T + k) by lra. nra.
  - assert (B : 771 / 100 <= 3 * T + k) by lra. nra.
Qed.
(** the recurrence of the derivatives *)
Lemma recur x : 0 <= x <= 13 / 50 -> exists k a2 a3 a4, - kap <= k <= 128 / 75 /\ - kap <= a2 <= 128 / 75 /\ - (2048 / 225 * x) <= a3 <= 2048 / 225 * x /\ - (2048 / 225) <= a4 <= 2048 / 225 /\
  f1 lam N x * (1 - x * x) = (3 * tau lam N x + k) * x - 2 /\ f2 lam N x * (1 - x * x) = 3 * tau lam N x + 5 * x * f1 lam N x + a2 /\
  f3 lam N x * (1 - x * x) = 7 * x * f2 lam N x + 8 * f1 lam N x - a3 /\ f4 lam N x * (1 - x * x) = 9 * x * f3 lam N x + 15 * f2 lam N x - a4.
Proof.
  intros X. destruct (k_low x ltac:(lra)) as [P K]. destruct (terms x X) as [_ [B1 [B2 [B3 B4]]]]. apply Rabs_le_between in B1, B2, B3, B4. set (y := lam_y lam x) in *. assert (U : 1 - x * x <> 0) by nra.
  exists (2 * (lam * lam * lam) / y), (2 * (1 - lam * lam) * (lam * lam * lam) / (y * y * y)), (6 * (1 - lam * lam) * (lam * lam) * (lam * lam * lam) * x / (y * y * y) / (y * y)), (6 * (1 - lam * lam) * (lam * lam) * (lam * lam * lam) * (/ (y * y * y * (y * y)) - 5 * (lam * lam) * (x * x) / (y * y * y * (y * y) * (y * y)))).
  split; [lra|]. split. { split; [|lra]. unfold kap in *. destruct (Rle_dec 0 lam) as [H|H]; [|lra]. rewrite Ropp_0. apply Rmult_le_pos; [|left; apply Rinv_0_lt_compat; repeat apply Rmult_lt_0_compat; exact P]. assert (0 <= lam * lam * lam) by (repeat apply Rmult_le_pos; exact H). apply Rmult_le_pos; [|assumption]. pose proof l2_le. lra. }
  split; [exact B3|]. split; [exact B4|]. unfold f1, f2, f3, f4. set (T := tau lam N x). set (d4 := D4 lam T x). unfold d4. 
  split; [unfold D1; cbv beta; fold y; field; split; lra|]. split; [unfold D2; set (d1 := D1 lam T x); cbv beta; fold y; field; split; lra|]. split; [unfold D3; set (d1 := D1 lam T x); set (d2 := D2 lam T x); cbv beta; fold y; field; split; lra|]. unfold D4. set (d2 := D2 lam T x). set (d3 := D3 lam T x). cbv beta. fold y. field. split; lra.
Qed.
Lemma chain26 x : 0 <= x <= 13 / 50 -> let P := 3 * T0 in 56 / 100 * P <= f2 lam N x <= 1624 / 1000 * P /\ Rabs (f3 lam N x) <= 583 / 100 * P /\ Rabs (f4 lam N x) <= 416 / 10 * P.
Proof.
  intros X P. destruct (recur x X) as [k [a2 [a3 [a4 [K [A2 [A3 [A4 [E1 [E2 [E3 E4]]]]]]]]]]]. destruct T0_low as [P1 [P2 KB]]. fold P in P1, P2. pose proof T0_low2 as P3. fold P in P3.
  assert (TU : 3 * tau lam N x <= 11108 / 10000 * P). { pose proof (tau_up x (11108 / 10000) ltac:(lra)) as H. unfold P. enough (tau lam N x <= 11108 / 10000 * T0) by lra. apply H. cbv zeta. destruct (w_sq x ltac:(lra)) as [WP W]. set (w := sqrt (1 - x * x)) in *. assert (W2 : 2331 / 2500 <= w * w) by (rewrite W; nra). apply (w_cube w (9656 / 10000) (2331 / 2500)); lra. }
  pose proof (tau_low0 x (13 / 50) ltac:(lra) ltac:(lra)) as TL. pose proof (d1_low x (13 / 50) ltac:(lra) ltac:(lra)) as D1L.
  set (T := tau lam N x) in *. set (d1 := f1 lam N x) in *. set (d2 := f2 lam N x) in *. set (d3 := f3 lam N x) in *. set (d4 := f4 lam N x) in *. set (u := 1 - x * x) in *. assert (U : 2331 / 2500 <= u <= 1) by (unfold u; nra).
  assert (TL' : P - 16733 / 10000 <= 3 * T). { assert (2 / (1 - 13 / 50 * (13 / 50)) * x <= 2 / (1 - 13 / 50 * (13 / 50)) * (13 / 50)) by (apply Rmult_le_compat_l; lra). unfold P. lra. }
  assert (D1l : - (21451 / 10000) <= d1) by lra. clear TL D1L.
  assert (D1u : d1 <= 3098 / 10000 * P - 166 / 100). { apply Rle_trans with ((11108 / 10000 * P * (13 / 50) - 2 + 128 / 75 * (13 / 50)) / (2331 / 2500)); [|lra]. apply (div_up _ _ _ _ _ E1); [lra|lra| |lra]. assert ((3 * T + k) * x <= (11108 / 10000 * P + 128 / 75) * (13 / 50)); [|lra]. apply Rmult_le_compat; lra. }
  assert (X1 : - (13 / 50 * (21451 / 10000)) <= x * d1 <= 13 / 50 * (3098 / 10000 * P - 166 / 100)) by (apply mul_rng; lra).
  assert (D2l : 56 / 100 * P <= d2). { assert (H : 56 / 100 * P <= d2 * u) by (rewrite E2; destruct P3 as [P3|[P3 P4]]; lra). destruct (Rle_lt_dec d2 0); nra. }
  assert (D2u : d2 <= 1624 / 1000 * P). { apply Rle_trans with ((11108 / 10000 * P + 5 * (13 / 50 * (3098 / 10000 * P - 166 / 100)) + 128 / 75) / (2331 / 2500)); [|lra]. apply (div_up _ _ _ _ _ E2); lra. }
  assert (X2 : 0 <= x * d2 <= 13 / 50 * (1624 / 1000 * P)). { split; [apply Rmult_le_pos; lra|apply Rmult_le_compat; lra]. }
  assert (D3u : d3 <= 583 / 100 * P). { apply Rle_trans with ((7 * (13 / 50 * (1624 / 1000 * P)) + 8 * (3098 / 10000 * P - 166 / 100) + 2048 / 225 * (13 / 50)) / (2331 / 2500)); [|lra]. apply (div_up _ _ _ _ _ E3); lra. }
  assert (D3l : - 21 <= d3). { apply Rle_trans with (- ((8 * (21451 / 10000) + 2048 / 225 * (13 / 50)) / (2331 / 2500))); [lra|]. apply (div_dn _ _ _ _ _ E3); lra. }
  assert (X3 : - (13 / 50 * 21) <= x * d3 <= 13 / 50 * (583 / 100 * P)) by (apply mul_rng; lra).
  split; [split; assumption|]. split; [apply Rabs_le; lra|]. apply Rabs_le. split.
  - apply Rle_trans with (- ((9 * (13 / 50 * 21) + 2048 / 225) / (2331 / 2500))); [lra|]. apply (div_dn _ _ _ _ _ E4); lra.
  - apply Rle_trans with ((9 * (13 / 50 * (583 / 100 * P)) + 15 * (1624 / 1000 * P) + 2048 / 225) / (2331 / 2500)); [|lra]. apply (div_up _ _ _ _ _ E4); lra.
Qed.
Lemma chain20 x : 0 <= x <= 1 / 5 -> let P := 3 * T0 in Rabs (f4 lam N x) <= 2804 / 100 * P.
Proof.
  intros X P. destruct (recur x ltac:(lra)) as [k [a2 [a3 [a4 [K [A2 [A3 [A4 [E1 [E2 [E3 E4]]]]]]]]]]]. destruct T0_low as [P1 [P2 KB]]. fold P in P1, P2. destruct (chain26 x ltac:(lra)) as [[D2l _] _]. fold P in D2l.
  assert (TU : 3 * tau lam N x <= 10633 / 10000 * P). { pose proof (tau_up x (10633 / 10000) ltac:(lra)) as H. unfold P. enough (tau lam N x <= 10633 / 10000 * T0) by lra. apply H. cbv zeta. destruct (w_sq x ltac:(lra)) as [WP W]. set (w := sqrt (1 - x * x)) in *. assert (W2 : 24 / 25 <= w * w) by (rewrite W; nra). apply (w_cube w (9797 / 10000) (24 / 25)); lra. }
  pose proof (d1_low x (1 / 5) ltac:(lra) ltac:(lra)) as D1L. pose proof (tau_pi x ltac:(lra)) as TP. pose proof pi_bounds as PB.
  set (T := tau lam N x) in *. set (d1 := f1 lam N x) in *. set (d2 := f2 lam N x) in *. set (d3 := f3 lam N x) in *. set (d4 := f4 lam N x) in *. set (u := 1 - x * x) in *. assert (U : 24 / 25 <= u <= 1) by (unfold u; nra).
  assert (D1l : - (20834 / 10000) <= d1) by lra. clear D1L.
  assert (D1u : d1 <= 2216 / 10000 * P - 1727 / 1000). { apply Rle_trans with ((10633 / 10000 * P * (1 / 5) - 2 + 128 / 75 * (1 / 5)) / (24 / 25)); [|lra]. apply (div_up _ _ _ _ _ E1); [lra|lra| |lra]. assert ((3 * T + k) * x <= (10633 / 10000 * P + 128 / 75) * (1 / 5)); [|lra]. apply Rmult_le_compat; lra. }
  assert (X1 : x * d1 <= 1 / 5 * (2216 / 10000 * P - 1727 / 1000)) by (apply (mul_rng x (1 / 5) d1 (20834 / 10000)); lra).
  assert (D2u : d2 <= 13386 / 10000 * P). { apply Rle_trans with ((10633 / 10000 * P + 5 * (1 / 5 * (2216 / 10000 * P - 1727 / 1000)) + 128 / 75) / (24 / 25)); [|lra]. apply (div_up _ _ _ _ _ E2); lra. }
  assert (X2 : 0 <= x * d2 <= 1 / 5 * (13386 / 10000 * P)). { split; [apply Rmult_le_pos; lra|apply Rmult_le_compat; lra]. }
  assert (D3u : d3 <= 37988 / 10000 * P - 124 / 10). { apply Rle_trans with ((7 * (1 / 5 * (13386 / 10000 * P)) + 8 * (2216 / 10000 * P - 1727 / 1000) + 2048 / 225 * (1 / 5)) / (24 / 25)); [|lra]. apply (div_up _ _ _ _ _ E3); lra. }
  assert (D3l : - 20 <= d3). { apply Rle_trans with (- ((8 * (20834 / 10000) + 2048 / 225 * (1 / 5)) / (24 / 25))); [lra|]. apply (div_dn _ _ _ _ _ E3); lra. }
  assert (X3 : - (1 / 5 * 20) <= x * d3 <= 1 / 5 * (37988 / 10000 * P - 124 / 10)) by (apply mul_rng; lra).
  apply Rabs_le. split.
  - apply Rle_trans with (- ((9 * (1 / 5 * 20) + 2048 / 225) / (24 / 25))); [lra|]. apply (div_dn _ _ _ _ _ E4); lra.
  - apply Rle_trans with ((9 * (1 / 5 * (37988 / 10000 * P - 124 / 10)) + 15 * (13386 / 10000 * P) + 2048 / 225) / (24 / 25)); [|lra]. apply (div_up _ _ _ _ _ E4); lra.
Qed.
(** ** the steps *)
Variable xm : R.
Hypothesis Xm : 0 < xm <= 1 / 5.
Hypothesis Zm : f1 lam N xm = 0.
Lemma ders t : 0 <= t <= 13 / 50 -> is_derive (tau lam N) t (f1 lam N t) /\ is_derive (f1 lam N) t (f2 lam N t) /\ is_derive (f2 lam N) t (f3 lam N t) /\ is_derive (f3 lam N) t (f4 lam N t).
Proof. intros T. destruct (tau_ders lam L N t ltac:(lra) ltac:(lra)) as [A [B [C [D _]]]]. auto. Qed.
Lemma first_step : kden (f1 lam N) (f2 lam N) (f3 lam N) 0 <> 0 /\ f1 lam N 0 <> 0 /\ Rabs (0 - f1 lam N 0 * f2 lam N 0 / kden (f1 lam N) (f2 lam N) (f3 lam N) 0 - xm) <= 717 / 100 * (xm * xm * xm).
Proof.
  destruct (recur 0 ltac:(lra)) as [k [a2 [a3 [a4 [K [A2 [A3 [A4 [E1 [E2 [E3 E4]]]]]]]]]]]. destruct T0_low as [P1 [P2 KB]]. pose proof T0_low2 as P3. set (P := 3 * T0) in *.
  assert (F1 : f1 lam N 0 = -2) by lra. assert (F2 : f2 lam N 0 = P + a2) by (unfold P, T0; lra). assert (F3 : f3 lam N 0 = -16) by lra.
  assert (EX : Rabs (0 - xm) = xm) by (rewrite Rabs_left; lra).
  destruct (step_le (f1 lam N) (f2 lam N) (f3 lam N) (f4 lam N) 0 (1 / 5) xm 0 (2804 / 100 * P)) with (p := 129 / 100) (q := 319 / 10) (s := 1611 / 10000) (c := 717 / 100) as [A B]; try lra.
  - intros t T. apply (ders t). lra.
  - intros t T. apply (ders t). lra.
  - intros t T. apply (ders t). lra.
  - intros t T. rewrite Rmin_left, Rmax_right in T by lra. apply chain20. lra.
  - rewrite F3, F2, Rabs_left; lra.
  - rewrite F1, F2, Rabs_left; lra.
  - rewrite EX in B. split; [exact A|]. split; [lra|]. exact B.
Qed.
Lemma later_step x : 0 <= x <= 13 / 50 -> Rabs (x - xm) <= 574 / 10000 ->
  kden (f1 lam N) (f2 lam N) (f3 lam N) x <> 0 /\ Rabs (x - f1 lam N x * f2 lam N x / kden (f1 lam N) (f2 lam N) (f3 lam N) x - xm) <= 73 * (Rabs (x - xm) * Rabs (x - xm) * Rabs (x - xm)).
Proof.
  intros X E. destruct T0_low as [_ [P2 _]]. set (P := 3 * T0) in *. destruct (chain26 x X) as [[G1 G2] [G3 G4]]. fold P in G1, G2, G3, G4. pose proof (Rabs_pos (x - xm)) as E0. set (u := Rabs (x - xm)) in *.
  assert (BQ : forall t, Rmin x xm <= t <= Rmax x xm -> Rabs (f4 lam N t) <= 416 / 10 * P). { intros t T. apply chain26. unfold Rmin, Rmax in T. destruct (Rle_dec x xm); lra. }
  assert (V : Rabs (f1 lam N x) <= 77 / 1000 * f2 lam N x).
  { pose proof (value_le (f1 lam N) (f2 lam N) (f3 lam N) (f4 lam N) 0 (13 / 50) xm x (416 / 10 * P)) as V. eapply Rle_trans; [apply V|]; try (intros t T; apply (ders t T)); try lra; try assumption.
    fold u. rewrite (Rabs_pos_eq (f2 lam N x)) by lra. set (G := f2 lam N x) in *. assert (GP : 416 / 10 * P <= 743 / 10 * G) by lra. assert (F3 : Rabs (f3 lam N x) <= 1042 / 100 * G) by lra.
    assert (H1 : u * Rabs (f3 lam N x) <= 574 / 10000 * (1042 / 100 * G)) by (apply Rmult_le_compat; try lra; apply Rabs_pos).
    assert (H2 : u * u <= 574 / 10000 * (574 / 10000)) by (apply Rmult_le_compat; lra). assert (H3 : u * u * u <= 574 / 10000 * (574 / 10000) * (574 / 10000)) by (apply Rmult_le_compat; try lra; apply Rmult_le_pos; lra).
    assert (H4 : u * (G + u * Rabs (f3 lam N x) / 2) <= 574 / 10000 * (G + 574 / 10000 * (1042 / 100 * G) / 2)) by (apply Rmult_le_compat; try lra; pose proof (Rabs_pos (f3 lam N x)); assert (0 <= u * Rabs (f3 lam N x)) by (apply Rmult_le_pos; lra); lra).
    assert (H5 : 416 / 10 * P / 6 * (u * u * u) <= 743 / 10 * G / 6 * (574 / 10000 * (574 / 10000) * (574 / 10000))) by (apply Rmult_le_compat; try lra; repeat apply Rmult_le_pos; lra). lra. }
  destruct (step_le (f1 lam N) (f2 lam N) (f3 lam N) (f4 lam N) 0 (13 / 50) xm x (416 / 10 * P)) with (p := 1042 / 100) (q := 743 / 10) (s := 77 / 1000) (c := 73) as [A B]; try lra; try assumption; try (intros t T; apply (ders t T)).
  - fold u. lra.
  - split; [exact A|exact B].
Qed.
Lemma later_run r : 0 <= r -> r <= xm -> r <= 574 / 10000 -> forall n it x, (0 <= it)%Z -> (14 <= it + Z.of_nat n)%Z -> (it <= 13)%Z -> Rabs (x - xm) <= r ->
  exists x' k, halley RA (Some lam) n N it (Some x) (Some x) (Some (tau lam N x)) = Ret (Some (tau lam N x'), (it + Z.of_nat k)%Z) /\ 73 * (Rabs (x' - xm)) ^ 2 <= (73 * (Rabs (x - xm)) ^ 2) ^ (3 ^ k) /\ Rabs (x' - xm) <= r /\ ((it + Z.of_nat k)%Z = 13%Z \/ Rabs (x' - xm) <= 2 / 10000000000000).
Proof.
  intros r0 rx rr n. induction n as [|n IH]; intros it x I0 In I1 HX; [lia|].
  pose proof HX as HX'. apply Rabs_le_between in HX'. destruct (later_step x ltac:(lra) ltac:(lra)) as [NZ O]. pose proof (sq_ne x ltac:(lra) ltac:(lra)) as SQ.
  set (u := Rabs (x - xm)) in *. assert (U0 : 0 <= u) by apply Rabs_pos. assert (self : 73 * u ^ 2 <= (73 * u ^ 2) ^ (3 ^ 0)) by (cbn [Nat.pow]; rewrite pow_1; lra).
  assert (U2 : 73 * (u * u) <= 1 / 4). { assert (u * u <= 574 / 10000 * (574 / 10000)) by (apply Rmult_le_compat; lra). lra. } assert (UU : 0 <= u * u) by (apply Rmult_le_pos; exact U0). assert (O4 : 73 * (u * u * u) <= u / 4). { replace (73 * (u * u * u)) with (73 * (u * u) * u) by ring. replace (u / 4) with (1 / 4 * u) by field. apply Rmult_le_compat_r; [exact U0|exact U2]. }
  destruct (Req_dec (f1 lam N x) 0) as [E|E].
  - exists x, 0%nat. rewrite halley_stop by (assumption || exact L). split; [f_equal; f_equal; lia|]. split; [exact self|]. split; [exact HX|right]. rewrite E in O. replace (x - 0 * f2 lam N x / kden (f1 lam N) (f2 lam N) (f3 lam N) x - xm) with (x - xm) in O by (field; exact NZ). fold u in O. fold u. lra.
  - rewrite (halley_round lam L n N it x _ SQ E NZ). change (hnext lam (tau lam N x) x) with (x - f1 lam N x * f2 lam N x / kden (f1 lam N) (f2 lam N) (f3 lam N) x). set (x1 := x - f1 lam N x * f2 lam N x / kden (f1 lam N) (f2 lam N) (f3 lam N) x) in *.
    assert (V4 : Rabs (x1 - xm) <= u / 4) by lra. assert (V0 := Rabs_pos (x1 - xm)).
    assert (Q3 : 73 * Rabs (x1 - xm) ^ 2 <= (73 * u ^ 2) ^ 3). { replace ((73 * u ^ 2) ^ 3) with (73 * (73 * (u * u * u)) ^ 2) by ring. apply Rmult_le_compat_l; [lra|]. apply pow_incr. lra. }
    destruct (Rlt_dec (Rabs (x - x1)) (1 / 10000000000000)) as [C|C]; cbn [orb].
    + exists x, 0%nat. split; [f_equal; f_equal; lia|]. split; [exact self|]. split; [exact HX|right]. fold u. assert (u <= Rabs (x - x1) + Rabs (x1 - xm)). { unfold u. replace (x - xm) with ((x - x1) + (x1 - xm)) by ring. apply Rabs_triang. } lra.
    + destruct (Z.ltb_spec 12 it) as [B|B].
      * exists x, 0%nat. split; [f_equal; f_equal; lia|]. split; [exact self|]. split; [exact HX|left; lia].
      * assert (HX1 : Rabs (x1 - xm) <= r) by lra. pose proof HX1 as HB. apply Rabs_le_between in HB. destruct (x2tof_tau lam L x1 N ltac:(lra) ltac:(lra) ltac:(lra)) as [t [ET [_ T]]]. rewrite ET. rewrite T by (unfold Rabs; destruct (Rcase_abs (x1 - 1)); lra). cbn [bind].
        destruct (IH (it + 1)%Z x1 ltac:(lia) ltac:(lia) ltac:(lia) HX1) as [x' [k [HE [HP [HR HS]]]]]. exists x', (S k). split; [rewrite HE; f_equal; f_equal; lia|]. split; [|split; [exact HR|destruct HS; [left; lia|right; assumption]]].
        eapply Rle_trans; [exact HP|]. replace ((73 * u ^ 2) ^ (3 ^ S k)) with (((73 * u ^ 2) ^ 3) ^ (3 ^ k)) by (rewrite <- pow_mult; reflexivity). apply pow_incr. split; [apply Rmult_le_pos; [lra|apply pow_le; exact V0]|exact Q3].
Qed.
(** ** the time at the end *)
Lemma time_near x : 0 <= x <= 13 / 50 -> Rabs (x - xm) <= 2 / 10000000000000 -> tau lam N x <= tau lam N xm * (1 + 1 / 10 ^ 24).
Proof.
  intros X E. destruct T0_low as [_ [P2 _]]. pose proof (Rabs_pos (x - xm)) as E0. set (u := Rabs (x - xm)) in *. set (M := 1624 / 1000 * (3 * T0)). assert (M0 : 0 <= M) by (unfold M; lra).
  assert (W : forall t, Rmin x xm <= t <= Rmax x xm -> 0 <= t <= 13 / 50 /\ Rabs (t - xm) <= u). { intros t T. unfold u, Rmin, Rmax in *. destruct (Rle_dec x xm); split; try lra; unfold Rabs; destruct (Rcase_abs (t - xm)), (Rcase_abs (x - xm)); lra. }
  assert (A : forall t, Rmin x xm <= t <= Rmax x xm -> Rabs (f1 lam N t) <= M * u).
  { intros t T. destruct (W t T) as [T1 T2]. pose proof (mean_bound (f1 lam N) (f2 lam N) 0 (13 / 50) M) as B. assert (B' := B ltac:(intros z Z; apply (ders z Z)) ltac:(intros z Z; destruct (chain26 z Z) as [[C1 C2] _]; rewrite Rabs_pos_eq; [exact C2|lra]) t xm T1 ltac:(lra)). rewrite Zm, Rminus_0_r in B'. eapply Rle_trans; [exact B'|]. apply Rmult_le_compat_l; assumption. }
  pose proof (mean_bound (tau lam N) (f1 lam N) (Rmin x xm) (Rmax x xm) (M * u) ltac:(intros z Z; apply (ders z (proj1 (W z Z)))) A x xm ltac:(split; [apply Rmin_l|apply Rmax_l]) ltac:(split; [apply Rmin_r|apply Rmax_r])) as B. fold u in B.
  pose proof (Rle_abs (tau lam N x - tau lam N xm)) as C. assert (UU : u * u <= 2 / 10000000000000 * (2 / 10000000000000)) by (apply Rmult_le_compat; lra). assert (MU : M * u * u <= M * (2 / 10000000000000 * (2 / 10000000000000))) by (rewrite Rmult_assoc; apply Rmult_le_compat_l; assumption).
  pose proof (tau_low0 xm (1 / 5) ltac:(lra) ltac:(lra)) as TL. replace (2 / (1 - 1 / 5 * (1 / 5))) with (50 / 24) in TL by field. assert (T2 : T0 <= 2 * tau lam N xm) by lra. assert (Y : tau lam N x - tau lam N xm <= M * (2 / 10000000000000 * (2 / 10000000000000))) by lra. unfold M in Y. clear B C UU MU. rewrite p24. lra.
Qed.
Lemma pow_drop a m : 0 <= a <= 1 -> (1 <= m)%nat -> a ^ m <= a.
Proof. intros A M. destruct m as [|m]; [lia|]. cbn [pow]. rewrite <- (Rmult_1_r a) at 3. apply Rmult_le_compat_l; [lra|]. rewrite <- (pow1 m). apply pow_incr. exact A. Qed.
Lemma quarter_tiny : (1 / 4) ^ (3 ^ 12) <= 1 / 10 ^ 26.
Proof.
  replace (3 ^ 12)%nat with (3 ^ 4 * 3 ^ 8)%nat by (rewrite <- Nat.pow_add_r; reflexivity). rewrite pow_mult. assert (A : (1 / 4) ^ (3 ^ 4) <= 1 / 10 ^ 26). { change (3 ^ 4)%nat with (50 + 31)%nat. rewrite pow_add. assert (B : (1 / 4) ^ 31 <= 1) by (rewrite <- (pow1 31); apply pow_incr; lra). assert (C : (1 / 4) ^ 50 <= 1 / 10 ^ 26) by (rewrite p26; cbv [pow]; lra). assert (D : 0 <= (1 / 4) ^ 50) by (apply pow_le; lra). assert (E : (1 / 4) ^ 50 * (1 / 4) ^ 31 <= (1 / 4) ^ 50 * 1) by (apply Rmult_le_compat_l; assumption). lra. }
  assert (P : 0 <= (1 / 4) ^ (3 ^ 4)) by (apply pow_le; lra). eapply Rle_trans; [apply pow_drop|exact A]; [split; [exact P|]|].
  - eapply Rle_trans; [exact A|]. rewrite p26. lra.
  - assert (3 ^ 8 <> 0)%nat by (apply Nat.pow_nonzero; discriminate). lia.
Qed.
Lemma halley_finds : exists x it, 0 <= x <= 13 / 50 /\ halley RA (Some lam) 14 N 0 (Some 0) (Some 0) (Some (tau lam N 0)) = Ret (Some (tau lam N x), it) /\ Rabs (x - xm) <= 2 / 10000000000000.
Proof.
  destruct first_step as [NZ [F0 O]]. rewrite (halley_round lam L 13 N 0 0 _ ltac:(lra) F0 NZ). change (hnext lam (tau lam N 0) 0) with (0 - f1 lam N 0 * f2 lam N 0 / kden (f1 lam N) (f2 lam N) (f3 lam N) 0). set (x1 := 0 - f1 lam N 0 * f2 lam N 0 / kden (f1 lam N) (f2 lam N) (f3 lam N) 0) in *.
  assert (M2 : xm * xm <= 1 / 5 * (1 / 5)) by (apply Rmult_le_compat; lra). assert (M3 : xm * xm * xm <= 1 / 25 * xm) by (apply Rmult_le_compat_r; lra).
  set (r := 717 / 100 * (xm * xm * xm)) in *. assert (r0 : 0 <= r) by (unfold r; apply Rmult_le_pos; [lra|repeat apply Rmult_le_pos; lra]). assert (rx : r <= 2868 / 10000 * xm) by (unfold r; lra). assert (rr : r <= 574 / 10000) by lra.
  pose proof O as O'. apply Rabs_le_between in O'.
  destruct (Rlt_dec (Rabs (0 - x1)) (1 / 10000000000000)) as [C|C]; cbn [orb].
  - exists 0, 0%Z. split; [lra|]. split; [reflexivity|]. rewrite Rabs_left in C by lra. rewrite Rabs_left by lra. lra.
  - replace (Z.ltb 12 0) with false by reflexivity. destruct (x2tof_tau lam L x1 N ltac:(lra) ltac:(lra) ltac:(lra)) as [t [ET [_ T]]]. rewrite ET. rewrite T by (unfold Rabs; destruct (Rcase_abs (x1 - 1)); lra). cbn [bind].
    destruct (later_run r r0 ltac:(lra) rr 13 (0 + 1)%Z x1 ltac:(lia) ltac:(lia) ltac:(lia) O) as [x' [k [HE [HP [HR HS]]]]]. exists x', (0 + 1 + Z.of_nat k)%Z. pose proof HR as HB. apply Rabs_le_between in HB. split; [lra|]. split; [exact HE|].
    destruct HS as [HS|HS]; [|exact HS]. assert (k = 12%nat) by lia. subst k. pose proof (Rabs_pos (x' - xm)) as U0. set (u := Rabs (x' - xm)) in *. pose proof (Rabs_pos (x1 - xm)) as V0.
    assert (B : (73 * Rabs (x1 - xm) ^ 2) ^ (3 ^ 12) <= (1 / 4) ^ (3 ^ 12)). { apply pow_incr. assert (Rabs (x1 - xm) ^ 2 <= (574 / 10000) ^ 2) by (apply pow_incr; lra). split; [apply Rmult_le_pos; [lra|apply pow_le; exact V0]|]. lra. }
    pose proof quarter_tiny as QT. destruct (Rle_lt_dec u (2 / 10000000000000)) as [H|H]; [exact H|exfalso]. assert (UU : (2 / 10000000000000) ^ 2 <= u ^ 2) by (apply pow_incr; lra). assert (Z : 73 * u ^ 2 <= 1 / 10 ^ 26) by (eapply Rle_trans; [exact HP|]; eapply Rle_trans; [exact B|exact QT]). clear HP B QT. rewrite p26 in Z. lra.
Qed.
End Bounds.
(** where it starts at zero, Halley's iteration ends within 2e-13 of the point of least time, whose time is right to 1e-24 *)
Theorem halley_global lam : -4 / 5 <= lam <= 4 / 5 -> forall N, (1 <= N)%Z -> exists x it, -1 < x < 1 /\ halley RA (Some lam) 14 N 0 (Some 0) (Some 0) (Some (tau lam N 0)) = Ret (Some (tau lam N x), it) /\
  forall t, -1 < t < 1 -> tau lam N x <= tau lam N t * (1 + 1 / 10 ^ 24).
Proof.
  intros L5 N HN. pose proof (L lam L5) as LL. destruct (stationary lam LL N HN) as [xm [X [Z [_ MIN]]]]. pose proof (xm_le lam L5 N HN xm X Z) as X2. destruct (halley_finds lam L5 N HN xm ltac:(lra) Z) as [x [it [X1 [H E]]]].
  exists x, it. split; [lra|]. split; [exact H|]. intros t T. eapply Rle_trans; [apply (time_near lam L5 N HN xm ltac:(lra) Z x X1 E)|]. apply Rmult_le_compat_r; [rewrite p24; lra|apply MIN; exact T].
Qed.
(** ** the number of revolutions of the constructor *)
Theorem revolutions_near r0 r1 tof mu cw mr L : vz (cross r0 r1) <> 0 -> (0 <= mr < u32)%Z -> lambert_r r0 r1 tof mu cw mr = Ret L -> -4 / 5 <= transfer_lambda r0 r1 cw <= 4 / 5 ->
  forall N, (0 <= N <= mr)%Z -> ((N <= l_nmax L)%Z -> exists v, transfer mu r0 r1 tof cw N v) /\
  (forall tof' v, 0 < tof' -> tof' <= tof * (1 - 1 / 10 ^ 24) -> transfer mu r0 r1 tof' cw N v -> (N <= l_nmax L)%Z).
Proof.
  intros Hc M H L5 N HN. destruct (lambert_pos _ _ _ _ _ _ _ H) as [Ht Hm]. pose proof (time_unit_pos _ _ _ (lambert_nd _ _ Hc) Hm) as UP. set (tu := time_unit r0 r1 mu) in *.
  assert (mono : forall tof' v, 0 < tof' -> tof' <= tof * (1 - 1 / 10 ^ 24) -> transfer mu r0 r1 tof' cw N v -> exists v, transfer mu r0 r1 tof cw N v).
  { intros tof' v T0 T1 HV. assert (T2 : tof' < tof) by (rewrite p24 in T1; lra). destruct (Z.eq_dec N 0) as [->|N0]; [destruct (direct_transfer mu r0 r1 cw Hc Hm tof Ht) as [v0 [A _]]; exists v0; exact A|].
    destruct (revolution_transfers mu r0 r1 cw Hc Hm N ltac:(lia)) as [tm [_ R]]. destruct (Rlt_le_dec tof' tm) as [G|G]; [exfalso; apply (proj1 (R tof' T0) G v HV)|]. destruct (R tof Ht) as [_ [_ R3]]. destruct (R3 ltac:(lra)) as [va [_ [_ [A _]]]]. exists va. exact A. }
  set (q := Int_part (tof / tu / PI)). set (lam := transfer_lambda r0 r1 cw) in *.
  assert (iff : ((exists v, transfer mu r0 r1 tof cw N v) <-> (N <= l_nmax L)%Z) -> ((N <= l_nmax L)%Z -> exists v, transfer mu r0 r1 tof cw N v) /\ (forall tof' v, 0 < tof' -> tof' <= tof * (1 - 1 / 10 ^ 24) -> transfer mu r0 r1 tof' cw N v -> (N <= l_nmax L)%Z)).
  { intros [A B]. split; [exact B|]. intros tof' v T0 T1 HV. apply A. exact (mono tof' v T0 T1 HV). }
  destruct (Z.eq_dec N q) as [EQ|NQ]; [|apply iff; exact (revolutions_off r0 r1 tof mu cw mr L Hc M H N HN NQ)].
  destruct (Rle_lt_dec ((acos lam + lam * sqrt (1 - lam * lam) + IZR q * PI) * tu) tof) as [G|G]; [apply iff; apply (revolutions_at r0 r1 tof mu cw mr L Hc M H); [right; exact G|exact HN]|].
  destruct (Z.eq_dec N 0) as [N0|N0].
  { apply iff. split; [intros _|intros _; destruct (direct_transfer mu r0 r1 cw Hc Hm tof Ht) as [v0 [A _]]; exists v0; rewrite N0; exact A]. destruct (lambert_nmax _ _ _ _ _ _ _ Hc M H) as [_ [_ C]]. fold tu q lam in C. replace q with 0%Z in C by lia. unfold count in C. cbv zeta in C. replace (Z.min mr 0) with 0%Z in C by lia. cbn [Z.ltb Z.compare bind] in C. injection C as C. lia. }
  destruct (halley_global lam L5 q ltac:(lia)) as [x [it [X [HH B]]]]. destruct (revolutions_halley r0 r1 tof mu cw mr L x it Hc M H ltac:(fold tu q; lia) G HH) as [R1 [R2 _]]. fold tu q lam in R1, R2. rewrite EQ. split; [exact (R2 X)|].
  intros tof' v T0 T1 HV. apply R1. assert (F : q = 0%Z \/ exists x0, -1 < x0 < 1 /\ tau lam q x0 = tof' / tu) by (apply (transfer_feasible mu r0 r1 cw Hc Hm tof' q T0 ltac:(lia)); exists v; exact HV). destruct F as [F|[x0 [X0 E0]]]; [lia|]. specialize (B x0 X0). rewrite E0 in B.
  assert (E1 : 0 < 1 / 10 ^ 24) by (rewrite p24; lra). set (e := 1 / 10 ^ 24) in *. apply Rle_trans with (tof' / tu * (1 + e) * tu); [apply Rmult_le_compat_r; lra|]. replace (tof' / tu * (1 + e) * tu) with (tof' * (1 + e)) by (field; lra).
  assert (E2 : tof' * (1 + e) <= tof * (1 - e) * (1 + e)) by (apply Rmult_le_compat_r; lra). assert (E3 : 0 <= tof * (e * e)) by (repeat apply Rmult_le_pos; lra). lra.
Qed.

(** ** example: the Halley iteration decides, once for and once against *)
Lemma ex_near : exists L L', lambert_r ex_r0 ex_r1 (23 / 5) 32000 false 10 = Ret L /\ l_nmax L = 1%Z /\ lambert_r ex_r0 ex_r1 4 32000 false 10 = Ret L' /\ l_nmax L' = 0%Z /\
  23 / 5 < (acos (1 / 2) + 1 / 2 * sqrt (1 - 1 / 2 * (1 / 2)) + IZR 1 * PI) * time_unit ex_r0 ex_r1 32000.
Proof.
  assert (Hc : vz (cross ex_r0 ex_r1) <> 0) by (rewrite ex_cross; lra). assert (MR : (0 <= 10 < u32)%Z) by (unfold u32; lia). pose proof pi_bounds as PB.
  assert (E1 : acos (1 / 2) = PI / 3) by (rewrite <- cos_PI3; apply acos_cos; lra). assert (S : 866 / 1000 <= sqrt (1 - 1 / 2 * (1 / 2)) <= 8661 / 10000). { split; [apply Rsqr_incr_0_var; [|apply sqrt_pos]|apply Rsqr_incr_0_var; [|lra]]; rewrite Rsqr_sqrt by lra; unfold Rsqr; lra. }
  assert (T0 : 46 / 10 < tau (1 / 2) 1 0 <= 4623 / 1000) by (rewrite <- tau_at0N, E1; lra).
  assert (L5 : -4 / 5 <= 1 / 2 <= 4 / 5) by lra. assert (run : forall tof, 7 / 2 <= tof <= 5 -> exists L, lambert_r ex_r0 ex_r1 tof 32000 false 10 = Ret L).
  { intros tof Ht. destruct (lambert_run ex_r0 ex_r1 tof 32000 false 10 Hc ltac:(lra) ltac:(lra) MR) as [RN _]. rewrite ex_unit in RN. apply RN. apply Rlt_div_l; [lra|]. unfold u32. cbv [Z.pow Z.pow_pos Pos.iter Z.mul Pos.mul]. lra. }
  destruct (run (23 / 5) ltac:(lra)) as [L H]. destruct (run 4 ltac:(lra)) as [L' H']. exists L, L'.
  assert (LL : -4 / 5 <= transfer_lambda ex_r0 ex_r1 false <= 4 / 5) by (rewrite ex_lambda; lra).
  (* with one revolution there is a transfer in 4.59 but none in 4 *)
  assert (TR : exists v, transfer 32000 ex_r0 ex_r1 (459 / 100) false 1 v).
  { destruct (revolution_transfers 32000 ex_r0 ex_r1 false Hc ltac:(lra) 1 ltac:(lia)) as [tm [_ R]]. destruct (R (459 / 100) ltac:(lra)) as [R1 [R2 R3]].
    apply (transfer_feasible 32000 ex_r0 ex_r1 false Hc ltac:(lra)); [lra|lia|]. right. rewrite ex_unit, ex_lambda. destruct (tau_branches (1 / 2) ltac:(lra) 1 ltac:(lia)) as [xm [XM [_ [_ [S2 Mi]]]]]. pose proof (Mi (1 / 20) ltac:(lra)) as M1.
    assert (TD : tau (1 / 2) 1 (1 / 20) <= 4575 / 1000).
    { destruct (MVT_cor2 (tau (1 / 2) 1) (f1 (1 / 2) 1) 0 (1 / 20) ltac:(lra)) as [c [E C]]. { intros c C. apply is_derive_Reals. apply (ders (1 / 2) L5). lra. }
      destruct (recur (1 / 2) L5 1 c ltac:(lra)) as [k [a2 [a3 [a4 [K [_ [_ [_ [F1 _]]]]]]]]]. assert (TU : tau (1 / 2) 1 c <= 101 / 100 * tau (1 / 2) 1 0). { apply (tau_up (1 / 2) L5 1 ltac:(lia)); [lra|]. cbv zeta. destruct (w_sq c ltac:(lra)) as [WP W]. set (w := sqrt (1 - c * c)) in *. assert (W2 : 399 / 400 <= w * w) by (rewrite W; nra). apply (w_cube w (998 / 1000) (399 / 400)); lra. }
      assert (F2 : f1 (1 / 2) 1 c * (1 - c * c) <= -1). { rewrite F1. assert ((3 * tau (1 / 2) 1 c + k) * c <= (16) * c) by (apply Rmult_le_compat_r; lra). lra. } assert (F3 : f1 (1 / 2) 1 c <= -1). { destruct (Rle_lt_dec (f1 (1 / 2) 1 c) (-1)) as [G|G]; [exact G|exfalso]. assert (CC : 0 < c * c < 1) by nra. assert (0 < (f1 (1 / 2) 1 c + 1) * (1 - c * c)) by (apply Rmult_lt_0_compat; lra). lra. } lra. }
    destruct (S2 (459 / 100 / 1) ltac:(lra)) as [a [b [A [B [EA _]]]]]. exists a. split; [lra|exact EA]. }
  assert (NT : forall v, ~ transfer 32000 ex_r0 ex_r1 4 false 1 v).
  { intros v HV. assert (F : 1%Z = 0%Z \/ exists x0, -1 < x0 < 1 /\ tau (1 / 2) 1 x0 = 4 / 1). { pose proof (proj1 (transfer_feasible 32000 ex_r0 ex_r1 false Hc ltac:(lra) 4 1 ltac:(lra) ltac:(lia)) (ex_intro _ v HV)) as F. rewrite ex_unit, ex_lambda in F. exact F. }
    destruct F as [F|[x0 [X0 E0]]]; [lia|]. destruct (stationary (1 / 2) ltac:(lra) 1 ltac:(lia)) as [xm [X [Z [_ MIN]]]]. pose proof (xm_le (1 / 2) L5 1 ltac:(lia) xm X Z) as X2. specialize (MIN x0 X0). pose proof (tau_low0 (1 / 2) L5 1 ltac:(lia) xm (1 / 5) ltac:(lra) ltac:(lra)) as TL. replace (2 / (1 - 1 / 5 * (1 / 5))) with (50 / 24) in TL by field. lra. }
  assert (Q : forall tof, 7 / 2 <= tof <= 5 -> Int_part (tof / time_unit ex_r0 ex_r1 32000 / PI) = 1%Z). { intros tof Ht. rewrite ex_unit. symmetry. apply int_part_spec. split; [apply Rplus_lt_reg_r with 1; replace (tof / 1 / PI - 1 + 1) with (tof / PI) by (field; lra); apply Rlt_div_l; lra|]. replace (tof / 1 / PI) with (tof / PI) by (field; lra). apply (Rle_div_r 1 tof PI); lra. }
  split; [exact H|]. split.
  { destruct TR as [v HV]. pose proof (proj2 (revolutions_near _ _ _ _ _ _ _ Hc MR H LL 1 ltac:(lia)) (459 / 100) v ltac:(lra) ltac:(rewrite p24; lra) HV) as G. destruct (Z_le_gt_dec 2 (l_nmax L)) as [G2|G2]; [exfalso|lia].
    assert (HV2 : exists v, transfer 32000 ex_r0 ex_r1 (23 / 5) false 2 v) by (apply (revolutions_off _ _ _ _ _ _ _ Hc MR H 2); [lia|rewrite Q by lra; lia|exact G2]). destruct HV2 as [v2 HV2]. destruct (revolution_transfers 32000 ex_r0 ex_r1 false Hc ltac:(lra) 2 ltac:(lia)) as [tm [B R]]. rewrite ex_unit in B. apply (proj1 (R (23 / 5) ltac:(lra)) ltac:(lra) v2 HV2). }
  split; [exact H'|]. split; [|rewrite ex_unit, (tau_at0N (1 / 2)); lra].
  assert (G0 : (0 <= l_nmax L')%Z). { destruct (direct_transfer 32000 ex_r0 ex_r1 false Hc ltac:(lra) 4 ltac:(lra)) as [v0 [A _]]. apply (revolutions_off _ _ _ _ _ _ _ Hc MR H' 0); [lia|rewrite Q by lra; lia|exists v0; exact A]. }
  destruct (Z_le_gt_dec 1 (l_nmax L')) as [G|G]; [exfalso|lia]. destruct (proj1 (revolutions_near _ _ _ _ _ _ _ Hc MR H' LL 1 ltac:(lia)) G) as [v HV]. exact (NT v HV).
Qed.
