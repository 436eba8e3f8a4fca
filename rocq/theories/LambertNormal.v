(** * Direct transfers that last somewhat longer than the one of least energy: the iteration finds them from its guess *)
From Coq Require Import Reals ZArith List Bool Lra Lia Psatz.
From Coquelicot Require Import Coquelicot.
From Verif Require Import Outcome PartialReal RealLib Vec3 TwoBodySpec ElemProofs KeplerianMain ConstProofs LambertModel LambertReal LambertProofs LambertSpec LambertTime LambertVec LambertTof LambertDer LambertMono LambertMain LambertHalley LambertConv LambertNear LambertLong.
Import ListNotations.
Open Scope R_scope.

Lemma PI_bd : 31415 / 10000 < PI < 31416 / 10000.
Proof. pose proof PI_close as H. apply Rabs_le_between in H. lra. Qed.
(** ** the time of flight of the transfer of least energy *)
Definition T0 (l : R) : R := acos l + l * sqrt (1 - l * l).
Lemma root_derive x : -1 < x < 1 -> is_derive (fun t => sqrt (1 - t * t)) x (- x / sqrt (1 - x * x)).
Proof. intros X. destruct (w_sq x X) as [WP W]. eapply der_to; [apply (der_sqrt (fun t => 1 - t * t)); [apply der_minus; [apply der_const|apply der_mult; apply der_id]|nra]|]. cbn beta. field. lra. Qed.
Lemma T0_derive l : -1 < l < 1 -> is_derive T0 l (- (2 * (l * l) / sqrt (1 - l * l))).
Proof.
  intros H. destruct (w_sq l H) as [SP SS]. unfold T0. eapply der_to; [apply der_plus; [apply der_acos; exact H|apply der_mult; [apply der_id|apply root_derive; exact H]]|].
  cbn beta. set (s := sqrt (1 - l * l)) in *. clearbody s. apply (Rmult_eq_reg_r s); [|lra]. transitivity (-1 + s * s - l * l); [field; lra|]. rewrite SS. field. lra.
Qed.
Lemma root_bd l : l * l <= 16 / 25 -> 3 / 5 <= sqrt (1 - l * l) <= 1.
Proof. intros H. pose proof (Rle_0_sqr l) as S0. unfold Rsqr in S0. split. - rewrite <- (sqrt_square (3 / 5)) by lra. apply sqrt_le_1_alt. lra. - pose proof (sqrt_le_1_alt (1 - l * l) 1 ltac:(lra)) as H1. rewrite sqrt_1 in H1. exact H1. Qed.
Lemma cube_derive c l : is_derive (fun l => c * (l * l * l)) l (3 * c * (l * l)).
Proof. eapply der_to; [apply der_scal; apply der_mult; [apply der_mult; apply der_id|apply der_id]|]. cbn beta. ring. Qed.
Lemma inv_root l : l * l <= 16 / 25 -> 1 <= / sqrt (1 - l * l) <= 5 / 3.
Proof. intros H. pose proof (root_bd l H) as [A B]. split. - apply (Rle_trans _ (/ 1)); [lra|apply Rinv_le_contravar; lra]. - replace (5 / 3) with (/ (3 / 5)) by field. apply Rinv_le_contravar; lra. Qed.
Lemma T0_up lo hi : lo <= hi -> lo * lo <= 16 / 25 -> hi * hi <= 16 / 25 -> T0 lo + 10 / 9 * (lo * lo * lo) <= T0 hi + 10 / 9 * (hi * hi * hi).
Proof.
  intros H A B. assert (A' : -4 / 5 <= lo) by nra. assert (B' : hi <= 4 / 5) by nra.
  apply (der_le (fun l => T0 l + 10 / 9 * (l * l * l)) (fun l => - (2 * (l * l) / sqrt (1 - l * l)) + 3 * (10 / 9) * (l * l)) lo hi H).
  - intros l K. apply der_plus; [apply T0_derive; lra|apply cube_derive].
  - intros l K. assert (Q : l * l <= 16 / 25) by nra. pose proof (inv_root l Q) as [I1 I2]. unfold Rdiv. pose proof (Rle_0_sqr l) as S0. unfold Rsqr in S0. nra.
Qed.
Lemma T0_down lo hi : lo <= hi -> lo * lo <= 16 / 25 -> hi * hi <= 16 / 25 -> T0 hi + 2 / 3 * (hi * hi * hi) <= T0 lo + 2 / 3 * (lo * lo * lo).
Proof.
  intros H A B. assert (A' : -4 / 5 <= lo) by nra. assert (B' : hi <= 4 / 5) by nra. enough (- (T0 lo + 2 / 3 * (lo * lo * lo)) <= - (T0 hi + 2 / 3 * (hi * hi * hi))) by lra.
  apply (der_le (fun l => - (T0 l + 2 / 3 * (l * l * l))) (fun l => - (- (2 * (l * l) / sqrt (1 - l * l)) + 3 * (2 / 3) * (l * l))) lo hi H).
  - intros l K. apply der_opp, der_plus; [apply T0_derive; lra|apply cube_derive].
  - intros l K. assert (Q : l * l <= 16 / 25) by nra. pose proof (inv_root l Q) as [I1 I2]. unfold Rdiv. pose proof (Rle_0_sqr l) as S0. unfold Rsqr in S0. nra.
Qed.
Lemma T0_0 : T0 0 = PI / 2.
Proof. unfold T0. rewrite acos_0. lra. Qed.
(** ** calculus: a function whose third derivative is not negative *)
Section Convex.
Variables (b b1 b2 b3 : R -> R) (E M : R).
Hypothesis Db : forall u, 0 <= u <= E -> is_derive b u (b1 u).
Hypothesis Db1 : forall u, 0 <= u <= E -> is_derive b1 u (b2 u).
Hypothesis Db2 : forall u, 0 <= u <= E -> is_derive b2 u (b3 u).
Hypothesis B3 : forall u, 0 <= u <= E -> 0 <= b3 u <= M.
Lemma conv2 u : 0 <= u <= E -> 0 <= b2 u - b2 0 <= M * u.
Proof.
  intros U. split.
  - enough (b2 0 <= b2 u) by lra. apply (der_le b2 b3); [lra|intros; apply Db2; lra|intros; apply B3; lra].
  - enough (M * 0 - b2 0 <= M * u - b2 u) by lra. apply (der_le (fun t => M * t - b2 t) (fun t => M * 1 - b3 t)); [lra| |].
    + intros t Ht. apply der_minus; [apply der_scal, der_id|apply Db2; lra].
    + intros t Ht. destruct (B3 t ltac:(lra)). lra.
Qed.
Lemma conv1 u : 0 <= u <= E -> 0 <= b1 u - b1 0 - b2 0 * u <= M * (u * u) / 2.
Proof.
  intros U. split.
  - enough (b1 0 - b2 0 * 0 <= b1 u - b2 0 * u) by lra. apply (der_le (fun t => b1 t - b2 0 * t) (fun t => b2 t - b2 0 * 1)); [lra| |].
    + intros t Ht. apply der_minus; [apply Db1; lra|apply der_scal, der_id].
    + intros t Ht. destruct (conv2 t ltac:(lra)). lra.
  - enough (M / 2 * (0 * 0) - (b1 0 - b2 0 * 0) <= M / 2 * (u * u) - (b1 u - b2 0 * u)) by lra. apply (der_le (fun t => M / 2 * (t * t) - (b1 t - b2 0 * t)) (fun t => M / 2 * (1 * t + t * 1) - (b2 t - b2 0 * 1))); [lra| |].
    + intros t Ht. apply der_minus; [apply der_scal, der_mult; apply der_id|apply der_minus; [apply Db1; lra|apply der_scal, der_id]].
    + intros t Ht. destruct (conv2 t ltac:(lra)). lra.
Qed.
Lemma conv0 u : 0 <= u <= E -> 0 <= b u - b 0 - b1 0 * u - b2 0 * (u * u) / 2 <= M * (u * u * u) / 6.
Proof.
  intros U. split.
  - enough (b 0 - b1 0 * 0 - b2 0 / 2 * (0 * 0) <= b u - b1 0 * u - b2 0 / 2 * (u * u)) by lra. apply (der_le (fun t => b t - b1 0 * t - b2 0 / 2 * (t * t)) (fun t => b1 t - b1 0 * 1 - b2 0 / 2 * (1 * t + t * 1))); [lra| |].
    + intros t Ht. apply der_minus; [apply der_minus; [apply Db; lra|apply der_scal, der_id]|apply der_scal, der_mult; apply der_id].
    + intros t Ht. destruct (conv1 t ltac:(lra)). lra.
  - enough (M / 6 * (0 * 0 * 0) - (b 0 - b1 0 * 0 - b2 0 / 2 * (0 * 0)) <= M / 6 * (u * u * u) - (b u - b1 0 * u - b2 0 / 2 * (u * u))) by lra.
    apply (der_le (fun t => M / 6 * (t * t * t) - (b t - b1 0 * t - b2 0 / 2 * (t * t))) (fun t => 3 * (M / 6) * (t * t) - (b1 t - b1 0 * 1 - b2 0 / 2 * (1 * t + t * 1)))); [lra| |].
    + intros t Ht. apply der_minus; [apply cube_derive|apply der_minus; [apply der_minus; [apply Db; lra|apply der_scal, der_id]|apply der_scal, der_mult; apply der_id]].
    + intros t Ht. destruct (conv1 t ltac:(lra)). lra.
Qed.
(** the rule of the trapezoid is too large *)
Lemma conv_trap u : 0 <= u <= E -> b u - b 0 <= u * (b1 0 + b1 u) / 2.
Proof.
  intros U. enough (/ 2 * (0 * (b1 0 + b1 0)) - b 0 <= / 2 * (u * (b1 0 + b1 u)) - b u) by lra. apply (der_le (fun t => / 2 * (t * (b1 0 + b1 t)) - b t) (fun t => / 2 * (1 * (b1 0 + b1 t) + t * (0 + b2 t)) - b1 t)); [lra| |].
  - intros t Ht. apply der_minus; [apply der_scal, (der_mult (fun t => t) (fun t => b1 0 + b1 t)); [apply der_id|apply (der_plus (fun _ => b1 0) b1); [apply der_const|apply Db1; lra]]|apply Db; lra].
  - intros t Ht. enough (0 * b2 t - (b1 0 - b1 0) <= t * b2 t - (b1 t - b1 0)) by lra.
    destruct (Req_dec t 0) as [->|NZ]; [lra|]. destruct (MVT_cor2 b1 b2 0 t ltac:(lra)) as [c [EC C]]; [intros c C; apply is_derive_Reals, Db1; lra|].
    rewrite EC. assert (b2 c <= b2 t). { apply (der_le b2 b3); [lra|intros; apply Db2; lra|intros; apply B3; lra]. } nra.
Qed.
End Convex.
(** ** one turn of the iteration, from the right and from the left of the root *)
Lemma right_step F G H e dl : 0 < F -> 0 <= G -> 0 <= H -> 0 <= e -> F * e <= dl <= 3 / 2 * (F * e) -> H * (dl * dl) <= 3 * (F * F * F) ->
  let den := F * F * F + F * (dl * G) + H * (dl * dl) / 6 in
  F * F * F <= den /\ - (e / 2) <= e - dl * (F * F + dl * G / 2) / den <= 2 / 3 * e.
Proof.
  intros HF HG HH He HD HY den. assert (D0 : 0 <= dl) by nra. assert (F2 : 0 < F * F) by nra. assert (F3 : 0 < F * F * F) by nra. assert (DG : 0 <= dl * G) by (apply Rmult_le_pos; assumption). assert (FD : 0 <= F * (dl * G)) by (apply Rmult_le_pos; lra). assert (HD2 : 0 <= H * (dl * dl)) by (apply Rmult_le_pos; nra).
  assert (DP : F * F * F <= den) by (unfold den; lra). split; [exact DP|]. set (num := dl * (F * F + dl * G / 2)). assert (E : num / den * den = num) by (field; lra).
  assert (N1 : num <= 3 / 2 * e * den). { apply Rle_trans with (3 / 2 * (F * e) * (F * F + dl * G / 2)); [apply Rmult_le_compat_r; [lra|apply HD]|]. replace (3 / 2 * (F * e) * (F * F + dl * G / 2)) with (3 / 2 * e * (F * F * F + F * (dl * G) / 2)) by field. apply Rmult_le_compat_l; [lra|]. unfold den. lra. }
  assert (N2 : e * den <= 3 * num). { apply Rle_trans with (e * (F * (3 / 2 * (F * F) + dl * G))); [apply Rmult_le_compat_l; [exact He|]; unfold den; lra|]. replace (e * (F * (3 / 2 * (F * F) + dl * G))) with (F * e * (3 / 2 * (F * F) + dl * G)) by ring. apply Rle_trans with (dl * (3 / 2 * (F * F) + dl * G)); [apply Rmult_le_compat_r; [lra|apply HD]|]. unfold num. replace (3 * (dl * (F * F + dl * G / 2))) with (dl * (3 * (F * F) + 3 / 2 * (dl * G))) by field. apply Rmult_le_compat_l; lra. }
  split; apply (Rmult_le_reg_r den); try lra; rewrite Rmult_minus_distr_r, E; lra.
Qed.
Lemma left_step F G H e dl : 0 < F -> 0 <= G -> 0 <= H -> 0 <= e -> F * e - G * (e * e) / 2 <= dl <= F * e -> G * e <= F / 2 -> H * (e * e) <= F ->
  let den := F * F * F - F * (dl * G) + H * (dl * dl) / 6 in
  F * F * F / 2 <= den /\ - (2 / 3 * e) <= dl * (F * F - dl * G / 2) / den - e <= e / 2.
Proof.
  intros HF HG HH He HD HGE HY den. assert (GE : G * e * e <= F / 2 * e) by (apply Rmult_le_compat_r; assumption). assert (D1 : 3 / 4 * (F * e) <= dl) by lra. assert (FE : 0 <= F * e) by (apply Rmult_le_pos; lra). assert (D0 : 0 <= dl) by lra. assert (F2 : 0 < F * F) by nra. assert (F3 : 0 < F * F * F) by nra. assert (DG : 0 <= dl * G) by (apply Rmult_le_pos; assumption).
  assert (DG2 : dl * G <= F * F / 2). { apply Rle_trans with (F * e * G); [apply Rmult_le_compat_r; [exact HG|apply HD]|]. replace (F * e * G) with (F * (G * e)) by ring. replace (F * F / 2) with (F * (F / 2)) by field. apply Rmult_le_compat_l; lra. }
  assert (FDG : F * (dl * G) <= F * (F * F / 2)) by (apply Rmult_le_compat_l; lra). assert (HD2 : 0 <= H * (dl * dl)) by (apply Rmult_le_pos; nra).
  assert (HD3 : H * (dl * dl) <= F * F * F). { apply Rle_trans with (H * (F * e * (F * e))); [apply Rmult_le_compat_l; [exact HH|]; apply Rmult_le_compat; lra|]. replace (H * (F * e * (F * e))) with (F * F * (H * (e * e))) by ring. apply Rmult_le_compat_l; lra. }
  assert (DP : F * F * F / 2 <= den) by (unfold den; lra). split; [exact DP|]. set (num := dl * (F * F - dl * G / 2)). assert (E : num / den * den = num) by (field; lra).
  assert (N1 : num <= 3 / 2 * e * den). { apply Rle_trans with (F * e * (F * F - dl * G / 2)); [apply Rmult_le_compat_r; [lra|apply HD]|]. replace (F * e * (F * F - dl * G / 2)) with (e * (F * (F * F - dl * G / 2))) by ring. replace (3 / 2 * e * den) with (e * (3 / 2 * den)) by field. apply Rmult_le_compat_l; [lra|]. unfold den. lra. }
  assert (N2 : e * den <= 3 * num). { apply Rle_trans with (3 * (3 / 4 * (F * e) * (F * F - dl * G / 2))); [|unfold num; assert (3 / 4 * (F * e) * (F * F - dl * G / 2) <= dl * (F * F - dl * G / 2)) by (apply Rmult_le_compat_r; lra); lra]. replace (3 * (3 / 4 * (F * e) * (F * F - dl * G / 2))) with (e * (9 / 4 * (F * (F * F - dl * G / 2)))) by field. apply Rmult_le_compat_l; [exact He|]. unfold den. lra. }
  split; apply (Rmult_le_reg_r den); try lra; rewrite Rmult_minus_distr_r, E; lra.
Qed.
Lemma cubic_part F G H e dl k rho : 0 < F -> 0 <= G <= 23 / 4 * F -> 0 <= H <= 42 * F -> 0 <= e <= 156 / 1000 -> 0 <= rho <= 14 * F * (e * e * e) -> 0 <= k <= 51 / 10 * F * (e * e) -> 0 <= dl <= 3 / 2 * (F * e) ->
  Rabs (rho * (F * F) + G * (k * k) / 2 - e * (H * (dl * dl)) / 6) <= 28 * (F * F * F) * (e * e * e) /\ Rabs (rho * (F * F) - G * (k * k) / 2 - e * (H * (dl * dl)) / 6) <= 28 * (F * F * F) * (e * e * e).
Proof.
  intros HF HG HH He HR HK HD. assert (F2 : 0 < F * F) by nra. assert (F3 : 0 < F * F * F) by nra. assert (E2 : 0 <= e * e) by nra. assert (E3 : 0 <= e * e * e) by (apply Rmult_le_pos; lra).
  assert (A : 0 <= rho * (F * F) <= 14 * (F * F * F) * (e * e * e)). { split; [apply Rmult_le_pos; lra|]. replace (14 * (F * F * F) * (e * e * e)) with (14 * F * (e * e * e) * (F * F)) by ring. apply Rmult_le_compat_r; lra. }
  assert (B : 0 <= G * (k * k) / 2 <= 12 * (F * F * F) * (e * e * e)).
  { assert (K2 : 0 <= k * k <= 51 / 10 * F * (e * e) * (51 / 10 * F * (e * e))) by (split; [apply Rmult_le_pos; lra|apply Rmult_le_compat; lra]). assert (B1 : 0 <= G * (k * k)) by (apply Rmult_le_pos; lra).
    assert (B2 : G * (k * k) <= 23 / 4 * F * (51 / 10 * F * (e * e) * (51 / 10 * F * (e * e)))) by (apply Rmult_le_compat; lra). split; [lra|]. assert (B3 : F * F * F * (e * e * e) * e <= F * F * F * (e * e * e) * (156 / 1000)) by (apply Rmult_le_compat_l; [apply Rmult_le_pos; lra|lra]). assert (0 <= F * F * F * (e * e * e)) by (apply Rmult_le_pos; lra).
    replace (23 / 4 * F * (51 / 10 * F * (e * e) * (51 / 10 * F * (e * e)))) with (23 / 4 * (2601 / 100) * (F * F * F * (e * e * e) * e)) in B2 by field. lra. }
  assert (C : 0 <= e * (H * (dl * dl)) / 6 <= 16 * (F * F * F) * (e * e * e)).
  { assert (K2 : 0 <= dl * dl <= 3 / 2 * (F * e) * (3 / 2 * (F * e))) by (split; [apply Rmult_le_pos; lra|apply Rmult_le_compat; lra]). assert (B1 : 0 <= H * (dl * dl)) by (apply Rmult_le_pos; lra). assert (B2 : H * (dl * dl) <= 42 * F * (3 / 2 * (F * e) * (3 / 2 * (F * e)))) by (apply Rmult_le_compat; lra).
    assert (B3 : 0 <= e * (H * (dl * dl)) <= e * (42 * F * (3 / 2 * (F * e) * (3 / 2 * (F * e))))) by (split; [apply Rmult_le_pos; lra|apply Rmult_le_compat_l; lra]). assert (0 <= F * F * F * (e * e * e)) by (apply Rmult_le_pos; lra). replace (e * (42 * F * (3 / 2 * (F * e) * (3 / 2 * (F * e))))) with (189 / 2 * (F * F * F * (e * e * e))) in B3 by field. lra. }
  assert (0 <= F * F * F * (e * e * e)) by (apply Rmult_le_pos; lra). split; apply Rabs_le_between; lra.
Qed.
Lemma right_cubic F G H e dl rho : 0 < F -> 0 <= G <= 23 / 4 * F -> 0 <= H <= 42 * F -> 0 <= e <= 156 / 1000 -> dl = F * e + G * (e * e) / 2 + rho -> 0 <= rho <= 14 * F * (e * e * e) -> 0 <= dl <= 3 / 2 * (F * e) ->
  let den := F * F * F + F * (dl * G) + H * (dl * dl) / 6 in F * F * F <= den -> Rabs (e - dl * (F * F + dl * G / 2) / den) <= 56 * (e * e * e).
Proof.
  intros HF HG HH He ED HR HD den DP. assert (F2 : 0 < F * F) by nra. assert (F3 : 0 < F * F * F) by nra. assert (E2 : 0 <= e * e) by nra. assert (E3 : 0 <= e * e * e) by (apply Rmult_le_pos; lra).
  set (k := G * (e * e) / 2 + rho). assert (HK : 0 <= k <= 51 / 10 * F * (e * e)). { unfold k. assert (0 <= G * (e * e) <= 23 / 4 * F * (e * e)) by (split; [apply Rmult_le_pos; lra|apply Rmult_le_compat_r; lra]). assert (F * (e * e) * e <= F * (e * e) * (156 / 1000)) by (apply Rmult_le_compat_l; [apply Rmult_le_pos; lra|lra]). assert (0 <= F * (e * e)) by (apply Rmult_le_pos; lra). lra. }
  destruct (cubic_part F G H e dl k rho HF HG HH He HR HK HD) as [A _]. assert (Z : (e - dl * (F * F + dl * G / 2) / den) * den = - (rho * (F * F) + G * (k * k) / 2 - e * (H * (dl * dl)) / 6)). { rewrite Rmult_minus_distr_r. replace (dl * (F * F + dl * G / 2) / den * den) with (dl * (F * F + dl * G / 2)) by (field; lra). unfold den, k. rewrite ED. field. }
  apply (Rmult_le_reg_r den); [lra|]. rewrite <- (Rabs_right den) at 2 by lra. rewrite <- Rabs_mult, Z, Rabs_Ropp. eapply Rle_trans; [exact A|]. assert (56 * (e * e * e) * (F * F * F) <= 56 * (e * e * e) * den) by (apply Rmult_le_compat_l; lra). assert (0 <= e * e * e * (F * F * F)) by (apply Rmult_le_pos; lra). lra.
Qed.
Lemma left_cubic F G H e dl rho : 0 < F -> 0 <= G <= 23 / 4 * F -> 0 <= H <= 42 * F -> 0 <= e <= 156 / 1000 -> dl = F * e - G * (e * e) / 2 + rho -> 0 <= rho <= 14 * F * (e * e * e) -> 0 <= dl <= F * e ->
  let den := F * F * F - F * (dl * G) + H * (dl * dl) / 6 in F * F * F / 2 <= den -> Rabs (dl * (F * F - dl * G / 2) / den - e) <= 56 * (e * e * e).
Proof.
  intros HF HG HH He ED HR HD den DP. assert (F2 : 0 < F * F) by nra. assert (F3 : 0 < F * F * F) by nra. assert (E2 : 0 <= e * e) by nra. assert (E3 : 0 <= e * e * e) by (apply Rmult_le_pos; lra).
  set (k := G * (e * e) / 2 - rho). assert (HK : 0 <= k <= 51 / 10 * F * (e * e)). { split; [unfold k; lra|]. unfold k. assert (0 <= G * (e * e) <= 23 / 4 * F * (e * e)) by (split; [apply Rmult_le_pos; lra|apply Rmult_le_compat_r; lra]). assert (0 <= F * (e * e)) by (apply Rmult_le_pos; lra). lra. }
  assert (HD' : 0 <= dl <= 3 / 2 * (F * e)) by lra.
  destruct (cubic_part F G H e dl k rho HF HG HH He HR HK HD') as [_ A]. assert (Z : (dl * (F * F - dl * G / 2) / den - e) * den = rho * (F * F) - G * (k * k) / 2 - e * (H * (dl * dl)) / 6). { rewrite Rmult_minus_distr_r. replace (dl * (F * F - dl * G / 2) / den * den) with (dl * (F * F - dl * G / 2)) by (field; lra). unfold den, k. rewrite ED. field. }
  apply (Rmult_le_reg_r den); [lra|]. rewrite <- (Rabs_right den) at 2 by lra. rewrite <- Rabs_mult, Z. eapply Rle_trans; [exact A|]. assert (56 * (e * e * e) * (F * F * F / 2) <= 56 * (e * e * e) * den) by (apply Rmult_le_compat_l; lra). lra.
Qed.
Lemma der_back (f : R -> R) x u l : is_derive f (x - u) l -> is_derive (fun u => f (x - u)) u (- l).
Proof. intros D. evar_last; [apply (is_derive_comp f (fun u => x - u) u l (-1)); [exact D|auto_derive; [exact I|ring]]|]. unfold scal; cbn; unfold mult; cbn. ring. Qed.
Lemma der_forth (f : R -> R) x u l : is_derive f (x + u) l -> is_derive (fun u => f (x + u)) u l.
Proof. intros D. evar_last; [apply (is_derive_comp f (fun u => x + u) u l 1); [exact D|auto_derive; [exact I|ring]]|]. unfold scal; cbn; unfold mult; cbn. ring. Qed.
Section Normal.
Variable lam : R.
Hypothesis HL : lam * lam <= 16 / 25.
Let L : lam * lam < 1. Proof. lra. Qed.
Let y (x : R) := lam_y lam x.
Let m := lam * lam * lam.
Definition q (x : R) : R := 2 * (lam * lam * lam) / lam_y lam x.
Definition a0 : R := tau lam 0 0.
Lemma m_bd : (0 <= lam -> 0 <= m <= 64 / 125) /\ (lam <= 0 -> - (64 / 125) <= m <= 0).
Proof. assert (B : -4 / 5 <= lam <= 4 / 5) by (split; nra). unfold m. pose proof (Rle_0_sqr lam) as S0. unfold Rsqr in S0. split; intros H; nra. Qed.
Lemma y_bd x : x * x <= 1 -> 3 / 5 <= y x <= 1 /\ y x * y x = 1 - lam * lam * (1 - x * x).
Proof.
  intros X. destruct (ly_sq lam L x) as [P Y2]. fold (y x) in P, Y2. assert (E : y x * y x = 1 - lam * lam * (1 - x * x)) by (rewrite Y2; ring). pose proof (Rle_0_sqr lam) as S0. unfold Rsqr in S0. pose proof (Rle_0_sqr x) as S1. unfold Rsqr in S1.
  assert (Q : 0 <= lam * lam * (1 - x * x) <= 16 / 25) by (split; [apply Rmult_le_pos; lra|]; assert (lam * lam * (1 - x * x) <= 16 / 25 * 1) by (apply Rmult_le_compat; lra); lra). split; [|exact E]. split; nra.
Qed.
Lemma iy_bd x : x * x <= 1 -> 1 <= / y x <= 5 / 3.
Proof. intros X. destruct (y_bd x X) as [[A B] _]. split. - apply (Rle_trans _ (/ 1)); [lra|apply Rinv_le_contravar; lra]. - replace (5 / 3) with (/ (3 / 5)) by field. apply Rinv_le_contravar; lra. Qed.
Lemma a_bd : (0 <= lam -> PI / 2 - 10 / 9 * m <= a0 <= PI / 2 - 2 / 3 * m) /\ (lam <= 0 -> PI / 2 - 2 / 3 * m <= a0 <= PI / 2 - 10 / 9 * m).
Proof.
  unfold a0. rewrite tau_at0. fold (T0 lam). pose proof T0_0 as Z. split; intros H.
  - pose proof (T0_up 0 lam H ltac:(lra) HL) as U. pose proof (T0_down 0 lam H ltac:(lra) HL) as D. fold m in U, D. lra.
  - pose proof (T0_up lam 0 H HL ltac:(lra)) as U. pose proof (T0_down lam 0 H HL ltac:(lra)) as D. fold m in U, D. lra.
Qed.
Lemma q_bd x : x * x <= 1 -> (0 <= lam -> 2 * m <= q x <= 10 / 3 * m) /\ (lam <= 0 -> 10 / 3 * m <= q x <= 2 * m).
Proof. intros X. pose proof (iy_bd x X) as I. destruct m_bd as [M1 M2]. unfold q. fold m. fold (y x). unfold Rdiv. split; intros H; [specialize (M1 H)|specialize (M2 H)]; split; nra. Qed.
Lemma K_bd x : x * x <= 1 -> 4 <= 3 * a0 + q x <= 27 / 5.
Proof. intros X. destruct (q_bd x X) as [Q1 Q2]. destruct a_bd as [A1 A2]. destruct m_bd as [M1 M2]. pose proof PI_bd. destruct (Rle_dec 0 lam) as [C|C]; [specialize (Q1 C); specialize (A1 C); specialize (M1 C)|specialize (Q2 ltac:(lra)); specialize (A2 ltac:(lra)); specialize (M2 ltac:(lra))]; lra. Qed.
Definition r2 (x : R) : R := 2 * (1 - lam * lam) * (lam * lam * lam) / (lam_y lam x * lam_y lam x * lam_y lam x).
Definition r3 (x : R) : R := 6 * (1 - lam * lam) * (lam * lam) * (lam * lam * lam) * x / (lam_y lam x * lam_y lam x * lam_y lam x) / (lam_y lam x * lam_y lam x).
Lemma frac_bd x : x * x <= 1 -> 0 <= (1 - lam * lam) / (y x * y x) <= 1.
Proof. intros X. destruct (y_bd x X) as [[A B] E]. pose proof (Rle_0_sqr lam) as S0. unfold Rsqr in S0. pose proof (Rle_0_sqr x) as S1. unfold Rsqr in S1. assert (P : 0 < y x * y x) by nra. assert (I : 0 < / (y x * y x)) by (apply Rinv_0_lt_compat; exact P). split; [apply Rmult_le_pos; lra|]. apply (Rmult_le_reg_r (y x * y x)); [exact P|]. replace ((1 - lam * lam) / (y x * y x) * (y x * y x)) with (1 - lam * lam) by (field; lra). rewrite E. nra. Qed.
Lemma s_bd x : x * x <= 1 -> 3 <= 3 * a0 + r2 x <= 643 / 100.
Proof.
  intros X. destruct (q_bd x X) as [Q1 Q2]. destruct a_bd as [A1 A2]. destruct m_bd as [M1 M2]. pose proof PI_bd. pose proof (frac_bd x X) as F. destruct (y_bd x X) as [[Y _] _]. assert (E : r2 x = (1 - lam * lam) / (y x * y x) * q x) by (unfold r2, q; fold (y x); field; lra). rewrite E. set (g := (1 - lam * lam) / (y x * y x)) in *. clearbody g.
  destruct (Rle_dec 0 lam) as [C|C]; [specialize (Q1 C); specialize (A1 C); specialize (M1 C)|specialize (Q2 ltac:(lra)); specialize (A2 ltac:(lra)); specialize (M2 ltac:(lra))]; [assert (0 <= g * q x <= q x) by (split; nra)|assert (q x <= g * q x <= 0) by (split; nra)]; lra.
Qed.
Lemma r3_bd x : x * x <= 1 -> Rabs (r3 x) <= 92 / 10 * Rabs x.
Proof.
  intros X. destruct (q_bd x X) as [Q1 Q2]. destruct m_bd as [M1 M2]. pose proof (frac_bd x X) as F. destruct (y_bd x X) as [[Y _] _]. pose proof (iy_bd x X) as I. pose proof (Rle_0_sqr lam) as S0. unfold Rsqr in S0.
  assert (E : r3 x = 3 * ((1 - lam * lam) / (y x * y x)) * q x * (lam * lam * (/ y x * / y x)) * x) by (unfold r3, q; fold (y x); field; lra). rewrite E. set (g := (1 - lam * lam) / (y x * y x)) in *. clearbody g. rewrite Rabs_mult. apply Rmult_le_compat_r; [apply Rabs_pos|].
  assert (QA : Rabs (q x) <= 128 / 75). { apply Rabs_le_between. destruct (Rle_dec 0 lam) as [C|C]; [specialize (Q1 C); specialize (M1 C)|specialize (Q2 ltac:(lra)); specialize (M2 ltac:(lra))]; lra. }
  assert (I2 : 0 <= / y x * / y x <= 5 / 3 * (5 / 3)) by (split; [apply Rmult_le_pos; lra|apply Rmult_le_compat; lra]). assert (LY : 0 <= lam * lam * (/ y x * / y x) <= 16 / 25 * (5 / 3 * (5 / 3))) by (split; [apply Rmult_le_pos; lra|apply Rmult_le_compat; lra]).
  rewrite !Rabs_mult. rewrite (Rabs_right 3), (Rabs_right g) by lra. rewrite <- (Rabs_mult lam lam), <- (Rabs_mult (/ y x)), <- Rabs_mult, (Rabs_right (lam * lam * _)) by lra. set (w := lam * lam * (/ y x * / y x)) in *. clearbody w. pose proof (Rabs_pos (q x)).
  assert (B1 : 3 * g * Rabs (q x) <= 3 * 1 * (128 / 75)) by (apply Rmult_le_compat; lra). assert (0 <= 3 * g * Rabs (q x)) by (apply Rmult_le_pos; lra). assert (3 * g * Rabs (q x) * w <= 3 * 1 * (128 / 75) * (16 / 25 * (5 / 3 * (5 / 3)))) by (apply Rmult_le_compat; lra). lra.
Qed.
(** ** comparison with functions that grow faster or slower *)
Lemma f1_q x : f1 lam 0 x = (3 * tau lam 0 x * x - 2 + q x * x) / (1 - x * x).
Proof. unfold f1, D1, q, Rdiv. ring. Qed.
Lemma compare s (b b' : R -> R) X : X < 1 -> (forall t, - X <= t <= 0 -> is_derive b t (b' t)) -> b 0 = a0 ->
  (forall t, - X <= t <= 0 -> 0 <= s * ((3 * b t * t - 2 + q t * t) / (1 - t * t) - b' t)) -> forall x, - X <= x <= 0 -> 0 <= s * (b x - tau lam 0 x).
Proof.
  intros HX DB B0 SB x Hx. set (w := fun t => sqrt (1 - t * t)).
  assert (H : - (w x * w x * w x * (s * (b x - tau lam 0 x))) <= - (w 0 * w 0 * w 0 * (s * (b 0 - tau lam 0 0)))).
  { apply (der_le (fun t => - (w t * w t * w t * (s * (b t - tau lam 0 t)))) (fun t => w t * w t * w t * (s * ((3 * b t * t - 2 + q t * t) / (1 - t * t) - b' t)))); [lra| |].
    - intros t Ht. assert (E : -1 < t < 1) by lra. destruct (w_sq t E) as [WP W2]. destruct (tau_ders lam L 0 t ltac:(lra) ltac:(lra)) as [DT _]. pose proof (root_derive t E) as DW. fold w in DW. change (sqrt (1 - t * t)) with (w t) in *. change (fun t => sqrt (1 - t * t)) with w in DW.
      eapply der_to; [apply der_opp, der_mult; [apply der_mult; [apply der_mult; exact DW|exact DW]|apply der_scal, der_minus; [apply DB; lra|exact DT]]|].
      cbv beta. rewrite f1_q. set (W := w t) in *. clearbody W. set (bb := b t). set (db := b' t). set (tt := tau lam 0 t). set (Q := q t). rewrite <- W2. field. lra.
    - intros t Ht. assert (E : -1 < t < 1) by lra. destruct (w_sq t E) as [WP W2]. change (sqrt (1 - t * t)) with (w t) in *. apply Rmult_le_pos; [repeat apply Rmult_le_pos; lra|apply SB; lra]. }
  rewrite B0 in H. unfold a0 in H. rewrite Rminus_eq_0, Rmult_0_r, Rmult_0_r, Ropp_0 in H. destruct (w_sq x ltac:(lra)) as [WP _]. change (sqrt (1 - x * x)) with (w x) in WP. assert (P : 0 < w x * w x * w x) by (repeat apply Rmult_lt_0_compat; exact WP). set (g := s * (b x - tau lam 0 x)) in *. clearbody g. nra.
Qed.
Lemma frac_derive c t : -1 < t -> is_derive (fun t => a0 + c * (- t / (1 + t))) t (- c / ((1 + t) * (1 + t))).
Proof. intros H. eapply der_to; [apply der_plus; [apply der_const|apply der_scal, der_div; [apply der_opp, der_id|apply der_plus; [apply der_const|apply der_id]|lra]]|]. cbv beta. field. lra. Qed.
Lemma tau_over x : -11 / 20 <= x <= 0 -> tau lam 0 x <= a0 + 4 * (- x / (1 + x)).
Proof.
  intros X. enough (0 <= 1 * (a0 + 4 * (- x / (1 + x)) - tau lam 0 x)) by lra. apply (compare 1 (fun t => a0 + 4 * (- t / (1 + t))) (fun t => - (4) / ((1 + t) * (1 + t))) (11 / 20)); [lra| |cbv beta; unfold Rdiv; rewrite Ropp_0; ring| |lra].
  - intros t Ht. apply frac_derive. lra.
  - intros t Ht. cbv beta. pose proof (K_bd t ltac:(nra)) as K. rewrite Rmult_1_l.
    assert (P : 0 < (1 + t) * (1 + t) * (1 - t)) by (apply Rmult_lt_0_compat; [apply Rmult_lt_0_compat; lra|lra]). apply (Rmult_le_reg_r ((1 + t) * (1 + t) * (1 - t))); [exact P|]. rewrite Rmult_0_l.
    replace (((3 * (a0 + 4 * (- t / (1 + t))) * t - 2 + q t * t) / (1 - t * t) - - (4) / ((1 + t) * (1 + t))) * ((1 + t) * (1 + t) * (1 - t))) with ((1 + t) * ((3 * a0 + q t) * t - 2) - 12 * (t * t) + 4 * (1 - t)) by (field; split; nra).
    set (K' := 3 * a0 + q t) in *. clearbody K'. assert (N1 : 0 <= (27 / 5 - K') * - t) by (apply Rmult_le_pos; lra). assert (N2 : 0 <= (1 + t) * ((27 / 5 - K') * - t)) by (apply Rmult_le_pos; lra). assert (N3 : 0 <= - t * (11 / 20 + t)) by (apply Rmult_le_pos; lra). lra.
Qed.
Lemma tau_under x : -1 < x <= 0 -> a0 + 2 * (- x / (1 + x)) <= tau lam 0 x.
Proof.
  intros X. enough (0 <= -1 * (a0 + 2 * (- x / (1 + x)) - tau lam 0 x)) by lra. apply (compare (-1) (fun t => a0 + 2 * (- t / (1 + t))) (fun t => - (2) / ((1 + t) * (1 + t))) (- x)); [lra| |cbv beta; unfold Rdiv; rewrite Ropp_0; ring| |lra].
  - intros t Ht. apply frac_derive. lra.
  - intros t Ht. cbv beta. pose proof (K_bd t ltac:(nra)) as K.
    assert (P : 0 < (1 + t) * (1 + t) * (1 - t)) by (apply Rmult_lt_0_compat; [apply Rmult_lt_0_compat; lra|lra]). apply (Rmult_le_reg_r ((1 + t) * (1 + t) * (1 - t))); [exact P|]. rewrite Rmult_0_l.
    replace (-1 * ((3 * (a0 + 2 * (- t / (1 + t))) * t - 2 + q t * t) / (1 - t * t) - - (2) / ((1 + t) * (1 + t))) * ((1 + t) * (1 + t) * (1 - t))) with (- ((1 + t) * ((3 * a0 + q t) * t - 2) - 6 * (t * t) + 2 * (1 - t))) by (field; split; nra).
    set (K' := 3 * a0 + q t) in *. clearbody K'. assert (N1 : 0 <= (K' - 4) * - t) by (apply Rmult_le_pos; lra). assert (N2 : 0 <= (1 + t) * ((K' - 4) * - t)) by (apply Rmult_le_pos; lra). assert (N3 : 0 <= - t * - t) by (apply Rmult_le_pos; lra). lra.
Qed.
(** ** the derivatives between -51/100 and 0 *)
Lemma F_form x : -1 < x <= 0 -> - f1 lam 0 x * (1 - x * x) = 2 + (3 * a0 + q x) * - x + 3 * (tau lam 0 x - a0) * - x.
Proof. intros X. rewrite f1_q. field. nra. Qed.
Lemma G_form x : -1 < x <= 0 -> f2 lam 0 x * (1 - x * x) = 3 * (tau lam 0 x - a0) + (3 * a0 + r2 x) + 5 * - x * - f1 lam 0 x.
Proof. intros X. unfold f2, D2. change (D1 lam (tau lam 0 x) x) with (f1 lam 0 x). change (2 * (1 - lam * lam) * (lam * lam * lam) / (lam_y lam x * lam_y lam x * lam_y lam x)) with (r2 x). field. nra. Qed.
Lemma H_form x : -1 < x <= 0 -> - f3 lam 0 x * (1 - x * x) = 7 * - x * f2 lam 0 x + 8 * - f1 lam 0 x + r3 x.
Proof. intros X. unfold f3, D3. change (D2 lam (tau lam 0 x) x) with (f2 lam 0 x). change (D1 lam (tau lam 0 x) x) with (f1 lam 0 x). change (6 * (1 - lam * lam) * (lam * lam) * (lam * lam * lam) * x / (lam_y lam x * lam_y lam x * lam_y lam x) / (lam_y lam x * lam_y lam x)) with (r3 x). field. nra. Qed.
Lemma p_bd x : -11 / 20 <= x <= 0 -> 0 <= tau lam 0 x - a0 /\ 2 * - x <= (tau lam 0 x - a0) * (1 + x) <= 4 * - x.
Proof.
  intros X. pose proof (tau_over x X) as U. pose proof (tau_under x ltac:(lra)) as D. set (p := tau lam 0 x - a0). assert (A : 2 * (- x / (1 + x)) <= p <= 4 * (- x / (1 + x))) by (unfold p; lra). clearbody p. assert (Z : - x / (1 + x) * (1 + x) = - x) by (field; lra). set (w := - x / (1 + x)) in *. assert (W : 0 <= w) by (apply Rmult_le_pos; [lra|apply Rlt_le, Rinv_0_lt_compat; lra]). clearbody w.
  split; [lra|]. split; nra.
Qed.
Lemma region x : -51 / 100 <= x <= 0 -> 2 <= - f1 lam 0 x <= 16 /\ 0 <= f2 lam 0 x <= 23 / 4 * - f1 lam 0 x /\ 0 <= - f3 lam 0 x <= 42 * - f1 lam 0 x.
Proof.
  intros X. destruct (p_bd x ltac:(lra)) as [P0 [P1 P2]]. pose proof (F_form x ltac:(lra)) as EF. pose proof (G_form x ltac:(lra)) as EG. pose proof (H_form x ltac:(lra)) as EH.
  assert (XX : 0 <= x * x <= 2601 / 10000) by (split; nra). pose proof (K_bd x ltac:(lra)) as KB. pose proof (s_bd x ltac:(lra)) as SB. pose proof (r3_bd x ltac:(lra)) as RB. rewrite (Rabs_left1 x) in RB by lra. apply Rabs_le_between in RB.
  set (F := - f1 lam 0 x) in *. set (G := f2 lam 0 x) in *. set (H := - f3 lam 0 x) in *. set (p := tau lam 0 x - a0) in *. set (K := 3 * a0 + q x) in *. set (S2 := 3 * a0 + r2 x) in *. set (r := r3 x) in *. set (z := - x) in *. replace (x * x) with (z * z) in * by (unfold z; ring). replace (1 + x) with (1 - z) in * by (unfold z; ring).
  assert (Z : 0 <= z <= 51 / 100) by (unfold z; lra). clearbody F G H p K S2 r. clearbody z. clear X x.
  assert (PZ : 0 <= p * z) by (apply Rmult_le_pos; lra). assert (KZ : 4 * z <= K * z <= 27 / 5 * z) by (split; apply Rmult_le_compat_r; lra).
  assert (FL : 2 + 4 * z + 3 * (p * z) <= F * (1 - z * z)) by (rewrite EF; lra).
  assert (F2 : 2 <= F). { apply (Rmult_le_reg_r (1 - z * z)); [lra|]. lra. }
  assert (PU : p <= 204 / 49). { apply (Rmult_le_reg_r (1 - z)); [lra|]. lra. }
  assert (FU : F <= 16). { apply (Rmult_le_reg_r (1 - z * z)); [lra|]. assert (p * z <= 204 / 49 * (51 / 100)) by (apply Rmult_le_compat; lra). lra. }
  split; [lra|].
  assert (G1 : 3 * p + S2 <= (33 / 10 - 2 * z) * (F * (1 - z * z))).
  { apply Rle_trans with ((33 / 10 - 2 * z) * (2 + 4 * z + 3 * (p * z))); [|apply Rmult_le_compat_l; lra].
    assert (ZZ : z * (z * z) <= 51 / 100 * (z * z)) by (apply Rmult_le_compat_r; [apply Rmult_le_pos; lra|lra]).
    apply (Rmult_le_reg_r (1 - z)); [lra|]. destruct (Rle_dec 0 ((33 / 10 - 2 * z) * z - 1)) as [C|C].
    - assert (0 <= p * ((33 / 10 - 2 * z) * z - 1)) by (apply Rmult_le_pos; assumption). apply Rmult_le_compat_r; [lra|]. assert (0 <= z * (51 / 100 - z)) by (apply Rmult_le_pos; lra). lra.
    - assert (0 <= (4 * z - p * (1 - z)) * (1 - (33 / 10 - 2 * z) * z)) by (apply Rmult_le_pos; lra). assert ((1 - z) * S2 <= (1 - z) * (643 / 100)) by (apply Rmult_le_compat_l; lra).
      assert (0 <= (z - 104 / 1000) * (z - 104 / 1000)) by (pose proof (Rle_0_sqr (z - 104 / 1000)) as Q; unfold Rsqr in Q; exact Q). lra. }
  assert (G0 : 0 <= G). { apply (Rmult_le_reg_r (1 - z * z)); [lra|]. rewrite Rmult_0_l, EG. assert (0 <= 5 * z * F) by (apply Rmult_le_pos; lra). lra. }
  assert (GU : G <= 23 / 4 * F). { apply (Rmult_le_reg_r (1 - z * z)); [lra|]. rewrite EG. assert (CZ : 5 * z <= (245 / 100 + 2 * z) * (1 - z * z)). { assert (z * (z * z) <= 51 / 100 * (2601 / 10000)) by (apply Rmult_le_compat; lra). lra. } assert (5 * z * F <= (245 / 100 + 2 * z) * (1 - z * z) * F) by (apply Rmult_le_compat_r; lra). lra. }
  split; [lra|]. assert (ZG : 0 <= z * G <= 51 / 100 * (23 / 4 * F)) by (split; [apply Rmult_le_pos; lra|apply Rmult_le_compat; lra]). split; (apply (Rmult_le_reg_r (1 - z * z)); [lra|]); rewrite ?Rmult_0_l, EH; [lra|].
  assert (42 * F * (7399 / 10000) <= 42 * F * (1 - z * z)) by (apply Rmult_le_compat_l; lra). lra.
Qed.
(** ** near the root *)
Section Root.
Variables (d xs : R).
Hypothesis Hd : 0 <= d <= 3 / 2.
Hypothesis Xs : -1 < xs.
Hypothesis ET : tau lam 0 xs = a0 + d.
Let g := - d / (d + 4).
Lemma g_bd : -3 / 11 <= g <= 0 /\ - g / (1 + g) = d / 4.
Proof.
  assert (G4 : g * (d + 4) = - d) by (unfold g; field; lra). split; [split|].
  - apply (Rmult_le_reg_r (d + 4)); [lra|]. lra.
  - apply (Rmult_le_reg_r (d + 4)); [lra|]. lra.
  - unfold g. field. split; lra.
Qed.
Lemma low_bd : -3 / 7 <= - d / (d + 2) <= 0 /\ - (- d / (d + 2)) / (1 + - d / (d + 2)) = d / 2.
Proof.
  assert (G4 : - d / (d + 2) * (d + 2) = - d) by (field; lra). split; [split|].
  - apply (Rmult_le_reg_r (d + 2)); [lra|]. lra.
  - apply (Rmult_le_reg_r (d + 2)); [lra|]. lra.
  - field. split; lra.
Qed.
Lemma root_loc : - d / (d + 2) <= xs <= g.
Proof.
  destruct g_bd as [GB GE]. destruct low_bd as [LB LE]. split.
  - destruct (Rle_lt_dec (- d / (d + 2)) xs) as [C|C]; [exact C|exfalso]. pose proof (tau_decr0 lam L xs (- d / (d + 2)) Xs C) as D. pose proof (tau_under (- d / (d + 2)) ltac:(lra)) as U. rewrite LE in U. lra.
  - destruct (Rle_lt_dec xs g) as [C|C]; [exact C|exfalso]. pose proof (tau_decr0 lam L g xs ltac:(lra) C) as D. pose proof (tau_over g ltac:(lra)) as U. rewrite GE in U. lra.
Qed.
Lemma gap : 0 <= g - xs <= 156 / 1000 /\ -3 / 7 <= xs.
Proof.
  destruct root_loc as [A B]. destruct low_bd as [LB _]. split; [|lra]. split; [lra|]. apply Rle_trans with (g - - d / (d + 2)); [lra|]. replace (g - - d / (d + 2)) with (2 * d / ((d + 2) * (d + 4))) by (unfold g; field; split; lra).
  assert (P : 0 < (d + 2) * (d + 4)) by nra. apply (Rmult_le_reg_r ((d + 2) * (d + 4))); [exact P|]. replace (2 * d / ((d + 2) * (d + 4)) * ((d + 2) * (d + 4))) with (2 * d) by (field; lra). assert (0 <= (3 / 2 - d) * (3 / 2 - d)) by (apply Rmult_le_pos; lra). lra.
Qed.
Lemma f1_incr s t : -51 / 100 <= s -> s <= t -> t <= 0 -> f1 lam 0 s <= f1 lam 0 t.
Proof. intros A B C. apply (der_le (f1 lam 0) (f2 lam 0) s t B); intros v Hv; [apply (tau_ders lam L 0 v); lra|apply (region v); lra]. Qed.
Lemma slope_ratio : - f1 lam 0 xs <= 2 * - f1 lam 0 g.
Proof.
  destruct gap as [GA XB]. destruct g_bd as [GB GE]. destruct root_loc as [A B]. destruct (low_bd) as [LB _]. set (l := - d / (d + 2)) in *. assert (EL : l * (d + 2) = - d) by (unfold l; field; lra). assert (EG : g * (d + 4) = - d) by (unfold g; field; lra).
  pose proof (F_form xs ltac:(lra)) as FX. pose proof (F_form g ltac:(lra)) as FG. pose proof (K_bd xs ltac:(nra)) as KX. pose proof (K_bd g ltac:(nra)) as KG. rewrite ET in FX. pose proof (tau_under g ltac:(lra)) as U. rewrite GE in U.
  set (Fx := - f1 lam 0 xs) in *. set (Fg := - f1 lam 0 g) in *. set (Kx := 3 * a0 + q xs) in *. set (Kg := 3 * a0 + q g) in *. set (p := tau lam 0 g - a0) in *. assert (HP : d / 2 <= p) by (unfold p; lra). clearbody Fx Fg Kx Kg p l. clear GE U ET.
  assert (A1 : Fx * (1 - xs * xs) <= 2 + (27 / 5 + 3 * d) * - l). { rewrite FX. assert (0 <= (27 / 5 - Kx) * - xs) by (apply Rmult_le_pos; lra). assert (0 <= (27 / 5 + 3 * d) * (xs - l)) by (apply Rmult_le_pos; lra). lra. }
  assert (A2 : 2 + (4 + 3 / 2 * d) * - g <= Fg * (1 - g * g)). { rewrite FG. assert (0 <= (Kg - 4) * - g) by (apply Rmult_le_pos; lra). assert (0 <= 3 * (p - d / 2) * - g) by (apply Rmult_le_pos; lra). lra. }
  assert (XL : - xs * - xs <= - l * - l) by (apply Rmult_le_compat; lra). assert (LQ : - l * - l <= 3 / 7 * (3 / 7)) by (apply Rmult_le_compat; lra). assert (GQ : - g * - g <= 3 / 11 * (3 / 11)) by (apply Rmult_le_compat; lra). assert (L1 : 0 < 1 - l * l) by lra. assert (G1 : 0 < 1 - g * g) by lra. assert (X1 : 0 < 1 - xs * xs) by lra.
  assert (FX0 : 0 <= Fx). { apply (Rmult_le_reg_r (1 - xs * xs)); [lra|]. rewrite Rmult_0_l, FX. assert (0 <= Kx * - xs) by (apply Rmult_le_pos; lra). assert (0 <= d * - xs) by (apply Rmult_le_pos; lra). lra. }
  assert (A3 : Fx * (1 - l * l) <= 2 + (27 / 5 + 3 * d) * - l). { eapply Rle_trans; [|exact A1]. apply Rmult_le_compat_l; lra. }
  assert (A4 : (2 + (27 / 5 + 3 * d) * - l) * (1 - g * g) <= 2 * (2 + (4 + 3 / 2 * d) * - g) * (1 - l * l)).
  { assert (D2 : 0 < (d + 2) * (d + 2)) by nra. assert (D4 : 0 < (d + 4) * (d + 4)) by nra. apply (Rmult_le_reg_r ((d + 2) * (d + 2) * ((d + 4) * (d + 4)))); [apply Rmult_lt_0_compat; assumption|].
    replace ((2 + (27 / 5 + 3 * d) * - l) * (1 - g * g) * ((d + 2) * (d + 2) * ((d + 4) * (d + 4)))) with ((2 * (d + 2) - (27 / 5 + 3 * d) * (l * (d + 2))) * (d + 2) * ((d + 4) * (d + 4) - g * (d + 4) * (g * (d + 4)))) by ring.
    replace (2 * (2 + (4 + 3 / 2 * d) * - g) * (1 - l * l) * ((d + 2) * (d + 2) * ((d + 4) * (d + 4)))) with (2 * ((2 * (d + 4) - (4 + 3 / 2 * d) * (g * (d + 4))) * (d + 4) * ((d + 2) * (d + 2) - l * (d + 2) * (l * (d + 2))))) by ring. rewrite EL, EG.
    assert (P2 : 0 <= d * d <= 9 / 4) by (split; nra). assert (P3 : 0 <= d * (d * d) <= 3 / 2 * (9 / 4)) by (split; [apply Rmult_le_pos; lra|apply Rmult_le_compat; lra]). assert (P4 : d * d * (d * d) <= 9 / 4 * (9 / 4)) by (apply Rmult_le_compat; lra).
    assert (PC : 0 <= 16 + 92 / 5 * d - 8 / 5 * (d * d) - 59 / 10 * (d * (d * d)) - 3 / 2 * (d * d * (d * d))). { assert (0 <= d * (9 / 4 - d * d)) by (apply Rmult_le_pos; lra). lra. }
    assert (PD : 0 <= 8 * (16 + 92 / 5 * d - 8 / 5 * (d * d) - 59 / 10 * (d * (d * d)) - 3 / 2 * (d * d * (d * d)))) by lra. lra. }
  apply (Rmult_le_reg_r ((1 - l * l) * (1 - g * g))); [apply Rmult_lt_0_compat; assumption|].
  assert (B1 : Fx * (1 - l * l) * (1 - g * g) <= (2 + (27 / 5 + 3 * d) * - l) * (1 - g * g)) by (apply Rmult_le_compat_r; lra). assert (B2 : 2 * (2 + (4 + 3 / 2 * d) * - g) * (1 - l * l) <= 2 * (Fg * (1 - g * g)) * (1 - l * l)) by (apply Rmult_le_compat_r; lra). lra.
Qed.
Let nx (x : R) := hstep (resid lam 0 (a0 + d)) (f1 lam 0) (f2 lam 0) (f3 lam 0) x.
Let dn (x : R) := hden (resid lam 0 (a0 + d)) (f1 lam 0) (f2 lam 0) (f3 lam 0) x.
Lemma right_turn x : xs <= x <= g -> dn x <> 0 /\ - ((x - xs) / 2) <= nx x - xs <= 2 / 3 * (x - xs) /\ Rabs (nx x - xs) <= 56 * ((x - xs) * (x - xs) * (x - xs)).
Proof.
  intros X. destruct gap as [GA XB]. destruct g_bd as [GB _]. destruct (region x ltac:(lra)) as [RF [RG RH]]. pose proof slope_ratio as SR. pose proof (f1_incr x g ltac:(lra) ltac:(lra) ltac:(lra)) as FI. set (e := x - xs). assert (He : 0 <= e <= 156 / 1000) by (unfold e; lra).
  set (b := fun u => tau lam 0 (x - u)). set (b1 := fun u => - f1 lam 0 (x - u)). set (b2 := fun u => f2 lam 0 (x - u)). set (b3 := fun u => - f3 lam 0 (x - u)).
  assert (Db : forall u, 0 <= u <= e -> is_derive b u (b1 u)). { intros u U. unfold b, b1. apply der_back. apply (tau_ders lam L 0 (x - u)); unfold e in *; lra. }
  assert (Db1 : forall u, 0 <= u <= e -> is_derive b1 u (b2 u)). { intros u U. unfold b1, b2. rewrite <- (Ropp_involutive (f2 lam 0 (x - u))). apply (der_opp (fun u => f1 lam 0 (x - u))), der_back. apply (tau_ders lam L 0 (x - u)); unfold e in *; lra. }
  assert (Db2 : forall u, 0 <= u <= e -> is_derive b2 u (b3 u)). { intros u U. unfold b2, b3. apply der_back. apply (tau_ders lam L 0 (x - u)); unfold e in *; lra. }
  assert (B3 : forall u, 0 <= u <= e -> 0 <= b3 u <= 84 * - f1 lam 0 x). { intros u U. unfold b3. destruct (region (x - u) ltac:(unfold e in *; lra)) as [_ [_ R3]]. pose proof (f1_incr xs (x - u) ltac:(lra) ltac:(unfold e in *; lra) ltac:(lra)). lra. }
  pose proof (conv0 b b1 b2 b3 e (84 * - f1 lam 0 x) Db Db1 Db2 B3 e ltac:(lra)) as C0. pose proof (conv_trap b b1 b2 b3 e (84 * - f1 lam 0 x) Db Db1 Db2 B3 e ltac:(lra)) as CT. clear Db Db1 Db2 B3.
  unfold b, b1, b2 in C0, CT. clear b b1 b2 b3. rewrite !Rminus_0_r in C0, CT. replace (x - e) with xs in C0, CT by (unfold e; ring).
  unfold nx, dn, hstep, hden. unfold resid. rewrite <- ET. set (F := - f1 lam 0 x) in *. set (G := f2 lam 0 x) in *. set (H := - f3 lam 0 x) in *. replace (f1 lam 0 x) with (- F) by (unfold F; ring). replace (f3 lam 0 x) with (- H) by (unfold H; ring).
  set (dl := tau lam 0 xs - tau lam 0 x) in *. replace (tau lam 0 x - tau lam 0 xs) with (- dl) by (unfold dl; ring).
  assert (FS : - f1 lam 0 xs <= 2 * F) by (unfold F; lra). assert (FE : 0 <= F * e) by (apply Rmult_le_pos; lra). assert (GE : 0 <= G * (e * e)) by (apply Rmult_le_pos; [lra|apply Rmult_le_pos; lra]).
  assert (DU : dl <= 3 / 2 * (F * e)). { eapply Rle_trans; [exact CT|]. assert (e * (F + - f1 lam 0 xs) <= e * (3 * F)) by (apply Rmult_le_compat_l; lra). lra. }
  assert (HD : F * e <= dl <= 3 / 2 * (F * e)) by lra. clearbody dl. clearbody F G H. clear CT SR FI FS.
  assert (HY : H * (dl * dl) <= 3 * (F * F * F)).
  { assert (D1 : dl <= 3 / 2 * (F * (156 / 1000))) by (assert (F * e <= F * (156 / 1000)) by (apply Rmult_le_compat_l; lra); lra). assert (D2 : 0 <= dl * dl <= 3 / 2 * (F * (156 / 1000)) * (3 / 2 * (F * (156 / 1000)))) by (split; [apply Rmult_le_pos; lra|apply Rmult_le_compat; lra]). assert (D3 : H * (dl * dl) <= 42 * F * (3 / 2 * (F * (156 / 1000)) * (3 / 2 * (F * (156 / 1000))))) by (apply Rmult_le_compat; lra). assert (0 <= F * F * F) by (apply Rmult_le_pos; [apply Rmult_le_pos; lra|lra]). lra. }
  destruct (right_step F G H e dl ltac:(lra) ltac:(lra) ltac:(lra) ltac:(lra) HD HY) as [DP BB]. assert (F3 : 0 < F * F * F) by (repeat apply Rmult_lt_0_compat; lra).
  pose proof (right_cubic F G H e dl (dl - F * e - G * (e * e) / 2) ltac:(lra) RG RH He ltac:(ring) ltac:(lra) ltac:(lra) DP) as CB. cbv zeta in *.
  set (den := F * F * F + F * (dl * G) + H * (dl * dl) / 6) in *. replace (- F * (- F * - F - - dl * G) + - H * - dl * - dl / 6) with (- den) by (unfold den; field).
  replace (x - - dl * (- F * - F - - dl * G / 2) / - den - xs) with (e - dl * (F * F + dl * G / 2) / den) by (unfold e; field; lra). split; [lra|]. split; [lra|exact CB].
Qed.
Lemma left_turn x : xs - (g - xs) / 2 <= x <= xs -> dn x <> 0 /\ - (2 / 3 * (xs - x)) <= nx x - xs <= (xs - x) / 2 /\ Rabs (nx x - xs) <= 56 * ((xs - x) * (xs - x) * (xs - x)).
Proof.
  intros X. destruct gap as [GA XB]. destruct g_bd as [GB _]. destruct (region x ltac:(lra)) as [RF [RG RH]]. set (e := xs - x). assert (He : 0 <= e <= 78 / 1000) by (unfold e; lra).
  set (b := fun u => - tau lam 0 (x + u)). set (b1 := fun u => - f1 lam 0 (x + u)). set (b2 := fun u => - f2 lam 0 (x + u)). set (b3 := fun u => - f3 lam 0 (x + u)).
  assert (Db : forall u, 0 <= u <= e -> is_derive b u (b1 u)). { intros u U. unfold b, b1. apply (der_opp (fun u => tau lam 0 (x + u))), der_forth. apply (tau_ders lam L 0 (x + u)); unfold e in *; lra. }
  assert (Db1 : forall u, 0 <= u <= e -> is_derive b1 u (b2 u)). { intros u U. unfold b1, b2. apply (der_opp (fun u => f1 lam 0 (x + u))), der_forth. apply (tau_ders lam L 0 (x + u)); unfold e in *; lra. }
  assert (Db2 : forall u, 0 <= u <= e -> is_derive b2 u (b3 u)). { intros u U. unfold b2, b3. apply (der_opp (fun u => f2 lam 0 (x + u))), der_forth. apply (tau_ders lam L 0 (x + u)); unfold e in *; lra. }
  assert (B3 : forall u, 0 <= u <= e -> 0 <= b3 u <= 84 * - f1 lam 0 x). { intros u U. unfold b3. destruct (region (x + u) ltac:(unfold e in *; lra)) as [_ [_ R3]]. pose proof (f1_incr x (x + u) ltac:(lra) ltac:(unfold e in *; lra) ltac:(unfold e in *; lra)). lra. }
  pose proof (conv0 b b1 b2 b3 e (84 * - f1 lam 0 x) Db Db1 Db2 B3 e ltac:(lra)) as C0.
  assert (DU : - f1 lam 0 x * 0 - b 0 <= - f1 lam 0 x * e - b e). { apply (der_le (fun u => - f1 lam 0 x * u - b u) (fun u => - f1 lam 0 x * 1 - b1 u)); [lra| |].
    - intros u U. apply der_minus; [apply der_scal, der_id|apply Db; lra].
    - intros u U. unfold b1. pose proof (f1_incr x (x + u) ltac:(lra) ltac:(unfold e in *; lra) ltac:(unfold e in *; lra)). lra. }
  clear Db Db1 Db2 B3. unfold b, b1, b2 in C0, DU. clear b b1 b2 b3. rewrite !Rplus_0_r in C0, DU. replace (x + e) with xs in C0, DU by (unfold e; ring).
  unfold nx, dn, hstep, hden. unfold resid. rewrite <- ET. set (F := - f1 lam 0 x) in *. set (G := f2 lam 0 x) in *. set (H := - f3 lam 0 x) in *. replace (f1 lam 0 x) with (- F) by (unfold F; ring). replace (f3 lam 0 x) with (- H) by (unfold H; ring).
  set (dl := tau lam 0 x - tau lam 0 xs) in *. assert (FE : 0 <= F * e) by (apply Rmult_le_pos; lra). assert (HD : F * e - G * (e * e) / 2 <= dl <= F * e) by (unfold dl; lra). assert (HR : 0 <= dl - F * e + G * (e * e) / 2 <= 14 * F * (e * e * e)) by (unfold dl; lra). clearbody dl F G H. clear C0 DU.
  assert (HG : G * e <= F / 2). { assert (G * e <= 23 / 4 * F * (78 / 1000)) by (apply Rmult_le_compat; lra). lra. }
  assert (HY : H * (e * e) <= F). { assert (0 <= e * e <= 78 / 1000 * (78 / 1000)) by (split; [apply Rmult_le_pos; lra|apply Rmult_le_compat; lra]). assert (H * (e * e) <= 42 * F * (78 / 1000 * (78 / 1000))) by (apply Rmult_le_compat; lra). lra. }
  assert (D0 : 0 <= dl). { assert (G * e * e <= F / 2 * e) by (apply Rmult_le_compat_r; lra). lra. }
  destruct (left_step F G H e dl ltac:(lra) ltac:(lra) ltac:(lra) ltac:(lra) HD HG HY) as [DP BB]. assert (F3 : 0 < F * F * F) by (repeat apply Rmult_lt_0_compat; lra).
  pose proof (left_cubic F G H e dl (dl - F * e + G * (e * e) / 2) ltac:(lra) RG RH ltac:(lra) ltac:(ring) HR ltac:(lra) DP) as CB. cbv zeta in *.
  set (den := F * F * F - F * (dl * G) + H * (dl * dl) / 6) in *. replace (- F * (- F * - F - dl * G) + - H * dl * dl / 6) with (- den) by (unfold den; field).
  replace (x - dl * (- F * - F - dl * G / 2) / - den - xs) with (dl * (F * F - dl * G / 2) / den - e) by (unfold e; field; lra). split; [lra|]. split; [lra|exact CB].
Qed.
(** a turn from anywhere near the root *)
Definition inn (x : R) : Prop := xs - (- d / (d + 4) - xs) / 2 <= x <= - d / (d + 4).
Lemma turn x : inn x -> dn x <> 0 /\ inn (nx x) /\ Rabs (nx x - xs) <= 2 / 3 * Rabs (x - xs) /\ Rabs (nx x - xs) <= 56 * (Rabs (x - xs) * Rabs (x - xs) * Rabs (x - xs)).
Proof.
  unfold inn. fold g. intros X. destruct gap as [GA _]. destruct (Rle_dec xs x) as [C|C].
  - destruct (right_turn x ltac:(lra)) as [A [B D]]. rewrite (Rabs_right (x - xs)) by lra. split; [exact A|]. split; [lra|]. split; [apply Rabs_le_between; lra|exact D].
  - destruct (left_turn x ltac:(lra)) as [A [B D]]. rewrite (Rabs_left (x - xs)) by lra. replace (- (x - xs)) with (xs - x) by ring. split; [exact A|]. split; [lra|]. split; [apply Rabs_le_between; lra|exact D].
Qed.
(** ** the iteration *)
Let T := a0 + d.
Lemma run (P : R -> Prop) c st eps : 0 <= c -> (forall x, P x -> inn x /\ P (nx x) /\ Rabs (nx x - xs) <= c * Rabs (x - xs) /\ (Rabs (x - nx x) <= eps -> Rabs (nx x - xs) <= st)) ->
  forall n k err x it, P x -> (err <= eps -> Rabs (x - xs) <= st) ->
  exists x' err' it', house RA (Some lam) (n + k) (Some T) (Some eps) 0 (Some err) (Some x) it = house RA (Some lam) k (Some T) (Some eps) 0 (Some err') (Some x') it' /\
    P x' /\ (err' <= eps -> Rabs (x' - xs) <= st) /\ (Rabs (x' - xs) <= c ^ n * Rabs (x - xs) \/ err' <= eps).
Proof.
  intros C0 St. induction n as [|n IH]; intros k err x it HP HS.
  - exists x, err, it. split; [reflexivity|]. split; [exact HP|]. split; [exact HS|]. left. cbn [pow]. lra.
  - destruct (Rle_lt_dec err eps) as [C|C].
    + exists x, err, it. rewrite !house_end by exact C. split; [reflexivity|]. split; [exact HP|]. split; [exact HS|right; exact C].
    + destruct (St x HP) as [IN [PN [CN SN]]]. destruct (turn x IN) as [DN _]. destruct gap as [GA XB]. destruct g_bd as [GB _]. unfold inn in IN. fold g in IN. cbn [Nat.add]. rewrite (house_turn lam L (n + k) T eps 0 err x it) by (try exact DN; try (rewrite Rabs_left1); intros; try reflexivity; lra). fold (nx x).
      destruct (IH k (Rabs (x - nx x)) (nx x) (it + 1)%Z PN SN) as [x' [e' [i' [E [P' [S' R']]]]]]. exists x', e', i'. split; [exact E|]. split; [exact P'|]. split; [exact S'|]. destruct R' as [R'|R']; [left|right; exact R']. eapply Rle_trans; [exact R'|]. cbn [pow]. replace (c * c ^ n * Rabs (x - xs)) with (c ^ n * (c * Rabs (x - xs))) by ring. apply Rmult_le_compat_l; [apply pow_le; exact C0|exact CN].
Qed.
Lemma stop_close x : inn x -> Rabs (x - nx x) <= 1 / 100000 -> Rabs (nx x - xs) <= 2 / 1000000000000.
Proof.
  intros X S1. destruct (turn x X) as [_ [_ [A B]]]. assert (U : Rabs (x - xs) <= 3 / 100000). { assert (Rabs (x - xs) <= Rabs (x - nx x) + Rabs (nx x - xs)) by (replace (x - xs) with (x - nx x + (nx x - xs)) by ring; apply Rabs_triang). lra. }
  pose proof (Rabs_pos (x - xs)) as P0. set (u := Rabs (x - xs)) in *. clearbody u. assert (0 <= u * u <= 3 / 100000 * (3 / 100000)) by (split; [apply Rmult_le_pos; lra|apply Rmult_le_compat; lra]). assert (u * u * u <= 3 / 100000 * (3 / 100000) * (3 / 100000)) by (apply Rmult_le_compat; lra). lra.
Qed.
Lemma normal_root : exists x k, householder RA (Some lam) (Some T) (Some (- d / (d + 4))) 0 (Some (1 / 100000)) 15 = Ret (Some x, k) /\ inn x /\ Rabs (x - xs) <= 2 / 1000000000000.
Proof.
  destruct gap as [GA XB]. destruct g_bd as [GB _]. unfold householder. rewrite nat_r. change 15%nat with (7 + 8)%nat.
  destruct (run inn (2 / 3) (2 / 1000000000000) (1 / 100000) ltac:(lra)) with (n := 7%nat) (k := 8%nat) (err := 1) (x := - d / (d + 4)) (it := 0%Z) as [x1 [e1 [i1 [E1 [P1 [S1 R1]]]]]].
  - intros x X. destruct (turn x X) as [_ [B [C _]]]. split; [exact X|]. split; [exact B|]. split; [exact C|apply stop_close; exact X].
  - unfold inn. fold g. lra.
  - lra.
  - rewrite E1. clear E1. destruct (Rle_lt_dec e1 (1 / 100000)) as [C|C].
    + exists x1, i1. rewrite house_end by exact C. split; [reflexivity|]. split; [exact P1|exact (S1 C)].
    + destruct R1 as [R1|R1]; [|lra]. fold g in R1. rewrite (Rabs_right (g - xs)) in R1 by lra. assert (H7 : (2 / 3) ^ 7 * (g - xs) <= 1 / 100). { replace ((2 / 3) ^ 7) with (128 / 2187) by (cbn [pow]; field). lra. }
      change 8%nat with (8 + 0)%nat. destruct (run (fun x => inn x /\ Rabs (x - xs) <= 1 / 100) (1 / 100) (2 / 1000000000000) (1 / 100000) ltac:(lra)) with (n := 8%nat) (k := 0%nat) (err := e1) (x := x1) (it := i1) as [x2 [e2 [i2 [E2 [P2 [S2 R2]]]]]].
      * intros x [X B]. destruct (turn x X) as [_ [X' [_ D]]]. assert (CC : Rabs (nx x - xs) <= 1 / 100 * Rabs (x - xs)). { eapply Rle_trans; [exact D|]. pose proof (Rabs_pos (x - xs)). set (u := Rabs (x - xs)) in *. clearbody u. assert (u * u <= 1 / 100 * (1 / 100)) by (apply Rmult_le_compat; lra). assert (u * u * u <= 1 / 100 * (1 / 100) * u) by (apply Rmult_le_compat_r; lra). lra. }
        pose proof (Rabs_pos (x - xs)). split; [exact X|]. split; [split; [exact X'|lra]|]. split; [exact CC|apply stop_close; exact X].
      * split; [exact P1|lra].
      * exact S1.
      * rewrite E2. cbn [house]. exists x2, i2. split; [reflexivity|]. split; [exact (proj1 P2)|]. destruct R2 as [R2|R2]; [|exact (S2 R2)]. eapply Rle_trans; [exact R2|]. replace ((1 / 100) ^ 8) with (1 / 10000000000000000) by (cbn [pow]; field). lra.
Qed.
End Root.
Theorem normal_householder T : T0 lam <= T <= T0 lam + 3 / 2 -> exists xs x k, tau lam 0 xs = T /\ -3 / 7 <= xs <= 0 /\ householder RA (Some lam) (Some T) (Some (start lam T 0)) 0 (Some (1 / 100000)) 15 = Ret (Some x, k) /\ -1 < x < 1 /\
  Rabs (x - xs) <= 2 / 1000000000000 /\ Rabs (tau lam 0 x - T) <= 4 / 100000000000 * T.
Proof.
  intros HT. assert (EA : a0 = T0 lam) by (unfold a0; apply tau_at0). set (d := T - a0). assert (Hd : 0 <= d <= 3 / 2) by (unfold d; lra). assert (AP : 0 < a0) by (unfold a0; apply (tau_pos lam L 0 0); [lia|lra]).
  destruct (tau_solution0 lam L T ltac:(lra)) as [xs [[X1 ET] _]]. assert (ED : tau lam 0 xs = a0 + d) by (rewrite ET; unfold d; ring). destruct (gap d xs Hd X1 ED) as [GA XB]. destruct (g_bd d Hd) as [GB _]. destruct (normal_root d xs Hd X1 ED) as [x [k [E [IN R]]]]. exists xs, x, k. split; [exact ET|]. split; [lra|].
  assert (ES : start lam T 0 = - d / (d + 4)). { unfold start. cbn [Nat.eqb]. cbv zeta. fold (T0 lam). destruct (Rle_dec (T0 lam) T) as [_|C]; [|lra]. rewrite <- EA. reflexivity. }
  rewrite ES. replace T with (a0 + d) at 1 by (unfold d; ring). split; [exact E|]. unfold inn in IN. split; [lra|]. split; [exact R|].
  assert (ABD : 1 <= T). { destruct a_bd as [A1 A2]. destruct m_bd as [M1 M2]. pose proof PI_bd. destruct (Rle_dec 0 lam) as [C|C]; [specialize (A1 C); specialize (M1 C)|specialize (A2 ltac:(lra)); specialize (M2 ltac:(lra))]; lra. }
  assert (D : Rabs (tau lam 0 x - tau lam 0 xs) <= 16 * Rabs (x - xs)). { apply (mean_bound (tau lam 0) (f1 lam 0) (-51 / 100) 0 16); [intros t Ht; apply (tau_ders lam L 0 t); lra|intros t Ht; destruct (region t Ht) as [RF _]; apply Rabs_le_between; lra|lra|lra]. }
  rewrite ET in D. lra.
Qed.
End Normal.
(** ** the constructor *)
Theorem normal_transfer r0 r1 tof mu cw mr : vz (cross r0 r1) <> 0 -> 0 < mu -> (0 <= mr < u32)%Z ->
  let lam := transfer_lambda r0 r1 cw in Rabs lam <= 4 / 5 -> let t0 := acos lam + lam * sqrt (1 - lam * lam) in t0 <= tof / time_unit r0 r1 mu <= t0 + 3 / 2 ->
  exists L v0 v1 t, lambert_r r0 r1 tof mu cw mr = Ret L /\ nth_error (l_v0 L) 0 = Some (sv v0) /\ nth_error (l_v1 L) 0 = Some (sv v1) /\
    flow_at mu (r0, v0) t (r1, v1) /\ Rabs (t - tof) <= 4 / 100000000000 * tof.
Proof.
  intros Hc Hm M lam HA t0 HT. pose proof (time_unit_pos _ _ _ (lambert_nd _ _ Hc) Hm) as UP. pose proof (lam_small r0 r1 cw Hc) as LS. fold lam in LS. set (u := time_unit r0 r1 mu) in *.
  assert (HL : lam * lam <= 16 / 25). { replace (lam * lam) with (Rabs lam * Rabs lam) by (rewrite <- Rabs_mult, Rabs_right by nra; reflexivity). pose proof (Rabs_pos lam). assert (Rabs lam * Rabs lam <= 4 / 5 * (4 / 5)) by (apply Rmult_le_compat; lra). lra. }
  change t0 with (T0 lam) in HT. assert (AP : 0 < T0 lam <= 4). { unfold T0. rewrite <- tau_at0. fold (a0 lam). split; [unfold a0; apply (tau_pos lam LS 0 0); [lia|lra]|]. pose proof (s_bd lam HL 0 ltac:(lra)) as SB. pose proof (K_bd lam HL 0 ltac:(lra)) as KB. pose proof (q_bd lam HL 0 ltac:(lra)) as [Q1 Q2]. pose proof (m_bd lam HL) as [M1 M2]. destruct (Rle_dec 0 lam) as [C|C]; [specialize (Q1 C); specialize (M1 C)|specialize (Q2 ltac:(lra)); specialize (M2 ltac:(lra))]; lra. }
  assert (ET : tof / u * u = tof) by (field; lra). assert (TP : 0 < tof / u) by lra. assert (Ht : 0 < tof) by (rewrite <- ET; apply Rmult_lt_0_compat; lra).
  assert (B : tof / u / PI < IZR u32). { pose proof PI2_3_2. apply Rlt_div_l; [lra|]. unfold u32. lra. }
  destruct (proj1 (lambert_run r0 r1 tof mu cw mr Hc Ht Hm M) B) as [L HR]. destruct (first_entry r0 r1 tof mu cw mr L Hc M HR) as [x' [k' [HH [HX _]]]].
  destruct (normal_householder lam HL (tof / u) HT) as [xs [x [k [_ [_ [E [X [_ R]]]]]]]]. fold lam u in HH. rewrite E in HH. injection HH as <- <-.
  destruct (lambert_flow r0 r1 tof mu cw mr L 0 x Hc HR HX ltac:(lra) ltac:(intros; reflexivity)) as [v0 [v1 [A0 [A1 F]]]].
  change ((Z.of_nat 0 + 1) / 2)%Z with 0%Z in F. fold lam u in F. exists L, v0, v1, (tau lam 0 x * u). split; [exact HR|]. split; [exact A0|]. split; [exact A1|]. split; [exact F|].
  replace (tau lam 0 x * u - tof) with ((tau lam 0 x - tof / u) * u) by (field; lra). rewrite Rabs_mult, (Rabs_right u) by lra. rewrite <- ET at 2. rewrite <- Rmult_assoc. apply Rmult_le_compat_r; lra.
Qed.
(** (25, 0, 0) to (7, 24, 0), mu = 32000, in time 2 *)
Lemma ex_normal : exists L v0 v1 t, lambert_r ex_r0 ex_r1 2 32000 false 0 = Ret L /\ nth_error (l_v0 L) 0 = Some (sv v0) /\ nth_error (l_v1 L) 0 = Some (sv v1) /\ flow_at 32000 (ex_r0, v0) t (ex_r1, v1) /\ Rabs (t - 2) <= 1 / 10000000000.
Proof.
  assert (Hc : vz (cross ex_r0 ex_r1) <> 0) by (rewrite ex_cross; lra). assert (HL : 1 / 2 * (1 / 2) <= 16 / 25) by lra. destruct (a_bd (1 / 2) HL) as [AB _]. specialize (AB ltac:(lra)). unfold a0 in AB. rewrite tau_at0 in AB. pose proof PI_bd.
  destruct (normal_transfer ex_r0 ex_r1 2 32000 false 0 Hc ltac:(lra) ltac:(unfold u32; lia)) as [L [v0 [v1 [t [A [B [C [D E]]]]]]]].
  - rewrite ex_lambda, Rabs_right by lra. lra.
  - rewrite ex_unit, ex_lambda. lra.
  - exists L, v0, v1, t. repeat (split; [assumption|]). lra.
Qed.
