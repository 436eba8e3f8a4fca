(** * The order of convergence of the Householder and Halley iterations of lambert_problem *)
From Coq Require Import Reals ZArith List Bool Lra Lia Psatz.
From Coquelicot Require Import Coquelicot.
From Verif Require Import Outcome PartialReal RealLib Vec3 ElemProofs LambertModel LambertReal LambertProofs LambertSpec LambertTime LambertSeries LambertVec LambertTof LambertDer LambertMono LambertMain LambertRevs.
Import ListNotations.
Open Scope R_scope.

(** ** one step, for any function *)
Lemma mean_bound (f f' : R -> R) a b K : (forall t, a <= t <= b -> is_derive f t (f' t)) -> (forall t, a <= t <= b -> Rabs (f' t) <= K) ->
  forall x y, a <= x <= b -> a <= y <= b -> Rabs (f x - f y) <= K * Rabs (x - y).
Proof.
  intros D B. assert (W : forall x y, x < y -> a <= x -> y <= b -> Rabs (f x - f y) <= K * Rabs (x - y)).
  { intros x y L A1 A2. destruct (MVT_cor2 f f' x y L) as [c [E C]]; [intros c C; apply is_derive_Reals, D; lra|]. rewrite (Rabs_minus_sym (f x)), E, Rabs_mult, (Rabs_minus_sym x). apply Rmult_le_compat_r; [apply Rabs_pos|apply B; lra]. }
  intros x y X Y. destruct (Rtotal_order x y) as [L|[->|L]].
  - apply W; lra.
  - rewrite !Rminus_eq_0, Rabs_R0. lra.
  - rewrite Rabs_minus_sym, (Rabs_minus_sym x). apply W; lra.
Qed.
Lemma prod_le a b A B : Rabs a <= A -> Rabs b <= B -> Rabs (a * b) <= A * B.
Proof. intros H1 H2. rewrite Rabs_mult. apply Rmult_le_compat; try apply Rabs_pos; assumption. Qed.
Lemma sum_le a b A B : Rabs a <= A -> Rabs b <= B -> Rabs (a + b) <= A + B.
Proof. intros H1 H2. eapply Rle_trans; [apply Rabs_triang|lra]. Qed.
Lemma sub_le a b A B : Rabs a <= A -> Rabs b <= B -> Rabs (a - b) <= A + B.
Proof. intros H1 H2. unfold Rminus. apply sum_le; [exact H1|rewrite Rabs_Ropp; exact H2]. Qed.

Section Step.
Variables (f f1 f2 f3 f4 : R -> R) (a b M m : R).
Hypothesis Df : forall t, a <= t <= b -> is_derive f t (f1 t).
Hypothesis D1' : forall t, a <= t <= b -> is_derive f1 t (f2 t).
Hypothesis D2' : forall t, a <= t <= b -> is_derive f2 t (f3 t).
Hypothesis D3' : forall t, a <= t <= b -> is_derive f3 t (f4 t).
Hypothesis Bf : forall t, a <= t <= b -> Rabs (f1 t) <= M /\ Rabs (f2 t) <= M /\ Rabs (f3 t) <= M /\ Rabs (f4 t) <= M.
Hypothesis m0 : 0 < m.
Hypothesis Lf : forall t, a <= t <= b -> m <= Rabs (f1 t).
Variables (xs x : R).
Hypothesis Xs : a <= xs <= b.
Hypothesis Xx : a <= x <= b.
Hypothesis Z : f xs = 0.
Let e := x - xs.
Lemma M_pos : 0 < M. Proof. destruct (Bf xs Xs) as [H _]. pose proof (Lf xs Xs). lra. Qed.
Lemma m_le_M : m <= M. Proof. destruct (Bf xs Xs) as [H _]. pose proof (Lf xs Xs). lra. Qed.
(** Taylor's formula at x, to the third order *)
Definition rest : R := f x - e * (f1 x - e * (f2 x / 2 - e * f3 x / 6)).
Lemma rest_le : Rabs rest <= M / 6 * (Rabs e * Rabs e * Rabs e * Rabs e).
Proof.
  set (g := fun t => f t + f1 t * (xs - t) + f2 t * ((xs - t) * (xs - t)) / 2 + f3 t * ((xs - t) * (xs - t) * (xs - t)) / 6).
  assert (G : forall t, a <= t <= b -> is_derive g t (f4 t * ((xs - t) * (xs - t) * (xs - t)) / 6)).
  { intros t T. assert (I : is_derive (fun t => xs - t) t (-1)) by (eapply der_to; [apply der_minus; [apply der_const|apply der_id]|ring]). unfold g. eapply der_to.
    - apply der_plus; [apply der_plus; [apply der_plus; [apply Df; exact T|apply der_mult; [apply D1'; exact T|exact I]]|]|].
      + apply der_div; [apply der_mult; [apply D2'; exact T|apply der_mult; exact I]|apply der_const|lra].
      + apply der_div; [apply der_mult; [apply D3'; exact T|apply der_mult; [apply der_mult; exact I|exact I]]|apply der_const|lra].
    - cbv beta. field. }
  assert (E0 : g xs = 0) by (unfold g; rewrite Z; field). assert (E1 : g x = rest) by (unfold g, rest, e; field).
  rewrite <- E1, <- (Rminus_0_r (g x)), <- E0. destruct (Req_dec x xs) as [EQ|NE].
  { rewrite EQ at 1. unfold e. rewrite EQ, !Rminus_eq_0, Rabs_R0. lra. }
  set (c := Rmin x xs). set (d := Rmax x xs).
  assert (CX : c <= x <= d /\ c <= xs <= d) by (unfold c, d; pose proof (Rmin_l x xs); pose proof (Rmin_r x xs); pose proof (Rmax_l x xs); pose proof (Rmax_r x xs); lra).
  assert (CB : a <= c /\ d <= b) by (unfold c, d; split; [apply Rmin_glb; lra|apply Rmax_lub; lra]).
  assert (LE : forall t, c <= t <= d -> Rabs (xs - t) <= Rabs e). { intros t T. unfold e, c, d, Rmin, Rmax in *. destruct (Rle_dec x xs); unfold Rabs; destruct (Rcase_abs (xs - t)); destruct (Rcase_abs (x - xs)); lra. }
  replace (M / 6 * (Rabs e * Rabs e * Rabs e * Rabs e)) with (M / 6 * (Rabs e * Rabs e * Rabs e) * Rabs (x - xs)) by (unfold e; ring).
  apply (mean_bound g (fun t => f4 t * ((xs - t) * (xs - t) * (xs - t)) / 6) c d).
  - intros t T. apply G. lra.
  - intros t T. specialize (LE t T). replace (f4 t * ((xs - t) * (xs - t) * (xs - t)) / 6) with (f4 t / 6 * ((xs - t) * (xs - t) * (xs - t))) by field. apply prod_le; [|repeat apply prod_le; exact LE].
    unfold Rdiv. rewrite Rabs_mult, (Rabs_pos_eq (/ 6)) by lra. apply Rmult_le_compat_r; [lra|]. apply (Bf t). lra.
  - tauto.
  - tauto.
Qed.
Lemma f_le : Rabs (f x) <= M * Rabs e.
Proof. replace (f x) with (f x - f xs) by lra. unfold e. apply (mean_bound f f1 a b); try assumption. intros t T. apply (Bf t T). Qed.

(** Householder *)
Definition hden : R := f1 x * (f1 x * f1 x - f x * f2 x) + f3 x * f x * f x / 6.
Definition hstep : R := x - f x * (f1 x * f1 x - f x * f2 x / 2) / hden.
Lemma cube_abs u : Rabs u * Rabs u * Rabs u = Rabs (u * u * u). Proof. rewrite !Rabs_mult. reflexivity. Qed.
Lemma hden_ge : Rabs e <= m * m * m / (12 * (M * M * M)) -> m * m * m / 2 <= Rabs hden.
Proof.
  intros S. pose proof M_pos as MP. pose proof m_le_M as mM. assert (M3 : 0 < M * M * M) by (repeat apply Rmult_lt_0_compat; exact MP). assert (m3 : 0 < m * m * m) by (repeat apply Rmult_lt_0_compat; exact m0).
  assert (S' : 12 * (M * M * M) * Rabs e <= m * m * m). { apply (Rmult_le_compat_l (12 * (M * M * M))) in S; [|lra]. replace (12 * (M * M * M) * (m * m * m / (12 * (M * M * M)))) with (m * m * m) in S by (field; lra). exact S. }
  assert (mc : m * m * m <= M * M * M) by (repeat apply Rmult_le_compat; try lra; apply Rmult_le_pos; lra).
  assert (E1 : Rabs e <= 1) by (pose proof (Rabs_pos e); nra).
  destruct (Bf x Xx) as [B1 [B2 [B3 _]]]. pose proof f_le as F. pose proof (Lf x Xx) as LL.
  assert (F1 : Rabs (f x) <= M) by (pose proof (Rabs_pos e); nra).
  replace hden with (f1 x * f1 x * f1 x - f x * (f1 x * f2 x - f3 x * f x / 6)) by (unfold hden; field).
  assert (A : Rabs (f x * (f1 x * f2 x - f3 x * f x / 6)) <= M * Rabs e * (M * M + M * M * / 6)). { apply prod_le; [exact F|]. apply sub_le; [apply prod_le; assumption|]. unfold Rdiv. apply prod_le; [apply prod_le; assumption|rewrite Rabs_pos_eq; lra]. }
  assert (C : m * m * m <= Rabs (f1 x * f1 x * f1 x)). { rewrite <- cube_abs. repeat apply Rmult_le_compat; try lra. apply Rmult_le_pos; lra. }
  pose proof (Rabs_triang_inv (f1 x * f1 x * f1 x) (f x * (f1 x * f2 x - f3 x * f x / 6))). pose proof (Rabs_pos e). nra.
Qed.
Theorem householder_order : Rabs e <= m * m * m / (12 * (M * M * M)) -> hden <> 0 /\ Rabs (hstep - xs) <= 6 * (M * M * M) / (m * m * m) * (Rabs e * Rabs e * Rabs e * Rabs e).
Proof.
  intros S. pose proof (hden_ge S) as H. pose proof M_pos as MP. pose proof m_le_M as mM. assert (M3 : 0 < M * M * M) by (repeat apply Rmult_lt_0_compat; exact MP). assert (m3 : 0 < m * m * m) by (repeat apply Rmult_lt_0_compat; exact m0).
  assert (NZ : hden <> 0) by (intros C; rewrite C, Rabs_R0 in H; lra). split; [exact NZ|].
  assert (S' : 12 * (M * M * M) * Rabs e <= m * m * m). { apply (Rmult_le_compat_l (12 * (M * M * M))) in S; [|lra]. replace (12 * (M * M * M) * (m * m * m / (12 * (M * M * M)))) with (m * m * m) in S by (field; lra). exact S. }
  assert (mc : m * m * m <= M * M * M) by (repeat apply Rmult_le_compat; try lra; apply Rmult_le_pos; lra).
  assert (E0 := Rabs_pos e). assert (E1 : Rabs e <= 1) by nra. destruct (Bf x Xx) as [B1 [B2 [B3 _]]]. pose proof rest_le as RL.
  set (s := f2 x / 2 - e * f3 x / 6). set (P := f2 x * s * s / 2 - f1 x * f3 x * s / 3 + e * f3 x * s * s / 6). set (A := e * (f1 x - e * s)). set (Q := (2 * A + rest) * (e * f3 x / 6 + f2 x / 2) - e * f1 x * f2 x - f1 x * f1 x).
  assert (EF : f x = A + rest) by (unfold rest, A, s; ring).
  assert (EN : hstep - xs = (e * e * e * e * P + rest * Q) / hden). { unfold hstep. apply (Rmult_eq_reg_r hden); [|exact NZ]. transitivity (e * hden - f x * (f1 x * f1 x - f x * f2 x / 2)); [unfold e; field; exact NZ|]. replace ((e * e * e * e * P + rest * Q) / hden * hden) with (e * e * e * e * P + rest * Q) by (field; exact NZ). unfold hden. rewrite EF. unfold Q, P, A, s. field. }
  assert (h : forall k, 0 <= k -> Rabs k <= k) by (intros k K; rewrite Rabs_pos_eq; lra).
  assert (sB : Rabs s <= M * / 2 + 1 * M * / 6) by (unfold s, Rdiv; apply sub_le; repeat apply prod_le; try assumption; apply h; lra).
  assert (sM : Rabs s <= M) by lra.
  assert (PB : Rabs P <= M * M * M * / 2 + M * M * M * / 3 + 1 * M * M * M * / 6) by (unfold P, Rdiv; apply sum_le; [apply sub_le|]; repeat apply prod_le; try assumption; apply h; lra).
  assert (AB : Rabs A <= 1 * (M + 1 * M)) by (unfold A; apply prod_le; [exact E1|apply sub_le; [exact B1|apply prod_le; assumption]]).
  assert (E4 : 0 <= Rabs e * Rabs e * Rabs e * Rabs e <= 1) by (split; [repeat apply Rmult_le_pos; exact E0|]; replace 1 with (1 * 1 * 1 * 1) by ring; repeat apply Rmult_le_compat; try lra; repeat apply Rmult_le_pos; exact E0).
  assert (RB : Rabs rest <= M * / 6) by nra.
  assert (QB : Rabs Q <= (2 * (1 * (M + 1 * M)) + M * / 6) * (1 * M * / 6 + M * / 2) + 1 * M * M + M * M).
  { unfold Q, Rdiv. apply sub_le; [apply sub_le|]; [apply prod_le| |].
    - apply sum_le; [apply prod_le; [apply h; lra|exact AB]|exact RB].
    - apply sum_le; repeat apply prod_le; try assumption; apply h; lra.
    - repeat apply prod_le; assumption.
    - apply prod_le; assumption. }
  assert (QM : Rabs Q <= 6 * (M * M)) by (pose proof (Rmult_lt_0_compat _ _ MP MP); lra).
  rewrite EN. unfold Rdiv at 1. rewrite Rabs_mult, Rabs_inv.
  assert (NB : Rabs (e * e * e * e * P + rest * Q) <= 3 * (M * M * M) * (Rabs e * Rabs e * Rabs e * Rabs e)).
  { eapply Rle_trans; [apply Rabs_triang|]. rewrite !Rabs_mult. set (e4 := Rabs e * Rabs e * Rabs e * Rabs e) in *. assert (e4 * Rabs P <= e4 * (M * M * M)) by (apply Rmult_le_compat_l; lra). assert (Rabs rest * Rabs Q <= M / 6 * e4 * (6 * (M * M))) by (apply Rmult_le_compat; try apply Rabs_pos; assumption). nra. }
  assert (IB : / Rabs hden <= / (m * m * m / 2)) by (apply Rinv_le_contravar; lra).
  replace (6 * (M * M * M) / (m * m * m) * (Rabs e * Rabs e * Rabs e * Rabs e)) with (3 * (M * M * M) * (Rabs e * Rabs e * Rabs e * Rabs e) * / (m * m * m / 2)) by (field; lra).
  apply Rmult_le_compat; [apply Rabs_pos|apply Rlt_le, Rinv_0_lt_compat; lra|exact NB|exact IB].
Qed.
End Step.

(** Halley *)
Section Step2.
Variables (g g1 g2 g3 : R -> R) (a b M m : R).
Hypothesis Dg : forall t, a <= t <= b -> is_derive g t (g1 t).
Hypothesis Dg1 : forall t, a <= t <= b -> is_derive g1 t (g2 t).
Hypothesis Dg2 : forall t, a <= t <= b -> is_derive g2 t (g3 t).
Hypothesis Bg : forall t, a <= t <= b -> Rabs (g1 t) <= M /\ Rabs (g2 t) <= M /\ Rabs (g3 t) <= M.
Hypothesis m0 : 0 < m.
Hypothesis Lg : forall t, a <= t <= b -> m <= Rabs (g1 t).
Variables (xm x : R).
Hypothesis Xm : a <= xm <= b.
Hypothesis Xx : a <= x <= b.
Hypothesis Z : g xm = 0.
Let e := x - xm.
Definition rest2 : R := g x - e * (g1 x - e * g2 x / 2).
Lemma rest2_le : Rabs rest2 <= M / 2 * (Rabs e * Rabs e * Rabs e).
Proof.
  set (h := fun t => g t + g1 t * (xm - t) + g2 t * ((xm - t) * (xm - t)) / 2).
  assert (G : forall t, a <= t <= b -> is_derive h t (g3 t * ((xm - t) * (xm - t)) / 2)).
  { intros t T. assert (I : is_derive (fun t => xm - t) t (-1)) by (eapply der_to; [apply der_minus; [apply der_const|apply der_id]|ring]). unfold h. eapply der_to.
    - apply der_plus; [apply der_plus; [apply Dg; exact T|apply der_mult; [apply Dg1; exact T|exact I]]|].
      apply der_div; [apply der_mult; [apply Dg2; exact T|apply der_mult; exact I]|apply der_const|lra].
    - cbv beta. field. }
  assert (E0 : h xm = 0) by (unfold h; rewrite Z; field). assert (E1 : h x = rest2) by (unfold h, rest2, e; field).
  rewrite <- E1, <- (Rminus_0_r (h x)), <- E0.
  set (c := Rmin x xm). set (d := Rmax x xm).
  assert (CX : c <= x <= d /\ c <= xm <= d) by (unfold c, d; pose proof (Rmin_l x xm); pose proof (Rmin_r x xm); pose proof (Rmax_l x xm); pose proof (Rmax_r x xm); lra).
  assert (CB : a <= c /\ d <= b) by (unfold c, d; split; [apply Rmin_glb; lra|apply Rmax_lub; lra]).
  assert (LE : forall t, c <= t <= d -> Rabs (xm - t) <= Rabs e). { intros t T. unfold e, c, d, Rmin, Rmax in *. destruct (Rle_dec x xm); unfold Rabs; destruct (Rcase_abs (xm - t)); destruct (Rcase_abs (x - xm)); lra. }
  replace (M / 2 * (Rabs e * Rabs e * Rabs e)) with (M / 2 * (Rabs e * Rabs e) * Rabs (x - xm)) by (unfold e; ring).
  apply (mean_bound h (fun t => g3 t * ((xm - t) * (xm - t)) / 2) c d).
  - intros t T. apply G. lra.
  - intros t T. specialize (LE t T). replace (g3 t * ((xm - t) * (xm - t)) / 2) with (g3 t / 2 * ((xm - t) * (xm - t))) by field. apply prod_le; [|apply prod_le; exact LE].
    unfold Rdiv. rewrite Rabs_mult, (Rabs_pos_eq (/ 2)) by lra. apply Rmult_le_compat_r; [lra|]. apply (Bg t). lra.
  - tauto.
  - tauto.
Qed.
Definition kden : R := g1 x * g1 x - g x * g2 x / 2.
Theorem halley_order : Rabs e <= m * m / (4 * (M * M)) -> kden <> 0 /\ Rabs (x - g x * g1 x / kden - xm) <= 2 * (M * M) / (m * m) * (Rabs e * Rabs e * Rabs e).
Proof.
  intros S. destruct (Bg xm Xm) as [BM _]. pose proof (Lg xm Xm) as LM. assert (MP : 0 < M) by lra. assert (mM : m <= M) by lra. clear BM LM.
  assert (M2 : 0 < M * M) by (apply Rmult_lt_0_compat; exact MP). assert (m2 : 0 < m * m) by (apply Rmult_lt_0_compat; exact m0). assert (mc : m * m <= M * M) by (apply Rmult_le_compat; lra).
  assert (S' : 4 * (M * M) * Rabs e <= m * m). { apply (Rmult_le_compat_l (4 * (M * M))) in S; [|lra]. replace (4 * (M * M) * (m * m / (4 * (M * M)))) with (m * m) in S by (field; lra). exact S. }
  assert (E0 := Rabs_pos e). assert (E1 : Rabs e <= 1) by nra. destruct (Bg x Xx) as [B1 [B2 _]]. pose proof (Lg x Xx) as LL.
  assert (F : Rabs (g x) <= M * Rabs e). { replace (g x) with (g x - g xm) by lra. unfold e. apply (mean_bound g g1 a b); try assumption. intros t T. apply (Bg t T). }
  assert (H : m * m / 2 <= Rabs kden).
  { unfold kden. assert (A : Rabs (g x * g2 x / 2) <= M * Rabs e * M * / 2) by (unfold Rdiv; repeat apply prod_le; try assumption; rewrite Rabs_pos_eq; lra).
    assert (C : m * m <= Rabs (g1 x * g1 x)) by (rewrite Rabs_mult; apply Rmult_le_compat; lra).
    pose proof (Rabs_triang_inv (g1 x * g1 x) (g x * g2 x / 2)). nra. }
  assert (NZ : kden <> 0) by (intros C; rewrite C, Rabs_R0 in H; lra). split; [exact NZ|].
  pose proof rest2_le as RL. assert (EF : g x = e * (g1 x - e * g2 x / 2) + rest2) by (unfold rest2; ring).
  assert (EN : x - g x * g1 x / kden - xm = (e * e * e * (g2 x * g2 x / 4) - rest2 * (e * g2 x / 2 + g1 x)) / kden).
  { apply (Rmult_eq_reg_r kden); [|exact NZ]. transitivity (e * kden - g x * g1 x); [unfold e; field; exact NZ|]. replace ((e * e * e * (g2 x * g2 x / 4) - rest2 * (e * g2 x / 2 + g1 x)) / kden * kden) with (e * e * e * (g2 x * g2 x / 4) - rest2 * (e * g2 x / 2 + g1 x)) by (field; exact NZ). unfold kden. rewrite EF. field. }
  rewrite EN. unfold Rdiv at 1. rewrite Rabs_mult, Rabs_inv.
  assert (e3 : 0 <= Rabs e * Rabs e * Rabs e) by (repeat apply Rmult_le_pos; exact E0).
  assert (NB : Rabs (e * e * e * (g2 x * g2 x / 4) - rest2 * (e * g2 x / 2 + g1 x)) <= Rabs e * Rabs e * Rabs e * (M * M * / 4) + M / 2 * (Rabs e * Rabs e * Rabs e) * (1 * M * / 2 + M)).
  { apply sub_le; unfold Rdiv.
    - apply prod_le; [rewrite <- !Rabs_mult; lra|]. repeat apply prod_le; try assumption. rewrite Rabs_pos_eq; lra.
    - apply prod_le; [exact RL|]. apply sum_le; [|exact B1]. repeat apply prod_le; try assumption. rewrite Rabs_pos_eq; lra. }
  assert (IB : / Rabs kden <= / (m * m / 2)) by (apply Rinv_le_contravar; lra).
  replace (2 * (M * M) / (m * m) * (Rabs e * Rabs e * Rabs e)) with (Rabs e * Rabs e * Rabs e * (M * M) * / (m * m / 2)) by (field; lra).
  apply Rmult_le_compat; [apply Rabs_pos|apply Rlt_le, Rinv_0_lt_compat; lra|nra|exact IB].
Qed.
End Step2.

(** ** the fourth derivative of the time of flight, and bounds over an interval *)
Lemma continuous_bound (f : R -> R) a b : a <= b -> (forall t, a <= t <= b -> exists d : R, is_derive f t d) -> exists M, forall t, a <= t <= b -> Rabs (f t) <= M.
Proof.
  intros AB D. destruct (continuity_ab_maj (fun t => Rabs (f t)) a b AB) as [c [H _]]; [|exists (Rabs (f c)); exact H].
  intros t T. apply (continuity_pt_comp f Rabs); [|apply Rcontinuity_abs]. destruct (D t T) as [d E]. apply derivable_continuous_pt. exists d. apply is_derive_Reals, E.
Qed.
Lemma continuous_away (f : R -> R) a b : a <= b -> (forall t, a <= t <= b -> exists d : R, is_derive f t d) -> (forall t, a <= t <= b -> f t <> 0) -> exists m, 0 < m /\ forall t, a <= t <= b -> m <= Rabs (f t).
Proof.
  intros AB D NZ. destruct (continuity_ab_min (fun t => Rabs (f t)) a b AB) as [c [H C]]; [|exists (Rabs (f c)); split; [apply Rabs_pos_lt, NZ, C|exact H]].
  intros t T. apply (continuity_pt_comp f Rabs); [|apply Rcontinuity_abs]. destruct (D t T) as [d E]. apply derivable_continuous_pt. exists d. apply is_derive_Reals, E.
Qed.
Section Conv.
Variable lam : R.
Hypothesis L : lam * lam < 1.
Let y (x : R) := lam_y lam x.
Definition D4 (T x : R) : R := (9 * x * D3 lam T x + 15 * D2 lam T x - 6 * (1 - lam * lam) * (lam * lam) * (lam * lam * lam) * (/ (y x * y x * y x * (y x * y x)) - 5 * (lam * lam) * (x * x) / (y x * y x * y x * (y x * y x) * (y x * y x)))) / (1 - x * x).
Lemma d4_of (T : R -> R) x : x * x <> 1 -> is_derive T x (D1 lam (T x) x) -> is_derive (fun t => D3 lam (T t) t) x (D4 (T x) x).
Proof.
  intros X D. assert (X' : 1 - x * x <> 0) by lra. destruct (ly_sq lam L x) as [P Y2]. fold (y x) in P, Y2. pose proof (d2_of lam L T x X D) as E. pose proof (d3_of lam L T x X D) as E3. unfold D3 at 1. fold y.
  assert (Y3 : y x * y x * y x <> 0) by (apply Rgt_not_eq; repeat apply Rmult_lt_0_compat; exact P). assert (YY : y x * y x <> 0) by (apply Rgt_not_eq; repeat apply Rmult_lt_0_compat; exact P).
  eapply der_to.
  - apply der_div; [|apply der_minus; [apply der_const|apply der_mult; apply der_id]|exact X'].
    apply der_minus; [apply der_plus; [apply (der_mult (fun t => 7 * t) (fun t => D2 lam (T t) t)); [apply der_scal, der_id|exact E3]|apply der_scal; exact E]|].
    apply der_div; [apply der_div; [apply der_scal, der_id|apply der_mult; [apply der_mult; apply (y_derive lam L)|apply (y_derive lam L)]|exact Y3]|apply der_mult; apply (y_derive lam L)|exact YY].
  - cbv beta. unfold D4. fold (y x). set (d := D1 lam (T x) x) in *. set (h := D2 lam (T x) x) in *. set (k := D3 lam (T x) x) in *.
    assert (Ek : k * (1 - x * x) = 7 * x * h + 8 * d - 6 * (1 - lam * lam) * (lam * lam) * (lam * lam * lam) * x / (y x * y x * y x) / (y x * y x)) by (unfold k, D3; fold d h; fold (y x); field; lra).
    change (lam_y lam x) with (y x).
    apply (Rmult_eq_reg_r ((1 - x * x) * (1 - x * x))); [|apply Rmult_integral_contrapositive_currified; exact X'].
    transitivity ((7 * h + 7 * x * k + 8 * h - 6 * (1 - lam * lam) * (lam * lam) * (lam * lam * lam) * (/ (y x * y x * y x * (y x * y x)) - 5 * (lam * lam) * (x * x) / (y x * y x * y x * (y x * y x) * (y x * y x)))) * (1 - x * x) + 2 * x * (7 * x * h + 8 * d - 6 * (1 - lam * lam) * (lam * lam) * (lam * lam * lam) * x / (y x * y x * y x) / (y x * y x))); [field; lra|].
    rewrite <- Ek. field. lra.
Qed.
Lemma d5_of (T : R -> R) x : x * x <> 1 -> is_derive T x (D1 lam (T x) x) -> exists d : R, is_derive (fun t => D4 (T t) t) x d.
Proof.
  intros X D. assert (X' : 1 - x * x <> 0) by lra. destruct (ly_sq lam L x) as [P _]. fold (y x) in P. pose proof (d3_of lam L T x X D) as E3. pose proof (d4_of T x X D) as E4. unfold D4 at 1.
  assert (Y5 : y x * y x * y x * (y x * y x) <> 0) by (apply Rgt_not_eq; repeat apply Rmult_lt_0_compat; exact P). assert (Y7 : y x * y x * y x * (y x * y x) * (y x * y x) <> 0) by (apply Rgt_not_eq; repeat apply Rmult_lt_0_compat; exact P).
  pose proof (y_derive lam L x) as YD. fold y in YD. fold (y x) in YD.
  assert (YD2 : is_derive (fun t => y t * y t) x _) by (apply der_mult; exact YD). assert (YD3 : is_derive (fun t => y t * y t * y t) x _) by (apply der_mult; [exact YD2|exact YD]). assert (YD5 : is_derive (fun t => y t * y t * y t * (y t * y t)) x _) by (apply (der_mult (fun t => y t * y t * y t) (fun t => y t * y t)); [exact YD3|exact YD2]). assert (YD7 : is_derive (fun t => y t * y t * y t * (y t * y t) * (y t * y t)) x _) by (apply (der_mult (fun t => y t * y t * y t * (y t * y t)) (fun t => y t * y t)); [exact YD5|exact YD2]).
  eexists. apply der_div; [|apply der_minus; [apply der_const|apply der_mult; apply der_id]|exact X'].
  apply der_minus; [apply der_plus; [apply (der_mult (fun t => 9 * t) (fun t => D3 lam (T t) t)); [apply der_scal, der_id|exact E4]|apply der_scal; exact E3]|].
  apply der_scal. apply der_minus; [apply (der_inv (fun t => y t * y t * y t * (y t * y t))); [exact YD5|exact Y5]|]. apply der_div; [apply der_scal; apply der_mult; apply der_id|exact YD7|exact Y7].
Qed.
Definition f1 (N : Z) (t : R) : R := D1 lam (tau lam N t) t.
Definition f2 (N : Z) (t : R) : R := D2 lam (tau lam N t) t.
Definition f3 (N : Z) (t : R) : R := D3 lam (tau lam N t) t.
Definition f4 (N : Z) (t : R) : R := D4 (tau lam N t) t.
Lemma sq_ne t : -1 < t -> t <> 1 -> t * t <> 1. Proof. intros A B C. apply B. nra. Qed.
Lemma tau_ders N t : -1 < t -> t <> 1 -> is_derive (tau lam N) t (f1 N t) /\ is_derive (f1 N) t (f2 N t) /\ is_derive (f2 N) t (f3 N t) /\ is_derive (f3 N) t (f4 N t) /\ exists d : R, is_derive (f4 N) t d.
Proof.
  intros A B. pose proof (tau_derive lam L N t A B) as E. pose proof (sq_ne t A B) as Q. split; [exact E|]. split; [apply d2_of; assumption|]. split; [apply d3_of; assumption|]. split; [apply d4_of; assumption|apply (d5_of (tau lam N)); assumption].
Qed.
Lemma ders_bound N a b : -1 < a -> a <= b -> b < 1 \/ 1 < a -> exists M, forall t, a <= t <= b -> Rabs (f1 N t) <= M /\ Rabs (f2 N t) <= M /\ Rabs (f3 N t) <= M /\ Rabs (f4 N t) <= M.
Proof.
  intros A AB W. assert (NE : forall t, a <= t <= b -> -1 < t /\ t <> 1) by (intros t T; split; lra).
  destruct (continuous_bound (f1 N) a b AB) as [M1 H1]. { intros t T. destruct (NE t T) as [P Q]. exists (f2 N t). apply (tau_ders N t P Q). }
  destruct (continuous_bound (f2 N) a b AB) as [M2 H2]. { intros t T. destruct (NE t T) as [P Q]. exists (f3 N t). apply (tau_ders N t P Q). }
  destruct (continuous_bound (f3 N) a b AB) as [M3 H3]. { intros t T. destruct (NE t T) as [P Q]. exists (f4 N t). apply (tau_ders N t P Q). }
  destruct (continuous_bound (f4 N) a b AB) as [M4 H4]. { intros t T. destruct (NE t T) as [P Q]. apply (tau_ders N t P Q). }
  exists (Rmax (Rmax M1 M2) (Rmax M3 M4)). intros t T. specialize (H1 t T). specialize (H2 t T). specialize (H3 t T). specialize (H4 t T).
  pose proof (Rmax_l M1 M2). pose proof (Rmax_r M1 M2). pose proof (Rmax_l M3 M4). pose proof (Rmax_r M3 M4). pose proof (Rmax_l (Rmax M1 M2) (Rmax M3 M4)). pose proof (Rmax_r (Rmax M1 M2) (Rmax M3 M4)). lra.
Qed.
(** one turn of the loop *)
Definition resid (N : Z) (T t : R) : R := tau lam N t - T.
Lemma resid_der N T t : -1 < t -> t <> 1 -> is_derive (resid N T) t (f1 N t).
Proof. intros P Q. destruct (tau_ders N t P Q) as [E _]. generalize dependent (f1 N t). intros d E. replace d with (d - 0) by ring. apply (der_minus (tau lam N) (fun _ => T)); [exact E|apply der_const]. Qed.
Lemma house_turn n T eps N err x it : -1 < x -> x <> 1 -> (1 < x -> N = 0%Z) -> 1 / 100 <= Rabs (x - 1) -> eps < err -> hden (resid N T) (f1 N) (f2 N) (f3 N) x <> 0 ->
  house RA (Some lam) (S n) (Some T) (Some eps) N (Some err) (Some x) it =
  house RA (Some lam) n (Some T) (Some eps) N (Some (Rabs (x - hstep (resid N T) (f1 N) (f2 N) (f3 N) x))) (Some (hstep (resid N T) (f1 N) (f2 N) (f3 N) x)) (it + 1)%Z.
Proof.
  intros X1 X2 X3 X4 HE NZ. cbn [house]. rewrite lt_r. destruct (Rlt_dec eps err) as [_|]; [|lra]. destruct (x2tof_tau lam L x N X1 X2 X3) as [t [E [_ ET]]]. rewrite E, (ET X4). cbn [bind]. rewrite (dTdx_r lam L x _ (sq_ne x X1 X2)). cbv iota beta. rewrite !nat_r. ev. rewrite !(div_r _ 2), !(div_r _ 6) by lra. ev.
  change (tau lam N x - T) with (resid N T x). change (D1 lam (tau lam N x) x) with (f1 N x). change (D2 lam (tau lam N x) x) with (f2 N x). change (D3 lam (tau lam N x) x) with (f3 N x).
  change (f1 N x * (f1 N x * f1 N x - resid N T x * f2 N x) + f3 N x * resid N T x * resid N T x / 6) with (hden (resid N T) (f1 N) (f2 N) (f3 N) x). rewrite div_r by exact NZ. ev. rewrite abs_r. ev. reflexivity.
Qed.
Lemma house_end n T eps N err x it : err <= eps -> house RA (Some lam) n (Some T) (Some eps) N (Some err) (Some x) it = Ret (Some x, it).
Proof. intros H. destruct n as [|n]; cbn [house]; [reflexivity|]. rewrite lt_r. destruct (Rlt_dec eps err); [lra|reflexivity]. Qed.
Lemma quart K u v : 1 <= K -> 0 <= u -> v <= K * (u * u * u * u) -> K * v <= (K * u) ^ 4.
Proof.
  intros HK U H. replace ((K * u) ^ 4) with (K * (K * K * K * (u * u * u * u))) by ring. apply Rmult_le_compat_l; [lra|]. eapply Rle_trans; [exact H|]. apply Rmult_le_compat_r; [repeat apply Rmult_le_pos; exact U|].
  replace K with (K * 1 * 1) at 1 by ring. repeat apply Rmult_le_compat; lra.
Qed.
Section Run.
Variables (N : Z) (a b K : R).
Hypothesis A : -1 < a.
Hypothesis W : b <= 99 / 100 \/ 101 / 100 <= a /\ N = 0%Z.
Hypothesis K1 : 1 <= K.
Hypothesis Order : forall T xs x, a <= xs <= b -> a <= x <= b -> tau lam N xs = T -> Rabs (x - xs) <= / (2 * K) ->
  hden (resid N T) (f1 N) (f2 N) (f3 N) x <> 0 /\ Rabs (hstep (resid N T) (f1 N) (f2 N) (f3 N) x - xs) <= K * (Rabs (x - xs) * Rabs (x - xs) * Rabs (x - xs) * Rabs (x - xs)).
Lemma near_ball xs x : a <= xs - / (2 * K) -> xs + / (2 * K) <= b -> Rabs (x - xs) <= / (2 * K) -> a <= x <= b.
Proof. intros H1 H2 H3. apply Rabs_le_between in H3. lra. Qed.
Lemma run_ball T xs eps : tau lam N xs = T -> a <= xs - / (2 * K) -> xs + / (2 * K) <= b -> 0 <= eps ->
  forall n err x it, (0 < n)%nat -> eps < err -> Rabs (x - xs) <= / (2 * K) ->
  exists x' k, house RA (Some lam) n (Some T) (Some eps) N (Some err) (Some x) it = Ret (Some x', (it + Z.of_nat k)%Z) /\ (1 <= k <= n)%nat /\ K * Rabs (x' - xs) <= (K * Rabs (x - xs)) ^ (4 ^ k) /\
    (k = n \/ Rabs (x' - xs) <= K * (2 * eps) ^ 4).
Proof.
  intros HT H1 H2 He n. assert (KP : 0 < / (2 * K)) by (apply Rinv_0_lt_compat; lra).
  induction n as [|n IH]; intros err x it Hn HE HX; [lia|].
  pose proof (near_ball xs x H1 H2 HX) as XB. assert (XS : a <= xs <= b) by lra. destruct (Order T xs x XS XB HT HX) as [NZ OR].
  assert (G1 : -1 < x) by lra. assert (G2 : x <> 1) by lra. assert (G3 : 1 < x -> N = 0%Z) by (intros; destruct W as [Q|[_ Q]]; [lra|exact Q]). assert (G4 : 1 / 100 <= Rabs (x - 1)) by (unfold Rabs; destruct (Rcase_abs (x - 1)); lra).
  rewrite (house_turn n T eps N err x it G1 G2 G3 G4 HE NZ). set (x1 := hstep (resid N T) (f1 N) (f2 N) (f3 N) x) in *. set (u := Rabs (x - xs)) in *. assert (U0 : 0 <= u) by apply Rabs_pos.
  assert (KU : K * u <= 1 / 2). { apply (Rmult_le_compat_l K) in HX; [|lra]. replace (K * / (2 * K)) with (1 / 2) in HX by (field; lra). exact HX. }
  assert (V8 : Rabs (x1 - xs) <= u / 8). { eapply Rle_trans; [exact OR|]. assert (K * u * (u * u) <= 1 / 2 * (1 / 2 * (1 / 2))). { apply Rmult_le_compat; [apply Rmult_le_pos; lra|apply Rmult_le_pos; lra|exact KU|]. assert (u <= 1 / 2) by nra. apply Rmult_le_compat; lra. } nra. }
  pose proof (quart K u _ K1 U0 OR) as Q4.
  destruct (Rlt_dec eps (Rabs (x - x1))) as [C|C].
  - destruct n as [|n].
    + exists x1, 1%nat. cbn [house]. split; [reflexivity|]. split; [lia|]. split; [exact Q4|left; reflexivity].
    + assert (HX1 : Rabs (x1 - xs) <= / (2 * K)) by lra. destruct (IH (Rabs (x - x1)) x1 (it + 1)%Z ltac:(lia) C HX1) as [x' [k [E [B [P ST]]]]]. exists x', (S k).
      split; [rewrite E; f_equal; f_equal; lia|]. split; [lia|]. split; [|destruct ST as [ST|ST]; [left; lia|right; exact ST]].
      eapply Rle_trans; [exact P|]. replace ((K * u) ^ (4 ^ S k)) with (((K * u) ^ 4) ^ (4 ^ k)) by (rewrite <- pow_mult; reflexivity). apply pow_incr. split; [apply Rmult_le_pos; [lra|apply Rabs_pos]|exact Q4].
  - exists x1, 1%nat. rewrite house_end by lra. split; [reflexivity|]. split; [lia|]. split; [exact Q4|right].
    eapply Rle_trans; [exact OR|]. apply Rmult_le_compat_l; [lra|]. assert (u <= 2 * eps). { assert (u <= Rabs (x - x1) + Rabs (x1 - xs)). { unfold u. replace (x - xs) with ((x - x1) + (x1 - xs)) by ring. apply Rabs_triang. } lra. }
    replace ((2 * eps) ^ 4) with (2 * eps * (2 * eps) * (2 * eps) * (2 * eps)) by ring. repeat apply Rmult_le_compat; try lra; repeat apply Rmult_le_pos; lra.
Qed.
End Run.
Lemma widen K0 K u : 1 <= K0 -> K0 <= K -> u <= / (2 * K) -> u <= / (2 * K0).
Proof. intros H1 H2 H. eapply Rle_trans; [exact H|]. apply Rinv_le_contravar; lra. Qed.
Theorem householder_converges N a b : -1 < a -> a <= b -> b <= 99 / 100 \/ 101 / 100 <= a /\ N = 0%Z -> (forall t, a <= t <= b -> f1 N t <> 0) ->
  exists K0, 1 <= K0 /\ forall K, K0 <= K -> forall T xs x eps n, tau lam N xs = T -> a <= xs - / (2 * K) -> xs + / (2 * K) <= b -> Rabs (x - xs) <= / (2 * K) -> 0 <= eps < 1 -> (0 < n)%nat ->
  exists x' k, householder RA (Some lam) (Some T) (Some x) N (Some eps) n = Ret (Some x', Z.of_nat k) /\ (1 <= k <= n)%nat /\ K * Rabs (x' - xs) <= (K * Rabs (x - xs)) ^ (4 ^ k) /\ (k = n \/ Rabs (x' - xs) <= K * (2 * eps) ^ 4).
Proof.
  intros A AB W NZ. assert (NE : forall t, a <= t <= b -> -1 < t /\ t <> 1) by (intros t T; split; lra). destruct (ders_bound N a b A AB ltac:(lra)) as [M BM].
  destruct (continuous_away (f1 N) a b AB) as [m [m0 Bm]]. { intros t T. destruct (NE t T) as [P Q]. exists (f2 N t). apply (tau_ders N t P Q). } { exact NZ. }
  assert (mM : m <= M). { destruct (BM a ltac:(lra)) as [H _]. specialize (Bm a ltac:(lra)). lra. }
  assert (m3 : 0 < m * m * m) by (repeat apply Rmult_lt_0_compat; exact m0). assert (mc : m * m * m <= M * M * M) by (repeat apply Rmult_le_compat; try lra; apply Rmult_le_pos; lra).
  set (K0 := 6 * (M * M * M) / (m * m * m)). exists K0. assert (K1 : 1 <= K0) by (apply (proj1 (Rle_div_r 1 (6 * (M * M * M)) (m * m * m) m3)); lra). split; [exact K1|].
  assert (KI : / (2 * K0) = m * m * m / (12 * (M * M * M))) by (unfold K0; field; split; lra).
  intros K HK T xs x eps n HT H1 H2 HX He Hn. refine ((fun OR => _) _). 1: destruct (run_ball N a b K A W ltac:(lra) OR T xs eps HT H1 H2 (proj1 He) n 1 x 0%Z Hn ltac:(lra) HX) as [x' [k [E R]]].
  2: { intros T' xs' x0 X1 X2 E HR. pose proof (widen K0 K _ K1 HK HR) as HR'. rewrite KI in HR'. destruct (householder_order (resid N T') (f1 N) (f2 N) (f3 N) (f4 N) a b M m) with (xs := xs') (x := x0) as [O1 O2]; try assumption.
    - intros t T1. destruct (NE t T1) as [P Q]. exact (resid_der N T' t P Q).
    - intros t T1. destruct (NE t T1) as [P Q]. apply (tau_ders N t P Q).
    - intros t T1. destruct (NE t T1) as [P Q]. apply (tau_ders N t P Q).
    - intros t T1. destruct (NE t T1) as [P Q]. apply (tau_ders N t P Q).
    - unfold resid. lra.
    - split; [exact O1|]. eapply Rle_trans; [exact O2|]. apply Rmult_le_compat_r; [repeat apply Rmult_le_pos; apply Rabs_pos|exact HK]. }
  exists x', k. split; [|exact R]. unfold householder. rewrite nat_r. exact E.
Qed.
(** around one solution *)
Lemma stays_away N xs : -1 < xs -> xs <> 1 -> f1 N xs <> 0 -> exists d, 0 < d /\ forall t, Rabs (t - xs) < d -> f1 N t <> 0.
Proof.
  intros X1 X2 NZ. assert (C : continuity_pt (f1 N) xs). { apply derivable_continuous_pt. exists (f2 N xs). apply is_derive_Reals, (tau_ders N xs X1 X2). }
  destruct (C (Rabs (f1 N xs)) (Rabs_pos_lt _ NZ)) as [d [Dp Hd]]. cbn in Hd. unfold R_dist in Hd. exists d. split; [exact Dp|]. intros t T E. destruct (Req_dec t xs) as [->|NE]; [contradiction|].
  assert (Q : Rabs (f1 N t - f1 N xs) < Rabs (f1 N xs)) by (apply Hd; split; [split; [exact I|congruence]|exact T]). rewrite E, Rminus_0_l, Rabs_Ropp in Q. lra.
Qed.
Theorem householder_at N xs : -1 < xs -> 1 / 100 < Rabs (xs - 1) -> (1 < xs -> N = 0%Z) -> f1 N xs <> 0 ->
  exists K, 1 <= K /\ forall x eps n, Rabs (x - xs) <= / (2 * K) -> 0 <= eps < 1 -> (0 < n)%nat ->
  exists x' k, householder RA (Some lam) (Some (tau lam N xs)) (Some x) N (Some eps) n = Ret (Some x', Z.of_nat k) /\ (1 <= k <= n)%nat /\ K * Rabs (x' - xs) <= (K * Rabs (x - xs)) ^ (4 ^ k) /\ (k = n \/ Rabs (x' - xs) <= K * (2 * eps) ^ 4).
Proof.
  intros X1 X4 X3 NZ. assert (X2 : xs <> 1) by (intros ->; rewrite Rminus_eq_0, Rabs_R0 in X4; lra). destruct (stays_away N xs X1 X2 NZ) as [d [Dp Hd]].
  set (c := Rmin (Rmin (d / 2) ((xs + 1) / 2)) (Rabs (xs - 1) - 1 / 100)). assert (C0 : 0 < c) by (repeat apply Rmin_pos; lra).
  assert (C1 : c <= d / 2) by (eapply Rle_trans; [apply Rmin_l|apply Rmin_l]). assert (C2 : c <= (xs + 1) / 2) by (eapply Rle_trans; [apply Rmin_l|apply Rmin_r]). assert (C3 : c <= Rabs (xs - 1) - 1 / 100) by apply Rmin_r.
  destruct (householder_converges N (xs - c) (xs + c)) as [K0 [K1 H]]; [lra|lra| | |].
  - unfold Rabs in C3. destruct (Rcase_abs (xs - 1)); [left; lra|right; split; [lra|apply X3; lra]].
  - intros t T. apply Hd. apply Rabs_def1; lra.
  - exists (Rmax K0 (/ (2 * c))). pose proof (Rmax_l K0 (/ (2 * c))) as M1. pose proof (Rmax_r K0 (/ (2 * c))) as M2. set (K := Rmax K0 (/ (2 * c))) in *. split; [lra|]. intros x eps n HX He Hn.
    assert (KC : / (2 * K) <= c). { assert (0 < / (2 * c)) by (apply Rinv_0_lt_compat; lra). apply Rinv_le_contravar in M2; [|assumption]. rewrite Rinv_inv in M2. rewrite Rinv_mult. lra. }
    apply (H K M1 (tau lam N xs) xs x eps n); try assumption; try reflexivity; lra.
Qed.
(** the direct transfer: the slope never vanishes, so that one radius serves a whole interval *)
Lemma f1_direct t : -1 < t -> t <> 1 -> f1 0 t <> 0.
Proof. intros A B. unfold f1. destruct (Rlt_le_dec t 1) as [H|H]; [pose proof (D1_neg_ell lam L t ltac:(lra))|pose proof (D1_neg_hyp lam L t ltac:(lra))]; lra. Qed.
Theorem householder_direct a b : -1 < a -> a <= b -> b < 99 / 100 \/ 101 / 100 < a ->
  exists K, 1 <= K /\ forall T xs x eps n, a <= xs <= b -> tau lam 0 xs = T -> Rabs (x - xs) <= / (2 * K) -> 0 <= eps < 1 -> (0 < n)%nat ->
  exists x' k, householder RA (Some lam) (Some T) (Some x) 0 (Some eps) n = Ret (Some x', Z.of_nat k) /\ (1 <= k <= n)%nat /\ K * Rabs (x' - xs) <= (K * Rabs (x - xs)) ^ (4 ^ k) /\ (k = n \/ Rabs (x' - xs) <= K * (2 * eps) ^ 4).
Proof.
  intros A AB W. set (g := if Rlt_dec b (99 / 100) then 99 / 100 - b else a - 101 / 100). assert (G0 : 0 < g) by (unfold g; destruct (Rlt_dec b (99 / 100)); lra).
  set (c := Rmin ((a + 1) / 2) g). assert (C0 : 0 < c) by (apply Rmin_pos; lra). assert (C1 : c <= (a + 1) / 2) by apply Rmin_l. assert (C2 : c <= g) by apply Rmin_r.
  assert (W' : b + c <= 99 / 100 \/ 101 / 100 <= a - c) by (unfold g in C2; destruct (Rlt_dec b (99 / 100)); [left|right]; lra).
  destruct (householder_converges 0 (a - c) (b + c)) as [K0 [K1 H]]; [lra|lra|destruct W'; [left|right]; auto| |].
  - intros t T. apply f1_direct; lra.
  - exists (Rmax K0 (/ (2 * c))). pose proof (Rmax_l K0 (/ (2 * c))) as M1. pose proof (Rmax_r K0 (/ (2 * c))) as M2. set (K := Rmax K0 (/ (2 * c))) in *. split; [lra|]. intros T xs x eps n XS HT HX He Hn.
    assert (KC : / (2 * K) <= c). { assert (0 < / (2 * c)) by (apply Rinv_0_lt_compat; lra). apply Rinv_le_contravar in M2; [|assumption]. rewrite Rinv_inv in M2. rewrite Rinv_mult. lra. }
    apply (H K M1 T xs x eps n); try assumption; lra.
Qed.
(** ** Halley: the least time with N complete revolutions *)
Lemma stationary N : (1 <= N)%Z -> exists xm, 0 < xm < 9 / 10 /\ f1 N xm = 0 /\ 0 < f2 N xm /\ forall x, -1 < x < 1 -> tau lam N xm <= tau lam N x.
Proof.
  intros HN. destruct (tau_branches lam L N HN) as [xm [X [_ [_ [_ MIN]]]]]. exists xm. assert (E : f1 N xm = 0).
  { destruct (tau_ders N xm ltac:(lra) ltac:(lra)) as [D _]. apply is_derive_Reals in D. pose proof (deriv_minimum (tau lam N) 0 1 xm (exist _ _ D) ltac:(lra) ltac:(lra) ltac:(intros t T1 T2; apply MIN; lra)) as E. exact E. }
  assert (EE : Ee lam N xm = 0). { unfold f1 in E. rewrite D1_Ee in E by (assumption || lra). apply Rmult_integral in E. destruct E as [E|E]; [exfalso|exact E]. destruct (w_sq xm ltac:(lra)) as [WP W]. set (w := sqrt (1 - xm * xm)) in *. assert (0 < 3 * xm / ((1 - xm * xm) * (w * w * w))); [|lra]. apply Rdiv_lt_0_compat; [lra|]. rewrite <- W. repeat apply Rmult_lt_0_compat; exact WP. }
  split.
  - split; [lra|]. destruct (Rlt_le_dec xm (9 / 10)) as [H|H]; [exact H|exfalso]. assert (P : 0 < Ee lam N (9 / 10)).
    { unfold Ee. destruct (w_sq (9 / 10) ltac:(lra)) as [WP WW]. set (w := sqrt (1 - 9 / 10 * (9 / 10))) in *. pose proof (psi_bd lam L (9 / 10) ltac:(lra)) as PB. destruct (ly_sq lam L (9 / 10)) as [YP Y2]. change (lam_y lam (9 / 10)) with (y (9 / 10)) in *. set (yy := y (9 / 10)) in *. pose proof (lam_bd lam L) as LB.
      apply IZR_le in HN. pose proof PI2_1 as P1. unfold PI2 in P1. assert (NP : 2 <= IZR N * PI) by nra. assert (W1 : w <= 44 / 100) by nra.
      assert (Y1 : 9 / 10 <= yy <= 1) by (split; nra). assert (LY : -1 <= lam * yy) by nra. assert (T2 : - (44 / 100 * (19 / 10)) <= w * (lam * yy - 9 / 10)) by nra.
      assert (LC : - (10 / 9) <= lam * lam * lam / yy). { apply (Rmult_le_reg_r yy); [lra|]. replace (lam * lam * lam / yy * yy) with (lam * lam * lam) by (field; lra). assert (-1 <= lam * lam * lam) by nra. nra. }
      assert (T3 : 2 / 3 * (w * w * w) * (/ (9 / 10) - lam * lam * lam / yy) <= 1 / 2). { assert (W3 : 0 < w * w * w <= 1 / 10) by (split; [repeat apply Rmult_lt_0_compat; exact WP|nra]). assert (B : / (9 / 10) - lam * lam * lam / yy <= 20 / 9) by lra. assert (2 / 3 * (w * w * w) * (/ (9 / 10) - lam * lam * lam / yy) <= 2 / 3 * (w * w * w) * (20 / 9)) by (apply Rmult_le_compat_l; lra). lra. }
      lra. }
    destruct H as [H|H]; [pose proof (Ee_incr lam L N (9 / 10) xm ltac:(lra) H ltac:(lra))|rewrite <- H in EE]; lra.
  - split; [exact E|]. split; [|exact MIN]. pose proof (slope_pos lam L xm ltac:(lra)) as S. destruct (ly_sq lam L xm) as [P Y2]. cbv beta in S. set (yy := lam_y lam xm) in *.
    assert (X' : 1 - xm * xm <> 0) by nra. assert (ET : 3 * tau lam N xm * xm = 2 - 2 * (lam * lam * lam) * xm / yy). { unfold f1, D1 in E. cbv beta in E. fold yy in E. unfold Rdiv at 1 in E. apply Rmult_integral in E. destruct E as [E|E]; [|exfalso; exact (Rinv_neq_0_compat _ X' E)]. lra. }
    assert (E2 : f2 N xm = 2 * xm * (/ (xm * xm) - lam * lam * lam * (lam * lam) * xm / (yy * yy * yy)) / (1 - xm * xm)).
    { unfold f2, D2. fold (f1 N xm). rewrite E. cbv beta. fold yy. apply (Rmult_eq_reg_r ((1 - xm * xm) * xm)); [|apply Rmult_integral_contrapositive_currified; lra].
      transitivity (3 * tau lam N xm * xm + 2 * (1 - lam * lam) * (lam * lam * lam) / (yy * yy * yy) * xm); [field; repeat split; (exact X' || lra)|]. rewrite ET.
      transitivity (2 - 2 * (lam * lam * lam) * xm * (yy * yy - (1 - lam * lam)) / (yy * yy * yy)); [field; lra|]. rewrite Y2 at 1. field. repeat split; (exact X' || lra). }
    rewrite E2. apply Rdiv_lt_0_compat; [apply Rmult_lt_0_compat; lra|nra].
Qed.
Lemma cubic K u v : 1 <= K -> 0 <= u -> v <= K * (u * u * u) -> K * v <= (K * u) ^ 3.
Proof.
  intros HK U H. replace ((K * u) ^ 3) with (K * (K * K * (u * u * u))) by ring. apply Rmult_le_compat_l; [lra|]. eapply Rle_trans; [exact H|]. apply Rmult_le_compat_r; [repeat apply Rmult_le_pos; exact U|]. nra.
Qed.
Lemma halley_ball N xm K : 0 < xm < 9 / 10 -> 1 <= K -> / (2 * K) <= 1 / 100 * 9 -> / (2 * K) < xm + 1 ->
  (forall x, Rabs (x - xm) <= / (2 * K) -> kden (f1 N) (f2 N) (f3 N) x <> 0 /\ Rabs (x - f1 N x * f2 N x / kden (f1 N) (f2 N) (f3 N) x - xm) <= K * (Rabs (x - xm) * Rabs (x - xm) * Rabs (x - xm))) ->
  forall n it x, (0 <= it)%Z -> (14 <= it + Z.of_nat n)%Z -> (it <= 13)%Z -> Rabs (x - xm) <= / (2 * K) ->
  exists x' k, halley RA (Some lam) n N it (Some x) (Some x) (Some (tau lam N x)) = Ret (Some (tau lam N x'), (it + Z.of_nat k)%Z) /\ K * Rabs (x' - xm) <= (K * Rabs (x - xm)) ^ (3 ^ k) /\ Rabs (x' - xm) <= / (2 * K) /\ ((it + Z.of_nat k)%Z = 13%Z \/ Rabs (x' - xm) <= 2 / 10000000000000).
Proof.
  intros XM K1 KR KR' OR n. assert (KP : 0 < / (2 * K)) by (apply Rinv_0_lt_compat; lra). induction n as [|n IH]; intros it x I0 In I1 HX; [lia|].
  destruct (OR x HX) as [NZ O]. pose proof HX as HX'. apply Rabs_le_between in HX'. assert (X1 : -1 < x) by lra. assert (X2 : x < 1) by lra. pose proof (sq_ne x X1 ltac:(lra)) as SQ.
  set (u := Rabs (x - xm)) in *. assert (U0 : 0 <= u) by apply Rabs_pos. assert (KU : K * u <= 1 / 2). { pose proof HX as HY. apply (Rmult_le_compat_l K) in HY; [|lra]. replace (K * / (2 * K)) with (1 / 2) in HY by (field; lra). exact HY. }
  assert (self : K * u <= (K * u) ^ (3 ^ 0)) by (cbn [Nat.pow]; rewrite pow_1; lra).
  destruct (Req_dec (f1 N x) 0) as [E|E].
  - exists x, 0%nat. rewrite halley_stop by assumption. split; [f_equal; f_equal; lia|]. split; [exact self|]. split; [exact HX|right]. rewrite E in O. replace (x - 0 * f2 N x / kden (f1 N) (f2 N) (f3 N) x - xm) with (x - xm) in O by (field; exact NZ). fold u in O. fold u.
    assert (u <= u / 4). { eapply Rle_trans; [exact O|]. assert (K * u * u <= 1 / 2 * (1 / 2)) by (apply Rmult_le_compat; [apply Rmult_le_pos; lra|exact U0|exact KU|nra]). nra. } lra.
  - rewrite (halley_round lam L n N it x _ SQ E NZ). change (hnext lam (tau lam N x) x) with (x - f1 N x * f2 N x / kden (f1 N) (f2 N) (f3 N) x). set (x1 := x - f1 N x * f2 N x / kden (f1 N) (f2 N) (f3 N) x) in *.
    assert (V4 : Rabs (x1 - xm) <= u / 4). { eapply Rle_trans; [exact O|]. assert (K * u * u <= 1 / 2 * (1 / 2)) by (apply Rmult_le_compat; [apply Rmult_le_pos; lra|exact U0|exact KU|nra]). nra. }
    pose proof (cubic K u _ K1 U0 O) as Q3.
    destruct (Rlt_dec (Rabs (x - x1)) (1 / 10000000000000)) as [C|C]; cbn [orb].
    + exists x, 0%nat. split; [f_equal; f_equal; lia|]. split; [exact self|]. split; [exact HX|right]. fold u. assert (u <= Rabs (x - x1) + Rabs (x1 - xm)). { unfold u. replace (x - xm) with ((x - x1) + (x1 - xm)) by ring. apply Rabs_triang. } lra.
    + destruct (Z.ltb_spec 12 it) as [B|B].
      * exists x, 0%nat. split; [f_equal; f_equal; lia|]. split; [exact self|]. split; [exact HX|left; lia].
      * assert (HX1 : Rabs (x1 - xm) <= / (2 * K)) by lra. pose proof HX1 as HB. apply Rabs_le_between in HB. destruct (x2tof_tau lam L x1 N ltac:(lra) ltac:(lra) ltac:(lra)) as [t [ET [_ T]]]. rewrite ET. rewrite T by (unfold Rabs; destruct (Rcase_abs (x1 - 1)); lra). cbn [bind].
        destruct (IH (it + 1)%Z x1 ltac:(lia) ltac:(lia) ltac:(lia) HX1) as [x' [k [HE [HP [HR HS]]]]]. exists x', (S k). split; [rewrite HE; f_equal; f_equal; lia|]. split; [|split; [exact HR|destruct HS; [left; lia|right; assumption]]].
        eapply Rle_trans; [exact HP|]. replace ((K * u) ^ (3 ^ S k)) with (((K * u) ^ 3) ^ (3 ^ k)) by (rewrite <- pow_mult; reflexivity). apply pow_incr. split; [apply Rmult_le_pos; [lra|apply Rabs_pos]|exact Q3].
Qed.
Theorem halley_converges N : (1 <= N)%Z -> exists xm K, 0 < xm < 9 / 10 /\ 1 <= K /\ (forall x, -1 < x < 1 -> tau lam N xm <= tau lam N x) /\ forall x, Rabs (x - xm) <= / (2 * K) ->
  exists x' k, halley RA (Some lam) 14 N 0 (Some x) (Some x) (Some (tau lam N x)) = Ret (Some (tau lam N x'), Z.of_nat k) /\ K * Rabs (x' - xm) <= (K * Rabs (x - xm)) ^ (3 ^ k) /\ (k = 13%nat \/ Rabs (x' - xm) <= 2 / 10000000000000) /\
    tau lam N xm <= tau lam N x' <= tau lam N xm + K * (Rabs (x' - xm)) ^ 2.
Proof.
  intros HN. destruct (stationary N HN) as [xm [X [E1 [E2 MIN]]]]. assert (C : continuity_pt (f2 N) xm). { apply derivable_continuous_pt. exists (f3 N xm). apply is_derive_Reals, (tau_ders N xm); lra. }
  destruct (C (f2 N xm) E2) as [d [Dp Hd]]. cbn in Hd. unfold R_dist in Hd. set (c := Rmin (d / 2) (8 / 100)). assert (C0 : 0 < c) by (apply Rmin_pos; lra). assert (C1 : c <= d / 2) by apply Rmin_l. assert (C2 : c <= 8 / 100) by apply Rmin_r.
  set (a := xm - c). set (b := xm + c). assert (NE : forall t, a <= t <= b -> -1 < t /\ t <> 1) by (intros t T; unfold a, b in T; split; lra). assert (AB : a <= b) by (unfold a, b; lra).
  destruct (ders_bound N a b ltac:(unfold a; lra) AB ltac:(unfold b; lra)) as [M BM].
  destruct (continuous_away (f2 N) a b AB) as [m [m0 Bm]]. { intros t T. destruct (NE t T) as [P Q]. exists (f3 N t). apply (tau_ders N t P Q). }
  { intros t T Z. unfold a, b in T. destruct (Req_dec t xm) as [->|Nt]; [lra|]. assert (Q : Rabs (f2 N t - f2 N xm) < f2 N xm) by (apply Hd; split; [split; [exact I|congruence]|apply Rabs_def1; lra]). rewrite Z in Q. apply Rabs_def2 in Q. lra. }
  assert (mM : m <= M). { destruct (BM a ltac:(lra)) as [_ [H _]]. specialize (Bm a ltac:(lra)). lra. }
  assert (m2 : 0 < m * m) by (apply Rmult_lt_0_compat; exact m0). assert (mc : m * m <= M * M) by (apply Rmult_le_compat; lra).
  set (K0 := 2 * (M * M) / (m * m)). assert (K01 : 1 <= K0) by (apply (proj1 (Rle_div_r 1 (2 * (M * M)) (m * m) m2)); lra).
  set (K := Rmax (Rmax K0 M) (/ (2 * c))). assert (KA : K0 <= K) by (eapply Rle_trans; [apply Rmax_l|apply Rmax_l]). assert (KB : M <= K) by (eapply Rle_trans; [apply Rmax_r|apply Rmax_l]). assert (KC' : / (2 * c) <= K) by apply Rmax_r.
  assert (KC : / (2 * K) <= c). { assert (0 < / (2 * c)) by (apply Rinv_0_lt_compat; lra). apply Rinv_le_contravar in KC'; [|assumption]. rewrite Rinv_inv in KC'. rewrite Rinv_mult. lra. }
  assert (KI : / (2 * K0) = m * m / (4 * (M * M))) by (unfold K0; field; split; lra).
  exists xm, K. split; [exact X|]. split; [lra|]. split; [exact MIN|]. intros x HX. refine ((fun OR => _) _). 1: destruct (halley_ball N xm K X ltac:(lra) ltac:(lra) ltac:(lra) OR 14 0%Z x ltac:(lia) ltac:(lia) ltac:(lia) HX) as [x' [k [HE [HP [HR HS]]]]].
  2: { intros x0 H0. pose proof (widen K0 K _ K01 KA H0) as HR'. rewrite KI in HR'. pose proof H0 as H0'. apply Rabs_le_between in H0'. destruct (halley_order (f1 N) (f2 N) (f3 N) (f4 N) a b M m) with (xm := xm) (x := x0) as [O1 O2]; try assumption.
    - intros t T1. destruct (NE t T1) as [P Q]. apply (tau_ders N t P Q).
    - intros t T1. destruct (NE t T1) as [P Q]. apply (tau_ders N t P Q).
    - intros t T1. destruct (NE t T1) as [P Q]. apply (tau_ders N t P Q).
    - intros t T1. destruct (BM t T1) as [_ [H2 [H3 H4]]]. auto.
    - unfold a, b. lra.
    - unfold a, b. lra.
    - split; [exact O1|]. eapply Rle_trans; [exact O2|]. apply Rmult_le_compat_r; [repeat apply Rmult_le_pos; apply Rabs_pos|exact KA]. }
  exists x', k. split; [exact HE|]. split; [exact HP|]. split; [destruct HS; [left; lia|right; assumption]|]. pose proof HR as HR'. apply Rabs_le_between in HR'. split; [apply MIN; lra|].
  assert (XB : a <= x' <= b) by (unfold a, b; lra). assert (XMB : a <= xm <= b) by (unfold a, b; lra). set (u := Rabs (x' - xm)) in *. assert (U0 : 0 <= u) by apply Rabs_pos.
  assert (F1 : forall t, Rabs (t - xm) <= u -> a <= t <= b -> Rabs (f1 N t) <= M * u). { intros t T TB. replace (f1 N t) with (f1 N t - f1 N xm) by lra. eapply Rle_trans; [apply (mean_bound (f1 N) (f2 N) a b M); try assumption|].
    - intros z Hz. destruct (NE z Hz) as [P Q]. apply (tau_ders N z P Q).
    - intros z Hz. apply (BM z Hz).
    - apply Rmult_le_compat_l; [lra|exact T]. }
  set (lo := Rmin x' xm). set (hi := Rmax x' xm). assert (CX : lo <= x' <= hi /\ lo <= xm <= hi) by (unfold lo, hi; pose proof (Rmin_l x' xm); pose proof (Rmin_r x' xm); pose proof (Rmax_l x' xm); pose proof (Rmax_r x' xm); lra).
  assert (CB : a <= lo /\ hi <= b) by (unfold lo, hi; split; [apply Rmin_glb; lra|apply Rmax_lub; lra]).
  assert (LE : forall t, lo <= t <= hi -> Rabs (t - xm) <= u). { intros t T. unfold u, lo, hi, Rmin, Rmax in *. destruct (Rle_dec x' xm); unfold Rabs; destruct (Rcase_abs (t - xm)); destruct (Rcase_abs (x' - xm)); lra. }
  assert (B : Rabs (tau lam N x' - tau lam N xm) <= M * u * u). { apply (mean_bound (tau lam N) (f1 N) lo hi); try tauto; [intros t T; destruct (NE t ltac:(lra)) as [P Q]; apply (tau_ders N t P Q)|intros t T; apply F1; [apply LE; exact T|lra]]. }
  pose proof (Rle_abs (tau lam N x' - tau lam N xm)). replace (u ^ 2) with (u * u) by ring. assert (M * (u * u) <= K * (u * u)) by (apply Rmult_le_compat_r; [apply Rmult_le_pos; exact U0|exact KB]). lra.
Qed.
End Conv.
