(** * Direct transfers that are short: the Householder iteration finds them from its initial guess *)
From Coq Require Import Reals ZArith List Bool Lra Lia Psatz.
From Coquelicot Require Import Coquelicot.
From Verif Require Import Outcome PartialReal RealLib Vec3 TwoBodySpec ElemProofs KeplerianMain LambertModel LambertReal LambertProofs LambertSpec LambertTime LambertVec LambertTof LambertDer LambertMono LambertMain LambertConv LambertNear LambertLong.
Import ListNotations.
Open Scope R_scope.

(** ** one turn on a function that is almost c / x - T *)
Lemma rprod_le a b A B : Rabs a <= A -> Rabs b <= B -> - (A * B) <= a * b <= A * B.
Proof. intros H K. pose proof (prod_le a b A B H K) as P. apply Rabs_le_between in P. exact P. Qed.
Lemma ideal_step h P A B D : Rabs h <= 1 / 4 -> Rabs (P - 1) <= 16 / 1000 -> Rabs (A - 1) <= 16 / 1000 -> Rabs (B - 1) <= 50 / 1000 -> Rabs (D - 1) <= 140 / 1000 ->
  let r := h * P in let den := A * A * A - 2 * r * (A * B) + r * r * D in
  0 < den /\ Rabs (1 - (1 - h) * (1 + r * (A * A - r * B) / den)) <= 1 / 4 * Rabs h.
Proof.
  intros H HP HA HB HD r den.
  assert (RB : Rabs r <= 254 / 1000). { unfold r. apply Rle_trans with (1 / 4 * (1016 / 1000)); [apply prod_le; [exact H|]|lra]. apply Rabs_le_between. apply Rabs_le_between in HP. lra. }
  assert (HAP : Rabs (A - P) <= 32 / 1000) by (apply Rabs_le_between; apply Rabs_le_between in HP; apply Rabs_le_between in HA; lra).
  assert (HPB : Rabs (P - B) <= 66 / 1000) by (apply Rabs_le_between; apply Rabs_le_between in HP; apply Rabs_le_between in HB; lra).
  assert (HAB : Rabs (A - B) <= 66 / 1000) by (apply Rabs_le_between; apply Rabs_le_between in HA; apply Rabs_le_between in HB; lra).
  assert (HDB : Rabs (D - B) <= 190 / 1000) by (apply Rabs_le_between; apply Rabs_le_between in HD; apply Rabs_le_between in HB; lra).
  assert (A1 : Rabs A <= 1016 / 1000) by (apply Rabs_le_between; apply Rabs_le_between in HA; lra). assert (B1 : Rabs B <= 1050 / 1000) by (apply Rabs_le_between; apply Rabs_le_between in HB; lra).
  assert (DEN : 2 / 5 <= den).
  { unfold den. pose proof (rprod_le A B _ _ A1 B1) as AB. pose proof (rprod_le r (A * B) (254 / 1000) (1016 / 1000 * (1050 / 1000)) RB ltac:(apply prod_le; assumption)) as RAB.
    apply Rabs_le_between in HA, HD. assert (A2 : 984 / 1000 * (984 / 1000) <= A * A) by (apply Rmult_le_compat; lra). assert (A3 : 984 / 1000 * (984 / 1000) * (984 / 1000) <= A * A * A) by (apply Rmult_le_compat; lra). assert (0 <= r * r * D) by (apply Rmult_le_pos; [apply Rle_0_sqr|lra]). lra. }
  split; [lra|].
  set (bk := A * A * (A - P) + r * ((A - B) * (A - B) + B * (P - B)) + r * r * (D - B)).
  assert (EB : 1 - (1 - h) * (1 + r * (A * A - r * B) / den) = h * (bk / den)). { unfold bk. unfold Rdiv. apply (Rmult_eq_reg_r den); [|lra]. transitivity (h * den - (1 - h) * (r * (A * A - r * B))); [field; lra|]. transitivity (h * (A * A * (A - P) + r * ((A - B) * (A - B) + B * (P - B)) + r * r * (D - B))); [unfold den, r; ring|field; lra]. }
  assert (BB : Rabs bk <= 1 / 10).
  { unfold bk. apply Rle_trans with (1016 / 1000 * (1016 / 1000) * (32 / 1000) + 254 / 1000 * (66 / 1000 * (66 / 1000) + 1050 / 1000 * (66 / 1000)) + 254 / 1000 * (254 / 1000) * (190 / 1000)); [|lra]. repeat first [assumption | apply sum_le | apply prod_le]. }
  rewrite EB, Rabs_mult, Rmult_comm. apply Rmult_le_compat_r; [apply Rabs_pos|]. unfold Rdiv at 1. rewrite Rabs_mult, (Rabs_right (/ den)) by (left; apply Rinv_0_lt_compat; lra).
  apply Rle_trans with (1 / 10 * / (2 / 5)); [|lra]. apply Rmult_le_compat; [apply Rabs_pos|left; apply Rinv_0_lt_compat; lra|exact BB|apply Rinv_le_contravar; lra].
Qed.
(** the step of the code for derivatives -c A / x^2, 2 c B / x^3, -6 c D / x^4 and residual c r / x *)
Lemma scaled_hstep c x r A B D : c <> 0 -> x <> 0 -> A * A * A - 2 * r * (A * B) + r * r * D <> 0 ->
  let d1 := - (c / (x * x)) * A in let d2 := 2 * c / (x * x * x) * B in let d3 := - (6 * c / (x * x * x * x)) * D in let f := c / x * r in
  d1 * (d1 * d1 - f * d2) + d3 * f * f / 6 <> 0 /\ x - f * (d1 * d1 - f * d2 / 2) / (d1 * (d1 * d1 - f * d2) + d3 * f * f / 6) = x * (1 + r * (A * A - r * B) / (A * A * A - 2 * r * (A * B) + r * r * D)).
Proof.
  intros C X N d1 d2 d3 f. set (den := A * A * A - 2 * r * (A * B) + r * r * D) in *.
  assert (Q : d1 * (d1 * d1 - f * d2) + d3 * f * f / 6 = - (c * c * c / (x * x * x * x * x * x)) * den) by (unfold d1, d2, d3, f, den; field; exact X).
  assert (NZ : - (c * c * c / (x * x * x * x * x * x)) <> 0). { apply Ropp_neq_0_compat. unfold Rdiv. apply Rmult_integral_contrapositive_currified; [repeat apply Rmult_integral_contrapositive_currified; exact C|]. apply Rinv_neq_0_compat. repeat apply Rmult_integral_contrapositive_currified; exact X. }
  split; [rewrite Q; apply Rmult_integral_contrapositive_currified; assumption|]. rewrite Q. unfold d1, d2, f. clearbody den. field. repeat split; assumption.
Qed.

Section Short.
Variable lam : R.
Hypothesis L : lam * lam < 1.
Let y (x : R) := lam_y lam x.
Let al := Rabs lam.
(** 1 - lambda |lambda|: the time of flight is close to it, divided by x, when x is large *)
Definition cc : R := 1 - lam * Rabs lam.
Lemma al_bd : 0 <= al < 1 /\ al * al = lam * lam.
Proof. unfold al. pose proof (lam_bd lam L) as B. split; [split; [apply Rabs_pos|apply Rabs_def1; lra]|]. rewrite <- Rabs_mult. apply Rabs_right. nra. Qed.
Lemma cc_bd : 0 < cc <= 2 /\ 1 - lam * lam <= cc.
Proof.
  destruct al_bd as [A S]. pose proof (lam_bd lam L) as B. unfold cc. fold al. pose proof (Rle_abs lam) as P. pose proof (Rle_abs (- lam)) as Q. rewrite Rabs_Ropp in Q. fold al in P, Q. assert (lam * al <= al * al) by (apply Rmult_le_compat_r; lra). assert (- (al * al) <= lam * al) by nra. split; [split|]; nra.
Qed.
Section At.
Variable x : R.
Hypothesis X : 72 <= x.
Lemma y_facts : 0 < y x /\ y x * y x = 1 - lam * lam + lam * lam * (x * x) /\ al * x <= y x.
Proof.
  destruct (ly_sq lam L x) as [P Y]. fold (y x) in P, Y. destruct al_bd as [A S]. split; [exact P|]. split; [lra|]. destruct (Rle_lt_dec (al * x) (y x)) as [C|C]; [exact C|exfalso]. assert (Q : y x * y x < al * x * (al * x)) by (apply Rmult_le_0_lt_compat; lra). replace (al * x * (al * x)) with (lam * lam * (x * x)) in Q by (rewrite <- S; ring). lra.
Qed.
(** al / (y + al x) <= 1 / (2 x) *)
Lemma al_frac : 0 <= al / (y x + al * x) <= / (2 * x).
Proof.
  destruct y_facts as [P [_ Q]]. destruct al_bd as [A _]. assert (0 <= al * x) by (apply Rmult_le_pos; lra). split; [apply Rmult_le_pos; [lra|left; apply Rinv_0_lt_compat; lra]|].
  apply (Rmult_le_reg_r ((y x + al * x) * (2 * x))); [apply Rmult_lt_0_compat; lra|]. replace (al / (y x + al * x) * ((y x + al * x) * (2 * x))) with (2 * (al * x)) by (field; lra). replace (/ (2 * x) * ((y x + al * x) * (2 * x))) with (y x + al * x) by (field; lra). lra.
Qed.
Lemma y_gap : y x - al * x = (1 - lam * lam) / (y x + al * x).
Proof. destruct y_facts as [P [S Q]]. destruct al_bd as [A SA]. assert (0 <= al * x) by (apply Rmult_le_pos; lra). apply (Rmult_eq_reg_r (y x + al * x)); [|lra]. unfold Rdiv. rewrite Rmult_assoc, Rinv_l by lra. rewrite Rmult_1_r. transitivity (y x * y x - al * al * (x * x)); [ring|]. rewrite S, SA. ring. Qed.
Lemma al_y : 0 <= al / y x <= / x.
Proof.
  destruct (y_facts) as [P [_ Q]]. destruct al_bd as [A _]. split; [apply Rmult_le_pos; [lra|left; apply Rinv_0_lt_compat; lra]|]. apply (Rmult_le_reg_r (y x * x)); [apply Rmult_lt_0_compat; lra|]. replace (al / y x * (y x * x)) with (al * x) by (field; lra). replace (/ x * (y x * x)) with (y x) by (field; lra). exact Q.
Qed.
Lemma abs_frac a b : 0 < b -> Rabs (a / b) = Rabs a / b.
Proof. intros B. unfold Rdiv. rewrite Rabs_mult, (Rabs_right (/ b)); [reflexivity|]. left. apply Rinv_0_lt_compat, B. Qed.
Lemma one_l2 : 0 < 1 - lam * lam <= cc. Proof. destruct cc_bd as [_ H]. lra. Qed.
Lemma x_ly : Rabs (x - lam * y x - cc * x) <= cc * / (2 * x).
Proof.
  destruct y_facts as [P [_ Q]]. destruct al_frac as [F0 F1]. pose proof one_l2 as C. assert (0 <= al * x) by (apply Rmult_le_pos; [apply Rabs_pos|lra]).
  replace (x - lam * y x - cc * x) with (- lam * (y x - al * x)) by (unfold cc, al; ring). rewrite y_gap, Rabs_mult, Rabs_Ropp. rewrite abs_frac by lra. fold al. rewrite (Rabs_right (1 - lam * lam)) by lra. replace (al * ((1 - lam * lam) / (y x + al * x))) with ((1 - lam * lam) * (al / (y x + al * x))) by (field; lra). apply Rmult_le_compat; lra.
Qed.
Lemma slope_c : Rabs (1 - lam * lam * lam * x / y x - cc) <= cc * (/ (2 * x) * / x).
Proof.
  destruct y_facts as [P [_ Q]]. destruct al_frac as [F0 F1]. destruct al_y as [G0 G1]. pose proof one_l2 as C. destruct al_bd as [_ SA]. assert (0 <= al * x) by (apply Rmult_le_pos; [apply Rabs_pos|lra]).
  replace (1 - lam * lam * lam * x / y x - cc) with (lam * al * ((y x - al * x) / y x)). 2:{ unfold cc. fold al. transitivity (lam * al - lam * (al * al) * x / y x); [field; lra|]. rewrite SA. field. lra. }
  rewrite y_gap, !Rabs_mult. rewrite abs_frac by exact P. rewrite abs_frac by lra. rewrite (Rabs_right (1 - lam * lam)) by lra. fold al. rewrite (Rabs_right al) by (unfold al; apply Rle_ge, Rabs_pos).
  replace (al * al * ((1 - lam * lam) / (y x + al * x) / y x)) with ((1 - lam * lam) * (al / (y x + al * x) * (al / y x))) by (field; lra). apply Rmult_le_compat; [lra|apply Rmult_le_pos; lra|lra|apply Rmult_le_compat; lra].
Qed.
Lemma al3 : Rabs (lam * lam * lam) = al * al * al. Proof. unfold al. rewrite !Rabs_mult. reflexivity. Qed.
Lemma cube_c : Rabs (2 * (1 - lam * lam) * (lam * lam * lam) / (y x * y x * y x)) <= cc * (2 * (/ x * / x * / x)).
Proof.
  destruct y_facts as [P _]. destruct al_y as [G0 G1]. pose proof one_l2 as C. assert (0 < y x * y x * y x) by (repeat apply Rmult_lt_0_compat; exact P). rewrite abs_frac by assumption. rewrite Rabs_mult, al3, (Rabs_right (2 * (1 - lam * lam))) by lra.
  replace (2 * (1 - lam * lam) * (al * al * al) / (y x * y x * y x)) with ((1 - lam * lam) * (2 * (al / y x * (al / y x) * (al / y x)))) by (field; lra).
  assert (Q : 0 <= al / y x * (al / y x) * (al / y x) <= / x * / x * / x). { clear - G0 G1. set (q := al / y x) in *. clearbody q. split; [repeat apply Rmult_le_pos; exact G0|]. repeat apply Rmult_le_compat; try assumption; repeat apply Rmult_le_pos; exact G0. } apply Rmult_le_compat; lra.
Qed.
Lemma quint_c : Rabs (6 * (1 - lam * lam) * (lam * lam) * (lam * lam * lam) * x / (y x * y x * y x) / (y x * y x)) <= cc * (6 * (/ x * / x * / x * / x)).
Proof.
  destruct y_facts as [P _]. destruct al_y as [G0 G1]. pose proof one_l2 as C. destruct al_bd as [A0 SA]. assert (0 < y x * y x * y x) by (repeat apply Rmult_lt_0_compat; exact P). assert (0 < y x * y x) by (repeat apply Rmult_lt_0_compat; exact P). rewrite !abs_frac by assumption. rewrite !(Rabs_mult _ x), (Rabs_mult _ (lam * lam * lam)), al3, (Rabs_right x) by lra. rewrite (Rabs_mult _ (lam * lam)), (Rabs_right (6 * (1 - lam * lam))), (Rabs_right (lam * lam)) by nra. rewrite <- SA.
  replace (6 * (1 - al * al) * (al * al) * (al * al * al) * x / (y x * y x * y x) / (y x * y x)) with ((1 - al * al) * (6 * (al / y x * (al / y x) * (al / y x) * (al / y x) * (al / y x * x)))) by (field; lra). rewrite SA.
  assert (Q : 0 <= al / y x * (al / y x) * (al / y x) * (al / y x) <= / x * / x * / x * / x). { clear - G0 G1. set (q := al / y x) in *. clearbody q. split; [repeat apply Rmult_le_pos; exact G0|]. repeat apply Rmult_le_compat; try assumption; repeat apply Rmult_le_pos; exact G0. }
  assert (Q1 : 0 <= al / y x * x <= 1). { split; [apply Rmult_le_pos; lra|]. apply (Rmult_le_compat_r x) in G1; [|lra]. rewrite Rinv_l in G1 by lra. exact G1. }
  apply Rmult_le_compat; [lra| |lra|]; [apply Rmult_le_pos; [lra|apply Rmult_le_pos; lra]|apply Rmult_le_compat_l; [lra|]]. rewrite <- (Rmult_1_r (/ x * / x * / x * / x)). apply Rmult_le_compat; lra.
Qed.
(** the hyperbolic angle is of the order of the square root of x, and vanishes with 1 - lambda |lambda| *)
Lemma psi_small : 0 < half_hangle lam x /\ half_hangle lam x * half_hangle lam x <= 8 * x * (cc * cc).
Proof.
  assert (X1 : 1 < x) by lra. pose proof (psih_pos lam L x X1) as PP. destruct (cosh_psi lam L x X1) as [CP _]. fold (y x) in CP. destruct y_facts as [P [S Q]]. split; [exact PP|]. set (psi := half_hangle lam x) in *. clearbody psi. pose proof (lam_bd lam L) as LB. destruct al_bd as [A SA].
  destruct (Rle_lt_dec 0 lam) as [C|C].
  - assert (E : cc = 1 - lam * lam) by (unfold cc; rewrite Rabs_right by lra; reflexivity). assert (D : (cosh psi - 1) * (x * y x + 1 + lam * (x * x - 1)) = (x * x - 1) * ((1 - lam) * (1 - lam))). { rewrite CP. transitivity (x * x * (y x * y x) - (1 + lam * (x * x - 1)) * (1 + lam * (x * x - 1))); [ring|]. rewrite S. ring. }
    assert (HS : psi * psi <= 2 * (cosh psi - 1)). { replace psi with (2 * (psi / 2)) at 3 by field. rewrite cosh_2a'. pose proof (sinh_ge (psi / 2) ltac:(lra)) as G. assert (psi / 2 * (psi / 2) <= sinh (psi / 2) * sinh (psi / 2)) by (apply Rmult_le_compat; lra). lra. }
    assert (Y1 : 1 <= y x). { destruct (Rle_lt_dec 1 (y x)) as [|G]; [assumption|exfalso]. assert (y x * y x < 1) by nra. assert (0 <= lam * lam * (x * x - 1)) by (apply Rmult_le_pos; nra). lra. }
    assert (DX : x <= x * y x + 1 + lam * (x * x - 1)) by (assert (0 <= lam * (x * x - 1)) by (apply Rmult_le_pos; nra); assert (x * 1 <= x * y x) by (apply Rmult_le_compat_l; lra); lra). assert (C1 : 0 <= cosh psi - 1) by (pose proof (Rle_0_sqr psi) as Z; unfold Rsqr in Z; lra).
    assert (K : (cosh psi - 1) * x <= x * x * ((1 - lam) * (1 - lam))). { apply Rle_trans with ((cosh psi - 1) * (x * y x + 1 + lam * (x * x - 1))); [apply Rmult_le_compat_l; lra|]. rewrite D. apply Rmult_le_compat_r; [|lra]. apply Rle_0_sqr. }
    assert (K' : cosh psi - 1 <= x * ((1 - lam) * (1 - lam))). { apply (Rmult_le_reg_r x); [lra|]. lra. } assert (K2 : (1 - lam) * (1 - lam) <= cc * cc). { rewrite E. apply Rmult_le_compat; nra. } assert (x * ((1 - lam) * (1 - lam)) <= x * (cc * cc)) by (apply Rmult_le_compat_l; lra). assert (0 <= x * (cc * cc)) by (apply Rmult_le_pos; [lra|apply Rle_0_sqr]). lra.
  - assert (E : 1 <= cc) by (unfold cc; rewrite Rabs_left by lra; nra). assert (CU : cosh psi <= 2 * (x * x)). { rewrite CP. assert (y x <= x). { destruct (Rle_lt_dec (y x) x) as [|G]; [assumption|exfalso]. assert (x * x < y x * y x) by nra. assert (0 <= (1 - lam * lam) * (x * x - 1)) by (apply Rmult_le_pos; nra). lra. } assert (x * y x <= x * x) by (apply Rmult_le_compat_l; lra). assert (- lam * (x * x - 1) <= 1 * (x * x - 1)) by (apply Rmult_le_compat_r; nra). lra. }
    assert (HC : cosh (psi / 2) <= x + 1 / 4). { pose proof (cosh_2a' (psi / 2)) as G. pose proof (cosh_sinh_sq (psi / 2)) as G2. replace (2 * (psi / 2)) with psi in G by field. destruct (Rle_lt_dec (cosh (psi / 2)) (x + 1 / 4)) as [|G3]; [assumption|exfalso]. assert ((x + 1 / 4) * (x + 1 / 4) < cosh (psi / 2) * cosh (psi / 2)) by nra. lra. }
    assert (HS : psi * psi <= 8 * x). { pose proof (cosh_2a' (psi / 4)) as G. replace (2 * (psi / 4)) with (psi / 2) in G by field. pose proof (sinh_ge (psi / 4) ltac:(lra)) as G1. assert (psi / 4 * (psi / 4) <= sinh (psi / 4) * sinh (psi / 4)) by (apply Rmult_le_compat; lra). lra. }
    assert (1 <= cc * cc) by nra. nra.
Qed.
Lemma x_inv : 0 < / x <= 1 / 72 /\ 0 < / x * / x <= 1 / 5184.
Proof. assert (U : 0 < / x <= 1 / 72) by (split; [apply Rinv_0_lt_compat; lra|unfold Rdiv; rewrite Rmult_1_l; apply Rinv_le_contravar; lra]). split; [exact U|]. split; [apply Rmult_lt_0_compat; lra|]. replace (1 / 5184) with (1 / 72 * (1 / 72)) by field. apply Rmult_le_compat; lra. Qed.
Lemma w_ratio : exists W, x * x = W * (x * x - 1) /\ 1 <= W <= 10002 / 10000.
Proof.
  assert (E : 5183 <= x * x - 1) by nra. exists (x * x / (x * x - 1)). split; [field; lra|]. split; [apply (Rmult_le_reg_r (x * x - 1)); [lra|]|apply (Rmult_le_reg_r (x * x - 1)); [lra|]]; unfold Rdiv at 1; rewrite Rmult_assoc, Rinv_l by lra; lra.
Qed.
Lemma near_W W p e : 1 <= W <= 10002 / 10000 -> Rabs (p - 1) <= e -> Rabs (W * p - 1) <= 10002 / 10000 * e + 2 / 10000.
Proof. intros H P. replace (W * p - 1) with (W * (p - 1) + (W - 1)) by ring. apply sum_le; [apply prod_le; [rewrite Rabs_right; lra|exact P]|rewrite Rabs_right; lra]. Qed.
Lemma tau_scaled : exists p, tau lam 0 x = cc * p / x /\ Rabs (p - 1) <= 51 / 10000.
Proof.
  destruct cc_bd as [[C0 _] _]. destruct w_ratio as [W [EW WB]]. destruct psi_small as [PP PS]. assert (E : 5183 <= x * x - 1) by nra. destruct (wh_sq x ltac:(lra)) as [W0 WW]. set (w := sqrt (x * x - 1)) in *. set (psi := half_hangle lam x) in *.
  assert (PB : psi <= 47 / 10000 * (cc * x * w)). { destruct (Rle_lt_dec psi (47 / 10000 * (cc * x * w))) as [|G]; [assumption|exfalso]. assert (P0 : 0 < cc * x * w) by (repeat apply Rmult_lt_0_compat; lra). assert (Q : 47 / 10000 * (cc * x * w) * (47 / 10000 * (cc * x * w)) < psi * psi) by (apply Rmult_le_0_lt_compat; lra).
    replace (47 / 10000 * (cc * x * w) * (47 / 10000 * (cc * x * w))) with (2209 / 100000000 * (x * (w * w)) * (x * (cc * cc))) in Q by field. rewrite WW in Q. assert (K : 373176 <= x * (x * x - 1)) by nra. assert (0 < x * (cc * cc)) by (repeat apply Rmult_lt_0_compat; lra). assert (8 * (x * (cc * cc)) <= 2209 / 100000000 * (x * (x * x - 1)) * (x * (cc * cc))) by (apply Rmult_le_compat_r; lra). lra. }
  pose proof x_ly as XL. set (eta := x - lam * y x - cc * x) in *. set (g := (cc * x + eta - psi / w) / (cc * x)). assert (CX : 0 < cc * x) by (apply Rmult_lt_0_compat; lra).
  assert (EG : g - 1 = eta / (cc * x) - psi / (cc * x * w)) by (unfold g; field; repeat split; lra).
  assert (B1 : Rabs (eta / (cc * x)) <= 1 / 10000). { rewrite abs_frac by exact CX. apply (Rmult_le_reg_r (cc * x)); [exact CX|]. unfold Rdiv at 1. rewrite Rmult_assoc, Rinv_l by lra. rewrite Rmult_1_r. eapply Rle_trans; [exact XL|]. destruct x_inv as [U _]. rewrite Rinv_mult. assert (cc * (/ 2 * / x) <= cc * (1 / 10000 * x)) by (apply Rmult_le_compat_l; lra). lra. }
  assert (B2 : Rabs (psi / (cc * x * w)) <= 47 / 10000). { assert (P0 : 0 < cc * x * w) by (apply Rmult_lt_0_compat; lra). rewrite abs_frac by exact P0. rewrite (Rabs_right psi) by lra. apply (Rmult_le_reg_r (cc * x * w)); [exact P0|]. unfold Rdiv at 1. rewrite Rmult_assoc, Rinv_l by lra. lra. }
  exists (W * g). split.
  - rewrite (tau_hyp lam x ltac:(lra) 0). fold (y x). fold psi. fold w. assert (EW' : W = x * x / (x * x - 1)) by (apply (Rmult_eq_reg_r (x * x - 1)); [|lra]; unfold Rdiv; rewrite Rmult_assoc, Rinv_l by lra; lra). rewrite EW'. unfold g, eta. field. repeat split; lra.
  - eapply Rle_trans; [apply (near_W W g (48 / 10000) WB)|lra]. rewrite EG. apply Rle_trans with (1 / 10000 + 47 / 10000); [apply sub_le; assumption|lra].
Qed.
(** the derivatives are those of cc / x up to a few per cent *)
Lemma scaled_ders : exists A B D, f1 lam 0 x = - (cc / (x * x)) * A /\ f2 lam 0 x = 2 * cc / (x * x * x) * B /\ f3 lam 0 x = - (6 * cc / (x * x * x * x)) * D /\
  Rabs (A - 1) <= 16 / 1000 /\ Rabs (B - 1) <= 50 / 1000 /\ Rabs (D - 1) <= 140 / 1000.
Proof.
  destruct cc_bd as [[C0 _] _]. destruct w_ratio as [W [EW WB]]. destruct tau_scaled as [p [ET HP]]. destruct x_inv as [U UU]. assert (E : 5183 <= x * x - 1) by nra. destruct y_facts as [YP _]. assert (EW' : W = x * x / (x * x - 1)) by (apply (Rmult_eq_reg_r (x * x - 1)); [|lra]; unfold Rdiv; rewrite Rmult_assoc, Rinv_l by lra; lra).
  pose proof slope_c as H1. pose proof cube_c as H2. pose proof quint_c as H3.
  set (q := (1 - lam * lam * lam * x / y x) / cc). set (z2 := 2 * (1 - lam * lam) * (lam * lam * lam) / (y x * y x * y x)) in *. set (z3 := 6 * (1 - lam * lam) * (lam * lam) * (lam * lam * lam) * x / (y x * y x * y x) / (y x * y x)) in *. set (e2 := z2 * x / cc). set (e3 := z3 * (x * x) / cc).
  assert (Q : Rabs (q - 1) <= 1 / 10000). { replace (q - 1) with ((1 - lam * lam * lam * x / y x - cc) / cc) by (unfold q; field; lra). rewrite abs_frac by exact C0. apply (Rmult_le_reg_r cc); [exact C0|]. unfold Rdiv at 1. rewrite Rmult_assoc, Rinv_l, Rmult_1_r by lra. eapply Rle_trans; [exact H1|]. rewrite Rinv_mult. assert (cc * (/ 2 * / x * / x) <= cc * (1 / 10000)) by (apply Rmult_le_compat_l; lra). lra. }
  assert (Q2 : Rabs e2 <= 4 / 10000). { unfold e2. rewrite abs_frac by exact C0. rewrite Rabs_mult, (Rabs_right x) by lra. apply (Rmult_le_reg_r cc); [exact C0|]. unfold Rdiv at 1. rewrite Rmult_assoc, Rinv_l, Rmult_1_r by lra. apply Rle_trans with (cc * (2 * (/ x * / x * / x)) * x); [apply Rmult_le_compat_r; lra|]. replace (cc * (2 * (/ x * / x * / x)) * x) with (cc * (2 * (/ x * / x))) by (field; lra). assert (cc * (2 * (/ x * / x)) <= cc * (4 / 10000)) by (apply Rmult_le_compat_l; lra). lra. }
  assert (Q3 : Rabs e3 <= 12 / 10000). { unfold e3. rewrite abs_frac by exact C0. rewrite Rabs_mult, (Rabs_right (x * x)) by nra. apply (Rmult_le_reg_r cc); [exact C0|]. unfold Rdiv at 1. rewrite Rmult_assoc, Rinv_l, Rmult_1_r by lra. apply Rle_trans with (cc * (6 * (/ x * / x * / x * / x)) * (x * x)); [apply Rmult_le_compat_r; [nra|exact H3]|]. replace (cc * (6 * (/ x * / x * / x * / x)) * (x * x)) with (cc * (6 * (/ x * / x))) by (field; lra). assert (cc * (6 * (/ x * / x)) <= cc * (12 / 10000)) by (apply Rmult_le_compat_l; lra). lra. }
  set (A := W * (3 * p - 2 * q)). set (B := W * (1 + (5 * (A - 1) - 3 * (p - 1) - e2) / 2)). set (D := W * (1 + (14 * (B - 1) - 8 * (A - 1) - e3) / 6)). exists A, B, D.
  assert (EA : f1 lam 0 x = - (cc / (x * x)) * A). { unfold f1, D1. fold (y x). rewrite ET. unfold A. rewrite EW'. unfold q. field. repeat split; lra. }
  assert (EB : f2 lam 0 x = 2 * cc / (x * x * x) * B). { unfold f2, D2. fold (y x). fold z2. change (D1 lam (tau lam 0 x) x) with (f1 lam 0 x). rewrite EA, ET. unfold B. rewrite EW'. unfold e2. clearbody A z2. field. repeat split; lra. }
  assert (ED : f3 lam 0 x = - (6 * cc / (x * x * x * x)) * D). { unfold f3, D3. fold (y x). fold z3. change (D1 lam (tau lam 0 x) x) with (f1 lam 0 x). change (D2 lam (tau lam 0 x) x) with (f2 lam 0 x). rewrite EA, EB. unfold D. rewrite EW'. unfold e3. clearbody A B z3. field. repeat split; lra. }
  assert (BA : Rabs (A - 1) <= 16 / 1000). { unfold A. eapply Rle_trans; [apply (near_W W _ (155 / 10000) WB)|lra]. apply Rabs_le_between in HP, Q. apply Rabs_le_between. lra. }
  assert (BB : Rabs (B - 1) <= 50 / 1000). { unfold B. eapply Rle_trans; [apply (near_W W _ (480 / 10000) WB)|lra]. apply Rabs_le_between in HP, Q2, BA. apply Rabs_le_between. lra. }
  repeat (split; [assumption|]). unfold D. eapply Rle_trans; [apply (near_W W _ (1390 / 10000) WB)|lra]. apply Rabs_le_between in Q3, BA, BB. apply Rabs_le_between. lra.
Qed.
End At.
(** differences of the time of flight *)
Lemma tau_diff a b : 72 <= a -> a < b -> 984 / 1000 * (cc / a - cc / b) <= tau lam 0 a - tau lam 0 b <= 1016 / 1000 * (cc / a - cc / b).
Proof.
  intros Ha Hab. destruct cc_bd as [[C0 _] _].
  assert (MV : forall k, exists m, a <= m <= b /\ (tau lam 0 b - k * cc * / b) - (tau lam 0 a - k * cc * / a) = (f1 lam 0 m + k * cc / (m * m)) * (b - a)).
  { intros k. destruct (MVT_gen (fun t => tau lam 0 t - k * cc * / t) a b (fun t => f1 lam 0 t + k * cc / (t * t))) as [m [Hm E]].
    - intros t Ht. rewrite Rmin_left, Rmax_right in Ht by lra. replace (f1 lam 0 t + k * cc / (t * t)) with (f1 lam 0 t - (0 * / t + k * cc * (- 1 / (t * t)))) by (field; lra). apply (der_minus (tau lam 0) (fun t => k * cc * / t)); [apply (tau_ders lam L 0 t); lra|].
      apply (der_mult (fun _ => k * cc) (fun t => / t)); [apply der_const|]. eapply der_to; [apply (is_derive_inv (fun t => t) t 1); [apply der_id|lra]|]. field. lra.
    - intros t Ht. rewrite Rmin_left, Rmax_right in Ht by lra. apply continuity_pt_minus; [apply tau_cont0; [exact L|lra]|]. apply continuity_pt_mult; [apply continuity_pt_const; intros ? ?; reflexivity|]. apply continuity_pt_inv; [apply continuity_pt_id|lra].
    - rewrite Rmin_left, Rmax_right in Hm by lra. exists m. split; [exact Hm|exact E]. }
  split.
  - destruct (MV (984 / 1000)) as [m [Hm E]]. destruct (scaled_ders m ltac:(lra)) as [A [_ [_ [EA [_ [_ [BA _]]]]]]]. rewrite EA in E. apply Rabs_le_between in BA. assert (0 < cc / (m * m)) by (apply Rdiv_lt_0_compat; nra). replace (- (cc / (m * m)) * A + 984 / 1000 * cc / (m * m)) with (cc / (m * m) * (984 / 1000 - A)) in E by (field; lra). assert (cc / (m * m) * (984 / 1000 - A) <= 0) by nra. replace (984 / 1000 * (cc / a - cc / b)) with (984 / 1000 * cc * / a - 984 / 1000 * cc * / b) by (field; lra). set (z := cc / (m * m) * (984 / 1000 - A)) in *. clearbody z. assert (z * (b - a) <= 0 * (b - a)) by (apply Rmult_le_compat_r; lra). lra.
  - destruct (MV (1016 / 1000)) as [m [Hm E]]. destruct (scaled_ders m ltac:(lra)) as [A [_ [_ [EA [_ [_ [BA _]]]]]]]. rewrite EA in E. apply Rabs_le_between in BA. assert (0 < cc / (m * m)) by (apply Rdiv_lt_0_compat; nra). replace (- (cc / (m * m)) * A + 1016 / 1000 * cc / (m * m)) with (cc / (m * m) * (1016 / 1000 - A)) in E by (field; lra). assert (0 <= cc / (m * m) * (1016 / 1000 - A)) by nra. replace (1016 / 1000 * (cc / a - cc / b)) with (1016 / 1000 * cc * / a - 1016 / 1000 * cc * / b) by (field; lra). set (z := cc / (m * m) * (1016 / 1000 - A)) in *. clearbody z. assert (0 <= z * (b - a)) by (apply Rmult_le_pos; lra). lra.
Qed.
(** one turn divides the error by four *)
Lemma short_turn xs x : 96 <= xs -> Rabs (x - xs) <= xs / 4 -> let T := tau lam 0 xs in
  hden (resid lam 0 T) (f1 lam 0) (f2 lam 0) (f3 lam 0) x <> 0 /\ Rabs (hstep (resid lam 0 T) (f1 lam 0) (f2 lam 0) (f3 lam 0) x - xs) <= 1 / 4 * Rabs (x - xs).
Proof.
  intros HX HE T. destruct cc_bd as [[C0 _] _]. pose proof HE as HE'. apply Rabs_le_between in HE'. assert (X : 72 <= x) by lra. destruct (scaled_ders x X) as [A [B [D [EA [EB [ED [BA [BB BD]]]]]]]].
  set (h := 1 - x / xs). assert (EH : x = xs * (1 - h)) by (unfold h; field; lra). assert (Eh : xs - x = xs * h) by (unfold h; field; lra).
  assert (HH : Rabs h <= 1 / 4). { apply (Rmult_le_reg_l xs); [lra|]. rewrite <- (Rabs_right xs) at 1 by lra. rewrite <- Rabs_mult, <- Eh, Rabs_minus_sym. lra. }
  assert (PE : exists P, Rabs (P - 1) <= 16 / 1000 /\ resid lam 0 T x = cc / x * (h * P)).
  { destruct (Rtotal_order x xs) as [C|[C|C]].
    - pose proof (tau_diff x xs X C) as G. fold T in G. assert (EQ : cc / x - cc / xs = cc / x * h) by (unfold h; field; lra). rewrite EQ in G. assert (P0 : 0 < cc / x * h). { rewrite <- EQ. unfold Rdiv. rewrite <- Rmult_minus_distr_l. apply Rmult_lt_0_compat; [exact C0|]. pose proof (Rinv_lt_contravar x xs ltac:(nra) C). lra. }
      set (b := cc / x * h) in *. exists ((tau lam 0 x - T) / b). split.
      + apply Rabs_le_between. replace ((tau lam 0 x - T) / b - 1) with ((tau lam 0 x - T - b) / b) by (field; lra). split; apply (Rmult_le_reg_r b); try exact P0; unfold Rdiv; rewrite ?(Rmult_assoc _ (/ b) b), ?Rinv_l by lra; lra.
      + unfold resid. rewrite <- Rmult_assoc. fold b. field. lra.
    - exists 1. split; [rewrite Rminus_eq_0, Rabs_R0; lra|]. unfold resid, T, h. rewrite C. field. lra.
    - pose proof (tau_diff xs x ltac:(lra) C) as G. fold T in G. assert (EQ : cc / xs - cc / x = - (cc / x * h)) by (unfold h; field; lra). rewrite EQ in G. assert (P0 : 0 < - (cc / x * h)). { rewrite <- EQ. unfold Rdiv. rewrite <- Rmult_minus_distr_l. apply Rmult_lt_0_compat; [exact C0|]. pose proof (Rinv_lt_contravar xs x ltac:(nra) C). lra. }
      set (b := cc / x * h) in *. exists ((tau lam 0 x - T) / b). split.
      + apply Rabs_le_between. replace ((tau lam 0 x - T) / b - 1) with ((T - tau lam 0 x + b) / (- b)) by (field; lra). split; apply (Rmult_le_reg_r (- b)); try exact P0; unfold Rdiv; rewrite ?(Rmult_assoc _ (/ - b) (- b)), ?Rinv_l by lra; lra.
      + unfold resid. rewrite <- Rmult_assoc. fold b. field. lra. }
  destruct PE as [P [BP ER]]. destruct (ideal_step h P A B D HH BP BA BB BD) as [DEN ST]. set (den := A * A * A - 2 * (h * P) * (A * B) + h * P * (h * P) * D) in *.
  destruct (scaled_hstep cc x (h * P) A B D ltac:(lra) ltac:(lra) ltac:(fold den; lra)) as [S1 S2]. fold den in S2. unfold hden, hstep. unfold hden. rewrite ER, EA, EB, ED. split; [exact S1|]. rewrite S2. rewrite EH at 1.
  replace (xs * (1 - h) * (1 + h * P * (A * A - h * P * B) / den) - xs) with (- (xs * (1 - (1 - h) * (1 + h * P * (A * A - h * P * B) / den)))) by (field; lra). rewrite Rabs_Ropp, Rabs_mult, (Rabs_right xs) by lra.
  replace (Rabs (x - xs)) with (xs * Rabs h). 2:{ rewrite Rabs_minus_sym, Eh, Rabs_mult, (Rabs_right xs) by lra. reflexivity. } replace (1 / 4 * (xs * Rabs h)) with (xs * (1 / 4 * Rabs h)) by ring. apply Rmult_le_compat_l; [lra|exact ST].
Qed.
Lemma short_run xs eps : 96 <= xs -> 0 <= eps -> forall n err x it, Rabs (x - xs) <= xs / 4 -> (err <= eps -> Rabs (x - xs) <= eps / 3) ->
  exists x' k, house RA (Some lam) n (Some (tau lam 0 xs)) (Some eps) 0 (Some err) (Some x) it = Ret (Some x', k) /\ Rabs (x' - xs) <= xs / 4 /\ (Rabs (x' - xs) <= (1 / 4) ^ n * Rabs (x - xs) \/ Rabs (x' - xs) <= eps / 3).
Proof.
  intros HX He. induction n as [|n IH]; intros err x it HB HS.
  - exists x, it. split; [reflexivity|]. split; [exact HB|]. left. cbn. lra.
  - destruct (Rle_lt_dec err eps) as [C|C].
    + exists x, it. split; [apply house_end; exact C|]. split; [exact HB|]. right. exact (HS C).
    + destruct (short_turn xs x HX HB) as [HD HT]. pose proof HB as HB'. apply Rabs_le_between in HB'. assert (X1 : 72 <= x) by lra. rewrite (house_turn lam L n (tau lam 0 xs) eps 0 err x it) by (try exact HD; try (rewrite Rabs_right); intros; try reflexivity; lra).
      set (nx := hstep _ _ _ _ _) in *. clearbody nx. clear HD. pose proof (Rabs_pos (x - xs)) as P0. pose proof (Rabs_pos (nx - xs)) as P1.
      destruct (IH (Rabs (x - nx)) nx (it + 1)%Z) as [x' [k [E [B R]]]].
      * lra.
      * intros G. assert (TR : Rabs (x - xs) <= Rabs (x - nx) + Rabs (nx - xs)) by (replace (x - xs) with (x - nx + (nx - xs)) by ring; apply Rabs_triang). lra.
      * exists x', k. split; [exact E|]. split; [exact B|]. destruct R as [R|R]; [left|right; exact R]. eapply Rle_trans; [exact R|]. cbn [pow]. assert (0 < (1 / 4) ^ n) by (apply pow_lt; lra). replace (1 / 4 * (1 / 4) ^ n * Rabs (x - xs)) with ((1 / 4) ^ n * (1 / 4 * Rabs (x - xs))) by ring. apply Rmult_le_compat_l; lra.
Qed.
Lemma short_root T : 0 < T -> 100 * T <= cc -> exists xs p, tau lam 0 xs = T /\ 99 <= xs /\ T * xs = cc * p /\ Rabs (p - 1) <= 51 / 10000.
Proof.
  intros T0 HT. destruct cc_bd as [[C0 _] _]. destruct (tau_solution0 lam L T T0) as [xs [[X1 EX] _]]. assert (B : 99 <= xs).
  { destruct (Rle_lt_dec 99 xs) as [|G]; [assumption|exfalso]. pose proof (tau_decr0 lam L xs 99 X1 G) as M. destruct (tau_scaled 99 ltac:(lra)) as [p [EP BP]]. apply Rabs_le_between in BP. rewrite EX, EP in M. assert (cc * (9949 / 10000) <= cc * p) by (apply Rmult_le_compat_l; lra). lra. }
  destruct (tau_scaled xs ltac:(lra)) as [p [EP BP]]. exists xs, p. split; [exact EX|]. split; [exact B|]. split; [rewrite <- EX, EP; field; lra|exact BP].
Qed.
(** the guess of the code is within a quarter of the solution *)
Lemma guess_poly : let s3 := 1 - lam * lam * lam in let s5 := 1 - lam * lam * lam * lam * lam in 0 < s3 /\ 0 < s5 /\ 81 / 100 * (cc * s5) <= s3 * s3 <= 1107 / 1000 * (cc * s5) /\ s3 <= 2 * s5 /\ cc <= 2 * s3.
Proof.
  intros s3 s5. pose proof (lam_bd lam L) as LB. destruct (pow5 lam L) as [P3 P5]. split; [unfold s3; lra|]. split; [unfold s5; lra|]. unfold cc. destruct (Rle_lt_dec 0 lam) as [C|C].
  - rewrite Rabs_right by lra. set (l := lam) in *. clearbody l.
    assert (E3 : s3 = (1 - l) * (1 + l + l * l)) by (unfold s3; ring). assert (E5 : s5 = (1 - l) * (1 + l + l * l + l * l * l + l * l * l * l)) by (unfold s5; ring). assert (S0 : 0 <= (1 - l) * (1 - l)) by apply Rle_0_sqr.
    assert (Q1 : 0 <= l * l <= 1) by nra. assert (Q2 : 0 <= l * l * l <= l * l) by nra. assert (Q3 : 0 <= l * l * l * l <= l * l * l) by nra. assert (Q4 : 0 <= l * l * l * l * l <= l * l * l * l) by nra. assert (Q5 : 4 / 10 * (l * l) - 4 / 100 <= l * l * l * l) by (pose proof (Rle_0_sqr (l * l - 2 / 10)) as Z; unfold Rsqr in Z; lra).
    split; [split|split].
    + rewrite E3, E5. replace (81 / 100 * ((1 - l * l) * ((1 - l) * (1 + l + l * l + l * l * l + l * l * l * l)))) with ((1 - l) * (1 - l) * (81 / 100 * (1 + 2 * l + 2 * (l * l) + 2 * (l * l * l) + 2 * (l * l * l * l) + l * l * l * l * l))) by ring.
      replace ((1 - l) * (1 + l + l * l) * ((1 - l) * (1 + l + l * l))) with ((1 - l) * (1 - l) * (1 + 2 * l + 3 * (l * l) + 2 * (l * l * l) + l * l * l * l)) by ring. apply Rmult_le_compat_l; [exact S0|]. lra.
    + rewrite E3, E5. replace (1107 / 1000 * ((1 - l * l) * ((1 - l) * (1 + l + l * l + l * l * l + l * l * l * l)))) with ((1 - l) * (1 - l) * (1107 / 1000 * (1 + 2 * l + 2 * (l * l) + 2 * (l * l * l) + 2 * (l * l * l * l) + l * l * l * l * l))) by ring.
      replace ((1 - l) * (1 + l + l * l) * ((1 - l) * (1 + l + l * l))) with ((1 - l) * (1 - l) * (1 + 2 * l + 3 * (l * l) + 2 * (l * l * l) + l * l * l * l)) by ring. apply Rmult_le_compat_l; [exact S0|]. nra.
    + rewrite E3, E5. replace (2 * ((1 - l) * (1 + l + l * l + l * l * l + l * l * l * l))) with ((1 - l) * (2 * (1 + l + l * l + l * l * l + l * l * l * l))) by ring. apply Rmult_le_compat_l; lra.
    + rewrite E3. replace (1 - l * l) with ((1 - l) * (1 + l)) by ring. replace (2 * ((1 - l) * (1 + l + l * l))) with ((1 - l) * (2 * (1 + l + l * l))) by ring. apply Rmult_le_compat_l; lra.
  - rewrite Rabs_left by lra. set (l := - lam) in *. assert (El : lam = - l) by (unfold l; ring). assert (LP : 0 < l < 1) by lra. assert (E3 : s3 = 1 + l * l * l) by (unfold s3; rewrite El; ring). assert (E5 : s5 = 1 + l * l * l * l * l) by (unfold s5; rewrite El; ring). replace (1 - lam * l) with (1 + l * l) by (rewrite El; ring). rewrite E3, E5. clear - LP. clearbody l.
    assert (Q1 : 0 <= l * l <= 1) by nra. assert (Q2 : 0 <= l * l * l <= l * l) by nra. assert (Q3 : 0 <= l * l * l * l <= l * l * l) by nra. assert (Q4 : 0 <= l * l * l * l * l <= l * l * l * l) by nra. assert (Q5 : 0 <= l * l * l * l * l * l <= l * l * l * l * l) by nra. assert (Q6 : 0 <= l * l * l * l * l * l * l <= l * l * l * l * l * l) by nra.
    split; [split|split].
    + apply Rle_trans with (81 / 100 * (1 + l * l + l * l * l * l * l + l * l * l * l * l * l * l)); [right; ring|]. replace ((1 + l * l * l) * (1 + l * l * l)) with (1 + 2 * (l * l * l) + l * l * l * l * l * l) by ring. nra.
    + apply Rle_trans with (1107 / 1000 * (1 + l * l + l * l * l * l * l + l * l * l * l * l * l * l)); [|right; ring]. replace ((1 + l * l * l) * (1 + l * l * l)) with (1 + 2 * (l * l * l) + l * l * l * l * l * l) by ring.
      assert (G6 : 2 * (l * l * l * l * l * l) <= l * l * l * l * l + l * l * l * l * l * l * l). { assert (0 <= l * l * l * l * l * ((1 - l) * (1 - l))) by (apply Rmult_le_pos; [lra|apply Rle_0_sqr]). lra. }
      assert (G7 : 128 / 100 * (l * l * l * l * l) - 4096 / 10000 * (l * l * l) <= l * l * l * l * l * l * l). { assert (0 <= l * l * l * ((l * l - 64 / 100) * (l * l - 64 / 100))) by (apply Rmult_le_pos; [lra|apply Rle_0_sqr]). lra. }
      assert (G5 : 16 / 10 * (l * l * l * l) - 64 / 100 * (l * l * l) <= l * l * l * l * l). { assert (0 <= l * l * l * ((l - 8 / 10) * (l - 8 / 10))) by (apply Rmult_le_pos; [lra|apply Rle_0_sqr]). lra. }
      assert (G4 : 16 / 10 * (l * l * l) - 64 / 100 * (l * l) <= l * l * l * l). { assert (0 <= l * l * ((l - 8 / 10) * (l - 8 / 10))) by (apply Rmult_le_pos; [lra|apply Rle_0_sqr]). lra. }
      assert (G3 : 0 <= 107 / 1000 - 31 / 100 * (l * l) + 4 / 10 * (l * l * l)) by nra. lra.
    + lra.
    + lra.
Qed.
Lemma short_start T xs p : 0 < T -> 100 * T <= cc -> 99 <= xs -> T * xs = cc * p -> Rabs (p - 1) <= 51 / 10000 -> Rabs (start lam T 0 - xs) <= xs / 4.
Proof.
  intros T0 HT HX EP BP. destruct cc_bd as [[C0 _] _]. destruct guess_poly as [S3 [S5 [[G1 G2] [G3 G4]]]]. pose proof (tau_decr0 lam L 0 1 ltac:(lra) ltac:(lra)) as DC. rewrite tau_at0, (tau_par lam 1 0 eq_refl) in DC.
  unfold start. cbn [Nat.eqb]. cbv zeta. set (s3 := 1 - lam * lam * lam) in *. set (s5 := 1 - lam * lam * lam * lam * lam) in *. destruct (Rle_dec _ T) as [C|_]; [lra|]. destruct (Rle_dec T _) as [_|C]; [|lra].
  set (g := s3 * s3 / s5). assert (GB : 81 / 100 * cc <= g <= 1107 / 1000 * cc). { unfold g. split; apply (Rmult_le_reg_r s5); try exact S5; replace (s3 * s3 / s5 * s5) with (s3 * s3) by (field; lra); lra. }
  set (q := s3 / s5). assert (QB : 0 < q <= 2). { unfold q. split; [apply Rdiv_lt_0_compat; assumption|]. apply (Rmult_le_reg_r s5); [exact S5|]. unfold Rdiv. rewrite Rmult_assoc, Rinv_l by lra. lra. }
  assert (ES : T * (2 / 3 * s3 * (2 / 3 * s3 - T) / (2 / 5 * s5 * T) + 1) = 10 / 9 * g - 5 / 3 * (q * T) + T) by (unfold g, q; field; lra). set (z := 2 / 3 * s3 * (2 / 3 * s3 - T) / (2 / 5 * s5 * T) + 1) in *. clearbody z g q. clear DC. apply Rabs_le_between in BP.
  assert (QT : 0 <= q * T <= 2 * T) by (split; [apply Rmult_le_pos; lra|apply Rmult_le_compat_r; lra]). assert (CP : 9949 / 10000 * cc <= cc * p <= 10051 / 10000 * cc) by (split; nra).
  apply Rabs_le_between. split; apply (Rmult_le_reg_l T); try exact T0; lra.
Qed.
(** ** the iteration from the guess of the code *)
Theorem short_householder T : 0 < T -> 100 * T <= cc -> exists xs x k, tau lam 0 xs = T /\ 99 <= xs /\ householder RA (Some lam) (Some T) (Some (start lam T 0)) 0 (Some (1 / 100000)) 15 = Ret (Some x, k) /\ 72 <= x /\
  Rabs (x - xs) <= 4 / 100000000 * xs /\ Rabs (tau lam 0 x - T) <= 4 / 100000000 * T.
Proof.
  intros T0 HT. destruct cc_bd as [[C0 _] _]. destruct (short_root T T0 HT) as [xs [p [EX [HX [EP BP]]]]]. pose proof (short_start T xs p T0 HT HX EP BP) as HS. unfold householder. rewrite nat_r.
  destruct (short_run xs (1 / 100000) ltac:(lra) ltac:(lra) 15%nat 1 (start lam T 0) 0%Z HS ltac:(lra)) as [x [k [E [B R]]]]. rewrite EX in E. exists xs, x, k. split; [exact EX|]. split; [exact HX|]. split; [exact E|]. clear E.
  assert (RB : Rabs (x - xs) <= 337 / 10000000000 * xs). { destruct R as [R|R]; [|lra]. eapply Rle_trans; [exact R|]. assert ((1 / 4) ^ 15 <= 1 / 1000000000) by (cbn [pow]; lra). pose proof (Rabs_pos (start lam T 0 - xs)). assert (0 < (1 / 4) ^ 15) by (apply pow_lt; lra). assert ((1 / 4) ^ 15 * Rabs (start lam T 0 - xs) <= 1 / 1000000000 * (xs / 4)) by (apply Rmult_le_compat; lra). lra. }
  clear R HS. pose proof RB as RB'. apply Rabs_le_between in RB'. assert (X : 98 <= x) by lra. split; [lra|]. split; [lra|].
  assert (D : Rabs (tau lam 0 x - T) <= 1016 / 1000 * (cc * (Rabs (x - xs) / (x * xs)))).
  { rewrite <- EX. destruct (Rtotal_order x xs) as [C|[C|C]].
    - pose proof (tau_diff x xs ltac:(lra) C) as G. pose proof (tau_decr0 lam L x xs ltac:(lra) C). rewrite (Rabs_right (tau lam 0 x - tau lam 0 xs)) by lra. rewrite (Rabs_left (x - xs)) by lra. replace (cc * (- (x - xs) / (x * xs))) with (cc / x - cc / xs) by (field; lra). lra.
    - rewrite C. rewrite !Rminus_eq_0, Rabs_R0. unfold Rdiv. rewrite !Rmult_0_l, !Rmult_0_r. lra.
    - pose proof (tau_diff xs x ltac:(lra) C) as G. pose proof (tau_decr0 lam L xs x ltac:(lra) C). rewrite (Rabs_left (tau lam 0 x - tau lam 0 xs)) by lra. rewrite (Rabs_right (x - xs)) by lra. replace (cc * ((x - xs) / (x * xs))) with (cc / xs - cc / x) by (field; lra). lra. }
  eapply Rle_trans; [exact D|]. assert (XX : 0 < x * xs) by (apply Rmult_lt_0_compat; lra).
  apply (Rmult_le_reg_r (x * xs)); [exact XX|]. replace (1016 / 1000 * (cc * (Rabs (x - xs) / (x * xs))) * (x * xs)) with (1016 / 1000 * (cc * Rabs (x - xs))) by (field; lra). replace (4 / 100000000 * T * (x * xs)) with (4 / 100000000 * (T * xs) * x) by ring. rewrite EP. apply Rabs_le_between in BP.
  assert (K1 : cc * Rabs (x - xs) <= cc * (337 / 10000000000 * xs)) by (apply Rmult_le_compat_l; lra). assert (K2 : cc * (99 / 100 * (999 / 1000 * xs)) <= cc * (p * x)). { apply Rmult_le_compat_l; [lra|]. apply Rmult_le_compat; lra. } assert (0 < cc * xs) by (apply Rmult_lt_0_compat; lra). lra.
Qed.
End Short.
(** ** the constructor *)
Theorem short_transfer r0 r1 tof mu cw mr : vz (cross r0 r1) <> 0 -> 0 < mu -> 0 < tof -> (0 <= mr < u32)%Z ->
  let lam := transfer_lambda r0 r1 cw in 100 * (tof / time_unit r0 r1 mu) <= 1 - lam * Rabs lam ->
  exists L v0 v1 t, lambert_r r0 r1 tof mu cw mr = Ret L /\ nth_error (l_v0 L) 0 = Some (sv v0) /\ nth_error (l_v1 L) 0 = Some (sv v1) /\
    flow_at mu (r0, v0) t (r1, v1) /\ Rabs (t - tof) <= 4 / 100000000 * tof.
Proof.
  intros Hc Hm Ht M lam HT. pose proof (time_unit_pos _ _ _ (lambert_nd _ _ Hc) Hm) as UP. pose proof (lam_small r0 r1 cw Hc) as LS. fold lam in LS. set (u := time_unit r0 r1 mu) in *.
  assert (TP : 0 < tof / u) by (apply Rdiv_lt_0_compat; assumption). destruct (cc_bd lam LS) as [[_ C1] _]. unfold cc in C1.
  assert (B : tof / u / PI < IZR u32). { pose proof PI2_3_2. apply Rlt_div_l; [lra|]. unfold u32. lra. }
  destruct (proj1 (lambert_run r0 r1 tof mu cw mr Hc Ht Hm M) B) as [L HL]. destruct (first_entry r0 r1 tof mu cw mr L Hc M HL) as [x' [k' [HH [HX _]]]].
  destruct (short_householder lam LS (tof / u) TP HT) as [xs [x [k [_ [_ [E [X [_ R]]]]]]]]. fold lam u in HH. rewrite E in HH. injection HH as <- <-.
  destruct (lambert_flow r0 r1 tof mu cw mr L 0 x Hc HL HX ltac:(lra) ltac:(intros; reflexivity)) as [v0 [v1 [A0 [A1 F]]]].
  change ((Z.of_nat 0 + 1) / 2)%Z with 0%Z in F. fold lam u in F. exists L, v0, v1, (tau lam 0 x * u). split; [exact HL|]. split; [exact A0|]. split; [exact A1|]. split; [exact F|].
  replace (tau lam 0 x * u - tof) with ((tau lam 0 x - tof / u) * u) by (field; lra). rewrite Rabs_mult, (Rabs_right u) by lra. replace (4 / 100000000 * tof) with (4 / 100000000 * (tof / u) * u) by (field; lra). apply Rmult_le_compat_r; lra.
Qed.
(** (25, 0, 0) to (7, 24, 0), mu = 32000, in 1/200 of the time unit *)
Lemma ex_short : exists L v0 v1 t, lambert_r ex_r0 ex_r1 (1 / 200) 32000 false 0 = Ret L /\ nth_error (l_v0 L) 0 = Some (sv v0) /\ nth_error (l_v1 L) 0 = Some (sv v1) /\ flow_at 32000 (ex_r0, v0) t (ex_r1, v1) /\ Rabs (t - 1 / 200) <= 1 / 1000000000.
Proof.
  assert (Hc : vz (cross ex_r0 ex_r1) <> 0) by (rewrite ex_cross; lra). destruct (short_transfer ex_r0 ex_r1 (1 / 200) 32000 false 0 Hc ltac:(lra) ltac:(lra) ltac:(unfold u32; lia)) as [L [v0 [v1 [t [A [B [C [D E]]]]]]]].
  - rewrite ex_unit, ex_lambda, Rabs_right by lra. lra.
  - exists L, v0, v1, t. repeat (split; [assumption|]). lra.
Qed.
