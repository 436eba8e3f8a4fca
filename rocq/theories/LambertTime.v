(** * The time of flight equation: arrival *)
From Coq Require Import Reals ZArith Lra Lia Nsatz.
From Coquelicot Require Import Coquelicot.
From Verif Require Import RealLib KepProofs Vec3 TwoBodySpec FlowProofs LagProofs ElemProofs LambertSpec.
Open Scope R_scope.

Lemma sinh_2a' t : sinh (2 * t) = 2 * sinh t * cosh t.
Proof. unfold sinh, cosh. replace (2 * t) with (t + t) by ring. rewrite Ropp_plus_distr, !exp_plus. field. Qed.
Lemma cosh_2a' t : cosh (2 * t) = 1 + 2 * sinh t * sinh t.
Proof. unfold sinh, cosh. replace (2 * t) with (t + t) by ring. rewrite Ropp_plus_distr, !exp_plus. pose proof (exp_Ropp t) as E. pose proof (exp_pos t) as P. rewrite E. field. lra. Qed.
Section Tau.
Variable lam : R.
Hypothesis L : lam * lam < 1.
Section At.
Variable x : R.
Let y := lam_y lam x.
Lemma ly_arg : 0 < 1 - lam * lam * (1 - x * x).
Proof. pose proof (Rle_0_sqr (lam * x)) as H. unfold Rsqr in H. lra. Qed.
Lemma ly_sq : 0 < y /\ y * y = 1 - lam * lam + lam * lam * x * x.
Proof. pose proof ly_arg. split; [apply sqrt_lt_R0; assumption|]. unfold y, lam_y. rewrite sqrt_sqrt by lra. ring. Qed.
Lemma ly_lx : 0 < y + lam * x /\ 0 < y - lam * x.
Proof.
  destruct ly_sq as [P Q]. assert (A : Rabs (lam * x) < y). { rewrite <- (Rabs_right y) by lra. apply Rsqr_lt_abs_0. unfold Rsqr. nra. }
  apply Rabs_def2 in A. lra.
Qed.
Section Ell.
Hypothesis X : -1 < x < 1.
Let w := sqrt (1 - x * x).
Let cp := x * y + lam * (1 - x * x).
Let psi := half_angle lam x.
Lemma w_sq : 0 < w /\ w * w = 1 - x * x.
Proof. assert (0 < 1 - x * x) by nra. split; [apply sqrt_lt_R0; assumption|apply sqrt_sqrt; lra]. Qed.
Lemma cp_sp : cp * cp + (w * (y - lam * x)) * (w * (y - lam * x)) = 1.
Proof. destruct w_sq as [_ W]. destruct ly_sq as [_ Y]. unfold cp. clear - W Y. nsz. Qed.
Lemma sp_pos : 0 < w * (y - lam * x). Proof. apply Rmult_lt_0_compat; [apply w_sq|apply ly_lx]. Qed.
Lemma cp_bd : -1 < cp < 1.
Proof. pose proof cp_sp. pose proof sp_pos. assert (cp * cp < 1) by nra. split; nra. Qed.
Lemma psi_bd : 0 < psi < PI. Proof. unfold psi, half_angle. fold y. fold cp. pose proof cp_bd. apply acos_bound_lt. assumption. Qed.
Lemma cos_psi : cos psi = cp. Proof. unfold psi, half_angle. fold y. fold cp. pose proof cp_bd. apply cos_acos. lra. Qed.
Lemma sin_psi : sin psi = w * (y - lam * x).
Proof.
  pose proof psi_bd as B. assert (P : 0 < sin psi) by (apply sin_gt_0; lra). pose proof sp_pos. pose proof cp_sp as E. pose proof (sin2_cos2 psi) as F. unfold Rsqr in F. rewrite cos_psi in F.
  apply Rsqr_inj; [lra|lra|]. unfold Rsqr. lra.
Qed.
Lemma tau_ell N : tau lam N x = ((psi + IZR N * PI) / w - x + lam * y) / (1 - x * x).
Proof. unfold tau. destruct (Rlt_dec x 1) as [_|H]; [reflexivity|lra]. Qed.
End Ell.
Section Hyp.
Hypothesis X : 1 < x.
Let w := sqrt (x * x - 1).
Let cp := x * y - lam * (x * x - 1).
Let psi := half_hangle lam x.
Lemma wh_sq : 0 < w /\ w * w = x * x - 1.
Proof. assert (0 < x * x - 1) by nra. split; [apply sqrt_lt_R0; assumption|apply sqrt_sqrt; lra]. Qed.
Lemma cph_sp : cp * cp - (w * (y - lam * x)) * (w * (y - lam * x)) = 1.
Proof. destruct wh_sq as [_ W]. destruct ly_sq as [_ Y]. unfold cp. clear - W Y. nsz. Qed.
Lemma sph_pos : 0 < w * (y - lam * x). Proof. apply Rmult_lt_0_compat; [apply wh_sq|apply ly_lx]. Qed.
Lemma cph_pos : 0 < cp.
Proof.
  destruct ly_sq as [P Y]. destruct ly_lx as [A B]. unfold cp. destruct (Rle_lt_dec lam 0) as [C|C]; [assert (0 < x * y) by (apply Rmult_lt_0_compat; lra); nra|].
  assert (x * (lam * x) < x * y) by (apply Rmult_lt_compat_l; lra). nra.
Qed.
Lemma cosh_psi : cosh psi = cp /\ sinh psi = w * (y - lam * x).
Proof.
  pose proof cph_sp as E. pose proof sph_pos. pose proof cph_pos. unfold psi, half_hangle. fold y. fold w. fold cp. set (sp := w * (y - lam * x)) in *.
  unfold cosh, sinh. rewrite <- Ropp_Ln || idtac.
  assert (Q : 0 < sp + cp) by lra. rewrite exp_Ropp, exp_ln by exact Q. assert (I : / (sp + cp) = cp - sp) by (apply (Rmult_eq_reg_r (sp + cp)); [rewrite Rinv_l by lra; lra|lra]). rewrite I. split; field.
Qed.
Lemma psih_pos : 0 < psi.
Proof. destruct cosh_psi as [_ S]. pose proof sph_pos as P. rewrite <- S in P. destruct (Rlt_dec 0 psi) as [H|H]; [exact H|]. exfalso. assert (sinh psi <= 0). { rewrite <- sinh_0. destruct (Req_dec psi 0) as [->|G]; [lra|]. left. apply sinh_lt. lra. } lra. Qed.
Lemma tau_hyp N : tau lam N x = (x - lam * y - psi / w) / (x * x - 1).
Proof. unfold tau. destruct (Rlt_dec x 1) as [H|_]; [lra|]. destruct (Rlt_dec 1 x) as [_|H]; [reflexivity|lra]. Qed.
End Hyp.
Lemma tau_par N : x = 1 -> tau lam N x = 2 / 3 * (1 - lam * lam * lam).
Proof. intros ->. unfold tau. destruct (Rlt_dec 1 1) as [H|_]; [lra|]. reflexivity. Qed.
Lemma y_par : x = 1 -> y = 1.
Proof. intros ->. unfold y, lam_y. replace (1 - lam * lam * (1 - 1 * 1)) with 1 by ring. apply sqrt_1. Qed.
(** there is a universal anomaly with the three values that the geometry asks for *)
Theorem anomaly k N : 0 < k -> -1 < x -> (0 <= N)%Z -> (1 <= x -> N = 0%Z) ->
  let al := (1 - x * x) / (k * k) in
  exists chi, (x < 1 -> chi = k / sqrt (1 - x * x) * (2 * half_angle lam x + 2 * IZR N * PI)) /\ U1 al chi = 2 * k * (y - lam * x) * (x * y + lam * (1 - x * x)) /\
    U2 al chi = 2 * (k * k) * ((y - lam * x) * (y - lam * x)) /\
    2 * (k * k * k) * (y - lam * x) * ((1 + lam * lam) * (x * y + lam * (1 - x * x)) + (lam * y - x) * (y - lam * x)) + U3 al chi = 2 * (k * k * k) * tau lam N x.
Proof.
  intros K X HN HN1 al. destruct ly_sq as [YP Y]. destruct (Rtotal_order x 1) as [H|[H|H]].
  - assert (XB : -1 < x < 1) by lra. destruct (w_sq XB) as [WP W]. rewrite (tau_ell XB). pose proof (cos_psi XB) as CP. pose proof (sin_psi XB) as SP. set (w := sqrt (1 - x * x)) in *. set (psi := half_angle lam x) in *. fold y in CP, SP |- *.
    assert (AP : 0 < al) by (apply Rdiv_lt_0_compat; [nra|nra]).
    assert (SA : sqrt al = w / k) by (unfold al, w; rewrite sqrt_div_alt by nra; rewrite sqrt_square by lra; reflexivity).
    set (DE := 2 * psi + 2 * IZR N * PI). exists (k / w * DE).
    assert (EX : sqrt al * (k / w * DE) = DE) by (rewrite SA; field; lra).
    assert (SD : sin DE = 2 * (w * (y - lam * x)) * (x * y + lam * (1 - x * x))) by (unfold DE; rewrite period_Z_sin, sin_2a, CP, SP; ring).
    assert (CD : cos DE = 1 - 2 * (w * (y - lam * x)) * (w * (y - lam * x))) by (unfold DE; rewrite period_Z_cos, cos_2a_sin, SP; ring).
    assert (EA : al = w * w / (k * k)) by (unfold al; rewrite W; reflexivity).
    split; [reflexivity|]. split; [rewrite U1_pos, EX, SD, SA by exact AP; field; lra|]. split; [rewrite U2_pos, EX, CD, EA by exact AP; field; lra|].
    rewrite U3_pos, EX, SD, SA by exact AP. unfold DE. rewrite <- W.
    apply (Rmult_eq_reg_r (w * w * w)); [|apply Rgt_not_eq; repeat apply Rmult_lt_0_compat; assumption].
    transitivity (2 * (k * k * k) * ((psi + IZR N * PI) + w * ((y - lam * x) * (w * w * ((1 + lam * lam) * (x * y + lam * (w * w)) + (lam * y - x) * (y - lam * x)) - (x * y + lam * (w * w)))))); [field; lra|].
    transitivity (2 * (k * k * k) * ((psi + IZR N * PI) + w * (lam * y - x))); [|field; lra]. do 3 f_equal. clear - W Y. nsz.
  - rewrite (tau_par N H), (y_par H). assert (A0 : al = 0) by (unfold al; rewrite H; field; lra). rewrite A0, H. exists (2 * k * (1 - lam)).
    rewrite U1_zero, U2_zero, U3_zero. split; [intros; lra|]. split; [ring|]. split; field.
  - destruct (wh_sq H) as [WP W]. rewrite (tau_hyp H). destruct (cosh_psi H) as [CP SP]. set (w := sqrt (x * x - 1)) in *. set (psi := half_hangle lam x) in *. fold y in CP, SP |- *.
    assert (AP : al < 0) by (unfold al; replace ((1 - x * x) / (k * k)) with (- (w * w / (k * k))) by (rewrite W; field; lra); assert (0 < w * w / (k * k)) by (apply Rdiv_lt_0_compat; nra); lra).
    assert (EA : - al = w * w / (k * k)) by (unfold al; rewrite W; field; lra).
    assert (SA : sqrt (- al) = w / k) by (rewrite EA; replace (w * w / (k * k)) with ((w / k) * (w / k)) by (field; lra); apply sqrt_square; apply Rlt_le, Rdiv_lt_0_compat; assumption).
    exists (k / w * (2 * psi)).
    assert (EX : sqrt (- al) * (k / w * (2 * psi)) = 2 * psi) by (rewrite SA; field; lra).
    assert (SD : sinh (2 * psi) = 2 * (w * (y - lam * x)) * (x * y - lam * (x * x - 1))) by (rewrite sinh_2a', CP, SP; ring).
    assert (CD : cosh (2 * psi) = 1 + 2 * (w * (y - lam * x)) * (w * (y - lam * x))) by (rewrite cosh_2a', SP; ring).
    split; [intros; lra|]. split; [rewrite U1_neg, EX, SD, SA by exact AP; field; lra|]. split; [rewrite U2_neg, EX, CD, EA by exact AP; field; lra|].
    rewrite U3_neg, EX, SD, SA by exact AP. replace (1 - x * x) with (- (w * w)) by (rewrite W; ring). rewrite <- W.
    apply (Rmult_eq_reg_r (w * w * w)); [|apply Rgt_not_eq; repeat apply Rmult_lt_0_compat; assumption].
    transitivity (2 * (k * k * k) * (- psi + w * ((y - lam * x) * (w * w * ((1 + lam * lam) * (x * y - lam * (w * w)) + (lam * y - x) * (y - lam * x)) + (x * y - lam * (w * w)))))); [field; lra|].
    transitivity (2 * (k * k * k) * (- psi + w * (x - lam * y))); [|field; lra]. do 3 f_equal. clear - W Y. nsz.
Qed.
(** and it is the only one that is positive *)
Lemma angle_mod a b : cos a = cos b -> sin a = sin b -> exists N : Z, a = b + 2 * IZR N * PI.
Proof.
  intros C S. pose proof PI_RGT_0 as PP. exists (Int_part ((a - b) / (2 * PI))). destruct (base_Int_part ((a - b) / (2 * PI))) as [A B]. set (n := Int_part _) in *.
  assert (E : (a - b) / (2 * PI) * (2 * PI) = a - b) by (field; lra). apply angle_eq; [rewrite period_Z_cos; exact C|rewrite period_Z_sin; exact S|]. apply Rabs_def1; nra.
Qed.
Lemma U1_le0_incr al a b : al <= 0 -> a < b -> U1 al a < U1 al b.
Proof.
  intros A H. destruct (Req_dec al 0) as [->|N]; [rewrite !U1_zero; exact H|]. rewrite !U1_neg by lra. assert (P : 0 < sqrt (- al)) by (apply sqrt_lt_R0; lra). unfold Rdiv. apply Rmult_lt_compat_r; [apply Rinv_0_lt_compat; exact P|]. apply sinh_lt. apply Rmult_lt_compat_l; assumption.
Qed.
Theorem anomaly_only k chi : 0 < k -> 0 < chi ->
  let al := (1 - x * x) / (k * k) in
  U1 al chi = 2 * k * (y - lam * x) * (x * y + lam * (1 - x * x)) -> U2 al chi = 2 * (k * k) * ((y - lam * x) * (y - lam * x)) ->
  -1 < x /\ exists N, (0 <= N)%Z /\ (1 <= x -> N = 0%Z) /\
    2 * (k * k * k) * (y - lam * x) * ((1 + lam * lam) * (x * y + lam * (1 - x * x)) + (lam * y - x) * (y - lam * x)) + U3 al chi = 2 * (k * k * k) * tau lam N x.
Proof.
  intros K HC al E1 E2. destruct ly_sq as [YP Y]. destruct ly_lx as [_ YL]. fold y in YL. pose proof PI_RGT_0 as PP. assert (KK : 0 < k * k) by nra.
  assert (AX : al * (k * k) = 1 - x * x) by (unfold al; field; lra).
  destruct (Rle_or_lt 0 (x * x - 1)) as [B|B].
  - assert (AN : al <= 0) by nra. pose proof (U1_le0_incr al 0 chi AN HC) as U. rewrite (proj1 (proj2 (U_at_0 al))), E1 in U.
    assert (XP : -1 < x). { destruct (Rlt_or_le (-1) x) as [|C]; [assumption|exfalso]. assert (Q : x * y + lam * (1 - x * x) <= 0). { assert (x * y <= - (Rabs lam * (x * x))). { assert (Rabs (lam * x) <= y). { apply Rabs_le. nra. } rewrite Rabs_mult, (Rabs_left x) in H by lra. nra. } pose proof (Rabs_pos lam). pose proof (Rle_abs lam). pose proof (Rle_abs (- lam)) as RA. rewrite Rabs_Ropp in RA. nra. } assert (0 < 2 * k * (y - lam * x)) by (apply Rmult_lt_0_compat; lra). nra. }
    split; [exact XP|]. exists 0%Z. split; [lia|]. split; [reflexivity|]. assert (X1 : 1 <= x) by nra.
    destruct (anomaly k 0 K XP ltac:(lia) ltac:(reflexivity)) as [c [_ [F1 [F2 F3]]]]. fold al in F1, F2, F3. rewrite <- F3. f_equal. f_equal.
    destruct (Rtotal_order chi c) as [G|[G|G]]; [|exact G|]; apply (U1_le0_incr al _ _ AN) in G; lra.
  - assert (XB : -1 < x < 1) by nra. split; [lra|]. destruct (w_sq XB) as [WP W]. pose proof (psi_bd XB) as PB. pose proof (cos_psi XB) as CP. pose proof (sin_psi XB) as SP.
    set (w := sqrt (1 - x * x)) in *. set (psi := half_angle lam x) in *. fold y in CP, SP.
    assert (AP : 0 < al) by (apply Rdiv_lt_0_compat; nra). assert (SA : sqrt al = w / k) by (unfold al, w; rewrite sqrt_div_alt by nra; rewrite sqrt_square by lra; reflexivity).
    assert (EA : al = w * w / (k * k)) by (unfold al; rewrite W; reflexivity).
    rewrite U1_pos in E1 by exact AP. rewrite U2_pos in E2 by exact AP. set (th := sqrt al * chi) in *.
    assert (TP : 0 < th) by (apply Rmult_lt_0_compat; [rewrite SA; apply Rdiv_lt_0_compat; assumption|exact HC]).
    assert (S1 : sin th = sin (2 * psi)). { rewrite sin_2a, CP, SP. apply (Rmult_eq_reg_r (/ sqrt al)); [|apply Rinv_neq_0_compat; rewrite SA; apply Rgt_not_eq, Rdiv_lt_0_compat; assumption]. transitivity (sin th / sqrt al); [reflexivity|]. rewrite E1, SA. field. lra. }
    assert (C1 : cos th = cos (2 * psi)). { rewrite cos_2a_sin, SP. assert (Q : 1 - cos th = al * (2 * (k * k) * ((y - lam * x) * (y - lam * x)))) by (rewrite <- E2; field; lra). rewrite EA in Q. replace (w * w / (k * k) * (2 * (k * k) * ((y - lam * x) * (y - lam * x)))) with (2 * (w * w) * ((y - lam * x) * (y - lam * x))) in Q by (field; lra). lra. }
    destruct (angle_mod _ _ C1 S1) as [N HN]. assert (N0 : (0 <= N)%Z). { destruct (Z.le_gt_cases 0 N) as [|G]; [assumption|exfalso]. assert (NM : IZR N <= -1) by (apply (IZR_le N (-1)); lia). nra. }
    exists N. split; [exact N0|]. split; [intros; lra|]. destruct (anomaly k N K ltac:(lra) N0 ltac:(intros; lra)) as [c [EC [F1 [F2 F3]]]]. fold al in F1, F2, F3. rewrite <- F3. do 2 f_equal.
    rewrite EC by lra. fold w psi. rewrite <- HN. unfold th. rewrite SA. field. lra.
Qed.
End At.
End Tau.
