(** * The convergence theorems in the form in which C62 states them, and examples *)
From Coq Require Import Reals ZArith List Bool Lra Lia.
From Coquelicot Require Import Coquelicot.
From Verif Require Import Outcome PartialReal RealLib Vec3 TwoBodySpec ElemProofs LambertModel LambertReal LambertProofs LambertSpec LambertTime LambertVec LambertTof LambertMono LambertMain LambertConv LambertNear.
Import ListNotations.
Open Scope R_scope.

Theorem householder_at_simple lam N xs (d : R) : lam * lam < 1 -> -1 < xs -> 1 / 100 < Rabs (xs - 1) -> (1 < xs -> N = 0%Z) -> is_derive (tau lam N) xs d -> d <> 0 ->
  exists K, 1 <= K /\ forall x eps n, Rabs (x - xs) <= / (2 * K) -> 0 <= eps < 1 -> (0 < n)%nat ->
  exists x' k, householder RA (Some lam) (Some (tau lam N xs)) (Some x) N (Some eps) n = Ret (Some x', Z.of_nat k) /\ (1 <= k <= n)%nat /\
    K * Rabs (x' - xs) <= (K * Rabs (x - xs)) ^ (4 ^ k) /\ (k = n \/ Rabs (x' - xs) <= K * (2 * eps) ^ 4).
Proof.
  intros LL X1 X2 X3 D Dn. assert (X4 : xs <> 1) by (intros ->; rewrite Rminus_eq_0, Rabs_R0 in X2; lra).
  assert (FE : f1 lam N xs = d). { destruct (tau_ders lam LL N xs X1 X4) as [D' _]. rewrite <- (is_derive_unique _ _ _ D), <- (is_derive_unique _ _ _ D'). reflexivity. }
  exact (householder_at lam LL N xs X1 X2 X3 ltac:(rewrite FE; exact Dn)).
Qed.
Lemma ex_near : exists K d, 1 <= K /\ 0 < d /\ forall tof, Rabs (tof - (PI / 3 + sqrt 3 / 4)) < d ->
  exists L v0 v1 t, lambert_r ex_r0 ex_r1 tof 32000 false 5 = Ret L /\ nth_error (l_v0 L) 0 = Some (sv v0) /\ nth_error (l_v1 L) 0 = Some (sv v1) /\
    flow_at 32000 (ex_r0, v0) t (ex_r1, v1) /\ Rabs (t - tof) <= K * (16 / 100000000000000000000).
Proof.
  assert (Hc : vz (cross ex_r0 ex_r1) <> 0) by (rewrite ex_cross; lra). destruct (lambert_min_energy_near ex_r0 ex_r1 32000 false Hc ltac:(lra)) as [K [d [K1 [Dp H]]]]. rewrite ex_unit, ex_lambda, tau_at0 in H.
  exists (K * K), d. split; [nra|]. split; [exact Dp|]. intros tof HT. destruct (H tof 5%Z) as [L [x [v0 [v1 [t [A [_ [B [C [D E]]]]]]]]]].
  - assert (AC : acos (1 / 2) = PI / 3). { rewrite <- (acos_cos (PI / 3)) by (pose proof PI_RGT_0; lra). f_equal. rewrite cos_PI3. reflexivity. }
    assert (SQ : sqrt (1 - 1 / 2 * (1 / 2)) = sqrt 3 / 2). { replace (1 - 1 / 2 * (1 / 2)) with (3 / 4) by field. rewrite sqrt_div_alt by lra. replace 4 with (2 * 2) by ring. rewrite sqrt_square by lra. reflexivity. }
    rewrite AC, SQ. replace ((PI / 3 + 1 / 2 * (sqrt 3 / 2)) * 1) with (PI / 3 + sqrt 3 / 4) by field. exact HT.
  - split; [lia|reflexivity].
  - exists L, v0, v1, t. repeat (split; [assumption|]). eapply Rle_trans; [exact E|]. right. unfold stop_at. cbn [Nat.eqb]. field.
Qed.
Lemma ex_turn : exists K, 1 <= K /\ forall x, Rabs x <= / (2 * K) -> exists x', householder RA (Some 0) (Some (PI / 2)) (Some x) 0 (Some 0) 1 = Ret (Some x', 1%Z) /\ K * Rabs x' <= (K * Rabs x) ^ 4.
Proof.
  destruct (householder_direct 0 ltac:(lra) (-1 / 2) (1 / 2) ltac:(lra) ltac:(lra) ltac:(lra)) as [K [K1 H]]. exists K. split; [exact K1|]. intros x Hx.
  destruct (H (PI / 2) 0 x 0 1%nat) as [x' [k [E [Hk [P _]]]]]; [lra| |rewrite Rminus_0_r; exact Hx|lra|lia|].
  - rewrite tau_at0, acos_0. ring.
  - assert (k = 1%nat) by lia. subst k. exists x'. split; [exact E|]. rewrite !Rminus_0_r in P. exact P.
Qed.
