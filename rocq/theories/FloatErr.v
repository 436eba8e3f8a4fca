(** * Rounding errors of the vector helpers and of the throttle constraint *)
From Coq Require Import ZArith Reals List Lra Lia Psatz.
From Flocq Require Import Core.Core IEEE754.BinarySingleNaN Relative.
From Verif Require Import Outcome Float64 Float64Facts Vec3 FlybyFloatModel FloatVecModel FloatErrSpec HfSpec.
Import ListNotations.
Open Scope R_scope.

Definition eta : R := bpow radix2 (-1075).
Lemma bp n : bpow radix2 (Z.of_nat n) = 2 ^ n.
Proof. rewrite <- IZR_Zpower by lia. change 2 with (IZR 2). rewrite pow_IZR. reflexivity. Qed.
Lemma bpn n : bpow radix2 (- Z.of_nat n) = / 2 ^ n. Proof. rewrite bpow_opp, bp. reflexivity. Qed.
Lemma u_bpow : bpow radix2 (-53) = u. Proof. exact (bpn 53). Qed.
Lemma u_num : u = / 9007199254740992. Proof. unfold u. f_equal. change 2 with (IZR 2). rewrite pow_IZR. reflexivity. Qed.
Lemma eta_pos : 0 < eta. Proof. apply bpow_gt_0. Qed.
(** one rounding *)
Lemma rnd_ae x : Rabs (rnd x - x) <= u * Rabs x + eta.
Proof.
  unfold rnd. rewrite fexp64_FLT. destruct (error_N_FLT radix2 (-1074) 53 ltac:(reflexivity) (fun x => negb (Z.even x)) x) as [eps [et [He [Ht [_ Hr]]]]].
  rewrite Hr. replace (x * (1 + eps) + et - x) with (eps * x + et) by ring.
  assert (E1 : / 2 * bpow radix2 (-53 + 1) = u). { rewrite <- u_bpow, bpow_plus. change (bpow radix2 1) with 2. lra. }
  assert (E2 : / 2 * bpow radix2 (-1074) = eta). { unfold eta. replace (-1075)%Z with (-1 + -1074)%Z by lia. rewrite bpow_plus. reflexivity. }
  assert (He1 : Rabs eps <= u) by (rewrite <- E1; exact He). assert (Ht1 : Rabs et <= eta) by (rewrite <- E2; exact Ht). eapply Rle_trans; [apply Rabs_triang|]. rewrite Rabs_mult. pose proof (Rabs_pos x). nra.
Qed.
Lemma rnd_bd x B : Rabs x <= B -> x - (u * B + eta) <= rnd x <= x + (u * B + eta).
Proof. intros H. pose proof (rnd_ae x) as E. pose proof (Rabs_pos x). assert (0 < u) by (rewrite u_num; lra). assert (u * Rabs x <= u * B) by nra. unfold Rabs in E at 1. destruct (Rcase_abs _) in E; lra. Qed.

(** operations on finite doubles that do not overflow *)
Notation M := (bpow radix2 1020).
Lemma dadd_ok x y : is_finite x = true -> is_finite y = true -> Rabs (B2R x + B2R y) <= M -> is_finite (dadd x y) = true /\ B2R (dadd x y) = rnd (B2R x + B2R y).
Proof.
  intros Fx Fy H. unfold dadd. pose proof (Bplus_correct prec64 emax64 _ _ mode_NE x y Fx Fy) as C. change (round_mode mode_NE) with ZnearestE in C. fold fexp64 in C.
  rewrite (no_overflow _ 1020 ltac:(lia) H) in C. destruct C as [C1 [C2 _]]. split; [exact C2|exact C1].
Qed.
Lemma dsub_ok x y : is_finite x = true -> is_finite y = true -> Rabs (B2R x - B2R y) <= M -> is_finite (dsub x y) = true /\ B2R (dsub x y) = rnd (B2R x - B2R y).
Proof.
  intros Fx Fy H. unfold dsub. pose proof (Bminus_correct prec64 emax64 _ _ mode_NE x y Fx Fy) as C. change (round_mode mode_NE) with ZnearestE in C. fold fexp64 in C.
  rewrite (no_overflow _ 1020 ltac:(lia) H) in C. destruct C as [C1 [C2 _]]. split; [exact C2|exact C1].
Qed.
Lemma dmul_ok x y : is_finite x = true -> is_finite y = true -> Rabs (B2R x * B2R y) <= M -> is_finite (dmul x y) = true /\ B2R (dmul x y) = rnd (B2R x * B2R y).
Proof. apply dmul_correct. lia. Qed.
Lemma ddiv_ok x y : is_finite x = true -> B2R y <> 0 -> Rabs (B2R x / B2R y) <= M -> is_finite (ddiv x y) = true /\ B2R (ddiv x y) = rnd (B2R x / B2R y).
Proof. apply ddiv_correct. lia. Qed.
Lemma dsqrt_ok x : is_finite x = true -> 0 < B2R x -> is_finite (dsqrt x) = true /\ B2R (dsqrt x) = rnd (sqrt (B2R x)).
Proof.
  intros Fx P. unfold dsqrt. destruct (Bsqrt_correct prec64 emax64 _ _ mode_NE x) as [A [B _]]. split; [|exact A]. rewrite B. destruct x as [|[]| |[] m e H]; try reflexivity; try discriminate Fx.
  cbn in P. exfalso. pose proof (F2R_lt_0 radix2 (Float radix2 (Z.neg m) e) ltac:(reflexivity)). cbn in *. lra.
Qed.
Lemma done_r : is_finite done = true /\ B2R done = 1. Proof. exact (d_of_Z_exact 1 ltac:(lia)). Qed.
Lemma M_big : 2 ^ 1010 <= M /\ 0 < eta <= 1 / 10 ^ 100.
Proof.
  split; [rewrite <- bp; apply bpow_le; lia|]. split; [exact eta_pos|]. apply Rle_trans with (bpow radix2 (-400)); [apply bpow_le; lia|]. change (bpow radix2 (-400)) with (bpow radix2 (- Z.of_nat 400)). rewrite bpn. apply Rmult_le_reg_r with (2 ^ 400); [apply pow_lt; lra|]. rewrite Rinv_l by (apply pow_nonzero; lra).
  apply Rle_trans with (1 / 10 ^ 100 * (2 ^ 4) ^ 100); [|right; rewrite <- pow_mult; reflexivity]. unfold Rdiv. rewrite Rmult_1_l. apply Rmult_le_reg_l with (10 ^ 100); [apply pow_lt; lra|]. rewrite <- Rmult_assoc, Rinv_r by (apply pow_nonzero; lra). rewrite Rmult_1_r, Rmult_1_l. apply pow_incr. lra.
Qed.

(** ** sums of three products *)
Definition abs3 (a0 a1 a2 : R) : R := Rabs a0 + Rabs a1 + Rabs a2.
Ltac split_abs := unfold abs3, Rabs in *; repeat destruct (Rcase_abs _) in *.
Lemma sum3_err p q r : Rabs p <= 2 ^ 1001 -> Rabs q <= 2 ^ 1001 -> Rabs r <= 2 ^ 1001 ->
  let p' := rnd p in let q' := rnd q in let r' := rnd r in let s := rnd (p' + q') in
  Rabs p <= M /\ Rabs q <= M /\ Rabs r <= M /\ Rabs (p' + q') <= M /\ Rabs (s + r') <= M /\ Rabs (rnd (s + r') - (p + q + r)) <= 4 * u * (Rabs p + Rabs q + Rabs r) + 8 * eta /\
  Rabs (rnd (s + r')) <= 2 ^ 1005.
Proof.
  intros Hp Hq Hr p' q' r' s. pose proof M_big as [MB [E0 E1]].
  assert (EB : eta <= 2 ^ 1001) by (apply Rle_trans with (1 := E1); apply Rle_trans with 1; [apply Rmult_le_reg_r with (10 ^ 100); [apply pow_lt; lra|]; unfold Rdiv; rewrite Rmult_assoc, Rinv_l by (apply pow_nonzero; lra); rewrite Rmult_1_r, Rmult_1_l; apply pow_R1_Rle; lra|apply pow_R1_Rle; lra]).
  assert (B10 : 2 ^ 1010 = 512 * 2 ^ 1001) by (replace 1010%nat with (9 + 1001)%nat by reflexivity; rewrite pow_add; lra).
  assert (B5 : 2 ^ 1005 = 16 * 2 ^ 1001) by (replace 1005%nat with (4 + 1001)%nat by reflexivity; rewrite pow_add; lra).
  set (X := 2 ^ 1001) in *. clearbody X. pose proof (rnd_bd p _ (Rle_refl _)) as P. pose proof (rnd_bd q _ (Rle_refl _)) as Q. pose proof (rnd_bd r _ (Rle_refl _)) as R. fold p' in P. fold q' in Q. fold r' in R. clearbody p' q' r'.
  rewrite u_num in *. pose proof (Rabs_pos p). pose proof (Rabs_pos q). pose proof (Rabs_pos r).
  assert (AP : - Rabs p <= p <= Rabs p) by (split_abs; lra). assert (AQ : - Rabs q <= q <= Rabs q) by (split_abs; lra). assert (AR : - Rabs r <= r <= Rabs r) by (split_abs; lra).
  set (ap := Rabs p) in *. set (aq := Rabs q) in *. set (ar := Rabs r) in *. clearbody ap aq ar.
  assert (S1 : Rabs (p' + q') <= (1 + / 9007199254740992) * (ap + aq) + 2 * eta) by (apply Rabs_le; lra).
  pose proof (rnd_bd (p' + q') _ S1) as S2. fold s in S2. clearbody s. rewrite u_num in S2.
  assert (S3 : Rabs (s + r') <= (1 + 3 * / 9007199254740992) * (ap + aq + ar) + 5 * eta) by (apply Rabs_le; lra).
  pose proof (rnd_bd (s + r') _ S3) as S4. rewrite u_num in S4. set (t := rnd (s + r')) in *. clearbody t.
  repeat split; try lra; apply Rabs_le; lra.
Qed.
Section Dot.
Variables (a0 a1 a2 b0 b1 b2 : double).
Notation v := (a0, a1, a2). Notation w := (b0, b1, b2).
Hypothesis Hv : moderate v. Hypothesis Hw : moderate w.
Lemma prod_bd x y : Rabs x <= 2 ^ 500 -> Rabs y <= 2 ^ 500 -> Rabs (x * y) <= 2 ^ 1001.
Proof. intros A B. rewrite Rabs_mult. apply Rle_trans with (2 ^ 500 * 2 ^ 500); [apply Rmult_le_compat; try apply Rabs_pos; assumption|]. rewrite <- pow_add. apply Rle_pow; [lra|lia]. Qed.
Lemma ddot_err : is_finite (ddot v w) = true /\ Rabs (B2R (ddot v w) - dot (rvec v) (rvec w)) <= 4 * u * (Rabs (B2R a0 * B2R b0) + Rabs (B2R a1 * B2R b1) + Rabs (B2R a2 * B2R b2)) + 8 * eta /\ Rabs (B2R (ddot v w)) <= 2 ^ 1005.
Proof.
  destruct Hv as [F0 [F1 [F2 [A0 [A1 A2]]]]]. destruct Hw as [G0 [G1 [G2 [B0 [B1 B2]]]]].
  pose proof (sum3_err _ _ _ (prod_bd _ _ A0 B0) (prod_bd _ _ A1 B1) (prod_bd _ _ A2 B2)) as E. cbv zeta in E. destruct E as [E1 [E2 [E3 [E4 [E5 [E6 E7]]]]]].
  destruct (dmul_ok _ _ F0 G0 E1) as [P0 Q0]. destruct (dmul_ok _ _ F1 G1 E2) as [P1 Q1]. destruct (dmul_ok _ _ F2 G2 E3) as [P2 Q2].
  rewrite <- Q0, <- Q1 in E4. destruct (dadd_ok _ _ P0 P1 E4) as [P3 Q3]. rewrite <- Q0, <- Q1, <- Q3, <- Q2 in E5. destruct (dadd_ok _ _ P3 P2 E5) as [P4 Q4]. rewrite <- Q0, <- Q1, <- Q3, <- Q2, <- Q4 in E6, E7.
  unfold ddot. split; [exact P4|]. split; [exact E6|exact E7].
Qed.
End Dot.
