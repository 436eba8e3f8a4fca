(** * Rounding errors: throttle lists, and inputs on which the helpers fail *)
From Coq Require Import ZArith Reals List Lra Lia Psatz Bool.
From Flocq Require Import Core.Core IEEE754.BinarySingleNaN.
From Verif Require Import Outcome Float64 Float64Facts Vec3 FlybyFloatModel FlybyFloatProofs FloatVecModel FloatErrSpec FloatErr FloatErrMain HfSpec HfHistProofs.
Import ListNotations.
Open Scope R_scope.

Theorem throttle_list th n : Z.of_nat (length th) = (3 * n)%Z -> (0 <= n)%Z -> exists cs, throttle_con_d th n = Ret cs /\ Z.of_nat (length cs) = n /\
  forall i x y z, (0 <= i < n)%Z -> nth_error th (Z.to_nat (3 * i)) = Some x -> nth_error th (Z.to_nat (3 * i + 1)) = Some y -> nth_error th (Z.to_nat (3 * i + 2)) = Some z -> moderate (x, y, z) ->
  exists c, nth_error cs (Z.to_nat i) = Some c /\ is_finite c = true /\ let q := B2R x * B2R x + B2R y * B2R y + B2R z * B2R z in
    Rabs (B2R c - (q - 1)) <= 6 * u * q + 2 * u /\ (B2R c <= 0 -> q <= 1 + 9 * u) /\ (q <= 1 - 9 * u -> B2R c <= 0).
Proof.
  intros L N. unfold throttle_con_d. rewrite throttle_con_ok by (try rewrite Z2Nat.id by lia; lia). eexists. split; [reflexivity|]. split; [rewrite map_length, seq_length; lia|].
  intros i x y z I X Y Z Md. exists (throttle_residual [x; y; z]). split.
  - rewrite nth_error_map. assert (Q : nth_error (seq (Z.to_nat 0) (Z.to_nat n)) (Z.to_nat i) = Some (Z.to_nat i)).
    { rewrite (nth_error_nth' _ 0%nat) by (rewrite seq_length; lia). rewrite seq_nth by lia. reflexivity. }
    rewrite Q. cbn [option_map]. do 2 f_equal. rewrite Z2Nat.id by lia. unfold seg_throttle.
    assert (SK : forall (l : list double) k a, nth_error l k = Some a -> skipn k l = a :: skipn (S k) l). { induction l as [|b l IH]; intros [|k] a H; try discriminate H; [now injection H as ->|exact (IH k a H)]. }
    rewrite (SK _ _ _ X). replace (S (Z.to_nat (3 * i))) with (Z.to_nat (3 * i + 1)) by lia. rewrite (SK _ _ _ Y). replace (S (Z.to_nat (3 * i + 1))) with (Z.to_nat (3 * i + 2)) by lia. rewrite (SK _ _ _ Z). reflexivity.
  - destruct (throttle_err x y z Md) as [F E]. destruct (throttle_near x y z Md) as [A B]. cbv zeta in *. rewrite norm_sq in *. exact (conj F (conj E (conj A B))).
Qed.

(** equality of doubles decided by computation *)
Lemma deqb_val x m e : (Z.abs m < 2 ^ 53)%Z -> (-1074 <= e <= 900)%Z -> deqb x (d_of_dyadic m e) = true -> is_finite x = true /\ B2R x = IZR m * bpow radix2 e.
Proof.
  intros Hm He H. destruct (dyadic_exact m e Hm He) as [F E]. assert (Fx : is_finite x = true). { destruct x as [s|s| |s mm ee B]; try reflexivity; exfalso; unfold deqb in H; destruct (d_of_dyadic m e) as [t|t| |t mm' ee' B']; try discriminate F; try destruct s; discriminate H. }
  split; [exact Fx|]. rewrite <- E. unfold deqb in H. rewrite Beqb_correct in H by assumption. destruct (Req_bool_spec (B2R x) (B2R (d_of_dyadic m e))); [assumption|discriminate].
Qed.
Definition zv (a b c : Z) : dvec := (d_of_Z a, d_of_Z b, d_of_Z c).
Lemma zv_r a b c : (Z.abs a <= 2 ^ 53)%Z -> (Z.abs b <= 2 ^ 53)%Z -> (Z.abs c <= 2 ^ 53)%Z -> finite3 (zv a b c) /\ rvec (zv a b c) = V (IZR a) (IZR b) (IZR c).
Proof. intros A B C. destruct (d_of_Z_exact a A) as [F0 E0]. destruct (d_of_Z_exact b B) as [F1 E1]. destruct (d_of_Z_exact c C) as [F2 E2]. split; [exact (conj F0 (conj F1 F2))|]. unfold zv, rvec. rewrite E0, E1, E2. reflexivity. Qed.
Definition veqb (v : dvec) (m0 m1 m2 e : Z) : bool := let '(a, b, c) := v in deqb a (d_of_dyadic m0 e) && deqb b (d_of_dyadic m1 e) && deqb c (d_of_dyadic m2 e).
Lemma veqb_val v m0 m1 m2 e : (Z.abs m0 < 2 ^ 53)%Z -> (Z.abs m1 < 2 ^ 53)%Z -> (Z.abs m2 < 2 ^ 53)%Z -> (-1074 <= e <= 900)%Z -> veqb v m0 m1 m2 e = true ->
  finite3 v /\ rvec v = V (IZR m0 * bpow radix2 e) (IZR m1 * bpow radix2 e) (IZR m2 * bpow radix2 e).
Proof.
  intros A B C E H. destruct v as [[a b] c]. unfold veqb in H. apply andb_prop in H. destruct H as [H H2]. apply andb_prop in H. destruct H as [H0 H1].
  destruct (deqb_val _ _ _ A E H0) as [F0 E0]. destruct (deqb_val _ _ _ B E H1) as [F1 E1]. destruct (deqb_val _ _ _ C E H2) as [F2 E2]. split; [exact (conj F0 (conj F1 F2))|]. unfold rvec. rewrite E0, E1, E2. reflexivity.
Qed.
Lemma sqrt_454 : 21 < sqrt 454 < 21.5. Proof. pose proof (sqrt_sqrt 454 ltac:(lra)). pose proof (sqrt_pos 454). split; nra. Qed.
Lemma plane_case k m : (Z.abs (k * 21) <= 2 ^ 53)%Z -> (Z.abs m < 2 ^ 53)%Z -> veqb (dplane dnorm (zv 2 3 21) (zv (k * 2) (k * 3) (k * 21))) 0 0 m 0 = true ->
  finite3 (zv 2 3 21) /\ finite3 (zv (k * 2) (k * 3) (k * 21)) /\ rvec (zv (k * 2) (k * 3) (k * 21)) = vscal (IZR k) (rvec (zv 2 3 21)) /\
  rvec (dplane dnorm (zv 2 3 21) (zv (k * 2) (k * 3) (k * 21))) = V 0 0 (IZR m) /\ 97 / 100 * norm (rvec (zv 2 3 21)) < dot (V 0 0 1) (rvec (zv 2 3 21)).
Proof.
  intros A B H. destruct (zv_r 2 3 21) as [F0 E0]; try lia. destruct (zv_r (k * 2) (k * 3) (k * 21)) as [F1 E1]; try lia. destruct (veqb_val _ 0 0 m 0 ltac:(lia) ltac:(lia) B ltac:(lia) H) as [_ E2].
  split; [exact F0|]. split; [exact F1|]. rewrite E2, E1, E0. cbn [bpow]. rewrite !mult_IZR. split; [unfold vscal; cbn [vx vy vz]; f_equal|]. split; [f_equal; ring|].
  unfold norm, dot. cbn [vx vy vz]. replace (2 * 2 + 3 * 3 + 21 * 21) with 454 by lra. pose proof sqrt_454. lra.
Qed.
Theorem plane_wrong : exists r0 r1 : dvec, finite3 r0 /\ finite3 r1 /\ rvec r1 = vscal 3 (rvec r0) /\
  rvec (dplane dnorm r0 r1) = V 0 0 1 /\ 97 / 100 * norm (rvec r0) < dot (rvec (dplane dnorm r0 r1)) (rvec r0).
Proof.
  exists (zv 2 3 21), (zv (3 * 2) (3 * 3) (3 * 21)). assert (H : veqb (dplane dnorm (zv 2 3 21) (zv (3 * 2) (3 * 3) (3 * 21))) 0 0 1 0 = true) by (vm_compute; reflexivity).
  destruct (plane_case 3 1 ltac:(lia) ltac:(lia) H) as [A [B [C [D E]]]]. rewrite D. exact (conj A (conj B (conj C (conj eq_refl E)))).
Qed.
Theorem plane_wrong_opposite : exists r0 r1 : dvec, finite3 r0 /\ finite3 r1 /\ rvec r1 = vscal (-3) (rvec r0) /\
  rvec (dplane dnorm r0 r1) = V 0 0 (-1) /\ dot (rvec (dplane dnorm r0 r1)) (rvec r0) < - (97 / 100 * norm (rvec r0)).
Proof.
  exists (zv 2 3 21), (zv (-3 * 2) (-3 * 3) (-3 * 21)). assert (H : veqb (dplane dnorm (zv 2 3 21) (zv (-3 * 2) (-3 * 3) (-3 * 21))) 0 0 (-1) 0 = true) by (vm_compute; reflexivity).
  destruct (plane_case (-3) (-1) ltac:(lia) ltac:(lia) H) as [A [B [C [D E]]]]. rewrite D. split; [exact A|]. split; [exact B|]. split; [exact C|]. split; [reflexivity|]. revert E. unfold dot. cbn [vx vy vz]. lra.
Qed.
(** lengths whose square leaves the range of doubles *)
Theorem normalize_small : exists v : dvec, finite3 v /\ norm (rvec v) = bpow radix2 (-600) /\ let '(a, b, c) := dnormalize v in is_finite a = false /\ d_isnan b = true /\ d_isnan c = true.
Proof.
  exists (d_of_dyadic 1 (-600), dzero, dzero). destruct (dyadic_exact 1 (-600) ltac:(reflexivity) ltac:(lia)) as [F E]. split; [exact (conj F (conj eq_refl eq_refl))|]. split.
  - apply norm_unique; [apply bpow_ge_0|]. unfold dot, rvec. cbn [vx vy vz]. rewrite E. change (B2R dzero) with 0. ring.
  - unfold dnormalize. split; [|split]; vm_compute; reflexivity.
Qed.
Theorem normalize_large : exists v : dvec, finite3 v /\ norm (rvec v) = bpow radix2 600 /\ finite3 (dnormalize v) /\ rvec (dnormalize v) = vzero.
Proof.
  exists (d_of_dyadic 1 600, dzero, dzero). destruct (dyadic_exact 1 600 ltac:(reflexivity) ltac:(lia)) as [F E]. split; [exact (conj F (conj eq_refl eq_refl))|]. split.
  - apply norm_unique; [apply bpow_ge_0|]. unfold dot, rvec. cbn [vx vy vz]. rewrite E. change (B2R dzero) with 0. ring.
  - assert (H : veqb (dnormalize (d_of_dyadic 1 600, dzero, dzero)) 0 0 0 0 = true) by (vm_compute; reflexivity). destruct (veqb_val _ 0 0 0 0 ltac:(lia) ltac:(lia) ltac:(lia) ltac:(lia) H) as [G R]. split; [exact G|]. rewrite R. unfold vzero. f_equal; cbn [bpow]; ring.
Qed.
(** the sign of the throttle constraint is not exact *)
Theorem throttle_missed : exists x y z : double, moderate (x, y, z) /\ 1 < norm (rvec (x, y, z)) * norm (rvec (x, y, z)) /\ B2R (throttle_residual [x; y; z]) = 0.
Proof.
  exists (d_of_dyadic 1 0), (d_of_dyadic 1 (-30)), dzero. destruct (dyadic_exact 1 0 ltac:(reflexivity) ltac:(lia)) as [F0 E0]. destruct (dyadic_exact 1 (-30) ltac:(reflexivity) ltac:(lia)) as [F1 E1]. cbn [bpow] in E0. change (bpow radix2 (-30)) with (/ IZR 1073741824) in E1.
  assert (B : 1 <= 2 ^ 500) by (apply pow_R1_Rle; lra). assert (Z0 : B2R dzero = 0) by reflexivity.
  split; [|split].
  - assert (A0 : Rabs (B2R (d_of_dyadic 1 0)) <= 2 ^ 500) by (rewrite E0; apply Rabs_le; lra). assert (A1 : Rabs (B2R (d_of_dyadic 1 (-30))) <= 2 ^ 500) by (rewrite E1; apply Rabs_le; lra). assert (A2 : Rabs (B2R dzero) <= 2 ^ 500) by (rewrite Z0; apply Rabs_le; lra).
    exact (conj F0 (conj F1 (conj eq_refl (conj A0 (conj A1 A2))))).
  - rewrite norm_sq. unfold dot, rvec. cbn [vx vy vz]. rewrite E0, E1, Z0. lra.
  - assert (H : deqb (throttle_residual [d_of_dyadic 1 0; d_of_dyadic 1 (-30); dzero]) (d_of_dyadic 0 0) = true) by (vm_compute; reflexivity). rewrite (proj2 (deqb_val _ 0 0 ltac:(reflexivity) ltac:(lia) H)). cbn [bpow]. ring.
Qed.
Theorem throttle_false : exists x y z : double, moderate (x, y, z) /\ norm (rvec (x, y, z)) * norm (rvec (x, y, z)) < 1 /\ 0 < B2R (throttle_residual [x; y; z]).
Proof.
  set (mx := 0x16f8218a7d9888%Z). set (my := 0x161a910db448c1%Z). set (mz := 0x1664f9cd83b0e3%Z).
  exists (d_of_dyadic mx (-53)), (d_of_dyadic my (-53)), (d_of_dyadic mz (-56)). destruct (dyadic_exact mx (-53) ltac:(reflexivity) ltac:(lia)) as [F0 E0]. destruct (dyadic_exact my (-53) ltac:(reflexivity) ltac:(lia)) as [F1 E1]. destruct (dyadic_exact mz (-56) ltac:(reflexivity) ltac:(lia)) as [F2 E2].
  change (bpow radix2 (-53)) with (/ IZR 9007199254740992) in *. change (bpow radix2 (-56)) with (/ IZR 72057594037927936) in *. assert (B : 1 <= 2 ^ 500) by (apply pow_R1_Rle; lra).
  split; [|split].
  - assert (A0 : Rabs (B2R (d_of_dyadic mx (-53))) <= 2 ^ 500) by (rewrite E0; apply Rabs_le; unfold mx; lra). assert (A1 : Rabs (B2R (d_of_dyadic my (-53))) <= 2 ^ 500) by (rewrite E1; apply Rabs_le; unfold my; lra). assert (A2 : Rabs (B2R (d_of_dyadic mz (-56))) <= 2 ^ 500) by (rewrite E2; apply Rabs_le; unfold mz; lra).
    exact (conj F0 (conj F1 (conj F2 (conj A0 (conj A1 A2))))).
  - rewrite norm_sq. unfold dot, rvec. cbn [vx vy vz]. rewrite E0, E1, E2. unfold mx, my, mz. lra.
  - assert (H : dltb dzero (throttle_residual [d_of_dyadic mx (-53); d_of_dyadic my (-53); d_of_dyadic mz (-56)]) = true) by (vm_compute; reflexivity).
    assert (F : is_finite (throttle_residual [d_of_dyadic mx (-53); d_of_dyadic my (-53); d_of_dyadic mz (-56)]) = true) by (vm_compute; reflexivity). exact (proj1 (dltb_R dzero _ eq_refl F) H).
Qed.
Lemma moderate_zv a b c : (Z.abs a <= 2 ^ 53)%Z -> (Z.abs b <= 2 ^ 53)%Z -> (Z.abs c <= 2 ^ 53)%Z -> moderate (zv a b c).
Proof.
  intros A B C. destruct (zv_r a b c A B C) as [[F0 [F1 F2]] E]. assert (X : forall n, (Z.abs n <= 2 ^ 53)%Z -> Rabs (B2R (d_of_Z n)) <= 2 ^ 500).
  { intros n N. rewrite (proj2 (d_of_Z_exact n N)). rewrite <- abs_IZR. apply Rle_trans with (2 ^ 53); [|apply Rle_pow; [lra|lia]]. rewrite <- bp. change (bpow radix2 (Z.of_nat 53)) with (IZR (2 ^ 53)). apply IZR_le, N. }
  exact (conj F0 (conj F1 (conj F2 (conj (X a A) (conj (X b B) (X c C)))))).
Qed.
