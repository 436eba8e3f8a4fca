(** * Facts about binary64 operations (consequences of Flocq's theorems) *)
From Coq Require Import ZArith Reals Lra Lia Psatz.
From Flocq Require Import Core.Core IEEE754.BinarySingleNaN Relative.
From Verif Require Import Outcome Float64.
Open Scope R_scope.

Definition fexp64 : Z -> Z := SpecFloat.fexp prec64 emax64.
Definition rnd (x : R) : R := round radix2 fexp64 ZnearestE x.

#[global] Instance fexp64_valid : Valid_exp fexp64.
Proof. unfold fexp64. apply fexp_correct. reflexivity. Qed.
#[global] Instance fexp64_mono : Monotone_exp fexp64.
Proof. unfold fexp64. apply fexp_monotone. Qed.

Lemma fexp64_FLT : fexp64 = FLT_exp (-1074) 53.
Proof. reflexivity. Qed.

Lemma rnd_le x y : x <= y -> rnd x <= rnd y.
Proof. intros H. unfold rnd. apply round_le; auto with typeclass_instances. Qed.

Lemma rnd_gen x : generic_format radix2 fexp64 x -> rnd x = x.
Proof. intros H. unfold rnd. apply round_generic; auto with typeclass_instances. Qed.

Lemma gen_Z n e : (-1074 <= e)%Z -> (Z.abs n <= 2 ^ 53)%Z -> generic_format radix2 fexp64 (IZR n * bpow radix2 e).
Proof.
  intros He Hn.
  destruct (Z.eq_dec (Z.abs n) (2 ^ 53)) as [E|NE].
  - assert (H : IZR n * bpow radix2 e = (if (n <? 0)%Z then - bpow radix2 (53 + e) else bpow radix2 (53 + e))).
    { rewrite bpow_plus. replace (bpow radix2 53) with (IZR (2^53)) by (rewrite <- (IZR_Zpower radix2); [reflexivity|lia]).
      destruct (Z.ltb_spec n 0).
      - replace n with (- 2^53)%Z by lia. rewrite opp_IZR. lra.
      - replace n with (2^53)%Z by lia. lra. }
    rewrite H. rewrite fexp64_FLT.
    assert (G : generic_format radix2 (FLT_exp (-1074) 53) (bpow radix2 (53 + e))).
    { apply generic_format_bpow. unfold FLT_exp. lia. }
    destruct (n <? 0)%Z; [apply generic_format_opp|]; exact G.
  - rewrite fexp64_FLT. apply generic_format_FLT.
    exists (Float radix2 n e).
    + unfold F2R. reflexivity.
    + cbn [Fnum]. change (Zpower radix2 53) with (2^53)%Z. lia.
    + cbn [Fexp]. lia.
Qed.

Lemma rnd_IZR n : (Z.abs n <= 2 ^ 53)%Z -> rnd (IZR n) = IZR n.
Proof.
  intros H. apply rnd_gen. replace (IZR n) with (IZR n * bpow radix2 0) by (cbn; lra).
  apply gen_Z; [lia|exact H].
Qed.

Lemma rnd_abs_le_bpow x e : (-1074 <= e)%Z -> Rabs x <= bpow radix2 e -> Rabs (rnd x) <= bpow radix2 e.
Proof.
  intros He H. unfold rnd. apply abs_round_le_generic; auto with typeclass_instances.
  rewrite fexp64_FLT. apply generic_format_bpow. unfold FLT_exp. lia.
Qed.

Lemma no_overflow x e : (-1074 <= e < 1024)%Z -> Rabs x <= bpow radix2 e ->
  Rlt_bool (Rabs (round radix2 fexp64 ZnearestE x)) (bpow radix2 emax64) = true.
Proof.
  intros He H. apply Rlt_bool_true.
  apply Rle_lt_trans with (bpow radix2 e).
  - apply rnd_abs_le_bpow; [lia|exact H].
  - apply bpow_lt. unfold emax64. lia.
Qed.

Lemma d_of_Z_correct n : (Z.abs n <= 2 ^ 1000)%Z -> is_finite (d_of_Z n) = true /\ B2R (d_of_Z n) = rnd (IZR n).
Proof.
  intros Hn. unfold d_of_Z.
  pose proof (binary_normalize_correct prec64 emax64 _ _ mode_NE n 0 false) as H. cbv zeta in H.
  replace (F2R (Float radix2 n 0)) with (IZR n) in H by (unfold F2R; cbn; lra).
  change (round_mode mode_NE) with ZnearestE in H. fold fexp64 in H.
  rewrite (no_overflow _ 1000) in H.
  - destruct H as [H1 [H2 _]]. split; [exact H2|exact H1].
  - lia.
  - rewrite <- abs_IZR. change (bpow radix2 1000) with (IZR (2 ^ 1000)). apply IZR_le. exact Hn.
Qed.

Lemma d_of_Z_exact n : (Z.abs n <= 2 ^ 53)%Z -> is_finite (d_of_Z n) = true /\ B2R (d_of_Z n) = IZR n.
Proof.
  intros Hn. destruct (d_of_Z_correct n) as [H1 H2].
  - apply Z.le_trans with (1 := Hn). apply Z.pow_le_mono_r; lia.
  - split; [exact H1|]. rewrite H2. apply rnd_IZR. exact Hn.
Qed.

Lemma dmul_correct x y e : (-1074 <= e < 1024)%Z -> is_finite x = true -> is_finite y = true ->
  Rabs (B2R x * B2R y) <= bpow radix2 e ->
  is_finite (dmul x y) = true /\ B2R (dmul x y) = rnd (B2R x * B2R y).
Proof.
  intros He Fx Fy H. unfold dmul.
  pose proof (Bmult_correct prec64 emax64 _ _ mode_NE x y) as C.
  change (round_mode mode_NE) with ZnearestE in C. fold fexp64 in C.
  rewrite (no_overflow _ e He H) in C. destruct C as [C1 [C2 _]].
  rewrite Fx, Fy in C2. split; [exact C2|exact C1].
Qed.

Lemma ddiv_correct x y e : (-1074 <= e < 1024)%Z -> is_finite x = true -> B2R y <> 0 ->
  Rabs (B2R x / B2R y) <= bpow radix2 e ->
  is_finite (ddiv x y) = true /\ B2R (ddiv x y) = rnd (B2R x / B2R y).
Proof.
  intros He Fx Fy H. unfold ddiv.
  pose proof (Bdiv_correct prec64 emax64 _ _ mode_NE x y Fy) as C.
  change (round_mode mode_NE) with ZnearestE in C. fold fexp64 in C.
  rewrite (no_overflow _ e He H) in C. destruct C as [C1 [C2 _]].
  rewrite Fx in C2. split; [exact C2|exact C1].
Qed.

Lemma dleb_R x y : is_finite x = true -> is_finite y = true -> (dleb x y = true <-> B2R x <= B2R y).
Proof.
  intros Fx Fy. unfold dleb. rewrite Bleb_correct by assumption.
  split; intros H; [|apply Rle_bool_true; exact H].
  destruct (Rle_bool_spec (B2R x) (B2R y)); [assumption|discriminate].
Qed.
Lemma dltb_R x y : is_finite x = true -> is_finite y = true -> (dltb x y = true <-> B2R x < B2R y).
Proof.
  intros Fx Fy. unfold dltb. rewrite Bltb_correct by assumption.
  split; intros H; [|apply Rlt_bool_true; exact H].
  destruct (Rlt_bool_spec (B2R x) (B2R y)); [assumption|discriminate].
Qed.

(** truncation *)
Lemma Btrunc_Ztrunc (x : double) : Btrunc x = Ztrunc (B2R x).
Proof.
  apply eq_IZR. rewrite (Btrunc_correct prec64 emax64 _ x).
  unfold round, F2R, scaled_mantissa, cexp, FIX_exp. cbn.
  rewrite !Rmult_1_r. reflexivity.
Qed.

Lemma d_to_int_ret lo hi (x : double) : is_finite x = true -> (lo <= Ztrunc (B2R x) <= hi)%Z ->
  d_to_int lo hi x = Ret (Ztrunc (B2R x)).
Proof.
  intros F H. unfold d_to_int. rewrite F, Btrunc_Ztrunc.
  rewrite (proj2 (Z.leb_le _ _) (proj1 H)), (proj2 (Z.leb_le _ _) (proj2 H)). reflexivity.
Qed.

Lemma d_to_int_inv lo hi (x : double) n : d_to_int lo hi x = Ret n ->
  is_finite x = true /\ n = Ztrunc (B2R x) /\ (lo <= n <= hi)%Z.
Proof.
  unfold d_to_int. destruct (is_finite x) eqn:F; [|discriminate].
  rewrite Btrunc_Ztrunc. destruct ((lo <=? Ztrunc (B2R x))%Z) eqn:E1; cbn [andb]; [|discriminate].
  destruct ((Ztrunc (B2R x) <=? hi)%Z) eqn:E2; [|discriminate].
  intros H; inversion H; subst. apply Z.leb_le in E1. apply Z.leb_le in E2. auto.
Qed.

(** relative error of one rounding *)
Lemma rnd_rel x : bpow radix2 (-1022) <= Rabs x ->
  exists eps, Rabs eps <= bpow radix2 (-53) /\ rnd x = x * (1 + eps).
Proof.
  intros H. unfold rnd. rewrite fexp64_FLT.
  destruct (relative_error_N_FLT_ex radix2 (-1074) 53 ltac:(reflexivity) (fun x => negb (Z.even x)) x) as [eps [He Hr]].
  - exact H.
  - exists eps. split; [|exact Hr].
    replace (bpow radix2 (-53)) with (/ 2 * bpow radix2 (-53 + 1)); [exact He|].
    rewrite bpow_plus. cbn. lra.
Qed.

Lemma Ztrunc_between x n : (0 <= n)%Z -> IZR n <= x < IZR (n + 1) -> Ztrunc x = n.
Proof.
  intros Hn [H1 H2]. rewrite Ztrunc_floor.
  - apply Zfloor_imp. rewrite plus_IZR in *. lra.
  - apply IZR_le in Hn. lra.
Qed.
