(** * Value, error and magnitude of one binary64 operation whose exact result is below a power of two *)
From Coq Require Import ZArith Reals Lra Lia.
From Flocq Require Import Core.Core IEEE754.BinarySingleNaN.
From Verif Require Import Outcome Float64 Float64Facts.
Open Scope R_scope.

Notation p2 := (bpow radix2).
Notation fin x := (is_finite x = true).

Lemma rnd_err x k : (-1000 <= k <= 1000)%Z -> Rabs x <= p2 k -> Rabs (rnd x - x) <= p2 (k - 53).
Proof.
  intros Hk H. unfold rnd.
  eapply Rle_trans; [apply error_le_half_ulp; auto with typeclass_instances|].
  assert (U : ulp radix2 fexp64 x <= ulp radix2 fexp64 (p2 k)).
  { apply ulp_le; auto with typeclass_instances. rewrite (Rabs_pos_eq (p2 k)) by apply bpow_ge_0. exact H. }
  rewrite ulp_bpow in U. change (fexp64 (k + 1)) with (FLT_exp (-1074) 53 (k + 1)) in U. unfold FLT_exp in U.
  replace (Z.max (k + 1 - 53) (-1074)) with ((k - 53) + 1)%Z in U by lia.
  rewrite bpow_plus in U. change (p2 1) with 2 in U. lra.
Qed.

Definition ok (d : double) (x : R) (k : Z) : Prop :=
  fin d /\ B2R d = rnd x /\ Rabs (B2R d - x) <= p2 (k - 53) /\ Rabs (B2R d) <= p2 k.

Lemma ok_intro (d : double) x k : (-1000 <= k <= 1000)%Z -> Rabs x <= p2 k -> fin d -> B2R d = rnd x -> ok d x k.
Proof.
  intros Hk H F E. repeat split; auto; rewrite E; [apply rnd_err; auto|apply rnd_abs_le_bpow; [lia|auto]].
Qed.

Lemma dadd_ok x y k : (-1000 <= k <= 1000)%Z -> fin x -> fin y -> Rabs (B2R x + B2R y) <= p2 k ->
  ok (dadd x y) (B2R x + B2R y) k.
Proof.
  intros Hk Fx Fy H. pose proof (Bplus_correct prec64 emax64 _ _ mode_NE x y Fx Fy) as C.
  change (round_mode mode_NE) with ZnearestE in C. fold fexp64 in C.
  rewrite (no_overflow _ k ltac:(lia) H) in C. destruct C as [C1 [C2 _]]. apply ok_intro; auto.
Qed.
Lemma dsub_ok x y k : (-1000 <= k <= 1000)%Z -> fin x -> fin y -> Rabs (B2R x - B2R y) <= p2 k ->
  ok (dsub x y) (B2R x - B2R y) k.
Proof.
  intros Hk Fx Fy H. pose proof (Bminus_correct prec64 emax64 _ _ mode_NE x y Fx Fy) as C.
  change (round_mode mode_NE) with ZnearestE in C. fold fexp64 in C.
  rewrite (no_overflow _ k ltac:(lia) H) in C. destruct C as [C1 [C2 _]]. apply ok_intro; auto.
Qed.
Lemma dmul_ok x y k : (-1000 <= k <= 1000)%Z -> fin x -> fin y -> Rabs (B2R x * B2R y) <= p2 k ->
  ok (dmul x y) (B2R x * B2R y) k.
Proof.
  intros Hk Fx Fy H. destruct (dmul_correct x y k ltac:(lia) Fx Fy H). apply ok_intro; auto.
Qed.
Lemma ddiv_ok x y k : (-1000 <= k <= 1000)%Z -> fin x -> B2R y <> 0 -> Rabs (B2R x / B2R y) <= p2 k ->
  ok (ddiv x y) (B2R x / B2R y) k.
Proof.
  intros Hk Fx Fy H. destruct (ddiv_correct x y k ltac:(lia) Fx Fy H). apply ok_intro; auto.
Qed.
Lemma dsqrt_ok x k : (-1000 <= k <= 1000)%Z -> fin x -> 0 <= B2R x -> sqrt (B2R x) <= p2 k ->
  ok (dsqrt x) (sqrt (B2R x)) k.
Proof.
  intros Hk Fx Hx H. destruct (Bsqrt_correct prec64 emax64 _ _ mode_NE x) as [C1 [C2 _]].
  change (round_mode mode_NE) with ZnearestE in C1. fold fexp64 in C1.
  apply ok_intro; auto.
  - rewrite Rabs_pos_eq; [exact H|apply sqrt_pos].
  - unfold dsqrt. rewrite C2. destruct x as [[|]|[|]| |[|] m e B]; try reflexivity; try discriminate.
    exfalso. assert (B2R (B754_finite true m e B) < 0); [|lra].
    unfold B2R. apply F2R_lt_0. reflexivity.
Qed.
