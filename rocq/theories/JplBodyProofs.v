(** * Proofs: the constants a jpl_lp planet is built with *)
From Coq Require Import ZArith Reals List String Lra Lia.
From Flocq Require Import Core.Core IEEE754.BinarySingleNaN.
From Verif Require Import Outcome Float64 Float64Facts FloatBounds JplModel JplSpec JplProofs JplErrSpec.
Import ListNotations.
Open Scope R_scope.

Lemma Ret_eq {A} (x y : A) : Ret x = Ret y -> x = y.
Proof. congruence. Qed.
Lemma dy m e : (-1000 <= e <= 100)%Z -> (Z.abs m <= 2 ^ 53)%Z -> fin (D m e) /\ B2R (D m e) = IZR m * p2 e.
Proof. exact (dyadic_val m e). Qed.
Lemma mul_err x y c : fin x -> fin y -> 1000000 <= B2R y <= 100000000 -> Rabs (B2R x - c) <= / 10 ^ 15 -> 0 <= c <= 9 -> fin (dmul x y) /\ Rabs (B2R (dmul x y) - c * B2R y) <= / 10 ^ 6.
Proof.
  intros Fx Fy Hy Hx Hc. apply Rabs_le_inv in Hx.
  assert (O : ok (dmul x y) (B2R x * B2R y) 30).
  { apply dmul_ok; auto; [lia|]. apply Rabs_le. change (p2 30) with 1073741824. nra. }
  destruct O as (F & _ & E & _). split; [exact F|]. apply Rabs_le_inv in E. change (p2 (30 - 53)) with (/ 8388608) in E. apply Rabs_le.
  assert (- / 10 ^ 15 * B2R y <= (B2R x - c) * B2R y <= / 10 ^ 15 * B2R y) by (split; apply Rmult_le_compat_r; lra). lra.
Qed.
Lemma jpl_constants s j : jpl_ctor s = Ret j -> exists n mu rad k, In (n, mu, rad, k) bodies /\ str_ci s n /\
  B2R (j_mu_self j) = mu * 10 ^ 9 /\ B2R (j_radius j) = rad * 1000 /\ fin (j_safe j) /\ Rabs (B2R (j_safe j) - k * B2R (j_radius j)) <= / 10 ^ 6.
Proof.
  unfold jpl_ctor. intros H. pose proof (str_ci_lower s) as Hl. revert H Hl. generalize (lower s). intros n H Hl.
  cbn [map_at mapped_planets] in H.
  assert (C11 : fin (D 2476979795053773 (-51)) /\ Rabs (B2R (D 2476979795053773 (-51)) - 11 / 10) <= / 10 ^ 15).
  { destruct (dy 2476979795053773 (-51) ltac:(lia) ltac:(lia)) as [F V0]. split; [exact F|]. rewrite V0. change (p2 (-51)) with (/ 2251799813685248). apply Rabs_le. lra. }
  assert (C9 : fin (D 9 0) /\ Rabs (B2R (D 9 0) - 9) <= / 10 ^ 15).
  { destruct (dy 9 0 ltac:(lia) ltac:(lia)) as [F V0]. split; [exact F|]. rewrite V0. change (p2 0) with 1. apply Rabs_le. lra. }
  Ltac one k n H Hl j C :=
    match type of H with context [String.eqb ?x n] => destruct (String.eqb_spec x n) as [?|?] end;
    [ subst n; cbn [bind planet_data] in H; apply Ret_eq in H; subst j; cbn [j_mu_self j_radius j_safe];
      eexists _, _, _, _; split; [apply (nth_error_In bodies k); reflexivity|]; split; [exact Hl|];
      let Fm := fresh "Fm" in let Vm := fresh "Vm" in let Fr := fresh "Fr" in let Vr := fresh "Vr" in
      match goal with |- B2R (D ?a ?b) = _ /\ B2R (D ?c ?d) = _ /\ _ =>
        destruct (dy a b ltac:(lia) ltac:(lia)) as [Fm Vm]; destruct (dy c d ltac:(lia) ltac:(lia)) as [Fr Vr] end;
      split; [rewrite Vm; cbn [bpow Z.pow_pos Pos.iter radix_val radix2 Z.mul Pos.mul]; lra|];
      split; [rewrite Vr; cbn [bpow]; lra|];
      apply mul_err; [exact (proj1 C)|exact Fr|rewrite Vr; cbn [bpow]; lra|exact (proj2 C)|lra]
    | ].
  one 0%nat n H Hl j C11. one 1%nat n H Hl j C11. one 2%nat n H Hl j C11. one 3%nat n H Hl j C11.
  one 4%nat n H Hl j C9. one 5%nat n H Hl j C11. one 6%nat n H Hl j C11. one 7%nat n H Hl j C11.
  destruct (String.eqb_spec "pluto" n); discriminate.
Qed.
