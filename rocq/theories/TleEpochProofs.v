(** * Proofs: the reference epoch of a satellite *)
From Coq Require Import ZArith Reals Lra Lia.
From Flocq Require Import Core.Core IEEE754.BinarySingleNaN.
From Verif Require Import Outcome Float64 Float64Facts FloatErrSpec FloatErr FloatErrMain EpochModel PyEphModel.
Open Scope R_scope.

Lemma strict x : is_finite x = true -> B2R (x : double) <> 0 -> is_finite_strict x = true.
Proof. destruct x as [b|b| |b m e H]; cbn; intros; try discriminate; try reflexivity. lra. Qed.
Lemma ref_epoch (a b c : double) : is_finite a = true -> is_finite b = true -> is_finite c = true -> Rabs (B2R a + B2R b) <= 2 ^ 1000 -> B2R c <> 0 ->
  B2R c = round radix2 fexp64 ZnearestE (B2R a + B2R b) -> tle_ref_epoch a b = epoch_of_julian c JD.
Proof.
  intros Fa Fb Fc L N E. assert (LM : Rabs (B2R a + B2R b) <= M) by (eapply Rle_trans; [exact L|]; eapply Rle_trans; [|apply M_big]; apply Rle_pow; [lra|lia]).
  destruct (dadd_ok a b Fa Fb LM) as [F V0]. unfold tle_ref_epoch. f_equal.
  assert (E' : B2R (dadd a b) = B2R c) by (rewrite V0, E; reflexivity).
  apply B2R_inj; [apply strict; [exact F|rewrite E'; exact N]|apply strict; assumption|exact E'].
Qed.
