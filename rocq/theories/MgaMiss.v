(** * How far the end of a leg of a tour is from the next planet *)
From Coq Require Import Reals List Lra Lia.
From Verif Require Import Outcome Vec3 KepModel KepSpec TwoBodySpec TwoBodyModel KplaModel LambertSpec InexactSpec InexactProofs MgaModel MgaSpec DirectSpec MgaFitModel MgaFitSpec MgaFitProofs MgaFitMain MgaRangeSpec MgaRange.
Import ListNotations.
Open Scope R_scope.

Lemma speed_pos mu s : 0 <= top_speed mu s.
Proof. apply sqrt_pos. Qed.
Lemma pull_pos mu s : regular mu s -> 0 <= top_pull mu s.
Proof. intros R0. eapply Rle_trans; [|apply (pull_bound mu s R0)]. apply norm_nonneg. Qed.
Theorem mga_miss newton tol P x t0 T dv rest : newton_sound newton -> mga_ok P -> durations (enc_of (m_tofs P)) x t0 T -> length T = n_legs P -> all_within tol P t0 T -> fitness P x = Ret (Some dv :: rest) ->
  exists eph pl vo vi, to_planet newton P x = Ret eph /\ tour (fun _ _ => tol) P t0 T pl vo vi /\ tour_cost P pl vo vi dv /\
    forall i r, (i < n_legs P)%nat -> eph (date t0 T (S i)) = Ret r -> exists s, r = Some s /\
      norm (vsub (fst (pl (S i))) (fst s)) <= top_speed (common_mu P) (fst (pl i), vo i) * tol /\ norm (vsub (vi i) (snd s)) <= top_pull (common_mu P) (fst (pl i), vo i) * tol.
Proof.
  intros NS OK D LT AW HF. destruct (mga_core tol P x t0 T dv rest OK D LT AW HF) as [_ [_ [TP MU]]].
  destruct (mga_planet newton tol P x t0 T dv rest NS OK D LT AW HF) as [eph [pl [vo [vi [EP [TR [TC [_ [_ [IN _]]]]]]]]]]. exists eph, pl, vo, vi. split; [exact EP|]. split; [exact TR|]. split; [exact TC|].
  intros i r Hi Hr. assert (DS : date t0 T (S i) = date t0 T i + nth i T 0) by (apply date_S; lia). pose proof (TP i Hi) as TI.
  destruct (IN i (date t0 T (S i)) r Hi ltac:(lra) Hr) as [s [-> [FL _]]]. exists s. split; [reflexivity|]. destruct TR as [_ TR]. destruct (TR i Hi) as [A [B [t' [F' [B' _]]]]].
  assert (RG : regular (common_mu P) (fst (pl i), vo i)) by (split; [exact MU|]; intros QQ; rewrite QQ in A; unfold vzero in A; cbn in A; lra).
  destruct (flow_distance _ _ _ _ _ _ RG FL F') as [M1 M2]. replace ((date t0 T (S i) - date t0 T i) * 86400) with (nth i T 0 * 86400) in M1, M2 by (rewrite DS; ring).
  split; (eapply Rle_trans; [eassumption|]; apply Rmult_le_compat_l; [|exact B']); [apply speed_pos|apply pull_pos; exact RG].
Qed.
Theorem range_miss newton tol P x t0 T pl : newton_sound newton -> mga_ok P -> 0 < common_mu P -> durations (enc_of (m_tofs P)) x t0 T -> length T = n_legs P ->
  (forall i, (i <= n_legs P)%nat -> b_eph (nth i (m_seq P) b0) (date t0 T i) = Ret (Some (pl i))) ->
  (forall i, (i < n_legs P)%nat -> in_range (common_mu P) (fst (pl i)) (fst (pl (S i))) (nth i T 0 * 86400) /\ 4 / 100000000 * (nth i T 0 * 86400) <= tol) ->
  forall dv rest, fitness P x = Ret (Some dv :: rest) -> exists eph vo vi, to_planet newton P x = Ret eph /\ tour (fun _ _ => tol) P t0 T pl vo vi /\
    forall i r, (i < n_legs P)%nat -> eph (date t0 T (S i)) = Ret r -> exists s, r = Some s /\
      norm (vsub (fst (pl (S i))) (fst s)) <= top_speed (common_mu P) (fst (pl i), vo i) * tol /\ norm (vsub (vi i) (snd s)) <= top_pull (common_mu P) (fst (pl i), vo i) * tol.
Proof.
  intros NS OK Hm D LT HE HR dv rest HF. assert (AW : all_within tol P t0 T) by exact (range_within tol P t0 T pl Hm HE HR).
  destruct (mga_miss newton tol P x t0 T dv rest NS OK D LT AW HF) as [eph [pl' [vo [vi [EP [TR [_ M]]]]]]]. exists eph, vo, vi. split; [exact EP|].
  assert (EQ : forall i, (i <= n_legs P)%nat -> pl' i = pl i). { intros i Hi. destruct TR as [TR _]. specialize (TR i Hi). rewrite (HE i Hi) in TR. injection TR as TR. symmetry. exact TR. }
  split.
  - destruct TR as [_ TR]. split; [exact HE|]. intros i Hi. rewrite <- !EQ by lia. apply TR. exact Hi.
  - intros i r Hi Hr. rewrite <- !EQ by lia. apply (M i r Hi Hr).
Qed.
