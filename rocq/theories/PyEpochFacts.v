(** * Further proofs about epochs in Python: floats and refusals *)
From Coq Require Import ZArith Reals List Bool Lia Lra.
From Flocq Require Import Core.Core IEEE754.BinarySingleNaN.
From Verif Require Import Outcome Float64 Float64Facts FloatBounds EpochModel EpochSpec EpochProofs EpochFloatProofs EpochPropProofs PyEpochModel PyEpochSpec PyEpochProofs.
Import ListNotations.
Open Scope Z_scope.

Lemma datetime_naive d : valid_datetime d -> naive d -> exists e, py_epoch (VDatetime d) = Ret e /\ m_tp e = utc d.
Proof. intros H N. destruct (datetime_ok d H) as [e [E T]]. exists e. split; [exact E|]. unfold utc. rewrite N. lia. Qed.
Lemma float_ok x : is_finite x = true -> (Rabs (B2R x) <= 50000000)%R -> py_epoch (VFloat x) = Ret (mk_epoch (946684800000000 + Ztrunc (rnd (B2R x * 86400000000)))).
Proof. intros F B. rewrite py_epoch_float. rewrite (julian_constructor_value x MJD2000 0) by auto. rewrite Z.sub_0_r. reflexivity. Qed.
Lemma trunc_near z : (Rabs (IZR (Ztrunc z) - z) < 1)%R.
Proof.
  destruct (Rle_or_lt 0 z) as [H|H].
  - rewrite Ztrunc_floor by exact H. pose proof (Zfloor_lb z). pose proof (Zfloor_ub z). rewrite Rabs_left1 by lra. lra.
  - rewrite Ztrunc_ceil by lra. pose proof (Zceil_ub z). pose proof (Zceil_lb z). rewrite Rabs_pos_eq by lra. lra.
Qed.
Lemma float_near x : is_finite x = true -> (Rabs (B2R x) <= 50000)%R -> exists e, py_epoch (VFloat x) = Ret e /\ (Rabs (IZR (m_tp e) - (946684800000000 + B2R x * 86400000000)) < 2)%R.
Proof.
  intros F B. eexists. split; [apply float_ok; [exact F|lra]|]. cbn [m_tp]. rewrite plus_IZR. set (z := (B2R x * 86400000000)%R).
  assert (E : (Rabs (rnd z - z) <= / 2)%R). { replace (/ 2)%R with (bpow radix2 (52 - 53)) by (cbn; lra). apply rnd_err; [lia|]. unfold z. rewrite Rabs_mult, (Rabs_pos_eq 86400000000) by lra. cbn. lra. }
  pose proof (trunc_near (rnd z)) as T. replace (946684800000000 + IZR (Ztrunc (rnd z)) - (946684800000000 + z))%R with ((IZR (Ztrunc (rnd z)) - rnd z) + (rnd z - z))%R by ring.
  eapply Rle_lt_trans; [apply Rabs_triang|]. lra.
Qed.
Lemma jt_all v t : py_epoch_jt v t = match v with VFloat x | VNum x => epoch_of_julian x t | VInt n => if is_finite (d_of_Z n) then epoch_of_julian (d_of_Z n) t else Throw InvalidArgument | _ => Throw InvalidArgument end.
Proof.
  destruct v as [x|z|x|s|d|d|]; try reflexivity. destruct (is_finite (d_of_Z z)) eqn:F; [apply py_jt_int; exact F|].
  unfold py_epoch_jt, dispatch, try_all, o_double, o_int, load_double, load_int, option_map. cbn [andb]. rewrite F. destruct ((- 2 ^ 31 <=? z) && (z <=? 2 ^ 31 - 1)) eqn:L; [|reflexivity].
  exfalso. assert (is_finite (d_of_Z z) = true) by (apply d_of_Z_exact; lia). congruence.
Qed.
Lemma default_differs : (exists n, py_epoch (VInt n) = Throw InvalidArgument /\ py_epoch_jt (VInt n) MJD2000 <> Throw InvalidArgument) /\
  (forall x, py_epoch (VNum x) = Throw InvalidArgument /\ py_epoch_jt (VNum x) MJD2000 = epoch_of_julian x MJD2000) /\
  (exists n, -2 ^ 31 <= n < 2 ^ 31 /\ py_epoch (VInt n) = UB).
Proof.
  split; [exists (2 ^ 31); split; [apply int_refused; lia|]|split; [intros x; split; reflexivity|exists 200000000; split; [lia|exact int_ub]]].
  rewrite jt_all. vm_compute. discriminate.
Qed.
Lemma add_float_ok e x : is_finite x = true -> (Rabs (B2R x) <= 50000000)%R -> Z.abs (m_tp e) <= 2 ^ 62 ->
  py_add e (VFloat x) = Ret (mk_epoch (m_tp e + Ztrunc (rnd (B2R x * 86400000000)))) /\ py_add e (VNum x) = py_add e (VFloat x).
Proof.
  intros F B I. split; [|reflexivity]. rewrite add_float. pose proof (float_ok x F B) as H. rewrite py_epoch_float in H. cbn [epoch_of_julian] in H. unfold tp_from_days in H.
  destruct (us_of_days x) as [u|u|] eqn:E; cbn [bind] in H; try discriminate. unfold add64 in H. destruct (i64 (y2k + u)) as [w|w|] eqn:W; cbn [bind] in H; try discriminate.
  apply i64_ret in W. destruct W as [-> W]. set (q := Ztrunc (rnd (B2R x * 86400000000))) in *. assert (U : u = q). { clearbody q. clear E B F I. pose proof (f_equal (fun o => match o with Ret e => m_tp e | _ => 0 end) H) as H0. cbv beta iota in H0. change (y2k + u = y2k + q) in H0. clear -H0. lia. } rewrite <- U. cbn [bind]. unfold epoch_plus, add64. rewrite i64_ok; [reflexivity|].
  assert (Z.abs u <= 4320000000000000000).
  { rewrite U. unfold q. assert (R : (Rabs (rnd (B2R x * 86400000000)) <= IZR 4320000000000000000)%R).
    { rewrite <- (rnd_gen (IZR 4320000000000000000)) by (replace (IZR 4320000000000000000) with (IZR 1054687500000000 * bpow radix2 12)%R by (cbn; lra); apply gen_Z; lia).
      unfold rnd. rewrite <- round_NE_abs by typeclasses eauto. apply round_le; [typeclasses eauto..|]. rewrite Rabs_mult, (Rabs_pos_eq 86400000000) by lra. lra. }
    rewrite <- Ztrunc_abs. apply Z.le_trans with (Ztrunc (IZR 4320000000000000000)); [apply Ztrunc_le; exact R|]. rewrite Ztrunc_IZR. lia. }
  unfold int64. lia.
Qed.
Lemma delta_refuted : (exists e d e', valid_delta d /\ delta d = 249 /\ py_add e (VDelta d) = Ret e' /\ m_tp e' - m_tp e = 248) /\ (exists d, valid_delta d /\ forall e, py_add e (VDelta d) = UB).
Proof. split; [exact delta_lost|exact delta_overflow]. Qed.
