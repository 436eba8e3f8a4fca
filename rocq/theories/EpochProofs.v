(** * Lemmas on the integer part of epoch: construction, ordering, arithmetic *)
From Coq Require Import ZArith List Bool Lia ZifyBool.
From Verif Require Import Outcome Float64 EpochModel EpochSpec EpochCalendarProofs.
Open Scope Z_scope.
Ltac Zify.zify_post_hook ::= Z.div_mod_to_equations.

Lemma i64_ok n : int64 n -> i64 n = Ret n.
Proof. intros [H1 H2]. unfold i64, in64b. rewrite (proj2 (Z.leb_le _ _) H1), (proj2 (Z.leb_le _ _) H2). reflexivity. Qed.

Lemma i64_ret n v : i64 n = Ret v -> v = n /\ int64 n.
Proof.
  unfold i64, in64b, int64. destruct ((- 2 ^ 63 <=? n) && (n <=? 2 ^ 63 - 1)) eqn:E; intros H; inversion H; subst.
  split; [reflexivity|]. lia.
Qed.

Lemma i64_not_ok n : ~ int64 n -> i64 n = UB.
Proof.
  unfold i64, in64b, int64. intros H.
  destruct ((- 2 ^ 63 <=? n) && (n <=? 2 ^ 63 - 1)) eqn:E; [exfalso; apply H; lia|reflexivity].
Qed.

Lemma to_short_id y : -32768 <= y <= 32767 -> to_short y = y.
Proof. unfold to_short. lia. Qed.
Lemma to_uchar_id n : 0 <= n <= 255 -> to_uchar n = n.
Proof. unfold to_uchar. lia. Qed.

(** bounds of the day number over the calendar range *)
Lemma chrono_days_bounds y m d :
  -32767 <= y <= 32767 -> 1 <= m <= 12 -> 1 <= d <= 31 ->
  -12700000 <= chrono_days y m d <= 11300000.
Proof.
  intros Hy Hm Hd. rewrite chrono_days_plain by assumption.
  cbv zeta. destruct (m <? 3) eqn:E; lia.
Qed.

Lemma make_tp_value y m d h mi s ms us :
  -32767 <= y <= 32767 -> 1 <= m <= 12 -> 1 <= d <= 31 ->
  int32 h -> int32 mi -> int32 s -> int32 ms -> int32 us ->
  make_tp y m d h mi s ms us = Ret (instant y m d h mi s ms us).
Proof.
  intros Hy Hm Hd Hh Hmi Hs Hms Hus.
  unfold make_tp.
  rewrite to_short_id by lia. rewrite !to_uchar_id by lia.
  replace (year_ok y) with true by (unfold year_ok; lia).
  replace (month_ok m) with true by (unfold month_ok; lia).
  replace (day_ok d) with true by (unfold day_ok; lia).
  cbn [negb].
  pose proof (chrono_days_bounds y m d Hy Hm Hd) as Hb.
  unfold instant. rewrite <- (chrono_days_correct y m d Hy Hm Hd).
  set (D := chrono_days y m d) in *. clearbody D.
  unfold int32 in *. unfold mul64, add64, us_per_day.
  repeat (rewrite i64_ok by (unfold int64; lia); cbn [bind]).
  f_equal. lia.
Qed.

Theorem epoch_of_civil_correct y m d h mi s ms us :
  -32767 <= y <= 32767 -> 1 <= m <= 12 -> 1 <= d <= 31 ->
  int32 h -> int32 mi -> int32 s -> int32 ms -> int32 us ->
  epoch_of_civil y m d h mi s ms us = Ret (mk_epoch (instant y m d h mi s ms us)).
Proof. intros. unfold epoch_of_civil. rewrite make_tp_value by assumption. reflexivity. Qed.

(** The calendar constructor never executes UB, whatever the arguments. *)
Theorem epoch_of_civil_no_ub y m d h mi s ms us :
  int32 h -> int32 mi -> int32 s -> int32 ms -> int32 us ->
  epoch_of_civil y m d h mi s ms us <> UB.
Proof.
  intros Hh Hmi Hs Hms Hus.
  unfold epoch_of_civil, make_tp.
  destruct (year_ok (to_short y)) eqn:Ey; cbn [negb bind]; [|discriminate].
  destruct (month_ok (to_uchar m)) eqn:Em; cbn [negb bind]; [|discriminate].
  destruct (day_ok (to_uchar d)) eqn:Ed; cbn [negb bind]; [|discriminate].
  assert (Hy : -32767 <= to_short y <= 32767) by (unfold year_ok, to_short in *; lia).
  assert (Hm : 1 <= to_uchar m <= 12) by (unfold month_ok in *; lia).
  assert (Hd : 1 <= to_uchar d <= 31) by (unfold day_ok in *; lia).
  pose proof (chrono_days_bounds _ _ _ Hy Hm Hd) as Hb.
  set (D := chrono_days (to_short y) (to_uchar m) (to_uchar d)) in *. clearbody D.
  unfold int32 in *. unfold mul64, add64, us_per_day.
  repeat (rewrite i64_ok by (unfold int64; lia); cbn [bind]).
  discriminate.
Qed.

(** Rejection inside the range where the narrowing conversions are exact. *)
Theorem epoch_of_civil_rejects y m d h mi s ms us :
  -32768 <= y <= 32767 -> 0 <= m <= 255 -> 0 <= d <= 255 ->
  ~ (-32767 <= y <= 32767 /\ 1 <= m <= 12 /\ 1 <= d <= 31) ->
  epoch_of_civil y m d h mi s ms us = Throw InvalidArgument.
Proof.
  intros Hy Hm Hd Hn. unfold epoch_of_civil, make_tp.
  rewrite to_short_id by lia. rewrite !to_uchar_id by lia.
  destruct (year_ok y) eqn:Ey; cbn [negb bind]; [|reflexivity].
  destruct (month_ok m) eqn:Em; cbn [negb bind]; [|reflexivity].
  destruct (day_ok d) eqn:Ed; cbn [negb bind]; [|reflexivity].
  exfalso. apply Hn. unfold year_ok, month_ok, day_ok in *. lia.
Qed.

(** Outside it the code accepts dates whose month (or year, or day) does not exist. *)
Theorem epoch_of_civil_accepts_month_257 :
  epoch_of_civil 2000 257 1 0 0 0 0 0 = epoch_of_civil 2000 1 1 0 0 0 0 0
  /\ epoch_of_civil 67536 1 1 0 0 0 0 0 = epoch_of_civil 2000 1 1 0 0 0 0 0
  /\ epoch_of_civil 2000 1 257 0 0 0 0 0 = epoch_of_civil 2000 1 1 0 0 0 0 0
  /\ epoch_of_civil 2000 1 1 0 0 0 0 0 = Ret epoch_default.
Proof. repeat split; vm_compute; reflexivity. Qed.

(** ** Order and arithmetic *)
Lemma epoch_plus_ret e d e' : epoch_plus e d = Ret e' -> m_tp e' = m_tp e + d /\ int64 (m_tp e + d).
Proof.
  unfold epoch_plus, add64. destruct (i64 (m_tp e + d)) eqn:E; cbn [bind]; intros H; inversion H.
  apply i64_ret in E. destruct E as [-> E]. split; [reflexivity|exact E].
Qed.
Lemma epoch_minus_ret e d e' : epoch_minus e d = Ret e' -> m_tp e' = m_tp e - d /\ int64 (m_tp e - d).
Proof.
  unfold epoch_minus, sub64. destruct (i64 (m_tp e - d)) eqn:E; cbn [bind]; intros H; inversion H.
  apply i64_ret in E. destruct E as [-> E]. split; [reflexivity|exact E].
Qed.
Lemma epoch_diff_ret a b d : epoch_diff a b = Ret d -> d = m_tp a - m_tp b /\ int64 (m_tp a - m_tp b).
Proof. unfold epoch_diff, sub64. intros H. apply i64_ret in H. exact H. Qed.

Lemma mk_epoch_eta e : mk_epoch (m_tp e) = e.
Proof. destruct e; reflexivity. Qed.

Lemma plus_diff e d e' : int64 d -> epoch_plus e d = Ret e' -> epoch_diff e' e = Ret d.
Proof.
  intros Hd H. apply epoch_plus_ret in H. destruct H as [H _].
  unfold epoch_diff, sub64. rewrite H. replace (m_tp e + d - m_tp e) with d by lia.
  apply i64_ok; assumption.
Qed.
Lemma diff_plus e f d : int64 (m_tp f) -> epoch_diff f e = Ret d -> epoch_plus e d = Ret f.
Proof.
  intros Hf H. apply epoch_diff_ret in H. destruct H as [-> _].
  unfold epoch_plus, add64. replace (m_tp e + (m_tp f - m_tp e)) with (m_tp f) by lia.
  rewrite i64_ok by assumption. cbn [bind]. unfold epoch_of_tp. rewrite mk_epoch_eta. reflexivity.
Qed.
Lemma plus_minus e d e' : int64 (m_tp e) -> epoch_plus e d = Ret e' -> epoch_minus e' d = Ret e.
Proof.
  intros He H. apply epoch_plus_ret in H. destruct H as [H _].
  unfold epoch_minus, sub64. rewrite H. replace (m_tp e + d - d) with (m_tp e) by lia.
  rewrite i64_ok by assumption. cbn [bind]. unfold epoch_of_tp. rewrite mk_epoch_eta. reflexivity.
Qed.
Lemma plus_plus e d1 d2 e1 : epoch_plus e d1 = Ret e1 -> epoch_plus e1 d2 = epoch_plus e (d1 + d2).
Proof.
  intros H. apply epoch_plus_ret in H. destruct H as [H _].
  unfold epoch_plus, add64. rewrite H. replace (m_tp e + d1 + d2) with (m_tp e + (d1 + d2)) by lia. reflexivity.
Qed.
Lemma plus_defined e d : (exists e', epoch_plus e d = Ret e') <-> int64 (m_tp e + d).
Proof.
  split.
  - intros [e' H]. apply epoch_plus_ret in H. tauto.
  - intros H. unfold epoch_plus, add64. rewrite i64_ok by assumption. cbn [bind]. eauto.
Qed.
Lemma plus_ub e d : epoch_plus e d = UB <-> ~ int64 (m_tp e + d).
Proof.
  split.
  - intros H H'. apply plus_defined in H'. destruct H' as [e' H']. congruence.
  - intros H. unfold epoch_plus, add64. rewrite i64_not_ok by assumption. reflexivity.
Qed.
Lemma minus_ub e d : epoch_minus e d = UB <-> ~ int64 (m_tp e - d).
Proof.
  split.
  - intros H H'. unfold epoch_minus, sub64 in H. rewrite i64_ok in H by assumption. discriminate.
  - intros H. unfold epoch_minus, sub64. rewrite i64_not_ok by assumption. reflexivity.
Qed.
Lemma diff_ub a b : epoch_diff a b = UB <-> ~ int64 (m_tp a - m_tp b).
Proof.
  split.
  - intros H H'. unfold epoch_diff, sub64 in H. rewrite i64_ok in H by assumption. discriminate.
  - intros H. unfold epoch_diff, sub64. rewrite i64_not_ok by assumption. reflexivity.
Qed.
Lemma minus_is_plus_opp e d : epoch_minus e d = epoch_plus e (- d).
Proof. reflexivity. Qed.
Lemma assign_plus e d : epoch_add_assign e d = epoch_plus e d /\ epoch_sub_assign e d = epoch_minus e d.
Proof. split; reflexivity. Qed.
Lemma order_diff a b d : epoch_diff b a = Ret d ->
  (epoch_lt a b = true <-> 0 < d) /\ (epoch_le a b = true <-> 0 <= d) /\ (epoch_eq a b = true <-> d = 0).
Proof.
  intros H. apply epoch_diff_ret in H. destruct H as [-> _].
  unfold epoch_lt, epoch_le, epoch_eq. lia.
Qed.
