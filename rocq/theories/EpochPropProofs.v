(** * Glue lemmas: the exact statements used in PropEpoch.v *)
From Coq Require Import ZArith Reals Lra List Ascii String Bool Lia ZifyBool.
From Flocq Require Import Core.Core IEEE754.BinarySingleNaN.
From Verif Require Import Outcome Float64 Float64Facts EpochModel EpochSpec EpochCalendarProofs EpochProofs EpochFloatProofs EpochStringProofs.
Import ListNotations.
Open Scope Z_scope.
Ltac Zify.zify_post_hook ::= Z.div_mod_to_equations.

Lemma jan1_closed_mono a b : a <= b -> jan1_closed a <= jan1_closed b.
Proof.
  intros H. replace b with (a + Z.of_nat (Z.to_nat (b - a))) by lia.
  generalize (Z.to_nat (b - a)) as n. clear. induction n as [|n IH].
  - replace (a + Z.of_nat 0) with a by lia. lia.
  - replace (a + Z.of_nat (S n)) with (a + Z.of_nat n + 1) by lia. rewrite jan1_closed_succ.
    unfold days_in_year. destruct (leap _); lia.
Qed.

Lemma day_number_calendar :
  day_number 1970 1 1 = 0
  /\ (forall y m d, day_number y m (d + 1) = day_number y m d + 1)
  /\ (forall y m, 1 <= m < 12 -> day_number y (m + 1) 1 = day_number y m (days_in_month y m) + 1)
  /\ (forall y, day_number (y + 1) 1 1 = day_number y 12 31 + 1).
Proof.
  split; [reflexivity|]. split; [intros; unfold day_number; lia|]. split.
  - intros y m Hm. unfold day_number.
    replace (Z.to_nat (m + 1 - 1)) with (S (Z.to_nat (m - 1))) by lia. cbn [sum_months].
    replace (Z.of_nat (Z.to_nat (m - 1)) + 1) with m by lia. lia.
  - intros y. unfold day_number. rewrite !jan1_is_closed, jan1_closed_succ.
    rewrite !sum_months_closed by lia. unfold feb_shift, days_in_year.
    destruct (leap y); cbn; lia.
Qed.

Lemma civil_rejection_fails : exists y m d,
  int32 y /\ uint32 m /\ uint32 d /\ ~ (-32767 <= y <= 32767 /\ 1 <= m <= 12 /\ 1 <= d <= 31) /\
  exists e, epoch_of_civil y m d 0 0 0 0 0 = Ret e.
Proof.
  exists 2000, 257, 1. unfold int32, uint32. repeat split; try lia.
  exists epoch_default. vm_compute. reflexivity.
Qed.

Lemma epoch_arithmetic_laws : forall e f d d1 d2 e',
  int64 (m_tp e) -> int64 (m_tp f) -> int64 d ->
  (epoch_plus e d = Ret e' -> epoch_diff e' e = Ret d /\ epoch_minus e' d = Ret e) /\
  (epoch_diff f e = Ret d -> epoch_plus e d = Ret f) /\
  (epoch_plus e d1 = Ret e' -> epoch_plus e' d2 = epoch_plus e (d1 + d2)) /\
  epoch_minus e d = epoch_plus e (- d) /\
  epoch_add_assign e d = epoch_plus e d /\ epoch_sub_assign e d = epoch_minus e d.
Proof.
  intros e f d d1 d2 e' He Hf Hd. split; [|split; [|split; [|split; [|split]]]].
  - intros H. split; [eapply plus_diff; eassumption|eapply plus_minus; eassumption].
  - apply diff_plus; assumption.
  - apply plus_plus.
  - apply minus_is_plus_opp.
  - reflexivity.
  - reflexivity.
Qed.

Lemma epoch_ub_exact : forall e f d,
  (epoch_plus e d = UB <-> ~ int64 (m_tp e + d)) /\
  (epoch_minus e d = UB <-> ~ int64 (m_tp e - d)) /\
  (epoch_diff e f = UB <-> ~ int64 (m_tp e - m_tp f)) /\
  (int64 (m_tp e + d) -> exists e', epoch_plus e d = Ret e' /\ m_tp e' = m_tp e + d).
Proof.
  intros e f d. split; [apply plus_ub|]. split; [apply minus_ub|]. split; [apply diff_ub|].
  intros H. apply plus_defined in H. destruct H as [e' H]. exists e'. split; [exact H|].
  apply epoch_plus_ret in H. tauto.
Qed.

Lemma epoch_total_order : forall a b c,
  epoch_le a a = true /\
  (epoch_le a b = true -> epoch_le b c = true -> epoch_le a c = true) /\
  (epoch_le a b = true -> epoch_le b a = true -> a = b) /\
  (epoch_le a b = true \/ epoch_le b a = true) /\
  (epoch_lt a b = true <-> epoch_le b a = false) /\
  epoch_gt a b = epoch_lt b a /\ epoch_ge a b = epoch_le b a /\
  (epoch_eq a b = true <-> a = b) /\ epoch_ne a b = negb (epoch_eq a b).
Proof.
  intros [a] [b] [c]. unfold epoch_le, epoch_lt, epoch_gt, epoch_ge, epoch_eq, epoch_ne; cbn [m_tp].
  split; [lia|]. split; [lia|]. split; [intros; f_equal; lia|]. split; [lia|]. split; [lia|].
  split; [reflexivity|]. split; [reflexivity|]. split; [|reflexivity].
  split; intros H; [f_equal; lia|inversion H; lia].
Qed.

Lemma duration_reference_fails : exists us, int64 us /\ m_tp (epoch_of_duration us) <> y2k + us.
Proof. exists 0. split; [unfold int64; lia|]. vm_compute. discriminate. Qed.

Lemma offset_of_spec t off :
  (t = MJD2000 /\ off = 0) \/ (t = MJD /\ off = 51544 * 86400000000) \/ (t = JD /\ off * 2 = 4903089 * 86400000000) ->
  t <> JBad /\ off = offset_of t.
Proof.
  intros [[-> ->]|[[-> ->]|[-> H]]]; cbn [offset_of]; (split; [discriminate|]); unfold mjd_offset, jd_offset; lia.
Qed.

Lemma julian_accessors : forall t e off,
  (t = MJD2000 /\ off = 0) \/ (t = MJD /\ off = 51544 * 86400000000) \/ (t = JD /\ off * 2 = 4903089 * 86400000000) ->
  int64 (m_tp e) -> int64 (m_tp e - y2k_offset) -> int64 (m_tp e - y2k_offset + off) ->
  exists d e1 e2, julian_of t e = Ret d /\ is_finite d = true /\
    (Rabs e1 <= bpow radix2 (-53) /\ Rabs e2 <= bpow radix2 (-53) /\
     B2R d = IZR (m_tp e - y2k_offset + off) / 86400000000 * (1 + e1) * (1 + e2))%R.
Proof.
  intros t e off H H1 H2 H3. apply offset_of_spec in H. destruct H as [Ht ->].
  apply julian_accuracy; [exact Ht|]. split; [exact H1|]. split; [exact H2|exact H3].
Qed.

Lemma julian_constructor_value : forall x t off,
  (t = MJD2000 /\ off = 0) \/ (t = MJD /\ off = 51544 * 86400000000) \/ (t = JD /\ off * 2 = 4903089 * 86400000000) ->
  is_finite x = true -> (Rabs (B2R x) <= 50000000)%R ->
  epoch_of_julian x t = Ret (mk_epoch (y2k - off + Ztrunc (rnd (B2R x * 86400000000)))).
Proof.
  intros x t off H F Hx. apply offset_of_spec in H. destruct H as [Ht ->].
  assert (Hd : (Rabs (B2R x * DAY) <= 4320000000000000000)%R).
  { rewrite Rabs_mult, DAY_val, (Rabs_pos_eq 86400000000) by lra. lra. }
  assert (Hr : (Rabs (rnd (B2R x * DAY)) <= IZR 4320000000000000000)%R).
  { unfold rnd. apply abs_round_le_generic; auto with typeclass_instances.
    replace (IZR 4320000000000000000) with (IZR (4320000000000000000 / 2 ^ 20) * bpow radix2 20)%R.
    - apply gen_Z; [lia|]. vm_compute. discriminate.
    - rewrite bpow_IZR by lia. rewrite <- mult_IZR. f_equal. }
  assert (T : Z.abs (Ztrunc (rnd (B2R x * DAY))) <= 4320000000000000000).
  { apply le_IZR. rewrite abs_IZR. apply Rle_trans with (2 := Hr).
    rewrite <- abs_IZR. rewrite <- Ztrunc_abs.
    rewrite Ztrunc_floor by apply Rabs_pos. apply Zfloor_lb. }
  rewrite (epoch_of_julian_value x t Ht F).
  - f_equal. f_equal. rewrite DAY_val. lia.
  - unfold int64. lia.
  - apply Rle_trans with (1 := Hd). rewrite bpow_IZR by lia. apply IZR_le. vm_compute. discriminate.
  - unfold int64, y2k, y2k_offset. lia.
  - unfold int64, y2k, y2k_offset, offset_of, mjd_offset, jd_offset. destruct t; lia.
Qed.

Lemma julian_nontrivial : in_julian_range (offset_of JD) (mk_epoch 1709251200999001)
  /\ exists d, jd (mk_epoch 1709251200999001) = Ret d /\ is_finite d = true.
Proof.
  split.
  - unfold in_julian_range, int64, offset_of, y2k_offset, jd_offset; cbn [m_tp]. lia.
  - destruct (julian_value JD (mk_epoch 1709251200999001)) as [d [H1 [H2 _]]].
    + discriminate.
    + unfold in_julian_range, int64, offset_of, y2k_offset, jd_offset; cbn [m_tp]. lia.
    + exists d. split; [exact H1|exact H2].
Qed.

Lemma exact_round_trip_fails : exists e d e',
  mjd2000 e = Ret d /\ epoch_of_julian d MJD2000 = Ret e' /\ e' <> e.
Proof.
  exists (mk_epoch (y2k + 11)), (days_of_us 11), (mk_epoch (y2k + 10)).
  split; [|split; [vm_compute; reflexivity|intros H; inversion H]].
  unfold mjd2000. replace (sub64 (m_tp (mk_epoch (y2k + 11))) y2k_offset) with (Ret 11 : outcome Z)
    by (vm_compute; reflexivity). reflexivity.
Qed.

Lemma print_parse_total : forall e y m d h mi s us,
  0 <= y <= 9999 -> valid_date y m d -> 0 <= h <= 23 -> 0 <= mi <= 59 -> 0 <= s <= 59 -> 0 <= us <= 999999 ->
  m_tp e = instant y m d h mi s 0 us ->
  exists txt, as_utc_string e = Some txt /\ List.length txt = 26%nat /\ epoch_of_string txt = Ret e.
Proof.
  intros. exists (iso_text y m d h mi s us).
  assert (E : as_utc_string e = Some (iso_text y m d h mi s us)) by (apply print_total; assumption).
  split; [exact E|]. apply print_parse in E. tauto.
Qed.

Lemma instants_covered : forall tp,
  instant 0 1 1 0 0 0 0 0 <= tp <= instant 9999 12 31 23 59 59 0 999999 ->
  exists y m d h mi s us, 0 <= y <= 9999 /\ valid_date y m d /\ 0 <= h <= 23 /\ 0 <= mi <= 59 /\ 0 <= s <= 59
    /\ 0 <= us <= 999999 /\ tp = instant y m d h mi s 0 us.
Proof.
  intros tp Htp.
  pose proof (civil_from_days_correct (tp / us_per_day)) as HC.
  destruct (civil_from_days (tp / us_per_day)) as [[y m] d]. destruct HC as [HV HN].
  set (tod := tp mod us_per_day).
  assert (Htod : 0 <= tod < us_per_day) by (unfold tod, us_per_day; lia).
  exists y, m, d, (tod / 3600000000), (tod / 60000000 mod 60), (tod / 1000000 mod 60), (tod mod 1000000).
  assert (Hy : 0 <= y <= 9999).
  { assert (B : jan1_closed y <= day_number y m d < jan1_closed (y + 1)).
    { unfold day_number. rewrite jan1_is_closed, jan1_closed_succ. destruct HV as [Hm Hd].
      rewrite sum_months_closed by assumption.
      unfold days_in_year, feb_shift, days_in_month in *.
      assert (H : m = 1 \/ m = 2 \/ m = 3 \/ m = 4 \/ m = 5 \/ m = 6 \/ m = 7 \/ m = 8 \/ m = 9
                  \/ m = 10 \/ m = 11 \/ m = 12) by lia.
      repeat destruct H as [H|H]; subst m; cbv beta iota in Hd; destruct (leap y);
        match goal with |- context [?x <? 3] =>
            let v := eval vm_compute in (x <? 3) in change (x <? 3) with v end; cbv beta iota; lia. }
    rewrite HN in B.
    assert (L : instant 0 1 1 0 0 0 0 0 = jan1_closed 0 * us_per_day) by (vm_compute; reflexivity).
    assert (U : instant 9999 12 31 23 59 59 0 999999 = jan1_closed 10000 * us_per_day - 1) by (vm_compute; reflexivity).
    rewrite L, U in Htp.
    assert (B0 : jan1_closed 0 <= tp / us_per_day < jan1_closed 10000) by (unfold us_per_day in *; lia).
    assert (M : forall a b, a <= b -> jan1_closed a <= jan1_closed b) by exact jan1_closed_mono.
    clear - B B0 M. revert B B0 M. generalize (tp / us_per_day) as q. intros q B B0 M.
    split.
    - destruct (Z.le_gt_cases 0 y) as [|G]; [assumption|]. specialize (M (y + 1) 0). lia.
    - destruct (Z.le_gt_cases y 9999) as [|G]; [assumption|]. specialize (M 10000 y). lia. }
  split; [exact Hy|]. split; [exact HV|].
  rewrite instant_of_split by assumption. rewrite HN. unfold tod, us_per_day in *.
  repeat split; try lia.
Qed.

Lemma iso_strings_accepted : forall y m d h mi s k f,
  0 <= y <= 9999 -> 1 <= m <= 12 -> 1 <= d <= 31 -> 0 <= h <= 99 -> 0 <= mi <= 99 -> 0 <= s <= 99 ->
  (1 <= k <= 6)%nat -> 0 <= f < 10 ^ Z.of_nat k ->
  epoch_of_string (iso_ym y m) = Ret (mk_epoch (instant y m 1 0 0 0 0 0)) /\
  epoch_of_string (iso_ymd y m d) = Ret (mk_epoch (instant y m d 0 0 0 0 0)) /\
  epoch_of_string (iso_h y m d h) = Ret (mk_epoch (instant y m d h 0 0 0 0)) /\
  epoch_of_string (iso_hm y m d h mi) = Ret (mk_epoch (instant y m d h mi 0 0 0)) /\
  epoch_of_string (iso_hms y m d h mi s) = Ret (mk_epoch (instant y m d h mi s 0 0)) /\
  epoch_of_string (iso_frac y m d h mi s k f) = Ret (mk_epoch (instant y m d h mi s 0 (f * 10 ^ (6 - Z.of_nat k)))).
Proof.
  intros y m d h mi s k f Hy Hm Hd Hh Hmi Hs Hk Hf.
  destruct (parse_short y m d h mi s) as [P1 [P2 [P3 [P4 P5]]]]; try lia.
  pose proof (parse_frac y m d h mi s k f) as P6.
  assert (F6 : 0 <= f * 10 ^ (6 - Z.of_nat k) < 10 ^ 6).
  { assert (E : 10 ^ Z.of_nat k * 10 ^ (6 - Z.of_nat k) = 10 ^ 6) by (rewrite <- Z.pow_add_r by lia; f_equal; lia).
    assert (0 < 10 ^ (6 - Z.of_nat k)) by (apply Z.pow_pos_nonneg; lia). nia. }
  change (10 ^ 6) with 1000000 in F6.
  rewrite P1, P2, P3, P4, P5, P6 by lia.
  repeat split; apply epoch_of_civil_correct; unfold int32; lia.
Qed.

Lemma strictness_fails : exists s1 s2 s3 e1 e2 e3,
  s1 = list_ascii_of_string "2000x01" /\ epoch_of_string s1 = Ret e1 /\
  s2 = list_ascii_of_string "2000-1x-1?" /\ epoch_of_string s2 = Ret e2 /\
  s3 = list_ascii_of_string "2000-01-01T-1" /\ epoch_of_string s3 = Ret e3 /\
  e1 = epoch_default /\ e2 = epoch_default /\ m_tp e3 < m_tp epoch_default.
Proof.
  do 6 eexists. split; [reflexivity|]. split; [vm_compute; reflexivity|].
  split; [reflexivity|]. split; [vm_compute; reflexivity|].
  split; [reflexivity|]. split; [vm_compute; reflexivity|].
  split; [reflexivity|]. split; [reflexivity|]. vm_compute. reflexivity.
Qed.

Lemma civil_characterised : forall y m d h mi s ms us,
  let y' := (y + 32768) mod 65536 - 32768 in
  int32 h -> int32 mi -> int32 s -> int32 ms -> int32 us ->
  (y' <> -32768 /\ 1 <= m mod 256 <= 12 /\ 1 <= d mod 256 <= 31 ->
   epoch_of_civil y m d h mi s ms us = Ret (mk_epoch (instant y' (m mod 256) (d mod 256) h mi s ms us))) /\
  (~ (y' <> -32768 /\ 1 <= m mod 256 <= 12 /\ 1 <= d mod 256 <= 31) ->
   epoch_of_civil y m d h mi s ms us = Throw InvalidArgument).
Proof.
  intros y m d h mi s ms us y' Hh Hmi Hs Hms Hus.
  assert (E : epoch_of_civil y m d h mi s ms us = epoch_of_civil y' (m mod 256) (d mod 256) h mi s ms us).
  { unfold epoch_of_civil, make_tp.
    replace (to_short y') with (to_short y) by (unfold to_short, y'; lia).
    replace (to_uchar (m mod 256)) with (to_uchar m) by (unfold to_uchar; lia).
    replace (to_uchar (d mod 256)) with (to_uchar d) by (unfold to_uchar; lia). reflexivity. }
  assert (Y : -32768 <= y' <= 32767) by (unfold y'; lia).
  rewrite E. split; intros H.
  - apply epoch_of_civil_correct; try assumption; lia.
  - apply epoch_of_civil_rejects; try lia; clear E; lia.
Qed.
