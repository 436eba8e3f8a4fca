(** * Proofs about epochs in Python *)
From Coq Require Import ZArith Reals List Bool Lia Lra Psatz.
From Flocq Require Import Core.Core IEEE754.BinarySingleNaN.
From Verif Require Import Outcome Float64 Float64Facts FloatBounds EpochModel EpochSpec EpochProofs EpochCalendarProofs EpochFloatProofs EpochPropProofs EpochStringProofs PyEpochModel PyEpochSpec.
Import ListNotations.
Open Scope Z_scope.

(** ** dispatch *)
Lemma py_epoch_float x : py_epoch (VFloat x) = epoch_of_julian x MJD2000.
Proof. reflexivity. Qed.
Lemma py_epoch_int n : py_epoch (VInt n) = if (- 2 ^ 31 <=? n) && (n <=? 2 ^ 31 - 1) then epoch_of_julian (d_of_Z n) MJD2000 else Throw InvalidArgument.
Proof. unfold py_epoch, dispatch, try_all, o_double, o_int, o_string, o_object, load_double, load_int, load_string, from_datetime, option_map. cbn [andb]. destruct ((- 2 ^ 31 <=? n) && (n <=? 2 ^ 31 - 1)); reflexivity. Qed.
Lemma py_epoch_num x : py_epoch (VNum x) = Throw InvalidArgument.
Proof. reflexivity. Qed.
Lemma py_epoch_str s : py_epoch (VStr s) = epoch_of_string s.
Proof. reflexivity. Qed.
Lemma py_epoch_datetime d : py_epoch (VDatetime d) = epoch_of_civil (dt_year d) (dt_month d) (dt_day d) (dt_hour d) (dt_min d) (dt_sec d) 0 (dt_us d).
Proof. reflexivity. Qed.
Lemma py_jt_num x t : py_epoch_jt (VNum x) t = epoch_of_julian x t.
Proof. reflexivity. Qed.
Lemma py_jt_float x t : py_epoch_jt (VFloat x) t = epoch_of_julian x t.
Proof. reflexivity. Qed.
Lemma py_jt_int n t : is_finite (d_of_Z n) = true -> py_epoch_jt (VInt n) t = epoch_of_julian (d_of_Z n) t.
Proof.
  intros F. unfold py_epoch_jt, dispatch, try_all, o_double, o_int, load_double, load_int, option_map. cbn [andb]. rewrite F.
  destruct ((- 2 ^ 31 <=? n) && (n <=? 2 ^ 31 - 1)); reflexivity.
Qed.
(** ** datetimes *)
Lemma datetime_ok d : valid_datetime d -> exists e, py_epoch (VDatetime d) = Ret e /\ m_tp e = reading d.
Proof.
  intros [Hy [[Hm Hd] [H1 [H2 [H3 H4]]]]]. pose proof (days_in_month_le (dt_year d) (dt_month d)). rewrite py_epoch_datetime.
  exists (mk_epoch (reading d)). split; [|reflexivity]. unfold reading. apply epoch_of_civil_correct; unfold int32; lia.
Qed.
Lemma sum_months_next y : forall k m, 1 <= m -> m + Z.of_nat k <= 12 -> sum_months (Z.to_nat (m - 1)) y + days_in_month y m <= sum_months (Z.to_nat (m + Z.of_nat k)) y.
Proof.
  assert (P : forall j, 0 <= days_in_month y j) by (intros j; unfold days_in_month; destruct j as [|[[[]|[]|]|[[]|[]|]|]|]; try lia; try (destruct p; lia); destruct (leap y); lia).
  induction k as [|k IH]; intros m H1 H2.
  - replace (m + Z.of_nat 0) with m by lia. replace (Z.to_nat m) with (S (Z.to_nat (m - 1))) by lia. cbn [sum_months]. replace (Z.of_nat (Z.to_nat (m - 1)) + 1) with m by lia. lia.
  - replace (Z.to_nat (m + Z.of_nat (S k))) with (S (Z.to_nat (m + Z.of_nat k))) by lia. cbn [sum_months]. specialize (IH m H1 ltac:(lia)). pose proof (P (Z.of_nat (Z.to_nat (m + Z.of_nat k)) + 1)). lia.
Qed.
Lemma sum_months_0 y m : 1 <= m -> 0 <= sum_months (Z.to_nat (m - 1)) y.
Proof.
  assert (P : forall j, 0 <= days_in_month y j) by (intros j; unfold days_in_month; destruct j as [|[[[]|[]|]|[[]|[]|]|]|]; try lia; try (destruct p; lia); destruct (leap y); lia).
  intros _. induction (Z.to_nat (m - 1)) as [|k IH]; [cbn; lia|]. cbn [sum_months]. pose proof (P (Z.of_nat k + 1)). lia.
Qed.
Lemma year_end y : jan1 y + sum_months 12 y = jan1 (y + 1).
Proof.
  destruct day_number_calendar as [_ [_ [_ H]]]. specialize (H y). unfold day_number in H. change (sum_months (Z.to_nat (1 - 1)) (y + 1)) with 0 in H. change (Z.to_nat (12 - 1)) with 11%nat in H.
  change (sum_months 12 y) with (sum_months 11 y + 31). lia.
Qed.
Lemma day_lt y m d y' m' d' : valid_date y m d -> valid_date y' m' d' -> (y < y' \/ (y = y' /\ (m < m' \/ (m = m' /\ d < d')))) -> day_number y m d < day_number y' m' d'.
Proof.
  intros [Hm Hd] [Hm' Hd'] [L|[-> [L|[-> L]]]]; unfold day_number.
  - pose proof (sum_months_next y (Z.to_nat (12 - m)) m ltac:(lia) ltac:(lia)) as A. replace (Z.to_nat (m + Z.of_nat (Z.to_nat (12 - m)))) with 12%nat in A by lia.
    pose proof (year_end y). assert (jan1 (y + 1) <= jan1 y') by (rewrite !jan1_is_closed; apply jan1_closed_mono; lia). pose proof (sum_months_0 y' m' ltac:(lia)). lia.
  - pose proof (sum_months_next y' (Z.to_nat (m' - 1 - m)) m ltac:(lia) ltac:(lia)) as A. replace (m + Z.of_nat (Z.to_nat (m' - 1 - m))) with (m' - 1) in A by lia. lia.
  - lia.
Qed.
Lemma reading_lt a b : valid_datetime a -> valid_datetime b -> lexlt (fields a) (fields b) -> reading a < reading b.
Proof.
  intros [_ [Va [A1 [A2 [A3 A4]]]]] [_ [Vb [B1 [B2 [B3 B4]]]]] L. unfold reading, instant. cbn [lexlt fields] in L.
  assert (D : day_number (dt_year a) (dt_month a) (dt_day a) < day_number (dt_year b) (dt_month b) (dt_day b) \/
              (dt_year a = dt_year b /\ dt_month a = dt_month b /\ dt_day a = dt_day b /\ (dt_hour a < dt_hour b \/ dt_hour a = dt_hour b /\ (dt_min a < dt_min b \/ dt_min a = dt_min b /\ (dt_sec a < dt_sec b \/ dt_sec a = dt_sec b /\ dt_us a < dt_us b))))).
  { destruct L as [L1|[E1 [L2|[E2 [L3|[E3 L4]]]]]]; [left; apply day_lt; [assumption..|tauto]|left; apply day_lt; [assumption..|tauto]|left; apply day_lt; [assumption..|tauto]|]. right. repeat (split; [assumption|]). tauto. }
  destruct D as [D|[E1 [E2 [E3 M]]]]; [lia|]. rewrite E1, E2, E3. lia.
Qed.
Lemma lex_total : forall a b, List.length a = List.length b -> a = b \/ lexlt a b \/ lexlt b a.
Proof.
  induction a as [|x a IH]; intros [|y b] H; try discriminate; [left; reflexivity|]. cbn [lexlt]. injection H as H.
  destruct (Z.lt_trichotomy x y) as [L|[->|L]]; [tauto| |tauto]. destruct (IH b H) as [->|[L|L]]; tauto.
Qed.
Lemma datetime_order a b ea eb : valid_datetime a -> valid_datetime b -> py_epoch (VDatetime a) = Ret ea -> py_epoch (VDatetime b) = Ret eb ->
  (epoch_lt ea eb = true <-> lexlt (fields a) (fields b)) /\ (epoch_eq ea eb = true <-> fields a = fields b).
Proof.
  intros Va Vb Ha Hb. destruct (datetime_ok a Va) as [ea' [Ea Ta]]. destruct (datetime_ok b Vb) as [eb' [Eb Tb]]. rewrite Ha in Ea. injection Ea as <-. rewrite Hb in Eb. injection Eb as <-.
  unfold epoch_lt, epoch_eq. rewrite Ta, Tb, Z.ltb_lt, Z.eqb_eq. destruct (lex_total (fields a) (fields b) eq_refl) as [E|[L|L]].
  - assert (R : reading a = reading b) by (unfold reading; unfold fields in E; injection E as -> -> -> -> -> -> ->; reflexivity).
    split; [split; [lia|]|split; auto]. rewrite E. intros X. exfalso. clear -X. induction (fields b) as [|x l IH]; cbn in X; [exact X|destruct X as [X|[_ X]]; [lia|auto]].
  - pose proof (reading_lt a b Va Vb L). split; [tauto|]. split; [lia|]. intros E. rewrite E in L. exfalso. clear -L. induction (fields b) as [|x l IH]; cbn in L; [exact L|destruct L as [L|[_ L]]; [lia|auto]].
  - pose proof (reading_lt b a Vb Va L). split; [split; [lia|]|].
    + intros M. pose proof (reading_lt a b Va Vb M). lia.
    + split; [lia|]. intros E. rewrite E in L. exfalso. clear -L. induction (fields b) as [|x l IH]; cbn in L; [exact L|destruct L as [L|[_ L]]; [lia|auto]].
Qed.
Lemma datetime_utc d : valid_datetime d -> exists e, py_epoch (VDatetime d) = Ret e /\ m_tp e = utc d + match dt_off d with None => 0 | Some o => o end.
Proof. intros H. destruct (datetime_ok d H) as [e [E T]]. exists e. split; [exact E|]. rewrite T. unfold utc. lia. Qed.
Lemma zone_lost : exists a b ea eb, valid_datetime a /\ valid_datetime b /\ utc a = utc b /\ py_epoch (VDatetime a) = Ret ea /\ py_epoch (VDatetime b) = Ret eb /\ m_tp ea <> m_tp eb.
Proof.
  exists (mk_dt 2000 1 1 12 0 0 0 (Some 0)), (mk_dt 2000 1 1 13 0 0 0 (Some 3600000000)). do 2 eexists.
  split; [vm_compute; repeat split; discriminate|]. split; [vm_compute; repeat split; discriminate|]. split; [vm_compute; reflexivity|]. split; [vm_compute; reflexivity|]. split; [vm_compute; reflexivity|]. vm_compute. discriminate.
Qed.
(** ** numbers *)
Lemma whole_days n : Z.abs n <= 100000000 -> us_of_days (d_of_Z n) = Ret (n * 86400000000).
Proof.
  intros H. destruct (d_of_Z_exact n ltac:(lia)) as [F V]. destruct d_day as [Fd Vd].
  assert (B : (Rabs (B2R (d_of_Z n) * B2R (d_of_Z us_per_day)) <= bpow radix2 64)%R).
  { rewrite V, Vd, DAY_val. rewrite <- mult_IZR, <- abs_IZR. rewrite bpow_IZR by lia. apply IZR_le. lia. }
  destruct (dmul_correct (d_of_Z n) (d_of_Z us_per_day) 64 ltac:(lia) F Fd B) as [F2 V2]. unfold us_of_days, d_to_i64.
  assert (E : B2R (dmul (d_of_Z n) (d_of_Z us_per_day)) = IZR (n * 86400000000)).
  { rewrite V2, V, Vd, DAY_val, <- mult_IZR. apply rnd_gen. replace (IZR (n * 86400000000))%R with (IZR (n * 84375) * bpow radix2 10 * 1000)%R by (rewrite !mult_IZR; cbn; lra).
    replace (IZR (n * 84375) * bpow radix2 10 * 1000)%R with (IZR (n * 10546875) * bpow radix2 13)%R by (rewrite !mult_IZR; cbn; lra). apply gen_Z; lia. }
  assert (T : Ztrunc (B2R (dmul (d_of_Z n) (d_of_Z us_per_day))) = n * 86400000000) by (rewrite E; apply Ztrunc_IZR).
  rewrite <- T. apply d_to_int_ret; [exact F2|]. rewrite T. lia.
Qed.
Lemma int_ok n : Z.abs n <= 100000000 -> py_epoch (VInt n) = Ret (mk_epoch (y2k + n * 86400000000)).
Proof.
  intros H. rewrite py_epoch_int. replace ((- 2 ^ 31 <=? n) && (n <=? 2 ^ 31 - 1)) with true by lia. cbn [epoch_of_julian]. unfold tp_from_days. rewrite (whole_days n H). cbn [bind]. unfold add64. rewrite i64_ok; [reflexivity|]. unfold int64, y2k, y2k_offset. lia.
Qed.
Lemma int_refused n : 2 ^ 31 <= Z.abs n -> n <> - 2 ^ 31 -> py_epoch (VInt n) = Throw InvalidArgument.
Proof. intros H N. rewrite py_epoch_int. replace ((- 2 ^ 31 <=? n) && (n <=? 2 ^ 31 - 1)) with false by lia. reflexivity. Qed.
Lemma int_ub : py_epoch (VInt 200000000) = UB.
Proof. vm_compute. reflexivity. Qed.
(** ** sums *)
Lemma add_float e x : py_add e (VFloat x) = bind (us_of_days x) (epoch_plus e).
Proof. reflexivity. Qed.
Lemma add_num e x : py_add e (VNum x) = bind (us_of_days x) (epoch_plus e).
Proof. reflexivity. Qed.
Lemma add_delta e d : py_add e (VDelta d) = bind (td_seconds d) (fun x => bind (epoch_sec x) (epoch_plus e)).
Proof. reflexivity. Qed.
Lemma add_int e n : is_finite (d_of_Z n) = true -> py_add e (VInt n) = bind (us_of_days (d_of_Z n)) (epoch_plus e).
Proof. intros F. unfold py_add, dispatch, try_all, o_days, o_duration, load_double, load_duration, option_map. cbn [andb]. rewrite F. reflexivity. Qed.
Lemma add_int_ok e n : Z.abs n <= 100000000 -> int64 (m_tp e + n * 86400000000) -> py_add e (VInt n) = Ret (mk_epoch (m_tp e + n * 86400000000)).
Proof.
  intros H I. rewrite add_int by (apply d_of_Z_exact; lia). rewrite (whole_days n H). cbn [bind]. unfold epoch_plus, add64. rewrite i64_ok by exact I. reflexivity.
Qed.
Lemma add_sub_shape e v : exists o, py_add e v = bind o (epoch_plus e) /\ forall e', py_sub e' v = bind o (epoch_minus e').
Proof.
  destruct v as [x|n|x|s|d|d|].
  - exists (us_of_days x). split; [apply add_float|reflexivity].
  - destruct (is_finite (d_of_Z n)) eqn:F.
    + exists (us_of_days (d_of_Z n)). split; [apply add_int; exact F|]. intros e'. unfold py_sub, dispatch, try_all, o_days, o_duration, load_double, load_duration, option_map. cbn [andb]. rewrite F. reflexivity.
    + exists (Throw InvalidArgument). split; [|intros e']; unfold py_add, py_sub, dispatch, try_all, o_days, o_duration, load_double, load_duration, option_map; cbn [andb]; rewrite F; reflexivity.
  - exists (us_of_days x). split; [apply add_num|reflexivity].
  - exists (Throw InvalidArgument). split; reflexivity.
  - exists (Throw InvalidArgument). split; reflexivity.
  - exists (bind (td_seconds d) epoch_sec). split; [|intros e']; rewrite ?add_delta; unfold py_sub, dispatch, try_all, o_days, o_duration, load_double, load_duration, option_map; destruct (td_seconds d) as [x|x|]; reflexivity.
  - exists (Throw InvalidArgument). split; reflexivity.
Qed.
Lemma add_sub e v e' : int64 (m_tp e) -> py_add e v = Ret e' -> py_sub e' v = Ret e.
Proof.
  intros I H. destruct (add_sub_shape e v) as [o [A S]]. rewrite A in H. rewrite S. destruct o as [us|x|]; cbn [bind] in *; try discriminate. exact (plus_minus e us e' I H).
Qed.
Lemma add_refused e v : match v with VStr _ | VDatetime _ | VOther => True | _ => False end -> py_add e v = Throw InvalidArgument /\ py_sub e v = Throw InvalidArgument.
Proof. destruct v; intros []; split; reflexivity. Qed.
(** ** timedelta: one microsecond may be lost *)
Section Sec.
Notation K := 1000000%R.
Lemma d_mil : is_finite (d_of_Z 1000000) = true /\ B2R (d_of_Z 1000000) = K.
Proof. apply d_of_Z_exact. lia. Qed.
Lemma as_sec_correct n : Z.abs n <= 2 ^ 53 -> is_finite (as_sec n) = true /\ B2R (as_sec n) = rnd (IZR n / K).
Proof.
  intros H. destruct (d_of_Z_exact n H) as [F V]. destruct d_mil as [Fm Vm]. unfold as_sec.
  assert (B : (Rabs (IZR n / K) <= bpow radix2 53)%R). { unfold Rdiv. rewrite Rabs_mult, (Rabs_pos_eq (/ K)) by lra. pose proof (Rabs_IZR_le n 53 ltac:(lia) H). pose proof (Rabs_pos (IZR n)). lra. }
  destruct (ddiv_correct (d_of_Z n) (d_of_Z 1000000) 53 ltac:(lia) F) as [F2 V2]; [rewrite Vm; lra|rewrite V, Vm; exact B|]. rewrite V, Vm in V2. split; [exact F2|exact V2].
Qed.
Lemma sec_product c : Z.abs c <= 2 ^ 53 -> is_finite (dmul (as_sec c) (d_of_Z 1000000)) = true /\ B2R (dmul (as_sec c) (d_of_Z 1000000)) = rnd (rnd (IZR c / K) * K).
Proof.
  intros H. destruct (as_sec_correct c H) as [F V]. destruct d_mil as [Fm Vm].
  destruct (dmul_correct (as_sec c) (d_of_Z 1000000) 100 ltac:(lia) F Fm) as [F2 V2].
  - rewrite V, Vm, Rabs_mult, (Rabs_pos_eq K) by lra. assert (B : (Rabs (rnd (IZR c / K)) <= bpow radix2 53)%R).
    { apply rnd_abs_le_bpow; [lia|]. unfold Rdiv. rewrite Rabs_mult, (Rabs_pos_eq (/ K)) by lra. pose proof (Rabs_IZR_le c 53 ltac:(lia) H). pose proof (Rabs_pos (IZR c)). lra. }
    apply Rle_trans with (bpow radix2 53 * bpow radix2 20)%R; [apply Rmult_le_compat; [apply Rabs_pos|lra|exact B|cbn; lra]|]. rewrite <- bpow_plus. apply bpow_le. lia.
  - rewrite V, Vm in V2. split; [exact F2|exact V2].
Qed.
Lemma sec_rel c : 1 <= Z.abs c -> exists eps, (Rabs eps <= bpow radix2 (-53))%R /\ (rnd (IZR c / K) * K = IZR c * (1 + eps))%R.
Proof.
  intros H. assert (B : (bpow radix2 (-1022) <= Rabs (IZR c / K))%R).
  { unfold Rdiv. rewrite Rabs_mult, <- abs_IZR, (Rabs_pos_eq (/ K)) by lra. apply IZR_le in H. apply Rle_trans with (bpow radix2 (-20)); [apply bpow_le; lia|]. assert (bpow radix2 (-20) = / 1048576)%R by (cbn; lra). lra. }
  destruct (rnd_rel _ B) as [eps [He Hr]]. exists eps. split; [exact He|]. rewrite Hr. field.
Qed.
Lemma sec_bounds c : 0 < c < 2 ^ 52 -> (IZR c - / 2 <= rnd (rnd (IZR c / K) * K) <= IZR c + / 2)%R.
Proof.
  intros Hc. destruct (sec_rel c) as [eps [He Hq]]; [lia|]. rewrite Hq.
  assert (Hc1 : (0 < IZR c)%R) by (apply IZR_lt; lia). assert (Hc2 : (IZR c <= IZR (2 ^ 52))%R) by (apply IZR_le; lia).
  rewrite bp53 in He. apply Rabs_le_inv in He. destruct He as [He1 He2].
  assert (E : (/ IZR (2 ^ 53) * IZR (2 ^ 52) = / 2)%R) by (change (IZR (2 ^ 53)) with 9007199254740992%R; change (IZR (2 ^ 52)) with 4503599627370496%R; field).
  assert (P : (0 < / IZR (2 ^ 53))%R) by (apply Rinv_0_lt_compat; change (IZR (2 ^ 53)) with 9007199254740992%R; lra).
  set (k := (/ IZR (2 ^ 53))%R) in *. set (P52 := IZR (2 ^ 52)) in *. clearbody k P52. split.
  - replace (IZR c - / 2)%R with (rnd (IZR c - / 2)); [apply rnd_le; nra|]. apply rnd_gen. replace (IZR c - / 2)%R with (IZR (2 * c - 1) * bpow radix2 (-1))%R; [apply gen_Z; lia|]. rewrite minus_IZR, mult_IZR. cbn. lra.
  - replace (IZR c + / 2)%R with (rnd (IZR c + / 2)); [apply rnd_le; nra|]. apply rnd_gen. replace (IZR c + / 2)%R with (IZR (2 * c + 1) * bpow radix2 (-1))%R; [apply gen_Z; lia|]. rewrite plus_IZR, mult_IZR. cbn. lra.
Qed.
Lemma sec_opp c : rnd (rnd (IZR (- c) / K) * K) = (- rnd (rnd (IZR c / K) * K))%R.
Proof.
  rewrite opp_IZR. replace (- IZR c / K)%R with (- (IZR c / K))%R by (unfold Rdiv; lra). rewrite rnd_opp. replace (- rnd (IZR c / K) * K)%R with (- (rnd (IZR c / K) * K))%R by lra. apply rnd_opp.
Qed.
Lemma sec_round_trip c : Z.abs c < 2 ^ 52 -> exists c', epoch_sec (as_sec c) = Ret c' /\ (0 <= c -> c - 1 <= c' <= c) /\ (c <= 0 -> c <= c' <= c + 1).
Proof.
  intros Hc. destruct (Z.eq_dec c 0) as [->|Hnz]. { exists 0. split; [vm_compute; reflexivity|lia]. }
  destruct (sec_product c) as [F V]; [lia|]. set (z := dmul (as_sec c) (d_of_Z 1000000)) in *.
  destruct (Z.lt_trichotomy c 0) as [Hneg|[H0|Hpos]]; [|lia|].
  - pose proof (sec_bounds (- c) ltac:(lia)) as B. rewrite sec_opp, opp_IZR in B.
    assert (T : - c - 1 <= Ztrunc (- B2R z) <= - c) by (apply Ztrunc_pos_bounds; [lia|]; rewrite V, opp_IZR; exact B). rewrite Ztrunc_opp in T.
    exists (Ztrunc (B2R z)). split; [|lia]. unfold epoch_sec, d_to_i64. fold z. apply d_to_int_ret; [exact F|]. lia.
  - pose proof (sec_bounds c ltac:(lia)) as B. assert (T : c - 1 <= Ztrunc (B2R z) <= c) by (apply Ztrunc_pos_bounds; [lia|]; rewrite V; exact B).
    exists (Ztrunc (B2R z)). split; [|lia]. unfold epoch_sec, d_to_i64. fold z. apply d_to_int_ret; [exact F|]. lia.
Qed.
Lemma sec_whole n : Z.abs n <= 2 ^ 33 -> epoch_sec (as_sec (n * 1000000)) = Ret (n * 1000000).
Proof.
  intros H. destruct (sec_product (n * 1000000)) as [F V]; [lia|]. assert (Q : (IZR (n * 1000000) / K = IZR n)%R) by (rewrite mult_IZR; field). rewrite Q in V. rewrite (rnd_IZR n) in V by lia. rewrite <- mult_IZR, (rnd_IZR (n * 1000000)) in V by lia.
  assert (T : Ztrunc (B2R (dmul (as_sec (n * 1000000)) (d_of_Z 1000000))) = n * 1000000) by (rewrite V; apply Ztrunc_IZR).
  unfold epoch_sec, d_to_i64. rewrite <- T at 2. apply d_to_int_ret; [exact F|]. rewrite T. lia.
Qed.
End Sec.
Lemma td_ok d : valid_delta d -> Z.abs (delta d) < 2 ^ 52 -> td_seconds d = Ret (as_sec (delta d)).
Proof.
  intros [H1 [H2 H3]] H. unfold td_seconds, mul64, add64, delta in *. rewrite i64_ok by (unfold int64; lia). cbn [bind]. rewrite i64_ok by (unfold int64; lia). reflexivity.
Qed.
Lemma delta_sum e d : valid_delta d -> Z.abs (delta d) < 2 ^ 52 -> Z.abs (m_tp e) <= 2 ^ 62 -> exists e', py_add e (VDelta d) = Ret e' /\
  (0 <= delta d -> delta d - 1 <= m_tp e' - m_tp e <= delta d) /\ (delta d <= 0 -> delta d <= m_tp e' - m_tp e <= delta d + 1).
Proof.
  intros Vd H I. rewrite add_delta, (td_ok d Vd H). cbn [bind]. destruct (sec_round_trip (delta d) H) as [c [E B]]. rewrite E. cbn [bind]. unfold epoch_plus, add64. rewrite i64_ok by (unfold int64; lia). cbn [bind].
  exists (epoch_of_tp (m_tp e + c)). split; [reflexivity|]. cbn [m_tp epoch_of_tp]. lia.
Qed.
Lemma delta_whole e d : valid_delta d -> Z.abs (delta d) < 2 ^ 52 -> Z.abs (m_tp e) <= 2 ^ 62 -> td_us d = 0 -> py_add e (VDelta d) = Ret (mk_epoch (m_tp e + delta d)).
Proof.
  intros Vd H I U. rewrite add_delta, (td_ok d Vd H). cbn [bind]. unfold delta in *. rewrite U, Z.add_0_r in *. rewrite sec_whole by lia. cbn [bind]. unfold epoch_plus, add64. rewrite i64_ok by (unfold int64; lia). reflexivity.
Qed.
Lemma delta_lost : exists e d e', valid_delta d /\ delta d = 249 /\ py_add e (VDelta d) = Ret e' /\ m_tp e' - m_tp e = 248.
Proof. exists epoch_default, (mk_td 0 0 249). eexists. split; [vm_compute; repeat split; discriminate|]. split; [reflexivity|]. split; [vm_compute; reflexivity|vm_compute; reflexivity]. Qed.
Lemma delta_overflow : exists d, valid_delta d /\ forall e, py_add e (VDelta d) = UB.
Proof. exists (mk_td 999999999 0 0). split; [vm_compute; repeat split; discriminate|]. intros e. rewrite add_delta. replace (td_seconds (mk_td 999999999 0 0)) with (@UB double) by (vm_compute; reflexivity). reflexivity. Qed.
Lemma delta_datetime a b d ea eb : valid_datetime a -> valid_datetime b -> valid_delta d -> Z.abs (delta d) < 2 ^ 52 -> reading b = reading a + delta d ->
  py_epoch (VDatetime a) = Ret ea -> py_epoch (VDatetime b) = Ret eb -> exists e', py_add ea (VDelta d) = Ret e' /\ Z.abs (m_tp e' - m_tp eb) <= 1.
Proof.
  intros Va Vb Vd H R Ha Hb. destruct (datetime_ok a Va) as [ea' [Ea Ta]]. destruct (datetime_ok b Vb) as [eb' [Eb Tb]]. rewrite Ha in Ea. injection Ea as <-. rewrite Hb in Eb. injection Eb as <-.
  assert (I : Z.abs (m_tp ea) <= 2 ^ 62).
  { rewrite Ta. unfold reading, instant. destruct Va as [Hy [Vm [H1 [H2 [H3 H4]]]]].
    assert (L1 : day_number 0 1 1 <= day_number (dt_year a) (dt_month a) (dt_day a)). { apply Z.lt_le_incl. apply day_lt; [vm_compute; repeat split; discriminate|exact Vm|lia]. }
    assert (L2 : day_number (dt_year a) (dt_month a) (dt_day a) <= day_number 10000 1 1). { apply Z.lt_le_incl. apply day_lt; [exact Vm|vm_compute; repeat split; discriminate|lia]. }
    assert (X1 : day_number 0 1 1 = -719528) by (vm_compute; reflexivity). assert (X2 : day_number 10000 1 1 = 2932897) by (vm_compute; reflexivity). lia. }
  destruct (delta_sum ea d Vd H I) as [e' [E [B1 B2]]]. exists e'. split; [exact E|]. rewrite Tb, R. rewrite Ta in *. lia.
Qed.
Lemma print_read e y m d h mi s us : 0 <= y <= 9999 -> valid_date y m d -> 0 <= h <= 23 -> 0 <= mi <= 59 -> 0 <= s <= 59 -> 0 <= us <= 999999 -> m_tp e = instant y m d h mi s 0 us ->
  exists txt, as_utc_string e = Some txt /\ py_epoch (VStr txt) = Ret e.
Proof. intros. destruct (print_parse_total e y m d h mi s us) as [t [A [_ B]]]; try assumption. exists t. split; [exact A|exact B]. Qed.
