(** * Printing and parsing of epochs *)
From Coq Require Import ZArith List Ascii String Bool Lia ZifyBool.
From Verif Require Import Outcome Float64 EpochModel EpochSpec EpochCalendarProofs EpochProofs.
Import ListNotations.
Open Scope Z_scope.
Ltac Zify.zify_post_hook ::= Z.div_mod_to_equations.

(** ** civil_from_days inverts the calendar *)
(** one 400-year era, checked by computation: for day-of-era [doe] the computed date is valid and counts
    back to [doe].  The year is relative to the era (starting on March 1st of year 0). *)
Definition era_ok (doe : Z) : bool :=
  let '(y, m, d) := civil_from_days (doe - 719468) in
  (0 <=? y) && (y <=? 400) && (1 <=? m) && (m <=? 12) && (1 <=? d) && (d <=? days_in_month y m)
  && (jan1_closed y + sum_months (Z.to_nat (m - 1)) y + (d - 1) =? doe - 719468).

Fixpoint check_from (n : nat) (z : Z) : bool :=
  match n with O => true | S n => era_ok z && check_from n (z + 1) end.

Lemma check_from_sound n : forall z k, check_from n z = true -> z <= k < z + Z.of_nat n -> era_ok k = true.
Proof.
  induction n as [|n IH]; intros z k H Hk; [lia|].
  cbn [check_from] in H. apply andb_prop in H. destruct H as [H1 H2].
  destruct (Z.eq_dec k z) as [->|]; [exact H1|]. apply (IH (z + 1)); [exact H2|lia].
Qed.

Lemma era_ok_all doe : 0 <= doe < 146097 -> era_ok doe = true.
Proof.
  intros H.
  assert (C : check_from (Z.to_nat 146097) 0 = true) by (vm_compute; reflexivity).
  apply (check_from_sound (Z.to_nat 146097) 0 doe C). rewrite Z2Nat.id by lia. lia.
Qed.

Lemma leap_400 y k : leap (y + 400 * k) = leap y.
Proof.
  unfold leap.
  replace ((y + 400 * k) mod 4) with (y mod 4) by lia.
  replace ((y + 400 * k) mod 100) with (y mod 100) by lia.
  replace ((y + 400 * k) mod 400) with (y mod 400) by lia. reflexivity.
Qed.

Lemma days_in_month_leap y y' m : leap y = leap y' -> days_in_month y m = days_in_month y' m.
Proof. intros H. unfold days_in_month. rewrite H. reflexivity. Qed.

Lemma sum_months_leap n y y' : leap y = leap y' -> sum_months n y = sum_months n y'.
Proof.
  intros H. induction n as [|n IH]; [reflexivity|]. cbn [sum_months]. rewrite IH.
  rewrite (days_in_month_leap y y' _ H). reflexivity.
Qed.

Lemma jan1_closed_400 y k : jan1_closed (y + 400 * k) = jan1_closed y + 146097 * k.
Proof. unfold jan1_closed. lia. Qed.

Lemma civil_from_days_era n k :
  civil_from_days (n + 146097 * k) =
  (let '(y, m, d) := civil_from_days n in (y + 400 * k, m, d)).
Proof.
  unfold civil_from_days.
  assert (E1 : (n + 146097 * k + 719468) mod 146097 = (n + 719468) mod 146097) by lia.
  assert (E2 : (n + 146097 * k + 719468) / 146097 = (n + 719468) / 146097 + k) by lia.
  rewrite E1, E2. cbv zeta.
  set (doe := (n + 719468) mod 146097). set (era := (n + 719468) / 146097). clearbody doe era.
  match goal with |- context [if ?b then _ + 3 else _] => set (mm := if b then _ + 3 else _) end.
  set (yoe := (doe - doe / 1460 + doe / 36524 - doe / 146096) / 365). clearbody yoe.
  f_equal. f_equal. destruct (mm <=? 2); lia.
Qed.

Theorem civil_from_days_correct n : let '(y, m, d) := civil_from_days n in
  valid_date y m d /\ day_number y m d = n.
Proof.
  set (k := (n + 719468) / 146097). set (doe := (n + 719468) mod 146097).
  assert (En : n = (doe - 719468) + 146097 * k) by (unfold doe, k; lia).
  assert (Hdoe : 0 <= doe < 146097) by (unfold doe; lia).
  rewrite En, civil_from_days_era.
  pose proof (era_ok_all doe Hdoe) as H. unfold era_ok in H.
  destruct (civil_from_days (doe - 719468)) as [[y m] d].
  unfold valid_date, day_number. rewrite jan1_is_closed, jan1_closed_400.
  rewrite (days_in_month_leap _ y m (leap_400 y k)), (sum_months_leap _ _ y (leap_400 y k)).
  lia.
Qed.

(** ** Decimal digits *)
Lemma code_digit_char n : code (digit_char n) = 48 + n mod 10.
Proof.
  unfold code, digit_char.
  rewrite N_ascii_embedding; [rewrite Z2N.id; lia|].
  change 256%N with (Z.to_N 256). apply Z2N.inj_lt; lia.
Qed.
Lemma is_digit_char n : is_digit (digit_char n) = true.
Proof. unfold is_digit. rewrite code_digit_char. lia. Qed.
Lemma not_space_char n : is_space (digit_char n) = false.
Proof. unfold is_space. rewrite code_digit_char. lia. Qed.

Lemma length_pad k : forall n, List.length (pad k n) = k.
Proof. induction k as [|k IH]; intros n; [reflexivity|]. cbn [pad]. rewrite app_length, IH. cbn. lia. Qed.

Lemma digits_app s1 : forall seen acc s2, forallb is_digit s1 = true ->
  digits seen acc (s1 ++ s2) = digits (seen || negb (Nat.eqb (List.length s1) 0))
                                (fold_left (fun a c => 10 * a + (code c - 48)) s1 acc) s2.
Proof.
  induction s1 as [|c s1 IH]; intros seen acc s2 H.
  - cbn. rewrite orb_false_r. reflexivity.
  - cbn [forallb] in H. apply andb_prop in H. destruct H as [H1 H2].
    cbn [digits app]. rewrite H1, IH by assumption. cbn [fold_left List.length Nat.eqb negb].
    rewrite orb_true_r. cbn [orb]. reflexivity.
Qed.

Lemma forallb_pad k : forall n, forallb is_digit (pad k n) = true.
Proof.
  induction k as [|k IH]; intros n; [reflexivity|]. cbn [pad].
  rewrite forallb_app, IH. cbn [forallb]. rewrite is_digit_char. reflexivity.
Qed.

Lemma fold_pad k : forall n acc, 0 <= n ->
  fold_left (fun a c => 10 * a + (code c - 48)) (pad k n) acc = acc * 10 ^ Z.of_nat k + n mod 10 ^ Z.of_nat k.
Proof.
  induction k as [|k IH]; intros n acc Hn.
  - cbn [pad fold_left]. change (10 ^ Z.of_nat 0) with 1. rewrite Z.mod_1_r. lia.
  - cbn [pad]. rewrite fold_left_app. cbn [fold_left]. rewrite IH by lia. rewrite code_digit_char.
    replace (Z.of_nat (S k)) with (Z.succ (Z.of_nat k)) by lia. rewrite Z.pow_succ_r by lia.
    set (P := 10 ^ Z.of_nat k). assert (HP : 0 < P) by (unfold P; apply Z.pow_pos_nonneg; lia).
    rewrite (Z.rem_mul_r n 10 P) by lia. lia.
Qed.

Lemma stoi_pad k n : (0 < k)%nat -> 0 <= n < 10 ^ Z.of_nat k -> n <= 2 ^ 31 - 1 ->
  stoi (pad k n) = Ret n.
Proof.
  intros Hk Hn Hmax.
  assert (HD : digits false 0 (pad k n) = Some n).
  { rewrite <- (app_nil_r (pad k n)), digits_app by apply forallb_pad.
    rewrite length_pad, fold_pad by lia. cbn [digits].
    destruct k; [lia|]. cbn [Nat.eqb negb orb]. rewrite Z.mod_small by lia. f_equal. }
  unfold stoi.
  assert (HF : forall c r, pad k n = c :: r -> is_digit c = true).
  { intros c r E. pose proof (forallb_pad k n) as F. rewrite E in F. cbn [forallb] in F.
    apply andb_prop in F. tauto. }
  assert (HS : skip_space (pad k n) = pad k n).
  { destruct (pad k n) as [|c r] eqn:E; [reflexivity|]. cbn [skip_space].
    specialize (HF c r eq_refl). replace (is_space c) with false; [reflexivity|].
    unfold is_space, is_digit in *. lia. }
  rewrite HS. cbv zeta.
  destruct (pad k n) as [|c r] eqn:E.
  { pose proof (length_pad k n) as L. rewrite E in L. cbn in L. lia. }
  specialize (HF c r eq_refl).
  replace (code c =? 45) with false by (unfold is_digit in HF; lia).
  replace (code c =? 43) with false by (unfold is_digit in HF; lia).
  rewrite HD. replace ((- 2 ^ 31 <=? n) && (n <=? 2 ^ 31 - 1)) with true by lia. reflexivity.
Qed.

Lemma pad2 n : exists a b, pad 2 n = [a; b]. Proof. cbn. eauto. Qed.

Lemma mul10_value n : forall us, 0 <= us -> us * 10 ^ Z.of_nat n <= 2 ^ 31 - 1 ->
  mul10 n us = Ret (us * 10 ^ Z.of_nat n).
Proof.
  induction n as [|n IH]; intros us Hus H.
  - cbn [mul10]. change (10 ^ Z.of_nat 0) with 1. f_equal. lia.
  - replace (Z.of_nat (S n)) with (Z.succ (Z.of_nat n)) in * by lia. rewrite Z.pow_succ_r in * by lia.
    assert (HP : 0 < 10 ^ Z.of_nat n) by (apply Z.pow_pos_nonneg; lia).
    cbn [mul10]. unfold i32.
    replace ((- 2 ^ 31 <=? us * 10) && (us * 10 <=? 2 ^ 31 - 1)) with true by nia.
    cbn [bind]. rewrite IH by nia. f_equal. lia.
Qed.

(** ** The layout of a printed epoch and its parse *)
Definition iso_text (y m d h mi s us : Z) : str :=
  pad 4 y ++ ["-"%char] ++ pad 2 m ++ ["-"%char] ++ pad 2 d ++ ["T"%char]
  ++ pad 2 h ++ [":"%char] ++ pad 2 mi ++ [":"%char] ++ pad 2 s ++ ["."%char] ++ pad 6 us.

Lemma parse_iso y m d h mi s us :
  0 <= y <= 9999 -> 0 <= m <= 99 -> 0 <= d <= 99 -> 0 <= h <= 99 -> 0 <= mi <= 99 -> 0 <= s <= 99 ->
  0 <= us <= 999999 ->
  epoch_of_string (iso_text y m d h mi s us) = epoch_of_civil y m d h mi s 0 us.
Proof.
  intros Hy Hm Hd Hh Hmi Hs Hus.
  assert (Y : stoi (pad 4 y) = Ret y) by (apply stoi_pad; lia).
  assert (M : stoi (pad 2 m) = Ret m) by (apply stoi_pad; lia).
  assert (D : stoi (pad 2 d) = Ret d) by (apply stoi_pad; lia).
  assert (H : stoi (pad 2 h) = Ret h) by (apply stoi_pad; lia).
  assert (MI : stoi (pad 2 mi) = Ret mi) by (apply stoi_pad; lia).
  assert (S' : stoi (pad 2 s) = Ret s) by (apply stoi_pad; lia).
  assert (U : stoi (pad 6 us) = Ret us) by (apply stoi_pad; lia).
  unfold iso_text, epoch_of_string.
  cbn [pad app] in *.
  cbn [List.length existsb allowed_lengths Nat.eqb orb negb Nat.leb substr substr_from Nat.ltb firstn skipn bind].
  rewrite Y. cbn [bind]. rewrite M. cbn [bind]. unfold numeric_cast_unsigned.
  replace (m <? 0) with false by lia. cbn [bind]. rewrite D. cbn [bind].
  replace (d <? 0) with false by lia. cbn [bind]. rewrite H. cbn [bind]. rewrite MI. cbn [bind].
  rewrite S'. cbn [bind]. rewrite U. cbn [bind List.length Nat.sub mul10].
  reflexivity.
Qed.

(** Shorter ISO shapes *)
Definition iso_ym (y m : Z) : str := pad 4 y ++ ["-"%char] ++ pad 2 m.
Definition iso_ymd (y m d : Z) : str := iso_ym y m ++ ["-"%char] ++ pad 2 d.
Definition iso_h (y m d h : Z) : str := iso_ymd y m d ++ ["T"%char] ++ pad 2 h.
Definition iso_hm (y m d h mi : Z) : str := iso_h y m d h ++ [":"%char] ++ pad 2 mi.
Definition iso_hms (y m d h mi s : Z) : str := iso_hm y m d h mi ++ [":"%char] ++ pad 2 s.
(** fractional seconds with k digits, 1 <= k <= 6 *)
Definition iso_frac (y m d h mi s : Z) (k : nat) (f : Z) : str := iso_hms y m d h mi s ++ ["."%char] ++ pad k f.

Ltac parse_tac := intros;
  unfold epoch_of_string, iso_frac, iso_hms, iso_hm, iso_h, iso_ymd, iso_ym; cbn [pad app];
  cbn [List.length existsb allowed_lengths Nat.eqb orb negb Nat.leb substr substr_from Nat.ltb firstn skipn bind].

Lemma parse_short y m d h mi s :
  0 <= y <= 9999 -> 0 <= m <= 99 -> 0 <= d <= 99 -> 0 <= h <= 99 -> 0 <= mi <= 99 -> 0 <= s <= 99 ->
  epoch_of_string (iso_ym y m) = epoch_of_civil y m 1 0 0 0 0 0 /\
  epoch_of_string (iso_ymd y m d) = epoch_of_civil y m d 0 0 0 0 0 /\
  epoch_of_string (iso_h y m d h) = epoch_of_civil y m d h 0 0 0 0 /\
  epoch_of_string (iso_hm y m d h mi) = epoch_of_civil y m d h mi 0 0 0 /\
  epoch_of_string (iso_hms y m d h mi s) = epoch_of_civil y m d h mi s 0 0.
Proof.
  intros Hy Hm Hd Hh Hmi Hs.
  assert (Y : stoi (pad 4 y) = Ret y) by (apply stoi_pad; lia).
  assert (M : stoi (pad 2 m) = Ret m) by (apply stoi_pad; lia).
  assert (D : stoi (pad 2 d) = Ret d) by (apply stoi_pad; lia).
  assert (H : stoi (pad 2 h) = Ret h) by (apply stoi_pad; lia).
  assert (MI : stoi (pad 2 mi) = Ret mi) by (apply stoi_pad; lia).
  assert (S' : stoi (pad 2 s) = Ret s) by (apply stoi_pad; lia).
  assert (CM : numeric_cast_unsigned m = Ret m) by (unfold numeric_cast_unsigned; replace (m <? 0) with false by lia; reflexivity).
  assert (CD : numeric_cast_unsigned d = Ret d) by (unfold numeric_cast_unsigned; replace (d <? 0) with false by lia; reflexivity).
  cbn [pad app] in Y, M, D, H, MI, S'.
  repeat split; parse_tac; rewrite Y; cbn [bind]; rewrite M; cbn [bind]; rewrite CM; cbn [bind];
    rewrite ?D; cbn [bind]; rewrite ?CD; cbn [bind]; rewrite ?H; cbn [bind]; rewrite ?MI; cbn [bind]; rewrite ?S'; cbn [bind];
    reflexivity.
Qed.

Lemma parse_frac y m d h mi s k f :
  0 <= y <= 9999 -> 0 <= m <= 99 -> 0 <= d <= 99 -> 0 <= h <= 99 -> 0 <= mi <= 99 -> 0 <= s <= 99 ->
  (1 <= k <= 6)%nat -> 0 <= f < 10 ^ Z.of_nat k ->
  epoch_of_string (iso_frac y m d h mi s k f) = epoch_of_civil y m d h mi s 0 (f * 10 ^ (6 - Z.of_nat k)).
Proof.
  intros Hy Hm Hd Hh Hmi Hs Hk Hf.
  assert (Y : stoi (pad 4 y) = Ret y) by (apply stoi_pad; lia).
  assert (M : stoi (pad 2 m) = Ret m) by (apply stoi_pad; lia).
  assert (D : stoi (pad 2 d) = Ret d) by (apply stoi_pad; lia).
  assert (H : stoi (pad 2 h) = Ret h) by (apply stoi_pad; lia).
  assert (MI : stoi (pad 2 mi) = Ret mi) by (apply stoi_pad; lia).
  assert (S' : stoi (pad 2 s) = Ret s) by (apply stoi_pad; lia).
  assert (CM : numeric_cast_unsigned m = Ret m) by (unfold numeric_cast_unsigned; replace (m <? 0) with false by lia; reflexivity).
  assert (CD : numeric_cast_unsigned d = Ret d) by (unfold numeric_cast_unsigned; replace (d <? 0) with false by lia; reflexivity).
  assert (Fmax : f <= 2 ^ 31 - 1).
  { assert (10 ^ Z.of_nat k <= 10 ^ 6) by (apply Z.pow_le_mono_r; lia). lia. }
  assert (U : stoi (pad k f) = Ret f) by (apply stoi_pad; lia).
  assert (K : (k = 1 \/ k = 2 \/ k = 3 \/ k = 4 \/ k = 5 \/ k = 6)%nat) by lia.
  cbn [pad app] in Y, M, D, H, MI, S'.
  repeat destruct K as [K|K]; subst k; cbn [pad app] in U; parse_tac;
    rewrite Y; cbn [bind]; rewrite M; cbn [bind]; rewrite CM; cbn [bind];
    rewrite D; cbn [bind]; rewrite CD; cbn [bind]; rewrite H; cbn [bind]; rewrite MI; cbn [bind]; rewrite S'; cbn [bind];
    rewrite U; cbn [bind List.length Nat.sub];
    match goal with |- context [10 ^ (6 - Z.of_nat ?n)] =>
       let e := eval vm_compute in (6 - Z.of_nat n) in change (6 - Z.of_nat n) with e end;
    match goal with |- context [10 ^ Z.of_nat ?n] => idtac | _ => idtac end;
    (match goal with |- context [mul10 ?n f] =>
       replace (mul10 n f) with (@Ret Z (f * 10 ^ Z.of_nat n));
       [reflexivity
       |symmetry; apply mul10_value; [lia|];
        match type of Hf with _ <= _ < ?p => let v := eval vm_compute in p in change p with v in Hf end;
        match goal with |- context [10 ^ ?q] => let v := eval vm_compute in (10 ^ q) in change (10 ^ q) with v end; lia] end).
Qed.

Lemma days_in_month_le y m : days_in_month y m <= 31.
Proof.
  unfold days_in_month.
  repeat match goal with |- context [match ?x with _ => _ end] => destruct x end; lia.
Qed.

Lemma instant_of_split y m d tod :
  0 <= tod < us_per_day ->
  instant y m d (tod / 3600000000) (tod / 60000000 mod 60) (tod / 1000000 mod 60) 0 (tod mod 1000000)
  = day_number y m d * us_per_day + tod.
Proof. unfold instant, us_per_day. intros H. lia. Qed.

(** C06 *)
Theorem print_parse e s : as_utc_string e = Some s -> epoch_of_string s = Ret e /\ List.length s = 26%nat.
Proof.
  unfold as_utc_string. cbv zeta.
  pose proof (civil_from_days_correct (m_tp e / us_per_day)) as HC.
  destruct (civil_from_days (m_tp e / us_per_day)) as [[y m] d].
  destruct HC as [[Hm Hd] HN].
  destruct ((0 <=? y) && (y <=? 9999)) eqn:Ey; [|discriminate].
  assert (Hy : 0 <= y <= 9999) by lia. clear Ey.
  intros E. injection E as <-.
  set (tod := m_tp e mod us_per_day).
  assert (Htod : 0 <= tod < us_per_day) by (unfold tod, us_per_day; lia).
  change (epoch_of_string (iso_text y m d (tod / 3600000000) (tod / 60000000 mod 60) (tod / 1000000 mod 60) (tod mod 1000000)) = Ret e
          /\ List.length (iso_text y m d (tod / 3600000000) (tod / 60000000 mod 60) (tod / 1000000 mod 60) (tod mod 1000000)) = 26%nat).
  pose proof (days_in_month_le y m) as Hdm.
  assert (Hbig : 0 <= tod / 3600000000 <= 23) by (unfold us_per_day in *; lia).
  split.
  - rewrite parse_iso by (unfold us_per_day in *; lia).
    rewrite epoch_of_civil_correct by (unfold int32, us_per_day in *; lia).
    rewrite instant_of_split by assumption. rewrite HN.
    replace (m_tp e / us_per_day * us_per_day + tod) with (m_tp e) by (unfold tod, us_per_day; lia).
    rewrite mk_epoch_eta. reflexivity.
  - unfold iso_text. rewrite !app_length, !length_pad. reflexivity.
Qed.

(** every epoch of the years 0..9999 is printed *)
Theorem print_total e y m d h mi s us :
  0 <= y <= 9999 -> valid_date y m d -> 0 <= h <= 23 -> 0 <= mi <= 59 -> 0 <= s <= 59 -> 0 <= us <= 999999 ->
  m_tp e = instant y m d h mi s 0 us ->
  as_utc_string e = Some (iso_text y m d h mi s us).
Proof.
  intros Hy [Hm Hd] Hh Hmi Hs Hus He.
  unfold as_utc_string. cbv zeta. rewrite He.
  assert (Ed : instant y m d h mi s 0 us / us_per_day = day_number y m d) by (unfold instant, us_per_day; lia).
  assert (Et : instant y m d h mi s 0 us mod us_per_day = h * 3600000000 + mi * 60000000 + s * 1000000 + us)
    by (unfold instant, us_per_day; lia).
  rewrite Ed, Et.
  pose proof (civil_from_days_correct (day_number y m d)) as HC.
  destruct (civil_from_days (day_number y m d)) as [[y' m'] d'].
  destruct HC as [[Hm' Hd'] HN].
  (* the calendar is injective on valid dates *)
  assert (Einj : y' = y /\ m' = m /\ d' = d).
  { assert (Dlt : forall a b c a' b' c', 1 <= b <= 12 -> 1 <= c <= days_in_month a b ->
              1 <= b' <= 12 -> 1 <= c' <= days_in_month a' b' -> a < a' -> day_number a b c < day_number a' b' c').
    { clear. intros a b c a' b' c' Hb Hc Hb' Hc' Hlt.
      assert (B1 : day_number a b c < jan1_closed (a + 1)).
      { unfold day_number. rewrite jan1_is_closed, jan1_closed_succ, sum_months_closed by assumption.
        unfold days_in_year, feb_shift, days_in_month in *.
        assert (H : b = 1 \/ b = 2 \/ b = 3 \/ b = 4 \/ b = 5 \/ b = 6 \/ b = 7 \/ b = 8 \/ b = 9
                  \/ b = 10 \/ b = 11 \/ b = 12) by lia.
        repeat destruct H as [H|H]; subst b; cbv beta iota in Hc; destruct (leap a);
          match goal with |- context [?x <? 3] =>
            let v := eval vm_compute in (x <? 3) in change (x <? 3) with v end; cbv beta iota; lia. }
      assert (B2 : jan1_closed a' <= day_number a' b' c').
      { unfold day_number. rewrite jan1_is_closed, sum_months_closed by assumption.
        unfold feb_shift. destruct (leap a'); destruct (b' <? 3) eqn:?; lia. }
      assert (B3 : jan1_closed (a + 1) <= jan1_closed a') by (unfold jan1_closed; lia).
      lia. }
    assert (Ey : y' = y).
    { destruct (Z.lt_trichotomy y' y) as [L|[L|L]]; [|exact L|].
      - pose proof (Dlt y' m' d' y m d Hm' Hd' Hm Hd L). lia.
      - pose proof (Dlt y m d y' m' d' Hm Hd Hm' Hd' L). lia. }
    subst y'. split; [reflexivity|].
    assert (Mlt : forall b c b' c', 1 <= b <= 12 -> 1 <= c <= days_in_month y b ->
              1 <= b' <= 12 -> 1 <= c' <= days_in_month y b' -> b < b' -> day_number y b c < day_number y b' c').
    { clear. intros b c b' c' Hb Hc Hb' Hc' Hlt.
      unfold day_number. rewrite !sum_months_closed by assumption.
      unfold feb_shift, days_in_month in *.
      assert (H : b = 1 \/ b = 2 \/ b = 3 \/ b = 4 \/ b = 5 \/ b = 6 \/ b = 7 \/ b = 8 \/ b = 9
                \/ b = 10 \/ b = 11 \/ b = 12) by lia.
      repeat destruct H as [H|H]; subst b; cbv beta iota in Hc; destruct (leap y);
          match goal with |- context [?x <? 3] =>
            let v := eval vm_compute in (x <? 3) in change (x <? 3) with v end; cbv beta iota; destruct (b' <? 3) eqn:?; lia. }
    assert (Em : m' = m).
    { destruct (Z.lt_trichotomy m' m) as [L|[L|L]]; [|exact L|].
      - pose proof (Mlt m' d' m d Hm' Hd' Hm Hd L). lia.
      - pose proof (Mlt m d m' d' Hm Hd Hm' Hd' L). lia. }
    subst m'. split; [reflexivity|]. unfold day_number in HN. lia. }
  destruct Einj as [-> [-> ->]].
  replace ((0 <=? y) && (y <=? 9999)) with true by lia.
  unfold iso_text.
  replace ((h * 3600000000 + mi * 60000000 + s * 1000000 + us) / 3600000000) with h by lia.
  replace ((h * 3600000000 + mi * 60000000 + s * 1000000 + us) / 60000000 mod 60) with mi by lia.
  replace ((h * 3600000000 + mi * 60000000 + s * 1000000 + us) / 1000000 mod 60) with s by lia.
  replace ((h * 3600000000 + mi * 60000000 + s * 1000000 + us) mod 1000000) with us by lia.
  reflexivity.
Qed.

(** Strings of an unsupported length always throw *)
Theorem bad_length_throws s : ~ In (List.length s) allowed_lengths -> epoch_of_string s = Throw LogicError.
Proof.
  intros H. unfold epoch_of_string.
  destruct (existsb (Nat.eqb (List.length s)) allowed_lengths) eqn:E; cbn [negb]; [|reflexivity].
  exfalso. apply H. apply existsb_exists in E. destruct E as [x [Hx Ex]].
  apply Nat.eqb_eq in Ex. subst. exact Hx.
Qed.

(** the constructor never executes UB *)
Lemma stoi_int32 s v : stoi s = Ret v -> int32 v.
Proof.
  unfold stoi, int32. cbv zeta.
  destruct (match skip_space s with [] => (false, []) | c :: r => if code c =? 45 then (true, r) else if code c =? 43 then (false, r) else (false, skip_space s) end) as [neg r] .
  destruct (digits false 0 r) as [w|]; [|discriminate].
  match goal with |- (if ?b then _ else _) = _ -> _ => destruct b eqn:E end; [|discriminate].
  intros H; inversion H; subst. lia.
Qed.

Lemma digits_bound s : forall seen acc v, 0 <= acc -> digits seen acc s = Some v ->
  0 <= v < (acc + 1) * 10 ^ Z.of_nat (List.length s).
Proof.
  induction s as [|c s IH]; intros seen acc v Hacc H.
  - cbn [digits] in H. destruct seen; [|discriminate]. inversion H; subst. cbn. lia.
  - cbn [digits] in H. cbn [List.length].
    replace (Z.of_nat (S (List.length s))) with (Z.succ (Z.of_nat (List.length s))) by lia.
    rewrite Z.pow_succ_r by lia.
    assert (HP : 0 < 10 ^ Z.of_nat (List.length s)) by (apply Z.pow_pos_nonneg; lia).
    destruct (is_digit c) eqn:E.
    + unfold is_digit in E. apply IH in H; [|lia]. nia.
    + destruct seen; [|discriminate]. inversion H; subst. nia.
Qed.

Lemma skip_space_length s : (List.length (skip_space s) <= List.length s)%nat.
Proof. induction s as [|c s IH]; [reflexivity|]. cbn [skip_space]. destruct (is_space c); cbn [List.length]; lia. Qed.

Lemma stoi_bound s v : stoi s = Ret v -> Z.abs v < 10 ^ Z.of_nat (List.length s).
Proof.
  unfold stoi. cbv zeta. intros H.
  pose proof (skip_space_length s) as L.
  set (p := match skip_space s with [] => (false, []) | c :: r => if code c =? 45 then (true, r) else if code c =? 43 then (false, r) else (false, skip_space s) end) in *.
  assert (Lp : (List.length (snd p) <= List.length s)%nat).
  { unfold p. destruct (skip_space s) as [|c r]; [cbn; lia|].
    destruct (code c =? 45); [cbn in *; lia|]. destruct (code c =? 43); cbn in *; lia. }
  destruct p as [neg r]. cbn [snd] in Lp.
  destruct (digits false 0 r) as [w|] eqn:E; [|discriminate].
  apply digits_bound in E; [|lia].
  assert (10 ^ Z.of_nat (List.length r) <= 10 ^ Z.of_nat (List.length s)) by (apply Z.pow_le_mono_r; lia).
  match type of H with (if ?b then _ else _) = _ => destruct b end; inversion H; subst. destruct neg; lia.
Qed.

Lemma mul10_no_ub n : forall us, Z.abs us * 10 ^ Z.of_nat n <= 2 ^ 31 - 1 ->
  exists v, mul10 n us = Ret v /\ int32 v.
Proof.
  induction n as [|n IH]; intros us H.
  - cbn [mul10]. exists us. split; [reflexivity|]. change (10 ^ Z.of_nat 0) with 1 in H. unfold int32. lia.
  - replace (Z.of_nat (S n)) with (Z.succ (Z.of_nat n)) in * by lia. rewrite Z.pow_succ_r in * by lia.
    assert (HP : 0 < 10 ^ Z.of_nat n) by (apply Z.pow_pos_nonneg; lia).
    cbn [mul10]. unfold i32.
    replace ((- 2 ^ 31 <=? us * 10) && (us * 10 <=? 2 ^ 31 - 1)) with true by nia.
    cbn [bind]. apply IH. nia.
Qed.

Lemma substr_no_ub s p n : substr s p n <> UB.
Proof. unfold substr. destruct (Nat.ltb _ _); discriminate. Qed.
Lemma stoi_no_ub s : stoi s <> UB.
Proof.
  unfold stoi. cbv zeta.
  destruct (match skip_space s with [] => (false, []) | c :: r => if code c =? 45 then (true, r) else if code c =? 43 then (false, r) else (false, skip_space s) end) as [neg r].
  destruct (digits false 0 r); [|discriminate].
  match goal with |- (if ?b then _ else _) <> _ => destruct b end; discriminate.
Qed.
Lemma cast_no_ub n : numeric_cast_unsigned n <> UB.
Proof. unfold numeric_cast_unsigned. destruct (n <? 0); discriminate. Qed.

Lemma field_int32 s p n x : bind (substr s p n) stoi = Ret x -> int32 x.
Proof. destruct (substr s p n); cbn [bind]; [apply stoi_int32|discriminate|discriminate]. Qed.

(** The string constructor never executes UB (no int overflow, no out-of-range access) on any string. *)
Theorem epoch_of_string_no_ub s : epoch_of_string s <> UB.
Proof.
  unfold epoch_of_string. cbv zeta.
  destruct (existsb (Nat.eqb (List.length s)) allowed_lengths) eqn:EL; cbn [negb]; [|discriminate].
  assert (HL : (List.length s <= 26)%nat).
  { apply existsb_exists in EL. destruct EL as [x [Hx Ex]]. apply Nat.eqb_eq in Ex. subst x.
    unfold allowed_lengths in Hx. cbn [In] in Hx. lia. }
  assert (STEP : forall A B (m : outcome A) (f : A -> outcome B), m <> UB -> (forall a, m = Ret a -> f a <> UB) -> bind m f <> UB).
  { intros A B m f H1 H2. destruct m; cbn [bind]; [apply H2; reflexivity|discriminate|congruence]. }
  apply STEP; [apply substr_no_ub|]. intros ys _.
  apply STEP; [apply stoi_no_ub|]. intros y _.
  apply STEP; [apply substr_no_ub|]. intros mos _.
  apply STEP; [apply stoi_no_ub|]. intros mo _.
  apply STEP; [apply cast_no_ub|]. intros mon _.
  apply STEP.
  { destruct (Nat.leb 10 _); [|discriminate]. apply STEP; [apply substr_no_ub|]. intros ? _.
    apply STEP; [apply stoi_no_ub|]. intros ? _. apply cast_no_ub. }
  intros d _.
  apply STEP.
  { destruct (Nat.leb 13 _); [|discriminate]. apply STEP; [apply substr_no_ub|]. intros ? _. apply stoi_no_ub. }
  intros h Hh.
  apply STEP.
  { destruct (Nat.leb 16 _); [|discriminate]. apply STEP; [apply substr_no_ub|]. intros ? _. apply stoi_no_ub. }
  intros mi Hmi.
  apply STEP.
  { destruct (Nat.leb 19 _); [|discriminate]. apply STEP; [apply substr_no_ub|]. intros ? _. apply stoi_no_ub. }
  intros sec Hsec.
  assert (Z32 : int32 0) by (unfold int32; lia).
  assert (Ih : int32 h).
  { destruct (Nat.leb 13 _); [apply (field_int32 s 11 2); exact Hh|inversion Hh; subst; exact Z32]. }
  assert (Imi : int32 mi).
  { destruct (Nat.leb 16 _); [apply (field_int32 s 14 2); exact Hmi|inversion Hmi; subst; exact Z32]. }
  assert (Isec : int32 sec).
  { destruct (Nat.leb 19 _); [apply (field_int32 s 17 2); exact Hsec|inversion Hsec; subst; exact Z32]. }
  assert (US : forall rest u, (List.length rest <= 6)%nat -> stoi rest = Ret u ->
              exists v, mul10 (6 - List.length rest) u = Ret v /\ int32 v).
  { intros rest u Hr Hu. apply mul10_no_ub. apply stoi_bound in Hu.
    assert (E : 10 ^ Z.of_nat (List.length rest) * 10 ^ Z.of_nat (6 - List.length rest) = 10 ^ 6).
    { rewrite <- Z.pow_add_r by lia. f_equal. lia. }
    assert (HP : 0 < 10 ^ Z.of_nat (6 - List.length rest)) by (apply Z.pow_pos_nonneg; lia).
    nia. }
  assert (REST : forall rest, substr_from s 20 = Ret rest -> (List.length rest <= 6)%nat).
  { intros rest. unfold substr_from. destruct (Nat.ltb _ _); [discriminate|]. intros H.
    assert (E : rest = skipn 20 s) by congruence. rewrite E, skipn_length. lia. }
  apply STEP.
  { destruct (Nat.leb 21 _); [|discriminate]. apply STEP.
    - unfold substr_from. destruct (Nat.ltb _ _); discriminate.
    - intros rest Hrest. apply STEP; [apply stoi_no_ub|]. intros u Hu.
      destruct (US rest u (REST _ Hrest) Hu) as [v [-> _]]. discriminate. }
  intros us Hus.
  assert (Ius : int32 us).
  { destruct (Nat.leb 21 _); [|inversion Hus; subst; exact Z32].
    destruct (substr_from s 20) as [rest| |] eqn:Er; cbn [bind] in Hus; try discriminate.
    destruct (stoi rest) as [u| |] eqn:Eu; cbn [bind] in Hus; try discriminate.
    destruct (US rest u (REST _ eq_refl) Eu) as [v [Ev Iv]]. rewrite Ev in Hus. inversion Hus; subst. exact Iv. }
  pose proof (epoch_of_civil_no_ub y mon d h mi sec 0 us Ih Imi Isec Z32 Ius) as H.
  unfold epoch_of_civil in H. exact H.
Qed.
