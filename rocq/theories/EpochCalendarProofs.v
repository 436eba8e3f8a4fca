(** * Calendar lemmas: std::chrono's day count is the Gregorian calendar of EpochSpec *)
From Coq Require Import ZArith List Bool Lia ZifyBool.
From Verif Require Import Outcome Float64 EpochModel EpochSpec.
Open Scope Z_scope.

Ltac Zify.zify_post_hook ::= Z.div_mod_to_equations.

(** closed form of the number of days before January 1st *)
Definition jan1_closed (y : Z) : Z :=
  365 * (y - 1970) + ((y - 1) / 4 - 492) - ((y - 1) / 100 - 19) + ((y - 1) / 400 - 4).

Lemma jan1_closed_succ y : jan1_closed (y + 1) = jan1_closed y + days_in_year y.
Proof.
  unfold jan1_closed, days_in_year, leap.
  destruct (y mod 4 =? 0) eqn:H4; destruct (y mod 100 =? 0) eqn:H100;
    destruct (y mod 400 =? 0) eqn:H400; cbn [andb orb negb]; lia.
Qed.

Lemma sum_years_closed n : forall y, sum_years n y = jan1_closed (y + Z.of_nat n) - jan1_closed y.
Proof.
  induction n as [|n IH]; intros y.
  - cbn [sum_years]. replace (y + Z.of_nat 0) with y by lia. lia.
  - cbn [sum_years]. rewrite IH. rewrite jan1_closed_succ.
    replace (y + 1 + Z.of_nat n) with (y + Z.of_nat (S n)) by lia. lia.
Qed.

Lemma jan1_is_closed y : jan1 y = jan1_closed y.
Proof.
  unfold jan1. destruct (1970 <=? y) eqn:E; rewrite sum_years_closed.
  - replace (1970 + Z.of_nat (Z.to_nat (y - 1970))) with y by lia.
    change (jan1_closed 1970) with 0. lia.
  - replace (y + Z.of_nat (Z.to_nat (1970 - y))) with 1970 by lia.
    change (jan1_closed 1970) with 0. lia.
Qed.

Definition feb_shift (y : Z) : Z := if leap y then 1 else 0.

Lemma sum_months_closed y m : 1 <= m <= 12 ->
  sum_months (Z.to_nat (m - 1)) y =
  (if m <? 3 then (m - 1) * 31 else (153 * (m - 3) + 2) / 5 + 59 + feb_shift y).
Proof.
  intros Hm. unfold feb_shift.
  assert (H : m = 1 \/ m = 2 \/ m = 3 \/ m = 4 \/ m = 5 \/ m = 6 \/ m = 7 \/ m = 8 \/ m = 9
              \/ m = 10 \/ m = 11 \/ m = 12) by lia.
  repeat destruct H as [H|H]; subst m;
    match goal with |- context [Z.to_nat ?e] =>
      let v := eval vm_compute in (Z.to_nat e) in change (Z.to_nat e) with v end;
    cbn [sum_months days_in_month Z.of_nat Z.add Pos.of_succ_nat Pos.succ Pos.add];
    destruct (leap y); reflexivity.
Qed.

Lemma u32_id n : 0 <= n < 2 ^ 32 -> u32 n = n.
Proof. intros H. unfold u32. apply Z.mod_small. exact H. Qed.

Lemma leap_shift y :
  feb_shift y = (y / 4 - (y - 1) / 4) - (y / 100 - (y - 1) / 100) + (y / 400 - (y - 1) / 400).
Proof.
  unfold feb_shift, leap.
  destruct (y mod 4 =? 0) eqn:H4; destruct (y mod 100 =? 0) eqn:H100;
    destruct (y mod 400 =? 0) eqn:H400; cbn [andb orb negb]; lia.
Qed.

(** std::chrono's algorithm without the modular wrappers *)
Lemma chrono_days_plain y m d :
  -32767 <= y <= 32767 -> 1 <= m <= 12 -> 1 <= d <= 31 ->
  chrono_days y m d =
  (let j := if m <? 3 then 1 else 0 in
   let y0 := y + 1468000 - j in
   let m0 := if m <? 3 then m + 12 else m in
   1461 * y0 / 4 - y0 / 100 + y0 / 100 / 4 + (979 * m0 - 2919) / 32 + (d - 1) - 536895458).
Proof.
  intros Hy Hm Hd. unfold chrono_days.
  assert (E1 : u32 (u32 y - u32 (-1468000)) = y + 1468000).
  { unfold u32. lia. }
  rewrite E1. clear E1.
  set (j := if m <? 3 then 1 else 0).
  assert (Hj : 0 <= j <= 1) by (unfold j; destruct (m <? 3); lia).
  cbv zeta.
  rewrite (u32_id (y + 1468000 - j)) by lia.
  set (y0 := y + 1468000 - j).
  assert (Hy0 : 1435232 <= y0 <= 1500767) by (unfold y0; lia).
  assert (Em : (if m <? 3 then u32 (m + 12) else m) = (if m <? 3 then m + 12 else m)).
  { destruct (m <? 3); [apply u32_id; lia|reflexivity]. }
  rewrite Em. clear Em.
  set (m0 := if m <? 3 then m + 12 else m).
  assert (Hm0 : 3 <= m0 <= 14) by (unfold m0; destruct (m <? 3) eqn:?; lia).
  rewrite (u32_id (d - 1)) by lia.
  rewrite (u32_id (1461 * y0)) by lia.
  rewrite (u32_id (1461 * y0 / 4 - y0 / 100)) by lia.
  rewrite (u32_id (1461 * y0 / 4 - y0 / 100 + y0 / 100 / 4)) by lia.
  rewrite (u32_id (979 * m0)) by lia.
  rewrite (u32_id (979 * m0 - 2919)) by lia.
  set (yc := 1461 * y0 / 4 - y0 / 100 + y0 / 100 / 4).
  assert (Hyc : 0 <= yc <= 600000000) by (unfold yc; lia).
  set (mc := (979 * m0 - 2919) / 32).
  assert (Hmc : 0 <= mc <= 400) by (unfold mc; lia).
  rewrite (u32_id (yc + mc)) by lia.
  rewrite (u32_id (yc + mc + (d - 1))) by lia.
  unfold to_i32, u32. clearbody yc mc y0 m0 j. lia.
Qed.

Theorem chrono_days_correct y m d :
  -32767 <= y <= 32767 -> 1 <= m <= 12 -> 1 <= d <= 31 ->
  chrono_days y m d = day_number y m d.
Proof.
  intros Hy Hm Hd. rewrite chrono_days_plain by assumption.
  unfold day_number. rewrite jan1_is_closed, sum_months_closed by assumption.
  unfold jan1_closed. cbv zeta.
  destruct (m <? 3) eqn:Em.
  - assert (Hm' : m = 1 \/ m = 2) by lia.
    destruct Hm' as [-> | ->]; cbn [Z.add]; lia.
  - rewrite leap_shift.
    replace ((979 * m - 2919) / 32) with ((153 * (m - 3) + 2) / 5).
    + lia.
    + assert (H : m = 3 \/ m = 4 \/ m = 5 \/ m = 6 \/ m = 7 \/ m = 8 \/ m = 9
              \/ m = 10 \/ m = 11 \/ m = 12) by lia.
      repeat destruct H as [H|H]; subst m; reflexivity.
Qed.
