(** * The string constructor of the epoch accepts exactly the strings whose fields form a date *)
From Coq Require Import ZArith List Ascii Bool Lia ZifyBool.
From Verif Require Import Outcome EpochModel EpochSpec EpochProofs EpochStringProofs FieldSpec FieldProofs.
Import ListNotations.
Open Scope Z_scope.

Lemma bind_iff {A B} (m : outcome A) (f : A -> outcome B) e : bind m f = Ret e <-> exists a, m = Ret a /\ f a = Ret e.
Proof. split; [destruct m; cbn; intro H; try discriminate; eauto|]. intros (a & -> & H). exact H. Qed.
Lemma reads_bound s v : reads s v -> Z.abs v < 10 ^ Z.of_nat (List.length s).
Proof.
  intros (ws & sg & ds & rest & n & -> & _ & Hd & _ & Hs). apply decimal_iff in Hd. destruct Hd as (N & F & En).
  pose proof (digits_run ds false 0 [] F (or_intror N) I) as D. apply digits_bound in D; [|lia]. rewrite app_nil_r, <- En in D.
  assert (10 ^ Z.of_nat (List.length ds) <= 10 ^ Z.of_nat (List.length (ws ++ sg ++ ds ++ rest))) by (apply Z.pow_le_mono_r; [lia|rewrite !app_length; lia]).
  destruct Hs as [[_ ->]|[_ ->]]; lia.
Qed.
Lemma stoi_short s v : (List.length s <= 9)%nat -> stoi s = Ret v <-> reads s v.
Proof.
  intro L. rewrite stoi_ret. split; [tauto|]. intro R. split; [exact R|]. apply reads_bound in R.
  assert (10 ^ Z.of_nat (List.length s) <= 10 ^ 9) by (apply Z.pow_le_mono_r; lia). lia.
Qed.
Lemma get_field s p n v : (p <= List.length s)%nat -> (n <= 9)%nat -> (exists x, substr s p n = Ret x /\ stoi x = Ret v) <-> field s p n v.
Proof.
  intros P N. unfold substr, field. replace (Nat.ltb (List.length s) p) with false by (symmetry; apply Nat.ltb_ge; exact P).
  assert (Sh : (List.length (firstn n (skipn p s)) <= 9)%nat) by (rewrite firstn_length; lia).
  split; [intros (x & E & H); injection E as <-; apply stoi_short in H; auto|]. intro H. eexists. split; [reflexivity|]. apply stoi_short; auto.
Qed.
Lemma get_or s k p missing v : (p <= k)%nat ->
  (if Nat.leb k (List.length s) then bind (substr s p 2) (fun x => stoi x) else Ret missing) = Ret v <-> field_or s k p missing v.
Proof.
  intros P. unfold field_or. destruct (Nat.leb_spec k (List.length s)) as [H|H].
  - rewrite bind_iff, get_field by lia. split; [auto|]. intros [[_ F]|[F _]]; [exact F|lia].
  - split; [intro E; injection E as <-; auto|]. intros [[F _]|[_ ->]]; [lia|reflexivity].
Qed.
Lemma cast_iff a b : numeric_cast_unsigned a = Ret b <-> 0 <= a /\ b = a.
Proof. unfold numeric_cast_unsigned. destruct (a <? 0) eqn:E; split; try discriminate; try lia. intro H. injection H as <-. lia. intros [_ ->]. reflexivity. Qed.
Lemma mul10_exact n : forall us, Z.abs us * 10 ^ Z.of_nat n <= 2 ^ 31 - 1 -> mul10 n us = Ret (us * 10 ^ Z.of_nat n).
Proof.
  induction n as [|n IH]; intros us H.
  - cbn [mul10]. f_equal. change (10 ^ Z.of_nat 0) with 1. lia.
  - replace (Z.of_nat (S n)) with (Z.succ (Z.of_nat n)) in * by lia. rewrite Z.pow_succ_r in * by lia.
    assert (HP : 0 < 10 ^ Z.of_nat n) by (apply Z.pow_pos_nonneg; lia).
    cbn [mul10]. unfold i32. replace ((- 2 ^ 31 <=? us * 10) && (us * 10 <=? 2 ^ 31 - 1)) with true by nia.
    cbn [bind]. rewrite IH by nia. f_equal. lia.
Qed.
Lemma get_fraction s us : (List.length s <= 26)%nat ->
  (if Nat.leb 21 (List.length s) then bind (substr_from s 20) (fun rest => bind (stoi rest) (fun u => mul10 (6 - List.length rest) u)) else Ret 0) = Ret us <->
  ((21 <= List.length s)%nat /\ exists u, reads (skipn 20 s) u /\ us = u * 10 ^ (26 - Z.of_nat (List.length s))) \/ ((List.length s < 21)%nat /\ us = 0).
Proof.
  intro L. destruct (Nat.leb_spec 21 (List.length s)) as [H|H].
  - unfold substr_from. replace (Nat.ltb (List.length s) 20) with false by (symmetry; apply Nat.ltb_ge; lia). cbn [bind].
    assert (Lr : List.length (skipn 20 s) = (List.length s - 20)%nat) by apply skipn_length.
    assert (M : forall u, reads (skipn 20 s) u -> mul10 (6 - List.length (skipn 20 s)) u = Ret (u * 10 ^ (26 - Z.of_nat (List.length s)))).
    { intros u R. apply reads_bound in R. rewrite Lr in *.
      replace (26 - Z.of_nat (List.length s)) with (Z.of_nat (6 - (List.length s - 20))) by lia. apply mul10_exact.
      assert (10 ^ Z.of_nat (List.length s - 20) * 10 ^ Z.of_nat (6 - (List.length s - 20)) = 10 ^ 6)
        by (rewrite <- Z.pow_add_r by lia; f_equal; lia).
      assert (0 < 10 ^ Z.of_nat (6 - (List.length s - 20))) by (apply Z.pow_pos_nonneg; lia). nia. }
    rewrite bind_iff. split.
    + intros (u & R & E). apply stoi_short in R; [|lia]. rewrite (M u R) in E. injection E as <-. left. split; [exact H|]. exists u. auto.
    + intros [[_ (u & R & ->)]|[F _]]; [|lia]. exists u. split; [apply stoi_short; [lia|exact R]|exact (M u R)].
  - split; [intro E; injection E as <-; auto|]. intros [[F _]|[_ ->]]; [lia|reflexivity].
Qed.
Lemma make_tp_iff y m d h mi s us e : -32767 <= y <= 32767 -> 0 <= m <= 255 -> 0 <= d <= 255 -> int32 h -> int32 mi -> int32 s -> int32 us ->
  make_tp y m d h mi s 0 us = Ret e <-> 1 <= m <= 12 /\ 1 <= d <= 31 /\ e = instant y m d h mi s 0 us.
Proof.
  intros Hy Hm Hd Hh Hmi Hs Hus. assert (Z0 : int32 0) by (unfold int32; lia). split.
  - intro E. assert (B : 1 <= m <= 12 /\ 1 <= d <= 31).
    { unfold make_tp in E. rewrite to_short_id in E by lia. rewrite !to_uchar_id in E by lia.
      replace (year_ok y) with true in E by (unfold year_ok; lia). cbn [negb] in E.
      destruct (month_ok m) eqn:Em; [|discriminate]. cbn [negb] in E. destruct (day_ok d) eqn:Ed; [|discriminate]. unfold month_ok, day_ok in *. lia. }
    destruct B as [B1 B2]. rewrite make_tp_value in E by (assumption || lia). injection E as <-. auto.
  - intros (B1 & B2 & ->). apply make_tp_value; assumption || lia.
Qed.
Lemma field_bound s p n v : field s p n v -> Z.abs v < 10 ^ Z.of_nat n.
Proof.
  intro H. apply reads_bound in H. rewrite firstn_length in H.
  assert (10 ^ Z.of_nat (Nat.min n (List.length (skipn p s))) <= 10 ^ Z.of_nat n) by (apply Z.pow_le_mono_r; lia). lia.
Qed.
Lemma field_or_bound s k p missing v : 0 <= missing < 100 -> field_or s k p missing v -> Z.abs v < 100.
Proof. intros M [[_ H]|[_ ->]]; [apply field_bound in H; change (10 ^ Z.of_nat 2) with 100 in H|]; lia. Qed.
Lemma date_bounds s y m d h mi sec us : date_fields s y m d h mi sec us ->
  Z.abs y < 10000 /\ Z.abs m < 100 /\ Z.abs d < 100 /\ int32 h /\ int32 mi /\ int32 sec /\ int32 us.
Proof.
  intros (L & Hy & Hm & Hd & Hh & Hmi & Hs & Hu). apply field_bound in Hy, Hm. change (10 ^ Z.of_nat 4) with 10000 in Hy. change (10 ^ Z.of_nat 2) with 100 in Hm.
  apply field_or_bound in Hd, Hh, Hmi, Hs; try lia. unfold int32. repeat (split; [lia|]).
  destruct Hu as [[H (u & R & ->)]|[_ ->]]; [|lia]. apply reads_bound in R. rewrite skipn_length in R.
  assert (Le : (List.length s <= 26)%nat) by (cbn [In] in L; lia).
  assert (E : 10 ^ Z.of_nat (List.length s - 20) * 10 ^ (26 - Z.of_nat (List.length s)) = 10 ^ 6) by (rewrite <- Z.pow_add_r by lia; f_equal; lia).
  assert (0 < 10 ^ (26 - Z.of_nat (List.length s))) by (apply Z.pow_pos_nonneg; lia). nia.
Qed.
Theorem string_accepted s e : epoch_of_string s = Ret e <->
  exists y m d h mi sec us, date_fields s y m d h mi sec us /\ 1 <= m <= 12 /\ 1 <= d <= 31 /\ m_tp e = instant y m d h mi sec 0 us.
Proof.
  unfold epoch_of_string. cbv zeta. destruct (existsb (Nat.eqb (List.length s)) allowed_lengths) eqn:EL; cbn [negb].
  2: { split; [discriminate|]. intros (y & m & d & h & mi & sec & us & (L & _) & _). exfalso.
    assert (existsb (Nat.eqb (List.length s)) allowed_lengths = true) by (apply existsb_exists; exists (List.length s); split; [exact L|apply Nat.eqb_refl]). congruence. }
  assert (L : In (List.length s) [7; 10; 13; 16; 19; 21; 22; 23; 24; 25; 26]%nat).
  { apply existsb_exists in EL. destruct EL as (x & Hx & Ex). apply Nat.eqb_eq in Ex. rewrite Ex. exact Hx. }
  assert (L7 : (7 <= List.length s <= 26)%nat) by (cbn [In] in L; lia).
  assert (Day : forall dd, (if Nat.leb 10 (List.length s) then bind (substr s 8 2) (fun ds => bind (stoi ds) (fun d => numeric_cast_unsigned d)) else Ret 1) = Ret dd <->
            field_or s 10 8 1 dd /\ 0 <= dd).
  { intro dd. unfold field_or. destruct (Nat.leb_spec 10 (List.length s)) as [H|H].
    - rewrite bind_iff. split.
      + intros (x & E1 & E2). apply bind_iff in E2. destruct E2 as (b & E2 & E3). apply cast_iff in E3. destruct E3 as [E3 ->].
        split; [left; split; [exact H|]|exact E3]. apply get_field; try lia. eauto.
      + intros [[[_ F]|[F _]] P]; [|lia]. apply get_field in F; try lia. destruct F as (x & E1 & E2). exists x. split; [exact E1|].
        rewrite E2. cbn [bind]. apply cast_iff. auto.
    - split; [intro E; injection E as <-; split; [auto|lia]|]. intros [[[F _]|[_ ->]] _]; [lia|reflexivity]. }
  split.
  - intro H. apply bind_iff in H. destruct H as (ys & Eys & H). apply bind_iff in H. destruct H as (y & Ey & H).
    apply bind_iff in H. destruct H as (mos & Emos & H). apply bind_iff in H. destruct H as (mo & Emo & H).
    apply bind_iff in H. destruct H as (mon & Emon & H). apply cast_iff in Emon. destruct Emon as [Pm ->].
    apply bind_iff in H. destruct H as (d & Ed & H). apply Day in Ed. destruct Ed as [Ed Pd].
    apply bind_iff in H. destruct H as (h & Eh & H). apply get_or in Eh; [|lia].
    apply bind_iff in H. destruct H as (mi & Emi & H). apply get_or in Emi; [|lia].
    apply bind_iff in H. destruct H as (sec & Es & H). apply get_or in Es; [|lia].
    apply bind_iff in H. destruct H as (us & Eus & H). apply get_fraction in Eus; [|lia].
    apply bind_iff in H. destruct H as (tp & Etp & H). injection H as <-.
    assert (DF : date_fields s y mo d h mi sec us).
    { split; [exact L|]. split; [apply get_field; try lia; eauto|]. split; [apply get_field; try lia; eauto|]. auto. }
    destruct (date_bounds _ _ _ _ _ _ _ _ DF) as (B1 & B2 & B3 & B4 & B5 & B6 & B7).
    apply make_tp_iff in Etp; try assumption; try lia. destruct Etp as (M & Dd & ->).
    exists y, mo, d, h, mi, sec, us. auto.
  - intros (y & m & d & h & mi & sec & us & DF & M & Dd & E).
    destruct (date_bounds _ _ _ _ _ _ _ _ DF) as (B1 & B2 & B3 & B4 & B5 & B6 & B7).
    destruct DF as (_ & Hy & Hm & Hd & Hh & Hmi & Hs & Hu).
    apply get_field in Hy; try lia. destruct Hy as (ys & Eys & Ey). apply get_field in Hm; try lia. destruct Hm as (ms & Ems & Em).
    apply bind_iff. exists ys. split; [exact Eys|]. apply bind_iff. exists y. split; [exact Ey|].
    apply bind_iff. exists ms. split; [exact Ems|]. apply bind_iff. exists m. split; [exact Em|].
    apply bind_iff. exists m. split; [apply cast_iff; lia|].
    apply bind_iff. exists d. split; [apply Day; split; [exact Hd|lia]|].
    apply bind_iff. exists h. split; [apply get_or; [lia|exact Hh]|].
    apply bind_iff. exists mi. split; [apply get_or; [lia|exact Hmi]|].
    apply bind_iff. exists sec. split; [apply get_or; [lia|exact Hs]|].
    apply bind_iff. exists us. split; [apply get_fraction; [lia|exact Hu]|].
    apply bind_iff. exists (m_tp e). split; [apply make_tp_iff; try assumption; try lia; auto|]. destruct e. reflexivity.
Qed.
