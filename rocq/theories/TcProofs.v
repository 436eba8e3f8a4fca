(** * Throttle constraints: proofs *)
From Coq Require Import ZArith Reals Lra List Bool Lia ZifyBool ZifyNat.
From Coquelicot Require Import Coquelicot.
From Verif Require Import Outcome TcModel TcSpec.
Import ListNotations.
Open Scope Z_scope.
Ltac Zify.zify_post_hook ::= Z.div_mod_to_equations.

Lemma vget_ok v i : 0 <= i < Z.of_nat (length v) -> vget v i = Ret (nth (Z.to_nat i) v 0%R).
Proof. intros H. unfold vget. rewrite (proj2 (Z.leb_le 0 i)), (proj2 (Z.ltb_lt i _)) by lia. reflexivity. Qed.
Lemma vset_ok v i x : 0 <= i < Z.of_nat (length v) -> vset v i x = Ret (replace_nth v (Z.to_nat i) x).
Proof. intros H. unfold vset. rewrite (proj2 (Z.leb_le 0 i)), (proj2 (Z.ltb_lt i _)) by lia. reflexivity. Qed.

Lemma replace_length l j x : (j < length l)%nat -> length (replace_nth l j x) = length l.
Proof. intros H. unfold replace_nth. rewrite app_length, firstn_length. cbn [length]. rewrite skipn_length. lia. Qed.
Lemma replace_nth_eq l j x k : (j < length l)%nat -> nth k (replace_nth l j x) 0%R = if Nat.eqb k j then x else nth k l 0%R.
Proof.
  intros H. unfold replace_nth. destruct (Nat.eqb_spec k j) as [->|N].
  - rewrite app_nth2; rewrite firstn_length; [|lia]. replace (j - Nat.min j (length l))%nat with 0%nat by lia. reflexivity.
  - destruct (Nat.lt_ge_cases k j) as [L|L].
    + rewrite app_nth1 by (rewrite firstn_length; lia). rewrite <- (firstn_skipn j l) at 2. rewrite app_nth1 by (rewrite firstn_length; lia). reflexivity.
    + rewrite app_nth2 by (rewrite firstn_length; lia). rewrite firstn_length.
      replace (k - Nat.min j (length l))%nat with (S (k - S j))%nat by lia. cbn [nth].
      rewrite <- (firstn_skipn (S j) l) at 2. rewrite app_nth2 by (rewrite firstn_length; lia). rewrite firstn_length. f_equal. lia.
Qed.

(** ** compute_throttle_constraints *)
Lemma tc_loop_ok th n : Z.of_nat (length th) = 3 * n -> forall k i ret, 0 <= i -> i + Z.of_nat k = n -> Z.of_nat (length ret) = n ->
  exists ret', tc_loop k i th ret = Ret ret' /\ length ret' = length ret /\
   forall j, (j < length ret)%nat -> nth j ret' 0%R = if (Z.of_nat j <? i) then nth j ret 0%R else throttle_norm th j.
Proof.
  intros Hl. induction k as [|k IH]; intros i ret Hi Hk Hr.
  - exists ret. split; [reflexivity|]. split; [reflexivity|]. intros j Hj. replace (Z.of_nat j <? i) with true by lia. reflexivity.
  - cbn [tc_loop]. rewrite !vget_ok by lia. cbn [bind]. rewrite vset_ok by lia. cbn [bind].
    destruct (IH (i + 1) (replace_nth ret (Z.to_nat i)
      (nth (Z.to_nat (3 * i)) th 0 * nth (Z.to_nat (3 * i)) th 0 + nth (Z.to_nat (3 * i + 1)) th 0 * nth (Z.to_nat (3 * i + 1)) th 0
       + nth (Z.to_nat (3 * i + 2)) th 0 * nth (Z.to_nat (3 * i + 2)) th 0 - 1)%R)) as [r [E [L N]]]; try lia.
    { rewrite replace_length; lia. }
    rewrite replace_length in L, N by lia.
    exists r. split; [exact E|]. split; [exact L|]. intros j Hj. rewrite N by lia. rewrite replace_nth_eq by lia.
    destruct (Nat.eqb_spec j (Z.to_nat i)) as [->|D].
    + rewrite Z2Nat.id by lia. replace (i <? i + 1) with true by lia. replace (i <? i) with false by lia.
      unfold throttle_norm. replace (Z.to_nat (3 * i)) with (3 * Z.to_nat i)%nat by lia.
      replace (Z.to_nat (3 * i + 1)) with (3 * Z.to_nat i + 1)%nat by lia. replace (Z.to_nat (3 * i + 2)) with (3 * Z.to_nat i + 2)%nat by lia. reflexivity.
    + destruct (Z.ltb_spec (Z.of_nat j) (i + 1)), (Z.ltb_spec (Z.of_nat j) i); try reflexivity; lia.
Qed.

Theorem throttle_constraints n th : 0 <= n -> Z.of_nat (length th) = 3 * n ->
  exists c, compute_throttle_constraints n th = Ret c /\ Z.of_nat (length c) = n /\
    forall i, (Z.of_nat i < n) -> nth i c 0%R = throttle_norm th i.
Proof.
  intros Hn Hl. unfold compute_throttle_constraints.
  destruct (tc_loop_ok th n Hl (Z.to_nat n) 0 (repeat 0%R (Z.to_nat n))) as [c [E [L N]]]; try (rewrite ?repeat_length; lia).
  rewrite repeat_length in L, N. exists c. split; [exact E|]. split; [lia|]. intros i Hi. rewrite N by lia.
  replace (Z.of_nat i <? 0) with false by lia. reflexivity.
Qed.

(** ** compute_tc_grad *)
Lemma idx_inj m r c r' c' : 0 <= c < m -> 0 <= c' < m -> r * m + c = r' * m + c' -> r = r' /\ c = c'.
Proof.
  intros H1 H2 E. assert (r = r').
  { pose proof (Z.div_unique (r * m + c) m r c ltac:(lia) ltac:(lia)).
    pose proof (Z.div_unique (r' * m + c') m r' c' ltac:(lia) ltac:(lia)). congruence. }
  subst. lia.
Qed.

Lemma tcg_loop_ok th n : Z.of_nat (length th) = 3 * n -> forall k i ret, 0 <= i -> i + Z.of_nat k = n ->
  Z.of_nat (length ret) = n * n * 3 ->
  exists ret', tcg_loop k i n th ret = Ret ret' /\ length ret' = length ret /\
   forall r c, 0 <= r < n -> 0 <= c < 3 * n -> nth (Z.to_nat (r * (3 * n) + c)) ret' 0%R =
     if (i <=? r) && (3 * r <=? c) && (c <? 3 * r + 3) then (2 * nth (Z.to_nat c) th 0)%R
     else nth (Z.to_nat (r * (3 * n) + c)) ret 0%R.
Proof.
  intros Hl. induction k as [|k IH]; intros i ret Hi Hk Hr.
  - exists ret. split; [reflexivity|]. split; [reflexivity|]. intros r c H1 H2.
    replace (i <=? r) with false by lia. reflexivity.
  - cbn [tcg_loop].
    assert (B : 0 <= i * n * 3 /\ i * n * 3 + 3 * n <= n * n * 3) by nia.
    rewrite !vget_ok by lia. cbn [bind]. rewrite vset_ok by lia. cbn [bind].
    rewrite vset_ok by (rewrite replace_length; lia). cbn [bind].
    rewrite vset_ok by (rewrite !replace_length; rewrite ?replace_length; lia). cbn [bind].
    set (t0 := nth (Z.to_nat (3 * i)) th 0%R). set (t1 := nth (Z.to_nat (3 * i + 1)) th 0%R). set (t2 := nth (Z.to_nat (3 * i + 2)) th 0%R).
    set (a0 := Z.to_nat (i * n * 3 + 3 * i)). set (a1 := Z.to_nat (i * n * 3 + 3 * i + 1)). set (a2 := Z.to_nat (i * n * 3 + 3 * i + 2)).
    assert (A : (a0 < length ret)%nat /\ (a1 < length ret)%nat /\ (a2 < length ret)%nat) by lia.
    destruct A as (A0 & A1 & A2).
    set (r1 := replace_nth ret a0 (2 * t0)%R). assert (L1 : length r1 = length ret) by (apply replace_length; lia).
    set (r2 := replace_nth r1 a1 (2 * t1)%R). assert (L2 : length r2 = length ret) by (unfold r2; rewrite replace_length; lia).
    set (r3 := replace_nth r2 a2 (2 * t2)%R). assert (L3 : length r3 = length ret) by (unfold r3; rewrite replace_length; lia).
    destruct (IH (i + 1) r3 ltac:(lia) ltac:(lia) ltac:(lia)) as [q [E [L N]]].
    exists q. split; [exact E|]. split; [lia|]. intros r c H1 H2. rewrite N by lia.
    assert (P : 0 <= r * (3 * n)) by nia.
    assert (K : nth (Z.to_nat (r * (3 * n) + c)) r3 0%R =
                if (r =? i) && (3 * r <=? c) && (c <? 3 * r + 3) then (2 * nth (Z.to_nat c) th 0)%R
                else nth (Z.to_nat (r * (3 * n) + c)) ret 0%R).
    { unfold r3. rewrite replace_nth_eq by lia. unfold r2. rewrite replace_nth_eq by lia. unfold r1. rewrite replace_nth_eq by lia.
      unfold a2, a1, a0. replace (i * n * 3) with (i * (3 * n)) by lia.
      assert (X : forall d, 0 <= d < 3 -> Nat.eqb (Z.to_nat (r * (3 * n) + c)) (Z.to_nat (i * (3 * n) + 3 * i + d)) = ((r =? i) && (c =? 3 * r + d))).
      { intros d Hd. destruct (Nat.eqb_spec (Z.to_nat (r * (3 * n) + c)) (Z.to_nat (i * (3 * n) + 3 * i + d))) as [Q|Q].
        - assert (Q' : r * (3 * n) + c = i * (3 * n) + (3 * i + d)) by lia.
          apply idx_inj in Q'; [|lia|lia]. lia.
        - destruct (Z.eqb_spec r i) as [->|]; [|reflexivity]. destruct (Z.eqb_spec c (3 * i + d)); [|reflexivity]. exfalso. apply Q. f_equal. lia. }
      rewrite (X 2), (X 1) by lia. replace (i * (3 * n) + 3 * i) with (i * (3 * n) + 3 * i + 0) by lia. rewrite (X 0) by lia.
      destruct (Z.eqb_spec r i) as [->|D]; cbn [andb]; [|reflexivity].
      destruct (Z.eqb_spec c (3 * i + 2)) as [->|D2].
      { replace (3 * i <=? 3 * i + 2) with true by lia. replace (3 * i + 2 <? 3 * i + 3) with true by lia. reflexivity. }
      destruct (Z.eqb_spec c (3 * i + 1)) as [->|D1].
      { replace (3 * i <=? 3 * i + 1) with true by lia. replace (3 * i + 1 <? 3 * i + 3) with true by lia. reflexivity. }
      destruct (Z.eqb_spec c (3 * i + 0)) as [->|D0].
      { replace (3 * i <=? 3 * i + 0) with true by lia. replace (3 * i + 0 <? 3 * i + 3) with true by lia. cbn [andb]. unfold t0. do 2 f_equal. lia. }
      replace ((3 * i <=? c) && (c <? 3 * i + 3)) with false by lia. reflexivity. }
    rewrite K. destruct (Z.leb_spec (i + 1) r) as [G|G].
    + replace (i <=? r) with true by lia. replace (r =? i) with false by lia. cbn [andb]. destruct ((3 * r <=? c) && (c <? 3 * r + 3)); reflexivity.
    + cbn [andb]. destruct (Z.eqb_spec r i) as [->|D].
      * replace (i <=? i) with true by lia. reflexivity.
      * replace (i <=? r) with false by lia. reflexivity.
Qed.

Theorem tc_grad_entries n th : 0 <= n -> Z.of_nat (length th) = 3 * n ->
  exists g, compute_tc_grad n th = Ret g /\ Z.of_nat (length g) = n * (3 * n) /\
    forall r c, 0 <= r < n -> 0 <= c < 3 * n -> nth (Z.to_nat (r * (3 * n) + c)) g 0%R =
     if (3 * r <=? c) && (c <? 3 * r + 3) then (2 * nth (Z.to_nat c) th 0)%R else 0%R.
Proof.
  intros Hn Hl. unfold compute_tc_grad.
  assert (P : 0 <= n * n * 3) by nia.
  destruct (tcg_loop_ok th n Hl (Z.to_nat n) 0 (repeat 0%R (Z.to_nat (n * n * 3)))) as [g [E [L N]]]; try (rewrite ?repeat_length; lia).
  rewrite repeat_length in L. exists g. split; [exact E|]. split; [lia|]. intros r c H1 H2. rewrite N by lia.
  replace (0 <=? r) with true by lia. cbn [andb]. destruct ((3 * r <=? c) && (c <? 3 * r + 3)); [reflexivity|].
  clear. generalize (Z.to_nat (r * (3 * n) + c)). induction (Z.to_nat (n * n * 3)) as [|k IH]; intros [|j]; cbn; auto.
Qed.

(** the gradient is the Jacobian, entry by entry, in row-major order *)
Theorem tc_grad_is_jacobian n th : 0 <= n -> Z.of_nat (length th) = 3 * n ->
  exists g, compute_tc_grad n th = Ret g /\ Z.of_nat (length g) = n * (3 * n) /\
    forall r c, 0 <= r < n -> 0 <= c < 3 * n ->
      is_derive (fun x => throttle_norm (replace_nth th (Z.to_nat c) x) (Z.to_nat r)) (nth (Z.to_nat c) th 0%R)
                (nth (Z.to_nat (r * (3 * n) + c)) g 0%R).
Proof.
  intros Hn Hl. destruct (tc_grad_entries n th Hn Hl) as [g [E [L N]]]. exists g. split; [exact E|]. split; [exact L|].
  intros r c H1 H2. rewrite N by lia.
  apply is_derive_ext with (f := fun x =>
    (let f k := if Nat.eqb k (Z.to_nat c) then x else nth k th 0 in
     f (3 * Z.to_nat r)%nat * f (3 * Z.to_nat r)%nat + f (3 * Z.to_nat r + 1)%nat * f (3 * Z.to_nat r + 1)%nat + f (3 * Z.to_nat r + 2)%nat * f (3 * Z.to_nat r + 2)%nat - 1)%R).
  { intros x. unfold throttle_norm. rewrite !replace_nth_eq by lia. reflexivity. }
  cbv zeta.
  destruct ((3 * r <=? c) && (c <? 3 * r + 3)) eqn:Q.
  - destruct (Nat.eqb_spec (3 * Z.to_nat r) (Z.to_nat c)); destruct (Nat.eqb_spec (3 * Z.to_nat r + 1) (Z.to_nat c));
      destruct (Nat.eqb_spec (3 * Z.to_nat r + 2) (Z.to_nat c)); try (exfalso; lia);
      auto_derive; trivial; ring.
  - replace (Nat.eqb (3 * Z.to_nat r) (Z.to_nat c)) with false by lia. replace (Nat.eqb (3 * Z.to_nat r + 1) (Z.to_nat c)) with false by lia.
    replace (Nat.eqb (3 * Z.to_nat r + 2) (Z.to_nat c)) with false by lia. apply @is_derive_const.
Qed.
