(** * The arrays returned by get_relevant_gradients *)
From Coq Require Import Reals Lra Lia List ZArith Bool.
From Verif Require Import Outcome HfGradModel.
Import ListNotations.
Open Scope outcome_scope.

Definition upd {A} (i : nat) (x : A) (v : list A) : list A := firstn i v ++ x :: skipn (S i) v.
Lemma upd_length {A} i (x : A) v : (i < length v)%nat -> length (upd i x v) = length v.
Proof. intros L. unfold upd. rewrite app_length, firstn_length. cbn [length]. rewrite skipn_length. lia. Qed.
Lemma upd_same {A} i (x d : A) v : (i < length v)%nat -> nth i (upd i x v) d = x.
Proof. intros L. unfold upd. rewrite app_nth2; rewrite firstn_length; [|lia]. replace (i - Nat.min i (length v))%nat with 0%nat by lia. reflexivity. Qed.
Lemma upd_other {A} i j (x d : A) v : (i < length v)%nat -> i <> j -> nth j (upd i x v) d = nth j v d.
Proof.
  unfold upd. revert i j. induction v as [|a v IH]; intros i j L N; [cbn in L; lia|].
  destruct i as [|i], j as [|j]; try lia; cbn; [reflexivity|reflexivity|]. apply (IH i j); [cbn in L; lia|lia].
Qed.
Lemma rd_ok {A} (d : A) v i : (i < length v)%nat -> rd d v (Z.of_nat i) = Ret (nth i v d).
Proof. intros L. unfold rd. rewrite (proj2 (Z.leb_le _ _)), (proj2 (Z.ltb_lt _ _)) by lia. cbn. rewrite Nat2Z.id. reflexivity. Qed.
Lemma wr_ok {A} v i (x : A) : (i < length v)%nat -> wr v (Z.of_nat i) x = Ret (upd i x v).
Proof. intros L. unfold wr. rewrite (proj2 (Z.leb_le _ _)), (proj2 (Z.ltb_lt _ _)) by lia. cbn [andb]. rewrite Nat2Z.id. reflexivity. Qed.
Lemma u32_id z : (0 <= z < 2 ^ 32)%Z -> u32 z = z.
Proof. intros H. unfold u32. apply Z.mod_small. exact H. Qed.
Lemma u32_nat k : (Z.of_nat k < 2 ^ 32)%Z -> u32 (Z.of_nat k) = Z.of_nat k.
Proof. intros H. apply u32_id. lia. Qed.
Lemma rd_u {A} (d : A) v z i : z = Z.of_nat i -> (i < length v)%nat -> (Z.of_nat (length v) < 2 ^ 32)%Z -> rd d v (u32 z) = Ret (nth i v d).
Proof. intros -> L B. rewrite u32_nat by lia. apply rd_ok. exact L. Qed.
Lemma wr_u {A} v z i (x : A) : z = Z.of_nat i -> (i < length v)%nat -> (Z.of_nat (length v) < 2 ^ 32)%Z -> wr v (u32 z) x = Ret (upd i x v).
Proof. intros -> L B. rewrite u32_nat by lia. apply wr_ok. exact L. Qed.

Section Arrays.
Variables (n nf nb : nat).
Hypothesis Hn : (nf + nb = n)%nat.
Hypothesis Hb : (3 * Z.of_nat n + 1 < 2 ^ 32)%Z.
Variables M U F : list (list R).
Hypothesis LM : length M = n.
Hypothesis LU : length U = n.
Hypothesis LF : length F = n.

Fixpoint Pf (k : nat) : list R := match k with O => nth (nf - 1) M [] | S k' => mdot 7 7 7 (Pf k') (nth (nf - 1 - S k') M []) end.
Fixpoint Pb (k : nat) : list R := match k with O => nth nf M [] | S k' => mdot 7 7 7 (Pb k') (nth (nf + S k') M []) end.

Lemma mn_fwd_spec k : forall i mn, (i + k = nf - 1)%nat -> (0 < nf)%nat -> length mn = n -> (forall j, (j <= i)%nat -> nth j mn [] = Pf j) ->
  exists mn', mn_fwd k (Z.of_nat i) (Z.of_nat nf) M mn = Ret mn' /\ length mn' = n /\ forall j, (j < nf)%nat -> nth j mn' [] = Pf j.
Proof.
  induction k as [|k IH]; intros i mn Hk Hf Lm Hm.
  - exists mn. split; [reflexivity|]. split; [exact Lm|]. intros j Hj. apply Hm. lia.
  - cbn [mn_fwd]. rewrite (rd_u [] M _ (nf - 1 - S i)) by lia. cbn [bind].
    replace (if (Z.of_nat i =? 0)%Z then rd [] M (u32 (Z.of_nat nf - 1)) else rd [] mn (Z.of_nat i)) with (Ret (Pf i)).
    2:{ destruct (Z.eqb_spec (Z.of_nat i) 0) as [E|E]; [replace i with 0%nat by lia; rewrite (rd_u [] M _ (nf - 1)) by lia; reflexivity|]. rewrite rd_ok, Hm by lia. reflexivity. }
    cbn [bind]. rewrite (wr_u mn _ (S i)) by lia. cbn [bind]. replace (Z.of_nat i + 1)%Z with (Z.of_nat (S i)) by lia.
    destruct (IH (S i) (upd (S i) (mdot 7 7 7 (Pf i) (nth (nf - 1 - S i) M [])) mn)) as [mn' [E [L H]]]; [lia|lia|rewrite upd_length by lia; exact Lm| |exists mn'; auto].
    intros j Hj. destruct (Nat.eq_dec j (S i)) as [->|N]; [rewrite upd_same by lia; reflexivity|rewrite upd_other by lia; apply Hm; lia].
Qed.
Lemma mn_bck_spec k : forall i mn, (i + k = nb - 1)%nat -> (0 < nb)%nat -> length mn = n -> (forall j, (j < nf)%nat -> nth j mn [] = Pf j) -> (forall j, (j <= i)%nat -> nth (nf + j) mn [] = Pb j) ->
  exists mn', mn_bck k (Z.of_nat i) (Z.of_nat nf) M mn = Ret mn' /\ length mn' = n /\ (forall j, (j < nf)%nat -> nth j mn' [] = Pf j) /\ forall j, (j < nb)%nat -> nth (nf + j) mn' [] = Pb j.
Proof.
  induction k as [|k IH]; intros i mn Hk Hf Lm Hm1 Hm2.
  - exists mn. split; [reflexivity|]. split; [exact Lm|]. split; [exact Hm1|]. intros j Hj. apply Hm2. lia.
  - cbn [mn_bck]. rewrite (rd_u [] M _ (nf + S i)) by lia. cbn [bind].
    replace (if (Z.of_nat i =? 0)%Z then rd [] M (Z.of_nat nf) else rd [] mn (u32 (Z.of_nat nf + Z.of_nat i))) with (Ret (Pb i)).
    2:{ destruct (Z.eqb_spec (Z.of_nat i) 0) as [E|E]; [replace i with 0%nat by lia; rewrite rd_ok by lia; reflexivity|]. rewrite (rd_u [] mn _ (nf + i)), Hm2 by lia. reflexivity. }
    cbn [bind]. rewrite (wr_u mn _ (nf + S i)) by lia. cbn [bind]. replace (Z.of_nat i + 1)%Z with (Z.of_nat (S i)) by lia.
    destruct (IH (S i) (upd (nf + S i) (mdot 7 7 7 (Pb i) (nth (nf + S i) M [])) mn)) as [mn' [E [L H]]]; [lia|lia|rewrite upd_length by lia; exact Lm| | |exists mn'; auto].
    + intros j Hj. rewrite upd_other by lia. apply Hm1. exact Hj.
    + intros j Hj. destruct (Nat.eq_dec j (S i)) as [->|N]; [rewrite upd_same by lia; reflexivity|rewrite upd_other by lia; apply Hm2; lia].
Qed.

(** the matrices in front of the thrust sensitivities and of the state derivatives *)
Definition Tm (i : nat) : list R :=
  if Nat.ltb i nf then if Nat.eqb (S i) nf then eye7 else Pf (nf - 2 - i) else if Nat.eqb i nf then negl eye7 else negl (Pb (i - 1 - nf)).
Definition Fm (i : nat) : list R := if Nat.ltb i nf then Pf (nf - 1 - i) else Pb (i - nf).
Lemma thr_matrix_spec i mn : (i < n)%nat -> length mn = n -> (forall j, (j < nf)%nat -> nth j mn [] = Pf j) -> (forall j, (j < nb)%nat -> nth (nf + j) mn [] = Pb j) ->
  thr_matrix (Z.of_nat nf) (Z.of_nat i) mn = Ret (Tm i).
Proof.
  intros Hi Lm H1 H2. unfold thr_matrix, Tm. destruct (Z.eqb_spec (Z.of_nat i) (u32 (Z.of_nat nf - 1))) as [E|E].
  - destruct nf as [|nf']; [change (u32 (Z.of_nat 0 - 1)) with (2 ^ 32 - 1)%Z in E; lia|]. rewrite u32_id in E by lia.
    rewrite (proj2 (Nat.ltb_lt _ _)), (proj2 (Nat.eqb_eq _ _)) by lia. reflexivity.
  - assert (E' : S i <> nf). { intros Q. apply E. rewrite <- Q, u32_id by lia. lia. }
    destruct (Z.eqb_spec (Z.of_nat i) (Z.of_nat nf)) as [E2|E2].
    { rewrite (proj2 (Nat.ltb_ge _ _)), (proj2 (Nat.eqb_eq _ _)) by lia. reflexivity. }
    destruct (Z.leb_spec 2 (Z.of_nat nf)) as [L2|L2].
    + rewrite (u32_id (Z.of_nat nf - 2)) by lia. rewrite andb_true_r. destruct (Z.leb_spec (Z.of_nat i) (Z.of_nat nf - 2)) as [L3|L3].
      * rewrite (rd_u [] mn _ (nf - 2 - i)), H1 by lia. rewrite (proj2 (Nat.ltb_lt _ _)), (proj2 (Nat.eqb_neq _ _)) by lia. reflexivity.
      * rewrite (proj2 (Z.ltb_lt _ _)) by lia. rewrite (rd_u [] mn _ (nf + (i - 1 - nf))), H2 by lia. cbn [bind]. rewrite (proj2 (Nat.ltb_ge _ _)), (proj2 (Nat.eqb_neq _ _)) by lia. reflexivity.
    + rewrite andb_false_r. rewrite (proj2 (Z.ltb_lt _ _)) by lia. rewrite (rd_u [] mn _ (nf + (i - 1 - nf))), H2 by lia. cbn [bind]. rewrite (proj2 (Nat.ltb_ge _ _)), (proj2 (Nat.eqb_neq _ _)) by lia. reflexivity.
Qed.
Lemma i32_small z : (0 <= z < 2 ^ 31)%Z -> i32 z = z.
Proof. intros H. unfold i32. rewrite (proj2 (Z.ltb_lt _ _)) by lia. reflexivity. Qed.
Lemma tof_matrix_spec i mn : (i < n)%nat -> length mn = n -> (forall j, (j < nf)%nat -> nth j mn [] = Pf j) -> (forall j, (j < nb)%nat -> nth (nf + j) mn [] = Pb j) ->
  tof_matrix (Z.of_nat nf) (Z.of_nat nb) (Z.of_nat i) mn = Ret (Fm i).
Proof.
  intros Hi Lm H1 H2. unfold tof_matrix, Fm. destruct (Nat.ltb_spec i nf) as [L|L].
  - rewrite (u32_id (Z.of_nat nf - 1)) by lia. rewrite (proj2 (Z.leb_le _ _)), (proj2 (Z.ltb_lt _ _)) by lia. cbn [andb]. rewrite (rd_u [] mn _ (nf - 1 - i)), H1 by lia. reflexivity.
  - replace ((Z.of_nat i <=? u32 (Z.of_nat nf - 1)) && (0 <? Z.of_nat nf))%Z%bool with false.
    2:{ symmetry. destruct (Z.ltb_spec 0 (Z.of_nat nf)) as [Q|Q]; [|apply andb_false_r]. rewrite (u32_id (Z.of_nat nf - 1)) by lia. rewrite (proj2 (Z.leb_gt _ _)) by lia. reflexivity. }
    rewrite !i32_small by lia. rewrite (proj2 (Z.ltb_lt _ _)), (proj2 (Z.ltb_lt 0 _)) by lia. cbn [andb]. rewrite rd_ok by lia. replace i with (nf + (i - nf))%nat at 1 by lia. rewrite H2 by lia. reflexivity.
Qed.
Lemma thr_loop_spec mn : length mn = n -> (forall j, (j < nf)%nat -> nth j mn [] = Pf j) -> (forall j, (j < nb)%nat -> nth (nf + j) mn [] = Pb j) ->
  forall k i ret, (i + k = n)%nat -> length ret = n -> (forall j, (j < i)%nat -> nth j ret [] = mdot 7 7 3 (Tm j) (nth j U [])) ->
  exists ret', thr_loop k (Z.of_nat i) (Z.of_nat nf) mn U ret = Ret ret' /\ length ret' = n /\ forall j, (j < n)%nat -> nth j ret' [] = mdot 7 7 3 (Tm j) (nth j U []).
Proof.
  intros Lm H1 H2. induction k as [|k IH]; intros i ret Hk Lr Hr.
  - exists ret. split; [reflexivity|]. split; [exact Lr|]. intros j Hj. apply Hr. lia.
  - cbn [thr_loop]. rewrite rd_ok by lia. cbn [bind]. rewrite thr_matrix_spec by (try assumption; lia). cbn [bind]. rewrite wr_ok by lia. cbn [bind].
    replace (Z.of_nat i + 1)%Z with (Z.of_nat (S i)) by lia. apply IH; [lia|rewrite upd_length by lia; exact Lr|].
    intros j Hj. destruct (Nat.eq_dec j i) as [->|N]; [rewrite upd_same by lia; reflexivity|rewrite upd_other by lia; apply Hr; lia].
Qed.
Fixpoint tof_acc (k : nat) : list R := match k with O => zeros 7 | S k' => add_l (tof_acc k') (mdot 7 7 1 (Fm k') (nth k' F [])) end.
Lemma tof_loop_spec mn : length mn = n -> (forall j, (j < nf)%nat -> nth j mn [] = Pf j) -> (forall j, (j < nb)%nat -> nth (nf + j) mn [] = Pb j) ->
  forall k i, (i + k = n)%nat -> tof_loop k (Z.of_nat i) (Z.of_nat nf) (Z.of_nat nb) mn F (tof_acc i) = Ret (tof_acc n).
Proof.
  intros Lm H1 H2. induction k as [|k IH]; intros i Hk.
  - cbn [tof_loop]. replace n with i by lia. reflexivity.
  - cbn [tof_loop]. rewrite rd_ok by lia. cbn [bind]. rewrite tof_matrix_spec by (try assumption; lia). cbn [bind].
    replace (Z.of_nat i + 1)%Z with (Z.of_nat (S i)) by lia. change (add_l (tof_acc i) (mdot 7 7 1 (Fm i) (nth i F []))) with (tof_acc (S i)). apply IH. lia.
Qed.

(** every read and write is inside its array and no error is thrown *)
Definition grad_A : list R := if Nat.ltb 0 nf then Pf (nf - 1) else eye7.
Definition grad_B : list R := if Nat.ltb 0 nb then negl (Pb (nb - 1)) else negl eye7.
Lemma relevant_spec : (0 < n)%nat -> exists th, length th = n /\ (forall j, (j < n)%nat -> nth j th [] = mdot 7 7 3 (Tm j) (nth j U [])) /\
  get_relevant_gradients (Z.of_nat n) (Z.of_nat nf) (Z.of_nat nb) M U F = Ret (grad_A, grad_B, final_array n th (map (fun x => x / IZR (Z.of_nat n))%R (tof_acc n))).
Proof.
  intros Hp. unfold get_relevant_gradients. rewrite !Nat2Z.id. cbv zeta.
  assert (R1 : length (repeat (zeros 49) n) = n) by apply repeat_length.
  match goal with |- context [bind ?X _] => assert (E1 : exists mn1, X = Ret mn1 /\ length mn1 = n /\ forall j, (j < nf)%nat -> nth j mn1 [] = Pf j) end.
  { destruct (Z.ltb_spec 0 (Z.of_nat nf)) as [L|L].
    - rewrite (rd_u [] M _ (nf - 1)) by lia. cbn [bind]. change 0%Z with (Z.of_nat 0). rewrite wr_ok by lia. cbn [bind].
      apply mn_fwd_spec; [lia|lia|rewrite upd_length by lia; exact R1|]. intros j Hj. replace j with 0%nat by lia. rewrite upd_same by lia. reflexivity.
    - eexists. split; [reflexivity|]. split; [exact R1|]. intros; lia. }
  destruct E1 as [mn1 [E1 [L1 H1]]]. rewrite E1. cbn [bind].
  match goal with |- context [bind ?X _] => assert (E2 : exists mn2, X = Ret mn2 /\ length mn2 = n /\ (forall j, (j < nf)%nat -> nth j mn2 [] = Pf j) /\ forall j, (j < nb)%nat -> nth (nf + j) mn2 [] = Pb j) end.
  { destruct (Z.ltb_spec 0 (Z.of_nat nb)) as [L|L].
    - rewrite rd_ok by lia. cbn [bind]. rewrite wr_ok by lia. cbn [bind]. change 0%Z with (Z.of_nat 0).
      apply mn_bck_spec; [lia|lia|rewrite upd_length by lia; exact L1| |].
      + intros j Hj. rewrite upd_other by lia. apply H1. exact Hj.
      + intros j Hj. replace j with 0%nat by lia. rewrite Nat.add_0_r, upd_same by lia. reflexivity.
    - eexists. split; [reflexivity|]. split; [exact L1|]. split; [exact H1|]. intros; lia. }
  destruct E2 as [mn2 [E2 [L2 [H2 H3]]]]. rewrite E2. cbn [bind].
  match goal with |- context [bind ?X _] => replace X with (Ret grad_A) end.
  2:{ unfold grad_A. destruct (Z.ltb_spec 0 (Z.of_nat nf)) as [L|L]; [rewrite (proj2 (Nat.ltb_lt _ _)) by lia|rewrite (proj2 (Nat.ltb_ge _ _)) by lia; reflexivity]. rewrite (rd_u [] mn2 _ (nf - 1)), H2 by lia. reflexivity. }
  cbn [bind].
  match goal with |- context [bind ?X _] => replace X with (Ret grad_B) end.
  2:{ unfold grad_B. destruct (Z.ltb_spec 0 (Z.of_nat nb)) as [L|L]; [rewrite (proj2 (Nat.ltb_lt _ _)) by lia|rewrite (proj2 (Nat.ltb_ge _ _)) by lia; reflexivity]. rewrite (rd_u [] mn2 _ (nf + (nb - 1))), H3 by lia. reflexivity. }
  cbn [bind].
  destruct (thr_loop_spec mn2 L2 H2 H3 n 0 (repeat (zeros 21) n)) as [th [Et [Lt Ht]]]; [lia|apply repeat_length|intros; lia|].
  change (Z.of_nat 0) with 0%Z in Et. rewrite Et. cbn [bind]. assert (Ef := tof_loop_spec mn2 L2 H2 H3 n 0 ltac:(lia)). cbn [tof_acc] in Ef. change (Z.of_nat 0) with 0%Z in Ef. rewrite Ef. cbn [bind].
  exists th. auto.
Qed.
End Arrays.
