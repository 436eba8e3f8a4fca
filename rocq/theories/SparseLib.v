(** * Sparse Jacobians given block by block: row index, columns, values *)
From Coq Require Import Reals Lra Lia ZArith.
From Coquelicot Require Import Coquelicot.
From Coq Require Import List.
From Verif Require Import RealLib MgaSpec SfSpec SfGrad DirectModel DirectSpec.
Import ListNotations.
Open Scope R_scope.

Definition block : Type := (nat * list nat * list R)%type.
Definition bkey (b : block) : nat := fst (fst b).
Definition bcol (b : block) : list nat := snd (fst b).
Definition bnum (b : block) : list R := snd b.
Definition bpat (l : list block) : list (nat * nat) := flat_map (fun b => map (fun j => (bkey b, j)) (bcol b)) l.
Definition bval (l : list block) : list R := flat_map bnum l.
Definition bfit (b : block) : Prop := length (bcol b) = length (bnum b).
Fixpoint dots (v u : list R) : R := match v, u with a :: v', b :: u' => a * b + dots v' u' | _, _ => 0 end.
Definition pick (d : list R) (c : list nat) : list R := map (fun j => nth j d 0) c.

Lemma total_app a b : total (a ++ b) = total a + total b.
Proof. induction a as [|x a IH]; cbn; [ring|]. rewrite IH. ring. Qed.
Lemma combine_app2 {A B} (a b : list A) (c d : list B) : length a = length c -> combine (a ++ b) (c ++ d) = combine a c ++ combine b d.
Proof. revert c. induction a as [|x a IH]; intros [|y c] L; cbn in *; try discriminate; [reflexivity|]. injection L as L. rewrite (IH _ L). reflexivity. Qed.
Lemma entry_one k c v d i : length c = length v ->
  total (map (fun p => if Nat.eqb (fst (fst p)) i then snd p * nth (snd (fst p)) d 0 else 0) (combine (map (fun j => (k, j)) c) v)) = if Nat.eqb k i then dots v (pick d c) else 0.
Proof.
  revert v. induction c as [|j c IH]; intros [|x v] L; cbn in *; try discriminate; [destruct (Nat.eqb k i); reflexivity|].
  injection L as L. rewrite (IH _ L). destruct (Nat.eqb k i); [reflexivity|ring].
Qed.
Lemma bpat_cons b l : bpat (b :: l) = map (fun j => (bkey b, j)) (bcol b) ++ bpat l. Proof. reflexivity. Qed.
Lemma bval_cons b l : bval (b :: l) = bnum b ++ bval l. Proof. reflexivity. Qed.
Lemma bpat_app a b : bpat (a ++ b) = bpat a ++ bpat b. Proof. apply flat_map_app. Qed.
Lemma bval_app a b : bval (a ++ b) = bval a ++ bval b. Proof. apply flat_map_app. Qed.
Lemma entry_blocks l d i : List.Forall bfit l ->
  entry_sum (bpat l) (bval l) d i = total (map (fun b => if Nat.eqb (bkey b) i then dots (bnum b) (pick d (bcol b)) else 0) l).
Proof.
  induction l as [|b l IH]; intros F; [reflexivity|]. inversion F as [|? ? F1 F2]; subst. rewrite bpat_cons, bval_cons. unfold entry_sum in *.
  rewrite combine_app2 by (rewrite map_length; exact F1). rewrite map_app, total_app, (IH F2), (entry_one _ _ _ _ _ F1). reflexivity.
Qed.
Lemma total_key (f : nat -> R) i m : forall a, (a <= i < a + m)%nat -> total (map (fun k => if Nat.eqb k i then f k else 0) (seq a m)) = f i.
Proof.
  assert (Z : forall m a, (i < a)%nat -> total (map (fun k => if Nat.eqb k i then f k else 0) (seq a m)) = 0).
  { clear. induction m as [|m IH]; intros a L; cbn; [reflexivity|]. destruct (Nat.eqb_spec a i); [lia|]. rewrite IH by lia. ring. }
  induction m as [|m IH]; intros a L; [lia|]. cbn. destruct (Nat.eqb_spec a i) as [->|N].
  - rewrite Z by lia. ring.
  - rewrite IH by lia. ring.
Qed.
(** blocks numbered 0, 1, 2, ... *)
Lemma entry_seq mk m d i : (forall k, (k < m)%nat -> bkey (mk k) = k /\ bfit (mk k)) -> (i < m)%nat ->
  entry_sum (bpat (map mk (seq 0 m))) (bval (map mk (seq 0 m))) d i = dots (bnum (mk i)) (pick d (bcol (mk i))).
Proof.
  intros K L. rewrite entry_blocks.
  - rewrite map_map. rewrite (map_ext_in _ (fun k => if Nat.eqb k i then dots (bnum (mk k)) (pick d (bcol (mk k))) else 0)).
    + apply (total_key (fun k => dots (bnum (mk k)) (pick d (bcol (mk k))))). lia.
    + intros k I. apply in_seq in I. destruct (K k ltac:(lia)) as [-> _]. reflexivity.
  - apply Forall_forall. intros b I. apply in_map_iff in I. destruct I as [k [<- I]]. apply in_seq in I. apply K. lia.
Qed.
Lemma len_blocks l : List.Forall bfit l -> length (bval l) = length (bpat l).
Proof. induction 1 as [|b l F _ IH]; [reflexivity|]. rewrite bpat_cons, bval_cons, !app_length, map_length, IH. unfold bfit in F. lia. Qed.
Lemma in_bpat l i j : In (i, j) (bpat l) <-> exists b, In b l /\ bkey b = i /\ In j (bcol b).
Proof.
  unfold bpat. rewrite in_flat_map. split.
  - intros [b [I J]]. apply in_map_iff in J. destruct J as [j' [E J]]. injection E as E1 E2. subst. exists b. auto.
  - intros [b [I [E J]]]. exists b. split; [exact I|]. apply in_map_iff. exists j. subst. auto.
Qed.
Lemma nodup_blocks l : NoDup (map bkey l) -> List.Forall (fun b => NoDup (bcol b)) l -> NoDup (bpat l).
Proof.
  induction l as [|b l IH]; intros K F; [constructor|]. inversion K as [|? ? K1 K2]; subst. inversion F as [|? ? F1 F2]; subst.
  rewrite bpat_cons. specialize (IH K2 F2). revert F1. generalize (bcol b). intros c. induction c as [|j c IC]; intros N; cbn; [exact IH|].
  inversion N as [|? ? N1 N2]; subst. constructor; [|apply IC; exact N2]. intros I. apply in_app_or in I. destruct I as [I|I].
  - apply in_map_iff in I. destruct I as [j' [E I]]. injection E as E. subst. contradiction.
  - apply in_bpat in I. destruct I as [b' [I [E _]]]. apply K1. rewrite <- E. apply in_map, I.
Qed.
Lemma seq_blocks mk m n : (forall k, (k < m)%nat -> bkey (mk k) = k /\ bfit (mk k) /\ NoDup (bcol (mk k)) /\ forall j, In j (bcol (mk k)) -> (j < n)%nat) ->
  let l := map mk (seq 0 m) in
  length (bval l) = length (bpat l) /\ NoDup (bpat l) /\ (forall i j, In (i, j) (bpat l) -> (i < m)%nat /\ (j < n)%nat).
Proof.
  intros K l. assert (A : forall b, In b l -> exists k, (k < m)%nat /\ b = mk k).
  { intros b I. apply in_map_iff in I. destruct I as [k [<- I]]. apply in_seq in I. exists k. split; [lia|reflexivity]. }
  split; [|split].
  - apply len_blocks, Forall_forall. intros b I. destruct (A b I) as [k [L ->]]. apply K, L.
  - apply nodup_blocks.
    + unfold l. rewrite map_map. rewrite (map_ext_in _ (fun k => k)); [rewrite map_id; apply seq_NoDup|]. intros k I. apply in_seq in I. apply K. lia.
    + apply Forall_forall. intros b I. destruct (A b I) as [k [L ->]]. apply K, L.
  - intros i j I. apply in_bpat in I. destruct I as [b [I [E J]]]. destruct (A b I) as [k [L ->]]. destruct (K k L) as [K1 [_ [_ K2]]]. split; [|apply K2, J]. rewrite <- E, K1. exact L.
Qed.

(** ** Sums of products *)
Lemma dots_app a b c d : length a = length c -> dots (a ++ b) (c ++ d) = dots a c + dots b d.
Proof. revert c. induction a as [|x a IH]; intros [|y c] L; cbn in *; try discriminate; [ring|]. injection L as L. rewrite (IH _ L). ring. Qed.
Lemma dots_sum n : forall v u, length v = n -> dots v u = sum_n n (fun j => nth j v 0 * nth j u 0).
Proof.
  induction n as [|n IH]; intros v u L.
  - destruct v; [reflexivity|discriminate].
  - destruct v as [|a v]; [discriminate|]. destruct u as [|b u].
    + cbn [dots]. symmetry. rewrite (sum_ext _ _ (fun _ => 0)), sum_zero; [reflexivity|]. intros j _. destruct j; cbn [nth]; ring.
    + injection L as L. cbn [dots]. rewrite (IH v u L).
      assert (S1 : forall m (f : nat -> R), sum_n (S m) f = f 0%nat + sum_n m (fun j => f (S j))).
      { clear. induction m as [|m IH]; intros f; [cbn; ring|]. change (sum_n (S (S m)) f) with (sum_n (S m) f + f (S m)). rewrite IH. cbn [sum_n]. ring. }
      rewrite S1. cbn [nth]. reflexivity.
Qed.
Lemma dots_map_div s : forall v u, dots (map (fun a => a / s) v) u = dots v u / s.
Proof. induction v as [|a v IH]; intros [|b u]; cbn; try (unfold Rdiv; ring). rewrite IH. unfold Rdiv. ring. Qed.
Lemma on_last_app f l a : on_last f (l ++ [a]) = l ++ [f a].
Proof. induction l as [|x l IH]; [reflexivity|]. cbn. rewrite IH. destruct (l ++ [a]) eqn:E; [destruct l; discriminate|]. reflexivity. Qed.
Lemma snoc_of n (l : list R) : length l = (n + 1)%nat -> exists r a, l = r ++ [a] /\ length r = n.
Proof.
  intros L. destruct (exists_last (l := l)) as [r [a E]]; [intros ->; cbn in L; lia|]. exists r, a. split; [exact E|]. rewrite E, app_length in L. cbn in L. lia.
Qed.
Lemma on_last_dots f n (l : list R) d dt : length l = (n + 1)%nat -> length d = n ->
  exists r a, l = r ++ [a] /\ length r = n /\ dots (on_last f l) (d ++ [dt]) = dots r d + f a * dt /\ dots l (d ++ [dt]) = dots r d + a * dt.
Proof.
  intros L D. destruct (snoc_of n l L) as [r [a [-> Lr]]]. exists r, a. rewrite on_last_app, !dots_app by congruence. cbn. repeat split; try assumption; ring.
Qed.
Lemma on_last_len f (l : list R) : length (on_last f l) = length l.
Proof. induction l as [|a l IH]; [reflexivity|]. cbn. destruct l; [reflexivity|]. cbn in *. rewrite IH. reflexivity. Qed.
Lemma pick_seq d : forall n a, (a + n <= length d)%nat -> pick d (seq a n) = firstn n (skipn a d).
Proof.
  induction n as [|n IH]; intros a L; [reflexivity|]. cbn [seq pick map]. change (map (fun j => nth j d 0) (seq (S a) n)) with (pick d (seq (S a) n)). rewrite IH by lia.
  clear IH. revert a L. induction d as [|x d ID]; intros a L; cbn in L; [lia|]. destruct a as [|a]; [reflexivity|]. cbn [skipn nth]. apply ID. lia.
Qed.
Lemma row_mrow w m d i : (w * i + w <= length m)%nat -> row w m d i = dots (mrow w m i) d.
Proof.
  intros L. unfold row, mrow. rewrite (dots_sum w) by (rewrite firstn_length, skipn_length; lia). apply sum_ext. intros j J. f_equal.
  assert (N : forall k (l : list R) j, (j < k)%nat -> nth j (firstn k l) 0 = nth j l 0).
  { clear. induction k as [|k IH]; intros l j J; [lia|]. destruct l as [|x l]; [reflexivity|]. destruct j; [reflexivity|]. cbn. apply IH. lia. }
  rewrite N by exact J. assert (K : forall k (l : list R) j, nth j (skipn k l) 0 = nth (k + j) l 0).
  { clear. induction k as [|k IH]; intros l j; [reflexivity|]. destruct l as [|x l]; [destruct j; reflexivity|]. cbn. apply IH. }
  rewrite K. reflexivity.
Qed.
Lemma mrow_len w m i : (w * i + w <= length m)%nat -> length (mrow w m i) = w.
Proof. intros L. unfold mrow. rewrite firstn_length, skipn_length. lia. Qed.
