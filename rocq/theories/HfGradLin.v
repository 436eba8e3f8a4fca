(** * The chain rule over the segments, and the arrays that carry it out *)
From Coq Require Import Reals Lra Lia List ZArith Bool.
From Coquelicot Require Import Coquelicot.
From Verif Require Import Vec3 SfModel SfSpec SfGrad OdeLib HfGradModel HfGradSpec HfGradAlg.
Import ListNotations.
Open Scope R_scope.

Definition ap (w : nat) (m : list R) (d : nat -> R) (i : nat) : R := sum_n w (fun k => nth (w * i + k) m 0 * d k).
Lemma ap_ext w m d e i : (forall k, (k < w)%nat -> d k = e k) -> ap w m d i = ap w m e i.
Proof. intros H. apply sum_ext. intros k Hk. rewrite H by exact Hk. reflexivity. Qed.
Lemma ap_plus w m d e i : ap w m (fun k => d k + e k) i = ap w m d i + ap w m e i.
Proof. unfold ap. rewrite <- sum_plus. apply sum_ext. intros. ring. Qed.
Lemma ap_scal w m c d i : ap w m (fun k => c * d k) i = c * ap w m d i.
Proof. unfold ap. rewrite <- sum_scal. apply sum_ext. intros. ring. Qed.
Lemma ap_zero w m i : ap w m (fun _ => 0) i = 0.
Proof. unfold ap. eapply eq_trans; [|apply (sum_zero w)]. apply sum_ext. intros. ring. Qed.
Lemma ap_sum w m (n : nat) (f : nat -> nat -> R) i : ap w m (fun k => sum_n n (fun j => f j k)) i = sum_n n (fun j => ap w m (f j) i).
Proof. induction n as [|n IH]; cbn [sum_n]; [apply ap_zero|]. rewrite <- IH. apply (ap_plus w m (fun k => sum_n n (fun j => f j k)) (f n)). Qed.
Lemma sumR_eq n f : sumR n f = sum_n n f.
Proof. induction n as [|n IH]; [reflexivity|]. cbn. rewrite IH. reflexivity. Qed.
Lemma flat_nth_w {A} w (f : nat -> list A) d p : forall a i j, (forall x, length (f x) = w) -> (i < p)%nat -> (j < w)%nat ->
  nth (w * i + j) (flat_map f (seq a p)) d = nth j (f (a + i)%nat) d.
Proof.
  induction p as [|p IH]; intros a i j L Hi Hj; [lia|]. cbn [seq flat_map]. destruct i as [|i].
  - rewrite Nat.mul_0_r, Nat.add_0_l, Nat.add_0_r. apply app_nth1. rewrite L. exact Hj.
  - rewrite app_nth2; rewrite L; [|lia]. replace (w * S i + j - w)%nat with (w * i + j)%nat by lia. rewrite IH by (try assumption; lia). f_equal. f_equal. lia.
Qed.
Lemma flat_len_w {A} w (f : nat -> list A) p : forall a, (forall x, length (f x) = w) -> length (flat_map f (seq a p)) = (w * p)%nat.
Proof. induction p as [|p IH]; intros a L; [cbn; lia|]. cbn [seq flat_map]. rewrite app_length, L, IH by exact L. lia. Qed.
Lemma nth_map_seq {A} (f : nat -> A) d n j : (j < n)%nat -> nth j (map f (seq 0 n)) d = f j.
Proof. intros H. rewrite (nth_indep _ d (f 0%nat)) by (rewrite map_length, seq_length; exact H). rewrite map_nth, seq_nth by exact H. reflexivity. Qed.
Lemma mdot_nth p q r a b i j : (i < p)%nat -> (j < r)%nat -> nth (r * i + j) (mdot p q r a b) 0 = sum_n q (fun k => nth (q * i + k) a 0 * nth (r * k + j) b 0).
Proof.
  intros Hi Hj. unfold mdot. rewrite flat_nth_w; [|intros; rewrite map_length, seq_length; reflexivity|exact Hi|exact Hj].
  rewrite nth_map_seq by exact Hj. apply sumR_eq.
Qed.
Lemma mdot_len p q r a b : length (mdot p q r a b) = (r * p)%nat.
Proof. unfold mdot. apply flat_len_w. intros. rewrite map_length, seq_length. reflexivity. Qed.
Lemma ap_mdot p q r a b d i : (i < p)%nat -> ap r (mdot p q r a b) d i = ap q a (ap r b d) i.
Proof.
  intros Hi. unfold ap at 1 2. erewrite sum_ext; [|intros j Hj; rewrite mdot_nth by assumption; rewrite Rmult_comm, <- sum_scal; reflexivity].
  rewrite sum_swap. apply sum_ext. intros k Hk. unfold ap. rewrite <- sum_scal. apply sum_ext. intros. ring.
Qed.
Lemma ap_eye d i : (i < 7)%nat -> ap 7 eye7 d i = d i.
Proof. intros H. do 7 (destruct i as [|i]; [unfold ap; cbn; ring|]). lia. Qed.
Lemma nth_neg m k : nth k (negl m) 0 = - nth k m 0.
Proof. unfold negl. destruct (Nat.lt_ge_cases k (length m)) as [L|L]; [rewrite (nth_indep _ 0 (0 * -1)) by (rewrite map_length; exact L); rewrite (map_nth (fun x => x * -1)); ring|rewrite !nth_overflow by (try rewrite map_length; exact L); ring]. Qed.
Lemma ap_neg w m d i : ap w (negl m) d i = - ap w m d i.
Proof. unfold ap. replace (- sum_n w (fun k => nth (w * i + k) m 0 * d k)) with (-1 * sum_n w (fun k => nth (w * i + k) m 0 * d k)) by ring. rewrite <- sum_scal. apply sum_ext. intros. rewrite nth_neg. ring. Qed.

(** ** m linear steps, one after the other *)
Section Chain.
Variables (Mj Uj Fj : nat -> list R) (duj : nat -> nat -> R) (dh : R).
Definition fv (l : list R) : nat -> R := fun k => nth k l 0.
Definition cstep (j : nat) (dx : nat -> R) (i : nat) : R := ap 7 (Mj j) dx i + ap 3 (Uj j) (duj j) i + dh * ap 7 (Mj j) (fv (Fj j)) i.
Fixpoint chain (m : nat) (dx : nat -> R) : nat -> R := match m with O => dx | S k => cstep k (chain k dx) end.
(** l matrices, the first one number s *)
Fixpoint tl (l s : nat) (v : nat -> R) : nat -> R := match l with O => v | S l' => tl l' (S s) (ap 7 (Mj s) v) end.
Lemma tl_last l : forall s v, tl (S l) s v = ap 7 (Mj (s + l)) (tl l s v).
Proof. induction l as [|l IH]; intros s v; [cbn; rewrite Nat.add_0_r; reflexivity|]. change (tl (S (S l)) s v) with (tl (S l) (S s) (ap 7 (Mj s) v)). rewrite IH. replace (S s + l)%nat with (s + S l)%nat by lia. reflexivity. Qed.
Lemma chain_closed m dx : forall i, chain m dx i =
  tl m 0 dx i + sum_n m (fun j => tl (m - 1 - j) (S j) (ap 3 (Uj j) (duj j)) i) + dh * sum_n m (fun j => tl (m - j) j (fv (Fj j)) i).
Proof.
  induction m as [|m IH]; intros i; [cbn; ring|].
  cbn [chain]. unfold cstep. rewrite (ap_ext 7 (Mj m) (chain m dx) _ i (fun k _ => IH k)).
  rewrite (ap_plus 7 (Mj m) (fun k => tl m 0 dx k + sum_n m (fun j => tl (m - 1 - j) (S j) (ap 3 (Uj j) (duj j)) k)) (fun k => dh * sum_n m (fun j => tl (m - j) j (fv (Fj j)) k))).
  rewrite (ap_plus 7 (Mj m) (tl m 0 dx) (fun k => sum_n m (fun j => tl (m - 1 - j) (S j) (ap 3 (Uj j) (duj j)) k))).
  rewrite (ap_scal 7 (Mj m) dh (fun k => sum_n m (fun j => tl (m - j) j (fv (Fj j)) k))).
  rewrite (ap_sum 7 (Mj m) m (fun j => tl (m - 1 - j) (S j) (ap 3 (Uj j) (duj j)))), (ap_sum 7 (Mj m) m (fun j => tl (m - j) j (fv (Fj j)))).
  cbn [sum_n]. replace (S m - 1 - m)%nat with 0%nat by lia. replace (S m - m)%nat with 1%nat by lia. cbn [tl].
  rewrite (sum_ext m (fun j => ap 7 (Mj m) (tl (m - 1 - j) (S j) (ap 3 (Uj j) (duj j))) i) (fun j => tl (S m - 1 - j) (S j) (ap 3 (Uj j) (duj j)) i)).
  2:{ intros j Hj. replace (S m - 1 - j)%nat with (S (m - 1 - j)) by lia. rewrite tl_last. replace (S j + (m - 1 - j))%nat with m by lia. reflexivity. }
  rewrite (sum_ext m (fun j => ap 7 (Mj m) (tl (m - j) j (fv (Fj j))) i) (fun j => tl (S m - j) j (fv (Fj j)) i)).
  2:{ intros j Hj. replace (S m - j)%nat with (S (m - j)) by lia. rewrite tl_last. replace (j + (m - j))%nat with m by lia. reflexivity. }
  change (tl m 1 (ap 7 (Mj 0) dx) i) with (tl (S m) 0 dx i). rewrite tl_last. rewrite Nat.add_0_l. ring.
Qed.
(** the running products of the code *)
Lemma prods m (P : nat -> list R) : (0 < m)%nat -> P 0%nat = Mj (m - 1) -> (forall k, (S k < m)%nat -> P (S k) = mdot 7 7 7 (P k) (Mj (m - 1 - S k))) ->
  forall k, (k < m)%nat -> forall v i, (i < 7)%nat -> ap 7 (P k) v i = tl (S k) (m - 1 - k) v i.
Proof.
  intros Hm P0 PS. induction k as [|k IH]; intros Hk v i Hi.
  - rewrite P0. cbn [tl]. rewrite Nat.sub_0_r. reflexivity.
  - rewrite PS, ap_mdot by assumption. rewrite IH by (try assumption; lia). change (tl (S (S k)) (m - 1 - S k) v) with (tl (S k) (S (m - 1 - S k)) (ap 7 (Mj (m - 1 - S k)) v)). replace (S (m - 1 - S k)) with (m - 1 - k)%nat by lia. reflexivity.
Qed.
End Chain.

(** ** The arrays of the code *)
Lemma sum_three n f : sum_n (3 * n) f = sum_n n (fun s => f (3 * s)%nat + f (3 * s + 1)%nat + f (3 * s + 2)%nat).
Proof.
  induction n as [|n IH]; [reflexivity|]. replace (3 * S n)%nat with (S (S (S (3 * n)))) by lia. cbn [sum_n]. rewrite IH.
  replace (S (3 * n)) with (3 * n + 1)%nat by lia. replace (S (3 * n + 1)) with (3 * n + 2)%nat by lia. ring.
Qed.
Lemma sum_rev n f : sum_n n (fun j => f (n - 1 - j)%nat) = sum_n n f.
Proof.
  revert f. induction n as [|n IH]; intros f; [reflexivity|]. cbn [sum_n]. replace (S n - 1 - n)%nat with 0%nat by lia.
  rewrite (sum_ext n (fun j => f (S n - 1 - j)%nat) (fun j => f (S (n - 1 - j)))) by (intros; f_equal; lia). rewrite (IH (fun j => f (S j))). clear. induction n as [|n IH]; cbn [sum_n]; [ring|]. rewrite <- IH. ring.
Qed.
Lemma sum_split n k f : (k <= n)%nat -> sum_n n f = sum_n k f + sum_n (n - k) (fun j => f (k + j)%nat).
Proof.
  induction n as [|n IH]; intros H; [replace k with 0%nat by lia; cbn; ring|]. destruct (Nat.eq_dec k (S n)) as [->|N]; [rewrite Nat.sub_diag; cbn [sum_n]; ring|].
  replace (S n - k)%nat with (S (n - k)) by lia. cbn [sum_n]. rewrite IH by lia. replace (k + (n - k))%nat with n by lia. ring.
Qed.

Section Arrays.
Variables (n nf nb : nat).
Hypothesis Hn : (nf + nb = n)%nat.
Hypothesis Hp : (0 < n)%nat.
Variables M U F : list (list R).
Variables (dxs dxf : nat -> R) (du : nat -> nat -> R) (dh : R).
Hypothesis LM : forall j, (j < n)%nat -> length (nth j F []) = 7%nat.

Definition fwd_lin : nat -> R := chain (fun j => nth j M []) (fun j => nth j U []) (fun j => nth j F []) du dh nf dxs.
Definition bck_lin : nat -> R := chain (fun j => nth (n - 1 - j) M []) (fun j => nth (n - 1 - j) U []) (fun j => nth (n - 1 - j) F []) (fun j => du (n - 1 - j)%nat) (- dh) nb dxf.
Lemma ap1 m d i : ap 1 m d i = nth i m 0 * d 0%nat.
Proof. unfold ap. cbn [sum_n]. replace (1 * i + 0)%nat with i by lia. ring. Qed.
Lemma nth_mdot1 m f i : (i < 7)%nat -> nth i (mdot 7 7 1 m f) 0 = ap 7 m (fv f) i.
Proof.
  intros Hi. assert (E := ap_mdot 7 7 1 m f (fun _ => 1) i Hi). rewrite ap1 in E. rewrite Rmult_1_r in E. rewrite E. apply ap_ext. intros k Hk. rewrite ap1. unfold fv. ring.
Qed.
Lemma fwd_arrays i : (i < 7)%nat -> fwd_lin i =
  ap 7 (grad_A nf M) dxs i + sum_n nf (fun j => ap 3 (mdot 7 7 3 (Tm nf M j) (nth j U [])) (du j) i) + dh * sum_n nf (fun j => nth i (mdot 7 7 1 (Fm nf M j) (nth j F [])) 0).
Proof.
  intros Hi. unfold fwd_lin. rewrite chain_closed. destruct (Nat.eq_dec nf 0) as [Z|Z].
  { rewrite Z. cbn [sum_n tl]. unfold grad_A. cbn [Nat.ltb Nat.leb]. rewrite ap_eye by exact Hi. ring. }
  assert (P := prods (fun j => nth j M []) nf (Pf nf M) ltac:(lia) eq_refl ltac:(intros; reflexivity)).
  f_equal; [f_equal|f_equal].
  - unfold grad_A. rewrite (proj2 (Nat.ltb_lt 0 nf)) by lia. rewrite P by (try assumption; lia). replace (S (nf - 1)) with nf by lia. rewrite Nat.sub_diag. reflexivity.
  - apply sum_ext. intros j Hj. rewrite ap_mdot by exact Hi. unfold Tm. rewrite (proj2 (Nat.ltb_lt j nf)) by lia. destruct (Nat.eqb_spec (S j) nf) as [E|E].
    + rewrite ap_eye by exact Hi. replace (nf - 1 - j)%nat with 0%nat by lia. reflexivity.
    + rewrite P by (try assumption; lia). replace (S (nf - 2 - j)) with (nf - 1 - j)%nat by lia. replace (nf - 1 - (nf - 2 - j))%nat with (S j) by lia. reflexivity.
  - apply sum_ext. intros j Hj. rewrite nth_mdot1 by exact Hi. unfold Fm. rewrite (proj2 (Nat.ltb_lt j nf)) by lia. rewrite P by (try assumption; lia).
    replace (S (nf - 1 - j)) with (nf - j)%nat by lia. replace (nf - 1 - (nf - 1 - j))%nat with j by lia. reflexivity.
Qed.
Lemma bck_arrays i : (i < 7)%nat -> - bck_lin i =
  ap 7 (grad_B nf nb M) dxf i + sum_n nb (fun j => ap 3 (mdot 7 7 3 (Tm nf M (nf + j)) (nth (nf + j) U [])) (du (nf + j)%nat) i) + dh * sum_n nb (fun j => nth i (mdot 7 7 1 (Fm nf M (nf + j)) (nth (nf + j) F [])) 0).
Proof.
  intros Hi. unfold bck_lin. rewrite chain_closed. destruct (Nat.eq_dec nb 0) as [Z|Z].
  { rewrite Z. cbn [sum_n tl]. unfold grad_B. cbn [Nat.ltb Nat.leb]. rewrite ap_neg, ap_eye by exact Hi. ring. }
  assert (P := prods (fun j => nth (n - 1 - j) M []) nb (Pb nf M) ltac:(lia)).
  specialize (P ltac:(cbn [Pb]; f_equal; lia)). specialize (P ltac:(intros k Hk; cbn [Pb]; f_equal; f_equal; lia)).
  rewrite <- (sum_rev nb (fun j => ap 3 (mdot 7 7 3 (Tm nf M (nf + j)) (nth (nf + j) U [])) (du (nf + j)%nat) i)).
  rewrite <- (sum_rev nb (fun j => nth i (mdot 7 7 1 (Fm nf M (nf + j)) (nth (nf + j) F [])) 0)).
  replace (ap 7 (grad_B nf nb M) dxf i) with (- tl (fun j => nth (n - 1 - j) M []) nb 0 dxf i).
  2:{ unfold grad_B. rewrite (proj2 (Nat.ltb_lt 0 nb)) by lia. rewrite ap_neg. rewrite P by (try assumption; lia). replace (S (nb - 1)) with nb by lia. rewrite Nat.sub_diag. reflexivity. }
  rewrite (sum_ext nb (fun j => ap 3 (mdot 7 7 3 (Tm nf M (nf + (nb - 1 - j))) _) _ i) (fun j => - tl (fun j => nth (n - 1 - j) M []) (nb - 1 - j) (S j) (ap 3 (nth (n - 1 - j) U []) (du (n - 1 - j)%nat)) i)).
  2:{ intros j Hj. rewrite ap_mdot by exact Hi. replace (nf + (nb - 1 - j))%nat with (n - 1 - j)%nat by lia. unfold Tm. rewrite (proj2 (Nat.ltb_ge (n - 1 - j) nf)) by lia. destruct (Nat.eqb_spec (n - 1 - j) nf) as [E|E].
    + rewrite ap_neg, ap_eye by exact Hi. replace (nb - 1 - j)%nat with 0%nat by lia. reflexivity.
    + rewrite ap_neg. rewrite P by (try assumption; lia). replace (S (n - 1 - j - 1 - nf)) with (nb - 1 - j)%nat by lia. replace (nb - 1 - (n - 1 - j - 1 - nf))%nat with (S j) by lia. reflexivity. }
  rewrite (sum_ext nb (fun j => nth i (mdot 7 7 1 (Fm nf M (nf + (nb - 1 - j))) _) 0) (fun j => tl (fun j => nth (n - 1 - j) M []) (nb - j) j (fv (nth (n - 1 - j) F [])) i)).
  2:{ intros j Hj. rewrite nth_mdot1 by exact Hi. replace (nf + (nb - 1 - j))%nat with (n - 1 - j)%nat by lia. unfold Fm. rewrite (proj2 (Nat.ltb_ge (n - 1 - j) nf)) by lia. rewrite P by (try assumption; lia).
    replace (S (n - 1 - j - nf)) with (nb - j)%nat by lia. replace (nb - 1 - (n - 1 - j - nf))%nat with j by lia. reflexivity. }
  replace (sum_n nb (fun j => - tl (fun j => nth (n - 1 - j) M []) (nb - 1 - j) (S j) (ap 3 (nth (n - 1 - j) U []) (du (n - 1 - j)%nat)) i)) with (-1 * sum_n nb (fun j => tl (fun j => nth (n - 1 - j) M []) (nb - 1 - j) (S j) (ap 3 (nth (n - 1 - j) U []) (du (n - 1 - j)%nat)) i)); [ring|].
  rewrite <- sum_scal. apply sum_ext. intros. ring.
Qed.

Lemma acc_nth k i : (i < 7)%nat -> nth i (tof_acc nf M F k) 0 = sum_n k (fun j => nth i (mdot 7 7 1 (Fm nf M j) (nth j F [])) 0).
Proof.
  intros Hi. induction k as [|k IH]; cbn [tof_acc sum_n]; [do 7 (destruct i as [|i]; [reflexivity|]); lia|].
  unfold add_l. rewrite nth_map_seq by exact Hi. rewrite IH. reflexivity.
Qed.
Lemma acc_len k : length (tof_acc nf M F k) = 7%nat.
Proof. destruct k; reflexivity. Qed.

Lemma total_arrays th dtof i : (i < 7)%nat -> (forall j, (j < n)%nat -> nth j th [] = mdot 7 7 3 (Tm nf M j) (nth j U [])) -> dh = dtof / INR n ->
  fwd_lin i - bck_lin i = ap 7 (grad_A nf M) dxs i + (ap 7 (grad_B nf nb M) dxf i +
    ap (3 * n + 1) (final_array n th (map (fun x => x / IZR (Z.of_nat n)) (tof_acc nf M F n))) (fun c => if Nat.ltb c (3 * n) then du (c / 3)%nat (c mod 3)%nat else dtof) i).
Proof.
  intros Hi Hth Hdh. unfold Rminus. rewrite fwd_arrays, bck_arrays by exact Hi.
  set (G := final_array n th (map (fun x => x / IZR (Z.of_nat n)) (tof_acc nf M F n))).
  assert (Lr : forall r, length (map (fun c => nth (3 * r + c mod 3) (nth (c / 3) th []) 0) (seq 0 (3 * n)) ++ [nth r (map (fun x => x / IZR (Z.of_nat n)) (tof_acc nf M F n)) 0]) = (3 * n + 1)%nat).
  { intros r. rewrite app_length, map_length, seq_length. reflexivity. }
  assert (G1 : forall c, (c < 3 * n)%nat -> nth ((3 * n + 1) * i + c) G 0 = nth (3 * i + c mod 3) (nth (c / 3) th []) 0).
  { intros c Hc. unfold G, final_array. rewrite flat_nth_w; [|exact Lr|exact Hi|lia]. rewrite app_nth1 by (rewrite map_length, seq_length; exact Hc). cbn [plus]. apply (nth_map_seq (fun c => nth (3 * i + c mod 3) (nth (c / 3) th []) 0)). exact Hc. }
  assert (G2 : nth ((3 * n + 1) * i + 3 * n) G 0 = sum_n n (fun j => nth i (mdot 7 7 1 (Fm nf M j) (nth j F [])) 0) / INR n).
  { unfold G, final_array. rewrite flat_nth_w; [|exact Lr|exact Hi|lia]. rewrite app_nth2 by (rewrite map_length, seq_length; lia). rewrite map_length, seq_length, Nat.sub_diag. cbn [nth plus].
    rewrite (nth_indep _ 0 (0 / IZR (Z.of_nat n))) by (rewrite map_length, acc_len; exact Hi). rewrite (map_nth (fun x => x / IZR (Z.of_nat n))), acc_nth by exact Hi. rewrite <- INR_IZR_INZ. reflexivity. }
  match goal with |- context [ap (3 * n + 1) G ?d i] => assert (EA : ap (3 * n + 1) G d i = sum_n n (fun j => ap 3 (mdot 7 7 3 (Tm nf M j) (nth j U [])) (du j) i) + sum_n n (fun j => nth i (mdot 7 7 1 (Fm nf M j) (nth j F [])) 0) / INR n * dtof) end.
  { unfold ap at 1. replace (sum_n (3 * n + 1)) with (sum_n (S (3 * n))) by (f_equal; lia). cbn [sum_n]. rewrite Nat.ltb_irrefl, G2. f_equal.
    rewrite (sum_ext (3 * n) _ (fun c => nth (3 * i + c mod 3) (nth (c / 3) th []) 0 * du (c / 3)%nat (c mod 3)%nat)).
    2:{ intros c Hc. rewrite G1 by exact Hc. rewrite (proj2 (Nat.ltb_lt _ _)) by exact Hc. reflexivity. }
    rewrite sum_three. apply sum_ext. intros s Hs. rewrite <- Hth by exact Hs. unfold ap. cbn [sum_n].
    replace (3 * s)%nat with (s * 3)%nat by lia. rewrite !(Nat.add_comm (s * 3)), !Nat.div_add, !Nat.mod_add by lia. rewrite Nat.div_mul, Nat.mod_mul by lia. cbn [Nat.div Nat.divmod fst snd Nat.sub plus]. change ((1 mod 3)%nat) with 1%nat. change ((2 mod 3)%nat) with 2%nat. rewrite !Nat.add_0_l. ring. }
  rewrite EA.
  rewrite (sum_split n nf (fun j => ap 3 (mdot 7 7 3 (Tm nf M j) (nth j U [])) (du j) i)) by lia. rewrite (sum_split n nf (fun j => nth i (mdot 7 7 1 (Fm nf M j) (nth j F [])) 0)) by lia. replace (n - nf)%nat with nb by lia.
  rewrite Hdh. field. apply not_0_INR. lia.
Qed.
End Arrays.
