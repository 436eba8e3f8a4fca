(** * Elimination over the reals: every square matrix has a two-sided inverse or a nonzero vector it sends to 0.  Used to show that the
    assumption [inv_ok] on the matrix inversion of stm_reynolds (src/core_astro/stm.cpp) can be met.  Proofs only. *)
From Coq Require Import Reals List Lra Lia.
From Verif Require Import Outcome Vec3 TwoBodyModel TwoBodySpec KepSpec BracketProofs SfSpec SfGrad OdeLib.
Import ListNotations.
Open Scope R_scope.
Definition dl (i j : nat) : R := if Nat.eqb i j then 1 else 0.
Lemma dl_eq i : dl i i = 1. Proof. unfold dl. now rewrite Nat.eqb_refl. Qed.
Lemma dl_ne i j : i <> j -> dl i j = 0. Proof. intros H. unfold dl. apply Nat.eqb_neq in H. now rewrite H. Qed.
Definition mm (n : nat) (X A : nat -> nat -> R) (i j : nat) : R := sum_n n (fun k => X i k * A k j).
Definition inverse2 (n : nat) (A X : nat -> nat -> R) : Prop :=
  forall i j, (i < n)%nat -> (j < n)%nat -> mm n X A i j = dl i j /\ mm n A X i j = dl i j.
Definition kernel_vec (n : nat) (A : nat -> nat -> R) (d : nat -> R) : Prop :=
  (exists k, (k < n)%nat /\ d k <> 0) /\ forall i, (i < n)%nat -> sum_n n (fun j => A i j * d j) = 0.

Lemma find_row n (c : nat -> R) : {m | (m < n)%nat /\ c m <> 0} + {forall m, (m < n)%nat -> c m = 0}.
Proof.
  induction n as [|n IH]; [right; lia|]. destruct IH as [[m [H1 H2]]|H]; [left; exists m; split; [lia|exact H2]|].
  destruct (Req_EM_T (c n) 0) as [E|E]; [right|left; exists n; split; [lia|exact E]].
  intros m Hm. destruct (Nat.eq_dec m n) as [->|K]; [exact E|apply H; lia].
Qed.
Lemma sum_scal_r n k f : sum_n n (fun j => f j * k) = sum_n n f * k.
Proof. rewrite (sum_ext n _ (fun j => k * f j)) by (intros; ring). rewrite sum_scal. ring. Qed.

(** a matrix whose last diagonal entry is not 0 *)
Section Step.
Variable n : nat.
Variable A : nat -> nat -> R.
Let p := A n n.
Hypothesis Hp : p <> 0.
Let Sc (i j : nat) : R := A i j - A i n * A n j / p.
Lemma step_kernel d : kernel_vec n Sc d -> kernel_vec (S n) A (fun k => if Nat.eqb k n then - sum_n n (fun j => A n j * d j) / p else d k).
Proof.
  intros [[k [Hk Dk]] K]. split.
  - exists k. split; [lia|]. assert (E : Nat.eqb k n = false) by (apply Nat.eqb_neq; lia). now rewrite E.
  - intros i Hi. cbn [sum_n]. rewrite Nat.eqb_refl.
    rewrite (sum_ext n _ (fun j => A i j * d j)).
    2: { intros j Hj. assert (E : Nat.eqb j n = false) by (apply Nat.eqb_neq; lia). now rewrite E. }
    destruct (Nat.eq_dec i n) as [->|Ne].
    + fold p. field. exact Hp.
    + specialize (K i ltac:(lia)). unfold Sc in K.
      rewrite (sum_ext n _ (fun j => A i j * d j - (A i n / p) * (A n j * d j))) in K by (intros; field; exact Hp).
      rewrite sum_minus, sum_scal in K.
      replace (sum_n n (fun j => A i j * d j)) with (A i n / p * sum_n n (fun j => A n j * d j)) by lra. field. exact Hp.
Qed.
Variable Y : nat -> nat -> R.
Hypothesis HY : inverse2 n Sc Y.
Let top (i j : nat) : R := if Nat.eqb j n then - sum_n n (fun k => Y i k * A k n) / p else Y i j.
Let X (i j : nat) : R := if Nat.eqb i n then (dl n j - sum_n n (fun k => A n k * top k j)) / p else top i j.
Lemma X_top i j : (i < n)%nat -> X i j = top i j.
Proof. intros H. unfold X. assert (E : Nat.eqb i n = false) by (apply Nat.eqb_neq; lia). now rewrite E. Qed.
Lemma X_bot j : X n j = (dl n j - sum_n n (fun k => A n k * top k j)) / p.
Proof. unfold X. now rewrite Nat.eqb_refl. Qed.
Lemma top_in i j : (j < n)%nat -> top i j = Y i j.
Proof. intros H. unfold top. assert (E : Nat.eqb j n = false) by (apply Nat.eqb_neq; lia). now rewrite E. Qed.
Lemma top_last i : top i n = - sum_n n (fun k => Y i k * A k n) / p.
Proof. unfold top. now rewrite Nat.eqb_refl. Qed.
Lemma top_A i j : (i < n)%nat -> (j < S n)%nat -> sum_n n (fun k => top i k * A k j) + top i n * A n j = dl i j.
Proof.
  intros Hi Hj. rewrite top_last. rewrite (sum_ext n _ (fun k => Y i k * A k j)) by (intros k Hk; now rewrite top_in).
  destruct (Nat.eq_dec j n) as [->|Ne].
  - rewrite dl_ne by lia. fold p. field. exact Hp.
  - destruct (HY i j Hi ltac:(lia)) as [E _]. rewrite <- E. unfold mm, Sc.
    rewrite (sum_ext n (fun k => Y i k * (A k j - A k n * A n j / p)) (fun k => Y i k * A k j - (A n j / p) * (Y i k * A k n))) by (intros; field; exact Hp).
    rewrite sum_minus, sum_scal. field. exact Hp.
Qed.
Lemma Sc_top i j : (i < n)%nat -> (j < S n)%nat -> sum_n n (fun k => Sc i k * top k j) = dl i j - A i n / p * dl n j.
Proof.
  intros Hi Hj. destruct (Nat.eq_dec j n) as [->|Ne].
  - rewrite dl_eq, dl_ne by lia.
    rewrite (sum_ext n _ (fun k => (- / p) * sum_n n (fun m => Sc i k * (Y k m * A m n)))).
    2: { intros k Hk. rewrite top_last, sum_scal. field. exact Hp. }
    rewrite sum_scal, sum_swap.
    rewrite (sum_ext n _ (fun m => dl i m * A m n)).
    2: { intros m Hm. rewrite <- (proj2 (HY i m Hi Hm)). unfold mm. rewrite <- sum_scal_r. apply sum_ext. intros; ring. }
    rewrite (sum_ext n _ (fun m => (if Nat.eqb m i then 1 else 0) * A m n)) by (intros m Hm; unfold dl; now rewrite Nat.eqb_sym).
    rewrite (sum_delta n i (fun m => A m n)) by exact Hi. field. exact Hp.
  - rewrite (dl_ne n j) by lia. rewrite <- (proj2 (HY i j Hi ltac:(lia))). unfold mm.
    rewrite (sum_ext n _ (fun k => Sc i k * Y k j)) by (intros k Hk; rewrite top_in by lia; reflexivity). ring.
Qed.
Lemma step_inverse : inverse2 (S n) A X.
Proof.
  intros i j Hi Hj. unfold mm. cbn [sum_n]. split.
  - destruct (Nat.eq_dec i n) as [->|Ne].
    + rewrite X_bot, dl_eq. rewrite (sum_ext n (fun k => X n k * A k j) (fun k => (- / p) * sum_n n (fun m => A n m * (top m k * A k j)))).
      2: { intros k Hk. rewrite X_bot, dl_ne by lia. rewrite (sum_ext n (fun m => A n m * (top m k * A k j)) (fun m => A n m * top m k * A k j)) by (intros; ring).
           rewrite sum_scal_r. field. exact Hp. }
      rewrite sum_scal, sum_swap.
      rewrite (sum_ext n (fun m => sum_n n (fun k => A n m * (top m k * A k j))) (fun m => A n m * dl m j - A n m * top m n * A n j)).
      2: { intros m Hm. rewrite sum_scal. pose proof (top_A m j Hm Hj). replace (sum_n n (fun k => top m k * A k j)) with (dl m j - top m n * A n j) by lra. ring. }
      rewrite sum_minus, sum_scal_r.
      assert (D : sum_n n (fun m => A n m * dl m j) = A n j - dl n j * p).
      { destruct (Nat.eq_dec j n) as [->|Nj].
        - rewrite dl_eq. rewrite (sum_ext n _ (fun _ => 0)) by (intros m Hm; rewrite dl_ne by lia; ring). rewrite sum_zero. unfold p. ring.
        - rewrite (dl_ne n j) by lia. rewrite (sum_ext n _ (fun m => (if Nat.eqb m j then 1 else 0) * A n m)) by (intros m Hm; unfold dl; ring).
          rewrite (sum_delta n j (fun m => A n m)) by lia. ring. }
      rewrite D. field. exact Hp.
    + rewrite X_top by lia. rewrite (sum_ext n _ (fun k => top i k * A k j)) by (intros k Hk; rewrite X_top by lia; reflexivity).
      apply top_A; lia.
  - rewrite X_bot. rewrite (sum_ext n (fun k => A i k * X k j) (fun k => A i k * top k j)) by (intros k Hk; rewrite X_top by lia; reflexivity).
    destruct (Nat.eq_dec i n) as [->|Ne].
    + fold p. field. exact Hp.
    + pose proof (Sc_top i j ltac:(lia) Hj) as E. unfold Sc in E.
      rewrite (sum_ext n _ (fun k => A i k * top k j - (A i n / p) * (A n k * top k j))) in E by (intros; field; exact Hp).
      rewrite sum_minus, sum_scal in E.
      replace (sum_n n (fun k => A i k * top k j)) with (dl i j - A i n / p * dl n j + A i n / p * sum_n n (fun k => A n k * top k j)) by lra.
      field. exact Hp.
Qed.
End Step.

(** adding row m to row n *)
Definition addrow (n m : nat) (A : nat -> nat -> R) (i j : nat) : R := if Nat.eqb i n then A n j + A m j else A i j.
Lemma add_bot n m A j : addrow n m A n j = A n j + A m j. Proof. unfold addrow. now rewrite Nat.eqb_refl. Qed.
Lemma add_top n m A i j : (i < n)%nat -> addrow n m A i j = A i j.
Proof. intros H. unfold addrow. assert (E : Nat.eqb i n = false) by (apply Nat.eqb_neq; lia). now rewrite E. Qed.
Lemma add_kernel n m A d : (m < n)%nat -> kernel_vec (S n) (addrow n m A) d -> kernel_vec (S n) A d.
Proof.
  intros Hm [Hd K]. split; [exact Hd|]. assert (T : forall i, (i < n)%nat -> sum_n (S n) (fun j => A i j * d j) = 0).
  { intros i Hi. rewrite <- (K i ltac:(lia)). apply sum_ext. intros j _. now rewrite add_top. }
  intros i Hi. destruct (Nat.eq_dec i n) as [->|Ne]; [|apply T; lia].
  pose proof (K n ltac:(lia)) as E. rewrite (sum_ext (S n) _ (fun j => A n j * d j + A m j * d j)) in E by (intros j _; rewrite add_bot; ring).
  rewrite sum_plus, (T m Hm) in E. lra.
Qed.
Lemma add_inverse n m A X : (m < n)%nat -> inverse2 (S n) (addrow n m A) X -> inverse2 (S n) A (fun i j => X i j + dl j m * X i n).
Proof.
  intros Hm H i j Hi Hj. unfold mm. split.
  - rewrite <- (proj1 (H i j Hi Hj)). unfold mm. cbn [sum_n].
    rewrite (sum_ext n (fun k => (X i k + dl k m * X i n) * A k j) (fun k => X i k * A k j + (if Nat.eqb k m then 1 else 0) * (X i n * A k j))) by (intros; unfold dl; ring).
    rewrite sum_plus, (sum_delta n m (fun k => X i n * A k j)) by exact Hm.
    rewrite (sum_ext n (fun k => X i k * addrow n m A k j) (fun k => X i k * A k j)) by (intros k Hk; rewrite add_top by lia; reflexivity).
    rewrite add_bot, dl_ne by lia. ring.
  - rewrite (sum_ext (S n) _ (fun k => A i k * X k j + (A i k * X k n) * dl j m)) by (intros; ring).
    rewrite sum_plus, sum_scal_r.
    assert (T : forall i' j', (i' < n)%nat -> (j' < S n)%nat -> sum_n (S n) (fun k => A i' k * X k j') = dl i' j').
    { intros i' j' Hi' Hj'. rewrite <- (proj2 (H i' j' ltac:(lia) Hj')). apply sum_ext. intros k _. now rewrite add_top. }
    assert (B : forall j', (j' < S n)%nat -> sum_n (S n) (fun k => A n k * X k j') = dl n j' - dl m j').
    { intros j' Hj'. rewrite <- (proj2 (H n j' ltac:(lia) Hj')). unfold mm.
      rewrite (sum_ext (S n) (fun k => addrow n m A n k * X k j') (fun k => A n k * X k j' + A m k * X k j')) by (intros; rewrite add_bot; ring).
      rewrite sum_plus, (T m j' Hm Hj'). ring. }
    destruct (Nat.eq_dec i n) as [->|Ne].
    + rewrite (B j Hj), (B n) by lia. rewrite dl_eq, (dl_ne m n) by lia. unfold dl. rewrite (Nat.eqb_sym m j). ring.
    + rewrite (T i j), (T i n) by lia. rewrite (dl_ne i n) by lia. ring.
Qed.
Lemma eliminate n : forall A, {X | inverse2 n A X} + {d | kernel_vec n A d}.
Proof.
  induction n as [|n IH]; intros A.
  - left. exists (fun _ _ => 0). intros i j Hi. lia.
  - assert (G : forall A, A n n <> 0 -> {X | inverse2 (S n) A X} + {d | kernel_vec (S n) A d}).
    { clear A. intros A Hp. destruct (IH (fun i j => A i j - A i n * A n j / A n n)) as [[Y HY]|[d Hd]].
      - left. eexists. apply (step_inverse n A Hp Y HY).
      - right. eexists. apply (step_kernel n A Hp d Hd). }
    destruct (Req_EM_T (A n n) 0) as [E|E]; [|apply G, E].
    destruct (find_row n (fun i => A i n)) as [[m [Hm Em]]|Z].
    + destruct (G (addrow n m A)) as [[X HX]|[d Hd]].
      * rewrite add_bot, E. lra.
      * left. eexists. apply (add_inverse n m A X Hm HX).
      * right. eexists. apply (add_kernel n m A d Hm Hd).
    + right. exists (fun k => if Nat.eqb k n then 1 else 0). split.
      * exists n. split; [lia|]. rewrite Nat.eqb_refl. lra.
      * intros i Hi. rewrite (sum_ext (S n) _ (fun j => (if Nat.eqb j n then 1 else 0) * A i j)) by (intros; ring).
        rewrite (sum_delta (S n) n (fun j => A i j)) by lia. destruct (Nat.eq_dec i n) as [->|Ne]; [exact E|apply Z; lia].
Qed.

(** the matrix of 36 numbers *)
Definition flat (X : nat -> nat -> R) : list R := flat_map (fun i => map (X i) (seq 0 6)) (seq 0 6).
Definition comp (d : state) (k : nat) : R :=
  match k with O => vx (fst d) | 1 => vy (fst d) | 2 => vz (fst d) | 3 => vx (snd d) | 4 => vy (snd d) | _ => vz (snd d) end%nat.
Definition st (f : nat -> R) : state := (V (f 0%nat) (f 1%nat) (f 2%nat), V (f 3%nat) (f 4%nat) (f 5%nat)).
Lemma flat_entry X i j : (i < 6)%nat -> (j < 6)%nat -> mat_entry (flat X) i j = X i j.
Proof. intros Hi Hj. do 6 (destruct i as [|i]; [do 6 (destruct j as [|j]; [reflexivity|]); lia|]). lia. Qed.
Lemma row_sum m i d : row_apply m i d = sum_n 6 (fun j => mat_entry m i j * comp d j).
Proof. unfold row_apply. cbn [sum_n comp]. ring. Qed.
Lemma comp_apply m d i : (i < 6)%nat -> comp (mat_apply m d) i = row_apply m i d.
Proof. intros Hi. do 6 (destruct i as [|i]; [reflexivity|]). lia. Qed.
Lemma st_comp d : st (comp d) = d. Proof. destruct d as [[a b c] [e f g]]. reflexivity. Qed.
Lemma st_ext f g : (forall k, (k < 6)%nat -> f k = g k) -> st f = st g.
Proof. intros H. unfold st. now rewrite !H by lia. Qed.
Lemma apply_twice m k d : (forall i j, (i < 6)%nat -> (j < 6)%nat -> mm 6 (mat_entry m) (mat_entry k) i j = dl i j) -> mat_apply m (mat_apply k d) = d.
Proof.
  intros H. rewrite <- (st_comp (mat_apply m (mat_apply k d))), <- (st_comp d) at 1. rewrite (st_comp d). rewrite <- (st_comp d) at 2. apply st_ext. intros i Hi.
  rewrite comp_apply by exact Hi. rewrite row_sum.
  rewrite (sum_ext 6 _ (fun l => sum_n 6 (fun j => mat_entry m i l * (mat_entry k l j * comp d j)))).
  2: { intros l Hl. rewrite comp_apply by exact Hl. rewrite row_sum, sum_scal. reflexivity. }
  rewrite sum_swap. rewrite (sum_ext 6 _ (fun j => (if Nat.eqb j i then 1 else 0) * comp d j)).
  2: { intros j Hj. rewrite (sum_ext 6 _ (fun l => mat_entry m i l * mat_entry k l j * comp d j)) by (intros; ring). rewrite sum_scal_r.
       change (sum_n 6 (fun l => mat_entry m i l * mat_entry k l j)) with (mm 6 (mat_entry m) (mat_entry k) i j). rewrite (H i j Hi Hj). unfold dl. now rewrite Nat.eqb_sym. }
  apply sum_delta, Hi.
Qed.
Definition inv_real (A : list R) : option (list R) :=
  match eliminate 6 (mat_entry A) with inl (exist X _) => Some (flat X) | inr _ => None end.
Lemma inv_real_ok : inv_ok inv_real.
Proof.
  intros A _. unfold inv_real. destruct (eliminate 6 (mat_entry A)) as [[X HX]|[d [[k [Hk Dk]] Hd]]].
  - split; [intros _; eexists; reflexivity|]. intros X' E. injection E as <-. split; [reflexivity|]. intros d.
    assert (HF : forall i j, (i < 6)%nat -> (j < 6)%nat -> mat_entry (flat X) i j = X i j) by (intros; now apply flat_entry).
    split; apply apply_twice; intros i j Hi Hj; destruct (HX i j Hi Hj) as [H1 H2].
    + rewrite <- H2. apply sum_ext. intros l Hl. now rewrite HF.
    + rewrite <- H1. apply sum_ext. intros l Hl. now rewrite HF.
  - split; [|discriminate]. intros T. exfalso. apply Dk.
    assert (E : mat_apply A (st d) = (vzero, vzero)).
    { assert (C : forall j, (j < 6)%nat -> comp (st d) j = d j) by (intros j Hj; do 6 (destruct j as [|j]; [reflexivity|]); lia).
      rewrite <- (st_comp (mat_apply A (st d))). change (vzero, vzero) with (st (fun _ => 0)). apply st_ext. intros i Hi.
      rewrite comp_apply, row_sum by exact Hi. rewrite <- (Hd i Hi). apply sum_ext. intros j Hj. now rewrite C. }
    apply T in E. replace (d k) with (comp (st d) k) by (do 6 (destruct k as [|k]; [reflexivity|]); lia).
    rewrite E. do 6 (destruct k as [|k]; [reflexivity|]). lia.
Qed.
Lemma solvers_exist : exists newton inv, newton_ok newton /\ newton_sound newton /\ inv_ok inv.
Proof. exists exact_root, inv_real. exact (conj (proj1 exact_root_ok) (conj (proj2 exact_root_ok) inv_real_ok)). Qed.
