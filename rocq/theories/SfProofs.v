(** * The mismatch of the Sims-Flanagan leg *)
From Coq Require Import Reals Lra Lia ZArith.
From Coquelicot Require Import Coquelicot.
From Coq Require Import List.
From Verif Require Import Outcome RealLib KepSpec Vec3 TwoBodyModel TwoBodySpec TcModel DynModel FlowProofs FlowMain TwoBodyProofs StmProofs StmMain SfFlow SfModel SfSpec.
Import ListNotations.
Open Scope R_scope.

(** ** Segments merged: half a coast, an impulse, a whole coast, an impulse, ..., half a coast *)
Section Run.
Variable ok : state -> Prop.
Variables mu h : R.
Variable kf : R -> vec -> vec.
Variable mf : R -> vec -> R.
Definition gseg (u : vec) (p q : col7) : Prop :=
  exists a, ok (fst p) /\ flow_at mu (fst p) h a /\ ok (kick a (kf (snd p) u)) /\ flow_at mu (kick a (kf (snd p) u)) h (fst q) /\ snd q = mf (snd p) u.
Fixpoint run (us : list vec) (d : R) (x : state) (m : R) (q : col7) : Prop :=
  match us with
  | [] => ok x /\ flow_at mu x h (fst q) /\ snd q = m
  | u :: us' => exists y, ok x /\ flow_at mu x d y /\ run us' (h + h) (kick y (kf m u)) (mf m u) q
  end.
Hypothesis Mu : 0 < mu.
Hypothesis okf : forall x t y, ok x -> flow_at mu x t y -> ok y.
Lemma flow_split x t1 t2 y : flow_at mu x (t1 + t2) y -> exists z, flow_at mu x t1 z /\ flow_at mu z t2 y.
Proof.
  intros [[q [Q [Q0 Qt]]] _]. exists (q t1). split; [apply flow_of_solution; assumption|].
  pose proof (flow_of_solution mu (q t1) t2 (fun u => q (t1 + u)) Mu (two_body_shift mu q t1 Q)) as F. cbv beta in F.
  rewrite Rplus_0_r, Qt in F. apply F. reflexivity.
Qed.
Lemma legs_run us : forall u x m q, legs gseg (u :: us) (x, m) q <-> run (u :: us) h x m q.
Proof.
  induction us as [|u' us IH]; intros u x m q.
  - cbn. split.
    + intros [z [[a [A [B [C [D E]]]]] ->]]. cbn in *. exists a. exact (conj A (conj B (conj C (conj D E)))).
    + intros [y [A [B [C [D E]]]]]. exists q. split; [|reflexivity]. exists y. cbn. exact (conj A (conj B (conj C (conj D E)))).
  - split.
    + intros [[z mz] [[a [A [B [C [D E]]]]] L]]. apply IH in L. cbn in A, B, C, D, E, L.
      destruct L as [y' [A' [B' L]]]. exists a. split; [exact A|]. split; [exact B|]. cbn [run]. exists y'. split; [exact C|].
      split; [apply (flow_comp mu _ h z); assumption|]. rewrite <- E. exact L.
    + intros [y [A [B L]]]. cbn [run] in L. destruct L as [y' [C [D L]]]. destruct (flow_split _ _ _ _ D) as [z [D1 D2]].
      exists (z, mf m u). split.
      * exists y. cbn. exact (conj A (conj B (conj C (conj D1 eq_refl)))).
      * apply IH. cbn. exists y'. split; [apply (okf _ _ _ C D1)|]. split; assumption.
Qed.
End Run.

(** ** The code follows the segments *)
(** [agree true m a]: [m] returns [a]; [agree false m a]: if [m] returns, it returns [a] *)
Definition agree {A} (total : bool) (m : outcome A) (a : A) : Prop := if total then m = Ret a else forall b, m = Ret b -> b = a.
Lemma agree_bind {A B} t (m : outcome A) a (f : A -> outcome B) b : agree t m a -> agree t (f a) b -> agree t (bind m f) b.
Proof.
  destruct t; cbn.
  - intros -> H. exact H.
  - intros M F c. destruct m as [x| |]; cbn; try discriminate. rewrite (M x eq_refl). apply F.
Qed.
Lemma agree_ret {A} t (a : A) : agree t (Ret a) a. Proof. destruct t; cbn; [reflexivity|intros b [= <-]; reflexivity]. Qed.
Lemma vget_at th i : (0 <= i)%Z -> (i < Z.of_nat (length th))%Z -> vget th i = Ret (nth (Z.to_nat i) th 0).
Proof. intros A B. unfold vget. replace (0 <=? i)%Z with true by (symmetry; apply Z.leb_le; exact A). replace (i <? Z.of_nat (length th))%Z with true by (symmetry; apply Z.ltb_lt; exact B). reflexivity. Qed.

Section Code.
Variable newton : (R -> R * R) -> R -> R -> R -> option R.
Variable ok : state -> Prop.
Variables mu c veff dt : R.
Variable total : bool.
Hypothesis Hc : forall x t y, ok x -> flow_at mu x t y -> Rabs t <= Rabs dt -> agree total (coast newton x t mu) y.
Variable th : list R.
Let kf (m : R) (u : vec) : vec := vscal (c / m) u.
Let mf (m : R) (u : vec) : R := m * exp (- norm (vscal (c / m) u) / veff).
Let kb (m : R) (u : vec) : vec := vneg (vscal (c / m) u).
Let mb (m : R) (u : vec) : R := m * exp (norm (vscal (c / m) u) / veff).
Lemma half_dt : Rabs (dt / 2) <= Rabs dt.
Proof. unfold Rdiv. rewrite Rabs_mult, (Rabs_right (/ 2)) by lra. pose proof (Rabs_pos dt). lra. Qed.
Lemma fwd_code nf k : forall (i : nat) d K m q, Rabs d <= Rabs dt -> (i + k = nf)%nat -> (3 * nf <= length th)%nat ->
  run ok mu (dt / 2) kf mf (map (thr_vec th) (seq i k)) d K m q ->
  agree total (x <- coast newton K (if Z.eqb (Z.of_nat i) (Z.of_nat nf) then dt / 2 else d) mu ;; fwd_loop newton k (Z.of_nat i) (Z.of_nat nf) th c veff dt mu x m)%outcome q.
Proof.
  induction k as [|k IH]; intros i d K m q Hd E L Rn.
  - cbn [seq map run] in Rn. destruct Rn as [A [B D]]. replace (Z.of_nat i =? Z.of_nat nf)%Z with true by (symmetry; apply Z.eqb_eq; lia).
    apply (agree_bind _ _ (fst q)); [apply Hc; [exact A|exact B|apply half_dt]|]. cbn [fwd_loop]. replace q with (fst q, m) at 2 by (rewrite <- D; destruct q; reflexivity). apply agree_ret.
  - cbn [seq map run] in Rn. destruct Rn as [y [A [B D]]]. replace (Z.of_nat i =? Z.of_nat nf)%Z with false by (symmetry; apply Z.eqb_neq; lia).
    apply (agree_bind _ _ y); [apply Hc; [exact A|exact B|exact Hd]|]. cbn [fwd_loop].
    rewrite !vget_at by lia. cbn [bind].
    replace (Z.to_nat (3 * Z.of_nat i)) with (3 * i)%nat by lia. replace (Z.to_nat (3 * Z.of_nat i + 1)) with (3 * i + 1)%nat by lia. replace (Z.to_nat (3 * Z.of_nat i + 2)) with (3 * i + 2)%nat by lia.
    replace (Z.of_nat i =? Z.of_nat nf - 1)%Z with (Z.of_nat (S i) =? Z.of_nat nf)%Z.
    2:{ destruct (Z.eqb_spec (Z.of_nat (S i)) (Z.of_nat nf)); symmetry; [apply Z.eqb_eq|apply Z.eqb_neq]; lia. }
    replace (Z.of_nat i + 1)%Z with (Z.of_nat (S i)) by lia.
    replace (dt / 2 + dt / 2) with dt in D by field.
    apply (IH (S i) _ _ _ q (Rle_refl _) ltac:(lia) L D).
Qed.
Lemma bck_code nb k : forall (i : nat) d K m q, Rabs d <= Rabs dt -> (i + k = nb)%nat -> (3 * nb <= length th)%nat ->
  run ok mu (- (dt / 2)) kb mb (map (fun j => V (nth (length th - 1 - 3 * j - 2) th 0) (nth (length th - 1 - 3 * j - 1) th 0) (nth (length th - 1 - 3 * j) th 0)) (seq i k)) d K m q ->
  agree total (x <- coast newton K (if Z.eqb (Z.of_nat i) (Z.of_nat nb) then - dt / 2 else d) mu ;; bck_loop newton k (Z.of_nat i) (Z.of_nat nb) th c veff dt mu x m)%outcome q.
Proof.
  assert (H2 : - dt / 2 = - (dt / 2)) by field.
  induction k as [|k IH]; intros i d K m q Hd E L Rn.
  - cbn [seq map run] in Rn. destruct Rn as [A [B D]]. replace (Z.of_nat i =? Z.of_nat nb)%Z with true by (symmetry; apply Z.eqb_eq; lia).
    apply (agree_bind _ _ (fst q)); [rewrite H2; apply Hc; [exact A|exact B|rewrite Rabs_Ropp; apply half_dt]|]. cbn [bck_loop]. replace q with (fst q, m) at 2 by (rewrite <- D; destruct q; reflexivity). apply agree_ret.
  - cbn [seq map run] in Rn. destruct Rn as [y [A [B D]]]. replace (Z.of_nat i =? Z.of_nat nb)%Z with false by (symmetry; apply Z.eqb_neq; lia).
    apply (agree_bind _ _ y); [apply Hc; [exact A|exact B|exact Hd]|]. cbn [bck_loop].
    rewrite !vget_at by lia. cbn [bind].
    replace (Z.to_nat (Z.of_nat (length th) - 1 - 3 * Z.of_nat i - 2)) with (length th - 1 - 3 * i - 2)%nat by lia.
    replace (Z.to_nat (Z.of_nat (length th) - 1 - 3 * Z.of_nat i - 1)) with (length th - 1 - 3 * i - 1)%nat by lia.
    replace (Z.to_nat (Z.of_nat (length th) - 1 - 3 * Z.of_nat i)) with (length th - 1 - 3 * i)%nat by lia.
    replace (Z.of_nat i =? Z.of_nat nb - 1)%Z with (Z.of_nat (S i) =? Z.of_nat nb)%Z.
    2:{ destruct (Z.eqb_spec (Z.of_nat (S i)) (Z.of_nat nb)); symmetry; [apply Z.eqb_eq|apply Z.eqb_neq]; lia. }
    replace (Z.of_nat i + 1)%Z with (Z.of_nat (S i)) by lia.
    replace (- (dt / 2) + - (dt / 2)) with (- dt) in D by field.
    apply (IH (S i) _ _ _ q ltac:(rewrite Rabs_Ropp; apply Rle_refl) ltac:(lia) L D).
Qed.
End Code.

(** ** The throttles of the two passes *)
Lemma firstn_seq a n k : (k <= n)%nat -> firstn k (seq a n) = seq a k.
Proof. revert a n. induction k as [|k IH]; intros a n L; [reflexivity|]. destruct n; [lia|]. cbn. f_equal. apply IH. lia. Qed.
Lemma skipn_seq a n k : (k <= n)%nat -> skipn k (seq a n) = seq (a + k) (n - k).
Proof. revert a n. induction k as [|k IH]; intros a n L; [rewrite Nat.add_0_r, Nat.sub_0_r; reflexivity|]. destruct n; [lia|]. cbn. rewrite IH by lia. f_equal; lia. Qed.
Lemma throttles_fwd th n k : (k <= n)%nat -> firstn k (throttles n th) = map (thr_vec th) (seq 0 k).
Proof. intros L. unfold throttles. rewrite firstn_map, firstn_seq by exact L. reflexivity. Qed.
Lemma rev_map_seq {A} (f : nat -> A) k : forall a, rev (map f (seq a k)) = map (fun j => f (a + k - 1 - j)%nat) (seq 0 k).
Proof.
  induction k as [|k IH]; intros a; [reflexivity|]. rewrite seq_S, map_app, rev_app_distr. cbn [map rev app seq].
  f_equal; [f_equal; lia|]. rewrite IH, <- seq_shift, map_map. apply map_ext_in. intros j J. apply in_seq in J. f_equal. lia.
Qed.
Lemma throttles_bck th n k : length th = (3 * n)%nat -> (k <= n)%nat ->
  rev (skipn k (throttles n th)) = map (fun j => V (nth (length th - 1 - 3 * j - 2) th 0) (nth (length th - 1 - 3 * j - 1) th 0) (nth (length th - 1 - 3 * j) th 0)) (seq 0 (n - k)).
Proof.
  intros E L. unfold throttles. rewrite skipn_map, skipn_seq by exact L. rewrite rev_map_seq. apply map_ext_in. intros j J. apply in_seq in J.
  unfold thr_vec. rewrite E. f_equal; f_equal; lia.
Qed.
