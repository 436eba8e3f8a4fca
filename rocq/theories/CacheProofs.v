(** * Invariants of the caches under all interleavings *)
From Coq Require Import List Bool Arith Lia.
From Verif Require Import CacheModel CacheSpec.
Import ListNotations.

Lemma upd_same {A} (f : nat -> A) i x : upd f i x i = x.
Proof. unfold upd. rewrite Nat.eqb_refl. reflexivity. Qed.
Lemma upd_other {A} (f : nat -> A) i j x : j <> i -> upd f i x j = f j.
Proof. intros H. unfold upd. apply Nat.eqb_neq in H. rewrite H. reflexivity. Qed.

Ltac upd_cases :=
  repeat match goal with
  | |- context [upd _ ?i _ ?j] => destruct (Nat.eq_dec j i); [subst; rewrite upd_same|rewrite upd_other by assumption]
  | H : context [upd _ ?i _ ?j] |- _ => destruct (Nat.eq_dec j i); [subst; rewrite upd_same in H|rewrite upd_other in H by assumption]
  end.

Section Proofs.
Variable K V : Type.
Variable eqk : K -> K -> bool.
Variable build : nat -> K -> option V.
Variable dim_lock : nat -> nat.
Variable allowed : op K -> Prop.
Notation state := (st K V).
Notation reach := (@reach K V eqk build dim_lock allowed).
Notation step := (@step K V eqk build dim_lock allowed).
Notation find := (@find K V eqk).

(** the mutex a thread holds *)
Definition holds (p : pc K V) : option nat :=
  match p with
  | Idle | Wait _ => None
  | Look o => Some (lock_of dim_lock o)
  | Make c _ | Ins c _ _ => Some c
  | Leave m _ => Some m
  end.

Definition pc_ok (p : pc K V) : Prop := match p with Wait o | Look o => allowed o | _ => True end.

Definition mutex_inv (s : state) : Prop :=
  (forall i m, holds (pcs s i) = Some m <-> mtx s m = Some i) /\ (forall i, pc_ok (pcs s i)).

Lemma holds_step (s : state) i p : mutex_inv s -> holds p = holds (pcs s i) -> pc_ok p ->
  (forall j m', holds (upd (pcs s) i p j) = Some m' <-> mtx s m' = Some j) /\ (forall j, pc_ok (upd (pcs s) i p j)).
Proof.
  intros [I O] H P. split.
  - intros j m'. upd_cases; [rewrite H; apply I|apply I].
  - intros j. upd_cases; [exact P|apply O].
Qed.

Lemma mutex_reach s : reach s -> mutex_inv s.
Proof.
  induction 1 as [|s s' R IH St].
  - split; [|intros; exact Logic.I]. intros i m. cbn. split; discriminate.
  - pose proof IH as [I O]. destruct St as [s i o H H0|s i o H H0|s i c k n H H0|s i c k H H0|s i c H|s i c k v H H0|s i c k H H0|s i c k v H|s i m r H];
    unfold mutex_inv; cbn [pcs mtx];
    try (apply (holds_step s i _ IH); [rewrite H; reflexivity|first [exact H0|exact Logic.I]]).
    + split.
      * intros j m'.
        assert (N : forall j', holds (pcs s j') <> Some (lock_of dim_lock o)) by (intros j' E; apply I in E; congruence).
        assert (W : forall m0, mtx s m0 <> Some i) by (intros m0 E; apply I in E; rewrite H in E; discriminate).
        upd_cases; cbn [holds].
        -- split; reflexivity.
        -- split; intros E; [congruence|exfalso; exact (W _ E)].
        -- split; intros E; [exfalso; exact (N _ E)|congruence].
        -- apply I.
      * intros j. upd_cases; [|apply O]. cbn. specialize (O i). rewrite H in O. exact O.
    + split.
      * intros j m'.
        assert (M : mtx s m = Some i) by (apply I; rewrite H; reflexivity).
        assert (U : forall m0, mtx s m0 = Some i -> m0 = m) by (intros m0 E; apply I in E; rewrite H in E; cbn in E; congruence).
        upd_cases; cbn [holds].
        -- split; discriminate.
        -- split; intros E; [discriminate|]. exfalso. apply n. apply U. exact E.
        -- split; intros E; [|discriminate]. apply I in E. congruence.
        -- apply I.
      * intros j. upd_cases; [exact Logic.I|apply O].
Qed.

(** at most one thread is between lock and unlock of a mutex *)
Lemma exclusive s i j m : mutex_inv s -> holds (pcs s i) = Some m -> holds (pcs s j) = Some m -> i = j.
Proof. intros [I _] H1 H2. apply I in H1. apply I in H2. congruence. Qed.

Hypothesis Hall : forall c, allowed (Dim c) -> dim_lock c = c.

Lemma access_holds s i c w : mutex_inv s -> access (pcs s i) = Some (c, w) -> holds (pcs s i) = Some c.
Proof.
  intros [_ O] H. specialize (O i). destruct (pcs s i) as [| |[c' k|c']| | |]; cbn in *; try discriminate; inversion H; subst; try reflexivity.
  f_equal. apply Hall. exact O.
Qed.

Theorem no_race s : reach s -> ~ race s.
Proof.
  intros R (i & j & c & w & N & A1 & A2). pose proof (mutex_reach s R) as I.
  apply N. apply (exclusive s i j c I); eapply access_holds; eassumption.
Qed.

(** ** contents *)
Lemma find_some k l n : find k l = Some n -> exists k' v, nth_error l n = Some (k', v) /\ eqk k' k = true.
Proof.
  revert n. induction l as [|[k' v] l IH]; intros n H; [discriminate|]. cbn in H. destruct (eqk k' k) eqn:E.
  - inversion H. exists k', v. split; [reflexivity|exact E].
  - destruct (find k l) as [m|]; [|discriminate]. inversion H; subst. destruct (IH m eq_refl) as (a & b & H1 & H2). exists a, b. split; assumption.
Qed.
Lemma find_none k l i k' v : find k l = None -> nth_error l i = Some (k', v) -> eqk k' k = false.
Proof.
  revert i. induction l as [|[k1 v1] l IH]; intros i H N; [destruct i; discriminate|]. cbn in H.
  destruct (eqk k1 k) eqn:E; [discriminate|]. destruct (find k l) eqn:F; [discriminate|].
  destruct i; [inversion N; subst; exact E|]. exact (IH i eq_refl N).
Qed.

(** node n of cache c was built for key k or for a key equal to it *)
Definition node_for (s : state) c k n := exists k' v, nth_error (cch s c) n = Some (k', v) /\ build c k' = Some v /\ (k' = k \/ eqk k' k = true).

Record inv (s : state) : Prop := {
  n_nodes : forall c i k v, nth_error (cch s c) i = Some (k, v) -> build c k = Some v;
  n_dist : forall c, all_distinct eqk (map fst (cch s c));
  n_make : forall i c k, pcs s i = Make c k -> find k (cch s c) = None;
  n_ins : forall i c k v, pcs s i = Ins c k v -> find k (cch s c) = None /\ build c k = Some v /\ built s c = map fst (cch s c) ++ [k];
  n_built : forall c, (forall i k v, pcs s i <> Ins c k v) -> built s c = map fst (cch s c);
  n_leave : forall i m c k n, pcs s i = Leave m (Ref c k n) -> node_for s c k n;
  n_fail : forall i m c k, pcs s i = Leave m (Failed c k) -> build c k = None;
  n_out : forall i c k n, In (i, Ref c k n) (out s) -> node_for s c k n;
  n_outf : forall i c k, In (i, Failed c k) (out s) -> build c k = None }.

Lemma distinct_snoc l k : all_distinct eqk (map fst l) -> find k l = None -> all_distinct eqk (map fst l ++ [k]).
Proof.
  intros D F i j a b Hij Ha Hb.
  assert (Hj : j < length (map fst l ++ [k])) by (apply nth_error_Some; congruence).
  rewrite app_length in Hj. cbn in Hj.
  destruct (Nat.eq_dec j (length (map fst l))) as [->|N].
  - rewrite nth_error_app2, Nat.sub_diag in Hb by lia. inversion Hb; subst.
    rewrite nth_error_app1 in Ha by lia. rewrite nth_error_map in Ha. destruct (nth_error l i) as [[k' v]|] eqn:E; [|discriminate].
    inversion Ha; subst. exact (find_none _ _ _ _ _ F E).
  - rewrite nth_error_app1 in Ha, Hb by lia. exact (D i j a b Hij Ha Hb).
Qed.

Lemma node_for_ext (s s' : state) c k n : (exists t, cch s' c = cch s c ++ t) -> node_for s c k n -> node_for s' c k n.
Proof.
  intros [t E] (k' & v & H1 & H2). exists k', v. split; [|exact H2]. rewrite E. rewrite nth_error_app1; [exact H1|]. apply nth_error_Some. congruence.
Qed.

Lemma step_grows s s' : step s s' -> forall c, exists t, cch s' c = cch s c ++ t.
Proof.
  intros St c'. destruct St; cbn [cch]; try (exists []; rewrite app_nil_r; reflexivity).
  unfold upd. destruct (Nat.eqb c' c) eqn:E; [apply Nat.eqb_eq in E; subst|exists []; rewrite app_nil_r; reflexivity].
  unfold l', l. destruct (find k (cch s c)); [exists []; rewrite app_nil_r; reflexivity|eexists; reflexivity].
Qed.

Lemma inv_reach s : reach s -> inv s.
Proof.
  induction 1 as [|s s' R IH St].
  - constructor; cbn; intros; try discriminate; try contradiction; try reflexivity.
    + destruct i; discriminate.
    + intros i j a b _ H. destruct i; discriminate.
  - pose proof (mutex_reach s R) as MI. pose proof (mutex_reach s' (r_step _ _ _ _ _ _ _ _ R St)) as MI'.
    pose proof (step_grows s s' St) as Gr. destruct IH as [I1 I2 I3 I4 I5 I6 I7 I8 I9].
    destruct St as [s i o H H0|s i o H H0|s i c k n H H0|s i c k H H0|s i c H|s i c k v H H0|s i c k H H0|s i c k v H|s i m r H].
    + (* call *)
      constructor; cbn [pcs cch built out]; intros; upd_cases; try discriminate; eauto.
      apply I5. intros j k v E. apply (H1 j k v). upd_cases; [congruence|exact E].
    + (* lock *)
      constructor; cbn [pcs cch built out]; intros; upd_cases; try discriminate; eauto.
      apply I5. intros j k v E. apply (H1 j k v). upd_cases; [congruence|exact E].
    + (* hit *)
      constructor; cbn [pcs cch built out]; intros; upd_cases; try discriminate; eauto.
      * apply I5. intros j k0 v E. apply (H1 j k0 v). upd_cases; [congruence|exact E].
      * inversion H1; subst. destruct (find_some _ _ _ H0) as (k' & v & E1 & E2). exists k', v. cbn [cch]. eauto.
    + (* miss *)
      constructor; cbn [pcs cch built out]; intros; upd_cases; try discriminate; eauto.
      * inversion H1; subst. exact H0.
      * apply I5. intros j k0 v E. apply (H1 j k0 v). upd_cases; [congruence|exact E].
    + (* size *)
      constructor; cbn [pcs cch built out]; intros; upd_cases; try discriminate; eauto.
      apply I5. intros j k0 v E. apply (H0 j k0 v). upd_cases; [congruence|exact E].
    + (* built *)
      assert (NoIns : forall j k' v', pcs s j <> Ins c k' v').
      { intros j k' v' E. assert (j = i) by (apply (exclusive s j i c MI); [rewrite E|rewrite H]; reflexivity). subst. congruence. }
      constructor; cbn [pcs cch built out]; intros; upd_cases; try discriminate; eauto.
      * inversion H1; subst. split; [eauto|]. split; [exact H0|]. rewrite (I5 _ NoIns). reflexivity.
      * exfalso. exact (NoIns _ _ _ H1).
      * inversion H1; subst. congruence.
      * exfalso. apply (H1 i k v). apply upd_same.
      * apply I5. intros j k0 v0 E. apply (H1 j k0 v0). upd_cases; [congruence|exact E].
    + (* fail *)
      constructor; cbn [pcs cch built out]; intros; upd_cases; try discriminate; eauto.
      * apply I5. intros j k0 v E. apply (H1 j k0 v). upd_cases; [congruence|exact E].
      * inversion H1; subst. exact H0.
    + (* insert *)
      destruct (I4 _ _ _ _ H) as (F & B & L). repeat match goal with x := _ |- _ => subst x end. rewrite F in Gr |- *. clear MI'.
      assert (Uniq : forall j, j <> i -> holds (pcs s j) <> Some c).
      { intros j N E. apply N. apply (exclusive s j i c MI E). rewrite H. reflexivity. }
      constructor; cbn [pcs cch built out].
      * intros c' j k' v'. upd_cases; [|apply I1]. intros E.
        assert (Hj : j < length (cch s c ++ [(k, v)])) by (apply nth_error_Some; congruence).
        rewrite app_length in Hj. cbn in Hj. destruct (Nat.eq_dec j (length (cch s c))) as [->|N].
        -- rewrite nth_error_app2, Nat.sub_diag in E by lia. inversion E; subst. exact B.
        -- rewrite nth_error_app1 in E by lia. exact (I1 _ _ _ _ E).
      * intros c'. upd_cases; [|apply I2]. rewrite map_app. apply distinct_snoc; auto.
      * intros j c' k' E. upd_cases; try discriminate; eauto. exfalso. apply (Uniq j n). rewrite E. reflexivity.
      * intros j c' k' v' E. upd_cases; try discriminate; eauto. exfalso. apply (Uniq j n). rewrite E. reflexivity.
      * intros c' N. upd_cases; [rewrite map_app; exact L|]. apply I5. intros j k' v' E. apply (N j k' v'). upd_cases; [congruence|exact E].
      * intros j m' c' k' n' E. upd_cases; try discriminate.
        -- inversion E; subst. exists k', v. cbn [cch]. rewrite upd_same. rewrite nth_error_app2, Nat.sub_diag by lia. cbn. auto.
        -- eapply node_for_ext; [apply Gr|]. eapply I6; eassumption.
      * intros j m' c' k' E. upd_cases; try discriminate; eauto.
      * intros j c' k' n' E. eapply node_for_ext; [apply Gr|]. eapply I8; eassumption.
      * intros j c' k' E. eapply I9; eassumption.
    + (* unlock *)
      constructor; cbn [pcs cch built out]; intros; upd_cases; try discriminate; eauto.
      * apply I5. intros j k0 v E. apply (H0 j k0 v). upd_cases; [congruence|exact E].
      * destruct H0 as [E|E]; [inversion E; subst; eapply I6; eassumption|eapply I8; eassumption].
      * destruct H0 as [E|E]; [inversion E; subst; eapply I7; eassumption|eapply I9; eassumption].
Qed.

Theorem cache_transparent s : (forall c k k', eqk k k' = true -> build c k = build c k') -> reach s ->
  forall i r, In (i, r) (out s) ->
  match r with Ref c k n => ref_good build s c k n | Failed c k => build c k = None | Size _ _ => True end.
Proof.
  intros Hb R i r H. pose proof (inv_reach s R) as I. destruct r as [c k n|c k|c n]; [|exact (n_outf s I _ _ _ H)|exact Logic.I].
  destruct (n_out s I _ _ _ _ H) as (k' & v & E1 & E2 & E3). exists k', v. split; [exact E1|].
  destruct E3 as [->|E3]; [exact E2|]. rewrite <- (Hb c k' k E3). exact E2.
Qed.

Theorem built_once s : reach s -> forall c, all_distinct eqk (built s c).
Proof.
  intros R c. pose proof (inv_reach s R) as I.
  assert (D : (exists i k v, pcs s i = Ins c k v) \/ forall i k v, pcs s i <> Ins c k v).
  { pose proof (mutex_reach s R) as [M _]. destruct (mtx s c) as [i|] eqn:E.
    - destruct (pcs s i) as [| | | |c' k v|] eqn:P; try (right; intros j k' v' Q; assert (j = i) by (apply (exclusive s j i c (mutex_reach s R)); [rewrite Q; reflexivity|apply M; exact E]); congruence).
      assert (H : holds (pcs s i) = Some c) by (apply M; exact E). rewrite P in H. cbn in H. injection H as ->. left. eauto.
    - right. intros i k v Q. assert (H : holds (pcs s i) = Some c) by (rewrite Q; reflexivity). apply M in H. congruence. }
  destruct D as [(i & k & v & E)|N].
  - destruct (n_ins s I _ _ _ _ E) as (F & _ & ->). apply distinct_snoc; [apply (n_dist s I)|exact F].
  - rewrite (n_built s I c N). apply (n_dist s I).
Qed.

Inductive steps : state -> state -> Prop :=
| ss_refl : forall s, steps s s
| ss_step : forall s s' s'', steps s s' -> step s' s'' -> steps s s''.

Theorem refs_stable s s' : steps s s' -> forall c n x, nth_error (cch s c) n = Some x -> nth_error (cch s' c) n = Some x.
Proof.
  induction 1 as [|s s' s'' H IH St]; intros c n x E; [exact E|]. specialize (IH _ _ _ E).
  destruct (step_grows s' s'' St c) as [t ->]. rewrite nth_error_app1; [exact IH|]. apply nth_error_Some. congruence.
Qed.

(** no deadlock: if some thread is inside a function, some thread can move *)
Theorem progress s i : reach s -> pcs s i <> Idle -> exists s', step s s' .
Proof.
  intros R N. pose proof (mutex_reach s R) as [M _].
  assert (G : forall j m, holds (pcs s j) = Some m -> exists s', step s s').
  { intros j m H. destruct (pcs s j) as [|o|[c k|c]|c k|c k v|m' r] eqn:P; try discriminate.
    - destruct (find k (cch s c)) eqn:F; eexists; [eapply s_hit|eapply s_miss]; eassumption.
    - eexists. eapply s_size. eassumption.
    - destruct (build c k) eqn:B; eexists; [eapply s_built|eapply s_fail]; eassumption.
    - eexists. eapply s_insert. eassumption.
    - eexists. eapply s_unlock. eassumption. }
  destruct (pcs s i) as [|o|o|c k|c k v|m r] eqn:P; [congruence| | | | |];
    try (eapply (G i); rewrite P; reflexivity).
  destruct (mtx s (lock_of dim_lock o)) as [j|] eqn:E.
  - apply M in E. eapply G. exact E.
  - eexists. eapply s_lock; eassumption.
Qed.
End Proofs.

Section Code.
Variable V : Type.
Variable K : Type.
Variable eqk : K -> K -> bool.
Variable build : nat -> K -> option V.

(** the two size functions: only the one of the plain cache locks the mutex of its cache *)
Definition code_calls (o : op K) : Prop := match o with Get _ _ => True | Dim c => c = 0 end.

Theorem code_no_race s : @reach K V eqk build code_dim_lock code_calls s -> ~ race s.
Proof. apply no_race. intros c H. cbn in H. subst. reflexivity. Qed.

Definition any_call (o : op K) : Prop := True.

Tactic Notation "go" hyp(R) uconstr(lem) := eapply r_step in R; [|eapply lem; first [reflexivity|exact Logic.I|eassumption]]; cbn [mtx cch built pcs out init lock_of code_dim_lock find length app] in R.

Theorem code_race k v : build 1 k = Some v -> exists s, @reach K V eqk build code_dim_lock any_call s /\ race s.
Proof.
  intros B. pose proof (r_init K V eqk build code_dim_lock any_call) as R.
  go R (s_call K V eqk build code_dim_lock _ _ 0 (Get 1 k)).
  go R (s_lock K V eqk build code_dim_lock _ _ 0 (Get 1 k)).
  go R (s_miss K V eqk build code_dim_lock _ _ 0 1 k).
  go R (s_built K V eqk build code_dim_lock _ _ 0 1 k v).
  go R (s_call K V eqk build code_dim_lock _ _ 1 (Dim 1)).
  go R (s_lock K V eqk build code_dim_lock _ _ 1 (Dim 1)).
  eexists. split; [exact R|]. exists 0, 1, 1, false. split; [discriminate|]. split; reflexivity.
Qed.

(** an execution in which two threads ask for the same key and get the same node *)
Theorem two_gets k v : build 1 k = Some v -> eqk k k = true ->
  exists s, @reach K V eqk build code_dim_lock code_calls s /\ In (0, Ref 1 k 0) (out s) /\ In (1, Ref 1 k 0) (out s) /\ built s 1 = [k].
Proof.
  intros B E. pose proof (r_init K V eqk build code_dim_lock code_calls) as R.
  go R (s_call K V eqk build code_dim_lock _ _ 0 (Get 1 k)).
  go R (s_call K V eqk build code_dim_lock _ _ 1 (Get 1 k)).
  go R (s_lock K V eqk build code_dim_lock _ _ 0 (Get 1 k)).
  go R (s_miss K V eqk build code_dim_lock _ _ 0 1 k).
  go R (s_built K V eqk build code_dim_lock _ _ 0 1 k v).
  go R (s_insert K V eqk build code_dim_lock _ _ 0 1 k v).
  go R (s_unlock K V eqk build code_dim_lock _ _ 0 1 (Ref 1 k 0)).
  go R (s_lock K V eqk build code_dim_lock _ _ 1 (Get 1 k)).
  assert (F : find eqk k (upd (fun _ : nat => []) 1 [(k, v)] 1) = Some 0) by (cbn; rewrite E; reflexivity).
  go R (s_hit K V eqk build code_dim_lock _ _ 1 1 k 0).
  go R (s_unlock K V eqk build code_dim_lock _ _ 1 1 (Ref 1 k 0)).
  eexists. split; [exact R|]. cbn. auto.
Qed.
End Code.
