(** * Copies of planets and the kernel of a de440s: proofs *)
From Coq Require Import List Arith Bool Lia.
From Verif Require Import Outcome PyCopyModel PyCopySpec.
Import ListNotations.

Lemma nth_upd {A} (l : list A) i j x : nth_error (upd l i x) j = if Nat.eqb i j then (match nth_error l j with Some _ => Some x | None => None end) else nth_error l j.
Proof.
  revert i j. induction l as [|y l IH]; intros [|i] [|j]; cbn; try reflexivity.
  - now destruct (Nat.eqb i j).
  - apply IH.
Qed.
Lemma upd_length {A} (l : list A) i x : length (upd l i x) = length l.
Proof. revert i. induction l as [|y l IH]; intros [|i]; cbn; congruence. Qed.
Lemma get_ret {A} (l : list (option A)) i x : get l i = Ret x <-> nth_error l i = Some (Some x).
Proof. unfold get. destruct (nth_error l i) as [[y|]|]; split; intros H; try discriminate; congruence. Qed.
Lemma bind_ret {A B} (m : outcome A) (f : A -> outcome B) y : bind m f = Ret y -> exists x, m = Ret x /\ f x = Ret y.
Proof. destruct m as [a|e|]; cbn; intros H; try discriminate. exists a. auto. Qed.
Lemma bind_get {A B} (l : list (option A)) i (f : A -> outcome B) y : bind (get l i) f = Ret y -> exists x, nth_error l i = Some (Some x) /\ f x = Ret y.
Proof. intros H. destruct (bind_ret _ _ _ H) as [x [E F]]. exists x. split; [now apply get_ret|exact F]. Qed.
Lemma nth_app {A} (l : list A) x j y : nth_error (l ++ [x]) j = Some y -> nth_error l j = Some y \/ (j = length l /\ y = x).
Proof.
  intros H. destruct (Nat.lt_ge_cases j (length l)) as [L|L]; [left; rewrite nth_error_app1 in H; assumption|right].
  rewrite nth_error_app2 in H by exact L. destruct (j - length l) as [|k] eqn:E; cbn in H; [split; [lia|congruence]|destruct k; discriminate].
Qed.
Lemma nth_app_l {A} (l m : list A) j y : nth_error l j = Some y -> nth_error (l ++ m) j = Some y.
Proof. intros H. rewrite nth_error_app1; [exact H|]. apply nth_error_Some. congruence. Qed.
Lemma nth_last {A} (l : list A) x : nth_error (l ++ [x]) (length l) = Some x.
Proof. rewrite nth_error_app2 by lia. now rewrite Nat.sub_diag. Qed.

Section Proofs.
Context {S C B : Type}.
Variables (cpp_ans : C -> B) (py_ans : S -> B) (no_kernel : B).
Notation world := (world S C). Notation op := (op S C).
Notation answer := (answer cpp_ans py_ans no_kernel).

Lemma sweep_nth h l : forall i j, nth_error (fst (sweep h i l)) j = match nth_error l j with Some (Some o) => Some (if h (i + j) then Some o else (None : option (obj S))) | x => x end.
Proof.
  induction l as [|x l IH]; intros i j; [destruct j; reflexivity|]. cbn [sweep].
  pose proof (IH (Datatypes.S i)) as E. destruct (sweep h (Datatypes.S i) l) as [t n]. cbn [fst] in E.
  destruct j as [|j]; [rewrite Nat.add_0_r; destruct x as [o|]; [destruct (h i)|]; reflexivity|].
  replace (i + Datatypes.S j) with (Datatypes.S i + j) by lia. destruct x as [o|]; [destruct (h i)|]; cbn; apply E.
Qed.
Lemma sweep_count h (l : list (option (obj S))) : forall i, length (filter is_de (fst (sweep h i l))) + snd (sweep h i l) = length (filter is_de l).
Proof.
  induction l as [|x l IH]; intros i; [reflexivity|]. cbn [sweep].
  pose proof (IH (Datatypes.S i)) as E. destruct (sweep h (Datatypes.S i) l) as [t n]. cbn [fst snd] in E.
  destruct x as [[k s]|]; [destruct (h i), k|]; cbn; lia.
Qed.
Lemma unloads_counted n : forall k, unloads true n k = k - n.
Proof. induction n as [|n IH]; intros k; cbn; [lia|]. rewrite IH. lia. Qed.
Definition holds_obj (w : world) (a : nat) : Prop := exists o, nth_error (objs w) a = Some (Some o).
Definition closed (w : world) : Prop :=
  (forall v a, nth_error (vars w) v = Some (Some a) -> holds_obj w a) /\
  (forall p a at', nth_error (plas w) p = Some (Some (Pla (InPy a) at')) -> holds_obj w a).
Lemma held_var vs (ps : list (option (pla C))) v a : nth_error vs v = Some (Some a) -> held vs ps a = true.
Proof. intros H. unfold held. apply orb_true_iff. left. apply existsb_exists. exists (Some a). split; [eapply nth_error_In, H|apply Nat.eqb_refl]. Qed.
Lemma held_pla vs (ps : list (option (pla C))) p a at' : nth_error ps p = Some (Some (Pla (InPy a) at')) -> held vs ps a = true.
Proof. intros H. unfold held. apply orb_true_iff. right. apply existsb_exists. eexists. split; [eapply nth_error_In, H|apply Nat.eqb_refl]. Qed.
Lemma collect_objs b (w : world) a : nth_error (objs (collect b w)) a = match nth_error (objs w) a with Some (Some o) => Some (if held (vars w) (plas w) a then Some o else None) | x => x end.
Proof.
  unfold collect. pose proof (sweep_nth (held (vars w) (plas w)) (objs w) 0 a) as E.
  destruct (sweep (held (vars w) (plas w)) 0 (objs w)) as [t n]. cbn [fst objs] in *. exact E.
Qed.
Lemma collect_vars b (w : world) : vars (collect b w) = vars w.
Proof. unfold collect. destruct (sweep (held (vars w) (plas w)) 0 (objs w)). reflexivity. Qed.
Lemma collect_plas b (w : world) : plas (collect b w) = plas w.
Proof. unfold collect. destruct (sweep (held (vars w) (plas w)) 0 (objs w)). reflexivity. Qed.
Lemma collect_closed b w : closed w -> closed (collect b w).
Proof.
  intros [Hv Hp]. split.
  - intros v a. rewrite collect_vars. intros H. destruct (Hv v a H) as [o Ho]. exists o. rewrite collect_objs, Ho, (held_var _ _ v a H). reflexivity.
  - intros p a at'. rewrite collect_plas. intros H. destruct (Hp p a at' H) as [o Ho]. exists o. rewrite collect_objs, Ho, (held_pla _ _ p a at' H). reflexivity.
Qed.
Lemma step_closed b o w w' : closed w -> step b o w = Ret w' -> closed w'.
Proof.
  intros K H.
  assert (A : forall os vs ps k n, (forall a, holds_obj w a -> holds_obj (W os vs ps n) a) ->
     (forall v a, nth_error vs v = Some (Some a) -> nth_error (vars w) v = Some (Some a) \/ holds_obj (W os vs ps n) a) ->
     (forall p a at', nth_error ps p = Some (Some (Pla (InPy a) at')) -> (exists q at'', nth_error (plas w) q = Some (Some (Pla (InPy a) at''))) \/ holds_obj (W os vs ps n) a) ->
     closed (W os vs ps (k + (n - k)))).
  { intros os vs ps k n M V' P'. split; cbn [objs vars plas].
    - intros v a E. destruct (V' v a E) as [L|L]; [|exact L]. apply (M a). exact (proj1 K v a L).
    - intros p a at' E. destruct (P' p a at' E) as [[q [at'' L]]|L]; [|exact L]. apply (M a). exact (proj2 K q a at'' L). }
  assert (A0 : forall os vs ps n, (forall a, holds_obj w a -> holds_obj (W os vs ps n) a) ->
     (forall v a, nth_error vs v = Some (Some a) -> nth_error (vars w) v = Some (Some a) \/ holds_obj (W os vs ps n) a) ->
     (forall p a at', nth_error ps p = Some (Some (Pla (InPy a) at')) -> (exists q at'', nth_error (plas w) q = Some (Some (Pla (InPy a) at''))) \/ holds_obj (W os vs ps n) a) ->
     closed (W os vs ps n)).
  { intros os vs ps n M V' P'. pose proof (A os vs ps 0 n M V' P') as Z. rewrite Nat.sub_0_r in Z. exact Z. }
  clear A. rename A0 into A. destruct o as [k s|v|v s|v|c|v|p|p|p|p|p k x|p| |]; cbn [step] in H.
  - injection H as <-. apply A; cbn [objs].
    + intros a [o Ho]. exists o. now apply nth_app_l.
    + intros v a E. apply nth_app in E. destruct E as [E|[_ E]]; [left; exact E|right]. injection E as ->. eexists. apply nth_last.
    + intros p a at' E. left. eauto.
  - apply bind_get in H. destruct H as [a [Ha H]]. apply bind_get in H. destruct H as [x [Hx H]]. injection H as <-. apply A.
    + intros a' [o Ho]. exists o. now apply nth_app_l.
    + intros v' a' E. apply nth_app in E. destruct E as [E|[_ E]]; [left; exact E|right]. injection E as ->. eexists. apply nth_last.
    + intros p a' at' E. left. eauto.
  - apply bind_get in H. destruct H as [a [Ha H]]. apply bind_get in H. destruct H as [x [Hx H]]. injection H as <-. apply A.
    + intros a' [o Ho]. unfold holds_obj. cbn [objs]. rewrite nth_upd, Ho. destruct (Nat.eqb a a'); eauto.
    + intros v' a' E. left. exact E.
    + intros p a' at' E. left. eauto.
  - apply bind_get in H. destruct H as [a [Ha H]]. injection H as <-. apply collect_closed, A.
    + intros a' [o Ho]. exists o. exact Ho.
    + intros v' a' E. left. rewrite nth_upd in E. destruct (Nat.eqb v v'); [destruct (nth_error (vars w) v'); discriminate|exact E].
    + intros p a' at' E. left. eauto.
  - injection H as <-. apply A.
    + intros a [o Ho]. exists o. exact Ho.
    + intros v a E. left. exact E.
    + intros p a at' E. apply nth_app in E. destruct E as [E|[_ E]]; [left; eauto|discriminate].
  - apply bind_get in H. destruct H as [a [Ha H]]. injection H as <-. apply A.
    + intros a' [o Ho]. exists o. exact Ho.
    + intros v' a' E. left. exact E.
    + intros p a' at' E. apply nth_app in E. destruct E as [E|[_ E]]; [left; eauto|right]. injection E as -> ->. exact (proj1 K v a Ha).
  - apply bind_get in H. destruct H as [[h t] [Hx H]]. injection H as <-. apply A.
    + intros a' [o Ho]. exists o. exact Ho.
    + intros v' a' E. left. exact E.
    + intros q a' at' E. apply nth_app in E. destruct E as [E|[_ E]]; [left; eauto|left]. injection E as <- ->. eauto.
  - apply bind_get in H. destruct H as [[h t] [Hx H]]. injection H as <-. apply A.
    + intros a' [o Ho]. exists o. exact Ho.
    + intros v' a' E. left. exact E.
    + intros q a' at' E. apply nth_app in E. destruct E as [E|[_ E]]; [left; eauto|left]. injection E as <- ->. eauto.
  - apply bind_get in H. destruct H as [[h t] [Hx H]]. cbn [p_holder] in H. destruct h as [c|a]; [|discriminate]. injection H as <-. apply A.
    + intros a' [o Ho]. exists o. exact Ho.
    + intros v' a' E. left. exact E.
    + intros q a' at' E. apply nth_app in E. destruct E as [E|[_ E]]; [left; eauto|discriminate].
  - apply bind_get in H. destruct H as [[h t] [Hx H]]. cbn [p_holder] in H. destruct h as [c|a]; injection H as <-; [exact K|]. apply A.
    + intros a' [o Ho]. exists o. exact Ho.
    + intros v' a' E. apply nth_app in E. destruct E as [E|[_ E]]; [left; exact E|right]. injection E as ->. exact (proj2 K p a t Hx).
    + intros q a' at' E. left. eauto.
  - apply bind_get in H. destruct H as [[h t] [Hx H]]. injection H as <-. cbn [p_holder]. apply A.
    + intros a' [o Ho]. exists o. exact Ho.
    + intros v' a' E. left. exact E.
    + intros q a' at' E. left. rewrite nth_upd in E. destruct (Nat.eqb p q) eqn:Q; [|eauto]. apply Nat.eqb_eq in Q. subst q. rewrite Hx in E. injection E as -> _. eauto.
  - apply bind_get in H. destruct H as [x [Hx H]]. injection H as <-. apply collect_closed, A.
    + intros a' [o Ho]. exists o. exact Ho.
    + intros v' a' E. left. exact E.
    + intros q a' at' E. left. rewrite nth_upd in E. destruct (Nat.eqb p q); [destruct (nth_error (plas w) q); discriminate|eauto].
  - injection H as <-. apply A; [intros a' [o Ho]; exists o; exact Ho|intros v' a' E; left; exact E|intros q a' at' E; left; eauto].
  - injection H as <-. apply A; [intros a' [o Ho]; exists o; exact Ho|intros v' a' E; left; exact E|intros q a' at' E; left; eauto].
Qed.
Lemma exec_one b (o : op) w w' : step b o w = Ret w' -> exec b [o] w = w'.
Proof. intros E. cbn. now rewrite E. Qed.
Lemma exec_closed b os : forall w, closed w -> closed (exec b os w).
Proof.
  induction os as [|o t IH]; intros w K; [exact K|]. cbn [exec]. apply IH. destruct (step b o w) as [w'| |] eqn:E; [|exact K|exact K]. exact (step_closed b o w w' K E).
Qed.
Lemma start_closed : closed start.
Proof. split; [intros [|v] a H|intros [|p] a at' H]; discriminate. Qed.
Lemma reach_closed b w : reachable b w -> closed w.
Proof. intros [os ->]. apply exec_closed, start_closed. Qed.
Lemma never_dangles b w p : reachable b w -> answer w p <> UB.
Proof.
  intros R. pose proof (reach_closed b w R) as [_ K]. unfold PyCopyModel.answer, get.
  destruct (nth_error (plas w) p) as [[[h t]|]|] eqn:E; cbn; try discriminate. destruct h as [c|a]; [discriminate|].
  destruct (K p a t E) as [o ->]. discriminate.
Qed.
Lemma answer_alive w p x : nth_error (plas w) p = Some (Some x) -> answer w p = match p_holder x with InCpp c => Ret (cpp_ans c) | InPy a => match nth_error (objs w) a with Some (Some o) => Ret (obj_ans py_ans no_kernel (kern w) o) | _ => UB end end.
Proof. intros E. unfold PyCopyModel.answer, get. now rewrite E. Qed.
Lemma answer_same_plas w q ps x : nth_error ps q = Some (Some x) -> (exists t, nth_error (plas w) q = Some (Some t) /\ p_holder t = p_holder x) ->
  answer (W (objs w) (vars w) ps (kern w)) q = answer w q.
Proof. intros E [t [T H]]. rewrite (answer_alive w q t T). rewrite (answer_alive _ q x); [|exact E]. cbn [objs kern]. now rewrite H. Qed.
Lemma answer_app w x q : (q < length (plas w))%nat -> answer (W (objs w) (vars w) (plas w ++ [x]) (kern w)) q = answer w q.
Proof. intros L. unfold PyCopyModel.answer, get. cbn [plas objs kern]. now rewrite nth_error_app1. Qed.
Lemma copy_step b p (o : op) (w : world) w' : copies p o -> step b o w = Ret w' -> exists x, nth_error (plas w) p = Some (Some x) /\ w' = W (objs w) (vars w) (plas w ++ [Some (clone x)]) (kern w).
Proof.
  intros Hc H. destruct Hc; cbn [step] in H; apply bind_get in H; destruct H as [x [Hx H]]; exists x; split; try exact Hx; [injection H as <-; reflexivity|injection H as <-; reflexivity|].
  destruct (p_holder x); [injection H as <-; reflexivity|discriminate].
Qed.
Lemma copy_answers b p (o : op) (w : world) w' : copies p o -> step b o w = Ret w' ->
  length (plas w') = Datatypes.S (length (plas w)) /\ answer w' (length (plas w)) = answer w p /\ forall q, (q < length (plas w))%nat -> answer w' q = answer w q.
Proof.
  intros Hc H. destruct (copy_step b p o w w' Hc H) as [x [Hx ->]]. split; [cbn; rewrite app_length; cbn; lia|]. split.
  - rewrite (answer_alive w p x Hx). rewrite (answer_alive _ _ (clone x)); [reflexivity|]. cbn [plas]. apply nth_last.
  - intros q L. now apply answer_app.
Qed.
(** which copies exist *)
Lemma copies_exist b p (w : world) x : nth_error (plas w) p = Some (Some x) -> (exists w', step b (CopyPla p) w = Ret w') /\ (exists w', step b (DeepPla p) w = Ret w') /\
  ((exists w', step b (PicklePla p) w = Ret w') <-> exists c, p_holder x = InCpp c).
Proof.
  intros E. pose proof (proj2 (get_ret _ _ _) E) as G. cbn [step]. rewrite G. cbn [bind]. split; [eauto|]. split; [eauto|].
  destruct (p_holder x) as [c|a]; split; intros [z Z]; try discriminate; eauto.
Qed.
(** the wrapped planet of an instance never changes *)
Lemma step_holder b (o : op) (w : world) w' p x : step b o w = Ret w' -> nth_error (plas w) p = Some (Some x) -> nth_error (plas w') p = Some None \/ exists y, nth_error (plas w') p = Some (Some y) /\ p_holder y = p_holder x.
Proof.
  intros H Hx. assert (Same : forall w'' : world, plas w'' = plas w -> nth_error (plas w'') p = Some None \/ exists y, nth_error (plas w'') p = Some (Some y) /\ p_holder y = p_holder x) by (intros w'' ->; eauto).
  assert (App : forall (w'' : world) z, plas w'' = plas w ++ z -> nth_error (plas w'') p = Some None \/ exists y, nth_error (plas w'') p = Some (Some y) /\ p_holder y = p_holder x)
    by (intros w'' z ->; right; exists x; split; [now apply nth_app_l|reflexivity]).
  destruct o as [k s|v|v s|v|c|v|q|q|q|q|q k z|q| |]; cbn [step] in H; try (apply bind_get in H; destruct H as [a [Ha H]]).
  - injection H as <-. now apply Same.
  - apply bind_get in H. destruct H as [y [_ H]]. injection H as <-. now apply Same.
  - apply bind_get in H. destruct H as [y [_ H]]. injection H as <-. now apply Same.
  - injection H as <-. apply Same. now rewrite collect_plas.
  - injection H as <-. eapply App. reflexivity.
  - injection H as <-. eapply App. reflexivity.
  - injection H as <-. eapply App. reflexivity.
  - injection H as <-. eapply App. reflexivity.
  - destruct (p_holder a); [|discriminate]. injection H as <-. eapply App. reflexivity.
  - destruct (p_holder a); injection H as <-; now apply Same.
  - injection H as <-. cbn [plas]. right. rewrite nth_upd. destruct (Nat.eqb q p) eqn:Q; [|eauto]. apply Nat.eqb_eq in Q. subst q. rewrite Hx. eexists. split; [reflexivity|]. cbn. congruence.
  - injection H as <-. rewrite collect_plas. cbn [plas]. rewrite nth_upd. destruct (Nat.eqb q p); [rewrite Hx; left; reflexivity|right; eauto].
  - injection H as <-. now apply Same.
  - injection H as <-. now apply Same.
Qed.
Lemma step_none b (o : op) (w : world) w' p : step b o w = Ret w' -> nth_error (plas w) p = Some None -> nth_error (plas w') p = Some None.
Proof.
  intros H Hx. destruct o as [k s|v|v s|v|c|v|q|q|q|q|q k z|q| |]; cbn [step] in H; try (apply bind_get in H; destruct H as [a [Ha H]]).
  - injection H as <-. exact Hx.
  - apply bind_get in H. destruct H as [y [_ H]]. injection H as <-. exact Hx.
  - apply bind_get in H. destruct H as [y [_ H]]. injection H as <-. exact Hx.
  - injection H as <-. now rewrite collect_plas.
  - injection H as <-. now apply nth_app_l.
  - injection H as <-. now apply nth_app_l.
  - injection H as <-. now apply nth_app_l.
  - injection H as <-. now apply nth_app_l.
  - destruct (p_holder a); [|discriminate]. injection H as <-. now apply nth_app_l.
  - destruct (p_holder a); injection H as <-; exact Hx.
  - injection H as <-. cbn [plas]. rewrite nth_upd. destruct (Nat.eqb q p) eqn:Q; [|exact Hx]. apply Nat.eqb_eq in Q. subst q. congruence.
  - injection H as <-. rewrite collect_plas. cbn [plas]. rewrite nth_upd, Hx. now destruct (Nat.eqb q p).
  - injection H as <-. exact Hx.
  - injection H as <-. exact Hx.
Qed.
Lemma exec_none b (os : list op) : forall (w : world) p, nth_error (plas w) p = Some None -> nth_error (plas (exec b os w)) p = Some None.
Proof. induction os as [|o t IH]; intros w p H; [exact H|]. cbn [exec]. apply IH. destruct (step b o w) as [w'| |] eqn:E; [|exact H|exact H]. exact (step_none b o w w' p E H). Qed.
Lemma exec_holder b (os : list op) : forall (w : world) p x, nth_error (plas w) p = Some (Some x) -> nth_error (plas (exec b os w)) p = Some None \/ exists y, nth_error (plas (exec b os w)) p = Some (Some y) /\ p_holder y = p_holder x.
Proof.
  induction os as [|o t IH]; intros w p x H; [right; eauto|]. cbn [exec]. destruct (step b o w) as [w'| |] eqn:E; [|now apply IH|now apply IH].
  destruct (step_holder b o w w' p x E H) as [N|[y [Y Hy]]]; [left; now apply exec_none|]. destruct (IH w' p y Y) as [N|[z [Z Hz]]]; [left; exact N|right; exists z; split; [exact Z|congruence]].
Qed.
Lemma cpp_fixed b (w : world) p x c os : nth_error (plas w) p = Some (Some x) -> p_holder x = InCpp c ->
  answer w p = Ret (cpp_ans c) /\ (answer (exec b os w) p = Ret (cpp_ans c) \/ nth_error (plas (exec b os w)) p = Some None).
Proof.
  intros E H. split; [rewrite (answer_alive w p x E), H; reflexivity|]. destruct (exec_holder b os w p x E) as [N|[y [Y Hy]]]; [right; exact N|left].
  rewrite (answer_alive _ p y Y), Hy, H. reflexivity.
Qed.
(** a Python object changes only when it is assigned to *)
Lemma step_obj b (o : op) (w : world) w' a x : step b o w = Ret w' -> nth_error (objs w) a = Some (Some x) -> ~ writes o w a -> nth_error (objs w') a = Some (Some x) \/ nth_error (objs w') a = Some None.
Proof.
  intros H Hx NW. destruct o as [k s|v|v s|v|c|v|q|q|q|q|q k z|q| |]; cbn [step] in H; try (apply bind_get in H; destruct H as [e [He H]]).
  - injection H as <-. left. now apply nth_app_l.
  - apply bind_get in H. destruct H as [y [_ H]]. injection H as <-. left. now apply nth_app_l.
  - apply bind_get in H. destruct H as [y [_ H]]. injection H as <-. left. cbn [objs]. rewrite nth_upd. destruct (Nat.eqb e a) eqn:Q; [|exact Hx].
    apply Nat.eqb_eq in Q. subst e. exfalso. apply NW. exists v, s. auto.
  - injection H as <-. rewrite collect_objs. cbn [objs]. rewrite Hx. destruct (held _ _ a); auto.
  - injection H as <-. left. exact Hx.
  - injection H as <-. left. exact Hx.
  - injection H as <-. left. exact Hx.
  - injection H as <-. left. exact Hx.
  - destruct (p_holder e); [|discriminate]. injection H as <-. left. exact Hx.
  - destruct (p_holder e); injection H as <-; left; exact Hx.
  - injection H as <-. left. exact Hx.
  - injection H as <-. rewrite collect_objs. cbn [objs]. rewrite Hx. destruct (held _ _ a); auto.
  - injection H as <-. left. exact Hx.
  - injection H as <-. left. exact Hx.
Qed.
Lemma exec_py b (os : list op) : forall (w : world) p x a s, closed w -> nth_error (plas w) p = Some (Some x) -> p_holder x = InPy a -> nth_error (objs w) a = Some (Some (Obj Plain s)) ->
  never_writes b os w a -> answer (exec b os w) p = Ret (py_ans s) \/ nth_error (plas (exec b os w)) p = Some None.
Proof.
  induction os as [|o t IH]; intros w p x a s K Hp Hh Ho NW; [left; cbn; rewrite (answer_alive w p x Hp), Hh, Ho; reflexivity|].
  destruct NW as [N1 N2]. cbn [exec] in N2 |- *. destruct (step b o w) as [w'| |] eqn:E; [|exact (IH w p x a s K Hp Hh Ho N2)|exact (IH w p x a s K Hp Hh Ho N2)].
  pose proof (step_closed b o w w' K E) as K'.
  destruct (step_holder b o w w' p x E Hp) as [N|[[h t'] [Y Hy]]]; [right; now apply exec_none|]. cbn [p_holder] in Hy. rewrite Hh in Hy. subst h.
  assert (Ho' : nth_error (objs w') a = Some (Some (Obj Plain s))).
  { destruct (step_obj b o w w' a _ E Ho N1) as [L|L]; [exact L|]. destruct (proj2 K' p a t' Y) as [z Z]. congruence. }
  exact (IH w' p (Pla (InPy a) t') a s K' Y eq_refl Ho' N2).
Qed.
Lemma python_keeps b w p x a s os : reachable b w -> nth_error (plas w) p = Some (Some x) -> p_holder x = InPy a -> nth_error (objs w) a = Some (Some (Obj Plain s)) ->
  never_writes b os w a -> answer w p = Ret (py_ans s) /\ (answer (exec b os w) p = Ret (py_ans s) \/ nth_error (plas (exec b os w)) p = Some None).
Proof.
  intros R Hp Hh Ho NW. split; [rewrite (answer_alive w p x Hp), Hh, Ho; reflexivity|]. exact (exec_py b os w p x a s (reach_closed b w R) Hp Hh Ho NW).
Qed.
(** sharing *)
Lemma deep_shares b s0 s1 : py_ans s0 <> py_ans s1 -> let w := exec b [NewObj Plain s0; NewPla 0; DelVar 0] start in
  answer w 0 = Ret (py_ans s0) /\ (exists w', step b (DeepPla 0) w = Ret w' /\ answer w' 0 = Ret (py_ans s0) /\ answer w' 1 = Ret (py_ans s0) /\
    let w'' := exec b [Extract 1; Mut 1 s1] w' in answer w'' 1 = Ret (py_ans s1) /\ answer w'' 0 = Ret (py_ans s1) /\ answer w'' 0 <> answer w' 0).
Proof.
  intros Ne. cbn. split; [reflexivity|]. eexists. split; [reflexivity|]. cbn. split; [reflexivity|]. split; [reflexivity|]. split; [reflexivity|]. split; [reflexivity|]. intros E. injection E as E. auto.
Qed.
Lemma ctor_shares b s0 s1 : py_ans s0 <> py_ans s1 -> let w := exec b [NewObj Plain s0; NewPla 0] start in let w' := exec b [Mut 0 s1] w in
  answer w 0 = Ret (py_ans s0) /\ answer w' 0 = Ret (py_ans s1) /\ answer w' 0 <> answer w 0.
Proof. intros Ne. cbn. split; [reflexivity|]. split; [reflexivity|]. intros E. injection E as E. auto. Qed.
Lemma attrs_lost b p (o : op) (w : world) w' k x : copies p o -> step b o w = Ret w' -> attr w p k = Ret x -> attr w' p k = Ret x /\ attr w' (length (plas w)) k = Throw NotImplemented.
Proof.
  intros Hc H A. destruct (copy_step b p o w w' Hc H) as [y [Hy ->]]. split.
  - rewrite <- A. unfold attr, get. cbn [plas]. now rewrite (nth_app_l _ _ _ _ Hy), Hy.
  - unfold attr, get. cbn [plas]. now rewrite nth_last.
Qed.

(** ** The kernel *)
Definition loads (os : list op) : nat := length (filter is_load os).
Lemma filter_app_len {A} (f : A -> bool) l x : length (filter f (l ++ [x])) = length (filter f l) + (if f x then 1 else 0).
Proof. rewrite filter_app, app_length. cbn. now destruct (f x). Qed.
Lemma live_upd (l : list (option (obj S))) a x s : nth_error l a = Some (Some x) -> length (filter is_de (upd l a (Some (Obj (o_kind x) s)))) = length (filter is_de l).
Proof. revert a. induction l as [|y l IH]; intros [|a] H; try discriminate; cbn in H. - injection H as ->. destruct x as [[|] z]; reflexivity. - cbn. destruct (is_de y); cbn; rewrite (IH a H); reflexivity. Qed.
Lemma collect_kern (w : world) : live_de w <= kern w -> kern (collect true w) - live_de (collect true w) = kern w - live_de w /\ live_de (collect true w) <= kern (collect true w).
Proof.
  unfold collect, live_de. pose proof (sweep_count (held (vars w) (plas w)) (objs w) 0) as E.
  destruct (sweep (held (vars w) (plas w)) 0 (objs w)) as [t n]. cbn [fst snd objs kern] in *. rewrite unloads_counted. lia.
Qed.
Lemma step_kern (o : op) (w : world) w' : tidy o -> step true o w = Ret w' -> live_de w <= kern w -> live_de w' <= kern w' /\ kern w' - live_de w' = kern w - live_de w + (if is_load o then 1 else 0).
Proof.
  intros T H K. destruct o as [k s|v|v s|v|c|v|q|q|q|q|q k z|q| |]; cbn [tidy] in T; try contradiction; cbn [step] in H; try (apply bind_get in H; destruct H as [e [He H]]); cbn [is_load]; rewrite ?Nat.add_0_r.
  - injection H as <-. unfold live_de in *. cbn [objs kern]. rewrite filter_app_len. destruct k; cbn [is_de load]; lia.
  - apply bind_get in H. destruct H as [y [Hy H]]. injection H as <-. unfold live_de in *. cbn [objs kern]. rewrite (live_upd _ _ _ _ Hy). lia.
  - injection H as <-. destruct (collect_kern (W (objs w) (upd (vars w) v None) (plas w) (kern w)) K) as [C1 C2]. split; [exact C2|exact C1].
  - injection H as <-. auto.
  - injection H as <-. auto.
  - injection H as <-. auto.
  - injection H as <-. auto.
  - destruct (p_holder e); [|discriminate]. injection H as <-. auto.
  - destruct (p_holder e); injection H as <-; auto.
  - injection H as <-. auto.
  - injection H as <-. destruct (collect_kern (W (objs w) (vars w) (upd (plas w) q None) (kern w)) K) as [C1 C2]. split; [exact C2|exact C1].
  - injection H as <-. unfold live_de in *. cbn [objs kern load] in *. lia.
Qed.
Lemma exec_kern (os : list op) : forall (w : world), List.Forall tidy os -> live_de w <= kern w -> live_de (exec true os w) <= kern (exec true os w) /\ kern (exec true os w) - live_de (exec true os w) <= kern w - live_de w + loads os.
Proof.
  induction os as [|o t IH]; intros w F K; [cbn; split; [exact K|lia]|]. inversion F as [|? ? T F']; subst. cbn [exec].
  destruct (step true o w) as [w'| |] eqn:E.
  - destruct (step_kern o w w' T E K) as [K' D]. destruct (IH w' F' K') as [I1 I2]. split; [exact I1|]. unfold loads in *. cbn [filter]. destruct (is_load o); cbn [length]; lia.
  - destruct (IH w F' K) as [I1 I2]. split; [exact I1|]. unfold loads in *. cbn [filter]. destruct (is_load o); cbn [length]; lia.
  - destruct (IH w F' K) as [I1 I2]. split; [exact I1|]. unfold loads in *. cbn [filter]. destruct (is_load o); cbn [length]; lia.
Qed.
Lemma kern_bounds (os : list op) : List.Forall tidy os -> live_de (exec true os start) <= kern (exec true os start) <= live_de (exec true os start) + loads os.
Proof. intros F. destruct (exec_kern os start F) as [K D]; [cbn; lia|]. cbn in D. lia. Qed.
Lemma live_in (l : list (option (obj S))) a s : nth_error l a = Some (Some (Obj De440 s)) -> 0 < length (filter is_de l).
Proof. revert a. induction l as [|y l IH]; intros [|a] H; try discriminate; cbn in H. - injection H as ->. cbn. lia. - cbn. destruct (is_de y); cbn; [lia|exact (IH a H)]. Qed.
Lemma kernel_there (os : list op) p x a s : List.Forall tidy os -> let w := exec true os start in nth_error (plas w) p = Some (Some x) -> p_holder x = InPy a -> nth_error (objs w) a = Some (Some (Obj De440 s)) ->
  answer w p = Ret (py_ans s).
Proof.
  intros F w Hp Hh Ho. rewrite (answer_alive w p x Hp), Hh, Ho. unfold obj_ans. cbn. pose proof (proj1 (kern_bounds os F)) as K. fold w in K.
  pose proof (live_in _ _ _ Ho) as L. unfold live_de in K. destruct (kern w); [lia|reflexivity].
Qed.
Lemma kernel_released (os : list op) : List.Forall tidy os -> List.Forall (fun o => is_load o = false) os -> kern (exec true os start) = live_de (exec true os start).
Proof.
  intros F G. pose proof (kern_bounds os F) as K. assert (L : loads os = 0); [|lia]. unfold loads. clear F K. induction G as [|o t E G IH]; [reflexivity|]. cbn. now rewrite E.
Qed.
Lemma copy_unloads b s : let w := exec b [NewObj De440 s; NewPla 0; CopyObj 0] start in
  answer w 0 = Ret (py_ans s) /\ answer (exec b [DelVar 1] w) 0 = Ret no_kernel.
Proof. destruct b; split; reflexivity. Qed.
Lemma two_unload s : let w := exec false [NewObj De440 s; NewPla 0; NewObj De440 s; NewPla 1] start in
  answer w 0 = Ret (py_ans s) /\ answer (exec false [DelVar 1; DelPla 1] w) 0 = Ret no_kernel.
Proof. split; reflexivity. Qed.
End Proofs.
