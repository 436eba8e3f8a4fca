(** * Proofs: the entries of the matrices Python receives are partial derivatives *)
From Coq Require Import Reals Lra Lia List ZArith.
From Coquelicot Require Import Coquelicot.
From Verif Require Import Outcome RealLib KepSpec Vec3 TwoBodyModel TwoBodySpec TwoBodyProofs StmMain DynSpec DynModel SfModel SfSpec SfGrad SfMain SfJac OdeLib HfGradModel HfGradSpec HfGradFlow HfGradLin HfGradChain HfGradMain HfGradMis HfGradExample TcModel TcSpec TcProofs PyMatModel PyMatSpec.
Import ListNotations.
Open Scope R_scope.

(** ** the array *)
Lemma nth_skipn_ {A} (d : A) k l i : nth i (skipn k l) d = nth (k + i) l d.
Proof. revert l. induction k as [|k IH]; intros [|a l]; cbn; auto. destruct i; reflexivity. Qed.
Lemma nth_firstn_ {A} (d : A) k l i : (i < k)%nat -> nth i (firstn k l) d = nth i l d.
Proof. revert l i. induction k as [|k IH]; intros [|a l] i H; cbn; try lia; auto. destruct i; [reflexivity|]. apply IH. lia. Qed.
Lemma np2_ok r c : forall data, (r * c <= length data)%nat -> exists M, np2 r c data = Ret M /\ shaped r c M /\
  forall i j, (i < r)%nat -> (j < c)%nat -> entry M i j = nth (c * i + j) data 0.
Proof.
  induction r as [|r IH]; intros data L.
  - exists []. repeat split; [constructor|intros; lia].
  - cbn [np2]. destruct (Nat.ltb_spec (length data) c) as [X|X]; [cbn in L; lia|].
    destruct (IH (skipn c data)) as [M [E [[S1 S2] HM]]]; [rewrite skipn_length; cbn in L; lia|].
    rewrite E. exists (firstn c data :: M). repeat split.
    + cbn. f_equal. exact S1.
    + constructor; [rewrite firstn_length; lia|exact S2].
    + intros [|i] j Hi Hj; unfold entry; cbn [nth].
      * rewrite nth_firstn_ by exact Hj. f_equal. lia.
      * change (nth j (nth i M []) 0) with (entry M i j). rewrite HM by lia. rewrite nth_skipn_. f_equal. lia.
Qed.
Lemma np2_short r c : forall data, (length data < r * c)%nat -> np2 r c data = UB.
Proof.
  induction r as [|r IH]; intros data L; [lia|]. cbn [np2]. destruct (Nat.ltb_spec (length data) c) as [X|X]; [reflexivity|].
  rewrite IH; [reflexivity|]. rewrite skipn_length. cbn in L. lia.
Qed.

(** ** nudging a coordinate *)
Definition unit (n j : nat) : list R := map (fun k => if Nat.eqb k j then 1 else 0) (seq 0 n).
Lemma nudge_length l j e : (j < length l)%nat -> length (nudge l j e) = length l.
Proof. intros H. unfold nudge, replace_nth. rewrite app_length, firstn_length. cbn [length]. rewrite skipn_length. lia. Qed.
Lemma nudge_nth l j e k : (j < length l)%nat -> nth k (nudge l j e) 0 = nth k l 0 + (if Nat.eqb k j then e else 0).
Proof.
  intros H. unfold nudge, replace_nth. destruct (Nat.eqb_spec k j) as [->|N].
  - rewrite app_nth2; rewrite firstn_length, min_l by lia; [|lia]. rewrite Nat.sub_diag. reflexivity.
  - rewrite Rplus_0_r. destruct (Nat.lt_ge_cases k j) as [L|L].
    + rewrite app_nth1 by (rewrite firstn_length; lia). apply nth_firstn_. exact L.
    + rewrite app_nth2; rewrite firstn_length, min_l by lia; [|lia]. destruct (k - j)%nat as [|m] eqn:E; [lia|]. cbn [nth].
      rewrite nth_skipn_. f_equal. lia.
Qed.
Lemma nudge_0 l j : (j < length l)%nat -> nudge l j 0 = l.
Proof. intros H. apply (nth_ext _ _ 0 0); [apply nudge_length; exact H|]. intros k _. rewrite nudge_nth by exact H. destruct (Nat.eqb k j); ring. Qed.
Lemma unit_length n j : length (unit n j) = n. Proof. unfold unit. rewrite map_length. apply seq_length. Qed.
Lemma unit_nth n j k : (j < n)%nat -> nth k (unit n j) 0 = if Nat.eqb k j then 1 else 0.
Proof.
  intros H. destruct (Nat.lt_ge_cases k n) as [L|L].
  - unfold unit. rewrite (nth_indep _ 0 ((fun k => if Nat.eqb k j then 1 else 0) 0%nat)) by (rewrite map_length, seq_length; exact L).
    rewrite (map_nth (fun k => if Nat.eqb k j then 1 else 0)). rewrite seq_nth by exact L. reflexivity.
  - rewrite nth_overflow by (rewrite unit_length; exact L). destruct (Nat.eqb_spec k j); [lia|reflexivity].
Qed.
Lemma nudge_derive l j k : (j < length l)%nat -> is_derive (fun e => nth k (nudge l j e) 0) 0 (nth k (unit (length l) j) 0).
Proof.
  intros H. rewrite unit_nth by exact H. apply (is_derive_ext (fun e => nth k l 0 + (if Nat.eqb k j then e else 0))).
  { intros e. symmetry. apply nudge_nth. exact H. }
  destruct (Nat.eqb k j); auto_derive; trivial; ring.
Qed.
Lemma row_unit w m i j : (j < w)%nat -> row w m (unit w j) i = nth (w * i + j) m 0.
Proof.
  intros H. unfold row. rewrite (sum_ext w _ (fun k => (if Nat.eqb k j then 1 else 0) * nth (w * i + k) m 0)).
  { apply sum_delta. exact H. }
  intros k _. rewrite unit_nth by exact H. ring.
Qed.
Lemma row_zero w m d i : (forall k, nth k d 0 = 0) -> row w m d i = 0.
Proof. intros H. unfold row. rewrite (sum_ext w _ (fun _ => 0)); [apply sum_zero|]. intros k _. rewrite H. ring. Qed.

(** ** propagate_lagrangian *)
Lemma nudge_state l j : length l = 6%nat -> (j < 6)%nat -> sderive (fun e => state_of (nudge l j e)) 0 (state_of (unit 6 j)).
Proof.
  intros L H. rewrite <- L. unfold sderive, vderive, state_of. cbn [fst snd vx vy vz].
  repeat split; apply nudge_derive; lia.
Qed.
Lemma state_list6 s : state_of (list6 s) = s. Proof. destruct s as [[a b c] [d e f]]. reflexivity. Qed.
Lemma flow_partials mu s tof s' m : flow_jacobian mu s tof s' m -> has_partials (flows mu tof) (list6 s) 6 (fun i j => nth (6 * i + j) m 0).
Proof.
  intros [L H] j Hj. cbn in Hj.
  destruct (H (fun e => state_of (nudge (list6 s) j e)) (state_of (unit 6 j))) as [y [eps [Ep [_ [Hf D]]]]].
  { rewrite nudge_0 by (cbn; exact Hj). apply state_list6. }
  { apply nudge_state; [reflexivity|exact Hj]. }
  exists (fun e => list6 (y e)), eps. split; [exact Ep|]. split.
  { intros e He. exists (y e). split; [apply Hf; exact He|reflexivity]. }
  intros i Hi. destruct D as [[D1 [D2 D3]] [D4 [D5 D6]]]. cbn [mat_apply fst snd vx vy vz] in *.
  assert (X : forall i, row_apply m i (state_of (unit 6 j)) = nth (6 * i + j) m 0).
  { intros k. do 6 (destruct j as [|j]; [unfold row_apply, mat_entry; cbn [state_of unit map seq Nat.eqb nth fst snd vx vy vz]; ring|]). lia. }
  rewrite !X in *.
  do 6 (destruct i as [|i]; [assumption|]). lia.
Qed.
Lemma np2_flat r c data D (F : list R -> list R -> Prop) x0 : has_partials F x0 r (fun i j => nth (c * i + j) data 0) -> length x0 = c -> D = data -> length data = (r * c)%nat ->
  exists M, np2 r c D = Ret M /\ shaped r c M /\ has_partials F x0 r (entry M).
Proof.
  intros H L -> LD. destruct (np2_ok r c data) as [M [E [S HM]]]; [lia|]. exists M. split; [exact E|]. split; [exact S|].
  intros j Hj. destruct (H j Hj) as [y [eps [Ep [Hy D]]]]. exists y, eps. split; [exact Ep|]. split; [exact Hy|].
  intros i Hi. rewrite HM; [apply D; exact Hi|exact Hi|lia].
Qed.
Lemma lagrangian_partials newton mu s tof : newton_sound newton -> regular mu s -> energy mu s <> 0 ->
  match py_propagate_lagrangian newton s tof mu true with
  | Ret (RvStm s' M) => flow_at mu s tof s' /\ shaped 6 6 M /\ has_partials (flows mu tof) (list6 s) 6 (entry M)
  | Ret (Rv _ _) | UB => False
  | Throw e => e = DomainError
  end.
Proof.
  intros NS Rg NE. unfold py_propagate_lagrangian. destruct (propagate_lagrangian newton s tof mu true) as [[s' m]|e|] eqn:P; cbn [bind].
  - destruct (jac_sound newton mu s tof s' m NS Rg NE P) as [F [M [-> J]]]. cbn [snd fst].
    destruct (np2_flat 6 6 M M (flows mu tof) (list6 s)) as [A [-> [S H]]]; [apply (flow_partials _ _ _ s'); exact J|reflexivity|reflexivity|apply (proj1 J)|].
    cbn [bind]. auto.
  - unfold propagate_lagrangian, lag_solve in P. destruct s as [r0 v0]. repeat match type of P with context [if ?b then _ else _] => destruct b end;
      repeat match type of P with context [match ?x with Some _ => _ | None => _ end] => destruct x end; cbn [bind] in P; congruence.
  - unfold propagate_lagrangian, lag_solve in P. destruct s as [r0 v0]. repeat match type of P with context [if ?b then _ else _] => destruct b end;
      repeat match type of P with context [match ?x with Some _ => _ | None => _ end] => destruct x end; cbn [bind] in P; congruence.
Qed.
Lemma lagrangian_plain newton mu s tof : newton_sound newton -> regular mu s -> energy mu s <> 0 ->
  match py_propagate_lagrangian newton s tof mu false with
  | Ret (Rv r v) => flow_at mu s tof (r, v)
  | Ret (RvStm _ _) | UB => False
  | Throw e => e = DomainError
  end.
Proof.
  intros NS Rg NE. pose proof (lagrangian_partials newton mu s tof NS Rg NE) as H. unfold py_propagate_lagrangian, propagate_lagrangian in *. destruct s as [r0 v0].
  destruct (lag_solve _ _ _ _ _ _) as [l|e|]; cbn [bind] in *; [|exact H|exact H].
  cbn [snd fst] in *. destruct (np2 6 6 _) as [M|e|] eqn:E; cbn [bind] in H; [|now subst|contradiction].
  rewrite <- surjective_pairing. apply H.
Qed.
Lemma lagrangian_v_rows newton mu s stm : forall tofs rs, py_propagate_lagrangian_v newton s tofs mu stm = Ret rs ->
  length rs = length tofs /\ forall k t, nth_error tofs k = Some t -> exists x, nth_error rs k = Some x /\ propagate_lagrangian newton s t mu stm = Ret x.
Proof.
  unfold py_propagate_lagrangian_v. induction tofs as [|t l IH]; intros rs E; cbn [propagate_lagrangian_v] in E.
  - injection E as <-. split; [reflexivity|]. intros [|k] t H; discriminate.
  - destruct (propagate_lagrangian newton s t mu stm) as [x|e|] eqn:P; [|discriminate|discriminate]. cbn [bind] in E.
    destruct (propagate_lagrangian_v newton s l mu stm) as [xs|e|]; [|discriminate|discriminate]. cbn [bind] in E. injection E as <-.
    destruct (IH xs eq_refl) as [L H]. split; [cbn; congruence|]. intros [|k] t' Ht.
    + injection Ht as <-. exists x. auto.
    + apply H. exact Ht.
Qed.
Lemma lagrangian_v_partials newton mu s tofs : newton_sound newton -> regular mu s -> energy mu s <> 0 ->
  match py_propagate_lagrangian_v newton s tofs mu true with
  | Ret rs => length rs = length tofs /\ forall k t, nth_error tofs k = Some t -> exists s' m, nth_error rs k = Some (s', Some m) /\
      flow_at mu s t s' /\ length m = 36%nat /\ has_partials (flows mu t) (list6 s) 6 (fun i j => nth (6 * i + j) m 0)
  | Throw e => e = DomainError
  | UB => False
  end.
Proof.
  intros NS Rg NE. destruct (py_propagate_lagrangian_v newton s tofs mu true) as [rs|e|] eqn:E.
  - destruct (lagrangian_v_rows newton mu s true tofs rs E) as [L H]. split; [exact L|]. intros k t Hk. destruct (H k t Hk) as [[s' m] [Hn P]].
    destruct (jac_sound newton mu s t s' m NS Rg NE P) as [F [M [-> J]]]. exists s', M. split; [exact Hn|]. split; [exact F|]. split; [apply J|]. apply (flow_partials _ _ _ s'). exact J.
  - revert e E. unfold py_propagate_lagrangian_v. induction tofs as [|t l IH]; intros e E; [discriminate|]. cbn [propagate_lagrangian_v] in E.
    pose proof (lagrangian_partials newton mu s t NS Rg NE) as H. unfold py_propagate_lagrangian in H.
    destruct (propagate_lagrangian newton s t mu true) as [x|e'|]; cbn [bind] in E, H; [|congruence|discriminate].
    destruct (propagate_lagrangian_v newton s l mu true) as [xs|e'|]; cbn [bind] in E; try discriminate. apply IH. exact E.
  - revert E. unfold py_propagate_lagrangian_v. induction tofs as [|t l IH]; intros E; [discriminate|]. cbn [propagate_lagrangian_v] in E.
    pose proof (lagrangian_partials newton mu s t NS Rg NE) as H. unfold py_propagate_lagrangian in H.
    destruct (propagate_lagrangian newton s t mu true) as [x|e'|]; cbn [bind] in E, H; [|discriminate|contradiction].
    destruct (propagate_lagrangian_v newton s l mu true) as [xs|e'|]; cbn [bind] in E; try discriminate. apply IH. reflexivity.
Qed.

(** ** stark_problem.propagate_var *)
Lemma const_derive (c t : R) : is_derive (fun _ : R => c) t 0.
Proof. apply @is_derive_const. Qed.
Lemma cut_ok v i j : (0 <= i <= j)%Z -> (j <= Z.of_nat (length v))%Z -> cut v i j = Ret (firstn (Z.to_nat (j - i)) (skipn (Z.to_nat i) v)).
Proof. intros H L. unfold cut. rewrite (proj2 (Z.leb_le 0 i)), (proj2 (Z.leb_le i j)), (proj2 (Z.leb_le j _)) by lia. reflexivity. Qed.
Lemma rows_ok s w first : forall k i, (first + 10 * (i + k) + w <= length s + 10)%nat -> exists r, rows_of k (Z.of_nat i) (Z.of_nat w) (Z.of_nat first) s = Ret r /\ length r = (k * w)%nat /\
  forall a b, (a < k)%nat -> (b < w)%nat -> nth (w * a + b) r 0 = nth (first + 10 * (i + a) + b) s 0.
Proof.
  induction k as [|k IH]; intros i L.
  - exists []. repeat split. intros; lia.
  - cbn [rows_of]. rewrite cut_ok by lia. cbn [bind].
    replace (Z.to_nat (Z.of_nat first + 10 * Z.of_nat i + Z.of_nat w - (Z.of_nat first + 10 * Z.of_nat i))) with w by lia.
    replace (Z.to_nat (Z.of_nat first + 10 * Z.of_nat i)) with (first + 10 * i)%nat by lia.
    replace (Z.of_nat i + 1)%Z with (Z.of_nat (S i)) by lia. destruct (IH (S i)) as [r [-> [Lr Hr]]]; [lia|]. cbn [bind].
    assert (Lf : length (firstn w (skipn (first + 10 * i) s)) = w) by (rewrite firstn_length, skipn_length; lia).
    eexists. split; [reflexivity|]. split; [rewrite app_length, Lf, Lr; lia|].
    intros [|a] b Ha Hb.
    + rewrite app_nth1 by lia. rewrite nth_firstn_ by lia. rewrite nth_skipn_. f_equal. lia.
    + rewrite app_nth2 by lia. rewrite Lf. replace (w * S a + b - w)%nat with (w * a + b)%nat by lia. rewrite Hr by lia. f_equal. lia.
Qed.
Lemma list7_col l : length l = 7%nat -> list7 (col_of l) = l.
Proof. do 8 (destruct l as [|? l]; try discriminate). reflexivity. Qed.
Lemma col_list7 p : col_of (list7 p) = p.
Proof. destruct p as [[[a b c] [d e f]] m]. reflexivity. Qed.
Lemma nudge_col l j : length l = 7%nat -> (j < 7)%nat -> derive7 (fun e => col_of (nudge l j e)) 0 (col_of (unit 7 j)).
Proof.
  intros L H. rewrite <- L. unfold derive7, sderive, vderive, col_of. cbn [fst snd vx vy vz]. repeat split; apply nudge_derive; lia.
Qed.
Lemma fam_one (X : R -> col7 -> Prop) x0 dx (z : R -> col7) : fam_diff X x0 dx -> (exists eps, 0 < eps /\ forall e, Rabs e < eps -> X e (z e)) ->
  forall i, (i < 7)%nat -> is_derive (fun e => comp7 (z e) i) 0 (dx i).
Proof.
  intros H [eps [Ep Hz]] i Hi. rewrite <- (Rminus_0_r (dx i)).
  apply (fam_minus X (fun _ x => x = ((vzero, vzero), 0)) x0 ((vzero, vzero), 0) dx (fun _ => 0) z H); [|exists eps; split; [exact Ep|]|exact Hi].
  - intros eta He. exists 1. split; [lra|]. intros e x _ -> k Hk. replace (comp7 (vzero, vzero, 0) k - comp7 (vzero, vzero, 0) k - 0 * e) with 0 by ring.
    rewrite Rabs_R0. apply Rmult_le_pos; [lra|apply Rabs_pos].
  - intros e He. exists (z e), ((vzero, vzero), 0). split; [apply Hz; exact He|]. split; [reflexivity|].
    apply comp7_ext. intros k Hk. rewrite comp7_minus by exact Hk. idx7 k Hk; cbn; ring.
Qed.
Lemma where_ext F x0 r D D' : (forall i j, (i < r)%nat -> (j < length x0)%nat -> D i j = D' i j) -> has_partials_where F x0 r D -> has_partials_where F x0 r D'.
Proof. intros E H j y Hj X i Hi. rewrite <- E by assumption. apply H; assumption. Qed.
Lemma stark_partials tas_var mu veff x u tof : tas_var_exact tas_var -> veff <> 0 -> length x = 7%nat -> length u = 3%nat -> (exists k, nth k u 0 <> 0) ->
  match py_propagate_var tas_var vars0 mu veff x u tof with
  | Ret (y, A, B) => flies mu veff tof x u y /\ shaped 7 7 A /\ shaped 7 3 B /\
      has_partials_where (fun x' => flies mu veff tof x' u) x 7 (entry A) /\
      has_partials_where (fun u' => flies mu veff tof x u') u 7 (entry B)
  | Throw e => e = DomainError
  | UB => False
  end.
Proof.
  intros HT Hv Lx Lu Nu. unfold py_propagate_var, stark_propagate_var. destruct (Req_EM_T (nth 6 x 0) 0) as [Z|NZ]; [reflexivity|].
  unfold run. destruct (tas_var (mu :: veff :: u) 0 tof (x ++ vars0)) as [s|] eqn:E; cbn [bind]; [|reflexivity].
  destruct u as [|ux [|uy [|uz [|? ?]]]]; try discriminate.
  destruct (HT _ _ _ _ _ _ _ _ _ E) as [L77 [q [W [A [Va [Q0 [Q1 HW]]]]]]]; [rewrite app_length, Lx, vars0_len; reflexivity|].
  rewrite Rminus_0_r in *.
  rewrite cut_ok by lia. cbn [bind]. change (Z.to_nat (7 - 0)) with 7%nat. change (Z.to_nat 0) with 0%nat. cbn [skipn].
  destruct (rows_ok s 7 7 7 0) as [a [Ea [La Ha]]]; [lia|]. change (rows_of 7 0 7 7 s = Ret a) in Ea. rewrite Ea. cbn [bind].
  destruct (rows_ok s 3 14 7 0) as [b [Eb [Lb Hb]]]; [lia|]. change (rows_of 7 0 3 14 s = Ret b) in Eb. rewrite Eb. cbn [bind].
  destruct (np2_ok 7 7 a) as [MA [-> [SA HA]]]; [lia|]. cbn [bind]. destruct (np2_ok 7 3 b) as [MB [-> [SB HB]]]; [lia|]. cbn [bind].
  set (u := V ux uy uz) in *.
  assert (Un : u <> vzero). { intros U. injection U as -> -> ->. destruct Nu as [k Hk]. apply Hk. do 3 (destruct k as [|k]; [reflexivity|]). destruct k; reflexivity. }
  assert (C0 : col_of (x ++ vars0) = col_of x) by (unfold col_of; rewrite !app_nth1 by lia; reflexivity). rewrite C0 in Q0.
  assert (SD : seg_data mu veff tof u (col_of x) (col_of s) a b (list7 (thrust_field mu veff u (col_of x)))).
  { split; [exact Un|]. split; [reflexivity|]. exists q, W. split; [apply arc_stark; assumption|]. split; [apply var_stark; assumption|].
    split; [exact Q0|]. split; [exact Q1|]. split; [|split].
    - intros i j Hi Hj. destruct (HW i j Hi Hj) as [-> _]. rewrite app_nth2 by lia. rewrite Lx. replace (7 + 10 * i + j - 7)%nat with (10 * i + j)%nat by lia. apply vars0_nth; assumption.
    - intros i j Hi Hj. destruct (HW i j Hi ltac:(lia)) as [_ ->]. rewrite Ha by assumption. reflexivity.
    - intros i c Hi Hc. destruct (HW i (7 + c)%nat Hi ltac:(lia)) as [_ ->]. rewrite Hb by assumption. f_equal. lia. }
  split; [|split; [exact SA|split; [exact SB|split]]].
  - exists (col_of s). split.
    + exists q. split; [apply arc_stark; assumption|]. split; [exact Q0|exact Q1].
    + rewrite <- (list7_col (firstn 7 s)) by (rewrite firstn_length; lia). f_equal. unfold col_of. rewrite !nth_firstn_ by lia. reflexivity.
  - intros j y Hj [eps [Ep Hy]] i Hi. rewrite Lx in Hj. rewrite HA by assumption.
    pose proof (fam_step mu veff Hv (fun e p => p = col_of (nudge x j e)) (fun _ => u) (fun _ => tof) tof (col_of x) (col_of s) a b _ (comp7 (col_of (unit 7 j))) (fun _ => 0) 0 SD eq_refl) as FS.
    specialize (FS ltac:(intros c Hc; apply const_derive) ltac:(apply const_derive)).
    assert (FC : fam_diff (fun e p => p = col_of (nudge x j e)) (col_of x) (comp7 (col_of (unit 7 j)))).
    { pose proof (fam_curve (fun e => col_of (nudge x j e)) _ (nudge_col x j Lx Hj)) as FC. cbv beta in FC. rewrite nudge_0 in FC by lia. exact FC. }
    pose proof (fam_one _ _ _ (fun e => col_of (y e)) (FS FC)) as D.
    eapply (is_derive_ext_loc (fun e => comp7 (col_of (y e)) i)).
    { exists (mkposreal eps Ep). intros e He. cbn in He. unfold ball in He. cbn in He. unfold AbsRing_ball, abs, minus, plus, opp in He. cbn in He.
      destruct (Hy e) as [s' [_ ->]]; [replace e with (e + - 0) by ring; exact He|]. rewrite col_list7. reflexivity. }
    replace (nth (7 * i + j) a 0) with (ap 7 a (comp7 (col_of (unit 7 j))) i + ap 3 b (fun _ => 0) i + 0 * ap 7 a (fv (list7 (thrust_field mu veff u (col_of x)))) i).
    2:{ rewrite Rmult_0_l, Rplus_0_r. replace (ap 3 b (fun _ => 0) i) with 0 by (unfold ap; cbn; ring). rewrite Rplus_0_r.
        rewrite <- row_unit by exact Hj. unfold row, ap. apply sum_ext. intros k Hk. f_equal. }
    apply D; [|exact Hi]. exists eps. split; [exact Ep|]. intros e He. destruct (Hy e He) as [s' [F ->]]. rewrite col_list7. eauto.
  - intros j y Hj [eps [Ep Hy]] i Hi. change (length [ux; uy; uz]) with 3%nat in Hj. rewrite HB by assumption.
    pose proof (fam_step mu veff Hv (fun e p => p = col_of x) (fun e => let n := nudge [ux; uy; uz] j e in V (nth 0 n 0) (nth 1 n 0) (nth 2 n 0)) (fun _ => tof) tof (col_of x) (col_of s) a b (list7 (thrust_field mu veff u (col_of x))) (fun _ => 0) (fv (unit 3 j)) 0) as FS.
    cbv beta zeta in FS. rewrite nudge_0 in FS by exact Hj. specialize (FS SD eq_refl).
    assert (DU : u_derive (fun e => V (nth 0 (nudge [ux; uy; uz] j e) 0) (nth 1 (nudge [ux; uy; uz] j e) 0) (nth 2 (nudge [ux; uy; uz] j e) 0)) 0 (fv (unit 3 j))).
    { intros c Hc. do 3 (destruct c as [|c]; [cbn [comp3 nth vx vy vz]; apply (nudge_derive [ux; uy; uz] j); exact Hj|]). lia. }
    specialize (FS DU ltac:(apply const_derive)).
    assert (FC : fam_diff (fun (_ : R) p => p = col_of x) (col_of x) (fun _ => 0)).
    { intros eta He. exists 1. split; [lra|]. intros e p _ -> k Hk. replace (comp7 (col_of x) k - comp7 (col_of x) k - 0 * e) with 0 by ring.
      rewrite Rabs_R0. apply Rmult_le_pos; [lra|apply Rabs_pos]. }
    pose proof (fam_one _ _ _ (fun e => col_of (y e)) (FS FC)) as D.
    eapply (is_derive_ext_loc (fun e => comp7 (col_of (y e)) i)).
    { exists (mkposreal eps Ep). intros e He. cbn in He. unfold ball in He. cbn in He. unfold AbsRing_ball, abs, minus, plus, opp in He. cbn in He.
      destruct (Hy e) as [s' [_ ->]]; [replace e with (e + - 0) by ring; exact He|]. rewrite col_list7. reflexivity. }
    replace (nth (3 * i + j) b 0) with (ap 7 a (fun _ => 0) i + ap 3 b (fv (unit 3 j)) i + 0 * ap 7 a (fv (list7 (thrust_field mu veff u (col_of x)))) i).
    2:{ rewrite Rmult_0_l, Rplus_0_r. replace (ap 7 a (fun _ => 0) i) with 0 by (unfold ap; cbn; ring). rewrite Rplus_0_l. rewrite <- row_unit by exact Hj. reflexivity. }
    apply D; [|exact Hi]. exists eps. split; [exact Ep|]. intros e He. destruct (Hy e He) as [s' [F ->]]. rewrite col_list7. eauto.
Qed.
