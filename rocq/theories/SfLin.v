(** * The gradient of the forward half of the leg *)
From Coq Require Import Reals Lra Lia ZArith.
From Coquelicot Require Import Coquelicot.
From Coq Require Import List.
From Verif Require Import Outcome PartialReal RealLib KepSpec Vec3 TwoBodyModel TwoBodySpec TcModel DynModel ReynoldsModel FlowProofs FlowMain TwoBodyProofs StmProofs StmMain ReynoldsMain SfFlow SfModel SfSpec SfProofs SfMain SfGrad.
Import ListNotations.
Open Scope R_scope.

(** ** States and columns as vector spaces *)
Ltac s6 := repeat match goal with a : state |- _ => let x1 := fresh "x" in let x2 := fresh "x" in let x3 := fresh "x" in let x4 := fresh "x" in let x5 := fresh "x" in let x6 := fresh "x" in destruct a as [[x1 x2 x3] [x4 x5 x6]] end; cbv [add6 scal6 zero6 neg6 iv vadd vscal vneg vzero fst snd vx vy vz]; f_equal; f_equal; ring.
Ltac s7 := repeat match goal with a : col7 |- _ => let x1 := fresh "x" in let x2 := fresh "x" in let x3 := fresh "x" in let x4 := fresh "x" in let x5 := fresh "x" in let x6 := fresh "x" in let x7 := fresh "x" in destruct a as [[[x1 x2 x3] [x4 x5 x6]] x7] end; cbv [plus7 minus7 scal7 zero7 neg7 add6 scal6 zero6 neg6 vadd vscal vneg vzero vsub fst snd vx vy vz]; apply f_equal2; [apply f_equal2; apply vec_eq; cbn [vx vy vz]; ring|ring].
Lemma mat61 A b : mat61_dot A b = mat_apply A b. Proof. reflexivity. Qed.
Lemma ap_add M a b : mat_apply M (add6 a b) = add6 (mat_apply M a) (mat_apply M b). Proof. apply mat_apply_add. Qed.
Lemma ap_scal M k a : mat_apply M (scal6 k a) = scal6 k (mat_apply M a). Proof. apply mat_apply_scal. Qed.
Lemma ap_nil a : mat_apply [] a = zero6. Proof. unfold mat_apply, row_apply, mat_entry, zero6, vzero. cbn. f_equal; f_equal; ring. Qed.
Lemma ap_zero M : mat_apply M zero6 = zero6. Proof. unfold mat_apply, row_apply, zero6, vzero. cbn. f_equal; f_equal; ring. Qed.
Fixpoint sum6 (n : nat) (f : nat -> state) : state := match n with O => zero6 | S k => add6 (sum6 k f) (f k) end.
Fixpoint sum7 (n : nat) (f : nat -> col7) : col7 := match n with O => zero7 | S k => plus7 (sum7 k f) (f k) end.
Lemma sum6_ext n f g : (forall j, (j < n)%nat -> f j = g j) -> sum6 n f = sum6 n g.
Proof. induction n as [|n IH]; intros H; cbn; [reflexivity|]. rewrite IH by (intros; apply H; lia). rewrite (H n) by lia. reflexivity. Qed.
Lemma sum7_ext n f g : (forall j, (j < n)%nat -> f j = g j) -> sum7 n f = sum7 n g.
Proof. induction n as [|n IH]; intros H; cbn; [reflexivity|]. rewrite IH by (intros; apply H; lia). rewrite (H n) by lia. reflexivity. Qed.
Lemma sum6_add n f g : sum6 n (fun j => add6 (f j) (g j)) = add6 (sum6 n f) (sum6 n g).
Proof. induction n as [|n IH]; cbn [sum6]; [s6|]. rewrite IH. generalize (sum6 n f), (sum6 n g), (f n), (g n). intros. s6. Qed.
Lemma ap_sum M n f : mat_apply M (sum6 n f) = sum6 n (fun j => mat_apply M (f j)).
Proof. induction n as [|n IH]; cbn [sum6]; [apply ap_zero|]. rewrite ap_add, IH. reflexivity. Qed.
Lemma sum7_split n f g : sum7 n (fun j => (f j, g j)) = (sum6 n f, sum_n n g).
Proof. induction n as [|n IH]; cbn [sum7 sum6 sum_n]; [reflexivity|]. rewrite IH. reflexivity. Qed.

(** ** The linear map of a chain of arcs *)
Fixpoint gsum (Mcs : list (list R)) (ws : list vec) : state :=
  match Mcs, ws with Mc :: l, w :: ws' => add6 (mat_apply Mc (iv w)) (gsum l ws') | _, _ => zero6 end.
Lemma chain_cons M rest : rest <> [] -> chain (M :: rest) = mat66_dot (nth 0 (chain rest) []) M :: chain rest.
Proof.
  intros N. cbn [chain]. destruct (chain rest) as [|Mc l] eqn:E; [|reflexivity]. exfalso. destruct rest as [|M1 r]; [contradiction|]. cbn in E. destruct (chain r); discriminate E.
Qed.
Lemma chain_len Ms : length (chain Ms) = length Ms.
Proof. induction Ms as [|M r IH]; [reflexivity|]. cbn [chain length]. destruct (chain r); cbn in *; lia. Qed.
Lemma sum_f_head Mcs fs : sum_f Mcs fs = add6 (mat_apply (nth 0 Mcs []) (nth 0 fs zero6)) (sum_f (skipn 1 Mcs) (skipn 1 fs)).
Proof.
  destruct Mcs as [|M l], fs as [|f fs]; cbn [sum_f skipn nth]; rewrite ?mat61.
  - rewrite ap_nil. s6.
  - rewrite ap_nil. s6.
  - rewrite ap_zero. destruct l; cbn [sum_f skipn]; s6.
  - reflexivity.
Qed.
Section Lin.
Variable nseg : nat.
Variable del : nat -> R.
Notation dd0 := (ddt nseg del).
Lemma lin_closed ws : forall Mf dd dx, length Mf = S (length ws) ->
  let Mc := chain (map fst Mf) in let f := map snd Mf in
  lin nseg del Mf ws dd dx = add6 (mat_apply (nth 0 Mc []) dx) (add6 (gsum (skipn 1 Mc) ws) (add6 (scal6 dd (mat_apply (nth 1 Mc []) (nth 0 f zero6)))
    (add6 (scal6 dd0 (sum_f (skipn 2 Mc) (skipn 1 f))) (scal6 (dd0 / 2) (nth (length ws) f zero6))))).
Proof.
  induction ws as [|w ws IH]; intros [|[M f] Mf] dd dx L; cbn in L; try lia; cbv zeta.
  - destruct Mf; [|cbn in L; lia]. cbn [map fst snd lin chain nth skipn length sum_f gsum]. rewrite ap_nil. set (z := mat_apply M dx). clearbody z. s6.
  - cbn [lin]. rewrite (IH Mf dd0 _ ltac:(lia)). cbv zeta. cbn [map fst snd length]. rewrite chain_cons by (destruct Mf; [cbn in L; lia|discriminate]).
    set (C := chain (map fst Mf)). set (F := map snd Mf). change (skipn 1 (mat66_dot (nth 0 C []) M :: C)) with C. change (skipn 1 (f :: F)) with F. change (skipn 2 (mat66_dot (nth 0 C []) M :: C)) with (skipn 1 C).
    change (nth 1 (mat66_dot (nth 0 C []) M :: C) []) with (nth 0 C []). cbn [nth].
    rewrite (sum_f_head (skipn 1 C) F). rewrite dot_apply, !ap_add, !ap_scal.
    assert (LC : length C = S (length ws)) by (unfold C; rewrite chain_len, map_length; lia).
    assert (GC : gsum C (w :: ws) = add6 (mat_apply (nth 0 C []) (iv w)) (gsum (skipn 1 C) ws)) by (destruct C; [cbn in LC; lia|reflexivity]). rewrite GC.
    assert (N1 : nth 0 (skipn 1 C) [] = nth 1 C []) by (destruct C; [cbn in LC; lia|destruct C; reflexivity]). rewrite N1.
    assert (S2 : skipn 1 (skipn 1 C) = skipn 2 C) by (destruct C; [cbn in LC; lia|destruct C; reflexivity]). rewrite S2.
    generalize (mat_apply (nth 0 C []) (mat_apply M dx)), (mat_apply (nth 0 C []) f), (mat_apply (nth 0 C []) (iv w)), (gsum (skipn 1 C) ws), (mat_apply (nth 1 C []) (nth 0 F zero6)), (sum_f (skipn 2 C) (skipn 1 F)), (nth (length ws) F zero6).
    intros. s6.
Qed.
Lemma iv_vsum f : iv (vsum nseg del f) = sum6 (W nseg) (fun j => scal6 (del j) (iv (f j))).
Proof.
  unfold vsum, lsum. induction (W nseg) as [|k IH]; [reflexivity|]. cbn [sum_n sum6]. rewrite <- IH. destruct (f k). unfold iv, add6, scal6, vadd, vscal, vzero. cbn. f_equal; f_equal; ring.
Qed.
Lemma gsum_cols sch : forall Mcs, gsum Mcs (map (fun s => vsum nseg del (snd s)) sch) = sum6 (W nseg) (fun j => scal6 (del j) (grad_col Mcs sch j)).
Proof.
  assert (Z : forall n g, sum6 n (fun j => scal6 (g j) zero6) = zero6). { intros n g. induction n as [|n IH]; [reflexivity|]. cbn [sum6]. rewrite IH. generalize (g n). intros. s6. }
  induction sch as [|d sch IH]; intros [|Mc l]; cbn [map gsum grad_col]; try (rewrite Z; reflexivity).
  rewrite IH, iv_vsum, ap_sum, <- sum6_add. apply sum6_ext. intros j _. rewrite ap_scal. change (mat61_dot Mc (iv (snd d j))) with (mat_apply Mc (iv (snd d j))). generalize (mat_apply Mc (iv (snd d j))), (grad_col l sch j), (del j). intros. s6.
Qed.
End Lin.

(** ** gradients_multiple_impulses *)
Lemma triples_vec n : forall th, length th = (3 * n)%nat -> triples th = map (thr_vec th) (seq 0 n).
Proof.
  induction n as [|n IH]; intros th L; [destruct th; [reflexivity|cbn in L; lia]|].
  destruct th as [|x [|y [|z th]]]; cbn [length] in L; try lia. cbn [triples seq map]. f_equal. rewrite IH by lia. rewrite <- seq_shift, map_map. apply map_ext. intros i.
  unfold thr_vec. replace (3 * S i)%nat with (S (S (S (3 * i)))) by lia. reflexivity.
Qed.
Lemma triples_len n th : length th = (3 * n)%nat -> length (triples th) = n.
Proof. intros L. rewrite (triples_vec n th L), map_length, seq_length. reflexivity. Qed.
Definition halfleg (mu T a : R) (dt : R -> R) (e : R) (us : list vec) (p q : col7) : Prop :=
  legs (gseg (nonsing mu) mu (dt e / 2) (kfc T dt e) (mfc T a dt e)) us p q.
Definition cols_apply (n : nat) (cols : list col7) (d : list R) : col7 := sum7 n (fun j => scal7 (nth j d 0) (nth j cols zero7)).
Lemma nth_map_seq {A} (f : nat -> A) n j d : (j < n)%nat -> nth j (map f (seq 0 n)) d = f j.
Proof. intros L. rewrite (nth_indep _ d (f 0%nat)) by (rewrite map_length, seq_length; exact L). rewrite map_nth, seq_nth by exact L. reflexivity. Qed.
Lemma nth_last {A} (l : list A) b d k : length l = k -> nth k (l ++ [b]) d = b.
Proof. intros <-. rewrite app_nth2, Nat.sub_diag by lia. reflexivity. Qed.
Lemma col_sum A (dx : state) : 
  mat_apply A dx = add6 (scal6 (vx (fst dx)) (col_of A 0)) (add6 (scal6 (vy (fst dx)) (col_of A 1)) (add6 (scal6 (vz (fst dx)) (col_of A 2))
   (add6 (scal6 (vx (snd dx)) (col_of A 3)) (add6 (scal6 (vy (snd dx)) (col_of A 4)) (scal6 (vz (snd dx)) (col_of A 5)))))).
Proof. destruct dx as [[d1 d2 d3] [d4 d5 d6]]. cbv [mat_apply row_apply mat_entry col_of add6 scal6 vadd vscal fst snd vx vy vz]. cbn [Nat.mul Nat.add]. f_equal; f_equal; ring. Qed.
Lemma gmi_jac newton mu T a n th dth dt (ddt' : R) x m dx (dm : R) rvm grad q0 : newton_sound newton -> 0 < mu ->
  gradients_multiple_impulses newton (th 0) (x 0) (m 0) T (T * dt 0) a (dt 0) mu = Ret (Some (rvm, grad)) ->
  (forall e, length (th e) = (3 * n)%nat) -> derive_list th 0 dth -> sderive x 0 dx -> is_derive m 0 dm -> is_derive dt 0 ddt' -> 0 < dt 0 -> 0 <= T -> 0 < m 0 ->
  halfleg mu T a dt 0 (triples (th 0)) (x 0, m 0) q0 ->
  exists q, q 0 = q0 /\ near (fun e => halfleg mu T a dt e (triples (th e)) (x e, m e) (q e)) /\
  derive7 q 0 (plus7 (cols_apply 7 rvm (list7 (dx, dm))) (cols_apply (3 * n + 1) grad (dth ++ [INR n * ddt']))) /\ length rvm = 7%nat /\ length grad = (3 * n + 1)%nat.
Proof.
  intros NS Mu G Lth [Ld Dth] Dx Dm Ddt DT T0 M0 H0. rewrite Lth in Ld.
  unfold gradients_multiple_impulses in G. cbv zeta in G. rewrite (triples_len n) in G by apply Lth. destruct (Nat.eqb_spec n 0) as [->|Nn].
  - injection G as <- <-. exists (fun e => (x e, m e)).
    assert (TN : forall e, triples (th e) = []) by (intros e; specialize (Lth e); destruct (th e); [reflexivity|discriminate Lth]).
    unfold halfleg in *. rewrite TN in H0. cbn in H0. split; [symmetry; exact H0|]. split.
    + exists 1. split; [lra|]. intros e _. rewrite TN. reflexivity.
    + split; [|split; reflexivity]. destruct dth; [|discriminate Ld].
      replace (plus7 _ _) with ((dx, dm) : col7); [split; assumption|]. unfold cols_apply, list7. cbn [sum7 nth eye7 app Nat.mul Nat.add fst snd]. destruct dx as [[d1 d2 d3] [d4 d5 d6]]. cbv [plus7 scal7 zero7 add6 scal6 zero6 vadd vscal vzero fst snd vx vy vz]. f_equal; [f_equal; f_equal; ring|ring].
  - set (uc := map (fun i e => thr_vec (th e) i) (seq 0 n)).
    assert (UA : forall e, triples (th e) = at_ e uc) by (intros e; rewrite (triples_vec n _ (Lth e)); unfold at_, uc; rewrite map_map; reflexivity).
    assert (UL : length uc = n) by (unfold uc; rewrite map_length, seq_length; reflexivity).
    set (del := fun j => if Nat.ltb j (3 * n) then nth j dth 0 else if Nat.eqb j (3 * n) then dm else INR n * ddt').
    assert (DL : forall j, (j < 3 * n)%nat -> del j = nth j dth 0) by (intros j J; unfold del; replace (Nat.ltb j (3 * n)) with true by (symmetry; apply Nat.ltb_lt, J); reflexivity).
    assert (D3 : del (3 * n)%nat = dm). { unfold del. rewrite Nat.ltb_irrefl, Nat.eqb_refl. reflexivity. }
    assert (D4 : del (3 * n + 1)%nat = INR n * ddt'). { unfold del. replace (Nat.ltb (3 * n + 1) (3 * n)) with false by (symmetry; apply Nat.ltb_ge; lia). replace (Nat.eqb (3 * n + 1) (3 * n)) with false by (symmetry; apply Nat.eqb_neq; lia). reflexivity. }
    assert (NP : 0 < INR n) by (apply lt_0_INR; lia).
    assert (DD : SfGrad.ddt n del = ddt') by (unfold SfGrad.ddt; rewrite D4; field; lra).
    assert (UD : udiff del 0 uc).
    { unfold uc. assert (GU : forall k i, (i + k <= n)%nat -> udiff del i (map (fun i e => thr_vec (th e) i) (seq i k))).
      { induction k as [|k IH]; intros i Hi; cbn [seq map udiff]; [exact I|]. split; [|apply IH; lia]. unfold tri, thr_vec. rewrite !DL by lia. split; [|split]; cbn [vx vy vz]; apply Dth. }
      apply GU. lia. }
    rewrite UA in G. destruct (schedule n 0 (at_ 0 uc) T (T * dt 0) a (m 0) (dm0 n)) as [[[sch mN] dmN]|] eqn:SC; [|discriminate G].
    destruct (arcs newton n 0 (map fst sch) (dt 0) mu (x 0)) as [Mf| |] eqn:AR; cbn [bind] in G; try discriminate.
    pose proof (f_equal (fun o => match o with Ret (Some p) => fst p | _ => rvm end) G) as G1. pose proof (f_equal (fun o => match o with Ret (Some p) => snd p | _ => grad end) G) as G2. cbv beta iota in G1, G2. cbn [fst snd] in G1, G2. clear G. subst rvm grad.
    unfold halfleg in H0. rewrite UA in H0. destruct uc as [|u0 uc'] eqn:EU; [cbn in UL; lia|]. rewrite <- EU in *.
    assert (okf : forall x t y, nonsing mu x -> flow_at mu x t y -> nonsing mu y) by (intros x' t' y'; apply nonsing_flow).
    assert (AC : forall e, exists u us, at_ e uc = u :: us) by (intros e; rewrite EU; cbn; eauto).
    assert (R0 : runc mu T a dt 0 (at_ 0 uc) (dt 0 / 2) (x 0) (m 0) q0).
    { destruct (AC 0) as [u [us E]]. rewrite E in *. apply legs_run in H0; assumption. }
    assert (DH : is_derive (fun e => dt e / 2) 0 (ddt' / 2)). { eapply der_to; [apply (der_div dt (fun _ => 2)); [exact Ddt|apply der_const|lra]|]. cbv beta. field. }
    destruct (run_der newton NS mu T a n del dt ltac:(rewrite DD; exact Ddt) DT T0 ltac:(lia) uc 0 sch mN dmN Mf x m (fun e => dt e / 2) dx (dm0 n) (ddt' / 2) q0 SC ltac:(lia) AR (fun _ => eq_refl) ltac:(intros Q; rewrite Q in EU; discriminate EU) R0 UD Dx ltac:(rewrite lsum_dm0, D3 by lia; exact Dm) M0 DH) as [q [Q0 [NQ [DQ1 [DQ2 [QM [QL QS]]]]]]].
    exists q. split; [exact Q0|]. split; [|split].
    + apply (near_imp _ _ NQ). intros e Rn. unfold halfleg. rewrite UA. destruct (AC e) as [u [us E]]. rewrite E in *. apply legs_run; assumption.
    + set (Mc := chain (map fst Mf)) in *. set (f := map snd Mf) in *.
      rewrite (lin_closed n del (map (fun s => vsum n del (snd s)) sch) Mf (ddt' / 2) dx) in DQ1 by (rewrite map_length; lia). cbv zeta in DQ1. fold Mc f in DQ1.
      rewrite map_length, QS, UL, gsum_cols, DD in DQ1. unfold lsum in DQ2.
      match goal with |- derive7 q 0 ?z => replace z with ((add6 (mat_apply (nth 0 Mc []) dx) (add6 (sum6 (W n) (fun j => scal6 (del j) (grad_col (skipn 1 Mc) sch j))) (add6 (scal6 (ddt' / 2) (mat_apply (nth 1 Mc []) (nth 0 f zero6)))
    (add6 (scal6 ddt' (sum_f (skipn 2 Mc) (skipn 1 f))) (scal6 (ddt' / 2) (nth n f zero6))))), sum_n (W n) (fun j => dmN j * del j)) : col7) end; [split; [exact DQ1|exact DQ2]|]. clear DQ1 DQ2.
      unfold cols_apply at 2. replace (3 * n + 1)%nat with (S (3 * n)) by lia. cbn [sum7].
      rewrite (sum7_ext (3 * n) _ (fun j => (scal6 (del j) (grad_col (skipn 1 Mc) sch j), dmN j * del j))).
      2:{ intros j J. rewrite app_nth1 by lia. rewrite app_nth1 by (rewrite map_length, seq_length; lia). rewrite nth_map_seq by exact J. rewrite DL by exact J. unfold scal7. cbn [fst snd]. f_equal. ring. }
      rewrite sum7_split. rewrite (nth_last dth) by exact Ld. rewrite (nth_last (map _ (seq 0 (3 * n)))) by (rewrite map_length, seq_length; reflexivity).
      replace (W n) with (S (S (3 * n))) by (unfold W; lia). cbn [sum6 sum_n]. replace (S (3 * n)) with (3 * n + 1)%nat by lia. rewrite D3, D4. change mat61_dot with mat_apply.
      rewrite (col_sum (nth 0 Mc []) dx).
      generalize (sum6 (3 * n) (fun j => scal6 (del j) (grad_col (skipn 1 Mc) sch j))), (sum_n (3 * n) (fun j => dmN j * del j)). intros S6 S1.
      generalize (grad_col (skipn 1 Mc) sch (3 * n)), (grad_col (skipn 1 Mc) sch (3 * n + 1)), (mat_apply (nth 1 Mc []) (nth 0 f zero6)), (sum_f (skipn 2 Mc) (skipn 1 f)), (nth n f zero6), (dmN (3 * n)%nat), (dmN (3 * n + 1)%nat), (nth 0 Mc []). intros g1 g2 g3 g4 g5 g6 g7 g8.
      unfold cols_apply, list7. cbn [sum7 nth map seq app fst snd].
      generalize (col_of g8 0), (col_of g8 1), (col_of g8 2), (col_of g8 3), (col_of g8 4), (col_of g8 5).
      clear - NP. intros. repeat match goal with s : state |- _ => let x1 := fresh "x" in let x2 := fresh "x" in let x3 := fresh "x" in let x4 := fresh "x" in let x5 := fresh "x" in let x6 := fresh "x" in destruct s as [[x1 x2 x3] [x4 x5 x6]] end. cbv [plus7 scal7 zero7 add6 scal6 zero6 vadd vscal vzero fst snd vx vy vz]. replace 0.5 with (/ 2) by lra. f_equal; [f_equal; f_equal; field; lra|field; lra].
    + split; [reflexivity|]. rewrite app_length, map_length, seq_length. reflexivity.
Qed.
