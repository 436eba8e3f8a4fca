(** * C30: the gradient of the mismatch *)
From Coq Require Import Reals Lra Lia ZArith.
From Coquelicot Require Import Coquelicot.
From Coq Require Import List.
From Verif Require Import Outcome PartialReal RealLib KepSpec Vec3 TwoBodyModel TwoBodySpec TcModel DynModel ReynoldsModel FlowProofs FlowMain TwoBodyProofs StmProofs StmMain ReynoldsMain SfFlow SfModel SfSpec SfProofs SfMain SfGrad SfLin.
Import ListNotations.
Open Scope R_scope.

(** ** Linear combinations of columns *)
Fixpoint comb (cols : list col7) (ds : list R) : col7 :=
  match cols, ds with c :: cs, d :: ds' => plus7 (scal7 d c) (comb cs ds') | _, _ => zero7 end.
Lemma comb_app a : forall b c d, length a = length c -> comb (a ++ b) (c ++ d) = plus7 (comb a c) (comb b d).
Proof.
  induction a as [|x a IH]; intros b [|y c] d L; cbn in L; try lia; cbn [app comb].
  - generalize (comb b d). intros. s7.
  - rewrite IH by lia. generalize (scal7 y x), (comb a c), (comb b d). intros. s7.
Qed.
Lemma sum7_shift n f : sum7 (S n) f = plus7 (f 0%nat) (sum7 n (fun j => f (S j))).
Proof. induction n as [|n IH]; [cbn; generalize (f 0%nat); intros; s7|]. change (sum7 (S (S n)) f) with (plus7 (sum7 (S n) f) (f (S n))). rewrite IH. cbn [sum7]. generalize (f 0%nat), (sum7 n (fun j => f (S j))), (f (S n)). intros. s7. Qed.
Lemma cols_comb n : forall cols d, length cols = n -> length d = n -> cols_apply n cols d = comb cols d.
Proof.
  induction n as [|n IH]; intros [|c cols] [|x d] L1 L2; cbn in L1, L2; try lia; [reflexivity|].
  unfold cols_apply. rewrite sum7_shift. cbn [nth comb]. rewrite <- (IH cols d) by lia. reflexivity.
Qed.
Lemma comb_map (h : col7 -> col7) : (forall a b, h (plus7 a b) = plus7 (h a) (h b)) -> (forall k a, h (scal7 k a) = scal7 k (h a)) -> h zero7 = zero7 ->
  forall cols ds, comb (map h cols) ds = h (comb cols ds).
Proof. intros H1 H2 H3. induction cols as [|c cols IH]; intros [|d ds]; cbn [map comb]; try (symmetry; exact H3). rewrite IH, H1, H2. reflexivity. Qed.
Lemma comb_flip cols ds : comb (map row_flip cols) ds = row_flip (comb cols ds).
Proof. apply comb_map; [intros a b; unfold row_flip, neg_v; s7|intros k a; unfold row_flip, neg_v; s7|unfold row_flip, neg_v; s7]. Qed.
Lemma comb_neg cols ds : comb (map neg7 cols) ds = neg7 (comb cols ds).
Proof. apply comb_map; [intros a b; s7|intros k a; s7|s7]. Qed.

(** ** Groups of three, last first *)
Lemma flip3_app {A} k : forall (l r : list A), length l = (3 * k)%nat -> flip3 (l ++ r) = flip3 l ++ flip3 r.
Proof.
  induction k as [|k IH]; intros l r L; [destruct l; [reflexivity|cbn in L; lia]|].
  destruct l as [|x [|y [|z l]]]; cbn [length] in L; try lia. cbn [app flip3]. rewrite (IH l r) by lia. reflexivity.
Qed.
Lemma flip3_len {A} k : forall (l : list A), length l = (3 * k)%nat -> length (flip3 l) = (3 * k)%nat.
Proof. induction k as [|k IH]; intros l L; [destruct l; [reflexivity|cbn in L; lia]|]. destruct l as [|x [|y [|z l]]]; cbn [length] in L; try lia. cbn [flip3 length]. rewrite IH by lia. lia. Qed.
Lemma triples_app k : forall l r, length l = (3 * k)%nat -> triples (l ++ r) = triples l ++ triples r.
Proof. induction k as [|k IH]; intros l r L; [destruct l; [reflexivity|cbn in L; lia]|]. destruct l as [|x [|y [|z l]]]; cbn [length] in L; try lia. cbn [app triples]. rewrite (IH l r) by lia. reflexivity. Qed.
Lemma triples_untriples us : triples (untriples us) = us.
Proof. induction us as [|[x y z] us IH]; [reflexivity|]. cbn [untriples flat_map app triples vx vy vz]. fold (untriples us). rewrite IH. reflexivity. Qed.
Lemma untriples_len us : length (untriples us) = (3 * length us)%nat.
Proof. induction us as [|u us IH]; [reflexivity|]. cbn [untriples flat_map app length]. fold (untriples us). rewrite IH. lia. Qed.
Lemma rev3_len k l : length l = (3 * k)%nat -> length (reverse_throttles l) = (3 * k)%nat.
Proof. intros L. unfold reverse_throttles. rewrite untriples_len, rev_length, (triples_len k l L). reflexivity. Qed.
Lemma triples_rev3 l : triples (reverse_throttles l) = rev (triples l). Proof. apply triples_untriples. Qed.
Lemma split_last3 {A} k (d : list A) : length d = (3 * S k)%nat -> exists d' a b c, d = d' ++ [a; b; c] /\ length d' = (3 * k)%nat.
Proof.
  intros L. exists (firstn (3 * k) d). pose proof (firstn_skipn (3 * k) d) as E. pose proof (skipn_length (3 * k) d) as SL. pose proof (firstn_length (3 * k) d) as FL.
  destruct (skipn (3 * k) d) as [|a [|b [|c [|]]]]; cbn [length] in SL; try lia. exists a, b, c. split; [symmetry; exact E|]. lia.
Qed.
Lemma rev3_last l a b c k : length l = (3 * k)%nat -> reverse_throttles (l ++ [a; b; c]) = [a; b; c] ++ reverse_throttles l.
Proof. intros L. unfold reverse_throttles. rewrite (triples_app k) by exact L. cbn [triples]. rewrite rev_app_distr. reflexivity. Qed.
Lemma comb_rev k : forall cols d, length cols = (3 * k)%nat -> length d = (3 * k)%nat -> comb (flip3 (rev cols)) d = comb cols (reverse_throttles d).
Proof.
  induction k as [|k IH]; intros cols d L1 L2; [destruct cols; [destruct d; [reflexivity|cbn in L2; lia]|cbn in L1; lia]|].
  destruct cols as [|x [|y [|z cols]]]; cbn [length] in L1; try lia. destruct (split_last3 k d L2) as [d' [a [b [c [-> L3]]]]].
  rewrite (rev3_last _ _ _ _ k L3). cbn [rev]. rewrite <- !app_assoc. cbn [app]. rewrite (flip3_app k) by (rewrite rev_length; lia). cbn [flip3].
  rewrite comb_app by (rewrite (flip3_len k) by (rewrite rev_length; lia); lia). rewrite (IH cols d') by lia. cbn [comb]. generalize (comb cols (reverse_throttles d')), (scal7 a x), (scal7 b y), (scal7 c z). intros. s7.
Qed.
(** the entries of a list whose groups are reversed *)
Lemma rev3_nth k : forall l i j, length l = (3 * k)%nat -> (i < k)%nat -> (j < 3)%nat -> nth (3 * i + j) (reverse_throttles l) 0 = nth (3 * (k - 1 - i) + j) l 0.
Proof.
  induction k as [|k IH]; intros l i j L I J; [lia|]. destruct (split_last3 k l L) as [d' [a [b [c [-> L3]]]]]. rewrite (rev3_last _ _ _ _ k L3).
  destruct i as [|i].
  - replace (3 * (S k - 1 - 0) + j)%nat with (3 * k + j)%nat by lia. rewrite (app_nth2 d') by lia. replace (3 * k + j - length d')%nat with j by lia.
    rewrite app_nth1 by (cbn; lia). cbn [Nat.mul Nat.add]. reflexivity.
  - rewrite app_nth2 by (cbn; lia). replace (3 * S i + j - length [a; b; c])%nat with (3 * i + j)%nat by (cbn; lia). rewrite (IH d') by lia. rewrite app_nth1 by lia. f_equal. lia.
Qed.
Lemma derive_rev3 k th dth : (forall e, length (th e) = (3 * k)%nat) -> derive_list th 0 dth -> derive_list (fun e => reverse_throttles (th e)) 0 (reverse_throttles dth).
Proof.
  intros L [L1 D]. rewrite L in L1. split; [rewrite (rev3_len k), (rev3_len k) by auto; reflexivity|]. intros j.
  destruct (le_lt_dec (3 * k) j) as [G|G].
  - apply (is_derive_ext (fun _ => 0)); [intros e; symmetry; apply nth_overflow; rewrite (rev3_len k) by auto; exact G|]. rewrite nth_overflow by (rewrite (rev3_len k) by auto; exact G). apply der_const.
  - pose proof (Nat.div_mod j 3 ltac:(lia)) as E. pose proof (Nat.mod_upper_bound j 3 ltac:(lia)) as B. assert (I : (j / 3 < k)%nat) by (apply Nat.div_lt_upper_bound; lia). rewrite E.
    rewrite (rev3_nth k) by auto. apply (is_derive_ext (fun e => nth (3 * (k - 1 - j / 3) + j mod 3) (th e) 0)); [intros e; symmetry; apply rev3_nth; auto|]. apply D.
Qed.
Lemma derive_firstn k th dth : derive_list th 0 dth -> derive_list (fun e => firstn k (th e)) 0 (firstn k dth).
Proof.
  intros [L D]. split; [rewrite !firstn_length, L; reflexivity|]. intros j.
  assert (N : forall l, nth j (firstn k l) 0 = if Nat.ltb j k then nth j l 0 else 0).
  { intros l. destruct (Nat.ltb_spec j k) as [G|G]; [|apply nth_overflow; rewrite firstn_length; lia]. rewrite <- (firstn_skipn k l) at 2. destruct (le_lt_dec (length l) j) as [H|H].
    - rewrite (nth_overflow (firstn k l)) by (rewrite firstn_length; lia). rewrite firstn_skipn. rewrite nth_overflow by lia. reflexivity.
    - rewrite app_nth1 by (rewrite firstn_length; lia). reflexivity. }
  rewrite N. apply (is_derive_ext (fun e => if Nat.ltb j k then nth j (th e) 0 else 0)); [intros e; symmetry; apply N|]. destruct (Nat.ltb j k); [apply D|apply der_const].
Qed.
Lemma nth_skipn0 k j : forall (l : list R), nth j (skipn k l) 0 = nth (k + j) l 0.
Proof. induction k as [|k IH]; intros l; [reflexivity|]. destruct l as [|x l]; [cbn; destruct j; reflexivity|]. cbn [skipn Nat.add nth]. apply IH. Qed.
Lemma derive_skipn k th dth : derive_list th 0 dth -> derive_list (fun e => skipn k (th e)) 0 (skipn k dth).
Proof. intros [L D]. split; [rewrite !skipn_length, L; reflexivity|]. intros j. rewrite nth_skipn0. apply (is_derive_ext (fun e => nth (k + j) (th e) 0)); [intros e; symmetry; apply nth_skipn0|]. apply D. Qed.
Lemma triples_firstn n k : forall th, length th = (3 * n)%nat -> (k <= n)%nat -> triples (firstn (3 * k) th) = firstn k (throttles n th).
Proof.
  intros th L K. rewrite <- (firstn_skipn (3 * k) th) in L at 1. unfold throttles. rewrite <- (triples_vec n th) by (rewrite <- (firstn_skipn (3 * k) th); exact L).
  rewrite <- (firstn_skipn (3 * k) th) at 2. assert (LF : length (firstn (3 * k) th) = (3 * k)%nat) by (rewrite firstn_skipn in L; rewrite firstn_length; lia).
  rewrite (triples_app k) by exact LF. rewrite firstn_app, (triples_len k) by exact LF. rewrite Nat.sub_diag. cbn [firstn]. rewrite app_nil_r. symmetry. apply firstn_all2. rewrite (triples_len k) by exact LF. lia.
Qed.
Lemma triples_skipn n k : forall th, length th = (3 * n)%nat -> (k <= n)%nat -> triples (skipn (3 * k) th) = skipn k (throttles n th).
Proof.
  intros th L K. rewrite <- (firstn_skipn (3 * k) th) in L at 1. unfold throttles. rewrite <- (triples_vec n th) by (rewrite <- (firstn_skipn (3 * k) th); exact L).
  rewrite <- (firstn_skipn (3 * k) th) at 2. assert (LF : length (firstn (3 * k) th) = (3 * k)%nat) by (rewrite firstn_skipn in L; rewrite firstn_length; lia).
  rewrite (triples_app k) by exact LF. rewrite skipn_app, (triples_len k) by exact LF. rewrite Nat.sub_diag. cbn [skipn]. rewrite (skipn_all2 (triples (firstn (3 * k) th))); [reflexivity|]. rewrite (triples_len k) by exact LF. lia.
Qed.

(** ** The arrays *)
Lemma row_len cols i : length (row_of cols i) = length cols. Proof. apply map_length. Qed.
Lemma flat_len cols k : forall a, length (flat_map (row_of cols) (seq a k)) = (k * length cols)%nat.
Proof. induction k as [|k IH]; intros a; [reflexivity|]. cbn [seq flat_map]. rewrite app_length, row_len, IH. lia. Qed.
Lemma flat_nth cols k : forall a i j, (i < k)%nat -> (j < length cols)%nat -> nth (length cols * i + j) (flat_map (row_of cols) (seq a k)) 0 = nth j (row_of cols (a + i)) 0.
Proof.
  induction k as [|k IH]; intros a i j I J; [lia|]. cbn [seq flat_map]. destruct i as [|i].
  - rewrite Nat.mul_0_r, !Nat.add_0_r. rewrite app_nth1 by (rewrite row_len; exact J). reflexivity.
  - rewrite app_nth2 by (rewrite row_len; lia). rewrite row_len. replace (length cols * S i + j - length cols)%nat with (length cols * i + j)%nat by lia.
    rewrite IH by lia. f_equal. f_equal. lia.
Qed.
Lemma row_sum cols ds i : (i < 7)%nat -> row (length cols) (array_of cols) ds i = sum_n (length cols) (fun j => nth j (row_of cols i) 0 * nth j ds 0).
Proof. intros I. unfold row, array_of. apply sum_ext. intros j J. rewrite flat_nth by assumption. reflexivity. Qed.
Lemma sum7_parts n f : sum7 n f = ((V (sum_n n (fun j => vx (fst (fst (f j))))) (sum_n n (fun j => vy (fst (fst (f j))))) (sum_n n (fun j => vz (fst (fst (f j))))),
  V (sum_n n (fun j => vx (snd (fst (f j))))) (sum_n n (fun j => vy (snd (fst (f j))))) (sum_n n (fun j => vz (snd (fst (f j)))))), sum_n n (fun j => snd (f j))).
Proof. induction n as [|n IH]; [reflexivity|]. cbn [sum7 sum_n]. rewrite IH. reflexivity. Qed.
Lemma array_apply cols ds : apply7 (length cols) (array_of cols) ds = cols_apply (length cols) cols ds.
Proof.
  unfold apply7. rewrite !row_sum by lia. unfold cols_apply. rewrite sum7_parts.
  assert (N : forall (g : col7 -> R) j, g zero7 = 0 -> nth j (map g cols) 0 = g (nth j cols zero7)) by (intros g j G; rewrite <- G at 1; apply map_nth).
  unfold row_of. f_equal; [f_equal; f_equal|]; apply sum_ext; intros j _; rewrite N by reflexivity; cbn [scal7 scal6 vscal fst snd vx vy vz]; ring.
Qed.
Lemma array_len cols : length (array_of cols) = (7 * length cols)%nat. Proof. apply flat_len. Qed.

(** ** The two halves and the segments of the specification *)
Lemma nonsing_neg mu s : nonsing mu s <-> nonsing mu (neg_v s).
Proof.
  assert (F : forall s, nonsing mu s -> nonsing mu (neg_v s)).
  { intros [r v] [[M H] E]. split; [split; [exact M|]|].
    - intros Z. apply H. unfold ang_mom, neg_v, cross, vneg, vzero in *. cbn in *. injection Z as Z1 Z2 Z3. f_equal; lra.
    - unfold energy, neg_v, dot, vneg in *. cbn in *. intros Z. apply E. rewrite <- Z. f_equal. field. }
  split; [apply F|]. intros H. apply F in H. replace (neg_v (neg_v s)) with s in H; [exact H|]. destruct s as [r [v1 v2 v3]]. unfold neg_v, vneg. cbn. rewrite !Ropp_involutive. reflexivity.
Qed.
Lemma neg_neg s : neg_v (neg_v s) = s. Proof. destruct s as [r [v1 v2 v3]]. unfold neg_v, vneg. cbn. rewrite !Ropp_involutive. reflexivity. Qed.
Lemma flip_flip p : row_flip (row_flip p) = p. Proof. destruct p as [s m]. unfold row_flip. cbn. rewrite neg_neg. reflexivity. Qed.
Lemma flow_neg mu s t s' : 0 < mu -> flow_at mu s t s' <-> flow_at mu (neg_v s) (- t) (neg_v s').
Proof.
  intros Mu. destruct s as [r v], s' as [r' v']. split; intros F.
  - apply (flow_reverse mu r v t r' v' Mu F).
  - apply (flow_reverse mu _ _ _ _ _ Mu) in F. rewrite Ropp_involutive in F. pose proof (neg_neg (r, v)) as N1. pose proof (neg_neg (r', v')) as N2. unfold neg_v in N1, N2. cbn in *. injection N1 as N1. injection N2 as N2. rewrite N1, N2 in F. exact F.
Qed.
Lemma legs_iff (s1 s2 : vec -> col7 -> col7 -> Prop) (h : col7 -> col7) : (forall p, h (h p) = p) -> (forall u p q, s1 u p q <-> s2 u (h p) (h q)) -> forall us p q, legs s1 us p q <-> legs s2 us (h p) (h q).
Proof.
  intros H S. induction us as [|u us IH]; intros p q; cbn.
  - split; [intros ->; reflexivity|intros E; rewrite <- (H q), E, H; reflexivity].
  - split; intros [z [A B]].
    + exists (h z). split; [apply S, A|apply IH, B].
    + exists (h z). rewrite <- (H z) in A, B. split; [apply S, A|apply IH, B].
Qed.
Lemma fwd_gen ok mu T isp dt e us p q : isp * G0 <> 0 -> legs (segment ok mu (T * dt e) (isp * G0) (dt e)) us p q <-> legs (gseg ok mu (dt e / 2) (kfc T dt e) (mfc T (1 / isp / G0) dt e)) us p q.
Proof.
  intros N. assert (N1 : isp <> 0) by (intros Z; apply N; rewrite Z; ring). assert (N2 : G0 <> 0) by (intros Z; apply N; rewrite Z; ring).
  apply (legs_iff _ _ (fun p => p)); [reflexivity|]. intros u [x m] [y m']. unfold segment, gseg, kfc, mfc. cbn [fst snd].
  replace (m * exp (- norm (vscal (T * dt e / m) u) * (1 / isp / G0))) with (m * exp (- norm (vscal (T * dt e / m) u) / (isp * G0))); [reflexivity|]. f_equal. f_equal. field. split; assumption.
Qed.
Lemma bck_gen ok mu T isp dt e us p q : (forall s, ok s <-> ok (neg_v s)) -> 0 < mu -> isp * G0 <> 0 -> legs (segment_back ok mu (T * dt e) (isp * G0) (dt e)) us p q <-> legs (gseg ok mu (dt e / 2) (kfc T dt e) (mfc T (- (1 / isp / G0)) dt e)) us (row_flip p) (row_flip q).
Proof.
  intros OKN Mu N. assert (N1 : isp <> 0) by (intros Z; apply N; rewrite Z; ring). assert (N2 : G0 <> 0) by (intros Z; apply N; rewrite Z; ring).
  apply (legs_iff _ _ row_flip flip_flip). intros u [x m] [y m']. unfold segment_back, gseg, kfc, mfc, row_flip. cbn [fst snd].
  assert (EM : m * exp (- norm (vscal (T * dt e / m) u) * - (1 / isp / G0)) = m * exp (norm (vscal (T * dt e / m) u) / (isp * G0))) by (f_equal; f_equal; field; split; assumption). rewrite EM.
  assert (KN : forall a, kick (neg_v a) (vscal (T * dt e / m) u) = neg_v (kick a (vneg (vscal (T * dt e / m) u)))).
  { intros [r [v1 v2 v3]]. unfold kick, neg_v, vadd, vneg, vscal. cbn. f_equal. f_equal; ring. }
  split.
  - intros [a [A [B [C [D E]]]]]. exists (neg_v a). rewrite KN. rewrite <- (Ropp_involutive (dt e / 2)).
    exact (conj (proj1 (OKN _) A) (conj (proj1 (flow_neg _ _ _ _ Mu) B) (conj (proj1 (OKN _) C) (conj (proj1 (flow_neg _ _ _ _ Mu) D) E)))).
  - intros [a [A [B [C [D E]]]]]. exists (neg_v a). rewrite <- (neg_neg a) in B, C, D. rewrite KN in C, D. rewrite <- (Ropp_involutive (dt e / 2)) in B, D.
    exact (conj (proj2 (OKN _) A) (conj (proj2 (flow_neg _ _ _ _ Mu) B) (conj (proj2 (OKN _) C) (conj (proj2 (flow_neg _ _ _ _ Mu) D) E)))).
Qed.
Lemma fwd_half mu T isp dt e us p q : isp * G0 <> 0 -> legs (segment (nonsing mu) mu (T * dt e) (isp * G0) (dt e)) us p q <-> halfleg mu T (1 / isp / G0) dt e us p q.
Proof. apply fwd_gen. Qed.
Lemma bck_half mu T isp dt e us p q : 0 < mu -> isp * G0 <> 0 -> legs (segment_back (nonsing mu) mu (T * dt e) (isp * G0) (dt e)) us p q <-> halfleg mu T (- (1 / isp / G0)) dt e us (row_flip p) (row_flip q).
Proof. apply bck_gen. apply nonsing_neg. Qed.
Lemma sder_neg c d : sderive c 0 d -> sderive (fun e => neg_v (c e)) 0 (neg_v d).
Proof. intros [A [B1 [B2 B3]]]. split; [exact A|]. split; [|split]; cbn; apply der_opp; assumption. Qed.
Lemma der7_flip q d : derive7 q 0 d -> derive7 (fun e => row_flip (q e)) 0 (row_flip d).
Proof. intros [A B]. split; [apply (sder_neg (fun e => fst (q e)) (fst d)), A|exact B]. Qed.
Lemma der7_minus p q a b : derive7 p 0 a -> derive7 q 0 b -> derive7 (fun e => minus7 (p e) (q e)) 0 (minus7 a b).
Proof.
  intros [[A1 A2] A3] [[B1 B2] B3]. split; [split|]; cbn [minus7 fst snd].
  - apply (vder_sub (fun e => fst (fst (p e))) (fun e => fst (fst (q e)))); assumption.
  - apply (vder_sub (fun e => snd (fst (p e))) (fun e => snd (fst (q e)))); assumption.
  - apply (der_minus (fun e => snd (p e)) (fun e => snd (q e))); assumption.
Qed.
Lemma gmi_len newton th n x m T c a dt mu rvm grad : length th = (3 * n)%nat -> gradients_multiple_impulses newton th x m T c a dt mu = Ret (Some (rvm, grad)) -> length rvm = 7%nat /\ length grad = (3 * n + 1)%nat.
Proof.
  intros L G. unfold gradients_multiple_impulses in G. cbv zeta in G. rewrite (triples_len n) in G by exact L. destruct (Nat.eqb_spec n 0) as [->|Nn].
  - injection G as <- <-. split; reflexivity.
  - destruct (schedule n 0 _ T c a m (dm0 n)) as [[[sch mN] dmN]|]; [|discriminate G]. destruct (arcs newton n 0 (map fst sch) dt mu x) as [Mf| |]; cbn [bind] in G; try discriminate.
    pose proof (f_equal (fun o => match o with Ret (Some p) => fst p | _ => rvm end) G) as G1. pose proof (f_equal (fun o => match o with Ret (Some p) => snd p | _ => grad end) G) as G2. cbv beta iota in G1, G2. cbn [fst snd] in G1, G2. rewrite <- G1, <- G2.
    split; [reflexivity|]. rewrite app_length, map_length, seq_length. reflexivity.
Qed.
(** the columns of the initial state and mass of the backward half *)
Lemma rvm_bck cols dx (dm : R) : length cols = 7%nat -> comb (bck_rvm (map row_flip cols)) (list7 (dx, dm)) = neg7 (row_flip (comb cols (list7 (neg_v dx, dm)))).
Proof.
  intros L. destruct cols as [|c0 [|c1 [|c2 [|c3 [|c4 [|c5 [|c6 [|]]]]]]]]; cbn in L; try lia. clear L.
  destruct dx as [[d1 d2 d3] [d4 d5 d6]]. unfold bck_rvm, list7, neg_v. cbn [map firstn skipn app comb fst snd vneg vx vy vz]. unfold row_flip, neg_v. s7.
Qed.
Lemma bck_len newton th n x m T c a dt mu rvm grad : length th = (3 * n)%nat -> gradients_bck newton th x m T c a dt mu = Ret (Some (rvm, grad)) ->
  exists rvm0 g0, gradients_multiple_impulses newton (reverse_throttles th) (neg_v x) m T c (- a) dt mu = Ret (Some (rvm0, g0)) /\ length rvm0 = 7%nat /\ length g0 = (3 * n + 1)%nat /\
  rvm = bck_rvm (map row_flip rvm0) /\ grad = flip3 (rev (map neg7 (firstn (3 * n) (map row_flip g0)))) ++ skipn (3 * n) (map row_flip g0) /\ length rvm = 7%nat.
Proof.
  intros L H. unfold gradients_bck in H. destruct (gradients_multiple_impulses newton (reverse_throttles th) (neg_v x) m T c (- a) dt mu) as [[[rvm0 g0]|]| |] eqn:G; cbn [bind] in H; try discriminate.
  rewrite L in H. pose proof (f_equal (fun o => match o with Ret (Some p) => fst p | _ => rvm end) H) as G1. pose proof (f_equal (fun o => match o with Ret (Some p) => snd p | _ => grad end) H) as G2. cbv beta iota in G1, G2. cbn [fst snd] in G1, G2.
  destruct (gmi_len _ _ n _ _ _ _ _ _ _ _ _ ltac:(apply rev3_len; exact L) G) as [L1 L2].
  exists rvm0, g0. split; [reflexivity|]. split; [exact L1|]. split; [exact L2|]. split; [symmetry; exact G1|]. split; [symmetry; exact G2|]. rewrite <- G1.
  destruct rvm0 as [|c0 [|c1 [|c2 [|c3 [|c4 [|c5 [|c6 [|]]]]]]]]; cbn in L1; try lia. reflexivity.
Qed.
Lemma last_col {A} (d : A) k (l : list A) : length l = (k + 1)%nat -> l = firstn k l ++ [nth k l d].
Proof.
  intros L. rewrite <- (firstn_skipn k l) at 1. f_equal. pose proof (skipn_length k l) as SL. rewrite (skipn_S_cons d k l) in * by lia. cbn [length] in SL. destruct (skipn (S k) l); [reflexivity|cbn in SL; lia].
Qed.
Theorem grad_jacobian newton l y0 A B G : newton_sound newton -> proper l -> leg_mismatch (nonsing (s_mu l)) l y0 -> compute_mc_grad newton l = Ret (Some (A, B, G)) ->
  mismatch_jacobian (nonsing (s_mu l)) l y0 A B G.
Proof.
  intros NS P [pf [pb [FE [BE Y]]]] H. destruct (proper_c l P) as [Nn [Dt [Cn Ve]]]. destruct P as [[N1 [N2 [N3 N4]]] [LE [Mu [T0 [I0 [Tf [Ms Mf]]]]]]].
  unfold compute_mc_grad in H. cbv zeta in H. set (nf := Z.to_nat (s_fwd l)) in *. set (nb := Z.to_nat (s_nseg l - s_fwd l)) in *. set (n := Z.to_nat (s_nseg l)) in *.
  assert (NN : (nf + nb = n)%nat) by (unfold nf, nb, n; lia).
  assert (Lf : forall th : list R, length th = (3 * n)%nat -> length (firstn (3 * nf) th) = (3 * nf)%nat) by (intros th L; rewrite firstn_length; lia).
  assert (Lb : forall th : list R, length th = (3 * n)%nat -> length (skipn (3 * nf) th) = (3 * nb)%nat) by (intros th L; rewrite skipn_length; lia).
  destruct (gradients_multiple_impulses newton (firstn (3 * nf) (s_thr l)) (s_rvs l) (s_ms l) (s_T l) (s_T l * (s_tof l / IZR (s_nseg l))) (1 / s_isp l / G0) (s_tof l / IZR (s_nseg l)) (s_mu l)) as [[[rvf gf]|]| |] eqn:GF; cbn [bind] in H; try discriminate.
  2:{ destruct (gradients_bck _ _ _ _ _ _ _ _ _) as [?| |]; discriminate H. }
  destruct (gradients_bck newton (skipn (3 * nf) (s_thr l)) (s_rvf l) (s_mf l) (s_T l) (s_T l * (s_tof l / IZR (s_nseg l))) (1 / s_isp l / G0) (s_tof l / IZR (s_nseg l)) (s_mu l)) as [[[rvb gb]|]| |] eqn:GB; cbn [bind] in H; try discriminate.
  assert (HA : A = array_of rvf /\ B = array_of rvb /\ G = array_of (firstn (3 * nf) gf ++ firstn (3 * nb) gb ++ [sub7 (scal7 (IZR (s_fwd l)) (scal7 (/ IZR (s_nseg l)) (nth (3 * nf) gf zero7))) (scal7 (IZR (s_nseg l - s_fwd l)) (scal7 (/ IZR (s_nseg l)) (nth (3 * nb) gb zero7)))])).
  { split; [|split]; [pose proof (f_equal (fun o => match o with Ret (Some p) => fst (fst p) | _ => A end) H) as E|pose proof (f_equal (fun o => match o with Ret (Some p) => snd (fst p) | _ => B end) H) as E|pose proof (f_equal (fun o => match o with Ret (Some p) => snd p | _ => G end) H) as E]; cbv beta iota in E; cbn [fst snd] in E; symmetry; exact E. }
  clear H. destruct HA as [-> [-> ->]].
  destruct (gmi_len _ _ nf _ _ _ _ _ _ _ _ _ (Lf _ LE) GF) as [L1 L2]. destruct (bck_len _ _ nb _ _ _ _ _ _ _ _ _ (Lb _ LE) GB) as [rv0 [g0 [GM [L3 [L4 [-> [EG L5]]]]]]].
  set (gn := flip3 (rev (map neg7 (firstn (3 * nb) (map row_flip g0))))) in *.
  assert (Lgn : length gn = (3 * nb)%nat) by (unfold gn; apply (flip3_len nb); rewrite rev_length, map_length, firstn_length, map_length; lia).
  assert (GB1 : firstn (3 * nb) gb = gn). { rewrite EG, firstn_app, Lgn, Nat.sub_diag. cbn [firstn]. rewrite app_nil_r. apply firstn_all2. lia. }
  assert (GB2 : nth (3 * nb) gb zero7 = row_flip (nth (3 * nb) g0 zero7)).
  { rewrite EG, app_nth2, Lgn, Nat.sub_diag by lia. rewrite (skipn_S_cons zero7) by (rewrite map_length; lia). cbn [nth]. replace zero7 with (row_flip zero7) at 1 by (unfold row_flip, neg_v; s7). apply map_nth. }
  rewrite GB1, GB2. set (tcol := sub7 _ _).
  assert (LC : length (firstn (3 * nf) gf ++ gn ++ [tcol]) = (3 * n + 1)%nat) by (rewrite !app_length, firstn_length, Lgn; cbn [length]; lia).
  unfold mismatch_jacobian. cbv zeta. fold n. rewrite !array_len, L1, L5, LC. split; [reflexivity|]. split; [reflexivity|]. split; [reflexivity|].
  intros xs ms th xf mf tof dxs dms dth dxf dmf dtof E1 E2 E3 E4 E5 E6 Dxs Dms Lth Dth Dxf Dmf Dtof.
  set (dt := fun e => tof e / IZR (s_nseg l)).
  assert (DD : is_derive dt 0 (dtof / IZR (s_nseg l))). { unfold dt. eapply der_to; [apply (der_div tof (fun _ => IZR (s_nseg l))); [exact Dtof|apply der_const|lra]|]. cbv beta. field. lra. }
  assert (DT : 0 < dt 0) by (unfold dt; rewrite E6; exact Dt).
  assert (V : s_isp l * G0 <> 0) by lra.
  assert (HF : halfleg (s_mu l) (s_T l) (1 / s_isp l / G0) dt 0 (triples (firstn (3 * nf) (th 0))) (xs 0, ms 0) pf).
  { apply fwd_half; [exact V|]. rewrite (triples_firstn n nf) by (auto; lia). unfold forward_end in FE. unfold dt. rewrite E1, E2, E3, E6. exact FE. }
  assert (HB : halfleg (s_mu l) (s_T l) (- (1 / s_isp l / G0)) dt 0 (triples (reverse_throttles (skipn (3 * nf) (th 0)))) (neg_v (xf 0), mf 0) (row_flip pb)).
  { rewrite triples_rev3, (triples_skipn n nf) by (auto; lia). apply (bck_half (s_mu l) (s_T l) (s_isp l) dt 0 _ (xf 0, mf 0) pb Mu V). unfold backward_end in BE. unfold dt. rewrite E3, E4, E5, E6. exact BE. }
  destruct (gmi_jac newton (s_mu l) (s_T l) (1 / s_isp l / G0) nf (fun e => firstn (3 * nf) (th e)) (firstn (3 * nf) dth) dt (dtof / IZR (s_nseg l)) xs ms dxs dms rvf gf pf NS Mu) as [qf [Q0 [QN [QD _]]]]; try assumption.
  { unfold dt. rewrite E1, E2, E3, E6. exact GF. }
  { intros e. apply Lf, Lth. }
  { apply derive_firstn, Dth. }
  { rewrite E2. exact Ms. }
  destruct (gmi_jac newton (s_mu l) (s_T l) (- (1 / s_isp l / G0)) nb (fun e => reverse_throttles (skipn (3 * nf) (th e))) (reverse_throttles (skipn (3 * nf) dth)) dt (dtof / IZR (s_nseg l)) (fun e => neg_v (xf e)) mf (neg_v dxf) dmf rv0 g0 (row_flip pb) NS Mu) as [qb [P0 [PN [PD _]]]]; try assumption.
  { unfold dt. rewrite E3, E4, E5, E6. exact GM. }
  { intros e. apply rev3_len, Lb, Lth. }
  { apply (derive_rev3 nb); [intros e; apply Lb, Lth|apply derive_skipn, Dth]. }
  { apply sder_neg, Dxf. }
  { rewrite E5. exact Mf. }
  destruct (near_and _ _ QN PN) as [eps [EP NE]].
  exists (fun e => minus7 (qf e) (row_flip (qb e))), eps. split; [exact EP|]. split; [rewrite Q0, P0, flip_flip; symmetry; exact Y|]. split.
  - intros e He. destruct (NE e He) as [HF' HB']. exists (qf e), (row_flip (qb e)). split; [|split; [|reflexivity]].
    + unfold forward_end. cbv zeta. cbn [with_inputs s_rvs s_ms s_thr s_rvf s_mf s_tof s_T s_isp s_mu s_nseg s_fwd s_bck]. fold nf n. change (tof e / IZR (s_nseg l)) with (dt e). apply fwd_half; [exact V|]. rewrite <- (triples_firstn n nf) by (auto; lia). exact HF'.
    + unfold backward_end. cbv zeta. cbn [with_inputs s_rvs s_ms s_thr s_rvf s_mf s_tof s_T s_isp s_mu s_nseg s_fwd s_bck]. fold nf n. change (tof e / IZR (s_nseg l)) with (dt e). apply bck_half; [exact Mu|exact V|]. rewrite flip_flip. rewrite <- (triples_skipn n nf) by (auto; lia). rewrite triples_rev3 in HB'. exact HB'.
  - pose proof (der7_minus _ _ _ _ QD (der7_flip _ _ PD)) as D. cbv beta in D.
    match type of D with derive7 _ _ ?z => match goal with |- derive7 _ _ ?w => replace w with z; [exact D|] end end. clear D.
    destruct Dth as [Ldth _]. rewrite Lth in Ldth.
    assert (AP : forall k cols ds, length cols = k -> apply7 k (array_of cols) ds = cols_apply k cols ds) by (intros k cols ds <-; apply array_apply).
    rewrite (AP 7%nat rvf) by exact L1. rewrite (AP 7%nat (bck_rvm (map row_flip rv0))) by exact L5. rewrite (AP (3 * n + 1)%nat) by exact LC.
    assert (L7 : forall p, length (list7 p) = 7%nat) by reflexivity.
    assert (Ldf : length (firstn (3 * nf) dth) = (3 * nf)%nat) by (apply Lf; exact Ldth). assert (Lds : length (skipn (3 * nf) dth) = (3 * nb)%nat) by (apply Lb; exact Ldth).
    assert (Ldr : length (reverse_throttles (skipn (3 * nf) dth)) = (3 * nb)%nat) by (apply rev3_len; exact Lds).
    rewrite (cols_comb 7 rvf), (cols_comb 7 (bck_rvm (map row_flip rv0))), (cols_comb 7 rv0), (cols_comb (3 * nf + 1) gf), (cols_comb (3 * nb + 1) g0), (cols_comb (3 * n + 1)) by (try assumption; try apply L7; rewrite ?app_length; cbn [length]; lia).
    rewrite rvm_bck by exact L3.
    rewrite <- (firstn_skipn (3 * nf) dth) at 3. rewrite <- app_assoc.
    rewrite (comb_app (firstn (3 * nf) gf)) by (rewrite !firstn_length; lia). rewrite (comb_app gn) by (rewrite Lgn, Lb by exact Ldth; reflexivity).
    unfold gn at 1. rewrite (comb_rev nb) by (rewrite ?map_length, ?firstn_length, ?map_length, ?Lb by exact Ldth; lia). rewrite comb_neg, firstn_map, comb_flip.
    rewrite (last_col zero7 (3 * nf) gf L2) at 1. rewrite (last_col zero7 (3 * nb) g0 L4) at 1.
    rewrite (comb_app (firstn (3 * nf) gf)) by (rewrite !firstn_length; lia). rewrite (comb_app (firstn (3 * nb) g0)) by (rewrite (rev3_len nb) by (apply Lb; exact Ldth); rewrite firstn_length; lia).
    cbn [comb]. unfold tcol.
    replace (INR nf) with (IZR (s_fwd l)) by (unfold nf; rewrite INR_IZR_INZ, Z2Nat.id by lia; reflexivity).
    replace (INR nb) with (IZR (s_nseg l - s_fwd l)) by (unfold nb; rewrite INR_IZR_INZ, Z2Nat.id by lia; reflexivity).
    unfold Rdiv. change sub7 with minus7. unfold row_flip, neg_v.
    generalize (comb rvf (list7 (dxs, dms))), (comb (firstn (3 * nf) gf) (firstn (3 * nf) dth)), (nth (3 * nf) gf zero7), (comb rv0 (list7 (fst dxf, vneg (snd dxf), dmf))), (comb (firstn (3 * nb) g0) (reverse_throttles (skipn (3 * nf) dth))), (nth (3 * nb) g0 zero7), (/ IZR (s_nseg l)), (IZR (s_fwd l)), (IZR (s_nseg l - s_fwd l)).
    clear. intros. s7.
Qed.

(** ** When a gradient is returned *)
Lemma good_coast newton mu dt x t y : newton_ok newton -> newton_sound newton -> good_arc mu dt x -> flow_at mu x t y -> Rabs t <= Rabs dt -> exists M, propagate_lagrangian newton x t mu true = Ret (y, Some M).
Proof.
  intros NK NS G F L. assert (Q : exists s' m, propagate_lagrangian newton x t mu true = Ret (s', m) /\ flow_at mu x t s').
  { destruct G as [G|[G H]]; [apply (ellipse_flow newton mu x t true NK G)|apply (lag_hyp_total newton mu x t true NK G)].
    eapply Rle_trans; [|exact H]. apply Rmult_le_compat_l; [unfold mean_motion; apply sqrt_pos|exact L]. }
  destruct Q as [s' [m [E F']]]. rewrite (flow_functional _ _ _ _ _ F F'). destruct (good_nonsing mu dt x G) as [Rg En].
  destruct (jac_sound newton mu x t s' m NS Rg En E) as [_ [M [-> _]]]. exists M. exact E.
Qed.
Section Total.
Variable newton : (R -> R * R) -> R -> R -> R -> option R.
Hypothesis NK : newton_ok newton.
Hypothesis NS : newton_sound newton.
Variables (mu T a dt : R) (n : nat).
Hypothesis T0 : 0 <= T.
Hypothesis D0 : 0 < dt.
Let kf := kfc T (fun _ => dt) 0.
Let mf := mfc T a (fun _ => dt) 0.
Lemma mf_eq m u : 0 < m -> mf m u = m * exp (- (T * dt / m * norm u) * a) /\ 0 < mf m u.
Proof.
  intros M. assert (E : mf m u = m * exp (- (T * dt / m * norm u) * a)).
  { unfold mf, mfc. rewrite norm_vscal, Rabs_right; [reflexivity|]. apply Rle_ge, Rmult_le_pos; [nra|left; apply Rinv_0_lt_compat, M]. }
  split; [exact E|]. rewrite E. apply Rmult_lt_0_compat; [exact M|apply exp_pos].
Qed.
Lemma arcs_total us : forall i m dm d x q, List.Forall (fun u => u <> vzero) us -> 0 < m -> (i + length us = n)%nat -> (us <> [] -> d = if Nat.eqb i 0 then dt / 2 else dt) -> (us = [] -> i <> 0%nat) ->
  run (good_arc mu dt) mu (dt / 2) kf mf us d x m q ->
  exists sch mN dmN Mf, schedule n i us T (T * dt) a m dm = Some (sch, mN, dmN) /\ arcs newton n i (map fst sch) dt mu x = Ret Mf.
Proof.
  induction us as [|u us IH]; intros i m dm d x q NZ M L Hd Hi Rn.
  - destruct Rn as [A [B D]]. destruct (good_coast newton mu dt x _ _ NK NS A B (half_dt dt)) as [Mx E]. exists [], m, dm. eexists. split; [reflexivity|]. cbn [map arcs].
    cbn in L. replace (Nat.eqb i 0) with false by (symmetry; apply Nat.eqb_neq; apply Hi; reflexivity). replace (Nat.eqb i n) with true by (symmetry; apply Nat.eqb_eq; lia). cbn [orb]. rewrite E. cbn. reflexivity.
  - destruct Rn as [y [A [B D]]]. inversion NZ as [|? ? U NZ']; subst. specialize (Hd ltac:(discriminate)). cbn [length] in *.
    assert (Ld : Rabs d <= Rabs dt) by (rewrite Hd; destruct (Nat.eqb i 0); [apply half_dt|apply Rle_refl]).
    destruct (good_coast newton mu dt x _ _ NK NS A B Ld) as [Mx E]. destruct (mf_eq m u M) as [ME MP].
    cbn [schedule]. cbv zeta. change (vx u * vx u + vy u * vy u + vz u * vz u) with (dot u u). fold (norm u). rewrite pdiv_some by (apply Rgt_not_eq, norm_pos, U). cbn [obind].
    rewrite <- ME. replace (dt / 2 + dt / 2) with dt in D by field.
    match goal with |- context [schedule ?n ?i us T (T * dt) a (mf m u) ?dm1] => destruct (IH i (mf m u) dm1 dt (kick y (kf m u)) q NZ' MP ltac:(lia) (fun _ => eq_refl) ltac:(lia) D) as [sch [mN [dmN [Mf [S1 A1]]]]] end.
    rewrite S1. cbn [obind fst snd]. eexists. eexists. eexists. eexists. split; [reflexivity|]. cbn [map fst arcs].
    replace (Nat.eqb i (i + S (length us))) with false by (symmetry; apply Nat.eqb_neq; lia). rewrite Bool.orb_false_r, <- Hd, E. cbn [bind fst snd].
    unfold kick, kf, kfc in A1. unfold vadd in A1. rewrite A1. cbn [bind]. reflexivity.
Qed.
Lemma gmi_total th x m q : (exists k, length th = (3 * k)%nat) -> List.Forall (fun u => u <> vzero) (triples th) -> 0 < mu -> 0 < m -> (n = length (triples th)) -> legs (gseg (good_arc mu dt) mu (dt / 2) kf mf) (triples th) (x, m) q ->
  exists r, gradients_multiple_impulses newton th x m T (T * dt) a dt mu = Ret (Some r).
Proof.
  intros [k Lk] NZ Mu M Hn Lg. unfold gradients_multiple_impulses. cbv zeta. rewrite <- Hn. destruct (Nat.eqb_spec n 0) as [E|E]; [eexists; reflexivity|].
  destruct (triples th) as [|u us] eqn:ET; [cbn in Hn; lia|].
  apply legs_run in Lg; [|exact Mu|intros x' t' y'; apply good_flow].
  destruct (arcs_total (u :: us) 0 m (dm0 n) (dt / 2) x q NZ M ltac:(lia) (fun _ => eq_refl) ltac:(discriminate) Lg) as [sch [mN [dmN [Mf [S1 A1]]]]].
  rewrite S1, A1. cbn [bind]. eexists. reflexivity.
Qed.
Lemma sched_none us : forall i c m dm, (exists u, In u us /\ u = vzero) -> schedule n i us T c a m dm = None.
Proof.
  induction us as [|u us IH]; intros i c m dm [w [I W]]; [destruct I|]. cbn [schedule]. cbv zeta. change (vx u * vx u + vy u * vy u + vz u * vz u) with (dot u u). fold (norm u).
  destruct (Req_EM_T (norm u) 0) as [Z|Z]; [rewrite Z, pdiv_none; reflexivity|]. rewrite pdiv_some by exact Z. cbn [obind]. rewrite IH; [reflexivity|].
  destruct I as [->|I]; [exfalso; apply Z; rewrite W; apply norm_0|]. exists w. split; assumption.
Qed.
Lemma gmi_none th x m c' : n = length (triples th) -> (exists u, In u (triples th) /\ u = vzero) -> gradients_multiple_impulses newton th x m T c' a dt mu = Ret None.
Proof.
  intros Hn E. unfold gradients_multiple_impulses. cbv zeta. rewrite <- Hn. destruct (Nat.eqb_spec n 0) as [Z|Z].
  - destruct E as [u [I _]]. destruct (triples th); [destruct I|cbn in Hn; lia].
  - rewrite sched_none by exact E. reflexivity.
Qed.
End Total.
Lemma good_neg mu dt s : good_arc mu dt s <-> good_arc mu dt (neg_v s).
Proof.
  assert (F : forall s, good_arc mu dt s -> good_arc mu dt (neg_v s)).
  { intros [r v] G. assert (EE : energy mu (neg_v (r, v)) = energy mu (r, v)) by (unfold energy, neg_v, dot, vneg; cbn; f_equal; field).
    assert (RR : regular mu (r, v) -> regular mu (neg_v (r, v))).
    { intros [M H]. split; [exact M|]. intros Z. apply H. unfold ang_mom, neg_v, cross, vneg, vzero in *. cbn in *. injection Z as Z1 Z2 Z3. f_equal; lra. }
    destruct G as [[A B]|[[A B] C]]; [left; split; [apply RR, A|rewrite EE; exact B]|right; split; [split; [apply RR, A|rewrite EE; exact B]|]].
    unfold mean_motion, sma in *. rewrite EE. exact C. }
  split; [apply F|]. intros H. apply F in H. rewrite neg_neg in H. exact H.
Qed.
Lemma legs_mono (s1 s2 : vec -> col7 -> col7 -> Prop) : (forall u p q, s1 u p q -> s2 u p q) -> forall us p q, legs s1 us p q -> legs s2 us p q.
Proof. intros H. induction us as [|u us IH]; intros p q; cbn; [trivial|]. intros [z [A B]]. exists z. split; [apply H, A|apply IH, B]. Qed.
Lemma good_leg l y : leg_mismatch (good_arc (s_mu l) (leg_dt l)) l y -> leg_mismatch (nonsing (s_mu l)) l y.
Proof.
  intros [pf [pb [F [B Y]]]]. exists pf, pb. split; [|split; [|exact Y]].
  - unfold forward_end in *. apply (legs_mono (segment (good_arc (s_mu l) (leg_dt l)) (s_mu l) (s_T l * leg_dt l) (s_isp l * G0) (leg_dt l))); [|exact F].
    intros u p q [a [A1 [A2 [A3 A4]]]]. exists a. exact (conj (good_nonsing _ _ _ A1) (conj A2 (conj (good_nonsing _ _ _ A3) A4))).
  - unfold backward_end in *. apply (legs_mono (segment_back (good_arc (s_mu l) (leg_dt l)) (s_mu l) (s_T l * leg_dt l) (s_isp l * G0) (leg_dt l))); [|exact B].
    intros u p q [a [A1 [A2 [A3 A4]]]]. exists a. exact (conj (good_nonsing _ _ _ A1) (conj A2 (conj (good_nonsing _ _ _ A3) A4))).
Qed.
Lemma thr_forall n th (P : vec -> Prop) : (forall i, (i < n)%nat -> P (thr_vec th i)) -> List.Forall P (throttles n th).
Proof. intros H. apply Forall_forall. intros u I. apply in_map_iff in I. destruct I as [i [<- I]]. apply in_seq in I. apply H. lia. Qed.
Lemma sub_forall {A} (P : A -> Prop) l l' : (forall x, In x l' -> In x l) -> List.Forall P l -> List.Forall P l'.
Proof. intros S F. rewrite Forall_forall in *. auto. Qed.
Lemma in_firstn {A} k (l : list A) x : In x (firstn k l) -> In x l. Proof. intros I. rewrite <- (firstn_skipn k l). apply in_or_app. left. exact I. Qed.
Lemma in_skipn {A} k (l : list A) x : In x (skipn k l) -> In x l. Proof. intros I. rewrite <- (firstn_skipn k l). apply in_or_app. right. exact I. Qed.

Section TotalLeg.
Variable newton : (R -> R * R) -> R -> R -> R -> option R.
Hypothesis NK : newton_ok newton.
Hypothesis NS : newton_sound newton.
Variable l : sf.
Hypothesis P : proper l.
Let n := Z.to_nat (s_nseg l).
Let nf := Z.to_nat (s_fwd l).
Let us := throttles n (s_thr l).
Let dt := leg_dt l.
Let GF := gradients_multiple_impulses newton (firstn (3 * nf) (s_thr l)) (s_rvs l) (s_ms l) (s_T l) (s_T l * dt) (1 / s_isp l / G0) dt (s_mu l).
Let GB := gradients_bck newton (skipn (3 * nf) (s_thr l)) (s_rvf l) (s_mf l) (s_T l) (s_T l * dt) (1 / s_isp l / G0) dt (s_mu l).
Lemma leg_facts : (nf <= n)%nat /\ length (s_thr l) = (3 * n)%nat /\ triples (firstn (3 * nf) (s_thr l)) = firstn nf us /\ triples (skipn (3 * nf) (s_thr l)) = skipn nf us.
Proof.
  destruct P as [[N1 [N2 [N3 N4]]] [LE _]]. assert (nf <= n)%nat by (unfold nf, n; lia). split; [assumption|]. split; [exact LE|]. split; [apply triples_firstn; assumption|apply triples_skipn; assumption].
Qed.
Lemma fwd_some pf : forward_end (good_arc (s_mu l) dt) l pf -> List.Forall (fun u => u <> vzero) (firstn nf us) -> exists r, GF = Ret (Some r).
Proof.
  intros F NZ. destruct (proper_c l P) as [_ [Dt [_ Ve]]]. destruct leg_facts as [L1 [L2 [L3 _]]]. destruct P as [_ [_ [Mu [T0 [_ [_ [Ms _]]]]]]].
  apply (gmi_total newton NK NS (s_mu l) (s_T l) (1 / s_isp l / G0) dt (length (triples (firstn (3 * nf) (s_thr l)))) T0 Dt _ _ _ pf); try assumption; try reflexivity.
  - exists nf. rewrite firstn_length. lia.
  - rewrite L3. exact NZ.
  - rewrite L3. apply (fwd_gen _ _ (s_T l) (s_isp l) (fun _ => dt) 0); [lra|]. exact F.
Qed.
Lemma bck_some pb : backward_end (good_arc (s_mu l) dt) l pb -> List.Forall (fun u => u <> vzero) (skipn nf us) -> exists r, GB = Ret (Some r).
Proof.
  intros F NZ. destruct (proper_c l P) as [_ [Dt [_ Ve]]]. destruct leg_facts as [L1 [L2 [_ L3]]]. destruct P as [_ [_ [Mu [T0 [_ [_ [_ Mf]]]]]]].
  assert (G : exists r, gradients_multiple_impulses newton (reverse_throttles (skipn (3 * nf) (s_thr l))) (neg_v (s_rvf l)) (s_mf l) (s_T l) (s_T l * dt) (- (1 / s_isp l / G0)) dt (s_mu l) = Ret (Some r)).
  { apply (gmi_total newton NK NS (s_mu l) (s_T l) (- (1 / s_isp l / G0)) dt (length (triples (reverse_throttles (skipn (3 * nf) (s_thr l))))) T0 Dt _ _ _ (row_flip pb)); try assumption; try reflexivity.
    - exists (n - nf)%nat. apply rev3_len. rewrite skipn_length. lia.
    - rewrite triples_rev3, L3. apply (sub_forall _ _ _ (fun x I => proj2 (in_rev _ x) I) NZ).
    - rewrite triples_rev3, L3. apply (bck_gen _ _ (s_T l) (s_isp l) (fun _ => dt) 0 _ (s_rvf l, s_mf l) pb); [intros s; apply good_neg|exact Mu|lra|]. exact F. }
  destruct G as [[r1 r2] G]. unfold GB, gradients_bck. rewrite G. cbn [bind]. eexists. reflexivity.
Qed.
Lemma grad_cases : compute_mc_grad newton l = bind GF (fun f => bind GB (fun b => match f, b with
  | Some (rvm, gf), Some (rvm_b, gb) =>
      let tf := scal7 (IZR (s_fwd l)) (scal7 (/ IZR (s_nseg l)) (nth (3 * nf) gf zero7)) in
      let tb := scal7 (IZR (s_nseg l - s_fwd l)) (scal7 (/ IZR (s_nseg l)) (nth (3 * Z.to_nat (s_nseg l - s_fwd l)) gb zero7)) in
      Ret (Some (array_of rvm, array_of rvm_b, array_of (firstn (3 * nf) gf ++ firstn (3 * Z.to_nat (s_nseg l - s_fwd l)) gb ++ [sub7 tf tb])))
  | _, _ => Ret None end)).
Proof. reflexivity. Qed.
Theorem grad_total y0 : leg_mismatch (good_arc (s_mu l) (leg_dt l)) l y0 -> (forall i, (i < Z.to_nat (s_nseg l))%nat -> thr_vec (s_thr l) i <> vzero) ->
  exists A B G, compute_mc_grad newton l = Ret (Some (A, B, G)) /\ mismatch_jacobian (nonsing (s_mu l)) l y0 A B G.
Proof.
  intros LM NZ. pose proof (thr_forall n (s_thr l) (fun u => u <> vzero) NZ) as FA. fold us in FA.
  assert (E : exists A B G, compute_mc_grad newton l = Ret (Some (A, B, G))).
  { destruct LM as [pf [pb [F [B _]]]].
    destruct (fwd_some pf F (sub_forall _ _ _ (in_firstn nf us) FA)) as [[r1 r2] EF]. destruct (bck_some pb B (sub_forall _ _ _ (in_skipn nf us) FA)) as [[r3 r4] EB].
    rewrite grad_cases, EF, EB. cbn [bind]. eexists. eexists. eexists. reflexivity. }
  destruct E as [A [B [G E]]]. exists A, B, G. split; [exact E|]. apply (grad_jacobian newton l y0 A B G NS P (good_leg l y0 LM) E).
Qed.
Lemma zero_or us' : (exists u, In u us' /\ u = vzero) \/ List.Forall (fun u => u <> vzero) us'.
Proof.
  induction us' as [|u r IH]; [right; constructor|]. destruct (Req_EM_T (norm u) 0) as [Z|Z].
  - left. exists u. split; [left; reflexivity|apply norm_zero, Z].
  - destruct IH as [[w [I W]]|F]; [left; exists w; split; [right; exact I|exact W]|right; constructor; [intros E; apply Z; rewrite E; apply norm_0|exact F]].
Qed.
Lemma fwd_none : (exists u, In u (firstn nf us) /\ u = vzero) -> GF = Ret None.
Proof. destruct leg_facts as [_ [_ [L3 _]]]. intros E. apply (gmi_none newton (s_mu l) (s_T l) (1 / s_isp l / G0) dt _ _ _ _ _ eq_refl). rewrite L3. exact E. Qed.
Lemma bck_none : (exists u, In u (skipn nf us) /\ u = vzero) -> GB = Ret None.
Proof.
  destruct leg_facts as [_ [_ [_ L3]]]. intros [u [I U]]. unfold GB, gradients_bck. rewrite (gmi_none newton (s_mu l) (s_T l) (- (1 / s_isp l / G0)) dt _ _ _ _ _ eq_refl); [reflexivity|].
  rewrite triples_rev3, L3. exists u. split; [apply -> in_rev; exact I|exact U].
Qed.
Theorem grad_nan y0 i : leg_mismatch (good_arc (s_mu l) (leg_dt l)) l y0 -> (i < Z.to_nat (s_nseg l))%nat -> thr_vec (s_thr l) i = vzero -> compute_mc_grad newton l = Ret None.
Proof.
  intros [pf [pb [F [B _]]]] I Z. rewrite grad_cases.
  assert (IN : In vzero us). { rewrite <- Z. unfold us, throttles. apply in_map. apply in_seq. fold n in I. lia. }
  rewrite <- (firstn_skipn nf us) in IN. apply in_app_or in IN.
  destruct (zero_or (firstn nf us)) as [E|E].
  - rewrite (fwd_none E). cbn [bind]. destruct (zero_or (skipn nf us)) as [E2|E2]; [rewrite (bck_none E2); reflexivity|]. destruct (bck_some pb B E2) as [r ->]. reflexivity.
  - destruct IN as [IN|IN]; [rewrite Forall_forall in E; destruct (E _ IN eq_refl)|]. destruct (fwd_some pf F E) as [[r1 r2] ->]. rewrite (bck_none (ex_intro _ vzero (conj IN eq_refl))). reflexivity.
Qed.
End TotalLeg.

(** ** A leg of one thrusting segment *)
Lemma wit_good_ell : exists X, elliptic 1 X /\ leg_mismatch (good_arc (s_mu (wit_leg X)) (leg_dt (wit_leg X))) (wit_leg X) ((vzero, vzero), 0).
Proof.
  assert (A0 : flow_at 1 (V 1 0 0, V 0 1 0) (PI / 2) (V 0 1 0, V (-1) 0 0)).
  { pose proof (flow_of_solution 1 (circle 0) (PI / 2) circle ltac:(lra) circle_solves eq_refl) as F. unfold circle in F. rewrite cos_0, sin_0, cos_PI2, sin_PI2, Ropp_0 in F. exact F. }
  assert (E0 : elliptic 1 (V 1 0 0, V 0 1 0)) by (apply elliptic_at; unfold dot, cross, vzero; cbn; try lra; intros H; injection H; lra).
  set (k1 := (V 0 1 0, V (- (11 / 10)) 0 0) : state).
  assert (E1 : elliptic 1 k1) by (apply elliptic_at; unfold dot, cross, vzero; cbn; try lra; intros H; injection H; lra).
  destruct (flow_exists 1 k1 (PI / 2) (proj1 E1)) as [X FX]. exists X.
  split; [destruct (flow_integrals 1 k1 _ X (proj1 E1) FX) as [I _]; apply (proj1 (proj2 (same_regular 1 _ _ I))), E1|].
  assert (M1 : norm (V (-1) 0 0) = 1) by (apply norm_unique; unfold dot; cbn; lra).
  exists (X, exp (- (1 / 10))), (X, exp (- (1 / 10))). split; [|split; [reflexivity|unfold minus7, vsub, vzero; cbn; f_equal; [f_equal; f_equal; ring|ring]]].
  unfold forward_end. fold (leg_dt (wit_leg X)). rewrite wit_c, wit_ve, wit_dt. cbn. exists (X, exp (- (1 / 10))). split; [|reflexivity].
  exists (V 0 1 0, V (-1) 0 0). cbn [fst snd]. split; [left; exact E0|]. split; [exact A0|]. cbn zeta.
  replace (kick (V 0 1 0, V (-1) 0 0) (vscal (1 / 10 / 1) (thr_vec [-1; 0; 0] 0))) with k1 by (unfold kick, vadd, vscal, thr_vec, k1; cbn; f_equal; f_equal; field).
  split; [left; exact E1|]. split; [exact FX|]. replace (thr_vec [-1; 0; 0] 0) with (V (-1) 0 0) by reflexivity. rewrite norm_vscal, M1, Rabs_right by lra. rewrite Rmult_1_l. f_equal. field.
Qed.
Lemma wit_good : exists X, leg_mismatch (good_arc (s_mu (wit_leg X)) (leg_dt (wit_leg X))) (wit_leg X) ((vzero, vzero), 0).
Proof. destruct wit_good_ell as [X [_ LM]]. exists X. exact LM. Qed.
(** the whole leg is flown forward: the gradient with respect to the final state and mass is minus the identity *)
Lemma wit_grad newton : newton_ok newton -> newton_sound newton -> exists X A G,
  compute_mc_grad newton (wit_leg X) = Ret (Some (A, flat_map (fun i => map (fun j => if Nat.eqb i j then -1 else 0) (seq 0 7)) (seq 0 7), G)) /\ length A = 49%nat /\ length G = 28%nat.
Proof.
  intros NK NS. destruct wit_good as [X LM]. destruct (grad_total newton NK NS (wit_leg X) (wit_proper X) _ LM) as [A [B [G [E [LA [_ [LG _]]]]]]].
  - intros i I. cbn in I. replace i with 0%nat by lia. unfold thr_vec. cbn. intros H. injection H. lra.
  - exists X, A, G. split; [|split; [exact LA|exact LG]]. rewrite E. repeat f_equal. rewrite grad_cases in E.
    destruct (gradients_multiple_impulses newton _ (s_rvs (wit_leg X)) _ _ _ _ _ _) as [[[rvm gf]|]| |]; cbn [bind] in E; try discriminate.
    match type of E with bind ?g _ = _ => assert (EG : g = Ret (Some (bck_rvm (map row_flip eye7), [row_flip (zero6, 0)]))) by reflexivity; rewrite EG in E end.
    cbn [bind] in E. pose proof (f_equal (fun o => match o with Ret (Some p) => snd (fst p) | _ => B end) E) as EB. cbv beta iota in EB. cbn [fst snd] in EB. rewrite <- EB.
    unfold bck_rvm, eye7, row_flip, neg_v, neg7, neg6, array_of, row_of. cbn. repeat (f_equal; try ring).
Qed.
