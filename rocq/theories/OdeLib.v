(** * Ordinary differential equations: how solutions depend on their initial values
    Vectors are functions of an index below n.  [sd] is strict differentiability.  The main lemma [ode_diff] is the
    differentiability of the flow: the derivative is the solution of the variational equation. *)
From Coq Require Import Reals Lra Lia List.
From Coquelicot Require Import Coquelicot.
From Verif Require Import RealLib Vec3 SfSpec SfGrad.
Open Scope R_scope.

Definition nvec : Type := nat -> R.
Definition sub (a b : nvec) : nvec := fun j => a j - b j.
Definition l1 (n : nat) (v : nvec) : R := sum_n n (fun j => Rabs (v j)).
Definition sq (n : nat) (v : nvec) : R := sum_n n (fun j => v j * v j).

(** ** Sums *)
Lemma sum_le n f g : (forall j, (j < n)%nat -> f j <= g j) -> sum_n n f <= sum_n n g.
Proof. induction n as [|n IH]; intros H; cbn [sum_n]; [lra|]. apply Rplus_le_compat; [apply IH; intros; apply H; lia|apply H; lia]. Qed.
Lemma sum_abs n f : Rabs (sum_n n f) <= sum_n n (fun j => Rabs (f j)).
Proof. induction n as [|n IH]; cbn [sum_n]; [rewrite Rabs_R0; lra|]. eapply Rle_trans; [apply Rabs_triang|]. lra. Qed.
Lemma sum_const n (c : R) : sum_n n (fun _ => c) = INR n * c.
Proof. induction n as [|n IH]; [cbn; ring|]. cbn [sum_n]. rewrite IH, S_INR. ring. Qed.
Lemma sum_minus n f g : sum_n n (fun j => f j - g j) = sum_n n f - sum_n n g.
Proof. induction n as [|n IH]; cbn [sum_n]; [ring|]. rewrite IH. ring. Qed.
Lemma sum_swap n m (f : nat -> nat -> R) : sum_n n (fun i => sum_n m (f i)) = sum_n m (fun j => sum_n n (fun i => f i j)).
Proof.
  induction n as [|n IH]; cbn [sum_n]; [symmetry; induction m as [|m IHm]; cbn [sum_n]; [reflexivity|rewrite IHm; ring]|].
  rewrite IH, <- sum_plus. reflexivity.
Qed.
Lemma der_sum n (f : R -> nat -> R) (df : nat -> R) (t : R) : (forall j, (j < n)%nat -> is_derive (fun x => f x j) t (df j)) ->
  is_derive (fun x => sum_n n (f x)) t (sum_n n df).
Proof. induction n as [|n IH]; intros H; cbn [sum_n]; [apply der_const|]. apply der_plus; [apply IH; intros; apply H; lia|apply H; lia]. Qed.
Lemma l1_nonneg n v : 0 <= l1 n v.
Proof. unfold l1. rewrite <- (sum_zero n). apply sum_le. intros. apply Rabs_pos. Qed.
Lemma sq_nonneg n v : 0 <= sq n v.
Proof. unfold sq. rewrite <- (sum_zero n). apply sum_le. intros. nra. Qed.
Lemma l1_ge n v j : (j < n)%nat -> Rabs (v j) <= l1 n v.
Proof.
  induction n as [|n IH]; intros L; [lia|]. unfold l1 in *. cbn [sum_n]. destruct (Nat.eq_dec j n) as [->|N].
  - pose proof (l1_nonneg n v). unfold l1 in *. lra.
  - pose proof (Rabs_pos (v n)). specialize (IH ltac:(lia)). lra.
Qed.
Lemma l1_ext n v w : (forall j, (j < n)%nat -> v j = w j) -> l1 n v = l1 n w.
Proof. intros H. apply sum_ext. intros. rewrite H by assumption. reflexivity. Qed.
Lemma l1_triang n u v w : l1 n (sub u w) <= l1 n (sub u v) + l1 n (sub v w).
Proof. unfold l1. rewrite <- sum_plus. apply sum_le. intros j _. unfold sub. replace (u j - w j) with ((u j - v j) + (v j - w j)) by ring. apply Rabs_triang. Qed.
Lemma l1_sym n u v : l1 n (sub u v) = l1 n (sub v u).
Proof. apply sum_ext. intros. unfold sub. apply Rabs_minus_sym. Qed.
Lemma l1_zero n u : l1 n (sub u u) = 0.
Proof. unfold l1, sub. rewrite <- (sum_zero n). apply sum_ext. intros. rewrite Rminus_diag_eq, Rabs_R0; reflexivity. Qed.
Lemma l1_sq n v : l1 n v * l1 n v <= INR n * sq n v.
Proof.
  induction n as [|n IH]; [unfold l1, sq; cbn; lra|]. rewrite S_INR. pose proof (l1_nonneg n v) as P. pose proof (sq_nonneg n v) as Q. pose proof (pos_INR n) as N.
  unfold l1, sq in *. cbn [sum_n]. set (A := sum_n n (fun j => Rabs (v j))) in *. set (B := sum_n n (fun j => v j * v j)) in *. clearbody A B.
  assert (E : Rabs (v n) * Rabs (v n) = v n * v n) by (rewrite <- Rabs_mult; apply Rabs_pos_eq; nra). pose proof (Rabs_pos (v n)) as P2.
  set (a := Rabs (v n)) in *. clearbody a. rewrite <- E.
  enough (2 * A * a <= B + INR n * (a * a)) by nra.
  destruct (Req_dec (INR n) 0) as [Z|Z]; [rewrite Z, Rmult_0_l in IH; rewrite Z; assert (A = 0) as -> by (destruct P as [P| <-]; [exfalso; pose proof (Rmult_lt_0_compat A A P P); lra|reflexivity]); lra|].
  assert (0 < INR n) by lra. apply (Rmult_le_reg_l (INR n)); [assumption|]. pose proof (Rle_0_sqr (A - INR n * a)). unfold Rsqr in *. nra.
Qed.
Lemma sq_l1 n v : sq n v <= l1 n v * l1 n v.
Proof.
  induction n as [|n IH]; [unfold l1, sq; cbn; lra|]. pose proof (l1_nonneg n v) as P. unfold l1, sq in *. cbn [sum_n].
  assert (E : Rabs (v n) * Rabs (v n) = v n * v n) by (rewrite <- Rabs_mult; apply Rabs_pos_eq; nra). pose proof (Rabs_pos (v n)). nra.
Qed.
Lemma lin_bound n a (K : R) v : (forall j, (j < n)%nat -> Rabs (a j) <= K) -> Rabs (sum_n n (fun j => a j * v j)) <= K * l1 n v.
Proof.
  intros H. eapply Rle_trans; [apply sum_abs|]. unfold l1. rewrite <- sum_scal. apply sum_le. intros j L. rewrite Rabs_mult.
  apply Rmult_le_compat_r; [apply Rabs_pos|]. apply H, L.
Qed.

(** ** Induction along [0, 1] *)
Lemma real_ind (P : R -> Prop) : P 0 ->
  (forall t, 0 <= t < 1 -> (forall s, 0 <= s <= t -> P s) -> exists d, 0 < d /\ forall s, t < s < t + d -> s <= 1 -> P s) ->
  (forall t, 0 < t <= 1 -> (forall s, 0 <= s < t -> P s) -> P t) -> forall t, 0 <= t <= 1 -> P t.
Proof.
  intros P0 S L.
  set (A := fun t => 0 <= t <= 1 /\ forall s, 0 <= s <= t -> P s).
  destruct (completeness A) as [m [U Lst]].
  - exists 1. intros x [H _]. lra.
  - exists 0. split; [lra|]. intros s H. replace s with 0 by lra. exact P0.
  - assert (M0 : 0 <= m). { apply U. split; [lra|]. intros s H. replace s with 0 by lra. exact P0. }
    assert (M1 : m <= 1). { apply Lst. intros x [H _]. lra. }
    assert (B : forall s, 0 <= s < m -> P s).
    { intros s H. destruct (Rlt_dec s m) as [Hs|Hs]; [|lra]. apply Rnot_le_lt in Hs || idtac.
      assert (N : ~ (forall x, A x -> x <= s)) by (intros Q; pose proof (Lst s Q); lra).
      apply Classical_Pred_Type.not_all_ex_not in N as [x N]. apply Classical_Prop.imply_to_and in N as [[X1 X2] N]. apply X2. lra. }
    assert (Am : A m). { split; [lra|]. intros s H. destruct (Req_dec s m) as [->|N]; [|apply B; lra]. destruct (Req_dec m 0) as [->|Z]; [exact P0|]. apply L; [lra|exact B]. }
    assert (E : m = 1).
    { destruct (Req_dec m 1) as [E|N]; [exact E|]. exfalso. destruct (S m) as [d [Dp D]]; [lra|apply Am|].
      assert (Q : A (Rmin 1 (m + d / 2))).
      { split; [unfold Rmin; destruct (Rle_dec 1 (m + d / 2)); lra|]. intros s H. destruct (Rle_dec s m) as [Hs|Hs]; [apply Am; lra|]. apply D; [|unfold Rmin in H; destruct (Rle_dec 1 (m + d / 2)); lra].
        unfold Rmin in H; destruct (Rle_dec 1 (m + d / 2)); lra. }
      apply U in Q. unfold Rmin in Q; destruct (Rle_dec 1 (m + d / 2)); lra. }
    subst m. intros t Ht. apply Am. exact Ht.
Qed.
(** what holds near every point and can be glued holds on the whole interval *)
Lemma glue (P : R -> R -> Prop) : (forall a b c, a <= b <= c -> P a b -> P b c -> P a c) ->
  (forall t, 0 <= t <= 1 -> exists d, 0 < d /\ forall a b, t - d < a -> a <= b -> b < t + d -> 0 <= a -> b <= 1 -> P a b) -> P 0 1.
Proof.
  intros G L. apply (real_ind (fun s => P 0 s)); [| | |lra].
  - destruct (L 0 ltac:(lra)) as [d [Dp D]]. apply D; lra.
  - intros t Ht H. destruct (L t ltac:(lra)) as [d [Dp D]]. exists d. split; [exact Dp|]. intros s Hs S1. apply (G 0 t s); [lra|apply H; lra|]. apply D; lra.
  - intros t Ht H. destruct (L t ltac:(lra)) as [d [Dp D]]. apply (G 0 (Rmax 0 (t - d / 2)) t).
    + split; [apply Rmax_l|]. apply Rmax_lub; lra.
    + apply H. split; [apply Rmax_l|]. apply Rmax_lub_lt; lra.
    + apply D; try lra; [apply Rlt_le_trans with (t - d / 2); [lra|apply Rmax_r]|apply Rmax_lub; lra|apply Rmax_l].
Qed.

(** ** Gronwall *)
Lemma gronwall (f df : R -> R) (L c T : R) : 0 <= L -> 0 <= c -> 0 <= T -> (forall t, 0 <= t <= T -> is_derive f t (df t)) ->
  (forall t, 0 < t < T -> df t <= L * f t + c) -> f T <= (f 0 + c * T) * exp (L * T).
Proof.
  intros HL Hc HT D B.
  destruct (Req_dec T 0) as [->|N]; [rewrite !Rmult_0_r, exp_0; lra|].
  set (g := fun t => f t * exp (- L * t) - c * t).
  assert (Dg : forall t, 0 <= t <= T -> is_derive g t (df t * exp (- L * t) + f t * (- L * exp (- L * t)) - c * 1)).
  { intros t Ht. unfold g. apply der_minus; [|apply der_scal, der_id].
    eapply der_to; [apply der_mult; [apply D; exact Ht|eapply der_comp; [|apply der_scal, der_id]; apply is_derive_exp]|]. cbv beta. ring. }
  destruct (MVT_cor2 g (fun t => df t * exp (- L * t) + f t * (- L * exp (- L * t)) - c * 1) 0 T ltac:(lra)) as [x [E Hx]].
  { intros x Hx. apply is_derive_Reals, Dg. lra. }
  cbv beta in E.
  assert (Q : df x * exp (- L * x) + f x * (- L * exp (- L * x)) - c * 1 <= 0).
  { pose proof (B x Hx) as Bx. pose proof (exp_pos (- L * x)) as Ex. assert (exp (- L * x) <= 1). { rewrite <- exp_0. apply exp_le_inv || idtac. destruct (Req_dec (- L * x) 0) as [->|Z]; [lra|]. left. apply exp_increasing. nra. }
    assert ((df x - L * f x) * exp (- L * x) <= c * exp (- L * x)) by (apply Rmult_le_compat_r; lra). nra. }
  assert (G : g T <= g 0) by nra. unfold g in G. rewrite !Rmult_0_r, exp_0 in G.
  assert (X : exp (- L * T) * exp (L * T) = 1) by (rewrite <- exp_plus, <- exp_0; f_equal; ring).
  pose proof (exp_pos (L * T)). pose proof (exp_pos (- L * T)).
  apply (Rmult_le_reg_r (exp (- L * T))); [assumption|]. rewrite Rmult_assoc, (Rmult_comm (exp (L * T))), X. lra.
Qed.

(** ** Strict differentiability *)
Definition sd (n : nat) (g : nvec -> R) (z a : nvec) : Prop :=
  forall eta, 0 < eta -> exists rho, 0 < rho /\ forall z1 z2, l1 n (sub z1 z) < rho -> l1 n (sub z2 z) < rho ->
  Rabs (g z1 - g z2 - sum_n n (fun j => a j * sub z1 z2 j)) <= eta * l1 n (sub z1 z2).
Definition bump (z : nvec) (j : nat) (s : R) : nvec := fun k => if Nat.eqb k j then z k + s else z k.
Lemma sub_bump z j s k : sub (bump z j s) z k = (if Nat.eqb k j then 1 else 0) * s.
Proof. unfold sub, bump. destruct (Nat.eqb k j); ring. Qed.
Lemma l1_bump n z j s : (j < n)%nat -> l1 n (sub (bump z j s) z) = Rabs s.
Proof.
  intros L. unfold l1. rewrite <- (sum_delta n j (fun _ => Rabs s) L). apply sum_ext. intros k _. rewrite sub_bump.
  destruct (Nat.eqb k j); [rewrite !Rmult_1_l; reflexivity|rewrite !Rmult_0_l; apply Rabs_R0].
Qed.
Lemma sum_bump n z j s a : (j < n)%nat -> sum_n n (fun k => a k * sub (bump z j s) z k) = a j * s.
Proof.
  intros L. rewrite <- (sum_delta n j (fun k => a k * s) L). apply sum_ext. intros k _. rewrite sub_bump. ring.
Qed.
Lemma sd_coef n g z a : sd n g z a -> forall eta, 0 < eta -> exists rho, 0 < rho /\ forall z' b, l1 n (sub z' z) < rho -> sd n g z' b ->
  forall j, (j < n)%nat -> Rabs (a j - b j) <= 2 * eta.
Proof.
  intros H eta He. destruct (H eta He) as [rho [Rp Rh]]. exists (rho / 2). split; [lra|]. intros z' b Hz Hb j Hj.
  destruct (Hb eta He) as [r2 [R2p R2]]. set (s := Rmin (rho / 4) (r2 / 2)).
  assert (Sp : 0 < s) by (apply Rmin_glb_lt; lra). assert (S1 : s <= rho / 4) by apply Rmin_l. assert (S2 : s <= r2 / 2) by apply Rmin_r.
  assert (As : Rabs s = s) by (apply Rabs_pos_eq; lra).
  assert (E1 := Rh (bump z' j s) z'). assert (E2 := R2 (bump z' j s) z').
  rewrite sum_bump, l1_bump, As in E1, E2 by exact Hj.
  assert (B : l1 n (sub (bump z' j s) z) < rho) by (eapply Rle_lt_trans; [apply (l1_triang n _ z')|rewrite l1_bump by exact Hj; lra]).
  specialize (E1 B ltac:(lra)). specialize (E2 ltac:(lra) ltac:(rewrite l1_zero; lra)).
  assert (Q : Rabs (a j * s - b j * s) <= 2 * eta * s).
  { replace (a j * s - b j * s) with ((g (bump z' j s) - g z' - b j * s) - (g (bump z' j s) - g z' - a j * s)) by ring.
    eapply Rle_trans; [apply Rabs_triang|]. rewrite Rabs_Ropp. lra. }
  rewrite <- Rmult_minus_distr_r, Rabs_mult, As in Q. apply (Rmult_le_reg_r s); lra.
Qed.

Lemma fin_max n (Q : nat -> R -> Prop) : (forall i K K', Q i K -> K <= K' -> Q i K') -> (forall i, (i < n)%nat -> exists K, 0 <= K /\ Q i K) ->
  exists K, 0 <= K /\ forall i, (i < n)%nat -> Q i K.
Proof.
  intros M. induction n as [|n IH]; intros H; [exists 0; split; [lra|intros; lia]|].
  destruct IH as [K [K0 HK]]; [intros; apply H; lia|]. destruct (H n ltac:(lia)) as [K2 [K20 HK2]]. exists (Rmax K K2).
  split; [apply Rle_trans with K; [exact K0|apply Rmax_l]|]. intros i Hi. destruct (Nat.eq_dec i n) as [->|N]; [apply (M _ K2); [exact HK2|apply Rmax_r]|apply (M _ K); [apply HK; lia|apply Rmax_l]].
Qed.
Lemma fin_min n (Q : nat -> R -> Prop) : (forall i K K', Q i K -> K' <= K -> Q i K') -> (forall i, (i < n)%nat -> exists K, 0 < K /\ Q i K) ->
  exists K, 0 < K /\ forall i, (i < n)%nat -> Q i K.
Proof.
  intros M. induction n as [|n IH]; intros H; [exists 1; split; [lra|intros; lia]|].
  destruct IH as [K [K0 HK]]; [intros; apply H; lia|]. destruct (H n ltac:(lia)) as [K2 [K20 HK2]]. exists (Rmin K K2).
  split; [apply Rmin_glb_lt; assumption|]. intros i Hi. destruct (Nat.eq_dec i n) as [->|N]; [apply (M _ K2); [exact HK2|apply Rmin_r]|apply (M _ K); [apply HK; lia|apply Rmin_l]].
Qed.

Lemma derive_near (f : R -> R) (t l : R) : is_derive f t l -> forall eps, 0 < eps -> exists d, 0 < d /\ forall s, Rabs (s - t) < d -> Rabs (f s - f t - l * (s - t)) <= eps * Rabs (s - t).
Proof.
  intros D eps He. apply is_derive_Reals in D. destruct (D eps He) as [[d dp] Hd]. exists d. split; [exact dp|]. intros s Hs.
  destruct (Req_dec s t) as [->|N]; [replace (f t - f t - l * (t - t)) with 0 by ring; replace (t - t) with 0 by ring; rewrite Rabs_R0; lra|].
  specialize (Hd (s - t) ltac:(lra) Hs). cbn in Hd. replace (t + (s - t)) with s in Hd by ring.
  replace (f s - f t - l * (s - t)) with (((f s - f t) / (s - t) - l) * (s - t)) by (field; lra). rewrite Rabs_mult. apply Rmult_le_compat_r; [apply Rabs_pos|lra].
Qed.
Lemma near_derive (f : R -> R) (t l : R) : (forall eps, 0 < eps -> exists d, 0 < d /\ forall s, Rabs (s - t) < d -> Rabs (f s - f t - l * (s - t)) <= eps * Rabs (s - t)) -> is_derive f t l.
Proof.
  intros H. apply is_derive_Reals. intros eps He. destruct (H (eps / 2) ltac:(lra)) as [d [dp Hd]]. exists (mkposreal d dp). intros h Hh Hd2. cbn in Hd2.
  specialize (Hd (t + h)). replace (t + h - t) with h in Hd by ring. specialize (Hd Hd2).
  replace ((f (t + h) - f t) / h - l) with ((f (t + h) - f t - l * h) / h) by (field; exact Hh). unfold Rdiv. rewrite Rabs_mult, Rabs_inv.
  assert (0 < Rabs h) by (apply Rabs_pos_lt; exact Hh). apply (Rmult_lt_reg_r (Rabs h)); [assumption|]. rewrite Rmult_assoc, Rinv_l by lra. nra.
Qed.
Lemma cont_l1 n (Z : R -> nvec) (t : R) : (forall j, (j < n)%nat -> exists dz : R, is_derive (fun x => Z x j) t dz) ->
  forall eps, 0 < eps -> exists d, 0 < d /\ forall s, Rabs (s - t) < d -> l1 n (sub (Z s) (Z t)) < eps.
Proof.
  induction n as [|n IH]; intros H eps He; [exists 1; split; [lra|]; intros; unfold l1; cbn; lra|].
  destruct (IH (fun j L => H j (Nat.lt_trans _ _ _ L (Nat.lt_succ_diag_r n))) (eps / 2) ltac:(lra)) as [d1 [D1 H1]].
  destruct (H n ltac:(lia)) as [dz Dz]. destruct (derive_near _ _ _ Dz 1 ltac:(lra)) as [d2 [D2 H2]].
  set (m := Rabs dz + 1). assert (0 < m) by (unfold m; pose proof (Rabs_pos dz); lra).
  exists (Rmin d1 (Rmin d2 (eps / 2 / m))). split; [repeat apply Rmin_glb_lt; try assumption; apply Rdiv_lt_0_compat; lra|].
  intros s Hs. assert (S1 : Rabs (s - t) < d1) by (eapply Rlt_le_trans; [exact Hs|apply Rmin_l]).
  assert (S2 : Rabs (s - t) < d2) by (eapply Rlt_le_trans; [exact Hs|eapply Rle_trans; [apply Rmin_r|apply Rmin_l]]).
  assert (S3 : Rabs (s - t) < eps / 2 / m) by (eapply Rlt_le_trans; [exact Hs|eapply Rle_trans; [apply Rmin_r|apply Rmin_r]]).
  specialize (H1 s S1). specialize (H2 s S2). unfold l1 in *. cbn [sum_n]. unfold sub at 2.
  assert (Rabs (Z s n - Z t n) <= m * Rabs (s - t)).
  { replace (Z s n - Z t n) with ((Z s n - Z t n - dz * (s - t)) + dz * (s - t)) by ring. eapply Rle_trans; [apply Rabs_triang|]. rewrite Rabs_mult. unfold m. lra. }
  assert (m * Rabs (s - t) < eps / 2). { apply (Rmult_lt_compat_l m) in S3; [|assumption]. replace (m * (eps / 2 / m)) with (eps / 2) in S3 by (field; lra). exact S3. }
  lra.
Qed.

Lemma tube_arith (a b w r : R) : 0 <= a -> 0 < w -> 0 < r -> b * b <= w * (a * a) -> a * (w + 1) < r -> r <= b -> False.
Proof.
  intros A W Rp B H Y. assert (0 <= a * (w + 1)) by nra. assert (r * r <= b * b) by nra. assert ((a * (w + 1)) * (a * (w + 1)) < r * r) by (apply Rmult_le_0_lt_compat; assumption).
  assert (0 <= a * a) by nra. assert (w * (a * a) <= (a * (w + 1)) * (a * (w + 1))) by (replace ((a * (w + 1)) * (a * (w + 1))) with ((w * w + w + 1 + w) * (a * a)) by ring; apply Rmult_le_compat_r; [assumption|nra]). lra.
Qed.

Section Flow.
Variable n : nat.
Variable g : nat -> nvec -> R.
Variable Z0 : R -> nvec.
Variable D : R -> nat -> nat -> R.
Definition solution (Z : R -> nvec) : Prop := forall t i, 0 <= t <= 1 -> (i < n)%nat -> is_derive (fun x => Z x i) t (g i (Z t)).
Hypothesis HZ : solution Z0.
Hypothesis HD : forall t i, 0 <= t <= 1 -> (i < n)%nat -> sd n (g i) (Z0 t) (D t i).

Lemma Z0_cont t : 0 <= t <= 1 -> forall eps, 0 < eps -> exists d, 0 < d /\ forall s, Rabs (s - t) < d -> l1 n (sub (Z0 s) (Z0 t)) < eps.
Proof. intros Ht. apply cont_l1. intros j Hj. exists (g j (Z0 t)). apply HZ; assumption. Qed.

Lemma D_bound : exists K, 0 <= K /\ forall i, (i < n)%nat -> forall t j, 0 <= t <= 1 -> (j < n)%nat -> Rabs (D t i j) <= K.
Proof.
  apply (fin_max n (fun i K => forall t j, 0 <= t <= 1 -> (j < n)%nat -> Rabs (D t i j) <= K)).
  - intros i K K' H L t j Ht Hj. specialize (H t j Ht Hj). lra.
  - intros i Hi. apply (glue (fun a b => exists K, 0 <= K /\ forall t j, a <= t <= b -> (j < n)%nat -> Rabs (D t i j) <= K)).
    + intros a b c L [K1 [P1 H1]] [K2 [P2 H2]]. exists (Rmax K1 K2). split; [apply Rle_trans with K1; [exact P1|apply Rmax_l]|].
      intros t j Ht Hj. destruct (Rle_dec t b) as [Q|Q]; [eapply Rle_trans; [apply H1; [lra|exact Hj]|apply Rmax_l]|eapply Rle_trans; [apply H2; [lra|exact Hj]|apply Rmax_r]].
    + intros t Ht. destruct (sd_coef n (g i) (Z0 t) (D t i) (HD t i Ht Hi) 1 ltac:(lra)) as [rho [Rp Rh]]. destruct (Z0_cont t Ht rho Rp) as [d [Dp Dh]].
      exists d. split; [exact Dp|]. intros a b A AB B A0 B1. exists (l1 n (D t i) + 2). split; [pose proof (l1_nonneg n (D t i)); lra|].
      intros s j Hs Hj. assert (Q : Rabs (D t i j - D s i j) <= 2 * 1). { apply (Rh (Z0 s)); [apply Dh; apply Rabs_def1; lra|apply HD; [lra|exact Hi]|exact Hj]. }
      pose proof (l1_ge n (D t i) j Hj). replace (D s i j) with (D t i j - (D t i j - D s i j)) by ring. eapply Rle_trans; [apply Rabs_triang|]. rewrite Rabs_Ropp. lra.
Qed.

Lemma unif eta : 0 < eta -> exists rho, 0 < rho /\ forall i, (i < n)%nat -> forall t w, 0 <= t <= 1 -> l1 n (sub w (Z0 t)) < rho ->
  Rabs (g i w - g i (Z0 t) - sum_n n (fun j => D t i j * sub w (Z0 t) j)) <= eta * l1 n (sub w (Z0 t)).
Proof.
  intros He.
  apply (fin_min n (fun i rho => forall t w, 0 <= t <= 1 -> l1 n (sub w (Z0 t)) < rho -> Rabs (g i w - g i (Z0 t) - sum_n n (fun j => D t i j * sub w (Z0 t) j)) <= eta * l1 n (sub w (Z0 t)))).
  - intros i K K' H L t w Ht Hw. apply H; [exact Ht|lra].
  - intros i Hi. apply (glue (fun a b => exists rho, 0 < rho /\ forall t w, a <= t <= b -> l1 n (sub w (Z0 t)) < rho -> Rabs (g i w - g i (Z0 t) - sum_n n (fun j => D t i j * sub w (Z0 t) j)) <= eta * l1 n (sub w (Z0 t)))).
    + intros a b c L [K1 [P1 H1]] [K2 [P2 H2]]. exists (Rmin K1 K2). split; [apply Rmin_glb_lt; assumption|].
      intros t w Ht Hw. destruct (Rle_dec t b) as [Q|Q]; [apply H1; [lra|eapply Rlt_le_trans; [exact Hw|apply Rmin_l]]|apply H2; [lra|eapply Rlt_le_trans; [exact Hw|apply Rmin_r]]].
    + intros t Ht. pose proof (HD t i Ht Hi) as S. destruct (S (eta / 3) ltac:(lra)) as [r1 [R1 H1]]. destruct (sd_coef n (g i) (Z0 t) (D t i) S (eta / 3) ltac:(lra)) as [r2 [R2 H2]].
      destruct (Z0_cont t Ht (Rmin (r1 / 2) r2)) as [d [Dp Dh]]; [apply Rmin_glb_lt; lra|]. exists d. split; [exact Dp|]. intros a b A AB B A0 B1. exists (r1 / 2). split; [lra|].
      intros s w Hs Hw. assert (Q := Dh s ltac:(apply Rabs_def1; lra)). pose proof (Rmin_l (r1 / 2) r2). pose proof (Rmin_r (r1 / 2) r2).
      assert (E1 := H1 w (Z0 s)). specialize (E1 ltac:(eapply Rle_lt_trans; [apply (l1_triang n _ (Z0 s))|lra]) ltac:(lra)).
      assert (E2 : Rabs (sum_n n (fun j => (D t i j - D s i j) * sub w (Z0 s) j)) <= 2 * (eta / 3) * l1 n (sub w (Z0 s))).
      { apply lin_bound. intros j Hj. apply (H2 (Z0 s)); [lra|apply HD; [lra|exact Hi]|exact Hj]. }
      replace (sum_n n (fun j => (D t i j - D s i j) * sub w (Z0 s) j)) with (sum_n n (fun j => D t i j * sub w (Z0 s) j) - sum_n n (fun j => D s i j * sub w (Z0 s) j)) in E2 by (rewrite <- sum_minus; apply sum_ext; intros; ring).
      match goal with |- Rabs (?X - ?Y) <= _ => replace (X - Y) with ((X - sum_n n (fun j => D t i j * sub w (Z0 s) j)) + (sum_n n (fun j => D t i j * sub w (Z0 s) j) - Y)) by ring end.
      eapply Rle_trans; [apply Rabs_triang|]. lra.
Qed.

(** the difference of two solutions: nearby solutions stay nearby *)
Lemma sq_der (r dr : R -> nvec) (t : R) : (forall i, (i < n)%nat -> is_derive (fun x => r x i) t (dr t i)) ->
  is_derive (fun x => sq n (r x)) t (sum_n n (fun i => 2 * (r t i * dr t i))).
Proof.
  intros H. unfold sq. apply (der_sum n (fun x i => r x i * r x i)). intros i Hi. eapply der_to; [apply der_mult; apply H; exact Hi|]. cbv beta. ring.
Qed.
Lemma sum_prod_bound (a b : nvec) (c : R) : 0 <= c -> (forall i, (i < n)%nat -> Rabs (b i) <= c) -> sum_n n (fun i => 2 * (a i * b i)) <= 2 * l1 n a * c.
Proof.
  intros Hc H. rewrite sum_scal. rewrite Rmult_assoc. apply Rmult_le_compat_l; [lra|]. eapply Rle_trans; [apply Rle_abs|]. eapply Rle_trans; [apply sum_abs|].
  unfold l1. rewrite (Rmult_comm _ c), <- sum_scal. apply sum_le. intros i Hi. rewrite Rabs_mult, Rmult_comm. apply Rmult_le_compat_r; [apply Rabs_pos|apply H; exact Hi].
Qed.

Lemma stay : exists rho C, 0 < rho /\ 0 < C /\ forall Z, solution Z -> l1 n (sub (Z 0) (Z0 0)) < rho -> forall t, 0 <= t <= 1 ->
  sq n (sub (Z t) (Z0 t)) <= C * sq n (sub (Z 0) (Z0 0)).
Proof.
  destruct D_bound as [K [K0 HK]]. destruct (unif 1 ltac:(lra)) as [r1 [R1 H1]].
  set (L := 2 * (K + 1) * INR n). assert (L0 : 0 <= L) by (unfold L; pose proof (pos_INR n); nra).
  set (N1 := INR n + 1). assert (NP : 0 < N1) by (unfold N1; pose proof (pos_INR n); lra).
  set (E := exp L). assert (EP : 0 < E) by apply exp_pos.
  exists (Rmin r1 (r1 / (N1 * E + 1))), E.
  assert (Hd : 0 < N1 * E + 1) by nra.
  split; [apply Rmin_glb_lt; [exact R1|apply Rdiv_lt_0_compat; assumption]|]. split; [exact EP|].
  intros Z SZ Hr. set (r := fun t => sub (Z t) (Z0 t)).
  assert (Dr : forall t i, 0 <= t <= 1 -> (i < n)%nat -> is_derive (fun x => r x i) t (g i (Z t) - g i (Z0 t))).
  { intros t i Ht Hi. unfold r, sub. apply der_minus; [apply SZ; assumption|apply HZ; assumption]. }
  assert (Gr : forall T, 0 <= T <= 1 -> (forall s, 0 <= s < T -> l1 n (r s) < r1) -> sq n (r T) <= E * sq n (r 0)).
  { intros T HT Hs.
    assert (Q := gronwall (fun t => sq n (r t)) (fun t => sum_n n (fun i => 2 * (r t i * (g i (Z t) - g i (Z0 t))))) L 0 T L0 ltac:(lra) ltac:(lra)).
    eapply Rle_trans; [apply Q|].
    - intros t Ht. apply (sq_der r (fun t i => g i (Z t) - g i (Z0 t))). intros i Hi. apply Dr; [lra|exact Hi].
    - intros t Ht. specialize (Hs t ltac:(lra)).
      eapply Rle_trans; [apply (sum_prod_bound (r t) (fun i => g i (Z t) - g i (Z0 t)) ((K + 1) * l1 n (r t)))|].
      + pose proof (l1_nonneg n (r t)). nra.
      + intros i Hi. assert (B := H1 i Hi t (Z t) ltac:(lra) Hs). assert (B2 := lin_bound n (D t i) K (r t) (fun j Hj => HK i Hi t j ltac:(lra) Hj)).
        replace (g i (Z t) - g i (Z0 t)) with ((g i (Z t) - g i (Z0 t) - sum_n n (fun j => D t i j * r t j)) + sum_n n (fun j => D t i j * r t j)) by ring.
        eapply Rle_trans; [apply Rabs_triang|]. fold (r t) in B. lra.
      + pose proof (l1_sq n (r t)) as B. unfold L. replace (2 * l1 n (r t) * ((K + 1) * l1 n (r t))) with (2 * (K + 1) * (l1 n (r t) * l1 n (r t))) by ring. nra.
    - rewrite Rmult_0_l, Rplus_0_r, Rmult_comm. apply Rmult_le_compat_r; [apply sq_nonneg|]. unfold E. destruct (Req_dec (L * T) L) as [->|Nq]; [lra|]. left. apply exp_increasing. nra. }
  assert (Tube : forall t, 0 <= t <= 1 -> l1 n (r t) < r1).
  { apply real_ind.
    - eapply Rlt_le_trans; [exact Hr|apply Rmin_l].
    - intros t Ht H. assert (Hl := H t ltac:(lra)). destruct (cont_l1 n r t) with (eps := r1 - l1 n (r t)) as [d [Dp Dh]]; [intros j Hj; eexists; apply Dr; [lra|exact Hj]|lra|].
      exists d. split; [exact Dp|]. intros s Hs Hs1. specialize (Dh s ltac:(apply Rabs_def1; lra)).
      assert (l1 n (r s) <= l1 n (sub (r s) (r t)) + l1 n (r t)); [|lra].
      unfold l1. rewrite <- sum_plus. apply sum_le. intros j _. unfold sub at 1. replace (r s j) with ((r s j - r t j) + r t j) at 1 by ring. apply Rabs_triang.
    - intros t Ht H. assert (Q := Gr t ltac:(lra) H). assert (Q1 := l1_sq n (r t)). assert (Q2 := sq_l1 n (r 0)). assert (Q3 := l1_nonneg n (r t)). assert (Q4 := l1_nonneg n (r 0)).
      assert (Q5 : l1 n (r 0) < r1 / (N1 * E + 1)) by (eapply Rlt_le_trans; [exact Hr|apply Rmin_r]).
      assert (Q6 : l1 n (r 0) * (N1 * E + 1) < r1). { apply (Rmult_lt_compat_r (N1 * E + 1)) in Q5; [|assumption]. replace (r1 / (N1 * E + 1) * (N1 * E + 1)) with r1 in Q5 by (field; lra). exact Q5. }
      set (a := l1 n (r 0)) in *. set (b := l1 n (r t)) in *. clearbody a b.
      assert (Q7 : b * b <= N1 * E * (a * a)). { pose proof (pos_INR n). pose proof (sq_nonneg n (r t)). unfold N1. apply Rle_trans with (INR n * (E * (a * a))); [|nra]. eapply Rle_trans; [exact Q1|]. apply Rmult_le_compat_l; [assumption|]. nra. }
      destruct (Rlt_dec b r1) as [Y|Y]; [exact Y|]. exfalso. apply (tube_arith a b (N1 * E) r1 Q4); [nra|exact R1|exact Q7|exact Q6|lra]. }
  intros t Ht. apply Gr; [exact Ht|]. intros s Hs. apply Tube. lra.
Qed.

(** a fundamental matrix of the variational equation *)
Variable Phi : R -> nat -> nat -> R.
Hypothesis HPhi : forall t i j, 0 <= t <= 1 -> (i < n)%nat -> (j < n)%nat -> is_derive (fun x => Phi x i j) t (sum_n n (fun k => D t i k * Phi t k j)).
Hypothesis HPhi0 : forall i j, (i < n)%nat -> (j < n)%nat -> Phi 0 i j = if Nat.eqb i j then 1 else 0.

(** the flow is differentiable and its derivative is that matrix *)
Lemma ode_diff : forall eta, 0 < eta -> exists rho, 0 < rho /\ forall Z, solution Z -> l1 n (sub (Z 0) (Z0 0)) < rho -> forall i, (i < n)%nat ->
  Rabs (Z 1 i - Z0 1 i - sum_n n (fun j => Phi 1 i j * sub (Z 0) (Z0 0) j)) <= eta * l1 n (sub (Z 0) (Z0 0)).
Proof.
  intros eta He. destruct D_bound as [K [K0 HK]]. destruct stay as [r0 [C [R0 [CP HS]]]].
  set (N1 := INR n + 1). assert (NP : 1 <= N1) by (unfold N1; pose proof (pos_INR n); lra).
  set (L := (2 * K + 1) * INR n). assert (L0 : 0 <= L) by (unfold L; pose proof (pos_INR n); nra).
  set (E := exp L). assert (EP : 0 < E) by apply exp_pos.
  (* e1 ^ 2 * n * C * E <= eta ^ 2 *)
  set (w := N1 * C * E + 1). assert (W : 1 <= w) by (unfold w; assert (0 < N1 * C) by nra; nra).
  set (e1 := eta / w). assert (E1 : 0 < e1) by (unfold e1; apply Rdiv_lt_0_compat; lra).
  destruct (unif e1 E1) as [r1 [R1 H1]].
  (* nearby solutions stay within r1 *)
  set (w2 := N1 * C + 1). assert (W2 : 1 <= w2) by (unfold w2; nra).
  exists (Rmin r0 (r1 / w2)). split; [apply Rmin_glb_lt; [exact R0|apply Rdiv_lt_0_compat; lra]|].
  intros Z SZ Hr i Hi. assert (Hr0 : l1 n (sub (Z 0) (Z0 0)) < r0) by (eapply Rlt_le_trans; [exact Hr|apply Rmin_l]).
  assert (Hr1 : l1 n (sub (Z 0) (Z0 0)) * w2 < r1).
  { assert (Q : l1 n (sub (Z 0) (Z0 0)) < r1 / w2) by (eapply Rlt_le_trans; [exact Hr|apply Rmin_r]). apply (Rmult_lt_compat_r w2) in Q; [|lra]. replace (r1 / w2 * w2) with r1 in Q by (field; lra). exact Q. }
  set (r := fun t => sub (Z t) (Z0 t)). set (dl := r 0). fold (r 0) in Hr0, Hr1, Hr |- *. fold dl in Hr0, Hr1, Hr |- *.
  set (a := l1 n dl) in *. assert (A0 : 0 <= a) by apply l1_nonneg.
  assert (SB : forall t, 0 <= t <= 1 -> l1 n (r t) * l1 n (r t) <= N1 * C * (a * a)).
  { intros t Ht. specialize (HS Z SZ Hr0 t Ht). fold (r t) in HS. fold (r 0) in HS. pose proof (l1_sq n (r t)) as Q. pose proof (sq_l1 n (r 0)) as Q2. fold dl a in Q2, HS. pose proof (pos_INR n). pose proof (sq_nonneg n (r t)).
    apply Rle_trans with (INR n * (C * (a * a))); [|unfold N1; assert (0 <= C * (a * a)) by nra; nra]. eapply Rle_trans; [exact Q|]. apply Rmult_le_compat_l; [assumption|].
    eapply Rle_trans; [exact HS|]. apply Rmult_le_compat_l; [lra|]. exact Q2. }
  assert (Tube : forall t, 0 <= t <= 1 -> l1 n (r t) < r1).
  { intros t Ht. specialize (SB t Ht). pose proof (l1_nonneg n (r t)) as P. set (b := l1 n (r t)) in *. clearbody b. destruct (Rlt_dec b r1) as [Y|Y]; [exact Y|]. exfalso.
    apply (tube_arith a b (N1 * C) r1 A0); [nra|exact R1|exact SB|exact Hr1|lra]. }
  set (v := fun t i => r t i - sum_n n (fun j => Phi t i j * dl j)).
  set (err := fun t i => g i (Z t) - g i (Z0 t) - sum_n n (fun j => D t i j * r t j)).
  set (dv := fun t i => sum_n n (fun j => D t i j * v t j) + err t i).
  assert (Dv : forall t i, 0 <= t <= 1 -> (i < n)%nat -> is_derive (fun x => v x i) t (dv t i)).
  { intros t k Ht Hk. unfold v, r, sub. eapply der_to.
    - apply der_minus; [apply der_minus; [apply SZ; assumption|apply HZ; assumption]|]. apply (der_sum n (fun x j => Phi x k j * dl j) (fun j => sum_n n (fun l => D t k l * Phi t l j) * dl j)). intros j Hj.
      eapply der_to; [apply der_mult; [apply HPhi; assumption|apply der_const]|]. cbv beta. ring.
    - cbv beta. unfold dv, err, v. replace (sum_n n (fun j => sum_n n (fun l => D t k l * Phi t l j) * dl j)) with (sum_n n (fun l => D t k l * sum_n n (fun j => Phi t l j * dl j))).
      + replace (sum_n n (fun j => D t k j * (r t j - sum_n n (fun j0 => Phi t j j0 * dl j0)))) with (sum_n n (fun j => D t k j * r t j) - sum_n n (fun l => D t k l * sum_n n (fun j => Phi t l j * dl j))); [ring|].
        rewrite <- sum_minus. apply sum_ext. intros; ring.
      + erewrite (sum_ext n (fun l => D t k l * _)); [|intros l Hl; rewrite <- sum_scal; reflexivity]. rewrite sum_swap. apply sum_ext. intros j Hj. rewrite Rmult_comm, <- sum_scal. apply sum_ext. intros; ring. }
  assert (V0 : sq n (v 0) = 0).
  { unfold sq. eapply eq_trans; [|apply (sum_zero n)]. apply sum_ext. intros k Hk. unfold v. fold dl. replace (sum_n n (fun j => Phi 0 k j * dl j)) with (dl k); [ring|]. rewrite <- (sum_delta n k dl Hk). apply sum_ext. intros j Hj. rewrite HPhi0, Nat.eqb_sym by assumption. reflexivity. }
  assert (Err : forall t i, 0 <= t <= 1 -> (i < n)%nat -> Rabs (err t i) <= e1 * l1 n (r t)).
  { intros t k Ht Hk. apply (H1 k Hk t (Z t) Ht). apply Tube. exact Ht. }
  assert (Q := gronwall (fun t => sq n (v t)) (fun t => sum_n n (fun i => 2 * (v t i * dv t i))) L (e1 * e1 * (N1 * C * (a * a))) 1 L0).
  assert (c0 : 0 <= e1 * e1 * (N1 * C * (a * a))). { apply Rmult_le_pos; [nra|]. apply Rmult_le_pos; [nra|nra]. }
  specialize (Q c0 ltac:(lra)). cbv beta in Q. rewrite V0, Rplus_0_l, !Rmult_1_r in Q. fold E in Q.
  assert (B : sq n (v 1) <= e1 * e1 * (N1 * C * (a * a)) * E).
  { apply Q.
    - intros t Ht. apply (sq_der v dv). intros k Hk. apply Dv; [lra|exact Hk].
    - intros t Ht. eapply Rle_trans; [apply (sum_prod_bound (v t) (dv t) (K * l1 n (v t) + e1 * l1 n (r t)))|].
      + pose proof (l1_nonneg n (v t)). pose proof (l1_nonneg n (r t)). nra.
      + intros k Hk. unfold dv. eapply Rle_trans; [apply Rabs_triang|]. apply Rplus_le_compat; [|apply Err; [lra|exact Hk]]. apply lin_bound. intros j Hj. apply HK; [exact Hk|lra|exact Hj].
      + pose proof (l1_sq n (v t)) as B1. pose proof (SB t ltac:(lra)) as B2. pose proof (l1_nonneg n (v t)) as P1. pose proof (l1_nonneg n (r t)) as P2.
        set (x := l1 n (v t)) in *. set (y := l1 n (r t)) in *.
        apply Rle_trans with ((2 * K + 1) * (x * x) + e1 * e1 * (y * y)).
        * pose proof (Rle_0_sqr (x - e1 * y)) as Sq. unfold Rsqr in Sq. replace (2 * x * (K * x + e1 * y)) with ((2 * K + 1) * (x * x) + e1 * e1 * (y * y) - (x - e1 * y) * (x - e1 * y)) by ring. lra.
        * apply Rplus_le_compat; [unfold L; rewrite Rmult_assoc; apply Rmult_le_compat_l; [lra|exact B1]|]. apply Rmult_le_compat_l; [nra|exact B2]. }
  assert (B3 : v 1 i * v 1 i <= (eta * a) * (eta * a)).
  { eapply Rle_trans; [|eapply Rle_trans; [exact B|]].
    - unfold sq. assert (G := l1_ge n (fun j => v 1 j * v 1 j) i Hi). cbv beta in G. unfold l1 in G. rewrite Rabs_pos_eq in G by nra.
      eapply Rle_trans; [exact G|]. right. apply sum_ext. intros j _. rewrite Rabs_pos_eq by nra. reflexivity.
    - replace (e1 * e1 * (N1 * C * (a * a)) * E) with ((e1 * e1 * (N1 * C * E)) * (a * a)) by ring. replace (eta * a * (eta * a)) with (eta * eta * (a * a)) by ring.
      apply Rmult_le_compat_r; [nra|]. apply Rle_trans with ((e1 * w) * (e1 * w)); [|right; unfold e1; field; lra].
      replace (N1 * C * E) with (w - 1) by (unfold w; ring). clear -E1 W. assert (0 < e1 * e1) by nra. nra. }
  change (Z 1 i - Z0 1 i) with (r 1 i). fold (v 1 i). apply Rsqr_incr_0_var; [unfold Rsqr; rewrite <- Rabs_mult, Rabs_pos_eq by nra; exact B3|nra].
Qed.
End Flow.
