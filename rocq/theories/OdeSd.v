(** * Strict differentiability: rules, and the ordinary derivatives it gives *)
From Coq Require Import Reals Lra Lia List.
From Coquelicot Require Import Coquelicot.
From Verif Require Import RealLib Vec3 SfSpec SfGrad OdeLib.
Open Scope R_scope.

Lemma sd_local n g z a : sd n g z a -> exists K rho, 0 <= K /\ 0 < rho /\ forall z1 z2, l1 n (sub z1 z) < rho -> l1 n (sub z2 z) < rho -> Rabs (g z1 - g z2) <= K * l1 n (sub z1 z2).
Proof.
  intros H. destruct (H 1 ltac:(lra)) as [rho [Rp Rh]]. exists (l1 n a + 1), rho. split; [pose proof (l1_nonneg n a); lra|]. split; [exact Rp|].
  intros z1 z2 H1 H2. specialize (Rh z1 z2 H1 H2). pose proof (lin_bound n a (l1 n a) (sub z1 z2) (fun j Hj => l1_ge n a j Hj)) as B.
  replace (g z1 - g z2) with ((g z1 - g z2 - sum_n n (fun j => a j * sub z1 z2 j)) + sum_n n (fun j => a j * sub z1 z2 j)) by ring.
  eapply Rle_trans; [apply Rabs_triang|]. lra.
Qed.
Lemma sd_const n (c : R) z : sd n (fun _ => c) z (fun _ => 0).
Proof.
  intros eta He. exists 1. split; [lra|]. intros z1 z2 _ _. replace (sum_n n _) with 0; [|symmetry; eapply eq_trans; [|apply (sum_zero n)]; apply sum_ext; intros; cbv beta; ring].
  replace (c - c - 0) with 0 by ring. rewrite Rabs_R0. pose proof (l1_nonneg n (sub z1 z2)). nra.
Qed.
Lemma sd_proj n j z : (j < n)%nat -> sd n (fun z => z j) z (fun k => if Nat.eqb k j then 1 else 0).
Proof.
  intros Hj eta He. exists 1. split; [lra|]. intros z1 z2 _ _. rewrite (sum_delta n j (sub z1 z2) Hj). unfold sub at 1. replace (z1 j - z2 j - (z1 j - z2 j)) with 0 by ring.
  rewrite Rabs_R0. pose proof (l1_nonneg n (sub z1 z2)). nra.
Qed.
Lemma sd_plus n f g z a b : sd n f z a -> sd n g z b -> sd n (fun z => f z + g z) z (fun j => a j + b j).
Proof.
  intros F G eta He. destruct (F (eta / 2) ltac:(lra)) as [r1 [R1 H1]]. destruct (G (eta / 2) ltac:(lra)) as [r2 [R2 H2]].
  exists (Rmin r1 r2). split; [apply Rmin_glb_lt; assumption|]. intros z1 z2 Z1 Z2. pose proof (Rmin_l r1 r2). pose proof (Rmin_r r1 r2).
  specialize (H1 z1 z2 ltac:(lra) ltac:(lra)). specialize (H2 z1 z2 ltac:(lra) ltac:(lra)).
  replace (sum_n n (fun j => (a j + b j) * sub z1 z2 j)) with (sum_n n (fun j => a j * sub z1 z2 j) + sum_n n (fun j => b j * sub z1 z2 j)) by (rewrite <- sum_plus; apply sum_ext; intros; ring).
  match goal with |- Rabs (_ - _ - (?A + ?B)) <= _ => replace (f z1 + g z1 - (f z2 + g z2) - (A + B)) with ((f z1 - f z2 - A) + (g z1 - g z2 - B)) by ring end.
  eapply Rle_trans; [apply Rabs_triang|]. lra.
Qed.
Definition sd1 (h : R -> R) (x l : R) : Prop := forall eta, 0 < eta -> exists rho, 0 < rho /\ forall x1 x2, Rabs (x1 - x) < rho -> Rabs (x2 - x) < rho ->
  Rabs (h x1 - h x2 - l * (x1 - x2)) <= eta * Rabs (x1 - x2).
Lemma sd_comp n h g z a (l : R) : sd1 h (g z) l -> sd n g z a -> sd n (fun z => h (g z)) z (fun j => l * a j).
Proof.
  intros H G eta He. destruct (sd_local n g z a G) as [K [r0 [K0 [R0 HK]]]].
  assert (P1 : 0 < eta / 2 / (K + 1)) by (apply Rdiv_lt_0_compat; lra). assert (P2 : 0 < eta / 2 / (Rabs l + 1)) by (pose proof (Rabs_pos l); apply Rdiv_lt_0_compat; lra).
  destruct (H _ P1) as [rh [Rh Hh]]. destruct (G _ P2) as [r1 [R1 H1]].
  assert (P3 : 0 < rh / (K + 1)) by (apply Rdiv_lt_0_compat; lra).
  exists (Rmin r0 (Rmin r1 (rh / (K + 1)))). split; [repeat apply Rmin_glb_lt; assumption|]. intros z1 z2 Z1 Z2.
  assert (M : forall w, l1 n (sub w z) < Rmin r0 (Rmin r1 (rh / (K + 1))) -> l1 n (sub w z) < r0 /\ l1 n (sub w z) < r1 /\ Rabs (g w - g z) < rh).
  { intros w Hw. pose proof (Rmin_l r0 (Rmin r1 (rh / (K + 1)))). pose proof (Rmin_r r0 (Rmin r1 (rh / (K + 1)))). pose proof (Rmin_l r1 (rh / (K + 1))). pose proof (Rmin_r r1 (rh / (K + 1))).
    split; [lra|]. split; [lra|]. specialize (HK w z ltac:(lra) ltac:(rewrite l1_zero; lra)). eapply Rle_lt_trans; [exact HK|].
    assert (Q : l1 n (sub w z) < rh / (K + 1)) by lra. apply (Rmult_lt_compat_r (K + 1)) in Q; [|lra]. replace (rh / (K + 1) * (K + 1)) with rh in Q by (field; lra). pose proof (l1_nonneg n (sub w z)). nra. }
  destruct (M z1 Z1) as [A1 [A2 A3]]. destruct (M z2 Z2) as [B1 [B2 B3]].
  specialize (Hh (g z1) (g z2) A3 B3). specialize (H1 z1 z2 A2 B2). specialize (HK z1 z2 A1 B1).
  replace (sum_n n (fun j => l * a j * sub z1 z2 j)) with (l * sum_n n (fun j => a j * sub z1 z2 j)) by (rewrite <- sum_scal; apply sum_ext; intros; ring).
  set (s := sum_n n (fun j => a j * sub z1 z2 j)) in *. set (d := l1 n (sub z1 z2)) in *. assert (D0 : 0 <= d) by apply l1_nonneg.
  replace (h (g z1) - h (g z2) - l * s) with ((h (g z1) - h (g z2) - l * (g z1 - g z2)) + l * (g z1 - g z2 - s)) by ring.
  eapply Rle_trans; [apply Rabs_triang|]. rewrite Rabs_mult.
  assert (T1 : Rabs (h (g z1) - h (g z2) - l * (g z1 - g z2)) <= eta / 2 * d).
  { eapply Rle_trans; [exact Hh|]. apply Rle_trans with (eta / 2 / (K + 1) * ((K + 1) * d)); [apply Rmult_le_compat_l; [lra|nra]|right; field; lra]. }
  assert (T2 : Rabs l * Rabs (g z1 - g z2 - s) <= eta / 2 * d).
  { pose proof (Rabs_pos l). apply Rle_trans with ((Rabs l + 1) * (eta / 2 / (Rabs l + 1) * d)); [|right; field; lra]. apply Rmult_le_compat; [lra|apply Rabs_pos|lra|exact H1]. }
  lra.
Qed.
(** one variable: a derivative that is continuous at the point *)
Lemma sd1_c1 (h dh : R -> R) (x d0 : R) : 0 < d0 -> (forall y, Rabs (y - x) < d0 -> is_derive h y (dh y)) -> continuity_pt dh x -> sd1 h x (dh x).
Proof.
  intros D0 D C eta He. destruct (C eta He) as [al [Al Ha]]. exists (Rmin d0 al). split; [apply Rmin_glb_lt; [exact D0|exact Al]|]. intros x1 x2 H1 H2.
  pose proof (Rmin_l d0 al). pose proof (Rmin_r d0 al).
  assert (G : forall a b, a < b -> Rabs (a - x) < Rmin d0 al -> Rabs (b - x) < Rmin d0 al -> Rabs (h b - h a - dh x * (b - a)) <= eta * Rabs (b - a)).
  { intros a b Hab Ha1 Hb1. apply Rabs_def2 in Ha1, Hb1. destruct (MVT_cor2 h dh a b Hab) as [c [E Hc]]; [intros c Hc; apply is_derive_Reals, D; apply Rabs_def1; lra|].
    rewrite E, <- Rmult_minus_distr_r, Rabs_mult. apply Rmult_le_compat_r; [apply Rabs_pos|]. destruct (Req_dec c x) as [->|N]; [rewrite Rminus_diag_eq, Rabs_R0 by reflexivity; lra|].
    left. apply (Ha c). split; [split; [exact I|]; intros Q; apply N; symmetry; exact Q|]. cbn. unfold R_dist. apply Rabs_def1; lra. }
  destruct (Rtotal_order x1 x2) as [L|[->|L]].
  - specialize (G x1 x2 L H1 H2). rewrite <- Rabs_Ropp, (Rabs_minus_sym x1). replace (- (h x1 - h x2 - dh x * (x1 - x2))) with (h x2 - h x1 - dh x * (x2 - x1)) by ring. exact G.
  - replace (h x2 - h x2 - dh x * (x2 - x2)) with 0 by ring. rewrite Rminus_diag_eq, Rabs_R0 by reflexivity. lra.
  - apply G; assumption.
Qed.
Lemma sd1_inv (x : R) : x <> 0 -> sd1 Rinv x (- / (x * x)).
Proof.
  intros N. apply (sd1_c1 Rinv (fun y => - / (y * y)) x (Rabs x)); [apply Rabs_pos_lt; exact N| |].
  - intros y Hy. assert (y <> 0) by (intros ->; rewrite Rminus_0_l, Rabs_Ropp in Hy; lra). auto_derive; [assumption|field; assumption].
  - apply derivable_continuous_pt. exists (2 * / (x * x * x)). apply is_derive_Reals. auto_derive; [nra|field; exact N].
Qed.
Lemma sd1_sqrt (x : R) : 0 < x -> sd1 sqrt x (/ (2 * sqrt x)).
Proof.
  intros N. apply (sd1_c1 sqrt (fun y => / (2 * sqrt y)) x x N).
  - intros y Hy. apply Rabs_def2 in Hy. auto_derive; [lra|field; apply Rgt_not_eq, sqrt_lt_R0; lra].
  - apply derivable_continuous_pt. eexists. apply is_derive_Reals. assert (0 < sqrt x) by (apply sqrt_lt_R0; exact N). auto_derive; [split; [lra|split; [lra|exact I]]|reflexivity].
Qed.
Lemma sd1_sqr (x : R) : sd1 (fun y => y * y) x (2 * x).
Proof.
  apply (sd1_c1 (fun y => y * y) (fun y => 2 * y) x 1 ltac:(lra)).
  - intros y _. auto_derive; [exact I|ring].
  - apply derivable_continuous_pt. exists 2. apply is_derive_Reals. auto_derive; [exact I|ring].
Qed.
Lemma sd1_scal (c x : R) : sd1 (fun y => c * y) x c.
Proof. intros eta He. exists 1. split; [lra|]. intros x1 x2 _ _. replace (c * x1 - c * x2 - c * (x1 - x2)) with 0 by ring. rewrite Rabs_R0. pose proof (Rabs_pos (x1 - x2)). nra. Qed.
Lemma sd_ext n f g z a b : (forall w, f w = g w) -> (forall j, (j < n)%nat -> a j = b j) -> sd n f z a -> sd n g z b.
Proof.
  intros E1 E2 H eta He. destruct (H eta He) as [r [Rp Rh]]. exists r. split; [exact Rp|]. intros z1 z2 Z1 Z2. specialize (Rh z1 z2 Z1 Z2). rewrite <- !E1.
  rewrite <- (sum_ext n (fun j => a j * sub z1 z2 j)); [exact Rh|]. intros j Hj. rewrite E2 by exact Hj. reflexivity.
Qed.
Lemma sd_mult n f g z a b : sd n f z a -> sd n g z b -> sd n (fun z => f z * g z) z (fun j => g z * a j + f z * b j).
Proof.
  intros F G. assert (Gm := sd_comp n (fun y => (-1) * y) g z b (-1) (sd1_scal (-1) (g z)) G).
  assert (S1 := sd_comp n (fun y => y * y) _ z _ _ (sd1_sqr _) (sd_plus n f g z a b F G)).
  assert (S2 := sd_comp n (fun y => y * y) _ z _ _ (sd1_sqr _) (sd_plus n f _ z a _ F Gm)).
  assert (S3 := sd_comp n (fun y => (1 / 4) * y) _ z _ (1 / 4) (sd1_scal (1 / 4) _) S1).
  assert (S4 := sd_comp n (fun y => (-1 / 4) * y) _ z _ (-1 / 4) (sd1_scal (-1 / 4) _) S2).
  eapply sd_ext; [| |exact (sd_plus n _ _ z _ _ S3 S4)]; intros; cbv beta; field.
Qed.

(** the ordinary derivative along a curve *)
Lemma sd_derive n g a (Z : R -> nvec) (dz : nvec) (t : R) : sd n g (Z t) a -> (forall j, (j < n)%nat -> is_derive (fun x => Z x j) t (dz j)) ->
  is_derive (fun x => g (Z x)) t (sum_n n (fun j => a j * dz j)).
Proof.
  intros G H. apply near_derive. intros eps He.
  destruct (sd_local n g (Z t) a G) as [K0 [r00 [K00 [R00 _]]]].
  (* |Z s - Z t| <= C |s - t| and the remainder of sum a (Z s - Z t) is small *)
  assert (Ds : is_derive (fun x => sum_n n (fun j => a j * Z x j)) t (sum_n n (fun j => a j * dz j))).
  { apply (der_sum n (fun x j => a j * Z x j)). intros j Hj. apply der_scal. apply H. exact Hj. }
  destruct (derive_near _ _ _ Ds (eps / 2) ltac:(lra)) as [d1 [D1 H1]].
  assert (B : exists C, 0 <= C /\ exists d, 0 < d /\ forall s, Rabs (s - t) < d -> l1 n (sub (Z s) (Z t)) <= C * Rabs (s - t)).
  { clear -H. induction n as [|n IH]; [exists 0; split; [lra|]; exists 1; split; [lra|]; intros; unfold l1; cbn; lra|].
    destruct IH as [C [C0 [d [Dp Hd]]]]; [intros; apply H; lia|]. destruct (derive_near _ _ _ (H n ltac:(lia)) 1 ltac:(lra)) as [d2 [D2 H2]].
    exists (C + (Rabs (dz n) + 1)). pose proof (Rabs_pos (dz n)). split; [lra|]. exists (Rmin d d2). split; [apply Rmin_glb_lt; assumption|]. intros s Hs.
    pose proof (Rmin_l d d2). pose proof (Rmin_r d d2). specialize (Hd s ltac:(lra)). specialize (H2 s ltac:(lra)). unfold l1 in *. cbn [sum_n]. unfold sub at 2.
    replace (Z s n - Z t n) with ((Z s n - Z t n - dz n * (s - t)) + dz n * (s - t)) by ring. pose proof (Rabs_triang (Z s n - Z t n - dz n * (s - t)) (dz n * (s - t))) as T. rewrite (Rabs_mult (dz n)) in T. lra. }
  destruct B as [C [C0 [d2 [D2 H2]]]].
  destruct (G (eps / 2 / (C + 1))) as [rho [Rp Rh]]; [apply Rdiv_lt_0_compat; lra|].
  assert (P : 0 < rho / (C + 1)) by (apply Rdiv_lt_0_compat; lra).
  exists (Rmin d1 (Rmin d2 (rho / (C + 1)))). split; [repeat apply Rmin_glb_lt; assumption|]. intros s Hs.
  pose proof (Rmin_l d1 (Rmin d2 (rho / (C + 1)))). pose proof (Rmin_r d1 (Rmin d2 (rho / (C + 1)))). pose proof (Rmin_l d2 (rho / (C + 1))). pose proof (Rmin_r d2 (rho / (C + 1))).
  specialize (H1 s ltac:(lra)). specialize (H2 s ltac:(lra)). pose proof (Rabs_pos (s - t)) as P0.
  assert (Q : l1 n (sub (Z s) (Z t)) < rho).
  { eapply Rle_lt_trans; [exact H2|]. assert (Q : Rabs (s - t) < rho / (C + 1)) by lra. apply (Rmult_lt_compat_r (C + 1)) in Q; [|lra]. replace (rho / (C + 1) * (C + 1)) with rho in Q by (field; lra). nra. }
  specialize (Rh (Z s) (Z t) Q ltac:(rewrite l1_zero; exact Rp)).
  replace (sum_n n (fun j => a j * sub (Z s) (Z t) j)) with (sum_n n (fun j => a j * Z s j) - sum_n n (fun j => a j * Z t j)) in Rh by (rewrite <- sum_minus; apply sum_ext; intros; unfold sub; ring).
  set (S1 := sum_n n (fun j => a j * Z s j)) in *. set (S2 := sum_n n (fun j => a j * Z t j)) in *. set (S3 := sum_n n (fun j => a j * dz j)) in *.
  replace (g (Z s) - g (Z t) - S3 * (s - t)) with ((g (Z s) - g (Z t) - (S1 - S2)) + (S1 - S2 - S3 * (s - t))) by ring.
  eapply Rle_trans; [apply Rabs_triang|].
  assert (eps / 2 / (C + 1) * l1 n (sub (Z s) (Z t)) <= eps / 2 * Rabs (s - t)).
  { apply Rle_trans with (eps / 2 / (C + 1) * ((C + 1) * Rabs (s - t))); [|right; field; lra]. apply Rmult_le_compat_l; [left; apply Rdiv_lt_0_compat; lra|]. nra. }
  lra.
Qed.
Lemma sd_partial n g z a j : sd n g z a -> (j < n)%nat -> is_derive (fun s => g (bump z j s)) 0 (a j).
Proof.
  intros G Hj. replace (a j) with (sum_n n (fun k => a k * (if Nat.eqb k j then 1 else 0))).
  - apply (sd_derive n g a (fun s => bump z j s) (fun k => if Nat.eqb k j then 1 else 0) 0).
    + intros eta He. destruct (G eta He) as [r [Rp Rh]]. exists r. split; [exact Rp|]. intros z1 z2 Z1 Z2.
      assert (E : forall w, l1 n (sub w z) = l1 n (sub w (bump z j 0))) by (intros w; apply l1_ext; intros k _; unfold sub, bump; destruct (Nat.eqb k j); ring).
      apply Rh; rewrite E; assumption.
    + intros k _. unfold bump. destruct (Nat.eqb k j); [|apply der_const]. eapply der_to; [apply der_plus; [apply der_const|apply der_id]|]. ring.
  - rewrite <- (sum_delta n j a Hj). apply sum_ext. intros. ring.
Qed.
