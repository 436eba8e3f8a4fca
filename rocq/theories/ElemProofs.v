(** * Conics in an orthonormal frame; osculating elements *)
From Coq Require Import Reals Lra Psatz.
From Coquelicot Require Import Rcomplements.
From Verif Require Import Outcome RealLib PartialReal Vec3 TwoBodySpec FlowMain ElemModel ElemSpec.
Open Scope R_scope. Open Scope partial_scope.

Ltac vring := apply vec_eq; unfold vadd, vsub, vneg, vscal, cross, dot, vzero; cbn [vx vy vz]; ring.
Lemma dot_scal_l k u v : dot (vscal k u) v = k * dot u v. Proof. unfold dot, vscal; cbn [vx vy vz]; ring. Qed.
Lemma dot_scal_r k u v : dot u (vscal k v) = k * dot u v. Proof. unfold dot, vscal; cbn [vx vy vz]; ring. Qed.
Lemma dot_add_l a b c : dot (vadd a b) c = dot a c + dot b c. Proof. unfold dot, vadd; cbn [vx vy vz]; ring. Qed.
Lemma dot_add_r a b c : dot c (vadd a b) = dot c a + dot c b. Proof. unfold dot, vadd; cbn [vx vy vz]; ring. Qed.
Lemma dot_sub_l a b c : dot (vsub a b) c = dot a c - dot b c. Proof. unfold dot, vsub; cbn [vx vy vz]; ring. Qed.
Lemma dot_sub_r a b c : dot c (vsub a b) = dot c a - dot c b. Proof. unfold dot, vsub; cbn [vx vy vz]; ring. Qed.
Lemma cross_perp_l u v : dot u (cross u v) = 0. Proof. unfold dot, cross; cbn [vx vy vz]; ring. Qed.
Lemma cross_perp_r u v : dot v (cross u v) = 0. Proof. unfold dot, cross; cbn [vx vy vz]; ring. Qed.
Lemma triple a b c : cross a (cross b c) = vsub (vscal (dot a c) b) (vscal (dot a b) c). Proof. vring. Qed.
Lemma triple_l a b c : cross (cross a b) c = vsub (vscal (dot a c) b) (vscal (dot b c) a). Proof. vring. Qed.
Lemma vscal_1 u : vscal 1 u = u. Proof. vring. Qed.
Lemma vscal_vscal a b u : vscal a (vscal b u) = vscal (a * b) u. Proof. vring. Qed.
Lemma norm_scal k u : 0 <= k -> norm (vscal k u) = k * norm u.
Proof. intros K. apply norm_unique; [apply Rmult_le_pos; [exact K|apply norm_nonneg]|]. rewrite dot_scal_l, dot_scal_r, <- norm_sq. ring. Qed.
Lemma norm_1 u : dot u u = 1 -> norm u = 1. Proof. intros H. apply norm_unique; lra. Qed.
Lemma unit_dir_1 u : u <> vzero -> dot (vscal (/ norm u) u) (vscal (/ norm u) u) = 1.
Proof. intros N. pose proof (norm_pos u N). rewrite dot_scal_l, dot_scal_r, <- norm_sq. field. lra. Qed.
Lemma unit_dir_2 u : u <> vzero -> u = vscal (norm u) (vscal (/ norm u) u).
Proof. intros N. pose proof (norm_pos u N). rewrite vscal_vscal, Rinv_r by lra. symmetry. apply vscal_1. Qed.

(** ** orthonormal pairs *)
Definition ortho (F G : vec) : Prop := dot F F = 1 /\ dot G G = 1 /\ dot F G = 0.
Lemma ortho_k F G : ortho F G -> dot (cross F G) (cross F G) = 1.
Proof. intros [A [B C]]. rewrite lagrange_identity, A, B, C. ring. Qed.
Lemma in_plane F G u : ortho F G -> dot u (cross F G) = 0 -> u = vadd (vscal (dot u F) F) (vscal (dot u G) G).
Proof.
  intros [A [B C]] Z.
  assert (D : dot (vsub u (vadd (vscal (dot u F) F) (vscal (dot u G) G))) (vsub u (vadd (vscal (dot u F) F) (vscal (dot u G) G))) = 0).
  { rewrite dot_sub_l, !dot_sub_r, !dot_add_l. repeat rewrite ?dot_add_r, ?dot_scal_l, ?dot_scal_r. rewrite (dot_comm F u), (dot_comm G u), (dot_comm G F), A, B, C.
    assert (E : dot u (cross F G) * dot u (cross F G) = dot u u * (dot F F * dot G G - dot F G * dot F G) - dot u F * (dot u F * dot G G - dot u G * dot F G) + dot u G * (dot u F * dot F G - dot u G * dot F F))
      by (unfold dot, cross; cbn [vx vy vz]; ring).
    rewrite Z, A, B, C in E. lra. }
  apply dot_zero in D. apply vec_eq; [apply (f_equal vx) in D|apply (f_equal vy) in D|apply (f_equal vz) in D]; unfold vsub, vzero in D; cbn [vx vy vz] in *; lra.
Qed.
Lemma ortho_rot F G : ortho F G -> cross F (cross F G) = vneg G /\ cross G (cross F G) = F /\ cross (cross F G) F = G /\ cross (cross F G) G = vneg F.
Proof. intros [A [B C]]. rewrite !triple, !triple_l, ?(dot_comm G F), A, B, C. repeat split; vring. Qed.

(** ** the state at true longitude L on the conic of parameter p and eccentricity vector f F + g G *)
Definition kst (mu p f g L : R) (F G : vec) : state :=
  (vscal (p / (1 + f * cos L + g * sin L)) (vadd (vscal (cos L) F) (vscal (sin L) G)),
   vscal (sqrt (mu / p)) (vadd (vscal (- (g + sin L)) F) (vscal (f + cos L) G))).
Section Conic.
Variables (mu p f g L : R) (F G : vec).
Hypothesis Mu : 0 < mu. Hypothesis P : 0 < p. Hypothesis O : ortho F G. Hypothesis D : 0 < 1 + f * cos L + g * sin L.
Let den := 1 + f * cos L + g * sin L.
Let rho := p / den.
Let q := sqrt (mu / p).
Let PR : 0 < rho := Rdiv_lt_0_compat _ _ P D.
Let PQ : 0 < q := sqrt_lt_R0 _ (Rdiv_lt_0_compat _ _ Mu P).
Let QQ : q * q = mu / p. Proof. apply sqrt_sqrt. left. apply Rdiv_lt_0_compat; assumption. Qed.
Let SC : sin L * sin L + cos L * cos L = 1. Proof. pose proof (sin2_cos2 L) as H. unfold Rsqr in H. exact H. Qed.
Let u := vadd (vscal (cos L) F) (vscal (sin L) G).
Let w := vadd (vscal (- (g + sin L)) F) (vscal (f + cos L) G).
Lemma lin2 a b c d : dot (vadd (vscal a F) (vscal b G)) (vadd (vscal c F) (vscal d G)) = a * c + b * d.
Proof. destruct O as [A [B C]]. rewrite dot_add_l, !dot_add_r, !dot_scal_l, !dot_scal_r, (dot_comm G F), A, B, C. ring. Qed.
Lemma kst_norm : norm (fst (kst mu p f g L F G)) = rho.
Proof. unfold kst. cbn [fst]. fold den rho u. rewrite norm_scal by lra. rewrite (norm_1 u); [ring|]. unfold u. rewrite lin2. lra. Qed.
Lemma kst_hq : rho * q * den = sqrt (mu * p).
Proof.
  assert (PD : 0 < den) by exact D. unfold rho. replace (p / den * q * den) with (p * q) by (field; lra). unfold q. symmetry. replace (mu * p) with (p * p * (mu / p)) by (field; lra).
  rewrite sqrt_mult, sqrt_square; [reflexivity|lra|nra|left; apply Rdiv_lt_0_compat; assumption].
Qed.
Lemma kst_h : ang_mom (kst mu p f g L F G) = vscal (sqrt (mu * p)) (cross F G).
Proof.
  unfold kst, ang_mom. cbn [fst snd]. fold den rho q u w. rewrite <- kst_hq. transitivity (vscal (rho * q) (cross u w)); [vring|].
  transitivity (vscal (rho * q * (cos L * (f + cos L) + sin L * (g + sin L))) (cross F G)); [unfold u, w; vring|]. f_equal. f_equal. unfold den. lra.
Qed.
Lemma kst_ecc : ecc_vec mu (kst mu p f g L F G) = vadd (vscal f F) (vscal g G).
Proof.
  unfold ecc_vec. rewrite kst_h, kst_norm. unfold kst. cbn [fst snd]. fold den rho q u w. destruct (ortho_rot F G O) as [E1 [E2 _]].
  replace (cross (vscal q w) (vscal (sqrt (mu * p)) (cross F G))) with (vscal (q * sqrt (mu * p)) (vadd (vscal (g + sin L) (vneg (cross F (cross F G)))) (vscal (f + cos L) (cross G (cross F G))))) by (unfold w; vring).
  rewrite E1, E2. replace (q * sqrt (mu * p)) with mu.
  2:{ unfold q. rewrite <- sqrt_mult; [|left; apply Rdiv_lt_0_compat; assumption|nra]. replace (mu / p * (mu * p)) with (mu * mu) by (field; lra). rewrite sqrt_square; lra. }
  rewrite !vscal_vscal, Rinv_l, Rinv_l by lra. unfold u. vring.
Qed.
Lemma kst_energy : energy mu (kst mu p f g L F G) = mu / (2 * p) * (f * f + g * g - 1).
Proof.
  unfold energy. rewrite kst_norm. unfold kst. cbn [snd]. fold q w. assert (PD : 0 < den) by exact D.
  replace (dot (vscal q w) (vscal q w)) with (q * q * ((g + sin L) * (g + sin L) + (f + cos L) * (f + cos L))) by (rewrite dot_scal_l, dot_scal_r; unfold w; rewrite lin2; ring).
  rewrite QQ. unfold rho. replace (mu / (p / den)) with (mu * den / p) by (field; lra).
  transitivity (mu / (2 * p) * ((g * g + 2 * g * sin L + sin L * sin L) + (f * f + 2 * f * cos L + cos L * cos L) - 2 * den)); [field; lra|].
  replace (sin L * sin L) with (1 - cos L * cos L) by lra. unfold den. f_equal. ring.
Qed.
Lemma kst_regular : regular mu (kst mu p f g L F G).
Proof.
  unfold regular. repeat split; try exact Mu. change (cross (fst (kst mu p f g L F G)) (snd (kst mu p f g L F G))) with (ang_mom (kst mu p f g L F G)). rewrite kst_h. intros E. assert (Z : dot (vscal (sqrt (mu * p)) (cross F G)) (vscal (sqrt (mu * p)) (cross F G)) = 0) by (rewrite E; unfold dot, vzero; cbn [vx vy vz]; ring).
  rewrite dot_scal_l, dot_scal_r, (ortho_k F G O) in Z. assert (0 < sqrt (mu * p)) by (apply sqrt_lt_R0, Rmult_lt_0_compat; assumption). nra.
Qed.
Lemma kst_radial : dot (fst (kst mu p f g L F G)) (snd (kst mu p f g L F G)) = rho * q * (f * sin L - g * cos L).
Proof. unfold kst. cbn [fst snd]. fold den rho q u w. rewrite dot_scal_l, dot_scal_r. unfold u, w. rewrite lin2. ring. Qed.
End Conic.

(** every regular state is of that form in each frame of its plane *)
Lemma ecc_r mu s : 0 < mu -> fst s <> vzero -> dot (ecc_vec mu s) (fst s) = dot (ang_mom s) (ang_mom s) / mu - norm (fst s).
Proof.
  intros M N. pose proof (norm_pos _ N). unfold ecc_vec. rewrite dot_sub_l, !dot_scal_l, <- (norm_sq (fst s)).
  replace (dot (cross (snd s) (ang_mom s)) (fst s)) with (dot (ang_mom s) (ang_mom s)) by (unfold ang_mom, dot, cross; cbn [vx vy vz]; ring). field. lra.
Qed.
Lemma v_from_ecc mu s : 0 < mu -> fst s <> vzero -> vscal (dot (ang_mom s) (ang_mom s)) (snd s) = vscal mu (cross (ang_mom s) (vadd (ecc_vec mu s) (vscal (/ norm (fst s)) (fst s)))).
Proof.
  intros M N. pose proof (norm_pos _ N). unfold ecc_vec.
  replace (vadd (vsub (vscal (/ mu) (cross (snd s) (ang_mom s))) (vscal (/ norm (fst s)) (fst s))) (vscal (/ norm (fst s)) (fst s))) with (vscal (/ mu) (cross (snd s) (ang_mom s))) by vring.
  replace (cross (ang_mom s) (vscal (/ mu) (cross (snd s) (ang_mom s)))) with (vscal (/ mu) (cross (ang_mom s) (cross (snd s) (ang_mom s)))) by vring.
  rewrite vscal_vscal, Rinv_r, vscal_1, triple by lra. replace (dot (ang_mom s) (snd s)) with 0 by (unfold ang_mom, dot, cross; cbn [vx vy vz]; ring). vring.
Qed.
Lemma kst_of mu s p f g L F G : regular mu s -> ortho F G -> p = dot (ang_mom s) (ang_mom s) / mu ->
  ang_mom s = vscal (norm (ang_mom s)) (cross F G) -> ecc_vec mu s = vadd (vscal f F) (vscal g G) ->
  fst s = vscal (norm (fst s)) (vadd (vscal (cos L) F) (vscal (sin L) G)) -> s = kst mu p f g L F G /\ 0 < 1 + f * cos L + g * sin L.
Proof.
  intros Rg O EP EH EE ER. destruct (regular_r _ _ Rg) as [M [N NH]]. change (cross (fst s) (snd s)) with (ang_mom s) in NH. pose proof (norm_pos _ N) as PN. pose proof (norm_pos _ NH) as PH.
  pose proof (dot_pos _ NH) as PD. assert (PP : 0 < p) by (rewrite EP; apply Rdiv_lt_0_compat; assumption).
  pose proof (ecc_r mu s M N) as H1. rewrite <- EP in H1. pose proof (v_from_ecc mu s M N) as H2.
  set (n := norm (fst s)) in *. set (h := norm (ang_mom s)) in *.
  assert (HH : h * h = mu * p) by (unfold h; rewrite norm_sq, EP; field; lra).
  assert (HD : n * (1 + f * cos L + g * sin L) = p).
  { rewrite EE, ER in H1. rewrite dot_scal_r, (lin2 F G O) in H1. lra. }
  assert (DD : 0 < 1 + f * cos L + g * sin L). { destruct (Rle_lt_dec (1 + f * cos L + g * sin L) 0) as [Z|Z]; [|exact Z]. exfalso. nra. }
  split; [|exact DD]. assert (EN : n = p / (1 + f * cos L + g * sin L)) by (rewrite <- HD; field; lra).
  assert (EQ : sqrt (mu / p) = mu / h).
  { apply Rsqr_inj; [apply sqrt_pos|left; apply Rdiv_lt_0_compat; assumption|]. unfold Rsqr. rewrite sqrt_sqrt by (left; apply Rdiv_lt_0_compat; assumption).
    replace (mu / h * (mu / h)) with (mu * mu / (h * h)) by (field; lra). rewrite HH. field. lra. }
  assert (EV : snd s = vscal (mu / h) (cross (cross F G) (vadd (vadd (vscal f F) (vscal g G)) (vadd (vscal (cos L) F) (vscal (sin L) G))))).
  { assert (UR : vscal (/ n) (fst s) = vadd (vscal (cos L) F) (vscal (sin L) G)) by (rewrite ER at 1; rewrite vscal_vscal, Rinv_l, vscal_1 by lra; reflexivity).
    rewrite UR, EE, EH in H2. rewrite dot_scal_l, dot_scal_r, (ortho_k F G O) in H2.
    replace (snd s) with (vscal (/ (h * (h * 1))) (vscal (h * (h * 1)) (snd s))) by (rewrite vscal_vscal, Rinv_l, vscal_1 by nra; reflexivity).
    rewrite H2. set (X := vadd (vadd _ _) _). transitivity (vscal (/ (h * (h * 1)) * mu * h) (cross (cross F G) X)); [vring|]. f_equal. field. lra. }
  destruct (ortho_rot F G O) as [_ [_ [R1 R2]]]. destruct s as [r v]. cbn [fst snd] in *. unfold kst. apply f_equal2; [rewrite ER, EN; reflexivity|].
  rewrite EV, EQ. f_equal. transitivity (vadd (vscal (f + cos L) (cross (cross F G) F)) (vscal (g + sin L) (cross (cross F G) G))); [vring|]. rewrite R1, R2. vring.
Qed.
Lemma p_eq mu s : 0 < mu -> fst s <> vzero -> dot (ecc_vec mu s) (ecc_vec mu s) = 1 + 2 * energy mu s * dot (ang_mom s) (ang_mom s) / (mu * mu).
Proof.
  intros M N. pose proof (norm_pos _ N) as P. unfold ecc_vec, energy. set (n := norm (fst s)) in *. rewrite dot_sub_l, !dot_sub_r, !dot_scal_l, !dot_scal_r.
  assert (Q : dot (fst s) (fst s) = n * n) by (symmetry; apply norm_sq). rewrite Q.
  assert (A : dot (cross (snd s) (ang_mom s)) (fst s) = dot (ang_mom s) (ang_mom s)) by (unfold ang_mom, dot, cross; cbn [vx vy vz]; ring).
  rewrite (dot_comm (fst s)), A. rewrite lagrange_identity. replace (dot (snd s) (ang_mom s)) with 0 by (unfold ang_mom, dot, cross; cbn [vx vy vz]; ring). field. lra.
Qed.
Lemma sma_p mu s : regular mu s -> energy mu s <> 0 -> sma mu s * (1 - dot (ecc_vec mu s) (ecc_vec mu s)) = dot (ang_mom s) (ang_mom s) / mu.
Proof. intros Rg NE. destruct (regular_r _ _ Rg) as [M [N _]]. rewrite (p_eq mu s M N). unfold sma. field. lra. Qed.
