(** * Proofs about the fly-by functions *)
From Coq Require Import Reals Lra Psatz.
From Coquelicot Require Import Rcomplements.
From Verif Require Import RealLib PartialReal Vec3 FlybyModel FlybySpec.
Open Scope R_scope. Open Scope partial_scope.

Lemma asin_le_iff a b : -1 <= a <= 1 -> -1 <= b <= 1 -> (asin a <= asin b <-> a <= b).
Proof.
  intros A B. pose proof (asin_bound a) as BA. pose proof (asin_bound b) as BB. split; intros H.
  - rewrite <- (sin_asin a A), <- (sin_asin b B). apply sin_incr_1; lra.
  - apply sin_incr_0; try lra. rewrite (sin_asin a A), (sin_asin b B). exact H.
Qed.
Lemma inv_e e : 1 <= e -> 0 < 1 / e <= 1.
Proof. intros H. split; [apply Rdiv_lt_0_compat; lra|]. apply Rmult_le_reg_r with e; [lra|]. unfold Rdiv. rewrite Rmult_assoc, Rinv_l; lra. Qed.
Lemma asin_pos x : 0 < x <= 1 -> 0 < asin x <= PI / 2.
Proof.
  intros H. pose proof (asin_bound x) as B. split; [|lra]. destruct (Rle_lt_dec (asin x) 0) as [L|L]; [exfalso|exact L].
  assert (sin (asin x) <= sin 0) by (apply sin_incr_1; lra). rewrite sin_asin, sin_0 in H0 by lra. lra.
Qed.
Lemma norm_dot_sqrt u v : sqrt (dot u u * dot v v) = norm u * norm v.
Proof. unfold norm. apply sqrt_mult; apply dot_nonneg. Qed.
Lemma cos_range u v : u <> vzero -> v <> vzero -> -1 <= dot u v / (norm u * norm v) <= 1.
Proof.
  intros U W. pose proof (norm_pos u U). pose proof (norm_pos v W). assert (P : 0 < norm u * norm v) by nra.
  pose proof (abs_dot u v) as A. apply Rcomplements.Rabs_le_between in A.
  split; apply Rmult_le_reg_r with (norm u * norm v); try exact P; unfold Rdiv; rewrite Rmult_assoc, Rinv_l; lra.
Qed.
Definition ang (u v : vec) : R := acos (dot u v / (norm u * norm v)).
Lemma ang_angle u v : u <> vzero -> v <> vzero -> angle u v (ang u v).
Proof.
  intros U W. pose proof (norm_pos u U). pose proof (norm_pos v W). split; [apply acos_bound|].
  unfold ang. rewrite cos_acos by (apply cos_range; assumption). field. lra.
Qed.
Lemma angle_ang u v t : u <> vzero -> v <> vzero -> angle u v t -> t = ang u v.
Proof.
  intros U W [B E]. pose proof (norm_pos u U). pose proof (norm_pos v W). unfold ang. rewrite E.
  replace (norm u * norm v * cos t / (norm u * norm v)) with (cos t) by (field; lra). symmetry. apply acos_cos. lra.
Qed.
(** eccentricity and turn *)
Definition eccf (mu rp w : R) : R := 1 + rp / mu * w.
Definition turnf (mu rp w : R) : R := 2 * asin (1 / eccf mu rp w).
Lemma eccf_ge mu rp w : 0 < mu -> 0 <= rp -> 0 <= w -> 1 <= eccf mu rp w.
Proof. intros M P W. unfold eccf. assert (0 <= rp / mu) by (apply Rcomplements.Rdiv_le_0_compat; lra). nra. Qed.
Lemma turnf_bound mu rp w : 0 < mu -> 0 <= rp -> 0 <= w -> 0 < turnf mu rp w <= PI.
Proof. intros M P W. pose proof (asin_pos _ (inv_e _ (eccf_ge mu rp w M P W))). unfold turnf. lra. Qed.
Lemma turnf_turn mu rp u : 0 < mu -> 0 <= rp -> turn mu rp (norm u) (turnf mu rp (dot u u)).
Proof.
  intros M P. pose proof (dot_nonneg u) as W. pose proof (turnf_bound mu rp _ M P W). pose proof (eccf_ge mu rp _ M P W) as G. pose proof (inv_e _ G).
  split; [lra|]. unfold turnf. replace (2 * asin (1 / eccf mu rp (dot u u)) / 2) with (asin (1 / eccf mu rp (dot u u))) by field.
  rewrite sin_asin by lra. replace (1 + rp * norm u * norm u / mu) with (eccf mu rp (dot u u)); [field; lra|]. unfold eccf. rewrite <- (norm_sq u). field. lra.
Qed.
Lemma turn_turnf mu rp u t : 0 < mu -> 0 <= rp -> turn mu rp (norm u) t -> t = turnf mu rp (dot u u).
Proof.
  intros M P [B E]. pose proof (dot_nonneg u) as W. pose proof (eccf_ge mu rp _ M P W) as G.
  replace (1 + rp * norm u * norm u / mu) with (eccf mu rp (dot u u)) in E by (unfold eccf; rewrite <- (norm_sq u); field; lra).
  unfold turnf. assert (S : 1 / eccf mu rp (dot u u) = sin (t / 2)) by (apply (Rmult_eq_reg_r (eccf mu rp (dot u u))); [rewrite E; field; lra|lra]).
  rewrite S, asin_sin by lra. field.
Qed.
Lemma turnf_le_iff mu rp sr w : 0 < mu -> 0 <= rp -> 0 <= sr -> 0 < w -> (turnf mu rp w <= turnf mu sr w <-> sr <= rp).
Proof.
  intros M P S W. pose proof (eccf_ge mu rp w M P ltac:(lra)) as G. pose proof (eccf_ge mu sr w M S ltac:(lra)) as G'.
  pose proof (inv_e _ G). pose proof (inv_e _ G'). unfold turnf.
  assert (E : 1 / eccf mu rp w <= 1 / eccf mu sr w <-> eccf mu sr w <= eccf mu rp w).
  { unfold Rdiv. rewrite !Rmult_1_l. split; intros L.
    - destruct (Rle_lt_dec (eccf mu sr w) (eccf mu rp w)) as [K|K]; [exact K|]. apply Rinv_lt_contravar in K; [lra|nra].
    - apply Rinv_le_contravar; lra. }
  assert (E2 : eccf mu sr w <= eccf mu rp w <-> sr <= rp).
  { unfold eccf. assert (I : 0 < w / mu) by (apply Rdiv_lt_0_compat; lra). replace (sr / mu * w) with (sr * (w / mu)) by (field; lra). replace (rp / mu * w) with (rp * (w / mu)) by (field; lra).
    split; intros L; [apply Rmult_le_reg_r with (w / mu); lra|apply Rplus_le_compat_l, Rmult_le_compat_r; lra]. }
  rewrite <- E2, <- E, <- (asin_le_iff (1 / eccf mu rp w) (1 / eccf mu sr w)) by lra. split; lra.
Qed.

(** fb_con and fb_dv give numbers for non-zero velocities *)
Lemma ineq_some v_in v_out mu sr : v_in <> vzero -> v_out <> vzero -> 0 < mu -> 0 <= sr ->
  fb_ineq v_in v_out mu sr = Some (ang v_in v_out - turnf mu sr (dot v_in v_in)).
Proof.
  intros U W M S. pose proof (dot_pos v_in U) as PU. pose proof (dot_pos v_out W) as PW. pose proof (norm_pos v_in U) as NU. pose proof (norm_pos v_out W) as NW.
  unfold fb_ineq. rewrite pdiv_some by lra. cbn [obind]. rewrite psqrt_some by (apply Rmult_le_pos; lra). cbn [obind].
  rewrite norm_dot_sqrt, pdiv_some by (apply Rmult_integral_contrapositive; lra). cbn [obind]. rewrite pacos_some by (apply cos_range; assumption). cbn [obind].
  pose proof (eccf_ge mu sr (dot v_in v_in) M S ltac:(lra)) as G. pose proof (inv_e _ G). fold (eccf mu sr (dot v_in v_in)).
  rewrite pdiv_some by lra. cbn [obind]. rewrite pasin_some by lra. reflexivity.
Qed.
Lemma con_some v_in v_out mu sr : v_in <> vzero -> v_out <> vzero -> 0 < mu -> 0 <= sr ->
  fb_con v_in v_out mu sr = Some (dot v_in v_in - dot v_out v_out, ang v_in v_out - turnf mu sr (dot v_in v_in)).
Proof. intros U W M S. unfold fb_con. rewrite (ineq_some v_in v_out mu sr U W M S). reflexivity. Qed.
Lemma cos_lt_1 d : 0 < d <= PI -> cos d < 1.
Proof. intros H. rewrite <- cos_0. apply cos_decreasing_1; lra. Qed.
Definition dvf (v_in v_out : vec) (d : R) : R :=
  if Rlt_dec 0 d then sqrt (dot v_out v_out + dot v_in v_in - 2 * (norm v_out * norm v_in) * cos d) else Rabs (norm v_out - norm v_in).
Lemma cosine_arg v_in v_out d : 0 <= dot v_out v_out + dot v_in v_in - 2 * (norm v_out * norm v_in) * cos d.
Proof.
  rewrite <- (norm_sq v_in), <- (norm_sq v_out). pose proof (COS_bound d). pose proof (norm_nonneg v_in). pose proof (norm_nonneg v_out).
  pose proof (Rmult_le_pos _ _ H1 H0) as P. pose proof (Rle_0_sqr (norm v_out - norm v_in)) as Q. unfold Rsqr in Q. nra.
Qed.
Lemma dv_some v_in v_out mu sr : v_in <> vzero -> v_out <> vzero -> 0 < mu -> 0 <= sr ->
  fb_dv v_in v_out mu sr = Some (dvf v_in v_out (ang v_in v_out - turnf mu sr (dot v_in v_in))).
Proof.
  intros U W M S. unfold fb_dv. rewrite (ineq_some v_in v_out mu sr U W M S). cbn [obind]. set (d := ang v_in v_out - _). unfold dvf.
  destruct (Rlt_dec 0 d).
  - rewrite psqrt_some by (apply Rmult_le_pos; apply dot_nonneg). cbn [obind]. rewrite norm_dot_sqrt. apply psqrt_some, cosine_arg.
  - rewrite !psqrt_some by apply dot_nonneg. reflexivity.
Qed.
Lemma dv_zero_iff v_in v_out mu sr : v_in <> vzero -> v_out <> vzero -> 0 < mu -> 0 <= sr ->
  exists dv, fb_dv v_in v_out mu sr = Some dv /\ 0 <= dv /\ (dv = 0 <-> exists d, fb_con v_in v_out mu sr = Some (0, d) /\ d <= 0).
Proof.
  intros U W M S. rewrite (dv_some v_in v_out mu sr U W M S), (con_some v_in v_out mu sr U W M S). eexists. split; [reflexivity|].
  pose proof (norm_pos v_in U) as NU. pose proof (norm_pos v_out W) as NW. pose proof (turnf_bound mu sr (dot v_in v_in) M S (dot_nonneg _)) as TB.
  assert (AB : 0 <= ang v_in v_out <= PI) by apply acos_bound. set (d := ang v_in v_out - turnf mu sr (dot v_in v_in)). unfold dvf.
  destruct (Rlt_dec 0 d) as [L|L].
  - split; [apply sqrt_pos|]. split.
    + intros Z. exfalso. apply sqrt_eq_0 in Z; [|apply cosine_arg]. assert (DP : d <= PI) by (unfold d; lra). pose proof (cos_lt_1 d (conj L DP)) as C. rewrite <- (norm_sq v_in), <- (norm_sq v_out) in Z.
      assert (P : 0 < norm v_out * norm v_in * (1 - cos d)) by (repeat apply Rmult_lt_0_compat; lra). pose proof (Rle_0_sqr (norm v_out - norm v_in)) as Q. unfold Rsqr in Q. lra.
    + intros [d' [E Hd]]. injection E as _ <-. fold d in Hd. lra.
  - split; [apply Rabs_pos|]. split.
    + intros Z. apply Rabs_eq_0 in Z || (destruct (Req_dec (norm v_out - norm v_in) 0) as [Y|Y]; [|apply Rabs_no_R0 in Y; contradiction]; rename Y into Z').
      exists d. split; [|lra]. f_equal. f_equal. rewrite <- (norm_sq v_in), <- (norm_sq v_out). nra.
    + intros [d' [E Hd]]. injection E as E _. rewrite <- (norm_sq v_in), <- (norm_sq v_out) in E.
      assert (norm v_out = norm v_in) by nra. rewrite H, Rminus_diag_eq by reflexivity. apply Rabs_R0.
Qed.

(** ** fb_vout *)
Lemma normalize_some v : v <> vzero -> normalize v = Some (vscal (/ norm v) v).
Proof.
  intros H. pose proof (norm_pos v H). unfold normalize. rewrite psqrt_some by apply dot_nonneg. fold (norm v). cbn [obind].
  rewrite !pdiv_some by lra. cbn [obind]. f_equal. apply vec_eq; unfold vscal; cbn [vx vy vz]; field; lra.
Qed.
Lemma normalize_none v : v = vzero -> normalize v = None.
Proof.
  intros ->. unfold normalize. replace (dot vzero vzero) with 0 by (unfold dot, vzero; cbn [vx vy vz]; ring). rewrite psqrt_some by lra. cbn [obind].
  rewrite sqrt_0, pdiv_none. reflexivity.
Qed.
Lemma unit_norm v : v <> vzero -> dot (vscal (/ norm v) v) (vscal (/ norm v) v) = 1.
Proof.
  intros H. pose proof (norm_pos v H). transitivity (/ norm v * / norm v * dot v v); [unfold dot, vscal; cbn [vx vy vz]; ring|].
  rewrite <- norm_sq. field. lra.
Qed.
Definition turned (i j : vec) (d b : R) : vec := vadd (vscal (cos d) i) (vadd (vscal (cos b * sin d) j) (vscal (sin b * sin d) (cross i j))).
Section Frame.
Variables i j : vec. Hypothesis Ii : dot i i = 1. Hypothesis Jj : dot j j = 1. Hypothesis Ij : dot i j = 0.
Lemma frame_k : dot (cross i j) (cross i j) = 1. Proof. rewrite lagrange_identity, Ii, Jj, Ij. ring. Qed.
Lemma turned_lin x d b : dot x (turned i j d b) = cos d * dot x i + cos b * sin d * dot x j + sin b * sin d * dot x (cross i j).
Proof. unfold turned, dot, vadd, vscal, cross; cbn [vx vy vz]; ring. Qed.
Lemma turned_i d b : dot i (turned i j d b) = cos d.
Proof. rewrite turned_lin, Ii, Ij. replace (dot i (cross i j)) with 0 by (unfold dot, cross; cbn [vx vy vz]; ring). ring. Qed.
Lemma turned_j d b : dot j (turned i j d b) = cos b * sin d.
Proof. rewrite turned_lin, Jj, (dot_comm j i), Ij. replace (dot j (cross i j)) with 0 by (unfold dot, cross; cbn [vx vy vz]; ring). ring. Qed.
Lemma turned_k d b : dot (cross i j) (turned i j d b) = sin b * sin d.
Proof. rewrite turned_lin, frame_k, (dot_comm (cross i j) i), (dot_comm (cross i j) j). replace (dot i (cross i j)) with 0 by (unfold dot, cross; cbn [vx vy vz]; ring).
  replace (dot j (cross i j)) with 0 by (unfold dot, cross; cbn [vx vy vz]; ring). ring. Qed.
Lemma turned_unit d b : dot (turned i j d b) (turned i j d b) = 1.
Proof.
  rewrite turned_lin, (dot_comm _ i), (dot_comm _ j), (dot_comm _ (cross i j)), turned_i, turned_j, turned_k.
  pose proof (sin2_cos2 d) as D. pose proof (sin2_cos2 b) as B. unfold Rsqr in *. nsz.
Qed.
End Frame.
Lemma vscal_nz k v : k <> 0 -> v <> vzero -> vscal k v <> vzero.
Proof. intros K N E. apply N. apply vec_eq; [apply (f_equal vx) in E|apply (f_equal vy) in E|apply (f_equal vz) in E]; unfold vscal, vzero in *; cbn [vx vy vz] in *; apply Rmult_integral in E; tauto. Qed.
Lemma cross_scal k u v : cross (vscal k u) v = vscal k (cross u v).
Proof. apply vec_eq; unfold cross, vscal; cbn [vx vy vz]; ring. Qed.
Lemma cross_zero_l v : cross vzero v = vzero. Proof. apply vec_eq; unfold cross, vzero; cbn [vx vy vz]; ring. Qed.
Section Vout.
Variables (v_in v_pla : vec) (rp beta mu : R).
Hypothesis M : 0 < mu. Hypothesis P : 0 <= rp.
Let u := vsub v_in v_pla.
Definition ihat := vscal (/ norm u) u.
Definition jhat := vscal (/ norm (cross ihat v_pla)) (cross ihat v_pla).
Lemma vout_eq : cross u v_pla <> vzero ->
  fb_vout v_in v_pla rp beta mu = Some (vadd v_pla (vscal (norm u) (turned ihat jhat (turnf mu rp (dot u u)) beta))).
Proof.
  intros N. assert (NU : u <> vzero) by (intros E; apply N; rewrite E; apply cross_zero_l). pose proof (norm_pos u NU) as PU.
  unfold fb_vout. fold u. rewrite psqrt_some by apply dot_nonneg. fold (norm u). cbn [obind]. rewrite pdiv_some by lra. cbn [obind].
  pose proof (eccf_ge mu rp (dot u u) M P (dot_nonneg u)) as G. pose proof (inv_e _ G). fold (eccf mu rp (dot u u)).
  rewrite pdiv_some by lra. cbn [obind]. rewrite pasin_some by lra. cbn [obind]. rewrite !pdiv_some by lra. cbn [obind].
  replace (V (vx u / norm u) (vy u / norm u) (vz u / norm u)) with ihat by (unfold ihat; apply vec_eq; unfold vscal; cbn [vx vy vz]; field; lra).
  rewrite normalize_some; [|unfold ihat; rewrite cross_scal; apply vscal_nz; [apply Rinv_neq_0_compat; lra|exact N]]. cbn [obind]. fold jhat. f_equal. fold (turnf mu rp (dot u u)).
  apply vec_eq; unfold turned, vadd, vscal; cbn [vx vy vz]; ring.
Qed.
Lemma vout_parallel : u <> vzero -> cross u v_pla = vzero -> fb_vout v_in v_pla rp beta mu = None.
Proof.
  intros NU N. pose proof (norm_pos u NU) as PU.
  unfold fb_vout. fold u. rewrite psqrt_some by apply dot_nonneg. fold (norm u). cbn [obind]. rewrite pdiv_some by lra. cbn [obind].
  pose proof (eccf_ge mu rp (dot u u) M P (dot_nonneg u)) as G. pose proof (inv_e _ G). fold (eccf mu rp (dot u u)).
  rewrite pdiv_some by lra. cbn [obind]. rewrite pasin_some by lra. cbn [obind]. rewrite !pdiv_some by lra. cbn [obind].
  replace (V (vx u / norm u) (vy u / norm u) (vz u / norm u)) with ihat by (unfold ihat; apply vec_eq; unfold vscal; cbn [vx vy vz]; field; lra).
  rewrite normalize_none; [reflexivity|]. unfold ihat. rewrite cross_scal, N. apply vec_eq; unfold vscal, vzero; cbn [vx vy vz]; ring.
Qed.
Lemma vout_zero : u = vzero -> fb_vout v_in v_pla rp beta mu = None.
Proof.
  intros E. unfold fb_vout. fold u. rewrite E. replace (dot vzero vzero) with 0 by (unfold dot, vzero; cbn [vx vy vz]; ring). rewrite psqrt_some by lra. cbn [obind].
  rewrite pdiv_some by lra. cbn [obind]. rewrite Rmult_0_r, Rplus_0_r, pdiv_some by lra. cbn [obind]. rewrite pasin_some by lra. cbn [obind]. rewrite sqrt_0, pdiv_none. reflexivity.
Qed.
Section NZ.
Hypothesis N : cross u v_pla <> vzero.
Lemma vout_u_nz : u <> vzero. Proof. intros E. apply N. rewrite E. apply cross_zero_l. Qed.
Let PU : 0 < norm u := norm_pos u vout_u_nz.
Lemma vout_i : dot ihat ihat = 1. Proof. apply unit_norm, vout_u_nz. Qed.
Lemma vout_c_nz : cross ihat v_pla <> vzero. Proof. unfold ihat. rewrite cross_scal. apply vscal_nz; [apply Rinv_neq_0_compat; lra|exact N]. Qed.
Lemma vout_j : dot jhat jhat = 1. Proof. apply unit_norm, vout_c_nz. Qed.
Lemma vout_ij : dot ihat jhat = 0. Proof. unfold jhat. unfold dot, vscal, cross. cbn [vx vy vz]. ring. Qed.
Let d := turnf mu rp (dot u u).
Let w := vscal (norm u) (turned ihat jhat d beta).
Lemma w_dot : dot w w = dot u u.
Proof. transitivity (norm u * norm u * dot (turned ihat jhat d beta) (turned ihat jhat d beta)); [unfold w, dot, vscal; cbn [vx vy vz]; ring|].
  rewrite (turned_unit ihat jhat vout_i vout_j vout_ij), norm_sq. ring. Qed.
Lemma w_norm : norm w = norm u. Proof. unfold norm at 1. rewrite w_dot. reflexivity. Qed.
Lemma u_i : u = vscal (norm u) ihat. Proof. apply vec_eq; unfold ihat, vscal; cbn [vx vy vz]; field; lra. Qed.
Lemma w_angle : angle u w d.
Proof.
  pose proof (turnf_bound mu rp (dot u u) M P (dot_nonneg u)) as B. fold d in B. split; [lra|]. rewrite w_norm.
  transitivity (norm u * norm u * dot ihat (turned ihat jhat d beta)); [|rewrite (turned_i ihat jhat vout_i vout_ij); ring].
  rewrite u_i at 1. unfold w, dot, vscal; cbn [vx vy vz]; ring.
Qed.
Lemma w_planes : dot w (cross u v_pla) = norm u * norm (cross u v_pla) * sin d * cos beta /\
  dot w (cross u (cross u v_pla)) = norm u * norm u * norm (cross u v_pla) * sin d * sin beta.
Proof.
  pose proof (norm_pos _ vout_c_nz) as PC. pose proof (norm_pos _ N) as PN.
  assert (C : cross ihat v_pla = vscal (/ norm u) (cross u v_pla)) by (unfold ihat; apply cross_scal).
  assert (NC : norm (cross ihat v_pla) = norm (cross u v_pla) / norm u).
  { apply norm_unique; [apply Rdiv_le_0_compat; lra|]. rewrite C. transitivity (/ norm u * / norm u * (norm (cross u v_pla) * norm (cross u v_pla))); [field; lra|]. rewrite norm_sq. unfold dot, vscal; cbn [vx vy vz]; ring. }
  assert (J : cross u v_pla = vscal (norm (cross u v_pla)) jhat).
  { unfold jhat. rewrite NC, C. apply vec_eq; unfold vscal; cbn [vx vy vz]; field; lra. }
  assert (K : cross u (cross u v_pla) = vscal (norm u * norm (cross u v_pla)) (cross ihat jhat)).
  { rewrite J at 1. rewrite u_i at 1. apply vec_eq; unfold cross, vscal; cbn [vx vy vz]; ring. }
  split.
  - transitivity (norm u * norm (cross u v_pla) * dot jhat (turned ihat jhat d beta)); [|rewrite (turned_j ihat jhat vout_j vout_ij); ring].
    rewrite J at 1. unfold w, dot, vscal; cbn [vx vy vz]; ring.
  - transitivity (norm u * (norm u * norm (cross u v_pla)) * dot (cross ihat jhat) (turned ihat jhat d beta)); [|rewrite (turned_k ihat jhat vout_i vout_j vout_ij); ring].
    rewrite K. unfold w, dot, vscal; cbn [vx vy vz]; ring.
Qed.
End NZ.
End Vout.
Lemma vsub_vadd u v : vsub (vadd u v) u = v. Proof. apply vec_eq; unfold vsub, vadd; cbn [vx vy vz]; ring. Qed.
Lemma vout_ok v_in v_pla rp beta mu : 0 < mu -> 0 <= rp -> cross (vsub v_in v_pla) v_pla <> vzero ->
  exists v_out t, fb_vout v_in v_pla rp beta mu = Some v_out /\ norm (vsub v_out v_pla) = norm (vsub v_in v_pla) /\
    turn mu rp (norm (vsub v_in v_pla)) t /\ angle (vsub v_in v_pla) (vsub v_out v_pla) t /\
    dot (vsub v_out v_pla) (cross (vsub v_in v_pla) v_pla) = norm (vsub v_in v_pla) * norm (cross (vsub v_in v_pla) v_pla) * sin t * cos beta /\
    dot (vsub v_out v_pla) (cross (vsub v_in v_pla) (cross (vsub v_in v_pla) v_pla)) = norm (vsub v_in v_pla) * norm (vsub v_in v_pla) * norm (cross (vsub v_in v_pla) v_pla) * sin t * sin beta.
Proof.
  intros M P N. rewrite (vout_eq v_in v_pla rp beta mu M P N). do 2 eexists. split; [reflexivity|]. rewrite vsub_vadd.
  split; [apply (w_norm v_in v_pla rp beta mu N)|]. split; [apply turnf_turn; assumption|].
  split; [apply (w_angle v_in v_pla rp beta mu M P N)|]. apply (w_planes v_in v_pla rp beta mu N).
Qed.
Lemma vout_con v_in v_pla rp beta mu safe : 0 < mu -> 0 <= rp -> 0 <= safe -> cross (vsub v_in v_pla) v_pla <> vzero ->
  exists v_out d, fb_vout v_in v_pla rp beta mu = Some v_out /\ fb_con (vsub v_in v_pla) (vsub v_out v_pla) mu safe = Some (0, d) /\ (d <= 0 <-> safe <= rp).
Proof.
  intros M P S N. rewrite (vout_eq v_in v_pla rp beta mu M P N). eexists. exists (turnf mu rp (dot (vsub v_in v_pla) (vsub v_in v_pla)) - turnf mu safe (dot (vsub v_in v_pla) (vsub v_in v_pla))). split; [reflexivity|]. rewrite vsub_vadd.
  pose proof (vout_u_nz v_in v_pla N) as NU. set (u := vsub v_in v_pla) in *. set (w := vscal _ _).
  assert (WN : norm w = norm u) by apply (w_norm v_in v_pla rp beta mu N). assert (NW : w <> vzero) by (apply norm_pos_nz; rewrite WN; apply norm_pos, NU).
  rewrite (con_some u w mu safe NU NW M S). replace (dot w w) with (dot u u) by (rewrite <- !norm_sq, WN; reflexivity).
  rewrite (Rminus_diag_eq (dot u u) (dot u u)) by reflexivity.
  rewrite <- (angle_ang u w (turnf mu rp (dot u u)) NU NW (w_angle v_in v_pla rp beta mu M P N)). split; [reflexivity|].
  rewrite <- (turnf_le_iff mu rp safe (dot u u) M P S (dot_pos u NU)). split; lra.
Qed.
Lemma vout_undefined v_in v_pla rp beta mu : 0 < mu -> 0 <= rp -> (fb_vout v_in v_pla rp beta mu = None <-> cross (vsub v_in v_pla) v_pla = vzero).
Proof.
  intros M P. split; intros H.
  - destruct (Req_dec (dot (cross (vsub v_in v_pla) v_pla) (cross (vsub v_in v_pla) v_pla)) 0) as [E|E]; [apply dot_zero, E|].
    rewrite vout_eq in H; try assumption; [discriminate|]. intros Z. apply E. rewrite Z. unfold dot, vzero. cbn [vx vy vz]. ring.
  - destruct (Req_dec (dot (vsub v_in v_pla) (vsub v_in v_pla)) 0) as [E|E]; [apply vout_zero; [exact M|apply dot_zero, E]|].
    apply vout_parallel; try assumption. intros Z. apply E. rewrite Z. unfold dot, vzero. cbn [vx vy vz]. ring.
Qed.

(** ** fb_dv is the least burn *)
Lemma ang_bound u v : 0 <= ang u v <= PI. Proof. apply acos_bound. Qed.
Lemma cross_norm_sin u v : u <> vzero -> v <> vzero -> norm (cross u v) = norm u * norm v * sin (ang u v).
Proof.
  intros U W. destruct (ang_angle u v U W) as [B E]. pose proof (norm_pos u U). pose proof (norm_pos v W). pose proof (sin_ge_0 (ang u v) ltac:(lra) ltac:(lra)) as S.
  apply norm_unique; [apply Rmult_le_pos; [apply Rmult_le_pos; lra|exact S]|]. rewrite lagrange_identity, E, <- !norm_sq. pose proof (sin2_cos2 (ang u v)) as Q. unfold Rsqr in Q.
  replace (norm u * norm v * sin (ang u v) * (norm u * norm v * sin (ang u v))) with (norm u * norm v * (norm u * norm v) * (sin (ang u v) * sin (ang u v))) by ring.
  replace (sin (ang u v) * sin (ang u v)) with (1 - cos (ang u v) * cos (ang u v)) by lra. ring.
Qed.
Lemma ang_triangle a b c : a <> vzero -> b <> vzero -> c <> vzero -> ang a c <= ang a b + ang b c.
Proof.
  intros A B C. destruct (ang_angle a b A B) as [B1 E1]. destruct (ang_angle b c B C) as [B2 E2]. destruct (ang_angle a c A C) as [B3 E3].
  destruct (Rle_lt_dec PI (ang a b + ang b c)) as [L|L]; [lra|].
  pose proof (norm_pos a A) as PA. pose proof (norm_pos b B) as PB. pose proof (norm_pos c C) as PC.
  apply cos_decr_0; try lra. rewrite cos_plus.
  pose proof (abs_dot (cross a b) (cross b c)) as H. apply Rabs_le_between in H. destruct H as [_ H].
  replace (dot (cross a b) (cross b c)) with (dot a b * dot b c - dot a c * dot b b) in H by (unfold dot, cross; cbn [vx vy vz]; ring).
  rewrite (cross_norm_sin a b A B), (cross_norm_sin b c B C), E1, E2, E3, <- (norm_sq b) in H.
  apply Rmult_le_reg_l with (norm a * norm b * norm b * norm c); [repeat apply Rmult_lt_0_compat; assumption|]. lra.
Qed.
Lemma dist_cos u v : u <> vzero -> v <> vzero -> dot (vsub u v) (vsub u v) = dot u u + dot v v - 2 * (norm u * norm v) * cos (ang v u).
Proof.
  intros U W. destruct (ang_angle v u W U) as [_ E]. transitivity (dot u u + dot v v - 2 * dot v u); [unfold dot, vsub; cbn [vx vy vz]; ring|]. rewrite E. ring.
Qed.
Lemma dvf_nonneg v_in v_out d : 0 <= dvf v_in v_out d.
Proof. unfold dvf. destruct (Rlt_dec 0 d); [apply sqrt_pos|apply Rabs_pos]. Qed.
Lemma reach_turn mu safe v u : v <> vzero -> 0 < mu -> 0 <= safe -> reachable mu safe v u -> u <> vzero /\ ang v u <= turnf mu safe (dot v v).
Proof.
  intros N M S [E [t [rp [Hr [A T]]]]]. assert (NU : u <> vzero) by (apply norm_pos_nz; rewrite E; apply norm_pos, N). split; [exact NU|].
  rewrite <- (angle_ang v u t N NU A). pose proof (turnf_bound mu safe (dot v v) M S (dot_nonneg v)). destruct T as [->|T]; [lra|].
  rewrite (turn_turnf mu rp v t M ltac:(lra) T). apply turnf_le_iff; try lra. apply dot_pos, N.
Qed.
Lemma dv_lower v_in v_out mu safe u : v_in <> vzero -> v_out <> vzero -> 0 < mu -> 0 <= safe -> reachable mu safe v_in u ->
  dvf v_in v_out (ang v_in v_out - turnf mu safe (dot v_in v_in)) <= norm (vsub v_out u).
Proof.
  intros U W M S R0. destruct (reach_turn mu safe v_in u U M S R0) as [NU T]. destruct R0 as [E _].
  pose proof (norm_pos v_in U) as PU. pose proof (norm_pos v_out W) as PW. set (d := ang v_in v_out - turnf mu safe (dot v_in v_in)).
  assert (DU : dot u u = dot v_in v_in) by (rewrite <- !norm_sq, E; reflexivity).
  assert (L : dvf v_in v_out d * dvf v_in v_out d <= dot (vsub v_out u) (vsub v_out u)).
  { rewrite (dist_cos v_out u W NU), DU, E. unfold dvf. destruct (Rlt_dec 0 d) as [D|D].
    - rewrite sqrt_sqrt by apply cosine_arg. pose proof (ang_triangle v_in u v_out U NU W) as TR. pose proof (ang_bound u v_out) as B.
      assert (C : cos (ang u v_out) <= cos d) by (assert (d <= ang u v_out) by (unfold d; lra); apply cos_decr_1; lra).
      assert (P : 0 < norm v_out * norm v_in) by (apply Rmult_lt_0_compat; assumption). pose proof (Rmult_le_compat_l _ _ _ (Rlt_le _ _ P) C). lra.
    - rewrite <- Rabs_mult, Rabs_right by (apply Rle_ge, Rle_0_sqr). rewrite <- !norm_sq. pose proof (COS_bound (ang u v_out)) as C.
      assert (P : 0 < norm v_out * norm v_in) by (apply Rmult_lt_0_compat; assumption). pose proof (Rmult_le_compat_l _ _ _ (Rlt_le _ _ P) (proj2 C)). lra. }
  apply Rsqr_incr_0_var; [|apply norm_nonneg]. unfold Rsqr. rewrite norm_sq. exact L.
Qed.
Lemma turn_rp mu v t : v <> vzero -> 0 < mu -> 0 < t <= PI -> exists rp, 0 <= rp /\ turn mu rp (norm v) t.
Proof.
  intros N M T. pose proof (norm_pos v N) as PN. assert (S : 0 < sin (t / 2)) by (apply sin_gt_0; lra). pose proof (SIN_bound (t / 2)) as B.
  exists (mu / (norm v * norm v) * (/ sin (t / 2) - 1)). split.
  - apply Rmult_le_pos; [apply Rdiv_le_0_compat; [lra|nra]|]. assert (1 <= / sin (t / 2)); [|lra]. rewrite <- Rinv_1 at 1. apply Rinv_le_contravar; lra.
  - split; [lra|]. field. repeat split; lra.
Qed.
Lemma perp_exists i : dot i i = 1 -> exists j, dot j j = 1 /\ dot i j = 0.
Proof.
  intros H. destruct i as [x y z]. unfold dot in H. cbn [vx vy vz] in H.
  assert (G : forall w, w <> vzero -> dot (V x y z) w = 0 -> exists j, dot j j = 1 /\ dot (V x y z) j = 0).
  { intros w Nw Z. exists (vscal (/ norm w) w). split; [apply unit_norm, Nw|]. transitivity (/ norm w * dot (V x y z) w); [unfold dot, vscal; cbn [vx vy vz]; ring|]. rewrite Z. ring. }
  destruct (Req_dec x 0) as [X|X]; [apply (G (V 1 0 0))|apply (G (V (- y) x 0))].
  - intros E. apply (f_equal vx) in E. cbn in E. lra.
  - unfold dot. cbn [vx vy vz]. rewrite X. ring.
  - intros E. apply (f_equal vy) in E. cbn in E. lra.
  - unfold dot. cbn [vx vy vz]. ring.
Qed.
Lemma plane_frame a b : a <> vzero -> b <> vzero -> exists i j, dot i i = 1 /\ dot j j = 1 /\ dot i j = 0 /\ a = vscal (norm a) i /\
  b = vadd (vscal (norm b * cos (ang a b)) i) (vscal (norm b * sin (ang a b)) j).
Proof.
  intros A B. pose proof (norm_pos a A) as PA. pose proof (norm_pos b B) as PB. destruct (ang_angle a b A B) as [BA E]. set (i := vscal (/ norm a) a).
  assert (II : dot i i = 1) by apply (unit_norm a A). assert (IB : dot i b = norm b * cos (ang a b)).
  { transitivity (/ norm a * dot a b); [unfold i, dot, vscal; cbn [vx vy vz]; ring|]. rewrite E. field. lra. }
  assert (AI : a = vscal (norm a) i) by (apply vec_eq; unfold i, vscal; cbn [vx vy vz]; field; lra).
  pose proof (sin2_cos2 (ang a b)) as SC. unfold Rsqr in SC.
  assert (PD : dot (vsub b (vscal (norm b * cos (ang a b)) i)) (vsub b (vscal (norm b * cos (ang a b)) i)) = norm b * sin (ang a b) * (norm b * sin (ang a b))).
  { transitivity (dot b b - 2 * (norm b * cos (ang a b)) * dot i b + norm b * cos (ang a b) * (norm b * cos (ang a b)) * dot i i); [unfold dot, vsub, vscal; cbn [vx vy vz]; ring|].
    rewrite IB, II, <- norm_sq. nsz. }
  destruct (Req_dec (sin (ang a b)) 0) as [S|S].
  - destruct (perp_exists i II) as [j [JJ IJ]]. exists i, j. repeat (split; [assumption|]).
    rewrite S in PD. assert (Z : vsub b (vscal (norm b * cos (ang a b)) i) = vzero) by (apply dot_zero; rewrite PD; ring).
    rewrite S. apply vec_eq; [apply (f_equal vx) in Z|apply (f_equal vy) in Z|apply (f_equal vz) in Z]; unfold vsub, vadd, vscal, vzero in *; cbn [vx vy vz] in *; lra.
  - exists i, (vscal (/ (norm b * sin (ang a b))) (vsub b (vscal (norm b * cos (ang a b)) i))). assert (NS : norm b * sin (ang a b) <> 0) by (apply Rmult_integral_contrapositive; split; [lra|exact S]).
    split; [exact II|]. split; [|split; [|split; [exact AI|]]].
    + transitivity (/ (norm b * sin (ang a b)) * / (norm b * sin (ang a b)) * dot (vsub b (vscal (norm b * cos (ang a b)) i)) (vsub b (vscal (norm b * cos (ang a b)) i))); [unfold dot, vscal; cbn [vx vy vz]; ring|].
      rewrite PD. field. split; [exact S|lra].
    + transitivity (/ (norm b * sin (ang a b)) * (dot i b - norm b * cos (ang a b) * dot i i)); [unfold dot, vscal, vsub; cbn [vx vy vz]; ring|]. rewrite IB, II. ring.
    + apply vec_eq; unfold vadd, vscal, vsub; cbn [vx vy vz]; field; (split; [exact S|lra]).
Qed.
Lemma dv_attained v_in v_out mu safe : v_in <> vzero -> v_out <> vzero -> 0 < mu -> 0 <= safe ->
  exists u, reachable mu safe v_in u /\ norm (vsub v_out u) = dvf v_in v_out (ang v_in v_out - turnf mu safe (dot v_in v_in)).
Proof.
  intros U W M S. pose proof (norm_pos v_in U) as PU. pose proof (norm_pos v_out W) as PW. set (tm := turnf mu safe (dot v_in v_in)). pose proof (turnf_bound mu safe (dot v_in v_in) M S (dot_nonneg _)) as TB. fold tm in TB.
  pose proof (ang_bound v_in v_out) as AB. destruct (ang_angle v_in v_out U W) as [_ AE]. set (al := ang v_in v_out) in *. unfold dvf. destruct (Rlt_dec 0 (al - tm)) as [D|D].
  - destruct (plane_frame v_in v_out U W) as [i [j [II [JJ [IJ [EI EO]]]]]]. fold al in EO. set (u := vadd (vscal (norm v_in * cos tm) i) (vscal (norm v_in * sin tm) j)).
    pose proof (sin2_cos2 tm) as ST. pose proof (sin2_cos2 al) as SA. unfold Rsqr in ST, SA.
    assert (UU : dot u u = norm v_in * norm v_in).
    { transitivity (norm v_in * norm v_in * (cos tm * cos tm * dot i i + 2 * cos tm * sin tm * dot i j + sin tm * sin tm * dot j j)); [unfold u, dot, vadd, vscal; cbn [vx vy vz]; ring|]. rewrite II, JJ, IJ. nsz. }
    assert (NU : norm u = norm v_in) by (apply norm_unique; [lra|symmetry; exact UU]).
    exists u. split.
    + split; [exact NU|]. exists tm, safe. split; [lra|]. split; [|right; apply turnf_turn; assumption]. split; [lra|]. rewrite NU.
      transitivity (dot (vscal (norm v_in) i) u); [rewrite <- EI; reflexivity|].
      transitivity (norm v_in * norm v_in * (cos tm * dot i i + sin tm * dot i j)); [unfold u, dot, vadd, vscal; cbn [vx vy vz]; ring|]. rewrite II, IJ. ring.
    + apply norm_unique; [apply sqrt_pos|]. rewrite sqrt_sqrt by apply cosine_arg.
      transitivity (dot v_out v_out + dot u u - 2 * dot v_out u); [|unfold dot, vsub; cbn [vx vy vz]; ring]. rewrite UU, <- (norm_sq v_in).
      assert (X : dot v_out u = norm v_out * norm v_in * cos (al - tm)); [|rewrite X; ring].
      transitivity (dot (vadd (vscal (norm v_out * cos al) i) (vscal (norm v_out * sin al) j)) u); [rewrite <- EO; reflexivity|].
      transitivity (norm v_out * norm v_in * (cos al * cos tm * dot i i + (cos al * sin tm + sin al * cos tm) * dot i j + sin al * sin tm * dot j j)); [unfold u, dot, vadd, vscal; cbn [vx vy vz]; ring|].
      rewrite II, JJ, IJ, cos_minus. ring.
  - set (u := vscal (norm v_in / norm v_out) v_out).
    assert (NU : norm u = norm v_in).
    { apply norm_unique; [lra|]. transitivity (norm v_in / norm v_out * (norm v_in / norm v_out) * (norm v_out * norm v_out)); [field; lra|]. rewrite norm_sq. unfold u, dot, vscal; cbn [vx vy vz]; ring. }
    exists u. split.
    + split; [exact NU|]. assert (AU : angle v_in u al).
      { split; [exact AB|]. rewrite NU. transitivity (norm v_in / norm v_out * dot v_in v_out); [unfold u, dot, vscal; cbn [vx vy vz]; ring|]. rewrite AE. field. lra. }
      destruct (Req_dec al 0) as [Z|Z].
      * exists al, safe. split; [lra|]. split; [exact AU|left; exact Z].
      * destruct (turn_rp mu v_in al U M ltac:(lra)) as [rp [PR T]]. exists al, rp. split; [|split; [exact AU|right; exact T]].
        apply (turnf_le_iff mu rp safe (dot v_in v_in) M PR S (dot_pos _ U)). rewrite <- (turn_turnf mu rp v_in al M PR T). fold tm. lra.
    + apply norm_unique; [apply Rabs_pos|]. rewrite <- Rabs_mult, Rabs_right by (apply Rle_ge, Rle_0_sqr).
      transitivity ((1 - norm v_in / norm v_out) * (1 - norm v_in / norm v_out) * (norm v_out * norm v_out)); [field; lra|]. rewrite norm_sq. unfold u, dot, vsub, vscal; cbn [vx vy vz]; ring.
Qed.
Lemma dv_least v_in v_out mu safe : v_in <> vzero -> v_out <> vzero -> 0 < mu -> 0 <= safe ->
  exists dv, fb_dv v_in v_out mu safe = Some dv /\ (forall u, reachable mu safe v_in u -> dv <= norm (vsub v_out u)) /\ exists u, reachable mu safe v_in u /\ norm (vsub v_out u) = dv.
Proof.
  intros U W M S. rewrite (dv_some v_in v_out mu safe U W M S). eexists. split; [reflexivity|]. split; [intros u; apply dv_lower; assumption|apply dv_attained; assumption].
Qed.
Lemma asin_half : asin (1 / 2) = PI / 6.
Proof. rewrite <- sin_PI6. apply asin_sin. pose proof PI_RGT_0. lra. Qed.
Lemma vout_example : fb_vout (V 1 1 0) (V 0 1 0) 1 0 1 = Some (V (1 / 2) 1 (sqrt 3 / 2)).
Proof.
  assert (U : vsub (V 1 1 0) (V 0 1 0) = V 1 0 0) by (unfold vsub; cbn [vx vy vz]; f_equal; ring).
  assert (N1 : norm (V 1 0 0) = 1) by (apply norm_unique; [lra|unfold dot; cbn [vx vy vz]; ring]).
  assert (C1 : cross (V 1 0 0) (V 0 1 0) = V 0 0 1) by (unfold cross; cbn [vx vy vz]; f_equal; ring).
  rewrite vout_eq; [| lra | lra | rewrite U, C1; intros E; apply (f_equal vz) in E; cbn in E; lra].
  unfold jhat, ihat. rewrite U, N1. replace (vscal (/ 1) (V 1 0 0)) with (V 1 0 0) by (unfold vscal; cbn [vx vy vz]; f_equal; field).
  rewrite C1. assert (N2 : norm (V 0 0 1) = 1) by (apply norm_unique; [lra|unfold dot; cbn [vx vy vz]; ring]). rewrite N2.
  assert (T : turnf 1 1 (dot (V 1 0 0) (V 1 0 0)) = PI / 3).
  { unfold turnf, eccf, dot. cbn [vx vy vz]. replace (1 / (1 + 1 / 1 * (1 * 1 + 0 * 0 + 0 * 0))) with (1 / 2) by field. rewrite asin_half. field. }
  rewrite T. unfold turned. rewrite cos_PI3, sin_PI3, cos_0, sin_0. f_equal. unfold vadd, vscal, cross. cbn [vx vy vz]. f_equal; field.
Qed.
Lemma dv_example : fb_dv (V 1 0 0) (V 3 0 0) 1 1 = Some 2.
Proof.
  assert (N1 : norm (V 1 0 0) = 1) by (apply norm_unique; [lra|unfold dot; cbn [vx vy vz]; ring]). assert (N3 : norm (V 3 0 0) = 3) by (apply norm_unique; [lra|unfold dot; cbn [vx vy vz]; ring]).
  rewrite dv_some; try lra; try (apply norm_pos_nz; lra).
  assert (A : ang (V 1 0 0) (V 3 0 0) = 0) by (symmetry; apply angle_ang; [apply norm_pos_nz; lra|apply norm_pos_nz; lra|]; split; [pose proof PI_RGT_0; lra|rewrite N1, N3, cos_0; unfold dot; cbn [vx vy vz]; ring]).
  rewrite A. pose proof (turnf_bound 1 1 (dot (V 1 0 0) (V 1 0 0)) ltac:(lra) ltac:(lra) (dot_nonneg _)) as B. unfold dvf. destruct (Rlt_dec 0 _) as [L|L]; [lra|].
  rewrite N1, N3. f_equal. rewrite Rabs_right; lra.
Qed.
