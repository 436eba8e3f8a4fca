(** * The two-body flow in universal variables *)
From Coq Require Import Reals Lra Lia.
From Coquelicot Require Import Coquelicot.
From Verif Require Import RealLib KepModel KepSpec KepProofs Vec3 TwoBodySpec.
Open Scope R_scope.

(** ** Implicit functions of one real variable *)
(** [g] solves K (g e) e = 0 near [e0]; K increases in its first argument with a slope bounded below *)
Lemma implicit_derive (K Kx : R -> R -> R) (g : R -> R) (e0 k m : R) :
  0 < m ->
  (exists d, 0 < d /\ forall e, Rabs (e - e0) < d ->
     (forall x, is_derive (fun x => K x e) x (Kx x e)) /\ (forall x, m <= Kx x e) /\ K (g e) e = 0) ->
  is_derive (fun e => K (g e0) e) e0 k ->
  (forall eps, 0 < eps -> exists d, 0 < d /\ forall e x, Rabs (e - e0) < d -> Rabs (x - g e0) < d -> Rabs (Kx x e - Kx (g e0) e0) < eps) ->
  is_derive g e0 (- k / Kx (g e0) e0).
Proof.
  intros M [d0 [D0 L]] DK C. apply is_derive_Reals. intros eps E.
  set (x0 := g e0) in *. set (K0 := Kx x0 e0) in *.
  destruct (L e0) as [L1 [L2 L3]]; [rewrite Rminus_eq_0, Rabs_R0; exact D0|].
  assert (HK0 : m <= K0) by apply L2. fold x0 in L3.
  apply is_derive_Reals in DK.
  set (e1 := Rmin 1 (eps * m / 2)). assert (E1 : 0 < e1) by (unfold e1; apply Rmin_pos; [lra|]; apply Rmult_lt_0_compat; [apply Rmult_lt_0_compat; assumption|lra]).
  destruct (DK e1 E1) as [d1 HD1]. pose proof (cond_pos d1) as Pd1.
  set (e2 := eps * m * m / (2 * (Rabs k + 1))). pose proof (Rabs_pos k) as Pk.
  assert (E2 : 0 < e2) by (unfold e2; apply Rdiv_lt_0_compat; [repeat apply Rmult_lt_0_compat; assumption|lra]).
  destruct (C e2 E2) as [d2 [D2 HD2]].
  set (dd := Rmin (Rmin d0 d1) (Rmin d2 (d2 * m / (Rabs k + 2)))).
  assert (Q : 0 < d2 * m / (Rabs k + 2)) by (apply Rdiv_lt_0_compat; [apply Rmult_lt_0_compat; assumption|lra]).
  assert (Pdd : 0 < dd) by (unfold dd; repeat apply Rmin_pos; assumption).
  exists (mkposreal dd Pdd). intros h Hn Hh. cbn in Hh.
  assert (B0 : dd <= d0) by (unfold dd; eapply Rle_trans; [apply Rmin_l|apply Rmin_l]).
  assert (B1 : dd <= d1) by (unfold dd; eapply Rle_trans; [apply Rmin_l|apply Rmin_r]).
  assert (B2 : dd <= d2) by (unfold dd; eapply Rle_trans; [apply Rmin_r|apply Rmin_l]).
  assert (B3 : dd <= d2 * m / (Rabs k + 2)) by (unfold dd; eapply Rle_trans; [apply Rmin_r|apply Rmin_r]).
  specialize (HD1 h Hn ltac:(lra)). rewrite L3, Rminus_0_r in HD1.
  set (X := g (e0 + h)). set (q := K x0 (e0 + h) / h) in *.
  destruct (L (e0 + h)) as [N1 [N2 N3]]; [replace (e0 + h - e0) with h by ring; lra|]. fold X in N3.
  destruct (MVT_gen (fun x => K x (e0 + h)) x0 X (fun x => Kx x (e0 + h))) as [xi [Hxi Mv]].
  { intros x _. apply N1. }
  { intros x _. apply continuity_pt_filterlim, (ex_derive_continuous (fun x => K x (e0 + h))). exists (Kx x (e0 + h)). apply N1. }
  cbv beta in Mv. rewrite N3 in Mv. set (kap := Kx xi (e0 + h)) in *.
  assert (Pkap : m <= kap) by apply N2.
  assert (EX : X - x0 = - (q * h) / kap).
  { unfold q. apply (Rmult_eq_reg_l kap); [|lra]. rewrite <- Mv. field. split; (exact Hn || lra). }
  assert (Bq : Rabs q <= Rabs k + 1).
  { replace q with ((q - k) + k) by ring. eapply Rle_trans; [apply Rabs_triang|]. assert (e1 <= 1) by apply Rmin_l. lra. }
  assert (BX : Rabs (X - x0) < d2).
  { rewrite EX. unfold Rdiv. rewrite Rabs_mult, Rabs_Ropp, Rabs_mult, Rabs_inv, (Rabs_right kap) by lra.
    apply (Rmult_lt_reg_r kap); [lra|]. rewrite Rmult_assoc, Rinv_l, Rmult_1_r by lra.
    apply Rle_lt_trans with ((Rabs k + 1) * Rabs h); [apply Rmult_le_compat_r; [apply Rabs_pos|exact Bq]|].
    apply Rlt_le_trans with (d2 * m); [|apply Rmult_le_compat_l; lra].
    assert (HH : Rabs h * (Rabs k + 2) < d2 * m).
    { apply (Rmult_lt_reg_r (/ (Rabs k + 2))); [apply Rinv_0_lt_compat; lra|]. rewrite Rmult_assoc, Rinv_r by lra. fold (Rdiv (d2 * m) (Rabs k + 2)). lra. }
    pose proof (Rabs_pos h). nra. }
  assert (Bxi : Rabs (xi - x0) < d2).
  { eapply Rle_lt_trans; [|exact BX]. unfold Rmin, Rmax in Hxi. destruct (Rle_dec x0 X); unfold Rabs; destruct (Rcase_abs (xi - x0)), (Rcase_abs (X - x0)); lra. }
  assert (Bk : Rabs (kap - K0) < e2) by (apply HD2; [replace (e0 + h - e0) with h by ring; lra|exact Bxi]).
  replace ((X - x0) / h - - k / K0) with (- ((q - k) / kap) + k * (kap - K0) / (kap * K0)).
  2:{ rewrite EX. field. repeat split; (exact Hn || lra). }
  eapply Rle_lt_trans; [apply Rabs_triang|].
  assert (P1 : Rabs (- ((q - k) / kap)) < eps / 2).
  { rewrite Rabs_Ropp. unfold Rdiv. rewrite Rabs_mult, Rabs_inv, (Rabs_right kap) by lra.
    apply (Rmult_lt_reg_r kap); [lra|]. rewrite Rmult_assoc, Rinv_l, Rmult_1_r by lra. assert (e1 <= eps * m / 2) by apply Rmin_r. nra. }
  assert (P2 : Rabs (k * (kap - K0) / (kap * K0)) <= eps / 2).
  { unfold Rdiv. rewrite Rabs_mult, Rabs_mult, Rabs_inv, (Rabs_right (kap * K0)) by nra.
    assert (KK : m * m <= kap * K0) by nra.
    apply (Rmult_le_reg_r (kap * K0)); [nra|]. rewrite Rmult_assoc, Rinv_l, Rmult_1_r by nra.
    assert (Z : Rabs k * e2 <= eps * m * m / 2).
    { unfold e2. apply (Rmult_le_reg_r (2 * (Rabs k + 1))); [lra|]. unfold Rdiv.
      replace (Rabs k * (eps * m * m * / (2 * (Rabs k + 1))) * (2 * (Rabs k + 1))) with (Rabs k * (eps * m * m)) by (field; lra).
      assert (0 < eps * m * m) by (repeat apply Rmult_lt_0_compat; assumption). nra. }
    assert (Rabs k * Rabs (kap - K0) <= Rabs k * e2) by (apply Rmult_le_compat_l; lra).
    assert (eps * m * m / 2 <= eps * / 2 * (kap * K0)) by (replace (eps * m * m / 2) with (eps * / 2 * (m * m)) by field; apply Rmult_le_compat_l; lra). lra. }
  lra.
Qed.

(** ** Uniqueness of two-body motion (Gronwall) *)
Lemma gravity_lipschitz mu a b d : 0 < mu -> 0 < d -> d <= norm a -> d <= norm b ->
  norm (vsub (gravity mu a) (gravity mu b)) <= 4 * mu / d ^ 3 * norm (vsub a b).
Proof.
  intros M D A B. unfold gravity. set (x := norm a) in *. set (y := norm b) in *. set (n := norm (vsub a b)).
  assert (N : 0 <= n) by apply norm_nonneg.
  replace (vsub (vscal (- mu / x ^ 3) a) (vscal (- mu / y ^ 3) b))
    with (vadd (vscal (- mu / x ^ 3) (vsub a b)) (vscal (- mu * (y ^ 3 - x ^ 3) / (x ^ 3 * y ^ 3)) b))
    by (apply vec_eq; unfold vadd, vsub, vscal; cbn; field; split; lra).
  eapply Rle_trans; [apply norm_triangle|]. rewrite !norm_vscal. fold n y.
  assert (RT : Rabs (y - x) <= n).
  { rewrite Rabs_minus_sym. apply norm_rev_triangle. }
  assert (Px : 0 < x) by lra. assert (Py : 0 < y) by lra.
  assert (I1 : / x <= / d) by (apply Rinv_le_contravar; lra). assert (I2 : / y <= / d) by (apply Rinv_le_contravar; lra).
  assert (P1 : 0 < / x) by (apply Rinv_0_lt_compat; exact Px). assert (P2 : 0 < / y) by (apply Rinv_0_lt_compat; exact Py).
  set (ix := / x) in *. set (iy := / y) in *. set (id := / d) in *.
  replace (4 * mu / d ^ 3 * n) with (mu * id ^ 3 * n + mu * (3 * id ^ 3) * n) by (unfold id; field; lra).
  assert (T1 : ix ^ 3 <= id ^ 3) by (apply pow_incr; lra).
  apply Rplus_le_compat.
  - replace (- mu / x ^ 3) with (- (mu * ix ^ 3)) by (unfold ix; field; lra). rewrite Rabs_Ropp, Rabs_right by (apply Rle_ge, Rmult_le_pos; [lra|apply pow_le; lra]).
    apply Rmult_le_compat_r; [exact N|]. apply Rmult_le_compat_l; [lra|exact T1].
  - replace (- mu * (y ^ 3 - x ^ 3) / (x ^ 3 * y ^ 3)) with (- ((y - x) * (mu * (ix ^ 3 * iy + ix ^ 2 * iy ^ 2 + ix * iy ^ 3)))) by (unfold ix, iy; field; split; lra).
    rewrite Rabs_Ropp, Rabs_mult. set (c := mu * (ix ^ 3 * iy + ix ^ 2 * iy ^ 2 + ix * iy ^ 3)).
    assert (Pc : 0 <= c). { unfold c. apply Rmult_le_pos; [lra|]. repeat apply Rplus_le_le_0_compat; repeat apply Rmult_le_pos; try lra. }
    rewrite (Rabs_right c) by lra.
    assert (Cy : c * y <= mu * (3 * id ^ 3)).
    { replace (c * y) with (mu * (ix ^ 3 + ix ^ 2 * iy + ix * iy ^ 2)) by (unfold c, iy; field; lra). apply Rmult_le_compat_l; [lra|].
      assert (T2 : ix ^ 2 * iy <= id ^ 2 * id) by (apply Rmult_le_compat; [apply pow_le; lra|lra|apply pow_incr; lra|lra]).
      assert (T3 : ix * iy ^ 2 <= id * id ^ 2) by (apply Rmult_le_compat; [lra|apply pow_le; lra|lra|apply pow_incr; lra]).
      replace (3 * id ^ 3) with (id ^ 3 + id ^ 2 * id + id * id ^ 2) by ring. lra. }
    replace (Rabs (y - x) * c * y) with ((c * y) * Rabs (y - x)) by ring.
    apply Rmult_le_compat; [apply Rmult_le_pos; lra|apply Rabs_pos|exact Cy|exact RT].
Qed.

Lemma Rbar_in lo hi a b u : Rbar_lt lo (Finite a) -> Rbar_lt (Finite b) hi -> a <= u <= b -> Rbar_lt lo (Finite u) /\ Rbar_lt (Finite u) hi.
Proof.
  intros H1 H2 [A B]. split; [eapply Rbar_lt_le_trans; [exact H1|exact A]|eapply Rbar_le_lt_trans; [|exact H2]; exact B].
Qed.
Lemma is_derive_cont (f : R -> R) x l : is_derive f x l -> continuity_pt f x.
Proof. intros H. apply continuity_pt_filterlim, (ex_derive_continuous f). exists l. exact H. Qed.

Lemma two_body_unique_pos mu lo hi y z t : 0 < mu -> 0 <= t -> Rbar_lt lo 0 -> Rbar_lt t hi ->
  two_body mu lo hi y -> two_body mu lo hi z -> y 0 = z 0 -> y t = z t.
Proof.
  intros M Ht L H Y Z E0.
  assert (IN : forall u, 0 <= u <= t -> Rbar_lt lo (Finite u) /\ Rbar_lt (Finite u) hi) by (intros u Hu; apply (Rbar_in lo hi 0 t); assumption).
  assert (CN : forall x, two_body mu lo hi x -> exists d, 0 < d /\ forall u, 0 <= u <= t -> d <= norm (fst (x u))).
  { intros x X. destruct (continuity_ab_min (fun u => norm (fst (x u))) 0 t Ht) as [m [Hm Im]].
    - intros c Hc. destruct (IN c Hc) as [A B]. destruct (X c A B) as [N [D _]]. eapply is_derive_cont. apply der_norm; [exact D|exact N].
    - exists (norm (fst (x m))). split; [|exact Hm]. destruct (IN m Im) as [A B]. destruct (X m A B) as [N _]. apply norm_pos. exact N. }
  destruct (CN y Y) as [d1 [P1 B1]]. destruct (CN z Z) as [d2 [P2 B2]]. clear CN.
  set (d := Rmin d1 d2). assert (P : 0 < d) by (apply Rmin_pos; assumption).
  set (C := 1 + 4 * mu / d ^ 3).
  set (dr := fun u => vsub (fst (y u)) (fst (z u))). set (dv := fun u => vsub (snd (y u)) (snd (z u))).
  set (dg := fun u => vsub (gravity mu (fst (y u))) (gravity mu (fst (z u)))).
  set (w := fun u => dot (dr u) (dr u) + dot (dv u) (dv u)).
  set (w' := fun u => 2 * dot (dr u) (dv u) + 2 * dot (dv u) (dg u)).
  assert (Dw : forall u, 0 <= u <= t -> is_derive w u (w' u)).
  { intros u Hu. destruct (IN u Hu) as [A B]. destruct (Y u A B) as [_ [Y1 Y2]]. destruct (Z u A B) as [_ [Z1 Z2]].
    unfold w. eapply der_to; [apply der_plus; [apply (der_dot dr dr); apply vder_sub; eassumption|apply (der_dot dv dv); apply vder_sub; eassumption]|].
    unfold w'. fold (dr u) (dv u) (dg u). rewrite (dot_comm (dv u) (dr u)), (dot_comm (dg u)). ring. }
  assert (Bw : forall u, 0 <= u <= t -> w' u <= C * w u).
  { intros u Hu. unfold w', w, C.
    assert (G : norm (dg u) <= 4 * mu / d ^ 3 * norm (dr u)).
    { apply gravity_lipschitz; [exact M|exact P| |]; (eapply Rle_trans; [|auto]); [apply Rmin_l|apply Rmin_r]. }
    rewrite <- (norm_sq (dr u)), <- (norm_sq (dv u)).
    pose proof (abs_dot (dr u) (dv u)) as A1. pose proof (abs_dot (dv u) (dg u)) as A2.
    pose proof (Rle_abs (dot (dr u) (dv u))). pose proof (Rle_abs (dot (dv u) (dg u))).
    set (a := norm (dr u)) in *. set (b := norm (dv u)) in *. set (k := 4 * mu / d ^ 3) in *.
    assert (Pa : 0 <= a) by apply norm_nonneg. assert (Pb : 0 <= b) by apply norm_nonneg.
    assert (Pk : 0 < k) by (unfold k; apply Rdiv_lt_0_compat; [lra|apply pow_lt; exact P]).
    assert (b * norm (dg u) <= b * (k * a)) by (apply Rmult_le_compat_l; assumption).
    assert (S1 : 2 * (a * b) <= a * a + b * b) by (pose proof (Rle_0_sqr (a - b)) as SQ; unfold Rsqr in SQ; lra). assert (S2 : k * (2 * (a * b)) <= k * (a * a + b * b)) by (apply Rmult_le_compat_l; lra).
    replace ((1 + k) * (a * a + b * b)) with ((a * a + b * b) + k * (a * a + b * b)) by ring. lra. }
  assert (W0 : w 0 = 0) by (unfold w, dr, dv; rewrite E0; unfold dot, vsub; cbn; ring).
  set (phi := fun u => w u * exp (- C * u)). set (phi' := fun u => (w' u - C * w u) * exp (- C * u)).
  assert (Dp : forall u, 0 <= u <= t -> is_derive phi u (phi' u)).
  { intros u Hu. unfold phi, phi'. eapply der_to; [apply (der_mult w (fun u => exp (- C * u)) u (w' u) (- C * exp (- C * u))); [apply Dw; exact Hu|]; auto_derive; [exact I|ring]|]. cbv beta. ring. }
  destruct (MVT_gen phi 0 t phi') as [xi [Hxi Mv]].
  { intros x Hx. rewrite Rmin_left, Rmax_right in Hx by lra. apply Dp. lra. }
  { intros x Hx. rewrite Rmin_left, Rmax_right in Hx by lra. eapply is_derive_cont. apply Dp. lra. }
  rewrite Rmin_left, Rmax_right in Hxi by lra. unfold phi at 2 in Mv. rewrite W0, Rmult_0_l, !Rminus_0_r in Mv.
  assert (Np : phi t <= 0).
  { rewrite Mv. unfold phi'. pose proof (Bw xi Hxi) as Q. pose proof (exp_pos (- C * xi)).
    assert (0 <= (C * w xi - w' xi) * exp (- C * xi) * t) by (apply Rmult_le_pos; [apply Rmult_le_pos; lra|lra]). lra. }
  unfold phi in Np. pose proof (exp_pos (- C * t)) as PE.
  assert (Wt : w t <= 0). { apply Rnot_lt_le. intros Q. assert (0 < w t * exp (- C * t)) by (apply Rmult_lt_0_compat; assumption). lra. }
  unfold w in Wt. pose proof (dot_nonneg (dr t)). pose proof (dot_nonneg (dv t)).
  assert (R0 : dr t = vzero) by (apply dot_zero; lra). assert (V0 : dv t = vzero) by (apply dot_zero; lra).
  unfold dr in R0. unfold dv in V0.
  destruct (y t) as [[a1 a2 a3] [a4 a5 a6]], (z t) as [[b1 b2 b3] [b4 b5 b6]]. unfold vsub, vzero in R0, V0. cbn in R0, V0.
  injection R0 as Q1 Q2 Q3. injection V0 as Q4 Q5 Q6. f_equal; f_equal; lra.
Qed.

Definition reversed (y : R -> state) (t : R) : state := (fst (y (- t)), vneg (snd (y (- t)))).
Lemma vder_rev f t a : vderive f (- t) a -> vderive (fun u => f (- u)) t (vneg a).
Proof.
  intros [F1 [F2 F3]]. unfold vneg. split; [|split]; cbn.
  - eapply der_to; [apply (der_comp (fun u => vx (f u)) Ropp); [exact F1|apply der_opp, der_id]|]. ring.
  - eapply der_to; [apply (der_comp (fun u => vy (f u)) Ropp); [exact F2|apply der_opp, der_id]|]. ring.
  - eapply der_to; [apply (der_comp (fun u => vz (f u)) Ropp); [exact F3|apply der_opp, der_id]|]. ring.
Qed.
Lemma vder_neg f t a : vderive f t a -> vderive (fun u => vneg (f u)) t (vneg a).
Proof. intros [F1 [F2 F3]]. unfold vneg. split; [|split]; cbn; apply der_opp; assumption. Qed.
Lemma vneg_vneg u : vneg (vneg u) = u. Proof. apply vec_eq; unfold vneg; cbn; ring. Qed.
Lemma two_body_reversed mu lo hi y : two_body mu lo hi y -> two_body mu (Rbar_opp hi) (Rbar_opp lo) (reversed y).
Proof.
  intros Y t L H. destruct (Y (- t)) as [N [D1 D2]].
  - destruct lo; cbn in *; try exact H; lra.
  - destruct hi; cbn in *; try exact L; lra.
  - split; [exact N|]. split.
    + exact (vder_rev (fun u => fst (y u)) t _ D1).
    + eapply vder_eq; [exact (vder_neg _ _ _ (vder_rev (fun u => snd (y u)) t _ D2))|]. apply vneg_vneg.
Qed.
Lemma two_body_unique mu lo hi y z t : 0 < mu -> Rbar_lt lo (Rmin 0 t) -> Rbar_lt (Rmax 0 t) hi ->
  two_body mu lo hi y -> two_body mu lo hi z -> y 0 = z 0 -> y t = z t.
Proof.
  intros M L H Y Z E. destruct (Rle_dec 0 t) as [T|T].
  - rewrite Rmin_left in L by lra. rewrite Rmax_right in H by lra. eapply two_body_unique_pos; eassumption.
  - apply Rnot_le_lt in T. rewrite Rmin_right in L by lra. rewrite Rmax_left in H by lra.
    assert (Q : reversed y (- t) = reversed z (- t)).
    { apply (two_body_unique_pos mu (Rbar_opp hi) (Rbar_opp lo)); try apply two_body_reversed; try assumption; try lra.
      - destruct hi; cbn in *; try exact H; lra.
      - destruct lo; cbn in *; try exact L; lra.
      - unfold reversed. rewrite Ropp_0, E. reflexivity. }
    unfold reversed in Q. rewrite Ropp_involutive in Q. pose proof (f_equal fst Q) as Q1. pose proof (f_equal (fun p => vneg (snd p)) Q) as Q2. cbn [fst snd] in Q1, Q2. rewrite !vneg_vneg in Q2.
    rewrite (surjective_pairing (y t)), (surjective_pairing (z t)), Q1, Q2. reflexivity.
Qed.

(** ** The universal functions *)
Lemma U1_pos a s : 0 < a -> U1 a s = sin (sqrt a * s) / sqrt a.
Proof.
  intros H. pose proof (sqrt_lt_R0 a H) as Q. pose proof (sqrt_sqrt a ltac:(lra)) as QQ. rewrite U1_U3, U3_pos by exact H.
  set (k := sqrt a) in *. rewrite <- QQ. field. lra.
Qed.
Lemma U1_neg a s : a < 0 -> U1 a s = sinh (sqrt (- a) * s) / sqrt (- a).
Proof.
  intros H. assert (Ha : 0 < - a) by lra. pose proof (sqrt_lt_R0 _ Ha) as Q. pose proof (sqrt_sqrt (- a) ltac:(lra)) as QQ. rewrite U1_U3, U3_neg by exact H.
  set (k := sqrt (- a)) in *. replace a with (- (k * k)) by lra. field. lra.
Qed.
Lemma U1_zero s : U1 0 s = s. Proof. rewrite U1_U3. ring. Qed.
Lemma U1_sq a s : U1 a s * U1 a s = U2 a s * (1 + U0 a s).
Proof.
  rewrite U0_U2. destruct (Rtotal_order a 0) as [H|[->|H]].
  - assert (Ha : 0 < - a) by lra. pose proof (sqrt_lt_R0 _ Ha) as Q. pose proof (sqrt_sqrt (- a) ltac:(lra)) as QQ.
    rewrite U1_neg, U2_neg by exact H. set (k := sqrt (- a)) in *. replace a with (- (k * k)) by lra.
    replace (- - (k * k)) with (k * k) by ring. pose proof (cosh_sinh_sq (k * s)) as C. set (c := cosh (k * s)) in *. set (x := sinh (k * s)) in *.
    replace (x / k * (x / k)) with (x * x / (k * k)) by (field; lra). replace (x * x) with (c * c - 1) by lra. field. lra.
  - rewrite U1_zero, U2_zero. field.
  - pose proof (sqrt_lt_R0 _ H) as Q. pose proof (sqrt_sqrt a ltac:(lra)) as QQ.
    rewrite U1_pos, U2_pos by exact H. set (k := sqrt a) in *. rewrite <- QQ.
    pose proof (sin2_cos2 (k * s)) as C. unfold Rsqr in C. set (c := cos (k * s)) in *. set (x := sin (k * s)) in *.
    replace (x / k * (x / k)) with (x * x / (k * k)) by (field; lra). replace (x * x) with (1 - c * c) by lra. field. lra.
Qed.
Lemma U_at_0 a : U0 a 0 = 1 /\ U1 a 0 = 0 /\ U2 a 0 = 0 /\ U3 a 0 = 0.
Proof. unfold U0, U1, U2, U3. repeat split; ring. Qed.

(** ** The flow *)
Section Flow.
Variables (mu : R) (r0 v0 : vec).
Hypothesis Mu : 0 < mu.
Hypothesis Hr : r0 <> vzero.
Hypothesis Hh : cross r0 v0 <> vzero.

Definition R0 : R := norm r0.
Definition al : R := 2 / R0 - dot v0 v0 / mu.
Definition sg : R := dot r0 v0 / sqrt mu.
Definition pp : R := dot (cross r0 v0) (cross r0 v0) / mu.
Definition rho (s : R) : R := R0 * U0 al s + sg * U1 al s + U2 al s.
Definition T (s : R) : R := R0 * U1 al s + sg * U2 al s + U3 al s.
Definition drho (s : R) : R := sg * U0 al s + (1 - al * R0) * U1 al s.

Definition uF (s : R) : R := 1 - U2 al s / R0.
Definition uG (s : R) : R := (R0 * U1 al s + sg * U2 al s) / sqrt mu.
Definition uFt (s : R) : R := - sqrt mu * U1 al s / (rho s * R0).
Definition uGt (s : R) : R := 1 - U2 al s / rho s.
Definition ustate (s : R) : state := (vadd (vscal (uF s) r0) (vscal (uG s) v0), vadd (vscal (uFt s) r0) (vscal (uGt s) v0)).

Lemma R0_pos : 0 < R0. Proof. apply norm_pos, Hr. Qed.
Lemma sqmu : 0 < sqrt mu /\ sqrt mu * sqrt mu = mu.
Proof. split; [apply sqrt_lt_R0; exact Mu|apply sqrt_sqrt; lra]. Qed.
Lemma pp_pos : 0 < pp. Proof. apply Rdiv_lt_0_compat; [apply dot_pos; exact Hh|exact Mu]. Qed.
Lemma pp_eq : pp = 2 * R0 - al * R0 * R0 - sg * sg.
Proof.
  pose proof R0_pos. destruct sqmu as [S1 S2]. unfold pp, al, sg. rewrite lagrange_identity, <- (norm_sq r0). fold R0.
  rewrite <- S2 at 1 2. field. lra.
Qed.

Lemma dT s : is_derive T s (rho s).
Proof.
  unfold T, rho. apply der_plus; [apply der_plus|]; [apply der_scal, dU1|apply der_scal, dU2|apply dU3].
Qed.
Lemma d_rho s : is_derive rho s (drho s).
Proof.
  unfold rho. eapply der_to; [apply der_plus; [apply der_plus|]; [apply der_scal, dU0|apply der_scal, dU1|apply dU2]|].
  unfold drho. ring.
Qed.
(** the square of dr/ds *)
Lemma drho_sq s : drho s * drho s = 2 * rho s - al * rho s * rho s - pp.
Proof.
  rewrite pp_eq. unfold drho, rho. pose proof (U1_sq al s) as Q. rewrite (U0_U2 al s) in *.
  set (u1 := U1 al s) in *. set (u2 := U2 al s) in *.
  replace ((sg * (1 - al * u2) + (1 - al * R0) * u1) * (sg * (1 - al * u2) + (1 - al * R0) * u1))
    with (sg * sg * (1 - al * u2) * (1 - al * u2) + 2 * sg * (1 - al * u2) * (1 - al * R0) * u1 + (1 - al * R0) * (1 - al * R0) * (u1 * u1)) by ring.
  replace (al * (R0 * (1 - al * u2) + sg * u1 + u2) * (R0 * (1 - al * u2) + sg * u1 + u2))
    with (al * ((R0 * (1 - al * u2) + u2) * (R0 * (1 - al * u2) + u2) + 2 * sg * u1 * (R0 * (1 - al * u2) + u2) + sg * sg * (u1 * u1))) by ring.
  rewrite Q. ring.
Qed.
Lemma rho_0 : rho 0 = R0.
Proof. unfold rho. destruct (U_at_0 al) as [-> [-> [-> _]]]. ring. Qed.
Lemma T_0 : T 0 = 0.
Proof. unfold T. destruct (U_at_0 al) as [_ [-> [-> ->]]]. ring. Qed.
Lemma rho_nz s : rho s <> 0.
Proof. intros E. pose proof (drho_sq s) as Q. rewrite E in Q. pose proof pp_pos. nra. Qed.
Lemma rho_pos s : 0 < rho s.
Proof.
  destruct (Rlt_dec 0 (rho s)) as [H|H]; [exact H|]. exfalso. pose proof (rho_nz s) as N. assert (Hn : rho s < 0) by lra.
  pose proof R0_pos as P. rewrite <- rho_0 in P.
  destruct (Rle_dec 0 s) as [L|L].
  - destruct (root_between (fun x => - rho x) (fun x => - drho x) 0 s) as [x [_ X]]; [intros x; apply der_opp, d_rho|exact L|lra|].
    apply (rho_nz x). lra.
  - destruct (root_between rho drho s 0) as [x [_ X]]; [intros x; apply d_rho|lra|lra|]. apply (rho_nz x X).
Qed.
Definition rmin : R := Rmin 1 (pp / (2 + Rabs al)).
Lemma rmin_pos : 0 < rmin.
Proof. pose proof pp_pos. pose proof (Rabs_pos al). apply Rmin_pos; [lra|apply Rdiv_lt_0_compat; lra]. Qed.
Lemma rho_min s : rmin <= rho s.
Proof.
  pose proof (rho_pos s) as P. pose proof (drho_sq s) as Q. set (x := rho s) in *. pose proof (Rabs_pos al) as A.
  assert (B : pp <= 2 * x + Rabs al * x * x). { assert (0 <= drho s * drho s) by nra. assert (- al <= Rabs al) by (rewrite <- Rabs_Ropp; apply Rle_abs). nra. }
  unfold rmin. destruct (Rle_dec 1 x) as [L|L]; [eapply Rle_trans; [apply Rmin_l|exact L]|]. eapply Rle_trans; [apply Rmin_r|].
  apply (Rmult_le_reg_r (2 + Rabs al)); [lra|]. unfold Rdiv. rewrite Rmult_assoc, Rinv_l, Rmult_1_r by lra.
  assert (Rabs al * x * x <= Rabs al * x * 1) by (apply Rmult_le_compat_l; [apply Rmult_le_pos; lra|lra]). lra.
Qed.
Lemma T_incr x y : x < y -> T x < T y.
Proof. apply (incr_of_derive T rho); [exact dT|exact rho_pos]. Qed.
Lemma T_slope x y : x <= y -> rmin * (y - x) <= T y - T x.
Proof.
  intros L. destruct (MVT_gen T x y rho) as [xi [_ M]].
  { intros z _. apply dT. } { intros z _. eapply is_derive_cont, dT. }
  rewrite M. apply Rmult_le_compat_r; [lra|apply rho_min].
Qed.
Lemma T_onto c : exists s, T s = c.
Proof.
  pose proof rmin_pos as P. set (b := (Rabs c + 1) / rmin). assert (B : rmin * b = Rabs c + 1) by (unfold b; field; lra).
  assert (B0 : 0 < b) by (apply Rdiv_lt_0_compat; [pose proof (Rabs_pos c); lra|exact P]).
  destruct (root_between (fun s => T s - c) rho (- b) b) as [s [_ E]].
  - intros x. eapply der_to; [apply der_minus; [apply dT|apply der_const]|]. ring.
  - lra.
  - pose proof (T_slope (- b) 0 ltac:(lra)) as H1. pose proof (T_slope 0 b ltac:(lra)) as H2. rewrite T_0 in *.
    pose proof (Rle_abs c). pose proof (Rle_abs (- c)) as H3. rewrite Rabs_Ropp in H3. replace (0 - - b) with b in H1 by ring. replace (b - 0) with b in H2 by ring. lra.
  - exists s. lra.
Qed.
Lemma T_inj x y : T x = T y -> x = y. Proof. apply incr_inj, T_incr. Qed.

(** a solution of Kepler's equation at every time *)
Definition solves (g : R -> R) : Prop := forall t, T (g t) = sqrt mu * t.
Lemma solves_0 g : solves g -> g 0 = 0.
Proof. intros S. apply T_inj. rewrite S, T_0. ring. Qed.
Lemma d_solves g t : solves g -> is_derive g t (sqrt mu / rho (g t)).
Proof.
  intros S. eapply der_to; [apply (implicit_derive (fun x t => T x - sqrt mu * t) (fun x _ => rho x) g t (- sqrt mu) rmin)|].
  - apply rmin_pos.
  - exists 1. split; [lra|]. intros e _. split; [|split].
    + intros x. eapply der_to; [apply der_minus; [apply dT|apply der_const]|]. ring.
    + intros x. apply rho_min.
    + rewrite S. ring.
  - eapply der_to; [apply der_minus; [apply der_const|apply der_scal, der_id]|]. ring.
  - intros eps E. pose proof (is_derive_cont _ _ _ (d_rho (g t))) as C. destruct (C eps E) as [d [D H]]. exists d. split; [exact D|].
    intros _ x _ Hx. destruct (Req_dec x (g t)) as [->|N]; [rewrite Rminus_eq_0, Rabs_R0; exact E|].
    apply H. split; [|exact Hx]. split; [exact I|]. intros Q. apply N. symmetry. exact Q.
  - cbv beta. unfold Rdiv. rewrite Ropp_involutive. reflexivity.
Qed.

Lemma ustate_0 : ustate 0 = (r0, v0).
Proof.
  unfold ustate, uF, uG, uFt, uGt. rewrite rho_0. destruct (U_at_0 al) as [_ [-> [-> _]]]. pose proof R0_pos. destruct sqmu as [S _].
  f_equal; apply vec_eq; unfold vadd, vscal; cbn; field; lra.
Qed.
Lemma unorm_sq s : dot (fst (ustate s)) (fst (ustate s)) = rho s * rho s.
Proof.
  pose proof R0_pos as P. destruct sqmu as [S1 S2]. pose proof (U1_sq al s) as Q. rewrite U0_U2 in Q.
  unfold ustate. cbn [fst].
  replace (dot (vadd (vscal (uF s) r0) (vscal (uG s) v0)) (vadd (vscal (uF s) r0) (vscal (uG s) v0)))
    with (uF s * uF s * dot r0 r0 + 2 * uF s * uG s * dot r0 v0 + uG s * uG s * dot v0 v0) by (unfold dot, vadd, vscal; cbn; ring).
  rewrite <- (norm_sq r0). fold R0. replace (dot r0 v0) with (sg * sqrt mu) by (unfold sg; field; lra).
  replace (dot v0 v0) with (sqrt mu * sqrt mu * (2 / R0 - al)) by (unfold al; rewrite S2; field; lra).
  unfold uF, uG, rho. rewrite (U0_U2 al s). set (u1 := U1 al s) in *. set (u2 := U2 al s) in *.
  transitivity ((R0 - u2) * (R0 - u2) + 2 * (R0 - u2) * (R0 * u1 + sg * u2) * sg / R0 + (2 / R0 - al) * (R0 * R0 * (u1 * u1) + 2 * R0 * sg * u1 * u2 + sg * sg * u2 * u2)).
  - field. lra.
  - transitivity ((R0 * (1 - al * u2) + u2) * (R0 * (1 - al * u2) + u2) + 2 * (R0 * (1 - al * u2) + u2) * sg * u1 + sg * sg * (u1 * u1)); [|ring].
    rewrite Q. field. lra.
Qed.
(** the integrals of motion, for any value of s at which the predicted radius is positive (also on rectilinear orbits) *)
Lemma vv_eq : dot v0 v0 = mu * (2 / R0 - al).
Proof. pose proof R0_pos. unfold al. field. lra. Qed.
Lemma lag_algebra (R0 al sg u1 u2 rho k F G Ft Gt dr : R) : R0 <> 0 -> rho <> 0 -> k <> 0 ->
  u1 * u1 = u2 * (1 + (1 - al * u2)) -> rho = R0 * (1 - al * u2) + sg * u1 + u2 -> dr = sg * (1 - al * u2) + (1 - al * R0) * u1 ->
  F = 1 - u2 / R0 -> G = (R0 * u1 + sg * u2) / k -> Ft = - k * u1 / (rho * R0) -> Gt = 1 - u2 / rho ->
  F * Gt - G * Ft = 1 /\
  F * F * (R0 * R0) + 2 * F * G * (sg * k) + G * G * (k * k * (2 / R0 - al)) = rho * rho /\
  F * Ft * (R0 * R0) + (F * Gt + G * Ft) * (sg * k) + G * Gt * (k * k * (2 / R0 - al)) = k * dr /\
  Ft * Ft * (R0 * R0) + 2 * Ft * Gt * (sg * k) + Gt * Gt * (k * k * (2 / R0 - al)) = k * k * (2 / rho - al) /\
  (1 / rho - al) * F - dr * Ft / k = 1 / R0 - al /\ (1 / rho - al) * G - dr * Gt / k = - sg / k.
Proof.
  intros N1 N2 N3 Q E D -> -> -> ->.
  split; [field_simplify_eq; [nsz|repeat split; assumption]|]. split; [field_simplify_eq; [nsz|repeat split; assumption]|].
  split; [field_simplify_eq; [nsz|repeat split; assumption]|]. split; [field_simplify_eq; [nsz|repeat split; assumption]|].
  split; (field_simplify_eq; [nsz|repeat split; assumption]).
Qed.
Lemma u_algebra s : 0 < rho s ->
  uF s * uGt s - uG s * uFt s = 1 /\
  dot (fst (ustate s)) (fst (ustate s)) = rho s * rho s /\ dot (fst (ustate s)) (snd (ustate s)) = sqrt mu * drho s /\
  dot (snd (ustate s)) (snd (ustate s)) = mu * (2 / rho s - al) /\
  (1 / rho s - al) * uF s - drho s * uFt s / sqrt mu = 1 / R0 - al /\ (1 / rho s - al) * uG s - drho s * uGt s / sqrt mu = - sg / sqrt mu.
Proof.
  intros N. pose proof R0_pos as P. destruct sqmu as [S1 S2]. pose proof (U1_sq al s) as Q. rewrite U0_U2 in Q.
  destruct (lag_algebra R0 al sg (U1 al s) (U2 al s) (rho s) (sqrt mu) (uF s) (uG s) (uFt s) (uGt s) (drho s))
    as [A1 [A2 [A3 [A4 [A5 A6]]]]]; try lra; try reflexivity; try exact Q.
  { unfold rho. rewrite U0_U2. reflexivity. } { unfold drho. rewrite U0_U2. reflexivity. }
  rewrite S2 in A2, A3, A4. rewrite <- vv_eq in A2, A3, A4. replace (sg * sqrt mu) with (dot r0 v0) in A2, A3, A4 by (unfold sg; field; lra).
  unfold R0 in A2, A3, A4. rewrite norm_sq in A2, A3, A4. fold R0 in A2, A3, A4.
  unfold ustate. cbn [fst snd]. repeat split; try assumption.
  - rewrite <- A2. unfold dot, vadd, vscal; cbn; ring.
  - rewrite <- A3. unfold dot, vadd, vscal; cbn; ring.
  - rewrite <- A4. unfold dot, vadd, vscal; cbn; ring.
Qed.
Lemma ecc_alt s : ecc_vec mu s = vsub (vscal (dot (snd s) (snd s) / mu - 1 / norm (fst s)) (fst s)) (vscal (dot (fst s) (snd s) / mu) (snd s)).
Proof. unfold ecc_vec, ang_mom. apply vec_eq; unfold vsub, vscal, cross, dot; cbn; unfold Rdiv; ring. Qed.
Lemma mu_div x : sqrt mu * x / mu = x / sqrt mu.
Proof. destruct sqmu as [S1 S2]. transitivity (sqrt mu * x / (sqrt mu * sqrt mu)); [rewrite S2; reflexivity|field; lra]. Qed.
Lemma u_integrals s : 0 < rho s -> same_integrals mu (r0, v0) (ustate s).
Proof.
  intros N. destruct (u_algebra s N) as [A1 [A2 [A3 [A4 [A5 A6]]]]]. pose proof R0_pos as P. destruct sqmu as [S1 S2].
  assert (NN : norm (fst (ustate s)) = rho s) by (apply norm_unique; [lra|symmetry; exact A2]).
  split; [|split].
  - unfold energy. rewrite NN, A4. cbn [fst snd]. fold R0. rewrite vv_eq. field. lra.
  - unfold ang_mom, ustate. cbn [fst snd].
    transitivity (vscal (uF s * uGt s - uG s * uFt s) (cross r0 v0)); [apply vec_eq; unfold cross, vadd, vscal; cbn; ring|].
    rewrite A1. apply vec_eq; unfold vscal; cbn; ring.
  - rewrite !ecc_alt, NN, A3, A4. cbn [fst snd]. fold R0. rewrite vv_eq.
    replace (mu * (2 / rho s - al) / mu - 1 / rho s) with (1 / rho s - al) by (field; lra).
    replace (sqrt mu * drho s / mu) with (drho s / sqrt mu) by (symmetry; apply mu_div).
    replace (mu * (2 / R0 - al) / mu - 1 / R0) with (1 / R0 - al) by (field; lra).
    replace (dot r0 v0 / mu) with (sg / sqrt mu) by (rewrite <- mu_div; unfold sg; field; lra).
    unfold ustate. cbn [fst snd].
    transitivity (vadd (vscal ((1 / rho s - al) * uF s - drho s * uFt s / sqrt mu) r0) (vscal ((1 / rho s - al) * uG s - drho s * uGt s / sqrt mu) v0)).
    + apply vec_eq; unfold vadd, vsub, vscal; cbn; unfold Rdiv; ring.
    + rewrite A5, A6. apply vec_eq; unfold vadd, vsub, vscal; cbn; unfold Rdiv; ring.
Qed.
Lemma unorm s : norm (fst (ustate s)) = rho s.
Proof. apply norm_unique; [left; apply rho_pos|symmetry; apply unorm_sq]. Qed.
Lemma unz s : fst (ustate s) <> vzero.
Proof. apply norm_pos_nz. rewrite unorm. apply rho_pos. Qed.

Lemma u_two_body g : solves g -> two_body mu m_infty p_infty (fun t => ustate (g t)).
Proof.
  intros S t _ _. split; [apply unz|]. pose proof (d_solves g t S) as D. set (s := g t) in *.
  pose proof (rho_pos s) as P. pose proof R0_pos as P0. destruct sqmu as [S1 S2]. pose proof (U1_sq al s) as Q. rewrite U0_U2 in Q.
  assert (CH : forall f f' : R -> R, is_derive f s (f' s) -> is_derive (fun u => f (g u)) t (f' s * (sqrt mu / rho s))).
  { intros f f' H. eapply der_to; [apply (der_comp f g); [exact H|exact D]|]. cbv beta. ring. }
  assert (D1 : is_derive (fun u => uF (g u)) t (uFt s)).
  { eapply der_to; [apply (CH uF (fun s => - (U1 al s) / R0))|].
    - unfold uF. apply (der_ext (fun s => 1 - / R0 * U2 al s)); [intros u; unfold Rdiv; ring|].
      eapply der_to; [apply der_minus; [apply der_const|apply der_scal, dU2]|]. unfold Rdiv; ring.
    - unfold uFt. field. lra. }
  assert (D2 : is_derive (fun u => uG (g u)) t (uGt s)).
  { eapply der_to; [apply (CH uG (fun s => (R0 * U0 al s + sg * U1 al s) / sqrt mu))|].
    - unfold uG. apply (der_ext (fun s => / sqrt mu * (R0 * U1 al s + sg * U2 al s))); [intros u; unfold Rdiv; ring|].
      eapply der_to; [apply der_scal, der_plus; apply der_scal; [apply dU1|apply dU2]|]. unfold Rdiv; ring.
    - unfold uGt. replace (R0 * U0 al s + sg * U1 al s) with (rho s - U2 al s) by (unfold rho; ring). field. lra. }
  assert (E1 : U0 al s * rho s - U1 al s * drho s = R0 - U2 al s).
  { unfold rho, drho. rewrite U0_U2. set (u1 := U1 al s) in *. set (u2 := U2 al s) in *.
    transitivity (R0 * (1 - al * u2) * (1 - al * u2) + u2 * (1 - al * u2) - (1 - al * R0) * (u1 * u1)); [ring|]. rewrite Q. ring. }
  assert (E2 : U1 al s * rho s - U2 al s * drho s = R0 * U1 al s + sg * U2 al s).
  { unfold rho, drho. rewrite U0_U2. set (u1 := U1 al s) in *. set (u2 := U2 al s) in *.
    transitivity (R0 * u1 + sg * (u1 * u1 - u2 * (1 - al * u2))); [ring|]. rewrite Q. ring. }
  assert (D3 : is_derive (fun u => uFt (g u)) t (- mu / rho s ^ 3 * uF s)).
  { eapply der_to; [apply (CH uFt (fun s => - sqrt mu / R0 * ((U0 al s * rho s - U1 al s * drho s) / (rho s * rho s))))|].
    - unfold uFt. eapply der_ext; [|apply (der_scal (- sqrt mu / R0) (fun u => U1 al u / rho u)), der_div; [apply dU1|apply d_rho|lra]].
      intros u. pose proof (rho_pos u). cbn. field. lra.
    - cbv beta. rewrite E1. unfold uF. rewrite <- S2 at 3. field. lra. }
  assert (D4 : is_derive (fun u => uGt (g u)) t (- mu / rho s ^ 3 * uG s)).
  { eapply der_to; [apply (CH uGt (fun s => - ((U1 al s * rho s - U2 al s * drho s) / (rho s * rho s))))|].
    - unfold uGt. eapply der_to; [apply der_minus; [apply der_const|apply der_div; [apply dU2|apply d_rho|lra]]|]. cbv beta. ring.
    - cbv beta. rewrite E2. unfold uG. rewrite <- S2 at 2. field. lra. }
  split.
  - eapply vder_eq; [exact (vder_add _ _ t _ _ (vder_scal _ _ t _ _ D1 (vder_const r0 t)) (vder_scal _ _ t _ _ D2 (vder_const v0 t)))|].
    unfold ustate; cbn [fst snd]. apply vec_eq; unfold vadd, vscal, vzero; cbn; ring.
  - eapply vder_eq; [exact (vder_add _ _ t _ _ (vder_scal _ _ t _ _ D3 (vder_const r0 t)) (vder_scal _ _ t _ _ D4 (vder_const v0 t)))|].
    fold s. unfold gravity. rewrite unorm. unfold ustate; cbn [fst snd]. apply vec_eq; unfold vadd, vscal, vzero; cbn [vx vy vz]; ring.
Qed.

(** such a function exists *)
Definition gsol (t : R) : R := real (Glb_Rbar (fun s => T s = sqrt mu * t)).
Lemma gsol_solves : solves gsol.
Proof.
  intros t. unfold gsol. destruct (T_onto (sqrt mu * t)) as [s E].
  rewrite (is_glb_Rbar_unique _ (Finite s)); [exact E|]. split.
  - intros x X. cbn. right. apply T_inj. rewrite X, E. reflexivity.
  - intros b B. apply (B s). exact E.
Qed.
Lemma solves_unique g t s : solves g -> T s = sqrt mu * t -> g t = s.
Proof. intros S E. apply T_inj. rewrite S, E. reflexivity. Qed.

(** the state at the (unique) root is the flow *)
Lemma ustate_flow t s : T s = sqrt mu * t -> flow_at mu (r0, v0) t (ustate s).
Proof.
  intros E. pose proof (u_two_body gsol gsol_solves) as B. pose proof gsol_solves as S.
  assert (Z : ustate (gsol 0) = (r0, v0)) by (rewrite (solves_0 _ S); apply ustate_0).
  assert (Q : ustate (gsol t) = ustate s) by (rewrite (solves_unique _ _ _ S E); reflexivity).
  split; [exists (fun t => ustate (gsol t)); auto|].
  intros lo hi y L H Y Y0. rewrite <- Q. apply (two_body_unique mu lo hi y (fun t => ustate (gsol t))); try assumption.
  - intros u _ _. apply B; exact I.
  - rewrite Y0, Z. reflexivity.
Qed.
End Flow.
