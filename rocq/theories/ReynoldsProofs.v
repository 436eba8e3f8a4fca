(** * Proofs about Reynolds' state transition matrix (C18) *)
From Coq Require Import Reals List Lra Nsatz.
From Coquelicot Require Import Coquelicot.
From Verif Require Import RealLib Outcome KepModel KepSpec KepProofs Vec3 TwoBodyModel TwoBodySpec FlowProofs LagProofs FlowMain BracketProofs TwoBodyProofs StmProofs StmMain ReynoldsModel ReynoldsCols.
Open Scope R_scope.

Lemma nondecr (f df : R -> R) : (forall x : R, is_derive f x (df x)) -> (forall x, 0 <= df x) -> forall a b, a <= b -> f a <= f b.
Proof.
  intros D P a b L. destruct (MVT_gen f a b df) as [c [_ E]].
  - intros x _. apply D.
  - intros x _. apply (is_derive_cont _ _ _ (D x)).
  - specialize (P c). nra.
Qed.
(** ** The columns solve the variational equations *)
Section Solution.
Variables (mu : R) (y : R -> state).
Hypothesis Y : two_body mu m_infty p_infty y.
Let r t := fst (y t). Let v t := snd (y t).
Lemma y_all t : r t <> vzero /\ vderive r t (v t) /\ vderive v t (gravity mu (r t)).
Proof. destruct (Y t I I) as [N [D1 D2]]. exact (conj N (conj D1 D2)). Qed.
Lemma dn t : is_derive (fun u => norm (r u)) t (dot (r t) (v t) / norm (r t)).
Proof. destruct (y_all t) as [N [D1 _]]. exact (der_norm r t _ D1 N). Qed.
Lemma vderdot (f g : R -> vec) t a b k : vderive f t a -> vderive g t b -> dot a (g t) + dot (f t) b = k -> is_derive (fun s => dot (f s) (g s)) t k.
Proof. intros F G <-. exact (der_dot f g t a b F G). Qed.
Lemma var_rot e : variational mu y (fun t => rot e (y t)).
Proof.
  intros t. destruct (y_all t) as [N [D1 D2]]. pose proof (vder_const e t) as DE. unfold rot. cbn [fst snd]. fold (r t) (v t). split.
  - eapply vder_eq; [exact (vder_cross r (fun _ => e) t _ _ D1 DE)|]. vrefl; ring.
  - eapply vder_eq; [exact (vder_cross v (fun _ => e) t _ _ D2 DE)|]. set (k3 := - mu / norm (r t) ^ 3).
    unfold gravity_gradient, gravity. fold k3. set (k5 := 3 * mu * _ / _).
    assert (Z : k5 = 0) by (unfold k5; replace (dot (r t) (cross (r t) e)) with 0 by (unfold dot, cross; cbn [vx vy vz]; ring); unfold Rdiv; ring).
    rewrite Z. vrefl; ring.
Qed.
Lemma var_scl : variational mu y (fun t => scl mu t (y t)).
Proof.
  intros t. destruct (y_all t) as [N [D1 D2]]. pose proof (norm_pos _ N) as P. pose proof (dn t) as DN. pose proof (norm_sq (r t)) as Q.
  assert (E : forall u, scl mu u (y u) = (vadd (vneg (r u)) (vscal (3 / 2 * u) (v u)), vsub (vscal (1 / 2) (v u)) (vscal (3 / 2 * mu / norm (r u) ^ 3 * u) (r u)))).
  { intros u. unfold r, v. destruct (y u). reflexivity. }
  assert (DL : is_derive (fun u => 3 / 2 * u) t (3 / 2 * 1)) by (apply (der_scal (3 / 2)), der_id).
  assert (D3 : is_derive (fun u => norm (r u) ^ 3) t (3 * (norm (r t) * dot (r t) (v t)))).
  { apply (der_ext (fun u => norm (r u) * norm (r u) * norm (r u))); [intros u; ring|].
    eapply der_to; [apply (der_mult (fun u => norm (r u) * norm (r u)) (fun u => norm (r u))); [apply (der_mult (fun u => norm (r u)) (fun u => norm (r u))); exact DN|exact DN]|]. field. lra. }
  assert (P3 : norm (r t) ^ 3 <> 0) by (apply pow_nonzero; lra).
  split.
  - apply (vder_ext (fun u => vadd (vneg (r u)) (vscal (3 / 2 * u) (v u)))); [intros u; rewrite E; reflexivity|]. rewrite E. cbn [snd].
    eapply vder_eq; [exact (vder_add _ _ t _ _ (vder_neg r t _ D1) (vder_scal _ v t _ _ DL D2))|]. unfold gravity. vrefl; field; lra.
  - apply (vder_ext (fun u => vsub (vscal (1 / 2) (v u)) (vscal (3 / 2 * mu / norm (r u) ^ 3 * u) (r u)))); [intros u; rewrite E; reflexivity|]. rewrite E. cbn [fst].
    assert (DK : is_derive (fun u => 3 / 2 * mu / norm (r u) ^ 3 * u) t (3 / 2 * mu / norm (r t) ^ 3 - 9 / 2 * mu * t * dot (r t) (v t) / norm (r t) ^ 5)).
    { eapply der_to; [apply (der_mult (fun u => 3 / 2 * mu / norm (r u) ^ 3) (fun u => u)); [apply (der_div (fun _ => 3 / 2 * mu) (fun u => norm (r u) ^ 3)); [apply der_const|exact D3|exact P3]|apply der_id]|]. field. lra. }
    eapply vder_eq; [exact (vder_sub _ _ t _ _ (vder_scal (fun _ => 1 / 2) v t _ _ (der_const _ _) D2) (vder_scal _ r t _ _ DK D1))|].
    unfold gravity_gradient. fold (r t).
    replace (dot (r t) (vadd (vneg (r t)) (vscal (3 / 2 * t) (v t)))) with (- (norm (r t) * norm (r t)) + 3 / 2 * t * dot (r t) (v t)) by (rewrite Q; unfold dot, vadd, vneg, vscal; cbn [vx vy vz]; ring).
    set (n := norm (r t)) in *. set (sg := dot (r t) (v t)). apply vec_eq; unfold gravity, vadd, vsub, vscal, vneg; fold n; cbn [vx vy vz]; field; lra.
Qed.
Lemma var_lrl b : variational mu y (fun t => lrl mu b (y t)).
Proof.
  intros t. destruct (y_all t) as [N [D1 D2]]. pose proof (norm_pos _ N) as P. pose proof (dn t) as DN. pose proof (norm_sq (r t)) as Q.
  pose proof (vder_const b t) as DB.
  assert (E : forall u, lrl mu b (y u) = (vadd (vscal (-2 * dot (r u) b) (v u)) (vadd (vscal (dot (r u) (v u)) b) (vscal (dot (v u) b) (r u))),
    vsub (vsub (vscal (mu / norm (r u) ^ 3 * dot (r u) b) (r u)) (vscal (mu / norm (r u)) b)) (vsub (vscal (dot (v u) b) (v u)) (vscal (dot (v u) (v u)) b)))).
  { intros u. unfold r, v. destruct (y u). reflexivity. }
  assert (Drb : is_derive (fun u => dot (r u) b) t (dot (v t) b)).
  { apply (vderdot r (fun _ => b) t _ _ _ D1 DB). unfold dot, vzero. cbn [vx vy vz]. ring. }
  assert (Dvb : is_derive (fun u => dot (v u) b) t (dot (gravity mu (r t)) b)).
  { apply (vderdot v (fun _ => b) t _ _ _ D2 DB). unfold dot, vzero. cbn [vx vy vz]. ring. }
  pose proof (der_dot r v t _ _ D1 D2) as Drv. pose proof (der_dot v v t _ _ D2 D2) as Dvv.
  assert (D3 : is_derive (fun u => norm (r u) ^ 3) t (3 * (norm (r t) * dot (r t) (v t)))).
  { apply (der_ext (fun u => norm (r u) * norm (r u) * norm (r u))); [intros u; ring|].
    eapply der_to; [apply (der_mult (fun u => norm (r u) * norm (r u)) (fun u => norm (r u))); [apply (der_mult (fun u => norm (r u)) (fun u => norm (r u))); exact DN|exact DN]|]. field. lra. }
  assert (P3 : norm (r t) ^ 3 <> 0) by (apply pow_nonzero; lra).
  assert (GR : dot (r t) (gravity mu (r t)) = - mu / norm (r t)).
  { transitivity (- mu / norm (r t) ^ 3 * dot (r t) (r t)); [unfold gravity, dot, vscal; cbn [vx vy vz]; ring|]. rewrite <- Q. field. lra. }
  assert (GB : dot (gravity mu (r t)) b = - mu / norm (r t) ^ 3 * dot (r t) b) by (unfold gravity, dot, vscal; cbn [vx vy vz]; ring).
  assert (GV : forall w, dot (gravity mu (r t)) w = - mu / norm (r t) ^ 3 * dot (r t) w) by (intros w; unfold gravity, dot, vscal; cbn [vx vy vz]; ring).
  split.
  - apply (vder_ext (fun u => vadd (vscal (-2 * dot (r u) b) (v u)) (vadd (vscal (dot (r u) (v u)) b) (vscal (dot (v u) b) (r u))))); [intros u; rewrite E; reflexivity|]. rewrite E. cbn [snd].
    eapply vder_eq; [exact (vder_add _ _ t _ _ (vder_scal _ v t _ _ (der_scal (-2) _ _ _ Drb) D2) (vder_add _ _ t _ _ (vder_scal _ (fun _ => b) t _ _ Drv DB) (vder_scal _ r t _ _ Dvb D1)))|].
    rewrite GR, GB. set (n := norm (r t)) in *. set (rb := dot (r t) b). set (vb := dot (v t) b). set (rv := dot (r t) (v t)). set (vv := dot (v t) (v t)).
    apply vec_eq; unfold gravity, vadd, vsub, vscal, vneg, vzero; fold n; cbn [vx vy vz]; field; lra.
  - apply (vder_ext (fun u => vsub (vsub (vscal (mu / norm (r u) ^ 3 * dot (r u) b) (r u)) (vscal (mu / norm (r u)) b)) (vsub (vscal (dot (v u) b) (v u)) (vscal (dot (v u) (v u)) b))));
      [intros u; rewrite E; reflexivity|]. rewrite E. cbn [fst].
    pose proof (der_mult (fun u => mu / norm (r u) ^ 3) (fun u => dot (r u) b) t _ _ (der_div (fun _ => mu) (fun u => norm (r u) ^ 3) t _ _ (der_const mu t) D3 P3) Drb) as DK. cbv beta in DK.
    pose proof (der_div (fun _ => mu) (fun u => norm (r u)) t _ _ (der_const mu t) DN ltac:(lra)) as DJ. cbv beta in DJ.
    eapply vder_eq; [exact (vder_sub _ _ t _ _ (vder_sub _ _ t _ _ (vder_scal _ r t _ _ DK D1) (vder_scal _ (fun _ => b) t _ _ DJ DB))
       (vder_sub _ _ t _ _ (vder_scal _ v t _ _ Dvb D2) (vder_scal _ (fun _ => b) t _ _ Dvv DB)))|].
    unfold gravity_gradient. fold (r t).
    replace (dot (r t) (vadd (vscal (-2 * dot (r t) b) (v t)) (vadd (vscal (dot (r t) (v t)) b) (vscal (dot (v t) b) (r t))))) with
      (- dot (r t) b * dot (r t) (v t) + dot (v t) b * (norm (r t) * norm (r t))) by (rewrite Q; unfold dot, vadd, vneg, vscal; cbn [vx vy vz]; ring).
    rewrite (dot_comm (v t) (gravity mu (r t))). rewrite !GV.
    set (n := norm (r t)) in *. set (rb := dot (r t) b). set (vb := dot (v t) b). set (rv := dot (r t) (v t)). set (vv := dot (v t) (v t)).
    apply vec_eq; unfold gravity, vadd, vsub, vscal, vneg, vzero; fold n; cbn [vx vy vz]; field; lra.
Qed.
Lemma var_add d1 d2 : variational mu y d1 -> variational mu y d2 -> variational mu y (fun t => sadd (d1 t) (d2 t)).
Proof.
  intros H1 H2 t. destruct (H1 t) as [A1 B1]. destruct (H2 t) as [A2 B2]. unfold sadd. cbn [fst snd]. split.
  - apply (vder_add (fun u => fst (d1 u)) (fun u => fst (d2 u))); assumption.
  - eapply vder_eq; [apply (vder_add (fun u => snd (d1 u)) (fun u => snd (d2 u))); eassumption|]. destruct (y_all t) as [N _]. pose proof (norm_pos _ N) as P. fold (r t).
    unfold gravity_gradient. replace (dot (r t) (vadd (fst (d1 t)) (fst (d2 t)))) with (dot (r t) (fst (d1 t)) + dot (r t) (fst (d2 t))) by (unfold dot, vadd; cbn [vx vy vz]; ring).
    apply vec_eq; unfold vadd, vscal; cbn [vx vy vz]; unfold Rdiv; ring.
Qed.
Lemma var_scal k d1 : variational mu y d1 -> variational mu y (fun t => sscal k (d1 t)).
Proof.
  intros H1 t. destruct (H1 t) as [A1 B1]. unfold sscal. cbn [fst snd]. split.
  - eapply vder_eq; [apply (vder_scal (fun _ => k) (fun u => fst (d1 u)) t _ _ (der_const k t) A1)|]. vrefl; ring.
  - eapply vder_eq; [apply (vder_scal (fun _ => k) (fun u => snd (d1 u)) t _ _ (der_const k t) B1)|]. fold (r t).
    unfold gravity_gradient. replace (dot (r t) (vscal k (fst (d1 t)))) with (k * dot (r t) (fst (d1 t))) by (unfold dot, vscal; cbn [vx vy vz]; ring).
    apply vec_eq; unfold vadd, vscal; cbn [vx vy vz]; unfold Rdiv; ring.
Qed.
Lemma sadd_ext_var d1 d2 : (forall t, d1 t = d2 t) -> variational mu y d1 -> variational mu y d2.
Proof.
  intros E H t. destruct (H t) as [A B]. rewrite <- (E t). split; [eapply vder_ext; [|exact A]|eapply vder_ext; [|exact B]]; intros s; cbn; rewrite (E s); reflexivity.
Qed.
(** every column of Y, whatever the reference state r0, v0 *)
Lemma Y_variational r0 v0 d : variational mu y (fun t => mat_apply (compute_Y r0 v0 (fst (y t)) (snd (y t)) t mu) d).
Proof.
  eapply sadd_ext_var; [|apply var_add; [apply (var_rot (fst d))|apply var_add; [apply (var_lrl (Bvec r0 v0 mu d))|apply (var_scal (vz (snd d)) (fun t => scl mu t (y t))), var_scl]]].
  intros t. cbv beta. destruct (y_all t) as [N _]. rewrite (Y_apply r0 v0 (fst (y t)) (snd (y t)) t mu d N). rewrite <- (surjective_pairing (y t)). reflexivity.
Qed.

(** ** The variational equations have one solution for each initial value *)
Variable dm : R.
Hypothesis Dm : 0 < dm.
Hypothesis Far : forall t, dm <= norm (r t).
Hypothesis Mu : 0 < mu.
Let f (d : R -> state) t := dot (fst (d t)) (fst (d t)) + dot (snd (d t)) (snd (d t)).
Let f' (d : R -> state) t := 2 * dot (fst (d t)) (snd (d t)) + 2 * dot (snd (d t)) (gravity_gradient mu (r t) (fst (d t))).
Let K := 1 + 4 * mu / dm ^ 3.
Lemma df d t : variational mu y d -> is_derive (f d) t (f' d t).
Proof.
  intros H. destruct (H t) as [A B]. eapply der_to; [apply der_plus; [apply (der_dot _ _ t _ _ A A)|apply (der_dot _ _ t _ _ B B)]|].
  unfold f'. fold (r t). rewrite (dot_comm (snd (d t)) (fst (d t))), (dot_comm (gravity_gradient mu (r t) (fst (d t)))). ring.
Qed.
Lemma f'_le d t : Rabs (f' d t) <= K * f d t.
Proof.
  destruct (y_all t) as [N _]. pose proof (norm_pos _ N) as P. pose proof (Far t) as FT. set (p := fst (d t)). set (q := snd (d t)).
  unfold f', f. fold p q.
  assert (H1 : Rabs (dot p q) <= norm p * norm q) by apply abs_dot.
  assert (G : Rabs (dot q (gravity_gradient mu (r t) p)) <= 4 * mu / dm ^ 3 * (norm p * norm q)).
  { replace (dot q (gravity_gradient mu (r t) p)) with (- mu / norm (r t) ^ 3 * dot q p + 3 * mu / norm (r t) ^ 5 * (dot (r t) p * dot q (r t)))
      by (unfold gravity_gradient, dot, vadd, vscal; cbn [vx vy vz]; unfold Rdiv; ring).
    set (n := norm (r t)) in *. pose proof (abs_dot q p) as A1. pose proof (abs_dot (r t) p) as A2. pose proof (abs_dot q (r t)) as A3. fold n in A2, A3.
    pose proof (norm_nonneg p) as Np. pose proof (norm_nonneg q) as Nq.
    assert (A4 : Rabs (dot (r t) p * dot q (r t)) <= n * n * (norm p * norm q)).
    { rewrite Rabs_mult. pose proof (Rabs_pos (dot (r t) p)). pose proof (Rabs_pos (dot q (r t))).
      replace (n * n * (norm p * norm q)) with ((n * norm p) * (norm q * n)) by ring. apply Rmult_le_compat; assumption. }
    pose proof (pow_lt n 3 P) as P3. pose proof (pow_lt dm 3 Dm) as Q3. pose proof (pow_lt n 5 P) as P5.
    assert (B1 : mu / n ^ 3 <= mu / dm ^ 3).
    { unfold Rdiv. apply Rmult_le_compat_l; [lra|]. apply Rinv_le_contravar; [exact Q3|]. apply pow_incr. lra. }
    assert (M3 : 0 < mu / n ^ 3) by (apply Rdiv_lt_0_compat; assumption). assert (M5 : 0 < 3 * mu / n ^ 5) by (apply Rdiv_lt_0_compat; lra).
    eapply Rle_trans; [apply Rabs_triang|]. rewrite !(Rabs_mult (_ / _)).
    rewrite (Rabs_left (- mu / n ^ 3)) by (unfold Rdiv in *; lra). rewrite (Rabs_right (3 * mu / n ^ 5)) by lra.
    assert (C1 : - (- mu / n ^ 3) * Rabs (dot q p) <= mu / n ^ 3 * (norm p * norm q)).
    { replace (- (- mu / n ^ 3)) with (mu / n ^ 3) by (field; lra). apply Rmult_le_compat_l; lra. }
    assert (C2 : 3 * mu / n ^ 5 * Rabs (dot (r t) p * dot q (r t)) <= 3 * (mu / n ^ 3) * (norm p * norm q)).
    { replace (3 * (mu / n ^ 3) * (norm p * norm q)) with (3 * mu / n ^ 5 * (n * n * (norm p * norm q))) by (field; lra). apply Rmult_le_compat_l; lra. }
    assert (0 <= norm p * norm q) by (apply Rmult_le_pos; assumption).
    replace (4 * mu / dm ^ 3) with (4 * (mu / dm ^ 3)) by (field; lra). nra. }
  assert (H2 : 2 * (norm p * norm q) <= dot p p + dot q q) by (rewrite <- (norm_sq p), <- (norm_sq q); pose proof (Rle_0_sqr (norm p - norm q)) as SQ; unfold Rsqr in SQ; lra).
  assert (K4 : 0 < 4 * mu / dm ^ 3) by (apply Rdiv_lt_0_compat; [lra|apply pow_lt; exact Dm]).
  eapply Rle_trans; [apply Rabs_triang|]. rewrite !Rabs_mult, !(Rabs_right 2) by lra. unfold K.
  assert (0 <= norm p * norm q) by (apply Rmult_le_pos; apply norm_nonneg). nra.
Qed.
Lemma f_nonneg d t : 0 <= f d t. Proof. unfold f. pose proof (dot_nonneg (fst (d t))). pose proof (dot_nonneg (snd (d t))). lra. Qed.
Lemma var_zero d : variational mu y d -> d 0 = (vzero, vzero) -> forall t, d t = (vzero, vzero).
Proof.
  intros H D0 t. assert (F0 : f d 0 = 0) by (unfold f; rewrite D0; unfold dot, vzero; cbn; ring).
  assert (FT : f d t <= 0).
  { destruct (Rle_dec 0 t) as [L|L].
    - assert (Dg : forall u : R, is_derive (fun s => - (f d s * exp (- K * s))) u (- (f' d u * exp (- K * u) + f d u * (- K * exp (- K * u))))).
      { intros u. apply der_opp. apply (der_mult (f d) (fun s => exp (- K * s))); [apply df, H|]. auto_derive; [exact Logic.I|ring]. }
      pose proof (nondecr _ _ Dg) as I. cbv beta in I.
      assert (S : forall u, 0 <= - (f' d u * exp (- K * u) + f d u * (- K * exp (- K * u)))).
      { intros u. pose proof (f'_le d u) as A. apply Rabs_le_between in A. pose proof (exp_pos (- K * u)). nra. }
      specialize (I S 0 t L). rewrite F0 in I. pose proof (exp_pos (- K * t)). nra.
    - assert (Dg : forall u : R, is_derive (fun s => f d s * exp (K * s)) u (f' d u * exp (K * u) + f d u * (K * exp (K * u)))).
      { intros u. apply (der_mult (f d) (fun s => exp (K * s))); [apply df, H|]. auto_derive; [exact Logic.I|ring]. }
      pose proof (nondecr _ _ Dg) as I. cbv beta in I.
      assert (S : forall u, 0 <= f' d u * exp (K * u) + f d u * (K * exp (K * u))).
      { intros u. pose proof (f'_le d u) as A. apply Rabs_le_between in A. pose proof (exp_pos (K * u)). nra. }
      specialize (I S t 0 ltac:(lra)). rewrite F0 in I. pose proof (exp_pos (K * t)). nra. }
  unfold f in FT. pose proof (dot_nonneg (fst (d t))). pose proof (dot_nonneg (snd (d t))).
  rewrite (surjective_pairing (d t)). f_equal; apply dot_zero; lra.
Qed.
Lemma var_unique d1 d2 : variational mu y d1 -> variational mu y d2 -> d1 0 = d2 0 -> forall t, d1 t = d2 t.
Proof.
  intros H1 H2 E t. pose proof (var_add _ _ H1 (var_scal (-1) _ H2)) as H. cbv beta in H.
  pose proof (var_zero _ H) as Z. cbv beta in Z. specialize (Z ltac:(rewrite E; unfold sadd, sscal; cbn [fst snd]; f_equal; vrefl; ring) t).
  unfold sadd, sscal in Z. injection Z as Z1 Z2 Z3 Z4 Z5 Z6. cbn [vx vy vz] in *.
  rewrite (surjective_pairing (d1 t)), (surjective_pairing (d2 t)). f_equal; apply vec_eq; lra.
Qed.
End Solution.
