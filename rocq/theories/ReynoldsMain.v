(** * Reynolds' matrix is the state transition matrix (C18) *)
From Coq Require Import Reals List Lra Nsatz.
From Coquelicot Require Import Coquelicot.
From Verif Require Import RealLib Outcome KepModel KepSpec KepProofs Vec3 TwoBodyModel TwoBodySpec FlowProofs LagProofs FlowMain BracketProofs TwoBodyProofs StmProofs StmMain StmGen
  ReynoldsModel ReynoldsCols ReynoldsProofs.
Open Scope R_scope.

Definition Jm (mu : R) (s : state) (t : R) : list R := if Rlt_dec (energy mu s) 0 then matE mu s t else matH mu s t.
Lemma Jm_jac mu s t : regular mu s -> energy mu s <> 0 -> exists s', flow_at mu s t s' /\ flow_jacobian mu s t s' (Jm mu s t).
Proof.
  intros Rg NE. destruct (regular_r _ _ Rg) as [Mu _]. unfold Jm. destruct (Rlt_dec (energy mu s) 0) as [L|L].
  - exists (ye mu t (fun _ => s) 0). split; [apply (ye_flow mu t (fun _ => s) Mu 0 (conj Rg L))|apply matE_jac, (conj Rg L)].
  - assert (P : 0 < energy mu s) by lra. exists (yh mu t (fun _ => s) 0). split; [apply (yh_flow mu t (fun _ => s) Mu 0 (conj Rg P))|apply matH_jac, (conj Rg P)].
Qed.
Lemma Jm_gen mu s d : regular mu s -> energy mu s <> 0 -> sderive (fun h => mat_apply (Jm mu s h) d) 0 (snd d, gravity_gradient mu (fst s) (fst d)).
Proof.
  intros Rg NE. unfold Jm. destruct (Rlt_dec (energy mu s) 0) as [L|L]; [apply matE_gen, (conj Rg L)|]. assert (P : 0 < energy mu s) by lra. apply matH_gen, (conj Rg P).
Qed.
Lemma der_shift (f : R -> R) t l : is_derive (fun h => f (t + h)) 0 l -> is_derive f t l.
Proof.
  intros H. apply (der_ext (fun u => (fun h => f (t + h)) (u - t))); [intros u; cbv beta; f_equal; ring|].
  eapply der_to; [apply (der_comp (fun h => f (t + h)) (fun u => u - t) t l 1)|ring].
  - rewrite Rminus_diag_eq by reflexivity. exact H.
  - eapply der_to; [apply der_minus; [apply der_id|apply der_const]|ring].
Qed.
Lemma sder_shift c t d : sderive (fun h => c (t + h)) 0 d -> sderive c t d.
Proof. intros [[A [B C]] [D [E F]]]. split; (split; [|split]); apply (der_shift (fun u => _ (_ (c u)))); assumption. Qed.
Section Sol.
Variables (mu : R) (s : state) (y : R -> state).
Hypothesis Rg : regular mu s.
Hypothesis NE : energy mu s <> 0.
Hypothesis Y : two_body mu m_infty p_infty y.
Hypothesis Y0 : y 0 = s.
Let Mu : 0 < mu := proj1 Rg.
Lemma y_flow t : flow_at mu s t (y t). Proof. apply flow_of_solution; assumption. Qed.
Lemma y_reg t : regular mu (y t) /\ energy mu (y t) <> 0.
Proof.
  destruct (flow_integrals mu s t (y t) Rg (y_flow t)) as [SI _]. split; [exact (proj1 (same_regular mu s (y t) SI) Rg)|].
  destruct SI as [-> _]. exact NE.
Qed.
Lemma y_far : exists dm, 0 < dm /\ forall t, dm <= norm (fst (y t)).
Proof.
  destruct (regular_r _ _ Rg) as [_ [Hr Hh]]. exists (rmin mu (fst s) (snd s)). split; [apply rmin_pos; assumption|]. intros t.
  pose proof (ustate_flow mu (fst s) (snd s) Mu Hr Hh t _ (gsol_solves mu (fst s) (snd s) Mu Hr Hh t)) as F. rewrite <- surjective_pairing in F.
  rewrite (flow_functional mu s t _ _ (y_flow t) F). rewrite (unorm mu (fst s) (snd s) Mu Hr Hh). apply rho_min; assumption.
Qed.
Lemma Jm_variational d : variational mu y (fun t => mat_apply (Jm mu s t) d).
Proof.
  intros t. destruct (y_reg t) as [Rt Nt]. destruct (Jm_jac mu s t Rg NE) as [s1 [F1 J1]].
  assert (E1 : s1 = y t) by (apply (flow_functional mu s t); [exact F1|apply y_flow]). subst s1.
  assert (S : sderive (fun h => mat_apply (Jm mu s (t + h)) d) 0 (snd (mat_apply (Jm mu s t) d), gravity_gradient mu (fst (y t)) (fst (mat_apply (Jm mu s t) d)))).
  { eapply sder_ext; [|apply (Jm_gen mu (y t) (mat_apply (Jm mu s t) d) Rt Nt)]. intros h. cbv beta.
    destruct (Jm_jac mu (y t) h Rt Nt) as [s2 [F2 J2]]. destruct (Jm_jac mu s (t + h) Rg NE) as [s3 [F3 J3]].
    symmetry. apply (jac_comp mu s t (y t) _ h s2 _ s3 _ d Mu J1 J2 J3). }
  apply (sder_shift (fun u => mat_apply (Jm mu s u) d)) in S. exact S.
Qed.
Lemma Jm_0 d : mat_apply (Jm mu s 0) d = d.
Proof. destruct (Jm_jac mu s 0 Rg NE) as [s1 [_ J1]]. apply (jac_id mu s s1 _ d J1). Qed.
(** a family of matrices whose images solve the variational equations and which starts with the identity is Jm *)
Lemma Jm_unique (P : R -> state -> state) : (forall d, variational mu y (fun t => P t d)) -> (forall d, P 0 d = d) -> forall t d, P t d = mat_apply (Jm mu s t) d.
Proof.
  intros HP H0 t d. destruct y_far as [dm [D1 D2]].
  apply (var_unique mu y Y dm D1 D2 Mu (fun t => P t d) (fun t => mat_apply (Jm mu s t) d) (HP d) (Jm_variational d)). rewrite H0, Jm_0. reflexivity.
Qed.
End Sol.
Lemma jac_transfer mu s t s' M M' : flow_jacobian mu s t s' M -> length M' = 36%nat -> (forall d, mat_apply M' d = mat_apply M d) -> flow_jacobian mu s t s' M'.
Proof.
  intros [_ J] L E. split; [exact L|]. intros c d C0 Hc. destruct (J c d C0 Hc) as [y [eps [A [B [C D]]]]]. exists y, eps. rewrite E. auto.
Qed.
(** products *)
Lemma dot_entry A B i j : (i < 6)%nat -> (j < 6)%nat -> mat_entry (mat66_dot A B) i j =
  mat_entry A i 0 * mat_entry B 0 j + mat_entry A i 1 * mat_entry B 1 j + mat_entry A i 2 * mat_entry B 2 j +
  mat_entry A i 3 * mat_entry B 3 j + mat_entry A i 4 * mat_entry B 4 j + mat_entry A i 5 * mat_entry B 5 j.
Proof.
  intros Hi Hj. unfold mat_entry, mat66_dot. do 6 (destruct i as [|i]; [do 6 (destruct j as [|j]; [reflexivity|]); Lia.lia|]). Lia.lia.
Qed.
Lemma dot_length A B : length (mat66_dot A B) = 36%nat. Proof. reflexivity. Qed.
Lemma dot_row A B d i : (i < 6)%nat -> row_apply (mat66_dot A B) i d = row_apply A i (mat_apply B d).
Proof.
  intros Hi. unfold mat_apply, row_apply. cbn [fst snd vx vy vz]. rewrite !dot_entry by Lia.lia. ring.
Qed.
Lemma dot_apply A B d : mat_apply (mat66_dot A B) d = mat_apply A (mat_apply B d).
Proof. unfold mat_apply at 1 2. rewrite !dot_row by Lia.lia. reflexivity. Qed.

(** ** Y at time 0 is invertible exactly off the parabolas *)
Section Kernel.
Variables (mu : R) (r v : vec).
Hypothesis Mu : 0 < mu.
Hypothesis Hr : r <> vzero.
Hypothesis Hh : cross r v <> vzero.
Let n := norm r. Let h := cross r v. Let sg := dot r v. Let w := dot v v.
Let Pn : 0 < n := norm_pos r Hr.
Let Qn : n * n = dot r r := norm_sq r.
Let Ph : 0 < dot h h := dot_pos h Hh.
Let Eh : dot h h = n * n * w - sg * sg. Proof. unfold h, w, sg. rewrite Qn. apply lagrange_identity. Qed.
Lemma ker_beta beta gamma e x : sadd (rot e (r, v)) (sadd (lrl mu (vadd (vscal beta r) (vscal gamma v)) (r, v)) (sscal x (scl mu 0 (r, v)))) = (vzero, vzero) ->
  w / 2 - mu / n <> 0 -> e = vzero /\ beta = 0 /\ gamma = 0 /\ x = 0.
Proof.
  intros H NE. set (b := vadd (vscal beta r) (vscal gamma v)) in *.
  assert (RB : dot r b = beta * (n * n) + gamma * sg) by (rewrite Qn; unfold b, sg, dot, vadd, vscal; cbn [vx vy vz]; ring).
  assert (VB : dot v b = beta * sg + gamma * w) by (unfold b, sg, w, dot, vadd, vscal; cbn [vx vy vz]; ring).
  injection H as P1 P2 P3 Q1 Q2 Q3.
  set (p := vadd (cross r e) (vadd (vadd (vscal (-2 * dot r b) v) (vadd (vscal sg b) (vscal (dot v b) r))) (vscal x (vadd (vneg r) (vscal (3 / 2 * 0) v))))).
  set (q := vadd (cross v e) (vadd (vsub (vsub (vscal (mu / n ^ 3 * dot r b) r) (vscal (mu / n) b)) (vsub (vscal (dot v b) v) (vscal w b))) (vscal x (vsub (vscal (1 / 2) v) (vscal (3 / 2 * mu / n ^ 3 * 0) r))))).
  assert (P : p = vzero) by (apply vec_eq; [exact P1|exact P2|exact P3]). assert (Q : q = vzero) by (apply vec_eq; [exact Q1|exact Q2|exact Q3]).
  clear P1 P2 P3 Q1 Q2 Q3.
  assert (D0 : forall u z, z = vzero -> dot u z = 0) by (intros u z ->; unfold dot, vzero; cbn [vx vy vz]; ring).
  assert (dp : forall u, dot u p = dot u (cross r e) + (-2 * dot r b * dot u v + sg * dot u b + dot v b * dot u r) - x * dot u r).
  { intros u. unfold p, dot, vadd, vscal, vneg. cbn [vx vy vz]. ring. }
  assert (dq : forall u, dot u q = dot u (cross v e) + (mu / n ^ 3 * dot r b * dot u r - mu / n * dot u b - (dot v b * dot u v - w * dot u b)) + x / 2 * dot u v).
  { intros u. unfold q, dot, vadd, vsub, vscal, vneg. cbn [vx vy vz]. field. apply Rgt_not_eq; exact Pn. }
  assert (CR : dot r (cross r e) = 0) by (unfold dot, cross; cbn [vx vy vz]; ring). assert (CV : dot v (cross v e) = 0) by (unfold dot, cross; cbn [vx vy vz]; ring).
  assert (CVR : dot v (cross r e) = - dot h e) by (unfold h, dot, cross; cbn [vx vy vz]; ring). assert (CRV : dot r (cross v e) = dot h e) by (unfold h, dot, cross; cbn [vx vy vz]; ring).
  pose proof (dp r) as pr. pose proof (dp v) as pv. pose proof (dq r) as qr. pose proof (dq v) as qv.
  rewrite (D0 r p P), CR, RB, VB in pr. rewrite (D0 v p P), CVR, RB, VB in pv. rewrite (D0 r q Q), CRV, RB, VB in qr. rewrite (D0 v q Q), CV, RB, VB in qv.
  assert (SV : dot v r = sg) by apply dot_comm. change (dot r v) with sg in pr, pv, qr, qv. change (dot v v) with w in pr, pv, qr, qv.
  rewrite <- Qn in pr. rewrite SV in pv. rewrite <- Qn in qr. rewrite SV in qv.
  assert (X : x = 0).
  { assert (E : x * (w / 2 - mu / n) = 0).
    { match type of pr with _ = ?a => match type of qv with _ = ?b => transitivity (mu / n ^ 3 * a + b); [field; apply Rgt_not_eq; exact Pn|rewrite <- pr, <- qv; ring] end end. }
    apply Rmult_integral in E. destruct E; [assumption|contradiction]. }
  rewrite X in pr, pv, qr, qv.
  assert (G : gamma = 0). { apply (Rmult_eq_reg_r (dot h h)); [|lra]. rewrite Eh, Rmult_0_l. symmetry. rewrite pr. ring. }
  rewrite G in pr, pv, qr, qv.
  assert (E1 : dot h e + 2 * beta * dot h h = 0). { rewrite Eh. apply (Rmult_eq_reg_l (-1)); [|lra]. rewrite Rmult_0_r. symmetry. rewrite pv. ring. }
  assert (E2 : dot h e + beta * dot h h = 0). { rewrite Eh. symmetry. rewrite qr. field. lra. }
  assert (B : beta = 0). { apply (Rmult_eq_reg_r (dot h h)); lra. } rewrite B in E1, E2.
  assert (HE : dot h e = 0) by lra.
  assert (PE : cross r e = vzero).
  { rewrite <- P. unfold p, b. rewrite X, B, G. apply vec_eq; unfold vadd, vscal, vneg, dot; cbn [vx vy vz]; ring. }
  assert (QE : cross v e = vzero).
  { rewrite <- Q. unfold q, b. rewrite X, B, G. apply vec_eq; unfold vadd, vsub, vscal, vneg, dot; cbn [vx vy vz]; unfold Rdiv; ring. }
  assert (J : cross h e = vadd (cross r (cross v e)) (vneg (cross v (cross r e)))) by (apply vec_eq; unfold h, vadd, vneg, cross; cbn [vx vy vz]; ring).
  rewrite PE, QE in J. assert (J0 : dot (cross h e) (cross h e) = 0) by (rewrite J; unfold dot, vadd, vneg, cross, vzero; cbn [vx vy vz]; ring).
  rewrite lagrange_identity, HE in J0. assert (dot h h * dot e e = 0) by lra. apply Rmult_integral in H. destruct H; [lra|].
  split; [apply dot_zero; exact H|auto].
Qed.
Lemma Y0_kernel : energy mu (r, v) <> 0 -> trivial_kernel (compute_Y r v r v 0 mu).
Proof.
  intros NE d H. rewrite (Y_apply r v r v 0 mu d Hr) in H. unfold Bvec in H. fold n in H.
  apply ker_beta in H; [|exact NE]. destruct H as [E1 [E2 [E3 E4]]]. destruct d as [d1 [x y z]]. cbn [fst snd vx vy vz] in *.
  assert (Q : 0 < sqrt (mu * n)) by (apply sqrt_lt_R0, Rmult_lt_0_compat; [exact Mu|exact Pn]).
  assert (X : x = 0). { replace x with (x / sqrt (mu * n) * sqrt (mu * n)) by (field; lra). rewrite E2. ring. }
  assert (Z : y = 0). { replace y with (y * n / mu * (mu / n)) by (field; split; apply Rgt_not_eq; [exact Pn|exact Mu]). rewrite E3. ring. }
  subst. reflexivity.
Qed.
Lemma Y0_singular : energy mu (r, v) = 0 -> ~ trivial_kernel (compute_Y r v r v 0 mu).
Proof.
  intros E0 K. set (q := sqrt (mu * n)). assert (Q : 0 < q) by (apply sqrt_lt_R0, Rmult_lt_0_compat; [exact Mu|exact Pn]).
  assert (W : w = 2 * mu / n). { unfold energy in E0. cbn [fst snd] in E0. fold w n in E0. unfold Rdiv in *. lra. }
  set (d := (vzero, V (- sg / (2 * dot h h) * q) (n * n / dot h h * mu / n) 1)).
  specialize (K d). rewrite (Y_apply r v r v 0 mu d Hr) in K. assert (d = (vzero, vzero)); [|injection H as _ _ H; lra]. apply K. clear K.
  assert (EB : Bvec r v mu d = vadd (vscal (- sg / (2 * dot h h)) r) (vscal (n * n / dot h h) v)).
  { unfold Bvec, d. cbn [fst snd vx vy vz]. fold n q. apply vec_eq; unfold vadd, vscal; cbn [vx vy vz]; field; repeat split; lra. }
  rewrite EB. set (beta := - sg / (2 * dot h h)). set (gamma := n * n / dot h h). unfold d. cbn [fst snd vx vy vz].
  set (b := vadd (vscal beta r) (vscal gamma v)).
  assert (RB : dot r b = beta * (n * n) + gamma * sg) by (rewrite Qn; unfold b, sg, dot, vadd, vscal; cbn [vx vy vz]; ring).
  assert (VB : dot v b = beta * sg + gamma * w) by (unfold b, sg, w, dot, vadd, vscal; cbn [vx vy vz]; ring).
  assert (HH : dot h h = 2 * mu * n - sg * sg) by (rewrite Eh, W; field; lra).
  unfold sadd, sscal, rot, lrl, scl. cbn [fst snd]. fold n sg w. rewrite RB, VB.
  assert (C1 : 2 * beta * sg + gamma * w - 1 = 0). { unfold beta, gamma. rewrite W. rewrite HH. field. lra. }
  assert (C2 : -2 * (beta * (n * n) + gamma * sg) + gamma * sg = 0). { unfold beta, gamma. field. lra. }
  assert (C3 : mu / n ^ 3 * (beta * (n * n) + gamma * sg) - mu / n * beta + w * beta = 0). { unfold beta, gamma. rewrite W. field. lra. }
  assert (C4 : - (mu / n) * gamma - (beta * sg + gamma * w) + w * gamma + 1 / 2 = 0). { unfold beta, gamma. rewrite W, HH. field. lra. }
  f_equal.
  - replace (vadd (cross r vzero) (vadd (vadd (vscal (-2 * (beta * (n * n) + gamma * sg)) v) (vadd (vscal sg b) (vscal (beta * sg + gamma * w) r))) (vscal 1 (vadd (vneg r) (vscal (3 / 2 * 0) v)))))
      with (vadd (vscal (2 * beta * sg + gamma * w - 1) r) (vscal (-2 * (beta * (n * n) + gamma * sg) + gamma * sg) v))
      by (unfold b; apply vec_eq; unfold cross, vadd, vscal, vneg, vzero; cbn [vx vy vz]; ring).
    rewrite C1, C2. apply vec_eq; unfold vadd, vscal, vzero; cbn [vx vy vz]; ring.
  - replace (vadd (cross v vzero) (vadd (vsub (vsub (vscal (mu / n ^ 3 * (beta * (n * n) + gamma * sg)) r) (vscal (mu / n) b)) (vsub (vscal (beta * sg + gamma * w) v) (vscal w b)))
         (vscal 1 (vsub (vscal (1 / 2) v) (vscal (3 / 2 * mu / n ^ 3 * 0) r)))))
      with (vadd (vscal (mu / n ^ 3 * (beta * (n * n) + gamma * sg) - mu / n * beta + w * beta) r) (vscal (- (mu / n) * gamma - (beta * sg + gamma * w) + w * gamma + 1 / 2) v))
      by (unfold b; apply vec_eq; unfold cross, vadd, vsub, vscal, vneg, vzero; cbn [vx vy vz]; unfold Rdiv; ring).
    rewrite C3, C4. apply vec_eq; unfold vadd, vscal, vzero; cbn [vx vy vz]; ring.
Qed.
End Kernel.

(** ** The theorems *)
Lemma reynolds_core inv mu s tof s1 M : inv_ok inv -> regular mu s -> energy mu s <> 0 -> flow_at mu s tof s1 ->
  stm_reynolds inv s s1 tof mu = Ret M -> flow_jacobian mu s tof s1 M.
Proof.
  intros IK Rg NE F H. unfold stm_reynolds in H.
  destruct (inv (compute_Y (fst s) (snd s) (fst s) (snd s) 0 mu)) as [X|] eqn:IX; [|discriminate]. injection H as <-.
  destruct (IK (compute_Y (fst s) (snd s) (fst s) (snd s) 0 mu) eq_refl) as [_ I2]. destruct (I2 X IX) as [_ IV]. clear I2.
  destruct (Jm_jac mu s tof Rg NE) as [s2 [F2 J]]. rewrite <- (flow_functional mu s tof s1 s2 F F2) in J.
  apply (jac_transfer mu s tof s1 (Jm mu s tof)); [exact J|apply dot_length|]. intros d.
  destruct F as [[y [Yb [Y0 Yt]]] _].
  pose proof (Jm_unique mu s y Rg NE Yb Y0 (fun t x => mat_apply (compute_Y (fst s) (snd s) (fst (y t)) (snd (y t)) t mu) (mat_apply X x))) as U.
  rewrite <- (U (fun x => Y_variational mu y Yb (fst s) (snd s) (mat_apply X x))).
  - rewrite dot_apply, Yt. reflexivity.
  - intros x. cbv beta. rewrite Y0. apply IV.
Qed.
Lemma reynolds_jac newton inv mu s tof s' m : newton_sound newton -> inv_ok inv -> regular mu s -> energy mu s <> 0 ->
  propagate_stm_reynolds newton inv s tof mu true = Ret (s', m) -> flow_at mu s tof s' /\ exists M, m = Some M /\ flow_jacobian mu s tof s' M.
Proof.
  intros NS IK Rg NE H. unfold propagate_stm_reynolds in H. destruct (propagate_lagrangian newton s tof mu false) as [[s1 m1]| |] eqn:P; try discriminate.
  cbn [bind fst] in H. pose proof (lag_sound newton mu s tof false s1 m1 NS Rg NE P) as F.
  destruct (stm_reynolds inv s s1 tof mu) as [M| |] eqn:SR; try discriminate. cbn [bind] in H. injection H as <- <-.
  split; [exact F|]. exists M. split; [reflexivity|]. apply (reynolds_core inv); assumption.
Qed.
Lemma reynolds_stm_total inv mu s s1 tof : inv_ok inv -> regular mu s -> energy mu s <> 0 -> exists M, stm_reynolds inv s s1 tof mu = Ret M.
Proof.
  intros IK Rg NE. destruct (regular_r _ _ Rg) as [Mu [Hr Hh]]. unfold stm_reynolds.
  destruct (IK (compute_Y (fst s) (snd s) (fst s) (snd s) 0 mu) eq_refl) as [I1 _].
  destruct I1 as [X ->]; [|eauto]. apply Y0_kernel; try assumption; try (destruct s; exact NE).
Qed.
Lemma reynolds_ok newton inv mu s tof : newton_ok newton -> inv_ok inv -> elliptic mu s ->
  exists s' M, propagate_stm_reynolds newton inv s tof mu true = Ret (s', Some M) /\ flow_at mu s tof s' /\ flow_jacobian mu s tof s' M.
Proof.
  intros NK IK El. assert (NE : energy mu s <> 0) by (destruct El as [_ L]; lra).
  destruct (ellipse_flow newton mu s tof false NK El) as [s' [m [P F]]]. destruct (reynolds_stm_total inv mu s s' tof IK (proj1 El) NE) as [M E].
  exists s', M. split; [|split; [exact F|apply (reynolds_core inv); try assumption; apply El]].
  unfold propagate_stm_reynolds. rewrite P. cbn [bind fst]. rewrite E. reflexivity.
Qed.
Lemma reynolds_ok_h newton inv mu s tof : newton_ok newton -> inv_ok inv -> hyperbolic mu s -> mean_motion mu s * Rabs tof <= 10 ^ 9 ->
  exists s' M, propagate_stm_reynolds newton inv s tof mu true = Ret (s', Some M) /\ flow_at mu s tof s' /\ flow_jacobian mu s tof s' M.
Proof.
  intros NK IK El HT. assert (NE : energy mu s <> 0) by (destruct El as [_ L]; lra).
  destruct (lag_hyp_total newton mu s tof false NK El HT) as [s' [m [P F]]]. destruct (reynolds_stm_total inv mu s s' tof IK (proj1 El) NE) as [M E].
  exists s', M. split; [|split; [exact F|apply (reynolds_core inv); try assumption; apply El]].
  unfold propagate_stm_reynolds. rewrite P. cbn [bind fst]. rewrite E. reflexivity.
Qed.
Lemma reynolds_parabola inv mu s sf tof : inv_ok inv -> regular mu s -> energy mu s = 0 -> stm_reynolds inv s sf tof mu = Throw RuntimeError.
Proof.
  intros IK Rg E. destruct (regular_r _ _ Rg) as [Mu [Hr Hh]]. unfold stm_reynolds.
  destruct (inv (compute_Y (fst s) (snd s) (fst s) (snd s) 0 mu)) as [X|] eqn:IX; [|reflexivity]. exfalso.
  destruct (IK (compute_Y (fst s) (snd s) (fst s) (snd s) 0 mu) eq_refl) as [_ I2]. destruct (I2 X IX) as [_ IV].
  apply (Y0_singular mu (fst s) (snd s) Mu Hr Hh); [rewrite <- surjective_pairing; exact E|]. intros d Hd. destruct (IV d) as [_ E2]. rewrite Hd in E2. rewrite <- E2.
  unfold mat_apply, row_apply, vzero. cbn [fst snd vx vy vz]. apply f_equal2; apply vec_eq; cbn [vx vy vz]; ring.
Qed.
(** the two matrices agree *)
Lemma mat_ext M M' : length M = 36%nat -> length M' = 36%nat -> (forall d, mat_apply M d = mat_apply M' d) -> M = M'.
Proof.
  intros L L' H. apply (nth_ext _ _ 0 0); [rewrite L, L'; reflexivity|]. intros k Hk. rewrite L in Hk.
  assert (E : forall i j, (i < 6)%nat -> (j < 6)%nat -> mat_entry M i j = mat_entry M' i j).
  { intros i j Hi Hj. rewrite <- !(row_unit _ i j Hj). specialize (H (unit_dir j)). unfold mat_apply in H. injection H as H0 H1 H2 H3 H4 H5.
    do 6 (destruct i as [|i]; [assumption|]). Lia.lia. }
  pose proof (Nat.div_mod k 6 ltac:(Lia.lia)) as DM. pose proof (Nat.mod_upper_bound k 6 ltac:(Lia.lia)) as UB.
  specialize (E (k / 6)%nat (k mod 6)%nat ltac:(apply Nat.div_lt_upper_bound; Lia.lia) UB). unfold mat_entry in E. rewrite <- DM in E. exact E.
Qed.
Lemma reynolds_agrees newton inv mu s tof s1 M1 s2 M2 : newton_sound newton -> inv_ok inv -> regular mu s -> energy mu s <> 0 ->
  propagate_lagrangian newton s tof mu true = Ret (s1, Some M1) -> propagate_stm_reynolds newton inv s tof mu true = Ret (s2, Some M2) -> s1 = s2 /\ M1 = M2.
Proof.
  intros NS IK Rg NE P1 P2. destruct (jac_sound newton mu s tof s1 _ NS Rg NE P1) as [F1 [M1' [E1 J1]]]. destruct (reynolds_jac newton inv mu s tof s2 _ NS IK Rg NE P2) as [F2 [M2' [E2 J2]]].
  injection E1 as <-. injection E2 as <-. split; [apply (flow_functional mu s tof); assumption|].
  apply mat_ext; [apply J1|apply J2|]. intros d. apply (jac_unique mu s tof s1 s2 M1 M2 d J1 J2).
Qed.
Lemma reynolds_identity newton inv mu s s' m : newton_sound newton -> inv_ok inv -> regular mu s -> energy mu s <> 0 ->
  propagate_stm_reynolds newton inv s 0 mu true = Ret (s', m) ->
  s' = s /\ exists M, m = Some M /\ length M = 36%nat /\ forall i j, (i < 6)%nat -> (j < 6)%nat -> mat_entry M i j = if Nat.eqb i j then 1 else 0.
Proof.
  intros NS IK Rg NE P. destruct (reynolds_jac newton inv mu s 0 s' m NS IK Rg NE P) as [F [M [-> J]]]. split; [apply (flow_here mu s s' F)|].
  exists M. split; [reflexivity|]. split; [apply J|]. apply id_entries. intros d. apply (jac_id mu s s' M d J).
Qed.
Lemma reynolds_circle newton inv t : newton_ok newton -> inv_ok inv -> exists M, propagate_stm_reynolds newton inv (circle 0) t 1 true = Ret (circle t, Some M) /\
  mat_apply M (V 0 1 0, V (-1) 0 0) = (V (- sin t) (cos t) 0, V (- cos t) (- sin t) 0).
Proof.
  intros NK IK. destruct (circle_stm newton t NK) as [M [P A]]. destruct (jac_ok_E newton 1 (circle 0) t NK circle_elliptic) as [s1 [M1 [P1 [F1 J1]]]].
  rewrite P in P1. injection P1 as <- <-. destruct (reynolds_ok newton inv 1 (circle 0) t NK IK circle_elliptic) as [s2 [M2 [P2 [F2 J2]]]].
  rewrite <- (flow_functional _ _ _ _ _ F1 F2) in P2. exists M2. split; [exact P2|]. rewrite (jac_unique _ _ _ _ _ _ _ _ J2 J1). exact A.
Qed.
Lemma reynolds_parabola_ex : exists mu s, regular mu s /\ forall inv sf tof, inv_ok inv -> stm_reynolds inv s sf tof mu = Throw RuntimeError.
Proof.
  exists 1, (V 2 0 0, V 0 1 0). assert (Rg : regular 1 (V 2 0 0, V 0 1 0)).
  { split; [lra|]. unfold ang_mom, cross, vzero. cbn [fst snd vx vy vz]. intros E. injection E as E. lra. }
  split; [exact Rg|]. intros inv sf tof IK. apply reynolds_parabola; [exact IK|exact Rg|].
  unfold energy. cbn [fst snd]. replace (norm (V 2 0 0)) with 2; [unfold dot; cbn [vx vy vz]; field|].
  symmetry; apply norm_unique; [lra|unfold dot; cbn [vx vy vz]; ring].
Qed.
Lemma columns_variational mu y r0 v0 d : two_body mu m_infty p_infty y -> variational mu y (fun t => mat_apply (compute_Y r0 v0 (fst (y t)) (snd (y t)) t mu) d).
Proof. intros Yb. apply (Y_variational mu y Yb). Qed.
Lemma reynolds_pair inv mu s tof s' : inv_ok inv -> regular mu s -> energy mu s <> 0 -> flow_at mu s tof s' ->
  exists M, stm_reynolds inv s s' tof mu = Ret M /\ flow_jacobian mu s tof s' M.
Proof.
  intros IK Rg NE F. destruct (reynolds_stm_total inv mu s s' tof IK Rg NE) as [M E]. exists M. split; [exact E|]. apply (reynolds_core inv); assumption.
Qed.
