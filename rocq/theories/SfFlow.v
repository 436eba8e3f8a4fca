(** * The two-body flow as a function of the initial state and of the time together; scaling and time reversal *)
From Coq Require Import Reals Lra Lia.
From Coquelicot Require Import Coquelicot.
From Coq Require Import List.
From Verif Require Import RealLib Vec3 TwoBodySpec FlowProofs FlowMain StmProofs StmMain.
Open Scope R_scope.

(** ** Kepler's scaling *)
Definition ksc (k : R) (s : state) : state := (vscal (k * k) (fst s), vscal (/ k) (snd s)).
Lemma ksc_1 s : ksc 1 s = s.
Proof. destruct s as [[] []]. unfold ksc, vscal. cbn. rewrite Rinv_1, !Rmult_1_l. reflexivity. Qed.
Lemma ksc_inv k s : k <> 0 -> ksc (/ k) (ksc k s) = s.
Proof. intros K. destruct s as [[] []]. unfold ksc, vscal. cbn. f_equal; f_equal; field; exact K. Qed.
Lemma vder_comp f (g : R -> R) t a b : vderive f (g t) a -> is_derive g t b -> vderive (fun u => f (g u)) t (vscal b a).
Proof. intros [F1 [F2 F3]] G. split; [|split]; cbn; [exact (der_comp _ _ _ _ _ F1 G)|exact (der_comp _ _ _ _ _ F2 G)|exact (der_comp _ _ _ _ _ F3 G)]. Qed.
Lemma norm_k2 k r : k <> 0 -> norm (vscal (k * k) r) = k * k * norm r.
Proof. intros K. rewrite norm_vscal, Rabs_right; [reflexivity|]. nra. Qed.
Lemma vscal_nz k r : k <> 0 -> r <> vzero -> vscal k r <> vzero.
Proof.
  intros K N E. apply N. apply norm_zero. assert (norm (vscal k r) = 0) as H by (rewrite E; unfold norm, dot, vzero; cbn; replace (0 * 0 + 0 * 0 + 0 * 0) with 0 by ring; apply sqrt_0).
  rewrite norm_vscal in H. apply Rmult_integral in H. destruct H as [H|H]; [|exact H]. apply Rabs_eq_0 in H. contradiction.
Qed.
Lemma two_body_scale mu y k : 0 < k -> two_body mu m_infty p_infty y -> two_body mu m_infty p_infty (fun u => ksc k (y (u * / (k * k * k)))).
Proof.
  intros K Y t _ _. destruct (Y (t * / (k * k * k))) as [N [D1 D2]]; try exact I. cbn [ksc fst snd].
  assert (G : is_derive (fun u => u * / (k * k * k)) t (/ (k * k * k))).
  { eapply der_to; [apply (der_mult (fun u => u) (fun _ => / (k * k * k))); [apply der_id|apply der_const]|]. ring. }
  assert (KN : k <> 0) by lra.
  split; [apply vscal_nz; [nra|exact N]|]. split.
  - eapply vder_eq; [apply (vder_scal (fun _ => k * k)); [apply der_const|apply (vder_comp (fun u => fst (y u)) (fun u => u * / (k * k * k)) _ _ _ D1 G)]|].
    apply vec_eq; unfold vadd, vscal; cbn; field; exact KN.
  - eapply vder_eq; [apply (vder_scal (fun _ => / k)); [apply der_const|apply (vder_comp (fun u => snd (y u)) (fun u => u * / (k * k * k)) _ _ _ D2 G)]|].
    pose proof (norm_pos _ N) as NP. unfold gravity. rewrite (norm_k2 k _ KN).
    apply vec_eq; unfold vadd, vscal; cbn [vx vy vz]; field; split; try exact KN; lra.
Qed.
Lemma flow_scale mu s t s' k : 0 < mu -> 0 < k -> flow_at mu s t s' -> flow_at mu (ksc k s) (k * k * k * t) (ksc k s').
Proof.
  intros Mu K [[y [Y [Y0 Yt]]] _]. pose proof (two_body_scale mu y k K Y) as Z.
  pose proof (flow_of_solution mu (ksc k s) (k * k * k * t) _ Mu Z) as F. cbv beta in F.
  rewrite Rmult_0_l, Y0 in F. specialize (F eq_refl). replace (k * k * k * t * / (k * k * k)) with t in F by (field; lra). rewrite Yt in F. exact F.
Qed.

(** ** Time reversal *)
Lemma flow_reverse mu r v t r' v' : 0 < mu -> flow_at mu (r, v) t (r', v') -> flow_at mu (r, vneg v) (- t) (r', vneg v').
Proof.
  intros Mu [[y [Y [Y0 Yt]]] _]. pose proof (two_body_reversed mu m_infty p_infty y Y) as Z. cbn in Z.
  pose proof (flow_of_solution mu (r, vneg v) (- t) _ Mu Z) as F. unfold reversed in F. rewrite Ropp_involutive, Ropp_0, Y0, Yt in F. cbn in F. apply F. reflexivity.
Qed.

(** ** Linearity *)
Lemma mat_apply_add M (a b : state) : mat_apply M (vadd (fst a) (fst b), vadd (snd a) (snd b)) = (vadd (fst (mat_apply M a)) (fst (mat_apply M b)), vadd (snd (mat_apply M a)) (snd (mat_apply M b))).
Proof. unfold mat_apply, row_apply, vadd. cbn [fst snd vx vy vz]. f_equal; f_equal; ring. Qed.
Lemma mat_apply_scal M k (a : state) : mat_apply M (vscal k (fst a), vscal k (snd a)) = (vscal k (fst (mat_apply M a)), vscal k (snd (mat_apply M a))).
Proof. unfold mat_apply, row_apply, vscal. cbn [fst snd vx vy vz]. f_equal; f_equal; ring. Qed.

(** ** Near a point *)
Lemma near_pos (f : R -> R) l : is_derive f 0 l -> 0 < f 0 -> exists eps, 0 < eps /\ forall e, Rabs e < eps -> 0 < f e.
Proof.
  intros D P. pose proof (is_derive_cont f 0 l D) as C.
  destruct (proj1 (continuity_pt_locally f 0) C (mkposreal _ P)) as [d Hd]. exists d. split; [apply cond_pos|]. intros e He.
  assert (B : Rabs (f e - f 0) < f 0). { apply (Hd e). unfold ball; cbn; unfold AbsRing_ball, abs, minus, plus, opp; cbn. rewrite Ropp_0, Rplus_0_r. exact He. }
  apply Rabs_def2 in B. lra.
Qed.
Definition field_at (mu : R) (s : state) : state := (snd s, gravity mu (fst s)).

Section Joint.
Variables (mu : R) (s : state) (tof : R) (s' : state) (M : list R).
Hypothesis Mu : 0 < mu.
Hypothesis J : flow_jacobian mu s tof s' M.
Hypothesis T0 : tof <> 0.
Hypothesis Fl : flow_at mu s tof s'.
Variables (t : R -> R) (t' : R).
Hypothesis Ht : t 0 = tof.
Hypothesis Dt : is_derive t 0 t'.
Definition kap (e : R) : R := Rpower (tof * / t e) (/ 3).
Lemma kap_0 : kap 0 = 1.
Proof. unfold kap. rewrite Ht, Rinv_r by exact T0. unfold Rpower. rewrite ln_1, Rmult_0_r, exp_0. reflexivity. Qed.
Lemma kap_pos e : 0 < kap e. Proof. apply exp_pos. Qed.
Lemma kap_cube e : 0 < tof * / t e -> kap e * kap e * kap e = tof * / t e.
Proof.
  intros P. unfold kap, Rpower. rewrite <- !exp_plus. replace (/ 3 * ln (tof * / t e) + / 3 * ln (tof * / t e) + / 3 * ln (tof * / t e)) with (ln (tof * / t e)) by field.
  apply exp_ln, P.
Qed.
Lemma ratio_der : is_derive (fun e => tof * / t e) 0 (- t' / tof).
Proof. eapply der_to; [apply der_scal, der_inv; [exact Dt|rewrite Ht; exact T0]|]. rewrite Ht. field. exact T0. Qed.
Lemma kap_der : exists k, is_derive kap 0 k.
Proof.
  eexists. unfold kap, Rpower. apply (der_comp exp (fun e => / 3 * ln (tof * / t e))); [apply is_derive_Reals, derivable_pt_lim_exp|].
  apply der_scal. apply (der_comp ln (fun e => tof * / t e)); [|apply ratio_der].
  rewrite Ht, Rinv_r by exact T0. apply is_derive_Reals, derivable_pt_lim_ln. lra.
Qed.
Lemma ksc_der (k : R -> R) (k' : R) c d : k 0 = 1 -> is_derive k 0 k' -> sderive c 0 d ->
  sderive (fun e => ksc (k e) (c e)) 0 (vadd (fst d) (vscal (2 * k') (fst (c 0))), vadd (snd d) (vscal (- k') (snd (c 0)))).
Proof.
  intros K0 K [D1 D2]. split; cbn [ksc fst snd].
  - eapply vder_eq; [apply (vder_scal (fun e => k e * k e)); [apply (der_mult k k); exact K|exact D1]|]. cbv beta. rewrite K0. apply vec_eq; unfold vadd, vscal; cbn; ring.
  - eapply vder_eq; [apply (vder_scal (fun e => / k e)); [apply der_inv; [exact K|rewrite K0; lra]|exact D2]|]. cbv beta. rewrite K0. apply vec_eq; unfold vadd, vscal; cbn; field.
Qed.
Lemma raw_joint (k' : R) c d : is_derive kap 0 k' -> c 0 = s -> sderive c 0 d -> exists y eps, 0 < eps /\ y 0 = s' /\ (forall e, Rabs e < eps -> flow_at mu (c e) (t e) (y e)) /\
  let z := mat_apply M (vadd (fst d) (vscal (2 * k') (fst s)), vadd (snd d) (vscal (- k') (snd s))) in
  sderive y 0 (vadd (fst z) (vscal (2 * - k') (fst s')), vadd (snd z) (vscal (- - k') (snd s'))).
Proof.
  intros K C0 D. pose proof (ksc_der kap k' c d kap_0 K D) as D2. rewrite C0 in D2.
  destruct J as [_ J2]. destruct (J2 (fun e => ksc (kap e) (c e)) _ ltac:(cbv beta; rewrite kap_0, C0; apply ksc_1) D2) as [y [e1 [P1 [Y0 [F Dy]]]]].
  destruct (near_pos (fun e => tof * / t e) _ ratio_der) as [e2 [P2 N2]].
  { cbv beta. rewrite Ht, Rinv_r by exact T0. lra. }
  exists (fun e => ksc (/ kap e) (y e)), (Rmin e1 e2). split; [apply Rmin_pos; assumption|]. split; [|split].
  - rewrite kap_0, Rinv_1, ksc_1. exact Y0.
  - intros e He. pose proof (Rmin_l e1 e2). pose proof (Rmin_r e1 e2). specialize (F e ltac:(lra)). specialize (N2 e ltac:(lra)). cbv beta in N2.
    pose proof (kap_pos e) as KP. pose proof (flow_scale mu _ _ _ (/ kap e) Mu (Rinv_0_lt_compat _ KP) F) as G. rewrite ksc_inv in G by lra.
    replace (/ kap e * / kap e * / kap e * tof) with (t e) in G; [exact G|].
    pose proof (kap_cube e N2) as Q. assert (TN : t e <> 0). { intros Z. rewrite Z, Rinv_0, Rmult_0_r in N2. lra. }
    replace (/ kap e * / kap e * / kap e) with (/ (kap e * kap e * kap e)) by (field; lra). rewrite Q. field. split; assumption.
  - cbn zeta. pose proof (fun z => ksc_der (fun e => / kap e) (- k') y z ltac:(cbv beta; rewrite kap_0; apply Rinv_1)) as D3.
    rewrite Y0 in D3. apply D3; [|exact Dy]. eapply der_to; [apply der_inv; [exact K|rewrite kap_0; lra]|]. rewrite kap_0. field.
Qed.
Lemma flow_joint c d : c 0 = s -> sderive c 0 d -> exists y eps, 0 < eps /\ y 0 = s' /\ (forall e, Rabs e < eps -> flow_at mu (c e) (t e) (y e)) /\
  sderive y 0 (vadd (fst (mat_apply M d)) (vscal t' (fst (field_at mu s'))), vadd (snd (mat_apply M d)) (vscal t' (snd (field_at mu s')))).
Proof.
  intros C0 D. destruct kap_der as [k' K].
  destruct (raw_joint k' c d K C0 D) as [y [eps [P [Y0 [F Dy]]]]]. exists y, eps. split; [exact P|]. split; [exact Y0|]. split; [exact F|].
  (* the motion of s itself *)
  assert (D0 : sderive (fun _ => s) 0 (vzero, vzero)) by (split; apply vder_const).
  destruct (raw_joint k' (fun _ => s) (vzero, vzero) K eq_refl D0) as [z [e2 [P2 [Z0 [F2 Dz]]]]].
  destruct Fl as [[q [Q [Q0 Qt]]] _].
  assert (Dq : sderive (fun e => q (t e)) 0 (vscal t' (fst (field_at mu s')), vscal t' (snd (field_at mu s')))).
  { destruct (Q tof) as [_ [A B]]; try exact I. rewrite Qt in A, B. rewrite <- Ht in A, B. cbn [field_at fst snd]. split.
    - exact (vder_comp (fun u => fst (q u)) t 0 _ _ A Dt).
    - exact (vder_comp (fun u => snd (q u)) t 0 _ _ B Dt). }
  assert (E : forall e, Rabs e < e2 -> z e = q (t e)).
  { intros e He. apply (flow_functional mu s (t e)); [apply F2, He|]. apply flow_of_solution; assumption. }
  pose proof (sderive_near _ _ _ _ e2 P2 E Dz Dq) as EQ. cbn zeta in EQ, Dy.
  eapply (fun A => eq_ind _ (fun w => sderive y 0 w) Dy _ A).
  set (X := (vscal (2 * k') (fst s), vscal (- k') (snd s)) : state) in *.
  change (vadd (fst d) (vscal (2 * k') (fst s)), vadd (snd d) (vscal (- k') (snd s))) with (vadd (fst d) (fst X), vadd (snd d) (snd X)).
  change (vadd (fst (vzero, vzero)) (vscal (2 * k') (fst s)), vadd (snd (vzero, vzero)) (vscal (- k') (snd s))) with (vadd vzero (fst X), vadd vzero (snd X)) in EQ.
  rewrite mat_apply_add. cbn [fst snd].
  replace (vadd vzero (fst X), vadd vzero (snd X)) with X in EQ by (unfold X, vadd, vzero, vscal; cbn; f_equal; f_equal; ring).
  generalize dependent (mat_apply M X). intros B EB. generalize (mat_apply M d). intros A.
  pose proof (f_equal fst EB) as E1. pose proof (f_equal snd EB) as E2. cbn [fst snd] in E1, E2. rewrite <- E1, <- E2.
  f_equal; apply vec_eq; unfold vadd; cbn; ring.
Qed.
End Joint.
