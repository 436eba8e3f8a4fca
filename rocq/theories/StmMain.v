(** * Proofs about the state transition matrix of propagate_lagrangian (C17). *)
From Coq Require Import Reals List Lra.
From Coquelicot Require Import Coquelicot.
From Verif Require Import RealLib Outcome KepModel KepSpec KepProofs Vec3 TwoBodyModel TwoBodySpec FlowProofs LagProofs FlowMain BracketProofs TwoBodyProofs StmProofs.
Open Scope R_scope.

(** the two calls of the root finder, when they answer with roots *)
Lemma jac_E newton mu s tof s' m : elliptic mu s -> propagate_lagrangian newton s tof mu true = Ret (s', m) ->
  (forall DE, callE newton mu (fst s) (snd s) tof = Some DE ->
    kepDE DE (DMc mu (fst s) (snd s) tof) (sg mu (fst s) (snd s)) (sqrt (lag_a mu (energy mu (fst s, snd s)))) (lag_a mu (energy mu (fst s, snd s))) (norm (fst s)) = 0) ->
  exists M, m = Some M /\ flow_jacobian mu s tof s' M.
Proof.
  intros El P RT. destruct (regular_r _ _ (proj1 El)) as [Mu _].
  destruct (stm_ell mu tof (fun _ => s) Mu El newton s' m P RT) as [_ EM].
  eexists. split; [exact EM|]. split; [destruct s; reflexivity|]. intros c d C0 Hc. subst s.
  destruct (stm_ell mu tof c Mu El newton s' m P RT) as [ES _].
  destruct (near_ell mu c d Mu Hc El) as [eps [He Hn]].
  exists (ye mu tof c), eps. split; [exact He|]. split; [symmetry; exact ES|]. split.
  - intros e H. apply (ye_flow mu tof c Mu). apply Hn, H.
  - apply (ye_der mu tof c d Mu Hc El).
Qed.
Lemma jac_H newton mu s tof s' m : hyperbolic mu s -> propagate_lagrangian newton s tof mu true = Ret (s', m) ->
  (forall DH, callH newton mu (fst s) (snd s) tof = Some DH ->
    kepDH DH (lag_DN mu (lag_a mu (energy mu (fst s, snd s))) tof) (sg mu (fst s) (snd s)) (sqrt (- lag_a mu (energy mu (fst s, snd s)))) (lag_a mu (energy mu (fst s, snd s))) (norm (fst s)) = 0) ->
  exists M, m = Some M /\ flow_jacobian mu s tof s' M.
Proof.
  intros El P RT. destruct (regular_r _ _ (proj1 El)) as [Mu _].
  destruct (stm_hyp mu tof (fun _ => s) Mu El newton s' m P RT) as [_ EM].
  eexists. split; [exact EM|]. split; [destruct s; reflexivity|]. intros c d C0 Hc. subst s.
  destruct (stm_hyp mu tof c Mu El newton s' m P RT) as [ES _].
  destruct (near_hyp mu c d Mu Hc El) as [eps [He Hn]].
  exists (yh mu tof c), eps. split; [exact He|]. split; [symmetry; exact ES|]. split.
  - intros e H. apply (yh_flow mu tof c Mu). apply Hn, H.
  - apply (yh_der mu tof c d Mu Hc El).
Qed.
(** whenever the code answers *)
Lemma jac_sound newton mu s tof s' m : newton_sound newton -> regular mu s -> energy mu s <> 0 ->
  propagate_lagrangian newton s tof mu true = Ret (s', m) -> flow_at mu s tof s' /\ exists M, m = Some M /\ flow_jacobian mu s tof s' M.
Proof.
  intros NS Rg NE P. split; [apply (lag_sound newton mu s tof true s' m NS Rg NE P)|].
  destruct (Rlt_dec (energy mu s) 0) as [L|L].
  - apply (jac_E newton mu s tof s' m (conj Rg L) P). intros DE C. apply NS in C. exact C.
  - assert (0 < energy mu s) by lra. apply (jac_H newton mu s tof s' m (conj Rg H) P). intros DH C. apply NS in C. exact C.
Qed.
(** and it does answer *)
Lemma jac_ok_E newton mu s tof : newton_ok newton -> elliptic mu s ->
  exists s' M, propagate_lagrangian newton s tof mu true = Ret (s', Some M) /\ flow_at mu s tof s' /\ flow_jacobian mu s tof s' M.
Proof.
  intros NK El. destruct (ellipse_flow newton mu s tof true NK El) as [s' [m [P F]]]. exists s'.
  destruct (jac_E newton mu s tof s' m El P) as [M [-> J]]; [|exists M; auto].
  intros DE C. destruct s as [r v]. cbn [fst snd] in *. pose proof PI_RGT_0. destruct (ellipse_code_bracket mu r v tof El) as [_ B].
  destruct (NK (fun DE => (kepDE DE (DMc mu r v tof) (sg mu r v) (sqrt (lag_a mu (energy mu (r, v)))) (lag_a mu (energy mu (r, v))) (norm r),
     d_kepDE DE (sg mu r v) (sqrt (lag_a mu (energy mu (r, v)))) (lag_a mu (energy mu (r, v))) (norm r)))
     (IGe mu r v tof) (IGe mu r v tof - PI) (IGe mu r v tof + PI)) as [DE0 [C0 [_ Rt]]];
    [lra|exact (proj1 (der_kepDE _ _ _ _ _))|apply bracketed_weak in B; exact B|].
  change (callE newton mu r v tof = Some DE0) in C0. rewrite C in C0. injection C0 as <-. exact Rt.
Qed.
Lemma jac_ok_H newton mu s tof : newton_ok newton -> hyperbolic mu s -> mean_motion mu s * Rabs tof <= 10 ^ 9 ->
  exists s' M, propagate_lagrangian newton s tof mu true = Ret (s', Some M) /\ flow_at mu s tof s' /\ flow_jacobian mu s tof s' M.
Proof.
  intros NK El HT. destruct (lag_hyp_total newton mu s tof true NK El HT) as [s' [m [P F]]]. exists s'.
  destruct (jac_H newton mu s tof s' m El P) as [M [-> J]]; [|exists M; auto].
  intros DH C. destruct s as [r v]. cbn [fst snd] in *.
  pose proof (hyp_bracket mu r v El _ (lag_IGh tof) (hyp_DN mu r v tof El HT) (IGh_bounds tof)) as B. unfold callH in C.
  match type of C with newton ?f ?g ?lo ?hi = _ => destruct (NK f g lo hi) as [DE0 [C0 [_ Rt]]]; [lra|exact (proj1 (der_kepDH _ _ _ _ _))|apply bracketed_weak in B; exact B|] end.
  rewrite C in C0. injection C0 as <-. exact Rt.
Qed.

(** ** Consequences: one matrix, the identity at 0, the chain rule *)
Lemma vderive_unique f x d1 d2 : vderive f x d1 -> vderive f x d2 -> d1 = d2.
Proof.
  intros [A1 [B1 C1]] [A2 [B2 C2]].
  apply vec_eq; [rewrite <- (is_derive_unique _ _ _ A1); apply (is_derive_unique _ _ _ A2)|rewrite <- (is_derive_unique _ _ _ B1); apply (is_derive_unique _ _ _ B2)|rewrite <- (is_derive_unique _ _ _ C1); apply (is_derive_unique _ _ _ C2)].
Qed.
Lemma der_near (f g : R -> R) l eps : 0 < eps -> (forall e, Rabs e < eps -> f e = g e) -> is_derive f 0 l -> is_derive g 0 l.
Proof.
  intros He H D. apply (is_derive_ext_loc f g); [|exact D]. exists (mkposreal eps He). intros y Hy. apply H.
  unfold ball in Hy. cbn in Hy. unfold AbsRing_ball, abs, minus, plus, opp in Hy. cbn in Hy. rewrite Ropp_0, Rplus_0_r in Hy. exact Hy.
Qed.
Lemma sderive_near c1 c2 d1 d2 eps : 0 < eps -> (forall e, Rabs e < eps -> c1 e = c2 e) -> sderive c1 0 d1 -> sderive c2 0 d2 -> d1 = d2.
Proof.
  intros He H [A1 B1] [A2 B2]. destruct d1 as [p1 q1], d2 as [p2 q2]. cbn [fst snd] in *. f_equal.
  - apply (vderive_unique (fun u => fst (c2 u)) 0); [|exact A2]. destruct A1 as [X [Y Z]].
    split; [|split]; eapply (der_near _ _ _ eps He); try eassumption; intros e Hx; cbn; rewrite (H e Hx); reflexivity.
  - apply (vderive_unique (fun u => snd (c2 u)) 0); [|exact B2]. destruct B1 as [X [Y Z]].
    split; [|split]; eapply (der_near _ _ _ eps He); try eassumption; intros e Hx; cbn; rewrite (H e Hx); reflexivity.
Qed.
Definition line (s d : state) (e : R) : state := (vadd (fst s) (vscal e (fst d)), vadd (snd s) (vscal e (snd d))).
Lemma line_0 s d : line s d 0 = s.
Proof. destruct s as [[] []]. unfold line, vadd, vscal. cbn. rewrite !Rmult_0_l, !Rplus_0_r. reflexivity. Qed.
Lemma vline r v : vderive (fun e => vadd r (vscal e v)) 0 v.
Proof. split; [|split]; cbn [vx vy vz vadd vscal]; (eapply der_to; [ders|]; try ring). Qed.
Lemma line_der s d : sderive (line s d) 0 d.
Proof. split; apply vline. Qed.
Lemma jac_unique mu s tof s1 s2 M1 M2 d : flow_jacobian mu s tof s1 M1 -> flow_jacobian mu s tof s2 M2 -> mat_apply M1 d = mat_apply M2 d.
Proof.
  intros [_ J1] [_ J2]. destruct (J1 (line s d) d (line_0 s d) (line_der s d)) as [y1 [e1 [H1 [_ [F1 D1]]]]].
  destruct (J2 (line s d) d (line_0 s d) (line_der s d)) as [y2 [e2 [H2 [_ [F2 D2]]]]].
  apply (sderive_near y1 y2 _ _ (Rmin e1 e2)); [apply Rmin_pos; assumption| |exact D1|exact D2].
  intros e He. pose proof (Rmin_l e1 e2). pose proof (Rmin_r e1 e2). apply (flow_functional mu (line s d e) tof); [apply F1|apply F2]; lra.
Qed.
Lemma flow_here mu s s' : flow_at mu s 0 s' -> s' = s.
Proof. intros [[y [_ [Y0 Y1]]] _]. rewrite <- Y1, Y0. reflexivity. Qed.
Lemma jac_id mu s s' M d : flow_jacobian mu s 0 s' M -> mat_apply M d = d.
Proof.
  intros [_ J]. destruct (J (line s d) d (line_0 s d) (line_der s d)) as [y [e1 [H1 [_ [F1 D1]]]]].
  apply (sderive_near y (line s d) _ _ e1 H1); [|exact D1|apply line_der]. intros e He. apply (flow_here mu), F1, He.
Qed.
Lemma jac_comp mu s t1 s1 M1 t2 s2 M2 s3 M3 d : 0 < mu -> flow_jacobian mu s t1 s1 M1 -> flow_jacobian mu s1 t2 s2 M2 -> flow_jacobian mu s (t1 + t2) s3 M3 ->
  mat_apply M3 d = mat_apply M2 (mat_apply M1 d).
Proof.
  intros Mu [_ J1] [_ J2] [_ J3]. destruct (J1 (line s d) d (line_0 s d) (line_der s d)) as [y1 [e1 [H1 [Y1 [F1 D1]]]]].
  destruct (J2 y1 _ Y1 D1) as [y2 [e2 [H2 [_ [F2 D2]]]]].
  destruct (J3 (line s d) d (line_0 s d) (line_der s d)) as [y3 [e3 [H3 [_ [F3 D3]]]]].
  apply (sderive_near y3 y2 _ _ (Rmin e3 (Rmin e1 e2))); [repeat apply Rmin_pos; assumption| |exact D3|exact D2].
  intros e He. pose proof (Rmin_l e1 e2). pose proof (Rmin_r e1 e2). pose proof (Rmin_l e3 (Rmin e1 e2)). pose proof (Rmin_r e3 (Rmin e1 e2)).
  apply (flow_functional mu (line s d e) (t1 + t2)); [apply F3; lra|]. apply (flow_comp mu _ t1 (y1 e)); [exact Mu|apply F1; lra|apply F2; lra].
Qed.
(** entries *)
Definition unit_dir (j : nat) : state :=
  match j with 0 => (ex, vzero) | 1 => (ey, vzero) | 2 => (ez, vzero) | 3 => (vzero, ex) | 4 => (vzero, ey) | _ => (vzero, ez) end%nat.
Lemma row_unit M i j : (j < 6)%nat -> row_apply M i (unit_dir j) = mat_entry M i j.
Proof.
  intros H. unfold row_apply. do 6 (destruct j as [|j]; [cbn [unit_dir fst snd vx vy vz ex ey ez vzero]; ring|]). Lia.lia.
Qed.
Lemma id_entries M : (forall d, mat_apply M d = d) -> forall i j, (i < 6)%nat -> (j < 6)%nat -> mat_entry M i j = if Nat.eqb i j then 1 else 0.
Proof.
  intros H i j Hi Hj. rewrite <- (row_unit M i j Hj). specialize (H (unit_dir j)). unfold mat_apply in H.
  do 6 (destruct i as [|i]; [do 6 (destruct j as [|j]; [cbn [unit_dir ex ey ez vzero Nat.eqb] in *; injection H; intros; assumption|]); Lia.lia|]). Lia.lia.
Qed.
Lemma stm_identity newton mu s s' m : newton_sound newton -> regular mu s -> energy mu s <> 0 -> propagate_lagrangian newton s 0 mu true = Ret (s', m) ->
  s' = s /\ exists M, m = Some M /\ length M = 36%nat /\ forall i j, (i < 6)%nat -> (j < 6)%nat -> mat_entry M i j = if Nat.eqb i j then 1 else 0.
Proof.
  intros NS Rg NE P. destruct (jac_sound newton mu s 0 s' m NS Rg NE P) as [F [M [-> J]]]. split; [apply (flow_here mu s s' F)|].
  exists M. split; [reflexivity|]. split; [apply J|]. apply id_entries. intros d. apply (jac_id mu s s' M d J).
Qed.
Lemma stm_chain newton mu s t1 t2 : newton_ok newton -> elliptic mu s ->
  exists s1 M1 s2 M2 M3, propagate_lagrangian newton s t1 mu true = Ret (s1, Some M1) /\ propagate_lagrangian newton s1 t2 mu true = Ret (s2, Some M2) /\
    propagate_lagrangian newton s (t1 + t2) mu true = Ret (s2, Some M3) /\ forall d, mat_apply M3 d = mat_apply M2 (mat_apply M1 d).
Proof.
  intros NK El. destruct (jac_ok_E newton mu s t1 NK El) as [s1 [M1 [P1 [F1 J1]]]].
  assert (El1 : elliptic mu s1) by (apply (same_regular mu s s1 (proj1 (flow_integrals mu s t1 s1 (proj1 El) F1))); exact El).
  destruct (jac_ok_E newton mu s1 t2 NK El1) as [s2 [M2 [P2 [F2 J2]]]]. destruct (jac_ok_E newton mu s (t1 + t2) NK El) as [s3 [M3 [P3 [F3 J3]]]].
  destruct (regular_r _ _ (proj1 El)) as [Mu _].
  assert (s3 = s2) by (apply (flow_functional mu s (t1 + t2)); [exact F3|apply (flow_comp mu s t1 s1 t2 s2 Mu F1 F2)]). subst s3.
  exists s1, M1, s2, M2, M3. split; [exact P1|]. split; [exact P2|]. split; [exact P3|]. intros d. apply (jac_comp mu s t1 s1 M1 t2 s2 M2 s2 M3 d Mu J1 J2 J3).
Qed.

(** along the circle of radius 1: a shift along the orbit stays a shift along the orbit *)
Lemma circle_der t : sderive circle t (snd (circle t), vneg (fst (circle t))).
Proof.
  unfold circle. split; cbn [fst snd]; (split; [|split]); cbn [vx vy vz vneg vscal].
  - apply der_cos.
  - apply der_sin.
  - apply der_const.
  - apply der_opp, der_sin.
  - apply der_cos.
  - rewrite Ropp_0. apply der_const.
Qed.
Lemma circle_stm newton t : newton_ok newton -> exists M, propagate_lagrangian newton (circle 0) t 1 true = Ret (circle t, Some M) /\
  mat_apply M (V 0 1 0, V (-1) 0 0) = (V (- sin t) (cos t) 0, V (- cos t) (- sin t) 0).
Proof.
  intros NK. destruct (jac_ok_E newton 1 (circle 0) t NK circle_elliptic) as [s' [M [P [F J]]]].
  assert (FC : forall e u, flow_at 1 (circle e) u (circle (e + u))).
  { intros e u. apply (flow_of_solution 1 (circle e) u (fun x => circle (e + x))); [lra| |cbv beta; f_equal; ring].
    apply two_body_shift. exact circle_solves. }
  assert (ES : s' = circle t). { apply (flow_functional 1 (circle 0) t); [exact F|]. pose proof (FC 0 t) as H. rewrite Rplus_0_l in H. exact H. }
  exists M. split; [rewrite <- ES; exact P|]. destruct J as [_ J].
  destruct (J circle (V 0 1 0, V (-1) 0 0) eq_refl) as [y [eps [He [_ [Fy Dy]]]]].
  { pose proof (circle_der 0) as D. unfold circle in D at 2 3. cbn [fst snd] in D. rewrite sin_0, cos_0 in D. unfold vneg in D. cbn in D.
    rewrite Ropp_0 in D. exact D. }
  assert (DS : sderive (fun e => circle (e + t)) 0 (V (- sin t) (cos t) 0, V (- cos t) (- sin t) 0)).
  { assert (DP : is_derive (fun e => e + t) 0 (1 + 0)) by (apply der_plus; [apply der_id|apply der_const]).
    assert (DS : is_derive (fun e => sin (e + t)) 0 (cos t)).
    { eapply der_to; [apply (der_comp sin (fun e => e + t)); [apply der_sin|exact DP]|]. rewrite Rplus_0_l. ring. }
    assert (DC : is_derive (fun e => cos (e + t)) 0 (- sin t)).
    { eapply der_to; [apply (der_comp cos (fun e => e + t)); [apply der_cos|exact DP]|]. rewrite Rplus_0_l. ring. }
    unfold circle. split; cbn [fst snd]; (split; [|split]); cbn [vx vy vz]; try (exact DS || exact DC || apply der_const). apply der_opp. exact DS. }
  apply (sderive_near y (fun e => circle (e + t)) _ _ eps He); [|exact Dy|exact DS].
  intros e H. apply (flow_functional 1 (circle e) t); [apply Fy, H|apply FC].
Qed.
