(** * Theorems about the propagators: brackets, conservation, flow, group law, agreement *)
From Coq Require Import Reals Lra Lia.
From Coquelicot Require Import Coquelicot.
From Coq Require Import List.
From Verif Require Import Outcome RealLib KepModel KepSpec KepProofs AnomProofs Vec3 TwoBodyModel TwoBodySpec FlowProofs LagProofs FlowMain BracketProofs.
Import ListNotations.
Open Scope R_scope.

(** what the two branches return *)
Section Branches.
Variable newton : (R -> R * R) -> R -> R -> R -> option R.
Variables (mu : R) (r0 v0 : vec).
Let E := energy mu (r0, v0).
Let a := lag_a mu E.
Let Rz := norm r0.
Let sig := sg mu r0 v0.
Lemma lag_run tof stm : propagate_lagrangian newton (r0, v0) tof mu stm =
  bind (lag_solve newton mu tof Rz a sig) (fun l => Ret (lag_state (r0, v0) l, if stm then Some (stm_lagrangian (r0, v0) tof mu Rz E sig a l) else None)).
Proof. reflexivity. Qed.
Definition DMc (tof : R) : R := lag_DMc (lag_DM mu a tof).
Definition IGe (tof : R) : R := lag_IG (DMc tof) (sin (lag_DM mu a tof)) (cos (lag_DM mu a tof)) (sig / sqrt a) (1 - Rz / a).
Definition callE (tof : R) : option R :=
  newton (fun DE => (kepDE DE (DMc tof) sig (sqrt a) a Rz, d_kepDE DE sig (sqrt a) a Rz)) (IGe tof) (IGe tof - PI) (IGe tof + PI).
Definition callH (tof : R) : option R :=
  newton (fun DH => (kepDH DH (lag_DN mu a tof) sig (sqrt (- a)) a Rz, d_kepDH DH sig (sqrt (- a)) a Rz)) (lag_IGh tof) (lag_IGh tof - 50) (lag_IGh tof + 50).
Lemma solveE tof : 0 < a -> lag_solve newton mu tof Rz a sig =
  match callE tof with Some DE => Ret (lag_ellipse mu Rz a sig (sig / sqrt a) (1 - Rz / a) DE) | None => Throw DomainError end.
Proof. intros P. unfold lag_solve, callE. destruct (Rlt_dec 0 a); [reflexivity|contradiction]. Qed.
Lemma solveH tof : a < 0 -> lag_solve newton mu tof Rz a sig =
  match callH tof with Some DH => Ret (lag_hyperbola mu Rz a sig (sig / sqrt (- a)) (1 - Rz / a) DH) | None => Throw DomainError end.
Proof. intros P. unfold lag_solve, callH. destruct (Rlt_dec 0 a); [lra|reflexivity]. Qed.
Hypothesis Mu : 0 < mu.
Hypothesis Hr : r0 <> vzero.
(** the returned state is a point of the universal-variable curve *)
Lemma lag_returns tof stm s' m : E <> 0 -> propagate_lagrangian newton (r0, v0) tof mu stm = Ret (s', m) ->
  exists x, s' = ustate mu r0 v0 x /\
    ((E < 0 /\ exists DE, callE tof = Some DE /\ x = sqrt a * DE) \/ (0 < E /\ exists DH, callH tof = Some DH /\ x = sqrt (- a) * DH)).
Proof.
  intros NE. rewrite lag_run. destruct (Rlt_dec E 0) as [Neg|NN].
  - rewrite (solveE tof (a_pos mu r0 v0 Mu Neg)). destruct (callE tof) as [DE|] eqn:C; [|discriminate]. cbn [bind]. intros H. injection H as <- _.
    exists (sqrt a * DE). split; [exact (state_ellipse mu r0 v0 Mu Hr Neg (sig / sqrt a) (1 - Rz / a) DE)|]. left. split; [exact Neg|exists DE; auto].
  - assert (Pos : 0 < E) by lra.
    rewrite (solveH tof (a_neg mu r0 v0 Mu Pos)). destruct (callH tof) as [DH|] eqn:C; [|discriminate]. cbn [bind]. intros H. injection H as <- _.
    exists (sqrt (- a) * DH). split; [exact (state_hyperbola mu r0 v0 Mu Hr Pos (sig / sqrt (- a)) (1 - Rz / a) DH)|]. right. split; [exact Pos|exists DH; auto].
Qed.
End Branches.

(** ** C12 *)
Lemma rho_nonneg mu r v x : 0 < mu -> r <> vzero -> 0 <= rho mu r v x.
Proof.
  intros M Hr. pose proof (pp_eq mu r v M Hr) as PE. assert (PP : 0 <= pp mu r v).
  { unfold pp. apply Rmult_le_pos; [apply dot_nonneg|left; apply Rinv_0_lt_compat, M]. }
  apply Rnot_lt_le. intros N. pose proof (R0_pos r Hr) as RP. set (A := al mu r v) in *.
  pose proof (Rabs_pos A) as AP. set (c := Rmax (rho mu r v x) (- / (Rabs A + 1))).
  assert (I : 0 < / (Rabs A + 1)) by (apply Rinv_0_lt_compat; lra).
  assert (C0 : c < 0) by (unfold c; apply Rmax_lub_lt; lra).
  assert (C1 : rho mu r v x <= c) by apply Rmax_l. assert (C2 : - / (Rabs A + 1) <= c) by apply Rmax_r.
  assert (X : exists y, rho mu r v y = c).
  { pose proof (rho_0 mu r v) as R00.
    destruct (IVT_gen (rho mu r v) 0 x c) as [y [_ Y]].
    - intros u. apply (is_derive_cont _ _ _ (d_rho mu r v u)).
    - rewrite R00. split; [apply Rle_trans with (2 := C1); apply Rmin_r|apply Rle_trans with (R0 r); [lra|apply Rmax_l]].
    - exists y. exact Y. }
  destruct X as [y Y]. pose proof (drho_sq mu r v M Hr y) as D. rewrite Y in D. fold A in D.
  pose proof (Rle_0_sqr (drho mu r v y)) as Q. unfold Rsqr in Q. rewrite D in Q.
  assert (AC : A * c < 1).
  { apply Rle_lt_trans with (Rabs A * / (Rabs A + 1)).
    - apply Rle_trans with (Rabs (A * c)); [apply Rle_abs|]. rewrite Rabs_mult. apply Rmult_le_compat_l; [lra|]. rewrite Rabs_left by exact C0. lra.
    - apply (Rmult_lt_reg_r (Rabs A + 1)); [lra|]. rewrite Rmult_assoc, Rinv_l by lra. lra. }
  assert (2 * c - A * c * c = c * (2 - A * c)) by ring. nra.
Qed.
Lemma rho_of_nz mu r v x : 0 < mu -> r <> vzero -> fst (ustate mu r v x) <> vzero -> 0 < rho mu r v x.
Proof.
  intros M Hr H. destruct (rho_nonneg mu r v x M Hr) as [P|Z]; [exact P|]. exfalso. apply H.
  apply dot_zero. rewrite unorm_sq by assumption. rewrite <- Z. ring.
Qed.
Lemma lag_conserves newton mu s tof stm s' m : 0 < mu -> fst s <> vzero -> energy mu s <> 0 ->
  propagate_lagrangian newton s tof mu stm = Ret (s', m) -> fst s' <> vzero -> same_integrals mu s s'.
Proof.
  intros M Hr NE H Hn. destruct s as [r v]. cbn [fst] in Hr. destruct (lag_returns newton mu r v M Hr tof stm s' m NE H) as [x [-> _]].
  apply u_integrals; [exact M|exact Hr|]. apply rho_of_nz; assumption.
Qed.
Lemma lag_conserves_regular newton mu s tof stm s' m : regular mu s -> energy mu s <> 0 ->
  propagate_lagrangian newton s tof mu stm = Ret (s', m) -> fst s' <> vzero /\ same_integrals mu s s'.
Proof.
  intros Rg NE H. destruct (regular_r _ _ Rg) as [M [Hr Hh]]. destruct s as [r v]. cbn [fst snd] in *.
  destruct (lag_returns newton mu r v M Hr tof stm s' m NE H) as [x [-> _]].
  split; [apply (unz mu r v M Hr Hh)|]. apply u_integrals; [exact M|exact Hr|]. apply (rho_pos mu r v M Hr Hh).
Qed.

(** ** The universal-variable propagator *)
Lemma lag_u_forward newton mu r v dt stm s' m : newton_sound newton -> 0 < mu -> r <> vzero -> 0 <= dt ->
  propagate_lagrangian_u newton (r, v) dt mu stm = Ret (s', m) -> fst s' <> vzero ->
  exists x, T mu r v x = sqrt mu * dt /\ s' = ustate mu r v x.
Proof.
  intros NS M Hr Dt. unfold propagate_lagrangian_u. destruct (Rlt_dec dt 0) as [|_]; [lra|].
  change (2 / lag_R0 r - lag_V02 v / mu) with (al mu r v).
  change ((vx r * vx v + vy r * vy v + vz r * vz v) / lag_R0 r) with (vr0 r v).
  set (IG := if Rlt_dec 0 (al mu r v) then _ else _).
  destruct (newton _ IG (IG - 2 * PI) (IG + 2 * PI)) as [DS|] eqn:N; [|discriminate]. apply NS in N. cbn [fst] in N.
  assert (K : T mu r v DS = sqrt mu * dt).
  { pose proof (norm_pos r Hr) as P. destruct (sqmu mu M) as [M1 M2].
    assert (KT : kepDS DS dt (norm r) (vr0 r v) (al mu r v) mu = T mu r v DS - sqrt mu * dt).
    { rewrite kepDS_U. unfold T, R0. rewrite (U1_U3 (al mu r v) DS). unfold sg, vr0. field. split; lra. }
    change (lag_R0 r) with (norm r) in N. rewrite KT in N. lra. }
  set (F := 1 - DS * DS / lag_R0 r * stumpff_c (al mu r v * DS * DS)). set (G := dt - 1 / sqrt mu * DS * DS * DS * stumpff_s (al mu r v * DS * DS)).
  destruct (sqmu mu M) as [M1 M2]. pose proof (R0_pos r Hr) as RP.
  assert (EF : F = uF mu r v DS). { unfold F, uF, U2. change (lag_R0 r) with (R0 r). unfold Rdiv. ring. }
  assert (EG : G = uG mu r v DS).
  { unfold G, uG. replace dt with (T mu r v DS / sqrt mu) by (rewrite K; field; lra). unfold T, U3. field. lra. }
  cbv zeta. intros H. injection H as H _. intros Hn. exists DS. split; [exact K|]. subst s'. cbn [fst] in Hn.
  rewrite EF, EG in *. change (vadd (vscal (uF mu r v DS) r) (vscal (uG mu r v DS) v)) with (fst (ustate mu r v DS)) in *.
  pose proof (rho_of_nz mu r v DS M Hr Hn) as RH.
  assert (NR : lag_R0 (fst (ustate mu r v DS)) = rho mu r v DS).
  { change (lag_R0 (fst (ustate mu r v DS))) with (norm (fst (ustate mu r v DS))). apply norm_unique; [lra|]. symmetry. apply unorm_sq; assumption. }
  rewrite NR. unfold ustate at 2. f_equal. f_equal.
  - f_equal. unfold uFt. change (lag_R0 r) with (R0 r). unfold U1, U3. field. split; lra.
  - f_equal. unfold uGt, U2. unfold Rdiv. ring.
Qed.
Lemma lag_u_backward newton mu r v dt stm : dt < 0 ->
  propagate_lagrangian_u newton (r, v) dt mu stm =
  bind (propagate_lagrangian_u newton (rev (r, v)) (- dt) mu stm) (fun x => Ret (rev (fst x), snd x)).
Proof.
  intros N. unfold propagate_lagrangian_u, rev. cbn [fst snd]. destruct (Rlt_dec dt 0) as [_|]; [|lra]. destruct (Rlt_dec (- dt) 0) as [|_]; [lra|].
  destruct (newton _ _ _ _) as [DS|]; [|reflexivity]. cbv zeta. reflexivity.
Qed.
Lemma flow_rev mu s t s' : flow_at mu (rev s) (- t) s' -> 0 < mu -> flow_at mu s t (rev s').
Proof.
  intros [[y [Y [Y0 Yt]]] _] M.
  pose proof (two_body_reversed mu m_infty p_infty y Y) as Y'. cbn [Rbar_opp] in Y'.
  pose proof (flow_of_solution mu s t (reversed y) M Y') as F.
  assert (E0 : reversed y 0 = s). { unfold reversed. rewrite Ropp_0, Y0. apply (rev_rev s). }
  assert (Et : reversed y t = rev s') by (unfold reversed, rev; rewrite Yt; reflexivity).
  rewrite <- Et. apply F. exact E0.
Qed.
Lemma lag_u_nz newton mu r v dt stm s' m : newton_sound newton -> regular mu (r, v) -> 0 <= dt ->
  propagate_lagrangian_u newton (r, v) dt mu stm = Ret (s', m) -> fst s' <> vzero.
Proof.
  intros NS Rg Dt. destruct (regular_r _ _ Rg) as [M [Hr Hh]]. cbn [fst snd] in *.
  unfold propagate_lagrangian_u. destruct (Rlt_dec dt 0) as [|_]; [lra|].
  change (2 / lag_R0 r - lag_V02 v / mu) with (al mu r v).
  change ((vx r * vx v + vy r * vy v + vz r * vz v) / lag_R0 r) with (vr0 r v).
  set (IG := if Rlt_dec 0 (al mu r v) then _ else _).
  destruct (newton _ IG (IG - 2 * PI) (IG + 2 * PI)) as [DS|] eqn:N; [|discriminate]. apply NS in N. cbn [fst] in N.
  assert (K : T mu r v DS = sqrt mu * dt). { change (lag_R0 r) with (norm r) in N. rewrite (kepDS_T mu r v dt Rg) in N. lra. }
  destruct (sqmu mu M) as [M1 M2]. pose proof (R0_pos r Hr) as RP.
  cbv zeta. intros H. injection H as H _. subst s'. cbn [fst].
  replace (1 - DS * DS / lag_R0 r * stumpff_c (al mu r v * DS * DS)) with (uF mu r v DS) by (unfold uF, U2; change (lag_R0 r) with (R0 r); unfold Rdiv; ring).
  replace (dt - 1 / sqrt mu * DS * DS * DS * stumpff_s (al mu r v * DS * DS)) with (uG mu r v DS).
  - apply (unz mu r v M Hr Hh DS).
  - unfold uG. replace dt with (T mu r v DS / sqrt mu) by (rewrite K; field; lra). unfold T, U3. field. lra.
Qed.
Lemma lag_u_flow newton mu s dt stm s' m : newton_sound newton -> regular mu s ->
  propagate_lagrangian_u newton s dt mu stm = Ret (s', m) -> flow_at mu s dt s'.
Proof.
  intros NS Rg H. assert (FW : forall s dt s', regular mu s -> 0 <= dt -> propagate_lagrangian_u newton s dt mu stm = Ret (s', m) -> flow_at mu s dt s').
  { clear s dt s' Rg H. intros [r v] dt s' Rg Dt H. destruct (regular_r _ _ Rg) as [M [Hr Hh]]. cbn [fst snd] in *.
    destruct (lag_u_forward newton mu r v dt stm s' m NS M Hr Dt H (lag_u_nz newton mu r v dt stm s' m NS Rg Dt H)) as [x [K ->]].
    apply (ustate_flow mu r v M Hr Hh). exact K. }
  destruct (Rlt_dec dt 0) as [N|N]; [|apply FW; [exact Rg|lra|exact H]].
  destruct s as [r v]. rewrite (lag_u_backward newton mu r v dt stm N) in H.
  destruct (propagate_lagrangian_u newton (rev (r, v)) (- dt) mu stm) as [[s1 m1]|e|] eqn:P; try discriminate.
  cbn [bind fst snd] in H. injection H as <- E. subst m1.
  apply flow_rev; [|apply Rg]. apply FW; [apply regular_rev, Rg|lra|exact P].
Qed.

(** ** C10, C13: total correctness *)
Lemma IGh_bounds tof : -1 <= lag_IGh tof <= 1. Proof. unfold lag_IGh. destruct (Rlt_dec 0 tof); lra. Qed.
Lemma lag_sound newton mu s tof stm s' m : newton_sound newton -> regular mu s -> energy mu s <> 0 ->
  propagate_lagrangian newton s tof mu stm = Ret (s', m) -> flow_at mu s tof s'.
Proof.
  intros NS Rg NE H. destruct (regular_r _ _ Rg) as [M [Hr Hh]]. destruct s as [r v]. cbn [fst snd] in *.
  destruct (lag_returns newton mu r v M Hr tof stm s' m NE H) as [x [-> [[Neg [DE [C ->]]]|[Pos [DH [C ->]]]]]].
  - apply NS in C. cbn [fst] in C. destruct (ellipse_root mu r v M Hr Neg tof DE C) as [DE' [E1 [E2 _]]]. rewrite <- E2. apply (ustate_flow mu r v M Hr Hh). exact E1.
  - apply NS in C. cbn [fst] in C. apply (ustate_flow mu r v M Hr Hh). rewrite (T_hyperbola mu r v M Hr Pos (lag_DN mu (lag_a mu (energy mu (r, v))) tof)), C, Rplus_0_l. apply (DN_eq mu r v M Pos).
Qed.
Lemma bracketed_weak f lo hi : bracketed f lo hi -> f lo <= 0 <= f hi. Proof. intros [[A B] _]. lra. Qed.
Lemma hyp_DN mu r v tof : hyperbolic mu (r, v) -> mean_motion mu (r, v) * Rabs tof <= 10 ^ 9 -> Rabs (lag_DN mu (lag_a mu (energy mu (r, v))) tof) <= 10 ^ 9.
Proof.
  intros Hy H. rewrite (DN_mm mu r v Hy), Rabs_mult, (Rabs_right (mean_motion mu (r, v))); [exact H|]. apply Rle_ge. unfold mean_motion. apply sqrt_pos.
Qed.
Lemma lag_hyp_total newton mu s tof stm : newton_ok newton -> hyperbolic mu s -> mean_motion mu s * Rabs tof <= 10 ^ 9 ->
  exists s' m, propagate_lagrangian newton s tof mu stm = Ret (s', m) /\ flow_at mu s tof s'.
Proof.
  intros NK Hy HT. destruct s as [r v]. destruct (regular_r _ _ (proj1 Hy)) as [M [Hr Hh]]. cbn [fst snd] in *.
  pose proof (proj2 Hy) as Pos. pose proof (hyp_bracket mu r v Hy _ (lag_IGh tof) (hyp_DN mu r v tof Hy HT) (IGh_bounds tof)) as B.
  rewrite lag_run, (solveH newton mu r v tof (a_neg mu r v M Pos)). unfold callH.
  destruct (NK (fun DH => (kepDH DH (lag_DN mu (lag_a mu (energy mu (r, v))) tof) (sg mu r v) (sqrt (- lag_a mu (energy mu (r, v)))) (lag_a mu (energy mu (r, v))) (norm r),
     d_kepDH DH (sg mu r v) (sqrt (- lag_a mu (energy mu (r, v)))) (lag_a mu (energy mu (r, v))) (norm r))) (lag_IGh tof) (lag_IGh tof - 50) (lag_IGh tof + 50)) as [DH [-> [_ Rt]]];
    [lra|exact (proj1 (der_kepDH _ _ _ _ _))|apply bracketed_weak in B; exact B|].
  cbn [fst] in Rt. cbn [bind]. eexists. eexists. split; [reflexivity|]. rewrite (state_hyperbola mu r v M Hr Pos).
  apply (ustate_flow mu r v M Hr Hh). rewrite (T_hyperbola mu r v M Hr Pos (lag_DN mu (lag_a mu (energy mu (r, v))) tof)), Rt, Rplus_0_l. apply (DN_eq mu r v M Pos).
Qed.

Lemma picky_some newton (f : R -> R * R) (g lo hi : R) : picky newton -> lo <= g <= hi -> (forall x : R, is_derive (fun y => fst (f y)) x (snd (f x))) ->
  bracketed (fun y => fst (f y)) lo hi -> exists x, newton f g lo hi = Some x.
Proof. intros P G D [S U]. apply (proj2 (P f g lo hi)). split; [exact G|]. split; [exact D|]. split; [exact S|exact U]. Qed.
Lemma picky_none newton f g lo hi : picky newton -> (forall x, lo <= x <= hi -> fst (f x) < 0) -> newton f g lo hi = None.
Proof.
  intros P H. destruct (newton f g lo hi) as [x|] eqn:N; [|reflexivity]. exfalso.
  destruct (proj1 (P f g lo hi) x N) as [X Z]. specialize (H x ltac:(lra)). lra.
Qed.
Lemma lag_picky_E newton mu s tof stm : picky newton -> elliptic mu s -> exists x, propagate_lagrangian newton s tof mu stm = Ret x.
Proof.
  intros P El. destruct s as [r v]. pose proof (ellipse_code_bracket mu r v tof El) as CB. cbv zeta in CB. destruct CB as [PA B].
  pose proof PI_RGT_0. rewrite lag_run, (solveE newton mu r v tof PA). unfold callE.
  destruct (picky_some newton (fun DE => (kepDE DE (DMc mu r v tof) (sg mu r v) (sqrt (lag_a mu (energy mu (r, v)))) (lag_a mu (energy mu (r, v))) (norm r),
    d_kepDE DE (sg mu r v) (sqrt (lag_a mu (energy mu (r, v)))) (lag_a mu (energy mu (r, v))) (norm r))) (IGe mu r v tof) (IGe mu r v tof - PI) (IGe mu r v tof + PI) P) as [DE ->];
  [lra|exact (proj1 (der_kepDE _ _ _ _ _))|exact B|]. cbn [bind]. eexists. reflexivity.
Qed.
Lemma lag_picky_H newton mu s tof stm : picky newton -> hyperbolic mu s -> mean_motion mu s * Rabs tof <= 10 ^ 9 ->
  exists x, propagate_lagrangian newton s tof mu stm = Ret x.
Proof.
  intros P Hy HT. destruct s as [r v]. destruct (regular_r _ _ (proj1 Hy)) as [M [Hr Hh]]. cbn [fst snd] in *.
  pose proof (proj2 Hy) as Pos. pose proof (hyp_bracket mu r v Hy _ (lag_IGh tof) (hyp_DN mu r v tof Hy HT) (IGh_bounds tof)) as B.
  rewrite lag_run, (solveH newton mu r v tof (a_neg mu r v M Pos)). unfold callH.
  destruct (picky_some newton (fun DH => (kepDH DH (lag_DN mu (lag_a mu (energy mu (r, v))) tof) (sg mu r v) (sqrt (- lag_a mu (energy mu (r, v)))) (lag_a mu (energy mu (r, v))) (norm r),
     d_kepDH DH (sg mu r v) (sqrt (- lag_a mu (energy mu (r, v)))) (lag_a mu (energy mu (r, v))) (norm r))) (lag_IGh tof) (lag_IGh tof - 50) (lag_IGh tof + 50) P) as [DH ->];
  [lra|exact (proj1 (der_kepDH _ _ _ _ _))|exact B|]. cbn [bind]. eexists. reflexivity.
Qed.
Lemma lag_picky_H_fails newton mu s : picky newton -> hyperbolic mu s ->
  exists t1, forall tof stm, t1 <= tof -> propagate_lagrangian newton s tof mu stm = Throw DomainError.
Proof.
  intros P Hy. destruct s as [r v]. destruct (regular_r _ _ (proj1 Hy)) as [M [Hr Hh]]. pose proof (proj2 Hy) as Pos.
  destruct (hyp_no_bracket mu r v Hy) as [t1 [Ht1 NB]]. exists t1. intros tof stm Ht.
  rewrite lag_run, (solveH newton mu r v tof (a_neg mu r v M Pos)). unfold callH.
  rewrite picky_none; [reflexivity|exact P|]. cbn [fst]. intros x Hx. apply (NB tof Ht). unfold lag_IGh in Hx. destruct (Rlt_dec 0 tof); lra.
Qed.

(** the call made by the universal-variable propagator, for non-negative times *)
Definition callU newton (mu : R) (r v : vec) (dt : R) : option R :=
  let IG := if Rlt_dec 0 (al mu r v) then sqrt mu * dt * Rabs (al mu r v) else 3 in
  newton (fun DS => (kepDS DS dt (norm r) (vr0 r v) (al mu r v) mu, d_kepDS DS (norm r) (vr0 r v) (al mu r v) mu)) IG (IG - 2 * PI) (IG + 2 * PI).
Lemma lag_u_ret newton mu r v dt stm : 0 <= dt ->
  ((exists x, callU newton mu r v dt = Some x) -> exists y, propagate_lagrangian_u newton (r, v) dt mu stm = Ret y) /\
  (callU newton mu r v dt = None -> propagate_lagrangian_u newton (r, v) dt mu stm = Throw DomainError).
Proof.
  intros Dt. unfold propagate_lagrangian_u. destruct (Rlt_dec dt 0) as [|_]; [lra|]. cbv zeta.
  change (2 / lag_R0 r - lag_V02 v / mu) with (al mu r v). change ((vx r * vx v + vy r * vy v + vz r * vz v) / lag_R0 r) with (vr0 r v).
  unfold callU. cbv zeta. change (lag_R0 r) with (norm r). split.
  - intros [x ->]. eexists. reflexivity.
  - intros ->. reflexivity.
Qed.
(** conditions under which the bracket [IG - 2 pi, IG + 2 pi] is wide enough *)
Definition u_reach (mu : R) (s : state) (dt : R) : Prop :=
  (energy mu s < 0 /\ sqrt (sma mu s) * ecc mu s < PI) \/ (0 <= energy mu s /\ sqrt mu * Rabs dt < (3 + 2 * PI) * periapsis mu s).
Lemma u_reach_rev mu s dt : u_reach mu s dt -> u_reach mu (rev s) (- dt).
Proof.
  unfold u_reach, sma, periapsis, ecc. rewrite energy_rev, ecc_vec_rev, ang_mom_rev, vneg_dot, Rabs_Ropp. tauto.
Qed.
Lemma callU_bracket mu r v dt : regular mu (r, v) -> 0 <= dt -> u_reach mu (r, v) dt ->
  let IG := if Rlt_dec 0 (al mu r v) then sqrt mu * dt * Rabs (al mu r v) else 3 in
  bracketed (fun DS => kepDS DS dt (norm r) (vr0 r v) (al mu r v) mu) (IG - 2 * PI) (IG + 2 * PI).
Proof.
  intros Rg Dt [[Neg HE]|[NN HT]] IG; unfold IG.
  - destruct (univ_ellipse mu r v dt Rg Neg HE) as [AP B]. destruct (Rlt_dec 0 (al mu r v)); [exact B|contradiction].
  - rewrite Rabs_right in HT by lra. destruct (univ_open mu r v dt Rg NN Dt HT) as [AP B]. destruct (Rlt_dec 0 (al mu r v)); [contradiction|exact B].
Qed.
Lemma lag_u_total newton mu s dt stm :
  (forall (f : R -> R * R) (g lo hi : R), lo <= g <= hi -> (forall x : R, is_derive (fun y => fst (f y)) x (snd (f x))) ->
     bracketed (fun y => fst (f y)) lo hi -> exists x, newton f g lo hi = Some x) ->
  regular mu s -> u_reach mu s dt -> exists y, propagate_lagrangian_u newton s dt mu stm = Ret y.
Proof.
  intros NK Rg HR.
  assert (FW : forall s dt, regular mu s -> 0 <= dt -> u_reach mu s dt -> exists y, propagate_lagrangian_u newton s dt mu stm = Ret y).
  { clear s dt Rg HR. intros [r v] dt Rg Dt HR. apply (proj1 (lag_u_ret newton mu r v dt stm Dt)). unfold callU. pose proof PI_RGT_0.
    apply NK; [lra| |].
    - cbn [fst snd]. exact (der_kepDS dt (norm r) (vr0 r v) (al mu r v) mu).
    - cbn [fst]. exact (callU_bracket mu r v dt Rg Dt HR). }
  destruct (Rlt_dec dt 0) as [N|N]; [|apply FW; [exact Rg|lra|exact HR]].
  destruct s as [r v]. rewrite (lag_u_backward newton mu r v dt stm N).
  destruct (FW (rev (r, v)) (- dt) (regular_rev _ _ Rg) ltac:(lra) (u_reach_rev _ _ _ HR)) as [y ->]. cbn [bind]. eexists. reflexivity.
Qed.
(** the universal bracket misses the root on an ordinary ellipse (mu = 1, a = 10000, e = 1/2, a quarter turn of eccentric anomaly) *)
Definition u_bad : state := (V 5000 0 0, V 0 (sqrt 3 / 100) 0).
Definition u_bad_dt : R := 1000000 * (PI / 2) - 500000.
Lemma sqrt3 : sqrt 3 * sqrt 3 = 3. Proof. apply sqrt_sqrt. lra. Qed.
Lemma u_bad_norm : norm (fst u_bad) = 5000. Proof. apply norm_unique; [lra|]. unfold dot. cbn. ring. Qed.
Lemma u_bad_elliptic : elliptic 1 u_bad.
Proof.
  pose proof sqrt3 as Q. split; [split; [lra|]|].
  - unfold u_bad, ang_mom, cross, vzero. cbn. intros H. injection H as H. assert (0 < sqrt 3) by (apply sqrt_lt_R0; lra). lra.
  - unfold energy. rewrite u_bad_norm. unfold u_bad, dot. cbn. lra.
Qed.
Lemma u_bad_al : al 1 (fst u_bad) (snd u_bad) = / 10000.
Proof. unfold al, R0. rewrite u_bad_norm. unfold u_bad, dot. cbn. pose proof sqrt3. lra. Qed.
Lemma u_bad_fails newton stm : picky newton -> propagate_lagrangian_u newton u_bad u_bad_dt 1 stm = Throw DomainError.
Proof.
  intros P. assert (P3 : 3 < PI) by (pose proof PI2_3_2; lra). pose proof PI_4 as P4.
  destruct (regular_r _ _ (proj1 u_bad_elliptic)) as [M [Hr Hh]]. pose proof u_bad_al as EA. pose proof u_bad_norm as EN.
  apply (proj2 (lag_u_ret newton 1 (fst u_bad) (snd u_bad) u_bad_dt stm ltac:(unfold u_bad_dt; lra))).
  unfold callU. destruct (Rlt_dec 0 (al 1 (fst u_bad) (snd u_bad))) as [_|N]; [|rewrite EA in N; lra].
  apply picky_none; [exact P|]. cbn [fst]. intros x Hx. rewrite (Rabs_right (al _ _ _)) in Hx by (rewrite EA; lra). rewrite sqrt_1, EA in Hx. unfold u_bad_dt in Hx.
  rewrite (kepDS_T 1 (fst u_bad) (snd u_bad) u_bad_dt (proj1 u_bad_elliptic)). rewrite sqrt_1.
  assert (T1 : T 1 (fst u_bad) (snd u_bad) (50 * PI) = u_bad_dt).
  { unfold T, R0. rewrite EN, EA. assert (S : sqrt (/ 10000) = / 100) by (rewrite sqrt_inv; f_equal; replace 10000 with (100 * 100) by lra; apply sqrt_square; lra).
    rewrite U1_pos, U3_pos by lra. rewrite S. replace (/ 100 * (50 * PI)) with (PI / 2) by field. rewrite sin_PI2.
    replace (sg 1 (fst u_bad) (snd u_bad)) with 0. 2:{ unfold sg, u_bad, dot. cbn. unfold Rdiv. ring. }
    unfold u_bad_dt. field. }
  assert (T 1 (fst u_bad) (snd u_bad) x < T 1 (fst u_bad) (snd u_bad) (50 * PI)) by (apply (T_incr 1 (fst u_bad) (snd u_bad) M Hr Hh); lra).
  lra.
Qed.

(** ** The group law *)
Section Group.
Variable newton : (R -> R * R) -> R -> R -> R -> option R.
Hypothesis NK : newton_ok newton.
Variables (mu : R).
Lemma lag_value s tof s1 stm : elliptic mu s -> flow_at mu s tof s1 -> exists m, propagate_lagrangian newton s tof mu stm = Ret (s1, m).
Proof.
  intros El F. destruct (ellipse_flow newton mu s tof stm NK El) as [s' [m [P F']]]. exists m. rewrite (flow_functional _ _ _ _ _ F F'). exact P.
Qed.
Lemma lag_value_h s tof s1 stm : hyperbolic mu s -> mean_motion mu s * Rabs tof <= 10 ^ 9 -> flow_at mu s tof s1 -> exists m, propagate_lagrangian newton s tof mu stm = Ret (s1, m).
Proof.
  intros El HT F. destruct (lag_hyp_total newton mu s tof stm NK El HT) as [s' [m [P F']]]. exists m. rewrite (flow_functional _ _ _ _ _ F F'). exact P.
Qed.
Lemma group_comp s t1 t2 b1 b2 b3 : elliptic mu s ->
  exists s1 s2 m1 m2 m3, propagate_lagrangian newton s t1 mu b1 = Ret (s1, m1) /\ propagate_lagrangian newton s1 t2 mu b2 = Ret (s2, m2) /\
    propagate_lagrangian newton s (t1 + t2) mu b3 = Ret (s2, m3).
Proof.
  intros El. destruct (ellipse_flow newton mu s t1 b1 NK El) as [s1 [m1 [P1 F1]]].
  assert (El1 : elliptic mu s1) by (apply (same_regular mu s s1); [apply (flow_integrals mu s t1 s1); [apply El|exact F1]|exact El]).
  destruct (ellipse_flow newton mu s1 t2 b2 NK El1) as [s2 [m2 [P2 F2]]].
  destruct (lag_value s (t1 + t2) s2 b3 El) as [m3 P3]; [apply flow_comp with s1; [apply El|exact F1|exact F2]|].
  exists s1, s2, m1, m2, m3. auto.
Qed.
Lemma group_zero s stm : elliptic mu s \/ hyperbolic mu s -> exists m, propagate_lagrangian newton s 0 mu stm = Ret (s, m).
Proof.
  intros [El|Hy].
  - apply lag_value; [exact El|]. apply flow_0, El.
  - apply lag_value_h; [exact Hy|rewrite Rabs_R0, Rmult_0_r; apply pow_le; lra|]. apply flow_0, Hy.
Qed.
Lemma group_back s t b1 b2 : elliptic mu s ->
  exists s1 m1 m2, propagate_lagrangian newton s t mu b1 = Ret (s1, m1) /\ propagate_lagrangian newton s1 (- t) mu b2 = Ret (s, m2).
Proof.
  intros El. destruct (ellipse_flow newton mu s t b1 NK El) as [s1 [m1 [P1 F1]]].
  assert (El1 : elliptic mu s1) by (apply (same_regular mu s s1); [apply (flow_integrals mu s t s1); [apply El|exact F1]|exact El]).
  destruct (lag_value s1 (- t) s b2 El1) as [m2 P2]; [apply flow_back; [apply El|exact F1]|]. exists s1, m1, m2. auto.
Qed.
Lemma flow_period s (k : Z) : elliptic mu s -> flow_at mu s (IZR k * period mu s) s.
Proof.
  intros El. destruct (regular_r _ _ (proj1 El)) as [M [Hr Hh]]. pose proof (proj2 El) as Neg. destruct s as [r v]. cbn [fst snd] in *.
  set (a := lag_a mu (energy mu (r, v))). assert (SA : sma mu (r, v) = a) by (unfold sma, a, lag_a; field; lra).
  pose proof (a_pos mu r v M Neg) as PA. fold a in PA. destruct (sqmu mu M) as [M1 M2]. destruct (sqrta_sq mu r v M Neg) as [S1 S2]. fold a in S1, S2.
  set (s' := ustate mu r v (sqrt a * (0 + 2 * IZR k * PI))). assert (E' : s' = (r, v)).
  { transitivity (ustate mu r v (sqrt a * 0)); [|rewrite Rmult_0_r; apply ustate_0; assumption].
    unfold s', a. rewrite <- (state_ellipse mu r v M Hr Neg 0 0), <- (state_ellipse mu r v M Hr Neg 0 0 0). unfold lag_ellipse. rewrite period_Z_sin, period_Z_cos. reflexivity. }
  rewrite <- E' at 3. apply (ustate_flow mu r v M Hr Hh). unfold a. rewrite (T_ellipse mu r v M Hr Neg 0). fold a. unfold kepDE. rewrite period_Z_sin, period_Z_cos, sin_0, cos_0.
  unfold period. rewrite SA, sqrt_div_alt by exact M. assert (S3 : sqrt (a ^ 3) = sqrt a * sqrt a * sqrt a).
  { replace (a ^ 3) with ((sqrt a * sqrt a * sqrt a) * (sqrt a * sqrt a * sqrt a)); [apply sqrt_square; repeat apply Rmult_le_pos; lra|].
    replace (sqrt a * sqrt a * sqrt a * (sqrt a * sqrt a * sqrt a)) with ((sqrt a * sqrt a) * (sqrt a * sqrt a) * (sqrt a * sqrt a)) by ring. rewrite S2. ring. }
  rewrite S3. field. lra.
Qed.
Lemma group_period s (k : Z) stm : elliptic mu s -> exists m, propagate_lagrangian newton s (IZR k * period mu s) mu stm = Ret (s, m).
Proof. intros El. apply lag_value; [exact El|]. apply flow_period, El. Qed.
(** hyperbolas, for times the bracket covers *)
Lemma hyp_flow_mm s t s1 : hyperbolic mu s -> flow_at mu s t s1 -> hyperbolic mu s1 /\ mean_motion mu s1 = mean_motion mu s.
Proof.
  intros Hy F. destruct (flow_integrals mu s t s1 (proj1 Hy) F) as [SI _]. split; [apply (same_regular mu s s1 SI), Hy|].
  unfold mean_motion, sma. destruct SI as [-> _]. reflexivity.
Qed.
Lemma group_comp_h s t1 t2 b1 b2 b3 : hyperbolic mu s -> mean_motion mu s * (Rabs t1 + Rabs t2) <= 10 ^ 9 ->
  exists s1 s2 m1 m2 m3, propagate_lagrangian newton s t1 mu b1 = Ret (s1, m1) /\ propagate_lagrangian newton s1 t2 mu b2 = Ret (s2, m2) /\
    propagate_lagrangian newton s (t1 + t2) mu b3 = Ret (s2, m3).
Proof.
  intros Hy HT. assert (Q : 0 <= mean_motion mu s) by (unfold mean_motion; apply sqrt_pos).
  pose proof (Rabs_pos t1). pose proof (Rabs_pos t2). pose proof (Rabs_triang t1 t2).
  destruct (lag_hyp_total newton mu s t1 b1 NK Hy) as [s1 [m1 [P1 F1]]]; [nra|].
  destruct (hyp_flow_mm s t1 s1 Hy F1) as [Hy1 E1].
  destruct (lag_hyp_total newton mu s1 t2 b2 NK Hy1) as [s2 [m2 [P2 F2]]]; [rewrite E1; nra|].
  destruct (lag_value_h s (t1 + t2) s2 b3 Hy) as [m3 P3]; [nra|apply flow_comp with s1; [apply Hy|exact F1|exact F2]|].
  exists s1, s2, m1, m2, m3. auto.
Qed.
End Group.

(** the vectorised version *)
Lemma lag_v_spec newton s tofs mu stm l :
  propagate_lagrangian_v newton s tofs mu stm = Ret l <-> Forall2 (fun t x => propagate_lagrangian newton s t mu stm = Ret x) tofs l.
Proof.
  revert l. induction tofs as [|t tofs IH]; intros l; cbn [propagate_lagrangian_v].
  - split; [intros H; injection H as <-; constructor|intros H; inversion H; reflexivity].
  - destruct (propagate_lagrangian newton s t mu stm) as [x|e|] eqn:P; cbn [bind].
    + destruct (propagate_lagrangian_v newton s tofs mu stm) as [xs|e|] eqn:V; cbn [bind].
      * split.
        -- intros H. injection H as <-. constructor; [exact P|apply IH; reflexivity].
        -- intros H. inversion H as [|? y ? ys A B]; subst. rewrite P in A. injection A as ->. apply IH in B. injection B as ->. reflexivity.
      * split; [discriminate|]. intros H. inversion H as [|? y ? ys A B]; subst. apply IH in B. discriminate.
      * split; [discriminate|]. intros H. inversion H as [|? y ? ys A B]; subst. apply IH in B. discriminate.
    + split; [discriminate|]. intros H. inversion H as [|? y ? ys A B]; subst. rewrite P in A. discriminate.
    + split; [discriminate|]. intros H. inversion H as [|? y ? ys A B]; subst. rewrite P in A. discriminate.
Qed.
Lemma lag_v_throw newton s mu stm l1 t l2 e :
  Forall (fun u => exists x, propagate_lagrangian newton s u mu stm = Ret x) l1 -> propagate_lagrangian newton s t mu stm = Throw e ->
  propagate_lagrangian_v newton s (l1 ++ t :: l2) mu stm = Throw e.
Proof.
  intros H P. induction H as [|u l1 [x X] _ IH]; cbn [app propagate_lagrangian_v]; [rewrite P; reflexivity|]. rewrite X. cbn [bind]. rewrite IH. reflexivity.
Qed.

(** ** Agreement *)
Lemma agree_sound newton newton' mu s t b b' s1 m1 s2 m2 : newton_sound newton -> newton_sound newton' -> regular mu s -> energy mu s <> 0 ->
  propagate_lagrangian newton s t mu b = Ret (s1, m1) -> propagate_lagrangian_u newton' s t mu b' = Ret (s2, m2) -> s1 = s2.
Proof.
  intros N N' Rg NE P P'. apply (flow_functional mu s t); [apply (lag_sound newton mu s t b s1 m1); assumption|apply (lag_u_flow newton' mu s t b' s2 m2); assumption].
Qed.
Lemma agree_total newton mu s t b b' : newton_ok newton -> newton_sound newton -> elliptic mu s -> sqrt (sma mu s) * ecc mu s < PI ->
  exists s1 m1 m2, propagate_lagrangian newton s t mu b = Ret (s1, m1) /\ propagate_lagrangian_u newton s t mu b' = Ret (s1, m2).
Proof.
  intros NK NS El HE. destruct (ellipse_flow newton mu s t b NK El) as [s1 [m1 [P1 F1]]].
  destruct (lag_u_total newton mu s t b') as [[s2 m2] P2].
  - intros f g lo hi G D B. destruct (NK f g lo hi G D (bracketed_weak _ _ _ B)) as [x [E _]]. exists x. exact E.
  - apply El.
  - left. split; [apply El|exact HE].
  - exists s1, m1, m2. split; [exact P1|]. rewrite (flow_functional mu s t s1 s2 F1); [exact P2|]. apply (lag_u_flow newton mu s t b' s2 m2 NS (proj1 El) P2).
Qed.
Lemma agree_total_h newton mu s t b b' : newton_ok newton -> newton_sound newton -> hyperbolic mu s -> mean_motion mu s * Rabs t <= 10 ^ 9 ->
  sqrt mu * Rabs t < (3 + 2 * PI) * periapsis mu s ->
  exists s1 m1 m2, propagate_lagrangian newton s t mu b = Ret (s1, m1) /\ propagate_lagrangian_u newton s t mu b' = Ret (s1, m2).
Proof.
  intros NK NS Hy HE HT. destruct (lag_hyp_total newton mu s t b NK Hy HE) as [s1 [m1 [P1 F1]]].
  destruct (lag_u_total newton mu s t b') as [[s2 m2] P2].
  - intros f g lo hi G D B. destruct (NK f g lo hi G D (bracketed_weak _ _ _ B)) as [x [E _]]. exists x. exact E.
  - apply Hy.
  - right. split; [left; apply Hy|exact HT].
  - exists s1, m1, m2. split; [exact P1|]. rewrite (flow_functional mu s t s1 s2 F1); [exact P2|]. apply (lag_u_flow newton mu s t b' s2 m2 NS (proj1 Hy) P2).
Qed.
Lemma u_throws_where_lag_returns newton : picky newton ->
  (exists x, propagate_lagrangian newton u_bad u_bad_dt 1 false = Ret x) /\ propagate_lagrangian_u newton u_bad u_bad_dt 1 false = Throw DomainError.
Proof. intros P. split; [apply lag_picky_E; [exact P|exact u_bad_elliptic]|apply u_bad_fails; exact P]. Qed.

(** conservation by the universal-variable propagator needs a root *)
Lemma u_conserves newton mu s dt stm s' m : newton_sound newton -> 0 < mu -> fst s <> vzero ->
  propagate_lagrangian_u newton s dt mu stm = Ret (s', m) -> fst s' <> vzero -> same_integrals mu s s'.
Proof.
  intros NS M. assert (FW : forall s dt s', fst s <> vzero -> 0 <= dt -> propagate_lagrangian_u newton s dt mu stm = Ret (s', m) -> fst s' <> vzero -> same_integrals mu s s').
  { clear s dt s'. intros [r v] dt s' Hr Dt H Hn. cbn [fst] in Hr. destruct (lag_u_forward newton mu r v dt stm s' m NS M Hr Dt H Hn) as [x [K ->]].
    apply u_integrals; [exact M|exact Hr|]. apply rho_of_nz; assumption. }
  intros Hr H Hn. destruct (Rlt_dec dt 0) as [N|N]; [|apply (FW s dt s'); [exact Hr|lra|exact H|exact Hn]].
  destruct s as [r v]. rewrite (lag_u_backward newton mu r v dt stm N) in H.
  destruct (propagate_lagrangian_u newton (rev (r, v)) (- dt) mu stm) as [[s1 m1]|e|] eqn:P; try discriminate.
  cbn [bind fst snd] in H. injection H as <- E. subst m1.
  destruct (FW (rev (r, v)) (- dt) s1) as [A [B C]]; [exact Hr|lra|exact P|exact Hn|].
  unfold same_integrals. rewrite !energy_rev, !ang_mom_rev, !ecc_vec_rev in *. split; [exact A|]. split; [|exact C]. rewrite B. apply vneg_vneg.
Qed.
Definition lazy_root (f : R -> R * R) (g lo hi : R) : option R := Some 0.
Lemma u_not_conserving : exists s' m, propagate_lagrangian_u lazy_root (V 1 0 0, V 0 1 0) 1 1 false = Ret (s', m) /\ fst s' <> vzero /\
  energy 1 s' <> energy 1 (V 1 0 0, V 0 1 0).
Proof.
  unfold propagate_lagrangian_u, lazy_root. destruct (Rlt_dec 1 0) as [|_]; [lra|]. exists (V 1 1 0, V 0 1 0), None. split; [|split; [cbn; intros H; injection H as H; lra|]].
  { cbv zeta. apply f_equal. apply f_equal2; [|reflexivity]. apply f_equal2; apply vec_eq; unfold vadd, vscal; cbn [vx vy vz]; unfold Rdiv; ring. }
  unfold energy. cbn [fst snd]. replace (norm (V 1 0 0)) with 1 by (symmetry; apply norm_unique; [lra|unfold dot; cbn; ring]).
  assert (N2 : 1 < norm (V 1 1 0)). { assert (norm (V 1 1 0) * norm (V 1 1 0) = 2) by (rewrite norm_sq; unfold dot; cbn; ring). pose proof (norm_nonneg (V 1 1 0)). nra. }
  assert (1 / norm (V 1 1 0) < 1) by (apply (Rmult_lt_reg_r (norm (V 1 1 0))); [lra|]; unfold Rdiv; rewrite Rmult_assoc, Rinv_l by lra; lra). lra.
Qed.

(** ** n2h *)
Lemma keph_bracket e N : 1 < e -> keph e (1 - 20 * PI) < N < keph e (1 + 20 * PI) -> bracketed (fun H => kepH H N e) (1 - 20 * PI) (1 + 20 * PI).
Proof.
  intros He HN. pose proof PI_RGT_0. assert (F : kepH (1 - 20 * PI) N e < 0 < kepH (1 + 20 * PI) N e) by (unfold kepH; unfold keph in HN; lra).
  split; [exact F|]. destruct (root_between _ _ (1 - 20 * PI) (1 + 20 * PI) (proj1 (der_kepH N e)) ltac:(lra) ltac:(lra)) as [x [Hx X]]. cbv beta in X.
  exists x. split; [|split; [exact X|]].
  - destruct Hx as [[A|A] [B|B]]; try lra; exfalso; subst x; lra.
  - intros y Y. apply (incr_inj _ (keph_lt e He)). unfold kepH in X, Y. unfold keph. lra.
Qed.
Lemma n2h_picky newton e N : picky newton -> 1 < e -> Rabs N <= 10 ^ 17 -> exists h, n2h newton N e = Ret (Some h).
Proof.
  intros P He HN. apply Rabs_le_between in HN. unfold n2h. destruct (Rle_dec e 1); [lra|]. cbv zeta. pose proof PI_RGT_0.
  assert (P3 : 3 < PI) by (pose proof PI2_3_2; lra).
  assert (A : 10 ^ 17 <= keph e 59). { unfold keph. pose proof sinh59. assert (0 <= sinh 59) by (left; apply sinh_pos; lra). nra. }
  assert (L : keph e (1 - 20 * PI) < - 10 ^ 17).
  { apply Rlt_le_trans with (keph e (Ropp 59)); [apply keph_lt; [exact He|lra]|]. rewrite keph_neg. lra. }
  assert (U : 10 ^ 17 < keph e (1 + 20 * PI)) by (apply Rle_lt_trans with (keph e 59); [exact A|]; apply keph_lt; [exact He|lra]).
  destruct (picky_some newton (fun H => (kepH H N e, d_kepH H e)) 1 (1 - 20 * PI) (1 + 20 * PI) P) as [x ->]; [lra|exact (proj1 (der_kepH N e))| |exists x; reflexivity].
  apply (keph_bracket e N He). lra.
Qed.
Lemma n2h_picky_fails newton e : picky newton -> 1 < e -> exists N1, forall N, N1 <= N -> n2h newton N e = Throw DomainError.
Proof.
  intros P He. exists (keph e (1 + 20 * PI) + 1). intros N HN. unfold n2h. destruct (Rle_dec e 1); [lra|]. cbv zeta.
  rewrite picky_none; [reflexivity|exact P|]. cbn [fst]. intros x Hx. pose proof (incr_le _ (keph_lt e He) x (1 + 20 * PI) ltac:(lra)). unfold kepH. unfold keph in *. lra.
Qed.

(** ** Examples *)
Definition circle (t : R) : state := (V (cos t) (sin t) 0, V (- sin t) (cos t) 0).
Lemma circle_norm t : norm (V (cos t) (sin t) 0) = 1.
Proof. apply norm_unique; [lra|]. unfold dot. cbn. pose proof (sin2_cos2 t) as E. unfold Rsqr in E. lra. Qed.
Lemma circle_solves : two_body 1 m_infty p_infty circle.
Proof.
  intros t _ _. unfold circle. cbn [fst snd]. split; [|split].
  - apply norm_pos_nz. rewrite circle_norm. lra.
  - split; [|split]; cbn [vx vy vz]; [apply der_cos|apply der_sin|apply der_const].
  - unfold gravity. rewrite circle_norm. split; [|split]; cbn [vx vy vz vscal].
    + eapply der_to; [apply der_opp, der_sin|]. field.
    + eapply der_to; [apply der_cos|]. field.
    + eapply der_to; [apply der_const|]. field.
Qed.
Lemma circle_elliptic : elliptic 1 (circle 0).
Proof.
  unfold circle. rewrite cos_0, sin_0. split; [split; [lra|]|].
  - unfold ang_mom, cross, vzero. cbn. intros H. injection H as H. lra.
  - unfold energy. cbn [fst snd]. replace (norm (V 1 0 0)) with 1 by (symmetry; apply norm_unique; [lra|unfold dot; cbn; ring]). unfold dot. cbn. lra.
Qed.
Lemma circle_run newton t : newton_ok newton -> exists m, propagate_lagrangian newton (circle 0) t 1 false = Ret (circle t, m).
Proof. intros NK. apply lag_value; [exact NK|exact circle_elliptic|]. apply flow_of_solution; [lra|exact circle_solves|reflexivity]. Qed.
(** a hyperbola: r = (1,0,0), v = (0,2,0), mu = 1 *)
Definition fast : state := (V 1 0 0, V 0 2 0).
Lemma fast_hyperbolic : hyperbolic 1 fast.
Proof.
  split; [split; [lra|]|].
  - unfold fast, ang_mom, cross, vzero. cbn. intros H. injection H as H. lra.
  - unfold energy, fast. cbn [fst snd]. replace (norm (V 1 0 0)) with 1 by (symmetry; apply norm_unique; [lra|unfold dot; cbn; ring]). unfold dot. cbn. lra.
Qed.
Lemma fast_mm : mean_motion 1 fast = sqrt 8.
Proof.
  unfold mean_motion, sma, energy, fast. cbn [fst snd]. replace (norm (V 1 0 0)) with 1 by (symmetry; apply norm_unique; [lra|unfold dot; cbn; ring]).
  unfold dot. cbn [vx vy vz]. replace (- (1) / (2 * ((0 * 0 + 2 * 2 + 0 * 0) / 2 - 1 / 1))) with (- (1 / 2)) by field. rewrite Rabs_Ropp, Rabs_right by lra. f_equal. field.
Qed.
Lemma fast_run newton t : newton_ok newton -> Rabs t <= 10 ^ 8 -> exists s' m, propagate_lagrangian newton fast t 1 true = Ret (s', m) /\ flow_at 1 fast t s' /\ energy 1 s' = 1.
Proof.
  intros NK Ht. assert (Q : sqrt 8 <= 3). { rewrite <- (sqrt_square 3) by lra. apply sqrt_le_1; lra. } pose proof (sqrt_pos 8).
  destruct (lag_hyp_total newton 1 fast t true NK fast_hyperbolic) as [s' [m [P F]]].
  { rewrite fast_mm. replace (10 ^ 9) with (10 * 10 ^ 8) by ring. pose proof (Rabs_pos t). nra. }
  exists s', m. split; [exact P|]. split; [exact F|]. destruct (flow_integrals 1 fast t s' (proj1 fast_hyperbolic) F) as [[E _] _]. rewrite E.
  unfold energy, fast. cbn [fst snd]. replace (norm (V 1 0 0)) with 1 by (symmetry; apply norm_unique; [lra|unfold dot; cbn; ring]). unfold dot. cbn. lra.
Qed.
