(** * Propagation with a root finder that stops early *)
From Coq Require Import Reals Lra Lia Psatz ZArith.
From Coquelicot Require Import Coquelicot.
From Verif Require Import Outcome RealLib PartialReal KepModel KepSpec KepProofs AnomProofs Vec3 TwoBodyModel TwoBodySpec FlowProofs LagProofs FlowMain BracketProofs TwoBodyProofs
  ElemModel ElemSpec ElemProofs ElemPar KeplerianModel KeplerianProofs KeplerianMain KplaModel KplaProofs InexactSpec.
Open Scope R_scope.

Lemma sma_lag mu r v : energy mu (r, v) <> 0 -> sma mu (r, v) = lag_a mu (energy mu (r, v)).
Proof. intros H. unfold sma, lag_a. field. exact H. Qed.
Lemma mm_pos mu s : 0 < mu -> energy mu s <> 0 -> 0 < mean_motion mu s.
Proof.
  intros M NE. unfold mean_motion. apply sqrt_lt_R0, Rdiv_lt_0_compat; [exact M|]. apply pow_lt, Rabs_pos_lt. unfold sma.
  apply Rmult_integral_contrapositive. split; [lra|]. apply Rinv_neq_0_compat. lra.
Qed.
Lemma mm_ell mu r v tof : 0 < mu -> energy mu (r, v) < 0 -> lag_DM mu (lag_a mu (energy mu (r, v))) tof = mean_motion mu (r, v) * tof.
Proof.
  intros M Neg. unfold lag_DM, mean_motion. rewrite (sma_lag mu r v) by lra. pose proof (a_pos mu r v M Neg) as A.
  rewrite Rabs_right by lra. reflexivity.
Qed.
(** a residual is a delay *)
Lemma lag_delay eps newton mu s tof stm s' m : newton_within eps newton -> regular mu s -> energy mu s <> 0 ->
  propagate_lagrangian newton s tof mu stm = Ret (s', m) -> exists t', Rabs (t' - tof) <= eps / mean_motion mu s /\ flow_at mu s t' s'.
Proof.
  intros NS Rg NE H. destruct (regular_r _ _ Rg) as [M [Hr Hh]]. pose proof (mm_pos mu s M NE) as NP. destruct s as [r v]. cbn [fst snd] in *.
  destruct (sqmu mu M) as [M1 M2].
  destruct (lag_returns newton mu r v M Hr tof stm s' m NE H) as [x [-> [[Neg [DE [C ->]]]|[Pos [DH [C ->]]]]]].
  - apply NS in C. cbn [fst] in C. unfold DMc in C. set (a := lag_a mu (energy mu (r, v))) in *.
    set (d := kepDE DE (lag_DMc (lag_DM mu a tof)) (sg mu r v) (sqrt a) a (norm r)) in *.
    destruct (lag_DMc_crop (lag_DM mu a tof)) as [k [Ek _]].
    exists (tof + d / mean_motion mu (r, v)). split.
    { replace (tof + d / mean_motion mu (r, v) - tof) with (d * / mean_motion mu (r, v)) by (unfold Rdiv; ring). rewrite Rabs_mult, (Rabs_pos_eq (/ _)) by (left; apply Rinv_0_lt_compat, NP).
      apply Rmult_le_compat_r; [left; apply Rinv_0_lt_compat, NP|exact C]. }
    assert (US : ustate mu r v (sqrt a * (DE + 2 * IZR (- k) * PI)) = ustate mu r v (sqrt a * DE)).
    { unfold a. rewrite <- (state_ellipse mu r v M Hr Neg 0 0), <- (state_ellipse mu r v M Hr Neg 0 0 DE). unfold lag_ellipse. rewrite period_Z_sin, period_Z_cos. reflexivity. }
    rewrite <- US. apply (ustate_flow mu r v M Hr Hh). unfold a at 1. rewrite (T_ellipse mu r v M Hr Neg (lag_DM mu a tof)). fold a.
    replace (kepDE (DE + 2 * IZR (- k) * PI) (lag_DM mu a tof) (sg mu r v) (sqrt a) a (norm r)) with d.
    2: { unfold d. unfold kepDE. rewrite period_Z_sin, period_Z_cos, opp_IZR, Ek. ring. }
    pose proof (DM_eq mu r v M Neg tof) as Q. fold a in Q. rewrite Rmult_plus_distr_l, Q.
    pose proof (DM_eq mu r v M Neg 1) as Q1. fold a in Q1. unfold a in Q1 at 4. rewrite (mm_ell mu r v 1 M Neg) in Q1.
    assert (Q2 : sqrt a * sqrt a * sqrt a = sqrt mu / mean_motion mu (r, v)). { apply (Rmult_eq_reg_r (mean_motion mu (r, v))); [|lra]. unfold Rdiv. rewrite (Rmult_assoc (sqrt mu)), Rinv_l by lra. lra. }
    rewrite Q2. field. lra.
  - apply NS in C. cbn [fst] in C. set (a := lag_a mu (energy mu (r, v))) in *.
    set (d := kepDH DH (lag_DN mu a tof) (sg mu r v) (sqrt (- a)) a (norm r)) in *.
    exists (tof + d / mean_motion mu (r, v)). split.
    { replace (tof + d / mean_motion mu (r, v) - tof) with (d * / mean_motion mu (r, v)) by (unfold Rdiv; ring). rewrite Rabs_mult, (Rabs_pos_eq (/ _)) by (left; apply Rinv_0_lt_compat, NP).
      apply Rmult_le_compat_r; [left; apply Rinv_0_lt_compat, NP|exact C]. }
    apply (ustate_flow mu r v M Hr Hh). unfold a at 1. rewrite (T_hyperbola mu r v M Hr Pos (lag_DN mu a tof)). fold a. fold d.
    pose proof (DN_eq mu r v M Pos tof) as Q. fold a in Q. rewrite Rmult_plus_distr_l, Q.
    pose proof (DN_eq mu r v M Pos 1) as Q1. pose proof (DN_mm mu r v (conj Rg Pos) 1) as Q3. rewrite Q3 in Q1. fold a in Q1.
    assert (Q2 : sqrt (- a) * sqrt (- a) * sqrt (- a) = sqrt mu / mean_motion mu (r, v)). { apply (Rmult_eq_reg_r (mean_motion mu (r, v))); [|lra]. unfold Rdiv. rewrite (Rmult_assoc (sqrt mu)), Rinv_l by lra. lra. }
    rewrite Q2. field. lra.
Qed.
Lemma lag_on_orbit newton mu s tof stm s' m : regular mu s -> energy mu s <> 0 -> propagate_lagrangian newton s tof mu stm = Ret (s', m) -> exists t', flow_at mu s t' s'.
Proof.
  intros Rg NE H. destruct (regular_r _ _ Rg) as [M [Hr Hh]]. destruct s as [r v]. cbn [fst snd] in *.
  destruct (lag_returns newton mu r v M Hr tof stm s' m NE H) as [x [-> _]]. destruct (sqmu mu M) as [M1 M2]. exists (T mu r v x / sqrt mu).
  apply (ustate_flow mu r v M Hr Hh). field. lra.
Qed.

(** ** how far apart two points of an orbit are *)
Lemma orbit_eq mu s : 0 < mu -> fst s <> vzero -> dot (ecc_vec mu s) (fst s) = dot (ang_mom s) (ang_mom s) / mu - norm (fst s).
Proof.
  intros M Hr. destruct s as [r v]. unfold ecc_vec, ang_mom. cbn [fst snd] in *. pose proof (norm_pos r Hr) as P. pose proof (norm_sq r) as Q.
  replace (dot (vsub (vscal (/ mu) (cross v (cross r v))) (vscal (/ norm r) r)) r) with (/ mu * dot (cross v (cross r v)) r - / norm r * dot r r) by (unfold dot, vsub, vscal; cbn; ring).
  rewrite <- Q. replace (dot (cross v (cross r v)) r) with (dot (cross r v) (cross r v)) by (unfold dot, cross; cbn; ring). field. lra.
Qed.
Lemma above_periapsis mu s : regular mu s -> 0 < periapsis mu s <= norm (fst s).
Proof.
  intros Rg. destruct (regular_r _ _ Rg) as [M [Hr Hh]]. pose proof (orbit_eq mu s M Hr) as Q. pose proof (abs_dot (ecc_vec mu s) (fst s)) as A. fold (ecc mu s) in A.
  assert (EP : 0 <= ecc mu s) by apply norm_nonneg. pose proof (norm_pos _ Hr) as NP. pose proof (dot_pos _ (proj2 Rg)) as DP.
  assert (PP : 0 < dot (ang_mom s) (ang_mom s) / mu) by (apply Rdiv_lt_0_compat; assumption). unfold periapsis. split; [apply Rdiv_lt_0_compat; lra|].
  apply (proj2 (Rcomplements.Rle_div_l _ (norm (fst s)) (1 + ecc mu s) ltac:(lra))). pose proof (Rle_abs (dot (ecc_vec mu s) (fst s))). nra.
Qed.
Lemma same_peri mu s s1 : same_integrals mu s s1 -> periapsis mu s1 = periapsis mu s.
Proof. intros [_ [A B]]. unfold periapsis, ecc. rewrite A, B. reflexivity. Qed.
Lemma speed_bound mu s : regular mu s -> norm (snd s) <= top_speed mu s.
Proof.
  intros Rg. pose proof (above_periapsis mu s Rg) as [P1 P2]. unfold top_speed. rewrite <- (sqrt_square (norm (snd s))) by apply norm_nonneg. apply sqrt_le_1_alt.
  rewrite norm_sq. unfold energy. assert (mu / norm (fst s) <= mu / periapsis mu s); [|lra].
  apply Rmult_le_compat_l; [destruct Rg; lra|]. apply Rinv_le_contravar; assumption.
Qed.
Lemma pull_bound mu s : regular mu s -> norm (gravity mu (fst s)) <= top_pull mu s.
Proof.
  intros Rg. pose proof (above_periapsis mu s Rg) as [P1 P2]. pose proof (proj1 Rg) as M. unfold gravity, top_pull. rewrite norm_vscal. set (n := norm (fst s)) in *. set (q := periapsis mu s) in *.
  replace (- mu / n ^ 3) with (- (mu / n ^ 3)) by (unfold Rdiv; ring). rewrite Rabs_Ropp. assert (0 < n ^ 3) by (apply pow_lt; lra).
  rewrite Rabs_pos_eq by (left; apply Rdiv_lt_0_compat; lra).
  replace (mu / n ^ 3 * n) with (mu / (n * n)) by (field; lra). apply Rmult_le_compat_l; [lra|]. apply Rinv_le_contravar; nra.
Qed.
Lemma vec_mvt (f : R -> vec) (d : R -> vec) (K a b : R) : (forall t, vderive f t (d t)) -> (forall t, norm (d t) <= K) -> norm (vsub (f b) (f a)) <= K * Rabs (b - a).
Proof.
  intros D B. set (w := vsub (f b) (f a)).
  destruct (MVT_gen (fun t => dot (f t) w) a b (fun t => dot (d t) w)) as [c [_ E]].
  - intros x _. eapply der_to; [apply (der_dot f (fun _ => w) x (d x) vzero (D x) (vder_const w x))|]. unfold dot, vzero. cbn. ring.
  - intros x _. apply (is_derive_cont _ _ (dot (d x) w + dot (f x) vzero)). apply (der_dot f (fun _ => w) x (d x) vzero (D x) (vder_const w x)).
  - cbv beta in E. assert (EW : dot (f b) w - dot (f a) w = dot w w) by (unfold w, dot, vsub; cbn; ring). rewrite EW in E.
    pose proof (abs_dot (d c) w) as A. pose proof (norm_nonneg w) as W. pose proof (norm_sq w) as Q. pose proof (B c) as BC. pose proof (norm_nonneg (d c)). pose proof (Rabs_pos (b - a)).
    assert (L : norm w * norm w <= K * Rabs (b - a) * norm w).
    { rewrite Q, E. eapply Rle_trans; [apply Rle_abs|]. rewrite Rabs_mult. apply Rle_trans with (norm (d c) * norm w * Rabs (b - a)); [apply Rmult_le_compat_r; assumption|].
      replace (K * Rabs (b - a) * norm w) with (K * norm w * Rabs (b - a)) by ring. apply Rmult_le_compat_r; [assumption|]. apply Rmult_le_compat_r; assumption. }
    destruct W as [W|W]; [apply (Rmult_le_reg_r (norm w)); assumption|]. rewrite <- W. apply Rmult_le_pos; [lra|assumption].
Qed.
Lemma flow_distance mu s t1 t2 s1 s2 : regular mu s -> flow_at mu s t1 s1 -> flow_at mu s t2 s2 ->
  norm (vsub (fst s2) (fst s1)) <= top_speed mu s * Rabs (t2 - t1) /\ norm (vsub (snd s2) (snd s1)) <= top_pull mu s * Rabs (t2 - t1).
Proof.
  intros Rg F1 F2. pose proof F1 as [[y [Y [Y0 Y1]]] _]. pose proof (proj1 Rg) as M.
  assert (Y2 : y t2 = s2) by (apply (flow_functional mu s t2); [apply (flow_of_solution mu s t2 y M Y Y0)|exact F2]).
  assert (I : forall t, same_integrals mu s (y t)) by (intros t; apply (flow_integrals mu s t (y t) Rg), (flow_of_solution mu s t y M Y Y0)).
  assert (G : forall t, regular mu (y t)) by (intros t; apply (proj1 (same_regular mu s (y t) (I t))), Rg).
  rewrite <- Y1, <- Y2. split.
  - apply (vec_mvt (fun t => fst (y t)) (fun t => snd (y t))); [intros t; apply Y; exact Logic.I|]. intros t. pose proof (speed_bound mu (y t) (G t)) as B.
    unfold top_speed in *. rewrite (same_peri mu s (y t) (I t)) in B. destruct (I t) as [-> _] in B. exact B.
  - apply (vec_mvt (fun t => snd (y t)) (fun t => gravity mu (fst (y t)))); [intros t; apply Y; exact Logic.I|]. intros t. pose proof (pull_bound mu (y t) (G t)) as B.
    unfold top_pull in *. rewrite (same_peri mu s (y t) (I t)) in B. exact B.
Qed.
Lemma flow_exists mu s t : regular mu s -> exists s', flow_at mu s t s'.
Proof.
  intros Rg. destruct (regular_r _ _ Rg) as [M [Hr Hh]]. destruct s as [r v]. cbn [fst snd] in *. destruct (T_onto mu r v M Hr Hh (sqrt mu * t)) as [x E].
  exists (ustate mu r v x). apply (ustate_flow mu r v M Hr Hh t x E).
Qed.
Lemma lag_error eps newton mu s tof stm s' m s1 : newton_within eps newton -> regular mu s -> energy mu s <> 0 -> propagate_lagrangian newton s tof mu stm = Ret (s', m) -> flow_at mu s tof s1 ->
  norm (vsub (fst s') (fst s1)) <= top_speed mu s * (eps / mean_motion mu s) /\ norm (vsub (snd s') (snd s1)) <= top_pull mu s * (eps / mean_motion mu s).
Proof.
  intros NW Rg NE H F. destruct (lag_delay eps newton mu s tof stm s' m NW Rg NE H) as [t' [B F']]. destruct (flow_distance mu s tof t' s1 s' Rg F F') as [D1 D2].
  assert (0 <= top_speed mu s) by apply sqrt_pos. assert (0 <= top_pull mu s).
  { pose proof (above_periapsis mu s Rg). unfold top_pull. left. apply Rdiv_lt_0_compat; [apply Rg|nra]. }
  split; (eapply Rle_trans; [eassumption|apply Rmult_le_compat_l; assumption]).
Qed.
(** one call after the other *)
Lemma lag_chain eps newton mu s t1 t2 b1 b2 s1 s2 m1 m2 : newton_within eps newton -> regular mu s -> energy mu s <> 0 ->
  propagate_lagrangian newton s t1 mu b1 = Ret (s1, m1) -> propagate_lagrangian newton s1 t2 mu b2 = Ret (s2, m2) ->
  exists t', Rabs (t' - (t1 + t2)) <= 2 * (eps / mean_motion mu s) /\ flow_at mu s t' s2.
Proof.
  intros NW Rg NE H1 H2. destruct (lag_delay eps newton mu s t1 b1 s1 m1 NW Rg NE H1) as [u1 [B1 F1]]. destruct (flow_integrals mu s u1 s1 Rg F1) as [I _]. pose proof I as [EE _].
  assert (MM : mean_motion mu s1 = mean_motion mu s) by (unfold mean_motion, sma; rewrite EE; reflexivity).
  destruct (lag_delay eps newton mu s1 t2 b2 s2 m2 NW (proj1 (same_regular mu s s1 I) Rg) ltac:(rewrite EE; exact NE) H2) as [u2 [B2 F2]]. rewrite MM in B2.
  exists (u1 + u2). split; [|apply (flow_comp mu s u1 s1 u2 s2 (proj1 Rg) F1 F2)]. replace (u1 + u2 - (t1 + t2)) with ((u1 - t1) + (u2 - t2)) by ring. eapply Rle_trans; [apply Rabs_triang|]. lra.
Qed.

(** ** universal variables: the position is that of the delayed motion, moved along the initial velocity by the delay *)
Lemma lag_u_delay_pos eps newton mu r v dt stm s' m : newton_within eps newton -> regular mu (r, v) -> 0 <= dt -> propagate_lagrangian_u newton (r, v) dt mu stm = Ret (s', m) ->
  exists t' s1, Rabs (t' - dt) <= eps / sqrt mu /\ flow_at mu (r, v) t' s1 /\ fst s' = vadd (fst s1) (vscal (dt - t') v).
Proof.
  intros NS Rg Dt. destruct (regular_r _ _ Rg) as [M [Hr Hh]]. cbn [fst snd] in *.
  unfold propagate_lagrangian_u. destruct (Rlt_dec dt 0) as [|_]; [lra|].
  change (2 / lag_R0 r - lag_V02 v / mu) with (al mu r v).
  change ((vx r * vx v + vy r * vy v + vz r * vz v) / lag_R0 r) with (vr0 r v).
  set (IG := if Rlt_dec 0 (al mu r v) then _ else _).
  destruct (newton _ IG (IG - 2 * PI) (IG + 2 * PI)) as [DS|] eqn:N; [|discriminate]. apply NS in N. cbn [fst] in N.
  change (lag_R0 r) with (norm r) in N. rewrite (kepDS_T mu r v dt Rg) in N. destruct (sqmu mu M) as [M1 M2]. pose proof (R0_pos r Hr) as RP.
  cbv zeta. intros H. injection H as H _. subst s'. cbn [fst]. exists (T mu r v DS / sqrt mu), (ustate mu r v DS). split; [|split].
  - replace (T mu r v DS / sqrt mu - dt) with ((T mu r v DS - sqrt mu * dt) * / sqrt mu) by (field; lra). rewrite Rabs_mult, (Rabs_pos_eq (/ _)) by (left; apply Rinv_0_lt_compat, M1).
    apply Rmult_le_compat_r; [left; apply Rinv_0_lt_compat, M1|exact N].
  - apply (ustate_flow mu r v M Hr Hh). field. lra.
  - unfold ustate. cbn [fst].
    replace (1 - DS * DS / lag_R0 r * stumpff_c (al mu r v * DS * DS)) with (uF mu r v DS) by (unfold uF, U2; change (lag_R0 r) with (R0 r); unfold Rdiv; ring).
    replace (dt - 1 / sqrt mu * DS * DS * DS * stumpff_s (al mu r v * DS * DS)) with (uG mu r v DS + (dt - T mu r v DS / sqrt mu)) by (unfold uG, T, U3; field; lra).
    apply vec_eq; unfold vadd, vscal; cbn [vx vy vz]; ring.
Qed.
Lemma lag_u_error eps newton mu s dt stm s' m s1 : newton_within eps newton -> regular mu s -> propagate_lagrangian_u newton s dt mu stm = Ret (s', m) -> flow_at mu s dt s1 ->
  norm (vsub (fst s') (fst s1)) <= 2 * top_speed mu s * (eps / sqrt mu).
Proof.
  assert (FW : forall s dt s' s1, 0 <= dt -> newton_within eps newton -> regular mu s -> propagate_lagrangian_u newton s dt mu stm = Ret (s', m) -> flow_at mu s dt s1 ->
    norm (vsub (fst s') (fst s1)) <= 2 * top_speed mu s * (eps / sqrt mu)).
  { clear s dt s' s1. intros [r v] dt s' s1 Dt NW Rg H F. destruct (lag_u_delay_pos eps newton mu r v dt stm s' m NW Rg Dt H) as [t' [sx [B [F' E]]]].
    destruct (flow_distance mu (r, v) dt t' s1 sx Rg F F') as [D _]. rewrite E.
    replace (vsub (vadd (fst sx) (vscal (dt - t') v)) (fst s1)) with (vadd (vsub (fst sx) (fst s1)) (vscal (dt - t') v)) by (apply vec_eq; unfold vadd, vsub, vscal; cbn; ring).
    eapply Rle_trans; [apply norm_triangle|]. rewrite norm_vscal. pose proof (speed_bound mu (r, v) Rg) as SB. cbn [snd] in SB. rewrite (Rabs_minus_sym dt t').
    pose proof (Rabs_pos (t' - dt)). pose proof (norm_nonneg v). assert (0 <= top_speed mu (r, v)) by apply sqrt_pos.
    assert (Rabs (t' - dt) * norm v <= eps / sqrt mu * top_speed mu (r, v)) by (apply Rmult_le_compat; assumption).
    assert (top_speed mu (r, v) * Rabs (t' - dt) <= top_speed mu (r, v) * (eps / sqrt mu)) by (apply Rmult_le_compat_l; assumption). lra. }
  intros NW Rg H F. destruct (Rlt_dec dt 0) as [N|N]; [|apply (FW s dt s' s1); [lra|assumption..]].
  destruct s as [r v]. rewrite (lag_u_backward newton mu r v dt stm N) in H.
  destruct (propagate_lagrangian_u newton (rev (r, v)) (- dt) mu stm) as [[sx mx]|e|] eqn:P; try discriminate.
  cbn [bind fst snd] in H. injection H as <- E. subst mx.
  assert (F2 : flow_at mu (rev (r, v)) (- dt) (rev s1)).
  { apply flow_rev; [|apply Rg]. rewrite rev_rev, Ropp_involutive. exact F. }
  pose proof (FW (rev (r, v)) (- dt) sx (rev s1) ltac:(lra) NW (regular_rev mu (r, v) Rg) P F2) as Q.
  assert (TS : top_speed mu (rev (r, v)) = top_speed mu (r, v)).
  { unfold top_speed, periapsis, ecc. rewrite energy_rev, ecc_vec_rev, ang_mom_rev, vneg_dot. reflexivity. }
  rewrite TS in Q. exact Q.
Qed.

(** ** propagate_keplerian *)
Lemma kp_delay eps newton mu s t s' : newton_within eps newton -> nonsingular mu s -> propagate_keplerian newton s t mu = Ret (Some s') ->
  exists t', Rabs (t' - t) <= eps / mean_motion mu s /\ flow_at mu s t' s'.
Proof.
  intros NW NS. destruct (kp_setup mu s NS) as [el [I [SE [V [M [SM [Ell Hyp]]]]]]]. pose proof (valid_sound _ V) as So.
  pose proof (mm_pos mu s M (proj1 (proj2 NS))) as NP. assert (NM : mean_motion mu s = sqrt (mu / Rabs (el_a el) ^ 3)) by (unfold mean_motion; rewrite SM; reflexivity).
  unfold propagate_keplerian. rewrite I. destruct (kp_anomaly newton el t mu) as [[f|]| |] eqn:K; try discriminate. intros H.
  assert (DD : forall d, Rabs d <= eps -> Rabs (t + d / mean_motion mu s - t) <= eps / mean_motion mu s).
  { intros d D. replace (t + d / mean_motion mu s - t) with (d * / mean_motion mu s) by (unfold Rdiv; ring). rewrite Rabs_mult, (Rabs_pos_eq (/ _)) by (left; apply Rinv_0_lt_compat, NP).
    apply Rmult_le_compat_r; [left; apply Rinv_0_lt_compat, NP|exact D]. }
  destruct (Rdichotomy _ _ (proj1 (proj2 NS))) as [Neg|Pos].
  - destruct (Ell Neg) as [A E]. assert (He : 0 <= el_e el < 1) by lra. rewrite (Rabs_right (el_a el)) in NM by lra.
    unfold kp_anomaly in K. rewrite (kp_n_pos mu (el_a el) M A) in K. destruct (Rlt_dec 0 (el_a el)); [|lra].
    unfold f2m in K. rewrite (f2e_half _ He), (e2m_eq _ He) in K. destruct (Rle_dec 1 (el_e el)); [lra|].
    unfold m2f in K. destruct (Rle_dec 1 (el_e el)); [lra|]. unfold m2e in K. destruct (Rle_dec 1 (el_e el)); [lra|]. cbv zeta in K.
    match type of K with context [newton ?g ?i ?l ?h] => destruct (newton g i l h) as [E1|] eqn:N; [|discriminate] end.
    apply NW in N. cbn [fst] in N. rewrite (e2f_half _ He) in K. injection K as <-.
    match type of N with Rabs (kepE _ (atan2 (sin ?M) _) _) <= _ => destruct (angle_turns M) as [k KK] end. rewrite KK in N.
    match type of N with Rabs ?x <= _ => set (d := x) in N end.
    exists (t + d / mean_motion mu s). split; [apply DD, N|].
    edestruct (ell_motion mu el _ _ E1 (t + d / mean_motion mu s) k M So (proj2 He) (ell_point_back _ He (el_f el)) (ell_point _ He E1)) as [FL S1].
    + unfold d, kepE. rewrite <- NM. field. lra.
    + rewrite (par2ic_ok mu _ M S1) in H. injection H as <-. rewrite <- SE in FL. exact FL.
  - destruct (Hyp Pos) as [A E]. destruct V as [_ [_ [_ [_ [_ [V1 V2]]]]]]. rewrite (Rabs_left (el_a el)) in NM by lra.
    destruct (f2h_turn _ _ E V1 V2) as [h0 [F0 P0]].
    unfold kp_anomaly in K. rewrite (kp_n_neg mu (el_a el) M A) in K. destruct (Rlt_dec 0 (el_a el)); [lra|].
    unfold f2n in K. rewrite F0, (h2n_eq _ E) in K. destruct (Rle_dec (el_e el) 1); [lra|].
    unfold n2f in K. destruct (Rle_dec (el_e el) 1); [lra|]. unfold n2h in K. destruct (Rle_dec (el_e el) 1); [lra|]. cbv zeta in K.
    match type of K with context [newton ?g ?i ?l ?h] => destruct (newton g i l h) as [h1|] eqn:N; [|discriminate] end.
    apply NW in N. cbn [fst] in N. destruct (h2f_f2h _ E h1) as [f' [Q1 [_ [_ Q2]]]]. rewrite Q1 in K. injection K as <-.
    match type of N with Rabs ?x <= _ => set (d := x) in N end.
    exists (t + d / mean_motion mu s). split; [apply DD, N|].
    edestruct (hyp_motion mu el f' h0 h1 (t + d / mean_motion mu s) M So E P0 Q2) as [FL S1].
    + unfold d, kepH. rewrite <- NM. field. lra.
    + rewrite (par2ic_ok mu _ M S1) in H. injection H as <-. rewrite <- SE in FL. exact FL.
Qed.
(** ** keplerian planets *)
Lemma eph_delay eps newton ref s mu t s' : newton_within eps newton -> regular mu s -> energy mu s <> 0 -> kpla_eph newton (ctor_state ref s mu) t = Ret (Some s') ->
  exists t', Rabs (t' - (t - ref) * 86400) <= eps / mean_motion mu s /\ flow_at mu s t' s'.
Proof. intros NW Rg NE H. destruct (eph_inv _ _ _ _ _ _ H) as [m E]. apply (lag_delay eps newton mu s _ false s' m NW Rg NE E). Qed.
(** ** such solvers *)
Lemma within_sound newton : newton_within 0 newton <-> newton_sound newton.
Proof.
  split; intros H f g lo hi x N.
  - specialize (H f g lo hi x N). pose proof (Rabs_pos (fst (f x))). destruct (Req_dec (fst (f x)) 0) as [Z|Z]; [exact Z|]. apply Rabs_pos_lt in Z. lra.
  - rewrite (H f g lo hi x N), Rabs_R0. lra.
Qed.
(** answers with the guess when that is good enough *)
Definition guess_root (eps : R) (f : R -> R * R) (g lo hi : R) : option R := if Rle_dec (Rabs (fst (f g))) eps then Some g else None.
Lemma guess_within eps : newton_within eps (guess_root eps).
Proof. intros f g lo hi x. unfold guess_root. destruct (Rle_dec (Rabs (fst (f g))) eps) as [L|]; [|discriminate]. intros H. injection H as <-. exact L. Qed.
Lemma guess_not_sound : ~ newton_sound (guess_root (1 / 1000)).
Proof.
  intros H. specialize (H (fun x => (x, 1)) (1 / 1000) 0 1 (1 / 1000)). unfold guess_root in H. cbn [fst] in H. rewrite Rabs_pos_eq in H by lra.
  destruct (Rle_dec (1 / 1000) (1 / 1000)); [|lra]. specialize (H eq_refl). lra.
Qed.
Lemma circle_numbers : mean_motion 1 (circle 0) = 1 /\ top_speed 1 (circle 0) = 1 /\ top_pull 1 (circle 0) = 1.
Proof.
  assert (C0 : circle 0 = (V 1 0 0, V 0 1 0)) by (unfold circle; rewrite cos_0, sin_0, Ropp_0; reflexivity). rewrite C0.
  assert (N1 : norm (V 1 0 0) = 1) by (apply norm_unique; [lra|unfold dot; cbn; ring]).
  assert (EN : energy 1 (V 1 0 0, V 0 1 0) = - (1 / 2)) by (unfold energy; cbn [fst snd]; rewrite N1; unfold dot; cbn; field).
  assert (EC : ecc 1 (V 1 0 0, V 0 1 0) = 0).
  { unfold ecc. apply norm_unique; [lra|]. unfold ecc_vec, ang_mom. cbn [fst snd]. rewrite N1. unfold dot, vsub, vscal, cross. cbn [vx vy vz]. field. }
  assert (PE : periapsis 1 (V 1 0 0, V 0 1 0) = 1). { unfold periapsis. rewrite EC. unfold ang_mom, dot, cross. cbn [fst snd vx vy vz]. field. }
  split; [|split].
  - unfold mean_motion, sma. rewrite EN. replace (- (1) / (2 * - (1 / 2))) with 1 by field. rewrite Rabs_R1. replace (1 / 1 ^ 3) with 1 by field. apply sqrt_1.
  - unfold top_speed. rewrite EN, PE. replace (2 * (- (1 / 2) + 1 / 1)) with 1 by field. apply sqrt_1.
  - unfold top_pull. rewrite PE. field.
Qed.
Lemma circle_within eps newton t b s' m : newton_within eps newton -> propagate_lagrangian newton (circle 0) t 1 b = Ret (s', m) ->
  norm (vsub (fst s') (V (cos t) (sin t) 0)) <= eps /\ norm (vsub (snd s') (V (- sin t) (cos t) 0)) <= eps.
Proof.
  intros NW H. destruct circle_numbers as [A [B C]]. pose proof circle_elliptic as [Rg Neg].
  pose proof (flow_of_solution 1 (circle 0) t circle ltac:(lra) circle_solves eq_refl) as F.
  pose proof (lag_error eps newton 1 (circle 0) t b s' m (circle t) NW Rg ltac:(lra) H F) as Q. rewrite A, B, C in Q.
  replace (1 * (eps / 1)) with eps in Q by field. exact Q.
Qed.
