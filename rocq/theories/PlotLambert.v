(** * add_lambert on a solved lambert_problem; witnesses *)
From Coq Require Import Reals ZArith List Lra Lia Psatz.
From Coquelicot Require Import Coquelicot.
From Verif Require Import Outcome Vec3 TwoBodyModel TwoBodySpec TwoBodyProofs FlowMain BracketProofs LambertModel LambertReal LambertProofs LambertSpec LambertVec LambertTof LambertDer LambertMono LambertMain PlotModel PlotSpec PlotProofs.
Import ListNotations.
Open Scope R_scope.

Lemma sv_inj a b : sv a = sv b -> a = b.
Proof. destruct a, b. unfold sv; cbn. intros H. injection H as -> -> ->. reflexivity. Qed.
Lemma plot_solved r0 r1 tof mu mr L x l N units : vz (cross r0 r1) <> 0 -> lambert_r r0 r1 tof mu false mr = Ret L -> nth_error (l_x L) 0 = Some (Some x) -> -1 < x ->
  lp_r0 l = r0 -> lp_r1 l = r1 -> lp_mu l = mu -> (0 <= lp_nmax l)%Z -> map sv (lp_v0 l) = l_v0 L -> (2 <= N)%Z -> units <> 0 ->
  exists pts theta v0 v1 t, add_lambert l N 0 units = Ret (Some pts) /\ length pts = Z.to_nat N /\ nth_error (lp_v0 l) 0 = Some v0 /\ nth_error (l_v1 L) 0 = Some (sv v1) /\
    0 < t /\ 0 < theta < 2 * PI /\ sweeps mu (r0, v0) theta t (r1, v1) /\
    nth_error pts 0 = Some (vscal (/ units) r0) /\ nth_error pts (Z.to_nat N - 1) = Some (vscal (/ units) r1) /\
    forall i, (i < Z.to_nat N)%nat -> exists ti si, 0 <= ti <= t /\ sweeps mu (r0, v0) (INR i * theta / IZR (N - 1)) ti si /\ nth_error pts i = Some (vscal (/ units) (fst si)).
Proof.
  intros Hc H HX X E0 E1 Em Nm Ev HN U. destruct (lambert_pos _ _ _ _ _ _ _ H) as [Ht Hm].
  assert (A : exists v0 v1 t, nth_error (l_v0 L) 0 = Some (sv v0) /\ nth_error (l_v1 L) 0 = Some (sv v1) /\ flow_at mu (r0, v0) t (r1, v1) /\ 0 < t /\ 0 < vz (ang_mom (r0, v0)) /\ (energy mu (r0, v0) < 0 -> t < period mu (r0, v0))).
  { destruct (lambert_conic _ _ _ _ _ _ _ _ _ Hc H HX) as [a0 [a1 [A0 [A1 [_ [En Hz]]]]]]. cbv iota in Hz.
    destruct (Rlt_dec x 1) as [X1|X1].
    - destruct (lambert_turns _ _ _ _ _ _ _ _ _ Hc H HX (conj X X1)) as [v0 [v1 [t [V0 [V1 [F Tr]]]]]].
      assert (Q : v0 = a0) by (rewrite V0 in A0; injection A0; intros; apply sv_inj; unfold sv; congruence). subst a0. cbn in Tr.
      exists v0, v1, t. split; [exact V0|]. split; [exact V1|]. split; [exact F|]. split; [lra|]. split; [lra|]. intros _. lra.
    - destruct (lambert_flow _ _ _ _ _ _ _ _ _ Hc H HX X (fun _ => eq_refl)) as [v0 [v1 [V0 [V1 F]]]].
      assert (Q : v0 = a0) by (rewrite V0 in A0; injection A0; intros; apply sv_inj; unfold sv; congruence). subst a0.
      eexists v0, v1, _. split; [exact V0|]. split; [exact V1|]. split; [exact F|]. split; [|split; [lra|]].
      + apply Rmult_lt_0_compat; [|apply time_unit_pos; [apply lambert_nd; exact Hc|exact Hm]]. apply tau_pos; [|cbn; lia|exact X]. exact (proj2 (proj2 (tl_sq r0 r1 false Hc))).
      + intros Neg. exfalso. rewrite En in Neg. pose proof (lambert_nd _ _ Hc) as SP. assert (0 <= mu * (x * x - 1) / semiperimeter r0 r1) by (apply Rdiv_le_0_compat; [apply Rmult_le_pos; nra|exact SP]).
        replace (- mu * (1 - x * x) / semiperimeter r0 r1) with (mu * (x * x - 1) / semiperimeter r0 r1) in Neg by (field; lra). lra. }
  destruct A as [v0 [v1 [t [V0 [V1 [F [Tp [Hz Pd]]]]]]]].
  assert (W : nth_error (lp_v0 l) 0 = Some v0).
  { rewrite <- Ev in V0. destruct (lp_v0 l) as [|a q]; cbn in V0; [discriminate|]. cbn. f_equal. apply sv_inj. injection V0; intros. unfold sv. congruence. }
  pose proof (plot_lambert l N units v0 v1 t HN U Nm W) as PL. cbv zeta in PL. rewrite E0, E1, Em in PL. destruct (PL Hm F Tp Hz Pd) as [pts [th [A [B [C [D [E [G I]]]]]]]].
  exists pts, th, v0, v1, t. repeat (split; [assumption|]). exact I.
Qed.

(** ** Witnesses *)
Definition hyp_s : state := (V 1 0 0, V 0 2 0).
Lemma norm_e1 : norm (V 1 0 0) = 1.
Proof. apply norm_unique; [lra|]. unfold dot; cbn [vx vy vz]. lra. Qed.
Lemma beyond_witness : exists mu s u s', hyperbolic mu s /\ theta_row mu s u = Some s' /\ forall t, ~ flow_at mu s t s'.
Proof.
  assert (Rg : regular 1 hyp_s). { split; [lra|]. unfold hyp_s, ang_mom, cross, vzero; cbn [fst snd vx vy vz]. intros H. injection H. intros. lra. }
  exists 1, hyp_s, PI. destruct (theta_beyond 1 hyp_s PI Rg) as [s' [E N]].
  - unfold dir. rewrite cos_PI, sin_PI. unfold ecc_vec, unit_vec. change (fst hyp_s) with (V 1 0 0). rewrite norm_e1. unfold hyp_s, ang_mom, dot, vsub, vadd, vscal, cross; cbn [fst snd vx vy vz]. lra.
  - exists s'. split; [split; [exact Rg|]|split; assumption]. unfold energy, hyp_s. cbn [fst snd]. rewrite norm_e1. unfold dot; cbn [vx vy vz]. lra.
Qed.
(** clockwise on the unit circle, three quarters of a revolution *)
Definition cw_circle (t : R) : state := (V (cos t) (- sin t) 0, V (- sin t) (- cos t) 0).
Lemma cw_norm t : norm (V (cos t) (- sin t) 0) = 1.
Proof. apply norm_unique; [lra|]. unfold dot; cbn [vx vy vz]. pose proof (sin2_cos2 t) as I. unfold Rsqr in I. lra. Qed.
Lemma cw_solves : two_body 1 m_infty p_infty cw_circle.
Proof.
  intros t _ _. unfold cw_circle. cbn [fst snd]. split; [|split].
  - apply norm_pos_nz. rewrite cw_norm. lra.
  - split; [|split]; cbn [vx vy vz]; auto_derive; try exact I; ring.
  - unfold gravity. rewrite cw_norm. split; [|split]; cbn [vx vy vz vscal]; auto_derive; try exact I; field.
Qed.
Lemma cw_elliptic : elliptic 1 (cw_circle 0).
Proof.
  unfold cw_circle. rewrite cos_0, sin_0. split; [split; [lra|]|].
  - unfold ang_mom, cross, vzero; cbn [fst snd vx vy vz]. intros H. injection H. intros. lra.
  - unfold energy. cbn [fst snd]. replace (V 1 (- 0) 0) with (V 1 0 0) by (apply vec_eq; cbn; lra). rewrite norm_e1. unfold dot; cbn [vx vy vz]. lra.
Qed.
Lemma cw_flow t : flow_at 1 (cw_circle 0) t (cw_circle t).
Proof. apply flow_of_solution; [lra|exact cw_solves|reflexivity]. Qed.
Lemma cw_period : period 1 (cw_circle 0) = 2 * PI.
Proof.
  unfold period, sma, energy, cw_circle. cbn [fst snd]. rewrite cw_norm. rewrite cos_0, sin_0. unfold dot; cbn [vx vy vz].
  match goal with |- 2 * PI * sqrt ?e = _ => replace e with 1 by field end. rewrite sqrt_1. ring.
Qed.
Lemma clockwise_witness : exists l v0 v1 t pts p, nth_error (lp_v0 l) 0 = Some v0 /\ 0 < t < period (lp_mu l) (lp_r0 l, v0) /\ flow_at (lp_mu l) (lp_r0 l, v0) t (lp_r1 l, v1) /\
  add_lambert l 60 0 1 = Ret (Some pts) /\ nth_error pts 59 = Some p /\ p <> lp_r1 l.
Proof.
  set (l := mk_lp (fst (cw_circle 0)) (fst (cw_circle (3 * (PI / 2)))) 1 0 [snd (cw_circle 0)]). pose proof PI_RGT_0 as PP.
  assert (F : flow_at 1 (lp_r0 l, snd (cw_circle 0)) (3 * (PI / 2)) (lp_r1 l, snd (cw_circle (3 * (PI / 2))))) by exact (cw_flow (3 * (PI / 2))).
  assert (El : elliptic 1 (lp_r0 l, snd (cw_circle 0))) by exact cw_elliptic.
  assert (Tp : 0 < 3 * (PI / 2) < period 1 (lp_r0 l, snd (cw_circle 0))) by (change (lp_r0 l, snd (cw_circle 0)) with (cw_circle 0); rewrite cw_period; lra).
  destruct (plot_clockwise l 60 1 (snd (cw_circle 0)) (snd (cw_circle (3 * (PI / 2)))) (3 * (PI / 2))) as [pts [p [A [B C]]]]; try assumption; try lia; try lra; try reflexivity.
  - unfold l, cw_circle, ang_mom, cross; cbn [fst snd vx vy vz lp_r0]. rewrite cos_0, sin_0. lra.
  - unfold l, cw_circle, cross; cbn [fst snd vx vy vz lp_r0 lp_r1]. rewrite cos_0, sin_0, sin_3PI2. lra.
  - exists l, (snd (cw_circle 0)), (snd (cw_circle (3 * (PI / 2)))), (3 * (PI / 2)), pts, p. split; [reflexivity|]. split; [exact Tp|]. split; [exact F|]. split; [exact A|].
    split; [exact B|]. intros Q. apply C. rewrite Q. apply vec_eq; unfold vscal; cbn [vx vy vz]; field.
Qed.
(** the documented example: a quarter of the circle *)
Lemma quarter_row : theta_v (V 1 0 0, V 0 1 0) [0; PI / 2] 1 false = Ret (Some [(V 1 0 0, V 0 1 0); (V 0 1 0, V (-1) 0 0)]).
Proof.
  assert (CR : cross (V 1 0 0) (V 0 1 0) = V 0 0 1) by (apply vec_eq; unfold cross; cbn; ring).
  assert (N1 : norm (V 0 0 1) = 1) by (apply norm_unique; [lra|unfold dot; cbn [vx vy vz]; lra]).
  assert (D0 : dot (V 1 0 0) (V 0 1 0) = 0) by (unfold dot; cbn [vx vy vz]; lra).
  unfold theta_v. cbn [map all_some]. unfold theta_row. rewrite CR, N1, norm_e1, D0.
  assert (H1 : 1 * 1 / 1 = 1) by field. unfold PartialReal.psqrt, PartialReal.pdiv.
  destruct (Rle_dec 0 1) as [_|]; [|lra]. cbn [PartialReal.obind]. rewrite sqrt_1. destruct (Req_EM_T 1 0) as [|_]; [lra|]. cbn [PartialReal.obind]. rewrite H1. destruct (Rle_dec 0 1) as [_|]; [|lra]. cbn [PartialReal.obind]. rewrite sqrt_1.
  rewrite cos_0, sin_0, cos_PI2, sin_PI2. destruct (Req_EM_T 1 0) as [|_]; [lra|].
  destruct (Req_EM_T (1 + (1 - 1) * 1 - 1 * (0 / 1) * 0) 0) as [|_]; [lra|]. destruct (Req_EM_T (1 + (1 - 1) * 0 - 1 * (0 / 1) * 1) 0) as [|_]; [lra|]. cbn [PartialReal.obind].
  do 3 f_equal; [|f_equal]; f_equal; apply vec_eq; unfold vadd, vscal; cbn [vx vy vz]; field.
Qed.
Lemma sol_check l N sol units : (2 * lp_nmax l < sol)%Z -> add_lambert l N sol units = Throw InvalidArgument.
Proof. intros H. unfold add_lambert. destruct (Z.ltb_spec (lp_nmax l * 2) sol); [reflexivity|lia]. Qed.
