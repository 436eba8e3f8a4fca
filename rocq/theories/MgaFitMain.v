(** * The gravity assist problem: construction, bounds, examples *)
From Coq Require Import Reals List ZArith Lra Lia Bool Psatz.
From Verif Require Import Outcome PartialReal Vec3 RealLib KepModel KepSpec TwoBodySpec BracketProofs FlowMain TwoBodyProofs TwoBodyModel KplaModel MgaModel MgaSpec MgaProofs FlybyModel FlybySpec FlybyProofs LambertModel LambertReal LambertSpec LambertVec LambertProofs LambertTime LambertTof LambertMono LambertMain DirectSpec DirectMain MgaFitModel MgaFitSpec MgaFitProofs.
Import ListNotations.
Open Scope R_scope.

(** ** A chain of equal legs: triangles with sides 25, 25 and 30, turned by the angle with cosine c and sine s *)
Definition hub (c s : R) : vec := V (25 * c) (25 * s) 0.
Section Chain.
Variables c s : R. Hypothesis U : c * c + s * s = 1.
Let c' := (7 * c - 24 * s) / 25. Let s' := (24 * c + 7 * s) / 25.
Let a := hub c s. Let b := hub c' s'.
Lemma next_unit : c' * c' + s' * s' = 1.
Proof. unfold c', s'. transitivity (c * c + s * s); [field|]. exact U. Qed.
Lemma hub_norm x y : x * x + y * y = 1 -> norm (hub x y) = 25.
Proof. intros H. apply norm_unique; [lra|]. symmetry. unfold dot, hub. cbn [vx vy vz]. transitivity (625 * (x * x + y * y)); [ring|]. rewrite H. ring. Qed.
Lemma chain_cross : vz (cross a b) = 600.
Proof. unfold a, b, hub, cross, c', s'. cbn [vx vy vz]. transitivity (600 * (c * c + s * s)); [field|]. rewrite U. ring. Qed.
Lemma chain_chord : norm (vsub b a) = 30.
Proof. apply norm_unique; [lra|]. symmetry. unfold a, b, hub, vsub, dot, c', s'. cbn [vx vy vz]. transitivity (900 * (c * c + s * s)); [field|]. rewrite U. ring. Qed.
Lemma chain_semi : semiperimeter a b = 40.
Proof. unfold semiperimeter. rewrite chain_chord. unfold a, b. rewrite !hub_norm by (exact U || exact next_unit). field. Qed.
Lemma chain_unit : time_unit a b 32000 = 1.
Proof. unfold time_unit. rewrite chain_semi. replace (40 * 40 * 40 / (2 * 32000)) with 1 by field. apply sqrt_1. Qed.
Lemma chain_lambda : transfer_lambda a b false = 1 / 2.
Proof. unfold transfer_lambda. rewrite chain_chord, chain_semi, chain_cross. cbv zeta. replace (1 - 30 / 40) with ((1 / 2) * (1 / 2)) by field. rewrite sqrt_square by lra. destruct (Rlt_dec 0 _) as [H|H]; lra. Qed.
Lemma chain_vel : lv0 a b false 32000 0 = vscal (8 * sqrt 3) (V (c - 2 * s) (s + 2 * c) 0) /\ lv1 a b false 32000 0 = vscal (8 * sqrt 3) (V (- c' - 2 * s') (- s' + 2 * c') 0).
Proof.
  assert (A1 : vscal (/ 25) a = V c s 0) by (unfold a, hub, vscal; cbn [vx vy vz]; f_equal; field). assert (B1 : vscal (/ 25) b = V c' s' 0) by (unfold b, hub, vscal; cbn [vx vy vz]; f_equal; field).
  assert (X : cross (V c s 0) (V c' s' 0) = V 0 0 (24 / 25)). { unfold cross. cbn [vx vy vz]. f_equal; try ring. unfold c', s'. transitivity (24 / 25 * (c * c + s * s)); [field|]. rewrite U. ring. }
  assert (NX : norm (V 0 0 (24 / 25)) = 24 / 25) by (apply norm_unique; [lra|unfold dot; cbn [vx vy vz]; ring]).
  assert (IH : vscal (/ (24 / 25)) (V 0 0 (24 / 25)) = V 0 0 1) by (unfold vscal; cbn [vx vy vz]; f_equal; field).
  assert (MK : sqrt 32000 * sqrt (40 / 2) = 800) by (rewrite <- sqrt_mult by lra; replace (32000 * (40 / 2)) with (800 * 800) by field; apply sqrt_square; lra).
  assert (S0 : (30 + 25 + 25) / 2 = 40) by field. assert (L0 : sqrt (1 - 30 / 40) = 1 / 2) by (replace (1 - 30 / 40) with ((1 / 2) * (1 / 2)) by field; apply sqrt_square; lra).
  assert (R0' : (25 - 25) / 30 = 0) by field. assert (S1 : sqrt (1 - 0 * 0) = 1) by (replace (1 - 0 * 0) with 1 by ring; apply sqrt_1).
  assert (Y0 : sqrt (1 - 1 * (1 / 2) * (1 * (1 / 2)) + 1 * (1 / 2) * (1 * (1 / 2)) * 0 * 0) = sqrt 3 / 2).
  { replace (1 - 1 * (1 / 2) * (1 * (1 / 2)) + 1 * (1 / 2) * (1 * (1 / 2)) * 0 * 0) with (3 / (2 * 2)) by field. rewrite sqrt_div_alt, sqrt_square by lra. reflexivity. }
  unfold lv0, lv1. rewrite chain_chord. replace (norm a) with 25 by (symmetry; apply hub_norm; exact U). replace (norm b) with 25 by (symmetry; apply hub_norm; exact next_unit).
  rewrite A1, B1, X, NX, IH, S0, L0, R0', S1. cbn [vz]. destruct (Rlt_dec 1 0) as [W|_]; [lra|]. cbn [xorb]. rewrite Y0, MK. unfold cross, vadd, vscal. cbn [vx vy vz]. split; f_equal; field.
Qed.
Definition leg_time : R := PI / 3 + sqrt 3 / 4.
Lemma leg_time_pos : 0 < leg_time. Proof. unfold leg_time. pose proof PI_RGT_0. pose proof (sqrt_pos 3). lra. Qed.
Lemma tau_half : tau (1 / 2) 0 0 = leg_time.
Proof.
  rewrite tau_at0. replace (1 - 1 / 2 * (1 / 2)) with (3 / (2 * 2)) by field. assert (E1 : acos (1 / 2) = PI / 3) by (rewrite <- cos_PI3; apply acos_cos; pose proof PI_RGT_0; lra). assert (E2 : sqrt (3 / (2 * 2)) = sqrt 3 / 2) by (rewrite sqrt_div_alt, sqrt_square by lra; reflexivity). rewrite E1, E2. unfold leg_time. field.
Qed.
Lemma chain_lambert : exists L, lambert_r a b leg_time 32000 false 0 = Ret L /\ l_x L = [Some 0] /\ l_v0 L = [sv (lv0 a b false 32000 0)] /\ l_v1 L = [sv (lv1 a b false 32000 0)] /\
  x2tof RA (l_lambda L) (Some 0) 0 = Ret (nd_time RA (l_s L) (Some 32000) (Some leg_time)).
Proof.
  assert (Hc : vz (cross a b) <> 0) by (rewrite chain_cross; lra). destruct (lambert_min_energy a b 32000 false 0 Hc ltac:(lra) ltac:(unfold u32; lia)) as [L [H [A [B C]]]].
  rewrite chain_lambda, tau_half, chain_unit, Rmult_1_r in H. assert (HX : nth_error (l_x L) 0 = Some (Some 0)) by (rewrite B; reflexivity).
  destruct (lambert_entry a b leg_time 32000 false 0 L 0 0 Hc leg_time_pos ltac:(lra) H HX) as [V0 V1].
  destruct (lambert_shape RA _ _ _ _ _ 0%Z _ r_u32_ok ltac:(unfold u32; lia) H) as [_ [S0 [S1 _]]]. rewrite A in S0, S1.
  exists L. split; [exact H|]. split; [exact B|]. split; [destruct (l_v0 L) as [|p [|q l]]; cbn [length nth_error] in *; [lia|congruence|lia]|]. split; [destruct (l_v1 L) as [|p [|q l]]; cbn [length nth_error] in *; [lia|congruence|lia]|].
  assert (EL : l_lambda L = Some (transfer_lambda a b false) /\ l_s L = Some (semiperimeter a b)).
  { rewrite (lambert_r_eq a b leg_time 32000 false 0 Hc leg_time_pos ltac:(lra)) in H. destruct (r_u32 _) as [q| |]; cbn [bind] in H; try discriminate. destruct (solved _ _ _ _ _ _ _) as [w| |]; cbn [bind] in H; try discriminate. injection H as <-. split; reflexivity. }
  destruct EL as [-> ->]. rewrite (nd_time_r a b 32000 leg_time) by (rewrite ?chain_semi; lra). rewrite chain_unit, chain_lambda. destruct (x2tof_tau (1 / 2) ltac:(lra) 0 0 ltac:(lra) ltac:(lra) ltac:(lia)) as [t [E [_ T]]]. rewrite E, T; [|rewrite Rabs_left; lra]. rewrite tau_half. do 2 f_equal. field.
Qed.
End Chain.

(** ** Two legs with a fly-by and an insertion *)
Definition c1 : R := (7 * 1 - 24 * 0) / 25. Definition s1 : R := (24 * 1 + 7 * 0) / 25.
Definition c2 : R := (7 * c1 - 24 * s1) / 25. Definition s2 : R := (24 * c1 + 7 * s1) / 25.
(** the velocities at the ends of the two legs *)
Definition ex_a0 : vec := vscal (8 * sqrt 3) (V (1 - 2 * 0) (0 + 2 * 1) 0). Definition ex_b0 : vec := vscal (8 * sqrt 3) (V (- c1 - 2 * s1) (- s1 + 2 * c1) 0).
Definition ex_a1 : vec := vscal (8 * sqrt 3) (V (c1 - 2 * s1) (s1 + 2 * c1) 0). Definition ex_b1 : vec := vscal (8 * sqrt 3) (V (- c2 - 2 * s2) (- s2 + 2 * c2) 0).
Definition ex_pl (i : nat) : state :=
  match i with
  | O => (hub 1 0, vsub ex_a0 (V 3 4 0))
  | 1%nat => (hub c1 s1, vsub ex_b0 (vsub ex_a1 ex_b0))
  | _ => (hub c2 s2, vadd ex_b1 (V 0 0 12))
  end.
Definition ex_body (i : nat) : body := mk_body (fun _ => Ret (Some (ex_pl i))) 32000 25 2.
Definition ex_P : mga := mk_mga [ex_body 0; ex_body 1; ex_body 2] (0, 10) (TDirect [(0, 1); (0, 1)]) (2 / 1000 * 1000) true (Some (7 / 25, 2)).
Definition ex_x : list R := [0; leg_time / 86400; leg_time / 86400].
Lemma ex_u1 : c1 * c1 + s1 * s1 = 1. Proof. unfold c1, s1. field. Qed.
Lemma day_leg : leg_time / 86400 * day2sec = leg_time. Proof. unfold day2sec. field. Qed.
Lemma sqrt3 : sqrt 3 * sqrt 3 = 3. Proof. apply sqrt_sqrt. lra. Qed.
Lemma ex_delta : vsub ex_a1 ex_b0 = vscal (16 * sqrt 3) (V c1 s1 0).
Proof. unfold ex_a1, ex_b0, vsub, vscal. cbn [vx vy vz]. f_equal; ring. Qed.
Lemma ex_delta_norm : norm (vsub ex_a1 ex_b0) = 16 * sqrt 3.
Proof. rewrite ex_delta, norm_vscal. rewrite (norm_unique (V c1 s1 0) 1); [|lra|pose proof ex_u1; unfold dot; cbn [vx vy vz]; lra]. rewrite Rabs_right; [ring|]. pose proof (sqrt_pos 3). lra. Qed.
Lemma s3_pos : 0 < sqrt 3. Proof. apply sqrt_lt_R0. lra. Qed.
Lemma ex_flyby : fb_dv (vsub ex_b0 (snd (ex_pl 1))) (vsub ex_a1 (snd (ex_pl 1))) 25 2 = Some (16 * sqrt 3).
Proof.
  set (d := vsub ex_a1 ex_b0). assert (A : vsub ex_b0 (snd (ex_pl 1)) = d) by (cbn [ex_pl snd]; fold d; apply vec_eq; unfold vsub; cbn [vx vy vz]; ring). assert (B : vsub ex_a1 (snd (ex_pl 1)) = vscal 2 d) by (cbn [ex_pl snd]; unfold d; apply vec_eq; unfold vsub, vscal; cbn [vx vy vz]; ring).
  rewrite A, B. pose proof ex_delta_norm as N. fold d in N. pose proof s3_pos as S3. assert (N2 : norm (vscal 2 d) = 32 * sqrt 3) by (rewrite norm_vscal, N, Rabs_right by lra; ring).
  rewrite dv_some; try lra; try (apply norm_pos_nz; lra).
  assert (Q : ang d (vscal 2 d) = 0). { symmetry; apply angle_ang; [apply norm_pos_nz; lra|apply norm_pos_nz; lra|]. split; [pose proof PI_RGT_0; lra|]. replace (dot d (vscal 2 d)) with (2 * dot d d) by (unfold dot, vscal; cbn [vx vy vz]; ring). rewrite <- (norm_sq d), N, N2, cos_0. ring. }
  rewrite Q. pose proof (turnf_bound 25 2 (dot d d) ltac:(lra) ltac:(lra) (dot_nonneg _)) as T. unfold dvf. destruct (Rlt_dec 0 _) as [L|L]; [lra|].
  rewrite N, N2. f_equal. rewrite Rabs_right; lra.
Qed.
Lemma optv_svv v : optv (sv v) = Some v. Proof. destruct v. reflexivity. Qed.
Lemma ex_legs : all_lambert 32000 [Some (ex_pl 0); Some (ex_pl 1); Some (ex_pl 2)] [leg_time / 86400; leg_time / 86400] =
  Ret [mk_lleg (Some (hub 1 0)) (Some ex_a0) (Some ex_b0); mk_lleg (Some (hub c1 s1)) (Some ex_a1) (Some ex_b1)].
Proof.
  destruct (chain_lambert 1 0 ltac:(lra)) as [L0 [H0 [_ [A0 [B0 _]]]]]. destruct (chain_vel 1 0 ltac:(lra)) as [VA0 VB0]. fold c1 s1 in *.
  destruct (chain_lambert c1 s1 ex_u1) as [L1 [H1 [_ [A1 [B1 _]]]]]. destruct (chain_vel c1 s1 ex_u1) as [VA1 VB1]. fold c2 s2 in *.
  unfold lambert_r in H0, H1. cbn [all_lambert]. rewrite day_leg. cbn [pos3 ex_pl fst]. rewrite H0. cbn [bind]. rewrite A0, B0. cbn [bind]. rewrite H1. cbn [bind]. rewrite A1, B1. cbn [bind].
  rewrite !optv_svv, VA0, VB0, VA1, VB1. reflexivity.
Qed.
Lemma ex_fitness : fitness ex_P ex_x = Ret [Some (12 + 16 * sqrt 3); Some (2 * leg_time / 86400)].
Proof.
  unfold fitness, compute_dvs. cbn [ex_P m_tofs enc_of]. change (n_legs ex_P) with 2%nat. unfold ex_x. cbn [decode_tofs bind nan_tofs tl].
  change (all_eph (m_seq ex_P) (cumsum 0 [0; leg_time / 86400; leg_time / 86400])) with (@Ret (list (option state)) [Some (ex_pl 0); Some (ex_pl 1); Some (ex_pl 2)]). cbn [bind]. change (common_mu ex_P) with 32000. rewrite ex_legs. cbn [bind].
  cbn [d_launch d_fb d_arrival d_T tl m_seq ex_P all_flybys hd last vel3 g_v0 g_v1 m_ins m_vinf osub obind m_multi ex_body b_mu b_safe].
  rewrite ex_flyby. cbn [fold_left oadd obind py_max0].
  assert (N0 : norm (vsub (snd (ex_pl 0)) ex_a0) = 5) by (apply norm_unique; [lra|]; cbn [ex_pl snd]; unfold dot, vsub; cbn [vx vy vz]; ring).
  assert (N2 : norm (vsub (snd (ex_pl 2)) ex_b1) = 12) by (apply norm_unique; [lra|]; cbn [ex_pl snd]; unfold dot, vsub, vadd; cbn [vx vy vz]; ring).
  rewrite N0, N2.
  assert (I : insertion 25 (7 / 25) 2 12 = Some 9).
  { unfold insertion. rewrite !pdiv_some by lra. cbn [obind]. rewrite !psqrt_some by lra. cbn [obind]. replace (12 * 12 + 2 * 25 / 2) with (13 * 13) by field. replace (2 * 25 / 2 - 25 / 2 * (1 - 7 / 25)) with (4 * 4) by field. rewrite !sqrt_square by lra. f_equal. rewrite Rabs_right; lra. }
  rewrite I. cbn [oadd obind]. rewrite Rmax_right by lra. unfold py_sum. cbn [fold_left]. apply f_equal. apply f_equal2; [apply f_equal; field|]. apply f_equal2; [apply f_equal; field|reflexivity].
Qed.
Lemma ex_ok : mga_ok ex_P.
Proof.
  unfold mga_ok. change (n_legs ex_P) with 2%nat. cbn [ex_P m_seq m_vinf m_tofs m_ins length nth ex_body b_mu]. split; [lia|]. split; [lra|]. split; [|split; [reflexivity|lra]].
  intros i Hi. replace i with 1%nat by lia. cbn. lra.
Qed.
Lemma ex_durations : durations (enc_of (m_tofs ex_P)) ex_x 0 [leg_time / 86400; leg_time / 86400].
Proof. reflexivity. Qed.
Lemma ex_solved : all_within 0 ex_P 0 [leg_time / 86400; leg_time / 86400].
Proof.
  intros i a b Hi A B. change (n_legs ex_P) with 2%nat in Hi. change (common_mu ex_P) with 32000. unfold converged. change 86400 with day2sec.
  assert (E : exists c s, c * c + s * s = 1 /\ fst a = hub c s /\ fst b = hub ((7 * c - 24 * s) / 25) ((24 * c + 7 * s) / 25)).
  { destruct i as [|[|i]]; [|exists c1, s1|lia]; [exists 1, 0|]; cbn [ex_P m_seq nth ex_body b_eph] in A, B; injection A as <-; injection B as <-; (split; [lra || exact ex_u1|split; reflexivity]). }
  destruct E as [c [s [U [-> ->]]]]. assert (ET : nth i [leg_time / 86400; leg_time / 86400] 0 * day2sec = leg_time) by (destruct i as [|[|i]]; [apply day_leg|apply day_leg|lia]). unfold day2sec in ET. unfold day2sec. rewrite ET.
  intros L x H X. destruct (chain_lambert c s U) as [L' [H' [X' [_ [_ T]]]]]. assert (L' = L) by congruence. subst L'. rewrite X' in X. cbn [nth_error] in X. injection X as <-. split; [lra|]. split; [lra|]. clear T. rewrite chain_lambda, tau_half, chain_unit, Rmult_1_r, Rminus_eq_0, Rabs_R0 by exact U. lra.
Qed.
Theorem mga_example : mga_ctor [ex_body 0; ex_body 1; ex_body 2] (0, 10) (TDirect [(0, 1); (0, 1)]) (2 / 1000) true true (Some (7 / 25)) (Some 2) = Ret ex_P /\ mga_ok ex_P /\
  durations (enc_of (m_tofs ex_P)) ex_x 0 [leg_time / 86400; leg_time / 86400] /\ all_within 0 ex_P 0 [leg_time / 86400; leg_time / 86400] /\
  fitness ex_P ex_x = Ret [Some (12 + 16 * sqrt 3); Some (2 * leg_time / 86400)].
Proof.
  split; [|split; [exact ex_ok|split; [exact ex_durations|split; [exact ex_solved|exact ex_fitness]]]].
  unfold mga_ctor. cbn [existsb ex_body b_muc length Nat.sub Nat.eqb negb fst snd]. destruct (Req_EM_T 32000 32000) as [_|N]; [|congruence]. destruct (Rlt_dec 1 0) as [W|_]; [lra|]. reflexivity.
Qed.
(** the spacecraft leaves with the first leg and is at the second planet when it ends *)
Lemma ex_launch newton : exists eph, to_planet newton ex_P ex_x = Ret eph /\ eph 0 = Ret (Some (hub 1 0, ex_a0)).
Proof.
  unfold to_planet, compute_dvs. change (length ex_x) with 3%nat. change (length (fst (get_bounds ex_P))) with 3%nat. cbn [negb Nat.eqb ex_P m_tofs enc_of]. change (n_legs ex_P) with 2%nat. unfold ex_x. cbn [decode_tofs bind nan_tofs tl].
  change (all_eph (m_seq ex_P) (cumsum 0 [0; leg_time / 86400; leg_time / 86400])) with (@Ret (list (option state)) [Some (ex_pl 0); Some (ex_pl 1); Some (ex_pl 2)]). cbn [bind]. change (common_mu ex_P) with 32000. rewrite ex_legs. cbn [bind].
  eexists. split; [reflexivity|]. cbn [d_legs d_ep cumsum]. unfold sc_eph. cbn [last]. pose proof leg_time_pos. destruct (Rlt_dec 0 (0 + 0)) as [W|_]; [lra|]. destruct (Rlt_dec _ 0) as [W|_]; [lra|]. destruct (Req_EM_T 0 (0 + 0)) as [_|W]; [|lra]. reflexivity.
Qed.
Theorem planet_example newton : newton_ok newton -> newton_sound newton -> exists eph v, to_planet newton ex_P ex_x = Ret eph /\ eph 0 = Ret (Some (hub 1 0, ex_a0)) /\
  eph (leg_time / 86400) = Ret (Some (hub c1 s1, v)) /\ flow_at 32000 (hub 1 0, ex_a0) leg_time (hub c1 s1, v) /\ eph (-1) = Throw InvalidArgument /\ eph (3 * leg_time / 86400) = Throw InvalidArgument.
Proof.
  intros NK NS. destruct (mga_planet newton 0 ex_P ex_x 0 _ _ _ NS ex_ok ex_durations eq_refl ex_solved ex_fitness) as [eph [pl [vo [vi [E [T1 [_ [OUT [L [IN TOT]]]]]]]]]].
  destruct (ex_launch newton) as [eph' [E' L']]. assert (eph' = eph) by congruence. subst eph'. change (n_legs ex_P) with 2%nat in *. pose proof leg_time_pos as LP. set (T := [leg_time / 86400; leg_time / 86400]) in *.
  assert (D0 : date 0 T 0 = 0) by (unfold date, T; cbn; ring). assert (D1 : date 0 T 1 = leg_time / 86400) by (unfold date, T; cbn; ring). assert (D2 : date 0 T 2 = 2 * leg_time / 86400) by (unfold date, T; cbn; field).
  rewrite D0 in L. rewrite L in L'. assert (P0 : fst (pl 0%nat) = hub 1 0) by (injection L'; intros; assumption || congruence).  assert (V0 : vo 0%nat = ex_a0) by (injection L'; intros; assumption). rewrite <- L in L'.
  assert (P1 : pl 1%nat = ex_pl 1) by (destruct T1 as [T1 _]; specialize (T1 1%nat ltac:(change (n_legs ex_P) with 2%nat; lia)); change (Ret (Some (ex_pl 1)) = Ret (Some (pl 1%nat))) in T1; generalize dependent (ex_pl 1); intros s T1; congruence).
  assert (EN : energy 32000 (hub 1 0, ex_a0) < 0).
  { unfold energy. cbn [fst snd]. rewrite (hub_norm 1 0) by lra. unfold ex_a0, dot, vscal. cbn [vx vy vz]. pose proof sqrt3. nra. }
  assert (B : date 0 T 0 < leg_time / 86400 <= date 0 T 1) by (rewrite D0, D1; split; [apply Rdiv_lt_0_compat; lra|lra]).
  destruct (TOT NK 0%nat (leg_time / 86400) ltac:(lia) B) as [s S]; [rewrite P0, V0; change (common_mu ex_P) with 32000; intros; lra|].
  destruct (IN 0%nat (leg_time / 86400) _ ltac:(lia) B S) as [s' [Q [F FR]]]. injection Q as <-. specialize (FR eq_refl (eq_sym D1)). rewrite P1 in FR. cbn [ex_pl fst] in FR. rewrite P0, V0, D0 in F. change (common_mu ex_P) with 32000 in F. replace ((leg_time / 86400 - 0) * 86400) with leg_time in F by field.
  exists eph, (vi 0%nat). rewrite FR in S, F. split; [exact E|]. split; [exact L'|]. split; [exact S|]. split; [exact F|]. split; apply OUT; [left; lra|right; rewrite D2; unfold Rdiv; nra].
Qed.

(** ** Construction *)
Theorem ctor_accepts seq t0 tof vinf multi ins e rp P : mga_ctor seq t0 tof vinf multi ins e rp = Ret P <->
  seq <> [] /\ (forall b b', In b seq -> In b' seq -> b_muc b = b_muc b') /\
  match tof with TDirect l => S (length l) = length seq /\ (forall p, In p l -> fst p <= snd p) | _ => True end /\
  m_seq P = seq /\ m_t0 P = t0 /\ m_tofs P = tof /\ m_vinf P = 1000 * vinf /\ m_multi P = multi /\
  (if ins then exists a b, e = Some a /\ rp = Some b /\ m_ins P = Some (a, b) else m_ins P = None).
Proof.
  unfold mga_ctor. destruct seq as [|s0 r]; [split; [discriminate|intros [N _]; congruence]|]. set (seq := s0 :: r).
  assert (MU : existsb (fun s => if Req_EM_T (b_muc s) (b_muc s0) then false else true) seq = false <-> (forall b b', In b seq -> In b' seq -> b_muc b = b_muc b')).
  { split.
    - intros H. assert (A : forall b, In b seq -> b_muc b = b_muc s0). { intros b Hb. destruct (Req_EM_T (b_muc b) (b_muc s0)) as [|N] eqn:Eb; [assumption|]. exfalso. assert (X : existsb (fun s => if Req_EM_T (b_muc s) (b_muc s0) then false else true) seq = true) by (apply existsb_exists; exists b; rewrite Eb; auto). congruence. }
      intros b b' Hb Hb'. rewrite (A b Hb), (A b' Hb'). reflexivity.
    - intros A. destruct (existsb _ seq) eqn:X; [|reflexivity]. apply existsb_exists in X. destruct X as [b [Hb Hn]]. destruct (Req_EM_T (b_muc b) (b_muc s0)) as [|N]; [discriminate|]. exfalso. apply N, A; [exact Hb|left; reflexivity]. }
  destruct (existsb _ seq) eqn:X; [split; [discriminate|intros [_ [A _]]; apply MU in A; discriminate]|].
  assert (TF : forall o : outcome unit, o = match tof with TDirect l => if negb (length l =? length seq - 1)%nat then Throw InvalidArgument else if existsb (fun p => if Rlt_dec (snd p) (fst p) then true else false) l then Throw InvalidArgument else Ret tt | _ => Ret tt end ->
    (o = Ret tt /\ match tof with TDirect l => S (length l) = length seq /\ (forall p, In p l -> fst p <= snd p) | _ => True end) \/ (o = Throw InvalidArgument /\ ~ match tof with TDirect l => S (length l) = length seq /\ (forall p, In p l -> fst p <= snd p) | _ => True end)).
  { intros o ->. destruct tof as [lb ub|l|t]; [left; auto| |left; auto]. destruct (length l =? length seq - 1)%nat eqn:EL; cbn [negb].
    - apply Nat.eqb_eq in EL. destruct (existsb _ l) eqn:Y.
      + right. split; [reflexivity|]. intros [_ A]. apply existsb_exists in Y. destruct Y as [p [Hp Y]]. specialize (A p Hp). destruct (Rlt_dec (snd p) (fst p)); [lra|discriminate].
      + left. split; [reflexivity|]. split; [unfold seq in *; cbn [length] in *; lia|]. intros p Hp. destruct (Rlt_dec (snd p) (fst p)) as [L|L] eqn:EP; [|lra]. exfalso. assert (Z : existsb (fun p => if Rlt_dec (snd p) (fst p) then true else false) l = true) by (apply existsb_exists; exists p; rewrite EP; auto). congruence.
    - right. split; [reflexivity|]. intros [A _]. apply Nat.eqb_neq in EL. lia. }
  destruct (TF _ eq_refl) as [[E A]|[E A]]; rewrite E; cbn [bind].
  2:{ split; [discriminate|]. intros [_ [_ [B _]]]. contradiction. }
  assert (MU' := proj1 MU eq_refl). assert (NE : seq <> []) by discriminate. destruct ins.
  - destruct rp as [b|]; [destruct e as [a|]|]; cbn [bind].
    + split.
      * intros H. injection H as <-. cbn. repeat split; try assumption; [ring|]. exists a, b. auto.
      * intros [_ [_ [_ [H1 [H2 [H3 [H4 [H5 [a' [b' [Ea [Eb H6]]]]]]]]]]]]. injection Ea as <-. injection Eb as <-. destruct P as [q1 q2 q3 q4 q5 q6]. cbn in *. subst. f_equal. f_equal. ring.
    + split; [discriminate|]. intros [_ [_ [_ [_ [_ [_ [_ [_ [a' [b' [Ea _]]]]]]]]]]]. discriminate.
    + split; [discriminate|]. intros [_ [_ [_ [_ [_ [_ [_ [_ [a' [b' [_ [Eb _]]]]]]]]]]]]. discriminate.
  - cbn [bind]. split.
    + intros H. injection H as <-. cbn. repeat split; try assumption. ring.
    + intros [_ [_ [_ [H1 [H2 [H3 [H4 [H5 H6]]]]]]]]. destruct P as [q1 q2 q3 q4 q5 q6]. cbn in *. subst. f_equal. f_equal. ring.
Qed.
Theorem ctor_total seq t0 tof vinf multi ins e rp : (exists P, mga_ctor seq t0 tof vinf multi ins e rp = Ret P) \/ exists x, mga_ctor seq t0 tof vinf multi ins e rp = Throw x.
Proof.
  unfold mga_ctor. destruct seq as [|s0 r]; [right; eexists; reflexivity|]. destruct (existsb _ _); [right; eexists; reflexivity|].
  assert (Q : forall o : outcome unit, o = Ret tt \/ o = Throw InvalidArgument -> (exists P, bind o (fun _ => bind (if ins then match rp, e with Some rp0, Some e0 => Ret (Some (e0, rp0)) | _, _ => Throw InvalidArgument end else Ret None) (fun i => Ret (mk_mga (s0 :: r) t0 tof (vinf * 1000) multi i))) = Ret P) \/ exists x, bind o (fun _ => bind (if ins then match rp, e with Some rp0, Some e0 => Ret (Some (e0, rp0)) | _, _ => Throw InvalidArgument end else Ret None) (fun i => Ret (mk_mga (s0 :: r) t0 tof (vinf * 1000) multi i))) = Throw x).
  { intros o [->| ->]; cbn [bind]; [|right; eexists; reflexivity]. destruct ins; [destruct rp; [destruct e|]|]; cbn [bind]; first [left; eexists; reflexivity | right; eexists; reflexivity]. }
  apply Q. destruct tof as [lb ub|l|t]; auto. destruct (negb _); auto. destruct (existsb _ l); auto.
Qed.
(** ** Shape *)
Theorem fitness_shape P x l : fitness P x = Ret l -> length l = get_nobj P.
Proof.
  unfold fitness, get_nobj. destruct (compute_dvs P x) as [d| |]; cbn [bind]; try discriminate. destruct (match enc_of (m_tofs P) with Alpha => _ | Direct => _ | Eta _ => _ end) as [T| |]; cbn [bind]; try discriminate. intros H. injection H as <-. destruct (m_multi P); reflexivity.
Qed.
(** ** Bounds *)
Fixpoint ets (rem : R) (es : list R) : list R := match es with [] => [] | e :: r => rem * e :: ets (rem - rem * e) r end.
Lemma ets_len es : forall rem, length (ets rem es) = length es. Proof. induction es; intros rem; cbn; [reflexivity|rewrite IHes; reflexivity]. Qed.
Lemma ets_nth es : forall rem i, (i < length es)%nat -> nth i (ets rem es) 0 = (rem - total (firstn i (ets rem es))) * nth i es 0.
Proof.
  induction es as [|e r IH]; intros rem i Hi; [cbn in Hi; lia|]. destruct i; cbn [ets nth firstn total]; [ring|]. cbn in Hi. rewrite IH by lia. ring.
Qed.
Lemma ets_pos es : forall rem, 0 < rem -> (forall e, In e es -> 0 < e < 1) -> (forall t, In t (ets rem es) -> 0 < t) /\ total (ets rem es) < rem.
Proof.
  induction es as [|e r IH]; intros rem R H; cbn [ets total]; [split; [intros t []|exact R]|]. assert (E : 0 < e < 1) by (apply H; left; reflexivity). destruct (IH (rem - rem * e) ltac:(nra) (fun e' He => H e' (or_intror He))) as [A B]. split; [|lra].
  intros t [<-|Ht]; [nra|apply A, Ht].
Qed.
Lemma total_scale k l : total (map (fun a => k * a) l) = k * total l.
Proof. induction l; cbn; [ring|rewrite IHl; ring]. Qed.
Lemma total_neg l : l <> [] -> (forall a, In a l -> a < 0) -> total l < 0.
Proof.
  induction l as [|a l IH]; intros N H; [congruence|]. cbn [total]. assert (a < 0) by (apply H; left; reflexivity). destruct l as [|b l]; [cbn; lra|]. assert (total (b :: l) < 0) by (apply IH; [discriminate|intros c Hc; apply H; right; exact Hc]). lra.
Qed.
Lemma box_cons a b l u z : in_box (a :: l, b :: u) z -> exists x r, z = x :: r /\ a <= x <= b /\ in_box (l, u) r.
Proof. unfold in_box. cbn [fst snd]. intros [A B]. inversion A; subst. inversion B; subst. eexists. eexists. split; [reflexivity|]. split; [split; assumption|split; assumption]. Qed.
Lemma box_len l u z : in_box (l, u) z -> length z = length l. Proof. intros [A _]. cbn [fst] in A. induction A; cbn; [reflexivity|rewrite IHA; reflexivity]. Qed.
Theorem mga_box P x : (0 < n_legs P)%nat -> match m_tofs P with TDirect l => length l = n_legs P | _ => True end -> in_box (get_bounds P) x ->
  exists t0 T, durations (enc_of (m_tofs P)) x t0 T /\ length T = n_legs P /\ fst (m_t0 P) <= t0 <= snd (m_t0 P) /\
    match m_tofs P with
    | TAlpha lb ub => lb <= total T <= ub /\ (0 < lb -> forall t, In t T -> 0 < t)
    | TDirect l => forall i, (i < n_legs P)%nat -> fst (nth i l (0, 0)) <= nth i T 0 <= snd (nth i l (0, 0))
    | TEta tof => 0 < tof -> (forall t, In t T -> 0 < t) /\ total T < tof
    end.
Proof.
  intros N TL B. unfold get_bounds in B. destruct (m_tofs P) as [lb ub|l|tof]; cbn [app enc_of durations] in *.
  - apply box_cons in B. destruct B as [t0 [r [-> [B0 B]]]]. apply box_cons in B. destruct B as [tot [al [-> [B1 B]]]]. pose proof (box_len _ _ _ B) as LA. rewrite repeat_length in LA. rewrite (box_rep _ _ _ _ LA) in B.
    assert (NG : forall a, In a al -> ln a < 0) by (intros a Ha; specialize (B a Ha); rewrite <- ln_1; apply ln_increasing; lra). assert (S : total (map ln al) < 0). { apply total_neg; [destruct al; [cbn in LA; lia|discriminate]|]. intros a Ha. apply in_map_iff in Ha. destruct Ha as [c [<- Hc]]. apply NG, Hc. }
    exists t0, (map (fun a => tot / total (map ln al) * a) (map ln al)). split; [|split; [|split; [exact B0|split]]].
    + exists tot, al. split; [reflexivity|]. split; [rewrite !map_length; reflexivity|]. split; [intros a Ha; specialize (B a Ha); lra|]. split; [lra|]. intros i Hi. rewrite !map_length in Hi.
      rewrite (nth_indep _ 0 (tot / total (map ln al) * ln 0)) by (rewrite !map_length; lia). rewrite (map_nth (fun a => tot / total (map ln al) * a)), (map_nth ln). field. lra.
    + rewrite !map_length. exact LA.
    + rewrite total_scale. replace (tot / total (map ln al) * total (map ln al)) with tot by (field; lra). exact B1.
    + intros L t Ht. apply in_map_iff in Ht. destruct Ht as [q [<- Hq]]. apply in_map_iff in Hq. destruct Hq as [a [<- Ha]]. specialize (NG a Ha). replace (tot / total (map ln al) * ln a) with (tot * (ln a / total (map ln al))) by (field; lra). apply Rmult_lt_0_compat; [lra|]. replace (ln a / total (map ln al)) with (- ln a / - total (map ln al)) by (field; lra). apply Rdiv_lt_0_compat; lra.
  - apply box_cons in B. destruct B as [t0 [T [-> [B0 B]]]]. exists t0, T. pose proof (box_len _ _ _ B) as LT. rewrite map_length in LT. split; [reflexivity|]. split; [lia|]. split; [exact B0|]. intros i Hi.
    destruct B as [A B]. cbn [fst snd] in A, B. clear N LT B0. rewrite <- TL in Hi. clear TL. revert T A B i Hi. induction l as [|p l IH]; intros T A B i Hi; [cbn in Hi; lia|]. cbn [map] in A, B. inversion A as [|? y ? T' A1 A2]; subst. inversion B as [|? ? ? ? B1 B2]; subst. destruct i; cbn [nth]; [split; assumption|]. apply IH; try assumption. cbn in Hi. lia.
  - apply box_cons in B. destruct B as [t0 [es [-> [B0 B]]]]. pose proof (box_len _ _ _ B) as LE. rewrite repeat_length in LE. rewrite (box_rep _ _ _ _ LE) in B. exists t0, (ets tof es). split; [|split; [rewrite ets_len; exact LE|split; [exact B0|]]].
    + exists es. split; [reflexivity|]. split; [rewrite ets_len; reflexivity|]. intros i Hi. rewrite ets_len in Hi. apply ets_nth, Hi.
    + intros L. apply ets_pos; [exact L|]. intros e He. specialize (B e He). lra.
Qed.
Theorem planet_length newton P x : length x <> length (fst (get_bounds P)) -> to_planet newton P x = Throw InvalidArgument.
Proof. intros H. unfold to_planet. apply Nat.eqb_neq in H. rewrite H. reflexivity. Qed.
