(** * Propagation through orbital elements: the function *)
From Coq Require Import Reals Lra Psatz ZArith.
From Coquelicot Require Import Coquelicot.
From Verif Require Import Outcome RealLib PartialReal Vec3 KepModel KepSpec KepProofs AnomProofs TwoBodyModel TwoBodySpec FlowProofs LagProofs FlowMain BracketProofs TwoBodyProofs
  ElemModel ElemSpec ElemProofs ElemPar KeplerianModel KeplerianProofs.
Open Scope R_scope.

Lemma kp_n_pos mu a : 0 < mu -> 0 < a -> kp_n mu a = Some (sqrt (mu / a ^ 3)).
Proof.
  intros M A. unfold kp_n. destruct (Rlt_dec 0 a); [|lra]. rewrite !pdiv_some by lra. cbn [obind]. rewrite pdiv_some by lra. cbn [obind]. rewrite pdiv_some by lra. cbn [obind].
  replace (mu / a / a / a) with (mu / a ^ 3) by (field; lra). apply psqrt_some. left. apply Rdiv_lt_0_compat; [exact M|]. apply pow_lt, A.
Qed.
Lemma kp_n_neg mu a : 0 < mu -> a < 0 -> kp_n mu a = Some (sqrt (mu / (- a) ^ 3)).
Proof.
  intros M A. unfold kp_n. destruct (Rlt_dec 0 a); [lra|]. rewrite !pdiv_some by lra. cbn [obind]. rewrite pdiv_some by lra. cbn [obind]. rewrite pdiv_some by lra. cbn [obind].
  replace (- mu / a / a / a) with (mu / (- a) ^ 3) by (field; lra). apply psqrt_some. left. apply Rdiv_lt_0_compat; [exact M|]. apply pow_lt. lra.
Qed.

(** true anomalies of hyperbolas in [0, 2 pi) *)
Lemma f2h_turn e f : 1 < e -> angle_ok f -> 0 < 1 + e * cos f -> exists h, f2h f e = Some h /\ same_point_hyperbola e h f.
Proof.
  intros He [F1 F2] D. pose proof PI_RGT_0.
  assert (NP : f <> PI). { intros ->. rewrite cos_PI in D. lra. }
  assert (G : exists g, inside_asymptotes e g /\ tan (g / 2) = tan (f / 2) /\ cos g = cos f /\ sin g = sin f).
  { destruct (Rlt_dec f PI) as [L|L]; [exists f; repeat split; lra|]. exists (f - 2 * PI).
    assert (C : cos (f - 2 * PI) = cos f) by (rewrite <- (cos_period (f - 2 * PI) 1); f_equal; cbn [INR]; ring).
    assert (S : sin (f - 2 * PI) = sin f) by (rewrite <- (sin_period (f - 2 * PI) 1); f_equal; cbn [INR]; ring).
    repeat split; [lra|lra|rewrite C; exact D| |exact C|exact S].
    unfold tan. replace ((f - 2 * PI) / 2) with (f / 2 - PI) by field.
    assert (SS : sin (f / 2 - PI) = - sin (f / 2)) by (rewrite sin_minus, cos_PI, sin_PI; ring).
    assert (CC : cos (f / 2 - PI) = - cos (f / 2)) by (rewrite cos_minus, cos_PI, sin_PI; ring).
    rewrite SS, CC. destruct (Req_dec (cos (f / 2)) 0) as [Z|Z]; [|field; exact Z].
    exfalso. assert (cos f = -1). { replace f with (2 * (f / 2)) by field. rewrite cos_2a_cos, Z. ring. } rewrite H0 in D. lra. }
  destruct G as [g [IA [T [C S]]]]. destruct (f2h_h2f e He g IA) as [h [E1 E2]].
  destruct (h2f_f2h e He h) as [g' [E3 [_ [_ SP]]]]. rewrite E2 in E3. injection E3 as <-.
  exists h. split; [rewrite <- E1, !f2h_eq by exact He; rewrite T; reflexivity|]. unfold same_point_hyperbola in *. rewrite <- C, <- S. exact SP.
Qed.
Lemma angle_turns M : exists k : Z, atan2 (sin M) (cos M) = M + 2 * IZR k * PI. Proof. destruct (atan2_crop M) as [k [H _]]. exists k. exact H. Qed.

(** the elements of a non-singular state *)
Lemma kp_setup mu s : nonsingular mu s -> exists el, ic2par s mu = Some el /\ s = el_state mu el /\ valid el /\ 0 < mu /\ sma mu s = el_a el /\
  (energy mu s < 0 -> 0 < el_a el /\ 0 < el_e el < 1) /\ (0 < energy mu s -> el_a el < 0 /\ 1 < el_e el).
Proof.
  intros NS. destruct (ic2par_ok mu s NS) as [el [H1 [H2 H3]]]. pose proof NS as [Rg [NE _]]. pose proof Rg as [M _].
  exists el. destruct (osc_state mu s el Rg NE H2) as [H4 _]. pose proof H2 as [_ [SM _]]. pose proof H3 as [V1 [V2 _]].
  split; [exact H1|]. split; [exact H4|]. split; [exact H3|]. split; [exact M|]. split; [exact SM|]. unfold sma in SM. split; intros E.
  - assert (0 < el_a el). { rewrite <- SM. replace (- mu / (2 * energy mu s)) with (mu / (2 * - energy mu s)) by (field; lra). apply Rdiv_lt_0_compat; lra. } split; [assumption|]. split; [exact V2|nra].
  - assert (0 < - el_a el). { rewrite <- SM. replace (- (- mu / (2 * energy mu s))) with (mu / (2 * energy mu s)) by (field; lra). apply Rdiv_lt_0_compat; lra. } split; [lra|nra].
Qed.

(** what a returned anomaly means *)
Lemma kp_ell_run newton mu el t E0 f : newton_sound newton -> 0 < mu -> 0 < el_a el -> 0 <= el_e el < 1 -> f2e (el_f el) (el_e el) = Some E0 ->
  kp_anomaly newton el t mu = Ret (Some f) ->
  exists E k, same_point_ellipse (el_e el) E f /\ E - el_e el * sin E = E0 - el_e el * sin E0 + sqrt (mu / el_a el ^ 3) * t + 2 * IZR k * PI.
Proof.
  intros NS M A He F0 H. unfold kp_anomaly in H. rewrite (kp_n_pos mu (el_a el) M A) in H. destruct (Rlt_dec 0 (el_a el)); [|lra].
  unfold f2m in H. rewrite F0, (e2m_eq _ He) in H. destruct (Rle_dec 1 (el_e el)); [lra|].
  unfold m2f in H. destruct (Rle_dec 1 (el_e el)); [lra|]. unfold m2e in H. destruct (Rle_dec 1 (el_e el)); [lra|]. cbv zeta in H.
  match type of H with context [newton ?g ?i ?l ?h] => destruct (newton g i l h) as [E|] eqn:N; [|discriminate] end.
  apply NS in N. cbn [fst] in N. rewrite (e2f_half _ He) in H. injection H as <-.
  match type of N with kepE _ (atan2 (sin ?M) _) _ = _ => destruct (angle_turns M) as [k K] end. rewrite K in N. unfold kepE in N.
  exists E, k. split; [apply ell_point; exact He|]. lra.
Qed.
Lemma kp_hyp_run newton mu el t H0 f : newton_sound newton -> 0 < mu -> el_a el < 0 -> 1 < el_e el -> f2h (el_f el) (el_e el) = Some H0 ->
  kp_anomaly newton el t mu = Ret (Some f) ->
  exists H, same_point_hyperbola (el_e el) H f /\ el_e el * sinh H - H = el_e el * sinh H0 - H0 + sqrt (mu / (- el_a el) ^ 3) * t.
Proof.
  intros NS M A He F0 H. unfold kp_anomaly in H. rewrite (kp_n_neg mu (el_a el) M A) in H. destruct (Rlt_dec 0 (el_a el)); [lra|].
  unfold f2n in H. rewrite F0, (h2n_eq _ He) in H. destruct (Rle_dec (el_e el) 1); [lra|].
  unfold n2f in H. destruct (Rle_dec (el_e el) 1); [lra|]. unfold n2h in H. destruct (Rle_dec (el_e el) 1); [lra|]. cbv zeta in H.
  match type of H with context [newton ?g ?i ?l ?h] => destruct (newton g i l h) as [E|] eqn:N; [|discriminate] end.
  apply NS in N. cbn [fst] in N. destruct (h2f_f2h _ He E) as [f' [Q1 [_ [_ Q2]]]]. rewrite Q1 in H. injection H as <-.
  exists E. split; [exact Q2|]. unfold kepH in N. lra.
Qed.

Lemma kp_sound newton mu s t s' : newton_sound newton -> nonsingular mu s -> propagate_keplerian newton s t mu = Ret (Some s') -> flow_at mu s t s'.
Proof.
  intros N NS. destruct (kp_setup mu s NS) as [el [I [-> [V [M [_ [Ell Hyp]]]]]]]. pose proof (valid_sound _ V) as So.
  unfold propagate_keplerian. rewrite I. destruct (kp_anomaly newton el t mu) as [[f|]| |] eqn:K; try discriminate. intros H.
  destruct (Rdichotomy _ _ (proj1 (proj2 NS))) as [Neg|Pos].
  - destruct (Ell Neg) as [A E]. assert (He : 0 <= el_e el < 1) by lra.
    destruct (kp_ell_run newton mu el t _ f N M A He (f2e_half _ He (el_f el)) K) as [E1 [k [P1 Q1]]].
    destruct (ell_motion mu el f _ E1 t k M So (proj2 He) (ell_point_back _ He (el_f el)) P1 Q1) as [FL S1].
    rewrite (par2ic_ok mu _ M S1) in H. injection H as <-. exact FL.
  - destruct (Hyp Pos) as [A E]. destruct V as [_ [_ [_ [_ [_ [V1 V2]]]]]].
    destruct (f2h_turn _ _ E V1 V2) as [h0 [F0 P0]].
    destruct (kp_hyp_run newton mu el t h0 f N M A E F0 K) as [h1 [P1 Q1]].
    destruct (hyp_motion mu el f h0 h1 t M So E P0 P1 Q1) as [FL S1].
    rewrite (par2ic_ok mu _ M S1) in H. injection H as <-. exact FL.
Qed.
Lemma kp_ell_total newton mu s t : newton_ok newton -> nonsingular mu s -> energy mu s < 0 -> exists s', propagate_keplerian newton s t mu = Ret (Some s') /\ flow_at mu s t s'.
Proof.
  intros N NS Neg. destruct (kp_setup mu s NS) as [el [I [-> [V [M [_ [Ell _]]]]]]]. pose proof (valid_sound _ V) as So.
  destruct (Ell Neg) as [A E]. assert (He : 0 <= el_e el < 1) by lra.
  unfold propagate_keplerian. rewrite I. unfold kp_anomaly. rewrite (kp_n_pos mu (el_a el) M A). destruct (Rlt_dec 0 (el_a el)); [|lra].
  unfold f2m. rewrite (f2e_half _ He), (e2m_eq _ He). destruct (Rle_dec 1 (el_e el)); [lra|].
  unfold m2f. destruct (Rle_dec 1 (el_e el)); [lra|].
  match goal with |- context [m2e newton ?M ?e] => destruct (m2e_turns newton N e M He) as [E1 [k [H1 [_ H3]]]] end.
  rewrite H1, (e2f_half _ He). rewrite (e2m_eq _ He) in H3. injection H3 as H3.
  destruct (ell_motion mu el _ _ E1 t k M So (proj2 He) (ell_point_back _ He (el_f el)) (ell_point _ He E1) H3) as [FL S1].
  eexists. split; [apply (par2ic_ok mu _ M S1)|exact FL].
Qed.

Lemma sinh_ge x : 0 <= x -> x <= sinh x.
Proof.
  intros H. destruct (Req_dec x 0) as [->|NZ]; [rewrite sinh_0; lra|].
  assert (DD : forall c, is_derive (fun x => sinh x - x) c (cosh c - 1)).
  { intros c. apply (is_derive_minus (V := R_NormedModule)); [apply der_sinh|apply (is_derive_id (K := R_AbsRing))]. }
  assert (I : forall u v, u < v -> sinh u - u <= sinh v - v).
  { intros u v L. destruct (MVT_gen (fun x => sinh x - x) u v (fun x => cosh x - 1)) as [c [_ E]].
    - intros c _. apply DD.
    - intros c _. apply (derive_cont _ _ DD).
    - pose proof (cosh_ge1 c). nra. }
  specialize (I 0 x ltac:(lra)). rewrite sinh_0 in I. lra.
Qed.
Lemma mean_le e h : 1 < e -> Rabs (e * sinh h - h) <= Rabs (e * sinh h).
Proof.
  intros He. destruct (Rle_dec 0 h) as [P|P].
  - pose proof (sinh_ge h P). rewrite !Rabs_pos_eq; nra.
  - pose proof (sinh_ge (- h) ltac:(lra)) as S. rewrite sinh_neg in S. rewrite !Rabs_left1; nra.
Qed.
Lemma kp_hyp_total newton mu s t : newton_ok newton -> nonsingular mu s -> 0 < energy mu s -> mean_motion mu s * Rabs t <= 10 ^ 9 ->
  Rabs (dot (fst s) (snd s)) <= 10 ^ 16 * sqrt (mu * Rabs (sma mu s)) ->
  exists s', propagate_keplerian newton s t mu = Ret (Some s') /\ flow_at mu s t s'.
Proof.
  intros N NS Pos T B. destruct (kp_setup mu s NS) as [el [I [Es [V [M [SM [_ Hyp]]]]]]]. pose proof (valid_sound _ V) as So.
  destruct (Hyp Pos) as [A E]. pose proof V as [_ [_ [_ [_ [_ [V1 V2]]]]]].
  destruct (f2h_turn _ _ E V1 V2) as [h0 [F0 P0]].
  assert (D : dot (fst s) (snd s) = sqrt (mu * Rabs (sma mu s)) * (el_e el * sinh h0)).
  { destruct (kst_hyp mu (- el_a el) (el_e el) (perifocal el ex) (perifocal el ey) ltac:(lra) E h0 (el_f el) P0) as [X0 _]. rewrite Ropp_involutive in X0.
    change (kst mu (el_a el * (1 - el_e el * el_e el)) (el_e el) 0 (el_f el) (perifocal el ex) (perifocal el ey)) with (el_state mu el) in X0. rewrite <- Es in X0.
    pose proof (hyp_sg mu (- el_a el) (el_e el) _ _ M ltac:(lra) E (peri_ortho el) h0) as SG. rewrite <- X0 in SG. unfold sg in SG.
    rewrite SM, Rabs_left, sqrt_mult by lra. assert (0 < sqrt mu) by (apply sqrt_lt_R0; exact M). apply (Rmult_eq_reg_r (/ sqrt mu)); [|apply Rinv_neq_0_compat; lra].
    unfold Rdiv in SG. rewrite SG. field. lra. }
  assert (SP : 0 < sqrt (mu * Rabs (sma mu s))). { apply sqrt_lt_R0, Rmult_lt_0_compat; [exact M|]. apply Rabs_pos_lt. rewrite SM. lra. }
  assert (B0 : Rabs (el_e el * sinh h0) <= 10 ^ 16). { rewrite D, Rabs_mult, (Rabs_pos_eq _ (Rlt_le _ _ SP)) in B. apply (Rmult_le_reg_l _ _ _ SP). lra. }
  pose proof (mean_le _ h0 E) as B1.
  assert (NN : sqrt (mu / (- el_a el) ^ 3) = mean_motion mu s). { unfold mean_motion. rewrite SM, Rabs_left by lra. reflexivity. }
  assert (B2 : Rabs (el_e el * sinh h0 - h0 + sqrt (mu / (- el_a el) ^ 3) * t) <= 10 ^ 17).
  { eapply Rle_trans; [apply Rabs_triang|]. rewrite NN, Rabs_mult, (Rabs_pos_eq (mean_motion mu s)) by (unfold mean_motion; apply sqrt_pos). lra. }
  unfold propagate_keplerian. rewrite I. unfold kp_anomaly. rewrite (kp_n_neg mu (el_a el) M A). destruct (Rlt_dec 0 (el_a el)); [lra|].
  unfold f2n. rewrite F0, (h2n_eq _ E). destruct (Rle_dec (el_e el) 1); [lra|].
  unfold n2f. destruct (Rle_dec (el_e el) 1); [lra|].
  destruct (n2h_solves newton N _ E _ (reachable_1e17 _ E _ B2)) as [h1 [-> K]]. unfold keph in K.
  destruct (h2f_f2h _ E h1) as [f1 [-> [_ [_ P1]]]].
  destruct (hyp_motion mu el f1 h0 h1 t M So E P0 P1 K) as [FL S1].
  eexists. split; [apply (par2ic_ok mu _ M S1)|]. rewrite Es. exact FL.
Qed.

(** ** C16 *)
Lemma kp_agree newton newton' mu s t b s1 s2 m : newton_sound newton -> newton_sound newton' -> nonsingular mu s ->
  propagate_keplerian newton s t mu = Ret (Some s1) -> propagate_lagrangian newton' s t mu b = Ret (s2, m) -> s1 = s2.
Proof.
  intros N N' NS H1 H2. apply (flow_functional mu s t); [apply (kp_sound newton mu s t s1 N NS H1)|].
  apply (lag_sound newton' mu s t b s2 m N' (proj1 NS) (proj1 (proj2 NS)) H2).
Qed.
Lemma kp_agree_ell newton mu s t b : newton_ok newton -> nonsingular mu s -> energy mu s < 0 ->
  exists s' m, propagate_keplerian newton s t mu = Ret (Some s') /\ propagate_lagrangian newton s t mu b = Ret (s', m) /\ flow_at mu s t s'.
Proof.
  intros N NS Neg. destruct (kp_ell_total newton mu s t N NS Neg) as [s1 [H1 F1]].
  destruct (ellipse_flow newton mu s t b N (conj (proj1 NS) Neg)) as [s2 [m [H2 F2]]].
  rewrite <- (flow_functional mu s t s1 s2 F1 F2) in H2. exists s1, m. auto.
Qed.
Lemma kp_agree_hyp newton mu s t b : newton_ok newton -> nonsingular mu s -> 0 < energy mu s -> mean_motion mu s * Rabs t <= 10 ^ 9 ->
  Rabs (dot (fst s) (snd s)) <= 10 ^ 16 * sqrt (mu * Rabs (sma mu s)) ->
  exists s' m, propagate_keplerian newton s t mu = Ret (Some s') /\ propagate_lagrangian newton s t mu b = Ret (s', m) /\ flow_at mu s t s'.
Proof.
  intros N NS Pos T B. destruct (kp_hyp_total newton mu s t N NS Pos T B) as [s1 [H1 F1]].
  destruct (lag_hyp_total newton mu s t b N (conj (proj1 NS) Pos) T) as [s2 [m [H2 F2]]].
  rewrite <- (flow_functional mu s t s1 s2 F1 F2) in H2. exists s1, m. auto.
Qed.

(** ** a hyperbola far out: the elements reach farther than the Lagrange coefficients *)
Definition far_el : elem := El (-1) 2 (PI / 2) 0 0 0.
Definition far_t : R := 2 * sinh 52 - 52.
Lemma far_valid : valid far_el.
Proof. pose proof PI_RGT_0. unfold valid, angle_ok, far_el; cbn [el_a el_e el_i el_W el_w el_f]. rewrite cos_0. repeat split; lra. Qed.
Lemma far_point : same_point_hyperbola (el_e far_el) 0 (el_f far_el).
Proof. unfold same_point_hyperbola, far_el. cbn [el_e el_f]. rewrite cosh_0, sinh_0, cos_0, sin_0. lra. Qed.
Lemma far_nonsingular : nonsingular 1 (el_state 1 far_el). Proof. apply el_nonsingular; [lra|apply far_valid]. Qed.
Lemma far_energy : energy 1 (el_state 1 far_el) = 1 / 2.
Proof. rewrite el_state_energy; [unfold far_el; cbn [el_a]; field|lra|apply valid_sound, far_valid]. Qed.
Lemma far_kp newton : picky newton -> exists s', propagate_keplerian newton (el_state 1 far_el) far_t 1 = Ret (Some s').
Proof.
  intros P. pose proof (valid_sound _ far_valid) as So.
  pose proof (par_ic_par 1 far_el (el_state 1 far_el) ltac:(lra) far_valid (par2ic_ok 1 far_el ltac:(lra) So)) as I.
  unfold propagate_keplerian. rewrite I. unfold kp_anomaly. rewrite (kp_n_neg 1 (el_a far_el)) by (cbn [far_el el_a]; lra).
  destruct (Rlt_dec 0 (el_a far_el)) as [Q|_]; [cbn [far_el el_a] in Q; lra|].
  assert (E : 1 < el_e far_el) by (cbn [far_el el_e]; lra).
  assert (F : f2n (el_f far_el) (el_e far_el) = Some 0).
  { unfold f2n. rewrite (f2h_eq _ E). cbn [far_el el_f el_e]. destruct (Rle_dec 2 1); [lra|]. replace (0 / 2) with 0 by field. rewrite tan_0, Rmult_0_r. rewrite h2n_eq by lra. unfold atanh.
    replace ((1 + 0) / (1 - 0)) with 1 by field. rewrite ln_1. f_equal. replace (2 * (1 / 2 * 0)) with 0 by ring. replace (2 * (0 / 2)) with 0 by field. rewrite sinh_0. ring. }
  rewrite F. replace (0 + sqrt (1 / (- el_a far_el) ^ 3) * far_t) with far_t.
  2:{ cbn [far_el el_a]. replace (1 / (- -1) ^ 3) with 1 by field. rewrite sqrt_1. ring. }
  unfold n2f. destruct (Rle_dec (el_e far_el) 1); [lra|]. unfold n2h. destruct (Rle_dec (el_e far_el) 1); [lra|]. cbv zeta. pose proof PI_RGT_0. assert (P3 : 3 < PI) by (pose proof PI2_3_2; lra).
  destruct (picky_some newton (fun H => (kepH H far_t (el_e far_el), d_kepH H (el_e far_el))) 1 (1 - 20 * PI) (1 + 20 * PI) P) as [x ->]; [lra|exact (proj1 (der_kepH _ _))| |].
  - cbn [fst]. apply (keph_bracket (el_e far_el) far_t E). change far_t with (keph (el_e far_el) 52). split; apply keph_lt; lra.
  - destruct (h2f_f2h _ E x) as [f [-> [[_ IA] _]]]. eexists. apply par2ic_ok; [lra|]. destruct So as [S1 [S2 _]]. split; [exact S1|]. split; [exact S2|exact IA].
Qed.
Lemma far_lag newton b : picky newton -> propagate_lagrangian newton (el_state 1 far_el) far_t 1 b = Throw DomainError.
Proof.
  intros P. pose proof (valid_sound _ far_valid) as So. pose proof far_energy as En. pose proof (proj1 far_nonsingular) as Rg.
  assert (X : el_state 1 far_el = hyp 1 1 2 (perifocal far_el ex) (perifocal far_el ey) 0).
  { destruct (kst_hyp 1 1 2 (perifocal far_el ex) (perifocal far_el ey) ltac:(lra) ltac:(lra) 0 0 far_point) as [X0 _]. rewrite <- X0.
    unfold el_state, el_p, far_el. cbn [el_a el_e el_f]. replace (-1 * (1 - 2 * 2)) with (- (1) * (1 - 2 * 2)) by ring. reflexivity. }
  pose proof (hyp_norm 1 1 2 _ _ ltac:(lra) ltac:(lra) (peri_ortho far_el) 0) as HN. pose proof (hyp_sg 1 1 2 _ _ ltac:(lra) ltac:(lra) ltac:(lra) (peri_ortho far_el) 0) as HS.
  rewrite <- X in HN, HS. rewrite cosh_0 in HN. rewrite sinh_0, Rmult_0_r, Rmult_0_r in HS.
  destruct (el_state 1 far_el) as [r v]. cbn [fst snd] in HN, HS.
  assert (A : lag_a 1 (energy 1 (r, v)) = -1) by (unfold lag_a; rewrite En; field).
  rewrite lag_run, (solveH newton 1 r v far_t) by (rewrite A; lra). unfold callH. rewrite A, HS, HN.
  rewrite picky_none; [reflexivity|exact P|]. cbn [fst]. intros x Hx.
  assert (T0 : 0 < far_t). { unfold far_t. pose proof (sinh_ge 52 ltac:(lra)). lra. }
  unfold lag_IGh in Hx. destruct (Rlt_dec 0 far_t); [|lra].
  assert (D : lag_DN 1 (-1) far_t = far_t). { unfold lag_DN. replace (- (1) / -1 / -1 / -1) with 1 by field. rewrite sqrt_1. ring. }
  rewrite D. pose proof (keph_lt 2 ltac:(lra) x 52 ltac:(lra)) as L. unfold keph in L. unfold kepDH, far_t.
  replace (0 / sqrt (- -1)) with 0 by (unfold Rdiv; ring). replace (1 - 1 * (2 * 1 - 1) / -1) with 2 by field. lra.
Qed.
Lemma far_refutes : hyperbolic 1 (el_state 1 far_el) /\ nonsingular 1 (el_state 1 far_el) /\
  forall newton b, picky newton -> (exists s', propagate_keplerian newton (el_state 1 far_el) far_t 1 = Ret (Some s')) /\
    propagate_lagrangian newton (el_state 1 far_el) far_t 1 b = Throw DomainError.
Proof.
  split; [split; [apply far_nonsingular|rewrite far_energy; lra]|]. split; [apply far_nonsingular|]. intros newton b P. split; [apply far_kp, P|apply far_lag, P].
Qed.
(** ** a concrete ellipse, from the end of the semi-latus rectum to the pericentre *)
From Verif Require Import ElemConv.
Lemma peri_run newton : newton_ok newton -> propagate_keplerian newton s0 ((PI / 3 - sqrt 3 / 4) / sqrt (3 / 16)) (3 / 2) = Ret (Some (V 0 0 1, V (3 / 2) 0 0)).
Proof.
  intros N. pose proof (valid_sound _ el0_valid) as So.
  assert (Es : s0 = el_state (3 / 2) el0). { pose proof el0_par2ic as H. rewrite (par2ic_ok (3 / 2) el0 ltac:(lra) So) in H. generalize dependent (el_state (3 / 2) el0). intros x H. apply (f_equal (fun o => match o with Ret (Some y) => y | _ => x end)) in H. symmetry. exact H. }
  pose proof (el_nonsingular (3 / 2) el0 ltac:(lra) el0_valid) as NS. rewrite <- Es in NS.
  assert (Neg : energy (3 / 2) s0 < 0). { rewrite Es, el_state_energy; [unfold el0; cbn [el_a]; lra|lra|exact So]. }
  set (t := (PI / 3 - sqrt 3 / 4) / sqrt (3 / 16)). destruct (kp_ell_total newton (3 / 2) s0 t N NS Neg) as [s' [-> F]].
  assert (S3 : sqrt (3 / 16) <> 0) by (apply Rgt_not_eq, sqrt_lt_R0; lra).
  destruct (ell_motion (3 / 2) el0 0 (- (PI / 3)) 0 t 0 ltac:(lra) So ltac:(cbn [el0 el_e]; lra)) as [G _].
  - unfold same_point_ellipse, el0. cbn [el_e el_f]. rewrite cos_neg, sin_neg, cos_PI3, sin_PI3, cos_3PI2, sin_3PI2.
    replace (1 - 1 / 2 * (1 / 2)) with (3 / 4) by field. rewrite sqrt_div_alt by lra. replace 4 with (2 * 2) by ring. rewrite sqrt_square by lra.
    assert (sqrt 3 * sqrt 3 = 3) by (apply sqrt_sqrt; lra). split; [lra|]. nra.
  - unfold same_point_ellipse, el0. cbn [el_e]. rewrite cos_0, sin_0. split; [lra|ring].
  - unfold el0. cbn [el_e el_a]. rewrite sin_0, sin_neg, sin_PI3. replace (3 / 2 / 2 ^ 3) with (3 / 16) by field. unfold t. field_simplify; [|exact S3]. lra.
  - rewrite <- Es in G. rewrite (flow_functional _ _ _ _ _ F G). f_equal. f_equal. unfold el_state, kst, perifocal, el_p, with_f, el0. cbn [el_a el_e el_i el_W el_w el_f].
    unfold rotz, rotx, ex, ey, vscal, vadd. cbn [vx vy vz]. rewrite cos_0, sin_0, cos_PI2, sin_PI2, cos_PI, sin_PI.
    replace (3 / 2 / (2 * (1 - 1 / 2 * (1 / 2)))) with 1 by field. rewrite sqrt_1. f_equal; apply vec_eq; cbn [vx vy vz]; field.
Qed.
