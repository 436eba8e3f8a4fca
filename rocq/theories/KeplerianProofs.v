(** * Propagation through orbital elements: proofs *)
From Coq Require Import Reals Lra Psatz ZArith.
From Coquelicot Require Import Coquelicot.
From Verif Require Import Outcome RealLib PartialReal Vec3 KepModel KepSpec KepProofs AnomProofs TwoBodyModel TwoBodySpec FlowProofs LagProofs FlowMain BracketProofs TwoBodyProofs
  ElemModel ElemSpec ElemProofs ElemPar KeplerianModel.
Open Scope R_scope.

Lemma vscal_ext a b u : a = b -> vscal a u = vscal b u. Proof. intros ->. reflexivity. Qed.
Lemma lin_ext a b c d F G : a = c -> b = d -> vadd (vscal a F) (vscal b G) = vadd (vscal c F) (vscal d G). Proof. intros -> ->. reflexivity. Qed.
Lemma lin_scal k a b F G : vscal k (vadd (vscal a F) (vscal b G)) = vadd (vscal (k * a) F) (vscal (k * b) G). Proof. vring. Qed.
Lemma lin_comb x y a b c d F G : vadd (vscal x (vadd (vscal a F) (vscal b G))) (vscal y (vadd (vscal c F) (vscal d G))) = vadd (vscal (x * a + y * c) F) (vscal (x * b + y * d) G).
Proof. vring. Qed.

(** ** Kepler's equation is the law of motion on an ellipse *)
Section Ell.
Variables (mu a e : R) (P Q : vec).
Hypothesis Mu : 0 < mu. Hypothesis A : 0 < a. Hypothesis He : 0 <= e < 1. Hypothesis O : ortho P Q.
Let b := sqrt (1 - e * e).
Let k := sqrt mu / sqrt a.
Let B1 : 0 < b. Proof. apply sqrt_lt_R0. nra. Qed.
Let BB : b * b = 1 - e * e. Proof. apply sqrt_sqrt. nra. Qed.
Let SA : 0 < sqrt a. Proof. apply sqrt_lt_R0. exact A. Qed.
Let SAA : sqrt a * sqrt a = a. Proof. apply sqrt_sqrt. lra. Qed.
Let SM : 0 < sqrt mu. Proof. apply sqrt_lt_R0. exact Mu. Qed.
Let SMM : sqrt mu * sqrt mu = mu. Proof. apply sqrt_sqrt. lra. Qed.
Lemma den_pos E : 0 < 1 - e * cos E. Proof. pose proof (COS_bound E). nra. Qed.
Definition ell (E : R) : state :=
  (vadd (vscal (a * (cos E - e)) P) (vscal (a * b * sin E) Q), vadd (vscal (- (k / (1 - e * cos E) * sin E)) P) (vscal (k / (1 - e * cos E) * b * cos E) Q)).
Lemma kst_ell E f : same_point_ellipse e E f -> kst mu (a * (1 - e * e)) e 0 f P Q = ell E /\ 0 < 1 + e * cos f.
Proof.
  intros [H1 H2]. fold b in H2. pose proof (den_pos E) as D. set (d := 1 - e * cos E) in *.
  assert (C : cos f = (cos E - e) / d) by (apply (Rmult_eq_reg_l d); [rewrite H1; field; lra|lra]).
  assert (S : sin f = b * sin E / d) by (apply (Rmult_eq_reg_l d); [rewrite H2; field; lra|lra]).
  assert (X : 1 + e * cos f = (1 - e * e) / d). { rewrite C. unfold d. field. fold d. lra. }
  assert (E1 : 0 < 1 - e * e) by nra.
  split; [|rewrite X; apply Rdiv_lt_0_compat; lra].
  assert (K : sqrt (mu / (a * (1 - e * e))) = k / b).
  { unfold k, b. rewrite sqrt_div_alt, sqrt_mult by nra. field. split; apply Rgt_not_eq; first [exact B1|exact SA]. }
  unfold kst, ell. fold d. replace (1 + e * cos f + 0 * sin f) with ((1 - e * e) / d) by (rewrite <- X; ring). rewrite K, lin_scal, lin_scal. f_equal; apply lin_ext.
  - rewrite C. field. split; lra.
  - rewrite S. field. split; lra.
  - rewrite S. field. split; lra.
  - rewrite C. apply (Rmult_eq_reg_r (b * d)); [|apply Rmult_integral_contrapositive_currified; lra].
    transitivity (k * (e * d + cos E - e)); [field; split; lra|]. transitivity (k * (b * b) * cos E); [rewrite BB; unfold d; ring|field; lra].
Qed.
Variable E0 : R.
Let s0 := ell E0.
Let r0 := fst s0. Let v0 := snd s0.
Hypothesis Rg : regular mu s0.
Hypothesis En : energy mu s0 = - mu / (2 * a).
Let d0 := 1 - e * cos E0.
Let D0 : 0 < d0 := den_pos E0.
Let SC : sin E0 * sin E0 = 1 - cos E0 * cos E0. Proof. pose proof (sc1 E0). lra. Qed.
Lemma ell_norm : norm r0 = a * d0.
Proof.
  apply norm_unique; [apply Rmult_le_pos; lra|]. unfold r0, s0, ell. cbn [fst]. rewrite (lin2 _ _ O).
  replace (a * b * sin E0 * (a * b * sin E0)) with (a * a * (b * b) * (sin E0 * sin E0)) by ring. rewrite BB, SC. unfold d0. ring.
Qed.
Lemma ell_sg : sg mu r0 v0 = sqrt a * (e * sin E0).
Proof.
  unfold sg, r0, v0, s0, ell. cbn [fst snd]. rewrite (lin2 _ _ O). fold d0.
  transitivity (a * k / d0 / sqrt mu * sin E0 * (- (cos E0 - e) + b * b * cos E0)); [field; split; lra|].
  rewrite BB. replace (- (cos E0 - e) + (1 - e * e) * cos E0) with (e * d0) by (unfold d0; ring). unfold k. rewrite <- SAA at 1. field. repeat split; lra.
Qed.
Lemma ell_a : lag_a mu (energy mu (r0, v0)) = a.
Proof. replace (r0, v0) with s0 by (destruct s0; reflexivity). unfold lag_a. rewrite En. field. split; lra. Qed.
Lemma ell_ustate DE : ustate mu r0 v0 (sqrt a * DE) = ell (E0 + DE).
Proof.
  destruct (regular_r _ _ Rg) as [_ [Hr _]]. fold r0 in Hr. 
  assert (Neg : energy mu (r0, v0) < 0). { replace (r0, v0) with s0 by (destruct s0; reflexivity). rewrite En. unfold Rdiv. rewrite <- Ropp_mult_distr_l. assert (0 < mu * / (2 * a)) by (apply Rmult_lt_0_compat; [exact Mu|apply Rinv_0_lt_compat; lra]). lra. }
  pose proof (state_ellipse mu r0 v0 Mu Hr Neg 0 0 DE) as H. rewrite ell_a in H. rewrite <- H. clear H.
  rewrite ell_norm, ell_sg. pose proof (den_pos (E0 + DE)) as D1.
  assert (RF : a + (a * d0 - a) * cos DE + sqrt a * (e * sin E0) * sqrt a * sin DE = a * (1 - e * cos (E0 + DE))).
  { rewrite cos_plus. replace (sqrt a * (e * sin E0) * sqrt a * sin DE) with (sqrt a * sqrt a * (e * sin E0 * sin DE)) by ring. rewrite SAA. unfold d0. ring. }
  unfold lag_state, lag_ellipse. cbn [lF lG lFt lGt]. rewrite RF. set (d1 := 1 - e * cos (E0 + DE)) in *.
  unfold r0 at 1 2, v0 at 1 2, s0, ell. cbn [fst snd]. fold d0 d1. rewrite !lin_comb.
  assert (SAM : sqrt (a / mu) = sqrt a / sqrt mu) by (apply sqrt_div_alt; exact Mu). try rewrite SAM.
  pose proof (sc1 DE) as SD. set (c := cos DE) in *. set (s := sin DE) in *. set (c0 := cos E0) in *. set (z0 := sin E0) in *.
  assert (CE : cos (E0 + DE) = c0 * c - z0 * s) by apply cos_plus. assert (SE : sin (E0 + DE) = z0 * c + c0 * s) by apply sin_plus.
  assert (KA : k * (sqrt a / sqrt mu) = 1) by (unfold k; field; lra). assert (SMA : sqrt (mu * a) = k * a).
  { rewrite sqrt_mult by lra. unfold k. transitivity (sqrt mu / sqrt a * (sqrt a * sqrt a)); [field; lra|rewrite SAA; reflexivity]. }
  rewrite SMA.
  assert (E1 : d0 = 1 - e * c0) by reflexivity. assert (E2 : d1 = 1 - e * (c0 * c - z0 * s)) by (unfold d1; rewrite CE; reflexivity).
  rewrite CE, SE. assert (ZZ : z0 * z0 = 1 - c0 * c0) by exact SC. pose proof (D0 : 0 < d0) as D00. clear D0. clearbody d1 d0 c s c0 z0.
  f_equal; apply lin_ext; apply (Rmult_eq_reg_r d0); try lra.
  - transitivity (a * ((c0 - e) * (d0 - 1 + c) - k * (sqrt a / sqrt mu) * (e * z0 * (1 - c) + d0 * s) * z0)); [field; lra|]. rewrite KA. subst d0 d1. clear - ZZ SD. nsz.
  - transitivity (a * b * (z0 * (d0 - 1 + c) + k * (sqrt a / sqrt mu) * (e * z0 * (1 - c) + d0 * s) * c0)); [field; lra|]. rewrite KA. subst d0 d1. clear - ZZ SD. nsz.
  - apply (Rmult_eq_reg_r d1); [|lra]. transitivity (- k * (s * (c0 - e) + z0 * (d1 - 1 + c))); [field; repeat split; lra|].
    transitivity (- k * d0 * (z0 * c + c0 * s)); [|field; lra]. subst d0 d1. clear - ZZ SD. nsz.
  - apply (Rmult_eq_reg_r d1); [|lra]. transitivity (b * k * (- s * z0 + c0 * (d1 - 1 + c))); [field; repeat split; lra|].
    transitivity (b * k * d0 * (c0 * c - z0 * s)); [|field; lra]. subst d0 d1. clear - ZZ SD. nsz.
Qed.
Lemma ell_flow E t : E - e * sin E = E0 - e * sin E0 + sqrt (mu / a ^ 3) * t -> flow_at mu s0 t (ell E).
Proof.
  intros H. destruct (regular_r _ _ Rg) as [_ [Hr Hh]]. fold r0 in Hr, Hh. fold v0 in Hh.
  assert (Neg : energy mu (r0, v0) < 0). { replace (r0, v0) with s0 by (destruct s0; reflexivity). rewrite En. unfold Rdiv. rewrite <- Ropp_mult_distr_l. assert (0 < mu * / (2 * a)) by (apply Rmult_lt_0_compat; [exact Mu|apply Rinv_0_lt_compat; lra]). lra. }
  replace E with (E0 + (E - E0)) by ring. rewrite <- ell_ustate. replace s0 with (r0, v0) by (destruct s0; reflexivity).
  apply (ustate_flow mu r0 v0 Mu Hr Hh).
  pose proof (T_ellipse mu r0 v0 Mu Hr Neg (lag_DM mu a t) (E - E0)) as TE. pose proof (DM_eq mu r0 v0 Mu Neg t) as DE. rewrite ell_a in TE, DE.
  rewrite TE, <- DE. f_equal. rewrite ell_norm, ell_sg. unfold kepDE, lag_DM.
  assert (X : sin E = sin E0 * cos (E - E0) + cos E0 * sin (E - E0)) by (rewrite <- sin_plus; f_equal; ring). rewrite X in H.
  replace (sqrt a * (e * sin E0) / sqrt a) with (e * sin E0) by (field; lra). replace (1 - a * d0 / a) with (e * cos E0) by (unfold d0; field; lra). lra.
Qed.
End Ell.
Lemma ell_turns mu a e P Q E k : ell mu a e P Q (E + 2 * IZR k * PI) = ell mu a e P Q E.
Proof. unfold ell. rewrite period_Z_cos, period_Z_sin. reflexivity. Qed.
Lemma sound_a mu el : 0 < mu -> sound_el el -> (el_e el < 1 -> 0 < el_a el) /\ (1 < el_e el -> el_a el < 0).
Proof. intros M [A [B _]]. split; intros H; nra. Qed.
(** on an ellipse two points are t apart exactly as their mean anomalies are n t apart *)
Lemma ell_motion mu el f1 E0 E1 t k : 0 < mu -> sound_el el -> el_e el < 1 -> same_point_ellipse (el_e el) E0 (el_f el) -> same_point_ellipse (el_e el) E1 f1 ->
  E1 - el_e el * sin E1 = E0 - el_e el * sin E0 + sqrt (mu / el_a el ^ 3) * t + 2 * IZR k * PI ->
  flow_at mu (el_state mu el) t (el_state mu (with_f el f1)) /\ sound_el (with_f el f1).
Proof.
  intros M So E P0 P1 K. destruct (sound_a mu el M So) as [A _]. specialize (A E). pose proof So as [S1 [S2 S3]].
  assert (He : 0 <= el_e el < 1) by lra.
  destruct (kst_ell mu (el_a el) (el_e el) (perifocal el ex) (perifocal el ey) A He E0 (el_f el) P0) as [X0 _].
  destruct (kst_ell mu (el_a el) (el_e el) (perifocal el ex) (perifocal el ey) A He E1 f1 P1) as [X1 Y1].
  split; [|split; [exact S1|split; [exact S2|exact Y1]]].
  change (el_state mu el) with (kst mu (el_a el * (1 - el_e el * el_e el)) (el_e el) 0 (el_f el) (perifocal el ex) (perifocal el ey)).
  change (el_state mu (with_f el f1)) with (kst mu (el_a el * (1 - el_e el * el_e el)) (el_e el) 0 f1 (perifocal el ex) (perifocal el ey)).
  pose proof (el_state_regular mu el M So) as Rg. pose proof (el_state_energy mu el M So) as En.
  change (el_state mu el) with (kst mu (el_a el * (1 - el_e el * el_e el)) (el_e el) 0 (el_f el) (perifocal el ex) (perifocal el ey)) in Rg, En.
  rewrite X0 in Rg, En |- *. rewrite X1, <- (ell_turns _ _ _ _ _ E1 (- k)).
  apply (ell_flow mu (el_a el) (el_e el) _ _ M A He (peri_ortho el) E0 Rg En). rewrite period_Z_sin, opp_IZR. lra.
Qed.

(** ** the same on a hyperbola; [al] is minus the semi-major axis *)
Section Hyp.
Variables (mu al e : R) (P Q : vec).
Hypothesis Mu : 0 < mu. Hypothesis A : 0 < al. Hypothesis He : 1 < e. Hypothesis O : ortho P Q.
Let b := sqrt (e * e - 1).
Let k := sqrt mu / sqrt al.
Let B1 : 0 < b. Proof. apply sqrt_lt_R0. nra. Qed.
Let BB : b * b = e * e - 1. Proof. apply sqrt_sqrt. nra. Qed.
Let SA : 0 < sqrt al. Proof. apply sqrt_lt_R0. exact A. Qed.
Let SAA : sqrt al * sqrt al = al. Proof. apply sqrt_sqrt. lra. Qed.
Let SM : 0 < sqrt mu. Proof. apply sqrt_lt_R0. exact Mu. Qed.
Lemma hden_pos H : 0 < e * cosh H - 1. Proof. pose proof (cosh_ge1 H). nra. Qed.
Definition hyp (H : R) : state :=
  (vadd (vscal (al * (e - cosh H)) P) (vscal (al * b * sinh H) Q), vadd (vscal (- (k / (e * cosh H - 1) * sinh H)) P) (vscal (k / (e * cosh H - 1) * b * cosh H) Q)).
Lemma kst_hyp H f : same_point_hyperbola e H f -> kst mu (- al * (1 - e * e)) e 0 f P Q = hyp H /\ 0 < 1 + e * cos f.
Proof.
  intros [H1 H2]. fold b in H2. pose proof (hden_pos H) as D. set (d := e * cosh H - 1) in *.
  assert (C : cos f = (e - cosh H) / d) by (apply (Rmult_eq_reg_l d); [rewrite H1; field; lra|lra]).
  assert (S : sin f = b * sinh H / d) by (apply (Rmult_eq_reg_l d); [rewrite H2; field; lra|lra]).
  assert (X : 1 + e * cos f = (e * e - 1) / d). { rewrite C. unfold d. field. fold d. lra. }
  assert (E1 : 0 < e * e - 1) by nra.
  split; [|rewrite X; apply Rdiv_lt_0_compat; lra].
  assert (K : sqrt (mu / (al * (e * e - 1))) = k / b).
  { unfold k, b. rewrite sqrt_div_alt by nra. rewrite sqrt_mult by lra. field. split; apply Rgt_not_eq; first [exact B1|exact SA]. }
  unfold kst, hyp. fold d. replace (1 + e * cos f + 0 * sin f) with ((e * e - 1) / d) by (rewrite <- X; ring).
  replace (- al * (1 - e * e)) with (al * (e * e - 1)) by ring. rewrite K, lin_scal, lin_scal. f_equal; apply lin_ext.
  - rewrite C. field. split; lra.
  - rewrite S. field. split; lra.
  - rewrite S. field. split; lra.
  - rewrite C. apply (Rmult_eq_reg_r (b * d)); [|apply Rmult_integral_contrapositive_currified; lra].
    transitivity (k * (e * d + e - cosh H)); [field; split; lra|]. transitivity (k * (b * b) * cosh H); [rewrite BB; unfold d; ring|field; lra].
Qed.
Variable H0 : R.
Let s0 := hyp H0.
Let r0 := fst s0. Let v0 := snd s0.
Hypothesis Rg : regular mu s0.
Hypothesis En : energy mu s0 = - mu / (2 * - al).
Let d0 := e * cosh H0 - 1.
Let D0 : 0 < d0 := hden_pos H0.
Let SC : sinh H0 * sinh H0 = cosh H0 * cosh H0 - 1. Proof. pose proof (cosh_sinh_sq H0). lra. Qed.
Let s0_eta : (r0, v0) = s0. Proof. unfold r0, v0. destruct s0; reflexivity. Qed.
Lemma hyp_norm : norm r0 = al * d0.
Proof.
  apply norm_unique; [apply Rmult_le_pos; lra|]. unfold r0, s0, hyp. cbn [fst]. rewrite (lin2 _ _ O).
  replace (al * b * sinh H0 * (al * b * sinh H0)) with (al * al * (b * b) * (sinh H0 * sinh H0)) by ring. rewrite BB, SC. unfold d0. ring.
Qed.
Lemma hyp_sg : sg mu r0 v0 = sqrt al * (e * sinh H0).
Proof.
  unfold sg, r0, v0, s0, hyp. cbn [fst snd]. rewrite (lin2 _ _ O). fold d0.
  transitivity (al * k / d0 / sqrt mu * sinh H0 * (- (e - cosh H0) + b * b * cosh H0)); [field; split; lra|].
  rewrite BB. replace (- (e - cosh H0) + (e * e - 1) * cosh H0) with (e * d0) by (unfold d0; ring). unfold k. rewrite <- SAA at 1. field. repeat split; lra.
Qed.
Lemma hyp_a : lag_a mu (energy mu (r0, v0)) = - al.
Proof. rewrite s0_eta. unfold lag_a. rewrite En. field. split; lra. Qed.
Lemma hyp_pos : 0 < energy mu (r0, v0).
Proof. rewrite s0_eta, En. replace (- mu / (2 * - al)) with (mu / (2 * al)) by (field; lra). apply Rdiv_lt_0_compat; lra. Qed.
Lemma hyp_ustate DH : ustate mu r0 v0 (sqrt al * DH) = hyp (H0 + DH).
Proof.
  destruct (regular_r _ _ Rg) as [_ [Hr _]]. fold r0 in Hr.
  pose proof (state_hyperbola mu r0 v0 Mu Hr hyp_pos 0 0 DH) as H. rewrite hyp_a, Ropp_involutive in H. rewrite <- H. clear H.
  rewrite hyp_norm, hyp_sg. pose proof (hden_pos (H0 + DH)) as D1.
  assert (RF : - al + (al * d0 - - al) * cosh DH + sqrt al * (e * sinh H0) * sqrt al * sinh DH = al * (e * cosh (H0 + DH) - 1)).
  { rewrite cosh_plus. replace (sqrt al * (e * sinh H0) * sqrt al * sinh DH) with (sqrt al * sqrt al * (e * sinh H0 * sinh DH)) by ring. rewrite SAA. unfold d0. ring. }
  unfold lag_state, lag_hyperbola. cbn [lF lG lFt lGt]. rewrite Ropp_involutive, RF. set (d1 := e * cosh (H0 + DH) - 1) in *.
  unfold r0 at 1 2, v0 at 1 2, s0, hyp. cbn [fst snd]. fold d0 d1. rewrite !lin_comb.
  assert (SAM : sqrt (al / mu) = sqrt al / sqrt mu) by (apply sqrt_div_alt; exact Mu). rewrite SAM.
  pose proof (cosh_sinh_sq DH) as SD. set (c := cosh DH) in *. set (s := sinh DH) in *. set (c0 := cosh H0) in *. set (z0 := sinh H0) in *.
  assert (CE : cosh (H0 + DH) = c0 * c + z0 * s) by apply cosh_plus. assert (SE : sinh (H0 + DH) = z0 * c + c0 * s) by apply sinh_plus.
  assert (KA : k * (sqrt al / sqrt mu) = 1) by (unfold k; field; lra). assert (SMA : sqrt (- mu * - al) = k * al).
  { replace (- mu * - al) with (mu * al) by ring. rewrite sqrt_mult by lra. unfold k. transitivity (sqrt mu / sqrt al * (sqrt al * sqrt al)); [field; lra|rewrite SAA; reflexivity]. }
  rewrite SMA.
  assert (E1 : d0 = e * c0 - 1) by reflexivity. assert (E2 : d1 = e * (c0 * c + z0 * s) - 1) by (unfold d1; rewrite CE; reflexivity).
  rewrite CE, SE. assert (ZZ : z0 * z0 = c0 * c0 - 1) by exact SC. pose proof (D0 : 0 < d0) as D00. clear D0. clearbody d1 d0 c s c0 z0.
  f_equal; apply lin_ext; apply (Rmult_eq_reg_r d0); try lra.
  - transitivity (al * ((e - c0) * (d0 + 1 - c) - k * (sqrt al / sqrt mu) * (e * z0 * (c - 1) + d0 * s) * z0)); [field; lra|]. rewrite KA. subst d0 d1. clear - ZZ SD. nsz.
  - transitivity (al * b * (z0 * (d0 + 1 - c) + k * (sqrt al / sqrt mu) * (e * z0 * (c - 1) + d0 * s) * c0)); [field; lra|]. rewrite KA. subst d0 d1. clear - ZZ SD. nsz.
  - apply (Rmult_eq_reg_r d1); [|lra]. transitivity (- k * (s * (e - c0) + z0 * (d1 + 1 - c))); [field; repeat split; lra|].
    transitivity (- k * d0 * (z0 * c + c0 * s)); [|field; lra]. subst d0 d1. clear - ZZ SD. nsz.
  - apply (Rmult_eq_reg_r d1); [|lra]. transitivity (b * k * (- s * z0 + c0 * (d1 + 1 - c))); [field; repeat split; lra|].
    transitivity (b * k * d0 * (c0 * c + z0 * s)); [|field; lra]. subst d0 d1. clear - ZZ SD. nsz.
Qed.
Lemma hyp_flow H t : e * sinh H - H = e * sinh H0 - H0 + sqrt (mu / al ^ 3) * t -> flow_at mu s0 t (hyp H).
Proof.
  intros K. destruct (regular_r _ _ Rg) as [_ [Hr Hh]]. fold r0 in Hr, Hh. fold v0 in Hh.
  replace H with (H0 + (H - H0)) by ring. rewrite <- hyp_ustate. rewrite <- s0_eta.
  apply (ustate_flow mu r0 v0 Mu Hr Hh).
  pose proof (T_hyperbola mu r0 v0 Mu Hr hyp_pos (lag_DN mu (- al) t) (H - H0)) as TE. pose proof (DN_eq mu r0 v0 Mu hyp_pos t) as DE. rewrite hyp_a, Ropp_involutive in TE, DE.
  rewrite TE, <- DE. f_equal. rewrite hyp_norm, hyp_sg. unfold kepDH, lag_DN.
  assert (X : sinh H = sinh H0 * cosh (H - H0) + cosh H0 * sinh (H - H0)) by (rewrite <- sinh_plus; f_equal; ring). rewrite X in K.
  replace (- mu / - al / - al / - al) with (mu / al ^ 3) by (field; lra).
  replace (sqrt al * (e * sinh H0) / sqrt al) with (e * sinh H0) by (field; lra). replace (1 - al * d0 / - al) with (e * cosh H0) by (unfold d0; field; lra). lra.
Qed.
End Hyp.
Lemma hyp_motion mu el f1 H0 H1 t : 0 < mu -> sound_el el -> 1 < el_e el -> same_point_hyperbola (el_e el) H0 (el_f el) -> same_point_hyperbola (el_e el) H1 f1 ->
  el_e el * sinh H1 - H1 = el_e el * sinh H0 - H0 + sqrt (mu / (- el_a el) ^ 3) * t ->
  flow_at mu (el_state mu el) t (el_state mu (with_f el f1)) /\ sound_el (with_f el f1).
Proof.
  intros M So E P0 P1 K. destruct (sound_a mu el M So) as [_ A]. specialize (A E). pose proof So as [S1 [S2 S3]].
  assert (A' : 0 < - el_a el) by lra.
  destruct (kst_hyp mu (- el_a el) (el_e el) (perifocal el ex) (perifocal el ey) A' E H0 (el_f el) P0) as [X0 _].
  destruct (kst_hyp mu (- el_a el) (el_e el) (perifocal el ex) (perifocal el ey) A' E H1 f1 P1) as [X1 Y1].
  rewrite Ropp_involutive in X0, X1.
  split; [|split; [exact S1|split; [exact S2|exact Y1]]].
  change (el_state mu el) with (kst mu (el_a el * (1 - el_e el * el_e el)) (el_e el) 0 (el_f el) (perifocal el ex) (perifocal el ey)).
  change (el_state mu (with_f el f1)) with (kst mu (el_a el * (1 - el_e el * el_e el)) (el_e el) 0 f1 (perifocal el ex) (perifocal el ey)).
  pose proof (el_state_regular mu el M So) as Rg. pose proof (el_state_energy mu el M So) as En.
  change (el_state mu el) with (kst mu (el_a el * (1 - el_e el * el_e el)) (el_e el) 0 (el_f el) (perifocal el ex) (perifocal el ey)) in Rg, En.
  rewrite X0 in Rg, En |- *. rewrite X1. rewrite <- (Ropp_involutive (el_a el)) in En at 2.
  apply (hyp_flow mu (- el_a el) (el_e el) _ _ M A' E (peri_ortho el) H0 Rg En). exact K.
Qed.

