(** * Keplerian planets: proofs *)
From Coq Require Import Reals Lra Psatz ZArith.
From Coquelicot Require Import Coquelicot.
From Verif Require Import Outcome RealLib PartialReal Vec3 KepModel KepSpec KepProofs AnomProofs TwoBodyModel TwoBodySpec FlowProofs LagProofs FlowMain BracketProofs TwoBodyProofs
  ElemModel ElemSpec ElemProofs ElemPar ElemEq ElemConv KeplerianModel KeplerianProofs KeplerianMain KplaModel KplaSpec.
Open Scope R_scope.

Lemma en_of_ok s mu : fst s <> vzero -> en_of s mu = Some (energy mu s).
Proof. intros H. pose proof (norm_pos _ H). unfold en_of. rewrite pdiv_some by lra. reflexivity. Qed.
Lemma period_of_ok a mu : 0 < mu -> 0 < a -> period_of a mu = Some (2 * PI * sqrt (a ^ 3 / mu)).
Proof.
  intros M A. assert (0 < a * a * a) by (apply Rmult_lt_0_compat; [apply Rmult_lt_0_compat|]; exact A). assert (0 < a * a * a / mu) by (apply Rdiv_lt_0_compat; assumption).
  unfold period_of. rewrite pdiv_some by lra. cbn [obind]. rewrite psqrt_some by lra. cbn [obind]. f_equal. replace (a ^ 3) with (a * a * a) by ring. ring.
Qed.
Lemma ctor_state_ell ref s mu : elliptic mu s -> ctor_state ref s mu = mk_kpla ref mu (Some (period mu s)) true (Some s) (ic2par s mu).
Proof.
  intros El. destruct (regular_r _ _ (proj1 El)) as [M [Hr _]]. pose proof (proj2 El) as Neg. unfold ctor_state. rewrite (en_of_ok s mu Hr). destruct (Rlt_dec 0 (energy mu s)); [lra|].
  cbn [obind]. rewrite pdiv_some by lra. cbn [obind]. unfold period. f_equal. replace (- mu / 2 / energy mu s) with (sma mu s) by (unfold sma; field; lra).
  apply period_of_ok; [exact M|]. unfold sma. replace (- mu / (2 * energy mu s)) with (mu / (2 * - energy mu s)) by (field; lra). apply Rdiv_lt_0_compat; lra.
Qed.
Lemma ctor_state_hyp ref s mu : hyperbolic mu s -> ctor_state ref s mu = mk_kpla ref mu None false (Some s) (ic2par s mu).
Proof.
  intros El. destruct (regular_r _ _ (proj1 El)) as [M [Hr _]]. pose proof (proj2 El) as Pos. unfold ctor_state. rewrite (en_of_ok s mu Hr). destruct (Rlt_dec 0 (energy mu s)); [reflexivity|lra].
Qed.
Lemma ctor_state_pv ref s mu : k_pv (ctor_state ref s mu) = Some s /\ k_ref (ctor_state ref s mu) = ref /\ k_mu (ctor_state ref s mu) = mu. Proof. repeat split. Qed.
Lemma eph_run newton p s t : k_pv p = Some s -> kpla_eph newton p t = bind (propagate_lagrangian newton s ((t - k_ref p) * day2sec) (k_mu p) false) (fun r => Ret (Some (fst r))).
Proof. intros H. unfold kpla_eph. rewrite H. reflexivity. Qed.

Lemma eph_reference newton ref s mu : newton_ok newton -> elliptic mu s \/ hyperbolic mu s -> kpla_eph newton (ctor_state ref s mu) ref = Ret (Some s).
Proof.
  intros N H. rewrite (eph_run newton (ctor_state ref s mu) s ref eq_refl). cbn [k_ref k_mu ctor_state]. replace ((ref - ref) * day2sec) with 0 by ring.
  destruct (group_zero newton N mu s false H) as [m ->]. reflexivity.
Qed.
Lemma eph_flow newton ref s mu t : newton_ok newton -> elliptic mu s -> exists s', kpla_eph newton (ctor_state ref s mu) t = Ret (Some s') /\ flow_at mu s ((t - ref) * 86400) s'.
Proof.
  intros N El. rewrite (eph_run newton (ctor_state ref s mu) s t eq_refl). cbn [k_ref k_mu ctor_state]. unfold day2sec.
  destruct (ellipse_flow newton mu s ((t - ref) * 86400) false N El) as [s' [m [-> F]]]. exists s'. split; [reflexivity|exact F].
Qed.
Lemma eph_flow_h newton ref s mu t : newton_ok newton -> hyperbolic mu s -> mean_motion mu s * Rabs ((t - ref) * 86400) <= 10 ^ 9 ->
  exists s', kpla_eph newton (ctor_state ref s mu) t = Ret (Some s') /\ flow_at mu s ((t - ref) * 86400) s'.
Proof.
  intros N El B. rewrite (eph_run newton (ctor_state ref s mu) s t eq_refl). cbn [k_ref k_mu ctor_state]. unfold day2sec.
  destruct (lag_hyp_total newton mu s ((t - ref) * 86400) false N El B) as [s' [m [-> F]]]. exists s'. split; [reflexivity|exact F].
Qed.
Lemma eph_inv newton ref s mu t s' : kpla_eph newton (ctor_state ref s mu) t = Ret (Some s') -> exists m, propagate_lagrangian newton s ((t - ref) * 86400) mu false = Ret (s', m).
Proof.
  rewrite (eph_run newton (ctor_state ref s mu) s t eq_refl). cbn [k_ref k_mu ctor_state]. unfold day2sec. destruct (propagate_lagrangian newton s ((t - ref) * 86400) mu false) as [[x m]| |]; cbn [bind fst]; intros H; try discriminate.
  exists m. apply (f_equal (fun o => match o with Ret (Some y) => y | _ => x end)) in H. rewrite <- H. reflexivity.
Qed.
Lemma eph_sound newton ref s mu t s' : newton_sound newton -> regular mu s -> energy mu s <> 0 -> kpla_eph newton (ctor_state ref s mu) t = Ret (Some s') -> flow_at mu s ((t - ref) * 86400) s'.
Proof. intros N Rg NE H. destruct (eph_inv _ _ _ _ _ _ H) as [m E]. apply (lag_sound newton mu s _ false s' m N Rg NE E). Qed.
Lemma eph_conserves newton ref s mu t s' : regular mu s -> energy mu s <> 0 -> kpla_eph newton (ctor_state ref s mu) t = Ret (Some s') -> same_integrals mu s s'.
Proof. intros Rg NE H. destruct (eph_inv _ _ _ _ _ _ H) as [m E]. apply (lag_conserves_regular newton mu s _ false s' m Rg NE E). Qed.

(** Kepler's third law *)
Lemma eph_period newton ref s mu : newton_ok newton -> elliptic mu s -> exists P, (forall t, kpla_period (ctor_state ref s mu) t = Some P) /\ 0 < P /\ P = 2 * PI * sqrt (sma mu s ^ 3 / mu) /\
  forall t (k : Z), kpla_eph newton (ctor_state ref s mu) (t + IZR k * P / 86400) = kpla_eph newton (ctor_state ref s mu) t.
Proof.
  intros N El. exists (period mu s). rewrite (ctor_state_ell ref s mu El). split; [reflexivity|]. pose proof (proj2 El) as Neg. pose proof (proj1 (proj1 El)) as M. pose proof PI_RGT_0. split; [|split; [reflexivity|]].
  - unfold period. apply Rmult_lt_0_compat; [lra|]. apply sqrt_lt_R0, Rdiv_lt_0_compat; [|exact M]. apply pow_lt. unfold sma. replace (- mu / (2 * energy mu s)) with (mu / (2 * - energy mu s)) by (field; lra). apply Rdiv_lt_0_compat; lra.
  - intros t k. unfold kpla_eph. cbn [k_pv k_ref k_mu]. unfold day2sec. replace ((t + IZR k * period mu s / 86400 - ref) * 86400) with (IZR k * period mu s + (t - ref) * 86400) by field.
    destruct (ellipse_flow newton mu s ((t - ref) * 86400) false N El) as [s' [m [-> F]]].
    pose proof (flow_comp mu s _ s _ s' M (flow_period mu s k El) F) as G.
    destruct (lag_value newton N mu s _ s' false El G) as [m' ->]. reflexivity.
Qed.
Lemma lin_indep r v x y x' y' : cross r v <> vzero -> vadd (vscal x r) (vscal y v) = vadd (vscal x' r) (vscal y' v) -> x = x' /\ y = y'.
Proof.
  intros C H.
  assert (A : vscal (x - x') (cross r v) = vzero).
  { transitivity (vsub (cross (vadd (vscal x r) (vscal y v)) v) (cross (vadd (vscal x' r) (vscal y' v)) v)); [vring|]. rewrite H. vring. }
  assert (B : vscal (y - y') (cross r v) = vzero).
  { transitivity (vsub (cross r (vadd (vscal x r) (vscal y v))) (cross r (vadd (vscal x' r) (vscal y' v)))); [vring|]. rewrite H. vring. }
  assert (Z : forall k, vscal k (cross r v) = vzero -> k = 0).
  { intros k K. destruct (Req_dec k 0) as [|NZ]; [assumption|]. exfalso. apply C. transitivity (vscal (/ k) (vscal k (cross r v))); [rewrite vscal_vscal, Rinv_l by exact NZ; symmetry; apply vscal_1|rewrite K; vring]. }
  apply Z in A. apply Z in B. lra.
Qed.
Lemma cos_eq_1 x : cos x = 1 -> exists k : Z, x = 2 * IZR k * PI.
Proof.
  intros C. assert (S : sin (x / 2) = 0). { replace x with (2 * (x / 2)) in C by field. rewrite cos_2a_sin in C. nra. }
  destruct (sin_eq_0_0 _ S) as [k K]. exists k. lra.
Qed.
Lemma least_period mu s t : elliptic mu s -> flow_at mu s t s -> exists k : Z, t = IZR k * period mu s.
Proof.
  intros El F. destruct (regular_r _ _ (proj1 El)) as [M [Hr Hh]]. pose proof (proj2 El) as Neg. destruct s as [r v]. cbn [fst snd] in *.
  set (a := lag_a mu (energy mu (r, v))). assert (SA : sma mu (r, v) = a) by (unfold sma, a, lag_a; field; lra).
  pose proof (a_pos mu r v M Neg) as PA. fold a in PA. destruct (sqmu mu M) as [M1 M2]. destruct (sqrta_sq mu r v M Neg) as [S1 S2]. fold a in S1, S2.
  destruct (T_onto mu r v M Hr Hh (sqrt mu * t)) as [x X].
  pose proof (ustate_flow mu r v M Hr Hh t x X) as G. pose proof (flow_functional _ _ _ _ _ F G) as Q.
  set (DE := x / sqrt a). assert (Ex : x = sqrt a * DE) by (unfold DE; field; lra). rewrite Ex in X, Q.
  assert (C : cos DE = 1).
  { pose proof (f_equal fst Q) as Q1. unfold ustate in Q1. cbn [fst] in Q1. assert (W : vadd (vscal 1 r) (vscal 0 v) = r) by vring. rewrite <- W in Q1 at 1.
    destruct (lin_indep _ _ _ _ _ _ Hh Q1) as [E1 _]. unfold uF in E1. destruct (U_ellipse mu r v M Hr Neg DE) as [_ [_ [U2E _]]]. fold a in U2E. rewrite U2E in E1.
    pose proof (norm_pos _ Hr) as NP. unfold R0 in E1. assert (K : a * (1 - cos DE) / norm r = 0) by lra. assert (K' : 1 - cos DE = 0); [|lra]. transitivity (norm r / a * (a * (1 - cos DE) / norm r)); [field; split; lra|rewrite K; ring]. }
  destruct (cos_eq_1 _ C) as [k K]. exists k. assert (S : sin DE = 0) by (rewrite K, <- (Rplus_0_l (2 * IZR k * PI)), period_Z_sin; apply sin_0).
  pose proof (T_ellipse mu r v M Hr Neg 0 DE) as TE. fold a in TE. rewrite TE in X. unfold kepDE in X. rewrite C, S in X. unfold period. rewrite SA.
  apply (Rmult_eq_reg_l (sqrt mu)); [|lra]. rewrite <- X, K. rewrite sqrt_div_alt by exact M. replace (a ^ 3) with (sqrt a * sqrt a * sqrt a * (sqrt a * sqrt a * sqrt a)) by (transitivity (sqrt a * sqrt a * (sqrt a * sqrt a) * (sqrt a * sqrt a)); [ring|rewrite S2; ring]).
  rewrite sqrt_square by (apply Rmult_le_pos; [apply Rmult_le_pos|]; lra). field. lra.
Qed.

(** ** planets from elements *)
Lemma sound_branch mu el : 0 < mu -> sound_el el -> (0 < el_a el /\ elliptic mu (el_state mu el)) \/ (el_a el < 0 /\ hyperbolic mu (el_state mu el)).
Proof.
  intros M So. pose proof (el_state_regular mu el M So) as Rg. pose proof (el_state_energy mu el M So) as En.
  assert (NZ : el_a el <> 0) by (destruct So as [A _]; intros Z; rewrite Z in A; lra).
  destruct (Rdichotomy _ _ NZ) as [N|P].
  - right. split; [exact N|]. split; [exact Rg|]. rewrite En. replace (- mu / (2 * el_a el)) with (mu / (2 * - el_a el)) by (field; lra). apply Rdiv_lt_0_compat; lra.
  - left. split; [exact P|]. split; [exact Rg|]. rewrite En. assert (0 < mu / (2 * el_a el)) by (apply Rdiv_lt_0_compat; lra). replace (- mu / (2 * el_a el)) with (- (mu / (2 * el_a el))) by (field; lra). lra.
Qed.
Definition finish (ref mu : R) (el : elem) (pv : option state) : kpla :=
  let ellipse := if Rlt_dec (el_a el) 0 then false else true in mk_kpla ref mu (if ellipse then period_of (el_a el) mu else None) ellipse pv (Some el).
Lemma finish_same ref mu el : 0 < mu -> sound_el el ->
  finish ref mu el (Some (el_state mu el)) = (let p := ctor_state ref (el_state mu el) mu in mk_kpla ref mu (k_period p) (k_ellipse p) (Some (el_state mu el)) (Some el)).
Proof.
  intros M So. unfold finish. destruct (sound_branch mu el M So) as [[A El]|[A Hy]].
  - rewrite (ctor_state_ell ref _ mu El). destruct (Rlt_dec (el_a el) 0); [lra|]. cbn [k_period k_ellipse]. unfold period. rewrite (el_state_sma mu el M So), (period_of_ok _ _ M A). reflexivity.
  - rewrite (ctor_state_hyp ref _ mu Hy). destruct (Rlt_dec (el_a el) 0); [reflexivity|lra].
Qed.
Lemma finish_planet ref mu el : 0 < mu -> sound_el el -> same_planet (finish ref mu el (Some (el_state mu el))) (ctor_state ref (el_state mu el) mu).
Proof. intros M So. rewrite (finish_same ref mu el M So). unfold same_planet, kpla_period, kpla_eph. cbn [k_ellipse k_period k_pv k_ref k_mu ctor_state]. repeat split. Qed.
Lemma ctor_run newton ref x mu ty el : 0 < mu -> 0 < el_a x * (1 - el_e x) -> to_kep_f newton x ty = Ret (Some el) -> sound_el el ->
  ctor_elem newton ref x mu ty = Ret (finish ref mu el (Some (el_state mu el))).
Proof.
  intros M C T So. unfold ctor_elem. destruct (Rle_dec (el_a x * (1 - el_e x)) 0); [lra|]. rewrite T. cbn [bind]. rewrite (par2ic_ok mu el M So). reflexivity.
Qed.
Lemma kep_f_planet newton ref el mu : 0 < mu -> 0 < el_a el * (1 - el_e el) -> 0 <= el_e el -> 0 < 1 + el_e el * cos (el_f el) ->
  exists p s, ctor_elem newton ref el mu KEP_F = Ret p /\ osculating mu s el /\ same_planet p (ctor_state ref s mu) /\ k_el p = Some el.
Proof.
  intros M C E D. assert (So : sound_el el) by (split; [exact C|split; assumption]). exists (finish ref mu el (Some (el_state mu el))), (el_state mu el).
  split; [apply (ctor_run newton ref el mu KEP_F el M C eq_refl So)|]. split; [apply el_state_osc; assumption|]. split; [apply finish_planet; assumption|reflexivity].
Qed.
Lemma kep_f_valid newton ref el mu : 0 < mu -> valid el -> exists s, osculating mu s el /\ ctor_elem newton ref el mu KEP_F = Ret (ctor_state ref s mu).
Proof.
  intros M Va. pose proof (valid_sound el Va) as So. exists (el_state mu el). split; [apply el_state_osc; assumption|].
  rewrite (ctor_run newton ref el mu KEP_F el M (proj1 So) eq_refl So), (finish_same ref mu el M So).
  rewrite <- (par_ic_par mu el (el_state mu el) M Va (par2ic_ok mu el M So)). reflexivity.
Qed.
Lemma kep_m_planet newton ref x mu : newton_ok newton -> 0 < mu -> 0 < el_a x -> 0 <= el_e x < 1 ->
  exists p s f E (k : Z), ctor_elem newton ref x mu KEP_M = Ret p /\ same_point_ellipse (el_e x) E f /\ E - el_e x * sin E = el_f x + 2 * IZR k * PI /\
    osculating mu s (with_f x f) /\ same_planet p (ctor_state ref s mu) /\ k_el p = Some (with_f x f).
Proof.
  intros N M A E. destruct (m2e_turns newton N (el_e x) (el_f x) E) as [E1 [k [H1 [_ H3]]]]. rewrite (e2m_eq _ E) in H3. injection H3 as H3.
  pose proof (ell_point (el_e x) E E1) as SP. set (f := half (sqrt ((1 + el_e x) / (1 - el_e x))) E1) in *.
  destruct (kst_ell mu (el_a x) (el_e x) (perifocal x ex) (perifocal x ey) A E E1 f SP) as [_ D].
  assert (C : 0 < el_a x * (1 - el_e x)) by (apply Rmult_lt_0_compat; lra).
  assert (So : sound_el (with_f x f)) by (split; [exact C|split; [cbn [with_f el_e]; lra|exact D]]).
  assert (T : to_kep_f newton x KEP_M = Ret (Some (with_f x f))).
  { unfold to_kep_f. destruct (Rlt_dec (el_a x) 0); [lra|]. unfold m2f. destruct (Rle_dec 1 (el_e x)); [lra|]. rewrite H1, (e2f_half _ E). reflexivity. }
  exists (finish ref mu (with_f x f) (Some (el_state mu (with_f x f)))), (el_state mu (with_f x f)), f, E1, k.
  split; [apply (ctor_run newton ref x mu KEP_M _ M C T So)|]. split; [exact SP|]. split; [exact H3|]. split; [apply el_state_osc; assumption|]. split; [apply finish_planet; assumption|reflexivity].
Qed.
Lemma kep_m_hyperbola newton ref x mu : el_a x < 0 -> 1 < el_e x -> ctor_elem newton ref x mu KEP_M = Throw LogicError.
Proof. intros A E. unfold ctor_elem. destruct (Rle_dec (el_a x * (1 - el_e x)) 0); [nra|]. unfold to_kep_f. destruct (Rlt_dec (el_a x) 0); [reflexivity|lra]. Qed.
Lemma meq_planet newton ref q mu b : 0 < mu -> eq_valid q -> eq_f q < 1 -> 0 < eq_f q * eq_f q + eq_g q * eq_g q -> 0 < eq_h q * eq_h q + eq_k q * eq_k q ->
  exists p s, ctor_elem newton ref (as_el q) mu (retro_of b) = Ret p /\ osculating_eq mu b s q /\ same_planet p (ctor_state ref s mu).
Proof.
  intros M Va F1 P1 P2. destruct (eq2par_spec mu b q M Va P1 P2) as [el [s [E1 [E2 [E3 O]]]]].
  destruct (eq2ic_spec mu b q M Va) as [s' [E2' [O' Rg]]]. rewrite E2 in E2'.
  assert (Q : s' = s). { symmetry. apply (f_equal (fun o => match o with Some y => y | None => s end)) in E2'. exact E2'. } subst s'.
  destruct (osc_state mu s el (proj1 Rg) (proj1 (proj2 Rg)) O) as [Es So].
  assert (C : 0 < el_a (as_el q) * (1 - el_e (as_el q))) by (cbn [as_el el_a el_e]; destruct Va as [P _]; apply Rmult_lt_0_compat; lra).
  assert (T : to_kep_f newton (as_el q) (retro_of b) = Ret (Some el)) by (destruct q, b; cbn [to_kep_f retro_of as_el as_eq] in *; rewrite <- E1; reflexivity).
  exists (finish ref mu el (Some (el_state mu el))), s. split; [apply (ctor_run newton ref _ mu _ el M C T So)|]. split; [exact O'|]. rewrite Es. apply finish_planet; assumption.
Qed.
(** the check made before the type of the elements is looked at *)
Lemma meq_hyperbola : exists q mu s, 0 < mu /\ eq_valid q /\ eq2ic q mu false = Some s /\ hyperbolic mu s /\ forall newton ref, ctor_elem newton ref (as_el q) mu MEQ = Throw DomainError.
Proof.
  set (q := Eq 1 2 0 1 0 0). assert (Va : eq_valid q). { unfold eq_valid, q. cbn [eq_p eq_f eq_g eq_L]. rewrite cos_0, sin_0. pose proof PI_RGT_0. repeat split; lra. }
  exists q, 1. destruct (eq2ic_spec 1 false q ltac:(lra) Va) as [s [E [O Rg]]]. exists s. split; [lra|]. split; [exact Va|]. split; [exact E|]. split.
  - split; [exact (proj1 Rg)|]. assert (S : eq_sound q) by (apply eq_valid_sound; exact Va). rewrite (eq2ic_ok 1 false q ltac:(lra) S) in E.
    assert (Q : s = eq_state 1 false q). { apply (f_equal (fun o => match o with Some y => y | None => s end)) in E. symmetry. exact E. }
    rewrite Q, (eq_state_energy 1 false q ltac:(lra) S). unfold q. cbn [eq_p eq_f eq_g]. lra.
  - intros newton ref. unfold ctor_elem, q, as_el. cbn [el_a el_e eq_p eq_f]. destruct (Rle_dec (1 * (1 - 2)) 0); [reflexivity|lra].
Qed.
Lemma meq_circular : exists q mu s, 0 < mu /\ eq_valid q /\ eq2ic q mu false = Some s /\ elliptic mu s /\
  forall newton ref, exists p, ctor_elem newton ref (as_el q) mu MEQ = Ret p /\ forall t, kpla_eph newton p t = Ret None.
Proof.
  set (q := Eq 1 0 0 1 0 0). assert (Va : eq_valid q). { unfold eq_valid, q. cbn [eq_p eq_f eq_g eq_L]. rewrite cos_0, sin_0. pose proof PI_RGT_0. repeat split; lra. }
  exists q, 1. destruct (eq2ic_spec 1 false q ltac:(lra) Va) as [s [E [O Rg]]]. exists s. split; [lra|]. split; [exact Va|]. split; [exact E|]. split.
  - split; [exact (proj1 Rg)|]. assert (S : eq_sound q) by (apply eq_valid_sound; exact Va). rewrite (eq2ic_ok 1 false q ltac:(lra) S) in E.
    assert (Q : s = eq_state 1 false q). { apply (f_equal (fun o => match o with Some y => y | None => s end)) in E. symmetry. exact E. }
    rewrite Q, (eq_state_energy 1 false q ltac:(lra) S). unfold q. cbn [eq_p eq_f eq_g]. lra.
  - intros newton ref. unfold ctor_elem, q, as_el. cbn [el_a el_e eq_p eq_f]. destruct (Rle_dec (1 * (1 - 0)) 0); [lra|]. unfold to_kep_f, as_eq, eq2par. cbn [el_a el_e el_i el_W el_w el_f eq_g eq_h eq_k eq_L].
    replace (0 * 0 + 0 * 0) with 0 by ring. rewrite sqrt_0, pdiv_none. cbn [obind bind]. eexists. split; [reflexivity|]. reflexivity.
Qed.
Lemma ctor_rejects newton ref el mu : (ctor_elem newton ref el mu KEP_F = Throw DomainError <-> el_a el * (1 - el_e el) <= 0 \/ (1 < el_e el /\ cos (el_f el) < - / el_e el)) /\
  (ctor_elem newton ref el mu KEP_F <> Throw DomainError -> exists p, ctor_elem newton ref el mu KEP_F = Ret p).
Proof.
  unfold ctor_elem. destruct (Rle_dec (el_a el * (1 - el_e el)) 0) as [L|L].
  - split; [split; [intros _; left; exact L|reflexivity]|congruence].
  - cbn [to_kep_f bind]. destruct (par2ic_throws mu el) as [T [X U]]. destruct (par2ic el mu) as [pv|x|]; cbn [bind].
    + split; [split; [discriminate|]|intros _; eexists; reflexivity]. intros [H|H]; [lra|]. pose proof (proj2 T (or_intror H)) as Q; discriminate Q.
    + pose proof (X x eq_refl) as Q; subst x. split; [|congruence]. split; [intros _|reflexivity]. destruct (proj1 T eq_refl) as [H|H]; [lra|right; exact H].
    + congruence.
Qed.
Lemma ctor_neg_ecc : exists el mu, 0 < mu /\ el_e el < 0 /\ forall newton ref, exists p s, ctor_elem newton ref el mu KEP_F = Ret p /\ k_pv p = Some s.
Proof.
  set (el := El 1 (- (1 / 2)) 0 0 0 0). exists el, 1. split; [lra|]. split; [unfold el; cbn [el_e]; lra|]. intros newton ref.
  assert (E : exists s, par2ic el 1 = Ret (Some s)).
  { unfold el, par2ic. rewrite cos_0. destruct (Rlt_dec (1 * (1 - - (1 / 2))) 0); [lra|]. destruct (Rlt_dec 1 (- (1 / 2))); [lra|].
    rewrite pdiv_some by lra. cbn [obind]. rewrite psqrt_some by lra. cbn [obind]. assert (0 < sqrt (1 * (1 - - (1 / 2) * - (1 / 2)) * 1)) by (apply sqrt_lt_R0; lra). rewrite !pdiv_some by lra. cbn [obind]. eexists. reflexivity. }
  destruct E as [s E]. unfold ctor_elem. destruct (Rle_dec (el_a el * (1 - el_e el)) 0) as [L|L]; [unfold el in L; cbn [el_a el_e] in L; lra|]. cbn [to_kep_f bind]. rewrite E. cbn [bind]. eexists. exists s. split; reflexivity.
Qed.

(** ** the elements reported *)
Lemma elements_all ref s mu t : nonsingular mu s -> energy mu s < 0 -> let p := ctor_state ref s mu in
  exists el E q q', osculating mu s el /\ valid el /\ kpla_elements p t KEP_F = Ret (Some el) /\
    same_point_ellipse (el_e el) E (el_f el) /\ kpla_elements p t KEP_M = Ret (Some (with_f el (E - el_e el * sin E))) /\
    osculating_eq mu false s q /\ kpla_elements p t MEQ = Ret (Some (as_el q)) /\ osculating_eq mu true s q' /\ kpla_elements p t MEQ_R = Ret (Some (as_el q')).
Proof.
  intros NS Neg p. destruct (kp_setup mu s NS) as [el [I [Es [V [M [_ [Ell _]]]]]]]. destruct (Ell Neg) as [A E]. assert (He : 0 <= el_e el < 1) by lra.
  assert (El : elliptic mu s) by (split; [apply NS|exact Neg]). unfold p. rewrite (ctor_state_ell ref s mu El). unfold kpla_elements. cbn [k_el k_ellipse]. rewrite I. cbn [obind].
  destruct (par2eq_spec mu false el M V) as [q [s1 [Q1 [Q2 [_ Q3]]]]]. destruct (par2eq_spec mu true el M V) as [q' [s2 [R1 [R2 [_ R3]]]]].
  pose proof (ic_par_ic mu s el NS I) as P. rewrite P in Q2, R2.
  assert (X1 : s1 = s) by (apply (f_equal (fun o => match o with Ret (Some y) => y | _ => s end)) in Q2; symmetry; exact Q2).
  assert (X2 : s2 = s) by (apply (f_equal (fun o => match o with Ret (Some y) => y | _ => s end)) in R2; symmetry; exact R2). subst s1 s2.
  exists el, (half (sqrt ((1 - el_e el) / (1 + el_e el))) (el_f el)), q, q'. rewrite Q1, R1. cbn [obind]. unfold f2m. destruct (Rle_dec 1 (el_e el)); [lra|]. rewrite (f2e_half _ He), (e2m_eq _ He). cbn [obind].
  split; [rewrite Es; apply el_state_osc; [exact M|apply valid_sound, V]|]. split; [exact V|]. split; [reflexivity|]. split; [apply ell_point_back; exact He|]. repeat split; assumption.
Qed.
Lemma posvel_all s mu : nonsingular mu s -> energy mu s < 0 -> exists el E q q', osculating mu s el /\ valid el /\ posvel_elements s mu KEP_F = Ret (Some el) /\
    same_point_ellipse (el_e el) E (el_f el) /\ (1 <= sma mu s -> posvel_elements s mu KEP_M = Ret (Some (with_f el (E - el_e el * sin E)))) /\
    osculating_eq mu false s q /\ posvel_elements s mu MEQ = Ret (Some (as_el q)) /\ osculating_eq mu true s q' /\ posvel_elements s mu MEQ_R = Ret (Some (as_el q')).
Proof.
  intros NS Neg. destruct (elements_all 0 s mu 0 NS Neg) as [el [E [q [q' [A [B [C [D [F [G [H [I J]]]]]]]]]]]]. exists el, E, q, q'.
  assert (El : elliptic mu s) by (split; [apply NS|exact Neg]). rewrite (ctor_state_ell 0 s mu El) in *. unfold kpla_elements in *. cbn [k_el k_ellipse] in *.
  destruct (kp_setup mu s NS) as [el' [I' [_ [_ [_ [SM _]]]]]]. unfold posvel_elements.
  split; [exact A|]. split; [exact B|]. split; [exact C|]. split; [exact D|]. split; [|split; [exact G|split; [exact H|split; [exact I|exact J]]]].
  intros L. rewrite I' in *. destruct (Rlt_dec (el_a el') 1); [rewrite SM in L; lra|]. exact F.
Qed.
Lemma posvel_kep_m s mu : nonsingular mu s -> energy mu s < 0 -> (sma mu s < 1 <-> posvel_elements s mu KEP_M = Throw LogicError).
Proof.
  intros NS Neg. destruct (kp_setup mu s NS) as [el [I [_ [_ [_ [SM [Ell _]]]]]]]. unfold posvel_elements. rewrite I. rewrite SM. destruct (Rlt_dec (el_a el) 1); split; intros; try lra; try reflexivity; discriminate.
Qed.
Lemma kp_setup_el0 : nonsingular (3 / 2) s0 /\ energy (3 / 2) s0 = - (3 / 8).
Proof.
  pose proof (valid_sound _ el0_valid) as So. assert (Es : s0 = el_state (3 / 2) el0).
  { pose proof el0_par2ic as H. rewrite (par2ic_ok (3 / 2) el0 ltac:(lra) So) in H. generalize dependent (el_state (3 / 2) el0). intros x H. apply (f_equal (fun o => match o with Ret (Some y) => y | _ => x end)) in H. symmetry. exact H. }
  split; rewrite Es; [apply el_nonsingular; [lra|apply el0_valid]|]. rewrite el_state_energy; [unfold el0; cbn [el_a]; field|lra|exact So].
Qed.
(** the date is ignored: a quarter of an orbit later the same true anomaly is reported *)
Lemma elements_stale : exists ref s mu t s' el, elliptic mu s /\ (forall newton, newton_ok newton -> kpla_eph newton (ctor_state ref s mu) t = Ret (Some s')) /\
  kpla_elements (ctor_state ref s mu) t KEP_F = Ret (Some el) /\ ~ osculating mu s' el.
Proof.
  destruct kp_setup_el0 as [NS En]. set (T := (PI / 3 - sqrt 3 / 4) / sqrt (3 / 16)).
  exists 0, s0, (3 / 2), (T / 86400), (V 0 0 1, V (3 / 2) 0 0), el0. assert (Neg : energy (3 / 2) s0 < 0) by (rewrite En; lra).
  split; [split; [apply NS|exact Neg]|]. split; [|split].
  - intros newton N. unfold kpla_eph. cbn [ctor_state k_pv k_ref k_mu]. unfold day2sec. replace ((T / 86400 - 0) * 86400) with T by field.
    destruct (kp_agree_ell newton (3 / 2) s0 T false N NS Neg) as [x [m [H1 [-> _]]]]. pose proof (peri_run newton N) as PR. fold T in PR. rewrite PR in H1. cbn [bind fst].
    apply (f_equal (fun o => match o with Ret (Some y) => y | _ => x end)) in H1. rewrite H1. reflexivity.
  - unfold kpla_elements. cbn [ctor_state k_el]. rewrite el0_ic2par. reflexivity.
  - intros [_ [_ [_ [_ H]]]]. cbn [fst] in H. unfold perifocal, el0, rotz, rotx, vscal in H. cbn [el_a el_e el_i el_W el_w el_f vx vy vz] in H. apply (f_equal vz) in H. cbn [vz] in H.
    rewrite cos_3PI2, sin_3PI2, cos_PI2, sin_PI2 in H. lra.
Qed.
(** a circular equatorial planet has a state but no elements *)
Lemma elements_none : exists s mu, elliptic mu s /\ forall ref t, kpla_elements (ctor_state ref s mu) t KEP_F = Ret None /\ kpla_elements (ctor_state ref s mu) t MEQ = Ret None.
Proof.
  exists (V 1 0 0, V 0 1 0), 1. split; [pose proof circle_elliptic as C; unfold circle in C; rewrite cos_0, sin_0, Ropp_0 in C; exact C|]. intros ref t. unfold kpla_elements. cbn [ctor_state k_el].
  assert (H : ic2par (V 1 0 0, V 0 1 0) 1 = None); [|rewrite H; split; reflexivity].
  destruct (ic2par (V 1 0 0, V 0 1 0) 1) eqn:E; [|reflexivity]. exfalso.
  assert (NS : nonsingular 1 (V 1 0 0, V 0 1 0)) by (apply ic2par_domain; [lra|eexists; exact E]). destruct NS as [_ [_ [_ C]]]. apply C. unfold ang_mom, cross, ez, vzero. cbn [fst snd vx vy vz]. f_equal; ring.
Qed.
Lemma no_period ref s mu t : hyperbolic mu s -> kpla_period (ctor_state ref s mu) t = None.
Proof. intros H. rewrite (ctor_state_hyp ref s mu H). reflexivity. Qed.
Lemma posvel_small : exists s mu, elliptic mu s /\ nonsingular mu s /\ posvel_elements s mu KEP_M = Throw LogicError.
Proof.
  set (el := El (1 / 2) (1 / 2) (PI / 2) PI (PI / 2) (3 * (PI / 2))).
  assert (V : valid el). { pose proof PI_RGT_0. unfold valid, angle_ok, el; cbn [el_a el_e el_i el_W el_w el_f]. rewrite cos_3PI2. repeat split; lra. }
  pose proof (valid_sound el V) as So. assert (M : 0 < 1) by lra. pose proof (el_nonsingular 1 el M V) as NS. pose proof (el_state_energy 1 el M So) as En.
  assert (Neg : energy 1 (el_state 1 el) < 0) by (rewrite En; unfold el; cbn [el_a]; lra).
  exists (el_state 1 el), 1. split; [split; [apply NS|exact Neg]|]. split; [exact NS|]. apply posvel_kep_m; [exact NS|exact Neg|]. rewrite (el_state_sma 1 el M So). unfold el. cbn [el_a]. lra.
Qed.
Lemma quarter newton ref : newton_ok newton -> kpla_eph newton (ctor_state ref (V 1 0 0, V 0 1 0) 1) (ref + PI / 2 / 86400) = Ret (Some (V 0 1 0, V (-1) 0 0)).
Proof.
  intros N. assert (C0 : circle 0 = (V 1 0 0, V 0 1 0)) by (unfold circle; rewrite cos_0, sin_0, Ropp_0; reflexivity).
  rewrite (eph_run newton (ctor_state ref (V 1 0 0, V 0 1 0) 1) _ _ eq_refl). cbn [k_ref k_mu ctor_state]. unfold day2sec. replace ((ref + PI / 2 / 86400 - ref) * 86400) with (PI / 2) by field.
  rewrite <- C0. destruct (circle_run newton (PI / 2) N) as [m ->]. cbn [bind fst]. unfold circle. rewrite cos_PI2, sin_PI2. repeat f_equal; lra.
Qed.
