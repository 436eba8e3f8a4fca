(** * The state transition matrix solves the variational equations (used for C18) *)
From Coq Require Import Reals List Lra.
From Coquelicot Require Import Coquelicot.
From Verif Require Import RealLib Outcome KepModel KepSpec KepProofs Vec3 TwoBodyModel TwoBodySpec FlowProofs LagProofs FlowMain BracketProofs TwoBodyProofs StmProofs StmMain.
Open Scope R_scope.

(** ** The rows near time 0 *)
Section GenE.
Variables (mu R0 sig a k x y z : R) (D : R -> R).
Hypothesis (Mu : 0 < mu) (PR : 0 < R0) (Pk : 0 < k) (Ek : sqrt a = k) (Ea : a = k * k).
Hypothesis (HD : is_derive D 0 (sqrt mu / (R0 * k))) (D0 : D 0 = 0).
Let s0 := sig / k. Let c0 := 1 - R0 / a.
Let lag h := lag_ellipse mu R0 a sig s0 c0 (D h).
Let q : 0 < sqrt mu := sqrt_lt_R0 mu Mu.
Let qq : sqrt mu * sqrt mu = mu := sqrt_sqrt mu (Rlt_le _ _ Mu).
Ltac fin := rewrite ?D0, ?sin_0, ?cos_0.
Lemma ge_Rf0 : lRf (lag 0) = R0.
Proof. unfold lag, lag_ellipse. cbn [lRf]. fin. ring. Qed.
Lemma ge_F : is_derive (fun h => lF (lag h)) 0 0.
Proof. unfold lag, lag_ellipse. cbn [lF]. eapply der_to; [ders; lra|]. fin. field. lra. Qed.
Lemma ge_G : is_derive (fun h => lG (lag h)) 0 1.
Proof.
  unfold lag, lag_ellipse. cbn [lG]. rewrite (sqrt_div_alt a mu Mu), Ek. eapply der_to; [ders; lra|]. fin. field. lra.
Qed.
Lemma ge_Rf : is_derive (fun h => lRf (lag h)) 0 (sig * sqrt mu / R0).
Proof. unfold lag, lag_ellipse. cbn [lRf]. rewrite Ek. eapply der_to; [ders; lra|]. fin. rewrite Ea. field. lra. Qed.
Lemma ge_Ft : is_derive (fun h => lFt (lag h)) 0 (- mu / R0 ^ 3).
Proof.
  pose proof ge_Rf as DR. pose proof ge_Rf0 as RZ.
  apply (der_ext (fun h => - (sqrt mu * k) / (lRf (lag h) * R0) * sin (D h))).
  - intros h. unfold lag, lag_ellipse. cbn [lFt lRf]. rewrite (sqrt_mult_alt mu a) by lra. rewrite Ek. reflexivity.
  - eapply der_to; [ders; rewrite ?RZ; try lra; apply Rmult_integral_contrapositive_currified; lra|]. fin. rewrite RZ. transitivity (- (sqrt mu * sqrt mu) / R0 ^ 3); [|rewrite qq; reflexivity]. field. lra.
Qed.
Lemma ge_Gt : is_derive (fun h => lGt (lag h)) 0 0.
Proof.
  pose proof ge_Rf as DR. pose proof ge_Rf0 as RZ.
  apply (der_ext (fun h => 1 - a / lRf (lag h) * (1 - cos (D h)))); [intros h; reflexivity|].
  eapply der_to; [ders; rewrite ?RZ; lra|]. fin. rewrite RZ. field. lra.
Qed.
Definition gD (h : R) : R := / (1 + s0 * sin (D h) - c0 * cos (D h)) * (-1.5 * sqrt mu * h / sqrt a ^ 5 * z - (1 - cos (D h)) * (/ sqrt a * y - 0.5 * sig / sqrt a / sqrt a / sqrt a * z) + sin (D h) * (-1 / a * x + R0 / a / a * z)).
Definition gF (h : R) : R := - (1 - cos (D h)) / R0 * z + a / R0 / R0 * (1 - cos (D h)) * x - a / R0 * sin (D h) * gD h.
Definition gR (h : R) : R := (1 - cos (D h) + 0.5 / sqrt a * sig * sin (D h)) * z + cos (D h) * x + (sig * sqrt a * cos (D h) - (R0 - a) * sin (D h)) * gD h + sqrt a * sin (D h) * y.
Definition gG (h : R) : R := / sqrt mu * ((1 - lF (lag h)) * (R0 * y + sig * x) - sig * R0 * gF h + sqrt a * R0 * cos (D h) * gD h + sqrt a * sin (D h) * x + 0.5 * R0 * sin (D h) / sqrt a * z).
Definition gFt (h : R) : R := let Rf := lRf (lag h) in
  sqrt mu * (- sqrt a / R0 / Rf * cos (D h) * gD h - 0.5 / sqrt a / R0 / Rf * sin (D h) * z + sqrt a / Rf / R0 / R0 * sin (D h) * x + sqrt a / Rf / Rf / R0 * sin (D h) * gR h).
Definition gGt (h : R) : R := let Rf := lRf (lag h) in - (1 - cos (D h)) / Rf * z + a / Rf / Rf * (1 - cos (D h)) * gR h - a / Rf * sin (D h) * gD h.
Lemma gD_0 : gD 0 = 0. Proof. unfold gD. fin. unfold Rdiv. ring. Qed.
Lemma gR_0 : gR 0 = x. Proof. unfold gR. rewrite gD_0. fin. ring. Qed.
Definition gD' : R := a / R0 * (-3 / 2 * sqrt mu / k ^ 5 * z + sqrt mu / (R0 * k) * (-1 / a * x + R0 / a / a * z)).
Lemma d_gD : is_derive gD 0 gD'.
Proof.
  assert (NZ : 1 + s0 * sin (D 0) - c0 * cos (D 0) <> 0).
  { fin. unfold c0. rewrite Ea. replace (1 + s0 * 0 - (1 - R0 / (k * k)) * 1) with (R0 / (k * k)) by (field; lra). apply Rgt_not_eq, Rdiv_lt_0_compat; [exact PR|nra]. }
  unfold gD. rewrite Ek. replace (-1.5) with (-3 / 2) by lra. replace 0.5 with (1 / 2) by lra.
  eapply der_to; [ders; first [exact NZ|apply pow_nonzero; lra|lra]|]. fin. unfold gD', c0, s0. rewrite Ea. field. split; lra.
Qed.
Lemma d_gF : is_derive gF 0 0.
Proof. pose proof d_gD as DD. pose proof gD_0 as G0. unfold gF. eapply der_to; [ders; lra|]. fin. rewrite G0. field. lra. Qed.
Lemma d_gR : exists l, is_derive gR 0 l.
Proof.
  pose proof d_gD as DD. unfold gR. rewrite Ek. eexists. ders; lra.
Qed.
Lemma d_gG : is_derive gG 0 0.
Proof.
  pose proof d_gD as DD. pose proof gD_0 as G0. pose proof ge_F as DF. pose proof d_gF as DGF. unfold gG. rewrite Ek.
  assert (F0 : lF (lag 0) = 1) by (unfold lag, lag_ellipse; cbn [lF]; fin; ring).
  replace 0.5 with (1 / 2) by lra.
  eapply der_to; [ders; lra|]. fin. rewrite G0, F0. unfold gD'. rewrite Ea. field. lra.
Qed.
Lemma d_gFt : is_derive gFt 0 (3 * mu / R0 ^ 4 * x).
Proof.
  pose proof d_gD as DD. pose proof gD_0 as G0. destruct d_gR as [l DR']. pose proof gR_0 as GR0. pose proof ge_Rf as DRf. pose proof ge_Rf0 as RZ.
  unfold gFt. cbv zeta. rewrite Ek. replace 0.5 with (1 / 2) by lra.
  eapply der_to; [ders; rewrite ?RZ; lra|]. fin. rewrite G0, GR0, RZ. unfold gD'. rewrite Ea. transitivity (3 * (sqrt mu * sqrt mu) / R0 ^ 4 * x); [|rewrite qq; reflexivity]. field. lra.
Qed.
Lemma d_gGt : is_derive gGt 0 0.
Proof.
  pose proof d_gD as DD. pose proof gD_0 as G0. destruct d_gR as [l DR']. pose proof gR_0 as GR0. pose proof ge_Rf as DRf. pose proof ge_Rf0 as RZ.
  unfold gGt. cbv zeta. eapply der_to; [ders; rewrite ?RZ; lra|]. fin. rewrite G0, GR0, RZ. field. lra.
Qed.
End GenE.

Section GenH.
Variables (mu R0 sig a k x y z : R) (D : R -> R).
Hypothesis (Mu : 0 < mu) (PR : 0 < R0) (Pk : 0 < k) (Ek : sqrt (- a) = k) (Ea : a = - (k * k)).
Hypothesis (HD : is_derive D 0 (sqrt mu / (R0 * k))) (D0 : D 0 = 0).
Let s0 := sig / k. Let c0 := 1 - R0 / a.
Let lag h := lag_hyperbola mu R0 a sig s0 c0 (D h).
Let q : 0 < sqrt mu := sqrt_lt_R0 mu Mu.
Let qq : sqrt mu * sqrt mu = mu := sqrt_sqrt mu (Rlt_le _ _ Mu).
Ltac fin := rewrite ?D0, ?sinh_0, ?cosh_0.
Lemma gh_Rf0 : lRf (lag 0) = R0.
Proof. unfold lag, lag_hyperbola. cbn [lRf]. fin. ring. Qed.
Lemma gh_F : is_derive (fun h => lF (lag h)) 0 0.
Proof. unfold lag, lag_hyperbola. cbn [lF]. eapply der_to; [ders; lra|]. fin. field. lra. Qed.
Lemma gh_G : is_derive (fun h => lG (lag h)) 0 1.
Proof.
  unfold lag, lag_hyperbola. cbn [lG]. rewrite (sqrt_div_alt (- a) mu Mu), Ek. eapply der_to; [ders; lra|]. fin. field. lra.
Qed.
Lemma gh_Rf : is_derive (fun h => lRf (lag h)) 0 (sig * sqrt mu / R0).
Proof. unfold lag, lag_hyperbola. cbn [lRf]. rewrite Ek. eapply der_to; [ders; lra|]. fin. rewrite Ea. field. lra. Qed.
Lemma gh_Ft : is_derive (fun h => lFt (lag h)) 0 (- mu / R0 ^ 3).
Proof.
  pose proof gh_Rf as DR. pose proof gh_Rf0 as RZ.
  apply (der_ext (fun h => - (sqrt mu * k) / (lRf (lag h) * R0) * sinh (D h))).
  - intros h. unfold lag, lag_hyperbola. cbn [lFt lRf]. replace (- mu * a) with (mu * - a) by ring. rewrite (sqrt_mult_alt mu (- a)) by lra. rewrite Ek. reflexivity.
  - eapply der_to; [ders; rewrite ?RZ; try lra; apply Rmult_integral_contrapositive_currified; lra|]. fin. rewrite RZ. transitivity (- (sqrt mu * sqrt mu) / R0 ^ 3); [|rewrite qq; reflexivity]. field. lra.
Qed.
Lemma gh_Gt : is_derive (fun h => lGt (lag h)) 0 0.
Proof.
  pose proof gh_Rf as DR. pose proof gh_Rf0 as RZ.
  apply (der_ext (fun h => 1 - a / lRf (lag h) * (1 - cosh (D h)))); [intros h; reflexivity|].
  eapply der_to; [ders; rewrite ?RZ; lra|]. fin. rewrite RZ. field. lra.
Qed.
Definition hD (h : R) : R := / (s0 * sinh (D h) + c0 * cosh (D h) - 1) * (1.5 * sqrt mu * h / sqrt (- a) ^ 5 * z - (cosh (D h) - 1) * (/ sqrt (- a) * y + 0.5 * sig / sqrt (- a) / sqrt (- a) / sqrt (- a) * z) - sinh (D h) * (-1 / a * x + R0 / a / a * z)).
Definition hF (h : R) : R := - (1 - cosh (D h)) / R0 * z + a / R0 / R0 * (1 - cosh (D h)) * x + a / R0 * sinh (D h) * hD h.
Definition hR (h : R) : R := (1 - cosh (D h) - 0.5 / sqrt (- a) * sig * sinh (D h)) * z + cosh (D h) * x + (sig * sqrt (- a) * cosh (D h) + (R0 - a) * sinh (D h)) * hD h + sqrt (- a) * sinh (D h) * y.
Definition hG (h : R) : R := / sqrt mu * ((1 - lF (lag h)) * (R0 * y + sig * x) - sig * R0 * hF h + sqrt (- a) * R0 * cosh (D h) * hD h + sqrt (- a) * sinh (D h) * x - 0.5 * R0 * sinh (D h) / sqrt (- a) * z).
Definition hFt (h : R) : R := let Rf := lRf (lag h) in
  sqrt mu * (- sqrt (- a) / R0 / Rf * cosh (D h) * hD h + 0.5 / sqrt (- a) / R0 / Rf * sinh (D h) * z + sqrt (- a) / Rf / R0 / R0 * sinh (D h) * x + sqrt (- a) / Rf / Rf / R0 * sinh (D h) * hR h).
Definition hGt (h : R) : R := let Rf := lRf (lag h) in - (1 - cosh (D h)) / Rf * z + a / Rf / Rf * (1 - cosh (D h)) * hR h + a / Rf * sinh (D h) * hD h.
Lemma hD_0 : hD 0 = 0. Proof. unfold hD. fin. unfold Rdiv. ring. Qed.
Lemma hR_0 : hR 0 = x. Proof. unfold hR. rewrite hD_0. fin. ring. Qed.
Definition hD' : R := - a / R0 * (3 / 2 * sqrt mu / k ^ 5 * z - sqrt mu / (R0 * k) * (-1 / a * x + R0 / a / a * z)).
Lemma d_hD : is_derive hD 0 hD'.
Proof.
  assert (NZ : s0 * sinh (D 0) + c0 * cosh (D 0) - 1 <> 0).
  { fin. unfold c0. rewrite Ea. replace (s0 * 0 + (1 - R0 / - (k * k)) * 1 - 1) with (R0 / (k * k)) by (field; lra). apply Rgt_not_eq, Rdiv_lt_0_compat; [exact PR|nra]. }
  unfold hD. rewrite Ek. replace 1.5 with (3 / 2) by lra. replace 0.5 with (1 / 2) by lra.
  eapply der_to; [ders; first [exact NZ|apply pow_nonzero; lra|lra]|]. fin. unfold hD', c0, s0. rewrite Ea. field. split; [lra|split; [lra|]]. replace ((- (k * k) - R0) * k - k * - (k * k)) with (- (R0 * k)) by ring. apply Ropp_neq_0_compat, Rmult_integral_contrapositive_currified; lra.
Qed.
Lemma d_hF : is_derive hF 0 0.
Proof. pose proof d_hD as DD. pose proof hD_0 as G0. unfold hF. eapply der_to; [ders; lra|]. fin. rewrite G0. field. lra. Qed.
Lemma d_hR : exists l, is_derive hR 0 l.
Proof.
  pose proof d_hD as DD. unfold hR. rewrite Ek. eexists. ders; lra.
Qed.
Lemma d_hG : is_derive hG 0 0.
Proof.
  pose proof d_hD as DD. pose proof hD_0 as G0. pose proof gh_F as DF. pose proof d_hF as DGF. unfold hG. rewrite Ek.
  assert (F0 : lF (lag 0) = 1) by (unfold lag, lag_hyperbola; cbn [lF]; fin; ring).
  replace 0.5 with (1 / 2) by lra.
  eapply der_to; [ders; lra|]. fin. rewrite G0, F0. unfold hD'. rewrite Ea. field. lra.
Qed.
Lemma d_hFt : is_derive hFt 0 (3 * mu / R0 ^ 4 * x).
Proof.
  pose proof d_hD as DD. pose proof hD_0 as G0. destruct d_hR as [l DR']. pose proof hR_0 as GR0. pose proof gh_Rf as DRf. pose proof gh_Rf0 as RZ.
  unfold hFt. cbv zeta. rewrite Ek. replace 0.5 with (1 / 2) by lra.
  eapply der_to; [ders; rewrite ?RZ; lra|]. fin. rewrite G0, GR0, RZ. unfold hD'. rewrite Ea. transitivity (3 * (sqrt mu * sqrt mu) / R0 ^ 4 * x); [|rewrite qq; reflexivity]. field. lra.
Qed.
Lemma d_hGt : is_derive hGt 0 0.
Proof.
  pose proof d_hD as DD. pose proof hD_0 as G0. destruct d_hR as [l DR']. pose proof hR_0 as GR0. pose proof gh_Rf as DRf. pose proof gh_Rf0 as RZ.
  unfold hGt. cbv zeta. eapply der_to; [ders; rewrite ?RZ; lra|]. fin. rewrite G0, GR0, RZ. field. lra.
Qed.
End GenH.

(** ** The matrices, without a root finder *)
Section Mat.
Variables (mu : R) (s : state).
Let r := fst s. Let v := snd s.
Let c := fun _ : R => s.
Let R_ := norm r. Let A_ := lag_a mu (energy mu (r, v)). Let S_ := sg mu r v. Let E_ := energy mu (r, v).
Let dR := d_R0 r R_. Let dS := d_sigma0 r v (sqrt mu). Let dA := d_a mu E_ (d_energy mu R_ (d_V02 v) dR).
Definition matE (t : R) : list R :=
  let l := lagc mu t c 0 in
  stm_assemble s l (stm_ellipse t mu R_ (lRf l) S_ A_ (S_ / sqrt A_) (1 - R_ / A_) (De mu t c 0) (lF l) dR dS dA).
Definition matH (t : R) : list R :=
  let l := lagh mu t c 0 in
  stm_assemble s l (stm_hyperbola t mu R_ (lRf l) S_ A_ (S_ / sqrt (- A_)) (1 - R_ / A_) (Dh mu t c 0) (lF l) dR dS dA).
End Mat.
Lemma matE_jac mu s t : elliptic mu s -> flow_jacobian mu s t (ye mu t (fun _ => s) 0) (matE mu s t).
Proof.
  intros El. destruct (regular_r _ _ (proj1 El)) as [Mu _]. split; [destruct s; reflexivity|]. intros c d C0 Hc. subst s.
  destruct (near_ell mu c d Mu Hc El) as [eps [He Hn]]. exists (ye mu t c), eps. split; [exact He|]. split; [reflexivity|]. split.
  - intros e H. apply (ye_flow mu t c Mu). apply Hn, H.
  - apply (ye_der mu t c d Mu Hc El).
Qed.
Lemma matH_jac mu s t : hyperbolic mu s -> flow_jacobian mu s t (yh mu t (fun _ => s) 0) (matH mu s t).
Proof.
  intros El. destruct (regular_r _ _ (proj1 El)) as [Mu _]. split; [destruct s; reflexivity|]. intros c d C0 Hc. subst s.
  destruct (near_hyp mu c d Mu Hc El) as [eps [He Hn]]. exists (yh mu t c), eps. split; [exact He|]. split; [reflexivity|]. split.
  - intros e H. apply (yh_flow mu t c Mu). apply Hn, H.
  - apply (yh_der mu t c d Mu Hc El).
Qed.
(** assembling the derivatives of the rows *)
Lemma assemble_gen (r v dr dv : vec) (gF lF' gG lG' gFt lFt' gGt lGt' : R -> R) (mu x : R) : r <> vzero -> x = dot r dr / norm r ->
  is_derive gF 0 0 -> is_derive lF' 0 0 -> is_derive gG 0 0 -> is_derive lG' 0 1 ->
  is_derive gFt 0 (3 * mu / norm r ^ 4 * x) -> is_derive lFt' 0 (- mu / norm r ^ 3) -> is_derive gGt 0 0 -> is_derive lGt' 0 0 ->
  sderive (fun h => (vadd (vadd (vscal (gF h) r) (vscal (lF' h) dr)) (vadd (vscal (gG h) v) (vscal (lG' h) dv)),
     vadd (vadd (vscal (gFt h) r) (vscal (lFt' h) dr)) (vadd (vscal (gGt h) v) (vscal (lGt' h) dv)))) 0 (dv, gravity_gradient mu r dr).
Proof.
  intros N -> H1 H2 H3 H4 H5 H6 H7 H8. pose proof (norm_pos r N) as P. split; cbn [fst snd].
  - eapply vder_eq; [apply (vder_add _ _ 0 _ _ (vder_add _ _ 0 _ _ (vder_scal _ (fun _ => r) 0 _ _ H1 (vder_const r 0)) (vder_scal _ (fun _ => dr) 0 _ _ H2 (vder_const dr 0)))
      (vder_add _ _ 0 _ _ (vder_scal _ (fun _ => v) 0 _ _ H3 (vder_const v 0)) (vder_scal _ (fun _ => dv) 0 _ _ H4 (vder_const dv 0))))|].
    apply vec_eq; unfold vadd, vscal, vzero; cbn [vx vy vz]; ring.
  - eapply vder_eq; [apply (vder_add _ _ 0 _ _ (vder_add _ _ 0 _ _ (vder_scal _ (fun _ => r) 0 _ _ H5 (vder_const r 0)) (vder_scal _ (fun _ => dr) 0 _ _ H6 (vder_const dr 0)))
      (vder_add _ _ 0 _ _ (vder_scal _ (fun _ => v) 0 _ _ H7 (vder_const v 0)) (vder_scal _ (fun _ => dv) 0 _ _ H8 (vder_const dv 0))))|].
    unfold gravity_gradient. apply vec_eq; unfold vadd, vscal, vzero; cbn [vx vy vz]; field; lra.
Qed.
Lemma sder_ext c1 c2 t d : (forall u, c1 u = c2 u) -> sderive c1 t d -> sderive c2 t d.
Proof. intros E [A B]. split; [eapply vder_ext; [|exact A]|eapply vder_ext; [|exact B]]; intros u; cbn; rewrite E; reflexivity. Qed.
Lemma dR_apply (r : vec) d : rapply (d_R0 r (norm r)) d = dot r (fst d) / norm r.
Proof. unfold d_R0, dot_dr0, rapply, rscal, dot, vscal, vzero. cbn [fst snd vx vy vz]. unfold Rdiv. ring. Qed.
Lemma D_der mu r v k : 0 < mu -> r <> vzero -> cross r v <> vzero -> 0 < k -> is_derive (fun h : R => gsol mu r v h / k : R) 0 (sqrt mu / (norm r * k)) /\ gsol mu r v 0 / k = 0.
Proof.
  intros Mu Hr Hh Pk. pose proof (gsol_solves mu r v Mu Hr Hh) as G. pose proof (solves_0 mu r v Mu Hr Hh _ G) as G0.
  pose proof (d_solves mu r v Mu Hr Hh _ 0 G) as DG. rewrite G0, (rho_0 mu r v) in DG. unfold R0 in DG. pose proof (norm_pos r Hr).
  split; [|rewrite G0; unfold Rdiv; ring]. eapply der_to; [apply (der_div (gsol mu r v) (fun _ => k) 0 _ _ DG (der_const k 0)); lra|]. rewrite G0. field. lra.
Qed.
Lemma matE_gen mu s d : elliptic mu s -> sderive (fun h => mat_apply (matE mu s h) d) 0 (snd d, gravity_gradient mu (fst s) (fst d)).
Proof.
  intros El. destruct (regular_r _ _ (proj1 El)) as [Mu [Hr Hh]]. destruct s as [r v]. cbn [fst snd] in *. pose proof (proj2 El) as Neg.
  destruct (sqrta_sq mu r v Mu Neg) as [K1 K2]. pose proof (norm_pos r Hr) as PR.
  set (a := lag_a mu (energy mu (r, v))) in *. set (k := sqrt a) in *.
  destruct (D_der mu r v k Mu Hr Hh K1) as [DD D0]. set (D := fun h => gsol mu r v h / k) in *. change (D 0 = 0) in D0.
  set (x := dot r (fst d) / norm r). set (y := rapply (d_sigma0 r v (sqrt mu)) d).
  set (z := rapply (d_a mu (energy mu (r, v)) (d_energy mu (norm r) (d_V02 v) (d_R0 r (norm r)))) d).
  set (lag := fun h => lag_ellipse mu (norm r) a (sg mu r v) (sg mu r v / k) (1 - norm r / a) (D h)).
  assert (Ek : sqrt a = k) by reflexivity. assert (Ea : a = k * k) by (symmetry; exact K2).
  assert (AG : sderive (fun h => (vadd (vadd (vscal (gF mu (norm r) (sg mu r v) a k x y z D h) r) (vscal (lF (lag h)) (fst d))) (vadd (vscal (gG mu (norm r) (sg mu r v) a k x y z D h) v) (vscal (lG (lag h)) (snd d))),
     vadd (vadd (vscal (gFt mu (norm r) (sg mu r v) a k x y z D h) r) (vscal (lFt (lag h)) (fst d))) (vadd (vscal (gGt mu (norm r) (sg mu r v) a k x y z D h) v) (vscal (lGt (lag h)) (snd d))))) 0 (snd d, gravity_gradient mu r (fst d))).
  { apply (assemble_gen r v (fst d) (snd d) (gF mu (norm r) (sg mu r v) a k x y z D) (fun h => lF (lag h)) (gG mu (norm r) (sg mu r v) a k x y z D) (fun h => lG (lag h))
      (gFt mu (norm r) (sg mu r v) a k x y z D) (fun h => lFt (lag h)) (gGt mu (norm r) (sg mu r v) a k x y z D) (fun h => lGt (lag h)) mu x).
    - exact Hr.
    - reflexivity.
    - apply d_gF; assumption.
    - apply ge_F; assumption.
    - apply d_gG; assumption.
    - apply ge_G; assumption.
    - apply d_gFt; assumption.
    - apply ge_Ft; assumption.
    - apply d_gGt; assumption.
    - apply ge_Gt; assumption. }
  eapply sder_ext; [|exact AG]. intros h. cbv beta. unfold matE. cbv zeta. rewrite assemble_apply. cbn [fst snd].
  change (lagc mu h (fun _ : R => (r, v)) 0) with (lag h). change (De mu h (fun _ : R => (r, v)) 0) with (D h). fold a. fold k.
  destruct (rows_e h mu (norm r) (lRf (lag h)) (sg mu r v) a (sg mu r v / k) (1 - norm r / a) (D h) (lF (lag h))
    (d_R0 r (norm r)) (d_sigma0 r v (sqrt mu)) (d_a mu (energy mu (r, v)) (d_energy mu (norm r) (d_V02 v) (d_R0 r (norm r)))) d) as [-> [-> [-> ->]]].
  fold y z. rewrite (dR_apply r d). fold x. reflexivity.
Qed.
Lemma matH_gen mu s d : hyperbolic mu s -> sderive (fun h => mat_apply (matH mu s h) d) 0 (snd d, gravity_gradient mu (fst s) (fst d)).
Proof.
  intros El. destruct (regular_r _ _ (proj1 El)) as [Mu [Hr Hh]]. destruct s as [r v]. cbn [fst snd] in *. pose proof (proj2 El) as Pos.
  destruct (sqrta_sqh mu r v Mu Pos) as [K1 K2]. pose proof (norm_pos r Hr) as PR.
  set (a := lag_a mu (energy mu (r, v))) in *. set (k := sqrt (- a)) in *.
  destruct (D_der mu r v k Mu Hr Hh K1) as [DD D0]. set (D := fun h => gsol mu r v h / k) in *. change (D 0 = 0) in D0.
  set (x := dot r (fst d) / norm r). set (y := rapply (d_sigma0 r v (sqrt mu)) d).
  set (z := rapply (d_a mu (energy mu (r, v)) (d_energy mu (norm r) (d_V02 v) (d_R0 r (norm r)))) d).
  set (lag := fun h => lag_hyperbola mu (norm r) a (sg mu r v) (sg mu r v / k) (1 - norm r / a) (D h)).
  assert (Ek : sqrt (- a) = k) by reflexivity. assert (Ea : a = - (k * k)) by lra.
  assert (AG : sderive (fun h => (vadd (vadd (vscal (hF mu (norm r) (sg mu r v) a k x y z D h) r) (vscal (lF (lag h)) (fst d))) (vadd (vscal (hG mu (norm r) (sg mu r v) a k x y z D h) v) (vscal (lG (lag h)) (snd d))),
     vadd (vadd (vscal (hFt mu (norm r) (sg mu r v) a k x y z D h) r) (vscal (lFt (lag h)) (fst d))) (vadd (vscal (hGt mu (norm r) (sg mu r v) a k x y z D h) v) (vscal (lGt (lag h)) (snd d))))) 0 (snd d, gravity_gradient mu r (fst d))).
  { apply (assemble_gen r v (fst d) (snd d) (hF mu (norm r) (sg mu r v) a k x y z D) (fun h => lF (lag h)) (hG mu (norm r) (sg mu r v) a k x y z D) (fun h => lG (lag h))
      (hFt mu (norm r) (sg mu r v) a k x y z D) (fun h => lFt (lag h)) (hGt mu (norm r) (sg mu r v) a k x y z D) (fun h => lGt (lag h)) mu x).
    - exact Hr.
    - reflexivity.
    - apply d_hF; assumption.
    - apply gh_F; assumption.
    - apply d_hG; assumption.
    - apply gh_G; assumption.
    - apply d_hFt; assumption.
    - apply gh_Ft; assumption.
    - apply d_hGt; assumption.
    - apply gh_Gt; assumption. }
  eapply sder_ext; [|exact AG]. intros h. cbv beta. unfold matH. cbv zeta. rewrite assemble_apply. cbn [fst snd].
  change (lagh mu h (fun _ : R => (r, v)) 0) with (lag h). change (Dh mu h (fun _ : R => (r, v)) 0) with (D h). fold a. fold k.
  destruct (rows_h h mu (norm r) (lRf (lag h)) (sg mu r v) a (sg mu r v / k) (1 - norm r / a) (D h) (lF (lag h))
    (d_R0 r (norm r)) (d_sigma0 r v (sqrt mu)) (d_a mu (energy mu (r, v)) (d_energy mu (norm r) (d_V02 v) (d_R0 r (norm r)))) d) as [-> [-> [-> ->]]].
  fold y z. rewrite (dR_apply r d). fold x. reflexivity.
Qed.
