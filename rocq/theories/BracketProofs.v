(** * The brackets of the Kepler equations of the propagators *)
From Coq Require Import Reals Lra Lia.
From Coquelicot Require Import Coquelicot.
From Coq Require Import List.
From Verif Require Import Outcome RealLib KepModel KepSpec KepProofs AnomProofs Vec3 TwoBodyModel TwoBodySpec FlowProofs LagProofs FlowMain.
Import ListNotations.
Open Scope R_scope.

(** ** Root finders that satisfy the assumptions *)
Definition decide (P : Prop) : bool := if Req_EM_T (real (Lub_Rbar (fun x => x = 0 \/ (x = 1 /\ P)))) 1 then true else false.
Lemma decide_ok P : decide P = true <-> P.
Proof.
  unfold decide. set (S := fun x => x = 0 \/ (x = 1 /\ P)). split.
  - intros H. destruct (Req_EM_T (real (Lub_Rbar S)) 1) as [E|]; [|discriminate].
    destruct (Classical_Prop.classic P) as [|N]; [assumption|exfalso].
    assert (L : Lub_Rbar S = 0); [|rewrite L in E; cbn in E; lra].
    apply is_lub_Rbar_unique. split.
    + intros x [->|[_ X]]; [cbn; lra|contradiction].
    + intros b B. apply (B 0). left. reflexivity.
  - intros H. assert (L : Lub_Rbar S = 1).
    { apply is_lub_Rbar_unique. split.
      - intros x [->|[-> _]]; cbn; lra.
      - intros b B. apply (B 1). right. split; [reflexivity|exact H]. }
    rewrite L. cbn. destruct (Req_EM_T 1 1); [reflexivity|lra].
Qed.
Definition picky_cond (f : R -> R * R) (g lo hi : R) : Prop :=
  lo <= g <= hi /\ (forall x : R, is_derive (fun y => fst (f y)) x (snd (f x))) /\
  fst (f lo) < 0 < fst (f hi) /\ exists x, lo < x < hi /\ fst (f x) = 0 /\ forall y, fst (f y) = 0 -> y = x.
Definition picky_root (f : R -> R * R) (g lo hi : R) : option R := if decide (picky_cond f g lo hi) then sup_root f g lo hi else None.
Lemma picky_root_ok : picky picky_root.
Proof.
  intros f g lo hi.
  assert (K : picky_cond f g lo hi -> exists x, sup_root f g lo hi = Some x /\ lo < x < hi /\ fst (f x) = 0).
  { intros [G [D [[A B] [x [X [Z U]]]]]]. destruct (sup_root_ok f g lo hi G D ltac:(lra)) as [y [E [Y W]]]. exists y.
    split; [exact E|]. rewrite (U y W). split; assumption. }
  unfold picky_root. destruct (decide (picky_cond f g lo hi)) eqn:E.
  - pose proof (proj1 (decide_ok _) E) as E0. clear E. rename E0 into E. destruct (K E) as [x [-> X]]. split.
    + intros y Y. injection Y as <-. exact X.
    + split; [intros _; exact E|intros _; exists x; reflexivity].
  - assert (N : ~ picky_cond f g lo hi) by (intros H; pose proof (proj2 (decide_ok _) H); congruence). split; [discriminate|]. split; [intros [x X]; discriminate|].
    intros H. contradiction.
Qed.
Lemma picky_sound newton : picky newton -> newton_sound newton.
Proof. intros P f g lo hi x H. apply (proj1 (P f g lo hi)). exact H. Qed.
(** complete on sign changes and sound everywhere *)
Definition exact_root (f : R -> R * R) (g lo hi : R) : option R :=
  match sup_root f g lo hi with Some x => if Req_EM_T (fst (f x)) 0 then Some x else None | None => None end.
Lemma exact_root_ok : newton_ok exact_root /\ newton_sound exact_root.
Proof.
  split.
  - intros f g lo hi G D B. destruct (sup_root_ok f g lo hi G D B) as [x [E [X Z]]]. exists x. unfold exact_root. rewrite E.
    destruct (Req_EM_T (fst (f x)) 0); [auto|contradiction].
  - intros f g lo hi x. unfold exact_root. destruct (sup_root f g lo hi) as [y|]; [|discriminate].
    destruct (Req_EM_T (fst (f y)) 0); [|discriminate]. intros H. injection H as <-. assumption.
Qed.

(** ** The hyperbolic Kepler equation *)
Section Hyp.
Variables (s0 c0 : R).
Hypothesis C0 : 0 < c0.
Hypothesis E1 : 1 < c0 * c0 - s0 * s0.
Definition hk (x : R) : R := - x + s0 * (cosh x - 1) + c0 * sinh x.
Lemma hk_slope x : 0 < -1 + s0 * sinh x + c0 * cosh x.
Proof.
  pose proof (cosh_sinh_sq x) as Q. pose proof (cosh_pos x) as P. set (u := s0 * sinh x + c0 * cosh x).
  assert (U2 : u * u = (c0 * c0 - s0 * s0) + (s0 * cosh x + c0 * sinh x) * (s0 * cosh x + c0 * sinh x)).
  { unfold u. replace (c0 * c0 - s0 * s0) with ((c0 * c0 - s0 * s0) * (cosh x * cosh x - sinh x * sinh x)) by (rewrite Q; ring). ring. }
  pose proof (Rle_0_sqr (s0 * cosh x + c0 * sinh x)) as W. unfold Rsqr in W.
  assert (Up : 0 < u).
  { assert (- c0 < s0 < c0) by (split; nra). pose proof (abs_sinh_lt_cosh x). unfold u. destruct (Rle_dec 0 (sinh x)); nra. }
  unfold u in *. nra.
Qed.
Lemma d_hk x : is_derive hk x (-1 + s0 * sinh x + c0 * cosh x).
Proof.
  unfold hk. eapply der_to.
  - apply der_plus; [apply der_plus; [apply der_opp, der_id|apply der_scal, der_minus; [apply der_cosh|apply der_const]]|apply der_scal, der_sinh].
  - ring.
Qed.
Lemma hk_lt x y : x < y -> hk x < hk y. Proof. apply (incr_of_derive hk _ d_hk hk_slope). Qed.
Lemma hk_ge x : 0 <= x -> 2 * sinh (x / 2) - x <= hk x.
Proof.
  intros Hx. unfold hk. pose proof (cosh_sinh_sq x) as Q. pose proof (cosh_ge1 x) as P.
  set (A := sinh x) in *. set (B := cosh x - 1).
  assert (A0 : 0 <= A). { unfold A. destruct (Req_dec x 0) as [->|]; [rewrite sinh_0; lra|]. left. apply sinh_pos. lra. }
  assert (H4 : A * A - B * B = 4 * (sinh (x / 2) * sinh (x / 2))).
  { assert (CX : cosh x = 1 + 2 * (sinh (x / 2) * sinh (x / 2))).
    { transitivity (cosh (x / 2 + x / 2)); [f_equal; lra|rewrite cosh_plus; pose proof (cosh_sinh_sq (x / 2)); lra]. }
    unfold B. rewrite CX in *. lra. }
  set (h := sinh (x / 2)) in *. assert (Hh : 0 <= h). { unfold h. destruct (Req_dec x 0) as [->|]; [replace (0 / 2) with 0 by lra; rewrite sinh_0; lra|]. left. apply sinh_pos. lra. }
  set (w := c0 * A + s0 * B). assert (W2 : 4 * (h * h) <= w * w).
  { assert (w * w = (A * A - B * B) * (c0 * c0 - s0 * s0) + (c0 * B + s0 * A) * (c0 * B + s0 * A)) by (unfold w; ring).
    pose proof (Rle_0_sqr (c0 * B + s0 * A)) as W. unfold Rsqr in W. rewrite H4 in H. assert (0 <= h * h * (c0 * c0 - s0 * s0 - 1)) by (apply Rmult_le_pos; [nra|lra]). lra. }
  assert (W0 : 0 <= w).
  { assert (- c0 < s0 < c0) by (split; nra). assert (B0 : 0 <= B) by (unfold B; lra). assert (B <= A) by nra.
    unfold w. assert (- c0 * B <= s0 * B) by (apply Rmult_le_compat_r; lra). nra. }
  assert (2 * h <= w) by nra. unfold w, B in *. lra.
Qed.
Lemma hk_0 : hk 0 = 0. Proof. unfold hk. rewrite sinh_0, cosh_0. ring. Qed.
End Hyp.
Lemma hk_neg s0 c0 x : hk s0 c0 (- x) = - hk (- s0) c0 x.
Proof. unfold hk. rewrite cosh_neg, sinh_neg. ring. Qed.

Lemma exp_ge_pow25 (n : nat) : (5 / 2) ^ n <= exp (INR n).
Proof.
  assert (E1 : 5 / 2 <= exp 1).
  { replace 1 with (INR 8 * (1 / 8)) by (cbn; lra).
    assert (H : 9 / 8 <= exp (1 / 8)) by (pose proof (exp_ineq1 (1 / 8) ltac:(lra)); lra).
    assert (P : forall k : nat, (9 / 8) ^ k <= exp (INR k * (1 / 8))).
    { induction k as [|k IH]; [cbn; rewrite Rmult_0_l, exp_0; lra|]. rewrite S_INR, Rmult_plus_distr_r, exp_plus, Rmult_1_l. cbn [pow].
      rewrite Rmult_comm. apply Rmult_le_compat; [apply pow_le; lra|lra|exact IH|exact H]. }
    eapply Rle_trans; [|apply P]. cbn. lra. }
  induction n as [|n IH]; [cbn; rewrite exp_0; lra|]. rewrite S_INR, exp_plus. cbn [pow]. rewrite Rmult_comm.
  apply Rmult_le_compat; [apply pow_le; lra|lra|exact IH|exact E1].
Qed.
Lemma sinh24 : 10 ^ 9 + 51 <= 2 * sinh (49 / 2).
Proof.
  unfold sinh. pose proof (exp_ge_pow25 24) as H. replace (INR 24) with 24 in H by (rewrite INR_IZR_INZ; reflexivity).
  assert (exp (- (49 / 2)) < 1) by (rewrite <- exp_0; apply exp_increasing; lra).
  assert (exp 24 < exp (49 / 2)) by (apply exp_increasing; lra).
  assert (E2 : (5 / 2) ^ 24 * 2 ^ 24 = 5 ^ 24) by (rewrite <- Rpow_mult_distr; f_equal; lra).
  assert (E3 : 2 ^ 24 = 16777216) by (rewrite (pow_IZR 2 24); reflexivity).
  assert (E5 : 5 ^ 24 = 59604644775390625) by (rewrite (pow_IZR 5 24); reflexivity).
  assert (E10 : 10 ^ 9 = 1000000000) by (rewrite (pow_IZR 10 9); reflexivity). nra.
Qed.

(** ** Hyperbolas *)
Section HypState.
Variables (mu : R) (r0 v0 : vec).
Hypothesis Hy : hyperbolic mu (r0, v0).
Let E := energy mu (r0, v0).
Let a := lag_a mu E.
Let Rz := norm r0.
Let sig := sg mu r0 v0.
Let Mu : 0 < mu := proj1 (regular_r _ _ (proj1 Hy)).
Let Hr : r0 <> vzero := proj1 (proj2 (regular_r _ _ (proj1 Hy))).
Let Hh : cross r0 v0 <> vzero := proj2 (proj2 (regular_r _ _ (proj1 Hy))).
Let Pos : 0 < E := proj2 Hy.
Lemma hyp_c0 : 0 < 1 - Rz / a.
Proof.
  pose proof (a_neg mu r0 v0 Mu Pos) as N. fold E a in N. pose proof (Rz_pos r0 Hr) as P. fold Rz in P.
  replace (Rz / a) with (- (Rz / - a)) by (field; lra). assert (0 < Rz / - a) by (apply Rdiv_lt_0_compat; lra). lra.
Qed.
Lemma hyp_ecc : 1 < (1 - Rz / a) * (1 - Rz / a) - sig / sqrt (- a) * (sig / sqrt (- a)).
Proof.
  pose proof (a_neg mu r0 v0 Mu Pos) as N. fold E a in N. destruct (sqrta_sqh mu r0 v0 Mu Pos) as [S1 S2]. fold E a in S1, S2.
  pose proof (pp_pos mu r0 v0 Mu Hh) as PP. pose proof (pp_eq mu r0 v0 Mu Hr) as PE. fold sig in PE. unfold R0 in PE. fold Rz in PE.
  destruct (al_a mu r0 v0 Mu Hr) as [_ EA]; [fold E; lra|]. fold E a in EA. rewrite EA in PE.
  replace ((1 - Rz / a) * (1 - Rz / a) - sig / sqrt (- a) * (sig / sqrt (- a))) with (1 + pp mu r0 v0 / - a).
  - assert (0 < pp mu r0 v0 / - a) by (apply Rdiv_lt_0_compat; lra). lra.
  - rewrite PE. replace (sig / sqrt (- a) * (sig / sqrt (- a))) with (sig * sig / (sqrt (- a) * sqrt (- a))) by (field; lra). rewrite S2. field. lra.
Qed.
Lemma kepDH_hk DH DN : kepDH DH DN sig (sqrt (- a)) a Rz = hk (sig / sqrt (- a)) (1 - Rz / a) DH - DN.
Proof. unfold kepDH, hk. ring. Qed.
Lemma DN_mm tof : lag_DN mu a tof = mean_motion mu (r0, v0) * tof.
Proof.
  pose proof (a_neg mu r0 v0 Mu Pos) as N. fold E a in N. unfold lag_DN, mean_motion. f_equal. f_equal. unfold sma. fold E.
  assert (EA : - mu / (2 * E) = a) by (unfold a, lag_a; field; lra). rewrite EA, Rabs_left by exact N. field. lra.
Qed.
(** the bracket of the hyperbolic branch contains the root unless the time of flight is enormous *)
Lemma hyp_bracket DN IG : Rabs DN <= 10 ^ 9 -> -1 <= IG <= 1 ->
  bracketed (fun DH => kepDH DH DN sig (sqrt (- a)) a Rz) (IG - 50) (IG + 50).
Proof.
  intros HD HI. apply Rabs_le_between in HD. set (s0 := sig / sqrt (- a)) in *. set (c0 := 1 - Rz / a) in *.
  pose proof hyp_c0 as C0. fold c0 in C0. pose proof hyp_ecc as EC. fold s0 c0 in EC. pose proof sinh24 as S24.
  assert (EC' : 1 < c0 * c0 - - s0 * - s0) by lra.
  assert (U : 10 ^ 9 < hk s0 c0 (IG + 50)).
  { pose proof (hk_ge s0 c0 C0 EC 49 ltac:(lra)). apply Rlt_le_trans with (hk s0 c0 49); [lra|].
    apply (incr_le _ (hk_lt s0 c0 C0 EC)). lra. }
  assert (L : hk s0 c0 (IG - 50) < - 10 ^ 9).
  { pose proof (hk_ge (- s0) c0 C0 EC' 49 ltac:(lra)) as H. apply Rle_lt_trans with (hk s0 c0 (Ropp 49)); [apply (incr_le _ (hk_lt s0 c0 C0 EC)); lra|].
    rewrite hk_neg. lra. }
  assert (I : forall x y, x < y -> kepDH x DN sig (sqrt (- a)) a Rz < kepDH y DN sig (sqrt (- a)) a Rz).
  { intros x y H. rewrite !kepDH_hk. pose proof (hk_lt s0 c0 C0 EC x y H). fold s0 c0. lra. }
  assert (F : kepDH (IG - 50) DN sig (sqrt (- a)) a Rz < 0 < kepDH (IG + 50) DN sig (sqrt (- a)) a Rz) by (rewrite !kepDH_hk; fold s0 c0; lra).
  split; [exact F|].
  destruct (root_between _ _ (IG - 50) (IG + 50) (proj1 (der_kepDH DN sig (sqrt (- a)) a Rz)) ltac:(lra) ltac:(lra)) as [x [Hx X]]. cbv beta in X.
  exists x. split; [|split; [exact X|]].
  - destruct Hx as [[A|A] [B|B]]; try lra; exfalso; subst x; lra.
  - intros y Y. apply (incr_inj _ I). rewrite Y, X. reflexivity.
Qed.
(** ... and does not contain it when it is *)
Lemma hyp_no_bracket : exists t1, 0 < t1 /\ forall tof, t1 <= tof ->
  forall x, IZR (-49) <= x <= 51 -> kepDH x (lag_DN mu a tof) sig (sqrt (- a)) a Rz < 0.
Proof.
  pose proof (a_neg mu r0 v0 Mu Pos) as N. fold E a in N. set (s0 := sig / sqrt (- a)). set (c0 := 1 - Rz / a).
  assert (Q : 0 < sqrt (- mu / a / a / a)). { apply sqrt_lt_R0. replace (- mu / a / a / a) with (mu / ((- a) * (- a) * (- a))) by (field; lra). apply Rdiv_lt_0_compat; [exact Mu|]. repeat apply Rmult_lt_0_compat; lra. }
  pose proof (hk_lt s0 c0 hyp_c0 hyp_ecc 0 51 ltac:(lra)) as H0. rewrite hk_0 in H0.
  exists ((hk s0 c0 51 + 1) / sqrt (- mu / a / a / a)). split; [apply Rdiv_lt_0_compat; lra|]. intros tof Ht x Hx. rewrite kepDH_hk. fold s0 c0.
  assert (hk s0 c0 51 + 1 <= lag_DN mu a tof).
  { unfold lag_DN. replace (hk s0 c0 51 + 1) with (sqrt (- mu / a / a / a) * ((hk s0 c0 51 + 1) / sqrt (- mu / a / a / a))) by (field; lra).
    apply Rmult_le_compat_l; lra. }
  pose proof (incr_le _ (hk_lt s0 c0 hyp_c0 hyp_ecc) x 51 ltac:(lra)). lra.
Qed.
End HypState.

(** ** Universal variables *)
Lemma vneg_dot u v : dot (vneg u) (vneg v) = dot u v. Proof. unfold dot, vneg. cbn. ring. Qed.
Lemma dot_neg_r u v : dot u (vneg v) = - dot u v. Proof. unfold dot, vneg. cbn. ring. Qed.
Definition rev (s : state) : state := (fst s, vneg (snd s)).
Lemma rev_rev s : rev (rev s) = s. Proof. destruct s as [r v]. unfold rev. cbn. rewrite vneg_vneg. reflexivity. Qed.
Lemma energy_rev mu s : energy mu (rev s) = energy mu s. Proof. unfold energy, rev. cbn [fst snd]. rewrite vneg_dot. reflexivity. Qed.
Lemma ang_mom_rev s : ang_mom (rev s) = vneg (ang_mom s).
Proof. unfold ang_mom, rev. cbn [fst snd]. apply vec_eq; unfold cross, vneg; cbn; ring. Qed.
Lemma ecc_vec_rev mu s : ecc_vec mu (rev s) = ecc_vec mu s.
Proof. unfold ecc_vec. rewrite ang_mom_rev. unfold rev. cbn [fst snd]. f_equal. f_equal. apply vec_eq; unfold cross, vneg; cbn; ring. Qed.
Lemma regular_rev mu s : regular mu s -> regular mu (rev s).
Proof.
  intros [M H]. split; [exact M|]. rewrite ang_mom_rev. intros E. apply H. rewrite <- (vneg_vneg (ang_mom s)), E. apply vec_eq; unfold vneg, vzero; cbn; ring.
Qed.
Lemma elliptic_rev mu s : elliptic mu s -> elliptic mu (rev s).
Proof. intros [A B]. split; [apply regular_rev, A|rewrite energy_rev; exact B]. Qed.

Lemma ecc_sq mu r v : 0 < mu -> r <> vzero -> ecc mu (r, v) * ecc mu (r, v) = 1 - al mu r v * pp mu r v.
Proof.
  intros M Hr. unfold ecc. rewrite norm_sq. rewrite ecc_alt by exact M. cbn [fst snd].
  pose proof (norm_pos r Hr) as P. pose proof (norm_sq r) as N. unfold al, pp, R0. set (n := norm r) in *.
  pose proof (lagrange_identity r v) as L. set (hh := dot (cross r v) (cross r v)) in *.
  set (A := dot v v) in *. set (B := dot r v) in *. set (x := A / mu - 1 / n). set (y := B / mu).
  assert (D : dot (vsub (vscal x r) (vscal y v)) (vsub (vscal x r) (vscal y v)) = x * x * (n * n) - 2 * x * y * B + y * y * A).
  { rewrite N. unfold A, B, dot, vsub, vscal. cbn. ring. }
  rewrite D. unfold x, y. rewrite <- N in L. assert (LL : B * B = n * n * A - hh) by lra.
  transitivity (1 - 2 * A * n / mu + A * A * n * n / (mu * mu) - (A / mu - 1 / n) * 2 / mu * (B * B) + A / (mu * mu) * (B * B)); [field; lra|].
  rewrite LL. field. lra.
Qed.
Lemma pp_peri mu r v : 0 < mu -> r <> vzero -> periapsis mu (r, v) = pp mu r v / (1 + ecc mu (r, v)).
Proof. reflexivity. Qed.

Section Univ.
Variables (mu : R) (r0 v0 : vec) (dt : R).
Hypothesis Rg : regular mu (r0, v0).
Let Mu : 0 < mu := proj1 (regular_r _ _ Rg).
Let Hr : r0 <> vzero := proj1 (proj2 (regular_r _ _ Rg)).
Let Hh : cross r0 v0 <> vzero := proj2 (proj2 (regular_r _ _ Rg)).
Let alp := al mu r0 v0.
Let Rz := norm r0.
Definition vr0 : R := dot r0 v0 / norm r0.
Lemma kepDS_T DS : kepDS DS dt Rz vr0 alp mu = T mu r0 v0 DS - sqrt mu * dt.
Proof.
  pose proof (Rz_pos r0 Hr) as P. fold Rz in P. destruct (sqmu mu Mu) as [M1 M2].
  rewrite kepDS_U. unfold T. fold alp. unfold R0. fold Rz. rewrite (U1_U3 alp DS). unfold sg, vr0. fold Rz. field. split; lra.
Qed.
Lemma univ_bracket lo hi : T mu r0 v0 lo < sqrt mu * dt < T mu r0 v0 hi -> lo < hi -> bracketed (fun DS => kepDS DS dt Rz vr0 alp mu) lo hi.
Proof.
  intros H L. assert (F : kepDS lo dt Rz vr0 alp mu < 0 < kepDS hi dt Rz vr0 alp mu) by (rewrite !kepDS_T; lra).
  split; [exact F|].
  destruct (root_between _ _ lo hi (der_kepDS dt Rz vr0 alp mu) ltac:(lra) ltac:(lra)) as [x [Hx X]]. cbv beta in X.
  exists x. split; [|split; [exact X|]].
  - destruct Hx as [[A|A] [B|B]]; try lra; exfalso; subst x; lra.
  - intros y Y. rewrite kepDS_T in X, Y. apply (T_inj mu r0 v0 Mu Hr Hh). lra.
Qed.
(** ellipses *)
Lemma univ_ellipse : energy mu (r0, v0) < 0 -> sqrt (sma mu (r0, v0)) * ecc mu (r0, v0) < PI ->
  0 < alp /\ let IG := sqrt mu * dt * Rabs alp in bracketed (fun DS => kepDS DS dt Rz vr0 alp mu) (IG - 2 * PI) (IG + 2 * PI).
Proof.
  intros Neg HE. set (a := lag_a mu (energy mu (r0, v0))).
  assert (SA : sma mu (r0, v0) = a) by (unfold sma, a, lag_a; field; lra). rewrite SA in HE.
  pose proof (a_pos mu r0 v0 Mu Neg) as PA. fold a in PA. destruct (sqrta_sq mu r0 v0 Mu Neg) as [S1 S2]. fold a in S1, S2.
  destruct (al_a mu r0 v0 Mu Hr) as [_ EA]; [lra|]. fold a alp in EA.
  assert (AP : 0 < alp) by (rewrite EA; apply Rinv_0_lt_compat, PA). split; [exact AP|]. intros IG.
  set (k := sqrt a) in *. set (DM := lag_DM mu a dt). pose proof (DM_eq mu r0 v0 Mu Neg dt) as ED. fold a k DM in ED.
  assert (EIG : IG = k * DM). { unfold IG. rewrite (Rabs_right alp), <- ED, EA, <- S2 by lra. field. lra. }
  set (sig := sg mu r0 v0). set (s0 := sig / k). set (c0 := 1 - Rz / a).
  destruct (polar c0 s0) as [e [E0 [He [Ee [Ec Es]]]]].
  assert (EE : e = ecc mu (r0, v0)).
  { assert (0 <= ecc mu (r0, v0)) by apply norm_nonneg. pose proof (ecc_sq mu r0 v0 Mu Hr) as Q.
    pose proof (pp_eq mu r0 v0 Mu Hr) as PE. fold sig alp in PE. unfold R0 in PE. fold Rz in PE. fold alp in Q. rewrite PE in Q.
    assert (e * e = ecc mu (r0, v0) * ecc mu (r0, v0)).
    { rewrite Ee, Q. unfold c0, s0. rewrite EA. replace (sig / k * (sig / k)) with (sig * sig / (k * k)) by (field; lra). rewrite S2. field. lra. }
    nra. }
  rewrite <- EE in HE.
  assert (TT : forall x, T mu r0 v0 (k * x) = k * k * k * (x + e * sin E0 - e * sin (E0 + x))).
  { intros x. pose proof (T_ellipse mu r0 v0 Mu Hr Neg 0 x) as H. fold a k in H. rewrite H. f_equal. unfold kepDE. fold sig Rz s0 c0. rewrite Ec, Es, sin_plus. ring. }
  assert (K3 : 0 < k * k * k) by (repeat apply Rmult_lt_0_compat; lra).
  assert (KE : e < PI / k) by (apply (Rmult_lt_reg_l k); [lra|]; replace (k * (PI / k)) with PI by (field; lra); exact HE).
  pose proof PI_RGT_0 as PP. pose proof (SIN_bound E0) as B0.
  apply univ_bracket; [|lra]. rewrite <- ED. split.
  - replace (IG - 2 * PI) with (k * (DM - 2 * (PI / k))) by (rewrite EIG; field; lra). rewrite TT. apply Rmult_lt_compat_l; [exact K3|].
    pose proof (SIN_bound (E0 + (DM - 2 * (PI / k)))) as B1. assert (e * sin E0 <= e) by nra. assert (- e <= e * sin (E0 + (DM - 2 * (PI / k)))) by nra. lra.
  - replace (IG + 2 * PI) with (k * (DM + 2 * (PI / k))) by (rewrite EIG; field; lra). rewrite TT. apply Rmult_lt_compat_l; [exact K3|].
    pose proof (SIN_bound (E0 + (DM + 2 * (PI / k)))) as B1. assert (- e <= e * sin E0) by nra. assert (e * sin (E0 + (DM + 2 * (PI / k))) <= e) by nra. lra.
Qed.
(** the closest distance *)
Lemma rho_peri s : alp <= 0 -> periapsis mu (r0, v0) <= rho mu r0 v0 s.
Proof.
  intros A. rewrite pp_peri by assumption. set (e := ecc mu (r0, v0)). assert (He : 0 <= e) by apply norm_nonneg.
  pose proof (ecc_sq mu r0 v0 Mu Hr) as Q. fold alp e in Q. pose proof (pp_pos mu r0 v0 Mu Hh) as PP.
  pose proof (drho_sq mu r0 v0 Mu Hr s) as D. fold alp in D. pose proof (rho_pos mu r0 v0 Mu Hr Hh s) as RP.
  set (p := pp mu r0 v0) in *. set (r := rho mu r0 v0 s) in *. set (d := drho mu r0 v0 s) in *.
  apply Rnot_lt_le. intros L. assert (L' : r * (1 + e) < p).
  { apply (Rmult_lt_compat_r (1 + e)) in L; [|lra]. replace (p / (1 + e) * (1 + e)) with p in L by (field; lra). exact L. }
  assert (D0 : 0 <= 2 * r - alp * r * r - p) by (rewrite <- D; apply Rle_0_sqr).
  (* multiply by p *)
  assert (AP : alp * p = 1 - e * e) by lra.
  assert (0 <= 2 * r * p + (e * e - 1) * r * r - p * p).
  { replace (2 * r * p + (e * e - 1) * r * r - p * p) with (p * (2 * r - alp * r * r - p)); [apply Rmult_le_pos; lra|].
    replace (e * e - 1) with (- (alp * p)) by lra. ring. }
  (* = (e r)^2 - (p - r)^2 = (e r - p + r)(e r + p - r) *)
  assert (0 <= (r * (1 + e) - p) * (e * r + p - r)) by (replace ((r * (1 + e) - p) * (e * r + p - r)) with (2 * r * p + (e * e - 1) * r * r - p * p) by ring; assumption).
  assert (0 < e * r + p - r) by nra. nra.
Qed.
Lemma univ_open : 0 <= energy mu (r0, v0) -> 0 <= dt -> sqrt mu * dt < (3 + 2 * PI) * periapsis mu (r0, v0) ->
  ~ 0 < alp /\ bracketed (fun DS => kepDS DS dt Rz vr0 alp mu) (3 - 2 * PI) (3 + 2 * PI).
Proof.
  intros Nn Dt H. pose proof (al_energy mu r0 v0 Mu Hr) as EA. fold alp in EA.
  assert (A : alp <= 0). { rewrite EA. unfold Rdiv. assert (0 < / mu) by (apply Rinv_0_lt_compat, Mu). nra. }
  split; [lra|]. pose proof PI_RGT_0. assert (3 < PI) by (pose proof PI2_3_2; lra).
  apply univ_bracket; [|lra]. destruct (sqmu mu Mu) as [M1 M2]. pose proof (T_0 mu r0 v0) as T0. split.
  - apply Rlt_le_trans with 0; [|nra]. rewrite <- T0. apply (T_incr mu r0 v0 Mu Hr Hh). lra.
  - apply Rlt_le_trans with (1 := H). set (q := periapsis mu (r0, v0)).
    destruct (MVT_gen (T mu r0 v0) 0 (3 + 2 * PI) (rho mu r0 v0)) as [c [_ E]].
    + intros x _. apply dT; assumption.
    + intros x _. apply (is_derive_cont _ _ _ (dT mu r0 v0 x)).
    + rewrite T0 in E. replace (T mu r0 v0 (3 + 2 * PI)) with (rho mu r0 v0 c * (3 + 2 * PI)) by lra. rewrite Rmult_comm.
      apply Rmult_le_compat_r; [lra|]. apply rho_peri, A.
Qed.
End Univ.
