(** * The Lagrange-coefficient propagators compute the two-body flow *)
From Coq Require Import Reals Lra Lia.
From Coquelicot Require Import Coquelicot.
From Coq Require Import List.
From Verif Require Import Outcome RealLib KepModel KepSpec KepProofs AnomProofs Vec3 TwoBodyModel TwoBodySpec FlowProofs.
Open Scope R_scope.

(** ** The bracket of the elliptic branch *)
Definition brD (e s phi : R) : R :=
  let S := e * sin phi in let B := e * cos phi in let A := S - e * s in A + B * A + 0.5 * A * (2 * B ^ 2 - A * S).

Lemma half_turn_bound b : -1 <= b <= 0 -> - (1 / 4) <= b * (1 + b) <= 0.
Proof. intros H. pose proof (Rle_0_sqr (b + 1 / 2)) as Q. unfold Rsqr in Q. split; nra. Qed.
Lemma cosle_sq c s : 0 <= c -> c * c + s * s = 1 -> c <= 1 - s * s / 2.
Proof. intros H E. nra. Qed.

Lemma bracket_upper e s phi : 0 <= e < 1 -> -1 <= s <= 1 -> - PI <= phi <= PI ->
  brD e s phi + e * s + e * sin (phi + brD e s phi) < PI.
Proof.
  intros He Hs Hp. pose proof PI2_3_2 as P3. pose proof PI_4 as P4.
  set (D := brD e s phi). set (q := D + e * s). pose proof (sin2_cos2 phi) as SC. unfold Rsqr in SC.
  pose proof (SIN_bound (phi + D)) as SB. pose proof (SIN_bound phi) as SP. pose proof (COS_bound phi) as CP.
  set (c := cos phi) in *. set (z := sin phi) in *. set (a := z - s).
  assert (Q : q = e * z + e * a * ((e * c) * (1 + e * c)) - e * e * e * a * a * z / 2).
  { unfold q, D, brD, a. fold c z. replace 0.5 with (1 / 2) by lra. field. }
  assert (P3' : 3 < PI) by lra.
  assert (EZ : q <= 2 -> D + e * s + e * sin (phi + D) < PI).
  { intros H. fold q. assert (e * sin (phi + D) <= e * 1) by (apply Rmult_le_compat_l; lra). lra. }
  assert (Aa : -2 <= a <= 2) by (unfold a; lra).
  assert (E3 : 0 <= e * e * e) by (apply Rmult_le_pos; [apply Rmult_le_pos|]; lra).
  assert (E2 : 0 <= e * e <= 1) by (split; nra).
  assert (E31 : e * e * e <= e) by nra.
  destruct (Rle_dec c 0) as [C|C].
  { (* behind *)
    apply EZ. rewrite Q. set (b := e * c). assert (Hb : -1 <= b <= 0) by (unfold b; split; nra). pose proof (half_turn_bound b Hb) as HB.
    set (w := b * (1 + b)) in *. assert (W : e * a * w <= 1 / 2).
    { assert (- (1 / 4) * 2 <= a * w <= 1 / 4 * 2) by (split; nra). assert (e * (a * w) <= 1 * (1 / 2)); [|lra].
      destruct (Rle_dec 0 (a * w)); nra. }
    destruct (Rle_dec 0 z) as [Z|Z].
    - assert (0 <= e * e * e * a * a * z) by (replace (e * e * e * a * a * z) with (e * e * e * (a * a) * z) by ring; apply Rmult_le_pos; [apply Rmult_le_pos; [lra|nra]|lra]).
      assert (e * z <= 1) by nra. lra.
    - assert (A2 : a * a <= 4) by nra.
      assert (0 <= e * e * e * (a * a) <= e * 4). { split; [apply Rmult_le_pos; [lra|nra]|]. apply Rmult_le_compat; try lra. nra. }
      assert (e * e * e * (a * a) * (- z) <= e * 4 * (- z)) by (apply Rmult_le_compat_r; lra).
      assert (0 <= e * - z <= 1) by (split; nra). lra. }
  apply Rnot_le_lt in C.
  assert (Hb : 0 <= e * c <= c) by (split; nra). set (b := e * c) in *.
  destruct (Rle_dec 0 z) as [Z|Z].
  2:{ apply EZ. rewrite Q. apply Rnot_le_lt in Z. set (y := - z). assert (Y : 0 < y <= 1) by (unfold y; lra).
      assert (EA : e * e * e * (a * a) <= e * (a * a)) by (apply Rmult_le_compat_r; nra).
      assert (W2 : 0 <= b * (1 + b) <= 2) by (split; nra). set (w := b * (1 + b)) in *.
      destruct (Rle_dec a 0) as [A|A].
      - assert (e * a * w <= 0) by (assert (0 <= (- a) * w) by (apply Rmult_le_pos; lra); nra).
        assert (a * a <= 4) by nra.
        assert (e * e * e * (a * a) * y <= e * 4 * y) by (apply Rmult_le_compat_r; [lra|]; eapply Rle_trans; [exact EA|]; apply Rmult_le_compat_l; lra).
        assert (0 <= e * y <= 1) by (split; nra). replace z with (- y) by (unfold y; ring). lra.
      - apply Rnot_le_lt in A. assert (A1 : a <= 1 - y) by (unfold a, y; lra).
        assert (e * a * w <= 2 * (1 - y)).
        { assert (a * w <= (1 - y) * 2) by (apply Rmult_le_compat; lra). assert (0 <= a * w) by (apply Rmult_le_pos; lra).
          assert (e * (a * w) <= 1 * (a * w)) by (apply Rmult_le_compat_r; lra). lra. }
        assert (a * a <= 1) by nra.
        assert (e * e * e * (a * a) * y <= e * 1 * y) by (apply Rmult_le_compat_r; [lra|]; eapply Rle_trans; [exact EA|]; apply Rmult_le_compat_l; lra).
        assert (0 <= e * y) by nra. replace z with (- y) by (unfold y; ring). lra. }
  destruct (Rle_dec a 0) as [A|A].
  { apply EZ. rewrite Q. assert (0 <= b * (1 + b)) by nra. set (w := b * (1 + b)) in *.
    assert (e * a * w <= 0) by (assert (0 <= (- a) * w) by (apply Rmult_le_pos; lra); nra).
    assert (0 <= e * e * e * a * a * z) by (replace (e * e * e * a * a * z) with (e * e * e * (a * a) * z) by ring; apply Rmult_le_pos; [apply Rmult_le_pos; [lra|nra]|lra]).
    assert (e * z <= 1) by nra. lra. }
  apply Rnot_le_lt in A.
  (* in front, guess ahead of the root *)
  assert (Hphi : 0 <= phi <= PI / 2).
  { split.
    - apply Rnot_lt_le. intros N. assert (z < 0); [|lra]. unfold z. apply sin_lt_0_var; [|exact N].
      destruct (Rle_lt_or_eq_dec _ _ (proj1 Hp)) as [L|L]; [exact L|]. exfalso. unfold c in C. rewrite <- L, cos_neg, cos_PI in C. lra.
    - apply Rnot_lt_le. intros N. assert (c < 0); [|lra]. unfold c. apply cos_lt_0; lra. }
  assert (Hq : q <= (296 / 100)).
  { rewrite Q. assert (A1 : a <= 1 + z) by (unfold a; lra).
    assert (0 <= e * e * e * a * a * z) by (replace (e * e * e * a * a * z) with (e * e * e * (a * a) * z) by ring; apply Rmult_le_pos; [apply Rmult_le_pos; [lra|nra]|lra]).
    assert (W : b * (1 + b) <= c * (1 + c)) by nra. assert (W0 : 0 <= b * (1 + b)) by nra. set (w := b * (1 + b)) in *.
    assert (W1 : e * a * w <= (1 + z) * (c * (1 + c))).
    { assert (a * w <= (1 + z) * (c * (1 + c))) by (apply Rmult_le_compat; lra). assert (0 <= a * w) by (apply Rmult_le_pos; lra).
      assert (e * (a * w) <= 1 * (a * w)) by (apply Rmult_le_compat_r; lra). lra. }
    assert (e * z <= z) by nra. pose proof (cosle_sq c z ltac:(lra) ltac:(lra)) as CL.
    assert (CC : c * (1 + c) <= 2 - 3 / 2 * (z * z)) by (replace (c * (1 + c)) with (c + (1 - z * z)) by lra; lra).
    assert (M : (1 + z) * (c * (1 + c)) <= (1 + z) * (2 - 3 / 2 * (z * z))) by (apply Rmult_le_compat_l; lra).
    assert (Z1 : 0 <= z <= 1) by lra.
    assert (F : z + (1 + z) * (2 - 3 / 2 * (z * z)) <= (296 / 100)).
    { (* 3/2 z^3 + 3/2 z^2 - 3 z + 0.96 >= 0 *)
      assert (G : 0 <= (z - 11 / 20) * (z - 11 / 20) * (3 / 2 * z + 63 / 20)) by (apply Rmult_le_pos; [apply Rle_0_sqr|lra]).
      replace ((z - 11 / 20) * (z - 11 / 20) * (3 / 2 * z + 63 / 20)) with (3 / 2 * (z * z * z) + 3 / 2 * (z * z) - 301125 / 100000 * z + 952875 / 1000000) in G by field.
      replace (z + (1 + z) * (2 - 3 / 2 * (z * z))) with (2 + 3 * z - 3 / 2 * (z * z) - 3 / 2 * (z * z * z)) by field. lra. }
    lra. }
  assert (Fs : e * s <= phi).
  { assert (z <= phi). { destruct (Req_dec phi 0) as [E0|E0]; [unfold z; rewrite E0, sin_0; lra|left; apply sin_lt_x; lra]. }
    assert (s <= z) by (unfold a in A; lra). destruct (Rle_dec 0 s); nra. }
  set (x := phi + D) in *. assert (EX : x = phi + q - e * s) by (unfold x, q; ring).
  fold q. destruct (Rle_dec x PI) as [X|X].
  - assert (sin x <= PI - x).
    { rewrite <- (Ropp_involutive (sin x)), <- sin_neg. replace (- sin (- x)) with (sin x) by (rewrite sin_neg; ring).
      rewrite <- sin_PI_x. destruct (Req_dec (PI - x) 0) as [E0|E0]; [rewrite E0, sin_0; lra|]. left. apply sin_lt_x. lra. }
    assert (e * sin x <= e * (PI - x)) by (apply Rmult_le_compat_l; lra). rewrite EX in *. nra.
  - apply Rnot_le_lt in X. assert (sin x <= 0). { apply sin_le_0; [lra|]. rewrite EX. assert (- (1) <= e * s) by nra. lra. }
    assert (e * sin x <= 0) by nra. lra.
Qed.
Lemma brD_neg e s phi : brD e (- s) (- phi) = - brD e s phi.
Proof. unfold brD. rewrite sin_neg, cos_neg. replace 0.5 with (1 / 2) by lra. field. Qed.
Lemma bracket_both e s phi : 0 <= e < 1 -> -1 <= s <= 1 -> - PI <= phi <= PI ->
  - PI < brD e s phi + e * s + e * sin (phi + brD e s phi) < PI.
Proof.
  intros He Hs Hp. split; [|apply bracket_upper; assumption].
  pose proof (bracket_upper e (- s) (- phi) He ltac:(lra) ltac:(lra)) as H. rewrite brD_neg in H.
  replace (- phi + - brD e s phi) with (- (phi + brD e s phi)) in H by ring. rewrite sin_neg in H. lra.
Qed.

Lemma polar c s : exists e E, 0 <= e /\ e * e = c * c + s * s /\ c = e * cos E /\ s = e * sin E.
Proof.
  destruct (Req_dec (c * c + s * s) 0) as [Z|N].
  - exists 0, 0. assert (c = 0) by nra. assert (s = 0) by nra. subst. repeat split; lra.
  - assert (P : 0 < c * c + s * s) by nra. pose proof (sqrt_lt_R0 _ P) as Q. exists (sqrt (c * c + s * s)), (atan2 s c).
    rewrite cos_atan2, sin_atan2 by exact N. repeat split; [lra|apply sqrt_sqrt; lra|field; lra|field; lra].
Qed.

Lemma lag_DMc_crop DM : exists k : Z, lag_DMc DM = DM + 2 * IZR k * PI /\ 0 <= lag_DMc DM < 2 * PI.
Proof.
  unfold lag_DMc. destruct (atan2_crop DM) as [k [E H]]. rewrite E. destruct (Rlt_dec (DM + 2 * IZR k * PI) 0).
  - exists (k + 1)%Z. rewrite plus_IZR. split; lra.
  - exists k. split; lra.
Qed.

(** the elliptic bracket contains the unique root *)
Lemma ellipse_bracket DM s0 c0 : c0 * c0 + s0 * s0 < 1 ->
  let IG := lag_IG (lag_DMc DM) (sin DM) (cos DM) s0 c0 in
  bracketed (fun DE => - lag_DMc DM + DE + s0 * (1 - cos DE) - c0 * sin DE) (IG - PI) (IG + PI).
Proof.
  intros L IG. destruct (polar c0 s0) as [e [E1 [He [Ee [Ec Es]]]]].
  assert (He1 : e < 1) by nra.
  destruct (lag_DMc_crop DM) as [k [Ek _]]. destruct (crop_exists (E1 + lag_DMc DM)) as [j Hj].
  set (E0 := E1 + 2 * IZR j * PI). set (phi := E0 + lag_DMc DM).
  assert (Hphi : - PI <= phi <= PI) by (unfold phi, E0; lra).
  assert (Ec' : c0 = e * cos E0) by (unfold E0; rewrite period_Z_cos; exact Ec).
  assert (Es' : s0 = e * sin E0) by (unfold E0; rewrite period_Z_sin; exact Es).
  assert (SD : sin (lag_DMc DM) = sin DM) by (rewrite Ek; apply period_Z_sin).
  assert (CD : cos (lag_DMc DM) = cos DM) by (rewrite Ek; apply period_Z_cos).
  assert (SP : c0 * sin DM + s0 * cos DM = e * sin phi) by (unfold phi; rewrite sin_plus, SD, CD, Ec', Es'; ring).
  assert (CP : c0 * cos DM - s0 * sin DM = e * cos phi) by (unfold phi; rewrite cos_plus, SD, CD, Ec', Es'; ring).
  set (D := brD e (sin E0) phi).
  assert (EI : IG = lag_DMc DM + D).
  { unfold IG, lag_IG, D, brD. rewrite CP. replace (c0 * sin DM + s0 * cos DM - s0) with (e * sin phi - e * sin E0) by (rewrite SP, Es'; ring).
    rewrite SP. replace (c0 * sin DM - s0 * (1 - cos DM)) with (e * sin phi - s0) by lra.
    replace (lag_DMc DM + c0 * sin DM - s0 * (1 - cos DM)) with (lag_DMc DM + (e * sin phi - s0)) by lra. rewrite Es'. ring. }
  pose proof (bracket_both e (sin E0) phi ltac:(lra) (SIN_bound E0) Hphi) as BB. fold D in BB.
  set (f := fun DE => - lag_DMc DM + DE + s0 * (1 - cos DE) - c0 * sin DE).
  assert (F : forall x, f x = - lag_DMc DM + x + e * sin E0 - e * sin (E0 + x)).
  { intros x. unfold f. rewrite sin_plus, Ec', Es'. ring. }
  assert (EX : E0 + IG = phi + D) by (rewrite EI; unfold phi; ring).
  assert (F1 : f (IG - PI) < 0).
  { rewrite F. replace (E0 + (IG - PI)) with (- (PI - (phi + D))) by (rewrite <- EX; ring). rewrite sin_neg, sin_PI_x. rewrite EI. lra. }
  assert (F2 : 0 < f (IG + PI)).
  { rewrite F. replace (E0 + (IG + PI)) with ((phi + D) + PI) by (rewrite <- EX; ring). rewrite neg_sin. rewrite EI. lra. }
  assert (DF : forall x, is_derive f x (1 + s0 * sin x - c0 * cos x)).
  { intros x. unfold f. auto_derive; [exact I|]. ring. }
  assert (PF : forall x, 0 < 1 + s0 * sin x - c0 * cos x).
  { intros x. rewrite Ec', Es'. replace (1 + e * sin E0 * sin x - e * cos E0 * cos x) with (1 - e * cos (E0 + x)) by (rewrite cos_plus; ring).
    pose proof (COS_bound (E0 + x)). nra. }
  split; [split; assumption|]. pose proof PI_RGT_0.
  destruct (root_between f _ (IG - PI) (IG + PI) DF ltac:(lra) ltac:(lra)) as [x [Hx X]]. exists x. split; [|split; [exact X|]].
  - destruct Hx as [[A|A] [B|B]]; try lra; exfalso; subst; lra.
  - intros y Y. apply (incr_inj f (incr_of_derive f _ DF PF)). rewrite X, Y. reflexivity.
Qed.

(** ** The model's quantities *)
Lemma lag_R0_norm r : lag_R0 r = norm r. Proof. reflexivity. Qed.
Lemma lag_V02_dot v : lag_V02 v = dot v v. Proof. reflexivity. Qed.
Lemma lag_sigma0_sg r v mu : lag_sigma0 r v mu = sg mu r v. Proof. reflexivity. Qed.
Lemma lag_energy_eq mu r v : lag_energy mu (lag_R0 r) (lag_V02 v) = energy mu (r, v). Proof. reflexivity. Qed.
Lemma cross_nz_r r v : cross r v <> vzero -> r <> vzero.
Proof. intros H E. apply H. rewrite E. apply vec_eq; unfold cross, vzero; cbn; ring. Qed.

Section Bridge.
Variables (mu : R) (r0 v0 : vec).
Hypothesis Mu : 0 < mu.
Hypothesis Hr : r0 <> vzero.
Let E := energy mu (r0, v0).
Let a := lag_a mu E.
Let Rz := norm r0.
Let sig := sg mu r0 v0.
Let alp := al mu r0 v0.
Lemma Rz_pos : 0 < Rz. Proof. apply norm_pos, Hr. Qed.
Lemma al_energy : alp = - 2 * E / mu.
Proof. pose proof Rz_pos as P. unfold alp, al, E, energy, R0. cbn [fst snd]. fold Rz. field. lra. Qed.
Lemma al_a : E <> 0 -> a <> 0 /\ alp = / a.
Proof.
  intros N. rewrite al_energy. assert (A : a <> 0). { unfold a, lag_a, Rdiv. repeat apply Rmult_integral_contrapositive_currified; try lra. apply Rinv_neq_0_compat, N. }
  split; [exact A|]. unfold a, lag_a. field. repeat split; lra.
Qed.
Lemma a_pos : E < 0 -> 0 < a.
Proof. intros N. unfold a, lag_a. replace (- mu / 2 / E) with (mu / (2 * (- E))) by (field; lra). apply Rdiv_lt_0_compat; lra. Qed.
Lemma a_neg : 0 < E -> a < 0.
Proof. intros N. unfold a, lag_a. replace (- mu / 2 / E) with (- (mu / (2 * E))) by (field; lra). assert (0 < mu / (2 * E)) by (apply Rdiv_lt_0_compat; lra). lra. Qed.

Section Ellipse.
Hypothesis Neg : E < 0.
Lemma sqrta_sq : 0 < sqrt a /\ sqrt a * sqrt a = a.
Proof. pose proof (a_pos Neg) as P. split; [apply sqrt_lt_R0; exact P|apply sqrt_sqrt; lra]. Qed.
Lemma sqrt_al : sqrt alp = / sqrt a.
Proof. destruct (al_a ltac:(lra)) as [_ ->]. pose proof (a_pos Neg) as P. apply sqrt_inv. Qed.
Lemma U_ellipse DE : U0 alp (sqrt a * DE) = cos DE /\ U1 alp (sqrt a * DE) = sqrt a * sin DE /\ U2 alp (sqrt a * DE) = a * (1 - cos DE) /\
  U3 alp (sqrt a * DE) = sqrt a * sqrt a * sqrt a * (DE - sin DE).
Proof.
  destruct sqrta_sq as [S1 S2]. pose proof (a_pos Neg) as P. destruct (al_a ltac:(lra)) as [_ EA].
  assert (AP : 0 < alp) by (rewrite EA; apply Rinv_0_lt_compat; exact P).
  assert (EX : / sqrt a * (sqrt a * DE) = DE) by (field; lra).
  assert (H2 : U2 alp (sqrt a * DE) = a * (1 - cos DE)) by (rewrite U2_pos, sqrt_al, EX, EA by exact AP; field; lra).
  split; [rewrite U0_U2, H2, EA; field; lra|]. split; [rewrite U1_pos, sqrt_al, EX by exact AP; field; lra|]. split; [exact H2|].
  rewrite U3_pos, sqrt_al, EX by exact AP. field. lra.
Qed.
Lemma rho_ellipse DE : rho mu r0 v0 (sqrt a * DE) = a + (Rz - a) * cos DE + sig * sqrt a * sin DE.
Proof. unfold rho. fold alp sig. unfold R0. fold Rz. destruct (U_ellipse DE) as [-> [-> [-> _]]]. ring. Qed.
Lemma sqrt_div_mu : sqrt (a / mu) = sqrt a / sqrt mu.
Proof. apply sqrt_div_alt. exact Mu. Qed.
Lemma state_ellipse s0 c0 DE : lag_state (r0, v0) (lag_ellipse mu Rz a sig s0 c0 DE) = ustate mu r0 v0 (sqrt a * DE).
Proof.
  pose proof Rz_pos as P. pose proof (a_pos Neg) as PA. destruct (sqmu mu Mu) as [M1 M2]. destruct sqrta_sq as [S1 S2].
  unfold lag_state, lag_ellipse, ustate. cbn [lF lG lFt lGt].
  rewrite <- rho_ellipse, sqrt_div_mu, sqrt_mult by lra.
  unfold uF, uG, uFt, uGt. fold alp sig. unfold R0. fold Rz. destruct (U_ellipse DE) as [_ [-> [-> _]]].
  f_equal; apply vec_eq; unfold vadd, vscal; cbn; unfold Rdiv; ring.
Qed.
Lemma T_ellipse DM DE : T mu r0 v0 (sqrt a * DE) = sqrt a * sqrt a * sqrt a * (kepDE DE DM sig (sqrt a) a Rz + DM).
Proof.
  pose proof Rz_pos as P. pose proof (a_pos Neg) as PA. destruct sqrta_sq as [S1 S2].
  unfold T, kepDE. fold alp sig. unfold R0. fold Rz. destruct (U_ellipse DE) as [_ [-> [-> ->]]].
  set (k := sqrt a) in *. replace a with (k * k). field. lra.
Qed.
Lemma DM_eq tof : sqrt a * sqrt a * sqrt a * lag_DM mu a tof = sqrt mu * tof.
Proof.
  pose proof (a_pos Neg) as PA. destruct sqrta_sq as [S1 S2]. unfold lag_DM. rewrite sqrt_div_alt by (apply pow_lt; exact PA).
  assert (S3 : sqrt (a ^ 3) = sqrt a * sqrt a * sqrt a).
  { replace (a ^ 3) with ((sqrt a * sqrt a * sqrt a) * (sqrt a * sqrt a * sqrt a)); [apply sqrt_square; repeat apply Rmult_le_pos; lra|].
    replace (sqrt a * sqrt a * sqrt a * (sqrt a * sqrt a * sqrt a)) with ((sqrt a * sqrt a) * (sqrt a * sqrt a) * (sqrt a * sqrt a)) by ring. rewrite S2. ring. }
  rewrite S3. field. lra.
Qed.
Lemma ecc_lt1 : cross r0 v0 <> vzero -> (1 - Rz / a) * (1 - Rz / a) + sig / sqrt a * (sig / sqrt a) < 1.
Proof.
  intros Hh. pose proof Rz_pos as P. pose proof (a_pos Neg) as PA. destruct sqrta_sq as [S1 S2].
  pose proof (pp_pos mu r0 v0 Mu Hh) as PP. pose proof (pp_eq mu r0 v0 Mu Hr) as PE. fold alp sig in PE. unfold R0 in PE. fold Rz in PE.
  destruct (al_a ltac:(lra)) as [_ EA]. rewrite EA in PE.
  replace ((1 - Rz / a) * (1 - Rz / a) + sig / sqrt a * (sig / sqrt a)) with (1 - pp mu r0 v0 / a).
  - assert (0 < pp mu r0 v0 / a) by (apply Rdiv_lt_0_compat; assumption). lra.
  - rewrite PE. replace (sig / sqrt a * (sig / sqrt a)) with (sig * sig / (sqrt a * sqrt a)) by (field; lra). rewrite S2. field. lra.
Qed.
(** any root of the cropped equation is a root of Kepler's equation up to whole turns *)
Lemma ellipse_root tof DE : kepDE DE (lag_DMc (lag_DM mu a tof)) sig (sqrt a) a Rz = 0 ->
  exists DE', T mu r0 v0 (sqrt a * DE') = sqrt mu * tof /\ ustate mu r0 v0 (sqrt a * DE') = ustate mu r0 v0 (sqrt a * DE) /\ exists k : Z, DE' = DE + 2 * IZR k * PI.
Proof.
  intros K. destruct (lag_DMc_crop (lag_DM mu a tof)) as [k [Ek _]]. exists (DE + 2 * IZR (- k) * PI). split; [|split].
  - rewrite (T_ellipse (lag_DM mu a tof)), <- DM_eq. f_equal. unfold kepDE in *. rewrite period_Z_sin, period_Z_cos, opp_IZR. rewrite Ek in K. lra.
  - rewrite <- (state_ellipse 0 0), <- (state_ellipse 0 0 DE). unfold lag_ellipse. rewrite period_Z_sin, period_Z_cos. reflexivity.
  - exists (- k)%Z. reflexivity.
Qed.
End Ellipse.

Section Hyperbola.
Hypothesis Pos : 0 < E.
Lemma sqrta_sqh : 0 < sqrt (- a) /\ sqrt (- a) * sqrt (- a) = - a.
Proof. pose proof (a_neg Pos) as P. split; [apply sqrt_lt_R0; lra|apply sqrt_sqrt; lra]. Qed.
Lemma sqrt_alh : sqrt (- alp) = / sqrt (- a).
Proof. destruct (al_a ltac:(lra)) as [N ->]. replace (- / a) with (/ - a) by (field; exact N). apply sqrt_inv. Qed.
Lemma U_hyperbola DH : U0 alp (sqrt (- a) * DH) = cosh DH /\ U1 alp (sqrt (- a) * DH) = sqrt (- a) * sinh DH /\ U2 alp (sqrt (- a) * DH) = a * (1 - cosh DH) /\
  U3 alp (sqrt (- a) * DH) = sqrt (- a) * sqrt (- a) * sqrt (- a) * (sinh DH - DH).
Proof.
  destruct sqrta_sqh as [S1 S2]. pose proof (a_neg Pos) as P. destruct (al_a ltac:(lra)) as [_ EA].
  assert (AP : alp < 0) by (rewrite EA; apply Rinv_lt_0_compat; exact P).
  assert (EX : / sqrt (- a) * (sqrt (- a) * DH) = DH) by (field; lra).
  assert (H2 : U2 alp (sqrt (- a) * DH) = a * (1 - cosh DH)) by (rewrite U2_neg, sqrt_alh, EX, EA by exact AP; field; lra).
  split; [rewrite U0_U2, H2, EA; field; lra|]. split; [rewrite U1_neg, sqrt_alh, EX by exact AP; field; lra|]. split; [exact H2|].
  rewrite U3_neg, sqrt_alh, EX by exact AP. field. lra.
Qed.
Lemma rho_hyperbola DH : rho mu r0 v0 (sqrt (- a) * DH) = a + (Rz - a) * cosh DH + sig * sqrt (- a) * sinh DH.
Proof. unfold rho. fold alp sig. unfold R0. fold Rz. destruct (U_hyperbola DH) as [-> [-> [-> _]]]. ring. Qed.
Lemma state_hyperbola s0 c0 DH : lag_state (r0, v0) (lag_hyperbola mu Rz a sig s0 c0 DH) = ustate mu r0 v0 (sqrt (- a) * DH).
Proof.
  pose proof Rz_pos as P. pose proof (a_neg Pos) as PA. destruct (sqmu mu Mu) as [M1 M2]. destruct sqrta_sqh as [S1 S2].
  unfold lag_state, lag_hyperbola, ustate. cbn [lF lG lFt lGt].
  rewrite <- rho_hyperbola. rewrite (sqrt_div_alt (- a)) by exact Mu. replace (- mu * a) with (mu * - a) by ring. rewrite sqrt_mult by lra.
  unfold uF, uG, uFt, uGt. fold alp sig. unfold R0. fold Rz. destruct (U_hyperbola DH) as [_ [-> [-> _]]].
  f_equal; apply vec_eq; unfold vadd, vscal; cbn; unfold Rdiv; ring.
Qed.
Lemma T_hyperbola DN DH : T mu r0 v0 (sqrt (- a) * DH) = sqrt (- a) * sqrt (- a) * sqrt (- a) * (kepDH DH DN sig (sqrt (- a)) a Rz + DN).
Proof.
  pose proof Rz_pos as P. pose proof (a_neg Pos) as PA. destruct sqrta_sqh as [S1 S2].
  unfold T, kepDH. fold alp sig. unfold R0. fold Rz. destruct (U_hyperbola DH) as [_ [-> [-> ->]]].
  set (k := sqrt (- a)) in *. replace a with (- (k * k)) by lra. field. lra.
Qed.
Lemma DN_eq tof : sqrt (- a) * sqrt (- a) * sqrt (- a) * lag_DN mu a tof = sqrt mu * tof.
Proof.
  pose proof (a_neg Pos) as PA. destruct sqrta_sqh as [S1 S2]. unfold lag_DN.
  replace (- mu / a / a / a) with (mu / ((- a) * (- a) * (- a))) by (field; lra). rewrite sqrt_div_alt by (repeat apply Rmult_lt_0_compat; lra).
  assert (S3 : sqrt ((- a) * (- a) * (- a)) = sqrt (- a) * sqrt (- a) * sqrt (- a)).
  { rewrite sqrt_mult by nra. rewrite (sqrt_square (- a)) by lra. rewrite S2. reflexivity. }
  rewrite S3. field. lra.
Qed.
End Hyperbola.
End Bridge.
