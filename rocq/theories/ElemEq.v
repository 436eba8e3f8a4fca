(** * Equinoctial elements: proofs *)
From Coq Require Import Reals Lra Psatz Bool.
From Coquelicot Require Import Rcomplements.
From Verif Require Import Outcome RealLib PartialReal Vec3 TwoBodySpec FlowMain ElemModel ElemSpec ElemProofs ElemPar.
Open Scope R_scope. Open Scope partial_scope.

(** ** the frame *)
Lemma I2 b : eqI b * eqI b = 1. Proof. unfold eqI. destruct b; ring. Qed.
Lemma den_pos h k : 0 < k * k + h * h + 1. Proof. nra. Qed.
Lemma eq_ortho b h k : ortho (eq_fv (eqI b) h k) (eq_gv (eqI b) h k).
Proof. pose proof (den_pos h k). unfold ortho, eq_fv, eq_gv, dot, eqI; cbn [vx vy vz]. destruct b; repeat split; field; lra. Qed.
Lemma eq_w b h k : let d := k * k + h * h + 1 in cross (eq_fv (eqI b) h k) (eq_gv (eqI b) h k) = V (2 * k / d) (- (2 * h) / d) (eqI b * (1 - k * k - h * h) / d).
Proof. pose proof (den_pos h k). cbv zeta. apply vec_eq; unfold eq_fv, eq_gv, cross, eqI; cbn [vx vy vz]; destruct b; field; lra. Qed.
(** code frame = geometric frame *)
Lemma half_cos i : cos i = cos (i / 2) * cos (i / 2) - sin (i / 2) * sin (i / 2). Proof. rewrite <- cos_2a. f_equal. field. Qed.
Lemma half_sin i : sin i = 2 * sin (i / 2) * cos (i / 2). Proof. rewrite <- sin_2a. f_equal. field. Qed.
Lemma eq_frame b i W q : eq_orient b i W q ->
  eqframe b i W ex = eq_fv (eqI b) (eq_h q) (eq_k q) /\ eqframe b i W ey = eq_gv (eqI b) (eq_h q) (eq_k q).
Proof.
  intros O. pose proof (sc1 (i / 2)) as S1. pose proof (sc1 W) as S2. pose proof (half_cos i) as HC. pose proof (half_sin i) as HS. pose proof PI_RGT_0.
  set (c := cos (i / 2)) in *. set (s := sin (i / 2)) in *. set (cw := cos W) in *. set (sw := sin W) in *.
  set (h := eq_h q) in *. set (k := eq_k q) in *. pose proof (den_pos h k) as DP. unfold eq_orient in O. fold c s cw sw h k in O.
  assert (E : forall t, t * t * (k * k + h * h + 1) = 1 -> forall x, x / (k * k + h * h + 1) = t * t * x).
  { intros t T x. apply Rmult_eq_reg_r with (k * k + h * h + 1); [|lra]. transitivity x; [field; lra|]. transitivity (t * t * (k * k + h * h + 1) * x); [rewrite T|]; ring. }
  destruct b.
  - destruct O as [_ [Oh Ok]]. assert (T : s * s * (k * k + h * h + 1) = 1).
    { transitivity ((k * s) * (k * s) + (h * s) * (h * s) + s * s); [ring|]. rewrite Oh, Ok. transitivity (c * c * (sw * sw + cw * cw) + s * s); [ring|]. rewrite S2. lra. }
    unfold eqframe, eq_fv, eq_gv, eqI. split; apply vec_eq; unfold rotz, rotx, ex, ey; cbn [vx vy vz]; rewrite (E s T); fold cw sw; rewrite ?HC, ?HS.
    + transitivity (s * s - (k * s) * (k * s) + (h * s) * (h * s)); [rewrite Oh, Ok|ring]. transitivity (cw * cw - sw * sw * (c * c - s * s)); [ring|]. transitivity ((sw * sw + cw * cw) * s * s - c * sw * (c * sw) + c * cw * (c * cw)); [|rewrite S2; ring]. transitivity ((s * s + c * c) * cw * cw - sw * sw * (c * c - s * s)); [rewrite S1; ring|ring].
    + transitivity (2 * (k * s) * (h * s)); [rewrite Oh, Ok|ring]. transitivity (sw * cw * (s * s + c * c + c * c - s * s)); [rewrite S1|]; ring.
    + transitivity (2 * s * (k * s)); [rewrite Ok|]; ring.
    + transitivity (- 2 * (k * s) * (h * s)); [rewrite Oh, Ok|ring]. transitivity (- sw * cw * (s * s + c * c + c * c - s * s)); [rewrite S1|]; ring.
    + transitivity (- (s * s + (k * s) * (k * s) - (h * s) * (h * s))); [rewrite Oh, Ok|ring]. transitivity (- ((s * s + c * c) * sw * sw) + cw * cw * (c * c - s * s)); [rewrite S1; ring|]. transitivity (- ((sw * sw + cw * cw) * s * s + c * sw * (c * sw) - c * cw * (c * cw))); [ring|rewrite S2; ring].
    + transitivity (2 * s * (h * s)); [rewrite Oh|]; ring.
  - destruct O as [_ [Oh Ok]]. assert (T : c * c * (k * k + h * h + 1) = 1).
    { transitivity ((k * c) * (k * c) + (h * c) * (h * c) + c * c); [ring|]. rewrite Oh, Ok. transitivity (s * s * (sw * sw + cw * cw) + c * c); [ring|]. rewrite S2. lra. }
    unfold eqframe, eq_fv, eq_gv, eqI. split; apply vec_eq; unfold rotz, rotx, ex, ey; cbn [vx vy vz]; rewrite (E c T); rewrite ?cos_neg, ?sin_neg; fold cw sw; rewrite ?HC, ?HS.
    + transitivity (c * c - (k * c) * (k * c) + (h * c) * (h * c)); [rewrite Oh, Ok|ring]. transitivity ((s * s + c * c) * cw * cw + sw * sw * (c * c - s * s)); [rewrite S1; ring|]. transitivity ((sw * sw + cw * cw) * c * c - s * sw * (s * sw) + s * cw * (s * cw)); [ring|rewrite S2; ring].
    + transitivity (2 * (k * c) * (h * c)); [rewrite Oh, Ok|ring]. transitivity (sw * cw * (s * s + c * c - c * c + s * s)); [rewrite S1|]; ring.
    + transitivity (- 2 * c * (k * c)); [rewrite Ok|]; ring.
    + transitivity (2 * (k * c) * (h * c)); [rewrite Oh, Ok|ring]. transitivity (sw * cw * (s * s + c * c - c * c + s * s)); [rewrite S1|]; ring.
    + transitivity (c * c + (k * c) * (k * c) - (h * c) * (h * c)); [rewrite Oh, Ok|ring]. transitivity ((s * s + c * c) * sw * sw + cw * cw * (c * c - s * s)); [rewrite S1; ring|]. transitivity ((sw * sw + cw * cw) * c * c + s * sw * (s * sw) - s * cw * (s * cw)); [ring|rewrite S2; ring].
    + transitivity (2 * c * (h * c)); [rewrite Oh|]; ring.
Qed.
Lemma eqframe_lin b i W x y : eqframe b i W (V x y 0) = vadd (vscal x (eqframe b i W ex)) (vscal y (eqframe b i W ey)).
Proof. apply vec_eq; unfold eqframe, rotz, rotx, vadd, vscal, ex, ey; cbn [vx vy vz]; ring. Qed.
Lemma eqframe_z b i W : eqframe b i W ez = cross (eqframe b i W ex) (eqframe b i W ey).
Proof. unfold eqframe. rewrite cross_rotz, cross_rotx, cross_rotz. do 3 f_equal. apply vec_eq; unfold cross, ex, ey, ez; cbn [vx vy vz]; ring. Qed.
Lemma orient_exists b q : exists i W, eq_orient b i W q.
Proof.
  set (h := eq_h q). set (k := eq_k q). set (m := sqrt (h * h + k * k)). assert (M0 : 0 <= m) by apply sqrt_pos.
  assert (MM : m * m = h * h + k * k) by (apply sqrt_sqrt; nra). pose proof PI_RGT_0.
  assert (HW : exists W, h = m * cos W /\ k = m * sin W).
  { destruct (Req_EM_T m 0) as [Z|Z]; [exists 0; rewrite Z in *; split; nra|]. exists (atan2 (k / m) (h / m)).
    assert (U : h / m * (h / m) + k / m * (k / m) = 1) by (replace (h / m * (h / m) + k / m * (k / m)) with ((h * h + k * k) / (m * m)) by (field; exact Z); rewrite <- MM; field; exact Z).
    rewrite cos_atan2, sin_atan2 by lra. rewrite U, sqrt_1. split; field; exact Z. }
  destruct HW as [W [Eh Ek]]. pose proof (atan_bound m) as B. assert (PA : 0 <= atan m). { destruct (Rle_lt_or_eq_dec 0 m M0) as [Z|Z]; [left; rewrite <- atan_0; apply atan_increasing, Z|rewrite <- Z, atan_0; lra]. }
  assert (C : cos (atan m) <> 0) by (apply Rgt_not_eq, cos_gt_0; lra). assert (T : sin (atan m) = m * cos (atan m)) by (rewrite <- (tan_atan m) at 2; unfold tan; field; exact C).
  destruct b.
  - exists (PI - 2 * atan m), W. unfold eq_orient. fold h k. replace ((PI - 2 * atan m) / 2) with (PI / 2 - atan m) by field. rewrite sin_shift, cos_shift, T. split; [lra|]. rewrite Eh at 1. rewrite Ek at 1. split; ring.
  - exists (2 * atan m), W. unfold eq_orient. fold h k. replace (2 * atan m / 2) with (atan m) by field. rewrite T. split; [lra|]. rewrite Eh at 1. rewrite Ek at 1. split; ring.
Qed.
(** the specification in terms of the frame of the code *)
Definition osc_code (mu : R) (b : bool) (s : state) (q : eqel) : Prop :=
  let F := eq_fv (eqI b) (eq_h q) (eq_k q) in let G := eq_gv (eqI b) (eq_h q) (eq_k q) in
  eq_p q = dot (ang_mom s) (ang_mom s) / mu /\ ecc_vec mu s = vadd (vscal (eq_f q) F) (vscal (eq_g q) G) /\
  ang_mom s = vscal (norm (ang_mom s)) (cross F G) /\ fst s = vscal (norm (fst s)) (vadd (vscal (cos (eq_L q)) F) (vscal (sin (eq_L q)) G)).
Lemma osc_code_iff mu b s q : osculating_eq mu b s q <-> osc_code mu b s q.
Proof.
  split.
  - intros [i [W [O [A [B [C D]]]]]]. destruct (eq_frame b i W q O) as [EF EG]. rewrite eqframe_lin, EF, EG in B, D. rewrite eqframe_z, EF, EG in C. repeat split; assumption.
  - intros [A [B [C D]]]. destruct (orient_exists b q) as [i [W O]]. exists i, W. destruct (eq_frame b i W q O) as [EF EG]. rewrite !eqframe_lin, eqframe_z, EF, EG. repeat split; assumption.
Qed.

(** ** eq2ic *)
Definition eq_state (mu : R) (b : bool) (q : eqel) : state :=
  kst mu (eq_p q) (eq_f q) (eq_g q) (eq_L q) (eq_fv (eqI b) (eq_h q) (eq_k q)) (eq_gv (eqI b) (eq_h q) (eq_k q)).
Definition eq_sound (q : eqel) : Prop := 0 < eq_p q /\ 0 < 1 + eq_f q * cos (eq_L q) + eq_g q * sin (eq_L q).
Lemma eq2ic_ok mu b q : 0 < mu -> eq_sound q -> eq2ic q mu b = Some (eq_state mu b q).
Proof.
  intros M [P D]. destruct q as [p f g h k L]. unfold eq_state. cbn [eq_p eq_f eq_g eq_h eq_k eq_L] in *. unfold eq2ic. rewrite Rabs_pos_eq by lra. assert (0 < mu / p) by (apply Rdiv_lt_0_compat; assumption).
  rewrite pdiv_some by lra. cbn [obind]. rewrite pdiv_some by lra. cbn [obind]. rewrite psqrt_some by lra. cbn [obind]. unfold kst. apply (f_equal (@Some state)).
  replace (1 + g * sin L + f * cos L) with (1 + f * cos L + g * sin L) by ring. generalize (eq_fv (eqI b) h k), (eq_gv (eqI b) h k). intros F G. apply f_equal2; vring.
Qed.
Lemma eq_state_osc mu b q : 0 < mu -> eq_sound q -> osc_code mu b (eq_state mu b q) q.
Proof.
  intros M [P D]. unfold eq_state. pose proof (eq_ortho b (eq_h q) (eq_k q)) as O. set (F := eq_fv (eqI b) (eq_h q) (eq_k q)) in *. set (G := eq_gv (eqI b) (eq_h q) (eq_k q)) in *.
  pose proof (kst_h mu (eq_p q) (eq_f q) (eq_g q) (eq_L q) F G M P D) as H. pose proof (sqrt_pos (mu * eq_p q)) as SP.
  assert (SS : sqrt (mu * eq_p q) * sqrt (mu * eq_p q) = mu * eq_p q) by (apply sqrt_sqrt; nra).
  unfold osc_code. fold F G. split; [|split; [|split]].
  - rewrite H, dot_scal_l, dot_scal_r, (ortho_k F G O), Rmult_1_r, SS. field. lra.
  - apply kst_ecc; assumption.
  - rewrite H, norm_scal, (norm_1 _ (ortho_k F G O)), Rmult_1_r by exact SP. reflexivity.
  - rewrite (kst_norm mu (eq_p q) (eq_f q) (eq_g q) (eq_L q) F G P O D). reflexivity.
Qed.
Lemma osc_eq_state mu b s q : regular mu s -> osc_code mu b s q -> s = eq_state mu b q /\ eq_sound q.
Proof.
  intros Rg [A [B [C D]]]. destruct (kst_of mu s (eq_p q) (eq_f q) (eq_g q) (eq_L q) _ _ Rg (eq_ortho b (eq_h q) (eq_k q)) A C B D) as [K Z]. split; [exact K|]. split; [|exact Z].
  rewrite A. destruct (regular_r _ _ Rg) as [M [_ N]]. apply Rdiv_lt_0_compat; [apply dot_pos, N|exact M].
Qed.
Lemma eq_state_energy mu b q : 0 < mu -> eq_sound q -> energy mu (eq_state mu b q) = mu / (2 * eq_p q) * (eq_f q * eq_f q + eq_g q * eq_g q - 1).
Proof. intros M [P D]. apply kst_energy; [exact M|exact P|apply eq_ortho|exact D]. Qed.
(** the direction of the angular momentum determines h and k *)
Lemma w_hk b h k : let w := cross (eq_fv (eqI b) h k) (eq_gv (eqI b) h k) in 1 + eqI b * vz w = 2 / (k * k + h * h + 1) /\ vx w = k * (1 + eqI b * vz w) /\ - vy w = h * (1 + eqI b * vz w).
Proof.
  pose proof (den_pos h k) as D. cbv zeta. rewrite eq_w. cbn [vx vy vz].
  assert (Z : 1 + eqI b * (eqI b * (1 - k * k - h * h) / (k * k + h * h + 1)) = 2 / (k * k + h * h + 1)). { replace (eqI b * (eqI b * (1 - k * k - h * h) / (k * k + h * h + 1))) with ((eqI b * eqI b) * (1 - k * k - h * h) / (k * k + h * h + 1)) by (field; lra). rewrite I2. field. lra. }
  rewrite Z. repeat split; field; lra.
Qed.
Lemma w_frame b w : dot w w = 1 -> 1 + eqI b * vz w <> 0 -> cross (eq_fv (eqI b) (- vy w / (1 + eqI b * vz w)) (vx w / (1 + eqI b * vz w))) (eq_gv (eqI b) (- vy w / (1 + eqI b * vz w)) (vx w / (1 + eqI b * vz w))) = w.
Proof.
  intros U N. rewrite eq_w. set (t := 1 + eqI b * vz w) in *.
  assert (IZ : eqI b * vz w = t - 1) by (unfold t; ring). assert (ZZ : vz w * vz w = (t - 1) * (t - 1)) by (rewrite <- IZ; transitivity ((eqI b * eqI b) * (vz w * vz w)); [rewrite I2|]; ring).
  assert (XY : vx w * vx w + vy w * vy w = 1 - (t - 1) * (t - 1)) by (unfold dot in U; lra).
  set (hh := - vy w / t). set (kk := vx w / t). assert (D : kk * kk + hh * hh + 1 = 2 / t).
  { unfold kk, hh. replace (vx w / t * (vx w / t) + - vy w / t * (- vy w / t) + 1) with ((vx w * vx w + vy w * vy w + t * t) / (t * t)) by (field; exact N). rewrite XY. field. exact N. }
  rewrite D. apply vec_eq; cbn [vx vy vz].
  - unfold kk. field. exact N.
  - unfold hh. field. exact N.
  - replace (1 - kk * kk - hh * hh) with (2 - (kk * kk + hh * hh + 1)) by ring. rewrite D. transitivity (eqI b * (t - 1)); [field; exact N|]. rewrite <- IZ. transitivity ((eqI b * eqI b) * vz w); [ring|]. rewrite I2. ring.
Qed.
Lemma angle_unique_pi a b : - PI < a <= PI -> - PI < b <= PI -> cos a = cos b -> sin a = sin b -> a = b.
Proof.
  intros A B C S. assert (cos (PI - a) = cos (PI - b) /\ sin (PI - a) = sin (PI - b)) as [E F] by (rewrite !cos_minus, !sin_minus, C, S; split; reflexivity).
  assert (PI - a = PI - b) by (apply angle_unique; unfold angle_ok; lra). lra.
Qed.
Lemma osc_eq_unique mu b s q q' : regular mu s -> osc_code mu b s q -> osc_code mu b s q' -> - PI < eq_L q <= PI -> - PI < eq_L q' <= PI -> q = q'.
Proof.
  intros Rg [A [B [C D]]] [A' [B' [C' D']]] BL BL'. destruct (regular_r _ _ Rg) as [M [N NH]]. change (cross (fst s) (snd s)) with (ang_mom s) in NH. pose proof (norm_pos _ N) as PN. pose proof (norm_pos _ NH) as PH.
  assert (EW : cross (eq_fv (eqI b) (eq_h q) (eq_k q)) (eq_gv (eqI b) (eq_h q) (eq_k q)) = cross (eq_fv (eqI b) (eq_h q') (eq_k q')) (eq_gv (eqI b) (eq_h q') (eq_k q'))).
  { transitivity (vscal (/ norm (ang_mom s)) (ang_mom s)); [rewrite C at 2|rewrite C' at 2]; rewrite vscal_vscal, Rinv_l by lra; [symmetry|]; apply vscal_1. }
  destruct (w_hk b (eq_h q) (eq_k q)) as [Z1 [X1 Y1]]. destruct (w_hk b (eq_h q') (eq_k q')) as [Z2 [X2 Y2]]. rewrite EW in Z1, X1, Y1.
  set (w := cross (eq_fv (eqI b) (eq_h q') (eq_k q')) (eq_gv (eqI b) (eq_h q') (eq_k q'))) in *. assert (T : 0 < 1 + eqI b * vz w) by (rewrite Z2; apply Rdiv_lt_0_compat; [lra|apply den_pos]).
  assert (Eh : eq_h q = eq_h q') by (apply Rmult_eq_reg_r with (1 + eqI b * vz w); lra). assert (Ek : eq_k q = eq_k q') by (apply Rmult_eq_reg_r with (1 + eqI b * vz w); lra).
  rewrite <- Eh, <- Ek in B', D'. pose proof (eq_ortho b (eq_h q) (eq_k q)) as O. set (F := eq_fv (eqI b) (eq_h q) (eq_k q)) in *. set (G := eq_gv (eqI b) (eq_h q) (eq_k q)) in *.
  assert (L2 : forall x y, dot (vadd (vscal x F) (vscal y G)) F = x /\ dot (vadd (vscal x F) (vscal y G)) G = y). { intros x y. destruct O as [OA [OB OC]]. rewrite !dot_add_l, !dot_scal_l, (dot_comm G F), OA, OB, OC. split; ring. }
  assert (L3 : forall x y x' y', vadd (vscal x F) (vscal y G) = vadd (vscal x' F) (vscal y' G) -> x = x' /\ y = y'). { intros x y x' y' Q. destruct (L2 x y) as [Q1 Q2]. destruct (L2 x' y') as [Q3 Q4]. rewrite Q in Q1, Q2. split; congruence. }
  rewrite B in B'. apply L3 in B'. destruct B' as [Ef Eg].
  assert (Q : vadd (vscal (cos (eq_L q)) F) (vscal (sin (eq_L q)) G) = vadd (vscal (cos (eq_L q')) F) (vscal (sin (eq_L q')) G)).
  { transitivity (vscal (/ norm (fst s)) (fst s)); [rewrite D at 2|rewrite D' at 2]; rewrite vscal_vscal, Rinv_l by lra; [symmetry|]; apply vscal_1. }
  apply L3 in Q. destruct Q as [Qc Qs]. pose proof (angle_unique_pi _ _ BL BL' Qc Qs) as EL. destruct q, q'. cbn in *. congruence.
Qed.

(** ** ic2eq *)
Lemma ic2eq_ok mu b s : eq_regular mu b s -> exists q, ic2eq s mu b = Some q /\ osc_code mu b s q /\ - PI < eq_L q <= PI.
Proof.
  intros [Rg [NE NZ]]. destruct (regular_r _ _ Rg) as [M [Nr Nh]]. change (cross (fst s) (snd s)) with (ang_mom s) in Nh.
  pose proof (norm_pos _ Nr) as PR. pose proof (norm_pos _ Nh) as PH. pose proof (sma_p mu s Rg NE) as SP.
  set (h := ang_mom s) in *. set (w := vscal (/ norm h) h) in *. assert (Uw : dot w w = 1) by (apply unit_dir_1, Nh). assert (hw : h = vscal (norm h) w) by (apply unit_dir_2, Nh).
  assert (T : 1 + eqI b * vz w <> 0).
  { intros Z. apply NZ. assert (Q : vz h = norm h * vz w) by (rewrite hw at 1; reflexivity). rewrite Q. unfold eqI in Z. destruct b; [replace (vz w) with 1 by lra|replace (vz w) with (-1) by lra]; ring. }
  set (hh := - vy w / (1 + eqI b * vz w)). set (kk := vx w / (1 + eqI b * vz w)). pose proof (w_frame b w Uw T) as FW. fold hh kk in FW. pose proof (eq_ortho b hh kk) as O.
  set (F := eq_fv (eqI b) hh kk) in *. set (G := eq_gv (eqI b) hh kk) in *. set (EV := ecc_vec mu s) in *.
  assert (Hsma : 2 / norm (fst s) - norm (snd s) * norm (snd s) / mu = - 2 * energy mu s / mu) by (unfold energy; rewrite norm_sq; field; lra).
  destruct s as [r v]. cbn [fst snd] in *. unfold ic2eq. change (cross r v) with h. rewrite !pdiv_some by lra. cbn [obind]. rewrite Hsma. rewrite pdiv_some.
  2:{ intros Z. apply NE. unfold Rdiv in Z. apply Rmult_integral in Z. destruct Z as [Z|Z]; [lra|exfalso; apply (Rinv_neq_0_compat mu); [lra|exact Z]]. }
  cbn [obind]. rewrite (pvdiv_some h) by lra. cbn [obind]. fold w. rewrite !pdiv_some by exact T. cbn [obind]. fold hh kk F G. rewrite !pvdiv_some by lra. cbn [obind]. change (vsub (vscal (/ mu) (cross v h)) (vscal (/ norm r) r)) with EV.
  set (det1 := vy G * vx F - vy F * vx G). set (det2 := vz G * vx F - vz F * vx G). set (det3 := vz G * vy F - vz F * vy G).
  assert (D1 : det1 = vz w) by (rewrite <- FW; unfold det1, cross; cbn [vz]; ring). assert (D2 : det2 = - vy w) by (rewrite <- FW; unfold det2, cross; cbn [vy]; ring). assert (D3 : det3 = vx w) by (rewrite <- FW; unfold det3, cross; cbn [vx]; ring).
  assert (Rp : r = vadd (vscal (dot r F) F) (vscal (dot r G) G)). { apply in_plane; [exact O|]. rewrite FW. unfold w. rewrite dot_scal_r. unfold h, ang_mom. cbn [fst snd]. rewrite cross_perp_l. ring. }
  set (X := dot r F) in *. set (Y := dot r G) in *.
  assert (rx : vx r = X * vx F + Y * vx G) by (rewrite Rp at 1; reflexivity). assert (ry : vy r = X * vy F + Y * vy G) by (rewrite Rp at 1; reflexivity). assert (rz : vz r = X * vz F + Y * vz G) by (rewrite Rp at 1; reflexivity).
  match goal with |- exists q, obind ?m _ = _ /\ _ => assert (E : m = Some (X, Y)) end.
  { set (mx := Rmax (Rabs det1) (Rmax (Rabs det2) (Rabs det3))).
    assert (PM : 0 < mx). { pose proof (Rmax_l (Rabs det1) (Rmax (Rabs det2) (Rabs det3))). pose proof (Rmax_r (Rabs det1) (Rmax (Rabs det2) (Rabs det3))). pose proof (Rmax_l (Rabs det2) (Rabs det3)). pose proof (Rmax_r (Rabs det2) (Rabs det3)). fold mx in H, H0.
      pose proof (Rabs_pos det1). pose proof (Rabs_pos det2). pose proof (Rabs_pos det3). destruct (Rle_lt_dec mx 0) as [Z|Z]; [|exact Z]. exfalso.
      assert (A1 : det1 = 0) by (apply Rabs_eq_0; lra). assert (A2 : det2 = 0) by (apply Rabs_eq_0; lra). assert (A3 : det3 = 0) by (apply Rabs_eq_0; lra). rewrite D1 in A1. rewrite D2 in A2. rewrite D3 in A3. unfold dot in Uw. nra. }
    assert (NZ' : forall d, Rabs d = mx -> d <> 0) by (intros d Hd Z; rewrite Z, Rabs_R0 in Hd; lra).
    destruct (Req_EM_T (Rabs det1) mx) as [Z|Z1]; [|destruct (Req_EM_T (Rabs det2) mx) as [Z|Z2]; [|assert (Z : Rabs det3 = mx)]].
    - pose proof (NZ' _ Z). rewrite !pdiv_some by assumption. cbn [obind]. rewrite rx, ry. f_equal. apply f_equal2.
      + replace (vy G * (X * vx F + Y * vx G) - vx G * (X * vy F + Y * vy G)) with (X * det1) by (unfold det1; ring). field. assumption.
      + replace (- vy F * (X * vx F + Y * vx G) + vx F * (X * vy F + Y * vy G)) with (Y * det1) by (unfold det1; ring). field. assumption.
    - pose proof (NZ' _ Z). rewrite !pdiv_some by assumption. cbn [obind]. rewrite rx, rz. f_equal. apply f_equal2.
      + replace (vz G * (X * vx F + Y * vx G) - vx G * (X * vz F + Y * vz G)) with (X * det2) by (unfold det2; ring). field. assumption.
      + replace (- vz F * (X * vx F + Y * vx G) + vx F * (X * vz F + Y * vz G)) with (Y * det2) by (unfold det2; ring). field. assumption.
    - unfold mx, Rmax in *. destruct (Rle_dec (Rabs det2) (Rabs det3)); destruct (Rle_dec (Rabs det1) _); congruence.
    - pose proof (NZ' _ Z). rewrite !pdiv_some by assumption. cbn [obind]. rewrite ry, rz. f_equal. apply f_equal2.
      + replace (vz G * (X * vy F + Y * vy G) - vy G * (X * vz F + Y * vz G)) with (X * det3) by (unfold det3; ring). field. assumption.
      + replace (- vz F * (X * vy F + Y * vy G) + vy F * (X * vz F + Y * vz G)) with (Y * det3) by (unfold det3; ring). field. assumption. }
  rewrite E. cbn [obind]. rewrite !pdiv_some by lra. cbn [obind]. eexists. split; [reflexivity|].
  assert (XY : X * X + Y * Y = norm r * norm r). { rewrite norm_sq. rewrite Rp at 1. rewrite dot_add_l, !dot_scal_l, (dot_comm F), (dot_comm G). reflexivity. }
  assert (U : X / norm r * (X / norm r) + Y / norm r * (Y / norm r) = 1) by (replace (X / norm r * (X / norm r) + Y / norm r * (Y / norm r)) with ((X * X + Y * Y) / (norm r * norm r)) by (field; lra); rewrite XY; field; lra).
  split.
  - unfold osc_code. cbn [eq_p eq_f eq_g eq_h eq_k eq_L]. fold F G. change (ang_mom (r, v)) with h. cbn [fst]. split; [|split; [|split]].
    + rewrite <- SP. rewrite norm_sq. unfold sma. f_equal. field. split; [exact NE|lra].
    + change (ecc_vec mu (r, v)) with EV. apply in_plane; [exact O|]. rewrite FW. unfold w. rewrite dot_scal_r. replace (dot EV h) with 0; [ring|]. unfold EV, ecc_vec, h, ang_mom. cbn [fst snd]. rewrite dot_sub_l, !dot_scal_l. unfold dot, cross; cbn [vx vy vz]; ring.
    + rewrite FW. exact hw.
    + rewrite cos_atan2, sin_atan2 by lra. rewrite U, sqrt_1. rewrite Rp at 1. apply vec_eq; unfold vadd, vscal; cbn [vx vy vz]; field; lra.
  - cbn [eq_L]. apply atan2_range. 
Qed.
Lemma ic_eq_ic mu b s q : eq_regular mu b s -> ic2eq s mu b = Some q -> eq2ic q mu b = Some s.
Proof.
  intros Rg E. destruct (ic2eq_ok mu b s Rg) as [q' [E' [O _]]]. rewrite E in E'. injection E' as <-. destruct (osc_eq_state mu b s q (proj1 Rg) O) as [Q S].
  rewrite (eq2ic_ok mu b q (proj1 (proj1 Rg)) S), <- Q. reflexivity.
Qed.
Lemma eq_valid_sound q : eq_valid q -> eq_sound q. Proof. intros [A [_ [B _]]]. split; assumption. Qed.
Lemma eq_state_regular mu b q : 0 < mu -> eq_valid q -> eq_regular mu b (eq_state mu b q).
Proof.
  intros M Va. pose proof (eq_valid_sound q Va) as S. pose proof S as [P D]. pose proof (eq_ortho b (eq_h q) (eq_k q)) as O. split; [|split].
  - apply kst_regular; assumption.
  - rewrite (eq_state_energy mu b q M S). destruct Va as [_ [NE _]]. intros Z. apply Rmult_integral in Z. destruct Z as [Z|Z]; [|lra].
    assert (0 < mu / (2 * eq_p q)) by (apply Rdiv_lt_0_compat; lra). lra.
  - unfold eq_state. rewrite (kst_h mu (eq_p q) (eq_f q) (eq_g q) (eq_L q) _ _ M P D). pose proof (sqrt_lt_R0 (mu * eq_p q) ltac:(apply Rmult_lt_0_compat; assumption)) as SP.
    rewrite norm_scal, (norm_1 _ (ortho_k _ _ O)) by lra. destruct (w_hk b (eq_h q) (eq_k q)) as [Z _]. unfold vscal; cbn [vz]. set (w := vz (cross _ _)) in *.
    assert (T : 0 < 1 + eqI b * w) by (rewrite Z; apply Rdiv_lt_0_compat; [lra|apply den_pos]). unfold eqI in T. destruct b; intros Q; nra.
Qed.
Lemma eq_ic_eq mu b q s : 0 < mu -> eq_valid q -> eq2ic q mu b = Some s -> ic2eq s mu b = Some q.
Proof.
  intros M Va E. pose proof (eq_valid_sound q Va) as S. rewrite (eq2ic_ok mu b q M S) in E. injection E as <-. pose proof (eq_state_regular mu b q M Va) as Rg.
  destruct (ic2eq_ok mu b _ Rg) as [q' [E' [O B]]]. rewrite E'. f_equal. apply (osc_eq_unique mu b (eq_state mu b q)); [apply Rg|exact O|apply eq_state_osc; assumption|exact B|apply Va].
Qed.
