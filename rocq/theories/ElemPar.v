(** * Classical elements: proofs *)
From Coq Require Import Reals Lra Psatz.
From Coquelicot Require Import Rcomplements.
From Verif Require Import Outcome RealLib PartialReal Vec3 TwoBodySpec FlowMain ElemModel ElemSpec ElemProofs.
Open Scope R_scope. Open Scope partial_scope.

(** ** quadrants *)
Definition quadr (b c : R) : R := if Rlt_dec b 0 then 2 * PI - acos c else acos c.
Lemma sc1 t : sin t * sin t + cos t * cos t = 1. Proof. pose proof (sin2_cos2 t) as H. unfold Rsqr in H. exact H. Qed.
Lemma unit_bound c s : c * c + s * s = 1 -> -1 <= c <= 1. Proof. intros H. split; nra. Qed.
Lemma sqrt_abs_sin c s : c * c + s * s = 1 -> sqrt (1 - Rsqr c) = Rabs s.
Proof. intros H. rewrite <- sqrt_Rsqr_abs. f_equal. unfold Rsqr. lra. Qed.
Lemma quadr_ok b c s : c * c + s * s = 1 -> (b < 0 <-> s < 0) -> cos (quadr b c) = c /\ sin (quadr b c) = s /\ angle_ok (quadr b c).
Proof.
  intros H I. pose proof (unit_bound _ _ H) as B. pose proof (acos_bound c) as A. pose proof PI_RGT_0. unfold quadr, angle_ok. destruct (Rlt_dec b 0) as [N|N].
  - apply I in N. rewrite <- (cos_neg (2 * PI - acos c)), <- (Ropp_involutive (sin (2 * PI - acos c))), <- sin_neg. replace (- (2 * PI - acos c)) with (acos c + 2 * IZR (-1) * PI) by (simpl; lra).
    rewrite period_Z_cos, period_Z_sin, cos_acos, sin_acos, (sqrt_abs_sin c s H), Rabs_left by lra. split; [reflexivity|]. split; [lra|]. split; [lra|].
    destruct (Rle_lt_or_eq_dec 0 (acos c)) as [K|K]; [lra|lra|]. exfalso. assert (c = 1) by (rewrite <- (cos_acos c B), <- K; apply cos_0). nra.
  - assert (0 <= s) by (destruct (Rlt_dec s 0) as [K|K]; [exfalso; apply N, I, K|lra]). rewrite cos_acos, sin_acos, (sqrt_abs_sin c s H), Rabs_pos_eq by lra. repeat split; lra.
Qed.
Lemma angle_unique a b : angle_ok a -> angle_ok b -> cos a = cos b -> sin a = sin b -> a = b.
Proof.
  intros A B C S. unfold angle_ok in *. pose proof PI_RGT_0.
  assert (D : cos (a - b) = 1) by (rewrite cos_minus, C, S; pose proof (sc1 b); lra).
  assert (DS : sin (a - b) = 0) by (rewrite sin_minus, C, S; ring).
  destruct (Rtotal_order a b) as [L|[L|L]]; [|exact L|]; exfalso.
  - assert (sin ((b - a) / 2) = 0). { assert (E : cos (b - a) = 1 - 2 * sin ((b - a) / 2) * sin ((b - a) / 2)) by (rewrite <- cos_2a_sin; f_equal; lra). rewrite <- (cos_neg (b - a)) in E. replace (- (b - a)) with (a - b) in E by ring. nra. }
    assert (0 < sin ((b - a) / 2)) by (apply sin_gt_0; lra). lra.
  - assert (sin ((a - b) / 2) = 0). { assert (E : cos (a - b) = 1 - 2 * sin ((a - b) / 2) * sin ((a - b) / 2)) by (rewrite <- cos_2a_sin; f_equal; lra). nra. }
    assert (0 < sin ((a - b) / 2)) by (apply sin_gt_0; lra). lra.
Qed.
Lemma cos_inj_pi a b : 0 <= a <= PI -> 0 <= b <= PI -> cos a = cos b -> a = b.
Proof. intros A B C. rewrite <- (acos_cos a A), <- (acos_cos b B), C. reflexivity. Qed.

(** ** the perifocal frame *)
Lemma dot_rotz t u v : dot (rotz t u) (rotz t v) = dot u v.
Proof. unfold dot, rotz; cbn [vx vy vz]. pose proof (sc1 t) as H. replace (cos t * cos t) with (1 - sin t * sin t) in * by lra. transitivity ((sin t * sin t + cos t * cos t) * (vx u * vx v + vy u * vy v) + vz u * vz v); [ring|]. rewrite sc1. ring. Qed.
Lemma dot_rotx t u v : dot (rotx t u) (rotx t v) = dot u v.
Proof. unfold dot, rotx; cbn [vx vy vz]. transitivity ((sin t * sin t + cos t * cos t) * (vy u * vy v + vz u * vz v) + vx u * vx v); [ring|]. rewrite sc1. ring. Qed.
Lemma cross_rotz t u v : cross (rotz t u) (rotz t v) = rotz t (cross u v).
Proof.
  apply vec_eq; unfold cross, rotz; cbn [vx vy vz]; try ring. transitivity ((sin t * sin t + cos t * cos t) * (vx u * vy v - vy u * vx v)); [ring|]. rewrite sc1. ring.
Qed.
Lemma cross_rotx t u v : cross (rotx t u) (rotx t v) = rotx t (cross u v).
Proof.
  apply vec_eq; unfold cross, rotx; cbn [vx vy vz]; try ring. transitivity ((sin t * sin t + cos t * cos t) * (vy u * vz v - vz u * vy v)); [ring|]. rewrite sc1. ring.
Qed.
Lemma rotz_inj t u v : rotz t u = rotz t v -> u = v.
Proof.
  intros H. assert (D : dot (vsub u v) (vsub u v) = 0). { rewrite <- (dot_rotz t). replace (rotz t (vsub u v)) with (vsub (rotz t u) (rotz t v)) by (apply vec_eq; unfold rotz, vsub; cbn [vx vy vz]; ring). rewrite H. unfold dot, vsub; cbn [vx vy vz]; ring. }
  apply dot_zero in D. apply vec_eq; [apply (f_equal vx) in D|apply (f_equal vy) in D|apply (f_equal vz) in D]; unfold vsub, vzero in D; cbn [vx vy vz] in *; lra.
Qed.
Lemma rotx_inj t u v : rotx t u = rotx t v -> u = v.
Proof.
  intros H. assert (D : dot (vsub u v) (vsub u v) = 0). { rewrite <- (dot_rotx t). replace (rotx t (vsub u v)) with (vsub (rotx t u) (rotx t v)) by (apply vec_eq; unfold rotx, vsub; cbn [vx vy vz]; ring). rewrite H. unfold dot, vsub; cbn [vx vy vz]; ring. }
  apply dot_zero in D. apply vec_eq; [apply (f_equal vx) in D|apply (f_equal vy) in D|apply (f_equal vz) in D]; unfold vsub, vzero in D; cbn [vx vy vz] in *; lra.
Qed.
Lemma peri_dot el u v : dot (perifocal el u) (perifocal el v) = dot u v. Proof. unfold perifocal. rewrite dot_rotz, dot_rotx, dot_rotz. reflexivity. Qed.
Lemma peri_cross el u v : cross (perifocal el u) (perifocal el v) = perifocal el (cross u v). Proof. unfold perifocal. rewrite cross_rotz, cross_rotx, cross_rotz. reflexivity. Qed.
Lemma peri_inj el u v : perifocal el u = perifocal el v -> u = v. Proof. intros H. apply rotz_inj, rotx_inj, rotz_inj in H. exact H. Qed.
Lemma peri_lin el a b : perifocal el (V a b 0) = vadd (vscal a (perifocal el ex)) (vscal b (perifocal el ey)).
Proof. apply vec_eq; unfold perifocal, rotz, rotx, vadd, vscal, ex, ey; cbn [vx vy vz]; ring. Qed.
Lemma peri_ortho el : ortho (perifocal el ex) (perifocal el ey).
Proof. unfold ortho. rewrite !peri_dot. unfold dot, ex, ey; cbn [vx vy vz]. lra. Qed.
Lemma peri_z el : cross (perifocal el ex) (perifocal el ey) = perifocal el ez.
Proof. rewrite peri_cross. f_equal. apply vec_eq; unfold cross, ex, ey, ez; cbn [vx vy vz]; ring. Qed.
Definition knode (el : elem) : vec := rotz (el_W el) ex.
Lemma peri_ez el : perifocal el ez = V (sin (el_W el) * sin (el_i el)) (- cos (el_W el) * sin (el_i el)) (cos (el_i el)).
Proof. apply vec_eq; unfold perifocal, rotz, rotx, ez; cbn [vx vy vz]; ring. Qed.

(** ** osculating elements and the conic *)
Definition el_p (el : elem) : R := el_a el * (1 - el_e el * el_e el).
Definition el_state (mu : R) (el : elem) : state := kst mu (el_p el) (el_e el) 0 (el_f el) (perifocal el ex) (perifocal el ey).
(** what the formulas need; the eccentricity may be zero and the angles are free *)
Definition sound_el (el : elem) : Prop := 0 < el_a el * (1 - el_e el) /\ 0 <= el_e el /\ 0 < 1 + el_e el * cos (el_f el).
Lemma valid_sound el : valid el -> sound_el el. Proof. intros [A [E [_ [_ [_ [_ D]]]]]]. split; [exact A|]. split; [lra|exact D]. Qed.
Lemma sound_p el : sound_el el -> 0 < el_p el.
Proof. intros [A [E _]]. unfold el_p. replace (el_a el * (1 - el_e el * el_e el)) with (el_a el * (1 - el_e el) * (1 + el_e el)) by ring. apply Rmult_lt_0_compat; lra. Qed.
Lemma sound_D el : sound_el el -> 0 < 1 + el_e el * cos (el_f el) + 0 * sin (el_f el). Proof. intros [_ [_ D]]. lra. Qed.
Lemma el_state_regular mu el : 0 < mu -> sound_el el -> regular mu (el_state mu el).
Proof. intros M S. apply kst_regular; [exact M|apply sound_p, S|apply peri_ortho|apply sound_D, S]. Qed.
Lemma el_state_energy mu el : 0 < mu -> sound_el el -> energy mu (el_state mu el) = - mu / (2 * el_a el).
Proof.
  intros M S. unfold el_state. rewrite (kst_energy mu _ _ 0 (el_f el) _ _ M (sound_p _ S) (peri_ortho el) (sound_D _ S)). pose proof (sound_p _ S) as P. destruct S as [A [E D]]. unfold el_p in *.
  assert (el_a el <> 0) by (intros Z; rewrite Z in A; lra). assert (1 - el_e el * el_e el <> 0) by (intros Z; rewrite Z in P; lra). field. split; assumption.
Qed.
Lemma el_state_sma mu el : 0 < mu -> sound_el el -> sma mu (el_state mu el) = el_a el.
Proof. intros M S. unfold sma. rewrite (el_state_energy mu el M S). destruct S as [A _]. assert (el_a el <> 0) by (intros Z; rewrite Z in A; lra). field. split; [assumption|lra]. Qed.
Lemma el_state_h mu el : 0 < mu -> sound_el el -> ang_mom (el_state mu el) = vscal (sqrt (mu * el_p el)) (perifocal el ez).
Proof. intros M S. unfold el_state. rewrite <- peri_z. apply kst_h; [exact M|apply sound_p, S|apply sound_D, S]. Qed.
Lemma el_state_ecc mu el : 0 < mu -> sound_el el -> ecc_vec mu (el_state mu el) = vscal (el_e el) (perifocal el ex).
Proof. intros M S. unfold el_state. rewrite kst_ecc; [vring|exact M|apply sound_p, S|apply peri_ortho|apply sound_D, S]. Qed.
Lemma el_state_osc mu el : 0 < mu -> sound_el el -> osculating mu (el_state mu el) el.
Proof.
  intros M S. unfold osculating. pose proof (sound_p _ S) as P. split; [apply S|]. split; [apply el_state_sma; assumption|]. split; [apply el_state_ecc; assumption|]. split.
  - rewrite (el_state_h mu el M S). rewrite norm_scal by apply sqrt_pos. rewrite (norm_1 (perifocal el ez)); [f_equal; ring|]. rewrite peri_dot. unfold dot, ez; cbn [vx vy vz]; ring.
  - unfold el_state at 2. rewrite (kst_norm mu _ _ _ _ _ _ P (peri_ortho el) (sound_D _ S)). unfold el_state, kst. cbn [fst]. rewrite peri_lin. reflexivity.
Qed.
Lemma osc_state mu s el : regular mu s -> energy mu s <> 0 -> osculating mu s el -> s = el_state mu el /\ sound_el el.
Proof.
  intros Rg NE [E [A [EV [H Rr]]]]. pose proof (sma_p mu s Rg NE) as P. rewrite EV, A, dot_scal_l, dot_scal_r, peri_dot in P. replace (dot ex ex) with 1 in P by (unfold dot, ex; cbn [vx vy vz]; ring).
  destruct (regular_r _ _ Rg) as [M [N NH]]. pose proof (dot_pos _ NH) as PD. change (cross (fst s) (snd s)) with (ang_mom s) in PD.
  assert (PP : 0 < dot (ang_mom s) (ang_mom s) / mu) by (apply Rdiv_lt_0_compat; assumption).
  destruct (kst_of mu s (el_p el) (el_e el) 0 (el_f el) (perifocal el ex) (perifocal el ey) Rg (peri_ortho el)) as [K D].
  - rewrite <- P. unfold el_p. ring.
  - rewrite peri_z. exact H.
  - rewrite EV. vring.
  - rewrite <- peri_lin. exact Rr.
  - split; [exact K|]. split; [|split; [exact E|lra]]. replace (el_a el * (1 - el_e el * (el_e el * 1))) with (el_a el * (1 - el_e el) * (1 + el_e el)) in P by ring. rewrite <- P in PP.
    apply Rmult_lt_reg_r with (1 + el_e el); lra.
Qed.
Lemma osc_unique mu s el el' : regular mu s -> osculating mu s el -> osculating mu s el' -> valid el -> valid el' -> el = el'.
Proof.
  intros Rg O O' V1 V2. destruct (regular_r _ _ Rg) as [M [N NH]]. change (cross (fst s) (snd s)) with (ang_mom s) in NH. pose proof (norm_pos _ N) as PN. pose proof (norm_pos _ NH) as PH.
  destruct O as [E0 [A [EV [H Rr]]]]. destruct O' as [E0' [A' [EV' [H' Rr']]]]. destruct V1 as [_ [PE [Pi [BW [Bw [Bf _]]]]]]. destruct V2 as [_ [PE' [Pi' [BW' [Bw' [Bf' _]]]]]].
  assert (UX : forall x, norm (perifocal x ex) = 1) by (intros x; apply norm_1; rewrite peri_dot; unfold dot, ex; cbn [vx vy vz]; ring).
  assert (Ee : el_e el = el_e el'). { pose proof (f_equal norm EV) as Q. pose proof (f_equal norm EV') as Q'. rewrite norm_scal, UX in Q, Q' by assumption. lra. }
  assert (EZ : perifocal el ez = perifocal el' ez).
  { assert (Q : vscal (/ norm (ang_mom s)) (ang_mom s) = perifocal el ez) by (rewrite H at 2; rewrite vscal_vscal, Rinv_l by lra; apply vscal_1).
    assert (Q' : vscal (/ norm (ang_mom s)) (ang_mom s) = perifocal el' ez) by (rewrite H' at 2; rewrite vscal_vscal, Rinv_l by lra; apply vscal_1). rewrite <- Q, <- Q'. reflexivity. }
  rewrite !peri_ez in EZ. injection EZ as Z1 Z2 Z3. assert (Ei : el_i el = el_i el') by (apply cos_inj_pi; lra). rewrite <- Ei in *.
  assert (SI : 0 < sin (el_i el)) by (apply sin_gt_0; lra).
  assert (EW : el_W el = el_W el') by (apply angle_unique; [assumption|assumption| |]; apply Rmult_eq_reg_r with (sin (el_i el)); lra).
  assert (EP : perifocal el ex = perifocal el' ex).
  { assert (Q : vscal (/ el_e el) (ecc_vec mu s) = perifocal el ex) by (rewrite EV; rewrite vscal_vscal, Rinv_l by lra; apply vscal_1).
    assert (Q' : vscal (/ el_e el) (ecc_vec mu s) = perifocal el' ex) by (rewrite EV', Ee; rewrite vscal_vscal, Rinv_l by lra; apply vscal_1). rewrite <- Q, <- Q'. reflexivity. }
  assert (Ew : el_w el = el_w el').
  { unfold perifocal in EP. rewrite <- Ei, <- EW in EP. apply rotz_inj, rotx_inj in EP. unfold rotz, ex in EP; cbn [vx vy vz] in EP. injection EP as Z4 Z5. apply angle_unique; [assumption|assumption|lra|lra]. }
  assert (PE2 : forall u, perifocal el u = perifocal el' u) by (intros u; unfold perifocal; rewrite Ei, EW, Ew; reflexivity).
  assert (Ef : el_f el = el_f el').
  { rewrite <- PE2 in Rr'. assert (Q : perifocal el (V (cos (el_f el)) (sin (el_f el)) 0) = perifocal el (V (cos (el_f el')) (sin (el_f el')) 0)).
    { transitivity (vscal (/ norm (fst s)) (fst s)); [rewrite Rr at 2|rewrite Rr' at 2]; rewrite vscal_vscal, Rinv_l by lra; [symmetry|]; apply vscal_1. }
    apply peri_inj in Q. injection Q as Z6 Z7. apply angle_unique; assumption. }
  destruct el, el'. cbn in *. congruence.
Qed.

(** ** par2ic *)
Lemma mu_h mu p : 0 < mu -> 0 < p -> mu / sqrt (p * mu) = sqrt (mu / p).
Proof.
  intros M P. assert (PS : 0 < sqrt (p * mu)) by (apply sqrt_lt_R0, Rmult_lt_0_compat; assumption).
  apply Rmult_eq_reg_r with (sqrt (p * mu)); [|lra]. replace (mu / sqrt (p * mu) * sqrt (p * mu)) with mu by (field; lra). rewrite <- sqrt_mult; [|left; apply Rdiv_lt_0_compat; assumption|nra].
  replace (mu / p * (p * mu)) with (mu * mu) by (field; lra). symmetry. apply sqrt_square. lra.
Qed.
Lemma par2ic_ok mu el : 0 < mu -> sound_el el -> par2ic el mu = Ret (Some (el_state mu el)).
Proof.
  intros M S. pose proof (sound_p _ S) as P. destruct S as [A [E C]]. destruct el as [a e i W w f]. unfold el_state, el_p in *. cbn [el_a el_e el_i el_W el_w el_f] in *. unfold par2ic.
  destruct (Rlt_dec (a * (1 - e)) 0) as [Z|_]; [lra|].
  replace (if Rlt_dec 1 e then if Rlt_dec (cos f) (-1 / e) then true else false else false) with false.
  2:{ destruct (Rlt_dec 1 e) as [Z|_]; [|reflexivity]. destruct (Rlt_dec (cos f) (-1 / e)) as [Y|_]; [|reflexivity].
      exfalso. apply Rmult_lt_compat_l with (r := e) in Y; [|lra]. replace (e * (-1 / e)) with (-1) in Y by (field; lra). lra. }
  apply (f_equal (@Ret (option state))). set (p := a * (1 - e * e)) in *. assert (PS : 0 < sqrt (p * mu)) by (apply sqrt_lt_R0, Rmult_lt_0_compat; assumption).
  rewrite pdiv_some by lra. cbn [obind]. rewrite psqrt_some by nra. cbn [obind]. rewrite !pdiv_some by lra. cbn [obind].
  replace (- mu / sqrt (p * mu)) with (- (mu / sqrt (p * mu))) by (field; lra). rewrite (mu_h mu p M P).
  unfold kst, perifocal. cbn [el_a el_e el_i el_W el_w el_f]. replace (1 + e * cos f + 0 * sin f) with (1 + e * cos f) by ring. set (rr := p / (1 + e * cos f)). set (q := sqrt (mu / p)).
  apply (f_equal (@Some state)). apply f_equal2; apply vec_eq; unfold rotz, rotx, vadd, vscal, ex, ey; cbn [vx vy vz]; ring.
Qed.

(** ** ic2par *)
Section IC2PAR.
Variables (mu : R) (s : state).
Hypothesis NS : nonsingular mu s.
Let Rg : regular mu s := proj1 NS.
Let h := ang_mom s.
Let n0 := cross ez h.
Let EV := ecc_vec mu s.
Let W := vscal (/ norm h) h.
Let n := vscal (/ norm n0) n0.
Let m := cross W n.
Let eh := vscal (/ norm EV) EV.
Let M : 0 < mu. Proof. apply Rg. Qed.
Let Nr : fst s <> vzero. Proof. apply (regular_r _ _ Rg). Qed.
Let PR : 0 < norm (fst s) := norm_pos _ Nr.
Let Nh : h <> vzero. Proof. apply Rg. Qed.
Let PH : 0 < norm h := norm_pos _ Nh.
Let Nn : n0 <> vzero. Proof. apply NS. Qed.
Let PN : 0 < norm n0 := norm_pos _ Nn.
Let Ne : EV <> vzero. Proof. apply NS. Qed.
Let PE : 0 < norm EV := norm_pos _ Ne.
Let nW : ortho n W.
Proof.
  split; [apply unit_dir_1, Nn|]. split; [apply unit_dir_1, Nh|]. unfold n, W. rewrite dot_scal_l, dot_scal_r. unfold n0. rewrite dot_comm, cross_perp_r. ring.
Qed.
Let Wn : ortho W n. Proof. destruct nW as [A [B C]]. split; [exact B|]. split; [exact A|]. rewrite dot_comm. exact C. Qed.
Let nm : ortho n m.
Proof. destruct nW as [A [B C]]. split; [exact A|]. split; [apply ortho_k, Wn|apply cross_perp_r]. Qed.
Let nmW : cross n m = W. Proof. unfold m. rewrite triple. destruct nW as [A [B C]]. rewrite A, C. vring. Qed.
Let eW : dot eh W = 0.
Proof.
  unfold eh, W. rewrite dot_scal_l, dot_scal_r. replace (dot EV h) with 0; [ring|]. unfold EV, ecc_vec, h. rewrite dot_sub_l, !dot_scal_l. unfold ang_mom, dot, cross; cbn [vx vy vz]; ring.
Qed.
Let e_dec : eh = vadd (vscal (dot eh n) n) (vscal (dot eh m) m).
Proof. apply in_plane; [exact nm|]. rewrite nmW. exact eW. Qed.
Let e_unit : dot eh n * dot eh n + dot eh m * dot eh m = 1.
Proof.
  assert (A : dot eh eh = 1) by (apply unit_dir_1, Ne). rewrite e_dec in A at 1. rewrite dot_add_l, !dot_scal_l, (dot_comm n), (dot_comm m) in A. exact A.
Qed.
Let nz : vz n = 0. Proof. unfold n, n0, vscal, cross, ez; cbn [vx vy vz]; ring. Qed.
Let hN : norm n0 = norm h * sqrt (1 - vz W * vz W).
Proof.
  assert (Q : vz W * norm h = vz h) by (unfold W, vscal; cbn [vz]; field; lra). assert (B : norm n0 * norm n0 = norm h * norm h * (1 - vz W * vz W)).
  { replace (norm h * norm h * (1 - vz W * vz W)) with (norm h * norm h - (vz W * norm h) * (vz W * norm h)) by ring. rewrite Q, !norm_sq. unfold n0, dot, cross, ez; cbn [vx vy vz]; ring. }
  assert (C : 0 < 1 - vz W * vz W). { destruct (Rle_lt_dec (1 - vz W * vz W) 0) as [Z|Z]; [|exact Z]. exfalso. assert (0 < norm n0 * norm n0) by nra. assert (0 < norm h * norm h) by nra. nra. }
  apply Rsqr_inj; [lra|apply Rmult_le_pos; [lra|apply sqrt_pos]|]. unfold Rsqr. rewrite B. pose proof (sqrt_sqrt (1 - vz W * vz W) ltac:(lra)) as D. rewrite <- D at 1. ring.
Qed.
Let si : R := sqrt (1 - vz W * vz W).
Let Psi : 0 < si. Proof. unfold si. assert (A := hN). assert (0 <= sqrt (1 - vz W * vz W)) by apply sqrt_pos. destruct (Rle_lt_or_eq_dec _ _ H) as [Z|Z]; [exact Z|]. exfalso. rewrite <- Z in A. lra. Qed.
Let Wc : W = V (vy n * si) (- vx n * si) (vz W).
Proof.
  assert (A : forall x, x / norm n0 * si = x / norm h). { intros x. rewrite hN. fold si. field. split; lra. }
  assert (nx : vx n = - vy h / norm n0) by (unfold n, vscal; cbn [vx]; unfold Rdiv; rewrite Rmult_comm; f_equal; unfold n0, cross, ez; cbn [vx vy vz]; ring).
  assert (ny : vy n = vx h / norm n0) by (unfold n, vscal; cbn [vy]; unfold Rdiv; rewrite Rmult_comm; f_equal; unfold n0, cross, ez; cbn [vx vy vz]; ring).
  apply vec_eq; cbn [vx vy vz]; [rewrite ny, A|rewrite nx|reflexivity].
  - unfold W, vscal; cbn [vx]. field. lra.
  - replace (- (- vy h / norm n0) * si) with (vy h / norm n0 * si) by (field; lra). rewrite A. unfold W, vscal; cbn [vy]. field. lra.
Qed.
Let Wz_b : -1 <= vz W <= 1. Proof. assert (0 < 1 - vz W * vz W). { destruct (Rle_lt_dec (1 - vz W * vz W) 0) as [Z|Z]; [|exact Z]. exfalso. pose proof Psi as P. unfold si in P. rewrite sqrt_neg_0 in P by exact Z. lra. } split; nra. Qed.
Let mz : vz m = si.
Proof.
  assert (A : vx n * vx n + vy n * vy n = 1) by (destruct nW as [A _]; unfold dot in A; rewrite nz in A; lra).
  assert (X : vx W = vy n * si) by (rewrite Wc; reflexivity). assert (Y : vy W = - vx n * si) by (rewrite Wc; reflexivity).
  unfold m, cross; cbn [vz]. rewrite X, Y. transitivity (si * (vx n * vx n + vy n * vy n)); [ring|]. rewrite A. ring.
Qed.
Let eWz : vz eh = dot eh m * si. Proof. rewrite e_dec at 1. unfold vadd, vscal; cbn [vz]. rewrite nz, mz. ring. Qed.
Let inc := acos (vz W).
Let OM := quadr (vy n) (vx n).
Let OP := quadr (vz EV) (dot eh n).
Let cinc : cos inc = vz W. Proof. apply cos_acos, Wz_b. Qed.
Let sinc : sin inc = si. Proof. unfold inc. rewrite sin_acos by apply Wz_b. reflexivity. Qed.
Let inc_r : 0 < inc < PI.
Proof. pose proof (acos_bound (vz W)). fold inc in H. pose proof sinc as A. pose proof Psi. split; [destruct (Rle_lt_or_eq_dec 0 inc) as [Z|Z]; [lra|lra|rewrite <- Z, sin_0 in A; lra]|destruct (Rle_lt_or_eq_dec inc PI) as [Z|Z]; [lra|lra|rewrite Z, sin_PI in A; lra]]. Qed.
Let OMok : cos OM = vx n /\ sin OM = vy n /\ angle_ok OM.
Proof. apply quadr_ok; [|tauto]. destruct nW as [A _]. unfold dot in A. rewrite nz in A. lra. Qed.
Let OPok : cos OP = dot eh n /\ sin OP = dot eh m /\ angle_ok OP.
Proof.
  apply quadr_ok; [exact e_unit|]. assert (Q : vz EV = norm EV * (dot eh m * si)) by (rewrite <- eWz; unfold eh, vscal; cbn [vz]; field; lra). rewrite Q.
  assert (0 < norm EV * si) by (apply Rmult_lt_0_compat; [exact PE|exact Psi]). split; intros Z; nra.
Qed.
Variable el : elem.
Hypothesis Ei : el_i el = inc. Hypothesis EW : el_W el = OM. Hypothesis Ew : el_w el = OP.
Lemma fr_z : perifocal el ez = W.
Proof. rewrite peri_ez, EW, Ei, cinc, sinc. destruct OMok as [A [B _]]. rewrite A, B. symmetry. exact Wc. Qed.
Lemma fr_x : perifocal el ex = eh.
Proof.
  transitivity (vadd (vscal (cos OP) n) (vscal (sin OP) m)). 2:{ destruct OPok as [A [B _]]. rewrite A, B. symmetry. exact e_dec. }
  destruct OMok as [A [B _]]. apply vec_eq; unfold perifocal, rotz, rotx, ex, vadd, vscal; cbn [vx vy vz]; rewrite ?Ew, ?Ei, ?EW, ?A, ?B, ?cinc, ?sinc, ?mz, ?nz; [| |ring].
  - unfold m, cross; cbn [vx vy vz]. rewrite nz. ring.
  - unfold m, cross; cbn [vx vy vz]. rewrite nz. ring.
Qed.
Let Q := cross W eh.
Lemma fr_y : perifocal el ey = Q.
Proof.
  unfold Q. rewrite <- fr_z, <- fr_x, peri_cross. f_equal. apply vec_eq; unfold cross, ex, ey, ez; cbn [vx vy vz]; ring.
Qed.
Let eQ : ortho eh Q. Proof. rewrite <- fr_x, <- fr_y. apply peri_ortho. Qed.
Let u := vscal (/ norm (fst s)) (fst s).
Let u_dec : u = vadd (vscal (dot u eh) eh) (vscal (dot u Q) Q).
Proof.
  apply in_plane; [exact eQ|]. rewrite <- fr_x, <- fr_y, peri_z, fr_z. unfold u, W. rewrite dot_scal_l, dot_scal_r. unfold h, ang_mom. rewrite cross_perp_l. ring.
Qed.
Let u_unit : dot u eh * dot u eh + dot u Q * dot u Q = 1.
Proof.
  assert (A : dot u u = 1) by (apply unit_dir_1, Nr). rewrite u_dec in A at 1. rewrite dot_add_l, !dot_scal_l, (dot_comm eh), (dot_comm Q) in A. exact A.
Qed.
Let TA := quadr (dot (fst s) (snd s)) (dot u eh).
Let rQ : dot u Q = norm h * dot (fst s) (snd s) / (mu * norm EV * norm (fst s)).
Proof.
  unfold u, Q, W, eh. rewrite dot_scal_l. replace (dot (fst s) (cross (vscal (/ norm h) h) (vscal (/ norm EV) EV))) with (/ norm h * / norm EV * dot (fst s) (cross h EV)) by (unfold dot, cross, vscal; cbn [vx vy vz]; ring).
  assert (A : dot (fst s) (cross h EV) = norm h * norm h * dot (fst s) (snd s) / mu).
  { rewrite norm_sq. unfold EV, ecc_vec. fold h. replace (dot (fst s) (cross h (vsub (vscal (/ mu) (cross (snd s) h)) (vscal (/ norm (fst s)) (fst s))))) with (/ mu * (dot (snd s) (fst s) * dot h h - dot h (snd s) * dot (fst s) h)) by (unfold dot, cross, vscal, vsub; cbn [vx vy vz]; ring).
    replace (dot h (snd s)) with 0 by (unfold h, ang_mom, dot, cross; cbn [vx vy vz]; ring). rewrite (dot_comm (snd s)). field. lra. }
  rewrite A. field. repeat split; lra.
Qed.
Lemma TAok : cos TA = dot u eh /\ sin TA = dot u Q /\ angle_ok TA.
Proof.
  apply quadr_ok; [exact u_unit|]. rewrite rQ. assert (K : 0 < norm h / (mu * norm EV * norm (fst s))) by (apply Rdiv_lt_0_compat; [exact PH|repeat apply Rmult_lt_0_compat; [exact M|exact PE|exact PR]]).
  replace (norm h * dot (fst s) (snd s) / (mu * norm EV * norm (fst s))) with (norm h / (mu * norm EV * norm (fst s)) * dot (fst s) (snd s)) by (field; repeat split; lra).
  split; intros Z; nra.
Qed.
Hypothesis Ef : el_f el = TA. Hypothesis Ee : el_e el = norm EV. Hypothesis Ea : el_a el = dot h h / mu / (1 - norm EV * norm EV).
Lemma ic2par_osc : osculating mu s el.
Proof.
  split; [rewrite Ee; lra|]. split; [|split; [|split]].
  - rewrite Ea. pose proof NS as [_ [NE _]]. pose proof (sma_p mu s Rg NE) as P. fold EV h in P. rewrite <- norm_sq in P. rewrite <- P. field.
    intros Z. rewrite Z, Rmult_0_r in P. pose proof (dot_pos _ Nh) as D. assert (0 < dot h h / mu) by (apply Rdiv_lt_0_compat; [exact D|exact M]). lra.
  - rewrite fr_x, Ee. apply unit_dir_2, Ne.
  - rewrite fr_z. apply unit_dir_2, Nh.
  - rewrite peri_lin, fr_x, fr_y, Ef. destruct TAok as [A [B _]]. rewrite A, B, <- u_dec. apply unit_dir_2, Nr.
Qed.
Lemma ic2par_ranges : 0 < el_i el < PI /\ angle_ok (el_W el) /\ angle_ok (el_w el) /\ angle_ok (el_f el) /\ 0 < el_e el.
Proof. rewrite Ei, EW, Ew, Ef, Ee. repeat apply conj; try apply inc_r; try apply OMok; try apply OPok; try apply TAok. exact PE. Qed.
End IC2PAR.

Lemma pvdiv_some u k : k <> 0 -> pvdiv u k = Some (vscal (/ k) u).
Proof. intros K. unfold pvdiv. rewrite !pdiv_some by exact K. cbn [obind]. f_equal. apply vec_eq; unfold vscal; cbn [vx vy vz]; field; exact K. Qed.
Lemma ic2par_eq mu s : nonsingular mu s ->
  let h := ang_mom s in let EV := ecc_vec mu s in let n := vscal (/ norm (cross ez h)) (cross ez h) in
  ic2par s mu = Some (El (dot h h / mu / (1 - norm EV * norm EV)) (norm EV) (acos (vz (vscal (/ norm h) h))) (quadr (vy n) (vx n))
    (quadr (vz EV) (dot (vscal (/ norm EV) EV) n)) (quadr (dot (fst s) (snd s)) (dot (vscal (/ norm (fst s)) (fst s)) (vscal (/ norm EV) EV)))).
Proof.
  intros NS h EV n. pose proof NS as [Rg [NE [Ne Nn]]]. destruct (regular_r _ _ Rg) as [M [Nr Nh]].
  pose proof (norm_pos _ Nr) as PR. pose proof (norm_pos _ Ne) as PE. pose proof (norm_pos _ Nn) as PN. change (cross (fst s) (snd s)) with h in Nh. pose proof (norm_pos _ Nh) as PH.
  assert (N1 : 1 - norm EV * norm EV <> 0). { intros Z. pose proof (sma_p mu s Rg NE) as P. fold EV in P. rewrite <- (norm_sq EV), Z, Rmult_0_r in P. pose proof (dot_pos _ Nh) as D. assert (0 < dot h h / mu) by (apply Rdiv_lt_0_compat; assumption). unfold h in *. lra. }
  destruct s as [r v]. unfold ic2par. cbn [fst snd] in *. change (cross r v) with h. rewrite pdiv_some by lra. cbn [obind]. change (V 0 0 1) with ez. change (ang_mom (r, v)) with h in Nn, PN.
  rewrite (pvdiv_some (cross ez h)) by lra. cbn [obind]. rewrite !pvdiv_some by lra. cbn [obind]. change (vsub (vscal (/ mu) (cross v h)) (vscal (/ norm r) r)) with EV. fold EV in PE, Ne.
  rewrite pdiv_some by exact N1. cbn [obind]. rewrite pdiv_some by lra. cbn [obind]. fold n.
  assert (B1 : forall a b, a <> vzero -> b <> vzero -> -1 <= dot (vscal (/ norm a) a) (vscal (/ norm b) b) <= 1).
  { intros a b Na Nb. pose proof (abs_dot (vscal (/ norm a) a) (vscal (/ norm b) b)) as Q. rewrite (norm_1 _ (unit_dir_1 _ Na)), (norm_1 _ (unit_dir_1 _ Nb)) in Q. apply Rabs_le_between. lra. }
  replace (vz h / norm h) with (vz (vscal (/ norm h) h)) by (unfold vscal; cbn [vz]; field; lra). rewrite pacos_some.
  2:{ pose proof (B1 h ez Nh) as Q. assert (E : ez <> vzero) by (intros Z; injection Z; lra). specialize (Q E). rewrite (norm_1 ez) in Q by (unfold dot, ez; cbn [vx vy vz]; ring).
      unfold dot, vscal, ez in Q; cbn [vx vy vz] in Q. unfold vscal; cbn [vz]. lra. }
  cbn [obind]. rewrite pdiv_some by lra. cbn [obind]. replace (dot n EV / norm EV) with (dot (vscal (/ norm EV) EV) n) by (rewrite dot_scal_l, dot_comm; field; lra).
  rewrite pacos_some by (apply B1; assumption). cbn [obind]. rewrite pacos_some.
  2:{ pose proof (unit_dir_1 _ Nn) as Q. fold n in Q. unfold dot in Q. split; nra. }
  cbn [obind]. rewrite pdiv_some by lra. cbn [obind]. rewrite pdiv_some by lra. cbn [obind].
  replace (dot EV r / norm EV / norm r) with (dot (vscal (/ norm r) r) (vscal (/ norm EV) EV)) by (rewrite dot_scal_l, dot_scal_r, (dot_comm r); field; lra).
  rewrite pacos_some by (apply B1; assumption). cbn [obind]. reflexivity.
Qed.
Lemma ic2par_ok mu s : nonsingular mu s -> exists el, ic2par s mu = Some el /\ osculating mu s el /\ valid el.
Proof.
  intros NS. eexists. split; [apply (ic2par_eq mu s NS)|]. match goal with |- osculating _ _ ?e /\ _ => set (el := e) end.
  assert (O : osculating mu s el) by (apply (ic2par_osc mu s NS); reflexivity). split; [exact O|].
  destruct (ic2par_ranges mu s NS el) as [A [B [C [D E]]]]; try reflexivity. destruct NS as [Rg [NE _]]. destruct (osc_state mu s el Rg NE O) as [_ [S1 [S2 S3]]].
  split; [exact S1|]. split; [exact E|]. split; [exact A|]. split; [exact B|]. split; [exact C|]. split; [exact D|exact S3].
Qed.
Lemma el_nonsingular mu el : 0 < mu -> valid el -> nonsingular mu (el_state mu el).
Proof.
  intros M Va. pose proof (valid_sound el Va) as S. split; [apply el_state_regular; assumption|]. destruct Va as [A [E [I _]]]. split; [|split].
  - rewrite (el_state_energy mu el M S). assert (el_a el <> 0) by (intros Z; rewrite Z in A; lra). intros Z. unfold Rdiv in Z. apply Rmult_integral in Z. destruct Z as [Z|Z]; [lra|].
    apply (Rinv_neq_0_compat (2 * el_a el)); [lra|exact Z].
  - rewrite (el_state_ecc mu el M S). intros Z. assert (Q : dot (vscal (el_e el) (perifocal el ex)) (vscal (el_e el) (perifocal el ex)) = 0) by (rewrite Z; unfold dot, vzero; cbn [vx vy vz]; ring).
    rewrite dot_scal_l, dot_scal_r, peri_dot in Q. unfold dot, ex in Q; cbn [vx vy vz] in Q. nra.
  - rewrite (el_state_h mu el M S). intros Z. pose proof (sound_p _ S) as P. assert (PS : 0 < sqrt (mu * el_p el)) by (apply sqrt_lt_R0, Rmult_lt_0_compat; assumption).
    rewrite peri_ez in Z. pose proof (f_equal vx Z) as Z1. pose proof (f_equal vy Z) as Z2. unfold cross, vscal, ez, vzero in Z1, Z2; cbn [vx vy vz] in Z1, Z2. assert (SI : 0 < sin (el_i el)) by (apply sin_gt_0; lra).
    assert (Q : 0 < sqrt (mu * el_p el) * sin (el_i el)) by (apply Rmult_lt_0_compat; assumption). pose proof (sc1 (el_W el)).
    assert (C0 : cos (el_W el) = 0) by (apply Rmult_eq_reg_r with (sqrt (mu * el_p el) * sin (el_i el)); [clear - Z1; lra|clear - Q; lra]).
    assert (S0 : sin (el_W el) = 0) by (apply Rmult_eq_reg_r with (sqrt (mu * el_p el) * sin (el_i el)); [clear - Z2; lra|clear - Q; lra]). rewrite C0, S0 in H. lra.
Qed.
Lemma ic_par_ic mu s el : nonsingular mu s -> ic2par s mu = Some el -> par2ic el mu = Ret (Some s).
Proof.
  intros NS E. destruct (ic2par_ok mu s NS) as [el' [E' [O Va]]]. rewrite E in E'. injection E' as <-. destruct NS as [Rg [NE _]]. destruct (osc_state mu s el Rg NE O) as [Q S].
  rewrite (par2ic_ok mu el (proj1 Rg) S), <- Q. reflexivity.
Qed.
Lemma par_ic_par mu el s : 0 < mu -> valid el -> par2ic el mu = Ret (Some s) -> ic2par s mu = Some el.
Proof.
  intros M Va E. pose proof (valid_sound el Va) as S. rewrite (par2ic_ok mu el M S) in E. injection E as <-. pose proof (el_nonsingular mu el M Va) as NS.
  destruct (ic2par_ok mu _ NS) as [el' [E' [O Va']]]. rewrite E'. f_equal. apply (osc_unique mu (el_state mu el)); [apply NS|exact O|apply el_state_osc; assumption|exact Va'|exact Va].
Qed.
Lemma par2ic_throws mu el : (par2ic el mu = Throw DomainError <-> el_a el * (1 - el_e el) < 0 \/ (1 < el_e el /\ cos (el_f el) < - / el_e el)) /\
  (forall x, par2ic el mu = Throw x -> x = DomainError) /\ par2ic el mu <> UB.
Proof.
  destruct el as [a e i W w f]. unfold par2ic. cbn [el_a el_e el_f]. replace (-1 / e) with (- / e) by (unfold Rdiv; ring).
  destruct (Rlt_dec (a * (1 - e)) 0) as [Z|Z]; [|destruct (Rlt_dec 1 e) as [Y|Y]; [destruct (Rlt_dec (cos f) (- / e)) as [X|X]|]];
  (split; [split; intros H; try discriminate H; try reflexivity; try tauto; exfalso; tauto|split; [intros x H; congruence|discriminate]]).
Qed.
