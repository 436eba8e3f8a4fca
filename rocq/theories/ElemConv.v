(** * Conversions between classical and equinoctial elements; domains *)
From Coq Require Import Reals Lra Psatz Bool ZArith.
From Coquelicot Require Import Rcomplements.
From Verif Require Import Outcome RealLib PartialReal Vec3 TwoBodySpec FlowMain ElemModel ElemSpec ElemProofs ElemPar ElemEq.
Open Scope R_scope. Open Scope partial_scope.

(** ** wrapped atan2 *)
Definition wrap (y x : R) : R := if Rlt_dec (atan2 y x) 0 then atan2 y x + 2 * PI else atan2 y x.
Lemma wrap_ok y x : x * x + y * y = 1 -> cos (wrap y x) = x /\ sin (wrap y x) = y /\ angle_ok (wrap y x).
Proof.
  intros U. pose proof (atan2_range y x) as B. pose proof PI_RGT_0. assert (C : cos (atan2 y x) = x) by (rewrite cos_atan2 by lra; rewrite U, sqrt_1; field).
  assert (S : sin (atan2 y x) = y) by (rewrite sin_atan2 by lra; rewrite U, sqrt_1; field). unfold wrap, angle_ok. destruct (Rlt_dec (atan2 y x) 0).
  - replace (atan2 y x + 2 * PI) with (atan2 y x + 2 * IZR 1 * PI) by ring. rewrite period_Z_cos, period_Z_sin, C, S. simpl. repeat split; lra.
  - repeat split; try assumption; lra.
Qed.
Lemma wrap_angle t : angle_ok t -> wrap (sin t) (cos t) = t.
Proof. intros A. destruct (wrap_ok (sin t) (cos t)) as [C [S B]]; [pose proof (sc1 t); lra|]. apply angle_unique; assumption. Qed.
Lemma atan2_scale k y x : 0 < k -> x * x + y * y = 1 -> wrap (k * y / k) (k * x / k) = wrap y x.
Proof. intros K U. replace (k * y / k) with y by (field; lra). replace (k * x / k) with x by (field; lra). reflexivity. Qed.
Lemma sqrt_polar m t : 0 <= m -> sqrt (m * cos t * (m * cos t) + m * sin t * (m * sin t)) = m.
Proof. intros M. replace (m * cos t * (m * cos t) + m * sin t * (m * sin t)) with (m * m * (sin t * sin t + cos t * cos t)) by ring. rewrite sc1, Rmult_1_r. apply sqrt_square, M. Qed.

(** ** eq2par (par2eq el) *)
Definition half_m (b : bool) (i : R) : R := if b then / tan (i / 2) else tan (i / 2).
Lemma tan_half i : 0 < i < PI -> 0 < tan (i / 2). Proof. intros I. apply tan_gt_0; lra. Qed.
Lemma half_m_pos b i : 0 < i < PI -> 0 < half_m b i. Proof. intros I. pose proof (tan_half i I). unfold half_m. destruct b; [apply Rinv_0_lt_compat|]; assumption. Qed.
Lemma par2eq_eq b el : 0 < el_i el < PI ->
  let z := el_w el + eqI b * el_W el in let m := half_m b (el_i el) in
  par2eq el b = Some (Eq (el_p el) (el_e el * cos z) (el_e el * sin z) (m * cos (el_W el)) (m * sin (el_W el)) (el_f el + el_w el + eqI b * el_W el)).
Proof.
  intros I. destruct el as [a e i W w f]. cbn [el_i el_w el_W el_e el_f] in *. cbv zeta. unfold par2eq, ptan. destruct (Req_EM_T (cos (i / 2)) 0) as [Z|_]; [exfalso; pose proof (cos_gt_0 (i / 2)); lra|].
  cbn [obind]. pose proof (tan_half i I). unfold half_m, el_p. cbn [el_a el_e]. destruct b; [|reflexivity]. rewrite pdiv_some by lra. cbn [obind]. unfold Rdiv. rewrite Rmult_1_l. reflexivity.
Qed.
Lemma inc_back b i : 0 < i < PI -> PI / 2 * (1 - eqI b) + 2 * eqI b * atan (half_m b i) = i.
Proof.
  intros I. pose proof (tan_half i I) as T. assert (A : atan (tan (i / 2)) = i / 2) by (apply atan_tan; lra). unfold half_m, eqI. destruct b; [rewrite atan_inv by exact T|]; rewrite A; field.
Qed.
(** the wrapped argument of pericentre *)
Definition unwind (w0 : R) : R := if Rlt_dec w0 0 then w0 + 2 * PI else if Rlt_dec (2 * PI) w0 then w0 - 2 * PI else w0.
Lemma eq2par_eq b p e z m W L : 0 < e -> e <> 1 -> 0 < m -> angle_ok W ->
  let zita := wrap (sin z) (cos z) in let w := unwind (zita - eqI b * W) in
  eq2par (Eq p (e * cos z) (e * sin z) (m * cos W) (m * sin W) L) b = Some (El (p / (1 - e * e)) e (PI / 2 * (1 - eqI b) + 2 * eqI b * atan m) W w (L - eqI b * W - w)).
Proof.
  intros PE N1 PM AW. cbv zeta. unfold eq2par. rewrite (sqrt_polar e z), (sqrt_polar m W) by lra. rewrite !(pdiv_some _ e) by lra. cbn [obind]. rewrite (pdiv_some p) by nra. cbn [obind]. rewrite !pdiv_some by lra. cbn [obind].
  replace (e * sin z / e) with (sin z) by (field; lra). replace (e * cos z / e) with (cos z) by (field; lra). replace (m * sin W / m) with (sin W) by (field; lra). replace (m * cos W / m) with (cos W) by (field; lra).
  change (if Rlt_dec (atan2 (sin z) (cos z)) 0 then atan2 (sin z) (cos z) + 2 * PI else atan2 (sin z) (cos z)) with (wrap (sin z) (cos z)).
  change (if Rlt_dec (atan2 (sin W) (cos W)) 0 then atan2 (sin W) (cos W) + 2 * PI else atan2 (sin W) (cos W)) with (wrap (sin W) (cos W)). rewrite (wrap_angle W AW). reflexivity.
Qed.
Lemma unwind_cos t : cos (unwind t) = cos t /\ sin (unwind t) = sin t.
Proof.
  unfold unwind. destruct (Rlt_dec t 0); [|destruct (Rlt_dec (2 * PI) t)]; [| |split; reflexivity].
  - replace (t + 2 * PI) with (t + 2 * IZR 1 * PI) by ring. rewrite period_Z_cos, period_Z_sin. split; reflexivity.
  - replace (t - 2 * PI) with (t + 2 * IZR (-1) * PI) by ring. rewrite period_Z_cos, period_Z_sin. split; reflexivity.
Qed.
Lemma unwind_w b w W : let u := unwind (wrap (sin (w + eqI b * W)) (cos (w + eqI b * W)) - eqI b * W) in cos u = cos w /\ sin u = sin w.
Proof.
  cbv zeta. destruct (unwind_cos (wrap (sin (w + eqI b * W)) (cos (w + eqI b * W)) - eqI b * W)) as [A B]. rewrite A, B.
  destruct (wrap_ok (sin (w + eqI b * W)) (cos (w + eqI b * W))) as [C [S _]]; [pose proof (sc1 (w + eqI b * W)); lra|]. rewrite cos_minus, sin_minus, C, S, <- cos_minus, <- sin_minus. split; f_equal; ring.
Qed.
Lemma unwind_range b t W : angle_ok t -> angle_ok W -> 0 <= unwind (t - eqI b * W) <= 2 * PI /\ (unwind (t - eqI b * W) = 2 * PI -> b = true /\ t + W = 2 * PI).
Proof.
  unfold angle_ok, unwind, eqI. intros A B. destruct b.
  - destruct (Rlt_dec (t - -1 * W) 0); [lra|]. destruct (Rlt_dec (2 * PI) (t - -1 * W)); (split; [lra|]); intros E; [exfalso; lra|split; [reflexivity|lra]].
  - destruct (Rlt_dec (t - 1 * W) 0); [|destruct (Rlt_dec (2 * PI) (t - 1 * W))]; (split; [lra|intros E; exfalso; lra]).
Qed.
Lemma eq_par_roundtrip b el : valid el -> b = false \/ el_w el <> 0 \/ el_W el = 0 -> exists q, par2eq el b = Some q /\ eq2par q b = Some el.
Proof.
  intros Va Side. pose proof Va as [A [PE [PI' [AW [Aw [Af D]]]]]]. eexists. split; [apply par2eq_eq, PI'|]. assert (N1 : el_e el <> 1) by (intros Z; rewrite Z in A; lra).
  rewrite eq2par_eq; [|exact PE|exact N1|apply half_m_pos, PI'|exact AW]. rewrite (inc_back b _ PI').
  pose proof (unwind_w b (el_w el) (el_W el)) as [C S]. destruct (wrap_ok (sin (el_w el + eqI b * el_W el)) (cos (el_w el + eqI b * el_W el))) as [C' [S' B']]; [pose proof (sc1 (el_w el + eqI b * el_W el)); lra|].
  set (zita := wrap (sin (el_w el + eqI b * el_W el)) (cos (el_w el + eqI b * el_W el))) in *. destruct (unwind_range b zita (el_W el) B' AW) as [Rr Eq2].
  assert (E : unwind (zita - eqI b * el_W el) = el_w el).
  { apply angle_unique; [|exact Aw|exact C|exact S]. split; [lra|]. destruct (Rle_lt_or_eq_dec _ _ (proj2 Rr)) as [Z|Z]; [exact Z|]. exfalso. destruct (Eq2 Z) as [Eb Et].
    rewrite Z in C, S. rewrite cos_2PI in C. rewrite sin_2PI in S. assert (W0 : el_w el = 0) by (apply angle_unique; [exact Aw|unfold angle_ok; pose proof PI_RGT_0; lra|rewrite cos_0; lra|rewrite sin_0; lra]).
    destruct Side as [Q|[Q|Q]]; [rewrite Eb in Q; discriminate|contradiction|unfold angle_ok in B'; lra]. }
  rewrite E. f_equal. destruct el as [a e i W w f]. cbn [el_a el_e el_i el_W el_w el_f] in *. unfold el_p. cbn [el_a el_e]. f_equal; [|ring].
  assert (1 - e * e <> 0) by (intros Z; assert (a * (1 - e) * (1 + e) = 0) by (transitivity (a * (1 - e * e)); [ring|rewrite Z; ring]); assert (0 < a * (1 - e) * (1 + e)) by (apply Rmult_lt_0_compat; lra); lra). field. assumption.
Qed.
(** up to full turns it always works *)
Lemma eq_par_mod b el : valid el -> exists q el', par2eq el b = Some q /\ eq2par q b = Some el' /\
  el_a el' = el_a el /\ el_e el' = el_e el /\ el_i el' = el_i el /\ el_W el' = el_W el /\ 0 <= el_w el' <= 2 * PI /\
  cos (el_w el') = cos (el_w el) /\ sin (el_w el') = sin (el_w el) /\ el_w el' + el_f el' = el_w el + el_f el.
Proof.
  intros Va. pose proof Va as [A [PE [PI' [AW [Aw [Af D]]]]]]. eexists. eexists. split; [apply par2eq_eq, PI'|]. assert (N1 : el_e el <> 1) by (intros Z; rewrite Z in A; lra).
  split; [apply eq2par_eq; [exact PE|exact N1|apply half_m_pos, PI'|exact AW]|]. cbn [el_a el_e el_i el_W el_w el_f].
  pose proof (unwind_w b (el_w el) (el_W el)) as [C S]. destruct (wrap_ok (sin (el_w el + eqI b * el_W el)) (cos (el_w el + eqI b * el_W el))) as [C' [S' B']]; [pose proof (sc1 (el_w el + eqI b * el_W el)); lra|].
  split; [|split; [reflexivity|]; split; [apply inc_back, PI'|]; split; [reflexivity|]; split; [apply unwind_range; assumption|]; split; [exact C|]; split; [exact S|ring]].
  unfold el_p. assert (1 - el_e el * el_e el <> 0) by nra. field. assumption.
Qed.
Lemma eq_par_bad : exists el q el', valid el /\ par2eq el true = Some q /\ eq2par q true = Some el' /\ el_w el' = 2 * PI /\ el_f el' < 0 /\ el_w el = 0.
Proof.
  pose proof PI_RGT_0 as PP. set (el := El 1 (1 / 2) (PI / 2) (PI / 2) 0 0).
  assert (Va : valid el). { unfold valid, angle_ok, el; cbn [el_a el_e el_i el_W el_w el_f]. rewrite cos_0. repeat split; lra. }
  exists el. eexists. eexists. split; [exact Va|]. split; [apply par2eq_eq; unfold el; cbn [el_i]; lra|]. split; [apply eq2par_eq; unfold el, angle_ok; cbn [el_e el_i el_W]; [lra|lra|apply half_m_pos; lra|lra]|].
  unfold el. cbn [el_w el_f el_W el_e]. unfold eqI. replace (0 + -1 * (PI / 2)) with (- (PI / 2)) by ring.
  assert (Z : wrap (sin (- (PI / 2))) (cos (- (PI / 2))) = 3 * (PI / 2)). { rewrite <- (wrap_angle (3 * (PI / 2))) by (unfold angle_ok; lra). f_equal; [rewrite sin_neg, sin_PI2, sin_3PI2; ring|rewrite cos_neg, cos_PI2, cos_3PI2; ring]. }
  rewrite Z. unfold unwind. destruct (Rlt_dec (3 * (PI / 2) - -1 * (PI / 2)) 0); [lra|]. destruct (Rlt_dec (2 * PI) (3 * (PI / 2) - -1 * (PI / 2))); [lra|]. repeat split; lra.
Qed.
(** ** par2eq (eq2par q) *)
Lemma polar x y : exists t, x = sqrt (x * x + y * y) * cos t /\ y = sqrt (x * x + y * y) * sin t /\ (0 < sqrt (x * x + y * y) -> angle_ok t).
Proof.
  set (m := sqrt (x * x + y * y)). assert (M0 : 0 <= m) by apply sqrt_pos. assert (MM : m * m = x * x + y * y) by (apply sqrt_sqrt; nra).
  destruct (Req_EM_T m 0) as [Z|Z]; [exists 0; rewrite Z in *; repeat split; try nra; lra|].
  destruct (wrap_ok (y / m) (x / m)) as [C [S B]]. { replace (x / m * (x / m) + y / m * (y / m)) with ((x * x + y * y) / (m * m)) by (field; exact Z). rewrite <- MM. field. exact Z. }
  exists (wrap (y / m) (x / m)). rewrite C, S. repeat split; try apply B; field; exact Z.
Qed.
Lemma par_eq_roundtrip b q : 0 < eq_f q * eq_f q + eq_g q * eq_g q -> eq_f q * eq_f q + eq_g q * eq_g q <> 1 -> 0 < eq_h q * eq_h q + eq_k q * eq_k q ->
  exists el, eq2par q b = Some el /\ par2eq el b = Some q.
Proof.
  destruct q as [p f g h k L]. cbn [eq_p eq_f eq_g eq_h eq_k eq_L]. intros P1 N1 P2. destruct (polar f g) as [z [Ef [Eg Bz]]]. destruct (polar h k) as [W [Eh [Ek BW]]].
  set (e := sqrt (f * f + g * g)) in *. set (m := sqrt (h * h + k * k)) in *. assert (PE : 0 < e) by (apply sqrt_lt_R0; exact P1). assert (PM : 0 < m) by (apply sqrt_lt_R0; exact P2).
  assert (EE : e * e = f * f + g * g) by (apply sqrt_sqrt; lra). assert (Ne : e <> 1) by (intros Z; rewrite Z in EE; lra). specialize (BW PM).
  clearbody e m. subst f g h k. rewrite (eq2par_eq b p e z m W L PE Ne PM BW). eexists. split; [reflexivity|]. pose proof PI_RGT_0.
  set (inc := PI / 2 * (1 - eqI b) + 2 * eqI b * atan m). pose proof (atan_bound m) as AB. assert (PA : 0 < atan m) by (rewrite <- atan_0; apply atan_increasing, PM).
  assert (Bi : 0 < inc < PI) by (unfold inc, eqI; destruct b; lra).
  assert (HM : half_m b inc = m).
  { unfold half_m, inc, eqI. destruct b.
    - replace ((PI / 2 * (1 - -1) + 2 * -1 * atan m) / 2) with (PI / 2 - atan m) by field. rewrite <- atan_inv by exact PM. rewrite tan_atan. apply Rinv_inv.
    - replace ((PI / 2 * (1 - 1) + 2 * 1 * atan m) / 2) with (atan m) by field. apply tan_atan. }
  rewrite par2eq_eq by exact Bi. cbn [el_a el_e el_i el_W el_w el_f]. fold inc. rewrite HM. unfold el_p. cbn [el_a el_e]. set (w := unwind _).
  assert (CS : cos (w + eqI b * W) = cos z /\ sin (w + eqI b * W) = sin z).
  { destruct (unwind_cos (wrap (sin z) (cos z) - eqI b * W)) as [C S]. fold w in C, S. destruct (wrap_ok (sin z) (cos z)) as [C' [S' _]]; [pose proof (sc1 z); lra|].
    rewrite cos_plus, sin_plus, C, S, <- cos_plus, <- sin_plus. replace (wrap (sin z) (cos z) - eqI b * W + eqI b * W) with (wrap (sin z) (cos z)) by ring. split; assumption. }
  destruct CS as [C S]. rewrite C, S. f_equal. f_equal; [|ring]. field. intros Z. nra.
Qed.

(** ** eq2ic (par2eq el) = par2ic el *)
Lemma orient_par b el : 0 < el_i el < PI -> forall q, par2eq el b = Some q -> eq_orient b (el_i el) (el_W el) q.
Proof.
  intros I q E. rewrite (par2eq_eq b el I) in E. injection E as <-. unfold eq_orient. cbn [eq_h eq_k]. unfold half_m, tan. assert (C : 0 < cos (el_i el / 2)) by (apply cos_gt_0; lra). assert (S : 0 < sin (el_i el / 2)) by (apply sin_gt_0; lra).
  destruct b; (split; [lra|split; field; lra]).
Qed.
Lemma par_eq_osc mu b el q : 0 < mu -> sound_el el -> 0 < el_i el < PI -> par2eq el b = Some q -> osculating_eq mu b (el_state mu el) q.
Proof.
  intros M S I E. exists (el_i el), (el_W el). split; [apply orient_par; assumption|]. rewrite (par2eq_eq b el I) in E. injection E as <-. cbn [eq_p eq_f eq_g eq_L].
  destruct (el_state_osc mu el M S) as [_ [_ [EV [H Rr]]]]. pose proof (sound_p _ S) as P. split; [|split; [|split]].
  - rewrite (el_state_h mu el M S), dot_scal_l, dot_scal_r, peri_dot. replace (dot ez ez) with 1 by (unfold dot, ez; cbn [vx vy vz]; ring). rewrite Rmult_1_r, sqrt_sqrt by nra. field. lra.
  - rewrite EV. unfold perifocal, eqframe. assert (Q : forall a b', vscal a (rotz b' (rotx (el_i el) (rotz (el_w el) ex))) = rotz b' (rotx (el_i el) (rotz (el_w el) (vscal a ex)))) by (intros a b'; apply vec_eq; unfold rotz, rotx, vscal, ex; cbn [vx vy vz]; ring).
    rewrite Q. do 2 f_equal. rewrite cos_plus, sin_plus. unfold eqI. destruct b.
    + replace (-1 * el_W el) with (- el_W el) by ring. rewrite cos_neg, sin_neg. apply vec_eq; unfold rotz, vscal, ex; cbn [vx vy vz]; [| |ring];
      [transitivity (el_e el * cos (el_w el) * (sin (el_W el) * sin (el_W el) + cos (el_W el) * cos (el_W el)))|transitivity (el_e el * sin (el_w el) * (sin (el_W el) * sin (el_W el) + cos (el_W el) * cos (el_W el)))]; try (rewrite sc1; ring); ring.
    + rewrite Rmult_1_l. apply vec_eq; unfold rotz, vscal, ex; cbn [vx vy vz]; rewrite ?cos_neg, ?sin_neg; [| |ring];
      [transitivity (el_e el * cos (el_w el) * (sin (el_W el) * sin (el_W el) + cos (el_W el) * cos (el_W el)))|transitivity (el_e el * sin (el_w el) * (sin (el_W el) * sin (el_W el) + cos (el_W el) * cos (el_W el)))]; try (rewrite sc1; ring); ring.
  - rewrite H at 1. f_equal. unfold perifocal, eqframe. do 2 f_equal. apply vec_eq; unfold rotz, ez; cbn [vx vy vz]; ring.
  - rewrite Rr at 1. f_equal. unfold perifocal, eqframe. do 2 f_equal. replace (el_f el + el_w el + eqI b * el_W el) with ((el_f el + el_w el) + eqI b * el_W el) by ring. rewrite (cos_plus (el_f el + el_w el)), (sin_plus (el_f el + el_w el)).
    replace (cos (eqI b * el_W el)) with (cos (if b then el_W el else - el_W el)) by (unfold eqI; destruct b; rewrite ?cos_neg; [replace (-1 * el_W el) with (- el_W el) by ring; symmetry; apply cos_neg|f_equal; ring]).
    replace (sin (eqI b * el_W el)) with (- sin (if b then el_W el else - el_W el)) by (unfold eqI; destruct b; [rewrite <- sin_neg; f_equal; ring|rewrite sin_neg, Ropp_involutive; f_equal; ring]).
    set (t := if b then el_W el else - el_W el). apply vec_eq; unfold rotz; cbn [vx vy vz]; [| |reflexivity].
    + transitivity (cos (el_f el + el_w el) * (sin t * sin t + cos t * cos t)); [|ring]. rewrite sc1, cos_plus. ring.
    + transitivity (sin (el_f el + el_w el) * (sin t * sin t + cos t * cos t)); [|ring]. rewrite sc1, sin_plus. ring.
Qed.
Lemma eq2ic_par2eq mu b el q : 0 < mu -> sound_el el -> 0 < el_i el < PI -> par2eq el b = Some q -> par2ic el mu = Ret (eq2ic q mu b) /\ eq2ic q mu b <> None.
Proof.
  intros M S I E. pose proof (par_eq_osc mu b el q M S I E) as O. apply osc_code_iff in O. destruct (osc_eq_state mu b _ q (el_state_regular mu el M S) O) as [Q Sq].
  rewrite (eq2ic_ok mu b q M Sq), <- Q, (par2ic_ok mu el M S). split; [reflexivity|discriminate].
Qed.

(** ** where ic2par gives numbers, and in which ranges *)
Ltac inv1 H := match type of H with obind ?m _ = Some _ => let E := fresh "E" in destruct m eqn:E; [cbn [obind] in H|discriminate H] end.
Lemma pdiv_inv a b c : pdiv a b = Some c -> b <> 0 /\ c = a / b. Proof. unfold pdiv. destruct (Req_EM_T b 0); [discriminate|]. intros H. injection H as <-. split; [assumption|reflexivity]. Qed.
Lemma pacos_inv a c : pacos a = Some c -> c = acos a. Proof. unfold pacos. destruct (Rle_dec (-1) a); [|discriminate]. destruct (Rle_dec a 1); [|discriminate]. intros H. injection H as <-. reflexivity. Qed.
Lemma pvdiv_inv u k w : pvdiv u k = Some w -> k <> 0 /\ w = vscal (/ k) u.
Proof. intros H. destruct (Req_EM_T k 0) as [->|N]; [unfold pvdiv in H; rewrite pdiv_none in H; discriminate H|]. rewrite (pvdiv_some u k N) in H. injection H as <-. split; [exact N|reflexivity]. Qed.
Lemma norm_nz u : norm u <> 0 -> u <> vzero. Proof. intros H Z. apply H. rewrite Z. apply norm_unique; [lra|]. unfold dot, vzero; cbn [vx vy vz]; ring. Qed.
Lemma ic2par_domain mu s : 0 < mu -> ((exists el, ic2par s mu = Some el) <-> nonsingular mu s).
Proof.
  intros M. split; [|intros NS; destruct (ic2par_ok mu s NS) as [el [E _]]; exists el; exact E].
  intros [el H]. destruct s as [r v]. unfold ic2par in H. repeat inv1 H.
  repeat match goal with H : pdiv _ _ = Some _ |- _ => apply pdiv_inv in H; destruct H | H : pvdiv _ _ = Some _ |- _ => apply pvdiv_inv in H; destruct H | H : pacos _ = Some _ |- _ => apply pacos_inv in H end. subst.
  change (vsub (vscal (/ mu) (cross v (cross r v))) (vscal (/ norm r) r)) with (ecc_vec mu (r, v)) in *. change (cross r v) with (ang_mom (r, v)) in *. change (V 0 0 1) with ez in *.
  assert (Nn : cross ez (ang_mom (r, v)) <> vzero) by (apply norm_nz; assumption). assert (Ne : ecc_vec mu (r, v) <> vzero) by (apply norm_nz; assumption). assert (Nr : r <> vzero) by (apply norm_nz; assumption).
  assert (Rg : regular mu (r, v)). { split; [exact M|]. intros Z. apply Nn. rewrite Z. vring. }
  split; [exact Rg|]. split; [|split; assumption]. intros Z. match goal with H : 1 - _ <> 0 |- _ => apply H end. rewrite norm_sq, (p_eq mu (r, v) M Nr), Z. field. lra.
Qed.
Lemma quad_range b c : 0 <= (if Rlt_dec b 0 then 2 * PI - acos c else acos c) <= 2 * PI. Proof. pose proof (acos_bound c). destruct (Rlt_dec b 0); lra. Qed.
Lemma ic2par_range mu s el : ic2par s mu = Some el -> 0 <= el_e el /\ 0 <= el_i el <= PI /\ 0 <= el_W el <= 2 * PI /\ 0 <= el_w el <= 2 * PI /\ 0 <= el_f el <= 2 * PI.
Proof.
  intros H. destruct s as [r v]. unfold ic2par in H. repeat inv1 H. repeat match goal with H : pacos _ = Some _ |- _ => apply pacos_inv in H end. injection H as <-. subst. cbn [el_e el_i el_W el_w el_f].
  split; [apply norm_nonneg|]. split; [apply acos_bound|]. repeat split; try apply quad_range.
Qed.
(** ** degenerate element sets that par2ic does not reject *)
Lemma par2ic_neg_ecc : exists el mu s, 0 < mu /\ el_e el < 0 /\ par2ic el mu = Ret (Some s).
Proof.
  exists (El 1 (- (1 / 2)) 0 0 0 0), 1. unfold par2ic. rewrite cos_0. destruct (Rlt_dec (1 * (1 - - (1 / 2))) 0); [lra|]. destruct (Rlt_dec 1 (- (1 / 2))); [lra|].
  rewrite pdiv_some by lra. cbn [obind]. rewrite psqrt_some by lra. cbn [obind]. assert (0 < sqrt (1 * (1 - - (1 / 2) * - (1 / 2)) * 1)) by (apply sqrt_lt_R0; lra). rewrite !pdiv_some by lra. cbn [obind].
  eexists. split; [lra|]. split; [cbn; lra|]. reflexivity.
Qed.
Lemma par2ic_parabola a i W w f mu : par2ic (El a 1 i W w f) mu = Ret None.
Proof.
  unfold par2ic. destruct (Rlt_dec (a * (1 - 1)) 0); [lra|]. destruct (Rlt_dec 1 1); [lra|]. replace (a * (1 - 1 * 1)) with 0 by ring. replace (0 * mu) with 0 by ring. apply (f_equal (@Ret (option state))).
  destruct (pdiv 0 (1 + 1 * cos f)); [|reflexivity]. cbn [obind]. rewrite psqrt_some by lra. cbn [obind]. rewrite sqrt_0, pdiv_none. reflexivity.
Qed.
(** ** a concrete orbit *)
Definition el0 : elem := El 2 (1 / 2) (PI / 2) PI (PI / 2) (3 * (PI / 2)).
Definition s0 : state := (V (-3 / 2) 0 0, V (1 / 2) 0 1).
Lemma el0_valid : valid el0.
Proof. pose proof PI_RGT_0. unfold valid, angle_ok, el0; cbn [el_a el_e el_i el_W el_w el_f]. rewrite cos_3PI2. repeat split; lra. Qed.
Lemma el0_par2ic : par2ic el0 (3 / 2) = Ret (Some s0).
Proof.
  rewrite (par2ic_ok (3 / 2) el0) by (try lra; apply valid_sound, el0_valid). f_equal. f_equal. unfold el_state, kst, perifocal, el_p, el0, s0. cbn [el_a el_e el_i el_W el_w el_f].
  rewrite cos_3PI2, sin_3PI2. replace (3 / 2 / (2 * (1 - 1 / 2 * (1 / 2)))) with 1 by field. rewrite sqrt_1. unfold rotz, rotx, ex, ey. cbn [vx vy vz]. rewrite cos_PI2, sin_PI2, cos_PI, sin_PI.
  apply f_equal2; apply vec_eq; unfold vadd, vscal; cbn [vx vy vz]; field.
Qed.
Lemma el0_ic2par : ic2par s0 (3 / 2) = Some el0.
Proof. apply (par_ic_par (3 / 2) el0); [lra|apply el0_valid|apply el0_par2ic]. Qed.
Definition q0 : eqel := Eq (3 / 2) 0 (- (1 / 2)) (-1) 0 (3 * PI).
Lemma q0_par2eq : par2eq el0 false = Some q0.
Proof.
  assert (I : 0 < el_i el0 < PI) by apply el0_valid. rewrite (par2eq_eq false el0 I). unfold el0, q0, el_p, half_m, eqI. cbn [el_a el_e el_i el_W el_w el_f].
  replace (PI / 2 / 2) with (PI / 4) by field. rewrite tan_PI4, cos_PI, sin_PI. replace (PI / 2 + 1 * PI) with (3 * (PI / 2)) by field. rewrite cos_3PI2, sin_3PI2. f_equal. f_equal; field.
Qed.
Lemma q0_eq2ic : eq2ic q0 (3 / 2) false = Some s0.
Proof.
  destruct (eq2ic_par2eq (3 / 2) false el0 q0) as [E _]; [lra|apply valid_sound, el0_valid|apply el0_valid|apply q0_par2eq|]. rewrite el0_par2ic in E. injection E as E. symmetry. exact E.
Qed.
(** ** the specifications as stated in PropElem.v *)
Lemma par2ic_spec mu el : 0 < mu -> valid el -> exists s, par2ic el mu = Ret (Some s) /\ osculating mu s el /\ nonsingular mu s.
Proof. intros M Va. exists (el_state mu el). split; [apply par2ic_ok; [exact M|apply valid_sound, Va]|]. split; [apply el_state_osc; [exact M|apply valid_sound, Va]|apply el_nonsingular; assumption]. Qed.
Lemma ic2eq_spec mu b s : eq_regular mu b s -> exists q, ic2eq s mu b = Some q /\ osculating_eq mu b s q /\ eq_valid q.
Proof.
  intros Rg. destruct (ic2eq_ok mu b s Rg) as [q [E [O B]]]. exists q. split; [exact E|]. split; [apply osc_code_iff, O|]. destruct Rg as [Rg [NE _]]. destruct (osc_eq_state mu b s q Rg O) as [Q [P D]].
  split; [exact P|]. split; [|split; [exact D|exact B]]. intros Z. apply NE. rewrite Q, (eq_state_energy mu b q (proj1 Rg) (conj P D)), Z. ring.
Qed.
Lemma eq2ic_spec mu b q : 0 < mu -> eq_valid q -> exists s, eq2ic q mu b = Some s /\ osculating_eq mu b s q /\ eq_regular mu b s.
Proof. intros M Va. exists (eq_state mu b q). split; [apply eq2ic_ok; [exact M|apply eq_valid_sound, Va]|]. split; [apply osc_code_iff, eq_state_osc; [exact M|apply eq_valid_sound, Va]|apply eq_state_regular; assumption]. Qed.
Lemma par2eq_spec mu b el : 0 < mu -> valid el -> exists q s, par2eq el b = Some q /\ par2ic el mu = Ret (Some s) /\ eq2ic q mu b = Some s /\ osculating_eq mu b s q.
Proof.
  intros M Va. pose proof (valid_sound el Va) as S. assert (I : 0 < el_i el < PI) by apply Va. pose proof (par2eq_eq b el I) as E. eexists. exists (el_state mu el). split; [exact E|].
  destruct (eq2ic_par2eq mu b el _ M S I E) as [Q _]. pose proof (par2ic_ok mu el M S) as P. split; [exact P|]. split; [rewrite P in Q; injection Q as Q; symmetry; exact Q|]. apply par_eq_osc; assumption.
Qed.
Lemma eq2par_spec mu b q : 0 < mu -> eq_valid q -> 0 < eq_f q * eq_f q + eq_g q * eq_g q -> 0 < eq_h q * eq_h q + eq_k q * eq_k q ->
  exists el s, eq2par q b = Some el /\ eq2ic q mu b = Some s /\ par2ic el mu = Ret (Some s) /\ osculating mu s el.
Proof.
  intros M [P [N1 [D _]]] P1 P2. destruct q as [p f g h k L]. cbn [eq_p eq_f eq_g eq_h eq_k eq_L] in *. destruct (polar f g) as [z [Ef [Eg Bz]]]. destruct (polar h k) as [W [Eh [Ek BW]]].
  set (e := sqrt (f * f + g * g)) in *. set (m := sqrt (h * h + k * k)) in *. assert (PE : 0 < e) by (apply sqrt_lt_R0; exact P1). assert (PM : 0 < m) by (apply sqrt_lt_R0; exact P2).
  assert (EE : e * e = f * f + g * g) by (apply sqrt_sqrt; lra). assert (Ne : e <> 1) by (intros Z; rewrite Z in EE; lra). specialize (BW PM).
  destruct (par_eq_roundtrip b (Eq p f g h k L) P1 N1 P2) as [el [E1 E2]]. pose proof E1 as E1'. rewrite Ef, Eg, Eh, Ek in E1'. rewrite (eq2par_eq b p e z m W L PE Ne PM BW) in E1'. injection E1' as E3.
  assert (Ee : el_e el = e) by (rewrite <- E3; reflexivity). assert (Ea : el_a el = p / (1 - e * e)) by (rewrite <- E3; reflexivity).
  pose proof PI_RGT_0. assert (I : 0 < el_i el < PI). { rewrite <- E3. cbn [el_i]. pose proof (atan_bound m) as AB. assert (PA : 0 < atan m) by (rewrite <- atan_0; apply atan_increasing, PM). unfold eqI. destruct b; lra. }
  assert (S : sound_el el).
  { split; [|split; [lra|]].
    - rewrite Ea, Ee. replace (p / (1 - e * e) * (1 - e)) with (p / (1 + e)) by (field; split; [lra|nra]). apply Rdiv_lt_0_compat; lra.
    - rewrite (par2eq_eq b el I) in E2. injection E2 as Q1 Q2 Q3 _ _ Q6. replace (1 + el_e el * cos (el_f el)) with (1 + f * cos L + g * sin L); [exact D|].
      rewrite <- Q2, <- Q3, <- Q6. set (t := el_w el + eqI b * el_W el). replace (el_f el + el_w el + eqI b * el_W el) with (el_f el + t) by (unfold t; ring). rewrite cos_plus, sin_plus.
      transitivity (1 + el_e el * cos (el_f el) * (sin t * sin t + cos t * cos t)); [ring|]. rewrite sc1. ring. }
  destruct (eq2ic_par2eq mu b el _ M S I E2) as [Q _]. pose proof (par2ic_ok mu el M S) as PO. exists el, (el_state mu el). split; [exact E1|]. split; [rewrite PO in Q; injection Q as Q; symmetry; exact Q|]. split; [exact PO|apply el_state_osc; assumption].
Qed.
