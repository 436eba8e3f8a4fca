(** * The elements of the low-precision planets in all their forms *)
From Coq Require Import ZArith Reals List String Lra Lia.
From Verif Require Import Outcome PartialReal Vec3 RealLib KepModel KepSpec AnomProofs ElemModel ElemSpec ElemProofs ElemPar ElemEq ElemConv TwoBodySpec KplaModel JplRealModel JplSpec JplRealSpec JplRealProofs.
From Verif Require JplModel.
Import ListNotations.
Open Scope R_scope.

(** an inclination between -180 and 180 degrees *)
Lemma meq_pos mu el : 0 < mu -> sound_el el -> 0 < el_i el < PI -> exists q, par2eq el false = Some q /\ eq2ic q mu false = Some (el_state mu el).
Proof.
  intros M S I. destruct (par2eq el false) as [q|] eqn:Q; [|rewrite (par2eq_eq false el I) in Q; discriminate]. exists q. split; [reflexivity|]. destruct (eq2ic_par2eq mu false el q M S I Q) as [A B]. rewrite (par2ic_ok mu el M S) in A. injection A as A. symmetry. exact A.
Qed.
Lemma ptan_eq x : cos x <> 0 -> ptan x = Some (tan x). Proof. intros H. unfold ptan. destruct (Req_EM_T _ 0); [contradiction|reflexivity]. Qed.
Lemma flip_par2eq a e i W w f : - PI < i < PI -> par2eq (El a e (- i) (W + PI) (w - PI) f) false = par2eq (El a e i W w f) false.
Proof.
  intros I. assert (C : 0 < cos (i / 2)) by (apply cos_gt_0; lra). unfold par2eq, eqI. replace (- i / 2) with (- (i / 2)) by field. rewrite !ptan_eq by (rewrite ?cos_neg; lra). cbn [obind]. rewrite tan_neg, neg_cos, neg_sin. f_equal. f_equal; try ring; do 2 f_equal; ring.
Qed.
Lemma flip_peri a e i W w f u : perifocal (El a e (- i) (W + PI) (w - PI) f) u = perifocal (El a e i W w f) u.
Proof.
  unfold perifocal, rotz, rotx. cbn [el_W el_i el_w vx vy vz]. rewrite cos_neg, sin_neg, neg_cos, neg_sin. replace (w - PI) with (- (PI - w)) by ring. rewrite cos_neg, sin_neg, Rtrigo_facts.cos_pi_minus, Rtrigo_facts.sin_pi_minus. apply vec_eq; cbn [vx vy vz]; ring.
Qed.
Lemma flat_meq mu a e W w f : 0 < mu -> sound_el (El a e 0 W w f) -> exists q, par2eq (El a e 0 W w f) false = Some q /\ eq2ic q mu false = Some (el_state mu (El a e 0 W w f)).
Proof.
  intros M S. pose proof (el_state_regular mu _ M S) as Rg. destruct (el_state_osc mu _ M S) as [_ [_ [EV [H Rr]]]]. pose proof (sound_p _ S) as P.
  assert (HP : dot (ang_mom (el_state mu (El a e 0 W w f))) (ang_mom (el_state mu (El a e 0 W w f))) / mu = a * (1 - e * e)).
  { rewrite (el_state_h mu _ M S), dot_scal_l, dot_scal_r, peri_dot. replace (dot ez ez) with 1 by (unfold dot, ez; cbn [vx vy vz]; ring). rewrite Rmult_1_r, sqrt_sqrt by nra. unfold el_p. cbn [el_a el_e]. field. lra. }
  set (s := el_state mu (El a e 0 W w f)) in *. clearbody s.
  destruct (par2eq (El a e 0 W w f) false) as [q|] eqn:Q; unfold par2eq in Q; replace (0 / 2) with 0 in Q by field; rewrite ptan_eq in Q by (rewrite cos_0; lra); cbn [obind] in Q; [|discriminate]. injection Q as <-. eexists. split; [reflexivity|].
  assert (O : osc_code mu false s (Eq (a * (1 - e * e)) (e * cos (w + eqI false * W)) (e * sin (w + eqI false * W)) (tan 0 * cos W) (tan 0 * sin W) (f + w + eqI false * W))).
  { unfold osc_code. cbn [eq_p eq_f eq_g eq_h eq_k eq_L]. rewrite tan_0, !Rmult_0_l. unfold eqI. rewrite Rmult_1_l. replace (f + w + W) with (f + (w + W)) by ring.
    assert (FX : eq_fv 1 0 0 = ex /\ eq_gv 1 0 0 = ey) by (unfold eq_fv, eq_gv, ex, ey; split; apply vec_eq; cbn [vx vy vz]; field). destruct FX as [-> ->]. cbn [el_e el_f] in EV, Rr.
    split; [symmetry; exact HP|]. split; [|split].
    - rewrite EV. unfold perifocal, rotz, rotx, ex, ey. cbn [el_W el_i el_w vx vy vz]. rewrite cos_0, sin_0, cos_plus, sin_plus. apply vec_eq; unfold vadd, vscal; cbn [vx vy vz]; ring.
    - rewrite H at 1. f_equal. unfold perifocal, rotz, rotx, ex, ey, ez, cross. cbn [el_W el_i el_w vx vy vz]. rewrite cos_0, sin_0. apply vec_eq; cbn [vx vy vz]; ring.
    - rewrite Rr at 1. f_equal. unfold perifocal, rotz, rotx, ex, ey. cbn [el_W el_i el_w vx vy vz]. rewrite cos_0, sin_0, (cos_plus f), (sin_plus f), (cos_plus w), (sin_plus w). apply vec_eq; unfold vadd, vscal; cbn [vx vy vz]; ring. }
  destruct (osc_eq_state mu false s _ Rg O) as [Es Sq]. pose proof (eq2ic_ok mu false _ M Sq) as Z. rewrite <- Es in Z. exact Z.
Qed.
Lemma meq_any mu el : 0 < mu -> sound_el el -> - PI < el_i el < PI -> exists q, par2eq el false = Some q /\ eq2ic q mu false = Some (el_state mu el).
Proof.
  intros M S I. destruct el as [a e i W w f]. cbn [el_i] in I. destruct (Rtotal_order i 0) as [L|[->|G]].
  - assert (S' : sound_el (El a e (- i) (W + PI) (w - PI) f)) by exact S. destruct (meq_pos mu _ M S' ltac:(cbn [el_i]; lra)) as [q [A B]]. rewrite flip_par2eq in A by lra. exists q. split; [exact A|]. rewrite B. f_equal. unfold el_state. rewrite !flip_peri. reflexivity.
  - apply flat_meq; assumption.
  - apply meq_pos; [exact M|exact S|cbn [el_i]; lra].
Qed.
Section Newton.
Variable newton : (R -> R * R) -> R -> R -> R -> option R.
Hypothesis NOK : newton_ok newton.
Theorem jr_elements_forms s j t : jr_ctor s = Ret j -> -73048 < t < 18263 ->
  exists el m q st n e0 rate (k : Z), jr_elements newton j t JplModel.KEP_F = Ret (Some el) /\ jr_eph newton j t = Ret (Some st) /\ osculating mu_sun st el /\
    In (n, e0, rate) published /\ str_ci s n /\
    jr_elements newton j t JplModel.KEP_M = Ret (Some (El (el_a el) (el_e el) (el_i el) (el_W el) (el_w el) m)) /\ - PI < m <= PI /\
      m = deg (published_value e0 rate 3 t - published_value e0 rate 4 t) + 2 * IZR k * PI /\
    jr_elements newton j t JplModel.MEQ = Ret (Some (as_el q)) /\ eq2ic q mu_sun false = Some st /\
    jr_elements newton j t JplModel.POSVEL = Throw LogicError.
Proof.
  intros H Ht. destruct (jr_ctor_inv s j H) as [n [e0 [rate [HI [SC [E1 [E2 [EM _]]]]]]]]. destruct (row_bounds n e0 rate t HI Ht) as [BA [BE BI]].
  destruct (jr_f_ok newton NOK j n e0 rate t HI E1 E2 Ht) as [E [f [k [OE [OF [KE [SP [FE FF]]]]]]]]. unfold jr_elements, jr_eph. rewrite FF, EM. cbn [bind obind].
  match type of FF with _ = Ret (Some ?x) => set (el' := x) in * end. clear FF.
  assert (MP : 0 < mu_sun) by (unfold mu_sun; lra). assert (S : sound_el el').
  { unfold el', sound_el. cbn [el_a el_e el_f]. pose proof (COS_bound f). split; [|split; [lra|nra]]. apply Rmult_lt_0_compat; [apply Rmult_lt_0_compat; [lra|unfold au; lra]|lra]. }
  assert (IB : - PI < el_i el' < PI). { pose proof PI_RGT_0. unfold el'. cbn [el_i]. unfold deg. split; nra. }
  destruct (meq_any mu_sun el' MP S IB) as [q [Q1 Q2]]. rewrite Q1. cbn [obind].
  assert (F2 : f2m (el_f el') (el_e el') = Some (E - published_value e0 rate 1 t * sin E)). { unfold f2m, el'. cbn [el_f el_e]. destruct (Rle_dec 1 _); [lra|]. rewrite FE. unfold e2m. destruct (Rle_dec 1 _); [lra|]. reflexivity. }
  rewrite F2. cbn [obind]. exists el', (E - published_value e0 rate 1 t * sin E), q, (el_state mu_sun el'), n, e0, rate, k.
  split; [reflexivity|]. split; [apply par2ic_ok; assumption|]. split; [apply el_state_osc; assumption|]. split; [exact HI|]. split; [exact SC|]. split; [reflexivity|]. split; [|split; [exact KE|split; [reflexivity|split; [exact Q2|reflexivity]]]].
  set (e := published_value e0 rate 1 t) in *. assert (HE : 0 <= e < 1) by lra. destruct (kep_PI e) as [P1 P2]. destruct OE as [OA OB]. split; [rewrite <- P2; apply (kep_lt e HE); lra|]. destruct (Rle_lt_or_eq_dec E PI OB) as [L|L]; [left; rewrite <- P1; apply (kep_lt e HE); lra|right; rewrite L; exact P1].
Qed.
End Newton.

(** ** the Earth: the published inclination is negative after 1999-11-18 and zero once *)
Lemma earth_row : exists j, jr_ctor "earth"%string = Ret j /\ jr_el j = dec earth_moon_r /\ jr_dot j = dec earth_moon_r_dot.
Proof. eexists. split; [reflexivity|]. split; reflexivity. Qed.
Lemma earth_pub : In ("earth"%string, earth_moon_r, earth_moon_r_dot) published. Proof. apply (nth_error_In published 2). reflexivity. Qed.
Lemma earth_negative newton : newton_ok newton -> exists j el, jr_ctor "earth"%string = Ret j /\ jr_elements newton j 0 JplModel.KEP_F = Ret (Some el) /\ el_i el < 0.
Proof.
  intros NOK. destruct earth_row as [j [J [E1 E2]]]. destruct (jr_f_ok newton NOK j _ _ _ 0 earth_pub E1 E2 ltac:(lra)) as [E [f [k [_ [_ [_ [_ [_ FF]]]]]]]]. exists j. eexists. split; [exact J|]. unfold jr_elements. rewrite FF. split; [reflexivity|]. cbn [el_i].
  unfold published_value, deg. cbn [nth earth_moon_r earth_moon_r_dot]. pose proof PI_RGT_0. cbv [pow]. assert (-1531 / (10 * (10 * (10 * (10 * (10 * (10 * (10 * (10 * 1)))))))) + -1294668 / (10 * (10 * (10 * (10 * (10 * (10 * (10 * (10 * 1)))))))) * ((0 - 1 / 2) / 36525) < 0) by lra. nra.
Qed.
Lemma earth_retrograde newton : newton_ok newton -> exists j t, jr_ctor "earth"%string = Ret j /\ -73048 < t < 18263 /\ (exists st, jr_eph newton j t = Ret (Some st)) /\ jr_elements newton j t JplModel.MEQ_R = Ret None.
Proof.
  intros NOK. destruct earth_row as [j [J [E1 E2]]]. set (t := 1 / 2 - 36525 * (1531 / 1294668)). assert (Ht : -73048 < t < 18263) by (unfold t; lra). exists j, t. split; [exact J|]. split; [exact Ht|]. split; [destruct (jr_far newton NOK _ j t J Ht) as [st [S _]]; exists st; exact S|].
  destruct (jr_f_ok newton NOK j _ _ _ t earth_pub E1 E2 Ht) as [E [f [k [_ [_ [_ [_ [_ FF]]]]]]]]. unfold jr_elements. rewrite FF. cbn [bind obind]. do 2 f_equal.
  assert (Z : deg (published_value earth_moon_r earth_moon_r_dot 2 t) / 2 = 0). { unfold published_value, deg, t. cbn [nth earth_moon_r earth_moon_r_dot]. field. }
  unfold par2eq. rewrite Z, ptan_eq by (rewrite cos_0; lra). rewrite tan_0. cbn [obind]. unfold pdiv. destruct (Req_EM_T 0 0); [reflexivity|contradiction].
Qed.
