(** * The pictures of the trajectories: low-precision planets, direct methods, examples *)
From Coq Require Import Reals List ZArith String Lra Lia Bool.
From Coquelicot Require Import Rcomplements.
From Verif Require Import Outcome PartialReal Vec3 RealLib TwoBodySpec FlowMain TwoBodyModel TwoBodyProofs KepSpec KplaModel KplaProofs ElemModel ElemSpec ElemPar PlotModel PlotProofs PlotLegModel PlotLegSpec PlotLegProofs TcModel SfModel SfSpec SfMain DirectModel DirectSpec DirectProofs DirectPl DirectMain PiBounds.
From Verif Require Import JplRealModel JplSpec JplRealSpec JplRealProofs SolarModel SolarProofs LambertSpec MgaModel MgaSpec MgaFitModel MgaFitSpec MgaFitProofs MgaFitMain MgaTotal GymModel GymProofs TrajPlotModel TrajPlotSpec TrajPlotProofs.
From Verif Require JplModel.
Import ListNotations.
Open Scope R_scope.

(** ** legs that do not exist *)
Lemma mapM_ret {A B : Type} (f : A -> outcome B) l : forall m, mapM f l = Ret m -> forall a, In a l -> exists b, f a = Ret b.
Proof.
  induction l as [|x l IH]; intros m H a Ha; [destruct Ha|]. cbn [mapM] in H. destruct (f x) as [b| |] eqn:E; cbn [bind] in H; try discriminate. destruct (mapM f l) as [bs| |] eqn:F; cbn [bind] in H; try discriminate.
  destruct Ha as [<-|Ha]; [exists b; exact E|exact (IH bs eq_refl a Ha)].
Qed.
Theorem mga_leg_ids per P x units N ids pic : mga_plot per P x units N ids = Ret pic -> forall k, In k ids -> (- Z.of_nat (n_legs P) <= k < Z.of_nat (n_legs P))%Z.
Proof.
  unfold mga_plot. intros H k Hk. destruct (compute_dvs P x) as [d| |] eqn:ED; cbn [bind] in H; try discriminate. destruct (all_eph (m_seq P) (d_ep d)) as [rv| |] eqn:ER; cbn [bind] in H; try discriminate.
  destruct (draw_planets _ _ _ _ _) as [pls| |]; cbn [bind] in H; try discriminate. cbv zeta in H. destruct ids as [|k0 ks]; [destruct Hk|].
  destruct (mapM _ (k0 :: ks)) as [arcs| |] eqn:EA; cbn [bind] in H; try discriminate. destruct (mapM_ret _ _ _ EA k Hk) as [b Eb].
  assert (LC : (List.length (combine (d_legs d) (tl rv)) <= n_legs P)%nat).
  { rewrite combine_length. destruct (eph_nth _ _ _ ER) as [L _]. unfold n_legs. destruct rv; cbn [tl List.length] in *; lia. }
  set (c := combine (d_legs d) (tl rv)) in *. clearbody c. unfold py_nth in Eb. destruct (k <? 0)%Z eqn:K0; [apply Z.ltb_lt in K0|apply Z.ltb_ge in K0].
  - destruct (Z.ltb_spec (k + Z.of_nat (List.length c)) 0); [discriminate|]. lia.
  - destruct (Z.ltb_spec k 0); [lia|]. destruct (Z.leb_spec (Z.of_nat (List.length c)) k); [discriminate|]. lia.
Qed.

(** ** the period of a planet without a period of its own *)
Lemma default_period_ok eph mu s : eph 0 = Ret (Some s) -> elliptic mu s -> default_period eph mu = Ret (period mu s).
Proof.
  intros E El. unfold default_period. rewrite E. cbn [bind number]. destruct (regular_r _ _ (proj1 El)) as [M [Hr _]]. pose proof (proj2 El) as Neg. assert (NP : norm (fst s) <> 0) by (intros Q; apply Hr, norm_zero, Q).
  rewrite pdiv_some by exact NP. cbn [obind]. replace ((vx (snd s) * vx (snd s) + vy (snd s) * vy (snd s) + vz (snd s) * vz (snd s)) / 2 - mu / norm (fst s)) with (energy mu s) by reflexivity.
  destruct (Rlt_dec 0 (energy mu s)); [lra|]. rewrite pdiv_some by lra. cbn [obind]. replace (- mu / 2 / energy mu s) with (sma mu s) by (unfold sma; field; lra). rewrite period_of_ok; [reflexivity|exact M|].
  unfold sma. replace (- mu / (2 * energy mu s)) with (mu / (2 * - energy mu s)) by (field; lra). apply Rdiv_lt_0_compat; lra.
Qed.
Lemma size_period v : 0 < v -> let P := 2 * PI * sqrt ((v * au) ^ 3 / mu_sun) in 0 < P /\ (v < 96 / 10 -> P / 86400 < 18000) /\ (19 < v -> 20000 < P / 86400).
Proof.
  intros Hv P. pose proof pi_bounds as PB. assert (PI2 : 31415 / 10000 <= PI <= 31416 / 10000) by lra. clear PB.
  assert (C : forall x y, 0 < x <= y -> x ^ 3 <= y ^ 3) by (intros x y Hxy; apply pow_incr; lra).
  assert (MP : 0 < mu_sun) by (unfold mu_sun; lra). assert (AP : 0 < au) by (unfold au; lra). assert (VA : 0 < v * au) by (apply Rmult_lt_0_compat; assumption).
  assert (SP : 0 < sqrt ((v * au) ^ 3 / mu_sun)) by (apply sqrt_lt_R0, Rdiv_lt_0_compat; [apply pow_lt; exact VA|exact MP]).
  split; [|split]; intros.
  - unfold P. apply Rmult_lt_0_compat; lra.
  - assert (U : sqrt ((v * au) ^ 3 / mu_sun) <= 240000000).
    { rewrite <- (sqrt_Rsqr 240000000) by lra. apply sqrt_le_1_alt. apply (proj2 (Rle_div_l _ _ _ MP)). apply Rle_trans with ((96 / 10 * au) ^ 3); [apply C; split; [exact VA|apply Rmult_le_compat_r; lra]|unfold au, mu_sun, Rsqr; lra]. }
    apply Rlt_div_l; [lra|]. unfold P. set (q := sqrt _) in *. clearbody q. nra.
  - assert (U : 300000000 <= sqrt ((v * au) ^ 3 / mu_sun)).
    { rewrite <- (sqrt_Rsqr 300000000) by lra. apply sqrt_le_1_alt. apply (proj1 (Rle_div_r _ _ _ MP)). apply Rle_trans with ((19 * au) ^ 3); [unfold au, mu_sun, Rsqr; lra|apply C; split; [apply Rmult_lt_0_compat; lra|apply Rmult_le_compat_r; lra]]. }
    apply Rlt_div_r; [lra|]. unfold P. set (q := sqrt _) in *. clearbody q. nra.
Qed.

Section Newton.
Variable newton : (R -> R * R) -> R -> R -> R -> option R.
Hypothesis NOK : newton_ok newton.

Lemma jpl_period s j : jr_ctor s = Ret j -> exists T, default_period (jr_eph newton j) (jr_mu j) = Ret T /\ 0 < T /\
  (~ outer (JplModel.lower s) -> known_for (jr_eph newton j) T) /\ (outer (JplModel.lower s) -> 20000 < T / 86400).
Proof.
  intros H. destruct (jr_ctor_inv s j H) as [n [el [rate [HI [SC [E1 [E2 [EM _]]]]]]]]. destruct (jr_state newton NOK j n el rate 0 HI E1 E2 EM ltac:(lra)) as [st [E [_ [El Sm]]]].
  exists (period mu_sun st). split; [rewrite EM; exact (default_period_ok _ mu_sun _ E El)|]. unfold period. rewrite Sm. rewrite (name_unique _ _ _ _ HI SC).
  destruct (row_bounds n el rate 0 HI ltac:(lra)) as [BA _]. destruct (size_period (published_value el rate 0 0) ltac:(lra)) as [P0 [P1 P2]]. split; [exact P0|]. split.
  - intros NO. split; [lra|]. intros t Ht.
    assert (B : published_value el rate 0 0 < 96 / 10).
    { revert HI NO. unfold published_value. cbn [In published]. intros HI NO. repeat (destruct HI as [HI|HI]; [injection HI as <- <- <-; cbn [nth]; cbv [pow]; try lra; exfalso; apply NO; (left; reflexivity) || (right; reflexivity)|]). destruct HI. }
    specialize (P1 B). destruct (jr_state newton NOK j n el rate t HI E1 E2 EM ltac:(lra)) as [s' [E' _]]. exists s'. exact E'.
  - intros O. apply P2. revert HI O. unfold published_value. cbn [In published]. intros HI O. repeat (destruct HI as [HI|HI]; [injection HI as <- <- <-; cbn [nth]; cbv [pow]; try lra; exfalso; destruct O as [O|O]; discriminate O|]). destruct HI.
Qed.

(** ** the planets whose year is longer than their ephemeris *)
Lemma planets_ret per seq : forall ep units N pic, draw_planets per seq ep units N = Ret pic -> forall b, In b seq -> exists o, add_planet_orbit (plotted_of (b_eph b) (per b)) None units N = Ret o.
Proof.
  induction seq as [|a seq IH]; intros ep units N pic H b Hb; [destruct Hb|]. destruct ep as [|t ts]; [discriminate|]. cbn [draw_planets] in H.
  destruct (add_planet _ _ _) as [r| |]; cbn [bind] in H; try discriminate. destruct (add_planet_orbit (plotted_of (b_eph a) (per a)) None units N) as [o| |] eqn:E; cbn [bind] in H; try discriminate.
  destruct (number o) as [pts| |]; cbn [bind] in H; try discriminate. destruct (draw_planets per seq ts units N) as [m| |] eqn:D; cbn [bind] in H; try discriminate.
  destruct Hb as [<-|Hb]; [exists o; exact E|]. exact (IH _ _ _ _ D b Hb).
Qed.
Lemma eph_all_ret eph l : forall m, eph_all eph l = Ret m -> forall t, In t l -> exists s, eph t = Ret s.
Proof.
  induction l as [|x l IH]; intros m H t Ht; [destruct Ht|]. cbn [eph_all] in H. destruct (eph x) as [s| |] eqn:E; cbn [bind] in H; try discriminate. destruct (eph_all eph l) as [q| |] eqn:F; cbn [bind] in H; try discriminate.
  destruct Ht as [<-|Ht]; [exists s; exact E|]. exact (IH q eq_refl t Ht).
Qed.
Lemma outer_orbit s j per units N o : jr_ctor s = Ret j -> outer (JplModel.lower s) -> per = default_period (jr_eph newton j) (jr_mu j) -> (2 <= N)%Z ->
  add_planet_orbit (plotted_of (jr_eph newton j) per) None units N <> Ret o.
Proof.
  intros H O -> HN Q. destruct (jpl_period s j H) as [T [E [TP [_ B]]]]. specialize (B O). rewrite (planet_orbit_default _ T) in Q by exact E. unfold add_planet_orbit in Q.
  destruct (linspace_ok 0 (T / 86400) N HN) as [g [G [Gl Gn]]]. rewrite G in Q. cbn [bind plotted_of pp_eph_v] in Q. set (e := fun t => bind (jr_eph newton j t) (fun o => number o)) in Q.
  destruct (eph_all e g) as [m| |] eqn:F; cbn [bind] in Q; try discriminate.
  assert (NP : 0 < IZR (N - 1)) by (apply IZR_lt; lia). pose proof (Gn (Z.to_nat N - 1)%nat ltac:(lia)) as GL. replace (0 + INR (Z.to_nat N - 1) * ((T / 86400 - 0) / IZR (N - 1))) with (T / 86400) in GL.
  2:{ replace (INR (Z.to_nat N - 1)) with (IZR (N - 1)) by (rewrite INR_IZR_INZ; f_equal; lia). field. lra. }
  destruct (eph_all_ret e g m F _ (nth_error_In _ _ GL)) as [st Es]. unfold e in Es. rewrite (proj1 (jr_outside newton j (T / 86400) ltac:(right; lra))) in Es. discriminate.
Qed.
Theorem mga_outer per P x units N ids s j : jr_ctor s = Ret j -> outer (JplModel.lower s) -> In (jr_body newton j) (m_seq P) -> per (jr_body newton j) = default_period (jr_eph newton j) (jr_mu j) -> (2 <= N)%Z ->
  forall pic, mga_plot per P x units N ids <> Ret pic.
Proof.
  intros H O I E HN pic Q. unfold mga_plot in Q. destruct (compute_dvs P x) as [d| |]; cbn [bind] in Q; try discriminate. destruct (all_eph _ _) as [rv| |]; cbn [bind] in Q; try discriminate.
  destruct (draw_planets _ _ _ _ _) as [pls| |] eqn:D; cbn [bind] in Q; try discriminate. destruct (planets_ret _ _ _ _ _ _ D _ I) as [o Eo]. exact (outer_orbit s j _ units N o H O E HN Eo).
Qed.

(** a problem with a fitness and no picture: from Uranus to a point at a right angle *)
Lemma off_axis s j t st : jr_ctor s = Ret j -> -73048 < t < 18263 -> jr_eph newton j t = Ret (Some st) -> 0 < vx (fst st) * vx (fst st) + vy (fst st) * vy (fst st).
Proof.
  intros H Ht E. destruct (jr_ctor_inv s j H) as [n [el [rate [HI [_ [E1 [E2 [EM _]]]]]]]]. destruct (jr_state newton NOK j n el rate t HI E1 E2 EM Ht) as [st' [E' [On [El _]]]]. rewrite E in E'. assert (st' = st) by congruence. subst st'.
  destruct (row_bounds n el rate t HI Ht) as [_ [_ BI]]. destruct On as [Ec [f [k [_ [_ [_ [_ [_ [AM _]]]]]]]]]. apply (f_equal vz) in AM. rewrite peri_ez in AM. cbn [el_i vscal vz] in AM.
  assert (HP : 0 < norm (ang_mom st)). { destruct (regular_r _ _ (proj1 El)) as [_ [_ X]]. destruct (norm_nonneg (ang_mom st)) as [P|P]; [exact P|]. exfalso. apply X. apply norm_zero. symmetry. exact P. }
  assert (CP : 0 < cos (deg (published_value el rate 2 t))). { pose proof PI_RGT_0. apply cos_gt_0; unfold deg; nra. }
  assert (ZP : 0 < vz (ang_mom st)) by (rewrite AM; apply Rmult_lt_0_compat; assumption). unfold ang_mom, cross in ZP. cbn [vz] in ZP.
  destruct (Rlt_dec 0 (vx (fst st) * vx (fst st) + vy (fst st) * vy (fst st))) as [Y|Y]; [exact Y|]. assert (vx (fst st) = 0) by nra. assert (vy (fst st) = 0) by nra. nra.
Qed.
Theorem outer_witness : exists P x l j, jr_ctor "uranus" = Ret j /\ In (jr_body newton j) (m_seq P) /\ mga_ok P /\ in_box (get_bounds P) x /\ fitness P x = Ret l /\
  forall per units N ids pic, per (jr_body newton j) = default_period (jr_eph newton j) (jr_mu j) -> (2 <= N)%Z -> mga_plot per P x units N ids <> Ret pic.
Proof.
  destruct (jr_ctor "uranus") as [j| |] eqn:J; [|discriminate J..]. destruct (jr_far newton NOK _ j 0 J ltac:(lra)) as [st [E F]]. pose proof (off_axis _ j 0 st J ltac:(lra) E) as OA.
  assert (MU : jr_mu j = mu_sun) by (injection J as <-; reflexivity).
  set (r := vx (fst st) * vx (fst st) + vy (fst st) * vy (fst st)) in *. set (q := au / sqrt r).
  set (b := mk_body (fun _ => Ret (Some (V (- vy (fst st) * q) (vx (fst st) * q) 0, vzero))) mu_sun 1 1).
  set (P := mk_mga [jr_body newton j; b] (0, 0) (TDirect [(1, 1)]) 0 false None). set (x := [0; 1]).
  set (pl := fun i : nat => match i with O => st | _ => (V (- vy (fst st) * q) (vx (fst st) * q) 0, vzero) end).
  assert (RP : 0 < sqrt r) by (apply sqrt_lt_R0; exact OA). assert (AP : 0 < au) by (unfold au; lra). assert (QP : 0 < q) by (apply Rdiv_lt_0_compat; assumption).
  assert (NB : norm (fst (pl 1%nat)) = au).
  { apply norm_unique; [lra|]. cbn [pl fst]. unfold dot. cbn [vx vy vz]. replace (- vy (fst st) * q * (- vy (fst st) * q) + vx (fst st) * q * (vx (fst st) * q) + 0 * 0) with (q * q * r) by (unfold r; ring).
    unfold q. rewrite <- (sqrt_sqrt r) at 3 by lra. field. lra. }
  assert (CM : common_mu P = mu_sun) by (unfold common_mu; cbn; exact MU).
  destruct (fitness_total P x 0 [1] pl) as [[[i [Hi [V1 _]]] _]|[_ [l FR]]].
  - cbn. lia.
  - rewrite CM. unfold mu_sun. lra.
  - reflexivity.
  - reflexivity.
  - change (n_legs P) with 1%nat. intros [|[|i]] Hi; [|reflexivity|lia]. change (jr_eph newton j (date 0 [1] 0) = Ret (Some st)). replace (date 0 [1] 0) with 0 by (unfold date; cbn; lra). exact E.
  - change (n_legs P) with 1%nat. intros [|i] Hi; [|lia]. rewrite CM. cbn [nth]. apply leg_far; [exact F|rewrite NB; lra|lra].
  - change (n_legs P) with 1%nat in Hi. destruct i as [|i]; [|lia]. exfalso. cbn [pl fst] in V1. unfold cross in V1. cbn [vx vy vz] in V1. assert (0 < r * q) by (apply Rmult_lt_0_compat; assumption). unfold r in *. nra.
  - exists P, x, l, j. split; [reflexivity|]. split; [left; reflexivity|]. split; [|split; [|split; [exact FR|]]].
    + unfold mga_ok. change (n_legs P) with 1%nat. cbn. split; [lia|]. split; [lra|]. split; [intros i Hi; lia|]. split; [reflexivity|exact I].
    + unfold in_box, get_bounds, x. cbn. split; repeat constructor; lra.
    + intros per units N ids pic HP HN. apply (mga_outer per P x units N ids "uranus" j J ltac:(left; reflexivity) ltac:(left; reflexivity) HP HN).
Qed.

(** ** the Cassini problems *)
Theorem cassini_picture tol tof P x t0 T dv units N ids sel : tof = tofs_direct \/ tof = tofs_alpha \/ tof = tofs_eta -> cassini_with newton tof = Ret P -> in_box (get_bounds P) x ->
  durations (enc_of tof) x t0 T -> List.length T = 5%nat -> all_within tol P t0 T -> fitness P x = Ret [Some dv] -> units <> 0 -> (2 <= N)%Z -> asked_legs 5 ids sel ->
  let pof b := match default_period (b_eph b) (b_muc b) with Ret T => T | _ => 0 end in
  exists pic pl vo vi, mga_plot (fun b => default_period (b_eph b) (b_muc b)) P x units N ids = Ret pic /\ tour (fun _ _ => tol) P t0 T pl vo vi /\ tour_cost P pl vo vi dv /\ tour_picture P pof pl vo vi units N 60 sel pic.
Proof.
  intros C HP B D LT AS FI U HN SEL pof. destruct (cassini_total newton NOK tof C) as [P' [HP' [OK [NL [MT [_ [_ [_ [CM [_ [_ _]]]]]]]]]]]. rewrite HP in HP'. assert (P' = P) by congruence. subst P'.
  destruct (mga_picture (fun b => default_period (b_eph b) (b_muc b)) units N U HN tol P pof x t0 T ids sel dv []) as [pic [pl [vo [vi [E [TO [TC TP]]]]]]]; try assumption.
  - rewrite MT. exact D.
  - rewrite NL. exact LT.
  - destruct (seq_ret newton) as [bs H]. assert (MS : m_seq P = bs).
    { unfold cassini_with in HP. rewrite H in HP. cbn [bind] in HP. apply ctor_accepts in HP. apply HP. }
    rewrite MS. intros b Hb. destruct (seq_nth newton bs H) as [LB NB]. destruct (In_nth _ _ b0 Hb) as [i [Hi <-]]. rewrite LB in Hi. destruct (NB i Hi) as [j [J Q]]. rewrite Q. unfold pof. cbn [jr_body b_eph b_muc].
    destruct (jpl_period _ j J) as [Tj [E [_ [K _]]]]. rewrite E. split; [reflexivity|]. apply K. rewrite (names_lower i) by exact Hi. intros O.
    do 6 (destruct i as [|i]; [destruct O as [O|O]; discriminate O|]). lia.
  - rewrite NL. exact SEL.
  - exists pic, pl, vo, vi. split; [exact E|]. split; [exact TO|]. split; [exact TC|exact TP].
Qed.

(** ** direct methods *)
Definition skewed (units : R) (r : vec) : vec := V (vx r / au) (vy r / units) (vz r / units).
Lemma end_dot_at r units : units <> 0 -> end_dot r units = Ret (Point (skewed units r)).
Proof. intros U. unfold end_dot. rewrite !pdiv_some by (exact U || exact au_nz). reflexivity. Qed.
Lemma div_eq a u w : u <> 0 -> w <> 0 -> (a / u = a / w <-> u = w \/ a = 0).
Proof.
  intros U W. split; [|intros [->| ->]; [reflexivity|unfold Rdiv; ring]]. intros H. destruct (Req_dec a 0) as [A|A]; [right; exact A|left].
  apply (Rmult_eq_reg_l a); [|exact A]. assert (Q : a / w * (u * w) = a / u * (u * w)) by (rewrite H; reflexivity). replace (a / w * (u * w)) with (a * u) in Q by (field; exact W). replace (a / u * (u * w)) with (a * w) in Q by (field; exact U). exact Q.
Qed.
Lemma skew_right units r : units <> 0 -> (skewed units r = shown units r <-> units = au \/ vx r = 0).
Proof.
  intros U. unfold skewed, shown. pose proof (div_eq (vx r) au units au_nz U) as D. split.
  - intros H. injection H as H. destruct (proj1 D H) as [Q|Q]; [left; symmetry; exact Q|right; exact Q].
  - intros H. f_equal. apply D. destruct H as [Q|Q]; [left; symmetry; exact Q|right; exact Q].
Qed.
Lemma shown_right units r : units <> 0 -> (shown au r = shown units r <-> units = au \/ r = vzero).
Proof.
  intros U. unfold shown. pose proof (div_eq (vx r) au units au_nz U) as D0. pose proof (div_eq (vy r) au units au_nz U) as D1. pose proof (div_eq (vz r) au units au_nz U) as D2. split.
  - intros H. injection H as H0 H1 H2. destruct (Req_dec units au) as [Q|Q]; [left; exact Q|right]. destruct (proj1 D0 H0) as [C|C0]; [congruence|]. destruct (proj1 D1 H1) as [C|C1]; [congruence|]. destruct (proj1 D2 H2) as [C|C2]; [congruence|].
    destruct r as [a b c]. cbn in *. subst. reflexivity.
  - intros [->| ->]; [reflexivity|]. unfold vzero. cbn. f_equal; unfold Rdiv; ring.
Qed.
Lemma shown_au r : skewed au r = shown au r. Proof. reflexivity. Qed.

Lemma leg_drawn_at l y units N sm sg st : proper l -> leg_mismatch (safe_arc l) l y -> units <> 0 -> (2 <= N)%Z -> (sm = true \/ st = true -> 0 < s_fwd l /\ 0 < s_bck l)%Z ->
  exists pf pb f b, add_sf_leg newton l units N sm sg st = Ret (f, b) /\ y = minus7 pf pb /\
    half_ok l units N sm sg st 1 (firstn (Z.to_nat (s_fwd l)) (throttles (Z.to_nat (s_nseg l)) (s_thr l))) (s_rvs l, s_ms l) pf f /\
    half_ok l units N sm sg st (-1) (rev (skipn (Z.to_nat (s_fwd l)) (throttles (Z.to_nat (s_nseg l)) (s_thr l)))) (s_rvf l, s_mf l) pb b.
Proof.
  intros P [pf [pb [F [B ->]]]] U HN SH. destruct (sf_leg_drawn newton l pf pb units N sm sg st NOK P U HN F B SH) as [f [b [E [A C]]]]. exists pf, pb, f, b. split; [exact E|]. split; [reflexivity|]. split; assumption.
Qed.
Theorem p2p_picture P mf th tof y units N sm sg st : p2p_ok P -> List.length th = (3 * p_nseg P)%nat -> 0 < mf -> 0 < tof -> units <> 0 -> (2 <= N)%Z ->
  let l := p2p_of P mf th tof in leg_mismatch (safe_arc l) l y -> (sm = true \/ st = true -> 0 < s_fwd l /\ 0 < s_bck l)%Z ->
  exists a b pf pb f g, p2p_plot newton P (mf :: th ++ [tof]) units N sm sg st = Ret ([Point a; Point b], (f, g)) /\ y = minus7 pf pb /\
    half_ok l units N sm sg st 1 (firstn (Z.to_nat (s_fwd l)) (throttles (p_nseg P) th)) (p_rvs P, p_ms P) pf f /\
    half_ok l units N sm sg st (-1) (rev (skipn (Z.to_nat (s_fwd l)) (throttles (p_nseg P) th))) (p_rvf P, mf) pb g /\
    (a = shown units (fst (p_rvs P)) <-> units = au \/ vx (fst (p_rvs P)) = 0) /\ (b = shown units (fst (p_rvf P)) <-> units = au \/ vx (fst (p_rvf P)) = 0).
Proof.
  intros OK L Mf Tf U HN l LM SH. pose proof (p2p_of_proper P mf th tof OK L Mf Tf) as Pr. fold l in Pr. destruct (leg_drawn_at l y units N sm sg st Pr LM U HN SH) as [pf [pb [f [g [E [Y [A B]]]]]]].
  exists (skewed units (fst (p_rvs P))), (skewed units (fst (p_rvf P))), pf, pb, f, g. split.
  - unfold p2p_plot. rewrite (p2p_leg_at P mf th tof) by (apply OK || assumption). fold l. cbn [bind]. change (s_rvs l) with (p_rvs P). change (s_rvf l) with (p_rvf P). rewrite !end_dot_at by exact U. cbn [bind]. rewrite E. reflexivity.
  - split; [exact Y|]. change (Z.to_nat (s_nseg l)) with (Z.to_nat (Z.of_nat (p_nseg P))) in A, B. rewrite Nat2Z.id in A, B. split; [exact A|]. split; [exact B|]. split; apply skew_right; exact U.
Qed.
Theorem pl2pl_picture P t0 mf us uf th tof s f Ts Tf y units N sm sg st : pl2pl_ok P -> List.length th = (3 * q_nseg P)%nat -> 0 < mf -> 0 < tof -> units <> 0 -> (2 <= N)%Z ->
  q_ephs P t0 = Ret (Some s) -> q_ephf P (t0 + tof) = Ret (Some f) -> known_for (q_ephs P) Ts -> known_for (q_ephf P) Tf ->
  let l := pl2pl_of P s f mf us uf th tof in leg_mismatch (safe_arc l) l y -> (sm = true \/ st = true -> 0 < s_fwd l /\ 0 < s_bck l)%Z ->
  exists a b c d cs cf pf pb h g, pl2pl_plot newton P (Ret Ts) (Ret Tf) ([t0; mf; vx us; vy us; vz us; vx uf; vy uf; vz uf] ++ th ++ [tof]) units N sm sg st = Ret ([Point a; Point b; Point c; Path cs; Point d; Path cf], (h, g)) /\ y = minus7 pf pb /\
    half_ok l units N sm sg st 1 (firstn (Z.to_nat (s_fwd l)) (throttles (q_nseg P) th)) ((fst s, vadd (snd s) us), q_ms P) pf h /\
    half_ok l units N sm sg st (-1) (rev (skipn (Z.to_nat (s_fwd l)) (throttles (q_nseg P) th))) ((fst f, vadd (snd f) uf), mf) pb g /\
    (a = shown units (fst s) <-> units = au \/ vx (fst s) = 0) /\ (b = shown units (fst f) <-> units = au \/ vx (fst f) = 0) /\
    (c = shown units (fst s) <-> units = au \/ fst s = vzero) /\ (d = shown units (fst f) <-> units = au \/ fst f = vzero) /\
    orbit_curve (q_ephs P) Ts au 60 cs /\ orbit_curve (q_ephf P) Tf au 60 cf.
Proof.
  intros OK L Mf Tff U HN Es Ef Ks Kf l LM SH. pose proof OK as [ON [OC [OM [OU [OT [OI _]]]]]].
  assert (Pr : proper l) by (apply direct_proper; assumption). destruct (leg_drawn_at l y units N sm sg st Pr LM U HN SH) as [pf [pb [h [g [E [Y [A B]]]]]]].
  destruct (orbit_drawn (q_ephs P) Ts au 60 (Ret Ts) Ks eq_refl au_nz ltac:(lia)) as [cs [D1 C1]]. destruct (orbit_drawn (q_ephf P) Tf au 60 (Ret Tf) Kf eq_refl au_nz ltac:(lia)) as [cf [D2 C2]].
  exists (skewed units (fst s)), (skewed units (fst f)), (shown au (fst s)), (shown au (fst f)), cs, cf, pf, pb, h, g. split.
  - change ([t0; mf; vx us; vy us; vz us; vx uf; vy uf; vz uf] ++ th ++ [tof])%list with (pl_vec t0 mf us uf th tof). unfold pl2pl_plot. rewrite (pl_leg_at P t0 mf us uf th tof s f) by assumption. cbn [bind number fst]. fold l.
    change (fst (s_rvs l)) with (fst s). change (fst (s_rvf l)) with (fst f). rewrite !end_dot_at by exact U. cbn [bind]. rewrite pl_last. cbn [pl_vec app py_get nth_error bind].
    unfold draw_body. change r_AU with au. rewrite D1, D2. unfold add_planet. cbn [plotted_of pp_eph]. rewrite Es, Ef. cbn [bind number]. rewrite !vdiv_shown by exact au_nz. cbn [bind]. rewrite E. reflexivity.
  - split; [exact Y|]. change (Z.to_nat (s_nseg l)) with (Z.to_nat (Z.of_nat (q_nseg P))) in A, B. rewrite Nat2Z.id in A, B. split; [exact A|]. split; [exact B|].
    split; [apply skew_right; exact U|]. split; [apply skew_right; exact U|]. split; [apply shown_right; exact U|]. split; [apply shown_right; exact U|]. split; assumption.
Qed.
(** one thrusting segment, in metres *)
Theorem p2p_units_witness : exists X a rest d, p2p_ok (wit_p2p X) /\ p2p_plot newton (wit_p2p X) [exp (- (1 / 10)); -1; 0; 0; PI / 86400] 1 10 false false false = Ret (Point a :: rest, d) /\ a <> shown 1 (fst (p_rvs (wit_p2p X))).
Proof.
  destruct wit_leg_good as [X LM]. pose proof (wit_p2p_ok X) as K. pose proof PI_RGT_0.
  destruct (p2p_picture (wit_p2p X) (exp (- (1 / 10))) [-1; 0; 0] (PI / 86400) ((vzero, vzero), 0) 1 10 false false false K eq_refl (exp_pos _) ltac:(lra) ltac:(lra) ltac:(lia)) as [a [b [pf [pb [f [g [E [_ [_ [_ [A _]]]]]]]]]]].
  - rewrite wit_p2p_leg. unfold safe_arc. fold (leg_dt (wit_leg X)). rewrite wit_dt. exact LM.
  - intros [Q|Q]; discriminate.
  - exists X, a, [Point b], (f, g). split; [exact K|]. split; [exact E|]. intros Q. destruct (proj1 A Q) as [C|C]; [unfold au in C; lra|cbn in C; lra].
Qed.
Theorem pl2pl_units_witness : exists P Ts Tf z a b c rest d, pl2pl_ok P /\ pl2pl_plot newton P (Ret Ts) (Ret Tf) z 1 10 false false false = Ret (Point a :: Point b :: Point c :: rest, d) /\
  q_ephs P 0 = Ret (Some (V 1 0 0, V 0 1 0)) /\ nth 0 z 1 = 0 /\ a <> V 1 0 0 /\ c <> V 1 0 0.
Proof.
  destruct wit_leg_good as [X LM]. set (ef := fun _ : R => @Ret (option state) (Some X)). pose proof (wit_pl_ok ef) as K. pose proof PI_RGT_0.
  destruct (pl2pl_picture (wit_pl ef) 0 (exp (- (1 / 10))) vzero vzero [-1; 0; 0] (PI / 86400) (V 1 0 0, V 0 1 0) X 1 1 ((vzero, vzero), 0) 1 10 false false false K eq_refl (exp_pos _) ltac:(lra) ltac:(lra) ltac:(lia))
    as [a [b [c [d [cs [cf [pf [pb [h [g [E [_ [_ [_ [A [_ [C _]]]]]]]]]]]]]]]]].
  - cbn [wit_pl q_ephs]. unfold circle_eph. rewrite circle_0. reflexivity.
  - reflexivity.
  - split; [lra|]. intros t _. eexists. reflexivity.
  - split; [lra|]. intros t _. eexists. reflexivity.
  - rewrite wit_pl_leg. unfold safe_arc. fold (leg_dt (wit_leg X)). rewrite wit_dt. exact LM.
  - intros [Q|Q]; discriminate.
  - assert (S1 : shown 1 (fst (V 1 0 0, V 0 1 0)) = V 1 0 0) by (unfold shown; cbn; f_equal; field). rewrite S1 in A, C.
    eexists (wit_pl ef), 1, 1, _, a, b, c, _, _. split; [exact K|]. split; [exact E|]. split; [cbn [wit_pl q_ephs]; unfold circle_eph; rewrite circle_0; reflexivity|]. split; [reflexivity|]. split.
    + intros Q. destruct (proj1 A Q) as [W|W]; [unfold au in W; lra|cbn in W; lra].
    + intros Q. destruct (proj1 C Q) as [W|W]; [unfold au in W; lra|cbn in W; injection W; lra].
Qed.
End Newton.

(** ** two legs, of which the second is asked for, with five points per orbit *)
Lemma ex_picture : exists pic pl vo vi, mga_plot (fun _ => Ret 1) ex_P ex_x 25 5 [-1]%Z = Ret pic /\ List.length pic = 8%nat /\ pl 0%nat = ex_pl 0 /\ tour (fun _ _ => 0) ex_P 0 [leg_time / 86400; leg_time / 86400] pl vo vi /\
  tour_picture ex_P (fun _ => 1) pl vo vi 25 5 60 [1%nat] pic.
Proof.
  destruct (mga_picture (fun _ => Ret 1) 25 5 ltac:(lra) ltac:(lia) 0 ex_P (fun _ => 1) ex_x 0 [leg_time / 86400; leg_time / 86400] [-1]%Z [1%nat] (12 + 16 * sqrt 3) [Some (2 * leg_time / 86400)]) as [pic [pl [vo [vi [E [TO [_ TP]]]]]]].
  - exact ex_ok.
  - exact ex_durations.
  - reflexivity.
  - apply ex_solved.
  - exact ex_fitness.
  - intros b Hb. split; [reflexivity|]. split; [lra|]. intros t _. cbn [ex_P m_seq In] in Hb. destruct Hb as [<-|[<-|[<-|[]]]]; eexists; reflexivity.
  - cbn. constructor; [split; [cbn; lia|right; reflexivity]|constructor].
  - exists pic, pl, vo, vi. split; [exact E|]. split; [|split; [|split; [exact TO|exact TP]]].
    + destruct TP as [cs [arcs [-> [_ F]]]]. change (n_legs ex_P) with 2%nat. pose proof (F2_length _ _ _ F) as L. cbn [List.length] in L. rewrite app_length. cbn [List.length app flat_map seq]. rewrite map_length, <- L. reflexivity.
    + destruct TO as [EP _]. pose proof (EP 0%nat ltac:(cbn; lia)) as Q. change (Ret (Some (ex_pl 0)) = Ret (Some (pl 0%nat))) in Q. generalize dependent (pl 0%nat). generalize (ex_pl 0). intros u w Q. injection Q as Q. symmetry. exact Q.
Qed.
(** the number of points asked for is not that of the arcs *)
Lemma points_witness : exists P x N pic pts, mga_plot (fun _ => Ret 1) P x 25 N [] = Ret pic /\ mga_ok P /\ N = 5%Z /\ nth_error pic (2 * S (n_legs P) + 1) = Some (Path pts) /\ List.length pts = 60%nat.
Proof.
  destruct (mga_picture (fun _ => Ret 1) 25 5 ltac:(lra) ltac:(lia) 0 ex_P (fun _ => 1) ex_x 0 [leg_time / 86400; leg_time / 86400] [] [0; 1]%nat (12 + 16 * sqrt 3) [Some (2 * leg_time / 86400)]) as [pic [pl [vo [vi [E [TO [_ TP]]]]]]].
  - exact ex_ok.
  - exact ex_durations.
  - reflexivity.
  - apply ex_solved.
  - exact ex_fitness.
  - intros b Hb. split; [reflexivity|]. split; [lra|]. intros t _. cbn [ex_P m_seq In] in Hb. destruct Hb as [<-|[<-|[<-|[]]]]; eexists; reflexivity.
  - reflexivity.
  - destruct TP as [cs [arcs [Q [_ F]]]]. inversion F as [|i0 pts l0 arcs' [th [t [LP _]]] F1]; subst. eexists ex_P, ex_x, 5%Z, _, pts. split; [exact E|]. split; [exact ex_ok|]. split; [reflexivity|]. split; [reflexivity|exact LP].
Qed.
