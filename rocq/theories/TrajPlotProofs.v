(** * The pictures of the trajectories *)
From Coq Require Import Reals List ZArith Lra Lia Bool.
From Coquelicot Require Import Rcomplements.
From Verif Require Import Outcome PartialReal Vec3 RealLib TwoBodySpec FlowMain TwoBodyModel TwoBodyProofs KplaModel KplaProofs PlotSpec PlotModel PlotProofs PlotLambert PlotLegModel SolarModel.
From Verif Require Import LambertModel LambertReal LambertSpec LambertVec LambertProofs LambertMain MgaModel MgaSpec MgaFitModel MgaFitSpec MgaFitProofs TrajPlotModel TrajPlotSpec.
Import ListNotations.
Open Scope R_scope.

Lemma shown_scal units r : units <> 0 -> shown units r = vscal (/ units) r.
Proof. intros U. unfold shown, vscal, Rdiv. f_equal; ring. Qed.
Lemma vdiv_shown units r : units <> 0 -> vdiv units r = Some (shown units r).
Proof. intros U. rewrite shown_scal by exact U. apply vdiv_some, U. Qed.

(** ** planets *)
Lemma eph_all_in eph l : (forall t, In t l -> exists s, eph t = Ret s) -> exists m, eph_all eph l = Ret m /\ Forall2 (fun t s => eph t = Ret s) l m.
Proof.
  induction l as [|t l IH]; intros H; [exists []; split; [reflexivity|constructor]|]. destruct IH as [m [E F]]; [intros u Hu; apply H; right; exact Hu|]. destruct (H t (or_introl eq_refl)) as [s Es].
  exists (s :: m). cbn [eph_all]. rewrite Es. cbn [bind]. rewrite E. split; [reflexivity|]. constructor; assumption.
Qed.
Lemma orbit_drawn eph T units N per : known_for eph T -> per = Ret T -> units <> 0 -> (2 <= N)%Z ->
  exists pts, add_planet_orbit (plotted_of eph per) None units N = Ret (Some pts) /\ orbit_curve eph T units N pts.
Proof.
  intros [T0 K] -> U HN. rewrite (planet_orbit_default _ T) by reflexivity. destruct (linspace_ok 0 (T / 86400) N HN) as [g [G [Gl Gn]]].
  assert (NP : 0 < IZR (N - 1)) by (apply IZR_lt; lia).
  set (e := fun t => bind (eph t) (fun o => number o)).
  assert (GI : forall t, In t g -> exists s, eph t = Ret (Some s)).
  { intros t Ht. apply K. destruct (In_nth_error _ _ Ht) as [j Hj]. assert (Lj : (j < Z.to_nat N)%nat) by (rewrite <- Gl; apply nth_error_Some; congruence). rewrite (Gn j Lj) in Hj. injection Hj as <-.
    assert (J0 : 0 <= INR j) by apply pos_INR. assert (J1 : INR j <= IZR (N - 1)) by (rewrite INR_IZR_INZ; apply IZR_le; lia).
    assert (TD : 0 <= T / 86400) by lra. replace (0 + INR j * ((T / 86400 - 0) / IZR (N - 1))) with (T / 86400 * (INR j / IZR (N - 1))) by (field; lra).
    assert (Q : 0 <= INR j / IZR (N - 1) <= 1) by (split; [apply Rdiv_le_0_compat; lra|apply (Rmult_le_reg_r (IZR (N - 1))); [exact NP|]; unfold Rdiv; rewrite Rmult_assoc, Rinv_l by lra; lra]). nra. }
  destruct (eph_all_in e g) as [m [Em Fm]]; [intros t Ht; destruct (GI t Ht) as [s Es]; exists s; unfold e; rewrite Es; reflexivity|].
  exists (map (fun s : state => vscal (/ units) (fst s)) m). split; [unfold add_planet_orbit; rewrite G; cbn [bind plotted_of pp_eph_v]; fold e; rewrite Em; cbn [bind]; rewrite vdiv_all by exact U; reflexivity|].
  split; [exact (eq_trans (map_length _ m) (eq_trans (eq_sym (F2_length _ _ _ Fm)) Gl))|].
  intros j Hj. destruct (Forall2_nth _ _ _ j _ Fm (Gn j Hj)) as [s [Es Q]]. exists s. split; [|rewrite shown_scal by exact U; apply (map_nth_error (fun s : state => vscal (/ units) (fst s))); exact Es].
  replace (INR j * (T / 86400) / IZR (N - 1)) with (0 + INR j * ((T / 86400 - 0) / IZR (N - 1))) by (field; lra). unfold e in Q. destruct (eph _) as [[s'|]| |]; cbn in Q; try discriminate. congruence.
Qed.

Section Mga.
Variable per : body -> outcome R.
Variables (units : R) (N : Z).
Hypotheses (U : units <> 0) (HN : (2 <= N)%Z).
Lemma planets_drawn (pof : body -> R) : forall seq ep (pl : nat -> state), length ep = length seq ->
  (forall i, (i < length seq)%nat -> b_eph (nth i seq b0) (nth i ep 0) = Ret (Some (pl i))) ->
  (forall b, In b seq -> per b = Ret (pof b) /\ known_for (b_eph b) (pof b)) ->
  exists curves, draw_planets per seq ep units N = Ret (flat_map (fun i => [Point (shown units (fst (pl i))); Path (nth i curves [])]) (List.seq 0 (length seq))) /\
    forall i, (i < length seq)%nat -> let b := nth i seq b0 in orbit_curve (b_eph b) (pof b) units N (nth i curves []).
Proof.
  induction seq as [|b bs IH]; intros ep pl L E K; [exists []; split; [reflexivity|cbn; lia]|]. destruct ep as [|t ts]; [discriminate|].
  destruct (K b (or_introl eq_refl)) as [Kp Kk]. destruct (orbit_drawn (b_eph b) (pof b) units N (per b) Kk Kp U HN) as [pts [D C]].
  destruct (IH ts (fun i => pl (S i))) as [cs [Dc Cc]]; [cbn in L; lia|intros i Hi; exact (E (S i) ltac:(cbn; lia))|intros q Hq; apply K; right; exact Hq|].
  exists (pts :: cs). split.
  - cbn [draw_planets]. pose proof (E 0%nat ltac:(cbn; lia)) as E0. cbn [nth] in E0. unfold add_planet at 1. cbn [plotted_of pp_eph]. rewrite E0. cbn [bind number]. rewrite vdiv_shown by exact U. cbn [bind].
    fold (plotted_of (b_eph b) (per b)). rewrite D. cbn [bind number]. rewrite Dc. cbn [bind length List.seq flat_map app nth]. do 3 f_equal. rewrite <- seq_shift, flat_map_concat_map, flat_map_concat_map, map_map. reflexivity.
  - intros [|i] Hi; [exact C|]. cbn [nth]. apply (Cc i). cbn in Hi. lia.
Qed.
Lemma mapM_F2 {A B C : Type} (f : A -> outcome B) (Q : C -> B -> Prop) (S : A -> C -> Prop) l : forall sel, Forall2 S l sel -> (forall a i, S a i -> exists b, f a = Ret b /\ Q i b) ->
  exists m, mapM f l = Ret m /\ Forall2 Q sel m.
Proof.
  induction l as [|a l IH]; intros sel F H; inversion F; subst; [exists []; split; [reflexivity|constructor]|]. destruct (H _ _ H2) as [b [E Qb]]. destruct (IH _ H4 H) as [m [Em Qm]].
  exists (b :: m). cbn [mapM]. rewrite E. cbn [bind]. rewrite Em. split; [reflexivity|]. constructor; assumption.
Qed.

(** ** the whole picture *)
Theorem mga_picture tol P (pof : body -> R) x t0 T ids sel dv rest : mga_ok P -> durations (enc_of (m_tofs P)) x t0 T -> length T = n_legs P -> all_within tol P t0 T -> fitness P x = Ret (Some dv :: rest) ->
  (forall b, In b (m_seq P) -> per b = Ret (pof b) /\ known_for (b_eph b) (pof b)) -> asked_legs (n_legs P) ids sel ->
  exists pic pl vo vi, mga_plot per P x units N ids = Ret pic /\ tour (fun _ _ => tol) P t0 T pl vo vi /\ tour_cost P pl vo vi dv /\
    tour_picture P pof pl vo vi units N 60 sel pic.
Proof.
  intros OK D LT AS H K SEL. destruct (mga_core tol P x t0 T dv rest OK D LT AS H) as [[d [pl [vo [vi [ED [EE [LD [LG [TO TC]]]]]]]]] [_ [TPos MP]]].
  pose proof OK as [L2 _]. assert (NL : n_legs P = (length (m_seq P) - 1)%nat) by reflexivity. set (n := n_legs P) in *. assert (N0 : (0 < n)%nat) by lia.
  (* the Lambert problems *)
  pose proof ED as EC. unfold compute_dvs in EC. fold n in EC. destruct (decode_durations _ n x t0 T N0 D LT) as [DT [[r ->] [NN _]]]. rewrite DT in EC. cbn [bind] in EC. rewrite NN in EC. cbv zeta in EC.
  destruct (all_eph (m_seq P) (cumsum 0 (t0 :: T))) as [rv| |] eqn:ER; cbn [bind] in EC; try discriminate.
  destruct (all_lambert (common_mu P) rv T) as [lps| |] eqn:EL; cbn [bind] in EC; try discriminate.
  assert (DL : d_legs d = lps) by (destruct lps; [discriminate|]; injection EC as <-; reflexivity). clear EC.
  destruct (eph_dates _ _ _ _ n L2 NL LT ER) as [LR EP]. destruct (lambert_nth _ _ _ _ EL) as [LL LN].
  assert (RS : forall i, (i <= n)%nat -> nth i rv None = Some (pl i)).
  { intros i Hi. pose proof (EP i Hi) as A. pose proof (proj1 TO i Hi) as B. rewrite A in B. injection B as B. exact B. }
  assert (ARC : forall i, (i < n)%nat -> exists pts, draw_leg (common_mu P) units (nth i lps lleg0, nth (S i) rv None) = Ret (Path pts) /\ arc_curve (common_mu P) units (fst (pl i)) (vo i) (fst (pl (S i))) (vi i) 60 pts).
  { intros i Hi. pose proof (LG i Hi) as G. rewrite DL in G. destruct (LN i ltac:(lia)) as [_ [L [w0 [w1 [l0 [l1 [E [E0 [E1 E2]]]]]]]]]. rewrite G in E2. rewrite (RS i ltac:(lia)), (RS (S i) ltac:(lia)) in E. cbn [pos3] in E.
    injection E2 as _ V0 V1. symmetry in V0, V1. apply optv_inv in V0. apply optv_inv in V1. subst w0 w1.
    destruct (lambert_first _ _ _ _ _ _ _ E E1 (ex_intro _ (vi i) eq_refl)) as [C [_ [_ [xx X]]]].
    destruct (AS i _ _ Hi (proj1 TO i ltac:(lia)) (proj1 TO (S i) ltac:(lia)) L xx E X) as [X1 _].
    destruct (lambert_shape RA _ _ _ _ _ 0%Z _ r_u32_ok ltac:(unfold u32; lia) E) as [[q [_ [Nm _]]] [S0 _]].
    assert (l0 = []) by (rewrite E0 in S0; cbn [length] in S0; destruct l0; [reflexivity|cbn [length] in S0; lia]). subst l0.
    destruct (plot_solved _ _ _ _ 0%Z L xx (mk_lp (fst (pl i)) (fst (pl (S i))) (common_mu P) 0 [vo i]) 60%Z units C E X X1 eq_refl eq_refl eq_refl ltac:(cbn; lia)) as [pts [th [u0 [u1 [t [A1 [A2 [A3 [A4 [A5 [A6 [A7 [A8 [A9 A10]]]]]]]]]]]]]]; [cbn [lp_v0 map]; symmetry; exact E0|lia|exact U|].
    cbn [lp_v0 nth_error] in A3. injection A3 as <-. rewrite E1 in A4. cbn [nth_error] in A4. assert (u1 = vi i) by (apply sv_inj; congruence). subst u1.
    exists pts. split.
    - unfold draw_leg. cbn [fst snd]. rewrite G, (RS (S i)) by lia. unfold lp_of. cbn [g_r0 g_v0 number bind fst]. rewrite A1. reflexivity.
    - exists th, t. rewrite !shown_scal by exact U. split; [exact A2|]. split; [exact A5|]. split; [exact A6|]. split; [exact A7|]. split; [exact A8|]. split; [exact A9|].
      intros j Hj. destruct (A10 j Hj) as [tj [sj [B1 [B2 B3]]]]. exists tj, sj. split; [exact B1|]. split; [|rewrite shown_scal by exact U; exact B3]. replace (INR (60 - 1)) with (IZR (60 - 1)) by (rewrite INR_IZR_INZ; reflexivity). exact B2. }
  assert (LC : length (combine lps (tl rv)) = n) by (rewrite combine_length; destruct rv; cbn [length tl] in *; lia).
  assert (CN : forall i, (i < n)%nat -> nth_error (combine lps (tl rv)) i = Some (nth i lps lleg0, nth (S i) rv None)).
  { intros i Hi. rewrite (nth_error_nth' _ (lleg0, None)) by (rewrite LC; exact Hi). rewrite combine_nth by (destruct rv; cbn [length tl] in *; lia). do 2 f_equal. destruct rv; [cbn in LR; lia|reflexivity]. }
  assert (AR : exists arcs, match ids with [] => mapM (draw_leg (common_mu P) units) (combine lps (tl rv)) | _ => mapM (fun k => bind (py_nth (combine lps (tl rv)) k) (fun l => draw_leg (common_mu P) units l)) ids end = Ret (map Path arcs) /\
     Forall2 (fun i pts => arc_curve (common_mu P) units (fst (pl i)) (vo i) (fst (pl (S i))) (vi i) 60 pts) sel arcs).
  { assert (W : exists ms, match ids with [] => mapM (draw_leg (common_mu P) units) (combine lps (tl rv)) | _ => mapM (fun k => bind (py_nth (combine lps (tl rv)) k) (fun l => draw_leg (common_mu P) units l)) ids end = Ret ms /\
     Forall2 (fun i m => exists pts, m = Path pts /\ arc_curve (common_mu P) units (fst (pl i)) (vo i) (fst (pl (S i))) (vi i) 60 pts) sel ms).
    { destruct ids as [|k0 ks].
      - cbn [asked_legs] in SEL. subst sel. apply (mapM_F2 _ _ (fun l i => (i < n)%nat /\ l = (nth i lps lleg0, nth (S i) rv None))).
        + assert (Q : combine lps (tl rv) = map (fun i => (nth i lps lleg0, nth (S i) rv None)) (seq 0 n)).
          { apply (nth_ext _ _ (lleg0, None) (lleg0, None)); [rewrite map_length, seq_length; exact LC|]. intros i Hi. rewrite LC in Hi. rewrite (nth_error_nth _ _ _ (CN i Hi)). symmetry. apply nth_error_nth. rewrite (map_nth_error _ i (seq 0 n) (d := i)); [reflexivity|]. rewrite (nth_error_nth' _ 0%nat) by (rewrite seq_length; exact Hi). rewrite seq_nth by exact Hi. reflexivity. }
          rewrite Q. clear. assert (W : forall m s, (s + m <= n)%nat -> Forall2 (fun l i => (i < n)%nat /\ l = (nth i lps lleg0, nth (S i) rv None)) (map (fun i => (nth i lps lleg0, nth (S i) rv None)) (seq s m)) (seq s m)).
          { induction m as [|m IH]; intros s Hs; cbn [seq map]; constructor; [split; [lia|reflexivity]|apply IH; lia]. }
          apply W. lia.
        + intros l i [Hi ->]. destruct (ARC i Hi) as [pts [A B]]. exists (Path pts). split; [exact A|]. exists pts. split; [reflexivity|exact B].
      - cbn [asked_legs] in SEL. apply (mapM_F2 _ _ _ _ _ SEL). intros k i [Hi Hk]. destruct (ARC i Hi) as [pts [A B]]. exists (Path pts). split; [|exists pts; split; [reflexivity|exact B]].
        assert (PN : py_nth (combine lps (tl rv)) k = Ret (nth i lps lleg0, nth (S i) rv None)).
        { unfold py_nth. rewrite LC. assert (J : (if (k <? 0)%Z then (k + Z.of_nat n)%Z else k) = Z.of_nat i) by (destruct (Z.ltb_spec k 0); lia). rewrite J. destruct (Z.ltb_spec (Z.of_nat i) 0); [lia|]. destruct (Z.leb_spec (Z.of_nat n) (Z.of_nat i)); [lia|]. cbn [orb]. rewrite Nat2Z.id, (CN i Hi). reflexivity. }
        rewrite PN. exact A. }
    destruct W as [ms [W1 W2]]. 
    assert (CV : forall s ms, Forall2 (fun i m => exists pts, m = Path pts /\ arc_curve (common_mu P) units (fst (pl i)) (vo i) (fst (pl (S i))) (vi i) 60 pts) s ms -> exists arcs, ms = map Path arcs /\ Forall2 (fun i pts => arc_curve (common_mu P) units (fst (pl i)) (vo i) (fst (pl (S i))) (vi i) 60 pts) s arcs).
    { induction 1 as [|i m s l [pts [-> C]] _ [arcs [-> F]]]; [exists []; split; [reflexivity|constructor]|]. exists (pts :: arcs). split; [reflexivity|]. constructor; assumption. }
    destruct (CV _ _ W2) as [arcs [-> F]]. exists arcs. split; [exact W1|exact F]. }
  destruct AR as [arcs [AE AF]].
  destruct (planets_drawn pof (m_seq P) (cumsum 0 (t0 :: T)) pl) as [curves [PD PC]]; [rewrite cumsum_len; cbn [length]; lia| |exact K|].
  { intros i Hi. rewrite ep_nth by lia. apply (proj1 TO). fold n. lia. }
  eexists. exists pl, vo, vi. split; [|split; [exact TO|split; [exact TC|]]].
  - unfold mga_plot. rewrite ED. cbn [bind]. rewrite EE, ER. cbn [bind]. rewrite PD. cbn [bind]. rewrite DL. cbv zeta. rewrite AE. cbn [bind]. reflexivity.
  - exists curves, arcs. split; [replace (length (m_seq P)) with (S n) by lia; reflexivity|]. split; [|exact AF]. intros i Hi. apply PC. fold n in Hi. lia.
Qed.
End Mga.
