(** * When the cost of a tour is NaN *)
From Coq Require Import Reals List ZArith Lra Lia Psatz.
From Verif Require Import Outcome PartialReal Vec3 RealLib KepModel KepSpec TwoBodySpec TwoBodyModel KplaModel FlybyModel FlybySpec FlybyProofs LambertModel LambertReal LambertSpec LambertVec LambertProofs LambertMain LambertConv LambertNear LambertRevsSpec LambertTof LambertMono LambertLong LambertShort LambertNormal MgaModel MgaSpec DirectSpec MgaFitModel MgaFitSpec MgaFitProofs MgaFitMain MgaTotal MgaRangeSpec MgaRange.
Import ListNotations.
Open Scope R_scope.

(** the run of the fitness, opened *)
Lemma fit_open P x t0 T pl l : (2 <= length (m_seq P))%nat -> durations (enc_of (m_tofs P)) x t0 T -> length T = n_legs P ->
  (forall i, (i <= n_legs P)%nat -> b_eph (nth i (m_seq P) b0) (date t0 T i) = Ret (Some (pl i))) -> fitness P x = Ret l ->
  exists lps fbs launch arr, length lps = n_legs P /\
    (forall i, (i < n_legs P)%nat -> exists L v0 v1 l0 l1, lambert_r (fst (pl i)) (fst (pl (S i))) (nth i T 0 * 86400) (common_mu P) false 0 = Ret L /\ l_v0 L = v0 :: l0 /\ l_v1 L = v1 :: l1 /\ nth i lps lleg0 = mk_lleg (Some (fst (pl i))) (optv v0) (optv v1)) /\
    l = oadd (oadd (Some launch) (fold_left oadd fbs (Some 0))) arr :: (if m_multi P then [Some (total T)] else []) /\ length fbs = (n_legs P - 1)%nat /\
    (forall i, (S i < n_legs P)%nat -> nth i fbs None = (a <-? g_v1 (nth i lps lleg0) ;; c <-? g_v0 (nth (S i) lps lleg0) ;; fb_dv (vsub a (snd (pl (S i)))) (vsub c (snd (pl (S i)))) (b_mu (nth (S i) (m_seq P) b0)) (b_safe (nth (S i) (m_seq P) b0)))%partial) /\
    arr = (a <-? g_v1 (nth (n_legs P - 1) lps lleg0) ;; let w := norm (vsub (snd (pl (n_legs P))) a) in
           match m_ins P with None => Some w | Some (e, rp) => insertion (b_mu (nth (n_legs P) (m_seq P) b0)) e rp w end)%partial.
Proof.
  intros L2 D LT HE H. assert (NL : n_legs P = (length (m_seq P) - 1)%nat) by reflexivity. set (n := n_legs P) in *. assert (N0 : (0 < n)%nat) by lia.
  unfold fitness in H. destruct (compute_dvs P x) as [d| |] eqn:ED; cbn [bind] in H; try discriminate.
  destruct (decode_durations _ n x t0 T N0 D LT) as [DT [[r ->] [NN TT]]]. unfold compute_dvs in ED. fold n in ED. rewrite DT in ED. cbn [bind] in ED. rewrite NN in ED. cbv zeta in ED.
  destruct (all_eph (m_seq P) (cumsum 0 (t0 :: T))) as [rv| |] eqn:ER; cbn [bind] in ED; try discriminate.
  destruct (all_lambert (common_mu P) rv T) as [lps| |] eqn:EL; cbn [bind] in ED; try discriminate.
  destruct (eph_dates _ _ _ _ n L2 NL LT ER) as [LR EP]. destruct (lambert_nth _ _ _ _ EL) as [LL LN]. assert (LLn : length lps = n) by lia.
  destruct lps as [|l0 lr] eqn:ELP; [cbn in LLn; lia|]. rewrite <- ELP in *.
  injection ED as <-. cbn [bind d_launch d_fb d_arrival] in H. rewrite TT in H. cbn [bind] in H.
  assert (RS : forall i, (i <= n)%nat -> nth i rv None = Some (pl i)). { intros i Hi. pose proof (EP i Hi) as Q. rewrite (HE i Hi) in Q. injection Q as Q. symmetry. exact Q. }
  assert (LTs : length (tl (m_seq P)) = length lps) by (destruct (m_seq P); cbn in *; lia). assert (LTr : length (tl rv) = length lps) by (destruct rv; cbn in *; lia).
  destruct (flybys_nth lps _ _ LTs LTr) as [LF FN].
  assert (TLs : forall i, nth i (tl (m_seq P)) b0 = nth (S i) (m_seq P) b0) by (intros i; destruct (m_seq P); [destruct i; reflexivity|reflexivity]). assert (TLr : forall i, nth i (tl rv) None = nth (S i) rv None) by (intros i; destruct rv; [destruct i; reflexivity|reflexivity]).
  assert (Hlast : last lps l0 = nth (n - 1) lps lleg0) by (rewrite <- LLn; apply last_nth; rewrite ELP; discriminate).
  assert (Hrl : last rv None = Some (pl n)) by (rewrite (last_nth rv None None) by (intros Q; rewrite Q in LR; discriminate); rewrite LR; replace (S n - 1)%nat with n by lia; apply RS; lia).
  assert (Hbl : last (m_seq P) b0 = nth n (m_seq P) b0) by (rewrite (last_nth _ b0 b0) by (intros Q; rewrite Q in L2; cbn in L2; lia); f_equal; lia).
  rewrite Hlast, Hrl, Hbl in H. cbn [vel3] in H.
  set (tot := py_max0 _) in H. assert (HT : exists la, tot = Some la) by (unfold tot, py_max0; destruct (oadd _ _); eexists; reflexivity). destruct HT as [la HT]. rewrite HT in H.
  exists lps, (all_flybys lps (tl (m_seq P)) (tl rv)), la. eexists. split; [exact LLn|]. split; [|split; [|split; [lia|split]]].
  - intros i Hi. destruct (LN i ltac:(lia)) as [_ [L [v0 [v1 [q0 [q1 [E [E0 [E1 E2]]]]]]]]]. rewrite (RS i), (RS (S i)) in E by lia. rewrite (RS i) in E2 by lia. cbn [pos3] in E, E2. rewrite optv_sv in E2. exists L, v0, v1, q0, q1. split; [exact E|]. split; [exact E0|]. split; [exact E1|exact E2].
  - symmetry. destruct (m_multi P); injection H as H; exact H.
  - intros i Hi. rewrite (FN i) by lia. rewrite TLs, TLr, (RS (S i)) by lia. cbn [vel3]. destruct (g_v1 (nth i lps lleg0)) as [a|]; cbn [osub obind]; [|reflexivity]. destruct (g_v0 (nth (S i) lps lleg0)) as [c|]; reflexivity.
  - destruct (g_v1 (nth (n - 1) lps lleg0)) as [a|]; destruct (m_ins P) as [[e rp]|]; reflexivity.
Qed.
Lemma oadd_none a b : oadd a b = None -> a = None \/ b = None.
Proof. destruct a, b; cbn; intros; try discriminate; tauto. Qed.
Lemma osum_none : forall l a, fold_left oadd l a = None -> a = None \/ exists i, (i < length l)%nat /\ nth i l None = None.
Proof.
  induction l as [|o l IH]; intros a H; [left; exact H|]. cbn [fold_left] in H. destruct (IH _ H) as [K|[i [Hi K]]]; [destruct (oadd_none _ _ K) as [Q|Q]; [left; exact Q|]|].
  - right. exists 0%nat. split; [cbn; lia|exact Q].
  - right. exists (S i). split; [cbn; lia|exact K].
Qed.
Lemma insertion_some mu e rp w : 0 < mu -> 0 < rp -> 0 <= e -> insertion mu e rp w <> None.
Proof.
  intros M Q E. unfold insertion. rewrite pdiv_some by lra. cbn [obind]. assert (Q0 : 0 < mu / rp) by (apply Rdiv_lt_0_compat; assumption). assert (W0 : 0 <= w * w) by nra.
  replace (2 * mu / rp) with (2 * (mu / rp)) by (field; lra). rewrite psqrt_some by lra. cbn [obind]. rewrite pdiv_some by lra. cbn [obind]. rewrite psqrt_some by nra. discriminate.
Qed.
Lemma vsub_zero a b : norm (vsub a b) = 0 -> a = b.
Proof. intros H. apply norm_zero in H. destruct a, b. unfold vsub, vzero in H. injection H as A B C. f_equal; lra. Qed.
Lemma norm_ne a : norm a <> 0 -> a <> vzero.
Proof. intros H ->. apply H. apply norm_vzero. Qed.
(** a leg in range returns numbers *)
Lemma range_velocities mu a b t L : 0 < mu -> in_range mu a b t -> lambert_r a b t mu false 0 = Ret L ->
  exists u w l0 l1, l_v0 L = sv u :: l0 /\ l_v1 L = sv w :: l1 /\ MgaFitSpec.transfer mu (4 / 100000000 * t) a b t u w.
Proof.
  intros Hm HR HL. destruct (range_leg _ _ _ _ Hm HR) as [_ [_ [Ht [_ C]]]]. destruct HR as [Hc [TP H]]. assert (M : (0 <= 0 < u32)%Z) by (unfold u32; lia).
  destruct (range_iterations _ _ (lam_small a b false Hc) TP H) as [_ [x [k [E [X [X1 R]]]]]].
  destruct (first_entry a b t mu false 0 L Hc M HL) as [x2 [k2 [HH [HX2 _]]]]. rewrite E in HH. injection HH as <- <-.
  destruct (lambert_both a b t mu L x Hc HL HX2 X) as [u [w [A [B _]]]]. destruct (l_v0 L) as [|w0 l0] eqn:E0; [discriminate|]. destruct (l_v1 L) as [|w1 l1] eqn:E1; [discriminate|]. cbn in A, B. injection A as ->. injection B as ->.
  exists u, w, l0, l1. split; [reflexivity|]. split; [reflexivity|]. destruct (leg_transfer _ a b t mu L _ w _ _ HL E0 E1 C) as [_ [u' [EU TR]]]. apply sv_inj in EU. subst u'. exact TR.
Qed.
Theorem range_nan tol P x t0 T pl rest : mga_ok P -> 0 < common_mu P -> durations (enc_of (m_tofs P)) x t0 T -> length T = n_legs P ->
  (forall i, (i <= n_legs P)%nat -> b_eph (nth i (m_seq P) b0) (date t0 T i) = Ret (Some (pl i))) ->
  (forall i, (i < n_legs P)%nat -> in_range (common_mu P) (fst (pl i)) (fst (pl (S i))) (nth i T 0 * 86400) /\ 4 / 100000000 * (nth i T 0 * 86400) <= tol) ->
  fitness P x = Ret (None :: rest) -> exists vo vi, tour (fun _ _ => tol) P t0 T pl vo vi /\ exists i, (S i < n_legs P)%nat /\ (vi i = snd (pl (S i)) \/ vo (S i) = snd (pl (S i))).
Proof.
  intros OK Hm D LT HE HR HF. pose proof OK as [L2 [_ [BP [_ INS]]]]. destruct (fit_open P x t0 T pl _ L2 D LT HE HF) as [lps [fbs [la [arr [LL [LEG [EL [LF [FB AR]]]]]]]]]. assert (N0 : (0 < n_legs P)%nat) by (unfold n_legs; lia).
  set (vo := fun i => ov0 (g_v0 (nth i lps lleg0))). set (vi := fun i => ov0 (g_v1 (nth i lps lleg0))).
  assert (LG : forall i, (i < n_legs P)%nat -> g_v0 (nth i lps lleg0) = Some (vo i) /\ g_v1 (nth i lps lleg0) = Some (vi i) /\ MgaFitSpec.transfer (common_mu P) tol (fst (pl i)) (fst (pl (S i))) (nth i T 0 * 86400) (vo i) (vi i)).
  { intros i Hi. destruct (LEG i Hi) as [L [v0 [v1 [l0 [l1 [E [E0 [E1 E2]]]]]]]]. destruct (HR i Hi) as [R0 R1]. destruct (range_velocities _ _ _ _ L Hm R0 E) as [u [w [q0 [q1 [F0 [F1 TR]]]]]]. rewrite E0 in F0. rewrite E1 in F1. injection F0 as -> _. injection F1 as -> _.
    unfold vo, vi. rewrite E2. cbn [g_v0 g_v1]. rewrite !optv_sv. cbn [ov0]. split; [reflexivity|]. split; [reflexivity|]. destruct TR as [A [B [t [C [F G]]]]]. split; [exact A|]. split; [exact B|]. exists t. split; [exact C|]. split; [lra|exact G]. }
  exists vo, vi. split; [split; [exact HE|intros i Hi; apply (LG i Hi)]|].
  assert (EC : oadd (oadd (Some la) (fold_left oadd fbs (Some 0))) arr = None) by (injection EL as EL _; symmetry; exact EL). destruct (oadd_none _ _ EC) as [K|K].
  - destruct (oadd_none _ _ K) as [Q|Q]; [discriminate|]. destruct (osum_none _ _ Q) as [Z|[i [Hi Z]]]; [discriminate|]. assert (Hi' : (S i < n_legs P)%nat) by lia. exists i. split; [exact Hi'|]. rewrite (FB i Hi') in Z.
    destruct (LG i ltac:(lia)) as [_ [A _]]. destruct (LG (S i) ltac:(lia)) as [B _]. rewrite A, B in Z. cbn [obind] in Z. destruct (BP (S i) ltac:(lia)) as [M SF].
    destruct (Req_EM_T (norm (vsub (vi i) (snd (pl (S i))))) 0) as [V1|V1]; [left|destruct (Req_EM_T (norm (vsub (vo (S i)) (snd (pl (S i))))) 0) as [V2|V2]; [right|]].
    + apply vsub_zero. exact V1.
    + apply vsub_zero. exact V2.
    + exfalso. destruct (dv_least _ _ _ _ (norm_ne _ V1) (norm_ne _ V2) M SF) as [d [G _]]. rewrite G in Z. discriminate.
  - exfalso. rewrite AR in K. destruct (LG (n_legs P - 1)%nat ltac:(lia)) as [_ [A _]]. rewrite A in K. cbn [obind] in K. cbv zeta in K. destruct (m_ins P) as [[e rp]|]; [|discriminate]. destruct INS as [I1 [I2 I3]]. revert K. apply insertion_some; assumption.
Qed.
(** a leg of 40000 to 1600000 units of time is enough for NaN *)
Theorem long_nan P x t0 T pl l i : (2 <= length (m_seq P))%nat -> durations (enc_of (m_tofs P)) x t0 T -> length T = n_legs P ->
  (forall i, (i <= n_legs P)%nat -> b_eph (nth i (m_seq P) b0) (date t0 T i) = Ret (Some (pl i))) -> fitness P x = Ret l ->
  (i < n_legs P)%nat -> vz (cross (fst (pl i)) (fst (pl (S i)))) <> 0 -> 40000 <= nth i T 0 * 86400 / time_unit (fst (pl i)) (fst (pl (S i))) (common_mu P) <= 1600000 ->
  l = None :: (if m_multi P then [Some (total T)] else []).
Proof.
  intros L2 D LT HE HF Hi Hc HT. destruct (fit_open P x t0 T pl _ L2 D LT HE HF) as [lps [fbs [la [arr [LL [LEG [-> [LF [FB AR]]]]]]]]]. f_equal.
  destruct (LEG i Hi) as [L [v0 [v1 [l0 [l1 [E [E0 [E1 E2]]]]]]]]. assert (M : (0 <= 0 < u32)%Z) by (unfold u32; lia). destruct (long_lost_nan _ _ _ _ false 0 L Hc M E HT) as [_ [B _]]. rewrite E1 in B. cbn in B. injection B as ->.
  assert (G : g_v1 (nth i lps lleg0) = None) by (rewrite E2; reflexivity). destruct (Nat.eq_dec (S i) (n_legs P)) as [EQ|NE].
  - assert (arr = None) as -> by (rewrite AR; replace (n_legs P - 1)%nat with i by lia; rewrite G; reflexivity). destruct (oadd (Some la) _); reflexivity.
  - assert (Z : nth i fbs None = None) by (rewrite (FB i) by lia; rewrite G; reflexivity). destruct (fold_left oadd fbs (Some 0)) as [s|] eqn:S0; [exfalso|reflexivity].
    destruct (osum_inv _ _ _ S0) as [z [r [_ [-> _]]]]. rewrite map_length in LF. rewrite (nth_indep _ None (Some 0)) in Z by (rewrite map_length; lia). rewrite (map_nth Some) in Z. discriminate.
Qed.
(** (25, 0, 0) to (7, 24, 0) and back, two units of time each way; the planet in the middle moves as fast as the spacecraft that arrives *)
Lemma back_range : in_range 32000 ex_r1 ex_r0 2.
Proof.
  assert (A : norm (vsub ex_r0 ex_r1) = 30) by (apply norm_unique; [lra|unfold dot; cbn; ring]). assert (B : norm ex_r0 = 25) by (apply norm_unique; [lra|unfold dot; cbn; ring]). assert (C : norm ex_r1 = 25) by (apply norm_unique; [lra|unfold dot; cbn; ring]).
  assert (S0 : semiperimeter ex_r1 ex_r0 = 40) by (unfold semiperimeter; rewrite A, B, C; field). assert (X : vz (cross ex_r1 ex_r0) = -600) by (cbn; ring). split; [rewrite X; lra|].
  assert (U : time_unit ex_r1 ex_r0 32000 = 1) by (unfold time_unit; rewrite S0; replace (40 * 40 * 40 / (2 * 32000)) with 1 by field; apply sqrt_1).
  assert (LA : transfer_lambda ex_r1 ex_r0 false = - (1 / 2)). { unfold transfer_lambda. rewrite A, S0, X. cbv zeta. replace (1 - 30 / 40) with ((1 / 2) * (1 / 2)) by field. rewrite sqrt_square by lra. destruct (Rlt_dec 0 _) as [H|H]; lra. }
  rewrite U, LA. cbv zeta. split; [lra|]. right. rewrite Rabs_left by lra. split; [lra|].
  assert (HL : - (1 / 2) * - (1 / 2) <= 16 / 25) by lra. destruct (a_bd (- (1 / 2)) HL) as [_ AB]. specialize (AB ltac:(lra)). unfold a0 in AB. rewrite tau_at0 in AB. pose proof PI_bd. split; lra.
Qed.
Definition moving_at (r v : vec) : body := mk_body (fun _ => Ret (Some (r, v))) 32000 1 1.
Definition there_back (v : vec) : mga := mk_mga [still ex_r0; moving_at ex_r1 v; still ex_r0] (0, 1) (TDirect [(0, 1); (0, 1)]) 0 false None.
Theorem standstill : exists P x T pl, mga_ok P /\ in_box (get_bounds P) x /\ durations (enc_of (m_tofs P)) x 0 T /\ length T = n_legs P /\
  (forall i, (i <= n_legs P)%nat -> b_eph (nth i (m_seq P) b0) (date 0 T i) = Ret (Some (pl i))) /\
  (forall i, (i < n_legs P)%nat -> in_range (common_mu P) (fst (pl i)) (fst (pl (S i))) (nth i T 0 * 86400)) /\ fitness P x = Ret [None].
Proof.
  destruct ex_normal as [L [v0 [v1 [t [HL [HV0 [HV1 _]]]]]]]. set (d := 2 / 86400). set (pl := fun i => match i with 1%nat => (ex_r1, v1) | _ => (ex_r0, vzero) end). exists (there_back v1), [0; d; d], [d; d], pl.
  assert (OK : mga_ok (there_back v1)). { unfold mga_ok, there_back, n_legs; cbn. split; [lia|]. split; [lra|]. split; [intros i Hi; assert (i = 1)%nat as -> by lia; cbn; lra|]. split; [reflexivity|exact I]. }
  assert (D : durations (enc_of (m_tofs (there_back v1))) [0; d; d] 0 [d; d]) by reflexivity.
  assert (HE : forall i, (i <= n_legs (there_back v1))%nat -> b_eph (nth i (m_seq (there_back v1)) b0) (date 0 [d; d] i) = Ret (Some (pl i))) by (intros [|[|[|i]]] Hi; [reflexivity|reflexivity|reflexivity|unfold n_legs in Hi; cbn in Hi; lia]).
  assert (HR : forall i, (i < n_legs (there_back v1))%nat -> in_range (common_mu (there_back v1)) (fst (pl i)) (fst (pl (S i))) (nth i [d; d] 0 * 86400)).
  { change (common_mu (there_back v1)) with 32000. intros [|[|i]] Hi; [| |unfold n_legs in Hi; cbn in Hi; lia]; cbn [nth pl fst]; replace (d * 86400) with 2 by (unfold d; field); [exact one_leg_range|exact back_range]. }
  split; [exact OK|]. split; [unfold in_box; cbn; repeat constructor; unfold d; lra|]. split; [exact D|]. split; [reflexivity|]. split; [exact HE|]. split; [exact HR|].
  destruct (range_fitness 1 (there_back v1) [0; d; d] 0 [d; d] pl OK ltac:(change (common_mu (there_back v1)) with 32000; lra) D eq_refl HE) as [l [HF _]]. { intros i Hi. split; [apply HR; exact Hi|]. destruct i as [|[|i]]; [| |unfold n_legs in Hi; cbn in Hi; lia]; cbn [nth]; unfold d; lra. }
  rewrite HF. destruct (fit_open (there_back v1) [0; d; d] 0 [d; d] pl l ltac:(cbn; lia) D eq_refl HE HF) as [lps [fbs [la [arr [LL [LEG [-> [LF [FB _]]]]]]]]]. do 2 f_equal.
  change (n_legs (there_back v1)) with 2%nat in *. destruct (LEG 0%nat ltac:(lia)) as [L' [w0 [w1 [l0 [l1 [E [E0 [E1 E2]]]]]]]]. change (common_mu (there_back v1)) with 32000 in E. cbn [pl fst nth] in E. replace (d * 86400) with 2 in E by (unfold d; field). rewrite HL in E. injection E as <-. rewrite E1 in HV1. cbn in HV1. injection HV1 as ->.
  specialize (FB 0%nat ltac:(lia)). rewrite E2 in FB. cbn [g_v1] in FB. rewrite optv_sv in FB. cbn [obind pl snd] in FB.
  destruct fbs as [|f [|g fbs]]; cbn in LF; try lia. cbn [nth] in FB. cbn [fold_left].
  assert (f = None) as ->; [|reflexivity]. rewrite FB. destruct (g_v0 (nth 1 lps lleg0)) as [c|]; [|reflexivity]. cbn [obind]. destruct (fb_dv _ _ _ _) as [z|] eqn:Z; [exfalso|reflexivity].
  destruct (fb_nonzero _ _ _ _ _ Z) as [N _]. apply N. destruct v1; unfold vsub, vzero; cbn; f_equal; ring.
Qed.
