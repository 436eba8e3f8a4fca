(** * Proofs about the multiple gravity assist problem *)
From Coq Require Import Reals List ZArith Lra Lia Bool.
From Verif Require Import Outcome PartialReal Vec3 RealLib KepModel KepSpec TwoBodySpec BracketProofs FlowMain TwoBodyProofs TwoBodyModel ElemProofs KplaModel MgaModel MgaSpec MgaProofs FlybyModel FlybySpec FlybyProofs LambertModel LambertReal LambertSpec LambertVec LambertProofs LambertTime LambertGeo LambertSeries LambertTof LambertDer LambertMono LambertMain MgaFitModel MgaFitSpec.
Import ListNotations.
Open Scope R_scope.

(** ** One Lambert leg *)
Lemma nan_norm_l a : f_norm RA (v3sub RA a nanv) = None.
Proof. destruct a as [[[a|] [b|]] [c|]]; reflexivity. Qed.
Lemma nan_norm_r a : f_norm RA (v3sub RA nanv a) = None.
Proof. destruct a as [[[a|] [b|]] [c|]]; reflexivity. Qed.
Lemma nan_lambert a b t m cw mr L : f_norm RA (v3sub RA b a) = None -> lambert RA a b t m cw mr <> Ret L.
Proof.
  intros N. rewrite lambert_eq. destruct (f_le _ _ _); [discriminate|]. destruct (f_le _ _ _); [discriminate|]. destruct (LambertModel.f_eq _ _ _); [discriminate|].
  assert (S : semi RA a b = None) by (unfold semi; rewrite N; reflexivity). rewrite S. assert (T : nd_time RA None m t = None) by (destruct m; reflexivity). rewrite T. discriminate.
Qed.
Lemma optv_sv v : optv (sv v) = Some v. Proof. destruct v. reflexivity. Qed.
Lemma optv_inv a v : optv a = Some v -> a = sv v.
Proof. destruct a as [[[a|] [b|]] [c|]]; cbn; try discriminate. intros [= <-]. reflexivity. Qed.
Lemma sv_inj u v : sv u = sv v -> u = v.
Proof. destruct u, v. intros [= -> -> ->]. reflexivity. Qed.
Lemma plane_nan r0 r1 : cross r0 r1 = vzero -> plane RA (sv r0) (sv r1) = nan3.
Proof.
  intros C. unfold plane. cbv zeta. rewrite !norm_r.
  assert (Z : forall u, norm u = 0 -> v3div RA (sv u) (Some (norm u)) = nan3) by (intros u ->; unfold v3div, sv; cbn; rewrite !pdiv_none; reflexivity).
  assert (NC : forall v, v3cross RA nan3 v = nan3) by (intros [[[a|] [b|]] [c|]]; reflexivity). assert (CN : forall v, v3cross RA v nan3 = nan3) by (intros [[[a|] [b|]] [c|]]; reflexivity).
  assert (DN : forall a, v3div RA nan3 a = nan3) by (intros [a|]; reflexivity).
  destruct (Req_dec (norm r0) 0) as [E|E0]; [rewrite (Z r0 E), NC, DN; reflexivity|]. destruct (Req_dec (norm r1) 0) as [E|E1]; [rewrite (Z r1 E), CN, DN; reflexivity|].
  rewrite !v3div_r, v3cross_r by assumption. replace (cross (vscal (/ norm r0) r0) (vscal (/ norm r1) r1)) with (vscal (/ norm r0 * / norm r1) (cross r0 r1)) by vring. rewrite C. replace (vscal (/ norm r0 * / norm r1) vzero) with vzero by vring.
  rewrite norm_r. apply Z. apply norm_vzero.
Qed.
Lemma lambert_first r0 r1 tof mu L a v1 : lambert_r r0 r1 tof mu false 0 = Ret L -> l_v1 L = a :: v1 -> (exists v, a = sv v) ->
  vz (cross r0 r1) <> 0 /\ 0 < tof /\ 0 < mu /\ exists x, nth_error (l_x L) 0 = Some (Some x).
Proof.
  intros H E [v ->]. assert (M : (0 <= 0 < u32)%Z) by (unfold u32; lia). destruct (lambert_rejects r0 r1 tof mu false 0 M) as [RJ _].
  assert (T : 0 < tof) by (destruct (Rlt_dec 0 tof); [assumption|]; rewrite (proj2 RJ) in H by (left; lra); discriminate).
  assert (U : 0 < mu) by (destruct (Rlt_dec 0 mu); [assumption|]; rewrite (proj2 RJ) in H by (right; left; lra); discriminate).
  assert (L1 : exists x xs, l_x L = x :: xs /\ sv v = snd (vels RA (sv r0) (sv r1) (Some mu) false x)).
  { unfold lambert_r in H. rewrite lambert_eq in H. destruct (f_le _ _ _); [discriminate|]. destruct (f_le _ _ _); [discriminate|]. destruct (LambertModel.f_eq _ _ _); [discriminate|].
    destruct (f_u32 _ _); cbn [bind] in H; try discriminate. destruct (solve _ _ _ _ _ _) as [m| |]; cbn [bind] in H; try discriminate. injection H as <-. cbn [l_v1 l_x] in *. destruct (fst (fst m)) as [|x xs]; [discriminate|]. exists x, xs. split; [reflexivity|]. cbn [map] in E. injection E as E _. symmetry. exact E. }
  destruct L1 as [x [xs [X V1]]]. split; [|split; [exact T|split; [exact U|]]].
  - intros Z. assert (C : cross r0 r1 = vzero \/ cross r0 r1 <> vzero).
    { destruct (Req_dec (norm (cross r0 r1)) 0) as [N|N]; [left; apply norm_zero; exact N|right; intros Q; apply N; rewrite Q; apply norm_vzero]. }
    destruct C as [C|C]; [|rewrite (proj2 RJ) in H by (right; right; split; assumption); discriminate].
    unfold vels, frame in V1. rewrite (plane_nan _ _ C) in V1. change (f_lt RA (v3z nan3) (nat_ RA 0)) with false in V1.
    assert (NC : forall v, v3cross RA nan3 v = nan3) by (intros [[[p|] [q|]] [s|]]; reflexivity). rewrite !NC in V1. assert (DN : forall a, v3div RA nan3 a = nan3) by (intros [p|]; reflexivity). rewrite !DN in V1. cbn [flip] in V1. cbv zeta in V1. cbn [snd] in V1. rewrite v3lin_nan in V1. discriminate.
  - rewrite X. cbn [nth_error]. destruct x as [x|]; [exists x; reflexivity|]. rewrite vels_nan in V1. discriminate.
Qed.
(** the transfer of the first entry and its time *)
Lemma lambert_both r0 r1 tof mu L x : vz (cross r0 r1) <> 0 -> lambert_r r0 r1 tof mu false 0 = Ret L -> nth_error (l_x L) 0 = Some (Some x) -> -1 < x ->
  let t := tau (transfer_lambda r0 r1 false) 0 x * time_unit r0 r1 mu in
  exists v0 v1, nth_error (l_v0 L) 0 = Some (sv v0) /\ nth_error (l_v1 L) 0 = Some (sv v1) /\ flow_at mu (r0, v0) t (r1, v1) /\ (x < 1 -> 0 < t < period mu (r0, v0)).
Proof.
  intros Hc H HX X t. destruct (lambert_pos _ _ _ _ _ _ _ H) as [Ht Hm]. pose proof (time_unit_pos _ _ _ (lambert_nd _ _ Hc) Hm) as UP. set (lam := transfer_lambda r0 r1 false) in *.
  assert (L1 : lam * lam < 1) by (apply (tl_sq r0 r1 false Hc)).
  destruct (lambert_flow _ _ _ _ _ _ _ _ _ Hc H HX X ltac:(intros; reflexivity)) as [v0 [v1 [A [B C]]]]. change ((Z.of_nat 0 + 1) / 2)%Z with 0%Z in C. fold lam in C. exists v0, v1. split; [exact A|]. split; [exact B|]. split; [exact C|]. unfold t.
  intros XL. destruct (lambert_conic _ _ _ _ _ _ _ _ _ Hc H HX) as [v0' [v1' [A' [_ [_ [EN _]]]]]]. rewrite A in A'. assert (V0 : v0' = v0) by (apply sv_inj; congruence). subst v0'.
    pose proof (sma_time r0 r1 mu v0 x (lambert_nd _ _ Hc) Hm (conj X XL) EN) as P. destruct (tau_revs lam L1 0 x (conj X XL)) as [U1 U2]. destruct (w_sq x (conj X XL)) as [WP W]. set (w := sqrt (1 - x * x)) in *. set (tt := tau lam 0 x) in *. set (p := period mu (r0, v0)) in *. set (tu := time_unit r0 r1 mu) in *.
    assert (W3 : 0 < w * w * w) by (repeat apply Rmult_lt_0_compat; exact WP). split.
    + apply Rmult_lt_0_compat; [|exact UP]. apply (Rmult_lt_reg_r (w * w * w)); [exact W3|]. lra.
    + apply (Rmult_lt_reg_r (w * w * w)); [exact W3|]. rewrite P. replace (tt * tu * (w * w * w)) with (tu * (tt * (w * w * w))) by ring. rewrite (Rmult_comm PI tu). apply Rmult_lt_compat_l; [exact UP|lra].
Qed.
(** the residual of the equation that the code solves *)
Lemma residual d r0 r1 tof mu L x t : vz (cross r0 r1) <> 0 -> lambert_r r0 r1 tof mu false 0 = Ret L -> -1 < x -> x2tof RA (l_lambda L) (Some x) 0 = Ret (Some t) -> Rabs (t - tof / time_unit r0 r1 mu) <= d ->
  x <> 1 /\ Rabs (tau (transfer_lambda r0 r1 false) 0 x * time_unit r0 r1 mu - tof) <= (d + 3 / 1000000000000) * time_unit r0 r1 mu /\
  (1 / 100 <= Rabs (x - 1) -> Rabs (tau (transfer_lambda r0 r1 false) 0 x * time_unit r0 r1 mu - tof) <= d * time_unit r0 r1 mu).
Proof.
  intros Hc H X E D. destruct (lambert_pos _ _ _ _ _ _ _ H) as [Ht Hm]. pose proof (time_unit_pos _ _ _ (lambert_nd _ _ Hc) Hm) as UP.
  assert (EL : l_lambda L = Some (transfer_lambda r0 r1 false)).
  { pose proof H as G. rewrite lambert_r_eq in G by assumption. destruct (r_u32 _) as [q| |]; cbn [bind] in G; try discriminate. destruct (LambertMain.solved _ _ _ _ _ _ _) as [m| |]; cbn [bind] in G; try discriminate. injection G as <-. reflexivity. }
  rewrite EL in E. set (lam := transfer_lambda r0 r1 false) in *. assert (L1 : lam * lam < 1) by (apply (tl_sq r0 r1 false Hc)).
  destruct (Req_dec x 1) as [X1|X1]; [rewrite (x2tof_one lam L1 x 0 X1) in E; discriminate E|]. split; [exact X1|].
  destruct (x2tof_tau lam L1 x 0 X X1 ltac:(reflexivity)) as [t' [T1 [T2 T3]]]. rewrite T1 in E. injection E as ->. set (u := time_unit r0 r1 mu) in *. set (q := tau lam 0 x) in *.
  assert (Q : Rabs (q * u - tof) = Rabs (q - tof / u) * u) by (rewrite <- (Rabs_right u) at 3 by lra; rewrite <- Rabs_mult; f_equal; field; lra). rewrite Q. split.
  - apply Rmult_le_compat_r; [lra|]. replace (q - tof / u) with ((t - tof / u) + - (t - q)) by ring. apply Rle_trans with (1 := Rabs_triang _ _). rewrite Rabs_Ropp. lra.
  - intros F. rewrite <- (T3 F). apply Rmult_le_compat_r; lra.
Qed.
(** what the first entry is *)
Lemma leg_transfer d r0 r1 tof mu L v0 v1 l0 l1 : lambert_r r0 r1 tof mu false 0 = Ret L -> l_v0 L = v0 :: l0 -> l_v1 L = sv v1 :: l1 -> converged d r0 r1 tof mu ->
  0 < tof /\ exists u, v0 = sv u /\ transfer mu d r0 r1 tof u v1.
Proof.
  intros H E0 E1 S. destruct (lambert_first r0 r1 tof mu L _ _ H E1 (ex_intro _ v1 eq_refl)) as [C [T [U [x X]]]]. split; [exact T|].
  destruct (S L x H X) as [X1 [X9 D]].
  destruct (lambert_conic _ _ _ _ _ _ _ _ _ C H X) as [u0 [u1 [A0 [A1 [_ [EN AM]]]]]]. rewrite E0 in A0. rewrite E1 in A1. cbn [nth_error] in A0, A1. injection A0 as A0. assert (V1 : u1 = v1) by (apply sv_inj; congruence). subst u1.
  exists u0. split; [exact A0|].
  destruct (lambert_both _ _ _ _ _ _ C H X X1) as [w0 [w1 [B0 [B1 [F TT]]]]]. set (t := tau _ 0 x * _) in *. rewrite E0, A0 in B0. rewrite E1 in B1. cbn [nth_error] in B0, B1. assert (W0 : w0 = u0) by (apply sv_inj; congruence). assert (W1 : w1 = v1) by (apply sv_inj; congruence). subst w0 w1.
  pose proof (lambert_nd _ _ C) as SP.
  assert (P : energy mu (r0, u0) < 0 -> 0 < t < period mu (r0, u0)).
  { intros EL. rewrite EN in EL. apply TT. destruct (Rlt_dec x 1); [assumption|]. exfalso. assert (Q2 : 0 <= - mu * (1 - x * x) / semiperimeter r0 r1); [|lra]. unfold Rdiv. apply Rmult_le_pos; [replace (- mu * (1 - x * x)) with (mu * (x * x - 1)) by ring; apply Rmult_le_pos; [lra|assert (1 <= x * x) by nra; lra]|left; apply Rinv_0_lt_compat; exact SP]. }
  assert (E9 : energy mu (r0, u0) <> 0).
  { rewrite EN. unfold Rdiv. apply Rmult_integral_contrapositive_currified; [|apply Rinv_neq_0_compat; lra]. replace (- mu * (1 - x * x)) with (mu * (x - 1) * (x + 1)) by ring. repeat apply Rmult_integral_contrapositive_currified; lra. }
  rewrite Rmult_1_l in AM. split; [exact AM|]. split; [exact E9|]. exists t. split; [exact F|]. split; [exact D|exact P].
Qed.

(** ** Lists *)
Lemma eph_nth seq : forall ep rv, all_eph seq ep = Ret rv -> length rv = length seq /\ forall i, (i < length seq)%nat -> (i < length ep)%nat /\ b_eph (nth i seq b0) (nth i ep 0) = Ret (nth i rv None).
Proof.
  induction seq as [|b bs IH]; intros [|t ts] rv; cbn [all_eph]; try discriminate; try (intros [= <-]; split; [reflexivity|cbn; lia]).
  destruct (b_eph b t) as [s| |] eqn:E; cbn [bind]; try discriminate. destruct (all_eph bs ts) as [r| |] eqn:F; cbn [bind]; try discriminate. intros [= <-].
  destruct (IH ts r F) as [A B]. split; [cbn; lia|]. intros [|i] Hi; [cbn; split; [lia|exact E]|]. cbn [nth length] in *. destruct (B i ltac:(lia)). split; [lia|assumption].
Qed.
Lemma cumsum_nth T : forall acc i, (i < length T)%nat -> nth i (cumsum acc T) 0 = acc + total (firstn (S i) T).
Proof.
  induction T as [|a T IH]; intros acc [|i] Hi; cbn [length] in Hi; try lia; cbn [cumsum nth].
  - cbn. lra.
  - rewrite IH by lia. change (firstn (S (S i)) (a :: T)) with (a :: firstn (S i) T). cbn [total]. lra.
Qed.
Lemma cumsum_len T : forall acc, length (cumsum acc T) = length T.
Proof. induction T; intros acc; cbn; [reflexivity|]. rewrite IHT. reflexivity. Qed.
Lemma ep_nth t0 T i : (i <= length T)%nat -> nth i (cumsum 0 (t0 :: T)) 0 = date t0 T i.
Proof. intros H. rewrite cumsum_nth by (cbn; lia). unfold date. cbn [firstn total]. ring. Qed.
Definition lleg0 := mk_lleg None None None.
Lemma lambert_nth mu : forall rv T lps, all_lambert mu rv T = Ret lps -> length lps = (length rv - 1)%nat /\ forall i, (S i < length rv)%nat -> (i < length T)%nat /\
  exists L v0 v1 l0 l1, lambert RA (pos3 (nth i rv None)) (pos3 (nth (S i) rv None)) (Some (nth i T 0 * day2sec)) (Some mu) false 0 = Ret L /\ l_v0 L = v0 :: l0 /\ l_v1 L = v1 :: l1 /\
    nth i lps lleg0 = mk_lleg (optv (pos3 (nth i rv None))) (optv v0) (optv v1).
Proof.
  induction rv as [|a rv IH]; intros T lps; [cbn; intros [= <-]; split; [reflexivity|cbn; lia]|].
  destruct rv as [|b rv]; [cbn; intros [= <-]; split; [reflexivity|cbn; lia]|]. cbn [all_lambert]. destruct T as [|t T]; [discriminate|].
  destruct (lambert _ (pos3 a) _ _ _ _ _) as [L| |] eqn:E; cbn [bind]; try discriminate. destruct (l_v0 L) as [|v0 l0] eqn:E0; [discriminate|]. destruct (l_v1 L) as [|v1 l1] eqn:E1; [discriminate|].
  change (match rv with [] => Ret [] | _ :: _ => _ end) with (all_lambert mu (b :: rv) T). destruct (all_lambert mu (b :: rv) T) as [r| |] eqn:F; cbn [bind]; try discriminate. intros [= <-].
  destruct (IH T r F) as [A B]. split; [cbn [length] in *; lia|]. intros [|i] Hi.
  - cbn [length nth]. split; [lia|]. exists L, v0, v1, l0, l1. repeat split; assumption.
  - cbn [length] in *. destruct (B i ltac:(lia)) as [B1 B2]. split; [lia|]. exact B2.
Qed.
Lemma flybys_nth : forall lps bs rv, length bs = length lps -> length rv = length lps -> length (all_flybys lps bs rv) = (length lps - 1)%nat /\ forall i, (S i < length lps)%nat ->
  nth i (all_flybys lps bs rv) None = (v <-? osub (g_v1 (nth i lps lleg0)) (vel3 (nth i rv None)) ;; o <-? osub (g_v0 (nth (S i) lps lleg0)) (vel3 (nth i rv None)) ;; fb_dv v o (b_mu (nth i bs b0)) (b_safe (nth i bs b0)))%partial.
Proof.
  induction lps as [|a lps IH]; intros bs rv LB LR; [cbn; split; [reflexivity|lia]|]. destruct lps as [|c lps]; [cbn; split; [reflexivity|lia]|].
  destruct bs as [|b bs]; [discriminate|]. destruct rv as [|p rv]; [discriminate|]. cbn [length] in LB, LR. injection LB as LB. injection LR as LR.
  change (all_flybys (a :: c :: lps) (b :: bs) (p :: rv)) with ((i <-? osub (g_v1 a) (vel3 p) ;; o <-? osub (g_v0 c) (vel3 p) ;; fb_dv i o (b_mu b) (b_safe b))%partial :: all_flybys (c :: lps) bs rv).
  destruct (IH bs rv LB LR) as [A B]. split; [cbn [length] in *; lia|]. intros [|i] Hi; [reflexivity|]. apply B. cbn [length] in *. lia.
Qed.
Lemma oadd_inv a b s : oadd a b = Some s -> exists x y, a = Some x /\ b = Some y /\ s = x + y.
Proof. destruct a as [x|], b as [y|]; cbn; try discriminate. intros [= <-]. eauto. Qed.
Lemma osum_inv : forall l a s, fold_left oadd l a = Some s -> exists x r, a = Some x /\ l = map Some r /\ s = x + total r.
Proof.
  induction l as [|o l IH]; intros a s H.
  - exists s, []. cbn in H. subst a. repeat split. cbn. ring.
  - cbn [fold_left] in H. destruct (IH _ _ H) as [x [r [A [-> ->]]]]. destruct (oadd_inv _ _ _ A) as [p [q [-> [-> ->]]]]. exists p, (q :: r). repeat split. cbn [total]. ring.
Qed.
Lemma pysum_total l : py_sum l = total l.
Proof. unfold py_sum. assert (H : forall l a, fold_left Rplus l a = a + total l) by (induction l0 as [|x l0 IH]; intros a; cbn; [ring|rewrite IH; ring]). rewrite H. ring. Qed.
(** ** Durations *)
Lemma firstn_snoc {A} (l : list A) d i : (i < length l)%nat -> firstn (S i) l = firstn i l ++ [nth i l d].
Proof. revert i. induction l as [|a l IH]; intros i Hi; cbn in Hi; [lia|]. destruct i; [reflexivity|]. cbn [firstn nth app]. f_equal. apply IH. lia. Qed.
Lemma skipn_cons {A} (l : list A) k e r : skipn k l = e :: r -> skipn (S k) l = r.
Proof. revert l. induction k as [|k IH]; intros [|a l] H; try discriminate; [cbn in H; injection H as -> ->; reflexivity|]. cbn [skipn] in *. apply (IH l H). Qed.
Lemma eta_run dt T es : length es = length T -> (forall i, (i < length T)%nat -> nth i T 0 = (dt - total (firstn i T)) * nth i es 0) ->
  forall k, (k <= length T)%nat -> eta_loop dt (firstn k T) (skipn k es) = T.
Proof.
  intros L H. assert (G : forall n k, (k + n = length T)%nat -> eta_loop dt (firstn k T) (skipn k es) = T).
  { induction n as [|n IH]; intros k K.
    - rewrite skipn_all2 by lia. cbn. apply firstn_all2. lia.
    - destruct (skipn k es) as [|e r] eqn:E; [apply (f_equal (@length R)) in E; rewrite skipn_length in E; cbn in E; lia|]. cbn [eta_loop].
      assert (Ee : e = nth k es 0) by (rewrite <- (firstn_skipn k es) at 1; rewrite app_nth2; rewrite firstn_length; [|lia]; replace (k - Nat.min k (length es))%nat with 0%nat by lia; rewrite E; reflexivity).
      assert (Er : r = skipn (S k) es) by (symmetry; apply (skipn_cons es k e r E)).
      replace (firstn k T ++ [(dt - py_sum (firstn k T)) * e]) with (firstn (S k) T); [rewrite Er; apply IH; lia|].
      rewrite (firstn_snoc T 0 k) by lia. f_equal. f_equal. rewrite pysum_total, Ee. apply H. lia. }
  intros k K. apply (G (length T - k)%nat). lia.
Qed.
Lemma nth_map0 (f : R -> R) l i : (i < length l)%nat -> nth i (map f l) 0 = f (nth i l 0).
Proof. revert i. induction l as [|a l IH]; intros [|i] H; cbn in *; try lia; [reflexivity|]. apply IH. lia. Qed.
Lemma decode_durations e n x t0 T : (0 < n)%nat -> durations e x t0 T -> length T = n -> decode_tofs e n x = Ret T /\ (exists r, x = t0 :: r) /\ nan_tofs e x = false /\
  match e with Direct => Ret (py_sum (tl x)) | Alpha => match x with _ :: t :: _ => Ret t | _ => Throw OutOfRange end | Eta t => bind (eta2direct (Eta t) x) (fun y => Ret (py_sum (tl y))) end = Ret (total T).
Proof.
  intros N D L. destruct e as [| |dt]; cbn [durations] in D.
  - destruct D as [tot [al [-> [LA [PA [S H]]]]]]. cbn [decode_tofs nan_tofs].
    assert (ET : map (fun t => t / py_sum (map ln al) * tot) (map ln al) = T).
    { apply (nth_ext _ _ 0 0); [rewrite !map_length; exact LA|]. intros i Hi. rewrite !map_length in Hi. rewrite map_map, nth_map0 by exact Hi. rewrite H, pysum_total by lia. field. exact S. }
    split; [rewrite ET; reflexivity|]. split; [eauto|]. split.
    + rewrite pysum_total. destruct (Req_EM_T _ 0); [contradiction|]. rewrite orb_false_r. apply Bool.not_true_is_false. intros X. apply existsb_exists in X. destruct X as [a [A B]]. destruct (Rle_dec a 0); [|discriminate]. specialize (PA a A). lra.
    + f_equal. rewrite <- ET. rewrite map_map. assert (Q : forall l, total (map (fun x => ln x / py_sum (map ln al) * tot) l) = total (map ln l) / py_sum (map ln al) * tot) by (induction l as [|a l IH]; cbn [map total]; [unfold Rdiv; ring|rewrite IH; unfold Rdiv; ring]). rewrite Q, pysum_total. field. exact S.
  - subst x. cbn [decode_tofs nan_tofs tl]. repeat split; eauto. rewrite pysum_total. reflexivity.
  - destruct D as [es [-> [LE H]]]. cbn [decode_tofs nan_tofs eta2direct]. destruct n as [|m]; [lia|]. destruct es as [|e1 es]; [cbn in LE; lia|]. cbn [length] in LE.
    assert (F1 : [dt * e1] = firstn 1 T) by (rewrite (firstn_snoc T 0 0) by lia; cbn [firstn app]; rewrite (H 0%nat ltac:(lia)); cbn [firstn total nth]; f_equal; ring).
    assert (R : eta_loop dt [dt * e1] es = T) by (rewrite F1; apply (eta_run dt T (e1 :: es) ltac:(cbn; lia) H 1%nat); lia).
    destruct (length es <? m)%nat eqn:B; [apply Nat.ltb_lt in B; lia|]. rewrite firstn_all2 by lia. rewrite R. cbn [bind tl]. repeat split; eauto. rewrite pysum_total. reflexivity.
Qed.

(** ** The burns *)
Lemma launch_burn vinf w : 0 <= vinf -> least_burn (fun u => norm u <= vinf) w (Rmax 0 (norm w - vinf)).
Proof.
  intros V0. split.
  - intros u U. apply Rmax_lub; [apply norm_nonneg|]. pose proof (norm_triangle (vsub w u) u) as T. replace (vadd (vsub w u) u) with w in T by vring. lra.
  - destruct (Rle_dec (norm w) vinf) as [S|S].
    + exists w. split; [exact S|]. rewrite Rmax_left by lra. replace (vsub w w) with vzero by vring. apply norm_vzero.
    + assert (P : 0 < norm w) by lra. exists (vscal (vinf / norm w) w). assert (Q : 0 <= vinf / norm w) by (apply Rmult_le_pos; [lra|left; apply Rinv_0_lt_compat; exact P]). split.
      * rewrite norm_vscal, Rabs_right by lra. right. field. lra.
      * replace (vsub w (vscal (vinf / norm w) w)) with (vscal (1 - vinf / norm w) w) by vring. rewrite norm_vscal. assert (vinf / norm w <= 1) by (apply (Rmult_le_reg_r (norm w)); [exact P|]; unfold Rdiv; rewrite Rmult_assoc, Rinv_l by lra; lra). rewrite Rabs_right by lra. rewrite Rmax_right by lra. field. lra.
Qed.
Lemma fb_nonzero v_in v_out mu safe d : fb_dv v_in v_out mu safe = Some d -> v_in <> vzero /\ v_out <> vzero.
Proof.
  intros H. assert (G : fb_ineq v_in v_out mu safe <> None) by (intros N; unfold fb_dv in H; cbv zeta in H; rewrite N in H; discriminate).
  split; intros ->; apply G; unfold fb_ineq; cbv zeta; destruct (pdiv safe mu) as [q|]; cbn [obind]; try reflexivity.
  - replace (dot vzero vzero * dot v_out v_out) with 0 by (unfold dot, vzero; cbn [vx vy vz]; ring). rewrite psqrt_some by lra. cbn [obind]. rewrite sqrt_0, pdiv_none. reflexivity.
  - replace (dot v_in v_in * dot vzero vzero) with 0 by (unfold dot, vzero; cbn [vx vy vz]; ring). rewrite psqrt_some by lra. cbn [obind]. rewrite sqrt_0, pdiv_none. reflexivity.
Qed.
Lemma flyby_burn v_in v_out mu safe d : 0 < mu -> 0 <= safe -> fb_dv v_in v_out mu safe = Some d -> least_burn (reachable mu safe v_in) v_out d.
Proof.
  intros M S H. destruct (fb_nonzero _ _ _ _ _ H) as [A B]. destruct (dv_least v_in v_out mu safe A B M S) as [d' [H' Q]]. rewrite H in H'. injection H' as <-. exact Q.
Qed.
Lemma captured_speed mu rp e r v : 0 < mu -> 0 < rp -> 0 <= e -> captured mu rp e (r, v) -> dot v v = mu * (1 + e) / rp.
Proof.
  intros M P E [N [C A]]. cbn [fst] in N. assert (NZ : fst (r, v) <> vzero) by (cbn; intros ->; rewrite norm_vzero in N; lra).
  pose proof (p_eq mu (r, v) M NZ) as Q. unfold periapsis in A. rewrite C in A. rewrite <- norm_sq in Q. fold (ecc mu (r, v)) in Q. rewrite C in Q. unfold energy in Q. cbn [fst snd] in Q. rewrite N in Q. set (h := dot (ang_mom (r, v)) (ang_mom (r, v))) in *.
  assert (Hh : h = mu * rp * (1 + e)) by (rewrite <- A; field; lra). rewrite Hh in Q.
  replace (2 * (dot v v / 2 - mu / rp) * (mu * rp * (1 + e)) / (mu * mu)) with ((dot v v * rp / mu - 2) * (1 + e)) in Q by (field; lra).
  assert (K : (1 + e) * (dot v v * rp / mu - (1 + e)) = 0) by nra. apply Rmult_integral in K. destruct K as [K|K]; [lra|]. apply (Rmult_eq_reg_r (rp / mu)); [|apply Rgt_not_eq, Rdiv_lt_0_compat; lra]. replace (mu * (1 + e) / rp * (rp / mu)) with (1 + e) by (field; lra). replace (dot v v * (rp / mu)) with (dot v v * rp / mu) by (field; lra). lra.
Qed.
Lemma insertion_ok mu e rp w d : 0 < mu -> 0 < rp -> 0 <= e -> insertion mu e rp w = Some d -> insertion_burn mu e rp w d.
Proof.
  intros M P E H. unfold insertion in H. rewrite pdiv_some in H by lra. cbn [obind] in H.
  assert (Q0 : 0 < mu / rp) by (apply Rdiv_lt_0_compat; assumption). assert (W0 : 0 <= w * w) by nra.
  replace (2 * mu / rp) with (2 * (mu / rp)) in H by (field; lra).
  rewrite psqrt_some in H by lra. cbn [obind] in H. rewrite pdiv_some in H by lra. cbn [obind] in H. replace (2 * (mu / rp) - mu / rp * (1 - e)) with (mu / rp * (1 + e)) in H by ring. assert (Q1 : 0 < mu / rp * (1 + e)) by nra.
  rewrite psqrt_some in H by lra. cbn [obind] in H. injection H as <-.
  set (p := sqrt (w * w + 2 * (mu / rp))). set (p2 := sqrt (mu / rp * (1 + e))). assert (P1 : 0 < p) by (apply sqrt_lt_R0; lra). assert (P2 : 0 < p2) by (apply sqrt_lt_R0; lra).
  assert (S1 : p * p = w * w + 2 * (mu / rp)) by (apply sqrt_sqrt; lra). assert (S2 : p2 * p2 = mu / rp * (1 + e)) by (apply sqrt_sqrt; lra).
  split.
  - intros r v v' [N [_ En]] C. pose proof (captured_speed _ _ _ _ _ M P E C) as V'. cbn [fst snd] in *. unfold energy in En. cbn [fst snd] in En. rewrite N in En.
    assert (A : norm v = p) by (apply norm_unique; [lra|rewrite S1; lra]). assert (B : norm v' = p2) by (apply norm_unique; [lra|rewrite S2, V'; field; lra]).
    rewrite <- A, <- B. pose proof (norm_triangle (vsub v' v) v) as T1. replace (vadd (vsub v' v) v) with v' in T1 by vring. pose proof (norm_triangle (vneg (vsub v' v)) v') as T2. replace (vadd (vneg (vsub v' v)) v') with v in T2 by vring.
    replace (norm (vneg (vsub v' v))) with (norm (vsub v' v)) in T2 by (replace (vneg (vsub v' v)) with (vscal (-1) (vsub v' v)) by vring; rewrite norm_vscal, Rabs_left by lra; ring). apply Rabs_le. lra.
  - exists (V rp 0 0), (V 0 p 0), (V 0 p2 0).
    assert (NR : norm (V rp 0 0) = rp) by (apply norm_unique; [lra|unfold dot; cbn; ring]).
    split; [|split].
    + split; [exact NR|]. split; [unfold dot; cbn; ring|]. unfold energy. cbn [fst snd]. rewrite NR. unfold dot. cbn [vx vy vz]. rewrite !Rmult_0_l, Rplus_0_r, Rplus_0_l, S1. field. lra.
    + assert (AM : ang_mom (V rp 0 0, V 0 p2 0) = V 0 0 (rp * p2)) by (unfold ang_mom, cross; cbn; f_equal; ring).
      assert (EC : ecc mu (V rp 0 0, V 0 p2 0) = e).
      { unfold ecc, ecc_vec. rewrite AM. cbn [fst snd]. rewrite NR. unfold cross, vscal, vsub. cbn [vx vy vz]. apply norm_unique; [exact E|]. unfold dot. cbn [vx vy vz].
        replace (/ mu * (p2 * (rp * p2) - 0 * 0) - / rp * rp) with e; [ring|]. replace (p2 * (rp * p2) - 0 * 0) with (rp * (p2 * p2)) by ring. rewrite S2. field. lra. }
      split; [exact NR|]. split; [exact EC|]. unfold periapsis. rewrite EC, AM. unfold dot. cbn [vx vy vz]. replace (0 * 0 + 0 * 0 + rp * p2 * (rp * p2)) with (rp * rp * (p2 * p2)) by ring. rewrite S2. field. lra.
    + replace (vsub (V 0 p2 0) (V 0 p 0)) with (V 0 (p2 - p) 0) by (unfold vsub; cbn; f_equal; ring). rewrite <- Rabs_Ropp. apply norm_unique; [apply Rabs_pos|]. unfold dot. cbn [vx vy vz]. rewrite <- Rabs_mult. rewrite Rabs_right by (apply Rle_ge; apply (Rle_0_sqr (- (p - p2)))). ring.
Qed.

(** ** The fitness *)
Lemma last_nth {A} (l : list A) d d' : l <> [] -> last l d = nth (length l - 1) l d'.
Proof.
  induction l as [|a l IH]; intros H; [congruence|]. destruct l as [|b l]; [reflexivity|]. change (last (a :: b :: l) d) with (last (b :: l) d). rewrite IH by discriminate. cbn [length]. replace (S (S (length l)) - 1)%nat with (S (length l)) by lia. replace (S (length l) - 1)%nat with (length l) by lia. reflexivity.
Qed.
Lemma norm_sub a b : norm (vsub a b) = norm (vsub b a).
Proof. replace (vsub a b) with (vscal (-1) (vsub b a)) by vring. rewrite norm_vscal, Rabs_left by lra. ring. Qed.
Lemma eph_dates seq t0 T rv n : (2 <= length seq)%nat -> n = (length seq - 1)%nat -> length T = n -> all_eph seq (cumsum 0 (t0 :: T)) = Ret rv ->
  length rv = S n /\ forall i, (i <= n)%nat -> b_eph (nth i seq b0) (date t0 T i) = Ret (nth i rv None).
Proof.
  intros L -> LT H. destruct (eph_nth _ _ _ H) as [A B]. split; [lia|]. intros i Hi. destruct (B i ltac:(lia)) as [_ C]. rewrite ep_nth in C by lia. exact C.
Qed.
Definition st0 (o : option state) : state := match o with Some s => s | None => (vzero, vzero) end.
Definition ov0 (o : option vec) : vec := match o with Some v => v | None => vzero end.
(** positions are numbers, or the constructor would not have returned *)
Lemma legs_some mu rv T lps i : all_lambert mu rv T = Ret lps -> (S i < length rv)%nat -> exists a b, nth i rv None = Some a /\ nth (S i) rv None = Some b.
Proof.
  intros H Hi. destruct (lambert_nth _ _ _ _ H) as [_ B]. destruct (B i Hi) as [_ [L [v0 [v1 [l0 [l1 [E _]]]]]]].
  destruct (nth i rv None) as [a|] eqn:A; [|exfalso; revert E; apply nan_lambert; apply nan_norm_l]. destruct (nth (S i) rv None) as [b|] eqn:C; [|exfalso; revert E; apply nan_lambert; apply nan_norm_r]. exists a, b. split; reflexivity.
Qed.
(** a leg whose arrival velocity is a number *)
Lemma leg_good d mu rv T lps i v1 : all_lambert mu rv T = Ret lps -> (S i < length rv)%nat -> g_v1 (nth i lps lleg0) = Some v1 ->
  let a := fst (st0 (nth i rv None)) in let b := fst (st0 (nth (S i) rv None)) in
  converged d a b (nth i T 0 * 86400) mu ->
  0 < nth i T 0 /\ g_r0 (nth i lps lleg0) = Some a /\ exists u, g_v0 (nth i lps lleg0) = Some u /\ transfer mu d a b (nth i T 0 * 86400) u v1.
Proof.
  intros H Hi G a b C. destruct (legs_some _ _ _ _ _ H Hi) as [sa [sb [A B]]]. destruct (lambert_nth _ _ _ _ H) as [_ N]. destruct (N i Hi) as [_ [L [w0 [w1 [l0 [l1 [E [E0 [E1 E2]]]]]]]]].
  rewrite E2 in G |- *. cbn [g_r0 g_v0 g_v1] in *. apply optv_inv in G. subst w1. unfold a, b in *. rewrite A, B in *. cbn [st0 pos3] in *. rewrite optv_sv.
  destruct (leg_transfer d (fst sa) (fst sb) (nth i T 0 * 86400) mu L w0 v1 l0 l1) as [P [u [-> X]]]; [exact E|exact E0|exact E1|exact C|].
  split; [lra|]. split; [reflexivity|]. exists u. rewrite optv_sv. split; [reflexivity|]. exact X.
Qed.
Lemma mga_core tol P x t0 T dv rest : mga_ok P -> durations (enc_of (m_tofs P)) x t0 T -> length T = n_legs P -> all_within tol P t0 T -> fitness P x = Ret (Some dv :: rest) ->
  (exists d pl vo vi, compute_dvs P x = Ret d /\ d_ep d = cumsum 0 (t0 :: T) /\ length (d_legs d) = n_legs P /\
     (forall i, (i < n_legs P)%nat -> nth i (d_legs d) lleg0 = mk_lleg (Some (fst (pl i))) (Some (vo i)) (Some (vi i))) /\ tour (fun _ _ => tol) P t0 T pl vo vi /\ tour_cost P pl vo vi dv) /\ rest = (if m_multi P then [Some (total T)] else []) /\
  (forall i, (i < n_legs P)%nat -> 0 < nth i T 0) /\ 0 < common_mu P.
Proof.
  intros [L2 [VI [OK [TL INS]]]] D LT AS H. assert (NL : n_legs P = (length (m_seq P) - 1)%nat) by reflexivity. set (n := n_legs P) in *. assert (N0 : (0 < n)%nat) by lia.
  unfold fitness in H. destruct (compute_dvs P x) as [d| |] eqn:ED; cbn [bind] in H; try discriminate.
  destruct (decode_durations _ n x t0 T N0 D LT) as [DT [[r ->] [NN TT]]]. unfold compute_dvs in ED. fold n in ED. rewrite DT in ED. cbn [bind] in ED. rewrite NN in ED. cbv zeta in ED.
  destruct (all_eph (m_seq P) (cumsum 0 (t0 :: T))) as [rv| |] eqn:ER; cbn [bind] in ED; try discriminate.
  destruct (all_lambert (common_mu P) rv T) as [lps| |] eqn:EL; cbn [bind] in ED; try discriminate.
  destruct (eph_dates _ _ _ _ n L2 NL LT ER) as [LR EP]. destruct (lambert_nth _ _ _ _ EL) as [LL LN]. assert (LLn : length lps = n) by lia.
  destruct lps as [|l0 lr] eqn:ELP; [cbn in LLn; lia|]. rewrite <- ELP in *.
  assert (D5 : d_ep d = cumsum 0 (t0 :: T) /\ d_legs d = lps) by (injection ED as <-; split; reflexivity). injection ED as <-. cbn [bind d_launch d_fb d_arrival] in H. rewrite TT in H. cbn [bind] in H.
  set (arr := match m_ins P with None => _ | Some _ => _ end) in H. set (tot := (w <-? osub (vel3 (hd None rv)) (g_v0 l0) ;; Some (norm w))%partial) in H.
  assert (HD : oadd (oadd (py_max0 (oadd tot (Some (- m_vinf P)))) (fold_left oadd (all_flybys lps (tl (m_seq P)) (tl rv)) (Some 0))) arr = Some dv /\ rest = (if m_multi P then [Some (total T)] else [])).
  { destruct (m_multi P); injection H as H1 H2; split; congruence. }
  destruct HD as [HD HR]. split; [|split; [exact HR|]]. 2:{ assert (Q : forall i, (i < n)%nat -> 0 < nth i T 0 /\ 0 < common_mu P); [|split; [intros i Hi; apply (Q i Hi)|apply (Q 0%nat N0)]]. intros i Hi. destruct (LN i ltac:(lia)) as [_ [L [w0 [w1 [q0 [q1 [E _]]]]]]]. destruct (legs_some _ _ _ _ i EL ltac:(lia)) as [sa [sb [A B]]]. rewrite A, B in E. cbn [pos3] in E. destruct (lambert_pos (fst sa) (fst sb) (nth i T 0 * 86400) (common_mu P) false 0 L E). split; lra. }
  destruct (oadd_inv _ _ _ HD) as [s1 [da [HD1 [HA ->]]]]. destruct (oadd_inv _ _ _ HD1) as [dl [sf [HL [HF ->]]]]. destruct (osum_inv _ _ _ HF) as [z [df [Z0 [FB ->]]]]. injection Z0 as <-.
  assert (LTs : length (tl (m_seq P)) = length lps) by (destruct (m_seq P); cbn in *; lia). assert (LTr : length (tl rv) = length lps) by (destruct rv; cbn in *; lia).
  destruct (flybys_nth lps _ _ LTs LTr) as [LF FN]. assert (LD : length df = (n - 1)%nat) by (rewrite FB, map_length in LF; lia).
  set (pl := fun i => st0 (nth i rv None)). set (vo := fun i => ov0 (g_v0 (nth i lps lleg0))). set (vi := fun i => ov0 (g_v1 (nth i lps lleg0))).
  assert (RS : forall i, (i <= n)%nat -> nth i rv None = Some (pl i)).
  { intros [|i] Hi; unfold pl; [destruct (legs_some _ _ _ _ 0 EL ltac:(lia)) as [a [b [A _]]]; rewrite A; reflexivity|destruct (legs_some _ _ _ _ i EL ltac:(lia)) as [a [b [_ B]]]; rewrite B; reflexivity]. }
  assert (TLs : forall i, nth i (tl (m_seq P)) b0 = nth (S i) (m_seq P) b0) by (intros i; destruct (m_seq P); [destruct i; reflexivity|reflexivity]). assert (TLr : forall i, nth i (tl rv) None = nth (S i) rv None) by (intros i; destruct rv; [destruct i; reflexivity|reflexivity]).
  (* fly-bys *)
  assert (FBn : forall i, (S i < n)%nat -> exists a c, g_v1 (nth i lps lleg0) = Some a /\ g_v0 (nth (S i) lps lleg0) = Some c /\ fb_dv (vsub a (snd (pl (S i)))) (vsub c (snd (pl (S i)))) (b_mu (nth (S i) (m_seq P) b0)) (b_safe (nth (S i) (m_seq P) b0)) = Some (nth i df 0)).
  { intros i Hi. pose proof (FN i ltac:(lia)) as Q. rewrite FB in Q. rewrite (nth_indep _ None (Some 0)) in Q by (rewrite map_length; lia). rewrite (map_nth Some) in Q. rewrite TLs, TLr, (RS (S i) ltac:(lia)) in Q. cbn [vel3 osub] in Q.
    destruct (g_v1 (nth i lps lleg0)) as [a|]; cbn in Q; [|discriminate]. destruct (g_v0 (nth (S i) lps lleg0)) as [c|]; cbn in Q; [|discriminate]. exists a, c. split; [reflexivity|]. split; [reflexivity|]. symmetry. exact Q. }
  (* arrival *)
  assert (Hlast : nth (n - 1) lps lleg0 = last lps l0) by (symmetry; rewrite <- LLn; apply last_nth; rewrite ELP; discriminate).
  assert (Hrl : last rv None = Some (pl n)) by (rewrite (last_nth rv None None) by (intros Q; rewrite Q in LR; discriminate); rewrite LR; replace (S n - 1)%nat with n by lia; apply RS; lia).
  assert (Hbl : last (m_seq P) b0 = nth n (m_seq P) b0) by (rewrite (last_nth _ b0 b0) by (intros Q; rewrite Q in L2; cbn in L2; lia); f_equal; lia).
  assert (ARR : exists a, g_v1 (nth (n - 1) lps lleg0) = Some a /\ arrival_cost P (vsub a (snd (pl n))) da).
  { unfold arr in HA. rewrite Hrl, <- Hlast, Hbl in HA. cbn [vel3 osub] in HA. fold n in HA. destruct (g_v1 (nth (n - 1) lps lleg0)) as [a|]; [|destruct (m_ins P) as [[e rp]|]; cbn in HA; discriminate]. exists a. split; [reflexivity|].
    unfold arrival_cost. fold n. destruct (m_ins P) as [[e rp]|]; cbn [osub obind] in HA; rewrite norm_sub in HA.
    - destruct INS as [I1 [I2 I3]]. apply insertion_ok; assumption.
    - congruence. }
  assert (ALL1 : forall i, (i < n)%nat -> exists a, g_v1 (nth i lps lleg0) = Some a).
  { intros i Hi. destruct (Nat.eq_dec (S i) n) as [E|E]; [destruct ARR as [a [A _]]; exists a; replace i with (n - 1)%nat by lia; exact A|]. destruct (FBn i ltac:(lia)) as [a [c [A _]]]. exists a. exact A. }
  assert (LEG : forall i, (i < n)%nat -> g_v0 (nth i lps lleg0) = Some (vo i) /\ g_v1 (nth i lps lleg0) = Some (vi i) /\
     transfer (common_mu P) tol (fst (pl i)) (fst (pl (S i))) (nth i T 0 * 86400) (vo i) (vi i)).
  { intros i Hi. destruct (ALL1 i Hi) as [a A]. pose proof (EP i ltac:(lia)) as P1. rewrite (RS i ltac:(lia)) in P1. pose proof (EP (S i) ltac:(lia)) as P2. rewrite (RS (S i) ltac:(lia)) in P2.
    destruct (leg_good tol _ _ _ _ i a EL ltac:(lia) A (AS i _ _ Hi P1 P2)) as [_ [_ [u [U X]]]]. unfold vo, vi. rewrite A, U. cbn [ov0]. split; [reflexivity|]. split; [reflexivity|]. exact X. }
  assert (LG : forall i, (i < n)%nat -> nth i lps lleg0 = mk_lleg (Some (fst (pl i))) (Some (vo i)) (Some (vi i))).
  { intros i Hi. destruct (LEG i Hi) as [A [B _]]. destruct (LN i ltac:(lia)) as [_ [L [w0 [w1 [q0 [q1 [_ [_ [_ E2]]]]]]]]]. rewrite E2 in A, B |- *. cbn [g_v0 g_v1] in A, B. rewrite A, B, (RS i ltac:(lia)). cbn [pos3]. rewrite optv_sv. reflexivity. }
  assert (TP : forall i, (i <= n)%nat -> b_eph (nth i (m_seq P) b0) (date t0 T i) = Ret (Some (pl i))) by (intros i Hi; rewrite (EP i Hi), (RS i Hi); reflexivity).
  eexists. exists pl, vo, vi. split; [reflexivity|]. split; [apply D5|]. split; [rewrite (proj2 D5); exact LLn|]. split; [rewrite (proj2 D5); exact LG|]. split.
  - split; [exact TP|]. intros i Hi. apply LEG. exact Hi.
  - exists dl, da, df. split; [|split; [|split; [exact LD|split]]].
    + assert (E0 : l0 = nth 0 lps lleg0) by (rewrite ELP; reflexivity). destruct (LEG 0%nat N0) as [V0 _]. unfold tot in HL. rewrite E0, V0 in HL. assert (HDr : hd None rv = Some (pl 0%nat)) by (rewrite <- (RS 0%nat) by lia; destruct rv; reflexivity). rewrite HDr in HL. cbn in HL. injection HL as <-.
      rewrite norm_sub. apply (launch_burn (m_vinf P) (vsub (vo 0%nat) (snd (pl 0%nat))) VI).
    + intros i Hi b. fold n in Hi. destruct (FBn i Hi) as [a [c [A [C Q]]]]. destruct (OK (S i) ltac:(fold n; lia)) as [O1 O2]. unfold vi, vo. rewrite A, C. cbn [ov0]. apply flyby_burn; assumption.
    + destruct ARR as [a [A Q]]. unfold vi. fold n. rewrite A. exact Q.
    + ring.
Qed.

Theorem mga_fitness tol P x t0 T dv rest : mga_ok P -> durations (enc_of (m_tofs P)) x t0 T -> length T = n_legs P -> all_within tol P t0 T -> fitness P x = Ret (Some dv :: rest) ->
  (exists pl vo vi, tour (fun _ _ => tol) P t0 T pl vo vi /\ tour_cost P pl vo vi dv) /\ rest = (if m_multi P then [Some (total T)] else []) /\
  (forall i, (i < n_legs P)%nat -> 0 < nth i T 0).
Proof.
  intros A B C D E. destruct (mga_core tol P x t0 T dv rest A B C D E) as [[d [pl [vo [vi [_ [_ [_ [_ H]]]]]]]] [R [S _]]]. split; [exists pl, vo, vi; exact H|]. split; assumption.
Qed.

(** ** The trajectory as a planet *)
Lemma bisect_run l t k : (forall j, (j < k)%nat -> nth j l 0 < t) -> (forall j, (k <= j < length l)%nat -> t <= nth j l 0) ->
  forall f lo hi, (hi - lo < f)%nat -> (lo <= k <= hi)%nat -> (hi <= length l)%nat -> bisect f l t lo hi = k.
Proof.
  intros A B. induction f as [|f IH]; intros lo hi F K H; [lia|]. cbn [bisect]. destruct (lo <? hi)%nat eqn:E; [apply Nat.ltb_lt in E|apply Nat.ltb_ge in E; lia]. cbv zeta.
  assert (M : (lo <= (lo + hi) / 2 < hi)%nat) by (split; [apply Nat.div_le_lower_bound; lia|apply Nat.div_lt_upper_bound; lia]). set (mid := ((lo + hi) / 2)%nat) in *.
  destruct (Rlt_dec (nth mid l 0) t) as [C|C].
  - assert (mid < k)%nat by (destruct (Nat.lt_ge_cases mid k) as [|G]; [assumption|specialize (B mid ltac:(lia)); lra]). apply IH; lia.
  - assert (k <= mid)%nat by (destruct (Nat.lt_ge_cases mid k) as [G|]; [specialize (A mid G); lra|assumption]). apply IH; lia.
Qed.
Lemma bisect_spec l t k : (k <= length l)%nat -> (forall j, (j < k)%nat -> nth j l 0 < t) -> (forall j, (k <= j < length l)%nat -> t <= nth j l 0) -> bisect_left l t = k.
Proof. intros K A B. apply bisect_run; try assumption; lia. Qed.
Lemma date_S t0 T i : (i < length T)%nat -> date t0 T (S i) = date t0 T i + nth i T 0.
Proof. intros H. unfold date. rewrite (firstn_snoc T 0 i H). assert (Q : forall a b, total (a ++ b) = total a + total b) by (induction a; intros b; cbn; [ring|rewrite IHa; ring]). rewrite Q. cbn. ring. Qed.
Lemma date_mono t0 T n : length T = n -> (forall i, (i < n)%nat -> 0 < nth i T 0) -> forall i j, (i < j <= n)%nat -> date t0 T i < date t0 T j.
Proof.
  intros L H i j. induction j as [|j IH]; intros K; [lia|]. rewrite date_S by lia. specialize (H j ltac:(lia)). destruct (Nat.eq_dec i j) as [->|N]; [lra|]. specialize (IH ltac:(lia)). lra.
Qed.
Lemma bounds_len P x t0 T : mga_ok P -> durations (enc_of (m_tofs P)) x t0 T -> length T = n_legs P -> length x = length (fst (get_bounds P)).
Proof.
  intros [_ [_ [_ [TL _]]]] D LT. unfold get_bounds. destruct (m_tofs P) as [lb ub|l|te]; cbn [enc_of durations fst] in *.
  - destruct D as [tot [al [-> [LA _]]]]. cbn [app length]. rewrite repeat_length. lia.
  - subst x. cbn [app length]. rewrite map_length. lia.
  - destruct D as [es [-> [LE _]]]. cbn [app length]. rewrite repeat_length. lia.
Qed.
Lemma last_cum t0 T n : length T = n -> last (cumsum 0 (t0 :: T)) (0 + t0) = date t0 T n.
Proof. intros <-. rewrite (last_nth _ _ 0) by discriminate. rewrite cumsum_len. cbn [length]. replace (S (length T) - 1)%nat with (length T) by lia. apply ep_nth. lia. Qed.
Theorem mga_planet newton tol P x t0 T dv rest : newton_sound newton -> mga_ok P -> durations (enc_of (m_tofs P)) x t0 T -> length T = n_legs P -> all_within tol P t0 T -> fitness P x = Ret (Some dv :: rest) ->
  exists eph pl vo vi, to_planet newton P x = Ret eph /\ tour (fun _ _ => tol) P t0 T pl vo vi /\ tour_cost P pl vo vi dv /\
    (forall t, t < date t0 T 0 \/ date t0 T (n_legs P) < t -> eph t = Throw InvalidArgument) /\
    eph (date t0 T 0) = Ret (Some (fst (pl 0%nat), vo 0%nat)) /\
    (forall i t r, (i < n_legs P)%nat -> date t0 T i < t <= date t0 T (S i) -> eph t = Ret r -> exists s, r = Some s /\ flow_at (common_mu P) (fst (pl i), vo i) ((t - date t0 T i) * 86400) s /\
       (tol = 0 -> t = date t0 T (S i) -> s = (fst (pl (S i)), vi i))) /\
    (newton_ok newton -> forall i t, (i < n_legs P)%nat -> date t0 T i < t <= date t0 T (S i) ->
       (0 < energy (common_mu P) (fst (pl i), vo i) -> mean_motion (common_mu P) (fst (pl i), vo i) * ((t - date t0 T i) * 86400) <= 10 ^ 9) -> exists s, eph t = Ret (Some s)).
Proof.
  intros NS OK D LT AS H. destruct (mga_core tol P x t0 T dv rest OK D LT AS H) as [[d [pl [vo [vi [ED [EE [LL [LG [T1 TC]]]]]]]]] [_ [TP MU]]].
  set (n := n_legs P) in *. assert (N0 : (0 < n)%nat) by (destruct OK; unfold n, n_legs; lia).
  pose proof (date_mono t0 T n LT TP) as DM.
  assert (Q : to_planet newton P x = Ret (sc_eph newton (common_mu P) (d_legs d) (d_ep d))) by (unfold to_planet; rewrite <- (bounds_len P x t0 T OK D LT), Nat.eqb_refl, ED; reflexivity).
  exists (sc_eph newton (common_mu P) (d_legs d) (d_ep d)), pl, vo, vi. split; [exact Q|]. split; [exact T1|]. split; [exact TC|].
  assert (D0 : date t0 T 0 = 0 + t0) by (unfold date; cbn; ring).
  assert (EQ : forall t, sc_eph newton (common_mu P) (d_legs d) (d_ep d) t = if Rlt_dec t (date t0 T 0) then Throw InvalidArgument else if Rlt_dec (date t0 T n) t then Throw InvalidArgument else
      if Req_EM_T t (date t0 T 0) then Ret (Some (fst (pl 0%nat), vo 0%nat)) else
      match nth_error (d_legs d) (bisect_left (d_ep d) t - 1), nth_error (d_ep d) (bisect_left (d_ep d) t - 1) with
      | Some l, Some e => match g_r0 l, g_v0 l with Some r, Some v => bind (propagate_lagrangian newton (r, v) ((t - e) * day2sec) (common_mu P) false) (fun x => Ret (Some (fst x))) | _, _ => Ret None end
      | _, _ => Throw OutOfRange end).
  { intros t. unfold sc_eph. rewrite EE. pose proof (last_cum t0 T n LT) as LC. cbn [cumsum] in *. pose proof (LG 0%nat N0) as G0. destruct (d_legs d) as [|l0 lr]; [cbn in LL; lia|]. cbn [nth] in G0. rewrite G0. cbn [g_r0 g_v0 obind]. rewrite D0. rewrite LC. reflexivity. }
  assert (LE : length (d_ep d) = S n) by (rewrite EE, cumsum_len; cbn; lia).
  assert (EN : forall i, (i <= n)%nat -> nth i (d_ep d) 0 = date t0 T i) by (intros i Hi; rewrite EE; apply ep_nth; lia).
  assert (IN : forall i t, (i < n)%nat -> date t0 T i < t <= date t0 T (S i) -> sc_eph newton (common_mu P) (d_legs d) (d_ep d) t =
     bind (propagate_lagrangian newton (fst (pl i), vo i) ((t - date t0 T i) * 86400) (common_mu P) false) (fun x => Ret (Some (fst x)))).
  { intros i t Hi [A B]. assert (BI : bisect_left (d_ep d) t = S i).
    { apply bisect_spec; [lia| |].
      - intros j Hj. rewrite EN by lia. destruct (Nat.eq_dec j i) as [->|Nj]; [exact A|]. specialize (DM j i ltac:(lia)). lra.
      - intros j Hj. rewrite EN by lia. destruct (Nat.eq_dec j (S i)) as [->|Nj]; [exact B|]. specialize (DM (S i) j ltac:(lia)). lra. }
    rewrite EQ, BI. replace (S i - 1)%nat with i by lia.
    assert (G1 : date t0 T 0 < t) by (destruct i; [exact A|]; specialize (DM 0%nat (S i) ltac:(lia)); lra).
    assert (G2 : t <= date t0 T n) by (destruct (Nat.eq_dec (S i) n) as [<-|Nn]; [exact B|]; specialize (DM (S i) n ltac:(lia)); lra).
    destruct (Rlt_dec t (date t0 T 0)); [lra|]. destruct (Rlt_dec (date t0 T n) t); [lra|]. destruct (Req_EM_T t (date t0 T 0)); [lra|].
    rewrite (nth_error_nth' _ lleg0) by lia. rewrite (nth_error_nth' _ 0) by lia. rewrite (LG i Hi), EN by lia. cbn [g_r0 g_v0]. unfold day2sec. reflexivity. }
  assert (RG : forall i, (i < n)%nat -> regular (common_mu P) (fst (pl i), vo i) /\ energy (common_mu P) (fst (pl i), vo i) <> 0).
  { intros i Hi. destruct T1 as [_ T1]. destruct (T1 i Hi) as [A [B _]]. split; [|exact B]. split; [exact MU|]. intros QQ. rewrite QQ in A. unfold vzero in A. cbn in A. lra. }
  split; [|split; [|split]].
  - intros t [A|A]; rewrite EQ; [destruct (Rlt_dec t (date t0 T 0)); [reflexivity|lra]|]. destruct (Rlt_dec t (date t0 T 0)); [reflexivity|]. destruct (Rlt_dec (date t0 T n) t); [reflexivity|lra].
  - rewrite EQ. specialize (DM 0%nat n ltac:(lia)). destruct (Rlt_dec (date t0 T 0) (date t0 T 0)); [lra|]. destruct (Rlt_dec (date t0 T n) (date t0 T 0)); [lra|]. destruct (Req_EM_T (date t0 T 0) (date t0 T 0)); [reflexivity|lra].
  - intros i t r Hi B E. rewrite (IN i t Hi B) in E. destruct (RG i Hi) as [R1 R2].
    destruct (propagate_lagrangian newton (fst (pl i), vo i) ((t - date t0 T i) * 86400) (common_mu P) false) as [[s m]| |] eqn:EP; cbn [bind fst] in E; try discriminate.
    pose proof (lag_sound newton (common_mu P) (fst (pl i), vo i) ((t - date t0 T i) * 86400) false s m NS R1 R2 EP) as F.
    exists s. split; [congruence|]. split; [exact F|]. intros FA ->. rewrite FA in T1. destruct T1 as [_ T3]. destruct (T3 i Hi) as [_ [_ [u [U1 [U2 _]]]]].
    replace u with ((date t0 T (S i) - date t0 T i) * 86400) in U1; [apply (flow_functional _ _ _ _ _ F U1)|]. rewrite date_S by lia. assert (Q0 : u - nth i T 0 * 86400 = 0) by (destruct (Req_dec (u - nth i T 0 * 86400) 0) as [|NZ]; [assumption|apply Rabs_pos_lt in NZ; lra]). lra.
  - intros NK i t Hi B MM. rewrite (IN i t Hi B). destruct (RG i Hi) as [R1 R2]. destruct (Rlt_dec (energy (common_mu P) (fst (pl i), vo i)) 0) as [E1|E1].
    + destruct (ellipse_flow newton (common_mu P) (fst (pl i), vo i) ((t - date t0 T i) * 86400) false NK (conj R1 E1)) as [s [m [-> _]]]. exists s. reflexivity.
    + assert (E2 : 0 < energy (common_mu P) (fst (pl i), vo i)) by lra. destruct (lag_hyp_total newton (common_mu P) (fst (pl i), vo i) ((t - date t0 T i) * 86400) false NK (conj R1 E2)) as [s [m [-> _]]]; [|exists s; reflexivity].
      rewrite Rabs_right by lra. apply MM. exact E2.
Qed.
