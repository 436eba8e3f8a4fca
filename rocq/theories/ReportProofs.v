(** * Proofs about the printed reports *)
From Coq Require Import Reals List ZArith Lra Lia Psatz String.
From Verif Require Import Outcome PartialReal Vec3 RealLib KepModel KepSpec TwoBodySpec TwoBodyModel TcModel SfModel KplaModel FlybyModel FlybySpec FlybyProofs DirectModel DirectSpec DirectProofs DirectPl DirectMain LambertModel LambertReal LambertSpec LambertVec LambertProofs LambertMain LambertConv LambertNear LambertRevsSpec LambertLong MgaModel MgaSpec MgaFitModel MgaFitSpec MgaFitProofs MgaFitMain MgaTotal MgaRangeSpec MgaRange MgaNan ReportSpec ReportModel.
Import ListNotations.
Open Scope R_scope.

Lemma inner_nth {A} (l : list A) d i : (S (S i) < List.length l)%nat -> nth i (inner l) d = nth (S i) l d.
Proof.
  unfold inner. destruct l as [|a l]; cbn [tl List.length nth]; [lia|]. revert i. induction l as [|b l IH]; intros i Hi; cbn [List.length] in Hi; [lia|]. destruct l as [|c l]; [cbn in Hi; lia|].
  change (removelast (b :: c :: l)) with (b :: removelast (c :: l)). destruct i as [|i]; [reflexivity|]. cbn [nth]. apply IH. cbn [List.length] in *. lia.
Qed.
Lemma removelast_len {A} (l : list A) : List.length (removelast l) = (List.length l - 1)%nat.
Proof. induction l as [|a l IH]; [reflexivity|]. destruct l as [|b l]; [reflexivity|]. change (removelast (a :: b :: l)) with (a :: removelast (b :: l)). cbn [List.length] in *. rewrite IH. lia. Qed.
Lemma inner_len {A} (l : list A) : List.length (inner l) = (List.length l - 2)%nat.
Proof. unfold inner. rewrite removelast_len. destruct l; cbn [tl List.length]; lia. Qed.
Lemma zip3_map {A B C} (da : A) (db : B) (dc : C) : forall a b c k, List.length a = k -> List.length b = k -> List.length c = k -> zip3 a b c = map (fun i => (nth i a da, nth i b db, nth i c dc)) (seq 0 k).
Proof.
  induction a as [|x a IH]; intros [|y b] [|z c] [|k] Ha Hb Hc; cbn [List.length] in *; try lia; [reflexivity|]. cbn [zip3 seq map nth]. f_equal. rewrite <- seq_shift, map_map. apply IH; lia.
Qed.
Lemma fm_map {A B C} (f : B -> list C) (g : A -> B) (l : list A) : flat_map f (map g l) = flat_map (fun a => f (g a)) l.
Proof. induction l as [|a l IH]; [reflexivity|]. cbn [map flat_map]. rewrite IH. reflexivity. Qed.
Lemma fm_ext {A C} (f g : A -> list C) (l : list A) : (forall a, In a l -> f a = g a) -> flat_map f l = flat_map g l.
Proof. induction l as [|a l IH]; intros H; [reflexivity|]. cbn [flat_map]. rewrite (H a (or_introl eq_refl)), IH; [reflexivity|]. intros b Hb. apply H. right. exact Hb. Qed.

Lemma last_app_ne {A} (a b : list A) d : b <> [] -> last (a ++ b) d = last b d.
Proof. intros H. induction a as [|x a IH]; [reflexivity|]. cbn [app]. destruct (a ++ b)%list eqn:E; [apply app_eq_nil in E; tauto|]. change (last (x :: a0 :: l) d) with (last (a0 :: l) d). exact IH. Qed.
(** ** the tour behind _compute_dvs *)
Lemma dvs_open P x t0 T pl d : (2 <= List.length (m_seq P))%nat -> durations (enc_of (m_tofs P)) x t0 T -> List.length T = n_legs P ->
  (forall i, (i <= n_legs P)%nat -> b_eph (nth i (m_seq P) b0) (date t0 T i) = Ret (Some (pl i))) -> compute_dvs P x = Ret d ->
  d_ep d = cumsum 0 (t0 :: T) /\ d_T d = T /\ List.length (d_legs d) = n_legs P /\
    (forall i, (i < n_legs P)%nat -> exists L v0 v1 l0 l1, lambert_r (fst (pl i)) (fst (pl (S i))) (nth i T 0 * 86400) (common_mu P) false 0 = Ret L /\ l_v0 L = v0 :: l0 /\ l_v1 L = v1 :: l1 /\ nth i (d_legs d) lleg0 = mk_lleg (Some (fst (pl i))) (optv v0) (optv v1)) /\
    d_tot d = (w <-? g_v0 (nth 0 (d_legs d) lleg0) ;; Some (norm (vsub (snd (pl 0%nat)) w)))%partial /\ d_launch d = py_max0 (oadd (d_tot d) (Some (- m_vinf P))) /\ List.length (d_fb d) = (n_legs P - 1)%nat /\
    (forall i, (S i < n_legs P)%nat -> nth i (d_fb d) None = (a <-? g_v1 (nth i (d_legs d) lleg0) ;; c <-? g_v0 (nth (S i) (d_legs d) lleg0) ;; fb_dv (vsub a (snd (pl (S i)))) (vsub c (snd (pl (S i)))) (b_mu (nth (S i) (m_seq P) b0)) (b_safe (nth (S i) (m_seq P) b0)))%partial) /\
    d_arrival d = (a <-? g_v1 (nth (n_legs P - 1) (d_legs d) lleg0) ;; let w := norm (vsub (snd (pl (n_legs P))) a) in
           match m_ins P with None => Some w | Some (e, rp) => insertion (b_mu (nth (n_legs P) (m_seq P) b0)) e rp w end)%partial.
Proof.
  intros L2 D LT HE ED. assert (NL : n_legs P = (List.length (m_seq P) - 1)%nat) by reflexivity. set (n := n_legs P) in *. assert (N0 : (0 < n)%nat) by lia.
  destruct (decode_durations _ n x t0 T N0 D LT) as [DT [[r ->] [NN TT]]]. unfold compute_dvs in ED. fold n in ED. rewrite DT in ED. cbn [bind] in ED. rewrite NN in ED. cbv zeta in ED.
  destruct (all_eph (m_seq P) (cumsum 0 (t0 :: T))) as [rv| |] eqn:ER; cbn [bind] in ED; try discriminate.
  destruct (all_lambert (common_mu P) rv T) as [lps| |] eqn:EL; cbn [bind] in ED; try discriminate.
  destruct (eph_dates _ _ _ _ n L2 NL LT ER) as [LR EP]. destruct (lambert_nth _ _ _ _ EL) as [LL LN]. assert (LLn : List.length lps = n) by lia.
  destruct lps as [|l0 lr] eqn:ELP; [cbn in LLn; lia|]. rewrite <- ELP in *.
  injection ED as <-. cbn [d_ep d_T d_legs d_tot d_launch d_fb d_arrival].
  assert (RS : forall i, (i <= n)%nat -> nth i rv None = Some (pl i)). { intros i Hi. pose proof (EP i Hi) as Q. rewrite (HE i Hi) in Q. injection Q as Q. symmetry. exact Q. }
  assert (LTs : List.length (tl (m_seq P)) = List.length lps) by (destruct (m_seq P); cbn in *; lia). assert (LTr : List.length (tl rv) = List.length lps) by (destruct rv; cbn in *; lia).
  destruct (flybys_nth lps _ _ LTs LTr) as [LF FN].
  assert (TLs : forall i, nth i (tl (m_seq P)) b0 = nth (S i) (m_seq P) b0) by (intros i; destruct (m_seq P); [destruct i; reflexivity|reflexivity]). assert (TLr : forall i, nth i (tl rv) None = nth (S i) rv None) by (intros i; destruct rv; [destruct i; reflexivity|reflexivity]).
  assert (Hlast : last lps l0 = nth (n - 1) lps lleg0) by (rewrite <- LLn; apply last_nth; rewrite ELP; discriminate).
  assert (Hrl : last rv None = Some (pl n)) by (rewrite (last_nth rv None None) by (intros Q; rewrite Q in LR; discriminate); rewrite LR; replace (S n - 1)%nat with n by lia; apply RS; lia).
  assert (Hbl : last (m_seq P) b0 = nth n (m_seq P) b0) by (rewrite (last_nth _ b0 b0) by (intros Q; rewrite Q in L2; cbn in L2; lia); f_equal; lia).
  rewrite Hlast, Hrl, Hbl. cbn [vel3]. assert (E0 : l0 = nth 0 lps lleg0) by (rewrite ELP; reflexivity). assert (HDr : hd None rv = Some (pl 0%nat)) by (rewrite <- (RS 0%nat) by lia; destruct rv; reflexivity).
  split; [reflexivity|]. split; [reflexivity|]. split; [exact LLn|]. split; [|split; [|split; [reflexivity|split; [lia|split]]]].
  - intros i Hi. destruct (LN i ltac:(lia)) as [_ [L [v0 [v1 [q0 [q1 [E [F0 [E1 E2]]]]]]]]]. rewrite (RS i), (RS (S i)) in E by lia. rewrite (RS i) in E2 by lia. cbn [pos3] in E, E2. rewrite optv_sv in E2. exists L, v0, v1, q0, q1. split; [exact E|]. split; [exact F0|]. split; [exact E1|exact E2].
  - rewrite HDr, <- E0. cbn [vel3]. destruct (g_v0 l0) as [w|]; reflexivity.
  - intros i Hi. rewrite (FN i) by lia. rewrite TLs, TLr, (RS (S i)) by lia. cbn [vel3]. destruct (g_v1 (nth i lps lleg0)) as [a|]; cbn [osub obind]; [|reflexivity]. destruct (g_v0 (nth (S i) lps lleg0)) as [c|]; reflexivity.
  - destruct (g_v1 (nth (n - 1) lps lleg0)) as [a|]; destruct (m_ins P) as [[e rp]|]; reflexivity.
Qed.
Lemma names_eq P : (2 <= List.length (m_seq P))%nat -> List.length (m_seq P) = S (n_legs P). Proof. unfold n_legs. lia. Qed.
Lemma nth_names (name : nat -> string) k i d : (i < k)%nat -> nth i (map name (seq 0 k)) d = name i.
Proof. intros H. rewrite (nth_indep _ d (name 0%nat)) by (rewrite map_length, seq_length; exact H). rewrite map_nth, seq_nth by exact H. reflexivity. Qed.

Lemma ret_inj {A} (a b : A) : Ret a = Ret b -> a = b. Proof. congruence. Qed.
(** ** the report returns with the fitness, and its total is the cost *)
Theorem report_total name enc P x t0 T : (2 <= List.length (m_seq P))%nat -> durations (enc_of (m_tofs P)) x t0 T -> List.length T = n_legs P ->
  ((exists r, mga_pretty name enc P x = Ret r) <-> exists l, fitness P x = Ret l) /\
  forall r, mga_pretty name enc P x = Ret r -> exists c rest, fitness P x = Ret (c :: rest) /\ last r [] = [Txt "Total DV: "%string; Num c].
Proof.
  intros L2 D LT. assert (N0 : (0 < n_legs P)%nat) by (unfold n_legs; lia). destruct (decode_durations _ _ x t0 T N0 D LT) as [DT [[r ->] [NN TT]]].
  assert (K : forall d, compute_dvs P (t0 :: r) = Ret d -> exists l0 lr e0 er, d_legs d = l0 :: lr /\ d_ep d = e0 :: er).
  { intros d ED. unfold compute_dvs in ED. rewrite DT in ED. cbn [bind] in ED. rewrite NN in ED. cbv zeta in ED.
    destruct (all_eph _ _) as [rv| |]; cbn [bind] in ED; try discriminate. destruct (all_lambert _ _ _) as [lps| |]; cbn [bind] in ED; try discriminate. destruct lps as [|l0 lr]; [discriminate|].
    injection ED as <-. cbn [d_legs d_ep]. exists l0, lr, (0 + t0), (cumsum (0 + t0) T). split; reflexivity. }
  unfold mga_pretty, fitness. destruct (compute_dvs P (t0 :: r)) as [d| |] eqn:ED; cbn [bind].
  - destruct (K d eq_refl) as [l0 [lr [e0 [er [E1 E2]]]]]. rewrite E1, E2, TT. cbn [bind]. split; [split; intros _; eexists; reflexivity|]. intros rr H. apply ret_inj in H. subst rr. destruct (m_multi P); do 2 eexists; (split; [reflexivity|]); rewrite !last_app_ne by (try discriminate; destruct (flat_map _ _); discriminate); reflexivity.
  - split; [split; intros [q H]; discriminate|intros rr H; discriminate].
  - split; [split; intros [q H]; discriminate|intros rr H; discriminate].
Qed.
(** ** the report is that of the tour *)
Theorem report_tour tol name enc P x t0 T dv rest : mga_ok P -> durations (enc_of (m_tofs P)) x t0 T -> List.length T = n_legs P -> all_within tol P t0 T -> fitness P x = Ret (Some dv :: rest) ->
  exists pl vo vi dl df da, tour (fun _ _ => tol) P t0 T pl vo vi /\ tour_burns P pl vo vi dl df da /\ dv = dl + total df + da /\ mga_pretty name enc P x = Ret (tour_report name enc P t0 T pl vo vi dl df da).
Proof.
  intros OK D LT AW HF. pose proof OK as [L2 [VI [BP [_ INS]]]]. assert (NS : List.length (m_seq P) = S (n_legs P)) by (unfold n_legs; lia). assert (N0 : (0 < n_legs P)%nat) by lia.
  destruct (mga_core tol P x t0 T dv rest OK D LT AW HF) as [[d [pl [vo [vi [ED [_ [_ [LG [TR _]]]]]]]]] _]. pose proof TR as [HE _].
  destruct (dvs_open P x t0 T pl d L2 D LT HE ED) as [EE [ET [LL [_ [TO [LA [LF [FB AR]]]]]]]].
  unfold fitness in HF. rewrite ED in HF. cbn [bind] in HF. destruct (decode_durations _ _ x t0 T N0 D LT) as [_ [_ [_ TT]]]. rewrite TT in HF. cbn [bind] in HF.
  assert (HD : oadd (oadd (d_launch d) (fold_left oadd (d_fb d) (Some 0))) (d_arrival d) = Some dv) by (destruct (m_multi P); injection HF as H1 _; exact H1).
  destruct (oadd_inv _ _ _ HD) as [s1 [da [HD1 [HA Edv]]]]. destruct (oadd_inv _ _ _ HD1) as [dl [sf [HL [HS Es]]]]. destruct (osum_inv _ _ _ HS) as [z [df [Z0 [FD Ef]]]]. injection Z0 as <-.
  assert (LD : List.length df = (n_legs P - 1)%nat) by (rewrite FD, map_length in LF; exact LF).
  exists pl, vo, vi, dl, df, da. split; [exact TR|]. split; [|split; [lra|]].
  - split; [|split; [exact LD|split]].
    + rewrite TO, (LG 0%nat N0) in LA. cbn [g_v0 obind] in LA. rewrite LA in HL. cbn in HL. injection HL as <-. rewrite norm_sub. apply (launch_burn (m_vinf P) (vsub (vo 0%nat) (snd (pl 0%nat))) VI).
    + intros i Hi b. specialize (FB i Hi). rewrite (LG i), (LG (S i)) in FB by lia. cbn [g_v0 g_v1 obind] in FB. rewrite FD in FB. rewrite (nth_indep _ None (Some 0)) in FB by (rewrite map_length; lia). rewrite (map_nth Some) in FB.
      destruct (BP (S i) ltac:(lia)) as [O1 O2]. apply flyby_burn; [exact O1|exact O2|symmetry; exact FB].
    + rewrite (LG (n_legs P - 1)%nat) in AR by lia. cbn [g_v1 obind] in AR. cbv zeta in AR. rewrite HA in AR. rewrite norm_sub in AR. unfold arrival_cost. destruct (m_ins P) as [[e rp]|]; [destruct INS as [I1 [I2 I3]]; apply insertion_ok; try assumption; symmetry; exact AR|injection AR as ->; reflexivity].
  - unfold mga_pretty. rewrite ED. cbn [bind]. destruct (d_legs d) as [|l0 lr] eqn:EL; [cbn in LL; lia|]. rewrite <- EL in *. rewrite EE at 1. cbn [cumsum]. f_equal. unfold tour_report. cbv zeta. rewrite NS.
    assert (E0 : l0 = nth 0 (d_legs d) lleg0) by (rewrite EL; reflexivity).
    assert (HLast : last (d_legs d) l0 = nth (n_legs P - 1) (d_legs d) lleg0) by (rewrite <- LL; apply last_nth; rewrite EL; discriminate).
    assert (HEp : last (d_ep d) (0 + t0) = date t0 T (n_legs P)) by (rewrite EE; apply last_cum; exact LT).
    assert (HN : last (map name (seq 0 (S (n_legs P)))) ""%string = name (n_legs P)) by (rewrite (last_nth _ _ ""%string) by (cbn; discriminate); rewrite map_length, seq_length; rewrite nth_names by lia; f_equal; lia).
    rewrite HLast, HEp, HN, E0, (LG 0%nat N0), (LG (n_legs P - 1)%nat) by lia. cbn [g_v0 g_v1]. rewrite HA, HL, TO, (LG 0%nat N0), ET. cbn [g_v0 obind]. rewrite norm_sub. rewrite Rplus_0_l.
    assert (SUM : oadd (oadd (Some dl) (fold_left oadd (d_fb d) (Some 0))) (Some da) = Some (dl + total df + da)) by (rewrite HS; cbn; f_equal; lra). rewrite SUM.
    apply f_equal2; [reflexivity|]. apply f_equal2; [|reflexivity].
    rewrite (zip3_map ""%string 0 (@None R) _ _ _ (n_legs P - 1)%nat); [|rewrite inner_len, map_length, seq_length; lia|rewrite inner_len, EE, cumsum_len; cbn [List.length]; lia|exact LF]. rewrite fm_map. apply fm_ext. intros i Hi. apply in_seq in Hi. cbn beta iota.
    rewrite inner_nth by (rewrite map_length, seq_length; lia). rewrite nth_names by lia. rewrite inner_nth by (rewrite EE, cumsum_len; cbn [List.length]; lia). rewrite EE, ep_nth by lia. rewrite FD, (nth_indep _ None (Some 0)) by (rewrite map_length; lia). rewrite (map_nth Some). reflexivity.
Qed.
(** the same without an assumption on the iterations, for tours whose legs are in range *)
Theorem report_range tol name enc P x t0 T pl dv rest : mga_ok P -> 0 < common_mu P -> durations (enc_of (m_tofs P)) x t0 T -> List.length T = n_legs P ->
  (forall i, (i <= n_legs P)%nat -> b_eph (nth i (m_seq P) b0) (date t0 T i) = Ret (Some (pl i))) ->
  (forall i, (i < n_legs P)%nat -> in_range (common_mu P) (fst (pl i)) (fst (pl (S i))) (nth i T 0 * 86400) /\ 4 / 100000000 * (nth i T 0 * 86400) <= tol) -> fitness P x = Ret (Some dv :: rest) ->
  exists pl' vo vi dl df da, tour (fun _ _ => tol) P t0 T pl' vo vi /\ tour_burns P pl' vo vi dl df da /\ dv = dl + total df + da /\ mga_pretty name enc P x = Ret (tour_report name enc P t0 T pl' vo vi dl df da).
Proof. intros OK Hm D LT HE HR HF. apply (report_tour tol name enc P x t0 T dv rest OK D LT); [exact (range_within tol P t0 T pl Hm HE HR)|exact HF]. Qed.
(** ** a first leg that the solver loses: the launch is said to be free *)
Theorem report_lost name enc P x t0 T pl r : (2 <= List.length (m_seq P))%nat -> durations (enc_of (m_tofs P)) x t0 T -> List.length T = n_legs P ->
  (forall i, (i <= n_legs P)%nat -> b_eph (nth i (m_seq P) b0) (date t0 T i) = Ret (Some (pl i))) -> mga_pretty name enc P x = Ret r ->
  vz (cross (fst (pl 0%nat)) (fst (pl 1%nat))) <> 0 -> 40000 <= nth 0 T 0 * 86400 / time_unit (fst (pl 0%nat)) (fst (pl 1%nat)) (common_mu P) <= 1600000 ->
  In [Txt "Hyperbolic velocity: "%string; Num None; Txt "[m/s]"%string] r /\ In [Txt "Initial DV: "%string; Num (Some 0); Txt "[m/s]"%string] r /\ last r [] = [Txt "Total DV: "%string; Num None].
Proof.
  intros L2 D LT HE HP Hc HT. assert (N0 : (0 < n_legs P)%nat) by (unfold n_legs; lia). destruct (report_total name enc P x t0 T L2 D LT) as [_ RT]. destruct (RT r HP) as [c [rest [HF HL]]].
  assert (c = None) as -> by (pose proof (long_nan P x t0 T pl _ 0%nat L2 D LT HE HF N0 Hc HT) as Q; injection Q as Q _; exact Q).
  unfold mga_pretty in HP. destruct (compute_dvs P x) as [d| |] eqn:ED; cbn [bind] in HP; try discriminate. destruct (dvs_open P x t0 T pl d L2 D LT HE ED) as [EE [_ [LL [LEG [TO [LA _]]]]]].
  destruct (LEG 0%nat N0) as [L [v0 [v1 [l0 [l1 [E [E0 [_ E2]]]]]]]]. assert (M : (0 <= 0 < u32)%Z) by (unfold u32; lia). destruct (long_lost_nan _ _ _ _ false 0 L Hc M E HT) as [B _]. rewrite E0 in B. cbn in B. injection B as ->.
  rewrite E2 in TO. cbn in TO. rewrite TO in LA. cbn in LA. destruct (d_legs d) as [|q0 qr]; [cbn in LL; lia|]. rewrite EE in HP. cbn [cumsum] in HP. apply ret_inj in HP. rewrite TO, LA in HP.
  split; [|split; [|exact HL]]; subst r; apply in_or_app; left; cbn [In]; tauto.
Qed.
Theorem report_free_refuted : exists name enc P x T pl v r, mga_ok P /\ in_box (get_bounds P) x /\ durations (enc_of (m_tofs P)) x 0 T /\
  (forall i, (i <= n_legs P)%nat -> b_eph (nth i (m_seq P) b0) (date 0 T i) = Ret (Some (pl i))) /\ LambertRevsSpec.transfer (common_mu P) (fst (pl 0%nat)) (fst (pl 1%nat)) (nth 0 T 0 * 86400) false 0 v /\ m_vinf P < norm (vsub v (snd (pl 0%nat))) /\
  mga_pretty name enc P x = Ret r /\ In [Txt "Initial DV: "%string; Num (Some 0); Txt "[m/s]"%string] r.
Proof.
  destruct (ex_long_direct 40000 ltac:(lra)) as [v HV]. exists (fun _ => "p"%string), "direct"%string, one_leg, [0; 40000 / 86400], [40000 / 86400], (fun i => (match i with O => ex_r0 | _ => ex_r1 end, vzero)), v.
  assert (OK : mga_ok one_leg) by apply one_leg_example. assert (D : durations (enc_of (m_tofs one_leg)) [0; 40000 / 86400] 0 [40000 / 86400]) by reflexivity.
  assert (HE : forall i, (i <= n_legs one_leg)%nat -> b_eph (nth i (m_seq one_leg) b0) (date 0 [40000 / 86400] i) = Ret (Some ((fun i => (match i with O => ex_r0 | _ => ex_r1 end, vzero)) i))) by (intros [|[|i]] Hi; [reflexivity|reflexivity|unfold n_legs in Hi; cbn in Hi; lia]).
  assert (Hc : vz (cross ex_r0 ex_r1) <> 0) by (rewrite ex_cross; lra).
  destruct (fitness_total one_leg [0; 40000 / 86400] 0 [40000 / 86400] (fun i => (match i with O => ex_r0 | _ => ex_r1 end, vzero)) (proj1 OK) ltac:(change (common_mu one_leg) with 32000; lra) D eq_refl HE) as [[[i [Hi V0]] _]|[_ HF]].
  { intros [|i] Hi; [|unfold n_legs in Hi; cbn in Hi; lia]. cbn [fst nth]. change (common_mu one_leg) with 32000. split; [intros Q; rewrite Q in Hc; apply Hc; cbn; ring|]. split; [intros Q; rewrite Q in Hc; apply Hc; cbn; ring|]. split; [lra|]. rewrite ex_unit. pose proof PI2_3_2. apply (Rmult_lt_reg_r PI); [lra|]. replace (40000 / 86400 * 86400 / 1 / PI * PI) with 40000 by (field; lra). unfold u32. change (2 ^ 32)%Z with 4294967296%Z. nra. }
  { exfalso. destruct i as [|i]; [|unfold n_legs in Hi; cbn in Hi; lia]. cbn [fst] in V0. apply Hc. apply V0. }
  destruct (report_total (fun _ => "p"%string) "direct"%string one_leg [0; 40000 / 86400] 0 [40000 / 86400] (proj1 OK) D eq_refl) as [[_ B] _]. destruct (B HF) as [r HR]. exists r.
  split; [exact OK|]. split; [unfold in_box; cbn; repeat constructor; lra|]. split; [exact D|]. split; [exact HE|]. cbn [fst snd nth]. change (common_mu one_leg) with 32000. split; [replace (40000 / 86400 * 86400) with 40000 by field; exact HV|]. split.
  - cbn [m_vinf one_leg]. destruct (Rlt_dec 0 (norm (vsub v vzero))) as [G|G]; [exact G|exfalso].
    assert (Z : norm (vsub v vzero) = 0) by (pose proof (norm_nonneg (vsub v vzero)); lra). apply vsub_zero in Z. subst v. destruct HV as [HV _]. cbn in HV. lra.
  - split; [exact HR|]. destruct (report_lost _ _ _ _ 0 [40000 / 86400] (fun i => (match i with O => ex_r0 | _ => ex_r1 end, vzero)) r (proj1 OK) D eq_refl HE HR Hc) as [_ [Q _]]; [|exact Q]. cbn [fst nth]. change (common_mu one_leg) with 32000. rewrite ex_unit. lra.
Qed.
(** ** the direct problems *)
Lemma get_inv x i v : py_get x i = Ret v -> nth_error x i = Some v.
Proof. unfold py_get. destruct (nth_error x i); intros H; [injection H as ->; reflexivity|discriminate]. Qed.
Lemma vec_inv x k v : py_vec x k = Ret v -> nth_error x k = Some (vx v) /\ nth_error x (S k) = Some (vy v) /\ nth_error x (S (S k)) = Some (vz v).
Proof.
  unfold py_vec. intros H. assert (Q : forall j, nth_error x (k + j) = nth_error (skipn k x) j). { clear H. revert k. induction x as [|a x IH]; intros [|k] j; cbn [skipn]; try reflexivity; [destruct (S k + j)%nat eqn:E, j; reflexivity|apply IH]. }
  pose proof (Q 0%nat) as Q0. pose proof (Q 1%nat) as Q1. pose proof (Q 2%nat) as Q2. replace (k + 0)%nat with k in Q0 by lia. replace (k + 1)%nat with (S k) in Q1 by lia. replace (k + 2)%nat with (S (S k)) in Q2 by lia. rewrite Q0, Q1, Q2.
  destruct (skipn k x) as [|a [|b [|c l]]]; cbn in H; try discriminate. injection H as <-. cbn. tauto.
Qed.
Lemma norm_sqrt v : sqrt (vx v * vx v + vy v * vy v + vz v * vz v) = norm v.
Proof. reflexivity. Qed.
Theorem report_pl2pl ep ns nf P z r : pl2pl_pretty ep ns nf P z = Ret (Some r) ->
  exists t0 t e0 e1 s f l, q_ephs P t0 = Ret (Some s) /\ q_ephf P (t0 + t) = Ret (Some f) /\ ep t0 = Ret e0 /\ ep (t0 + t) = Ret e1 /\
    fst (s_rvs l) = fst s /\ fst (s_rvf l) = fst f /\ s_tof l = t * 86400 /\ r = transfer_report ns nf e0 e1 t0 t s f l /\
    forall newton fit, pl2pl_fitness newton P z = Ret (Some fit) -> exists ceq, compute_mismatch_constraints newton l = Ret ceq /\
      firstn 8 fit = [- s_mf l / q_M P; vx (fst (fst ceq)) / q_L P; vy (fst (fst ceq)) / q_L P; vz (fst (fst ceq)) / q_L P; vx (snd (fst ceq)) / q_Vel P; vy (snd (fst ceq)) / q_Vel P; vz (snd (fst ceq)) / q_Vel P; snd ceq / q_M P].
Proof.
  intros H. unfold pl2pl_pretty in H. destruct (pl2pl_leg P z) as [o| |] eqn:EL; cbn [bind] in H; try discriminate. destruct o as [[[l s] f]|]; [|discriminate].
  pose proof EL as EK. unfold pl2pl_leg in EL. destruct (py_get z 0) as [t0| |] eqn:G0; cbn [bind] in EL, H; try discriminate. destruct (q_ephs P t0) as [os| |] eqn:ES; cbn [bind] in EL; try discriminate.
  destruct (py_last z) as [t| |] eqn:GL; cbn [bind] in EL, H; try (destruct (ep t0); cbn [bind] in H; discriminate). destruct (q_ephf P (t0 + t)) as [of| |] eqn:EF; cbn [bind] in EL; try discriminate.
  destruct (py_vec z 2) as [us| |] eqn:US; cbn [bind] in EL; try discriminate. destruct (py_vec z 5) as [uf| |] eqn:UF; cbn [bind] in EL; try discriminate. destruct (py_get z 1) as [mf| |] eqn:G1; cbn [bind] in EL; try discriminate.
  destruct os as [s'|]; [|discriminate]. destruct of as [f'|]; [|discriminate]. destruct (set_leg _ _ _ _ _ _ _ _ _ _) as [l'| |] eqn:SL; cbn [bind] in EL; try discriminate. injection EL as -> -> ->.
  destruct (ep t0) as [e0| |] eqn:E0; cbn [bind] in H; try discriminate. destruct (ep (t0 + t)) as [e1| |] eqn:E1; cbn [bind] in H; try discriminate.
  destruct (vec_inv _ _ _ US) as [A2 [A3 A4]]. destruct (vec_inv _ _ _ UF) as [A5 [A6 A7]]. unfold py_get in H at 1 2 3 4 5 6. rewrite A2, A3, A4, A5, A6, A7 in H. cbn [bind] in H. apply ret_inj in H.
  assert (QL : s_rvs l = (fst s, vadd (snd s) us) /\ s_rvf l = (fst f, vadd (snd f) uf) /\ s_mf l = mf /\ s_tof l = t * 86400).
  { unfold set_leg in SL. destruct (Rlt_dec _ _); [discriminate|]. cbv zeta in SL. destruct (_ || _)%bool; [discriminate|]. injection SL as <-. cbn. tauto. }
  destruct QL as [Q1 [Q2 [Q3 Q4]]]. exists t0, t, e0, e1, s, f, l. split; [exact ES|]. split; [exact EF|]. split; [exact E0|]. split; [exact E1|]. split; [rewrite Q1; reflexivity|]. split; [rewrite Q2; reflexivity|]. split; [exact Q4|].
  assert (VS : forall a b, vsub (vadd a b) a = b) by (intros [a1 a2 a3] [b1 b2 b3]; unfold vsub, vadd; cbn; f_equal; ring). split.
  - assert (X : r = transfer_report ns nf e0 e1 t0 t s f l); [|exact X]. unfold transfer_report. cbv zeta. rewrite Q1, Q2, Q3. cbn [snd]. rewrite !VS. injection H as <-. rewrite !norm_sqrt. reflexivity.
  - intros newton fit HF. unfold pl2pl_fitness in HF. rewrite G1 in HF. cbn [bind] in HF. rewrite EK in HF. cbn [bind] in HF. destruct (compute_mismatch_constraints newton l) as [ceq| |]; cbn [bind] in HF; try discriminate. exists ceq. split; [reflexivity|].
    destruct (compute_throttle_constraints _ _) as [cin| |]; cbn [bind] in HF; try discriminate. rewrite US, UF in HF. cbn [bind] in HF. destruct (vinf_con us _ _); cbn [obind] in HF; [|discriminate]. destruct (vinf_con uf _ _); cbn [obind] in HF; [|discriminate]. apply ret_inj in HF. rewrite Q3.
    unfold scale_fitness, pdivs, seven in HF. destruct (Req_EM_T (q_M P) 0); [discriminate|]. destruct (Req_EM_T (q_L P) 0); [discriminate|]. destruct (Req_EM_T (q_Vel P) 0); [discriminate|]. cbn in HF. injection HF as <-. reflexivity.
Qed.
Theorem report_p2p P z r : p2p_pretty P z = Ret r -> exists l, r = [[LegText l]] /\ s_rvs l = p_rvs P /\ s_rvf l = p_rvf P /\
  forall newton fit, p2p_fitness newton P z = Ret (Some fit) -> exists ceq, compute_mismatch_constraints newton l = Ret ceq /\
      firstn 8 fit = [- s_mf l / p_M P; vx (fst (fst ceq)) / p_L P; vy (fst (fst ceq)) / p_L P; vz (fst (fst ceq)) / p_L P; vx (snd (fst ceq)) / p_Vel P; vy (snd (fst ceq)) / p_Vel P; vz (snd (fst ceq)) / p_Vel P; snd ceq / p_M P].
Proof.
  unfold p2p_pretty. destruct (p2p_leg P z) as [l| |] eqn:EL; cbn [bind]; try discriminate. intros H. apply ret_inj in H. subst r. exists l. pose proof EL as EK. unfold p2p_leg in EL. destruct (py_last z) as [t| |]; cbn [bind] in EL; try discriminate. destruct (py_get z 0) as [mf| |] eqn:G0; cbn [bind] in EL; try discriminate.
  assert (QL : s_rvs l = p_rvs P /\ s_rvf l = p_rvf P /\ s_mf l = mf). { unfold set_leg in EL. destruct (Rlt_dec _ _); [discriminate|]. cbv zeta in EL. destruct (_ || _)%bool; [discriminate|]. injection EL as <-. cbn. tauto. }
  destruct QL as [Q1 [Q2 Q3]]. split; [reflexivity|]. split; [exact Q1|]. split; [exact Q2|]. intros newton fit HF. unfold p2p_fitness in HF. rewrite EK, G0 in HF. cbn [bind] in HF. destruct (compute_mismatch_constraints newton l) as [ceq| |]; cbn [bind] in HF; try discriminate. exists ceq. split; [reflexivity|].
  destruct (compute_throttle_constraints _ _) as [cin| |]; cbn [bind] in HF; try discriminate. apply ret_inj in HF. rewrite Q3. unfold scale_fitness, pdivs, seven in HF. destruct (Req_EM_T (p_M P) 0); [discriminate|]. destruct (Req_EM_T (p_L P) 0); [discriminate|]. destruct (Req_EM_T (p_Vel P) 0); [discriminate|]. cbn in HF. injection HF as <-. reflexivity.
Qed.
Theorem report_pl2pl_total newton ep ns nf P z fit : pl2pl_fitness newton P z = Ret (Some fit) -> (forall t, exists e, ep t = Ret e) -> exists r, pl2pl_pretty ep ns nf P z = Ret (Some r).
Proof.
  intros HF HE. unfold pl2pl_fitness in HF. destruct (py_get z 1) as [mf| |] eqn:G1; cbn [bind] in HF; try discriminate. destruct (pl2pl_leg P z) as [o| |] eqn:EL; cbn [bind] in HF; try discriminate. destruct o as [[[l s] f]|]; [|discriminate].
  unfold pl2pl_pretty. rewrite EL. cbn [bind]. unfold pl2pl_leg in EL. destruct (py_get z 0) as [t0| |] eqn:G0; cbn [bind] in EL |- *; try discriminate. destruct (q_ephs P t0) as [os| |]; cbn [bind] in EL; try discriminate. destruct (HE t0) as [e0 ->]. cbn [bind].
  destruct (py_last z) as [t| |]; cbn [bind] in EL |- *; try discriminate. destruct (HE (t0 + t)) as [e1 ->]. cbn [bind]. destruct (q_ephf P (t0 + t)) as [of| |]; cbn [bind] in EL; try discriminate.
  destruct (py_vec z 2) as [us| |] eqn:US; cbn [bind] in EL; try discriminate. destruct (py_vec z 5) as [uf| |] eqn:UF; cbn [bind] in EL; try discriminate. destruct (vec_inv _ _ _ US) as [A2 [A3 A4]]. destruct (vec_inv _ _ _ UF) as [A5 [A6 A7]].
  rewrite G1. unfold py_get at 1 2 3 4 5 6. rewrite A2, A3, A4, A5, A6, A7. cbn [bind]. eexists. reflexivity.
Qed.
Theorem report_p2p_total newton P z fit : p2p_fitness newton P z = Ret (Some fit) -> exists r, p2p_pretty P z = Ret r.
Proof. unfold p2p_fitness, p2p_pretty. destruct (p2p_leg P z) as [l| |]; cbn [bind]; try discriminate. intros _. eexists. reflexivity. Qed.
(** ** examples *)
Lemma tour_report_len name enc P t0 T pl vo vi dl df da : List.length (tour_report name enc P t0 T pl vo vi dl df da) = (15 + 3 * (n_legs P - 1))%nat.
Proof.
  unfold tour_report. cbv zeta. rewrite !app_length. assert (Q : forall (f : nat -> list line) k l, (forall i, List.length (f i) = k) -> List.length (flat_map f l) = (k * List.length l)%nat).
  { intros f k l H. induction l as [|a l IH]; [cbn; lia|]. cbn [flat_map]. rewrite app_length, H, IH. cbn [List.length]. lia. }
  rewrite (Q _ 3%nat) by reflexivity. rewrite seq_length. cbn [List.length]. lia.
Qed.
Lemma report_example : let name i := nth i ["Earth"; "Venus"; "Mars"]%string ""%string in exists r, mga_pretty name "direct"%string ex_P ex_x = Ret r /\ List.length r = 18%nat /\
  nth 1 r [] = [Txt "Planet sequence: "%string; Names ["Earth"; "Venus"; "Mars"]%string] /\ nth 9 r [] = [Txt "Fly-by: "%string; Txt "Venus"%string] /\ nth 10 r [] = [Txt "Epoch: "%string; Num (Some (leg_time / 86400)); Txt " [mjd2000]"%string] /\
  last r [] = [Txt "Total DV: "%string; Num (Some (12 + 16 * sqrt 3))].
Proof.
  intros name. destruct mga_example as [_ [OK [D [AW HF]]]]. destruct (report_tour 0 name "direct"%string ex_P ex_x 0 _ _ _ OK D eq_refl AW HF) as [pl [vo [vi [dl [df [da [_ [_ [E R]]]]]]]]]. eexists. split; [exact R|]. split; [rewrite tour_report_len; reflexivity|].
  destruct (report_total name "direct"%string ex_P ex_x 0 _ (proj1 OK) D eq_refl) as [_ RT]. destruct (RT _ R) as [c [rest [HF' HL]]]. rewrite HF in HF'. injection HF' as <- <-. split; [reflexivity|]. split; [reflexivity|]. split; [|exact HL].
  cbn [tour_report n_legs ex_P m_seq List.length Nat.sub seq flat_map app nth]. unfold date. cbn [firstn total]. do 3 f_equal. f_equal. ring.
Qed.
Lemma report_direct_example newton : newton_ok newton -> newton_sound newton -> exists X r r', p2p_pretty (wit_p2p X) [exp (- (1 / 10)); -1; 0; 0; PI / 86400] = Ret r /\
  pl2pl_pretty (fun _ => Ret "a date"%string) "Earth"%string "Mars"%string (wit_pl (kpla_eph newton (ctor_state (PI / 86400) X 1))) wit_z = Ret (Some r') /\ List.length r' = 10%nat.
Proof.
  intros NK NS. destruct (wit_pl_example newton NK NS) as [X [g H]]. cbv zeta in H. destruct H as [_ [HF _]]. exists X.
  assert (HP : exists r, p2p_pretty (wit_p2p X) [exp (- (1 / 10)); -1; 0; 0; PI / 86400] = Ret r).
  { unfold p2p_pretty, p2p_leg, py_last, py_get. cbn [rev app nth_error bind]. unfold set_leg. pose proof PI_RGT_0. destruct (Rlt_dec _ 0) as [Q|Q]; [exfalso; unfold day2sec in Q; assert (0 < PI / 86400) by (apply Rdiv_lt_0_compat; lra); lra|]. cbn. eexists. reflexivity. }
  destruct HP as [r HP]. exists r. destruct (report_pl2pl_total newton (fun _ => Ret "a date"%string) "Earth"%string "Mars"%string _ _ _ HF (fun _ => ex_intro _ _ eq_refl)) as [r' HR]. exists r'. split; [exact HP|]. split; [exact HR|].
  destruct (report_pl2pl _ _ _ _ _ _ HR) as [t0 [t [e0 [e1 [s [f [l [_ [_ [_ [_ [_ [_ [_ [-> _]]]]]]]]]]]]]]]. reflexivity.
Qed.
