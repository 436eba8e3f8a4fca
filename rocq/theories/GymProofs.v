(** * The Cassini problems of the gym are well posed *)
From Coq Require Import ZArith Reals List String Lra Lia.
From Coquelicot Require Import Rcomplements.
From Verif Require Import Outcome PartialReal Vec3 TwoBodySpec KepModel KepSpec ElemModel ElemProofs LambertModel LambertReal LambertSpec LambertVec LambertMain DirectSpec MgaModel MgaSpec MgaFitModel MgaFitSpec MgaFitProofs MgaFitMain MgaTotal JplRealModel JplSpec JplRealSpec JplRealProofs GymModel.
From Verif Require JplModel JplProofs.
Import ListNotations.
Open Scope R_scope.

Lemma mu_same : r_MU_SUN = mu_sun. Proof. reflexivity. Qed.
Lemma unit_big a b : au / 5 < norm a -> au / 5 < norm b -> 1 <= time_unit a b mu_sun.
Proof.
  intros A B. unfold time_unit. rewrite <- sqrt_1. apply sqrt_le_1_alt. assert (S : au / 5 < semiperimeter a b) by (unfold semiperimeter; pose proof (norm_nonneg (vsub b a)) as Q; lra).
  set (s := semiperimeter a b) in *. clearbody s. assert (S1 : 10 ^ 10 < s) by (unfold au in S; cbv [pow]; lra). assert (MP : 2 * mu_sun > 0) by (unfold mu_sun; lra). apply (proj1 (Rle_div_r _ _ _ MP)). unfold mu_sun. cbv [pow] in S1.
  assert (S2 : 10 ^ 20 <= s * s) by (cbv [pow]; nra). cbv [pow] in S2. nra.
Qed.
Lemma leg_far a b t : au / 5 < norm a -> au / 5 < norm b -> 0 < t <= 10000 -> leg_ok mu_sun a b t.
Proof.
  intros A B T. assert (AP : 0 < au / 5) by (unfold au; lra). assert (NZ : forall v, au / 5 < norm v -> v <> vzero) by (intros v H E; rewrite E, norm_vzero in H; lra).
  split; [apply NZ, A|]. split; [apply NZ, B|]. split; [lra|]. pose proof (unit_big a b A B) as U. pose proof PI2_1 as P.
  apply Rlt_div_l; [lra|]. apply Rlt_div_l; [lra|]. assert (E : IZR u32 = 4294967296) by (unfold u32; f_equal; reflexivity). rewrite E.
  assert (4294967296 * 1 <= 4294967296 * PI * time_unit a b mu_sun) by nra. lra.
Qed.
Section Newton.
Variable newton : (R -> R * R) -> R -> R -> R -> option R.
Hypothesis NOK : newton_ok newton.
Definition cassini_mga (tof : tofs) (bs : list body) : mga := mk_mga bs (-1000, 0) tof 3000 false (Some (98 / 100, 108950000)).
Lemma bodies_nth : forall l bs, all_bodies newton l = Ret bs -> List.length bs = List.length l /\
  forall i, (i < List.length l)%nat -> exists j, jr_ctor (nth i l ""%string) = Ret j /\ nth i bs b0 = jr_body newton j.
Proof.
  induction l as [|n l IH]; intros bs; cbn [all_bodies]; [intros [= <-]; split; [reflexivity|cbn; lia]|]. unfold jpl_body. destruct (jr_ctor n) as [j| |] eqn:E; cbn [bind]; try discriminate.
  destruct (all_bodies newton l) as [r| |] eqn:F; cbn [bind]; try discriminate. intros [= <-]. destruct (IH r eq_refl) as [A B]. split; [cbn [List.length]; lia|]. intros [|i] Hi; [exists j; split; [exact E|reflexivity]|]. apply B. cbn [List.length] in Hi. lia.
Qed.
Lemma seq_ret : exists bs, seq_cassini newton = Ret bs. Proof. eexists. reflexivity. Qed.
Lemma seq_nth bs : seq_cassini newton = Ret bs -> List.length bs = 6%nat /\ forall i, (i < 6)%nat -> exists j, jr_ctor (nth i cassini_names ""%string) = Ret j /\ nth i bs b0 = jr_body newton j.
Proof. apply bodies_nth. Qed.
Lemma seq_mu bs : seq_cassini newton = Ret bs -> forall b, In b bs -> b_muc b = mu_sun /\ 0 < b_mu b /\ 0 < b_safe b.
Proof.
  intros H b Hb. destruct (seq_nth bs H) as [L N]. apply (In_nth _ _ b0) in Hb. destruct Hb as [i [Hi <-]]. rewrite L in Hi. destruct (N i Hi) as [j [J ->]]. destruct (jr_ctor_inv _ j J) as [_ [_ [_ [_ [_ [_ [_ [M [S1 S2]]]]]]]]]. cbn [b_muc b_mu b_safe jr_body]. rewrite M. split; [reflexivity|]. split; lra.
Qed.
Definition legs_ok (tof : tofs) : Prop := match tof with TDirect l => List.length l = 5%nat /\ (forall p, In p l -> fst p <= snd p) | _ => True end.
Lemma cassini_ctor tof bs : seq_cassini newton = Ret bs -> legs_ok tof -> cassini_with newton tof = Ret (cassini_mga tof bs).
Proof.
  intros H LO. unfold cassini_with. rewrite H. cbn [bind]. apply ctor_accepts. destruct (seq_nth bs H) as [L _]. pose proof (seq_mu bs H) as SM.
  split; [intros E; rewrite E in L; discriminate|]. split; [intros b b' Hb Hb'; rewrite (proj1 (SM b Hb)), (proj1 (SM b' Hb')); reflexivity|].
  split; [unfold legs_ok in LO; destruct tof; [exact I|split; [lia|apply LO]|exact I]|]. cbn. repeat split; try lra. exists (98 / 100), 108950000. repeat split.
Qed.
Lemma cassini_legs tof bs : seq_cassini newton = Ret bs -> n_legs (cassini_mga tof bs) = 5%nat.
Proof. intros H. unfold n_legs. cbn [m_seq cassini_mga]. rewrite (proj1 (seq_nth bs H)). reflexivity. Qed.
Lemma cassini_ok tof bs : seq_cassini newton = Ret bs -> legs_ok tof -> mga_ok (cassini_mga tof bs).
Proof.
  intros H LO. destruct (seq_nth bs H) as [L _]. pose proof (seq_mu bs H) as SM. unfold mga_ok. rewrite (cassini_legs tof bs H). cbn [m_seq m_vinf m_tofs m_ins cassini_mga]. split; [lia|]. split; [lra|].
  assert (SN : forall i, (i < 6)%nat -> 0 < b_mu (nth i bs b0) /\ 0 < b_safe (nth i bs b0)) by (intros i Hi; apply SM, nth_In; lia).
  split; [intros i Hi; destruct (SN i ltac:(lia)); split; lra|]. split; [unfold legs_ok in LO; destruct tof; [exact I|apply LO|exact I]|]. split; [apply SN; lia|lra].
Qed.
(** durations within the bounds, for the three encodings *)
Definition durations_ok (T : list R) : Prop := List.length T = 5%nat /\ (forall t, In t T -> 0 < t) /\ total T <= 9270.
Lemma cassini_box tof bs x : seq_cassini newton = Ret bs -> tof = tofs_direct \/ tof = tofs_alpha \/ tof = tofs_eta -> in_box (get_bounds (cassini_mga tof bs)) x ->
  exists t0 T, durations (enc_of tof) x t0 T /\ durations_ok T /\ -1000 <= t0 <= 0.
Proof.
  intros H C B. assert (LO : match tof with TDirect l => List.length l = 5%nat | _ => True end) by (destruct C as [->|[->| ->]]; [reflexivity|exact I|exact I]).
  destruct (mga_box (cassini_mga tof bs) x) as [t0 [T [D [L [T0 Q]]]]]; [rewrite (cassini_legs tof bs H); lia|rewrite (cassini_legs tof bs H); exact LO|exact B|]. rewrite (cassini_legs tof bs H) in *. cbn [m_tofs m_t0 cassini_mga fst snd] in *.
  exists t0, T. split; [exact D|]. split; [|exact T0]. split; [exact L|]. destruct C as [->|[->| ->]]; cbn in Q.
  - destruct T as [|t1 [|t2 [|t3 [|t4 [|t5 [|t6 T]]]]]]; try discriminate. pose proof (Q 0%nat ltac:(lia)) as Q0. pose proof (Q 1%nat ltac:(lia)) as Q1. pose proof (Q 2%nat ltac:(lia)) as Q2. pose proof (Q 3%nat ltac:(lia)) as Q3. pose proof (Q 4%nat ltac:(lia)) as Q4. cbn in Q0, Q1, Q2, Q3, Q4. split; [|cbn [total]; lra]. cbn [In]. intros t Ht. intuition (subst; lra).
  - destruct Q as [Q1 Q2]. split; [apply Q2; lra|lra].
  - destruct (Q ltac:(lra)) as [Q1 Q2]. split; [exact Q1|lra].
Qed.
Lemma total_pos l : (forall t, In t l -> 0 < t) -> 0 <= total l.
Proof. induction l as [|a l IH]; intros H; cbn [total]; [lra|]. assert (0 < a) by (apply H; left; reflexivity). assert (0 <= total l) by (apply IH; intros t Ht; apply H; right; exact Ht). lra. Qed.
Lemma total_firstn l : (forall t, In t l -> 0 < t) -> forall i, 0 <= total (firstn i l) <= total l.
Proof.
  intros H i. revert l H. induction i as [|i IH]; intros l H; [cbn [firstn total]; pose proof (total_pos l H); lra|]. destruct l as [|a l]; cbn [firstn total]; [lra|]. assert (0 < a) by (apply H; left; reflexivity). destruct (IH l ltac:(intros t Ht; apply H; right; exact Ht)). lra.
Qed.
Lemma total_le l t : (forall t, In t l -> 0 < t) -> In t l -> t <= total l.
Proof.
  induction l as [|a l IH]; intros H []; cbn [total].
  - subst a. pose proof (total_pos l ltac:(intros u Hu; apply H; right; exact Hu)). lra.
  - assert (0 < a) by (apply H; left; reflexivity). assert (t <= total l) by (apply IH; [intros u Hu; apply H; right; exact Hu|assumption]). lra.
Qed.
Lemma name_unique s n el rate : In (n, el, rate) published -> str_ci s n -> JplModel.lower s = n.
Proof. intros H C. rewrite (JplProofs.str_lower_ci _ _ C). apply JplProofs.known_lower. unfold known_names. apply in_map_iff. exists (n, el, rate). split; [reflexivity|exact H]. Qed.
Lemma names_lower i : (i < 6)%nat -> JplModel.lower (nth i cassini_names ""%string) = nth i cassini_names ""%string.
Proof. intros H. do 6 (destruct i as [|i]; [reflexivity|]). lia. Qed.
Definition flyby_consts : list (R * R) := [(324859000000000, 6657200); (324859000000000, 6657200); (398600441800000, 7015800); (126686534000000000, 643428000)].
Lemma seq_consts bs : seq_cassini newton = Ret bs -> (forall i, (i < 4)%nat -> (b_mu (nth (S i) bs b0), b_safe (nth (S i) bs b0)) = nth i flyby_consts (0, 0)) /\ b_mu (nth 5 bs b0) = 37931187000000000.
Proof. intros H. injection H as <-. cbn [nth jr_body b_mu b_safe jr_self jr_safe]. split; [|reflexivity]. intros i Hi. do 4 (destruct i as [|i]; [cbn [nth flyby_consts b_mu b_safe jr_body jr_self jr_safe]; f_equal; lra|]). lia. Qed.
Theorem cassini_total tof : tof = tofs_direct \/ tof = tofs_alpha \/ tof = tofs_eta -> exists P, cassini_with newton tof = Ret P /\ mga_ok P /\ n_legs P = 5%nat /\
  m_tofs P = tof /\ m_vinf P = 3000 /\ m_ins P = Some (98 / 100, 108950000) /\ get_nobj P = 1%nat /\ common_mu P = mu_sun /\
  (forall i, (i < 4)%nat -> (b_mu (nth (S i) (m_seq P) b0), b_safe (nth (S i) (m_seq P) b0)) = nth i flyby_consts (0, 0)) /\ b_mu (nth 5 (m_seq P) b0) = 37931187000000000 /\
  forall x, in_box (get_bounds P) x -> exists t0 T pl, durations (enc_of tof) x t0 T /\ List.length T = 5%nat /\ -1000 <= t0 <= 0 /\ (forall t, In t T -> 0 < t) /\ total T <= 9270 /\
    (forall i, (i <= 5)%nat -> b_eph (nth i (m_seq P) b0) (date t0 T i) = Ret (Some (pl i)) /\
       exists el rate, In (nth i cassini_names ""%string, el, rate) published /\ on_published_orbit el rate (date t0 T i) (pl i)) /\
    (((exists i, (i < 5)%nat /\ vertical (fst (pl i)) (fst (pl (S i)))) /\ fitness P x = Throw DomainError) \/
     ((forall i, (i < 5)%nat -> ~ vertical (fst (pl i)) (fst (pl (S i)))) /\ exists dv, fitness P x = Ret [dv])).
Proof.
  intros C. destruct seq_ret as [bs H]. assert (LO : legs_ok tof). { destruct C as [->|[->| ->]]; [|exact I|exact I]. split; [reflexivity|]. cbn [In]. intros p Hp. intuition (subst; cbn [fst snd]; lra). }
  assert (CM : common_mu (cassini_mga tof bs) = mu_sun). { unfold common_mu. cbn [m_seq cassini_mga]. apply (proj1 (seq_mu bs H (hd b0 bs) ltac:(destruct bs; [discriminate|left; reflexivity]))). }
  destruct (seq_consts bs H) as [SC1 SC2].
  exists (cassini_mga tof bs). split; [apply cassini_ctor; assumption|]. split; [apply cassini_ok; assumption|]. split; [apply cassini_legs, H|]. split; [reflexivity|]. split; [reflexivity|]. split; [reflexivity|]. split; [reflexivity|]. split; [exact CM|]. split; [exact SC1|]. split; [exact SC2|]. intros x B.
  destruct (cassini_box tof bs x H C B) as [t0 [T [D [[L [TP TT]] T0]]]]. destruct (seq_nth bs H) as [LB N].
  assert (DB : forall i, -1000 <= date t0 T i <= 9270) by (intros i; unfold date; pose proof (total_firstn T TP i); lra).
  assert (EP : forall i, (i <= 5)%nat -> exists st, b_eph (nth i bs b0) (date t0 T i) = Ret (Some st) /\ au / 5 < norm (fst st) /\ exists el rate, In (nth i cassini_names ""%string, el, rate) published /\ on_published_orbit el rate (date t0 T i) st).
  { intros i Hi. destruct (N i ltac:(lia)) as [j [J ->]]. cbn [b_eph jr_body]. destruct (jr_far newton NOK _ j (date t0 T i) J ltac:(specialize (DB i); lra)) as [st [E1 E2]].
    destruct (jr_in_window newton NOK _ j (date t0 T i) J ltac:(specialize (DB i); lra)) as [n [el [rate [st' [HI [SN [E3 [OP _]]]]]]]]. rewrite E1 in E3. assert (st' = st) by congruence. subst st'.
    exists st. split; [exact E1|]. split; [exact E2|]. exists el, rate. split; [|exact OP]. rewrite <- (names_lower i) by lia. rewrite (name_unique _ _ _ _ HI SN). exact HI. }
  set (pl := fun i => match b_eph (nth i bs b0) (date t0 T i) with Ret (Some st) => st | _ => (vzero, vzero) end).
  assert (PE : forall i, (i <= 5)%nat -> b_eph (nth i bs b0) (date t0 T i) = Ret (Some (pl i)) /\ au / 5 < norm (fst (pl i)) /\ exists el rate, In (nth i cassini_names ""%string, el, rate) published /\ on_published_orbit el rate (date t0 T i) (pl i)). { intros i Hi. destruct (EP i Hi) as [st [E1 [E2 E3]]]. unfold pl. rewrite E1. split; [reflexivity|]. split; [exact E2|exact E3]. }
  exists t0, T, pl. split; [exact D|]. split; [exact L|]. split; [exact T0|]. split; [exact TP|]. split; [exact TT|]. split; [intros i Hi; split; apply (PE i Hi)|].
  pose proof (cassini_legs tof bs H) as NL.
  destruct (fitness_total (cassini_mga tof bs) x t0 T pl) as [FT|[NV [l FR]]].
  - cbn [m_seq cassini_mga]. lia.
  - rewrite CM. unfold mu_sun. lra.
  - exact D.
  - rewrite NL. exact L.
  - rewrite NL. intros i Hi. apply (PE i Hi).
  - rewrite NL, CM. intros i Hi. apply leg_far; [apply PE; lia|apply PE; lia|]. assert (Hn : In (nth i T 0) T) by (apply nth_In; lia). split; [apply TP, Hn|]. pose proof (total_le T _ TP Hn). lra.
  - left. rewrite NL in FT. exact FT.
  - right. rewrite NL in NV. split; [exact NV|]. pose proof (fitness_shape _ _ _ FR) as SH. destruct l as [|dv [|? ?]]; try discriminate. exists dv. exact FR.
Qed.
(** the bounds *)
Lemma F2_cons (a b : R) l m : Forall2 Rle (a :: l) (b :: m) <-> a <= b /\ Forall2 Rle l m.
Proof. split; [intros H; inversion H; split; assumption|intros [A B]; constructor; assumption]. Qed.
Lemma F2_nil : Forall2 Rle [] [] <-> True. Proof. split; [intros _; exact I|constructor]. Qed.
Theorem cassini_bounds : exists P1 P2 P3, cassini1 newton = Ret P1 /\ cassini1_a newton = Ret P2 /\ cassini1_n newton = Ret P3 /\
  (forall t0 a b c d e, in_box (get_bounds P1) [t0; a; b; c; d; e] <-> -1000 <= t0 <= 0 /\ 30 <= a <= 400 /\ 100 <= b <= 470 /\ 30 <= c <= 400 /\ 400 <= d <= 2000 /\ 1000 <= e <= 6000) /\
  (forall t0 tof a b c d e, in_box (get_bounds P2) [t0; tof; a; b; c; d; e] <-> -1000 <= t0 <= 0 /\ 4000 <= tof <= 7000 /\ forall q, In q [a; b; c; d; e] -> 1 / 1000 <= q <= 999 / 1000) /\
  (forall t0 a b c d e, in_box (get_bounds P3) [t0; a; b; c; d; e] <-> -1000 <= t0 <= 0 /\ forall q, In q [a; b; c; d; e] -> 1 / 1000 <= q <= 999 / 1000) /\
  m_tofs P3 = TEta 7000 /\ (forall x, in_box (get_bounds P1) x \/ in_box (get_bounds P3) x -> List.length x = 6%nat) /\ (forall x, in_box (get_bounds P2) x -> List.length x = 7%nat).
Proof.
  destruct seq_ret as [bs H]. assert (L1 : legs_ok tofs_direct) by (split; [reflexivity|]; cbn [In]; intros p Hp; intuition (subst; cbn [fst snd]; lra)).
  exists (cassini_mga tofs_direct bs), (cassini_mga tofs_alpha bs), (cassini_mga tofs_eta bs). split; [apply cassini_ctor; [exact H|exact L1]|]. split; [apply cassini_ctor; [exact H|exact I]|]. split; [apply cassini_ctor; [exact H|exact I]|].
  assert (FL : forall l m, Forall2 Rle l m -> List.length l = List.length m) by (intros l m F; induction F; cbn [List.length]; congruence).
  unfold in_box, get_bounds. cbn [m_tofs m_t0 cassini_mga tofs_direct tofs_alpha tofs_eta]. rewrite !cassini_legs by exact H. cbn [fst snd app repeat map]. repeat setoid_rewrite F2_cons. repeat setoid_rewrite F2_nil.
  split; [intros; split; [intros [F G]|intros Q]; tauto|]. split; [|split; [|split; [reflexivity|split]]].
  - intros t0 tof a b c d e. split.
    + intros [F G]. split; [lra|]. split; [lra|]. cbn [In]. intros q Hq. intuition (subst; lra).
    + intros [Q0 [Q1 Q]]. pose proof (Q a ltac:(cbn; tauto)). pose proof (Q b ltac:(cbn; tauto)). pose proof (Q c ltac:(cbn; tauto)). pose proof (Q d ltac:(cbn; tauto)). pose proof (Q e ltac:(cbn; tauto)). repeat split; lra.
  - intros t0 a b c d e. split.
    + intros [F G]. split; [lra|]. cbn [In]. intros q Hq. intuition (subst; lra).
    + intros [Q0 Q]. pose proof (Q a ltac:(cbn; tauto)). pose proof (Q b ltac:(cbn; tauto)). pose proof (Q c ltac:(cbn; tauto)). pose proof (Q d ltac:(cbn; tauto)). pose proof (Q e ltac:(cbn; tauto)). repeat split; lra.
  - intros x [[F _]|[F _]]; apply FL in F; symmetry; exact F.
  - intros x [F _]. apply FL in F. symmetry. exact F.
Qed.
End Newton.
(** the name in get_extra_info is not defined *)
Lemma extra_info_fails {A} (builtins : string -> option A) (globals : list (string * A)) names head :
  map fst globals = module_globals -> builtins "_seq_cassini1"%string = None -> extra_info builtins globals names head = None.
Proof.
  intros G B. unfold extra_info, lookup. replace (find _ globals) with (@None (string * A)); [rewrite B; reflexivity|]. symmetry.
  destruct (find _ globals) as [p|] eqn:F; [|reflexivity]. apply find_some in F. destruct F as [I E]. apply String.eqb_eq in E. assert (M : In (fst p) module_globals) by (rewrite <- G; apply in_map, I). rewrite E in M. cbn in M. exfalso. intuition discriminate.
Qed.

(** ** concrete cases *)
Lemma solution_in_box newton : exists P, cassini1 newton = Ret P /\ in_box (get_bounds P) [-789; 158; 449; 54; 1024; 4552] /\ ~ in_box (get_bounds P) [-789; 158; 449; 54; 1024; 6552].
Proof.
  destruct (seq_ret newton) as [bs H]. exists (cassini_mga tofs_direct bs). split; [apply (cassini_ctor newton); [exact H|split; [reflexivity|]; cbn [In]; intros p Hp; intuition (subst; cbn [fst snd]; lra)]|]. unfold in_box. cbn. split.
  - split; repeat constructor; lra.
  - intros [_ B]. inversion_clear B as [|? ? ? ? _ B1]. inversion_clear B1 as [|? ? ? ? _ B2]. inversion_clear B2 as [|? ? ? ? _ B3]. inversion_clear B3 as [|? ? ? ? _ B4]. inversion_clear B4 as [|? ? ? ? _ B5]. inversion_clear B5 as [|? ? ? ? B6 _]. lra.
Qed.
