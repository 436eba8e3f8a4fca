(** * Tours whose legs are in the range where the Lambert solver converges *)
From Coq Require Import Reals List ZArith Lra Lia Psatz.
From Verif Require Import Outcome PartialReal Vec3 RealLib KepModel KepSpec TwoBodySpec TwoBodyModel KplaModel LambertModel LambertReal LambertSpec LambertVec LambertProofs LambertTime LambertTof LambertMono LambertMain LambertConv LambertNear LambertRevsSpec LambertLong LambertShort LambertNormal MgaModel MgaSpec DirectSpec MgaFitModel MgaFitSpec MgaFitProofs MgaFitMain MgaTotal MgaRangeSpec.
Import ListNotations.
Open Scope R_scope.

Lemma range_iterations lam T : lam * lam < 1 -> 0 < T -> 100 * T <= 1 - lam * Rabs lam \/ Rabs lam <= 4 / 5 /\ acos lam + lam * sqrt (1 - lam * lam) <= T <= acos lam + lam * sqrt (1 - lam * lam) + 3 / 2 ->
  T <= 8 /\ exists x k, householder RA (Some lam) (Some T) (Some (start lam T 0)) 0 (Some (1 / 100000)) 15 = Ret (Some x, k) /\ -1 < x /\ x <> 1 /\ Rabs (tau lam 0 x - T) <= 4 / 100000000 * T.
Proof.
  intros LS TP [H|[HA H]].
  - destruct (short_householder lam LS T TP H) as [xs [x [k [_ [_ [E [X [_ R]]]]]]]]. split; [|exists x, k; split; [exact E|split; [lra|split; [lra|exact R]]]].
    destruct (cc_bd lam LS) as [[_ C1] _]. unfold cc in C1. lra.
  - assert (HL : lam * lam <= 16 / 25). { replace (lam * lam) with (Rabs lam * Rabs lam) by (rewrite <- Rabs_mult, Rabs_right by nra; reflexivity). pose proof (Rabs_pos lam). assert (Rabs lam * Rabs lam <= 4 / 5 * (4 / 5)) by (apply Rmult_le_compat; lra). lra. }
    destruct (normal_householder lam HL T H) as [xs [x [k [_ [_ [E [X [_ R]]]]]]]]. split; [|exists x, k; split; [exact E|split; [lra|split; [lra|lra]]]].
    pose proof (a_bd lam HL) as [A1 A2]. pose proof (m_bd lam HL) as [M1 M2]. unfold a0 in *. rewrite tau_at0 in *. pose proof PI_bd. destruct (Rle_dec 0 lam) as [C|C]; [specialize (A1 C); specialize (M1 C)|specialize (A2 ltac:(lra)); specialize (M2 ltac:(lra))]; lra.
Qed.
Lemma range_leg mu a b t : 0 < mu -> in_range mu a b t -> a <> vzero /\ b <> vzero /\ 0 < t /\ t / time_unit a b mu / PI < IZR u32 /\ converged (4 / 100000000 * t) a b t mu.
Proof.
  intros Hm [Hc [TP H]]. pose proof (time_unit_pos _ _ _ (lambert_nd _ _ Hc) Hm) as UP. pose proof (lam_small a b false Hc) as LS. destruct (range_iterations _ _ LS TP H) as [T8 [x [k [E [X [X1 R]]]]]]. set (u := time_unit a b mu) in *. set (lam := transfer_lambda a b false) in *.
  assert (ET : t / u * u = t) by (field; lra). assert (HT : 0 < t) by (rewrite <- ET; apply Rmult_lt_0_compat; lra).
  split; [intros ->; apply Hc; cbn; ring|]. split; [intros ->; apply Hc; cbn; ring|]. split; [exact HT|]. split.
  - pose proof PI2_3_2. apply (Rmult_lt_reg_r PI); [lra|]. replace (t / u / PI * PI) with (t / u) by (field; lra). unfold u32. change (2 ^ 32)%Z with 4294967296%Z. nra.
  - intros L x' HL HX. assert (M : (0 <= 0 < u32)%Z) by (unfold u32; lia). destruct (first_entry a b t mu false 0 L Hc M HL) as [x2 [k2 [HH [HX2 _]]]]. fold lam u in HH. rewrite E in HH. injection HH as <- <-. rewrite HX in HX2. injection HX2 as ->. fold lam u.
    split; [exact X|]. split; [exact X1|]. replace (tau lam 0 x * u - t) with ((tau lam 0 x - t / u) * u) by (field; lra). rewrite Rabs_mult, (Rabs_right u) by lra. rewrite <- ET at 2. rewrite <- Rmult_assoc. apply Rmult_le_compat_r; lra.
Qed.
(** every leg in range, its error at most [tol] *)
Lemma range_within tol P t0 T pl : 0 < common_mu P -> (forall i, (i <= n_legs P)%nat -> b_eph (nth i (m_seq P) b0) (date t0 T i) = Ret (Some (pl i))) ->
  (forall i, (i < n_legs P)%nat -> in_range (common_mu P) (fst (pl i)) (fst (pl (S i))) (nth i T 0 * 86400) /\ 4 / 100000000 * (nth i T 0 * 86400) <= tol) -> all_within tol P t0 T.
Proof.
  intros Hm HE HR i a b Hi A B. rewrite (HE i ltac:(lia)) in A. rewrite (HE (S i) ltac:(lia)) in B. injection A as <-. injection B as <-. destruct (HR i Hi) as [R0 R1]. destruct (range_leg _ _ _ _ Hm R0) as [_ [_ [_ [_ C]]]].
  intros L x HL HX. destruct (C L x HL HX) as [C1 [C2 C3]]. split; [exact C1|]. split; [exact C2|lra].
Qed.
Theorem range_fitness tol P x t0 T pl : mga_ok P -> 0 < common_mu P -> durations (enc_of (m_tofs P)) x t0 T -> length T = n_legs P ->
  (forall i, (i <= n_legs P)%nat -> b_eph (nth i (m_seq P) b0) (date t0 T i) = Ret (Some (pl i))) ->
  (forall i, (i < n_legs P)%nat -> in_range (common_mu P) (fst (pl i)) (fst (pl (S i))) (nth i T 0 * 86400) /\ 4 / 100000000 * (nth i T 0 * 86400) <= tol) ->
  exists l, fitness P x = Ret l /\ forall dv rest, l = Some dv :: rest ->
    (exists vo vi, tour (fun _ _ => tol) P t0 T pl vo vi /\ tour_cost P pl vo vi dv) /\ rest = (if m_multi P then [Some (total T)] else []).
Proof.
  intros OK Hm D LT HE HR. assert (L2 : (2 <= length (m_seq P))%nat) by apply OK. assert (AW : all_within tol P t0 T) by exact (range_within tol P t0 T pl Hm HE HR).
  assert (LO : forall i, (i < n_legs P)%nat -> leg_ok (common_mu P) (fst (pl i)) (fst (pl (S i))) (nth i T 0)).
  { intros i Hi. destruct (HR i Hi) as [R0 _]. destruct (range_leg _ _ _ _ Hm R0) as [A [B [C [E _]]]]. split; [exact A|]. split; [exact B|]. split; [lra|exact E]. }
  destruct (fitness_total P x t0 T pl L2 Hm D LT HE LO) as [[[i [Hi [V0 _]]] _]|[_ [l HL]]]; [exfalso; destruct (HR i Hi) as [[R0 _] _]; exact (R0 V0)|].
  exists l. split; [exact HL|]. intros dv rest ->. destruct (mga_fitness tol P x t0 T dv rest OK D LT AW HL) as [[pl' [vo [vi [TR TC]]]] [ER _]]. split; [|exact ER]. exists vo, vi.
  assert (EQ : forall i, (i <= n_legs P)%nat -> pl' i = pl i). { intros i Hi. destruct TR as [TR _]. specialize (TR i Hi). rewrite (HE i Hi) in TR. injection TR as TR. symmetry. exact TR. }
  destruct TR as [TR1 TR2]. split; [split; [exact HE|]|].
  - intros i Hi. rewrite <- !EQ by lia. apply TR2. exact Hi.
  - assert (NP : (0 < n_legs P)%nat) by (unfold n_legs; lia). destruct TC as [dl [da [df [A [B [C [E F]]]]]]]. exists dl, da, df. rewrite (EQ 0%nat) in A by lia. rewrite (EQ (n_legs P)) in E by lia. split; [exact A|]. split; [|split; [exact C|split; [exact E|exact F]]].
    intros i Hi b. rewrite <- (EQ (S i)) by lia. apply B. exact Hi.
Qed.
Theorem range_planet newton tol P x t0 T pl : newton_sound newton -> mga_ok P -> 0 < common_mu P -> durations (enc_of (m_tofs P)) x t0 T -> length T = n_legs P ->
  (forall i, (i <= n_legs P)%nat -> b_eph (nth i (m_seq P) b0) (date t0 T i) = Ret (Some (pl i))) ->
  (forall i, (i < n_legs P)%nat -> in_range (common_mu P) (fst (pl i)) (fst (pl (S i))) (nth i T 0 * 86400) /\ 4 / 100000000 * (nth i T 0 * 86400) <= tol) ->
  forall dv rest, fitness P x = Ret (Some dv :: rest) -> exists eph vo vi, to_planet newton P x = Ret eph /\ tour_cost P pl vo vi dv /\
    forall i t r, (i < n_legs P)%nat -> date t0 T i < t <= date t0 T (S i) -> eph t = Ret r -> exists s, r = Some s /\ flow_at (common_mu P) (fst (pl i), vo i) ((t - date t0 T i) * 86400) s /\
      exists t', Rabs (t' - nth i T 0 * 86400) <= tol /\ flow_at (common_mu P) (fst (pl i), vo i) t' (fst (pl (S i)), vi i).
Proof.
  intros NS OK Hm D LT HE HR dv rest HF. assert (AW : all_within tol P t0 T) by exact (range_within tol P t0 T pl Hm HE HR).
  destruct (mga_planet newton tol P x t0 T dv rest NS OK D LT AW HF) as [eph [pl' [vo [vi [EP [TR [TC [_ [_ [IN _]]]]]]]]]]. exists eph, vo, vi. split; [exact EP|].
  assert (EQ : forall i, (i <= n_legs P)%nat -> pl' i = pl i). { intros i Hi. destruct TR as [TR _]. specialize (TR i Hi). rewrite (HE i Hi) in TR. injection TR as TR. symmetry. exact TR. }
  assert (L2 : (2 <= length (m_seq P))%nat) by apply OK. assert (NP : (0 < n_legs P)%nat) by (unfold n_legs; lia). split.
  - destruct TC as [dl [da [df [A [B [C [E F]]]]]]]. exists dl, da, df. rewrite (EQ 0%nat) in A by lia. rewrite (EQ (n_legs P)) in E by lia. split; [exact A|]. split; [|split; [exact C|split; [exact E|exact F]]].
    intros i Hi b. rewrite <- (EQ (S i)) by lia. apply B. exact Hi.
  - intros i t r Hi Ht Hr. destruct (IN i t r Hi Ht Hr) as [s [-> [FL _]]]. rewrite (EQ i) in FL by lia. exists s. split; [reflexivity|]. split; [exact FL|].
    destruct TR as [_ TR]. destruct (TR i Hi) as [_ [_ [t' [F' [B' _]]]]]. rewrite !EQ in F' by lia. exists t'. split; [exact B'|exact F'].
Qed.
(** one leg between planets that stand still, (25, 0, 0) to (7, 24, 0), mu = 32000, in two seconds *)
Definition still (r : vec) : body := mk_body (fun _ => Ret (Some (r, vzero))) 32000 1 1.
Definition one_leg : mga := mk_mga [still ex_r0; still ex_r1] (0, 1) (TDirect [(0, 1)]) 0 false None.
Lemma one_leg_range : in_range 32000 ex_r0 ex_r1 2.
Proof.
  assert (HL : 1 / 2 * (1 / 2) <= 16 / 25) by lra. destruct (a_bd (1 / 2) HL) as [AB _]. specialize (AB ltac:(lra)). unfold a0 in AB. rewrite tau_at0 in AB. pose proof PI_bd.
  split; [rewrite ex_cross; lra|]. rewrite ex_unit, ex_lambda. split; [lra|]. right. rewrite Rabs_right by lra. split; lra.
Qed.
Lemma one_leg_example : mga_ok one_leg /\ durations (enc_of (m_tofs one_leg)) [0; 2 / 86400] 0 [2 / 86400] /\ in_range 32000 ex_r0 ex_r1 (2 / 86400 * 86400) /\ exists dv, fitness one_leg [0; 2 / 86400] = Ret [Some dv].
Proof.
  split; [|split; [reflexivity|split]].
  - unfold mga_ok, one_leg, n_legs; cbn. split; [lia|]. split; [lra|]. split; [intros; lia|]. split; [reflexivity|exact I].
  - replace (2 / 86400 * 86400) with 2 by field. exact one_leg_range.
  - destruct ex_normal as [L [v0 [v1 [t [A [B [C _]]]]]]]. unfold lambert_r in A.
    unfold fitness, compute_dvs. cbn [one_leg m_tofs enc_of]. change (n_legs one_leg) with 1%nat. cbn [decode_tofs bind nan_tofs tl cumsum]. change (common_mu one_leg) with 32000. change (m_seq one_leg) with [still ex_r0; still ex_r1]. cbn [all_eph still b_eph bind all_lambert pos3 fst].
    replace (2 / 86400 * day2sec) with 2 by (unfold day2sec; field). rewrite A. cbn [bind].
    destruct (l_v0 L) as [|w0 l0]; [discriminate|]. destruct (l_v1 L) as [|w1 l1]; [discriminate|]. cbn in B, C. injection B as ->. injection C as ->.
    cbn [all_lambert bind]. cbn. eexists. reflexivity.
Qed.
(** the same leg in 40000 seconds *)
Theorem long_tour : exists P x t pl v, mga_ok P /\ in_box (get_bounds P) x /\ durations (enc_of (m_tofs P)) x 0 [t] /\
  (forall i, (i <= n_legs P)%nat -> b_eph (nth i (m_seq P) b0) (date 0 [t] i) = Ret (Some (pl i))) /\
  LambertRevsSpec.transfer (common_mu P) (fst (pl 0%nat)) (fst (pl 1%nat)) (t * 86400) false 0 v /\ fitness P x = Ret [None].
Proof.
  destruct (ex_long_runs 40000 ltac:(lra)) as [L HL]. destruct (ex_long_direct 40000 ltac:(lra)) as [v HV]. assert (Hc : vz (cross ex_r0 ex_r1) <> 0) by (rewrite ex_cross; lra).
  destruct (long_lost_nan ex_r0 ex_r1 40000 32000 false 0 L Hc ltac:(unfold u32; lia) HL ltac:(rewrite ex_unit; lra)) as [A [B _]].
  exists one_leg, [0; 40000 / 86400], (40000 / 86400), (fun i => (match i with O => ex_r0 | _ => ex_r1 end, vzero)), v. split; [apply one_leg_example|]. split; [|split; [reflexivity|split; [|split]]].
  - unfold in_box. cbn. repeat constructor; lra.
  - intros [|[|i]] Hi; [reflexivity|reflexivity|unfold n_legs in Hi; cbn in Hi; lia].
  - cbn [fst]. change (common_mu one_leg) with 32000. replace (40000 / 86400 * 86400) with 40000 by field. exact HV.
  - unfold lambert_r in HL. unfold fitness, compute_dvs. cbn [one_leg m_tofs enc_of]. change (n_legs one_leg) with 1%nat. cbn [decode_tofs bind nan_tofs tl cumsum]. change (common_mu one_leg) with 32000. change (m_seq one_leg) with [still ex_r0; still ex_r1]. cbn [all_eph still b_eph bind all_lambert pos3 fst].
    replace (40000 / 86400 * day2sec) with 40000 by (unfold day2sec; field). rewrite HL. cbn [bind].
    destruct (l_v0 L) as [|w0 l0]; [discriminate|]. destruct (l_v1 L) as [|w1 l1]; [discriminate|]. cbn in A, B. injection A as ->. injection B as ->. reflexivity.
Qed.
