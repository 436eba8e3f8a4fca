(** * Proofs about the SGP4 and SPICE planets *)
From Coq Require Import ZArith Reals List Bool String Lia Lra Psatz.
From Flocq Require Import Core.Core IEEE754.BinarySingleNaN.
From Verif Require Import Outcome Float64 Float64Facts FloatBounds JplModel JplProofs EpochModel EpochProofs PlanetModel PyPlanetModel PyPlanetSpec PyPlanetProofs ConstModel PyEphModel PyEphSpec.
Import ListNotations.
Open Scope R_scope.

Lemma jd2000_val : fin jd2000 /\ B2R jd2000 = 2451544.5.
Proof. unfold jd2000. destruct (dyadic_val 4903089 (-1) ltac:(lia) ltac:(lia)) as [F E]. split; [exact F|]. rewrite E. cbn. lra. Qed.
Lemma dhalf_val : fin dhalf /\ B2R dhalf = 1 / 2.
Proof. unfold dhalf. destruct (dyadic_val 1 (-1) ltac:(lia) ltac:(lia)) as [F E]. split; [exact F|]. rewrite E. cbn. lra. Qed.
Lemma day_val : fin c_DAY2SEC /\ B2R c_DAY2SEC = 86400.
Proof. apply d_of_Z_exact. lia. Qed.

(** the fractional part of a double is a double *)
Lemma frac_gen (x : double) : fin x -> generic_format radix2 fexp64 (B2R x - IZR (Ztrunc (B2R x))).
Proof.
  intros F. pose proof (generic_format_B2R prec64 emax64 x) as G. change (SpecFloat.fexp prec64 emax64) with fexp64 in G. set (y := B2R x) in *. clearbody y. clear F x.
  pose proof G as E. unfold generic_format in E. rewrite fexp64_FLT in E. set (m := Ztrunc (scaled_mantissa radix2 (FLT_exp (-1074) 53) y)) in E. set (e := cexp radix2 (FLT_exp (-1074) 53) y) in E.
  unfold F2R in E. cbn [Fnum Fexp] in E. assert (He : (-1074 <= e)%Z) by (unfold e, cexp, FLT_exp; lia).
  destruct (Z_le_gt_dec 0 e) as [P|N].
  - assert (Q : y = IZR (m * 2 ^ e)). { rewrite E at 1. rewrite mult_IZR. f_equal. rewrite <- IZR_Zpower by exact P. reflexivity. }
    rewrite Q, Ztrunc_IZR, Rminus_diag_eq by reflexivity. apply generic_format_0.
  - set (k := (- e)%Z). assert (Pk : IZR (2 ^ k) * p2 e = 1). { replace (IZR (2 ^ k)) with (p2 k) by (unfold k; rewrite <- IZR_Zpower by lia; reflexivity). rewrite <- bpow_plus. unfold k. replace (- e + e)%Z with 0%Z by lia. reflexivity. }
    assert (Hm : (Z.abs m < 2 ^ 53)%Z).
    { apply lt_IZR. rewrite abs_IZR. assert (Ab : Rabs (IZR m) = Rabs (scaled_mantissa radix2 (FLT_exp (-1074) 53) y)).
      { unfold m. rewrite <- fexp64_FLT. rewrite (scaled_mantissa_generic radix2 fexp64 y G). rewrite Ztrunc_IZR. reflexivity. }
      rewrite Ab. pose proof (scaled_mantissa_lt_bpow radix2 (FLT_exp (-1074) 53) y) as B. eapply Rlt_le_trans; [exact B|].
      change (IZR (2 ^ 53)) with (p2 53). apply bpow_le. fold e. unfold e, cexp, FLT_exp. lia. }
    set (i := Ztrunc y). replace (y - IZR i) with (IZR (m - i * 2 ^ k) * p2 e).
    2:{ rewrite minus_IZR, mult_IZR. rewrite Rmult_minus_distr_r, Rmult_assoc, Pk. rewrite <- E. ring. }
    apply gen_Z; [exact He|]. assert (Ae : Rabs (y - IZR i) <= Rabs y).
    { unfold i. destruct (Rle_or_lt 0 y) as [Y|Y].
      - rewrite Ztrunc_floor by exact Y. pose proof (Zfloor_lb y). assert (0 <= IZR (Zfloor y)) by (apply IZR_le, Zfloor_lub; exact Y). rewrite !Rabs_right; lra.
      - rewrite Ztrunc_ceil by lra. pose proof (Zceil_ub y). assert (IZR (Zceil y) <= 0) by (apply IZR_le, Zceil_glb; lra). rewrite !Rabs_left1; lra. }
    apply le_IZR. rewrite abs_IZR. apply Rle_trans with (Rabs (IZR m)); [|rewrite <- abs_IZR; apply IZR_le; lia].
    assert (Pe : 0 < p2 e) by apply bpow_gt_0. apply (Rmult_le_reg_r (p2 e)); [exact Pe|].
    rewrite <- (Rabs_right (p2 e)) by lra. rewrite <- !Rabs_mult. rewrite <- E. replace (IZR (m - i * 2 ^ k) * p2 e) with (y - IZR i); [exact Ae|].
    rewrite minus_IZR, mult_IZR. rewrite Rmult_minus_distr_r, Rmult_assoc, Pk. rewrite <- E. ring.
Qed.
Lemma trunc_frac y : Rabs (y - IZR (Ztrunc y)) < 1 /\ (0 <= y -> 0 <= y - IZR (Ztrunc y) /\ (0 <= Ztrunc y)%Z).
Proof.
  destruct (Rle_or_lt 0 y) as [Y|Y].
  - rewrite Ztrunc_floor by exact Y. pose proof (Zfloor_lb y). pose proof (Zfloor_ub y). split; [rewrite Rabs_right; lra|]. intros _. split; [lra|apply Zfloor_lub; exact Y].
  - rewrite Ztrunc_ceil by lra. pose proof (Zceil_ub y). assert (IZR (Zceil y) < y + 1). { pose proof (Zceil_lb y). lra. } split; [rewrite Rabs_left1; lra|]. intros; lra.
Qed.
(** the date handed to sgp4 *)
Lemma tle_date_ok t : fin t -> Rabs (B2R t) <= p2 50 ->
  exists i fr, tle_date t = Ret (i, fr) /\ fin fr /\ fin (d_of_Z i) /\ B2R (d_of_Z i) = IZR i /\ (Z.abs i <= 2 ^ 51)%Z /\
    B2R (d_of_Z i) + B2R fr = rnd (julian (B2R t)) /\ Rabs (B2R fr) < 1 /\ (0 <= julian (B2R t) -> 0 <= B2R fr /\ (0 <= i)%Z).
Proof.
  intros F B. destruct jd2000_val as [Fj Vj]. assert (B50 : p2 50 = 1125899906842624) by (cbn; lra).
  assert (S : Rabs (B2R t + B2R jd2000) <= p2 51) by (rewrite Vj; assert (p2 51 = 2251799813685248) by (cbn; lra); apply Rabs_le_inv in B; apply Rabs_le; lra).
  destruct (dadd_ok t jd2000 51 ltac:(lia) F Fj S) as [F1 [V1 [_ B1]]]. set (jd := dadd t jd2000) in *.
  set (i := Ztrunc (B2R jd)). assert (Hi : (Z.abs i <= 2 ^ 51)%Z).
  { apply le_IZR. rewrite abs_IZR. unfold i. rewrite Ztrunc_abs || idtac. apply Rle_trans with (Rabs (B2R jd)); [|exact B1].
    destruct (Rle_or_lt 0 (B2R jd)) as [Y|Y].
    - rewrite Ztrunc_floor by exact Y. pose proof (Zfloor_lb (B2R jd)). assert (0 <= IZR (Zfloor (B2R jd))) by (apply IZR_le, Zfloor_lub; exact Y). rewrite !Rabs_right; lra.
    - rewrite Ztrunc_ceil by lra. pose proof (Zceil_ub (B2R jd)). assert (IZR (Zceil (B2R jd)) <= 0) by (apply IZR_le, Zceil_glb; lra). rewrite !Rabs_left1; lra. }
  destruct (d_of_Z_exact i ltac:(lia)) as [Fi Vi]. destruct (trunc_frac (B2R jd)) as [T1 T2]. fold i in T1, T2.
  assert (SB : Rabs (B2R jd - B2R (d_of_Z i)) <= p2 0) by (rewrite Vi; cbn; lra).
  destruct (dsub_ok jd (d_of_Z i) 0 ltac:(lia) F1 Fi SB) as [F2 [V2 _]].
  assert (V3 : B2R (dsub jd (d_of_Z i)) = B2R jd - IZR i). { rewrite V2, Vi. apply rnd_gen. apply (frac_gen jd F1). }
  exists i, (dsub jd (d_of_Z i)). split; [unfold tle_date; fold jd; unfold py_int; rewrite F1; cbn [bind]; rewrite Btrunc_Ztrunc; fold i; reflexivity|].
  split; [exact F2|]. split; [exact Fi|]. split; [exact Vi|]. split; [exact Hi|]. rewrite V3, Vi. split; [transitivity (B2R jd); [ring|rewrite V1, Vj; reflexivity]|].
  split; [exact T1|]. intros J. assert (0 <= B2R jd). { rewrite V1, Vj. rewrite <- (rnd_IZR 0) by lia. apply rnd_le. exact J. } exact (T2 H).
Qed.
Lemma tle_date_err t : fin t -> Rabs (julian (B2R t)) <= p2 22 ->
  exists i fr, tle_date t = Ret (i, fr) /\ Rabs (B2R (d_of_Z i) + B2R fr - julian (B2R t)) <= p2 (-31).
Proof.
  intros F B. assert (B50 : Rabs (B2R t) <= p2 50). { assert (p2 22 = 4194304) by (cbn; lra). assert (p2 50 = 1125899906842624) by (cbn; lra). unfold julian in B. apply Rabs_le_inv in B. apply Rabs_le. lra. }
  destruct (tle_date_ok t F B50) as [i [fr [E [_ [_ [_ [_ [S _]]]]]]]]. exists i, fr. split; [exact E|]. rewrite S. exact (rnd_err _ 22 ltac:(lia) B).
Qed.
Lemma mjd2000_ok e : near2000 e -> exists t, mjd2000 e = Ret t /\ fin t /\ Rabs (B2R t - days2000 e) <= p2 (-37) /\ Rabs (B2R t) <= 32768.
Proof.
  intros H. unfold near2000, days2000 in H. set (n := (m_tp e - y2k_offset)%Z). assert (En : IZR (m_tp e) - 946684800000000 = IZR n) by (unfold n; rewrite minus_IZR; reflexivity). rewrite En in H.
  assert (Hn : (Z.abs n <= 32768 * 86400000000)%Z). { apply le_IZR. rewrite abs_IZR. unfold Rdiv in H. rewrite Rabs_mult, (Rabs_right (/ 86400000000)) in H by lra. rewrite mult_IZR. lra. }
  assert (I : in64b n = true) by (unfold in64b; lia). destruct (d_of_Z_exact n ltac:(lia)) as [Fn Vn]. destruct (d_of_Z_exact us_per_day ltac:(unfold us_per_day; lia)) as [Fu Vu]. unfold us_per_day in Vu.
  assert (P15 : p2 15 = 32768) by (cbn; lra).
  assert (Q : Rabs (B2R (d_of_Z n) / B2R (d_of_Z us_per_day)) <= p2 15) by (unfold us_per_day; rewrite Vn, Vu, P15; exact H).
  destruct (ddiv_ok (d_of_Z n) (d_of_Z us_per_day) 15 ltac:(lia) Fn ltac:(unfold us_per_day; rewrite Vu; lra) Q) as [F [_ [Er Bd]]]. unfold us_per_day in Er. rewrite Vn, Vu in Er.
  exists (days_of_us n). split; [unfold mjd2000, sub64, i64; fold n; rewrite I; reflexivity|]. unfold days_of_us. split; [exact F|]. unfold days2000. rewrite En, P15 in *. unfold us_per_day in *. split; [|exact Bd].
  eapply Rle_trans; [exact Er|]. apply bpow_le. lia.
Qed.
Lemma p2_val k x : p2 k = x -> p2 k = x. Proof. trivial. Qed.
Lemma tle_epoch_ok e : near2000 e -> exists t i fr, mjd2000 e = Ret t /\ tle_date t = Ret (i, fr) /\ Rabs (B2R (d_of_Z i) + B2R fr - julian (days2000 e)) <= p2 (-31) + p2 (-37).
Proof.
  intros H. destruct (mjd2000_ok e H) as [t [E [F [Er Bd]]]]. assert (B : Rabs (julian (B2R t)) <= p2 22) by (unfold julian; assert (p2 22 = 4194304) by (cbn; lra); apply Rabs_le_inv in Bd; apply Rabs_le; lra).
  destruct (tle_date_err t F B) as [i [fr [E2 S]]]. exists t, i, fr. split; [exact E|]. split; [exact E2|].
  unfold julian in *. apply Rabs_le_inv in Er. apply Rabs_le_inv in S. apply Rabs_le. lra.
Qed.
Lemma mk_in64 a n : a = n -> in64b n = true -> (if in64b a then Ret a else UB) = Ret n.
Proof. intros -> ->. reflexivity. Qed.
(** distinct epochs, one date *)
Lemma tle_collision : exists a b ta tb, m_tp a <> m_tp b /\ near2000 a /\ near2000 b /\ mjd2000 a = Ret ta /\ mjd2000 b = Ret tb /\ ta <> tb /\ forall sgp4, tle_eph sgp4 ta = tle_eph sgp4 tb.
Proof.
  exists (mk_epoch y2k), (mk_epoch (y2k + 20)), (days_of_us 0), (days_of_us 20). split; [discriminate|].
  split; [unfold near2000, days2000; cbn [m_tp]; unfold y2k, y2k_offset; apply Rabs_le; lra|].
  split; [unfold near2000, days2000; cbn [m_tp]; rewrite plus_IZR; unfold y2k, y2k_offset; apply Rabs_le; lra|].
  split; [unfold mjd2000, sub64, i64; cbn [m_tp]; rewrite (mk_in64 (y2k - y2k_offset) 0 eq_refl eq_refl); reflexivity|].
  split; [unfold mjd2000, sub64, i64; cbn [m_tp]; rewrite (mk_in64 (y2k + 20 - y2k_offset) 20 eq_refl eq_refl); reflexivity|].
  split; [intros E; assert (D : B2SF (days_of_us 0) = B2SF (days_of_us 20)) by (rewrite E; reflexivity); vm_compute in D; discriminate|].
  assert (E : dadd (days_of_us 0) jd2000 = dadd (days_of_us 20) jd2000) by (apply B2SF_inj; vm_compute; reflexivity). intros sgp4. unfold tle_eph, tle_date. rewrite E. reflexivity.
Qed.
Lemma tle_nonfinite t sgp4 : is_finite t = false -> exists e, tle_eph sgp4 t = Throw e.
Proof. intros F. destruct t as [s|[]| |s m ex He]; try discriminate; unfold tle_eph, tle_date; eexists; cbn; reflexivity. Qed.

(** ** SPICE *)
Lemma p2_small : p2 (-38) = / 274877906944 /\ p2 (-21) = / 2097152 /\ p2 (-37) = / 137438953472.
Proof. repeat split; cbn; lra. Qed.
Lemma spice_time_ok t : fin t -> Rabs (B2R t) <= 32768 -> fin (spice_time t) /\ Rabs (B2R (spice_time t) - past_j2000 (B2R t)) <= 2 / 1000000.
Proof.
  intros F B. destruct dhalf_val as [Fh Vh]. destruct day_val as [Fd Vd]. destruct p2_small as [S1 [S2 S3]].
  assert (B1 : Rabs (B2R t - B2R dhalf) <= p2 16) by (rewrite Vh; assert (p2 16 = 65536) by (cbn; lra); apply Rabs_le_inv in B; apply Rabs_le; lra).
  destruct (dsub_ok t dhalf 16 ltac:(lia) F Fh B1) as [F1 [_ [E1 C1]]]. rewrite Vh in E1. change (16 - 53)%Z with (-37)%Z in E1.
  assert (G1 : Rabs (B2R (dsub t dhalf)) <= 32769) by (apply Rabs_le_inv in B; apply Rabs_le_inv in E1; apply Rabs_le; lra).
  assert (B2 : Rabs (B2R (dsub t dhalf) * B2R c_DAY2SEC) <= p2 32) by (rewrite Vd, Rabs_mult, (Rabs_right 86400) by lra; assert (p2 32 = 4294967296) by (cbn; lra); nra).
  destruct (dmul_ok _ c_DAY2SEC 32 ltac:(lia) F1 Fd B2) as [F2 [_ [E2 _]]]. rewrite Vd in E2. change (32 - 53)%Z with (-21)%Z in E2.
  split; [exact F2|]. unfold spice_time, past_j2000. apply Rabs_le_inv in E1. apply Rabs_le_inv in E2. apply Rabs_le. lra.
Qed.
Lemma spice_time_noon : B2R (spice_time dhalf) = 0.
Proof.
  destruct dhalf_val as [Fh Vh]. destruct day_val as [Fd Vd].
  destruct (dsub_ok dhalf dhalf 0 ltac:(lia) Fh Fh ltac:(rewrite Rminus_diag_eq, Rabs_R0 by reflexivity; apply bpow_ge_0)) as [F1 [V1 _]]. rewrite Rminus_diag_eq, (rnd_IZR 0 ltac:(lia)) in V1 by reflexivity.
  destruct (dmul_ok (dsub dhalf dhalf) c_DAY2SEC 0 ltac:(lia) F1 Fd ltac:(rewrite V1, Rmult_0_l, Rabs_R0; apply bpow_ge_0)) as [_ [V2 _]]. unfold spice_time. rewrite V2, V1, Rmult_0_l. exact (rnd_IZR 0 ltac:(lia)).
Qed.
Lemma spice_time_mono a b : fin a -> fin b -> Rabs (B2R a) <= 32768 -> Rabs (B2R b) <= 32768 -> B2R a <= B2R b -> B2R (spice_time a) <= B2R (spice_time b).
Proof.
  intros Fa Fb Ba Bb L. destruct dhalf_val as [Fh Vh]. destruct day_val as [Fd Vd].
  assert (G : forall t, fin t -> Rabs (B2R t) <= 32768 -> fin (dsub t dhalf) /\ B2R (dsub t dhalf) = rnd (B2R t - 1 / 2) /\ B2R (spice_time t) = rnd (rnd (B2R t - 1 / 2) * 86400)).
  { intros t F B. assert (B1 : Rabs (B2R t - B2R dhalf) <= p2 16) by (rewrite Vh; assert (p2 16 = 65536) by (cbn; lra); apply Rabs_le_inv in B; apply Rabs_le; lra).
    destruct (dsub_ok t dhalf 16 ltac:(lia) F Fh B1) as [F1 [V1 [_ C1]]]. assert (p2 16 = 65536) by (cbn; lra).
    assert (B2 : Rabs (B2R (dsub t dhalf) * B2R c_DAY2SEC) <= p2 33) by (rewrite Vd, Rabs_mult, (Rabs_right 86400) by lra; assert (p2 33 = 8589934592) by (cbn; lra); nra).
    destruct (dmul_ok _ c_DAY2SEC 33 ltac:(lia) F1 Fd B2) as [_ [V2 _]]. rewrite Vd, V1, Vh in V2. rewrite Vh in V1. split; [exact F1|]. split; [exact V1|exact V2]. }
  destruct (G a Fa Ba) as [_ [_ ->]]. destruct (G b Fb Bb) as [_ [_ ->]]. apply rnd_le. apply Rmult_le_compat_r; [lra|]. apply rnd_le. lra.
Qed.
Lemma half_day : epoch_days dhalf = Ret 43200000000%Z.
Proof. vm_compute. reflexivity. Qed.
Lemma rotation_time_ok ep : in64b (m_tp ep) = true -> Rabs (days2000 ep) <= 32767 -> exists s, rotation_time ep = Ret s /\ fin s /\ Rabs (B2R s - past_j2000 (days2000 ep)) <= 2 / 1000000.
Proof.
  intros I H. unfold rotation_time. rewrite half_day. cbn [bind]. unfold epoch_minus, sub64, i64.
  assert (N : (Z.abs (m_tp ep - 946684800000000) <= 32767 * 86400000000)%Z).
  { apply le_IZR. rewrite abs_IZR, minus_IZR, mult_IZR. unfold days2000, Rdiv in H. rewrite Rabs_mult, (Rabs_right (/ 86400000000)) in H by lra. lra. }
  assert (I2 : in64b (m_tp ep - 43200000000) = true) by (unfold in64b; lia). rewrite I2. cbn [bind]. set (e := epoch_of_tp (m_tp ep - 43200000000)).
  assert (D : days2000 e = days2000 ep - 1 / 2) by (unfold days2000, e; cbn [m_tp epoch_of_tp]; rewrite minus_IZR; lra).
  assert (Nr : near2000 e) by (unfold near2000; rewrite D; apply Rabs_le_inv in H; apply Rabs_le; lra).
  destruct (mjd2000_ok e Nr) as [t [E [F [Er Bd]]]]. rewrite E. cbn [bind]. exists (dmul t c_DAY2SEC). split; [reflexivity|].
  destruct day_val as [Fd Vd]. destruct p2_small as [S1 [S2 S3]].
  assert (B2 : Rabs (B2R t * B2R c_DAY2SEC) <= p2 32) by (rewrite Vd, Rabs_mult, (Rabs_right 86400) by lra; assert (p2 32 = 4294967296) by (cbn; lra); nra).
  destruct (dmul_ok t c_DAY2SEC 32 ltac:(lia) F Fd B2) as [F2 [_ [E2 _]]]. rewrite Vd in E2. change (32 - 53)%Z with (-21)%Z in E2. split; [exact F2|].
  unfold past_j2000. rewrite D in Er. apply Rabs_le_inv in Er. apply Rabs_le_inv in E2. apply Rabs_le. lra.
Qed.

(** ** tables *)
Lemma nth_error_same {A} : forall l r : list A, (forall i, nth_error l i = nth_error r i) -> l = r.
Proof.
  induction l as [|a l IH]; intros [|b r] H; [reflexivity|pose proof (H 0%nat); discriminate|pose proof (H 0%nat); discriminate|].
  pose proof (H 0%nat) as H0. injection H0 as ->. f_equal. apply IH. intros i. exact (H (S i)).
Qed.
Lemma Forall2_length {A B} (R : A -> B -> Prop) l r : Forall2 R l r -> List.length l = List.length r.
Proof. induction 1; cbn; congruence. Qed.
Lemma mapM_ok {A B} (f : A -> outcome B) : forall l r, mapM f l = Ret r <-> Forall2 (fun a b => f a = Ret b) l r.
Proof.
  induction l as [|a l IH]; intros r; cbn [mapM].
  - split; [intros [= <-]; constructor|intros H; inversion H; reflexivity].
  - split.
    + destruct (f a) as [b|e|] eqn:Ea; cbn [bind]; try discriminate. destruct (mapM f l) as [bs|e|] eqn:El; cbn [bind]; try discriminate. intros [= <-]. constructor; [exact Ea|]. apply IH. reflexivity.
    + intros H. inversion H as [|? b ? bs Hb Hbs]; subst. rewrite Hb. cbn [bind]. apply IH in Hbs. rewrite Hbs. reflexivity.
Qed.
Lemma row6_len s : List.length (row6 s) = 6%nat.
Proof. destruct s as [[[x y] z] [[u v] w]]. reflexivity. Qed.
Lemma chunk6_rows : forall ss, chunk6 (List.length ss) (List.concat (map row6 ss)) = Ret (map row6 ss).
Proof.
  induction ss as [|s ss IH]; [reflexivity|]. cbn [map List.concat List.length chunk6]. pose proof (row6_len s) as L.
  rewrite app_length, L. cbn [Nat.add Nat.ltb Nat.leb]. rewrite skipn_app, L, Nat.sub_diag, (skipn_all2 (row6 s)) by lia. cbn [app skipn].
  replace (Nat.ltb (6 + _) 6) with false || idtac. rewrite IH. cbn [bind]. rewrite firstn_app, L, Nat.sub_diag, firstn_O, app_nil_r, firstn_all2 by lia. reflexivity.
Qed.
Lemma table_F2 (f : double -> outcome posvel) ts : forall ss, Forall2 (fun t s => f t = Ret s) ts ss -> table_of f ts (map row6 ss).
Proof.
  intros ss H. split; [rewrite map_length; symmetry; exact (Forall2_length _ _ _ H)|]. induction H as [|t s ts ss Hs H IH]; intros i t' Hi; [destruct i; discriminate|].
  destruct i as [|i]; cbn [nth_error] in Hi.
  - injection Hi as <-. destruct s as [[[x y] z] [[u v] w]]. exists x, y, z, u, v, w. split; [exact Hs|reflexivity].
  - exact (IH i t' Hi).
Qed.
Lemma table_F2_inv (f : double -> outcome posvel) : forall ts tab, table_of f ts tab -> exists ss, Forall2 (fun t s => f t = Ret s) ts ss /\ tab = map row6 ss.
Proof.
  induction ts as [|t ts IH]; intros tab [L H].
  - destruct tab; [|discriminate]. exists []. split; [constructor|reflexivity].
  - destruct tab as [|r tab]; [discriminate|]. destruct (H 0%nat t eq_refl) as [x [y [z [u [v [w [E1 E2]]]]]]]. injection E2 as ->.
    destruct (IH tab) as [ss [F ->]]. { split; [injection L as L; exact L|]. intros i t' Hi. exact (H (S i) t' Hi). }
    exists (((x, y, z), (u, v, w)) :: ss). split; [constructor; assumption|reflexivity].
Qed.
Section Pla.
Variable ic2par : posvel -> double -> list double.
Variable f2m : double -> double -> double.
Variable par2eq : list double -> bool -> list double.
Variable two_pi : double.
Notation planet_of := (py_planet ic2par f2m par2eq two_pi).
Lemma spice_mapM spkezr ts : forall ss, mapM spkezr (map spice_time ts) = Ret ss -> Forall2 (fun t s => spice_eph spkezr t = Ret s) ts (map km_state ss).
Proof.
  induction ts as [|t ts IH]; intros ss; cbn [map mapM].
  - intros [= <-]. constructor.
  - destruct (spkezr (spice_time t)) as [s|e|] eqn:Es; cbn [bind]; try discriminate. destruct (mapM spkezr (map spice_time ts)) as [bs|e|]; cbn [bind]; try discriminate. intros [= <-].
    cbn [map]. constructor; [unfold spice_eph; rewrite Es; reflexivity|]. apply IH. reflexivity.
Qed.
Lemma spice_mapM_inv spkezr ts : forall rs, Forall2 (fun t s => spice_eph spkezr t = Ret s) ts rs -> exists ss, mapM spkezr (map spice_time ts) = Ret ss /\ rs = map km_state ss.
Proof.
  induction ts as [|t ts IH]; intros rs H; inversion H as [|? r ? rs' Hr Hrs]; subst.
  - exists []. split; reflexivity.
  - destruct (IH rs' Hrs) as [ss [E ->]]. unfold spice_eph in Hr. destruct (spkezr (spice_time t)) as [s|e|] eqn:Es; cbn [bind] in Hr; try discriminate. injection Hr as <-.
    exists (s :: ss). cbn [map mapM]. rewrite Es. cbn [bind]. rewrite E. split; reflexivity.
Qed.
Lemma spice_table spkezr fl c ty nm ex : exists p, planet_of (spice_obj spkezr fl c ty nm ex) = Ret p /\ forall ts tab, bind_eph_v p ts = Ret tab <-> table_of (spice_eph spkezr) ts tab.
Proof.
  exists (wrap ic2par f2m par2eq two_pi (spice_obj spkezr fl c ty nm ex)). split; [reflexivity|]. intros ts tab. unfold bind_eph_v, eph_v. cbn [u_eph_v wrap]. unfold w_eph_v. cbn [o_eph_v spice_obj callable_attribute]. unfold spice_eph_v. split.
  - destruct (mapM spkezr (map spice_time ts)) as [ss|e|] eqn:E; cbn [bind]; try discriminate. pose proof (spice_mapM spkezr ts ss E) as F2. rewrite (Forall2_length _ _ _ F2), chunk6_rows. intros [= <-]. apply table_F2. exact F2.
  - intros H. destruct (table_F2_inv _ _ _ H) as [rs [F2 ->]]. pose proof (Forall2_length _ _ _ F2) as L. destruct (spice_mapM_inv spkezr ts rs F2) as [ss [-> ->]]. cbn [bind]. rewrite L. apply chunk6_rows.
Qed.
(** the values the user stores are not those of the planet *)
Lemma spice_params spkezr fl c ty nm ex : exists p, planet_of (spice_obj spkezr fl c ty nm ex) = Ret p /\
  get_mu_central_body p = Ret (d_of_Z (-1)) /\ get_mu_self p = Ret (d_of_Z (-1)) /\ get_radius p = Ret (d_of_Z (-1)) /\ get_safe_radius p = Ret (d_of_Z (-1)).
Proof. eexists. split; [reflexivity|]. repeat split. Qed.

Lemma tle_F2 sgp4 ts : forall ds, mapM tle_date ts = Ret ds -> Forall2 (fun t s => tle_eph sgp4 t = Ret s) ts (map (fun d => km_state (sgp4 (d_of_Z (fst d)) (snd d))) ds).
Proof.
  intros ds H. apply mapM_ok in H. induction H as [|t d ts ds Hd H IH]; cbn [map]; constructor; [|exact IH]. unfold tle_eph. rewrite Hd. reflexivity.
Qed.
Definition array_of (sgp4 : double -> double -> posvel) (l1 l2 : list double) : list posvel := map (fun p => sgp4 (fst p) (snd p)) (combine l1 l2).
Lemma array_of_map sgp4 ds : map km_state (array_of sgp4 (map (fun d : Z * double => d_of_Z (fst d)) ds) (map snd ds)) = map (fun d => km_state (sgp4 (d_of_Z (fst d)) (snd d))) ds.
Proof. unfold array_of. induction ds as [|d ds IH]; [reflexivity|]. cbn [map combine fst snd]. rewrite IH. reflexivity. Qed.
Lemma tle_table sgp4 arr c ty nm ex : (forall l1 l2, List.length l1 = List.length l2 -> List.length (arr l1 l2) = List.length l1 /\ forall i a b, nth_error l1 i = Some a -> nth_error l2 i = Some b -> nth_error (arr l1 l2) i = Some (sgp4 a b)) ->
  exists p, planet_of (tle_obj sgp4 arr c ty nm ex) = Ret p /\ get_mu_central_body p = Ret c_MU_EARTH /\
    (forall ts tab, bind_eph_v p ts = Ret tab -> table_of (tle_eph sgp4) ts tab) /\
    (forall ts, List.Forall (fun t => finite t /\ Rabs (B2R t) <= bpow radix2 50) ts -> exists tab, bind_eph_v p ts = Ret tab).
Proof.
  intros A. assert (EA : forall ds : list (Z * double), arr (map (fun d => d_of_Z (fst d)) ds) (map snd ds) = array_of sgp4 (map (fun d => d_of_Z (fst d)) ds) (map snd ds)).
  { intros ds. apply nth_error_same. intros i. destruct (A (map (fun d => d_of_Z (fst d)) ds) (map snd ds)) as [L G]; [rewrite !map_length; reflexivity|]. rewrite map_length in L.
    destruct (nth_error ds i) as [d|] eqn:Ed.
    - rewrite (G i (d_of_Z (fst d)) (snd d)); [|apply (map_nth_error (fun d : Z * double => d_of_Z (fst d)) i ds Ed)|apply (map_nth_error snd i ds Ed)]. unfold array_of. symmetry.
      assert (C : forall (l : list (Z * double)) j e, nth_error l j = Some e -> nth_error (map (fun p => sgp4 (fst p) (snd p)) (combine (map (fun d => d_of_Z (fst d)) l) (map snd l))) j = Some (sgp4 (d_of_Z (fst e)) (snd e))).
      { induction l as [|x l IH]; intros [|j] e He; try discriminate; cbn in *; [injection He as <-; reflexivity|exact (IH j e He)]. }
      exact (C ds i d Ed).
    - apply nth_error_None in Ed. transitivity (@None posvel); [apply nth_error_None; lia|symmetry; apply nth_error_None]. unfold array_of. rewrite map_length, combine_length, !map_length. lia. }
  exists (wrap ic2par f2m par2eq two_pi (tle_obj sgp4 arr c ty nm ex)). split; [reflexivity|]. split; [reflexivity|].
  assert (U : forall ts, bind_eph_v (wrap ic2par f2m par2eq two_pi (tle_obj sgp4 arr c ty nm ex)) ts = bind (tle_eph_v arr ts) (fun r => chunk6 (List.length ts) r)) by reflexivity.
  assert (V0 : forall ts ds, mapM tle_date ts = Ret ds -> existsb (fun d => negb (in64b (fst d))) ds = false -> bind (tle_eph_v arr ts) (fun r => chunk6 (List.length ts) r) = Ret (map row6 (map (fun d => km_state (sgp4 (d_of_Z (fst d)) (snd d))) ds))).
  { intros ts ds E X. unfold tle_eph_v. rewrite E. cbn [bind]. rewrite X. cbn [bind]. rewrite EA, array_of_map. rewrite (Forall2_length _ _ _ (tle_F2 sgp4 ts ds E)). apply chunk6_rows. }
  split.
  - intros ts tab. rewrite U. destruct (mapM tle_date ts) as [ds|e|] eqn:E; [|unfold tle_eph_v; rewrite E; discriminate..].
    destruct (existsb (fun d => negb (in64b (fst d))) ds) eqn:X; [unfold tle_eph_v; rewrite E; cbn [bind]; rewrite X; discriminate|].
    rewrite (V0 ts ds E X). intros [= <-]. apply table_F2. exact (tle_F2 sgp4 ts ds E).
  - intros ts H. assert (M : exists ds, mapM tle_date ts = Ret ds /\ existsb (fun d => negb (in64b (fst d))) ds = false).
    { clear U V0. induction H as [|t ts [F B] H IH]; [exists []; split; reflexivity|]. destruct (tle_date_ok t F B) as [i [fr [E [_ [_ [_ [Bi _]]]]]]]. destruct IH as [ds [E2 X]].
      exists ((i, fr) :: ds). cbn [mapM]. rewrite E. cbn [bind]. rewrite E2. split; [reflexivity|]. cbn [existsb fst]. rewrite X. assert (in64b i = true) by (unfold in64b; lia). rewrite H0. reflexivity. }
    destruct M as [ds [E X]]. eexists. rewrite U. exact (V0 ts ds E X).
Qed.
End Pla.
Lemma km_si x : si x (km x).
Proof.
  intros k Hk F B. destruct (d_of_Z_exact 1000 ltac:(lia)) as [F1 V1]. unfold km.
  destruct (dmul_ok x (d_of_Z 1000) k ltac:(lia) F F1 ltac:(rewrite V1, Rmult_comm; exact B)) as [F2 [_ [E _]]]. rewrite V1, (Rmult_comm _ 1000) in E. split; [exact F2|exact E].
Qed.
Lemma km_state_si s : si_state s (km_state s).
Proof. destruct s as [[[x y] z] [[u v] w]]. cbn. repeat apply conj; apply km_si. Qed.
Lemma tle_state ic2par f2m par2eq two_pi sgp4 arr c ty nm ex e : near2000 e -> exists p i fr s,
  py_planet ic2par f2m par2eq two_pi (tle_obj sgp4 arr c ty nm ex) = Ret p /\ eph_epoch p e = Ret s /\ si_state (sgp4 (d_of_Z i) fr) s /\
  B2R (d_of_Z i) = IZR i /\ 0 <= B2R fr < 1 /\ Rabs (IZR i + B2R fr - julian (days2000 e)) <= bpow radix2 (-31) + bpow radix2 (-37).
Proof.
  intros H. destruct (mjd2000_ok e H) as [t [E [F [Er Bd]]]].
  assert (B : Rabs (julian (B2R t)) <= p2 22) by (unfold julian; assert (p2 22 = 4194304) by (cbn; lra); apply Rabs_le_inv in Bd; apply Rabs_le; lra).
  assert (B50 : Rabs (B2R t) <= p2 50) by (assert (p2 50 = 1125899906842624) by (cbn; lra); lra).
  destruct (tle_date_ok t F B50) as [i [fr [E2 [_ [_ [Vi [_ [S [T1 T2]]]]]]]]]. destruct T2 as [T2 _]; [unfold julian; apply Rabs_le_inv in Bd; lra|].
  exists (wrap ic2par f2m par2eq two_pi (tle_obj sgp4 arr c ty nm ex)), i, fr, (km_state (sgp4 (d_of_Z i) fr)). split; [reflexivity|].
  split; [unfold eph_epoch; rewrite E; cbn [bind]; change (tle_eph sgp4 t = Ret (km_state (sgp4 (d_of_Z i) fr))); unfold tle_eph; rewrite E2; reflexivity|].
  split; [apply km_state_si|]. split; [exact Vi|]. split; [split; [exact T2|apply Rabs_def2 in T1; lra]|].
  rewrite Vi in S. rewrite S. pose proof (rnd_err _ 22 ltac:(lia) B) as R. change (22 - 53)%Z with (-31)%Z in R. unfold julian in *. apply Rabs_le_inv in Er. apply Rabs_le_inv in R. apply Rabs_le. lra.
Qed.
Lemma spice_state ic2par f2m par2eq two_pi spkezr fl c ty nm ex e : near2000 e -> exists p s,
  py_planet ic2par f2m par2eq two_pi (spice_obj spkezr fl c ty nm ex) = Ret p /\ Rabs (B2R s - past_j2000 (days2000 e)) <= 3 / 1000000 /\
  (forall r, spkezr s = Ret r -> exists r', eph_epoch p e = Ret r' /\ si_state r r') /\ (forall x, spkezr s = Throw x -> eph_epoch p e = Throw x).
Proof.
  intros H. destruct (mjd2000_ok e H) as [t [E [F [Er Bd]]]]. destruct (spice_time_ok t F Bd) as [_ S]. destruct p2_small as [_ [_ S3]].
  exists (wrap ic2par f2m par2eq two_pi (spice_obj spkezr fl c ty nm ex)), (spice_time t). split; [reflexivity|].
  split; [unfold past_j2000 in *; apply Rabs_le_inv in S; apply Rabs_le_inv in Er; apply Rabs_le; lra|].
  assert (U : eph_epoch (wrap ic2par f2m par2eq two_pi (spice_obj spkezr fl c ty nm ex)) e = spice_eph spkezr t) by (unfold eph_epoch; rewrite E; reflexivity). rewrite U. unfold spice_eph.
  split; intros r Hr; rewrite Hr; cbn [bind]; [|reflexivity]. exists (km_state r). split; [reflexivity|apply km_state_si].
Qed.
Lemma tle_collision_epoch : exists a b, m_tp a <> m_tp b /\ near2000 a /\ near2000 b /\ (exists ta tb, mjd2000 a = Ret ta /\ mjd2000 b = Ret tb /\ ta <> tb) /\
  forall ic2par f2m par2eq two_pi sgp4 arr c ty nm ex, exists p, py_planet ic2par f2m par2eq two_pi (tle_obj sgp4 arr c ty nm ex) = Ret p /\ eph_epoch p a = eph_epoch p b.
Proof.
  destruct tle_collision as [a [b [ta [tb [H1 [H2 [H3 [H4 [H5 [H6 H7]]]]]]]]]]. exists a, b. split; [exact H1|]. split; [exact H2|]. split; [exact H3|]. split; [exists ta, tb; auto|].
  intros. eexists. split; [reflexivity|]. unfold eph_epoch. rewrite H4, H5. cbn [bind]. exact (H7 sgp4).
Qed.
Lemma spice_lost : exists fl, forall ic2par f2m par2eq two_pi spkezr c ty nm ex, exists p, py_planet ic2par f2m par2eq two_pi (spice_obj spkezr fl c ty nm ex) = Ret p /\
  get_mu_central_body p <> Ret (f_mu fl) /\ get_mu_self p <> Ret (f_mu_self fl) /\ get_radius p <> Ret (f_radius fl) /\ get_safe_radius p <> Ret (f_safe_radius fl).
Proof.
  exists (mk_sf done done done done). intros. destruct (spice_params ic2par f2m par2eq two_pi spkezr (mk_sf done done done done) c ty nm ex) as [p [E [A [B [C D]]]]]. exists p. split; [exact E|]. rewrite A, B, C, D. cbn [f_mu f_mu_self f_radius f_safe_radius].
  assert (N : Ret (d_of_Z (-1)) <> Ret done). { intros X. apply (f_equal (fun o : outcome double => match o with Ret d => B2SF d | _ => B2SF dzero end)) in X. vm_compute in X. discriminate. }
  repeat split; exact N.
Qed.
Lemma spice_no_period ic2par f2m par2eq two_pi spkezr fl c ty nm ex : exists p, py_planet ic2par f2m par2eq two_pi (spice_obj spkezr fl c ty nm ex) = Ret p /\ forall demangled t et, period demangled two_pi p t = Throw NotImplemented /\ elements demangled ic2par f2m par2eq p t et = Throw NotImplemented.
Proof. eexists. split; [reflexivity|]. intros. split; reflexivity. Qed.
