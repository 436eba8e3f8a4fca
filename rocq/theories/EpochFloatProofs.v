(** * Julian dates: monotonicity and round-trip accuracy in binary64 *)
From Coq Require Import ZArith Reals Lra Lia Psatz.
From Flocq Require Import Core.Core IEEE754.BinarySingleNaN Relative.
From Verif Require Import Outcome Float64 Float64Facts EpochModel EpochSpec EpochProofs.
Open Scope R_scope.

Definition DAY : R := IZR us_per_day.
Lemma DAY_val : DAY = 86400000000. Proof. reflexivity. Qed.

Lemma d_day : is_finite (d_of_Z us_per_day) = true /\ B2R (d_of_Z us_per_day) = DAY.
Proof. apply d_of_Z_exact. vm_compute. discriminate. Qed.

Lemma bpow_IZR e : (0 <= e)%Z -> bpow radix2 e = IZR (2 ^ e).
Proof. intros H. rewrite <- (IZR_Zpower radix2) by assumption. reflexivity. Qed.

Lemma Rabs_IZR_le n e : (0 <= e)%Z -> (Z.abs n <= 2 ^ e)%Z -> Rabs (IZR n) <= bpow radix2 e.
Proof. intros He H. rewrite <- abs_IZR, bpow_IZR by assumption. apply IZR_le. exact H. Qed.

Lemma int64_abs n : int64 n -> (Z.abs n <= 2 ^ 63)%Z.
Proof. unfold int64. lia. Qed.

Lemma days_of_us_correct n : int64 n ->
  is_finite (days_of_us n) = true /\ B2R (days_of_us n) = rnd (rnd (IZR n) / DAY).
Proof.
  intros Hn. pose proof (int64_abs n Hn) as Ha.
  destruct (d_of_Z_correct n) as [F1 V1].
  { apply Z.le_trans with (1 := Ha). apply Z.pow_le_mono_r; lia. }
  destruct d_day as [F2 V2].
  unfold days_of_us. rewrite <- V2, <- V1.
  apply ddiv_correct with (e := 63%Z).
  - lia.
  - exact F1.
  - rewrite V2, DAY_val. lra.
  - rewrite V2, V1, DAY_val. unfold Rdiv. rewrite Rabs_mult.
    assert (Rabs (rnd (IZR n)) <= bpow radix2 63).
    { apply rnd_abs_le_bpow; [lia|]. apply Rabs_IZR_le; [lia|exact Ha]. }
    rewrite (Rabs_pos_eq (/ 86400000000)) by lra.
    pose proof (bpow_ge_0 radix2 63). pose proof (Rabs_pos (rnd (IZR n))). nra.
Qed.

Theorem days_of_us_mono a b : int64 a -> int64 b -> (a <= b)%Z -> dleb (days_of_us a) (days_of_us b) = true.
Proof.
  intros Ha Hb Hab.
  destruct (days_of_us_correct a Ha) as [Fa Va]. destruct (days_of_us_correct b Hb) as [Fb Vb].
  apply dleb_R; [assumption..|]. rewrite Va, Vb.
  apply rnd_le. unfold Rdiv. apply Rmult_le_compat_r.
  - rewrite DAY_val. lra.
  - apply rnd_le. apply IZR_le. exact Hab.
Qed.

Lemma us_of_days_value x n : us_of_days x = Ret n ->
  is_finite x = true /\ is_finite (dmul x (d_of_Z us_per_day)) = true /\
  n = Ztrunc (B2R (dmul x (d_of_Z us_per_day))) /\ int64 n.
Proof.
  unfold us_of_days, d_to_i64. intros H. apply d_to_int_inv in H. destruct H as [F [V B]].
  split; [|split; [exact F|split; [exact V|exact B]]].
  destruct d_day as [F2 V2].
  unfold dmul in F. destruct x as [s|s| |s m e Hb]; try reflexivity.
  - exfalso. revert F. destruct (d_of_Z us_per_day) as [s'|s'| |s' m' e' Hb']; cbn; discriminate.
  - exfalso. revert F. destruct (d_of_Z us_per_day) as [s'|s'| |s' m' e' Hb']; cbn; discriminate.
Qed.

Lemma finite_dmul_value x y : is_finite x = true -> is_finite y = true -> is_finite (dmul x y) = true ->
  B2R (dmul x y) = rnd (B2R x * B2R y).
Proof.
  intros Fx Fy F. unfold dmul in *.
  pose proof (Bmult_correct prec64 emax64 _ _ mode_NE x y) as C.
  change (round_mode mode_NE) with ZnearestE in C. fold fexp64 in C.
  destruct (Rlt_bool (Rabs (round radix2 fexp64 ZnearestE (B2R x * B2R y))) (bpow radix2 emax64)) eqn:E.
  - destruct C as [C _]. exact C.
  - exfalso. rewrite <- is_finite_SF_B2SF in F. rewrite C in F. revert F.
    unfold binary_overflow. cbn. discriminate.
Qed.

Theorem us_of_days_mono x y n m : us_of_days x = Ret n -> us_of_days y = Ret m ->
  dleb x y = true -> (n <= m)%Z.
Proof.
  intros Hx Hy Hxy. destruct d_day as [F2 V2].
  apply us_of_days_value in Hx. destruct Hx as [Fx [Fmx [-> _]]].
  apply us_of_days_value in Hy. destruct Hy as [Fy [Fmy [-> _]]].
  apply dleb_R in Hxy; [|assumption..].
  apply Ztrunc_le.
  rewrite !finite_dmul_value by assumption. rewrite V2.
  apply rnd_le. apply Rmult_le_compat_r; [rewrite DAY_val; lra|exact Hxy].
Qed.

(** the double product used when rebuilding an epoch from its mjd2000 *)
Lemma rebuilt_product c : (0 < Z.abs c <= 2 ^ 62)%Z ->
  is_finite (dmul (days_of_us c) (d_of_Z us_per_day)) = true /\
  B2R (dmul (days_of_us c) (d_of_Z us_per_day)) = rnd (rnd (rnd (IZR c) / DAY) * DAY).
Proof.
  intros Hc.
  assert (H64 : int64 c) by (unfold int64; lia).
  destruct (days_of_us_correct c H64) as [F V]. destruct d_day as [F2 V2].
  destruct (dmul_correct (days_of_us c) (d_of_Z us_per_day) 100) as [F3 V3]; try assumption.
  - lia.
  - rewrite V, V2.
    rewrite Rabs_mult.
    assert (Rabs (rnd (rnd (IZR c) / DAY)) <= bpow radix2 62).
    { apply rnd_abs_le_bpow; [lia|]. unfold Rdiv. rewrite Rabs_mult.
      assert (Rabs (rnd (IZR c)) <= bpow radix2 62).
      { apply rnd_abs_le_bpow; [lia|]. apply Rabs_IZR_le; lia. }
      rewrite DAY_val. rewrite (Rabs_pos_eq (/ 86400000000)) by lra.
      pose proof (bpow_ge_0 radix2 62). pose proof (Rabs_pos (rnd (IZR c))). nra. }
    rewrite DAY_val. rewrite (Rabs_pos_eq 86400000000) by lra.
    apply Rle_trans with (bpow radix2 62 * bpow radix2 37).
    + apply Rmult_le_compat; [apply Rabs_pos|lra|assumption|].
      rewrite bpow_IZR by lia. apply IZR_le. vm_compute. discriminate.
    + rewrite <- bpow_plus. apply bpow_le. lia.
  - split; [exact F3|]. rewrite V3, V, V2. reflexivity.
Qed.

Lemma Rabs_c_div c : (1 <= Z.abs c)%Z -> bpow radix2 (-1022) <= Rabs (IZR c / DAY).
Proof.
  intros H. unfold Rdiv. rewrite Rabs_mult, <- abs_IZR.
  apply IZR_le in H. rewrite DAY_val, (Rabs_pos_eq (/ 86400000000)) by lra.
  apply Rle_trans with (bpow radix2 (-37)).
  - apply bpow_le. lia.
  - assert (bpow radix2 (-37) <= / 86400000000).
    { change (-37)%Z with (- (37))%Z. rewrite bpow_opp. apply Rinv_le; [lra|].
      rewrite bpow_IZR by lia. apply IZR_le. vm_compute. discriminate. }
    pose proof (bpow_ge_0 radix2 (-37)). nra.
Qed.

(** one rounding error only remains before the final rounding *)
Lemma quotient_times_day c : (1 <= Z.abs c)%Z ->
  exists eps, Rabs eps <= bpow radix2 (-53) /\ rnd (IZR c / DAY) * DAY = IZR c * (1 + eps).
Proof.
  intros H. destruct (rnd_rel _ (Rabs_c_div c H)) as [eps [He Hr]].
  exists eps. split; [exact He|]. rewrite Hr. unfold Rdiv. rewrite DAY_val. field.
Qed.

Lemma bp53 : bpow radix2 (-53) = / IZR (2 ^ 53).
Proof. change (-53)%Z with (- (53))%Z. rewrite bpow_opp, bpow_IZR by lia. reflexivity. Qed.

(** bounds of the rebuilt product, positive counts below 2^52 *)
Lemma rebuilt_bounds_pos c : (0 < c < 2 ^ 52)%Z ->
  IZR c - / 2 <= rnd (rnd (IZR c / DAY) * DAY) <= IZR c + / 2.
Proof.
  intros Hc. destruct (quotient_times_day c) as [eps [He Hq]]; [lia|]. rewrite Hq.
  assert (Hc1 : 0 < IZR c) by (apply IZR_lt; lia).
  assert (Hc2 : IZR c <= IZR (2 ^ 52)) by (apply IZR_le; lia).
  rewrite bp53 in He. apply Rabs_le_inv in He. destruct He as [He1 He2].
  assert (E : / IZR (2 ^ 53) * IZR (2 ^ 52) = / 2).
  { change (IZR (2 ^ 53)) with 9007199254740992. change (IZR (2 ^ 52)) with 4503599627370496. field. }
  assert (P : 0 < / IZR (2 ^ 53)).
  { apply Rinv_0_lt_compat. change (IZR (2 ^ 53)) with 9007199254740992. lra. }
  set (k := / IZR (2 ^ 53)) in *. set (P52 := IZR (2 ^ 52)) in *. clearbody k P52.
  split.
  - replace (IZR c - / 2) with (rnd (IZR c - / 2)).
    + apply rnd_le. nra.
    + apply rnd_gen. replace (IZR c - / 2) with (IZR (2 * c - 1) * bpow radix2 (-1)).
      * apply gen_Z; lia.
      * rewrite minus_IZR, mult_IZR. cbn. lra.
  - replace (IZR c + / 2) with (rnd (IZR c + / 2)).
    + apply rnd_le. nra.
    + apply rnd_gen. replace (IZR c + / 2) with (IZR (2 * c + 1) * bpow radix2 (-1)).
      * apply gen_Z; lia.
      * rewrite plus_IZR, mult_IZR. cbn. lra.
Qed.

Lemma rnd_opp x : rnd (- x) = - rnd x.
Proof. unfold rnd. apply round_NE_opp. Qed.

Lemma rebuilt_opp c : rnd (rnd (IZR (- c) / DAY) * DAY) = - rnd (rnd (IZR c / DAY) * DAY).
Proof.
  rewrite opp_IZR. replace (- IZR c / DAY) with (- (IZR c / DAY)) by (unfold Rdiv; lra).
  rewrite rnd_opp. replace (- rnd (IZR c / DAY) * DAY) with (- (rnd (IZR c / DAY) * DAY)) by lra.
  apply rnd_opp.
Qed.

Lemma Ztrunc_pos_bounds c x : (0 < c)%Z -> IZR c - / 2 <= x <= IZR c + / 2 -> (c - 1 <= Ztrunc x <= c)%Z.
Proof.
  intros Hc [H1 H2].
  assert (1 <= IZR c) by (apply IZR_le; lia).
  rewrite Ztrunc_floor by lra. split.
  - apply Zfloor_lub. rewrite minus_IZR. lra.
  - apply Zlt_succ_le. apply lt_IZR. unfold Z.succ. rewrite plus_IZR.
    apply Rle_lt_trans with x; [apply Zfloor_lb|lra].
Qed.

(** Rebuilding from mjd2000: the count is kept, or moves one microsecond towards zero. *)
Theorem us_of_days_round_trip c : (Z.abs c < 2 ^ 52)%Z ->
  exists c', us_of_days (days_of_us c) = Ret c' /\
    ((0 <= c -> c - 1 <= c' <= c) /\ (c <= 0 -> c <= c' <= c + 1))%Z.
Proof.
  intros Hc. destruct (Z.eq_dec c 0) as [->|Hnz].
  { exists 0%Z. split; [vm_compute; reflexivity|lia]. }
  destruct (rebuilt_product c) as [F V]; [lia|].
  rewrite (rnd_IZR c) in V by lia.
  destruct (Z.lt_trichotomy c 0) as [Hneg|[H0|Hpos]]; [|lia|].
  - pose proof (rebuilt_bounds_pos (- c)) as B. rewrite rebuilt_opp in B. rewrite opp_IZR in B.
    specialize (B ltac:(lia)).
    assert (T : (- c - 1 <= Ztrunc (- B2R (dmul (days_of_us c) (d_of_Z us_per_day))) <= - c)%Z).
    { apply Ztrunc_pos_bounds; [lia|]. rewrite V, opp_IZR. exact B. }
    rewrite Ztrunc_opp in T.
    exists (Ztrunc (B2R (dmul (days_of_us c) (d_of_Z us_per_day)))). split; [|lia].
    unfold us_of_days, d_to_i64. apply d_to_int_ret; [exact F|]. lia.
  - pose proof (rebuilt_bounds_pos c) as B. specialize (B ltac:(lia)).
    assert (T : (c - 1 <= Ztrunc (B2R (dmul (days_of_us c) (d_of_Z us_per_day))) <= c)%Z).
    { apply Ztrunc_pos_bounds; [lia|]. rewrite V. exact B. }
    exists (Ztrunc (B2R (dmul (days_of_us c) (d_of_Z us_per_day)))). split; [|lia].
    unfold us_of_days, d_to_i64. apply d_to_int_ret; [exact F|]. lia.
Qed.

(** between 2^52 and 2^53 microseconds: one microsecond either way *)
Lemma rebuilt_bounds_pos53 c : (0 < c < 2 ^ 53)%Z ->
  IZR c - 1 <= rnd (rnd (IZR c / DAY) * DAY) <= IZR c + 1.
Proof.
  intros Hc. destruct (quotient_times_day c) as [eps [He Hq]]; [lia|]. rewrite Hq.
  assert (Hc1 : 0 < IZR c) by (apply IZR_lt; lia).
  assert (Hc2 : IZR c <= IZR (2 ^ 53)) by (apply IZR_le; lia).
  rewrite bp53 in He. apply Rabs_le_inv in He. destruct He as [He1 He2].
  assert (E : / IZR (2 ^ 53) * IZR (2 ^ 53) = 1).
  { change (IZR (2 ^ 53)) with 9007199254740992. field. }
  assert (P : 0 < / IZR (2 ^ 53)).
  { apply Rinv_0_lt_compat. change (IZR (2 ^ 53)) with 9007199254740992. lra. }
  set (k := / IZR (2 ^ 53)) in *. set (P53 := IZR (2 ^ 53)) in *. clearbody k P53.
  split.
  - rewrite <- minus_IZR, <- (rnd_IZR (c - 1)) by lia. rewrite minus_IZR. apply rnd_le. nra.
  - rewrite <- plus_IZR, <- (rnd_IZR (c + 1)) by lia. rewrite plus_IZR. apply rnd_le. nra.
Qed.

Theorem us_of_days_round_trip53 c : (Z.abs c < 2 ^ 53)%Z ->
  exists c', us_of_days (days_of_us c) = Ret c' /\ (Z.abs (c' - c) <= 1)%Z.
Proof.
  intros Hc. destruct (Z.eq_dec c 0) as [->|Hnz].
  { exists 0%Z. split; [vm_compute; reflexivity|lia]. }
  destruct (rebuilt_product c) as [F V]; [lia|].
  rewrite (rnd_IZR c) in V by lia.
  assert (T : (Z.abs (Ztrunc (B2R (dmul (days_of_us c) (d_of_Z us_per_day))) - c) <= 1)%Z).
  { assert (HT : forall d x, (0 < d)%Z -> IZR d - 1 <= x <= IZR d + 1 -> (d - 1 <= Ztrunc x <= d + 1)%Z).
    { intros d x Hd [H1 H2]. assert (1 <= IZR d) by (apply IZR_le; lia).
      rewrite Ztrunc_floor by lra. split.
      - apply Zfloor_lub. rewrite minus_IZR. lra.
      - apply le_IZR. rewrite plus_IZR. apply Rle_trans with x; [apply Zfloor_lb|lra]. }
    destruct (Z.lt_trichotomy c 0) as [Hneg|[H0|Hpos]]; [|lia|].
    - pose proof (rebuilt_bounds_pos53 (- c)) as B. rewrite rebuilt_opp in B.
      specialize (B ltac:(lia)).
      assert (T := HT (- c)%Z (- B2R (dmul (days_of_us c) (d_of_Z us_per_day))) ltac:(lia)).
      rewrite V in T. specialize (T B). rewrite Ztrunc_opp in T. rewrite V. lia.
    - pose proof (rebuilt_bounds_pos53 c) as B. specialize (B ltac:(lia)).
      assert (T := HT c (B2R (dmul (days_of_us c) (d_of_Z us_per_day))) ltac:(lia)).
      rewrite V in T. specialize (T B). rewrite V. lia. }
  exists (Ztrunc (B2R (dmul (days_of_us c) (d_of_Z us_per_day)))). split; [|exact T].
  unfold us_of_days, d_to_i64. apply d_to_int_ret; [exact F|]. lia.
Qed.

(** ** Statements on epochs *)
Definition in_julian_range (off : Z) (e : epoch) : Prop :=
  int64 (m_tp e) /\ int64 (m_tp e - y2k_offset) /\ int64 (m_tp e - y2k_offset + off).

Definition offset_of (t : julian_type) : Z :=
  match t with MJD2000 => 0 | MJD => mjd_offset | JD => jd_offset | JBad => 0 end.

Lemma julian_of_value t e : t <> JBad -> in_julian_range (offset_of t) e ->
  julian_of t e = Ret (days_of_us (m_tp e - y2k_offset + offset_of t)).
Proof.
  intros Ht [H1 [H2 H3]]. destruct t; cbn [julian_of offset_of] in *; [| | |congruence].
  - unfold mjd2000, sub64. rewrite i64_ok by assumption. cbn [bind]. rewrite Z.add_0_r. reflexivity.
  - unfold mjd, sub64, add64. rewrite i64_ok by assumption. cbn [bind]. rewrite i64_ok by assumption. reflexivity.
  - unfold jd, sub64, add64. rewrite i64_ok by assumption. cbn [bind]. rewrite i64_ok by assumption. reflexivity.
Qed.

Theorem julian_mono t a b : t <> JBad -> in_julian_range (offset_of t) a -> in_julian_range (offset_of t) b ->
  (m_tp a <= m_tp b)%Z ->
  exists da db, julian_of t a = Ret da /\ julian_of t b = Ret db /\ is_finite da = true /\ is_finite db = true
                /\ dleb da db = true.
Proof.
  intros Ht Ha Hb Hab.
  exists (days_of_us (m_tp a - y2k_offset + offset_of t)), (days_of_us (m_tp b - y2k_offset + offset_of t)).
  rewrite !julian_of_value by assumption.
  destruct Ha as [_ [_ Ha]]. destruct Hb as [_ [_ Hb]].
  repeat split; try apply days_of_us_correct; try assumption.
  apply days_of_us_mono; try assumption. lia.
Qed.

Theorem julian_value t e : t <> JBad -> in_julian_range (offset_of t) e ->
  exists d, julian_of t e = Ret d /\ is_finite d = true /\
    B2R d = rnd (rnd (IZR (m_tp e - y2k_offset + offset_of t)) / DAY).
Proof.
  intros Ht Ha. exists (days_of_us (m_tp e - y2k_offset + offset_of t)).
  rewrite julian_of_value by assumption. split; [reflexivity|].
  apply days_of_us_correct. apply Ha.
Qed.

Theorem epoch_of_julian_mono t x y ex ey : epoch_of_julian x t = Ret ex -> epoch_of_julian y t = Ret ey ->
  dleb x y = true -> epoch_le ex ey = true.
Proof.
  intros Hx Hy Hxy. unfold epoch_le.
  assert (G : forall z ez, epoch_of_julian z t = Ret ez ->
           exists u, us_of_days z = Ret u /\ m_tp ez = (y2k + u - offset_of t)%Z).
  { intros z ez H. destruct t; cbn [epoch_of_julian offset_of] in *; unfold tp_from_days in H;
      destruct (us_of_days z) as [u| |] eqn:E; cbn [bind] in H; try discriminate; exists u; (split; [reflexivity|]);
      unfold add64, sub64 in H.
    - destruct (i64 (y2k + u)) as [tp| |] eqn:E1; cbn [bind] in H; try discriminate. inversion H.
      apply i64_ret in E1. destruct E1 as [-> _]. cbn [m_tp]. lia.
    - destruct (i64 (y2k + u)) as [tp| |] eqn:E1; cbn [bind] in H; try discriminate.
      apply i64_ret in E1. destruct E1 as [-> _].
      destruct (i64 (y2k + u - mjd_offset)) as [tp'| |] eqn:E2; cbn [bind] in H; try discriminate. inversion H.
      apply i64_ret in E2. destruct E2 as [-> _]. reflexivity.
    - destruct (i64 (y2k + u)) as [tp| |] eqn:E1; cbn [bind] in H; try discriminate.
      apply i64_ret in E1. destruct E1 as [-> _].
      destruct (i64 (y2k + u - jd_offset)) as [tp'| |] eqn:E2; cbn [bind] in H; try discriminate. inversion H.
      apply i64_ret in E2. destruct E2 as [-> _]. reflexivity. }
  destruct (G x ex Hx) as [ux [Ux Tx]]. destruct (G y ey Hy) as [uy [Uy Ty]].
  pose proof (us_of_days_mono _ _ _ _ Ux Uy Hxy). apply Z.leb_le. lia.
Qed.

(** Round trip through mjd2000 *)
Theorem mjd2000_round_trip e : int64 (m_tp e) -> (Z.abs (m_tp e - y2k_offset) < 2 ^ 52)%Z ->
  exists d e', mjd2000 e = Ret d /\ epoch_of_julian d MJD2000 = Ret e' /\
    ((y2k_offset <= m_tp e -> m_tp e - 1 <= m_tp e' <= m_tp e) /\
     (m_tp e <= y2k_offset -> m_tp e <= m_tp e' <= m_tp e + 1))%Z.
Proof.
  intros H64 Hc. set (c := (m_tp e - y2k_offset)%Z) in *.
  destruct (us_of_days_round_trip c Hc) as [c' [Hc' [Hp Hn]]].
  exists (days_of_us c), (mk_epoch (y2k + c')).
  unfold mjd2000, sub64. fold c. rewrite i64_ok by (unfold int64; lia). cbn [bind].
  split; [reflexivity|]. cbn [epoch_of_julian]. unfold tp_from_days, add64. rewrite Hc'. cbn [bind].
  rewrite i64_ok by (unfold int64, y2k, y2k_offset in *; lia). cbn [bind]. split; [reflexivity|].
  cbn [m_tp]. unfold y2k. lia.
Qed.

Theorem mjd2000_round_trip53 e : int64 (m_tp e) -> (Z.abs (m_tp e - y2k_offset) < 2 ^ 53)%Z ->
  exists d e', mjd2000 e = Ret d /\ epoch_of_julian d MJD2000 = Ret e' /\ (Z.abs (m_tp e' - m_tp e) <= 1)%Z.
Proof.
  intros H64 Hc. set (c := (m_tp e - y2k_offset)%Z) in *.
  destruct (us_of_days_round_trip53 c Hc) as [c' [Hc' Hp]].
  exists (days_of_us c), (mk_epoch (y2k + c')).
  unfold mjd2000, sub64. fold c. rewrite i64_ok by (unfold int64; lia). cbn [bind].
  split; [reflexivity|]. cbn [epoch_of_julian]. unfold tp_from_days, add64. rewrite Hc'. cbn [bind].
  rewrite i64_ok by (unfold int64, y2k, y2k_offset in *; lia). cbn [bind]. split; [reflexivity|].
  cbn [m_tp]. unfold y2k. lia.
Qed.

(** Accuracy of the accessors: two relative errors of at most 2^-53 each. *)
Theorem julian_accuracy t e : t <> JBad -> in_julian_range (offset_of t) e ->
  exists d e1 e2, julian_of t e = Ret d /\ is_finite d = true /\
    Rabs e1 <= bpow radix2 (-53) /\ Rabs e2 <= bpow radix2 (-53) /\
    B2R d = IZR (m_tp e - y2k_offset + offset_of t) / DAY * (1 + e1) * (1 + e2).
Proof.
  intros Ht Hr. destruct (julian_value t e Ht Hr) as [d [H1 [H2 H3]]].
  set (n := (m_tp e - y2k_offset + offset_of t)%Z) in *.
  destruct (Z.eq_dec n 0) as [Hz|Hnz].
  { exists d, 0, 0. rewrite Rabs_R0. pose proof (bpow_ge_0 radix2 (-53)).
    repeat (split; [assumption|]). rewrite H3, Hz. rewrite (rnd_IZR 0) by (vm_compute; discriminate).
    replace (0 / DAY) with 0 by (unfold Rdiv; lra). rewrite (rnd_IZR 0) by (vm_compute; discriminate). lra. }
  assert (Hn1 : 1 <= Rabs (IZR n)) by (rewrite <- abs_IZR; apply IZR_le; lia).
  assert (B0 : bpow radix2 (-1022) <= 1) by (change 1 with (bpow radix2 0); apply bpow_le; lia).
  destruct (rnd_rel (IZR n)) as [e1 [He1 E1]]; [lra|].
  assert (Hr1 : 1 <= Rabs (rnd (IZR n))).
  { destruct (Z.lt_trichotomy n 0) as [L|[L|L]]; [|lia|].
    - assert (rnd (IZR n) <= -1).
      { rewrite <- (rnd_IZR (-1)) by (vm_compute; discriminate). apply rnd_le. apply IZR_le. lia. }
      rewrite Rabs_left; lra.
    - assert (1 <= rnd (IZR n)).
      { rewrite <- (rnd_IZR 1) by (vm_compute; discriminate). apply rnd_le. apply IZR_le. lia. }
      rewrite Rabs_pos_eq; lra. }
  destruct (rnd_rel (rnd (IZR n) / DAY)) as [e2 [He2 E2]].
  { unfold Rdiv. rewrite Rabs_mult. rewrite DAY_val, (Rabs_pos_eq (/ 86400000000)) by lra.
    apply Rle_trans with (bpow radix2 (-37)); [apply bpow_le; lia|].
    assert (bpow radix2 (-37) <= / 86400000000).
    { change (-37)%Z with (- (37))%Z. rewrite bpow_opp. apply Rinv_le; [lra|].
      rewrite bpow_IZR by lia. apply IZR_le. vm_compute. discriminate. }
    pose proof (bpow_ge_0 radix2 (-37)). nra. }
  exists d, e1, e2. repeat (split; [assumption|]).
  rewrite H3, E2, E1. unfold Rdiv. ring.
Qed.

(** The constructor from a Julian date: where it is defined, and its value. *)
Theorem epoch_of_julian_value x t : t <> JBad -> is_finite x = true ->
  int64 (Ztrunc (rnd (B2R x * DAY))) -> Rabs (B2R x * DAY) <= bpow radix2 64 ->
  int64 (y2k + Ztrunc (rnd (B2R x * DAY))) ->
  int64 (y2k + Ztrunc (rnd (B2R x * DAY)) - offset_of t) ->
  epoch_of_julian x t = Ret (mk_epoch (y2k + Ztrunc (rnd (B2R x * DAY)) - offset_of t)).
Proof.
  intros Ht F H1 Hb H2 H3. destruct d_day as [Fd Vd].
  destruct (dmul_correct x (d_of_Z us_per_day) 64) as [Fm Vm]; [lia|assumption..| |].
  { rewrite Vd. exact Hb. }
  rewrite Vd in Vm.
  assert (U : us_of_days x = Ret (Ztrunc (rnd (B2R x * DAY)))).
  { unfold us_of_days, d_to_i64. rewrite <- Vm. apply d_to_int_ret; [exact Fm|]. rewrite Vm. exact H1. }
  destruct t; cbn [epoch_of_julian offset_of] in *; unfold tp_from_days, add64, sub64; rewrite ?U; cbn [bind];
    [| | |congruence]; rewrite i64_ok by assumption; cbn [bind]; rewrite ?i64_ok by assumption; cbn [bind]; f_equal; f_equal; lia.
Qed.

Theorem epoch_of_julian_nonfinite_ub x t : t <> JBad -> is_finite x = false -> epoch_of_julian x t = UB.
Proof.
  intros Ht F.
  assert (U : us_of_days x = UB).
  { destruct (us_of_days x) as [n|e|] eqn:E; [exfalso|exfalso|reflexivity].
    - apply us_of_days_value in E. destruct E as [E _]. congruence.
    - unfold us_of_days, d_to_i64, d_to_int in E. destruct (is_finite (dmul x (d_of_Z us_per_day))); [|discriminate].
      destruct (_ && _)%bool; discriminate. }
  destruct t; cbn [epoch_of_julian]; unfold tp_from_days; rewrite ?U; cbn [bind]; congruence.
Qed.
